(** C73: min_noif and max_noif are the minimum and the maximum; the coordinate bounds are step functions up to TINYDOUBLE. *)
From Coq Require Import List Arith Bool Reals Lra Lia Psatz.
From Verif Require Import PyBase Inverter GRMetric BSSN T4munu GRHD.
Local Open Scope R_scope.

Lemma Rabs_cases : forall x, (0 <= x /\ Rabs x = x) \/ (x <= 0 /\ Rabs x = - x).
Proof. intros x. unfold Rabs. destruct (Rcase_abs x); [right | left]; split; lra. Qed.
Theorem C73_minimum : forall a b, min_noif a b = Rmin (aval a) (aval b) /\ max_noif a b = Rmax (aval a) (aval b).
Proof.
  intros a b. unfold Rmin, Rmax, min_noif, max_noif.
  destruct a as [| x], b as [| y]; cbn [aval]; destruct (Rle_dec _ _).
  - rewrite Rabs_R0. split; field.
  - exfalso. lra.
  - rewrite Rabs_right by lra. split; field.
  - rewrite Rabs_left by lra. split; field.
  - destruct (Rabs_cases x) as [[A ->] | [A ->]]; split; lra.
  - rewrite Rabs_right by lra. split; field.
  - rewrite Rabs_left1 by lra. split; field.
  - rewrite Rabs_right by lra. split; field.
Qed.

Section Step.
Variable T : R.
Hypothesis TP : 0 < T.
Ltac one := match goal with |- quot ?n ?d = Some 1 => unfold quot; destruct (Req_EM_T d 0); [exfalso; lra |]; f_equal;
  rewrite ?(proj1 (C73_minimum _ _)), ?(proj2 (C73_minimum _ _)); cbn [aval];
  rewrite ?Rmin_left, ?Rmax_left by lra; field; lra end.
Ltac nil := match goal with |- quot ?n ?d = Some 0 => unfold quot; destruct (Req_EM_T d 0); [exfalso; lra |]; f_equal;
  rewrite ?(proj1 (C73_minimum _ _)), ?(proj2 (C73_minimum _ _)); cbn [aval];
  rewrite ?Rmin_right, ?Rmax_right by lra; unfold Rdiv; ring end.
Ltac none := match goal with |- quot ?n ?d = None => unfold quot; destruct (Req_EM_T d 0); [reflexivity | exfalso; lra] end.
Lemma leq_spec : forall x s,
  (x <= s -> coord_leq_bound T x s = Some 1) /\ (s + T < x -> coord_leq_bound T x s = Some 0)
  /\ (s < x < s + T -> coord_leq_bound T x s = Some 1) /\ (x = s + T -> coord_leq_bound T x s = None).
Proof.
  intros x s. unfold coord_leq_bound. split; [| split; [| split]]; intros H; [one | nil | one | none].
Qed.
Lemma geq_spec : forall x s,
  (s <= x -> coord_geq_bound T x s = Some 1) /\ (x < s - T -> coord_geq_bound T x s = Some 0)
  /\ (s - T < x < s -> coord_geq_bound T x s = Some 1) /\ (x = s - T -> coord_geq_bound T x s = None).
Proof.
  intros x s. unfold coord_geq_bound. split; [| split; [| split]]; intros H; [one | nil | one | none].
Qed.
Lemma less_spec : forall x s,
  (x < s -> coord_less_bound T x s = Some (1 - T / (s - x + T))) /\ (s <= x -> x <> s + T -> coord_less_bound T x s = Some 0)
  /\ (x = s + T -> coord_less_bound T x s = None).
Proof.
  intros x s. unfold coord_less_bound. split; [| split].
  - intros H. unfold quot. destruct (Req_EM_T (x - s - T) 0); [exfalso; lra |]. f_equal.
    rewrite (proj1 (C73_minimum _ _)). cbn [aval]. rewrite Rmin_left by lra. field. lra.
  - intros H N. unfold quot. destruct (Req_EM_T (x - s - T) 0); [exfalso; lra |]. f_equal.
    rewrite (proj1 (C73_minimum _ _)). cbn [aval]. rewrite Rmin_right by lra. unfold Rdiv. ring.
  - intros H. none.
Qed.
Lemma greater_spec : forall x s,
  (s < x -> coord_greater_bound T x s = Some (1 - T / (x - s + T))) /\ (x <= s -> x <> s - T -> coord_greater_bound T x s = Some 0)
  /\ (x = s - T -> coord_greater_bound T x s = None).
Proof.
  intros x s. unfold coord_greater_bound. split; [| split].
  - intros H. unfold quot. destruct (Req_EM_T (x - s + T) 0); [exfalso; lra |]. f_equal.
    rewrite (proj2 (C73_minimum _ _)). cbn [aval]. rewrite Rmax_left by lra. field. lra.
  - intros H N. unfold quot. destruct (Req_EM_T (x - s + T) 0); [exfalso; lra |]. f_equal.
    rewrite (proj2 (C73_minimum _ _)). cbn [aval]. rewrite Rmax_right by lra. unfold Rdiv. ring.
  - intros H. none.
Qed.
End Step.

(** ** The bounds, for every positive TINYDOUBLE *)
(** 1 where the condition holds, exactly; 0 where it fails by more than TINYDOUBLE *)
Theorem C73_weak_bounds : forall T x s, 0 < T ->
  (x <= s -> coord_leq_bound T x s = Some 1) /\ (s + T < x -> coord_leq_bound T x s = Some 0)
  /\ (s <= x -> coord_geq_bound T x s = Some 1) /\ (x < s - T -> coord_geq_bound T x s = Some 0).
Proof.
  intros T x s H. destruct (leq_spec T H x s) as (A & B & _ & _). destruct (geq_spec T H x s) as (C & D & _ & _). tauto.
Qed.
(** 0 where the condition fails, except at one point; where it holds the value is below 1 by at most TINYDOUBLE over the
    distance to the bound *)
Theorem C73_strict_bounds : forall T x s, 0 < T ->
  (s <= x -> x <> s + T -> coord_less_bound T x s = Some 0) /\ (x <= s -> x <> s - T -> coord_greater_bound T x s = Some 0)
  /\ (x < s -> exists e, coord_less_bound T x s = Some (1 - e) /\ 0 < e < 1 /\ e < T / (s - x))
  /\ (s < x -> exists e, coord_greater_bound T x s = Some (1 - e) /\ 0 < e < 1 /\ e < T / (x - s)).
Proof.
  assert (K : forall T d, 0 < T -> 0 < d -> 0 < T / (d + T) < 1 /\ T / (d + T) < T / d).
  { intros T d HT Hd. split; [split |].
    - apply Rdiv_lt_0_compat; lra.
    - apply (Rmult_lt_reg_r (d + T)); [lra |]. unfold Rdiv. rewrite Rmult_assoc, Rinv_l by lra. lra.
    - unfold Rdiv. apply Rmult_lt_compat_l; [exact HT |]. apply Rinv_lt_contravar; [nra | lra]. }
  intros T x s H. destruct (less_spec T H x s) as (A & B & _). destruct (greater_spec T H x s) as (C & D & _).
  split; [exact B | split; [exact D | split]]; intros E.
  - exists (T / (s - x + T)). rewrite (A E). destruct (K T (s - x) H ltac:(lra)). auto.
  - exists (T / (x - s + T)). rewrite (C E). destruct (K T (x - s) H ltac:(lra)). auto.
Qed.
(** ** The documented values (1.0 if the condition holds, 0.0 otherwise) are not those of the code: each function divides 0
    by 0 at one point where the condition fails, the weak bounds are 1 just beyond the bound, and the strict bounds are
    never 1. *)
Theorem C73_step_refuted : forall T s, 0 < T ->
  coord_leq_bound T (s + T) s = None /\ coord_geq_bound T (s - T) s = None
  /\ coord_less_bound T (s + T) s = None /\ coord_greater_bound T (s - T) s = None
  /\ coord_leq_bound T (s + T / 2) s = Some 1 /\ coord_geq_bound T (s - T / 2) s = Some 1
  /\ coord_less_bound T (s - T) s = Some (1 / 2) /\ coord_greater_bound T (s + T) s = Some (1 / 2)
  /\ (forall x, coord_less_bound T x s <> Some 1) /\ (forall x, coord_greater_bound T x s <> Some 1).
Proof.
  intros T s H. repeat split.
  - now apply (leq_spec T H).
  - now apply (geq_spec T H).
  - now apply (less_spec T H).
  - now apply (greater_spec T H).
  - apply (leq_spec T H). lra.
  - apply (geq_spec T H). lra.
  - rewrite (proj1 (less_spec T H (s - T) s)) by lra. f_equal. field. lra.
  - rewrite (proj1 (greater_spec T H (s + T) s)) by lra. f_equal. field. lra.
  - intros x E. destruct (C73_strict_bounds T x s H) as (A & _ & C & _). destruct (Rlt_dec x s) as [L | L].
    + destruct (C L) as (e & E' & B & _). rewrite E in E'. assert (1 = 1 - e) by congruence. lra.
    + destruct (Req_EM_T x (s + T)) as [Q | Q].
      * rewrite (proj2 (proj2 (less_spec T H x s)) Q) in E. discriminate.
      * rewrite A in E by lra. assert (0 = 1) by congruence. lra.
  - intros x E. destruct (C73_strict_bounds T x s H) as (_ & A & _ & C). destruct (Rlt_dec s x) as [L | L].
    + destruct (C L) as (e & E' & B & _). rewrite E in E'. assert (1 = 1 - e) by congruence. lra.
    + destruct (Req_EM_T x (s - T)) as [Q | Q].
      * rewrite (proj2 (proj2 (greater_spec T H x s)) Q) in E. discriminate.
      * rewrite A in E by lra. assert (0 = 1) by congruence. lra.
Qed.

Example ex_C73_minimum : min_noif (Expr 3) (Expr (-2)) = -2 /\ max_noif (Expr 3) Zero = 3.
Proof.
  rewrite (proj1 (C73_minimum _ _)), (proj2 (C73_minimum _ _)). cbn [aval]. rewrite Rmin_right, Rmax_left by lra. split; reflexivity.
Qed.
Example ex_C73_bounds : coord_leq_bound (1 / 10) 1 1 = Some 1 /\ coord_leq_bound (1 / 10) 2 1 = Some 0
  /\ coord_less_bound (1 / 10) 1 1 = Some 0 /\ coord_less_bound (1 / 10) 0 1 = Some (10 / 11).
Proof.
  assert (H : 0 < 1 / 10) by lra. destruct (C73_weak_bounds _ 1 1 H) as (A & _). destruct (C73_weak_bounds _ 2 1 H) as (_ & B & _).
  destruct (C73_strict_bounds _ 1 1 H) as (C & _). rewrite A, B, C by lra.
  rewrite (proj1 (less_spec _ H 0 1)) by lra. repeat split. f_equal. field.
Qed.

Print Assumptions C73_minimum.
Print Assumptions C73_weak_bounds.
Print Assumptions C73_strict_bounds.
Print Assumptions C73_step_refuted.
