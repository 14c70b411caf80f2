(** Proofs about SimdLoop.v. *)
From Coq Require Import String Ascii List Arith ZArith Bool Lia Permutation Sorted.
From Verif Require Import PyBase PyBaseFacts Functional FunctionalFacts Loop LoopFacts SimdLoop.
Import ListNotations.
Open Scope list_scope.
Open Scope nat_scope.

(** ** Memory *)
Section Mem.
Variable V : Type.
Notation ev := (ev V).
Notation run := (run V).
Lemma run_app : forall mem l1 l2, run mem (l1 ++ l2) = run (run mem l1) l2.
Proof. intros. unfold SimdLoop.run. apply fold_left_app. Qed.
Lemma run_keeps : forall l mem a v, mem a = v -> (forall e, In e l -> fst e = a -> snd e = v) -> run mem l a = v.
Proof.
  induction l as [|e l IH]; intros mem a v M H; [exact M|]. change (run mem (e :: l)) with (run (store1 V mem e) l).
  apply IH; [|intros e' I; apply H; now right]. unfold store1. destruct (Z.eqb_spec a (fst e)) as [E|E]; [|exact M].
  apply H; [now left|now symmetry].
Qed.
Lemma run_hit : forall l mem a v, (exists e, In e l /\ fst e = a) -> (forall e, In e l -> fst e = a -> snd e = v) -> run mem l a = v.
Proof.
  induction l as [|e l IH]; intros mem a v [e0 [I E]] H; [destruct I|].
  change (run mem (e :: l)) with (run (store1 V mem e) l). destruct I as [->|I].
  - apply run_keeps; [|intros e' I; apply H; now right]. unfold store1. rewrite <- E, Z.eqb_refl. apply H; [now left|exact E].
  - apply IH; [exists e0; auto|intros e' I'; apply H; now right].
Qed.
Lemma run_misses : forall l mem a, (forall e, In e l -> fst e <> a) -> run mem l a = mem a.
Proof. intros. apply run_keeps; auto. intros e I E. exfalso. eapply H; eauto. Qed.
Definition at_ (a : Z) (e : ev) : bool := (fst e =? a)%Z.
Lemma run_filter : forall a l mem mem', mem a = mem' a -> run mem l a = run mem' (filter (at_ a) l) a.
Proof.
  intros a; induction l as [|e l IH]; intros mem mem' M; [exact M|]. cbn [filter]. unfold at_ at 1.
  change (run mem (e :: l)) with (run (store1 V mem e) l).
  destruct (Z.eqb_spec (fst e) a) as [E|E].
  - change (run mem' (e :: filter (at_ a) l)) with (run (store1 V mem' e) (filter (at_ a) l)).
    apply IH. unfold store1. rewrite E, Z.eqb_refl. reflexivity.
  - apply IH. unfold store1. destruct (Z.eqb_spec a (fst e)); [congruence|exact M].
Qed.

(** ** Interleavings of tasks *)
Inductive interleave {A : Type} : list (list A) -> list A -> Prop :=
| il_done : forall ts, Forall (fun t => t = []) ts -> interleave ts []
| il_step : forall a x t b l, interleave (a ++ t :: b) l -> interleave (a ++ (x :: t) :: b) (x :: l).

Lemma interleave_nil : forall (A : Type) (ts : list (list A)) l, interleave ts l -> interleave ([] :: ts) l.
Proof.
  intros A ts l H. induction H as [ts F|a x t b l H IH].
  - constructor. constructor; auto.
  - apply (il_step ([] :: a)). exact IH.
Qed.
Lemma interleave_app : forall (A : Type) (t : list A) ts l, interleave ts l -> interleave (t :: ts) (t ++ l).
Proof.
  intros A t ts l H. induction t as [|x t IH]; cbn [app]; [now apply interleave_nil|].
  apply (il_step [] x t ts). exact IH.
Qed.
Lemma interleave_concat : forall (A : Type) (ts : list (list A)), interleave ts (concat ts).
Proof.
  induction ts as [|t ts IH]; cbn [concat]; [constructor; constructor|]. now apply interleave_app.
Qed.
Lemma filter_none : forall (A : Type) (P : A -> bool) l, (forall x, In x l -> P x = false) -> filter P l = [].
Proof.
  induction l as [|x l IH]; intros H; [reflexivity|]. cbn [filter]. rewrite (H x) by now left. apply IH. intros; apply H; now right.
Qed.
Lemma interleave_in : forall (A : Type) (ts : list (list A)) l, interleave ts l ->
  forall x, In x l <-> exists t, In t ts /\ In x t.
Proof.
  intros A ts l H. induction H as [ts F|a x t b l H IH]; intros y.
  - split; [intros []|]. intros [t [I J]]. rewrite Forall_forall in F. rewrite (F t I) in J. destruct J.
  - split.
    + intros [<-|I].
      * exists (x :: t). split; [apply in_or_app; right; now left|now left].
      * apply IH in I as [t' [I J]]. apply in_app_or in I as [I|[<-|I]].
        -- exists t'. split; [apply in_or_app; now left|exact J].
        -- exists (x :: t). split; [apply in_or_app; right; now left|now right].
        -- exists t'. split; [apply in_or_app; right; now right|exact J].
    + intros [t' [I J]]. apply in_app_or in I as [I|[<-|I]].
      * right. apply IH. exists t'. split; [apply in_or_app; now left|exact J].
      * destruct J as [<-|J]; [now left|]. right. apply IH. exists t. split; [apply in_or_app; right; now left|exact J].
      * right. apply IH. exists t'. split; [apply in_or_app; right; now right|exact J].
Qed.
Lemma interleave_filter : forall (A : Type) (P : A -> bool) (ts : list (list A)) l, interleave ts l ->
  forall k, (forall j t x, j <> k -> nth_error ts j = Some t -> In x t -> P x = false) ->
  filter P l = filter P (nth k ts []).
Proof.
  intros A P ts l H. induction H as [ts F|a x t b l H IH]; intros k N.
  - cbn [filter]. rewrite Forall_forall in F. destruct (Nat.lt_ge_cases k (length ts)).
    + now rewrite (F (nth k ts [])) by now apply nth_In.
    + now rewrite nth_overflow by assumption.
  - assert (N' : forall j t0 x0, j <> k -> nth_error (a ++ t :: b) j = Some t0 -> In x0 t0 -> P x0 = false).
    { intros j t0 x0 J E I. destruct (Nat.lt_trichotomy j (length a)) as [L|[->|L]].
      - rewrite nth_error_app1 in E by exact L. apply (N j t0); auto. now rewrite nth_error_app1.
      - rewrite nth_error_app2, Nat.sub_diag in E by lia. injection E as <-. apply (N (length a) (x :: t)); auto.
        + now rewrite nth_error_app2, Nat.sub_diag by lia.
        + now right.
      - rewrite nth_error_app2 in E by lia. apply (N j t0); auto. rewrite nth_error_app2 by lia.
        destruct (j - length a) as [|q] eqn:Q; [lia|]. exact E. }
    specialize (IH k N'). cbn [filter]. destruct (Nat.eq_dec k (length a)) as [->|K].
    + rewrite app_nth2, Nat.sub_diag in IH |- * by lia. cbn [nth] in IH |- *. cbn [filter]. now rewrite IH.
    + rewrite (N (length a) (x :: t) x); [|congruence|now rewrite nth_error_app2, Nat.sub_diag by lia|now left].
      rewrite IH. destruct (Nat.lt_ge_cases k (length a)).
      * now rewrite !app_nth1 by assumption.
      * rewrite !app_nth2 by lia. destruct (k - length a) as [|q] eqn:Q; [lia|]. reflexivity.
Qed.
End Mem.

(** ** Products of lists *)
Definition lt3 (s t : Z * Z * Z) : Prop :=
  let '(a, b, c) := s in let '(a', b', c') := t in
  (a < a' \/ (a = a' /\ (b < b' \/ (b = b' /\ c < c'))))%Z.
Definition lt2 (s t : Z * Z) : Prop := let '(a, b) := s in let '(a', b') := t in (a < a' \/ (a = a' /\ b < b'))%Z.
Lemma ssorted_app : forall (A : Type) (R : A -> A -> Prop) l1 l2, StronglySorted R l1 -> StronglySorted R l2 ->
  (forall x y, In x l1 -> In y l2 -> R x y) -> StronglySorted R (l1 ++ l2).
Proof.
  intros A R l1; induction l1 as [|x l1 IH]; intros l2 H1 H2 H; [exact H2|]. inversion H1; subst. cbn [app]. constructor.
  - apply IH; auto. intros; apply H; [now right|auto].
  - apply Forall_app. split; auto. rewrite Forall_forall. intros y I. apply H; [now left|auto].
Qed.
Lemma ssorted_prod : forall (A B : Type) (R : A -> A -> Prop) (S : B -> B -> Prop) l1 l2,
  StronglySorted R l1 -> StronglySorted S l2 ->
  StronglySorted (fun p q => R (fst p) (fst q) \/ (fst p = fst q /\ S (snd p) (snd q))) (list_prod l1 l2).
Proof.
  intros A B R S l1 l2 H1 H2. induction H1 as [|x l1 H1 IH F]; cbn [list_prod]; [constructor|].
  apply ssorted_app; auto.
  - clear -H2. induction H2 as [|y l2 H2 IH F]; cbn [map]; constructor; auto. rewrite Forall_map. eapply Forall_impl; [|exact F].
    intros z Hz. right. auto.
  - intros p q P Q. apply in_map_iff in P as [y [<- _]]. destruct q as [u v]. apply in_prod_iff in Q as [U _].
    left. rewrite Forall_forall in F. apply F. exact U.
Qed.
Lemma ssorted_weaken : forall (A : Type) (R S : A -> A -> Prop) l, (forall x y, R x y -> S x y) ->
  StronglySorted R l -> StronglySorted S l.
Proof. intros A R S l H. induction 1; constructor; auto. eapply Forall_impl; [|eassumption]. auto. Qed.
Lemma ssorted_nodup : forall (A : Type) (R : A -> A -> Prop) l, (forall x, ~ R x x) -> StronglySorted R l -> NoDup l.
Proof.
  intros A R l I. induction 1 as [|x l H IH F]; constructor; auto. intros K. rewrite Forall_forall in F. apply (I x). auto.
Qed.
Lemma sorted3 : forall l2 l1 l0, StronglySorted Z.lt l2 -> StronglySorted Z.lt l1 -> StronglySorted Z.lt l0 ->
  StronglySorted lt3 (list_prod (list_prod l2 l1) l0).
Proof.
  intros. eapply ssorted_weaken; [|apply ssorted_prod; [apply ssorted_prod|]; eauto].
  intros [[a b] c] [[a' b'] c']. cbn. intros [[K|K]|[K1 K2]]; try (injection K1 as -> ->); tauto.
Qed.
Lemma nodup2 : forall l2 l1, StronglySorted Z.lt l2 -> StronglySorted Z.lt l1 -> NoDup (list_prod l2 l1).
Proof.
  intros. eapply ssorted_nodup; [|apply ssorted_prod; eauto]. intros [a b]. cbn. lia.
Qed.
Lemma nodup3 : forall l2 l1 l0, StronglySorted Z.lt l2 -> StronglySorted Z.lt l1 -> StronglySorted Z.lt l0 ->
  NoDup (list_prod (list_prod l2 l1) l0).
Proof. intros. eapply ssorted_nodup; [|apply sorted3; eauto]. intros [[a b] c]. cbn. lia. Qed.
Lemma cart3 : forall l2 l1 l0 : list Z,
  map (fun t => match t with [a; b; c] => (a, b, c) | _ => (0, 0, 0)%Z end) (cart [l2; l1; l0])
  = list_prod (list_prod l2 l1) l0.
Proof.
  intros l2 l1 l0. cbn [cart].
  assert (AP : forall (A B : Type) (x y : list A) (z : list B), list_prod (x ++ y) z = list_prod x z ++ list_prod y z).
  { induction x as [|u x IHx]; intros y z; [reflexivity|]. cbn [app list_prod]. now rewrite IHx, app_assoc. }
  assert (L0 : forall a b, map (fun t => match t with [a; b; c] => (a, b, c) | _ => (0, 0, 0)%Z end)
     (map (cons a) (map (cons b) (flat_map (fun x => map (cons x) [[]]) l0))) = map (fun c => (a, b, c)) l0).
  { intros a b. induction l0 as [|c l0 IH]; [reflexivity|]. cbn [flat_map map app]. f_equal. exact IH. }
  remember (flat_map (fun x => map (cons x) [[]]) l0) as q0 eqn:Q0. clear Q0.
  assert (L1 : forall a, map (fun t => match t with [a; b; c] => (a, b, c) | _ => (0, 0, 0)%Z end)
     (map (cons a) (flat_map (fun x => map (cons x) q0) l1))
     = list_prod (map (fun b => (a, b)) l1) l0).
  { intros a. induction l1 as [|b l1 IH]; [reflexivity|]. cbn [flat_map]. rewrite !map_app, L0, IH. reflexivity. }
  remember (flat_map (fun x => map (cons x) q0) l1) as q1 eqn:Q1. clear Q1.
  induction l2 as [|a l2 IH]; [reflexivity|]. cbn [flat_map list_prod]. rewrite map_app, L1, IH, AP. reflexivity.
Qed.

(** ** The box *)
Open Scope Z_scope.
Definition box_ok (x : box) : Prop :=
  forall k, (k < 3)%nat -> 0 <= b_lo x k /\ 0 <= b_n x k /\ b_lo x k + b_n x k <= b_N x k /\ 0 < b_N x k.
(** How far the last vector of a row goes past the last point of the row. *)
Definition spill (w : nat) (n : Z) : Z := (Z.of_nat w - n mod Z.of_nat w) mod Z.of_nat w.
Definition vec (x : box) (w : nat) (i0 : Z) : Prop :=
  (b_lo x 0 <= i0 < b_lo x 0 + b_n x 0) /\ (i0 - b_lo x 0) mod Z.of_nat w = 0.

Lemma spill_range : forall w n, (0 < w)%nat -> 0 <= spill w n < Z.of_nat w.
Proof. intros. apply Z.mod_pos_bound. lia. Qed.
Lemma spill_total : forall w n, (0 < w)%nat -> (n + spill w n) mod Z.of_nat w = 0.
Proof.
  intros w n W. unfold spill. rewrite Zplus_mod_idemp_r. set (u := Z.of_nat w). assert (0 < u) by (unfold u; lia).
  replace (n + (u - n mod u)) with ((n - n mod u) + 1 * u) by lia. rewrite Z_mod_plus_full.
  rewrite (Z.div_mod n u) at 1 by lia. replace (u * (n / u) + n mod u - n mod u) with ((n / u) * u) by lia. apply Z_mod_mult.
Qed.
Lemma spill_least : forall w n s, (0 < w)%nat -> 0 <= s -> (n + s) mod Z.of_nat w = 0 -> spill w n <= s.
Proof.
  intros w n s W S H. pose proof (spill_total w n W) as T. pose proof (spill_range w n W) as B.
  set (u := Z.of_nat w) in *. assert (0 < u) by lia.
  apply Z.mod_divide in H; [|lia]. apply Z.mod_divide in T; [|lia]. destruct H as [p P], T as [q Q]. destruct (Z_le_gt_dec q p); [nia|]. assert (u <= (q - p) * u) by nia. nia.
Qed.
Lemma lane_range : forall x w i0 l, (0 < w)%nat -> vec x w i0 -> 0 <= l < Z.of_nat w ->
  b_lo x 0 <= i0 + l < b_lo x 0 + b_n x 0 + spill w (b_n x 0).
Proof.
  intros x w i0 l W [B M] L. split; [lia|]. pose proof (spill_total w (b_n x 0) W) as T. pose proof (spill_range w (b_n x 0) W) as SR.
  set (u := Z.of_nat w) in *. apply Z.mod_divide in M; [|lia]. apply Z.mod_divide in T; [|lia].
  destruct M as [p P], T as [q Q]. assert (p < q) by nia. nia.
Qed.
Lemma cover : forall x w j, (0 < w)%nat -> b_lo x 0 <= j < b_lo x 0 + b_n x 0 ->
  exists i0 l, vec x w i0 /\ 0 <= l < Z.of_nat w /\ j = i0 + l.
Proof.
  intros x w j W B. set (u := Z.of_nat w). exists (j - (j - b_lo x 0) mod u), ((j - b_lo x 0) mod u).
  assert (U : 0 < u) by (unfold u; lia). pose proof (Z.mod_pos_bound (j - b_lo x 0) u U) as M.
  pose proof (Z.mod_le (j - b_lo x 0) u ltac:(lia) U).
  split; [split; [lia|]|split; [exact M|lia]].
  replace (j - (j - b_lo x 0) mod u - b_lo x 0) with ((j - b_lo x 0) - (j - b_lo x 0) mod u) by lia.
  rewrite (Z.div_mod (j - b_lo x 0) u) at 1 by lia.
  replace (u * ((j - b_lo x 0) / u) + (j - b_lo x 0) mod u - (j - b_lo x 0) mod u) with (((j - b_lo x 0) / u) * u) by lia.
  apply Z_mod_mult.
Qed.
Lemma in_zrange : forall n z, In z (zrange n) <-> 0 <= z < Z.of_nat n.
Proof.
  intros n z. unfold zrange. rewrite in_map_iff. split.
  - intros [k [<- I]]. apply in_seq in I. lia.
  - intros H. exists (Z.to_nat z). split; [lia|]. apply in_seq. lia.
Qed.
Definition row (x : box) (g i1 i2 : Z) : Z := i1 + b_N x 1 * (i2 + b_N x 2 * g).
Lemma idx4_row : forall x g i0 i1 i2, idx4 x g i0 i1 i2 = i0 + b_N x 0 * row x g i1 i2.
Proof. reflexivity. Qed.
Definition inr (x : box) (k : nat) (i : Z) : Prop := b_lo x k <= i < b_lo x k + b_n x k.

(** When two cells coincide. *)
Lemma row_inj : forall x g i1 i2 g' j1 j2, box_ok x -> inr x 1 i1 -> inr x 2 i2 -> inr x 1 j1 -> inr x 2 j2 ->
  row x g i1 i2 = row x g' j1 j2 -> g = g' /\ i1 = j1 /\ i2 = j2.
Proof.
  intros x g i1 i2 g' j1 j2 OK A B C D E. destruct (OK 1%nat ltac:(lia)) as [? [? [? ?]]]. destruct (OK 2%nat ltac:(lia)) as [? [? [? ?]]].
  unfold row, inr in *. assert (E1 : i2 + b_N x 2 * g = j2 + b_N x 2 * g') by nia. assert (g = g') by nia. subst. split; [reflexivity|]. nia.
Qed.
Lemma collide : forall x s g i0 i1 i2 g' j0 j1 j2, box_ok x -> 0 <= s ->
  inr x 0 i0 -> inr x 1 i1 -> inr x 2 i2 -> inr x 1 j1 -> inr x 2 j2 -> b_lo x 0 <= j0 < b_lo x 0 + b_n x 0 + s ->
  idx4 x g' j0 j1 j2 = idx4 x g i0 i1 i2 ->
  (g' = g /\ j1 = i1 /\ j2 = i2 /\ j0 = i0) \/
  (row x g' j1 j2 < row x g i1 i2 /\ b_N x 0 * (row x g i1 i2 - row x g' j1 j2) <= b_n x 0 + s - 1).
Proof.
  intros x s g i0 i1 i2 g' j0 j1 j2 OK S A B C D E F H. rewrite !idx4_row in H.
  destruct (OK 0%nat ltac:(lia)) as [? [? [? ?]]]. unfold inr in A.
  destruct (Z.lt_trichotomy (row x g' j1 j2) (row x g i1 i2)) as [L|[L|L]].
  - right. split; [exact L|]. nia.
  - left. destruct (row_inj _ _ _ _ _ _ _ OK D E B C L) as [-> [-> ->]]. repeat split; auto. nia.
  - exfalso. nia.
Qed.
Definition gf_safe (x : box) (s : Z) : Prop :=
  s <= (b_N x 0 - b_n x 0) + b_N x 0 * ((b_N x 1 - b_n x 1) + b_N x 1 * (b_N x 2 - b_n x 2)).
Definition slice_safe (x : box) (s : Z) : Prop := s <= (b_N x 0 - b_n x 0) + b_N x 0 * (b_N x 1 - b_n x 1).
Definition row_safe (x : box) (s : Z) : Prop := s <= b_N x 0 - b_n x 0.
Lemma row_slice : forall x s, box_ok x -> row_safe x s -> slice_safe x s.
Proof.
  intros x s OK H. destruct (OK 0%nat ltac:(lia)) as [? [? [? ?]]]. destruct (OK 1%nat ltac:(lia)) as [? [? [? ?]]].
  unfold row_safe, slice_safe in *. nia.
Qed.
Lemma slice_gf : forall x s, box_ok x -> slice_safe x s -> gf_safe x s.
Proof.
  intros x s OK H. destruct (OK 0%nat ltac:(lia)) as [? [? [? ?]]]. destruct (OK 1%nat ltac:(lia)) as [? [? [? ?]]].
  destruct (OK 2%nat ltac:(lia)) as [? [? [? ?]]]. unfold slice_safe, gf_safe in *.
  assert (0 <= b_N x 1 * (b_N x 2 - b_n x 2)) by nia. nia.
Qed.
Lemma collide_gf : forall x s g i1 i2 g' j1 j2, box_ok x -> gf_safe x s ->
  inr x 1 i1 -> inr x 2 i2 -> inr x 1 j1 -> inr x 2 j2 ->
  row x g' j1 j2 < row x g i1 i2 -> b_N x 0 * (row x g i1 i2 - row x g' j1 j2) <= b_n x 0 + s - 1 -> g' = g.
Proof.
  intros x s g i1 i2 g' j1 j2 OK S A B C D L H.
  destruct (OK 0%nat ltac:(lia)) as [? [? [? ?]]]. destruct (OK 1%nat ltac:(lia)) as [? [? [? ?]]].
  destruct (OK 2%nat ltac:(lia)) as [? [? [? ?]]]. unfold gf_safe, inr, row in *.
  destruct (Z.lt_trichotomy g' g) as [G|[G|G]]; [|exact G|]; exfalso.
  - assert (K : b_N x 1 * (1 + (b_N x 2 - b_n x 2)) <= b_N x 1 * (i2 + b_N x 2 * g - (j2 + b_N x 2 * g'))).
    { apply Z.mul_le_mono_nonneg_l; [lia|]. nia. }
    assert (K2 : 1 + (b_N x 1 - b_n x 1) + b_N x 1 * (b_N x 2 - b_n x 2) <=
                 i1 + b_N x 1 * (i2 + b_N x 2 * g) - (j1 + b_N x 1 * (j2 + b_N x 2 * g'))) by nia.
    apply (Z.mul_le_mono_nonneg_l _ _ (b_N x 0)) in K2; [|lia]. nia.
  - assert (K : b_N x 1 * (i2 + b_N x 2 * g - (j2 + b_N x 2 * g')) <= b_N x 1 * (-1)).
    { apply Z.mul_le_mono_nonneg_l; [lia|]. nia. }
    nia.
Qed.
Lemma collide_slice : forall x s g i1 i2 j1 j2, box_ok x -> slice_safe x s ->
  inr x 1 i1 -> inr x 2 i2 -> inr x 1 j1 -> inr x 2 j2 ->
  row x g j1 j2 < row x g i1 i2 -> b_N x 0 * (row x g i1 i2 - row x g j1 j2) <= b_n x 0 + s - 1 -> j2 = i2.
Proof.
  intros x s g i1 i2 j1 j2 OK S A B C D L H.
  destruct (OK 0%nat ltac:(lia)) as [? [? [? ?]]]. destruct (OK 1%nat ltac:(lia)) as [? [? [? ?]]].
  unfold slice_safe, inr, row in *. destruct (Z.lt_trichotomy j2 i2) as [G|[G|G]]; [|exact G|]; exfalso.
  - assert (K2 : 1 + (b_N x 1 - b_n x 1) <= i1 + b_N x 1 * (i2 + b_N x 2 * g) - (j1 + b_N x 1 * (j2 + b_N x 2 * g))) by nia.
    apply (Z.mul_le_mono_nonneg_l _ _ (b_N x 0)) in K2; [|lia]. nia.
  - nia.
Qed.
Lemma collide_row : forall x s g i1 i2 j1 j2, box_ok x -> row_safe x s ->
  row x g j1 j2 < row x g i1 i2 -> b_N x 0 * (row x g i1 i2 - row x g j1 j2) <= b_n x 0 + s - 1 -> False.
Proof.
  intros x s g i1 i2 j1 j2 OK S L H. destruct (OK 0%nat ltac:(lia)) as [? [? [? ?]]]. unfold row_safe in S.
  set (d := row x g i1 i2 - row x g j1 j2) in *. assert (1 <= d) by lia. nia.
Qed.

(** ** The loop *)
Section Loop.
Variables (V : Type) (x : box) (w : nat) (val : Z -> Z -> Z -> Z -> V).
Hypothesis OK : box_ok x.
Hypothesis W : (0 < w)%nat.
Notation body_events := (body_events V x w val).
Notation run := (run V).
Notation s := (spill w (b_n x 0)).
Definition range1 (k : nat) : list Z := for_values (b_lo x k) (b_lo x k + b_n x k) 1.
Definition range0 : list Z := for_values (b_lo x 0) (b_lo x 0 + b_n x 0) (Z.of_nat w).
Definition points : list (Z * Z * Z) := list_prod (list_prod (range1 2) (range1 1)) range0.

Lemma in_range1 : forall k i, In i (range1 k) <-> inr x k i.
Proof using.
  clear. intros k i. unfold range1, inr. rewrite in_for_values by reflexivity. rewrite Z.mod_1_r. tauto.
Qed.
Lemma in_range0 : forall i, In i range0 <-> vec x w i.
Proof. intros i. unfold range0. rewrite in_for_values by lia. reflexivity. Qed.
Lemma in_points : forall i2 i1 i0, In (i2, i1, i0) points <-> inr x 2 i2 /\ inr x 1 i1 /\ vec x w i0.
Proof using W. clear - W. intros. unfold points. rewrite !in_prod_iff, !in_range1, in_range0. tauto. Qed.
Lemma points_sorted : StronglySorted lt3 points.
Proof. apply sorted3; apply for_values_sorted; lia. Qed.
Lemma in_events : forall i2 i1 i0 a v, In (a, v) (body_events (i2, i1, i0)) <->
  exists g l, 0 <= g < Z.of_nat (b_ngf x) /\ 0 <= l < Z.of_nat w /\ a = idx4 x g (i0 + l) i1 i2 /\ v = val g (i0 + l) i1 i2.
Proof.
  intros. unfold SimdLoop.body_events. rewrite in_flat_map. split.
  - intros [g [G I]]. apply in_map_iff in I as [l [E L]]. apply in_zrange in G. apply in_zrange in L.
    injection E as <- <-. exists g, l. auto.
  - intros [g [l [G [L [-> ->]]]]]. exists g. split; [now apply in_zrange|]. apply in_map_iff. exists l. split; [reflexivity|now apply in_zrange].
Qed.

Section Cell.
Variables g i0 i1 i2 : Z.
Hypothesis G : 0 <= g < Z.of_nat (b_ngf x).
Hypothesis I0 : inr x 0 i0.
Hypothesis I1 : inr x 1 i1.
Hypothesis I2 : inr x 2 i2.
Notation a := (idx4 x g i0 i1 i2).

(** An event at a region cell comes from its own point or from a spilling earlier row. *)
Lemma event_at : forall j2 j1 k0 v, In (j2, j1, k0) points -> In (a, v) (body_events (j2, j1, k0)) ->
  (v = val g i0 i1 i2 /\ j1 = i1 /\ j2 = i2) \/
  (exists g', row x g' j1 j2 < row x g i1 i2 /\ b_N x 0 * (row x g i1 i2 - row x g' j1 j2) <= b_n x 0 + s - 1).
Proof.
  intros j2 j1 k0 v P E. apply in_points in P as [P2 [P1 P0]]. apply in_events in E as [g' [l [G' [L [E ->]]]]].
  pose proof (lane_range x w k0 l W P0 L) as R. pose proof (spill_range w (b_n x 0) W) as SR.
  destruct (collide x s g i0 i1 i2 g' (k0 + l) j1 j2 OK ltac:(lia) I0 I1 I2 P1 P2 R (eq_sym E)) as [[-> [-> [-> ->]]]|[A B]].
  - left. auto.
  - right. exists g'. auto.
Qed.
Lemma written : exists k0 v, In (i2, i1, k0) points /\ In (a, v) (body_events (i2, i1, k0)).
Proof.
  destruct (cover x w i0 W I0) as [k0 [l [A [B C]]]]. exists k0, (val g i0 i1 i2). split.
  - apply in_points. auto.
  - apply in_events. exists g, l. rewrite <- C. auto.
Qed.
Hypothesis GF : gf_safe x s.
Lemma later_same : forall j2 j1 k0 v, In (j2, j1, k0) points -> In (a, v) (body_events (j2, j1, k0)) ->
  (i2 < j2 \/ (i2 = j2 /\ i1 <= j1)) -> v = val g i0 i1 i2.
Proof.
  intros j2 j1 k0 v P E L. destruct (event_at _ _ _ _ P E) as [[K _]|[g' [A B]]]; [exact K|]. exfalso.
  apply in_points in P as [P2 [P1 P0]].
  assert (g' = g) by (eapply (collide_gf x s g i1 i2 g' j1 j2); eauto). subst g'.
  destruct (OK 1%nat ltac:(lia)) as [? [? [? ?]]]. unfold row, inr in *. nia.
Qed.
Lemma sequential : forall mem, run mem (flat_map body_events points) a = val g i0 i1 i2.
Proof.
  intros mem. destruct written as [k0 [v [P E]]].
  destruct (in_split _ _ P) as [A [B EQ]]. rewrite EQ, flat_map_app, run_app. pose proof points_sorted as ST.
  assert (LT : forall t, In t B -> lt3 (i2, i1, k0) t).
  { rewrite EQ in ST. clear -ST. induction A as [|y A IH]; cbn [app] in ST; inversion ST; subst; auto.
    rewrite Forall_forall in H2. auto. }
  apply run_hit.
  - exists (a, v). split; [|reflexivity]. cbn [flat_map]. apply in_or_app. now left.
  - intros [a' v'] I K. cbn in K |- *. subst a'. apply in_flat_map in I as [[[j2 j1] j0] [T I]].
    apply (later_same j2 j1 j0); auto.
    + rewrite EQ. apply in_or_app. right. exact T.
    + destruct T as [T|T].
      * apply pair_equal_spec in T as [T T0]. apply pair_equal_spec in T as [T2 T1]. subst. right. split; lia.
      * apply LT in T. cbn in T. lia.
Qed.
End Cell.

(** Cells outside the rows (each lengthened by the spill) are left alone. *)
Lemma untouched : forall mem a,
  (forall g j0 j1 j2, 0 <= g < Z.of_nat (b_ngf x) -> inr x 1 j1 -> inr x 2 j2 ->
     b_lo x 0 <= j0 < b_lo x 0 + b_n x 0 + s -> a <> idx4 x g j0 j1 j2) ->
  forall l, (forall e, In e l -> In e (flat_map body_events points)) -> run mem l a = mem a.
Proof.
  intros mem a H l S. apply run_misses. intros [a' v] I K. cbn in K. subst a'. apply S in I.
  apply in_flat_map in I as [[[j2 j1] k0] [P E]]. apply in_points in P as [P2 [P1 P0]].
  apply in_events in E as [g [k [G [L [E _]]]]]. eapply (H g (k0 + k) j1 j2); eauto. apply lane_range; auto.
Qed.

(** ** The parallel loop: collapse(c) makes the c outer loops into tasks. *)
Definition tasks (c : nat) : list (list (ev V)) :=
  match c with
  | 1%nat => map (fun i2 => flat_map body_events (list_prod (list_prod [i2] (range1 1)) range0)) (range1 2)
  | 2%nat => map (fun p => flat_map body_events (list_prod [p] range0)) (list_prod (range1 2) (range1 1))
  | _ => map body_events points
  end.
Lemma prod_app : forall (A B : Type) (l l' : list A) (m : list B), list_prod (l ++ l') m = list_prod l m ++ list_prod l' m.
Proof. induction l as [|y l IH]; intros l' m; [reflexivity|]. cbn [app list_prod]. now rewrite IH, app_assoc. Qed.
Lemma tasks_concat : forall c, concat (tasks c) = flat_map body_events points.
Proof.
  assert (T1 : forall l, concat (map (fun i2 => flat_map body_events (list_prod (list_prod [i2] (range1 1)) range0)) l)
    = flat_map body_events (list_prod (list_prod l (range1 1)) range0)).
  { induction l as [|i l IH]; [reflexivity|]. cbn [map concat]. rewrite IH. cbn [list_prod].
    rewrite app_nil_r, prod_app, flat_map_app. reflexivity. }
  assert (T2 : forall l, concat (map (fun p : Z * Z => flat_map body_events (list_prod [p] range0)) l)
    = flat_map body_events (list_prod l range0)).
  { induction l as [|i l IH]; [reflexivity|]. cbn [map concat]. rewrite IH. cbn [list_prod].
    rewrite app_nil_r, flat_map_app. reflexivity. }
  intros [|[|[|c]]]; cbn [tasks]; try (symmetry; apply flat_map_concat_map).
  - apply T1.
  - apply T2.
Qed.
Lemma nth_map_keys : forall (K : Type) (f : K -> list (ev V)) keys k0, NoDup keys -> In k0 keys ->
  exists k, nth_error keys k = Some k0 /\ forall j t, j <> k -> nth_error (map f keys) j = Some t ->
    exists k', In k' keys /\ k' <> k0 /\ t = f k'.
Proof.
  intros K f keys k0 N I. destruct (In_nth_error _ _ I) as [k E]. exists k. split; [exact E|]. intros j t J F.
  rewrite nth_error_map in F. destruct (nth_error keys j) as [k'|] eqn:Q; [|discriminate]. injection F as <-.
  exists k'. split; [eapply nth_error_In; eauto|]. split; [|reflexivity]. intros ->. apply J.
  eapply (proj1 (NoDup_nth_error keys)); eauto; [|now rewrite E, Q]. apply nth_error_Some. congruence.
Qed.
Lemma owned : forall g i0 i1 i2 (K : Type) (f : K -> list (ev V)) keys k0 l mem,
  0 <= g < Z.of_nat (b_ngf x) -> inr x 0 i0 -> inr x 1 i1 -> inr x 2 i2 -> gf_safe x s ->
  NoDup keys -> In k0 keys -> concat (map f keys) = flat_map body_events points ->
  (forall k v, In k keys -> k <> k0 -> ~ In (idx4 x g i0 i1 i2, v) (f k)) ->
  interleave (map f keys) l -> run mem l (idx4 x g i0 i1 i2) = val g i0 i1 i2.
Proof.
  intros g i0 i1 i2 K f keys k0 l mem G A0 A1 A2 GF N I C O L. set (a := idx4 x g i0 i1 i2) in *.
  destruct (nth_map_keys K f keys k0 N I) as [k [E NK]].
  assert (F : forall l', interleave (map f keys) l' -> filter (at_ V a) l' = filter (at_ V a) (nth k (map f keys) [])).
  { intros l' L'. apply (interleave_filter _ _ _ _ L'). intros j t [a' v] J T IN.
    destruct (NK j t J T) as [k' [K1 [K2 ->]]]. unfold at_. cbn. destruct (Z.eqb_spec a' a) as [->|]; [|reflexivity].
    exfalso. eapply O; eauto. }
  rewrite (run_filter V a l mem mem eq_refl), (F l L), <- (F _ (interleave_concat _ (map f keys))), C.
  rewrite <- (run_filter V a (flat_map body_events points) mem mem eq_refl). now apply sequential.
Qed.
Lemma parallel : forall c g i0 i1 i2 l mem,
  0 <= g < Z.of_nat (b_ngf x) -> inr x 0 i0 -> inr x 1 i1 -> inr x 2 i2 ->
  (match c with 1%nat => slice_safe x s | _ => row_safe x s end) ->
  interleave (tasks c) l -> run mem l (idx4 x g i0 i1 i2) = val g i0 i1 i2.
Proof.
  intros c g i0 i1 i2 l mem G A0 A1 A2 S L.
  assert (SL : slice_safe x s) by (destruct c as [|[|c]]; [apply row_slice|exact S|apply row_slice]; assumption).
  assert (GF : gf_safe x s) by now apply slice_gf.
  assert (OW : forall j2 j1 k0 v, In (j2, j1, k0) points -> In (idx4 x g i0 i1 i2, v) (body_events (j2, j1, k0)) ->
     j2 = i2 /\ (row_safe x s -> j1 = i1)).
  { intros j2 j1 k0 v P E. destruct (event_at g i0 i1 i2 A0 A1 A2 _ _ _ _ P E) as [[_ [-> ->]]|[g' [K1 K2]]]; [auto|].
    apply in_points in P as [P2 [P1 P0]].
    assert (g' = g) by (eapply (collide_gf x s g i1 i2 g' j1 j2); eauto). subst g'. split.
    - eapply (collide_slice x s g i1 i2 j1 j2); eauto.
    - intros R. exfalso. eapply (collide_row x s g i1 i2 j1 j2); eauto. }
  assert (C := tasks_concat c).
  assert (R1 : In i1 (range1 1)) by now apply in_range1. assert (R2 : In i2 (range1 2)) by now apply in_range1.
  assert (ST1 : forall k, StronglySorted Z.lt (range1 k)) by (intros; apply for_values_sorted; lia).
  assert (ST0 : StronglySorted Z.lt range0) by (apply for_values_sorted; lia).
  assert (D3 : row_safe x s -> interleave (map body_events points) l -> run mem l (idx4 x g i0 i1 i2) = val g i0 i1 i2).
  { intros RS IL. destruct (cover x w i0 W A0) as [k0 [q [B1 [B2 B3]]]].
    apply (owned g i0 i1 i2 _ body_events points (i2, i1, k0) l mem); auto.
    - apply nodup3; auto.
    - apply in_points. auto.
    - apply (tasks_concat 3).
    - intros [[j2 j1] j0] v I N E. destruct (OW _ _ _ _ I E) as [-> J]. rewrite (J RS) in *. apply N. f_equal.
      apply in_points in I as [_ [_ P0]]. apply in_events in E as [g' [q' [G' [Q' [E _]]]]].
      pose proof (lane_range x w j0 q' W P0 Q') as LR. pose proof (spill_range w (b_n x 0) W) as SR.
      destruct (collide x s g i0 i1 i2 g' (j0 + q') i1 i2 OK ltac:(lia) A0 A1 A2 A1 A2 LR (eq_sym E)) as [[_ [_ [_ EQ]]]|[K1 K2]].
      + destruct B1 as [_ M1]. destruct P0 as [_ M2]. clear -M1 M2 EQ B2 B3 Q' W.
        apply Z.mod_divide in M1; [|lia]. apply Z.mod_divide in M2; [|lia]. destruct M1 as [p P], M2 as [r R].
        assert (QQ : (p - r) * Z.of_nat w = q' - q) by lia. assert (p = r) by (destruct (Z.lt_trichotomy p r) as [T|[T|T]]; nia). subst. lia.
      + assert (g' = g) by (eapply (collide_gf x s g i1 i2 g' i1 i2); eauto). subst g'. lia. }
  destruct c as [|[|[|c]]]; cbn [tasks] in L, C; auto.
  - apply (owned g i0 i1 i2 _ _ (range1 2) i2 l mem) in L; auto.
    + apply (ssorted_nodup _ Z.lt); [intros; lia|apply ST1].
    + intros j2 v I N E. apply in_flat_map in E as [[[j2' j1] j0] [P E]].
      apply in_prod_iff in P as [P P0]. apply in_prod_iff in P as [[<-|[]] P1].
      destruct (OW j2 j1 j0 v) as [-> _]; auto. unfold points. rewrite !in_prod_iff. auto.
  - apply (owned g i0 i1 i2 _ _ (list_prod (range1 2) (range1 1)) (i2, i1) l mem) in L; auto.
    + apply nodup2; apply ST1.
    + apply in_prod_iff. auto.
    + intros [j2 j1] v I N E. apply in_flat_map in E as [[[j2' j1'] j0] [P E]].
      apply in_prod_iff in P as [[P|[]] P0]. apply pair_equal_spec in P as [<- <-].
      destruct (OW j2 j1 j0 v) as [-> J]; auto; [|rewrite (J S) in N; congruence].
      unfold points. apply in_prod_iff. split; [exact I|exact P0].
Qed.
End Loop.
