(** The chain rule, the flat Laplacian in the coordinates of reference_metric.py, and the derivatives of the wave solutions. *)
From Coq Require Import String List ZArith Bool Arith Lia Reals Lra.
From Verif Require Import PyBase Inverter RefMetric RefMetricReal RefMetricCalc RefMetricFacts RefMetricFlat PropRefMetric BSSNCalc WaveEquation.
Import ListNotations.
Local Open Scope R_scope.

(** ** The value of an expression along a curve *)
Section Curve.
Variables (c : R -> env) (t0 : R) (x' : nat -> R).
Hypothesis Cp : forall t s, ep (c t) s = ep (c t0) s.
Hypothesis Cc : forall t k, ec (c t) k = ec (c t0) k.
Hypothesis Cx : forall k, (k < 3)%nat -> derivable_pt_lim (fun t => exx (c t) k) t0 (x' k).
Hypothesis Ck : forall k, (3 <= k)%nat -> forall t, exx (c t) k = exx (c t0) k.
Lemma eval_curve : forall e, wd (c t0) e ->
  derivable_pt_lim (fun t => eval (c t) e) t0 (sum3 (fun a => eval (c t0) (diff a e) * x' a)).
Proof using Cp Cc Cx Ck.
  assert (Z : forall y : R, y = 0 -> forall z, derivable_pt_lim (fun _ : R => z) t0 y) by (intros y -> z; apply derivable_pt_lim_const).
  induction e; intros W; cbn [eval wd diff] in *; unfold sum3 in *.
  - apply Z. cbn. ring.
  - eapply lim_ext; [intros; symmetry; apply Cp|]. apply Z. cbn. ring.
  - destruct (lt_dec k 3) as [L|L].
    + eapply lim_eq; [now apply Cx|]. destruct k as [|[|[|k]]]; [| | |lia]; cbn; ring.
    + eapply lim_ext; [intros; symmetry; apply Ck; lia|]. apply Z. destruct k as [|[|[|k]]]; try lia. cbn. ring.
  - eapply lim_ext; [intros; symmetry; apply Cc|]. apply Z. cbn. ring.
  - eapply lim_eq; [apply lim_add; [apply IHe1|apply IHe2]; tauto|]. ev. ring.
  - eapply lim_eq; [apply lim_sub; [apply IHe1|apply IHe2]; tauto|]. ev. ring.
  - eapply lim_eq; [apply lim_mul; [apply IHe1|apply IHe2]; tauto|]. ev. ring.
  - destruct W as (W1 & W2 & N). eapply lim_eq; [apply lim_div; [apply IHe1; auto|apply IHe2; auto|exact N]|].
    cbv beta. ev. field. exact N.
  - eapply lim_eq; [apply lim_opp; now apply IHe|]. ev. ring.
  - eapply lim_eq; [apply (lim_comp (fun t => eval (c t) e) (fun y => y ^ n)); [apply IHe; auto|apply derivable_pt_lim_pow]|].
    cbv beta. ev. cbn [eval]. rewrite <- INR_IZR_INZ. replace (n - 1)%nat with (pred n) by lia. ring.
  - destruct W as [W P]. eapply lim_eq; [apply lim_comp; [apply IHe; auto|apply derivable_pt_lim_sqrt; exact P]|].
    cbv beta. ev. cbn [eval]. unfold Rdiv. ring.
  - eapply lim_eq; [apply lim_comp; [apply IHe; auto|apply derivable_pt_lim_exp]|]. cbv beta. ev. cbn [eval]. ring.
  - eapply lim_eq; [apply lim_comp; [apply IHe; auto|apply derivable_pt_lim_sin]|]. cbv beta. ev. cbn [eval]. ring.
  - eapply lim_eq; [apply lim_comp; [apply IHe; auto|apply derivable_pt_lim_cos]|]. cbv beta. ev. cbn [eval]. ring.
  - eapply lim_eq; [apply lim_comp; [apply IHe; auto|apply derivable_pt_lim_sinh]|]. cbv beta. ev. cbn [eval]. ring.
  - eapply lim_eq; [apply lim_comp; [apply IHe; auto|apply derivable_pt_lim_cosh]|]. cbv beta. ev. cbn [eval]. ring.
  - eapply lim_eq; [apply lim_comp; [apply IHe; auto|apply derivable_pt_lim_arcsinh]|]. cbv beta. ev.
    cbn [eval]. unfold Rdiv. ring.
  - destruct W as [W P]. eapply lim_eq; [apply lim_comp; [apply IHe; auto|apply lim_acos; exact P]|].
    cbv beta. ev. cbn [eval]. unfold Rsqr. replace (eval (c t0) e ^ 2) with (eval (c t0) e * eval (c t0) e) by ring. unfold Rdiv. ring.
  - destruct W as (W1 & W2 & D). eapply lim_eq; [apply lim_atan2; [apply IHe1; auto|apply IHe2; auto|exact D]|].
    cbv beta. ev. cbn [eval]. pose proof (atan2_domain _ _ D). field. assumption.
  - destruct W as [W N]. specialize (IHe W). cbn [eval]. replace (0 * x' 0%nat + 0 * x' 1%nat + 0 * x' 2%nat) with 0 by ring.
    set (f := fun t => eval (c t) e) in *. assert (FN : f t0 <> 0) by exact N.
    destruct (Rlt_dec 0 (f t0)) as [P|P].
    + destruct (pos_near f _ _ IHe P) as (d & D & Q).
      apply lim_local with (f := fun _ => 1) (d := d); [exact D| |apply derivable_pt_lim_const].
      intros t T. specialize (Q t T). unfold f in Q. unfold sgn. destruct (Rlt_dec 0 (eval (c t) e)); [reflexivity|contradiction].
    + assert (P' : 0 < - f t0) by lra.
      destruct (pos_near (fun s => - f s) _ _ (lim_opp _ _ _ IHe) P') as (d & D & Q).
      apply lim_local with (f := fun _ => -1) (d := d); [exact D| |apply derivable_pt_lim_const].
      intros t T. specialize (Q t T). unfold f in Q. unfold sgn. destruct (Rlt_dec 0 (eval (c t) e)); [lra|].
      destruct (Rlt_dec (eval (c t) e) 0); [reflexivity|lra].
  - destruct W.
Qed.
End Curve.

(** ** Differentiable functions of three variables *)
(** [g] is the gradient of [F] at [x] *)
Definition gradient (F : (nat -> R) -> R) (x g : nat -> R) : Prop :=
  forall eps, 0 < eps -> exists d, 0 < d /\ forall y, (forall a, (a < 3)%nat -> Rabs (y a - x a) < d) ->
  Rabs (F y - F x - sum3 (fun a => g a * (y a - x a))) <= eps * sum3 (fun a => Rabs (y a - x a)).
Lemma gradient_curve : forall F (c : R -> nat -> R) t0 c' g, gradient F (c t0) g ->
  (forall a, (a < 3)%nat -> derivable_pt_lim (fun t => c t a) t0 (c' a)) ->
  derivable_pt_lim (fun t => F (c t)) t0 (sum3 (fun a => g a * c' a)).
Proof.
  intros F c t0 c' g G H.
  set (rho := fun t => F (c t) - F (c t0) - sum3 (fun a => g a * (c t a - c t0 a))).
  assert (Rz : derivable_pt_lim rho t0 0).
  { intros eps He.
    set (M := sum3 (fun a => Rabs (c' a) + 1)).
    assert (MP : 0 < M) by (unfold M, sum3; pose proof (Rabs_pos (c' 0%nat)); pose proof (Rabs_pos (c' 1%nat)); pose proof (Rabs_pos (c' 2%nat)); lra).
    assert (EM : 0 < eps / (2 * M)) by (apply Rdiv_lt_0_compat; lra).
    destruct (G _ EM) as (d & D & Q).
    assert (A : forall a, (a < 3)%nat -> exists e, 0 < e /\ forall h, h <> 0 -> Rabs h < e ->
      Rabs (c (t0 + h) a - c t0 a) < d /\ Rabs (c (t0 + h) a - c t0 a) <= Rabs h * (Rabs (c' a) + 1)).
    { intros a La. destruct (continuous_near _ _ _ (H a La) d D) as (e1 & E1 & Q1). destruct (H a La 1 Rlt_0_1) as [e2 Q2].
      exists (Rmin e1 e2). split; [apply Rmin_glb_lt; [exact E1|apply cond_pos]|]. intros h N L. split.
      - apply Q1. replace (t0 + h - t0) with h by ring. eapply Rlt_le_trans; [exact L|apply Rmin_l].
      - assert (L2 : Rabs h < e2) by (eapply Rlt_le_trans; [exact L|apply Rmin_r]). specialize (Q2 h N L2).
        replace (c (t0 + h) a - c t0 a) with (h * ((c (t0 + h) a - c t0 a) / h)) by (field; exact N). rewrite Rabs_mult.
        apply Rmult_le_compat_l; [apply Rabs_pos|].
        replace ((c (t0 + h) a - c t0 a) / h) with (((c (t0 + h) a - c t0 a) / h - c' a) + c' a) by ring.
        eapply Rle_trans; [apply Rabs_triang|]. lra. }
    destruct (A 0%nat) as (e0 & P0 & Q0); [lia|]. destruct (A 1%nat) as (e1 & P1 & Q1); [lia|]. destruct (A 2%nat) as (e2 & P2 & Q2); [lia|].
    assert (EP : 0 < Rmin e0 (Rmin e1 e2)) by (repeat apply Rmin_glb_lt; assumption).
    exists (mkposreal _ EP). cbn. intros h N L.
    assert (L0 : Rabs h < e0) by (eapply Rlt_le_trans; [exact L|apply Rmin_l]).
    assert (L1 : Rabs h < e1) by (eapply Rlt_le_trans; [exact L|eapply Rle_trans; [apply Rmin_r|apply Rmin_l]]).
    assert (L2 : Rabs h < e2) by (eapply Rlt_le_trans; [exact L|eapply Rle_trans; [apply Rmin_r|apply Rmin_r]]).
    destruct (Q0 h N L0) as [S0 T0], (Q1 h N L1) as [S1 T1], (Q2 h N L2) as [S2 T2].
    assert (B : Rabs (rho (t0 + h)) <= eps / (2 * M) * (Rabs h * M)).
    { unfold rho. eapply Rle_trans; [apply Q; apply lt3; assumption|]. apply Rmult_le_compat_l; [lra|]. unfold M, sum3. lra. }
    assert (Z : rho t0 = 0) by (unfold rho, sum3; ring).
    rewrite Z. replace ((rho (t0 + h) - 0) / h - 0) with (rho (t0 + h) / h) by (field; exact N).
    unfold Rdiv. rewrite Rabs_mult. assert (HP : 0 < Rabs h) by now apply Rabs_pos_lt. rewrite Rabs_inv.
    apply Rle_lt_trans with (eps / 2).
    - apply Rmult_le_reg_r with (Rabs h); [exact HP|]. rewrite Rmult_assoc, Rinv_l by lra.
      replace (eps / 2 * Rabs h) with (eps / (2 * M) * (Rabs h * M)) by (field; lra). lra.
    - lra. }
  eapply lim_ext with (f := fun t => F (c t0) + sum3 (fun a => g a * (c t a - c t0 a)) + rho t).
  - intros t. unfold rho. ring.
  - assert (L : forall a, (a < 3)%nat -> derivable_pt_lim (fun t => g a * (c t a - c t0 a)) t0 (g a * c' a)).
    { intros a La. eapply lim_eq; [apply lim_mul; [apply derivable_pt_lim_const|apply lim_sub; [apply (H a La)|apply derivable_pt_lim_const]]|]. unfold fct_cte. ring. }
    eapply lim_eq; [apply lim_add; [apply lim_add; [apply derivable_pt_lim_const|]|exact Rz]|].
    + unfold sum3. apply lim_add; [apply lim_add|]; apply L; lia.
    + unfold sum3. ring.
Qed.

(** ** The flat Laplacian *)
(** contraction of the inverse metric with the Jacobian *)
Lemma ghatUU_jac : forall cs r v, reference_metric cs false = Ok r -> good (ep v) -> inside (r_coord r) v ->
  forall a b, (a < 3)%nat -> (b < 3)%nat ->
  sum3 (fun k => sum3 (fun l => eval v (ghatUU r k l) * eval v (jac r a k) * eval v (jac r b l))) = delta a b.
Proof.
  intros cs r v H G IN a b Ha Hb. destruct (rm_kinds cs false r H) as (q & E & _ & EV & EJ & _ & _ & _ & ES & HG).
  rewrite E in IN, ES. cbn iota in ES. pose proof (kind_regular q v G EV IN) as R.
  assert (HP : forall i, (i < 3)%nat -> 0 < eval v (r_scale r i)) by (rewrite ES; apply (reg_pos _ _ R)).
  rewrite <- (reg_rows _ _ R a b Ha Hb). unfold sum3. rewrite EJ, E.
  rewrite !(ghatUU_val v _ _ _ HG HP) by lia. rewrite !(reg_dir _ _ R) by lia. rewrite ES. unfold delta. cbn [Nat.eqb].
  pose proof (reg_pos _ _ R 0%nat ltac:(lia)). pose proof (reg_pos _ _ R 1%nat ltac:(lia)). pose proof (reg_pos _ _ R 2%nat ltac:(lia)).
  field. repeat split; lra.
Qed.
Lemma near_inside : forall r v cs pre, reference_metric cs pre = Ok r -> inside (r_coord r) v -> near v (fun w => ep w = ep v /\ inside (r_coord r) w).
Proof.
  intros r v cs pre H IN. destruct (rm_kinds cs pre r H) as (k & E & _). rewrite E in *.
  destruct (inside_near k v 0 IN ltac:(lia)) as (d0 & D0 & Q0). destruct (inside_near k v 1 IN ltac:(lia)) as (d1 & D1 & Q1).
  destruct (inside_near k v 2 IN ltac:(lia)) as (d2 & D2 & Q2).
  exists (Rmin d0 (Rmin d1 d2)). split; [repeat apply Rmin_glb_lt; assumption|]. intros l t Hl T. split; [reflexivity|].
  pose proof (Rmin_l d0 (Rmin d1 d2)). pose proof (Rmin_r d0 (Rmin d1 d2)). pose proof (Rmin_l d1 d2). pose proof (Rmin_r d1 d2).
  destruct l as [|[|[|l]]]; [apply Q0|apply Q1|apply Q2|lia]; lra.
Qed.
Lemma lap_alg : forall (g : nat -> nat -> R) (J : nat -> nat -> R) (Gm : nat -> nat -> nat -> R) (W : nat -> R) (W2 : nat -> nat -> R) (uD : nat -> R) (uDD : nat -> nat -> R),
  (forall k l, (k < 3)%nat -> (l < 3)%nat -> k <> l -> g k l = 0) ->
  (forall k, (k < 3)%nat -> uD k = sum3 (fun a => W a * J a k)) ->
  (forall k l, (k < 3)%nat -> (l < 3)%nat -> uDD k l = sum3 (fun a => sum3 (fun b => W2 a b * J b l) * J a k + W a * sum3 (fun i => J a i * Gm i k l))) ->
  (forall a b, (a < 3)%nat -> (b < 3)%nat -> sum3 (fun k => sum3 (fun l => g k l * J a k * J b l)) = delta a b) ->
  laplacian g Gm uD uDD = sum3 (fun a => W2 a a).
Proof.
  intros g J Gm W W2 uD uDD GS HD HDD OR.
  transitivity (sum3 (fun k => sum3 (fun l => g k l * uDD k l)) - sum3 (fun i => sum3 (fun k => sum3 (fun l => g k l * Gm i k l)) * uD i)).
  { unfold laplacian, contracted, sum3, sym01. cbn [fold_left Nat.ltb Nat.leb]. 
    rewrite (GS 0 1)%nat, (GS 0 2)%nat, (GS 1 0)%nat, (GS 1 2)%nat, (GS 2 0)%nat, (GS 2 1)%nat by lia. ring. }
  transitivity (sum3 (fun a => sum3 (fun b => W2 a b * sum3 (fun k => sum3 (fun l => g k l * J a k * J b l))))).
  { unfold sum3 in *. rewrite !HD, !HDD by lia. ring. }
  unfold sum3 in *. rewrite !OR by lia. unfold delta. cbn [Nat.eqb]. ring.
Qed.
(** The Laplacian of the code is the sum of the second Cartesian derivatives.  [W] is the Cartesian gradient of u, [W2] that of [W]. *)
Lemma laplacian_core : forall cs r v u (W : env -> nat -> R) (W2 : nat -> nat -> R) (uD : env -> nat -> R) (uDD : nat -> nat -> R),
  reference_metric cs false = Ok r -> good (ep v) -> inside (r_coord r) v ->
  near v (fun w => forall l, (l < 3)%nat -> d_at u l w (sum3 (fun a => W w a * eval w (jac r a l)))) ->
  (forall a l, (a < 3)%nat -> (l < 3)%nat -> d_at (fun w => W w a) l v (sum3 (fun b => W2 a b * eval v (jac r b l)))) ->
  near v (fun w => forall l, (l < 3)%nat -> d_at u l w (uD w l)) ->
  (forall k l, (k < 3)%nat -> (l < 3)%nat -> d_at (fun w => uD w k) l v (uDD k l)) ->
  laplacian (fun i j => eval v (ghatUU r i j)) (fun i j k => eval v (GammahatUDD r i j k)) (uD v) uDD = sum3 (fun a => W2 a a).
Proof.
  intros cs r v u W W2 uD uDD H G IN HW HW2 HU HUU.
  assert (N : near v (fun w => forall l, (l < 3)%nat -> uD w l = sum3 (fun a => W w a * eval w (jac r a l)))).
  { eapply near_imp; [exact (near_and _ _ _ HW HU)|]. intros w [A B] l Hl. eapply d_unique; [apply B|apply A]; exact Hl. }
  assert (DD : forall k l, (k < 3)%nat -> (l < 3)%nat -> uDD k l =
    sum3 (fun a => sum3 (fun b => W2 a b * eval v (jac r b l)) * eval v (jac r a k) + W v a * sum3 (fun i => eval v (jac r a i) * eval v (GammahatUDD r i k l)))).
  { intros k l Hk Hl. eapply d_unique; [apply HUU; assumption|].
    eapply d_ext with (f := fun w => sum3 (fun a => W w a * eval w (jac r a k))); [exact Hl| |reflexivity|].
    - eapply near_imp; [exact N|]. intros w A. symmetry. now apply A.
    - unfold sum3 at 1 2. assert (P : forall a, (a < 3)%nat -> d_at (fun w => W w a * eval w (jac r a k)) l v
        (sum3 (fun b => W2 a b * eval v (jac r b l)) * eval v (jac r a k) + W v a * sum3 (fun i => eval v (jac r a i) * eval v (GammahatUDD r i k l)))).
      { intros a Ha. apply d_mult; [now apply HW2|]. apply (C58_connection cs r v H G IN a k l); assumption. }
      apply d_plus; [apply d_plus|]; apply P; lia. }
  apply (lap_alg _ (fun a l => eval v (jac r a l)) _ (W v) W2).
  - intros k l Hk Hl NE. destruct (rm_kinds cs false r H) as (q & E & _ & EV & EJ & _ & _ & _ & ES & HG).
    rewrite E in IN, ES. cbn iota in ES. pose proof (kind_regular q v G EV IN) as R.
    assert (HP : forall i, (i < 3)%nat -> 0 < eval v (r_scale r i)) by (rewrite ES; apply (reg_pos _ _ R)).
    rewrite !(ghatUU_val v _ _ _ HG HP) by assumption. unfold delta. destruct (Nat.eqb_spec k l); [contradiction|]. unfold Rdiv. ring.
  - intros k Hk. apply (near_here _ _ N). exact Hk.
  - exact DD.
  - intros a b Ha Hb. apply (ghatUU_jac cs); assumption.
Qed.
