(** C69: the wave equation.  The exact solutions solve it, in Cartesian coordinates and in every coordinate system of
    reference_metric.py; the curvilinear right-hand side is the flat Laplacian of whatever function is evolved. *)
From Coq Require Import String List ZArith Bool Arith Lia Reals Lra FunctionalExtensionality.
From Verif Require Import PyBase Inverter RefMetric RefMetricReal RefMetricCalc RefMetricFacts RefMetricInvFacts RefMetricFlat RefMetricAccept PropRefMetric BSSNCalc WaveEquation WaveFacts.
Import ListNotations.
Local Open Scope R_scope.

(** CodeParameters [p], Cartesian position [x], time [t] *)
Definition st (p : string -> R) (t : R) (x : nat -> R) : env :=
  MkEnv p (fun k => if Nat.ltb k 3 then x k else if Nat.eqb k 3 then t else 0) (fun _ => 0) (fun _ _ => 0).
Definition val (e : ex) (p : string -> R) (t : R) (x : nat -> R) : R := eval (st p t x) e.
Definition set3 (x : nat -> R) (a : nat) (s : R) (b : nat) : R := if Nat.eqb b a then s else x b.
(** [d] is the partial derivative of [F] in the direction [a] at [x] *)
Definition partial (F : (nat -> R) -> R) (a : nat) (x : nat -> R) (d : R) : Prop := derivable_pt_lim (fun s => F (set3 x a s)) (x a) d.
Definition dist (x : nat -> R) : R := sqrt (x 0%nat ^ 2 + x 1%nat ^ 2 + x 2%nat ^ 2).

Lemma val_space : forall e p t x a, (a < 3)%nat -> wd (st p t x) e -> partial (val e p t) a x (val (diff a e) p t x).
Proof.
  intros e p t x a Ha W. unfold partial, val. pose proof (diff_correct e a (st p t x) W) as D.
  assert (X : exx (st p t x) a = x a) by (cbn; destruct a as [|[|[|a]]]; try reflexivity; lia). rewrite X in D.
  eapply lim_ext; [|exact D]. intros s. apply eval_ext; intros; try reflexivity. cbn. unfold set3.
  destruct (Nat.eqb_spec k a) as [->|]; [|reflexivity]. destruct a as [|[|[|a]]]; try reflexivity; lia.
Qed.
Lemma val_time : forall e p t x, wd (st p t x) e -> derivable_pt_lim (fun s => val e p s x) t (val (diff 3 e) p t x).
Proof.
  intros e p t x W. unfold val. pose proof (diff_correct e 3 (st p t x) W) as D. change (exx (st p t x) 3) with t in D.
  eapply lim_ext; [|exact D]. intros s. apply eval_ext; intros; try reflexivity. cbn.
  destruct (Nat.eqb_spec k 3) as [->|]; [reflexivity|]. destruct k as [|[|[|k]]]; reflexivity.
Qed.

Lemma plane_box : forall v, 0 < eval v (Add (Add (Pow (kk 0) 2) (Pow (kk 1) 2)) (Pow (kk 2) 2)) ->
  eval v (diff 3 (diff 3 plane_uu)) = eval v wavespeed ^ 2 * sum3 (fun a => eval v (diff a (diff a plane_uu))).
Proof.
  intros v K. unfold sum3.
  repeat match goal with |- context [diff ?a (diff ?a plane_uu)] => let n := eval vm_compute in (diff a (diff a plane_uu)) in change (diff a (diff a plane_uu)) with n end.
  cbn [eval wavespeed]. cbn [eval kk] in K. set (n := sqrt _) in *.
  assert (NP : 0 < n) by now apply sqrt_lt_R0.
  assert (N2 : ep v "kk2"%string * ep v "kk2"%string = n * n - ep v "kk0"%string * ep v "kk0"%string - ep v "kk1"%string * ep v "kk1"%string).
  { unfold n. rewrite sqrt_sqrt by lra. ring. }
  set (S := sin _). field_simplify_eq; [|lra]. ring [N2].
Qed.
Lemma sph_box : forall v, 0 < eval v (Add (Add (Pow (xCart 0) 2) (Pow (xCart 1) 2)) (Pow (xCart 2) 2)) -> eval v sigma <> 0 ->
  eval v (diff 3 (diff 3 sph_uu)) = eval v wavespeed ^ 2 * sum3 (fun a => eval v (diff a (diff a sph_uu))).
Proof.
  intros v K SG. unfold sum3.
  repeat match goal with |- context [diff ?a (diff ?a sph_uu)] => let n := eval vm_compute in (diff a (diff a sph_uu)) in change (diff a (diff a sph_uu)) with n end.
  cbn [eval wavespeed]. cbn [eval xCart sigma] in K, SG. set (n := sqrt _) in *.
  assert (NP : 0 < n) by now apply sqrt_lt_R0.
  assert (N2 : exx v 2%nat * exx v 2%nat = n * n - exx v 0%nat * exx v 0%nat - exx v 1%nat * exx v 1%nat).
  { unfold n. rewrite sqrt_sqrt by lra. ring. }
  match goal with |- context [exp ?a] => set (E1 := exp a) in * end.
  match goal with |- context [exp ?a] => set (E2 := exp a) in * end. 
  clearbody n E1 E2.
  field_simplify_eq; [|lra]. ring [N2].
Qed.

(** [s] solves the wave equation at the points of [dom]: vv is the time derivative of uu, and vv_rhs of WaveEquation_RHSs, given the
    second derivatives of uu, is the time derivative of vv. *)
Definition solves (dom : (nat -> R) -> Prop) (p : string -> R) (s : solution) : Prop :=
  forall t x, dom x ->
  exists D DD, (forall y a, dom y -> (a < 3)%nat -> partial (val (s_uu s) p t) a y (D y a)) /\
  (forall a b, (a < 3)%nat -> (b < 3)%nat -> partial (fun y => D y a) b x (DD a b)) /\
  let rhs := wave_rhs (p "wavespeed"%string) (val (s_vv s) p t x) DD in
  derivable_pt_lim (fun t => val (s_uu s) p t x) t (fst rhs) /\ derivable_pt_lim (fun t => val (s_vv s) p t x) t (snd rhs).
Lemma solves_of : forall (dom : (nat -> R) -> Prop) p u r0, (forall t x, dom x -> wd (st p t x) u) ->
  (forall t x, dom x -> eval (st p t x) (diff 3 (diff 3 u)) = p "wavespeed"%string ^ 2 * sum3 (fun a => eval (st p t x) (diff a (diff a u)))) ->
  solves dom p (MkSol u (diff 3 u) r0).
Proof.
  intros dom p u r0 W B t x Dx. exists (fun y a => val (diff a u) p t y), (fun a b => val (diff b (diff a u)) p t x). cbn [s_uu s_vv]. repeat split.
  - intros y a Dy Ha. apply val_space; auto.
  - intros a b Ha Hb. apply val_space; auto. apply wd_diff; auto.
  - apply val_time; auto.
  - cbn [snd wave_rhs]. eapply lim_eq; [apply val_time; apply wd_diff; auto|]. unfold val. rewrite B by assumption.
    unfold sum3, sym01. cbn [fold_left Nat.ltb Nat.leb]. ring.
Qed.

Lemma norm_pos : forall x y z, (x <> 0 \/ y <> 0 \/ z <> 0) -> 0 < x ^ 2 + y ^ 2 + z ^ 2.
Proof.
  intros x y z H. assert (P : forall w, w <> 0 -> 0 < w ^ 2) by (intros w N; rewrite <- Rsqr_pow2; now apply Rlt_0_sqr).
  pose proof (pow2_ge_0 x). pose proof (pow2_ge_0 y). pose proof (pow2_ge_0 z).
  destruct H as [N|[N|N]]; specialize (P _ N); lra.
Qed.
Definition has_k (p : string -> R) : Prop := (p "kk0" <> 0 \/ p "kk1" <> 0 \/ p "kk2" <> 0)%string.
Definition off_origin (x : nat -> R) : Prop := x 0%nat <> 0 \/ x 1%nat <> 0 \/ x 2%nat <> 0.
Lemma plane_wd : forall v, has_k (ep v) -> wd v plane_uu.
Proof.
  intros v K. pose proof (norm_pos _ _ _ K) as P. pose proof (sqrt_lt_R0 _ P).
  let n := eval vm_compute in plane_uu in change plane_uu with n. cbn [wd eval]. repeat split; lra.
Qed.
Lemma sph_wd : forall v, off_origin (exx v) -> ep v "sigma"%string <> 0 -> wd v sph_uu.
Proof.
  intros v K SG. pose proof (norm_pos _ _ _ K) as P. pose proof (sqrt_lt_R0 _ P).
  assert (2 * ep v "sigma"%string ^ 2 <> 0) by (pose proof (pow_nonzero _ 2 SG); lra).
  let n := eval vm_compute in sph_uu in change sph_uu with n. cbn [wd eval]. repeat split; try lra; assumption.
Qed.
Lemma off_st : forall p t x, off_origin x -> off_origin (exx (st p t x)).
Proof. intros p t x H. exact H. Qed.

(** The exact solutions solve the wave equation for every wave speed: the plane wave everywhere for every wave vector but zero, the
    spherical Gaussian off the origin for every width but zero. *)
Theorem C69_exact : forall p s,
  (WaveEquation_solution_Cartesian "PlaneWave" = Ok s -> has_k p -> solves (fun _ => True) p s) /\
  (WaveEquation_solution_Cartesian "SphericalGaussian" = Ok s -> p "sigma"%string <> 0 -> solves off_origin p s).
Proof.
  intros p s. split; intros H K; injection H as <-; apply solves_of.
  - intros t x _. now apply plane_wd.
  - intros t x _. apply plane_box. exact (norm_pos _ _ _ K).
  - intros t x O. apply sph_wd; [now apply off_st|exact K].
  - intros t x O. apply sph_box; [exact (norm_pos _ _ _ O)|exact K].
Qed.

(** ** Curvilinear coordinates *)
Definition cart (r : rfm) (w : env) : nat -> R := cart_of (r_coord r) w.
(** what is evolved is a function of the Cartesian position, written in the coordinates [xx] *)
Definition here (r : rfm) (F : (nat -> R) -> R) (w : env) : R := F (cart r w).
(** first and second derivatives along the coordinate lines, as handed to the right-hand sides *)
Definition derivs (u : env -> R) (v : env) (uD : env -> nat -> R) (uDD : nat -> nat -> R) : Prop :=
  near v (fun w => forall l, (l < 3)%nat -> d_at u l w (uD w l)) /\
  (forall k l, (k < 3)%nat -> (l < 3)%nat -> d_at (fun w => uD w k) l v (uDD k l)).
Definition curv_rhs (r : rfm) (v : env) (c vv : R) (uD : env -> nat -> R) (uDD : nat -> nat -> R) : R * R :=
  wave_curvilinear_rhs c vv (fun i j => eval v (ghatUU r i j)) (fun i j k => eval v (GammahatUDD r i j k)) (uD v) uDD.
(** In every coordinate system, vv_rhs is c^2 times the Laplacian: the sum of the second Cartesian derivatives [H a a], for every
    twice differentiable function [F] of the Cartesian position, given the derivatives of [F] along the coordinate lines. *)
Theorem C69_laplacian : forall cs r v F G H c vv uD uDD,
  reference_metric cs false = Ok r -> good (ep v) -> inside (r_coord r) v ->
  near v (fun w => gradient F (cart r w) (G (cart r w))) ->
  (forall a, (a < 3)%nat -> gradient (fun x => G x a) (cart r v) (H a)) ->
  derivs (here r F) v uD uDD ->
  curv_rhs r v c vv uD uDD = (vv, c ^ 2 * sum3 (fun a => H a a)).
Proof.
  intros cs r v F G H c vv uD uDD HR GP IN HG HH [HU HUU]. unfold curv_rhs, wave_curvilinear_rhs. f_equal.
  rewrite (laplacian_core cs r v (here r F) (fun w a => G (cart r w) a) H uD uDD HR GP IN); [ring| | |exact HU|exact HUU].
  - eapply near_imp; [exact (near_and _ _ _ (near_inside _ _ _ _ HR IN) HG)|]. intros w [[EP IW] GW] l Hl.
    assert (GPw : good (ep w)) by now rewrite EP.
    unfold d_at, here. apply (gradient_curve F (fun t => cart r (upd l t w))).
    + rewrite upd_same. exact GW.
    + intros a Ha. apply (C58_jacobian cs false r w HR GPw IW a l Ha Hl).
  - intros a l Ha Hl. unfold d_at. apply (gradient_curve (fun x => G x a) (fun t => cart r (upd l t v))).
    + rewrite upd_same. now apply HH.
    + intros b Hb. apply (C58_jacobian cs false r v HR GP IN b l Hb Hl).
Qed.

(** where a solution is defined *)
Definition domain (WaveType : string) (p : string -> R) (x : nat -> R) : Prop :=
  if String.eqb WaveType "PlaneWave" then has_k p else p "sigma"%string <> 0 /\ off_origin x.
Lemma cart_upd_d : forall cs pre r v, reference_metric cs pre = Ok r -> good (ep v) -> inside (r_coord r) v ->
  forall a l, (a < 3)%nat -> (l < 3)%nat -> d_at (fun w => cart r w a) l v (eval v (jac r a l)).
Proof. intros cs pre r v HR GP IN a l Ha Hl. apply (C58_jacobian cs pre r v HR GP IN a l Ha Hl). Qed.
Lemma domain_near : forall cs pre r v WT, reference_metric cs pre = Ok r -> good (ep v) -> inside (r_coord r) v ->
  domain WT (ep v) (cart r v) -> near v (fun w => domain WT (ep w) (cart r w)).
Proof.
  intros cs pre r v WT HR GP IN D. unfold domain in *. destruct (String.eqb WT "PlaneWave").
  - exists 1. split; [lra|]. intros l t _ _. exact D.
  - destruct D as [SG O].
    assert (P : forall l, (l < 3)%nat -> exists d, 0 < d /\ forall t, Rabs (t - exx v l) < d -> off_origin (cart r (upd l t v))).
    { intros l Hl. pose proof (fun a Ha => cart_upd_d cs pre r v HR GP IN a l Ha Hl) as DC. unfold d_at in DC.
      destruct O as [N|N].
      2: destruct N as [N|N].
      1: pose (a := 0%nat). 2: pose (a := 1%nat). 3: pose (a := 2%nat).
      all: specialize (DC a ltac:(unfold a; lia)); destruct (continuous_near _ _ _ DC (Rabs (cart r v a)) (Rabs_pos_lt _ N)) as (d & Dp & Q);
        exists d; split; [exact Dp|]; intros t T; specialize (Q t T); rewrite upd_same in Q;
        assert (Z : cart r (upd l t v) a <> 0) by
          (intros Z; rewrite Z in Q; unfold Rminus in Q; rewrite Rplus_0_l, Rabs_Ropp in Q; lra); unfold a in Z; unfold off_origin; tauto. }
    destruct (P 0%nat) as (d0 & D0 & Q0); [lia|]. destruct (P 1%nat) as (d1 & D1 & Q1); [lia|]. destruct (P 2%nat) as (d2 & D2 & Q2); [lia|].
    exists (Rmin d0 (Rmin d1 d2)). split; [repeat apply Rmin_glb_lt; assumption|]. intros l t Hl T. split; [exact SG|].
    pose proof (Rmin_l d0 (Rmin d1 d2)). pose proof (Rmin_r d0 (Rmin d1 d2)). pose proof (Rmin_l d1 d2). pose proof (Rmin_r d1 d2).
    destruct l as [|[|[|l]]]; [apply Q0|apply Q1|apply Q2|lia]; lra.
Qed.
Lemma sol_wd : forall WT s p t x, WaveEquation_solution_Cartesian WT = Ok s -> domain WT p x -> wd (st p t x) (s_uu s).
Proof.
  intros WT s p t x H D. unfold WaveEquation_solution_Cartesian, domain in *. destruct (String.eqb WT "PlaneWave").
  - injection H as <-. now apply plane_wd.
  - destruct (String.eqb WT "SphericalGaussian"); [|discriminate]. injection H as <-. destruct D as [SG O]. apply sph_wd; [now apply off_st|exact SG].
Qed.
Lemma sol_box : forall WT s p t x, WaveEquation_solution_Cartesian WT = Ok s -> domain WT p x ->
  s_vv s = diff 3 (s_uu s) /\
  eval (st p t x) (diff 3 (diff 3 (s_uu s))) = p "wavespeed"%string ^ 2 * sum3 (fun a => eval (st p t x) (diff a (diff a (s_uu s)))).
Proof.
  intros WT s p t x H D. unfold WaveEquation_solution_Cartesian, domain in *. destruct (String.eqb WT "PlaneWave").
  - injection H as <-. split; [reflexivity|]. apply plane_box. exact (norm_pos _ _ _ D).
  - destruct (String.eqb WT "SphericalGaussian"); [|discriminate]. injection H as <-. destruct D as [SG O]. split; [reflexivity|].
    apply sph_box; [exact (norm_pos _ _ _ O)|exact SG].
Qed.
Lemma val_curve : forall cs r w t e l, reference_metric cs false = Ok r -> good (ep w) -> inside (r_coord r) w -> (l < 3)%nat ->
  wd (st (ep w) t (cart r w)) e ->
  d_at (fun w => val e (ep w) t (cart r w)) l w (sum3 (fun a => val (diff a e) (ep w) t (cart r w) * eval w (jac r a l))).
Proof.
  intros cs r w t e l HR GP IN Hl W. unfold d_at, val.
  assert (E : st (ep w) t (cart r w) = st (ep (upd l (exx w l) w)) t (cart r (upd l (exx w l) w))) by now rewrite upd_same.
  rewrite E in W.
  eapply lim_eq; [apply (eval_curve (fun s => st (ep (upd l s w)) t (cart r (upd l s w))) (exx w l) (fun a => eval w (jac r a l))); auto|].
  - intros k Hk. eapply lim_ext; [|apply (cart_upd_d cs false r w HR GP IN k l Hk Hl)]. intros s. cbn.
    destruct k as [|[|[|k]]]; try reflexivity; lia.
  - intros k Hk s. cbn. destruct k as [|[|[|[|k]]]]; try reflexivity; lia.
  - cbn beta. unfold sum3. now rewrite <- E.
Qed.
(** In every coordinate system the exact solutions, evaluated at the Cartesian position, solve the curvilinear equations. *)
Theorem C69_exact_curvilinear : forall cs r v WaveType s t, reference_metric cs false = Ok r -> good (ep v) -> inside (r_coord r) v ->
  WaveEquation_solution_Cartesian WaveType = Ok s -> domain WaveType (ep v) (cart r v) ->
  exists uD uDD, derivs (fun w => val (s_uu s) (ep w) t (cart r w)) v uD uDD /\
  let rhs := curv_rhs r v (ep v "wavespeed"%string) (val (s_vv s) (ep v) t (cart r v)) uD uDD in
  derivable_pt_lim (fun t => val (s_uu s) (ep v) t (cart r v)) t (fst rhs) /\
  derivable_pt_lim (fun t => val (s_vv s) (ep v) t (cart r v)) t (snd rhs).
Proof.
  intros cs r v WT s t HR GP IN HS D.
  pose (W := fun w a => val (diff a (s_uu s)) (ep w) t (cart r w)).
  pose (W2 := fun a b => val (diff b (diff a (s_uu s))) (ep v) t (cart r v)).
  pose (uD := fun w l => sum3 (fun a => W w a * eval w (jac r a l))).
  pose (uDD := fun k l => sum3 (fun a => sum3 (fun b => W2 a b * eval v (jac r b l)) * eval v (jac r a k)
     + W v a * sum3 (fun i => eval v (jac r a i) * eval v (GammahatUDD r i k l)))).
  assert (HW : near v (fun w => forall l, (l < 3)%nat -> d_at (fun w => val (s_uu s) (ep w) t (cart r w)) l w (uD w l))).
  { eapply near_imp; [exact (near_and _ _ _ (near_inside _ _ _ _ HR IN) (domain_near cs false r v WT HR GP IN D))|].
    intros w [[EP IW] DW] l Hl. apply (val_curve cs); auto; [now rewrite EP|]. now apply (sol_wd WT). }
  assert (HW2 : forall a l, (a < 3)%nat -> (l < 3)%nat -> d_at (fun w => W w a) l v (sum3 (fun b => W2 a b * eval v (jac r b l)))).
  { intros a l Ha Hl. unfold W, W2. apply (val_curve cs r v t (diff a (s_uu s)) l); auto. apply wd_diff. now apply (sol_wd WT). }
  assert (HUU : forall k l, (k < 3)%nat -> (l < 3)%nat -> d_at (fun w => uD w k) l v (uDD k l)).
  { intros k l Hk Hl. unfold uD, uDD. unfold sum3 at 1 2.
    assert (P : forall a, (a < 3)%nat -> d_at (fun w => W w a * eval w (jac r a k)) l v
      (sum3 (fun b => W2 a b * eval v (jac r b l)) * eval v (jac r a k) + W v a * sum3 (fun i => eval v (jac r a i) * eval v (GammahatUDD r i k l)))).
    { intros a Ha. apply d_mult; [now apply HW2|]. apply (C58_connection cs r v HR GP IN a k l); assumption. }
    apply d_plus; [apply d_plus|]; apply P; lia. }
  pose proof (laplacian_core cs r v _ W W2 uD uDD HR GP IN HW HW2 HW HUU) as L.
  destruct (sol_box WT s (ep v) t (cart r v) HS D) as [VV BX]. pose proof (sol_wd WT s (ep v) t (cart r v) HS D) as WD.
  exists uD, uDD. split; [now split|]. cbn zeta. unfold curv_rhs, wave_curvilinear_rhs. cbn [fst snd]. rewrite L, VV. split.
  - now apply val_time.
  - eapply lim_eq; [apply val_time; now apply wd_diff|]. unfold W2, val. rewrite BX. ring.
Qed.

(** Any other WaveType is refused. *)
Theorem C69_refused : forall WaveType, (exists s, WaveEquation_solution_Cartesian WaveType = Ok s) /\ (WaveType = "PlaneWave" \/ WaveType = "SphericalGaussian")%string
  \/ WaveEquation_solution_Cartesian WaveType = Err ValueError /\ (WaveType <> "PlaneWave" /\ WaveType <> "SphericalGaussian")%string.
Proof.
  intros WT. unfold WaveEquation_solution_Cartesian. destruct (String.eqb_spec WT "PlaneWave") as [->|N1]; [left; eauto|].
  destruct (String.eqb_spec WT "SphericalGaussian") as [->|N2]; [left; eauto|]. now right.
Qed.

(** ** The origin *)
Definition along_r (p : string -> R) (t r : R) : env := MkEnv p (fun k => if Nat.eqb k 3 then t else if Nat.eqb k 4 then r else 0) (fun _ => 0) (fun _ _ => 0).
Definition pulses : ex :=
  let m := ssub rvar (smul wavespeed time) in
  let p := sadd rvar (smul wavespeed time) in sadd (smul m (gauss m)) (smul p (gauss p)).
Lemma pulses_wd : forall p t r, p "sigma"%string <> 0 -> wd (along_r p t r) pulses.
Proof.
  intros p t r SG. assert (2 * p "sigma"%string ^ 2 <> 0) by (pose proof (pow_nonzero _ 2 SG); lra).
  let n := eval vm_compute in pulses in change pulses with n. cbn. repeat split; assumption.
Qed.
Lemma pulses_d : forall p t e, wd (along_r p t 0) e -> derivable_pt_lim (fun r => eval (along_r p t r) e) 0 (eval (along_r p t 0) (diff 4 e)).
Proof.
  intros p t e W. pose proof (diff_correct e 4 _ W) as D. change (exx (along_r p t 0) 4) with 0 in D.
  eapply lim_ext; [|exact D]. intros r. apply eval_ext; intros; try reflexivity. cbn. destruct (Nat.eqb_spec k 4) as [->|]; [reflexivity|].
  destruct (Nat.eqb k 3); reflexivity.
Qed.
Ltac unfold_ex n := let m := eval vm_compute in n in change n with m.
Lemma sph_uu_val : forall p t x, 0 < dist x -> p "sigma"%string <> 0 ->
  val sph_uu p t x = eval (along_r p t (dist x)) pulses / dist x + 2.
Proof.
  intros p t x D SG. unfold val. unfold_ex sph_uu. unfold_ex pulses. cbn [eval st along_r ep exx Nat.ltb Nat.leb Nat.eqb]. fold (dist x).
  field. repeat split; try lra; assumption.
Qed.
Lemma sph_vv_val : forall p t x, 0 < dist x -> p "sigma"%string <> 0 ->
  val sph_vv p t x = eval (along_r p t (dist x)) (diff 3 pulses) / dist x.
Proof.
  intros p t x D SG. unfold val. unfold_ex sph_vv. unfold_ex (diff 3 pulses). cbn [eval st along_r ep exx Nat.ltb Nat.leb Nat.eqb]. fold (dist x).
  field. repeat split; try lra; assumption.
Qed.
Lemma origin_dist : sqrt (0 ^ 2 + 0 ^ 2 + 0 ^ 2) = 0.
Proof. replace (0 ^ 2 + 0 ^ 2 + 0 ^ 2) with 0 by ring. apply sqrt_0. Qed.
Lemma even_exp : forall s u, exp (- (0 - u) ^ 2 / s) = exp (- (0 + u) ^ 2 / s).
Proof. intros. f_equal. f_equal. ring. Qed.
(** uu_exactsoln_r0 and vv_exactsoln_r0 at the origin are the limits of uu_exactsoln and vv_exactsoln there. *)
Theorem C69_origin : forall p t s uu0 vv0, WaveEquation_solution_Cartesian "SphericalGaussian" = Ok s -> s_r0 s = Some (uu0, vv0) ->
  p "sigma"%string <> 0 -> forall eps, 0 < eps -> exists d, 0 < d /\ forall x, 0 < dist x < d ->
  Rabs (val (s_uu s) p t x - val uu0 p t (fun _ => 0)) < eps /\ Rabs (val (s_vv s) p t x - val vv0 p t (fun _ => 0)) < eps.
Proof.
  intros p t s uu0 vv0 H H0 SG eps Heps. injection H as <-. cbn [s_r0 s_uu s_vv] in *. assert (E : sph_uu_r0 = uu0 /\ sph_vv_r0 = vv0) by (split; congruence).
  destruct E as [<- <-].
  destruct (pulses_d p t pulses (pulses_wd p t 0 SG) eps Heps) as [d1 Q1].
  destruct (pulses_d p t (diff 3 pulses) (wd_diff _ _ _ (pulses_wd p t 0 SG)) eps Heps) as [d2 Q2].
  exists (Rmin d1 d2). split; [apply Rmin_glb_lt; apply cond_pos|]. intros x [D L].
  assert (N : dist x <> 0) by lra.
  assert (L1 : Rabs (dist x) < d1) by (rewrite Rabs_pos_eq by lra; eapply Rlt_le_trans; [exact L|apply Rmin_l]).
  assert (L2 : Rabs (dist x) < d2) by (rewrite Rabs_pos_eq by lra; eapply Rlt_le_trans; [exact L|apply Rmin_r]).
  specialize (Q1 _ N L1). specialize (Q2 _ N L2). rewrite Rplus_0_l in Q1, Q2. rewrite sph_uu_val, sph_vv_val by assumption. split.
  - match goal with |- Rabs ?a < _ => match type of Q1 with Rabs ?b < _ => replace a with b; [exact Q1|] end end.
    assert (Z : eval (along_r p t 0) pulses = 0).
    { unfold_ex pulses. cbn [eval along_r ep exx Nat.ltb Nat.leb Nat.eqb]. rewrite even_exp. ring. }
    assert (V : val sph_uu_r0 p t (fun _ => 0) = eval (along_r p t 0) (diff 4 pulses) + 2).
    { unfold val. unfold_ex sph_uu_r0. unfold_ex (diff 4 pulses). cbn [eval st along_r ep exx Nat.ltb Nat.leb Nat.eqb].
      rewrite origin_dist. ring. }
    rewrite Z, V. field. exact N.
  - match goal with |- Rabs ?a < _ => match type of Q2 with Rabs ?b < _ => replace a with b; [exact Q2|] end end.
    assert (Z : eval (along_r p t 0) (diff 3 pulses) = 0).
    { unfold_ex (diff 3 pulses). cbn [eval along_r ep exx Nat.ltb Nat.leb Nat.eqb]. rewrite even_exp. field. exact SG. }
    assert (V : val sph_vv_r0 p t (fun _ => 0) = eval (along_r p t 0) (diff 4 (diff 3 pulses))).
    { unfold val. unfold_ex sph_vv_r0. unfold_ex (diff 4 (diff 3 pulses)). cbn [eval st along_r ep exx Nat.ltb Nat.leb Nat.eqb].
      rewrite origin_dist. field. exact SG. }
    rewrite Z, V. field. exact N.
Qed.

(** ** The solutions do not cross zero *)
Lemma exp_bound : forall y, -1 < (1 - 2 * y) * exp (- y).
Proof.
  intros y. assert (E : 2 * y - 1 < exp y).
  { destruct (Rlt_dec y 0) as [N|N]; [pose proof (exp_pos y); lra|].
    replace y with (y / 2 + y / 2) at 2 by field. rewrite exp_plus.
    assert (A : 1 + y / 2 <= exp (y / 2)).
    { destruct (Req_dec (y / 2) 0) as [->|NZ]; [rewrite exp_0; lra|]. left. now apply exp_ineq1. }
    assert (B : (1 + y / 2) * (1 + y / 2) <= exp (y / 2) * exp (y / 2)) by (apply Rmult_le_compat; lra).
    pose proof (pow2_ge_0 (y / 2 - 1)). nra. }
  rewrite exp_Ropp. pose proof (exp_pos y) as P. apply Rmult_lt_reg_r with (exp y); [exact P|].
  rewrite Rmult_assoc, Rinv_l by lra. lra.
Qed.
Definition bump (s u : R) : R := u * exp (- u ^ 2 / (2 * s ^ 2)).
Lemma bump_d : forall s u, s <> 0 -> derivable_pt_lim (bump s) u ((1 - 2 * (u ^ 2 / (2 * s ^ 2))) * exp (- (u ^ 2 / (2 * s ^ 2)))).
Proof.
  intros s u N. unfold bump. assert (N2 : 2 * s ^ 2 <> 0) by (pose proof (pow_nonzero _ 2 N); lra).
  eapply lim_eq; [apply lim_mul; [apply derivable_pt_lim_id|apply (lim_comp (fun u => - u ^ 2 / (2 * s ^ 2)) exp); [|apply derivable_pt_lim_exp]]|].
  - apply (lim_eq _ _ (- (2 * u) / (2 * s ^ 2))); [|reflexivity].
    apply (lim_ext (fun u => - / (2 * s ^ 2) * u ^ 2)); [intros; field; exact N|].
    eapply lim_eq; [apply lim_mul; [apply derivable_pt_lim_const|apply derivable_pt_lim_pow]|]. unfold fct_cte. cbn [INR pred]. field. exact N.
  - cbv beta. replace (- u ^ 2 / (2 * s ^ 2)) with (- (u ^ 2 / (2 * s ^ 2))) by (field; exact N). unfold id. field. exact N.
Qed.
(** "Adding 2 ensures relative error is well defined (solution does not cross zero)": uu stays positive at all times. *)
Theorem C69_positive : forall WaveType p s t x, WaveEquation_solution_Cartesian WaveType = Ok s -> domain WaveType p x -> 0 < val (s_uu s) p t x.
Proof.
  intros WT p s t x H D. unfold WaveEquation_solution_Cartesian, domain in *. destruct (String.eqb WT "PlaneWave").
  - injection H as <-. unfold val. cbn [s_uu]. unfold plane_uu. rewrite eval_sadd. cbn [eval].
    match goal with |- context [sin ?a] => pose proof (SIN_bound a) end. lra.
  - destruct (String.eqb WT "SphericalGaussian"); [|discriminate]. injection H as <-. destruct D as [SG O]. cbn [s_uu].
    assert (DP : 0 < dist x) by (apply sqrt_lt_R0; now apply norm_pos). rewrite sph_uu_val by assumption.
    set (r := dist x) in *. set (ct := p "wavespeed"%string * t).
    assert (E : eval (along_r p t r) pulses = bump (p "sigma"%string) (ct + r) - bump (p "sigma"%string) (ct - r)).
    { unfold_ex pulses. cbn [eval along_r ep exx Nat.ltb Nat.leb Nat.eqb]. fold ct. unfold bump.
      replace (- (r - ct) ^ 2) with (- (ct - r) ^ 2) by ring. replace (r + ct) with (ct + r) by ring. ring. }
    rewrite E.
    destruct (MVT_cor2 (bump (p "sigma"%string)) (fun u => (1 - 2 * (u ^ 2 / (2 * p "sigma"%string ^ 2))) * exp (- (u ^ 2 / (2 * p "sigma"%string ^ 2))))
      (ct - r) (ct + r)) as (xi & M & _); [lra|intros; now apply bump_d|].
    rewrite M. pose proof (exp_bound (xi ^ 2 / (2 * p "sigma"%string ^ 2))) as B. set (q := _ * exp _) in *.
    replace (q * (ct + r - (ct - r)) / r) with (2 * q) by (field; lra). lra.
Qed.

(** ** Examples *)
(** a plane wave along x at its zero, travelling; a Gaussian pulse of width 1 at distance 1, momentarily at rest *)
Definition ex_p (s : string) : R := if String.eqb s "kk1" then 0 else if String.eqb s "kk2" then 0 else 1.
Definition ex_x (k : nat) : R := match k with 0%nat => 1 | _ => 0 end.
Example ex_C69_exact : exists s, WaveEquation_solution_Cartesian "PlaneWave" = Ok s /\ has_k ex_p /\
  val (s_uu s) ex_p 1 ex_x = 2 /\ val (s_vv s) ex_p 1 ex_x = -1.
Proof.
  eexists. split; [reflexivity|]. split; [left; cbn; lra|]. cbn [s_uu s_vv]. unfold val.
  unfold_ex plane_uu. unfold_ex plane_vv. cbn. replace (1 * (1 * 1) + 0 * (0 * 1) + 0 * (0 * 1)) with 1 by ring. rewrite sqrt_1.
  replace ((1 * 1 + 0 * 0 + 0 * 0) / 1 - 1 * 1) with 0 by field. rewrite sin_0, cos_0. lra.
Qed.
Example ex_C69_positive : exists s, WaveEquation_solution_Cartesian "SphericalGaussian" = Ok s /\ domain "SphericalGaussian" ex_p ex_x /\
  val (s_uu s) ex_p 0 ex_x = 2 * exp (-1 / 2) + 2 /\ val (s_vv s) ex_p 0 ex_x = 0.
Proof.
  eexists. split; [reflexivity|]. split; [split; [cbn; lra|left; cbn; lra]|]. cbn [s_uu s_vv].
  assert (D : dist ex_x = 1) by (unfold dist; cbn; replace (1 * (1 * 1) + 0 * (0 * 1) + 0 * (0 * 1)) with 1 by ring; apply sqrt_1).
  rewrite sph_uu_val, sph_vv_val by (rewrite ?D; cbn; lra). rewrite D.
  unfold_ex pulses. unfold_ex (diff 3 pulses). cbn.
  replace (- ((1 - 1 * 0) * ((1 - 1 * 0) * 1)) / (2 * (1 * (1 * 1)))) with (-1 / 2) by field.
  replace (- ((1 + 1 * 0) * ((1 + 1 * 0) * 1)) / (2 * (1 * (1 * 1)))) with (-1 / 2) by field. split; field.
Qed.
(** at the origin, at time 0: uu is 4 and vv is 0 *)
Example ex_C69_origin : exists s uu0 vv0, WaveEquation_solution_Cartesian "SphericalGaussian" = Ok s /\ s_r0 s = Some (uu0, vv0) /\
  val uu0 ex_p 0 (fun _ => 0) = 4 /\ val vv0 ex_p 0 (fun _ => 0) = 0.
Proof.
  eexists _, _, _. split; [reflexivity|]. split; [reflexivity|]. unfold val.
  unfold_ex sph_uu_r0. unfold_ex sph_vv_r0. cbn. replace (0 * (0 * 1) + 0 * (0 * 1) + 0 * (0 * 1)) with 0 by ring. rewrite sqrt_0.
  replace (- ((0 - 1 * 0) * ((0 - 1 * 0) * 1)) / (2 * (1 * (1 * 1)))) with 0 by field.
  replace (- ((0 + 1 * 0) * ((0 + 1 * 0) * 1)) / (2 * (1 * (1 * 1)))) with 0 by field. rewrite exp_0. split; field.
Qed.
(** u = x^2 in every coordinate system: the right-hand side is 2 c^2 *)
Definition ex_grad (x : nat -> R) (a : nat) : R := match a with 0%nat => 2 * x 0%nat | _ => 0 end.
Definition ex_hess (a b : nat) : R := match a, b with 0%nat, 0%nat => 2 | _, _ => 0 end.
Lemma ex_gradient : forall x, gradient (fun x => x 0%nat ^ 2) x (ex_grad x) /\ forall a, gradient (fun x => ex_grad x a) x (ex_hess a).
Proof.
  intros x. split; [|intros a]; intros eps He.
  - exists eps. split; [exact He|]. intros y H. specialize (H 0%nat ltac:(lia)). unfold sum3, ex_grad.
    replace (y 0%nat ^ 2 - x 0%nat ^ 2 - (2 * x 0%nat * (y 0%nat - x 0%nat) + 0 * (y 1%nat - x 1%nat) + 0 * (y 2%nat - x 2%nat)))
      with ((y 0%nat - x 0%nat) * (y 0%nat - x 0%nat)) by ring.
    rewrite Rabs_mult. pose proof (Rabs_pos (y 0%nat - x 0%nat)). pose proof (Rabs_pos (y 1%nat - x 1%nat)). pose proof (Rabs_pos (y 2%nat - x 2%nat)). nra.
  - exists 1. split; [lra|]. intros y _. match goal with |- Rabs ?e <= _ => replace e with 0 end.
    + rewrite Rabs_R0. unfold sum3. pose proof (Rabs_pos (y 0%nat - x 0%nat)). pose proof (Rabs_pos (y 1%nat - x 1%nat)). pose proof (Rabs_pos (y 2%nat - x 2%nat)). nra.
    + unfold sum3, ex_grad, ex_hess. destruct a; ring.
Qed.
Example ex_C69_laplacian : exists r v uD uDD, reference_metric "SinhSymTP" false = Ok r /\ good (ep v) /\ inside (r_coord r) v /\
  derivs (here r (fun x => x 0%nat ^ 2)) v uD uDD /\ forall c vv, curv_rhs r v c vv uD uDD = (vv, 2 * c ^ 2).
Proof.
  destruct (C58_ex_point "SinhSymTP" ltac:(cbn; tauto) false) as (r & v & HR & G & IN).
  exists r, v, (fun w l => 2 * cart r w 0%nat * eval w (jac r 0 l)),
    (fun k l => 2 * eval v (jac r 0 l) * eval v (jac r 0 k) + 2 * cart r v 0%nat * sum3 (fun i => eval v (jac r 0 i) * eval v (GammahatUDD r i k l))).
  assert (DV : derivs (here r (fun x => x 0%nat ^ 2)) v (fun w l => 2 * cart r w 0%nat * eval w (jac r 0 l))
    (fun k l => 2 * eval v (jac r 0 l) * eval v (jac r 0 k) + 2 * cart r v 0%nat * sum3 (fun i => eval v (jac r 0 i) * eval v (GammahatUDD r i k l)))).
  { split.
    - eapply near_imp; [exact (near_inside _ _ _ _ HR IN)|]. intros w [EP IW] l Hl. unfold here.
      assert (GW : good (ep w)) by now rewrite EP.
      eapply d_eq; [| |apply d_mult; apply (cart_upd_d _ _ _ _ HR GW IW 0 l); lia]; [intros w0; cbn [pow]; ring|]. cbn beta. ring.
    - intros k l Hk Hl. apply d_mult; [apply d_scal; apply (cart_upd_d _ _ _ _ HR G IN 0 l); lia|].
      apply (C58_connection _ _ _ HR G IN 0 k l); lia. }
  split; [exact HR|]. split; [exact G|]. split; [exact IN|]. split; [exact DV|]. intros c vv.
  rewrite (C69_laplacian _ r v (fun x => x 0%nat ^ 2) ex_grad ex_hess c vv _ _ HR G IN) by
    first [exact DV|intros; apply ex_gradient|(eapply near_imp; [exact (near_inside _ _ _ _ HR IN)|intros; apply ex_gradient])].
  f_equal. unfold sum3, ex_hess. ring.
Qed.
Example ex_C69_exact_curvilinear : exists r s, let v := sample KSinhSymTP in
  reference_metric "SinhSymTP" false = Ok r /\ good (ep v) /\ inside (r_coord r) v /\
  WaveEquation_solution_Cartesian "PlaneWave" = Ok s /\ domain "PlaneWave" (ep v) (cart r v).
Proof.
  destruct (kind_ok "SinhSymTP" KSinhSymTP false eq_refl I) as (r & H). exists r. eexists. cbn zeta. split; [exact H|].
  split; [exact good_sample|]. destruct (rm_kinds _ _ r H) as (q & E & NQ & _). split; [|split; [reflexivity|left; cbn; lra]].
  pose proof (named_coord _ q NQ) as EQ. change (coord_system "SinhSymTP") with (Ok (coord_of KSinhSymTP)) in EQ. apply ok_inj in EQ.
  rewrite E, <- EQ. apply inside_sample.
Qed.

Print Assumptions C69_exact.
Print Assumptions C69_laplacian.
Print Assumptions C69_exact_curvilinear.
Print Assumptions C69_refused.
Print Assumptions C69_origin.
Print Assumptions C69_positive.
