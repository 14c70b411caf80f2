(** C70: NRPyElliptic.  Two Bowen-York punctures on the z axis, and the hyperbolic relaxation of the Hamiltonian constraint. *)
From Coq Require Import String List ZArith Bool Arith Lia Reals Lra FunctionalExtensionality.
From Verif Require Import PyBase Inverter RefMetric RefMetricReal RefMetricCalc RefMetricFacts RefMetricInvFacts RefMetricFlat RefMetricAccept
  PropRefMetric BSSNCalc WaveEquation WaveFacts PropWaveEquation NRPyElliptic NRPyEllipticFacts.
Import ListNotations.
Local Open Scope R_scope.

(** ** What the source terms should be *)
(** position relative to puncture [n], which sits at z = zPunc (n = 0) or z = - zPunc (n = 1) *)
Definition rel (p : string -> R) (n : nat) (x : nat -> R) (i : nat) : R :=
  match i with 2%nat => match n with 0%nat => x 2%nat - p "zPunc"%string | _ => x 2%nat + p "zPunc"%string end | _ => x i end.
Definition square (p : string -> R) (n : nat) (x : nat -> R) : R := rel p n x 0%nat ^ 2 + rel p n x 1%nat ^ 2 + rel p n x 2%nat ^ 2.
Definition rr (p : string -> R) (n : nat) (x : nat -> R) : R := sqrt (square p n x).
Definition mass (p : string -> R) (n : nat) : R := p (match n with 0%nat => "bare_mass_0" | _ => "bare_mass_1" end)%string.
Definition mom (p : string -> R) (n i : nat) : R :=
  p (match n, i with 0, 0 => "P0_x" | 0, 1 => "P0_y" | 0, _ => "P0_z" | _, 0 => "P1_x" | _, 1 => "P1_y" | _, _ => "P1_z" end)%string%nat.
Definition spin (p : string -> R) (n i : nat) : R :=
  p (match n, i with 0, 0 => "S0_x" | 0, 1 => "S0_y" | 0, _ => "S0_z" | _, 0 => "S1_x" | _, 1 => "S1_y" | _, _ => "S1_z" end)%string%nat.
Definition off_punctures (p : string -> R) (x : nat -> R) : Prop := 0 < square p 0 x /\ 0 < square p 1 x.
(** the permutation symbol *)
Definition eps (i j k : nat) : R :=
  (match i, j, k with 0, 1, 2 | 1, 2, 0 | 2, 0, 1 => 1%R | 0, 2, 1 | 2, 1, 0 | 1, 0, 2 => (-1)%R | _, _, _ => 0%R end)%nat.
(** the Bowen-York solution of the momentum constraint for momentum P and spin S at distance r in direction n *)
Definition bowen_york1 (p : string -> R) (m : nat) (x : nat -> R) (i j : nat) : R :=
  let r := rr p m x in
  let n i := rel p m x i / r in
  let P := mom p m in
  let S := spin p m in
  3 / (2 * r ^ 2) * (P i * n j + P j * n i - (delta i j - n i * n j) * sum3 (fun k => P k * n k))
  + 3 / r ^ 3 * (sum3 (fun k => sum3 (fun l => eps k i l * S l * n k)) * n j + sum3 (fun k => sum3 (fun l => eps k j l * S l * n k)) * n i).
Definition bowen_york (p : string -> R) (x : nat -> R) (i j : nat) : R := bowen_york1 p 0 x i j + bowen_york1 p 1 x i j.
(** the divergence of the vector the curvature is built from *)
Definition theta1 (p : string -> R) (m : nat) (x : nat -> R) : R := 3 / 2 * sum3 (fun k => rel p m x k * mom p m k) / rr p m x ^ 3.
Definition theta (p : string -> R) (x : nat -> R) : R := theta1 p 0 x + theta1 p 1 x.
Definition psi_bg (p : string -> R) (x : nat -> R) : R := 1 + mass p 0 / (2 * rr p 0 x) + mass p 1 / (2 * rr p 1 x).
(** what is computed: [bowen_york] with an error proportional to [theta] *)
Definition computed (p : string -> R) (x : nat -> R) (i j : nat) : R := bowen_york p x i j + 2 / 3 * theta p x * (2 * delta i j - 1).

Lemma rel_val : forall v n i, (n < 2)%nat -> (i < 3)%nat -> eval v (xU n i) = rel (ep v) n (exx v) i.
Proof. intros v [|[|n]] [|[|[|i]]] Hn Hi; try lia; reflexivity. Qed.
Lemma mom_val : forall v n i, eval v (PU n i) = mom (ep v) n i.
Proof. intros v [|n] [|[|i]]; reflexivity. Qed.
Lemma spin_val : forall v n i, eval v (SU n i) = spin (ep v) n i.
Proof. intros v [|n] [|[|i]]; reflexivity. Qed.
Lemma levi_val : forall i j k, (i < 3)%nat -> (j < 3)%nat -> (k < 3)%nat -> IZR (levi i j k) = eps i j k.
Proof. intros [|[|[|i]]] [|[|[|j]]] [|[|[|k]]] Hi Hj Hk; try lia; reflexivity. Qed.

Section At.
Variable v : env.
Hypothesis off : off_punctures (ep v) (exx v).
Notation V n := (VU_cart_single_puncture (xU n) (PU n) (SU n)).
Lemma sq_pos : forall n, (n < 2)%nat -> 0 < eval v (xU n 0) ^ 2 + eval v (xU n 1) ^ 2 + eval v (xU n 2) ^ 2.
Proof using off. intros n Hn. rewrite !rel_val by lia. destruct n as [|[|n]]; [apply off|apply off|lia]. Qed.
Lemma radius_val : forall n, (n < 2)%nat -> radius n v = rr (ep v) n (exx v).
Proof using. intros n Hn. unfold radius, rr, square. now rewrite !rel_val by lia. Qed.
Lemma dV : forall n i j, (n < 2)%nat -> (i < 3)%nat -> (j < 3)%nat -> eval v (diff j (V n i)) =
  let X := rel (ep v) n (exx v) in let P := mom (ep v) n in let S := spin (ep v) n in let r := rr (ep v) n (exx v) in
  7 / 4 * P i * X j / r ^ 3 - 1 / 4 * (P j * X i + sum3 (fun k => X k * P k) * delta i j) / r ^ 3 + 3 / 4 * sum3 (fun k => X k * P k) * X i * X j / r ^ 5
  + sum3 (fun k => eps i j k * S k) / r ^ 3 - 3 * sum3 (fun a => sum3 (fun b => eps i a b * X a * S b)) * X j / r ^ 5.
Proof using off.
  intros n i j Hn Hi Hj. rewrite (V_first n v Hn (sq_pos n Hn) i j Hi Hj). cbn zeta. unfold sum3.
  rewrite radius_val by lia. rewrite !rel_val by lia. rewrite !mom_val, !spin_val, !levi_val by lia. reflexivity.
Qed.
Lemma div_val : forall n, (n < 2)%nat -> sum3 (fun i => eval v (diff i (V n i))) = theta1 (ep v) n (exx v).
Proof using off.
  intros n Hn. pose proof (sq_pos n Hn) as O. pose proof (r_sq n v O) as RS. pose proof (r_pos n v O) as RP.
  rewrite radius_val in RS, RP by lia. rewrite !rel_val in RS by lia.
  unfold theta1, sum3. rewrite !dV by lia. cbn zeta. unfold sum3, delta, eps. cbn [Nat.eqb].
  set (r := rr _ _ _) in *. field_simplify_eq; [ring [RS]|lra].
Qed.
Lemma sym_val : forall n i j, (n < 2)%nat -> (i < 3)%nat -> (j < 3)%nat ->
  eval v (diff j (V n i)) + eval v (diff i (V n j)) = bowen_york1 (ep v) n (exx v) i j + 2 / 3 * theta1 (ep v) n (exx v) * delta i j.
Proof using off.
  intros n i j Hn Hi Hj. pose proof (sq_pos n Hn) as O. pose proof (r_sq n v O) as RS. pose proof (r_pos n v O) as RP.
  rewrite radius_val in RS, RP by lia. rewrite !rel_val in RS by lia.
  rewrite !dV by assumption. unfold bowen_york1, theta1, sum3, delta. cbn zeta. set (r := rr _ _ _) in *.
  set (X := rel _ _ _) in *. set (P := mom _ _) in *. set (S := spin _ _) in *. clearbody X P S r.
  destruct i as [|[|[|i]]]; try lia; destruct j as [|[|[|j]]]; try lia; cbn [Nat.eqb eps]; field_simplify_eq; try lra; ring [RS].
Qed.
Lemma ADD_val : forall i j, (i < 3)%nat -> (j < 3)%nat -> eval v (ADD_conf_cart i j) = computed (ep v) (exx v) i j.
Proof using off.
  intros i j Hi Hj. unfold ADD_conf_cart, ADD_conf_cartesian, V_cart_div, sumex, VU_cart_two_punctures. cbn [fold_left].
  ev. ed. pose proof (sym_val 0 i j ltac:(lia) Hi Hj) as A. pose proof (sym_val 1 i j ltac:(lia) Hi Hj) as B.
  pose proof (div_val 0 ltac:(lia)) as C. pose proof (div_val 1 ltac:(lia)) as D. unfold sum3 in C, D.
  unfold computed, bowen_york, theta. unfold kronecker_delta, delta in *. destruct (Nat.eqb i j); cbn [eval frac]; lra.
Qed.
Lemma AA_val : eval v (ADD_times_AUU_conf_cartesian ADD_conf_cart) = sum3 (fun i => sum3 (fun j => computed (ep v) (exx v) i j ^ 2)).
Proof using off.
  unfold ADD_times_AUU_conf_cartesian. cbn [fold_left]. ev. rewrite !ADD_val by lia. unfold sum3. cbn [eval]. ring.
Qed.
End At.

(** ** The source terms *)
(** The extrinsic curvature computed is that of Bowen and York, off by 2/3 theta (2 delta_ij - 1), because kronecker_delta is 0 on the
    diagonal and 1 off it.  theta is proportional to the momenta. *)
Theorem C70_curvature : forall p x i j, off_punctures p x -> (i < 3)%nat -> (j < 3)%nat ->
  val (ADD_conf_cart i j) p 0 x = bowen_york p x i j + 2 / 3 * theta p x * (2 * delta i j - 1).
Proof.
  intros p x i j O Hi Hj. pose proof (ADD_val (st p 0 x) O i j Hi Hj) as H.
  destruct i as [|[|[|i]]]; try lia; destruct j as [|[|[|j]]]; try lia; exact H.
Qed.

Definition no_momentum (p : string -> R) : Prop := forall n i, mom p n i = 0.
Lemma theta_0 : forall p x, no_momentum p -> theta p x = 0.
Proof. intros p x H. unfold theta, theta1, sum3. rewrite !H. unfold Rdiv. ring. Qed.
Lemma by_trace : forall p x, off_punctures p x -> sum3 (fun i => bowen_york p x i i) = 0.
Proof.
  intros p x [O0 O1].
  assert (T : forall m, 0 < square p m x -> bowen_york1 p m x 0 0 + bowen_york1 p m x 1 1 + bowen_york1 p m x 2 2 = 0).
  { intros m O. assert (RP : 0 < rr p m x) by now apply sqrt_lt_R0.
    assert (RS : rel p m x 2%nat * rel p m x 2%nat = rr p m x * rr p m x - rel p m x 0%nat * rel p m x 0%nat - rel p m x 1%nat * rel p m x 1%nat).
    { unfold rr. rewrite sqrt_sqrt by lra. unfold square. ring. }
    unfold bowen_york1, sum3, delta. cbn zeta. cbn [Nat.eqb eps]. set (r := rr _ _ _) in *. field_simplify_eq; [ring [RS]|lra]. }
  unfold sum3, bowen_york. pose proof (T 0%nat O0). pose proof (T 1%nat O1). lra.
Qed.
Lemma by_sym : forall p x i j, bowen_york p x i j = bowen_york p x j i.
Proof. intros. unfold bowen_york, bowen_york1, delta. cbn zeta. rewrite (Nat.eqb_sym j i). ring. Qed.
(** Its trace: 2 theta, where the conformal extrinsic curvature is to be tracefree. *)
Theorem C70_trace : forall p x, off_punctures p x -> sum3 (fun i => val (ADD_conf_cart i i) p 0 x) = 2 * theta p x.
Proof.
  intros p x O. unfold sum3. rewrite !C70_curvature by (assumption || lia). pose proof (by_trace p x O) as T. unfold sum3 in T.
  unfold delta. cbn [Nat.eqb]. lra.
Qed.
Lemma rr_st : forall p t x n, square (ep (st p t x)) n (exx (st p t x)) = square p n x.
Proof. intros p t x [|n]; reflexivity. Qed.
Lemma VU_wd : forall p t x i, off_punctures p x -> (i < 3)%nat -> wd (st p t x) (VU_cart_two_punctures i).
Proof.
  intros p t x i O Hi. unfold VU_cart_two_punctures.
  apply wd_sadd; (apply V_wd; [lia|apply sq_pos; [exact O|lia]|exact Hi]).
Qed.
Lemma ADD_wd : forall p t x i j, off_punctures p x -> (i < 3)%nat -> (j < 3)%nat -> wd (st p t x) (ADD_conf_cart i j).
Proof.
  intros p t x i j O Hi Hj. pose proof (fun k => VU_wd p t x k O) as W. unfold ADD_conf_cart, ADD_conf_cartesian, V_cart_div, sumex. cbn [fold_left].
  apply wd_ssub; [apply wd_sadd; apply wd_diff; auto|]. apply wd_smul.
  - apply wd_smul; [cbn; repeat split; lra|]. unfold kronecker_delta. destruct (Nat.eqb i j); exact I.
  - apply wd_sadd; [apply wd_sadd; [apply wd_sadd; [exact I|]|]|]; apply wd_diff; apply W; lia.
Qed.
Lemma edd_sadd : forall v a b e f, eval v (diff a (diff b (sadd e f))) = eval v (diff a (diff b e)) + eval v (diff a (diff b f)).
Proof.
  intros v a b e f. assert (C : sadd e f = Add e f \/ (e = Num 0 /\ sadd e f = f) \/ (f = Num 0 /\ sadd e f = e)).
  { destruct e as [[| |]| | | | | | | | | | | | | | | | | | | |]; auto; destruct f as [[| |]| | | | | | | | | | | | | | | | | | | |]; auto. }
  destruct C as [->|[[-> ->]|[-> ->]]]; cbn [diff eval]; [now rewrite ed_sadd|ring|ring].
Qed.
Lemma V_sum : forall p t x i, off_punctures p x -> (i < 3)%nat ->
  sum3 (fun j => val (diff j (diff j (VU_cart_two_punctures i))) p t x + 1 / 3 * val (diff i (diff j (VU_cart_two_punctures j))) p t x) = 0.
Proof.
  intros p t x i O Hi. unfold val.
  pose proof (V_second 0 (st p t x) ltac:(lia) (sq_pos (st p t x) O 0 ltac:(lia)) i Hi) as A.
  pose proof (V_second 1 (st p t x) ltac:(lia) (sq_pos (st p t x) O 1 ltac:(lia)) i Hi) as B.
  assert (L : forall a b k, eval (st p t x) (diff a (diff b (VU_cart_two_punctures k))) =
    eval (st p t x) (diff a (diff b (VU_cart_single_puncture (xU 0) (PU 0) (SU 0) k))) + eval (st p t x) (diff a (diff b (VU_cart_single_puncture (xU 1) (PU 1) (SU 1) k)))).
  { intros a b k. apply edd_sadd. }
  unfold sum3 in *. rewrite !L. lra.
Qed.

Lemma val_sadd : forall a b p t x l, val (diff l (sadd a b)) p t x = val (diff l a) p t x + val (diff l b) p t x.
Proof. intros. unfold val. apply ed_sadd. Qed.
Lemma div_diff : forall (V : nat -> ex) p t x l,
  val (diff l (V_cart_div V)) p t x = val (diff l (diff 0 (V 0%nat))) p t x + val (diff l (diff 1 (V 1%nat))) p t x + val (diff l (diff 2 (V 2%nat))) p t x.
Proof.
  intros V p t x l. unfold V_cart_div, sumex. cbn [fold_left]. rewrite !val_sadd.
  assert (Z : val (diff l (Num 0)) p t x = 0) by (cbn; reflexivity || (cbn; lra)). rewrite Z, Rplus_0_l. reflexivity.
Qed.
Lemma div_alg : forall a0 a1 a2 b0 b1 b2 k0 k1 k2 t0 t1 t2,
  a0 + 1 / 3 * b0 + (a1 + 1 / 3 * b1) + (a2 + 1 / 3 * b2) = 0 -> b0 + b1 + b2 = 0 -> t0 = 0 -> t1 = 0 -> t2 = 0 ->
  a0 + b0 - k0 * t0 + (a1 + b1 - k1 * t1) + (a2 + b2 - k2 * t2) = 0.
Proof. intros. subst. lra. Qed.
Lemma ADD_diff : forall (V : nat -> ex) p t x i j,
  val (diff j (ADD_conf_cartesian V i j)) p t x =
  val (diff j (diff j (V i))) p t x + val (diff j (diff i (V j))) p t x - val (smul (frac 2 3) (kronecker_delta i j)) p t x * val (diff j (V_cart_div V)) p t x.
Proof.
  intros V p t x i j. unfold ADD_conf_cartesian, val. rewrite ed_ssub, ed_sadd, ed_smul.
  assert (Z : eval (st p t x) (diff j (smul (frac 2 3) (kronecker_delta i j))) = 0).
  { unfold kronecker_delta. destruct (Nat.eqb i j); [reflexivity|]. cbn. field. }
  rewrite Z, Rmult_0_l, Rplus_0_l. reflexivity.
Qed.
Lemma div_generic : forall (V : nat -> ex) p x i, (i < 3)%nat -> (forall k, (k < 3)%nat -> wd (st p 0 x) (V k)) ->
  sum3 (fun j => val (diff j (diff j (V i))) p 0 x + 1 / 3 * val (diff i (diff j (V j))) p 0 x) = 0 ->
  (forall l, (l < 3)%nat -> val (diff l (V_cart_div V)) p 0 x = 0) ->
  sum3 (fun j => val (diff j (ADD_conf_cartesian V i j)) p 0 x) = 0.
Proof.
  intros V p x i Hi W VS TH. pose proof (TH i Hi) as TI. rewrite div_diff in TI. unfold sum3 in *.
  assert (S : forall k, (k < 3)%nat -> val (diff k (diff i (V k))) p 0 x = val (diff i (diff k (V k))) p 0 x).
  { intros k Hk. unfold val. apply diff_sym. now apply W. }
  rewrite !ADD_diff, !S by lia.
  apply div_alg; [exact VS|exact TI|apply TH; lia|apply TH; lia|apply TH; lia].
Qed.
Lemma div_exists : forall (V : nat -> ex) p x, (forall k, (k < 3)%nat -> wd (st p 0 x) (V k)) ->
  (forall i j, (i < 3)%nat -> (j < 3)%nat -> wd (st p 0 x) (ADD_conf_cartesian V i j)) ->
  (forall i, (i < 3)%nat -> sum3 (fun j => val (diff j (diff j (V i))) p 0 x + 1 / 3 * val (diff i (diff j (V j))) p 0 x) = 0) ->
  (forall l, (l < 3)%nat -> val (diff l (V_cart_div V)) p 0 x = 0) ->
  exists D, (forall i j, (i < 3)%nat -> (j < 3)%nat -> partial (val (ADD_conf_cartesian V i j) p 0) j x (D i j)) /\
  forall i, (i < 3)%nat -> sum3 (fun j => D i j) = 0.
Proof.
  intros V p x W WA VS TH. exists (fun i j => val (diff j (ADD_conf_cartesian V i j)) p 0 x). split.
  - intros i j Hi Hj. apply val_space; [exact Hj|now apply WA].
  - intros i Hi. exact (div_generic V p x i Hi W (VS i Hi) TH).
Qed.
Lemma near_off : forall p x l, off_punctures p x -> exists d, 0 < d /\ forall s, Rabs (s - x l) < d -> off_punctures p (set3 x l s).
Proof.
  intros p x l [O0 O1].
  assert (SQ : forall n, exists y, derivable_pt_lim (fun s => square p n (set3 x l s)) (x l) y).
  { intros n. unfold square.
    assert (PW : forall k, exists y, derivable_pt_lim (fun s => rel p n (set3 x l s) k ^ 2) (x l) y).
    { intros k. assert (RL : exists y, derivable_pt_lim (fun s => rel p n (set3 x l s) k) (x l) y).
      { assert (ST : forall j, exists y, derivable_pt_lim (fun s => set3 x l s j) (x l) y).
        { intros j. unfold set3. destruct (Nat.eqb j l); eexists; [apply derivable_pt_lim_id|apply derivable_pt_lim_const]. }
        unfold rel. destruct k as [|[|[|k]]]; try apply ST. destruct (ST 2%nat) as [y Y].
        destruct n; eexists; [apply lim_sub; [exact Y|apply derivable_pt_lim_const]|apply lim_add; [exact Y|apply derivable_pt_lim_const]]. }
      destruct RL as [y Y]. eexists. apply (lim_comp _ (fun u => u ^ 2) _ y _ Y (derivable_pt_lim_pow _ 2)). }
    destruct (PW 0%nat) as [a A], (PW 1%nat) as [b B], (PW 2%nat) as [c C]. eexists. apply lim_add; [apply lim_add; eassumption|exact C]. }
  assert (SX : set3 x l (x l) = x).
  { apply functional_extensionality. intros k. unfold set3. destruct (Nat.eqb_spec k l); subst; reflexivity. }
  destruct (SQ 0%nat) as [a A], (SQ 1%nat) as [b B].
  destruct (pos_near _ _ _ A) as (d & Dp & Q); [rewrite SX; exact O0|]. destruct (pos_near _ _ _ B) as (d' & Dp' & Q'); [rewrite SX; exact O1|].
  exists (Rmin d d'). split; [exact (Rmin_glb_lt _ _ _ Dp Dp')|]. intros s Hs. pose proof (Rmin_l d d'). pose proof (Rmin_r d d').
  split; [apply Q|apply Q']; lra.
Qed.
Lemma theta1_st : forall p t x n, (n < 2)%nat -> theta1 (ep (st p t x)) n (exx (st p t x)) = theta1 p n x.
Proof. intros p t x [|[|n]] Hn; try lia; reflexivity. Qed.
Lemma div_two : forall v, eval v (V_cart_div VU_cart_two_punctures) =
  sum3 (fun i => eval v (diff i (VU_cart_single_puncture (xU 0) (PU 0) (SU 0) i))) + sum3 (fun i => eval v (diff i (VU_cart_single_puncture (xU 1) (PU 1) (SU 1) i))).
Proof.
  intros v. assert (G : forall A B : nat -> ex, eval v (V_cart_div (fun i => sadd (A i) (B i))) = sum3 (fun i => eval v (diff i (A i))) + sum3 (fun i => eval v (diff i (B i)))).
  { intros A B. unfold V_cart_div, sumex, sum3. cbn [fold_left]. rewrite !eval_sadd, !ed_sadd. cbn [eval]. lra. }
  exact (G _ _).
Qed.
Lemma V_cart_div_val : forall p t x, off_punctures p x -> val (V_cart_div VU_cart_two_punctures) p t x = theta p x.
Proof.
  intros p t x O. unfold val. rewrite div_two, !div_val by (exact O || lia). rewrite !theta1_st by lia. reflexivity.
Qed.
Lemma V_cart_div_wd : forall p t x, off_punctures p x -> wd (st p t x) (V_cart_div VU_cart_two_punctures).
Proof.
  intros p t x O.
  assert (G : forall V : nat -> ex, (forall k, (k < 3)%nat -> wd (st p t x) (V k)) -> wd (st p t x) (V_cart_div V)).
  { intros V W. unfold V_cart_div, sumex. cbn [fold_left]. apply wd_sadd; [apply wd_sadd; [apply wd_sadd; [exact I|]|]|]; apply wd_diff; apply W; lia. }
  apply G. intros k Hk. now apply VU_wd.
Qed.
Lemma theta_flat : forall p x l, no_momentum p -> off_punctures p x -> (l < 3)%nat ->
  val (diff l (V_cart_div VU_cart_two_punctures)) p 0 x = 0.
Proof.
  intros p x l NM O Hl.
  pose proof (val_space _ p 0 x l Hl (V_cart_div_wd p 0 x O)) as D. unfold partial in D. eapply uniqueness_limite; [exact D|].
  destruct (near_off p x l O) as (d & Dp & Q). apply lim_local with (f := fun _ => 0) (d := d); [exact Dp| |apply derivable_pt_lim_const].
  intros s Hs. rewrite V_cart_div_val by exact (Q s Hs). now rewrite theta_0.
Qed.
(** Without momenta the computed curvature is the Bowen-York one, tracefree and divergence-free: it solves the momentum constraint. *)
Theorem C70_spin : forall p x, no_momentum p -> off_punctures p x ->
  (forall i j, (i < 3)%nat -> (j < 3)%nat -> val (ADD_conf_cart i j) p 0 x = bowen_york p x i j) /\
  sum3 (fun i => val (ADD_conf_cart i i) p 0 x) = 0 /\
  exists D, (forall i j, (i < 3)%nat -> (j < 3)%nat -> partial (val (ADD_conf_cart i j) p 0) j x (D i j)) /\
  forall i, (i < 3)%nat -> sum3 (fun j => D i j) = 0.
Proof.
  intros p x NM O. split; [|split].
  - intros i j Hi Hj. rewrite C70_curvature, theta_0 by assumption. ring.
  - rewrite C70_trace, theta_0 by assumption. ring.
  - pose proof (fun i j => ADD_wd p 0 x i j O) as WA. assert (E : ADD_conf_cart = ADD_conf_cartesian VU_cart_two_punctures) by reflexivity.
    rewrite E in WA |- *. apply div_exists.
    + intros k Hk. exact (VU_wd p 0 x k O Hk).
    + exact WA.
    + intros i Hi. exact (V_sum p 0 x i O Hi).
    + intros l Hl. exact (theta_flat p x l NM O Hl).
Qed.

(** ** The background conformal factor *)
Lemma psi_val : forall v, eval v psi_background_cartesian = psi_bg (ep v) (exx v).
Proof.
  intros v. unfold psi_background_cartesian, psi_single. rewrite !eval_sadd, !eval_sdiv, !eval_smul.
  assert (RD : forall n, (n < 2)%nat -> eval v (rad (xU n)) = rr (ep v) n (exx v)).
  { intros n Hn. unfold rad, sumex, rr, square. cbn [fold_left eval]. rewrite !eval_sadd, !eval_spow, !rel_val by lia. cbn [eval].
    f_equal. ring. }
  rewrite !RD by lia. unfold psi_bg, mass, bare_mass. cbn [eval]. reflexivity.
Qed.
Lemma psi_bg_wd : forall v, off_punctures (ep v) (exx v) -> wd v psi_background_cartesian.
Proof.
  intros v O. unfold psi_background_cartesian. apply wd_sadd; [apply wd_sadd; [exact I|]|]; apply psi_wd; try lia; apply sq_pos; (assumption || lia).
Qed.
Lemma psi_bg_harmonic : forall v, off_punctures (ep v) (exx v) -> sum3 (fun a => eval v (diff a (diff a psi_background_cartesian))) = 0.
Proof.
  intros v O.
  pose proof (psi_harmonic 0 v ltac:(lia) (sq_pos v O 0 ltac:(lia))) as A. pose proof (psi_harmonic 1 v ltac:(lia) (sq_pos v O 1 ltac:(lia))) as B.
  assert (G : forall f g, sum3 (fun a => eval v (diff a (diff a f))) = 0 -> sum3 (fun a => eval v (diff a (diff a g))) = 0 ->
    sum3 (fun a => eval v (diff a (diff a (sadd (sadd (Num 1) f) g)))) = 0).
  { intros f g F1 G1. unfold sum3 in *. rewrite !edd_sadd. assert (Z : forall a, eval v (diff a (diff a (Num 1))) = 0) by reflexivity. rewrite !Z. lra. }
  exact (G _ _ A B).
Qed.
(** It is 1 + m_0 / (2 r_0) + m_1 / (2 r_1), and harmonic off the punctures. *)
Theorem C70_background : forall p x, off_punctures p x ->
  val psi_background_cartesian p 0 x = 1 + mass p 0 / (2 * rr p 0 x) + mass p 1 / (2 * rr p 1 x) /\
  exists D D2, (forall y, off_punctures p y -> forall a, (a < 3)%nat -> partial (psi_bg p) a y (D a y)) /\
  (forall a, (a < 3)%nat -> partial (D a) a x (D2 a)) /\ sum3 D2 = 0.
Proof.
  intros p x O. split; [exact (psi_val (st p 0 x))|].
  assert (PV : forall y, val psi_background_cartesian p 0 y = psi_bg p y) by (intros y; exact (psi_val (st p 0 y))).
  exists (fun a => val (diff a psi_background_cartesian) p 0), (fun a => val (diff a (diff a psi_background_cartesian)) p 0 x).
  pose proof (psi_bg_wd (st p 0 x) O) as W. split; [|split].
  - intros y Oy a Ha. unfold partial. eapply lim_ext; [intros s; apply PV|].
    apply (val_space psi_background_cartesian p 0 y a Ha). exact (psi_bg_wd (st p 0 y) Oy).
  - intros a Ha. apply val_space; [exact Ha|now apply wd_diff].
  - exact (psi_bg_harmonic (st p 0 x) O).
Qed.

(** ** The relaxation equation *)
Lemma eval_subst : forall s v e, eval v (subst s e) = eval (MkEnv (ep v) (fun k => eval v (s k)) (ec v) (efn v)) e.
Proof. intros s v. induction e; cbn [subst eval ep exx ec efn]; ev; congruence. Qed.
Lemma off_near : forall cs pre r v, reference_metric cs pre = Ok r -> good (ep v) -> inside (r_coord r) v ->
  off_punctures (ep v) (cart r v) -> near v (fun w => off_punctures (ep w) (cart r w)).
Proof.
  intros cs pre r v HR GP IN [O0 O1].
  assert (P : forall n l, (l < 3)%nat -> 0 < square (ep v) n (cart r v) ->
    exists d, 0 < d /\ forall t, Rabs (t - exx v l) < d -> 0 < square (ep v) n (cart r (upd l t v))).
  { intros n l Hl O. pose proof (fun a Ha => cart_upd_d cs pre r v HR GP IN a l Ha Hl) as DC. unfold d_at in DC.
    assert (RL : forall k, (k < 3)%nat -> exists y, derivable_pt_lim (fun t => rel (ep v) n (cart r (upd l t v)) k) (exx v l) y).
    { intros k Hk. unfold rel. destruct k as [|[|[|k]]]; [| | |lia].
      - eexists. apply (DC 0%nat). lia.
      - eexists. apply (DC 1%nat). lia.
      - destruct n; eexists; [apply lim_sub; [apply (DC 2%nat); lia|apply derivable_pt_lim_const]|apply lim_add; [apply (DC 2%nat); lia|apply derivable_pt_lim_const]]. }
    assert (PW : forall k, (k < 3)%nat -> exists y, derivable_pt_lim (fun t => rel (ep v) n (cart r (upd l t v)) k ^ 2) (exx v l) y).
    { intros k Hk. destruct (RL k Hk) as [y Y]. eexists. apply (lim_comp _ (fun u => u ^ 2) _ y _ Y (derivable_pt_lim_pow _ 2)). }
    destruct (PW 0%nat) as [a A]; [lia|]. destruct (PW 1%nat) as [b B]; [lia|]. destruct (PW 2%nat) as [c C]; [lia|].
    apply (pos_near (fun t => square (ep v) n (cart r (upd l t v))) (exx v l) (a + b + c)).
    - unfold square. apply lim_add; [apply lim_add; assumption|exact C].
    - rewrite upd_same. exact O. }
  assert (Q : forall n, 0 < square (ep v) n (cart r v) -> near v (fun w => 0 < square (ep w) n (cart r w))).
  { intros n O. destruct (P n 0%nat ltac:(lia) O) as (d0 & D0 & Q0). destruct (P n 1%nat ltac:(lia) O) as (d1 & D1 & Q1). destruct (P n 2%nat ltac:(lia) O) as (d2 & D2 & Q2).
    exists (Rmin d0 (Rmin d1 d2)). split; [repeat apply Rmin_glb_lt; assumption|]. intros l t Hl T.
    pose proof (Rmin_l d0 (Rmin d1 d2)). pose proof (Rmin_r d0 (Rmin d1 d2)). pose proof (Rmin_l d1 d2). pose proof (Rmin_r d1 d2).
    destruct l as [|[|[|l]]]; [apply Q0|apply Q1|apply Q2|lia]; lra. }
  exact (near_and _ _ _ (Q 0%nat O0) (Q 1%nat O1)).
Qed.
Lemma sum3_minus : forall a b c : nat -> R, sum3 (fun k => a k * c k) - sum3 (fun k => b k * c k) = sum3 (fun k => (a k - b k) * c k).
Proof. intros. unfold sum3. ring. Qed.
(** the right-hand sides of [uu] and [vv] and the residual, with the source terms of a coordinate system *)
Definition relax (r : rfm) (v : env) (eta speed vv uu : R) (uD : env -> nat -> R) (uDD : nat -> nat -> R) : R * R * R :=
  let (psi, AA) := compute_psi_background_and_ADD_times_AUU (to_cart (r_coord r)) in
  relaxation_rhs eta uu vv speed (eval v psi) (eval v AA) (fun i j => eval v (ghatUU r i j)) (fun i j k => eval v (GammahatUDD r i j k)) (uD v) uDD.
(** In every coordinate system and for every twice differentiable conformal factor [Psi], with u = Psi - psi_background: vv_rhs is
    speed^2 times, and the residual is, the left-hand side of the Hamiltonian constraint Laplacian(Psi) + 1/8 A_ij A^ij Psi^-7,
    with the computed curvature. *)
Theorem C70_hamiltonian : forall cs r v Psi G H eta speed vv uD uDD,
  reference_metric cs false = Ok r -> good (ep v) -> inside (r_coord r) v -> off_punctures (ep v) (cart r v) ->
  near v (fun w => gradient Psi (cart r w) (G (cart r w))) ->
  (forall a, (a < 3)%nat -> gradient (fun x => G x a) (cart r v) (H a)) ->
  let u := fun w => Psi (cart r w) - psi_bg (ep w) (cart r w) in
  derivs u v uD uDD ->
  let A := computed (ep v) (cart r v) in
  let Ham := sum3 (fun a => H a a) + 1 / 8 * sum3 (fun i => sum3 (fun j => A i j ^ 2)) * / Psi (cart r v) ^ 7 in
  relax r v eta speed vv (u v) uD uDD = (vv - eta * u v, speed ^ 2 * Ham, Ham).
Proof.
  intros cs r v Psi G H eta speed vv uD uDD HR GP IN O HG HH u [HU HUU] A Ham.
  pose (B := psi_background_cartesian).
  assert (PV : forall w, psi_bg (ep w) (cart r w) = val B (ep w) 0 (cart r w)) by (intros w; symmetry; exact (psi_val (st (ep w) 0 (cart r w)))).
  assert (L : laplacian (fun i j => eval v (ghatUU r i j)) (fun i j k => eval v (GammahatUDD r i j k)) (uD v) uDD = sum3 (fun a => H a a)).
  { pose proof (psi_bg_harmonic (st (ep v) 0 (cart r v)) O) as HM. fold B in HM.
    rewrite (laplacian_core cs r v u (fun w a => G (cart r w) a - val (diff a B) (ep w) 0 (cart r w))
      (fun a b => H a b - val (diff b (diff a B)) (ep v) 0 (cart r v)) uD uDD HR GP IN); [| | |exact HU|exact HUU].
    - unfold sum3 in *. unfold val. clear - HM. revert HM. generalize (eval (st (ep v) 0 (cart r v)) (diff 0 (diff 0 B))), (eval (st (ep v) 0 (cart r v)) (diff 1 (diff 1 B))),
        (eval (st (ep v) 0 (cart r v)) (diff 2 (diff 2 B))). intros. lra.
    - eapply near_imp; [exact (near_and _ _ _ (near_and _ _ _ (near_inside _ _ _ _ HR IN) HG) (off_near cs false r v HR GP IN O))|].
      intros w [[[EP IW] GW] OW] l Hl. assert (GPw : good (ep w)) by now rewrite EP.
      assert (D1 : d_at (fun w => Psi (cart r w)) l w (sum3 (fun a => G (cart r w) a * eval w (jac r a l)))).
      { unfold d_at. apply (gradient_curve Psi (fun t => cart r (upd l t w))); [rewrite upd_same; exact GW|].
        intros a Ha. apply (C58_jacobian cs false r w HR GPw IW a l Ha Hl). }
      pose proof (val_curve cs r w 0 B l HR GPw IW Hl (psi_bg_wd (st (ep w) 0 (cart r w)) OW)) as D2.
      eapply d_eq; [| |exact (d_minus _ _ _ _ _ _ D1 D2)]; [intros w0; unfold u; now rewrite PV|].
      exact (sum3_minus (G (cart r w)) (fun b => val (diff b B) (ep w) 0 (cart r w)) (fun b => eval w (jac r b l))).
    - intros a l Ha Hl.
      assert (D1 : d_at (fun w => G (cart r w) a) l v (sum3 (fun b => H a b * eval v (jac r b l)))).
      { unfold d_at. apply (gradient_curve (fun x => G x a) (fun t => cart r (upd l t v))); [rewrite upd_same; now apply HH|].
        intros b Hb. apply (C58_jacobian cs false r v HR GP IN b l Hb Hl). }
      pose proof (val_curve cs r v 0 (diff a B) l HR GP IN Hl (wd_diff _ a _ (psi_bg_wd (st (ep v) 0 (cart r v)) O))) as D2.
      eapply d_eq; [| |exact (d_minus _ _ _ _ _ _ D1 D2)]; [reflexivity|].
      exact (sum3_minus (H a) (fun b => val (diff b (diff a B)) (ep v) 0 (cart r v)) (fun b => eval v (jac r b l))). }
  unfold relax, compute_psi_background_and_ADD_times_AUU, relaxation_rhs, relaxation_residual, replace_cart_coord_by_xx. rewrite !eval_subst.
  pose (w := MkEnv (ep v) (fun k => eval v (to_cart (r_coord r) k)) (ec v) (efn v)).
  assert (OW : off_punctures (ep w) (exx w)) by exact O.
  fold w. rewrite psi_val, (AA_val w OW), L. change (psi_bg (ep w) (exx w)) with (psi_bg (ep v) (cart r v)).
  change (computed (ep w) (exx w)) with A. replace (psi_bg (ep v) (cart r v) + u v) with (Psi (cart r v)) by (unfold u; ring).
  fold Ham. f_equal. f_equal. ring.
Qed.
(** the derivatives of u exist *)
Lemma derivs_exist : forall cs r v Psi G H,
  reference_metric cs false = Ok r -> good (ep v) -> inside (r_coord r) v -> off_punctures (ep v) (cart r v) ->
  near v (fun w => gradient Psi (cart r w) (G (cart r w))) ->
  (forall a, (a < 3)%nat -> gradient (fun x => G x a) (cart r v) (H a)) ->
  exists uD uDD, derivs (fun w => Psi (cart r w) - psi_bg (ep w) (cart r w)) v uD uDD.
Proof.
  intros cs r v Psi G H HR GP IN O HG HH. pose (B := psi_background_cartesian).
  assert (PV : forall w, psi_bg (ep w) (cart r w) = val B (ep w) 0 (cart r w)) by (intros w; symmetry; exact (psi_val (st (ep w) 0 (cart r w)))).
  pose (W := fun w a => G (cart r w) a - val (diff a B) (ep w) 0 (cart r w)).
  pose (W2 := fun a b => H a b - val (diff b (diff a B)) (ep v) 0 (cart r v)).
  exists (fun w l => sum3 (fun a => W w a * eval w (jac r a l))).
  exists (fun k l => sum3 (fun a => sum3 (fun b => W2 a b * eval v (jac r b l)) * eval v (jac r a k)
     + W v a * sum3 (fun i => eval v (jac r a i) * eval v (GammahatUDD r i k l)))). split.
  - eapply near_imp; [exact (near_and _ _ _ (near_and _ _ _ (near_inside _ _ _ _ HR IN) HG) (off_near cs false r v HR GP IN O))|].
    intros w [[[EP IW] GW] OW] l Hl. assert (GPw : good (ep w)) by now rewrite EP.
    assert (D1 : d_at (fun w => Psi (cart r w)) l w (sum3 (fun a => G (cart r w) a * eval w (jac r a l)))).
    { unfold d_at. apply (gradient_curve Psi (fun t => cart r (upd l t w))); [rewrite upd_same; exact GW|].
      intros a Ha. apply (C58_jacobian cs false r w HR GPw IW a l Ha Hl). }
    pose proof (val_curve cs r w 0 B l HR GPw IW Hl (psi_bg_wd (st (ep w) 0 (cart r w)) OW)) as D2.
    eapply d_eq; [| |exact (d_minus _ _ _ _ _ _ D1 D2)]; [intros w0; now rewrite PV|].
    exact (sum3_minus (G (cart r w)) (fun b => val (diff b B) (ep w) 0 (cart r w)) (fun b => eval w (jac r b l))).
  - intros k l Hk Hl.
    assert (P : forall a, (a < 3)%nat -> d_at (fun w => W w a * eval w (jac r a k)) l v
      (sum3 (fun b => W2 a b * eval v (jac r b l)) * eval v (jac r a k) + W v a * sum3 (fun i => eval v (jac r a i) * eval v (GammahatUDD r i k l)))).
    { intros a Ha. apply d_mult; [|apply (C58_connection cs r v HR GP IN a k l); assumption].
      assert (D1 : d_at (fun w => G (cart r w) a) l v (sum3 (fun b => H a b * eval v (jac r b l)))).
      { unfold d_at. apply (gradient_curve (fun x => G x a) (fun t => cart r (upd l t v))); [rewrite upd_same; now apply HH|].
        intros b Hb. apply (C58_jacobian cs false r v HR GP IN b l Hb Hl). }
      pose proof (val_curve cs r v 0 (diff a B) l HR GP IN Hl (wd_diff _ a _ (psi_bg_wd (st (ep v) 0 (cart r v)) O))) as D2.
      eapply d_eq; [| |exact (d_minus _ _ _ _ _ _ D1 D2)]; [reflexivity|].
      exact (sum3_minus (H a) (fun b => val (diff b (diff a B)) (ep v) 0 (cart r v)) (fun b => eval v (jac r b l))). }
    unfold sum3 at 1 2. apply d_plus; [apply d_plus|]; apply P; lia.
Qed.
(** The fixed points of the relaxation are the solutions of the Hamiltonian constraint. *)
Corollary C70_fixed_points : forall cs r v Psi G H eta speed vv uD uDD,
  reference_metric cs false = Ok r -> good (ep v) -> inside (r_coord r) v -> off_punctures (ep v) (cart r v) ->
  near v (fun w => gradient Psi (cart r w) (G (cart r w))) ->
  (forall a, (a < 3)%nat -> gradient (fun x => G x a) (cart r v) (H a)) ->
  let u := fun w => Psi (cart r w) - psi_bg (ep w) (cart r w) in
  derivs u v uD uDD -> speed <> 0 ->
  let A := computed (ep v) (cart r v) in
  fst (relax r v eta speed vv (u v) uD uDD) = (0, 0) <->
  vv = eta * u v /\ sum3 (fun a => H a a) + 1 / 8 * sum3 (fun i => sum3 (fun j => A i j ^ 2)) * / Psi (cart r v) ^ 7 = 0.
Proof.
  intros cs r v Psi G H eta speed vv uD uDD HR GP IN O HG HH u HD SP A.
  pose proof (C70_hamiltonian cs r v Psi G H eta speed vv uD uDD HR GP IN O HG HH HD) as E. cbv zeta in E. subst A u. cbv beta. rewrite E.
  cbn [fst]. generalize (sum3 (fun a => H a a) + 1 / 8 * sum3 (fun i => sum3 (fun j => computed (ep v) (cart r v) i j ^ 2)) * / Psi (cart r v) ^ 7). intros h.
  generalize (Psi (cart r v) - psi_bg (ep v) (cart r v)). intros uu. split.
  - intros Z. assert (Z1 : vv - eta * uu = 0) by congruence. assert (Z2 : speed ^ 2 * h = 0) by congruence. split; [lra|].
    apply Rmult_integral in Z2. destruct Z2 as [Z2|Z2]; [|exact Z2]. exfalso. now apply (pow_nonzero speed 2 SP).
  - intros [-> ->]. f_equal; ring.
Qed.

(** For punctures with momentum the source term is not that of Bowen and York: the claim that A is tracefree and the claim that
    ADD_times_AUU is the square of the Bowen-York curvature are false. *)
Definition boosted (s : string) : R := if String.eqb s "P0_z" then 1 else 0.
Definition up_z (k : nat) : R := match k with 2%nat => 1 | _ => 0 end.
Lemma boosted_off : off_punctures boosted up_z.
Proof. unfold off_punctures, square, rel, boosted, up_z. cbn [String.eqb Ascii.eqb Bool.eqb]. split; lra. Qed.
Lemma boosted_rr : forall n, rr boosted n up_z = 1.
Proof.
  intros n. unfold rr, square. assert (E : rel boosted n up_z 0 ^ 2 + rel boosted n up_z 1 ^ 2 + rel boosted n up_z 2 ^ 2 = 1).
  { destruct n; unfold rel, boosted, up_z; cbn [String.eqb Ascii.eqb Bool.eqb]; ring. }
  rewrite E. apply sqrt_1.
Qed.
Lemma boosted_theta : theta boosted up_z = 3 / 2.
Proof.
  unfold theta, theta1, sum3. rewrite !boosted_rr. unfold mom, rel, boosted, up_z. cbn [String.eqb Ascii.eqb Bool.eqb]. field.
Qed.
Lemma boosted_by : forall i j, (i < 3)%nat -> (j < 3)%nat -> bowen_york boosted up_z i j =
  match i, j with 0%nat, 0%nat | 1%nat, 1%nat => - (3 / 2) | 2%nat, 2%nat => 3 | _, _ => 0 end.
Proof.
  intros i j Hi Hj. unfold bowen_york, bowen_york1. cbn zeta. rewrite !boosted_rr.
  destruct i as [|[|[|i]]]; try lia; destruct j as [|[|[|j]]]; try lia; unfold sum3, mom, spin, delta, rel, boosted, up_z;
    cbn [String.eqb Ascii.eqb Bool.eqb Nat.eqb eps]; field.
Qed.
Theorem C70_tracefree_refuted : exists p x, off_punctures p x /\ sum3 (fun i => val (ADD_conf_cart i i) p 0 x) = 3.
Proof.
  exists boosted, up_z. split; [exact boosted_off|]. rewrite (C70_trace _ _ boosted_off), boosted_theta. field.
Qed.
Theorem C70_source_refuted : exists p x, off_punctures p x /\
  val (ADD_times_AUU_conf_cartesian ADD_conf_cart) p 0 x = 45 / 2 /\ sum3 (fun i => sum3 (fun j => bowen_york p x i j ^ 2)) = 27 / 2.
Proof.
  exists boosted, up_z. split; [exact boosted_off|]. split.
  - change (val (ADD_times_AUU_conf_cartesian ADD_conf_cart) boosted 0 up_z) with (eval (st boosted 0 up_z) (ADD_times_AUU_conf_cartesian ADD_conf_cart)).
    rewrite (AA_val (st boosted 0 up_z) boosted_off).
    change (sum3 (fun i => sum3 (fun j => computed boosted up_z i j ^ 2)) = 45 / 2). unfold computed, sum3.
    rewrite !boosted_by, boosted_theta by lia. unfold delta. cbn [Nat.eqb]. field.
  - unfold sum3. rewrite !boosted_by by lia. field.
Qed.
(** ADD_times_AUU in terms of the Bowen-York curvature: with momenta it is too large or too small by a multiple of theta. *)
Theorem C70_source : forall p x, off_punctures p x ->
  val (ADD_times_AUU_conf_cartesian ADD_conf_cart) p 0 x =
  sum3 (fun i => sum3 (fun j => bowen_york p x i j ^ 2)) + 4 * theta p x ^ 2
  - 8 / 3 * theta p x * (bowen_york p x 0 1 + bowen_york p x 0 2 + bowen_york p x 1 2).
Proof.
  intros p x O.
  assert (E : val (ADD_times_AUU_conf_cartesian ADD_conf_cart) p 0 x = sum3 (fun i => sum3 (fun j => computed p x i j ^ 2))).
  { exact (AA_val (st p 0 x) O). }
  rewrite E. unfold computed, sum3. pose proof (by_trace p x O) as T. unfold sum3 in T.
  rewrite (by_sym p x 1 0), (by_sym p x 2 0), (by_sym p x 2 1). unfold delta. cbn [Nat.eqb].
  replace (bowen_york p x 2 2) with (- bowen_york p x 0 0 - bowen_york p x 1 1) by lra.
  generalize (bowen_york p x 0 0), (bowen_york p x 1 1), (bowen_york p x 0 1), (bowen_york p x 0 2), (bowen_york p x 1 2), (theta p x). intros. field.
Qed.

(** ** Examples *)
Definition spinning (s : string) : R := if String.eqb s "S0_z" then 1 else if String.eqb s "bare_mass_0" then 1 else 0.
Definition along_x (k : nat) : R := match k with 0%nat => 1 | _ => 0 end.
Lemma spinning_off : off_punctures spinning along_x.
Proof. unfold off_punctures, square, rel, spinning, along_x. cbn [String.eqb Ascii.eqb Bool.eqb]. split; lra. Qed.
Lemma spinning_rr : forall n, rr spinning n along_x = 1.
Proof.
  intros n. unfold rr, square. assert (E : rel spinning n along_x 0 ^ 2 + rel spinning n along_x 1 ^ 2 + rel spinning n along_x 2 ^ 2 = 1).
  { destruct n; unfold rel, spinning, along_x; cbn [String.eqb Ascii.eqb Bool.eqb]; ring. }
  rewrite E. apply sqrt_1.
Qed.
(** a spinning puncture: A_xy = 3 S_z / r^3 on the x axis *)
Example ex_C70_spin : no_momentum spinning /\ off_punctures spinning along_x /\ val (ADD_conf_cart 0 1) spinning 0 along_x = 3.
Proof.
  assert (NM : no_momentum spinning) by (intros [|n] [|[|i]]; reflexivity).
  split; [exact NM|]. split; [exact spinning_off|].
  destruct (C70_spin _ _ NM spinning_off) as [H _]. rewrite H by lia. unfold bowen_york, bowen_york1. cbn zeta. rewrite !spinning_rr.
  unfold sum3, mom, spin, delta, rel, spinning, along_x. cbn [String.eqb Ascii.eqb Bool.eqb Nat.eqb eps]. field.
Qed.
Example ex_C70_background : val psi_background_cartesian spinning 0 along_x = 3 / 2.
Proof.
  rewrite (proj1 (C70_background _ _ spinning_off)), !spinning_rr. unfold mass, spinning. cbn [String.eqb Ascii.eqb Bool.eqb]. field.
Qed.
(** off-diagonal components are wrong too *)
Example ex_C70_curvature : val (ADD_conf_cart 0 1) boosted 0 up_z = -1 /\ bowen_york boosted up_z 0 1 = 0.
Proof. rewrite (C70_curvature _ _ _ _ boosted_off) by lia. rewrite boosted_theta, boosted_by by lia. unfold delta. cbn [Nat.eqb]. split; [field|reflexivity]. Qed.
Example ex_C70_hamiltonian : exists r uD uDD, let v := sample KSph in let u := fun w => cart r w 0%nat ^ 2 - psi_bg (ep w) (cart r w) in
  reference_metric "Spherical" false = Ok r /\ good (ep v) /\ inside (r_coord r) v /\ off_punctures (ep v) (cart r v) /\ derivs u v uD uDD /\
  forall eta speed vv, snd (relax r v eta speed vv (u v) uD uDD) =
    2 + 1 / 8 * sum3 (fun i => sum3 (fun j => computed (ep v) (cart r v) i j ^ 2)) * / (cart r v 0%nat ^ 2) ^ 7.
Proof.
  destruct (kind_ok "Spherical" KSph false eq_refl I) as (r & HR). destruct (rm_kinds _ _ r HR) as (q & E & NQ & _).
  pose proof (named_coord _ q NQ) as EQ. change (coord_system "Spherical") with (Ok (coord_of KSph)) in EQ. apply ok_inj in EQ.
  assert (IN : inside (r_coord r) (sample KSph)) by (rewrite E, <- EQ; apply inside_sample).
  assert (GP : good (ep (sample KSph))) by exact good_sample.
  assert (O : off_punctures (ep (sample KSph)) (cart r (sample KSph))).
  { unfold cart, cart_of. rewrite E, <- EQ.
    assert (X0 : eval (sample KSph) (to_cart (coord_of KSph) 0) = 1 / 2).
    { cbn. rewrite sin_PI2, cos_0. lra. }
    split; unfold square; unfold rel at 1; rewrite X0; apply Rplus_lt_le_0_compat; try apply pow2_ge_0;
      apply Rplus_lt_le_0_compat; try apply pow2_ge_0; lra. }
  assert (GX : near (sample KSph) (fun w => gradient (fun x => x 0%nat ^ 2) (cart r w) (ex_grad (cart r w)))).
  { eapply near_imp; [exact (near_inside _ _ _ _ HR IN)|intros; apply ex_gradient]. }
  assert (HX : forall a, (a < 3)%nat -> gradient (fun x => ex_grad x a) (cart r (sample KSph)) (ex_hess a)) by (intros a _; now apply ex_gradient).
  destruct (derivs_exist _ r _ _ _ _ HR GP IN O GX HX) as (uD & uDD & DV).
  exists r, uD, uDD. cbn zeta. repeat (split; [assumption|]). intros eta speed vv.
  rewrite (C70_hamiltonian _ r _ _ _ _ eta speed vv uD uDD HR GP IN O GX HX DV). cbn [snd]. f_equal. unfold sum3, ex_hess. ring.
Qed.

Print Assumptions C70_curvature.
Print Assumptions C70_trace.
Print Assumptions C70_spin.
Print Assumptions C70_background.
Print Assumptions C70_source.
Print Assumptions C70_hamiltonian.
Print Assumptions C70_fixed_points.
Print Assumptions C70_tracefree_refuted.
Print Assumptions C70_source_refuted.
