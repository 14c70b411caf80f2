(** C85: TwoPunctures' coordinate transformations carry the derivatives by the chain rule. *)
From Coq Require Import Reals List Lra Nsatz.
From Verif Require Import RefMetricReal TPCoord.
Import ListNotations.
Open Scope R_scope.

(** ** The statement *)
(** [J] holds the first and second partial derivatives of [f] on [P]. *)
Definition jet_of (P : R -> R -> R -> Prop) (f : R -> R -> R -> R) (J : R -> R -> R -> derivs) : Prop :=
  forall a b c, P a b c ->
    d0 (J a b c) = f a b c /\
    derivable_pt_lim (fun t => f t b c) a (d1 (J a b c)) /\ derivable_pt_lim (fun t => f a t c) b (d2 (J a b c)) /\ derivable_pt_lim (fun t => f a b t) c (d3 (J a b c)) /\
    derivable_pt_lim (fun t => d1 (J t b c)) a (d11 (J a b c)) /\ derivable_pt_lim (fun t => d1 (J a t c)) b (d12 (J a b c)) /\
    derivable_pt_lim (fun t => d1 (J a b t)) c (d13 (J a b c)) /\ derivable_pt_lim (fun t => d2 (J a t c)) b (d22 (J a b c)) /\
    derivable_pt_lim (fun t => d2 (J a b t)) c (d23 (J a b c)) /\ derivable_pt_lim (fun t => d3 (J a b t)) c (d33 (J a b c)).
(** The chain rule: the derivatives of u(f, g, h) with respect to the arguments of f, g, h. *)
Definition first (u f g h : derivs) (d : derivs -> R) : R := d1 u * d f + d2 u * d g + d3 u * d h.
Definition second (u f g h : derivs) (d e de : derivs -> R) : R :=
  d11 u * d f * e f + d22 u * d g * e g + d33 u * d h * e h + d12 u * (d f * e g + d g * e f) + d13 u * (d f * e h + d h * e f) + d23 u * (d g * e h + d h * e g) +
  first u f g h de.
Definition chain (u f g h : derivs) : derivs :=
  MkU (d0 u) (first u f g h d1) (first u f g h d2) (first u f g h d3) (second u f g h d1 d1 d11) (second u f g h d1 d2 d12) (second u f g h d1 d3 d13)
    (second u f g h d2 d2 d22) (second u f g h d2 d3 d23) (second u f g h d3 d3 d33).

(** ** Derivatives *)
Lemma lim_cosh : forall x, derivable_pt_lim (fun t => cosh t) x (sinh x). Proof. exact derivable_pt_lim_cosh. Qed.
Lemma lim_sinh : forall x, derivable_pt_lim (fun t => sinh t) x (cosh x). Proof. exact derivable_pt_lim_sinh. Qed.
Lemma lim_id : forall x, derivable_pt_lim (fun t => t) x 1. Proof. exact derivable_pt_lim_id. Qed.
Lemma lim_cst : forall c x, derivable_pt_lim (fun _ => c) x 0. Proof. intros c. exact (derivable_pt_lim_const c). Qed.
Ltac dd :=
  first
  [ apply lim_cst | apply lim_id | apply lim_cosh | apply lim_sinh | apply derivable_pt_lim_cos | apply derivable_pt_lim_sin | apply derivable_pt_lim_atan
  | lazymatch goal with
    | |- derivable_pt_lim (fun t => _ + _) _ _ => apply lim_add; dd
    | |- derivable_pt_lim (fun t => _ - _) _ _ => apply lim_sub; dd
    | |- derivable_pt_lim (fun t => _ * _) _ _ => apply lim_mul; dd
    | |- derivable_pt_lim (fun t => - _) _ _ => apply lim_opp; dd
    end ].
Ltac der := eapply lim_eq; [dd|cbv beta; try ring].

(** ** AB_To_XR *)
Definition in_A (A _ _ : R) : Prop := -3 < A < 1.
Definition JX (A B phi : R) : derivs := let t := / 2 * (A + 1) in MkU (2 * atanh t) (1 / (1 - t * t)) 0 0 (t / ((1 - t * t) * (1 - t * t))) 0 0 0 0 0.
Definition JR (A B phi : R) : derivs := MkU (PI / 2 + 2 * atan B) 0 (2 / (1 + B * B)) 0 0 0 0 (- 4 * B / ((1 + B * B) * (1 + B * B))) 0 0.
Definition J3 (a b phi : R) : derivs := MkU phi 0 0 1 0 0 0 0 0 0.
Lemma J3_ok : forall P, jet_of P (fun _ _ phi => phi) J3.
Proof. intros P a b c _. cbn. repeat split; try der. Qed.
Lemma half_lt : forall A, -3 < A < 1 -> -1 < / 2 * (A + 1) < 1. Proof. intros A H. lra. Qed.
Lemma atanh_d : forall A, -3 < A < 1 -> derivable_pt_lim (fun t => 2 * atanh (/ 2 * (t + 1))) A (1 / (1 - / 2 * (A + 1) * (/ 2 * (A + 1)))).
Proof.
  intros A H. pose proof (half_lt A H) as T. unfold atanh. assert (N : 1 - / 2 * (A + 1) <> 0) by lra. assert (N1 : 1 + / 2 * (A + 1) <> 0) by lra.
  eapply lim_ext; [intros t; symmetry; apply (eq_refl (2 * (ln ((1 + / 2 * (t + 1)) / (1 - / 2 * (t + 1))) * / 2)))|].
  eapply lim_eq.
  - apply lim_mul; [dd|]. apply lim_mul; [|dd]. apply (lim_comp (fun t => (1 + / 2 * (t + 1)) / (1 - / 2 * (t + 1))) ln).
    + apply lim_div; [dd|dd|exact N].
    + apply derivable_pt_lim_ln. apply Rdiv_lt_0_compat; lra.
  - cbv beta. field. repeat split; try lra. intros E. assert (X : (1 - / 2 * (A + 1)) * (1 + / 2 * (A + 1)) = 0) by lra. apply Rmult_integral in X. tauto.
Qed.
Lemma JX_ok : jet_of in_A (fun A B phi => fst (fst (AB_To_XR A B []))) JX.
Proof.
  intros A B phi H. assert (T := half_lt A H). assert (N : 1 - / 2 * (A + 1) * (/ 2 * (A + 1)) <> 0).
  { intros E. assert (X : (1 - / 2 * (A + 1)) * (1 + / 2 * (A + 1)) = 0) by lra. apply Rmult_integral in X. lra. }
  unfold JX. cbn. split; [reflexivity|]. split; [now apply atanh_d|]. repeat split; try der.
  eapply lim_eq; [apply lim_div; [dd|dd|exact N]|]. cbv beta. field. lra.
Qed.
Lemma JR_ok : jet_of in_A (fun A B phi => snd (fst (AB_To_XR A B []))) JR.
Proof.
  intros A B phi _. assert (N : 1 + B * B <> 0) by (pose proof (Rle_0_sqr B); unfold Rsqr in *; lra). unfold JR. cbn. repeat split; try der.
  - unfold Rsqr. field. exact N.
  - eapply lim_eq; [apply lim_div; [dd|dd|exact N]|]. cbv beta. field. exact N.
Qed.
Theorem C85_AB : exists JX JR J3, jet_of in_A (fun A B phi => fst (fst (AB_To_XR A B []))) JX /\ jet_of in_A (fun A B phi => snd (fst (AB_To_XR A B []))) JR /\
  jet_of in_A (fun _ _ phi => phi) J3 /\
  forall A B phi us, in_A A B phi -> snd (AB_To_XR A B (map (fun u => chain u (JX A B phi) (JR A B phi) (J3 A B phi)) us)) = us.
Proof.
  exists JX, JR, J3. split; [exact JX_ok|]. split; [exact JR_ok|]. split; [apply J3_ok|]. intros A B phi us H. unfold AB_To_XR. cbn [snd]. rewrite map_map.
  rewrite <- (map_id us) at 2. apply map_ext. intros u. assert (T := half_lt A H). assert (N : 1 - / 2 * (A + 1) * (/ 2 * (A + 1)) <> 0).
  { intros E. assert (X : (1 - / 2 * (A + 1)) * (1 + / 2 * (A + 1)) = 0) by lra. apply Rmult_integral in X. lra. }
  assert (M : 1 + B * B <> 0) by (pose proof (Rle_0_sqr B); unfold Rsqr in *; lra).
  destruct u. unfold AB_step, chain, second, first, JX, JR, J3. cbn [TPCoord.d0 TPCoord.d1 TPCoord.d2 TPCoord.d3 TPCoord.d11 TPCoord.d12 TPCoord.d13 TPCoord.d22 TPCoord.d23 TPCoord.d33].
  remember (/ 2 * (A + 1)) as t. f_equal; field; auto.
Qed.
(** ** C_To_c *)
Definition off_axis (b X R0 : R) : Prop := b * (sinh X * cos R0) <> 0 \/ b * (cosh X * sin R0) <> 0.
Definition Jx (b X R0 phi : R) : derivs :=
  MkU (cosh X * cos R0 * b) (sinh X * cos R0 * b) (- (cosh X * sin R0 * b)) 0 (cosh X * cos R0 * b) (- (sinh X * sin R0 * b)) 0 (- (cosh X * cos R0 * b)) 0 0.
Definition Jr (b X R0 phi : R) : derivs :=
  MkU (sinh X * sin R0 * b) (cosh X * sin R0 * b) (sinh X * cos R0 * b) 0 (sinh X * sin R0 * b) (cosh X * cos R0 * b) 0 (- (sinh X * sin R0 * b)) 0 0.
Lemma Jx_ok : forall b, jet_of (fun _ _ _ => True) (fun X R0 phi => fst (fst (C_To_c b X R0 []))) (Jx b).
Proof.
  intros b X R0 phi _. unfold Jx, C_To_c, c_mul_real, c_cosh. cbn [d0 d1 d2 d3 d11 d12 d13 d22 d23 d33 fst snd]. repeat split; try der.
Qed.
Lemma Jr_ok : forall b, jet_of (fun _ _ _ => True) (fun X R0 phi => snd (fst (C_To_c b X R0 []))) (Jr b).
Proof.
  intros b X R0 phi _. unfold Jr, C_To_c, c_mul_real, c_cosh. cbn [d0 d1 d2 d3 d11 d12 d13 d22 d23 d33 fst snd]. repeat split; try der.
Qed.
Lemma C_back : forall b X R0 phi us, off_axis b X R0 -> snd (C_To_c b X R0 (map (fun u => chain u (Jx b X R0 phi) (Jr b X R0 phi) (J3 X R0 phi)) us)) = us.
Proof.
  intros b X R0 phi us H. unfold C_To_c. cbn [snd]. rewrite map_map. rewrite <- (map_id us) at 2. apply map_ext. intros u.
  assert (N : (sinh X * cos R0 * b) * (sinh X * cos R0 * b) + (cosh X * sin R0 * b) * (cosh X * sin R0 * b) <> 0).
  { intros E. pose proof (Rle_0_sqr (sinh X * cos R0 * b)) as S1. pose proof (Rle_0_sqr (cosh X * sin R0 * b)) as S2. unfold Rsqr in *.
    assert (E1 : (sinh X * cos R0 * b) * (sinh X * cos R0 * b) = 0) by lra. assert (E2 : (cosh X * sin R0 * b) * (cosh X * sin R0 * b) = 0) by lra.
    assert (F1 : sinh X * cos R0 * b = 0) by (apply Rmult_integral in E1; tauto). assert (F2 : cosh X * sin R0 * b = 0) by (apply Rmult_integral in E2; tauto).
    destruct H as [H|H]; apply H; lra. }
  destruct u. unfold C_step, chain, second, first, Jx, Jr, J3, c_inverse, c_abs2, c_neg, c_add, c_mul, c_mul_real, c_sinh, c_cosh.
  cbn [TPCoord.d0 TPCoord.d1 TPCoord.d2 TPCoord.d3 TPCoord.d11 TPCoord.d12 TPCoord.d13 TPCoord.d22 TPCoord.d23 TPCoord.d33 fst snd].
  remember (sinh X * cos R0 * b) as p. remember (cosh X * sin R0 * b) as q. remember (cosh X * cos R0 * b) as m. remember (sinh X * sin R0 * b) as n.
  f_equal; field; exact N.
Qed.
Theorem C85_C : forall b, exists Jx Jr J3, jet_of (fun _ _ _ => True) (fun X R0 phi => fst (fst (C_To_c b X R0 []))) Jx /\
  jet_of (fun _ _ _ => True) (fun X R0 phi => snd (fst (C_To_c b X R0 []))) Jr /\ jet_of (fun _ _ _ => True) (fun _ _ phi => phi) J3 /\
  forall X R0 phi us, off_axis b X R0 -> snd (C_To_c b X R0 (map (fun u => chain u (Jx X R0 phi) (Jr X R0 phi) (J3 X R0 phi)) us)) = us.
Proof. intros b. exists (Jx b), (Jr b), J3. split; [apply Jx_ok|]. split; [apply Jr_ok|]. split; [apply J3_ok|]. intros X R0 phi us. apply C_back. Qed.
(** ** rx3_To_xyz *)
Definition Jy (x r phi : R) : derivs := MkU (r * cos phi) 0 (cos phi) (- (r * sin phi)) 0 0 0 0 (- sin phi) (- (r * cos phi)).
Definition Jz (x r phi : R) : derivs := MkU (r * sin phi) 0 (sin phi) (r * cos phi) 0 0 0 0 (cos phi) (- (r * sin phi)).
Definition J1 (x r phi : R) : derivs := MkU x 1 0 0 0 0 0 0 0 0.
Theorem C85_rx3 : exists J1 Jy Jz, jet_of (fun _ _ _ => True) (fun x _ _ => x) J1 /\
  jet_of (fun _ _ _ => True) (fun x r phi => fst (fst (rx3_To_xyz r phi []))) Jy /\ jet_of (fun _ _ _ => True) (fun x r phi => snd (fst (rx3_To_xyz r phi []))) Jz /\
  forall x r phi us, r <> 0 -> snd (rx3_To_xyz r phi (map (fun u => chain u (J1 x r phi) (Jy x r phi) (Jz x r phi)) us)) = us.
Proof.
  exists J1, Jy, Jz. split; [|split; [|split]].
  - intros x r phi _. cbn. repeat split; try der.
  - intros x r phi _. unfold Jy. cbn. repeat split; try der.
  - intros x r phi _. unfold Jz. cbn. repeat split; try der.
  - intros x r phi us H. unfold rx3_To_xyz. cbn [snd]. rewrite map_map. rewrite <- (map_id us) at 2. apply map_ext. intros u.
    pose proof (sin2_cos2 phi) as SC. unfold Rsqr in SC.
    destruct u. unfold rx3_step, chain, second, first, Jy, Jz, J1.
    cbn [TPCoord.d0 TPCoord.d1 TPCoord.d2 TPCoord.d3 TPCoord.d11 TPCoord.d12 TPCoord.d13 TPCoord.d22 TPCoord.d23 TPCoord.d33].
    remember (sin phi) as s. remember (cos phi) as c. clear Heqs Heqc.
    assert (Hi : r * (1 / r) = 1) by (field; exact H). remember (1 / r) as ri. clear Heqri. assert (H2 : 2 * / 2 = 1) by lra. remember (/ 2) as hf. clear Heqhf H.
    f_equal; nsatz.
Qed.
(** ** Where the transformations are regular: all points of the spectral grid, which is inside the square *)
Lemma cosh_sinh : forall x, cosh x * cosh x - sinh x * sinh x = 1.
Proof. intros x. unfold cosh, sinh. assert (E : exp x * exp (- x) = 1) by (rewrite <- exp_plus, Rplus_opp_r; apply exp_0). nra. Qed.
Lemma cosh_pos : forall x, 0 < cosh x.
Proof. intros x. unfold cosh. pose proof (exp_pos x). pose proof (exp_pos (- x)). lra. Qed.
Theorem C85_interior : forall b A B, 0 < b -> -1 < A < 1 -> -1 < B < 1 ->
  let X := fst (fst (AB_To_XR A B [])) in let R0 := snd (fst (AB_To_XR A B [])) in let r := snd (fst (C_To_c b X R0 [])) in
  0 < X /\ 0 < R0 < PI /\ 0 < r /\ off_axis b X R0.
Proof.
  intros b A B Hb HA HB. cbn [AB_To_XR fst snd]. set (X := 2 * atanh (/ 2 * (A + 1))). set (R0 := PI / 2 + 2 * atan B).
  assert (P1 : 0 < X).
  { unfold X, atanh. set (t := / 2 * (A + 1)). assert (T : 0 < t < 1) by (unfold t; lra). clearbody t.
    assert (L : 0 < ln ((1 + t) / (1 - t))). { rewrite <- ln_1. apply ln_increasing; [lra|]. apply (Rmult_lt_reg_r (1 - t)); [lra|]. unfold Rdiv. rewrite Rmult_assoc, Rinv_l; lra. }
    lra. }
  assert (P2 : 0 < R0 < PI).
  { unfold R0. assert (U1 := atan_increasing B 1 ltac:(lra)). assert (U2 := atan_increasing (Ropp 1) B ltac:(lra)). rewrite atan_opp in U2. rewrite atan_1 in U1, U2. lra. }
  assert (S1 : 0 < sinh X). { rewrite <- sinh_0. apply sinh_lt. exact P1. }
  assert (S2 : 0 < sin R0) by (apply sin_gt_0; lra). pose proof (cosh_pos X) as C.
  split; [exact P1|]. split; [exact P2|]. split.
  - unfold C_To_c, c_mul_real, c_cosh. cbn [fst snd]. apply Rmult_lt_0_compat; [apply Rmult_lt_0_compat; assumption|exact Hb].
  - right. apply Rgt_not_eq. apply Rmult_lt_0_compat; [exact Hb|apply Rmult_lt_0_compat; assumption].
Qed.
(** The punctures are at x = b and x = -b: the distances from them. *)
Theorem C85_distance : forall b X R0, let x := fst (fst (C_To_c b X R0 [])) in let r := snd (fst (C_To_c b X R0 [])) in
  (x - b) * (x - b) + r * r = (b * (cosh X - cos R0)) * (b * (cosh X - cos R0)) /\
  (x + b) * (x + b) + r * r = (b * (cosh X + cos R0)) * (b * (cosh X + cos R0)).
Proof.
  intros b X R0. unfold C_To_c, c_mul_real, c_cosh. cbn [fst snd]. pose proof (sin2_cos2 R0) as S. unfold Rsqr in S. pose proof (cosh_sinh X) as H.
  remember (sin R0) as s. remember (cos R0) as c. remember (cosh X) as ch. remember (sinh X) as sh. clear Heqs Heqc Heqch Heqsh. split; nsatz.
Qed.
(** ** All three, as they are called *)
Definition to_xyz (b A B phi : R) (U : list derivs) : (R * R * R) * list derivs :=
  let '(X, R0, U) := AB_To_XR A B U in
  let '(x, r, U) := C_To_c b X R0 U in
  let '(y, z, U) := rx3_To_xyz r phi U in
  ((x, y, z), U).
Theorem C85_all : exists JX JR J3 Jx Jr K3 J1 Jy Jz,
  jet_of in_A (fun A B phi => fst (fst (AB_To_XR A B []))) JX /\ jet_of in_A (fun A B phi => snd (fst (AB_To_XR A B []))) JR /\ jet_of in_A (fun _ _ phi => phi) J3 /\
  (forall b, jet_of (fun _ _ _ => True) (fun X R0 phi => fst (fst (C_To_c b X R0 []))) (Jx b) /\ jet_of (fun _ _ _ => True) (fun X R0 phi => snd (fst (C_To_c b X R0 []))) (Jr b)) /\
  jet_of (fun _ _ _ => True) (fun _ _ phi => phi) K3 /\ jet_of (fun _ _ _ => True) (fun x _ _ => x) J1 /\
  jet_of (fun _ _ _ => True) (fun x r phi => fst (fst (rx3_To_xyz r phi []))) Jy /\ jet_of (fun _ _ _ => True) (fun x r phi => snd (fst (rx3_To_xyz r phi []))) Jz /\
  forall b A B phi us, 0 < b -> -1 < A < 1 -> -1 < B < 1 ->
    let X := fst (fst (AB_To_XR A B [])) in let R0 := snd (fst (AB_To_XR A B [])) in
    let x := fst (fst (C_To_c b X R0 [])) in let r := snd (fst (C_To_c b X R0 [])) in
    snd (to_xyz b A B phi (map (fun u => chain (chain (chain u (J1 x r phi) (Jy x r phi) (Jz x r phi)) (Jx b X R0 phi) (Jr b X R0 phi) (K3 X R0 phi))
                                           (JX A B phi) (JR A B phi) (J3 A B phi)) us)) = us.
Proof.
  destruct C85_AB as (JX' & JR' & J3' & A1 & A2 & A3 & A4). destruct C85_rx3 as (J1' & Jy' & Jz' & R1 & R2 & R3 & R4).
  assert (CC : exists Jx Jr K3, (forall b, jet_of (fun _ _ _ => True) (fun X R0 phi => fst (fst (C_To_c b X R0 []))) (Jx b) /\ jet_of (fun _ _ _ => True) (fun X R0 phi => snd (fst (C_To_c b X R0 []))) (Jr b)) /\
    jet_of (fun _ _ _ => True) (fun _ _ phi => phi) K3 /\
    forall b X R0 phi us, off_axis b X R0 -> snd (C_To_c b X R0 (map (fun u => chain u (Jx b X R0 phi) (Jr b X R0 phi) (K3 X R0 phi)) us)) = us).
  { exists Jx, Jr, J3. split; [|split; [apply J3_ok|exact C_back]]. intros b. split; [apply Jx_ok|apply Jr_ok]. }
  destruct CC as (Jx' & Jr' & K3' & C1 & C2 & C3).
  exists JX', JR', J3', Jx', Jr', K3', J1', Jy', Jz'. do 8 (split; [assumption|]). intros b A B phi us Hb HA HB. cbv zeta.
  destruct (C85_interior b A B Hb HA HB) as (_ & _ & P3 & P4). revert P3 P4. cbv zeta.
  set (X := fst (fst (AB_To_XR A B []))). set (R0 := snd (fst (AB_To_XR A B []))). set (x := fst (fst (C_To_c b X R0 []))). set (r := snd (fst (C_To_c b X R0 []))). intros P3 P4.
  assert (E1 : forall U, AB_To_XR A B U = (X, R0, snd (AB_To_XR A B U))) by reflexivity.
  assert (E2 : forall U, C_To_c b X R0 U = (x, r, snd (C_To_c b X R0 U))) by reflexivity.
  assert (E3 : forall U, rx3_To_xyz r phi U = (fst (fst (rx3_To_xyz r phi U)), snd (fst (rx3_To_xyz r phi U)), snd (rx3_To_xyz r phi U))) by reflexivity.
  unfold to_xyz. rewrite E1.
  rewrite <- (map_map (fun u => chain (chain u (J1' x r phi) (Jy' x r phi) (Jz' x r phi)) (Jx' b X R0 phi) (Jr' b X R0 phi) (K3' X R0 phi)) (fun u => chain u (JX' A B phi) (JR' A B phi) (J3' A B phi))).
  rewrite A4 by (unfold in_A; lra). rewrite E2.
  rewrite <- (map_map (fun u => chain u (J1' x r phi) (Jy' x r phi) (Jz' x r phi)) (fun u => chain u (Jx' b X R0 phi) (Jr' b X R0 phi) (K3' X R0 phi))).
  rewrite C3 by exact P4. rewrite E3. cbn [snd]. apply R4. lra.
Qed.
Example ex_C85 : (-1 < 0 < 1) /\ off_axis 1 (fst (fst (AB_To_XR 0 0 []))) (snd (fst (AB_To_XR 0 0 []))) /\
  AB_step 0 0 (MkU 5 4 2 1 8 4 4 4 2 7) = MkU 5 3 1 1 3 (3 / 2) 3 1 1 7.
Proof.
  split; [lra|]. split; [apply (C85_interior 1 0 0); lra|]. unfold AB_step. cbn [d0 d1 d2 d3 d11 d12 d13 d22 d23 d33]. f_equal; lra.
Qed.
Example ex_C85_rx3 : rx3_step 2 (PI / 2) (MkU 0 1 2 4 5 6 8 3 2 4) = MkU 0 1 (-2) 2 5 (-4) 6 2 0 3 /\ 2 <> 0.
Proof.
  split; [|lra]. unfold rx3_step. rewrite sin_PI2, cos_PI2. f_equal; lra.
Qed.
Print Assumptions C85_AB.
Print Assumptions C85_C.
Print Assumptions C85_rx3.
Print Assumptions C85_interior.
Print Assumptions C85_distance.
Print Assumptions C85_all.
