(** Cart_to_xx inverts xx_to_Cart; xxSph are the spherical coordinates. *)
From Coq Require Import String List ZArith Bool Arith Lia Reals Lra.
From Verif Require Import PyBase Inverter RefMetric RefMetricReal RefMetricCalc RefMetricFacts.
Import ListNotations.
Open Scope R_scope.

(** only the parameters and a Cartesian point are known *)
Definition at_cart (p : string -> R) (X : nat -> R) : env := MkEnv p (fun _ => 0) X (fun _ _ => 0).
Definition cart_of (m : coord) (v : env) (i : nat) : R := eval v (to_cart m i).

Lemma sqrt_unique : forall y r, 0 <= r -> y = r ^ 2 -> sqrt y = r.
Proof. intros y r H ->. now apply sqrt_pow2. Qed.
Lemma sph_norm : forall r t f, 0 < r -> sqrt ((r * sin t * cos f) ^ 2 + (r * sin t * sin f) ^ 2 + (r * cos t) ^ 2) = r.
Proof.
  intros r t f H. apply sqrt_unique; [lra|]. pose proof (sc2 t) as E1. pose proof (sc2 f) as E2.
  replace ((r * sin t * cos f) ^ 2 + (r * sin t * sin f) ^ 2 + (r * cos t) ^ 2)
    with (r ^ 2 * (sin t ^ 2 * (cos f * cos f + sin f ^ 2) + cos t * cos t)) by ring.
  rewrite E1, E2. ring.
Qed.
Lemma acos_ratio : forall r t, 0 < r -> 0 <= t <= PI -> acos (r * cos t / r) = t.
Proof. intros r t H B. replace (r * cos t / r) with (cos t) by (field; lra). now apply acos_cos. Qed.
Lemma cyl_norm : forall r f, 0 < r -> sqrt ((r * cos f) ^ 2 + (r * sin f) ^ 2) = r.
Proof.
  intros r f H. apply sqrt_unique; [lra|]. pose proof (sc2 f) as E.
  replace ((r * cos f) ^ 2 + (r * sin f) ^ 2) with (r ^ 2 * (cos f * cos f + sin f ^ 2)) by ring. rewrite E. ring.
Qed.

(** asinhv1 evaluated anywhere inverts sinhv1 *)
Lemma asinhv1_inv : forall v v' k A w e, 0 < ep v A -> 0 < ep v w -> ep v' = ep v -> eval v' e = eval v (sinhv1 (XX k) (Par A) (Par w)) ->
  eval v' (asinhv1 e (Par A) (Par w)) = exx v k.
Proof.
  intros v v' k A w e HA HW EP E. apply asinhv1_val; rewrite ?EP; auto. rewrite E. now apply sinhv1_val.
Qed.

(** ** The prolate spheroidal inversion *)
Section Prolate.
Variables a b t f : R.
Hypothesis Ha : 0 < a.
Hypothesis Hb : 0 < b.
Hypothesis Ht : 0 < t < PI.
Hypothesis Hf : - PI < f < PI.
Notation s2 := (sqrt (a ^ 2 + b ^ 2)).
Notation X := (a * sin t * cos f). Notation Y := (a * sin t * sin f). Notation Z := (s2 * cos t).
Definition rr : R := sqrt (X ^ 2 + Y ^ 2 + Z ^ 2).
Lemma s2_sq : s2 ^ 2 = a ^ 2 + b ^ 2.
Proof using. apply pow2_sqrt. pose proof (pow2_ge_0 a). pose proof (pow2_ge_0 b). lra. Qed.
Lemma rr_arg : X ^ 2 + Y ^ 2 + Z ^ 2 = a ^ 2 + b ^ 2 * cos t ^ 2.
Proof using.
  pose proof (sc2 t) as E1. pose proof (sc2 f) as E2. pose proof s2_sq as E3.
  replace (X ^ 2 + Y ^ 2 + Z ^ 2) with (a ^ 2 * sin t ^ 2 * (cos f * cos f + sin f ^ 2) + s2 ^ 2 * cos t ^ 2) by ring.
  rewrite E2, E3. replace (cos t ^ 2) with (cos t * cos t) by ring. rewrite E1. ring.
Qed.
Lemma rr_sq : rr ^ 2 = a ^ 2 + b ^ 2 * cos t ^ 2.
Proof using Ha.
  unfold rr. rewrite pow2_sqrt; rewrite rr_arg; [reflexivity|]. pose proof (pow2_ge_0 a).
  pose proof (Rmult_le_pos _ _ (pow2_ge_0 b) (pow2_ge_0 (cos t))). lra.
Qed.
Lemma rr_pos : 0 < rr.
Proof using Ha.
  unfold rr. apply sqrt_lt_R0. rewrite rr_arg. pose proof (pow_lt a 2 Ha).
  pose proof (Rmult_le_pos _ _ (pow2_ge_0 b) (pow2_ge_0 (cos t))). lra.
Qed.
Lemma z_bound : -1 <= Z / rr <= 1.
Proof using Ha.
  pose proof rr_pos as P.
  assert (Q : (Z / rr) ^ 2 <= 1).
  { unfold Rdiv. rewrite Rpow_mult_distr. apply (Rmult_le_reg_r (rr ^ 2)); [now apply pow_lt|].
    replace (Z ^ 2 * (/ rr) ^ 2 * rr ^ 2) with (Z ^ 2 * (rr * / rr) ^ 2) by ring.
    rewrite Rinv_r by lra. unfold rr. rewrite (pow2_sqrt (_ + _)).
    - pose proof (pow2_ge_0 X). pose proof (pow2_ge_0 Y). lra.
    - pose proof (pow2_ge_0 X). pose proof (pow2_ge_0 Y). pose proof (pow2_ge_0 Z). lra. }
  nra.
Qed.
Definition dd : R := sqrt (b ^ 4 + 2 * b ^ 2 * rr ^ 2 + rr ^ 4 - 4 * b ^ 2 * rr ^ 2 * cos (acos (Z / rr)) ^ 2).
Lemma dd_val : dd = a ^ 2 + b ^ 2 * sin t ^ 2.
Proof using Ha.
  unfold dd. apply sqrt_unique.
  - pose proof (pow2_ge_0 a). pose proof (Rmult_le_pos _ _ (pow2_ge_0 b) (pow2_ge_0 (sin t))). lra.
  - pose proof rr_pos as P. rewrite cos_acos by apply z_bound.
    replace (4 * b ^ 2 * rr ^ 2 * (Z / rr) ^ 2) with (4 * b ^ 2 * (s2 ^ 2 * cos t ^ 2)) by (field; lra).
    replace (rr ^ 4) with (rr ^ 2 * rr ^ 2) by ring. rewrite rr_sq, s2_sq.
    replace (cos t ^ 2) with (1 - sin t ^ 2) by (pose proof (sc2 t); lra). ring.
Qed.
Lemma root2 : forall y, 0 <= y -> sqrt (2 * y ^ 2) * / sqrt 2 = y.
Proof using. clear. 
  intros y H. rewrite sqrt_mult by (try apply pow2_ge_0; lra). rewrite sqrt_pow2 by exact H. pose proof (sqrt_lt_R0 2). field. lra.
Qed.
Lemma prolate_0 : sqrt (- b ^ 2 + rr ^ 2 + dd) * / sqrt 2 = a.
Proof using Ha.
  rewrite dd_val, rr_sq. transitivity (sqrt (2 * a ^ 2) * / sqrt 2); [|apply root2; lra]. f_equal. f_equal.
  replace (cos t ^ 2) with (1 - sin t ^ 2) by (pose proof (sc2 t); lra). ring.
Qed.
Lemma prolate_1 : acos (sgn Z * (sqrt (1 + rr ^ 2 / b ^ 2 - dd / b ^ 2) * / sqrt 2)) = t.
Proof using Ha Hb Ht.
  rewrite dd_val, rr_sq.
  replace (1 + (a ^ 2 + b ^ 2 * cos t ^ 2) / b ^ 2 - (a ^ 2 + b ^ 2 * sin t ^ 2) / b ^ 2) with (2 * Rabs (cos t) ^ 2).
  2:{ rewrite pow2_abs. replace (sin t ^ 2) with (1 - cos t ^ 2) by (pose proof (sc2 t); lra). field. lra. }
  rewrite root2 by apply Rabs_pos. transitivity (acos (cos t)); [|apply acos_cos; lra]. f_equal.
  assert (P : 0 < s2) by (apply sqrt_lt_R0; pose proof (pow_lt a 2 Ha); pose proof (pow2_ge_0 b); lra).
  unfold sgn. destruct (Rlt_dec 0 Z) as [L|L].
  - rewrite Rabs_right; [lra|]. nra.
  - destruct (Rlt_dec Z 0) as [M|M].
    + rewrite Rabs_left; [lra|]. nra.
    + assert (E : Z = 0) by lra. apply Rmult_integral in E as [E|E]; [lra|]. rewrite E, Rabs_R0. lra.
Qed.
Lemma prolate_2 : atan2 Y X = f.
Proof using Ha Ht Hf. apply atan2_polar; [|exact Hf]. apply Rmult_lt_0_compat; auto. now apply sin_gt_0. Qed.
End Prolate.

(** ** All systems with a closed-form inverse *)
Definition invertible (k : kind) : bool := match k with KSphV2 _ | KCylV2 _ | KSinhSymTP => false | _ => true end.
Lemma kind_inverse : forall k v, good (ep v) -> invertible k = true -> inside (coord_of k) v -> forall i, (i < 3)%nat ->
  eval (at_cart (ep v) (cart_of (coord_of k) v)) (cart_to (coord_of k) i) = exx v i.
Proof.
  intros k v G E IN. pose proof PI_RGT_0 as PP. pose proof (g_pi _ G) as GP.
  pose proof (IN 0%nat ltac:(lia)) as I0. pose proof (IN 1%nat ltac:(lia)) as I1. pose proof (IN 2%nat ltac:(lia)) as I2.
  assert (GA : 0 < ep v "AMPL") by gpos G. assert (GW : 0 < ep v "SINHW") by gpos G.
  pose proof (g_half _ G) as GH.
  destruct k; try discriminate E; cbn [coord_of] in *.
  - all3 i; reflexivity.
  - intros i Hi. revert i Hi. all3 i; (apply asinhv1_inv; [gpos G|gpos G|reflexivity|reflexivity]).
  - pose proof (holey_pos v G (proj1 I0)) as X. pose proof (sinhv1_pos v 0 _ _ GA GW X) as R0.
    cbn in I1, I2. rewrite GP in I1, I2. unfold cart_of.
    change (to_cart (spherical_wedge_like "UWedgeHSinhSph")) with
      (let r := sinhv1 X0 (Par "AMPL") (Par "SINHW") in
       v3 (Mul (Opp r) (Cos X1)) (Mul (Mul r (Sin X1)) (Sin X2)) (Mul (Mul r (Sin X1)) (Cos X2))).
    change (cart_to (spherical_wedge_like "UWedgeHSinhSph")) with
      (v3 (asinhv1 rc_sph (Par "AMPL") (Par "SINHW")) (Acos (Div (Opp CX) rc_sph)) (Atan2 CY CZ)). cbn zeta.
    set (r := sinhv1 X0 (Par "AMPL") (Par "SINHW")) in *.
    assert (S1 : 0 < sin (exx v 1%nat)) by (apply sin_gt_0; lra).
    assert (N : sqrt ((- eval v r * cos (exx v 1%nat)) ^ 2 + (eval v r * sin (exx v 1%nat) * sin (exx v 2%nat)) ^ 2 +
                     (eval v r * sin (exx v 1%nat) * cos (exx v 2%nat)) ^ 2) = eval v r).
    { etransitivity; [|apply (sph_norm (eval v r) (exx v 1%nat) (exx v 2%nat) R0)]. f_equal. ring. }
    all3 i; cbn [v3].
    + apply asinhv1_inv; auto.
    + cbn [eval at_cart ec v3 norm3]. rewrite N. transitivity (acos (eval v r * cos (exx v 1%nat) / eval v r)); [|apply acos_ratio; lra]. f_equal. field. lra.
    + cbn [eval at_cart ec v3 norm3]. apply atan2_polar; [now apply Rmult_lt_0_compat|lra].
  - pose proof (holey_pos v G (proj1 I0)) as X. pose proof (sinhv1_pos v 0 _ _ GA GW X) as R0.
    cbn in I1, I2. rewrite GP in I1, I2. unfold cart_of.
    change (to_cart (spherical_wedge_like "LWedgeHSinhSph")) with
      (let r := sinhv1 X0 (Par "AMPL") (Par "SINHW") in
       v3 (Mul r (Cos X1)) (Mul (Mul r (Sin X1)) (Sin X2)) (Mul (Mul (Opp r) (Sin X1)) (Cos X2))).
    change (cart_to (spherical_wedge_like "LWedgeHSinhSph")) with
      (v3 (asinhv1 rc_sph (Par "AMPL") (Par "SINHW")) (Acos (Div CX rc_sph)) (Atan2 CY (Opp CZ))). cbn zeta.
    set (r := sinhv1 X0 (Par "AMPL") (Par "SINHW")) in *.
    assert (S1 : 0 < sin (exx v 1%nat)) by (apply sin_gt_0; lra).
    assert (N : sqrt ((eval v r * cos (exx v 1%nat)) ^ 2 + (eval v r * sin (exx v 1%nat) * sin (exx v 2%nat)) ^ 2 +
                     (- eval v r * sin (exx v 1%nat) * cos (exx v 2%nat)) ^ 2) = eval v r).
    { etransitivity; [|apply (sph_norm (eval v r) (exx v 1%nat) (exx v 2%nat) R0)]. f_equal. ring. }
    all3 i; cbn [v3].
    + apply asinhv1_inv; auto.
    + cbn [eval at_cart ec v3 norm3]. rewrite N. apply acos_ratio; lra.
    + cbn [eval at_cart ec v3 norm3].
      replace (- (- eval v r * sin (exx v 1%nat) * cos (exx v 2%nat))) with (eval v r * sin (exx v 1%nat) * cos (exx v 2%nat)) by ring.
      apply atan2_polar; [now apply Rmult_lt_0_compat|lra].
  - cbn in I0, I1, I2. rewrite GP in I1, I2. assert (S1 : 0 < sin (exx v 1%nat)) by (apply sin_gt_0; lra).
    all3 i; cbn -[pow].
    + apply sph_norm. lra.
    + rewrite sph_norm by lra. apply acos_ratio; lra.
    + apply atan2_polar; [apply Rmult_lt_0_compat; lra|lra].
  - cbn in I0, I1, I2. rewrite GP in I1, I2. assert (S1 : 0 < sin (exx v 1%nat)) by (apply sin_gt_0; lra).
    assert (R0 := sinhv1_pos v 0 _ _ GA GW ltac:(lra)). unfold cart_of. cbn [spherical_of to_cart cart_to].
    set (r := sinhv1 X0 (Par "AMPL") (Par "SINHW")) in *.
    all3 i; cbn [v3].
    + apply asinhv1_inv; auto. cbn [eval at_cart ec v3 norm3]. now apply sph_norm.
    + cbn [eval at_cart ec v3 norm3]. rewrite sph_norm by exact R0. apply acos_ratio; lra.
    + cbn [eval at_cart ec v3 norm3]. apply atan2_polar; [now apply Rmult_lt_0_compat|lra].
  - pose proof (holey_pos v G (proj1 I0)) as X. pose proof (sinhv1_pos v 0 _ _ GA GW X) as R0.
    cbn in I1, I2. rewrite GP in I1, I2. assert (S1 : 0 < sin (exx v 1%nat)) by (apply sin_gt_0; lra).
    unfold cart_of. cbn [spherical_of to_cart cart_to]. set (r := sinhv1 X0 (Par "AMPL") (Par "SINHW")) in *.
    all3 i; cbn [v3].
    + apply asinhv1_inv; auto. cbn [eval at_cart ec v3 norm3]. now apply sph_norm.
    + cbn [eval at_cart ec v3 norm3]. rewrite sph_norm by exact R0. apply acos_ratio; lra.
    + cbn [eval at_cart ec v3 norm3]. apply atan2_polar; [now apply Rmult_lt_0_compat|lra].
  - pose proof (holey_pos v G (proj1 I0)) as X. pose proof (sinhv1_pos v 0 _ _ GA GW X) as R0.
    cbn in I1, I2. rewrite GP in I1, I2. assert (S1 : 0 < sin (exx v 1%nat)) by (apply sin_gt_0; lra).
    unfold cart_of. cbn [spherical_of to_cart cart_to]. set (r := sinhv1 X0 (Par "AMPL") (Par "SINHW")) in *.
    all3 i; cbn [v3].
    + apply asinhv1_inv; auto. cbn [eval at_cart ec v3 norm3]. now apply sph_norm.
    + cbn [eval at_cart ec v3 norm3]. rewrite sph_norm by exact R0. apply acos_ratio; lra.
    + cbn [eval at_cart ec v3 norm3]. apply atan2_polar; [now apply Rmult_lt_0_compat|lra].
  - cbn in I0, I1, I2. rewrite GP in I1, I2. assert (GB : 0 < ep v "bScale") by gpos G.
    all3 i; unfold cart_of; cbn [prolate_of to_cart cart_to v3 eval at_cart ec ep norm3]; rewrite ?GH.
    + apply (prolate_0 (exx v 0%nat) (ep v "bScale") (exx v 1%nat) (exx v 2%nat)); lra.
    + apply (prolate_1 (exx v 0%nat) (ep v "bScale") (exx v 1%nat) (exx v 2%nat)); lra.
    + apply (prolate_2 (exx v 0%nat) (exx v 1%nat) (exx v 2%nat)); lra.
  - cbn in I0, I1, I2. rewrite GP in I1. all3 i; cbn -[pow].
    + apply cyl_norm. lra.
    + apply atan2_polar; lra.
    + reflexivity.
  - cbn in I0, I1. rewrite GP in I1.
    assert (B0 : 0 < ep v "AMPLRHO") by gpos G. assert (B1 : 0 < ep v "SINHWRHO") by gpos G.
    assert (B2 : 0 < ep v "AMPLZ") by gpos G. assert (B3 : 0 < ep v "SINHWZ") by gpos G.
    assert (R0 := sinhv1_pos v 0 _ _ B0 B1 ltac:(lra)). unfold cart_of. cbn [cylindrical_of to_cart cart_to].
    set (r := sinhv1 X0 (Par "AMPLRHO") (Par "SINHWRHO")) in *.
    all3 i; cbn [v3].
    + apply asinhv1_inv; auto. cbn [eval at_cart ec v3]. now apply cyl_norm.
    + cbn [eval at_cart ec v3]. apply atan2_polar; lra.
    + apply asinhv1_inv; auto.
Qed.

(** ** Spherical coordinates *)
Lemma sqrt_scale : forall c y, 0 < c -> c * sqrt (1 + y²) = sqrt (c ^ 2 + (c * y) ^ 2).
Proof.
  intros c y H. rewrite <- (sqrt_pow2 c) at 1 by lra. rewrite <- sqrt_mult.
  - f_equal. unfold Rsqr. ring.
  - apply pow2_ge_0.
  - pose proof (Rle_0_sqr y). lra.
Qed.
Lemma root_pos : forall y, 0 < sqrt (1 + y²).
Proof. intros y. apply sqrt_lt_R0. pose proof (Rle_0_sqr y). lra. Qed.
Lemma atan2_cos_sin : forall x y, sqrt (x ^ 2 + y ^ 2) * cos (atan2 y x) = x /\ sqrt (x ^ 2 + y ^ 2) * sin (atan2 y x) = y.
Proof.
  intros x y. destruct (Rlt_dec 0 x) as [P|P].
  { rewrite (atan2_right y x P), cos_atan, sin_atan. pose proof (root_pos (y / x)).
    replace (sqrt (x ^ 2 + y ^ 2)) with (x * sqrt (1 + (y / x)²)).
    - split; field; lra.
    - rewrite sqrt_scale by exact P. f_equal. field. lra. }
  destruct (Rlt_dec 0 y) as [Q|Q].
  { rewrite (atan2_upper y x Q), cos_shift, sin_shift, cos_atan, sin_atan. pose proof (root_pos (x / y)).
    replace (sqrt (x ^ 2 + y ^ 2)) with (y * sqrt (1 + (x / y)²)).
    - split; field; lra.
    - rewrite sqrt_scale by exact Q. f_equal. field. lra. }
  destruct (Rlt_dec y 0) as [N|N].
  { rewrite (atan2_lower y x N). pose proof (root_pos (x / y)).
    replace (- (PI / 2) - atan (x / y)) with (- (PI / 2 - - atan (x / y))) by ring.
    rewrite cos_neg, sin_neg, cos_shift, sin_shift, cos_neg, sin_neg, cos_atan, sin_atan.
    replace (sqrt (x ^ 2 + y ^ 2)) with (- y * sqrt (1 + (x / y)²)).
    - split; field; lra.
    - rewrite sqrt_scale by lra. f_equal. field. lra. }
  assert (E : y = 0) by lra. subst y. replace (x ^ 2 + 0 ^ 2) with ((- x) ^ 2) by ring. rewrite sqrt_pow2 by lra.
  destruct (Rlt_dec x 0) as [M|M].
  - unfold atan2. destruct (Rlt_dec 0 x); [contradiction|]. destruct (Rlt_dec x 0); [|contradiction].
    destruct (Rle_dec 0 0); [|lra]. replace (0 / x) with 0 by (field; lra). rewrite atan_0, Rplus_0_l, cos_PI, sin_PI. split; ring.
  - assert (E : x = 0) by lra. subst x. rewrite Ropp_0. split; ring.
Qed.
Lemma acos_cos_sin : forall rho z, 0 <= rho -> 0 < rho ^ 2 + z ^ 2 ->
  sqrt (rho ^ 2 + z ^ 2) * sin (acos (z / sqrt (rho ^ 2 + z ^ 2))) = rho /\
  sqrt (rho ^ 2 + z ^ 2) * cos (acos (z / sqrt (rho ^ 2 + z ^ 2))) = z.
Proof.
  intros rho z H P. pose proof (sqrt_lt_R0 _ P) as Q. pose proof (pow2_sqrt _ (Rlt_le _ _ P)) as E.
  set (r := sqrt (rho ^ 2 + z ^ 2)) in *.
  assert (B : -1 <= z / r <= 1).
  { assert ((z / r) ^ 2 <= 1).
    { replace ((z / r) ^ 2) with (z ^ 2 / r ^ 2) by (field; lra). apply (Rmult_le_reg_r (r ^ 2)); [now apply pow_lt|].
      replace (z ^ 2 / r ^ 2 * r ^ 2) with (z ^ 2) by (field; lra). pose proof (pow2_ge_0 rho). lra. }
    nra. }
  rewrite sin_acos, cos_acos by exact B. split; [|field; lra].
  rewrite <- (sqrt_pow2 r) at 1 by lra. rewrite <- sqrt_mult; [|apply pow2_ge_0|unfold Rsqr; nra].
  apply sqrt_unique; [exact H|]. unfold Rsqr. replace (r ^ 2 * (1 - z / r * (z / r))) with (r ^ 2 - z ^ 2) by (field; lra). lra.
Qed.
Definition unrotated (k : kind) : bool := match k with KUWedge | KLWedge => false | _ => true end.
Definition from_spherical (s X : nat -> R) : Prop :=
  0 < s 0%nat /\ 0 <= s 1%nat <= PI /\ X 0%nat = s 0%nat * sin (s 1%nat) * cos (s 2%nat) /\
  X 1%nat = s 0%nat * sin (s 1%nat) * sin (s 2%nat) /\ X 2%nat = s 0%nat * cos (s 1%nat).
Lemma cart_spherical : forall x y z, 0 < x ^ 2 + y ^ 2 + z ^ 2 ->
  from_spherical (v3 (sqrt (x ^ 2 + y ^ 2 + z ^ 2)) (acos (z / sqrt (x ^ 2 + y ^ 2 + z ^ 2))) (atan2 y x)) (v3 x y z).
Proof.
  intros x y z P. unfold from_spherical. cbn [v3]. destruct (atan2_cos_sin x y) as [A B].
  assert (Q : 0 <= x ^ 2 + y ^ 2) by (pose proof (pow2_ge_0 x); pose proof (pow2_ge_0 y); lra).
  destruct (acos_cos_sin (sqrt (x ^ 2 + y ^ 2)) z) as [C D]; [apply sqrt_pos|rewrite pow2_sqrt by exact Q; exact P|].
  rewrite pow2_sqrt in C, D by exact Q. rewrite C, D, A, B. split; [now apply sqrt_lt_R0|]. split; [apply acos_bound|auto].
Qed.
Lemma rho_spherical : forall rho z f, 0 < rho ->
  from_spherical (v3 (sqrt (rho ^ 2 + z ^ 2)) (acos (z / sqrt (rho ^ 2 + z ^ 2))) f) (v3 (rho * cos f) (rho * sin f) z).
Proof.
  intros rho z f P. unfold from_spherical. cbn [v3].
  assert (Q : 0 < rho ^ 2 + z ^ 2) by (pose proof (pow_lt rho 2 P); pose proof (pow2_ge_0 z); lra).
  destruct (acos_cos_sin rho z) as [C D]; [lra|exact Q|]. rewrite C, D. split; [now apply sqrt_lt_R0|]. split; [apply acos_bound|auto].
Qed.
Lemma from_ext : forall s X s' X', (forall i, (i < 3)%nat -> s i = s' i) -> (forall i, (i < 3)%nat -> X i = X' i) ->
  from_spherical s' X' -> from_spherical s X.
Proof.
  intros s X s' X' E F H. unfold from_spherical in *. rewrite (E 0%nat), (E 1%nat), (E 2%nat), (F 0%nat), (F 1%nat), (F 2%nat) by lia. exact H.
Qed.
(** for the two Cartesian systems, away from the origin *)
Definition away (k : kind) (v : env) : Prop :=
  match k with KCart | KSinhCart => exists i, (i < 3)%nat /\ cart_of (coord_of k) v i <> 0 | _ => True end.
Lemma some_nonzero : forall X : nat -> R, (exists i, (i < 3)%nat /\ X i <> 0) -> 0 < X 0%nat ^ 2 + X 1%nat ^ 2 + X 2%nat ^ 2.
Proof.
  intros X (i & Hi & N). pose proof (pow2_ge_0 (X 0%nat)). pose proof (pow2_ge_0 (X 1%nat)). pose proof (pow2_ge_0 (X 2%nat)).
  assert (0 < X i ^ 2) by (rewrite <- Rsqr_pow2; now apply Rlt_0_sqr). destruct i as [|[|[|i]]]; try lia; lra.
Qed.
(** every system but the wedges *)
Lemma kind_spherical : forall k v, good (ep v) -> kind_even k -> unrotated k = true -> inside (coord_of k) v -> away k v ->
  from_spherical (fun i => eval v (sph (coord_of k) i)) (cart_of (coord_of k) v).
Proof.
  intros k v G EV U IN NZ. pose proof PI_RGT_0 as PP. pose proof (g_pi _ G) as GP.
  pose proof (IN 0%nat ltac:(lia)) as I0. pose proof (IN 1%nat ltac:(lia)) as I1. pose proof (IN 2%nat ltac:(lia)) as I2.
  assert (GA : 0 < ep v "AMPL") by gpos G. assert (GW : 0 < ep v "SINHW") by gpos G.
  assert (NZ' : match k with KCart | KSinhCart => 0 < cart_of (coord_of k) v 0%nat ^ 2 + cart_of (coord_of k) v 1%nat ^ 2 +
                                cart_of (coord_of k) v 2%nat ^ 2 | _ => True end)
    by (destruct k; try exact I; now apply some_nonzero).
  clear NZ. unfold cart_of in *. destruct k; try discriminate U; cbn [coord_of] in *.
  - eapply from_ext; [| |apply (cart_spherical (exx v 0%nat) (exx v 1%nat) (exx v 2%nat)); exact NZ']; all3 i; reflexivity.
  - set (c := fun i => sinhv1 (XX i) (Par "AMPLXYZ") (Par "SINHWXYZ")).
    eapply from_ext; [| |apply (cart_spherical (eval v (c 0%nat)) (eval v (c 1%nat)) (eval v (c 2%nat))); exact NZ']; all3 i; reflexivity.
  - cbn in I0, I1. rewrite GP in I1. repeat split; cbn; lra.
  - cbn in I0, I1. rewrite GP in I1. pose proof (sinhv1_pos v 0 _ _ GA GW ltac:(lra)) as R0.
    cbn [spherical_of sph to_cart]. repeat split; cbn [v3 eval]; auto; cbn; lra.
  - pose proof (holey_pos v G (proj1 I0)) as X. pose proof (sinhv1_pos v 0 _ _ GA GW X) as R0. cbn in I1. rewrite GP in I1.
    cbn [spherical_of sph to_cart]. repeat split; cbn [v3 eval]; auto; cbn; lra.
  - pose proof (holey_pos v G (proj1 I0)) as X. pose proof (sinhv1_pos v 0 _ _ GA GW X) as R0. cbn in I1. rewrite GP in I1.
    cbn [spherical_of sph to_cart]. repeat split; cbn [v3 eval]; auto; cbn; lra.
  - cbn in I0, I1. rewrite GP in I1. pose proof (sinhv2_pos v 0 _ _ "r_slope" GA GW (g_slope _ G) n EV ltac:(lra)) as R0.
    cbn [spherical_of sph to_cart]. repeat split; cbn [v3 eval]; auto; cbn; lra.
  - cbn in I0, I1. rewrite GP in I1.
    eapply from_ext; [| |apply (rho_spherical (exx v 0%nat * sin (exx v 1%nat)) (sqrt (exx v 0%nat ^ 2 + ep v "bScale" ^ 2) * cos (exx v 1%nat)) (exx v 2%nat))];
      try (all3 i; reflexivity). apply Rmult_lt_0_compat; [lra|apply sin_gt_0; lra].
  - cbn in I0, I1. rewrite GP in I1. assert (B0 : 0 < ep v "AMAX") by gpos G. assert (B1 : 0 < ep v "SINHWAA") by gpos G.
    pose proof (sinhv1_pos v 0 _ _ B0 B1 ltac:(lra)) as R0. cbn [prolate_of sph to_cart].
    set (AA := sinhv1 X0 (Par "AMAX") (Par "SINHWAA")) in *.
    eapply from_ext; [| |apply (rho_spherical (eval v AA * sin (exx v 1%nat)) (sqrt (eval v AA ^ 2 + ep v "bScale" ^ 2) * cos (exx v 1%nat)) (exx v 2%nat))];
      try (all3 i; reflexivity). apply Rmult_lt_0_compat; [lra|apply sin_gt_0; lra].
  - cbn in I0. eapply from_ext; [| |apply (rho_spherical (exx v 0%nat) (exx v 2%nat) (exx v 1%nat))]; try (all3 i; reflexivity). lra.
  - assert (B0 : 0 < ep v "AMPLRHO") by gpos G. assert (B1 : 0 < ep v "SINHWRHO") by gpos G. cbn in I0.
    pose proof (sinhv1_pos v 0 _ _ B0 B1 ltac:(lra)) as R0. cbn [cylindrical_of sph to_cart].
    set (r := sinhv1 X0 (Par "AMPLRHO") (Par "SINHWRHO")) in *. set (z := sinhv1 X2 (Par "AMPLZ") (Par "SINHWZ")) in *.
    eapply from_ext; [| |apply (rho_spherical (eval v r) (eval v z) (exx v 1%nat))]; try (all3 i; reflexivity). lra.
  - assert (B0 : 0 < ep v "AMPLRHO") by gpos G. assert (B1 : 0 < ep v "SINHWRHO") by gpos G. cbn in I0.
    pose proof (sinhv2_pos v 0 _ _ "rho_slope" B0 B1 (g_rslope _ G) n EV ltac:(lra)) as R0. cbn [cylindrical_of sph to_cart].
    set (r := sinhv2 n X0 (Par "AMPLRHO") (Par "SINHWRHO") (Par "rho_slope")) in *.
    set (z := sinhv2 n X2 (Par "AMPLZ") (Par "SINHWZ") (Par "z_slope")) in *.
    eapply from_ext; [| |apply (rho_spherical (eval v r) (eval v z) (exx v 1%nat))]; try (all3 i; reflexivity). lra.
Qed.
Definition sph_eq (s X : nat -> R) : Prop :=
  X 0%nat = s 0%nat * sin (s 1%nat) * cos (s 2%nat) /\ X 1%nat = s 0%nat * sin (s 1%nat) * sin (s 2%nat) /\ X 2%nat = s 0%nat * cos (s 1%nat).
Lemma kind_sph_eq : forall k v, good (ep v) -> kind_even k -> unrotated k = true -> inside (coord_of k) v ->
  sph_eq (fun i => eval v (sph (coord_of k) i)) (cart_of (coord_of k) v).
Proof.
  intros k v G EV U IN.
  assert (D : away k v \/ ((k = KCart \/ k = KSinhCart) /\ forall i, (i < 3)%nat -> cart_of (coord_of k) v i = 0)).
  { destruct k; try (left; exact I).
    - destruct (Req_dec (cart_of (coord_of KCart) v 0) 0) as [E0|N]; [|left; exists 0%nat; split; [lia|exact N]].
      destruct (Req_dec (cart_of (coord_of KCart) v 1) 0) as [E1|N]; [|left; exists 1%nat; split; [lia|exact N]].
      destruct (Req_dec (cart_of (coord_of KCart) v 2) 0) as [E2|N]; [|left; exists 2%nat; split; [lia|exact N]].
      right. split; [auto|]. now all3 i.
    - destruct (Req_dec (cart_of (coord_of KSinhCart) v 0) 0) as [E0|N]; [|left; exists 0%nat; split; [lia|exact N]].
      destruct (Req_dec (cart_of (coord_of KSinhCart) v 1) 0) as [E1|N]; [|left; exists 1%nat; split; [lia|exact N]].
      destruct (Req_dec (cart_of (coord_of KSinhCart) v 2) 0) as [E2|N]; [|left; exists 2%nat; split; [lia|exact N]].
      right. split; [auto|]. now all3 i. }
  destruct D as [A|[K Z]].
  - destruct (kind_spherical k v G EV U IN A) as (_ & _ & E). exact E.
  - assert (S0 : eval v (sph (coord_of k) 0) = 0).
    { transitivity (sqrt (cart_of (coord_of k) v 0%nat ^ 2 + cart_of (coord_of k) v 1%nat ^ 2 + cart_of (coord_of k) v 2%nat ^ 2)).
      - destruct K as [-> | ->]; reflexivity.
      - rewrite !Z by lia. replace (0 ^ 2 + 0 ^ 2 + 0 ^ 2) with 0 by ring. apply sqrt_0. }
    unfold sph_eq. rewrite !Z by lia. rewrite S0. repeat split; ring.
Qed.
