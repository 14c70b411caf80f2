(** Facts about the coordinate systems of reference_metric.py: every accepted system is orthogonal with the stated scale factors and
    unit vectors. *)
From Coq Require Import String List ZArith Bool Arith Lia Reals Lra.
From Verif Require Import PyBase Inverter RefMetric RefMetricReal RefMetricCalc.
Import ListNotations.
Open Scope R_scope.

(** ** Parameters and domains *)
Definition positive_names : list string :=
  ["RMAX"; "AMPL"; "SINHW"; "AMAX"; "SINHWAA"; "bScale"; "RHOMAX"; "AMPLRHO"; "SINHWRHO"; "AMPLZ"; "SINHWZ"; "AMPLXYZ"; "SINHWXYZ"]%string.
Record good (p : string -> R) : Prop := MkGood {
  g_pi : p "PI"%string = PI;
  g_half : p "SQRT1_2"%string = / sqrt 2;
  g_pos : forall s, In s positive_names -> 0 < p s;
  g_rmin : 0 <= p "RMIN"%string;
  g_slope : 0 < p "r_slope"%string <= p "AMPL"%string;
  g_rslope : 0 < p "rho_slope"%string <= p "AMPLRHO"%string;
  g_zslope : 0 < p "z_slope"%string <= p "AMPLZ"%string }.
(** strictly inside the grid *)
Definition inside (m : coord) (v : env) : Prop := forall i, (i < 3)%nat -> eval v (c_min m i) < exx v i < eval v (c_max m i).
Definition sum3 (f : nat -> R) : R := f 0%nat + f 1%nat + f 2%nat.
Definition delta (i j : nat) : R := if Nat.eqb i j then 1 else 0.

(** what is wanted of a coordinate system at a point *)
Record regular (m : coord) (v : env) : Prop := MkReg {
  reg_wd : forall i, (i < 3)%nat -> wd v (to_cart m i);
  reg_wds : forall i, (i < 3)%nat -> wd v (scale m i);
  reg_pos : forall i, (i < 3)%nat -> 0 < eval v (scale m i);
  reg_dir : forall i j, (i < 3)%nat -> (j < 3)%nat -> eval v (diff j (to_cart m i)) = eval v (scale m j) * eval v (unitv m j i);
  reg_cols : forall j k, (j < 3)%nat -> (k < 3)%nat -> sum3 (fun i => eval v (unitv m j i) * eval v (unitv m k i)) = delta j k;
  reg_rows : forall i k, (i < 3)%nat -> (k < 3)%nat -> sum3 (fun j => eval v (unitv m j i) * eval v (unitv m j k)) = delta i k }.

Lemma lt3 : forall (P : nat -> Prop), P 0%nat -> P 1%nat -> P 2%nat -> forall i, (i < 3)%nat -> P i.
Proof. intros P A B C i L. destruct i as [|[|[|i]]]; auto; lia. Qed.
Lemma lt33 : forall (P : nat -> nat -> Prop), P 0%nat 0%nat -> P 0%nat 1%nat -> P 0%nat 2%nat -> P 1%nat 0%nat -> P 1%nat 1%nat ->
  P 1%nat 2%nat -> P 2%nat 0%nat -> P 2%nat 1%nat -> P 2%nat 2%nat -> forall i j, (i < 3)%nat -> (j < 3)%nat -> P i j.
Proof. intros P A B C D E F G H I i j Li Lj. destruct i as [|[|[|i]]], j as [|[|[|j]]]; auto; lia. Qed.
Ltac all3 i := let P := fresh in intros i P; revert i P; apply lt3.

(** ** Radial profiles *)
Lemma sinh_gt_0 : forall x, 0 < x -> 0 < sinh x.
Proof. intros x H. rewrite <- sinh_0. now apply sinh_lt. Qed.
Lemma sinh_lt_0 : forall x, x < 0 -> sinh x < 0.
Proof. intros x H. rewrite <- sinh_0. now apply sinh_lt. Qed.
Lemma cosh_gt_0 : forall x, 0 < cosh x.
Proof. intros x. unfold cosh. pose proof (exp_pos x). pose proof (exp_pos (- x)). lra. Qed.
Lemma sinh_arg : forall w, 0 < w -> 0 < sinh (1 / w).
Proof. intros w W. apply sinh_gt_0. unfold Rdiv. rewrite Rmult_1_l. now apply Rinv_0_lt_compat. Qed.
Lemma exps : forall x w, w <> 0 -> exp (x / w) - exp (- x / w) = 2 * sinh (x / w).
Proof. intros x w W. unfold sinh. replace (- (x / w)) with (- x / w) by (field; auto). lra. Qed.
Lemma expc : forall x w, w <> 0 -> exp (x / w) + exp (- x / w) = 2 * cosh (x / w).
Proof. intros x w W. unfold cosh. replace (- (x / w)) with (- x / w) by (field; auto). lra. Qed.
Lemma exp_one : forall w, exp (1 / w) - exp (-1 / w) = 2 * sinh (1 / w).
Proof. intros w. unfold sinh. replace (- (1 / w)) with (-1 / w) by (unfold Rdiv; lra). lra. Qed.

Section Profiles.
Variables (v : env) (k : nat) (A w s : string).
Hypothesis HA : 0 < ep v A.
Hypothesis Hw : 0 < ep v w.
Notation a := (ep v A). Notation ww := (ep v w). Notation x := (exx v k).
Lemma sinhv1_wd : wd v (sinhv1 (XX k) (Par A) (Par w)).
Proof using HA Hw. pose proof (sinh_arg ww Hw). cbn. rewrite exp_one. repeat split; auto; lra. Qed.
Lemma sinhv1_val : eval v (sinhv1 (XX k) (Par A) (Par w)) = a * sinh (x / ww) / sinh (1 / ww).
Proof using HA Hw.
  pose proof (sinh_arg ww Hw). cbn. rewrite exp_one, exps by lra. field. lra.
Qed.
Lemma sinhv1_diff : eval v (diff k (sinhv1 (XX k) (Par A) (Par w))) = a * cosh (x / ww) / (ww * sinh (1 / ww)).
Proof using HA Hw.
  pose proof (sinh_arg ww Hw). cbn [diff sinhv1]. rewrite Nat.eqb_refl. ev. cbn [eval]. ev. cbn [eval]. rewrite exp_one.
  match goal with |- ?l = _ => replace l with (a * ((exp (x / ww) + exp (- x / ww)) / ww) / (2 * sinh (1 / ww))) by (field; lra) end.
  rewrite expc by lra. field. lra.
Qed.
Lemma sinhv1_diff_pos : 0 < eval v (diff k (sinhv1 (XX k) (Par A) (Par w))).
Proof using HA Hw.
  rewrite sinhv1_diff. pose proof (sinh_arg ww Hw). pose proof (cosh_gt_0 (x / ww)).
  apply Rdiv_lt_0_compat; apply Rmult_lt_0_compat; auto.
Qed.
Lemma sinhv1_pos : 0 < x -> 0 < eval v (sinhv1 (XX k) (Par A) (Par w)).
Proof using HA Hw.
  intros P. rewrite sinhv1_val. pose proof (sinh_arg ww Hw). apply Rdiv_lt_0_compat; auto. apply Rmult_lt_0_compat; auto.
  apply sinh_gt_0. now apply Rdiv_lt_0_compat.
Qed.
Lemma asinhv1_val : forall e y, eval v e = a * sinh (y / ww) / sinh (1 / ww) -> eval v (asinhv1 e (Par A) (Par w)) = y.
Proof using HA Hw.
  intros e y E. cbn. rewrite E. pose proof (sinh_arg ww Hw).
  replace (a * sinh (y / ww) / sinh (1 / ww) * sinh (1 / ww) / a) with (sinh (y / ww)) by (field; lra).
  rewrite arcsinh_sinh. field. lra.
Qed.

Hypothesis Hs : 0 < ep v s <= ep v A.
Variable n : nat.
Hypothesis Hn : Nat.even n = true.
Notation sl := (ep v s).
Lemma sinhv2_wd : wd v (sinhv2 n (XX k) (Par A) (Par w) (Par s)).
Proof using HA Hw. pose proof (sinh_arg ww Hw). cbn. rewrite exp_one. repeat split; auto; lra. Qed.
Lemma sinhv2_val : eval v (sinhv2 n (XX k) (Par A) (Par w) (Par s)) = (a - sl) * x ^ n * sinh (x / ww) / sinh (1 / ww) + sl * x.
Proof using HA Hw.
  pose proof (sinh_arg ww Hw). cbn. rewrite exp_one, exps by lra. field. lra.
Qed.
Lemma sinhv2_diff : eval v (diff k (sinhv2 n (XX k) (Par A) (Par w) (Par s))) =
  (a - sl) * (INR n * x ^ (n - 1) * sinh (x / ww) + x ^ n * cosh (x / ww) / ww) / sinh (1 / ww) + sl.
Proof using HA Hw.
  pose proof (sinh_arg ww Hw). cbn [diff sinhv2]. rewrite Nat.eqb_refl. ev. cbn [eval]. ev. cbn [eval]. rewrite exp_one.
  rewrite exps by lra. rewrite <- INR_IZR_INZ.
  match goal with |- ?l = _ => replace l with
    ((a - sl) * (INR n * x ^ (n - 1) * (2 * sinh (x / ww)) + x ^ n * ((exp (x / ww) + exp (- x / ww)) / ww)) / (2 * sinh (1 / ww)) + sl)
    by (field; lra) end.
  rewrite expc by lra. field. lra.
Qed.
Lemma odd_sign : 0 <= INR n * x ^ (n - 1) * sinh (x / ww).
Proof using Hw Hn.
  apply Nat.even_spec in Hn as [q ->]. destruct q as [|q]; [cbn; lra|].
  replace (2 * S q - 1)%nat with (S (2 * q)) by lia. rewrite <- tech_pow_Rmult, pow_mult.
  assert (P : 0 <= (x ^ 2) ^ q) by (apply pow_le, pow2_ge_0).
  assert (Q : 0 <= x * sinh (x / ww)).
  { destruct (Rtotal_order x 0) as [L|[E|G]].
    - assert (x / ww < 0) by (unfold Rdiv; pose proof (Rinv_0_lt_compat ww Hw); nra).
      pose proof (sinh_lt_0 (x / ww) ltac:(auto)). nra.
    - rewrite E. lra.
    - pose proof (sinh_gt_0 (x / ww) ltac:(now apply Rdiv_lt_0_compat)). nra. }
  pose proof (pos_INR (2 * S q)).
  replace (INR (2 * S q) * (x * (x ^ 2) ^ q) * sinh (x / ww)) with (INR (2 * S q) * ((x ^ 2) ^ q * (x * sinh (x / ww)))) by ring.
  apply Rmult_le_pos; auto. now apply Rmult_le_pos.
Qed.
Lemma even_pow : 0 <= x ^ n.
Proof using Hn. apply Nat.even_spec in Hn as [q ->]. rewrite pow_mult. apply pow_le, pow2_ge_0. Qed.
Lemma sinhv2_diff_pos : 0 < eval v (diff k (sinhv2 n (XX k) (Par A) (Par w) (Par s))).
Proof using HA Hw Hs Hn.
  rewrite sinhv2_diff. pose proof (sinh_arg ww Hw). pose proof (cosh_gt_0 (x / ww)). pose proof odd_sign. pose proof even_pow.
  assert (0 <= x ^ n * cosh (x / ww) / ww)
    by (unfold Rdiv; apply Rmult_le_pos; [apply Rmult_le_pos; lra|left; now apply Rinv_0_lt_compat]).
  assert (0 <= (a - sl) * (INR n * x ^ (n - 1) * sinh (x / ww) + x ^ n * cosh (x / ww) / ww) / sinh (1 / ww)).
  { unfold Rdiv at 1. apply Rmult_le_pos; [apply Rmult_le_pos; lra|left; now apply Rinv_0_lt_compat]. }
  lra.
Qed.
Lemma sinhv2_pos : 0 < x -> 0 < eval v (sinhv2 n (XX k) (Par A) (Par w) (Par s)).
Proof using HA Hw Hs Hn.
  intros P. rewrite sinhv2_val. pose proof (sinh_arg ww Hw). pose proof (sinh_gt_0 (x / ww) ltac:(now apply Rdiv_lt_0_compat)).
  pose proof even_pow.
  assert (0 <= (a - sl) * x ^ n * sinh (x / ww) / sinh (1 / ww)).
  { unfold Rdiv at 1. apply Rmult_le_pos; [apply Rmult_le_pos; [apply Rmult_le_pos|]; lra|left; now apply Rinv_0_lt_compat]. }
  assert (0 < sl * x) by (apply Rmult_lt_0_compat; lra). lra.
Qed.
End Profiles.

(** ** The families *)
Lemma sc2 : forall t, cos t * cos t = 1 - sin t * sin t.
Proof. intros t. pose proof (sin2_cos2 t). unfold Rsqr in *. lra. Qed.
(** polynomial identities in sin and cos of xx1 and xx2 *)
Ltac norm_trig v := 
  let c1 := fresh "c" in let s1 := fresh "s" in let c2 := fresh "c" in let s2 := fresh "s" in
  let H1 := fresh "H" in let H2 := fresh "H" in
  pose proof (sc2 (exx v 1%nat)) as H1; pose proof (sc2 (exx v 2%nat)) as H2;
  set (c1 := cos (exx v 1%nat)) in *; set (s1 := sin (exx v 1%nat)) in *;
  set (c2 := cos (exx v 2%nat)) in *; set (s2 := sin (exx v 2%nat)) in *;
  try ring; ring_simplify; replace (c1 ^ 2) with (1 - s1 ^ 2) by lra; replace (c2 ^ 2) with (1 - s2 ^ 2) by lra; try ring.

Lemma spherical_regular : forall mn mx ct r v, free_of 1 r = true -> free_of 2 r = true -> wd v r -> 0 < eval v r ->
  0 < eval v (diff 0 r) -> 0 < sin (exx v 1%nat) -> regular (spherical_of mn mx ct r) v.
Proof.
  intros mn mx ct r v F1 F2 W P D S.
  assert (E1 := diff_free _ _ F1). assert (E2 := diff_free _ _ F2). assert (WD := wd_diff r 0%nat v W).
  constructor.
  - all3 i; cbn; auto.
  - all3 i; cbn; auto.
  - all3 i; cbn; auto. now apply Rmult_lt_0_compat.
  - apply lt33; cbn [spherical_of to_cart scale unitv v3 diff]; rewrite ?E1, ?E2; ev; cbn [eval Nat.eqb]; ev; cbn [eval]; ring.
  - apply lt33; unfold sum3, delta; cbn [spherical_of unitv v3 Nat.eqb eval]; norm_trig v.
  - apply lt33; unfold sum3, delta; cbn [spherical_of unitv v3 Nat.eqb eval]; norm_trig v.
Qed.

Lemma cylindrical_regular : forall mn mx ct rho z v, free_of 1 rho = true -> free_of 2 rho = true -> free_of 0 z = true ->
  free_of 1 z = true -> wd v rho -> wd v z -> 0 < eval v rho -> 0 < eval v (diff 0 rho) -> 0 < eval v (diff 2 z) ->
  regular (cylindrical_of mn mx ct rho z) v.
Proof.
  intros mn mx ct rho z v F1 F2 G0 G1 W WZ P D DZ.
  assert (E1 := diff_free _ _ F1). assert (E2 := diff_free _ _ F2). assert (E3 := diff_free _ _ G0). assert (E4 := diff_free _ _ G1).
  assert (WD := wd_diff rho 0%nat v W). assert (WDZ := wd_diff z 2%nat v WZ).
  constructor.
  - all3 i; cbn; auto.
  - all3 i; cbn; auto.
  - all3 i; cbn; auto.
  - apply lt33; cbn [cylindrical_of to_cart scale unitv v3 diff]; rewrite ?E1, ?E2, ?E3, ?E4; ev; cbn [eval Nat.eqb]; ev; cbn [eval]; ring.
  - apply lt33; unfold sum3, delta; cbn [cylindrical_of unitv v3 Nat.eqb eval]; norm_trig v.
  - apply lt33; unfold sum3, delta; cbn [cylindrical_of unitv v3 Nat.eqb eval]; norm_trig v.
Qed.

Lemma uwedge_regular : forall v, 0 < ep v "AMPL" -> 0 < ep v "SINHW" -> 0 < exx v 0%nat -> 0 < sin (exx v 1%nat) ->
  regular (spherical_wedge_like "UWedgeHSinhSph") v.
Proof.
  intros v A w X S. pose proof (sinhv1_wd v 0 _ _ A w) as W. pose proof (sinhv1_pos v 0 _ _ A w X) as P.
  pose proof (sinhv1_diff_pos v 0 _ _ A w) as D.
  change (spherical_wedge_like "UWedgeHSinhSph") with
    (let r := sinhv1 X0 (Par "AMPL") (Par "SINHW") in
     MkCoord (c_min (spherical_wedge_like "UWedgeHSinhSph")) (c_max (spherical_wedge_like "UWedgeHSinhSph"))
      (v3 (Mul (Opp r) (Cos X1)) (Mul (Mul r (Sin X1)) (Sin X2)) (Mul (Mul r (Sin X1)) (Cos X2)))
      (cart_to (spherical_wedge_like "UWedgeHSinhSph")) (sph (spherical_wedge_like "UWedgeHSinhSph"))
      (v3 (diff 0 r) r (Mul r (Sin X1))) (scale_ff (spherical_wedge_like "UWedgeHSinhSph")) (base (spherical_wedge_like "UWedgeHSinhSph"))
      (unitv (spherical_wedge_like "UWedgeHSinhSph"))).
  set (r := sinhv1 X0 (Par "AMPL") (Par "SINHW")) in *. cbn zeta.
  assert (E1 : diff 1 r = Num 0) by (now apply diff_free). assert (E2 : diff 2 r = Num 0) by (now apply diff_free).
  assert (WD := wd_diff r 0%nat v W). clearbody r.
  constructor.
  - all3 i; cbn; auto.
  - all3 i; cbn; auto.
  - all3 i; cbn; auto. now apply Rmult_lt_0_compat.
  - apply lt33; cbn [to_cart scale v3 diff]; rewrite ?E1, ?E2; ev; cbn [eval Nat.eqb]; ev; cbn [eval];
      cbn [unitv spherical_wedge_like String.eqb Ascii.eqb Bool.eqb v3 eval]; ring.
  - apply lt33; unfold sum3, delta; cbn [unitv spherical_wedge_like String.eqb Ascii.eqb Bool.eqb v3 Nat.eqb eval]; norm_trig v.
  - apply lt33; unfold sum3, delta; cbn [unitv spherical_wedge_like String.eqb Ascii.eqb Bool.eqb v3 Nat.eqb eval]; norm_trig v.
Qed.
Lemma lwedge_regular : forall v, 0 < ep v "AMPL" -> 0 < ep v "SINHW" -> 0 < exx v 0%nat -> 0 < sin (exx v 1%nat) ->
  regular (spherical_wedge_like "LWedgeHSinhSph") v.
Proof.
  intros v A w X S. pose proof (sinhv1_wd v 0 _ _ A w) as W. pose proof (sinhv1_pos v 0 _ _ A w X) as P.
  pose proof (sinhv1_diff_pos v 0 _ _ A w) as D.
  change (spherical_wedge_like "LWedgeHSinhSph") with
    (let r := sinhv1 X0 (Par "AMPL") (Par "SINHW") in
     MkCoord (c_min (spherical_wedge_like "LWedgeHSinhSph")) (c_max (spherical_wedge_like "LWedgeHSinhSph"))
      (v3 (Mul r (Cos X1)) (Mul (Mul r (Sin X1)) (Sin X2)) (Mul (Mul (Opp r) (Sin X1)) (Cos X2)))
      (cart_to (spherical_wedge_like "LWedgeHSinhSph")) (sph (spherical_wedge_like "LWedgeHSinhSph"))
      (v3 (diff 0 r) r (Mul r (Sin X1))) (scale_ff (spherical_wedge_like "LWedgeHSinhSph")) (base (spherical_wedge_like "LWedgeHSinhSph"))
      (unitv (spherical_wedge_like "LWedgeHSinhSph"))).
  set (r := sinhv1 X0 (Par "AMPL") (Par "SINHW")) in *. cbn zeta.
  assert (E1 : diff 1 r = Num 0) by (now apply diff_free). assert (E2 : diff 2 r = Num 0) by (now apply diff_free).
  assert (WD := wd_diff r 0%nat v W). clearbody r.
  constructor.
  - all3 i; cbn; auto.
  - all3 i; cbn; auto.
  - all3 i; cbn; auto. now apply Rmult_lt_0_compat.
  - apply lt33; cbn [to_cart scale v3 diff]; rewrite ?E1, ?E2; ev; cbn [eval Nat.eqb]; ev; cbn [eval];
      cbn [unitv spherical_wedge_like String.eqb Ascii.eqb Bool.eqb v3 eval]; ring.
  - apply lt33; unfold sum3, delta; cbn [unitv spherical_wedge_like String.eqb Ascii.eqb Bool.eqb v3 Nat.eqb eval]; norm_trig v.
  - apply lt33; unfold sum3, delta; cbn [unitv spherical_wedge_like String.eqb Ascii.eqb Bool.eqb v3 Nat.eqb eval]; norm_trig v.
Qed.

Lemma cartesian_regular : forall v, regular (cartesian_like "Cartesian") v.
Proof.
  intros v. constructor.
  - all3 i; exact I.
  - all3 i; exact I.
  - all3 i; cbn; lra.
  - apply lt33; cbn; lra.
  - apply lt33; unfold sum3, delta; cbn; lra.
  - apply lt33; unfold sum3, delta; cbn; lra.
Qed.
Lemma sinhcartesian_regular : forall v, 0 < ep v "AMPLXYZ" -> 0 < ep v "SINHWXYZ" -> regular (cartesian_like "SinhCartesian") v.
Proof.
  intros v A w.
  change (cartesian_like "SinhCartesian") with
    (let c i := sinhv1 (XX i) (Par "AMPLXYZ") (Par "SINHWXYZ") in
     MkCoord (c_min (cartesian_like "SinhCartesian")) (c_max (cartesian_like "SinhCartesian")) c
      (cart_to (cartesian_like "SinhCartesian")) (sph (cartesian_like "SinhCartesian")) (fun i => diff i (c i))
      (scale_ff (cartesian_like "SinhCartesian")) (base (cartesian_like "SinhCartesian")) identity3).
  cbn zeta. constructor.
  - intros i _. cbn [to_cart]. now apply sinhv1_wd.
  - intros i _. cbn [scale]. apply wd_diff. now apply sinhv1_wd.
  - intros i _. cbn [scale]. now apply sinhv1_diff_pos.
  - intros i j _ _. cbn [to_cart scale unitv]. unfold identity3. rewrite Nat.eqb_sym. destruct (Nat.eqb_spec i j) as [->|N].
    + cbn [eval]. lra.
    + rewrite diff_free; [cbn [eval]; lra|]. cbn. apply Nat.eqb_neq in N. now rewrite N.
  - apply lt33; unfold sum3, delta; cbn; lra.
  - apply lt33; unfold sum3, delta; cbn; lra.
Qed.

Section Prolate.
Variables (mx0 AA : ex) (v : env).
Hypothesis F1 : free_of 1 AA = true.
Hypothesis F2 : free_of 2 AA = true.
Hypothesis W : wd v AA.
Hypothesis P : 0 < eval v AA.
Hypothesis B : 0 < ep v "bScale".
Hypothesis S : 0 < sin (exx v 1%nat).
Notation a := (eval v AA). Notation b := (ep v "bScale"). Notation th := (exx v 1%nat).
Definition V1 : R := sqrt (a ^ 2 + (b * sin th) ^ 2).
Definition V2 : R := sqrt (a ^ 2 + b ^ 2).
Lemma V1_arg : 0 < a ^ 2 + (b * sin th) ^ 2.
Proof using P. pose proof (pow_lt a 2 P). pose proof (pow2_ge_0 (b * sin th)). lra. Qed.
Lemma V2_arg : 0 < a ^ 2 + b ^ 2.
Proof using P. pose proof (pow_lt a 2 P). pose proof (pow2_ge_0 b). lra. Qed.
Lemma V1_pos : 0 < V1.
Proof using P. apply sqrt_lt_R0, V1_arg. Qed.
Lemma V2_pos : 0 < V2.
Proof using P. apply sqrt_lt_R0, V2_arg. Qed.
Lemma V1_sq : V1 ^ 2 = a ^ 2 + b ^ 2 * sin th ^ 2.
Proof using P. unfold V1. rewrite pow2_sqrt by (left; apply V1_arg). ring. Qed.
Lemma V2_sq : V2 ^ 2 = a ^ 2 + b ^ 2.
Proof using P. unfold V2. rewrite pow2_sqrt by (left; apply V2_arg). ring. Qed.

Lemma prolate_regular : 0 < eval v (diff 0 AA) -> regular (prolate_of mx0 AA) v.
Proof using F1 F2 W P B S.
  intros D. assert (E1 := diff_free _ _ F1). assert (E2 := diff_free _ _ F2).
  assert (WD := wd_diff AA 0%nat v W). pose proof V1_pos as Q1. pose proof V2_pos as Q2. pose proof V1_arg. pose proof V2_arg.
  pose proof V1_sq as K1. pose proof V2_sq as K2.
  constructor.
  - all3 i; cbn [prolate_of to_cart v3 wd eval]; repeat split; auto.
  - all3 i; cbn [prolate_of scale v3 wd eval]; repeat split; auto. change (V2 <> 0). lra.
  - all3 i; cbn [prolate_of scale v3 wd eval].
    + apply Rdiv_lt_0_compat; [apply Rmult_lt_0_compat; [exact D|exact Q1]|exact Q2].
    + exact Q1.
    + now apply Rmult_lt_0_compat.
  - apply lt33; cbn [prolate_of to_cart scale unitv v3 diff]; rewrite ?E1, ?E2; ev; cbn [eval Nat.eqb]; ev; cbn [eval];
      fold V1; fold V2; try (field; lra); try ring.
    change (2 - 1)%nat with 1%nat. field. lra.
  - pose proof (sc2 (exx v 1%nat)) as H1. pose proof (sc2 (exx v 2%nat)) as H2.
    apply lt33; unfold sum3, delta; cbn [prolate_of unitv v3 Nat.eqb eval]; fold V1; fold V2.
    all: field_simplify_eq; try lra.
    all: replace (cos (exx v 1%nat) ^ 2) with (1 - sin (exx v 1%nat) ^ 2) by lra.
    all: replace (cos (exx v 2%nat) ^ 2) with (1 - sin (exx v 2%nat) ^ 2) by lra.
    all: rewrite ?K1, ?K2; ring.
  - pose proof (sc2 (exx v 1%nat)) as H1. pose proof (sc2 (exx v 2%nat)) as H2.
    apply lt33; unfold sum3, delta; cbn [prolate_of unitv v3 Nat.eqb eval]; fold V1; fold V2.
    all: field_simplify_eq; try lra.
    all: replace (cos (exx v 1%nat) ^ 2) with (1 - sin (exx v 1%nat) ^ 2) by lra.
    all: replace (cos (exx v 2%nat) ^ 2) with (1 - sin (exx v 2%nat) ^ 2) by lra.
    all: rewrite ?K1, ?K2; ring.
Qed.
End Prolate.

(** ** The systems *)
Inductive kind : Type :=
| KCart | KSinhCart | KUWedge | KLWedge | KSph | KSinhSph | KHoley | KRing | KSphV2 (n : nat) | KSymTP | KSinhSymTP | KCyl | KSinhCyl
| KCylV2 (n : nat).
Notation rc_sph := (norm3 CX CY CZ).
Notation rc_cyl := (Sqrt (Add (Pow CX 2) (Pow CY 2))).
Definition coord_of (k : kind) : coord :=
  match k with
  | KCart => cartesian_like "Cartesian" | KSinhCart => cartesian_like "SinhCartesian"
  | KUWedge => spherical_wedge_like "UWedgeHSinhSph" | KLWedge => spherical_wedge_like "LWedgeHSinhSph"
  | KSph => spherical_of (v3 (Num 0) (Num 0) (Opp PIe)) (v3 (Par "RMAX") PIe PIe)
              (v3 rc_sph (Acos (Div CZ rc_sph)) (Atan2 CY CX)) X0
  | KSinhSph => spherical_of (v3 (Num 0) (Num 0) (Opp PIe)) (v3 (Num 1) PIe PIe)
              (v3 (asinhv1 rc_sph (Par "AMPL") (Par "SINHW")) (Acos (Div CZ rc_sph)) (Atan2 CY CX)) (sinhv1 X0 (Par "AMPL") (Par "SINHW"))
  | KHoley => spherical_of (v3 (asinhv1 (Par "RMIN") (Par "AMPL") (Par "SINHW")) (Num 0) (Opp PIe))
              (v3 (asinhv1 (Par "AMPL") (Par "AMPL") (Par "SINHW")) PIe PIe)
              (v3 (asinhv1 rc_sph (Par "AMPL") (Par "SINHW")) (Acos (Div CZ rc_sph)) (Atan2 CY CX)) (sinhv1 X0 (Par "AMPL") (Par "SINHW"))
  | KRing => spherical_of (v3 (asinhv1 (Par "RMIN") (Par "AMPL") (Par "SINHW")) (Mul (frac 1 4) PIe) (Opp PIe))
              (v3 (asinhv1 (Par "AMPL") (Par "AMPL") (Par "SINHW")) (Mul (frac 3 4) PIe) PIe)
              (v3 (asinhv1 rc_sph (Par "AMPL") (Par "SINHW")) (Acos (Div CZ rc_sph)) (Atan2 CY CX)) (sinhv1 X0 (Par "AMPL") (Par "SINHW"))
  | KSphV2 n => spherical_of (v3 (Num 0) (Num 0) (Opp PIe)) (v3 (Num 1) PIe PIe) zero3
              (sinhv2 n X0 (Par "AMPL") (Par "SINHW") (Par "r_slope"))
  | KSymTP => prolate_of (Par "AMAX") X0
  | KSinhSymTP => prolate_of (Num 1) (sinhv1 X0 (Par "AMAX") (Par "SINHWAA"))
  | KCyl => cylindrical_of (v3 (Num 0) (Opp PIe) (Par "ZMIN")) (v3 (Par "RHOMAX") PIe (Par "ZMAX")) (v3 rc_cyl (Atan2 CY CX) CZ) X0 X2
  | KSinhCyl => cylindrical_of (v3 (Num 0) (Opp PIe) (Num (-1))) (v3 (Num 1) PIe (Num 1))
              (v3 (asinhv1 rc_cyl (Par "AMPLRHO") (Par "SINHWRHO")) (Atan2 CY CX) (asinhv1 CZ (Par "AMPLZ") (Par "SINHWZ")))
              (sinhv1 X0 (Par "AMPLRHO") (Par "SINHWRHO")) (sinhv1 X2 (Par "AMPLZ") (Par "SINHWZ"))
  | KCylV2 n => cylindrical_of (v3 (Num 0) (Opp PIe) (Num (-1))) (v3 (Num 1) PIe (Num 1)) zero3
              (sinhv2 n X0 (Par "AMPLRHO") (Par "SINHWRHO") (Par "rho_slope")) (sinhv2 n X2 (Par "AMPLZ") (Par "SINHWZ") (Par "z_slope"))
  end.
Definition kind_even (k : kind) : Prop := match k with KSphV2 n | KCylV2 n => Nat.even n = true | _ => True end.
(** the names of a system *)
Definition named (cs : string) (k : kind) : Prop :=
  match k with
  | KCart => cs = "Cartesian" | KSinhCart => cs = "SinhCartesian" | KUWedge => cs = "UWedgeHSinhSph" | KLWedge => cs = "LWedgeHSinhSph"
  | KSph => cs = "Spherical" | KHoley => cs = "HoleySinhSpherical" | KRing => cs = "RingHoleySinhSpherical"
  | KSinhSph => py_in "Cartesian" cs = false /\ ends_with "SinhSpherical" cs = true /\ py_in "HoleySinhSpherical" cs = false
  | KSphV2 n => py_in "Cartesian" cs = false /\ ends_with "SinhSpherical" cs = false /\
                prefix "SinhSphericalv2n" cs = true /\ sinhv2_power cs = Ok n
  | KSymTP => cs = "SymTP" | KSinhSymTP => cs = "SinhSymTP" | KCyl => cs = "Cylindrical" | KSinhCyl => cs = "SinhCylindrical"
  | KCylV2 n => py_in "Cartesian" cs = false /\ py_in "Spherical" cs = false /\ py_in "Wedge" cs = false /\ py_in "SymTP" cs = false /\
                prefix "SinhCylindricalv2" cs = true /\ sinhv2_power cs = Ok n
  end%string.
Lemma sinhv2_power_even : forall cs n, sinhv2_power cs = Ok n -> Nat.even n = true.
Proof.
  intros cs n H. unfold sinhv2_power in H. destruct (after_v2n cs); [|discriminate]. destruct (prefix "Sinh" cs); [|discriminate].
  destruct (isdigit_int s) as [q|]; [|discriminate]. destruct (Nat.even q) eqn:E; [|discriminate]. congruence.
Qed.
Lemma zero_jacobian : forall m, to_cart m = zero3 -> inverse3 (fun i k => diff k (to_cart m i)) = Err NonInvertibleMatrixError.
Proof. intros m E. rewrite E. reflexivity. Qed.
Ltac eqb_case cs s :=
  let E := fresh "E" in destruct (String.eqb cs s) eqn:E; [apply String.eqb_eq in E|].
Lemma coord_kinds : forall cs m, coord_system cs = Ok m ->
  (exists k, m = coord_of k /\ named cs k) \/ to_cart m = zero3.
Proof.
  intros cs m H. unfold coord_system in H. destruct (py_in "Cartesian" cs) eqn:EC.
  { injection H as <-. destruct (String.eqb cs "Cartesian") eqn:E1; [|destruct (String.eqb cs "SinhCartesian") eqn:E2].
    - left. exists KCart. apply String.eqb_eq in E1. subst. split; reflexivity.
    - left. exists KSinhCart. apply String.eqb_eq in E2. subst. split; reflexivity.
    - right. unfold cartesian_like. now rewrite E1, E2. }
  destruct (py_in "Spherical" cs) eqn:ES.
  { unfold spherical_like in H. left. destruct (String.eqb cs "Spherical") eqn:E1.
    { injection H as <-. exists KSph. apply String.eqb_eq in E1. subst. split; reflexivity. }
    destruct (ends_with "SinhSpherical" cs) eqn:EE.
    - destruct (py_in "HoleySinhSpherical" cs) eqn:EH.
      + destruct (String.eqb cs "HoleySinhSpherical") eqn:E2; [|destruct (String.eqb cs "RingHoleySinhSpherical") eqn:E3; [|discriminate]].
        * injection H as <-. exists KHoley. apply String.eqb_eq in E2. subst. split; reflexivity.
        * injection H as <-. exists KRing. apply String.eqb_eq in E3. subst. split; reflexivity.
      + injection H as <-. exists KSinhSph. split; [reflexivity|]. cbn. auto.
    - destruct (prefix "SinhSphericalv2n" cs) eqn:EP; [|discriminate].
      destruct (sinhv2_power cs) as [n|] eqn:EN; [|discriminate]. injection H as <-. exists (KSphV2 n). split; [reflexivity|]. cbn. auto. }
  destruct (py_in "Wedge" cs) eqn:EW.
  { injection H as <-. destruct (String.eqb cs "UWedgeHSinhSph") eqn:E1; [|destruct (String.eqb cs "LWedgeHSinhSph") eqn:E2].
    - left. exists KUWedge. apply String.eqb_eq in E1. subst. split; reflexivity.
    - left. exists KLWedge. apply String.eqb_eq in E2. subst. split; reflexivity.
    - right. unfold spherical_wedge_like. now rewrite E1, E2. }
  left. destruct (py_in "SymTP" cs) eqn:ET.
  { unfold prolate_spheroidal_like in H. destruct (String.eqb cs "SymTP") eqn:E1; [|destruct (String.eqb cs "SinhSymTP") eqn:E2; [|discriminate]].
    - injection H as <-. exists KSymTP. apply String.eqb_eq in E1. subst. split; reflexivity.
    - injection H as <-. exists KSinhSymTP. apply String.eqb_eq in E2. subst. split; reflexivity. }
  destruct (py_in "Cylindrical" cs) eqn:EY; [|discriminate]. unfold cylindrical_like in H.
  destruct (String.eqb cs "Cylindrical") eqn:E1; [|destruct (String.eqb cs "SinhCylindrical") eqn:E2].
  - injection H as <-. exists KCyl. apply String.eqb_eq in E1. subst. split; reflexivity.
  - injection H as <-. exists KSinhCyl. apply String.eqb_eq in E2. subst. split; reflexivity.
  - destruct (prefix "SinhCylindricalv2" cs) eqn:EP; [|discriminate].
    destruct (sinhv2_power cs) as [n|] eqn:EN; [|discriminate]. injection H as <-. exists (KCylV2 n). split; [reflexivity|]. cbn. auto 6.
Qed.
Lemma named_even : forall cs k, named cs k -> kind_even k.
Proof.
  intros cs k N. destruct k; try exact I; cbn in *.
  - apply (sinhv2_power_even cs). tauto.
  - apply (sinhv2_power_even cs). tauto.
Qed.
Lemma ok_inj : forall {A} (a b : A), Ok a = Ok b -> a = b.
Proof. intros A a b H. congruence. Qed.
Lemma bind_ok : forall {A B} (x : py A) (f : A -> py B) r, py_bind x f = Ok r -> exists a, x = Ok a /\ f a = Ok r.
Proof. intros A B [a|e] f r H; [now exists a|discriminate]. Qed.
Lemma inverse3_det : forall a i d, inverse3 a = Ok (i, d) -> d = gen3_det ex sadd smul ssub sopp a.
Proof.
  intros a i d. unfold inverse3, generic_matrix_inverter3x3. generalize (gen3_det ex sadd smul ssub sopp a). intros e. cbn zeta.
  destruct (ex_eqb _ _); [discriminate|]. intros Q. congruence.
Qed.
Lemma rm_kinds : forall cs pre r, reference_metric cs pre = Ok r ->
  exists k, r_coord r = coord_of k /\ named cs k /\ kind_even k /\ jac r = (fun i j => diff j (to_cart (r_coord r) i)) /\
    inverse3 (jac r) = Ok (jac_inv r, gen3_det ex sadd smul ssub sopp (jac r)) /\
    jac_sph r = (fun i j => diff j (sph (r_coord r) i)) /\
    inverse3 (jac_sph r) = Ok (jac_sph_inv r, gen3_det ex sadd smul ssub sopp (jac_sph r)) /\
    r_scale r = (if pre then scale_ff (r_coord r) else scale (r_coord r)) /\
    inverse3s (ghatDD (r_scale r)) = Ok (ghatUU r, detgammahat r).
Proof.
  intros cs pre r H. unfold reference_metric in H.
  apply bind_ok in H as (m & EM & H). apply bind_ok in H as ([ji d] & EJ & H). apply bind_ok in H as ([js d'] & ES & H).
  apply bind_ok in H as ([gu dg] & EG & H). apply ok_inj in H. subst r.
  pose proof (inverse3_det _ _ _ EJ) as D1. pose proof (inverse3_det _ _ _ ES) as D2. subst d d'.
  destruct (coord_kinds cs m EM) as [(k & E & N)|Z].
  - exists k. split; [exact E|]. split; [exact N|]. split; [exact (named_even cs k N)|]. split; [reflexivity|]. split; [exact EJ|].
    split; [reflexivity|]. split; [exact ES|]. split; [reflexivity|exact EG].
  - rewrite zero_jacobian in EJ by exact Z. discriminate.
Qed.

(** every system is regular strictly inside its grid *)
Lemma pos_of : forall p s, good p -> In s positive_names -> 0 < p s.
Proof. intros p s G H. now apply (g_pos p G). Qed.
Ltac gpos G := apply (pos_of _ _ G); cbn; tauto.
Lemma holey_pos : forall v, good (ep v) -> eval v (asinhv1 (Par "RMIN") (Par "AMPL") (Par "SINHW")) < exx v 0%nat -> 0 < exx v 0%nat.
Proof.
  intros v G L. assert (A : 0 < ep v "AMPL") by gpos G. assert (w : 0 < ep v "SINHW") by gpos G. pose proof (g_rmin _ G) as Q.
  pose proof (sinh_arg _ w). eapply Rle_lt_trans; [|exact L]. cbn. apply Rmult_le_pos; [lra|]. rewrite <- arcsinh_0. apply arcsinh_le.
  unfold Rdiv. apply Rmult_le_pos; [apply Rmult_le_pos; lra|left; now apply Rinv_0_lt_compat].
Qed.
Lemma kind_regular : forall k v, good (ep v) -> kind_even k -> inside (coord_of k) v -> regular (coord_of k) v.
Proof.
  intros k v G E IN. pose proof PI_RGT_0 as PP. pose proof (g_pi _ G) as GP.
  pose proof (IN 0%nat ltac:(lia)) as I0. pose proof (IN 1%nat ltac:(lia)) as I1. pose proof (IN 2%nat ltac:(lia)) as I2.
  destruct k; cbn [coord_of] in *.
  - apply cartesian_regular.
  - apply sinhcartesian_regular; gpos G.
  - apply uwedge_regular; [gpos G|gpos G|apply holey_pos; auto; apply I0|]. cbn in I1. rewrite GP in I1. apply sin_gt_0; lra.
  - apply lwedge_regular; [gpos G|gpos G|apply holey_pos; auto; apply I0|]. cbn in I1. rewrite GP in I1. apply sin_gt_0; lra.
  - cbn in I0, I1. rewrite GP in I1. apply spherical_regular; auto; try exact I; try apply I0; try (cbn; lra). apply sin_gt_0; lra.
  - cbn in I0, I1. rewrite GP in I1. apply spherical_regular; auto; [apply sinhv1_wd|apply sinhv1_pos|apply sinhv1_diff_pos|apply sin_gt_0; lra];
      try (gpos G); lra.
  - cbn in I1. rewrite GP in I1. apply spherical_regular; auto; [apply sinhv1_wd|apply sinhv1_pos|apply sinhv1_diff_pos|apply sin_gt_0; lra];
      try (gpos G). apply holey_pos; auto. apply I0.
  - cbn in I1. rewrite GP in I1. apply spherical_regular; auto; [apply sinhv1_wd|apply sinhv1_pos|apply sinhv1_diff_pos|apply sin_gt_0; lra];
      try (gpos G). apply holey_pos; auto. apply I0.
  - cbn in I0, I1. rewrite GP in I1. pose proof (g_slope _ G).
    apply spherical_regular; auto; [apply sinhv2_wd|apply sinhv2_pos|apply sinhv2_diff_pos|apply sin_gt_0; lra]; auto; try (gpos G); lra.
  - cbn in I0, I1. rewrite GP in I1. apply prolate_regular; auto; try exact I; try apply I0; try (gpos G); try (cbn; lra). apply sin_gt_0; lra.
  - cbn in I0, I1. rewrite GP in I1. apply prolate_regular; auto; [apply sinhv1_wd|apply sinhv1_pos| |apply sin_gt_0; lra|apply sinhv1_diff_pos];
      try (gpos G); lra.
  - cbn in I0. apply cylindrical_regular; auto; try exact I; cbn; lra.
  - cbn in I0. apply cylindrical_regular; auto; [apply sinhv1_wd|apply sinhv1_wd|apply sinhv1_pos|apply sinhv1_diff_pos|apply sinhv1_diff_pos];
      try (gpos G); lra.
  - cbn in I0. pose proof (g_rslope _ G). pose proof (g_zslope _ G).
    apply cylindrical_regular; auto; [apply sinhv2_wd|apply sinhv2_wd|apply sinhv2_pos|apply sinhv2_diff_pos|apply sinhv2_diff_pos];
      auto; try (gpos G); lra.
Qed.
