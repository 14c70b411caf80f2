(** C58: the coordinate systems of reference_metric.py.  Throughout, [good p] is: PI and SQRT1_2 have their values; amplitudes, widths
    and bScale are positive; RMIN is not negative; 0 < slope <= amplitude.  [inside m v] is: the point lies strictly between xxmin
    and xxmax.  Derivatives are real limits ([derivable_pt_lim]), not the model's symbolic ones.  [reference_metric cs false] is the
    class without rfm_precompute; its precomputed variant is C59. *)
From Coq Require Import String List ZArith Bool Arith Lia Reals Lra.
From Verif Require Import PyBase Inverter RefMetric RefMetricReal RefMetricCalc RefMetricFacts RefMetricInvFacts RefMetricFlat
  RefMetricAccept.
Import ListNotations.
Open Scope R_scope.

(** Cartesian coordinate i along coordinate line j through the point v *)
Definition cart_along (r : rfm) (v : env) (i j : nat) (t : R) : R := cart_of (r_coord r) (upd j t v) i.

(** The scale factors are the lengths of the coordinate directions, the unit vectors point along them, and they are orthonormal. *)
Theorem C58_orthogonal : forall cs pre r v, reference_metric cs pre = Ok r -> good (ep v) -> inside (r_coord r) v ->
  forall i j, (i < 3)%nat -> (j < 3)%nat ->
  0 < eval v (scale (r_coord r) j) /\
  derivable_pt_lim (cart_along r v i j) (exx v j) (eval v (scale (r_coord r) j) * eval v (unitv (r_coord r) j i)) /\
  sum3 (fun a => eval v (unitv (r_coord r) i a) * eval v (unitv (r_coord r) j a)) = delta i j.
Proof.
  intros cs pre r v H G IN i j Hi Hj. destruct (rm_kinds cs pre r H) as (k & E & _ & EV & _).
  unfold cart_along, cart_of. rewrite E in *. pose proof (kind_regular k v G EV IN) as R. split; [|split].
  - now apply (reg_pos _ _ R).
  - rewrite <- (reg_dir _ _ R i j Hi Hj). apply diff_correct. now apply (reg_wd _ _ R).
  - now apply (reg_cols _ _ R).
Qed.
(** Jac_dUCart_dDrfmUD is the Jacobian matrix, and Jac_dUrfm_dDCartUD its inverse on both sides. *)
Theorem C58_jacobian : forall cs pre r v, reference_metric cs pre = Ok r -> good (ep v) -> inside (r_coord r) v ->
  forall i j, (i < 3)%nat -> (j < 3)%nat ->
  derivable_pt_lim (cart_along r v i j) (exx v j) (eval v (jac r i j)) /\
  sum3 (fun a => eval v (jac r i a) * eval v (jac_inv r a j)) = delta i j /\
  sum3 (fun a => eval v (jac_inv r i a) * eval v (jac r a j)) = delta i j.
Proof.
  intros cs pre r v H G IN i j Hi Hj. destruct (rm_kinds cs pre r H) as (k & E & _ & EV & EJ & IJ & _).
  rewrite E in IN. pose proof (kind_regular k v G EV IN) as R. pose proof (jac_nonzero k v G EV IN) as N.
  destruct (inverse3_val v _ _ _ IJ) as [DV IV]. clear IJ. pose proof (gen3_right _ N i j Hi Hj) as [A B].
  unfold cart_along, cart_of. rewrite DV in IV. rewrite EJ, E in *. split; [|split].
  - apply diff_correct. now apply (reg_wd _ _ R).
  - unfold sum3 in *. rewrite !IV by lia. exact A.
  - unfold sum3 in *. rewrite !IV by lia. exact B.
Qed.
(** The same for the spherical coordinates; in the Cartesian systems off the half-plane where atan2 jumps. *)
Theorem C58_jacobian_spherical : forall cs pre r v, reference_metric cs pre = Ok r -> good (ep v) -> inside (r_coord r) v ->
  (cs = "Cartesian" \/ cs = "SinhCartesian" -> 0 < cart_of (r_coord r) v 0%nat \/ cart_of (r_coord r) v 1%nat <> 0)%string ->
  forall i j, (i < 3)%nat -> (j < 3)%nat ->
  derivable_pt_lim (fun t => eval (upd j t v) (sph (r_coord r) i)) (exx v j) (eval v (jac_sph r i j)) /\
  sum3 (fun a => eval v (jac_sph r i a) * eval v (jac_sph_inv r a j)) = delta i j /\
  sum3 (fun a => eval v (jac_sph_inv r i a) * eval v (jac_sph r a j)) = delta i j.
Proof.
  intros cs pre r v H G IN OC i j Hi Hj. destruct (rm_kinds cs pre r H) as (k & E & NM & EV & _ & _ & EJ & IJ & _).
  rewrite E in IN, OC. assert (OC' : off_cut k v) by (destruct k; try exact I; apply OC; auto).
  pose proof (kind_sph_wd k v G EV IN OC') as W. pose proof (sph_nonzero k v G EV IN W) as N.
  destruct (inverse3_val v _ _ _ IJ) as [DV IV]. clear IJ. pose proof (gen3_right _ N i j Hi Hj) as [A B].
  rewrite DV in IV. rewrite EJ, E in *. split; [|split].
  - apply diff_correct. now apply W.
  - unfold sum3 in *. rewrite !IV by lia. exact A.
  - unfold sum3 in *. rewrite !IV by lia. exact B.
Qed.
(** ghatDD is the flat metric in these coordinates, ghatUU its inverse, detgammahat its determinant; ReU, ReD, ReDD rescale. *)
Theorem C58_metric : forall cs r v, reference_metric cs false = Ok r -> good (ep v) -> inside (r_coord r) v ->
  forall i j, (i < 3)%nat -> (j < 3)%nat ->
  eval v (ghatDD (r_scale r) i j) = sum3 (fun a => eval v (jac r a i) * eval v (jac r a j)) /\
  sum3 (fun a => eval v (ghatUU r i a) * eval v (ghatDD (r_scale r) a j)) = delta i j /\
  eval v (detgammahat r) = gen3_det R Rplus Rmult Rminus Ropp (fun a b => eval v (ghatDD (r_scale r) a b)) /\
  0 < eval v (detgammahat r) /\
  eval v (ReU (r_scale r) i) * eval v (ReD (r_scale r) i) = 1 /\
  eval v (ReDD (r_scale r) i j) ^ 2 = eval v (ghatDD (r_scale r) i i) * eval v (ghatDD (r_scale r) j j).
Proof.
  intros cs r v H G IN i j Hi Hj. destruct (rm_kinds cs false r H) as (k & E & _ & EV & EJ & _ & _ & _ & ES & HG).
  rewrite E in IN, ES. pose proof (kind_regular k v G EV IN) as R.
  assert (HP : forall i, (i < 3)%nat -> 0 < eval v (r_scale r i)) by (rewrite ES; apply (reg_pos _ _ R)).
  pose proof (det_val v _ _ _ HG) as DV. pose proof (ghatUU_val v _ _ _ HG HP) as UV.
  pose proof (HP 0%nat ltac:(lia)). pose proof (HP 1%nat ltac:(lia)). pose proof (HP 2%nat ltac:(lia)). repeat split.
  - rewrite ghat_val, ES, EJ, E. symmetry. now apply reg_metric.
  - unfold sum3. rewrite !UV by lia. rewrite !ghat_val. revert i j Hi Hj. apply lt33; unfold delta; cbn [Nat.eqb]; field; lra.
  - rewrite DV. unfold gen3_det. rewrite !ghat_val. unfold delta. cbn [Nat.eqb]. ring.
  - rewrite DV. apply pow_lt. apply Rmult_lt_0_compat; [apply Rmult_lt_0_compat|]; lra.
  - unfold ReU, ReD. ev. cbn [eval]. pose proof (HP i Hi). field. lra.
  - unfold ReDD. ev. rewrite !ghat_val. unfold delta. rewrite !Nat.eqb_refl. ring.
Qed.
(** GammahatUDD is the connection of the flat metric: the second derivatives of the Cartesian coordinates are
    the first derivatives contracted with it. *)
Theorem C58_connection : forall cs r v, reference_metric cs false = Ok r -> good (ep v) -> inside (r_coord r) v ->
  forall a k l, (a < 3)%nat -> (k < 3)%nat -> (l < 3)%nat ->
  derivable_pt_lim (fun t => eval (upd l t v) (jac r a k)) (exx v l) (sum3 (fun i => eval v (jac r a i) * eval v (GammahatUDD r i k l))) /\
  eval v (GammahatUDD r a k l) = eval v (GammahatUDD r a l k).
Proof.
  intros cs r v H G IN a k l Ha Hk Hl. destruct (rm_kinds cs false r H) as (q & E & _ & EV & EJ & _ & _ & _ & ES & HG).
  rewrite E in IN, ES. cbn iota in ES. pose proof (kind_regular q v G EV IN) as R. split.
  - rewrite EJ, E. rewrite (flat_alg q v r G EV IN ES HG a k l Ha Hk Hl). apply diff_correct. apply wd_diff. now apply (reg_wd _ _ R).
  - rewrite !(gamma_val q v r G EV IN ES HG) by assumption. f_equal. unfold sum3.
    rewrite !(diff_sym (to_cart (coord_of q) _) l k) by (apply (reg_wd _ _ R); lia). reflexivity.
Qed.
(** The quantities named as derivatives are the derivatives. *)
Theorem C58_derivatives : forall cs r v, reference_metric cs false = Ok r -> good (ep v) -> inside (r_coord r) v ->
  forall l, (l < 3)%nat ->
  let is_derivative e e' := derivable_pt_lim (fun t => eval (upd l t v) e) (exx v l) (eval v e') in
  is_derivative (detgammahat r) (detgammahatdD r l) /\
  forall i j k, (i < 3)%nat -> (j < 3)%nat -> (k < 3)%nat ->
  is_derivative (detgammahatdD r i) (detgammahatdDD r i l) /\
  is_derivative (ReU (r_scale r) i) (ReUdD r i l) /\ is_derivative (ReUdD r i j) (ReUdDD r i j l) /\
  is_derivative (ReD (r_scale r) i) (ReDdD r i l) /\ is_derivative (ReDdD r i j) (ReDdDD r i j l) /\
  is_derivative (ReDD (r_scale r) i j) (ReDDdD r i j l) /\ is_derivative (ReDDdD r i j k) (ReDDdDD r i j k l) /\
  is_derivative (ghatDD (r_scale r) i j) (ghatDDdD r i j l) /\ is_derivative (ghatDDdD r i j k) (ghatDDdDD r i j k l) /\
  is_derivative (GammahatUDD r i j k) (GammahatUDDdD r i j k l).
Proof.
  intros cs r v H G IN l Hl. cbn zeta. destruct (rm_kinds cs false r H) as (q & E & _ & EV & EJ & _ & _ & _ & ES & HG).
  rewrite E in IN, ES. cbn iota in ES. pose proof (kind_regular q v G EV IN) as R.
  assert (HP : forall i, (i < 3)%nat -> 0 < eval v (r_scale r i)) by (rewrite ES; apply (reg_pos _ _ R)).
  assert (WS : forall i, (i < 3)%nat -> wd v (r_scale r i)) by (rewrite ES; apply (reg_wds _ _ R)).
  destruct (wd_ghatUU v _ _ _ HG WS HP) as [WD WU].
  assert (WG : forall i j, (i < 3)%nat -> wd v (ghatDD (r_scale r) i j)) by (intros; apply wd_ghatDD; now apply WS).
  split; [now apply diff_correct|]. intros i j k Hi Hj Hk.
  assert (WR : wd v (ReU (r_scale r) i)).
  { unfold ReU. apply wd_sdiv; [exact I|now apply WS|]. pose proof (HP i Hi). lra. }
  assert (WRR : wd v (ReDD (r_scale r) i j)) by (apply wd_smul; now apply WS).
  repeat split; apply diff_correct; try (now apply wd_diff); try assumption; try (now apply WS); try (now apply WG);
    try (apply wd_diff; now apply WS); try (apply wd_diff; now apply WG).
  unfold GammahatUDD, ghatDDdD. cbn [fold_left].
  repeat first [apply wd_sadd|apply wd_smul|apply wd_ssub]; try exact I; try (apply WU; lia); try (apply wd_diff, WG; lia);
    cbn; repeat split; lra.
Qed.

(** Cart_to_xx inverts xx_to_Cart in every system but SinhSymTP and those without a closed form. *)
Theorem C58_inverse : forall cs pre r v, reference_metric cs pre = Ok r -> good (ep v) -> inside (r_coord r) v ->
  cs <> "SinhSymTP"%string -> prefix "SinhSphericalv2n" cs = false \/ ends_with "SinhSpherical" cs = true ->
  prefix "SinhCylindricalv2" cs = false \/ py_in "Spherical" cs = true ->
  forall i, (i < 3)%nat -> eval (at_cart (ep v) (cart_of (r_coord r) v)) (cart_to (r_coord r) i) = exx v i.
Proof.
  intros cs pre r v H G IN N1 N2 N3. destruct (rm_kinds cs pre r H) as (k & E & NM & EV & _). rewrite E in *.
  apply kind_inverse; auto. destruct k; try reflexivity; exfalso; cbn in NM.
  - destruct NM as (_ & A & B & _). destruct N2; congruence.
  - now apply N1.
  - destruct NM as (_ & A & _ & _ & B & _). destruct N3; congruence.
Qed.
(** It does not in SinhSymTP: the inverse given is that of SymTP, so it returns the radius-like amplitude instead of xx0. *)
Theorem C58_sinhsymtp_refuted : ~ (forall pre r v, reference_metric "SinhSymTP" pre = Ok r -> good (ep v) -> inside (r_coord r) v ->
  forall i, (i < 3)%nat -> eval (at_cart (ep v) (cart_of (r_coord r) v)) (cart_to (r_coord r) i) = exx v i).
Proof.
  intros F. destruct (kind_ok "SinhSymTP" KSinhSymTP false eq_refl I) as (r & H).
  destruct (rm_kinds _ _ _ H) as (k & E & NM & _). destruct k; cbn in NM; try discriminate; try (destruct NM; discriminate);
    try (decompose [and] NM; discriminate).
  set (p := fun s => if String.eqb s "AMAX" then sinh 1 / sinh (1 / 2) else sample_p s).
  set (v := MkEnv p (v3 (1 / 2) (PI / 2) 0) (fun _ => 0) (fun _ _ => 1)).
  pose proof (sinh_gt_0 1 ltac:(lra)) as S1. pose proof (sinh_gt_0 (1 / 2) ltac:(lra)) as S2. pose proof PI_RGT_0 as PP.
  assert (G : good (ep v)).
  { constructor; try reflexivity; try (cbn; lra). intros s Hs. cbn in Hs.
    repeat (destruct Hs as [<-|Hs]; [cbn; first [lra|now apply Rdiv_lt_0_compat]|]). destruct Hs. }
  assert (IN : inside (coord_of KSinhSymTP) v) by (all3 i; cbn; lra).
  assert (GB : 0 < ep v "bScale") by gpos G. assert (GA : 0 < ep v "AMAX") by gpos G. assert (GW : 0 < ep v "SINHWAA") by gpos G.
  assert (A : eval v (sinhv1 X0 (Par "AMAX") (Par "SINHWAA")) = 1).
  { rewrite sinhv1_val by assumption. cbn [v ep exx v3]. unfold p. cbn -[sinh]. replace (1 / 2 / 1) with (1 / 2) by lra.
    replace (1 / 1) with 1 by lra. field. lra. }
  specialize (F false r v H G). rewrite E in F. specialize (F IN 0%nat ltac:(lia)). revert F.
  unfold cart_of. cbn [coord_of prolate_of to_cart cart_to]. revert A. generalize (sinhv1 X0 (Par "AMAX") (Par "SINHWAA")). intros AA A.
  cbn [v3 eval at_cart ec ep norm3]. rewrite A, (g_half _ G).
  intros F. pose proof (prolate_0 1 (ep v "bScale") (exx v 1%nat) (exx v 2%nat) ltac:(lra)) as Q. unfold dd, rr in Q.
  rewrite Q in F. cbn in F. lra.
Qed.
(** Nor in the systems SinhSphericalv2n<n> and SinhCylindricalv2n<n>, where Cart_to_xx keeps its initial zeros. *)
Theorem C58_v2n_no_inverse_refuted : forall cs n, named cs (KSphV2 n) \/ named cs (KCylV2 n) ->
  exists r v, reference_metric cs false = Ok r /\ good (ep v) /\ inside (r_coord r) v /\
    eval (at_cart (ep v) (cart_of (r_coord r) v)) (cart_to (r_coord r) 0) <> exx v 0%nat.
Proof.
  intros cs n N. assert (X : exists k, named cs k /\ (k = KSphV2 n \/ k = KCylV2 n)) by (destruct N; eauto). clear N.
  destruct X as (k & N & D). pose proof (named_coord cs k N) as EC.
  destruct (kind_ok cs k false EC (named_even cs k N)) as (r & H). exists r, (sample k).
  destruct (rm_kinds cs false r H) as (q & E & NQ & _). pose proof (named_coord cs q NQ) as EQ. rewrite EC in EQ. apply ok_inj in EQ.
  rewrite E, <- EQ. split; [exact H|]. split; [exact good_sample|]. split; [apply inside_sample|].
  destruct D as [-> | ->]; cbn; lra.
Qed.
(** xxSph are the spherical coordinates of xx_to_Cart (away from the origin), in every system but the two wedges. *)
Theorem C58_spherical : forall cs pre r v, reference_metric cs pre = Ok r -> good (ep v) -> inside (r_coord r) v ->
  cs <> "UWedgeHSinhSph"%string -> cs <> "LWedgeHSinhSph"%string ->
  (exists i, (i < 3)%nat /\ cart_of (r_coord r) v i <> 0) ->
  let s i := eval v (sph (r_coord r) i) in
  0 < s 0%nat /\ 0 <= s 1%nat <= PI /\
  cart_of (r_coord r) v 0%nat = s 0%nat * sin (s 1%nat) * cos (s 2%nat) /\
  cart_of (r_coord r) v 1%nat = s 0%nat * sin (s 1%nat) * sin (s 2%nat) /\
  cart_of (r_coord r) v 2%nat = s 0%nat * cos (s 1%nat).
Proof.
  intros cs pre r v H G IN N1 N2 NZ. destruct (rm_kinds cs pre r H) as (k & E & NM & EV & _). rewrite E in *.
  apply kind_spherical; auto.
  - destruct k; try reflexivity; exfalso; cbn in NM; auto.
  - destruct k; try exact I; exact NZ.
Qed.
(** In the wedges they are the spherical coordinates of the unrotated frame. *)
Theorem C58_wedge_spherical_refuted : forall cs, cs = "UWedgeHSinhSph"%string \/ cs = "LWedgeHSinhSph"%string ->
  exists r v, reference_metric cs false = Ok r /\ good (ep v) /\ inside (r_coord r) v /\
    cart_of (r_coord r) v 2%nat <> eval v (sph (r_coord r) 0) * cos (eval v (sph (r_coord r) 1)).
Proof.
  intros cs D. assert (X : exists k, named cs k /\ (k = KUWedge \/ k = KLWedge)).
  { destruct D as [-> | ->]; [exists KUWedge|exists KLWedge]; split; auto; reflexivity. }
  destruct X as (k & N & K). pose proof (named_coord cs k N) as EC.
  destruct (kind_ok cs k false EC (named_even cs k N)) as (r & H). exists r, (sample k).
  destruct (rm_kinds cs false r H) as (q & E & NQ & _). pose proof (named_coord cs q NQ) as EQ. rewrite EC in EQ. apply ok_inj in EQ.
  rewrite E, <- EQ. split; [exact H|]. split; [exact good_sample|]. split; [apply inside_sample|].
  assert (P := sinhv1_pos (sample k) 0 "AMPL" "SINHW" ltac:(cbn; lra) ltac:(cbn; lra)).
  unfold cart_of. destruct K as [-> | ->]; specialize (P ltac:(cbn; lra)); revert P;
    cbn [coord_of spherical_wedge_like String.eqb Ascii.eqb Bool.eqb to_cart sph v3];
    generalize (sinhv1 X0 (Par "AMPL") (Par "SINHW")); intros q0 P; cbn [eval]; cbn [sample exx sample_x v3];
    rewrite cos_PI2, sin_PI2, cos_0; lra.
Qed.

(** ** Extents: what the ends of the coordinate ranges correspond to *)
Definition spans (m : coord) (v : env) (i : nat) (q : R) (lo hi : R) : Prop :=
  (exx v i = eval v (c_max m i) -> q = hi) /\ (exx v i = eval v (c_min m i) -> q = lo).
Definition extents (k : kind) (m : coord) (v : env) : Prop :=
  match k with
  | KSph => spans m v 0 (radius2 m v) 0 (ep v "RMAX" ^ 2)
  | KSinhSph | KSphV2 _ => spans m v 0 (radius2 m v) 0 (ep v "AMPL" ^ 2)
  | KHoley | KRing | KUWedge | KLWedge => spans m v 0 (radius2 m v) (ep v "RMIN" ^ 2) (ep v "AMPL" ^ 2)
  | KSymTP | KSinhSymTP => exx v 1%nat = PI / 2 -> spans m v 0 (rho2 m v) 0 (ep v "AMAX" ^ 2)
  | KCyl => spans m v 0 (rho2 m v) 0 (ep v "RHOMAX" ^ 2) /\ spans m v 2 (cart_of m v 2%nat) (ep v "ZMIN") (ep v "ZMAX")
  | KSinhCyl | KCylV2 _ => spans m v 0 (rho2 m v) 0 (ep v "AMPLRHO" ^ 2) /\ spans m v 2 (cart_of m v 2%nat) (- ep v "AMPLZ") (ep v "AMPLZ")
  | KCart => spans m v 0 (cart_of m v 0%nat) (ep v "xmin") (ep v "xmax") /\ spans m v 1 (cart_of m v 1%nat) (ep v "ymin") (ep v "ymax") /\
             spans m v 2 (cart_of m v 2%nat) (ep v "zmin") (ep v "zmax")
  | KSinhCart => forall i, (i < 3)%nat -> spans m v i (cart_of m v i) (- ep v "AMPLXYZ") (ep v "AMPLXYZ")
  end.
Theorem C58_extent : forall cs pre r v, reference_metric cs pre = Ok r -> good (ep v) ->
  exists k, named cs k /\ extents k (r_coord r) v.
Proof.
  intros cs pre r v H G. destruct (rm_kinds cs pre r H) as (k & E & NM & EV & _). exists k. split; [exact NM|]. rewrite E.
  assert (GA : 0 < ep v "AMPL") by gpos G. assert (GW : 0 < ep v "SINHW") by gpos G.
  pose proof (sinhv1_at v 0 _ _ GA GW) as (P1 & P0 & _). pose proof (asinh_max v _ _ GA GW) as MX.
  pose proof (sinhv1_min v 0 _ _ "RMIN" GA GW) as PM.
  destruct k; cbn [extents coord_of].
  - repeat split; intros Q; exact Q.
  - assert (B0 : 0 < ep v "AMPLXYZ") by gpos G. assert (B1 : 0 < ep v "SINHWXYZ") by gpos G.
    intros i Hi. unfold cart_of. pose proof (sinhv1_at v i _ _ B0 B1) as (A1 & _ & AM).
    split; intros Q; [apply A1|apply AM]; exact Q.
  - split; intros Q; rewrite (wedge_radius2 "UWedgeHSinhSph") by auto; f_equal; [apply P1; rewrite <- MX; exact Q|apply PM; exact Q].
  - split; intros Q; rewrite (wedge_radius2 "LWedgeHSinhSph") by auto; f_equal; [apply P1; rewrite <- MX; exact Q|apply PM; exact Q].
  - split; intros Q; rewrite sph_radius2; cbn in Q; cbn [eval]; rewrite Q; ring.
  - split; intros Q; rewrite sph_radius2; [rewrite P1 by exact Q; reflexivity|rewrite P0 by exact Q; ring].
  - split; intros Q; rewrite sph_radius2; f_equal; [apply P1; rewrite <- MX; exact Q|apply PM; exact Q].
  - split; intros Q; rewrite sph_radius2; f_equal; [apply P1; rewrite <- MX; exact Q|apply PM; exact Q].
  - pose proof (sinhv2_at v 0 n _ _ "r_slope" GA GW EV) as (A1 & A0 & _).
    split; intros Q; rewrite sph_radius2; [rewrite A1 by exact Q; reflexivity|rewrite A0 by exact Q; ring].
  - intros T. destruct (prolate_rho2 (Par "AMAX") X0 v T) as [A _]. split; intros Q; rewrite A; cbn in Q; cbn [eval]; rewrite Q; ring.
  - assert (B0 : 0 < ep v "AMAX") by gpos G. assert (B1 : 0 < ep v "SINHWAA") by gpos G.
    pose proof (sinhv1_at v 0 _ _ B0 B1) as (A1 & A0 & _). intros T.
    destruct (prolate_rho2 (Num 1) (sinhv1 X0 (Par "AMAX") (Par "SINHWAA")) v T) as [A _].
    split; intros Q; rewrite A; [rewrite A1 by exact Q; reflexivity|rewrite A0 by exact Q; ring].
  - split; split; intros Q; rewrite ?cyl_rho2; cbn in Q; cbn; rewrite Q; try reflexivity; ring.
  - assert (B0 : 0 < ep v "AMPLRHO") by gpos G. assert (B1 : 0 < ep v "SINHWRHO") by gpos G.
    assert (B2 : 0 < ep v "AMPLZ") by gpos G. assert (B3 : 0 < ep v "SINHWZ") by gpos G.
    pose proof (sinhv1_at v 0 _ _ B0 B1) as (A1 & A0 & _). pose proof (sinhv1_at v 2 _ _ B2 B3) as (Z1 & _ & ZM).
    split; split; intros Q; rewrite ?cyl_rho2; [rewrite A1 by exact Q; reflexivity|rewrite A0 by exact Q; ring|apply Z1; exact Q|apply ZM; exact Q].
  - assert (B0 : 0 < ep v "AMPLRHO") by gpos G. assert (B1 : 0 < ep v "SINHWRHO") by gpos G.
    assert (B2 : 0 < ep v "AMPLZ") by gpos G. assert (B3 : 0 < ep v "SINHWZ") by gpos G.
    pose proof (sinhv2_at v 0 n _ _ "rho_slope" B0 B1 EV) as (A1 & A0 & _). pose proof (sinhv2_at v 2 n _ _ "z_slope" B2 B3 EV) as (Z1 & _ & ZM).
    split; split; intros Q; rewrite ?cyl_rho2; [rewrite A1 by exact Q; reflexivity|rewrite A0 by exact Q; ring|apply Z1; exact Q|apply ZM; exact Q].
Qed.

(** ** Names *)
(** Exactly these names are accepted, with or without rfm_precompute. *)
Theorem C58_accepts : forall cs pre, (exists r, reference_metric cs pre = Ok r) <->
  In cs ["Cartesian"; "SinhCartesian"; "UWedgeHSinhSph"; "LWedgeHSinhSph"; "Spherical"; "HoleySinhSpherical"; "RingHoleySinhSpherical";
         "SymTP"; "SinhSymTP"; "Cylindrical"; "SinhCylindrical"]%string \/
  (py_in "Cartesian" cs = false /\ ends_with "SinhSpherical" cs = true /\ py_in "HoleySinhSpherical" cs = false) \/
  (py_in "Cartesian" cs = false /\ ends_with "SinhSpherical" cs = false /\ prefix "SinhSphericalv2n" cs = true /\
     exists n, sinhv2_power cs = Ok n) \/
  (py_in "Cartesian" cs = false /\ py_in "Spherical" cs = false /\ py_in "Wedge" cs = false /\ py_in "SymTP" cs = false /\
     prefix "SinhCylindricalv2" cs = true /\ exists n, sinhv2_power cs = Ok n).
Proof.
  intros cs pre. rewrite accepts. split.
  - intros (k & N). destruct k; cbn [named] in N; try (left; subst cs; cbn; tauto).
    + right. left. exact N.
    + right. right. left. destruct N as (A & B & C & D). eauto.
    + right. right. right. destruct N as (A & B & C & D & E & F). eauto 10.
  - intros [N|[N|[(A & B & C & n & D)|(A & B & C & D & E & n & F)]]].
    + cbn in N.
      repeat (destruct N as [N|N]; [subst cs; first [now exists KCart|now exists KSinhCart|now exists KUWedge|now exists KLWedge|now exists KSph
        |now exists KHoley|now exists KRing|now exists KSymTP|now exists KSinhSymTP|now exists KCyl|now exists KSinhCyl]|]). destruct N.
    + exists KSinhSph. exact N.
    + exists (KSphV2 n). cbn. auto.
    + exists (KCylV2 n). cbn. auto 6.
Qed.
(** Other names raise ValueError, unless they contain "Cartesian" or "Wedge". *)
Theorem C58_refuses : forall cs pre e, reference_metric cs pre = Err e ->
  e = ValueError \/ (e = NonInvertibleMatrixError /\ (py_in "Cartesian" cs = true \/ py_in "Wedge" cs = true)).
Proof. exact refuses. Qed.
Theorem C58_unknown_refuted : ~ (forall cs pre e, reference_metric cs pre = Err e -> e = ValueError).
Proof. intros F. discriminate (F "MyCartesian"%string false NonInvertibleMatrixError (rm_zero "MyCartesian" false _ eq_refl eq_refl)). Qed.

(** ** Examples *)
(** every system has points meeting the hypotheses, and in all of them the theorems apply *)
Example C58_ex_point : forall cs, In cs ["Cartesian"; "SinhCartesian"; "UWedgeHSinhSph"; "LWedgeHSinhSph"; "Spherical"; "SinhSpherical";
    "HoleySinhSpherical"; "RingHoleySinhSpherical"; "SinhSphericalv2n2"; "SymTP"; "SinhSymTP"; "Cylindrical"; "SinhCylindrical";
    "SinhCylindricalv2n4"]%string -> forall pre,
  exists r v, reference_metric cs pre = Ok r /\ good (ep v) /\ inside (r_coord r) v.
Proof.
  intros cs IN pre. assert (X : exists k, named cs k).
  { cbn in IN. repeat (destruct IN as [IN|IN]; [subst cs; first [now exists KCart|now exists KSinhCart|now exists KUWedge|now exists KLWedge
      |now exists KSph|now exists KHoley|now exists KRing|now exists KSymTP|now exists KSinhSymTP|now exists KCyl|now exists KSinhCyl
      |now exists KSinhSph|now exists (KSphV2 2)|now exists (KCylV2 4)]|]). destruct IN. }
  destruct X as (k & N). pose proof (named_coord cs k N) as EC.
  destruct (kind_ok cs k pre EC (named_even cs k N)) as (r & H). exists r, (sample k).
  destruct (rm_kinds cs pre r H) as (q & E & NQ & _). pose proof (named_coord cs q NQ) as EQ. rewrite EC in EQ. apply ok_inj in EQ.
  rewrite E, <- EQ. split; [exact H|]. split; [exact good_sample|apply inside_sample].
Qed.
(** the scale factors of "Spherical" at r = 1/2 on the equator *)
Example C58_ex_spherical : forall v, exx v 0%nat = 1 / 2 -> exx v 1%nat = PI / 2 ->
  eval v (scale (coord_of KSph) 0) = 1 /\ eval v (scale (coord_of KSph) 1) = 1 / 2 /\ eval v (scale (coord_of KSph) 2) = 1 / 2.
Proof. intros v E0 E1. cbn. rewrite E0, E1, sin_PI2. lra. Qed.
(** an odd power, and a suffix that is not a number, are refused *)
Example C58_ex_refused : reference_metric "SinhSphericalv2n3" false = Err ValueError /\ reference_metric "SinhCylindricalv2nx" true = Err ValueError /\
  reference_metric "Toroidal" false = Err ValueError /\ reference_metric "MyHoleySinhSpherical" false = Err ValueError.
Proof. repeat split; (apply rm_err; reflexivity). Qed.

Print Assumptions C58_orthogonal.
Print Assumptions C58_jacobian.
Print Assumptions C58_jacobian_spherical.
Print Assumptions C58_metric.
Print Assumptions C58_connection.
Print Assumptions C58_derivatives.
Print Assumptions C58_inverse.
Print Assumptions C58_sinhsymtp_refuted.
Print Assumptions C58_v2n_no_inverse_refuted.
Print Assumptions C58_spherical.
Print Assumptions C58_wedge_spherical_refuted.
Print Assumptions C58_extent.
Print Assumptions C58_accepts.
Print Assumptions C58_refuses.
Print Assumptions C58_unknown_refuted.
