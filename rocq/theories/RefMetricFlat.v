(** The hatted metric, its inverse and determinant, the Jacobians, and the connection. *)
From Coq Require Import String List ZArith Bool Arith Lia Reals Lra.
From Verif Require Import PyBase Inverter RefMetric RefMetricReal RefMetricCalc RefMetricFacts RefMetricInvFacts.
Import ListNotations.
Open Scope R_scope.

(** ** Points nearby *)
Lemma bounds_free : forall k i l, free_of l (c_min (coord_of k) i) = true /\ free_of l (c_max (coord_of k) i) = true.
Proof. intros k i l. destruct k; destruct i as [|[|[|i]]]; split; reflexivity. Qed.
Lemma inside_near : forall k v l, inside (coord_of k) v -> (l < 3)%nat -> exists d, 0 < d /\
  forall t, Rabs (t - exx v l) < d -> inside (coord_of k) (upd l t v).
Proof.
  intros k v l IN L. pose proof (IN l L) as [A B].
  exists (Rmin (exx v l - eval v (c_min (coord_of k) l)) (eval v (c_max (coord_of k) l) - exx v l)).
  split; [apply Rmin_glb_lt; lra|]. intros t T i Hi. destruct (bounds_free k i l) as [F1 F2].
  rewrite (eval_free _ _ _ _ F1), (eval_free _ _ _ _ F2). cbn [upd exx]. destruct (Nat.eqb_spec i l) as [->|N]; [|now apply IN].
  pose proof (Rmin_l (exx v l - eval v (c_min (coord_of k) l)) (eval v (c_max (coord_of k) l) - exx v l)).
  pose proof (Rmin_r (exx v l - eval v (c_min (coord_of k) l)) (eval v (c_max (coord_of k) l) - exx v l)).
  apply Rabs_def2 in T. lra.
Qed.
(** two expressions equal on the grid have equal derivatives there *)
Lemma diff_local : forall k v l e f, inside (coord_of k) v -> (l < 3)%nat -> wd v e -> wd v f ->
  (forall w, ep w = ep v -> inside (coord_of k) w -> eval w e = eval w f) -> eval v (diff l e) = eval v (diff l f).
Proof.
  intros k v l e f IN L We Wf E. destruct (inside_near k v l IN L) as (d & D & N).
  apply (uniqueness_limite (fun t => eval (upd l t v) f) (exx v l)); [|now apply diff_correct].
  apply (lim_local (fun t => eval (upd l t v) e) _ _ _ d D); [|now apply diff_correct].
  intros t T. apply E; auto.
Qed.

(** ** The metric *)
Lemma ghat_val : forall v s i j, eval v (ghatDD s i j) = delta i j * eval v (s i) ^ 2.
Proof. intros v s i j. unfold ghatDD, delta. destruct (Nat.eqb i j); ev; cbn [eval]; lra. Qed.
Ltac unmat := cbn [symm3_det symm3_inv gen3_det gen3_inv].
Lemma inverse3s_val : forall v a b d, inverse3s a = Ok (b, d) ->
  eval v d = symm3_det R 1 Rplus Rmult Rminus Ropp (fun i j => eval v (a i j)) /\
  (forall i j, (i < 3)%nat -> (j < 3)%nat -> eval v (b i j) = symm3_inv R 0 Rplus Rmult Rminus Rdiv Ropp (fun i j => eval v (a i j)) (eval v d) i j).
Proof.
  intros v a b d. unfold inverse3s, symm_matrix_inverter3x3. cbn zeta.
  remember (symm3_det ex (Num 1) sadd smul ssub sopp a) as e eqn:Ee.
  destruct (ex_eqb _ _); [discriminate|]. intros Q. apply ok_inj in Q. apply pair_equal_spec in Q as [<- <-]. split.
  - rewrite Ee. unfold symm3_det. ev. reflexivity.
  - apply lt33; unfold symm3_inv; ev; reflexivity.
Qed.
Lemma inverse3_val : forall v a b d, inverse3 a = Ok (b, d) ->
  eval v d = gen3_det R Rplus Rmult Rminus Ropp (fun i j => eval v (a i j)) /\
  (forall i j, (i < 3)%nat -> (j < 3)%nat -> eval v (b i j) = gen3_inv R 0 Rplus Rmult Rminus Rdiv Ropp (fun i j => eval v (a i j)) (eval v d) i j).
Proof.
  intros v a b d. unfold inverse3, generic_matrix_inverter3x3. cbn zeta.
  remember (gen3_det ex sadd smul ssub sopp a) as e eqn:Ee.
  destruct (ex_eqb _ _); [discriminate|]. intros Q. apply ok_inj in Q. apply pair_equal_spec in Q as [<- <-]. split.
  - rewrite Ee. unfold gen3_det. ev. reflexivity.
  - apply lt33; unfold gen3_inv; ev; reflexivity.
Qed.
Section Metric.
Variables (v : env) (s : nat -> ex) (gu : nat -> nat -> ex) (dg : ex).
Hypothesis HG : inverse3s (ghatDD s) = Ok (gu, dg).
Hypothesis HP : forall i, (i < 3)%nat -> 0 < eval v (s i).
Notation h i := (eval v (s i)).
Lemma det_val : eval v dg = (h 0%nat * h 1%nat * h 2%nat) ^ 2.
Proof using HG.
  destruct (inverse3s_val v _ _ _ HG) as [D _]. rewrite D. unfold symm3_det. rewrite !ghat_val. unfold delta. cbn [Nat.eqb]. ring.
Qed.
Lemma ghatUU_val : forall i j, (i < 3)%nat -> (j < 3)%nat -> eval v (gu i j) = delta i j / h i ^ 2.
Proof using HG HP.
  destruct (inverse3s_val v _ _ _ HG) as [_ U]. pose proof det_val as D.
  pose proof (HP 0%nat ltac:(lia)). pose proof (HP 1%nat ltac:(lia)). pose proof (HP 2%nat ltac:(lia)).
  apply lt33; rewrite U by lia; rewrite D; unfold symm3_inv; rewrite !ghat_val; unfold delta; cbn [Nat.eqb]; field; lra.
Qed.
End Metric.

(** wd of the inverse metric *)
Lemma wd_ghatDD : forall v s i j, wd v (s i) -> wd v (ghatDD s i j).
Proof. intros v s i j W. unfold ghatDD. destruct (Nat.eqb i j); [now apply wd_spow|exact I]. Qed.
Lemma wd_ghatUU : forall v s gu dg, inverse3s (ghatDD s) = Ok (gu, dg) -> (forall i, (i < 3)%nat -> wd v (s i)) ->
  (forall i, (i < 3)%nat -> 0 < eval v (s i)) -> wd v dg /\ (forall i j, (i < 3)%nat -> (j < 3)%nat -> wd v (gu i j)).
Proof.
  intros v s gu dg HG W HP. pose proof (det_val v s gu dg HG) as D.
  assert (N : eval v dg <> 0).
  { rewrite D. pose proof (HP 0%nat ltac:(lia)). pose proof (HP 1%nat ltac:(lia)). pose proof (HP 2%nat ltac:(lia)).
    apply pow_nonzero. apply Rgt_not_eq. apply Rmult_lt_0_compat; [apply Rmult_lt_0_compat|]; lra. }
  assert (WG : forall i j, (i < 3)%nat -> wd v (ghatDD s i j)) by (intros; apply wd_ghatDD; now apply W).
  assert (WD : wd v dg).
  { revert HG. unfold inverse3s, symm_matrix_inverter3x3. cbn zeta. destruct (ex_eqb _ _); [discriminate|]. intros Q.
    apply ok_inj in Q. apply pair_equal_spec in Q as [_ <-].
    unfold symm3_det. repeat first [apply wd_sadd|apply wd_ssub|apply wd_sopp|apply wd_smul]; try (apply WG; lia); exact I. }
  split; [exact WD|]. revert HG. unfold inverse3s, symm_matrix_inverter3x3. cbn zeta.
  remember (symm3_det ex (Num 1) sadd smul ssub sopp (ghatDD s)) as e eqn:Ee.
  destruct (ex_eqb _ _); [discriminate|]. intros Q. apply ok_inj in Q. apply pair_equal_spec in Q as [<- <-].
  apply lt33; unfold symm3_inv; apply wd_sdiv; auto;
    repeat first [apply wd_sadd|apply wd_ssub|apply wd_sopp|apply wd_smul]; try (apply WG; lia).
Qed.

(** ** The Jacobian *)
Lemma det_square : forall D : nat -> nat -> R, forall h : nat -> R,
  (forall j k, (j < 3)%nat -> (k < 3)%nat -> sum3 (fun i => D i j * D i k) = delta j k * h j ^ 2) ->
  gen3_det R Rplus Rmult Rminus Ropp D ^ 2 = (h 0%nat * h 1%nat * h 2%nat) ^ 2.
Proof.
  intros D h O. pose proof (O 0 0 ltac:(lia) ltac:(lia))%nat as E00. pose proof (O 0 1 ltac:(lia) ltac:(lia))%nat as E01.
  pose proof (O 0 2 ltac:(lia) ltac:(lia))%nat as E02. pose proof (O 1 1 ltac:(lia) ltac:(lia))%nat as E11.
  pose proof (O 1 2 ltac:(lia) ltac:(lia))%nat as E12. pose proof (O 2 2 ltac:(lia) ltac:(lia))%nat as E22.
  unfold sum3, delta in *. cbn [Nat.eqb] in *. unfold gen3_det.
  set (g00 := D 0%nat 0%nat * D 0%nat 0%nat + D 1%nat 0%nat * D 1%nat 0%nat + D 2%nat 0%nat * D 2%nat 0%nat) in *.
  set (g01 := D 0%nat 0%nat * D 0%nat 1%nat + D 1%nat 0%nat * D 1%nat 1%nat + D 2%nat 0%nat * D 2%nat 1%nat) in *.
  set (g02 := D 0%nat 0%nat * D 0%nat 2%nat + D 1%nat 0%nat * D 1%nat 2%nat + D 2%nat 0%nat * D 2%nat 2%nat) in *.
  set (g11 := D 0%nat 1%nat * D 0%nat 1%nat + D 1%nat 1%nat * D 1%nat 1%nat + D 2%nat 1%nat * D 2%nat 1%nat) in *.
  set (g12 := D 0%nat 1%nat * D 0%nat 2%nat + D 1%nat 1%nat * D 1%nat 2%nat + D 2%nat 1%nat * D 2%nat 2%nat) in *.
  set (g22 := D 0%nat 2%nat * D 0%nat 2%nat + D 1%nat 2%nat * D 1%nat 2%nat + D 2%nat 2%nat * D 2%nat 2%nat) in *.
  transitivity (g00 * g11 * g22 + 2 * g01 * g02 * g12 - g00 * g12 ^ 2 - g11 * g02 ^ 2 - g22 * g01 ^ 2).
  - unfold g00, g01, g02, g11, g12, g22. ring.
  - rewrite E00, E01, E02, E11, E12, E22. ring.
Qed.
Lemma reg_metric : forall m v, regular m v -> forall j k, (j < 3)%nat -> (k < 3)%nat ->
  sum3 (fun i => eval v (diff j (to_cart m i)) * eval v (diff k (to_cart m i))) = delta j k * eval v (scale m j) ^ 2.
Proof.
  intros m v [W WS P DIR C RW] j k Hj Hk. unfold sum3. rewrite !DIR by lia. pose proof (C j k Hj Hk) as E. unfold sum3 in E.
  match goal with |- ?l = _ => replace l with (eval v (scale m j) * eval v (scale m k) *
    (eval v (unitv m j 0) * eval v (unitv m k 0) + eval v (unitv m j 1) * eval v (unitv m k 1) + eval v (unitv m j 2) * eval v (unitv m k 2)))
    by ring end.
  rewrite E. unfold delta. destruct (Nat.eqb_spec j k) as [->|]; ring.
Qed.
Lemma gen3_right : forall D : nat -> nat -> R, gen3_det R Rplus Rmult Rminus Ropp D <> 0 -> forall i j, (i < 3)%nat -> (j < 3)%nat ->
  sum3 (fun k => D i k * gen3_inv R 0 Rplus Rmult Rminus Rdiv Ropp D (gen3_det R Rplus Rmult Rminus Ropp D) k j) = delta i j /\
  sum3 (fun k => gen3_inv R 0 Rplus Rmult Rminus Rdiv Ropp D (gen3_det R Rplus Rmult Rminus Ropp D) i k * D k j) = delta i j.
Proof.
  intros D N. apply lt33; unfold sum3, gen3_inv, delta; cbn [Nat.eqb]; split; unfold gen3_det in *; field; exact N.
Qed.

(** ** The connection *)
Section Flat.
Variables (k0 : kind) (v : env) (r : rfm).
Notation m := (coord_of k0).
Hypothesis G : good (ep v).
Hypothesis EV : kind_even k0.
Hypothesis IN : inside m v.
Hypothesis RS : r_scale r = scale m.
Hypothesis HG : inverse3s (ghatDD (r_scale r)) = Ok (ghatUU r, detgammahat r).
Notation X a := (to_cart m a).
Notation D b j := (eval v (diff j (X b))).
Notation D2 b j l := (eval v (diff l (diff j (X b)))).
Lemma metric_diff : forall p q l, (p < 3)%nat -> (q < 3)%nat -> (l < 3)%nat ->
  eval v (diff l (ghatDD (r_scale r) p q)) = sum3 (fun b => D2 b p l * D b q + D b p * D2 b q l).
Proof using G EV IN RS.
  intros p q l Hp Hq Hl. pose proof (kind_regular k0 v G EV IN) as R.
  rewrite (diff_local k0 v l _ (Add (Add (Mul (diff p (X 0)) (diff q (X 0))) (Mul (diff p (X 1)) (diff q (X 1))))
                                    (Mul (diff p (X 2)) (diff q (X 2)))) IN Hl).
  - cbn [diff]. ev. unfold sum3. ring.
  - rewrite RS. apply wd_ghatDD. now apply (reg_wds _ _ R).
  - cbn [wd]. repeat split; apply wd_diff; apply (reg_wd _ _ R); lia.
  - intros w EP INw. assert (G' : good (ep w)) by (now rewrite EP). rewrite ghat_val, RS. cbn [eval].
    rewrite <- (reg_metric m w (kind_regular k0 w G' EV INw) p q Hp Hq). reflexivity.
Qed.
Lemma gamma_val : forall i k l, (i < 3)%nat -> (k < 3)%nat -> (l < 3)%nat ->
  eval v (GammahatUDD r i k l) = sum3 (fun b => D b i * D2 b k l) / eval v (scale m i) ^ 2.
Proof using G EV IN RS HG.
  intros i k l Hi Hk Hl. pose proof (kind_regular k0 v G EV IN) as R.
  assert (HP : forall i, (i < 3)%nat -> 0 < eval v (r_scale r i)) by (rewrite RS; apply (reg_pos _ _ R)).
  unfold GammahatUDD, ghatDDdD. cbn [fold_left]. ev. cbn [eval].
  rewrite !(ghatUU_val v _ _ _ HG HP) by lia. rewrite !metric_diff by lia. rewrite RS.
  assert (S : forall b p q, (b < 3)%nat -> D2 b p q = D2 b q p) by (intros; apply diff_sym; now apply (reg_wd _ _ R)).
  unfold sum3. cbn [frac eval]. pose proof (reg_pos _ _ R i Hi).
  destruct i as [|[|[|i]]]; try lia; unfold delta; cbn [Nat.eqb].
  - rewrite (S 0%nat 0%nat l), (S 1%nat 0%nat l), (S 2%nat 0%nat l), (S 0%nat 0%nat k), (S 1%nat 0%nat k), (S 2%nat 0%nat k),
      (S 0%nat l k), (S 1%nat l k), (S 2%nat l k) by lia. field. lra.
  - rewrite (S 0%nat 1%nat l), (S 1%nat 1%nat l), (S 2%nat 1%nat l), (S 0%nat 1%nat k), (S 1%nat 1%nat k), (S 2%nat 1%nat k),
      (S 0%nat l k), (S 1%nat l k), (S 2%nat l k) by lia. field. lra.
  - rewrite (S 0%nat 2%nat l), (S 1%nat 2%nat l), (S 2%nat 2%nat l), (S 0%nat 2%nat k), (S 1%nat 2%nat k), (S 2%nat 2%nat k),
      (S 0%nat l k), (S 1%nat l k), (S 2%nat l k) by lia. field. lra.
Qed.
Lemma flat_alg : forall a k l, (a < 3)%nat -> (k < 3)%nat -> (l < 3)%nat ->
  sum3 (fun i => D a i * eval v (GammahatUDD r i k l)) = D2 a k l.
Proof using G EV IN RS HG.
  intros a k l Ha Hk Hl. pose proof (kind_regular k0 v G EV IN) as R. unfold sum3 at 1. rewrite !gamma_val by lia.
  unfold sum3. rewrite !(reg_dir _ _ R) by lia.
  pose proof (reg_pos _ _ R 0%nat ltac:(lia)). pose proof (reg_pos _ _ R 1%nat ltac:(lia)). pose proof (reg_pos _ _ R 2%nat ltac:(lia)).
  set (u := fun j i => eval v (unitv m j i)) in *.
  pose proof (reg_rows _ _ R a 0%nat Ha ltac:(lia)) as R0. pose proof (reg_rows _ _ R a 1%nat Ha ltac:(lia)) as R1.
  pose proof (reg_rows _ _ R a 2%nat Ha ltac:(lia)) as R2. unfold sum3 in R0, R1, R2.
  transitivity (D2 0%nat k l * delta a 0 + D2 1%nat k l * delta a 1 + D2 2%nat k l * delta a 2).
  - rewrite <- R0, <- R1, <- R2. field. lra.
  - destruct a as [|[|[|a]]]; try lia; unfold delta; cbn [Nat.eqb]; ring.
Qed.
End Flat.

(** ** The Jacobian of the spherical coordinates *)
Lemma det_product : forall A B C : nat -> nat -> R,
  (forall i j, (i < 3)%nat -> (j < 3)%nat -> A i j = sum3 (fun k => B i k * C k j)) ->
  gen3_det R Rplus Rmult Rminus Ropp A = gen3_det R Rplus Rmult Rminus Ropp B * gen3_det R Rplus Rmult Rminus Ropp C.
Proof. intros A B C E. unfold gen3_det. rewrite !E by lia. unfold sum3. ring. Qed.
Lemma jac_nonzero : forall k v, good (ep v) -> kind_even k -> inside (coord_of k) v ->
  gen3_det R Rplus Rmult Rminus Ropp (fun i j => eval v (diff j (to_cart (coord_of k) i))) <> 0.
Proof.
  intros k v G EV IN. pose proof (kind_regular k v G EV IN) as R. pose proof (det_square _ _ (reg_metric _ _ R)) as E.
  pose proof (reg_pos _ _ R 0%nat ltac:(lia)). pose proof (reg_pos _ _ R 1%nat ltac:(lia)). pose proof (reg_pos _ _ R 2%nat ltac:(lia)).
  intros Z. rewrite Z in E. assert (0 < (eval v (scale (coord_of k) 0) * eval v (scale (coord_of k) 1) * eval v (scale (coord_of k) 2)) ^ 2).
  { apply pow_lt. apply Rmult_lt_0_compat; [apply Rmult_lt_0_compat|]; lra. }
  rewrite <- E in H2. cbn in H2. lra.
Qed.
Lemma sph_nonzero : forall k v, good (ep v) -> kind_even k -> inside (coord_of k) v ->
  (forall i, (i < 3)%nat -> wd v (sph (coord_of k) i)) ->
  gen3_det R Rplus Rmult Rminus Ropp (fun i j => eval v (diff j (sph (coord_of k) i))) <> 0.
Proof.
  intros k v G EV IN WS. destruct (unrotated k) eqn:U.
  - pose proof (jac_nonzero k v G EV IN) as N. pose proof (kind_regular k v G EV IN) as R.
    set (m := coord_of k) in *. set (S := sph m) in *.
    set (T := v3 (Mul (Mul (S 0%nat) (Sin (S 1%nat))) (Cos (S 2%nat))) (Mul (Mul (S 0%nat) (Sin (S 1%nat))) (Sin (S 2%nat))) (Mul (S 0%nat) (Cos (S 1%nat)))).
    assert (WT : forall i, (i < 3)%nat -> wd v (T i)) by (all3 i; cbn; repeat split; apply WS; lia).
    assert (E : forall i j, (i < 3)%nat -> (j < 3)%nat -> eval v (diff j (to_cart m i)) = eval v (diff j (T i))).
    { intros i j Hi Hj. apply (diff_local k); auto; [now apply (reg_wd _ _ R)|]. intros w EP INw.
      assert (G' : good (ep w)) by (now rewrite EP). destruct (kind_sph_eq k w G' EV U INw) as (A & B & C).
      revert i Hi. all3 i; cbn [T v3 eval]; assumption. }
    set (s i := eval v (S i)).
    rewrite (det_product _ (v3 (v3 (sin (s 1%nat) * cos (s 2%nat)) (s 0%nat * cos (s 1%nat) * cos (s 2%nat)) (- (s 0%nat * sin (s 1%nat) * sin (s 2%nat))))
                               (v3 (sin (s 1%nat) * sin (s 2%nat)) (s 0%nat * cos (s 1%nat) * sin (s 2%nat)) (s 0%nat * sin (s 1%nat) * cos (s 2%nat)))
                               (v3 (cos (s 1%nat)) (- (s 0%nat * sin (s 1%nat))) 0)) (fun i j => eval v (diff j (S i)))) in N.
    + intros Z. rewrite Z in N. apply N. ring.
    + intros i j Hi Hj. rewrite E by assumption. revert i Hi. unfold sum3.
      all3 i; cbn [T v3 diff]; ev; cbn [eval]; ev; cbn [eval]; unfold s; ring.
  - pose proof (kind_regular k v G EV IN) as R. pose proof (reg_pos _ _ R 0%nat ltac:(lia)) as P.
    destruct k; try discriminate U; cbn [coord_of] in *.
    + change (sph (spherical_wedge_like "UWedgeHSinhSph")) with (v3 (sinhv1 X0 (Par "AMPL") (Par "SINHW")) X1 X2).
      change (scale (spherical_wedge_like "UWedgeHSinhSph") 0) with (diff 0 (sinhv1 X0 (Par "AMPL") (Par "SINHW"))) in P.
      assert (E1 : diff 1 (sinhv1 X0 (Par "AMPL") (Par "SINHW")) = Num 0) by now apply diff_free.
      assert (E2 : diff 2 (sinhv1 X0 (Par "AMPL") (Par "SINHW")) = Num 0) by now apply diff_free.
      unfold gen3_det. cbn [v3]. rewrite E1, E2. set (q := eval v (diff 0 (sinhv1 X0 (Par "AMPL") (Par "SINHW")))) in *.
      cbn [diff Nat.eqb eval]. lra.
    + change (sph (spherical_wedge_like "LWedgeHSinhSph")) with (v3 (sinhv1 X0 (Par "AMPL") (Par "SINHW")) X1 X2).
      change (scale (spherical_wedge_like "LWedgeHSinhSph") 0) with (diff 0 (sinhv1 X0 (Par "AMPL") (Par "SINHW"))) in P.
      assert (E1 : diff 1 (sinhv1 X0 (Par "AMPL") (Par "SINHW")) = Num 0) by now apply diff_free.
      assert (E2 : diff 2 (sinhv1 X0 (Par "AMPL") (Par "SINHW")) = Num 0) by now apply diff_free.
      unfold gen3_det. cbn [v3]. rewrite E1, E2. set (q := eval v (diff 0 (sinhv1 X0 (Par "AMPL") (Par "SINHW")))) in *.
      cbn [diff Nat.eqb eval]. lra.
Qed.

(** where xxSph is differentiable: off the half-axis cut by atan2, in the two Cartesian systems *)
Definition off_cut (k : kind) (v : env) : Prop :=
  match k with KCart | KSinhCart => 0 < cart_of (coord_of k) v 0%nat \/ cart_of (coord_of k) v 1%nat <> 0 | _ => True end.
Lemma ratio_bound : forall q z, 0 < q -> 0 < q + z ^ 2 /\ -1 < z / sqrt (q + z ^ 2) < 1.
Proof.
  intros q z H. assert (P : 0 < q + z ^ 2) by (pose proof (pow2_ge_0 z); lra). split; [exact P|].
  pose proof (sqrt_lt_R0 _ P) as Q. pose proof (pow2_sqrt _ (Rlt_le _ _ P)) as E. set (s := sqrt (q + z ^ 2)) in *.
  assert ((z / s) ^ 2 < 1).
  { replace ((z / s) ^ 2) with (z ^ 2 / s ^ 2) by (field; lra). apply (Rmult_lt_reg_r (s ^ 2)); [now apply pow_lt|].
    replace (z ^ 2 / s ^ 2 * s ^ 2) with (z ^ 2) by (field; lra). lra. }
  nra.
Qed.
Lemma wd_cart_sph : forall v a b c, wd v a -> wd v b -> wd v c -> (0 < eval v a \/ eval v b <> 0) ->
  wd v (norm3 a b c) /\ wd v (Acos (Div c (norm3 a b c))) /\ wd v (Atan2 b a).
Proof.
  intros v a b c A B C O. pose proof (atan2_domain _ _ O) as N.
  assert (P : 0 < eval v a ^ 2 + eval v b ^ 2) by (pose proof (pow2_ge_0 (eval v a)); pose proof (pow2_ge_0 (eval v b)); lra).
  destruct (ratio_bound _ (eval v c) P) as [Q1 Q2]. pose proof (sqrt_lt_R0 _ Q1). cbn [wd norm3 eval]. repeat split; auto; try lra.
Qed.
Lemma wd_rho_sph : forall v rho z, wd v rho -> wd v z -> 0 < eval v rho ->
  wd v (Sqrt (Add (Pow rho 2) (Pow z 2))) /\ wd v (Acos (Div z (Sqrt (Add (Pow rho 2) (Pow z 2))))).
Proof.
  intros v rho z A B O. destruct (ratio_bound _ (eval v z) (pow_lt _ 2 O)) as [Q1 Q2]. pose proof (sqrt_lt_R0 _ Q1).
  cbn [wd eval]. repeat split; auto; try lra.
Qed.
Lemma kind_sph_wd : forall k v, good (ep v) -> kind_even k -> inside (coord_of k) v -> off_cut k v ->
  forall i, (i < 3)%nat -> wd v (sph (coord_of k) i).
Proof.
  intros k v G EV IN OC. pose proof PI_RGT_0 as PP. pose proof (g_pi _ G) as GP. pose proof (kind_regular k v G EV IN) as R.
  pose proof (IN 0%nat ltac:(lia)) as I0. pose proof (IN 1%nat ltac:(lia)) as I1.
  pose proof (reg_wd _ _ R) as RW. pose proof (reg_wds _ _ R) as RS. pose proof (reg_pos _ _ R) as RP.
  destruct k; unfold off_cut, cart_of in OC; cbn [coord_of] in *.
  - destruct (wd_cart_sph v X0 X1 X2 I I I OC) as (A & B & C). all3 i; assumption.
  - set (c := fun i => sinhv1 (XX i) (Par "AMPLXYZ") (Par "SINHWXYZ")).
    destruct (wd_cart_sph v (c 0%nat) (c 1%nat) (c 2%nat) (RW 0%nat ltac:(lia)) (RW 1%nat ltac:(lia)) (RW 2%nat ltac:(lia)) OC) as (A & B & C).
    all3 i; assumption.
  - all3 i; [exact (RS 1%nat ltac:(lia))|exact I|exact I].
  - all3 i; [exact (RS 1%nat ltac:(lia))|exact I|exact I].
  - all3 i; exact I.
  - all3 i; [exact (RS 1%nat ltac:(lia))|exact I|exact I].
  - all3 i; [exact (RS 1%nat ltac:(lia))|exact I|exact I].
  - all3 i; [exact (RS 1%nat ltac:(lia))|exact I|exact I].
  - all3 i; [exact (RS 1%nat ltac:(lia))|exact I|exact I].
  - cbn [prolate_of to_cart scale] in *. destruct (wd_rho_sph v _ _ (RS 2%nat ltac:(lia)) (RW 2%nat ltac:(lia)) (RP 2%nat ltac:(lia))) as (A & B).
    all3 i; [exact A|exact B|exact I].
  - cbn [prolate_of to_cart scale] in *. destruct (wd_rho_sph v _ _ (RS 2%nat ltac:(lia)) (RW 2%nat ltac:(lia)) (RP 2%nat ltac:(lia))) as (A & B).
    all3 i; [exact A|exact B|exact I].
  - cbn [cylindrical_of to_cart scale] in *. destruct (wd_rho_sph v _ _ (RS 1%nat ltac:(lia)) (RW 2%nat ltac:(lia)) (RP 1%nat ltac:(lia))) as (A & B).
    all3 i; [exact A|exact B|exact I].
  - cbn [cylindrical_of to_cart scale] in *. destruct (wd_rho_sph v _ _ (RS 1%nat ltac:(lia)) (RW 2%nat ltac:(lia)) (RP 1%nat ltac:(lia))) as (A & B).
    all3 i; [exact A|exact B|exact I].
  - cbn [cylindrical_of to_cart scale] in *. destruct (wd_rho_sph v _ _ (RS 1%nat ltac:(lia)) (RW 2%nat ltac:(lia)) (RP 1%nat ltac:(lia))) as (A & B).
    all3 i; [exact A|exact B|exact I].
Qed.
