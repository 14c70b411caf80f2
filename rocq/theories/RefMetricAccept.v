(** Which names are accepted, a sample point of every system, and the extents of the grids. *)
From Coq Require Import String Ascii List ZArith Bool Arith Lia Reals Lra.
From Verif Require Import PyBase Inverter RefMetric RefMetricReal RefMetricCalc RefMetricFacts RefMetricInvFacts RefMetricFlat.
Import ListNotations.
Open Scope R_scope.

(** ** A point of every system *)
Definition sample_p (s : string) : R :=
  if String.eqb s "PI" then PI else if String.eqb s "SQRT1_2" then / sqrt 2 else if String.eqb s "RMIN" then 0
  else if String.eqb s "xmin" then -1 else if String.eqb s "ymin" then -1 else if String.eqb s "zmin" then -1
  else if String.eqb s "ZMIN" then -1 else 1.
Definition sample_x (k : kind) : nat -> R :=
  match k with KCart | KSinhCart | KCyl | KSinhCyl | KCylV2 _ => v3 (1 / 2) 0 0 | _ => v3 (1 / 2) (PI / 2) 0 end.
Definition sample (k : kind) : env := MkEnv sample_p (sample_x k) (fun _ => 0) (fun _ _ => 1).
Lemma good_sample : good sample_p.
Proof.
  constructor; try reflexivity; try (cbn; lra).
  intros s Hs. cbn in Hs. repeat (destruct Hs as [<-|Hs]; [cbn; lra|]). destruct Hs.
Qed.
Lemma asinh_max : forall v A w, 0 < ep v A -> 0 < ep v w -> eval v (asinhv1 (Par A) (Par A) (Par w)) = 1.
Proof.
  intros v A w HA HW. apply asinhv1_val; auto. cbn [eval]. pose proof (sinh_arg _ HW). field. lra.
Qed.
Lemma asinh_min : forall v A w s, 0 < ep v A -> 0 < ep v w -> ep v s = 0 -> eval v (asinhv1 (Par s) (Par A) (Par w)) = 0.
Proof.
  intros v A w s HA HW E. apply asinhv1_val; auto. cbn [eval]. rewrite E. pose proof (sinh_arg _ HW).
  replace (0 / ep v w) with 0 by (field; lra). rewrite sinh_0. field. lra.
Qed.
Lemma inside_sample : forall k, inside (coord_of k) (sample k).
Proof.
  intros k. pose proof PI_RGT_0 as PP.
  assert (GA : 0 < ep (sample k) "AMPL") by (cbn; lra). assert (GW : 0 < ep (sample k) "SINHW") by (cbn; lra).
  pose proof (asinh_max (sample k) _ _ GA GW) as MX. pose proof (asinh_min (sample k) _ _ "RMIN" GA GW eq_refl) as MN.
  destruct k; all3 i; unfold inside; cbn [coord_of cartesian_like spherical_wedge_like String.eqb Ascii.eqb Bool.eqb spherical_of prolate_of
      cylindrical_of c_min c_max v3]; rewrite ?MX, ?MN; cbn; lra.
Qed.

(** ** Determinants that do not vanish somewhere are not the number 0 *)
Lemma not_zero : forall v e, eval v e <> 0 -> ex_eqb e (Num 0) = false.
Proof. intros v e N. destruct e; try reflexivity. cbn. apply Z.eqb_neq. intros ->. now apply N. Qed.
Lemma inverse3_ok : forall v a, gen3_det R Rplus Rmult Rminus Ropp (fun i j => eval v (a i j)) <> 0 ->
  exists b d, inverse3 a = Ok (b, d).
Proof.
  intros v a N. unfold inverse3, generic_matrix_inverter3x3. cbn zeta. rewrite (not_zero v); [eauto|].
  intros Z. apply N. rewrite <- Z. unfold gen3_det. ev. reflexivity.
Qed.
Lemma inverse3s_ok : forall v s, (forall i, (i < 3)%nat -> 0 < eval v (s i)) -> exists b d, inverse3s (ghatDD s) = Ok (b, d).
Proof.
  intros v s P. unfold inverse3s, symm_matrix_inverter3x3. cbn zeta. rewrite (not_zero v); [eauto|].
  unfold symm3_det. ev. rewrite !ghat_val. unfold delta. cbn [Nat.eqb].
  pose proof (P 0%nat ltac:(lia)). pose proof (P 1%nat ltac:(lia)). pose proof (P 2%nat ltac:(lia)).
  apply Rgt_not_eq. match goal with |- ?l > 0 => replace l with ((eval v (s 0%nat) * eval v (s 1%nat) * eval v (s 2%nat)) ^ 2) by ring end.
  apply pow_lt. apply Rmult_lt_0_compat; [apply Rmult_lt_0_compat|]; lra.
Qed.
Lemma ff_pos : forall k i, (i < 3)%nat -> 0 < eval (sample k) (scale_ff (coord_of k) i).
Proof.
  intros k. assert (Q : 0 < sqrt (1 ^ 2 + 1 ^ 2)) by (apply sqrt_lt_R0; lra).
  destruct k; all3 i; cbn -[sqrt pow]; try lra;
    rewrite ?Rmult_1_l; try (apply Rdiv_lt_0_compat; lra); try exact Q.
Qed.
Lemma kind_ok : forall cs k pre, coord_system cs = Ok (coord_of k) -> kind_even k -> exists r, reference_metric cs pre = Ok r.
Proof.
  intros cs k pre EC EV. unfold reference_metric. rewrite EC. cbn [py_bind].
  assert (G : good (ep (sample k))) by exact good_sample. pose proof (inside_sample k) as IN.
  destruct (inverse3_ok (sample k) _ (jac_nonzero k _ G EV IN)) as (b & d & E1). rewrite E1. cbn [py_bind].
  assert (OC : off_cut k (sample k)).
  { destruct k; try exact I; unfold off_cut, cart_of; left; cbn [coord_of]; [cbn; lra|]. apply sinhv1_pos; cbn; lra. }
  destruct (inverse3_ok (sample k) _ (sph_nonzero k _ G EV IN (kind_sph_wd k _ G EV IN OC))) as (b' & d' & E2). rewrite E2. cbn [py_bind].
  assert (P : forall i, (i < 3)%nat -> 0 < eval (sample k) ((if pre then scale_ff (coord_of k) else scale (coord_of k)) i)).
  { destruct pre; [apply ff_pos|]. apply (reg_pos _ _ (kind_regular k _ G EV IN)). }
  destruct (inverse3s_ok _ _ P) as (b'' & d'' & E3). rewrite E3. cbn [py_bind]. eauto.
Qed.

(** ** Names *)
Lemma prefix_substring : forall sub s m, prefix sub (substring 0 m s) = true -> prefix sub s = true.
Proof.
  induction sub as [|c sub IH]; intros s m H; [now destruct s|].
  destruct s as [|d s]; destruct m as [|m]; cbn in *; try discriminate. destruct (ascii_dec c d); [|discriminate]. now apply (IH s m).
Qed.
Lemma py_in_eq : forall sub c s, py_in sub (String c s) = prefix sub (String c s) || py_in sub s.
Proof. reflexivity. Qed.
Lemma py_in_sub0 : forall sub s m, py_in sub (substring 0 m s) = true -> py_in sub s = true.
Proof.
  intros sub. induction s as [|c s IH]; intros m H.
  - destruct m; exact H.
  - rewrite py_in_eq. apply orb_true_iff. destruct m as [|m].
    + cbn [substring] in H. left. destruct sub; [reflexivity|discriminate H].
    + change (substring 0 (S m) (String c s)) with (String c (substring 0 m s)) in H. rewrite py_in_eq in H.
      apply orb_true_iff in H as [H|H]; [left|right; now apply (IH m)].
      apply (prefix_substring sub (String c s) (S m)). exact H.
Qed.
Lemma py_in_sub : forall sub n m s, py_in sub (substring n m s) = true -> py_in sub s = true.
Proof.
  intros sub. induction n as [|n IH]; intros m s H; [now apply (py_in_sub0 sub s m)|].
  destruct s as [|c s]; [exact H|]. cbn [substring] in H. rewrite py_in_eq. apply orb_true_iff. right. now apply (IH m).
Qed.
Lemma prefix_in : forall sub p s, prefix p s = true -> py_in sub p = true -> py_in sub s = true.
Proof. intros sub p s H E. apply prefix_correct in H. apply (py_in_sub sub 0 (String.length p)). now rewrite H. Qed.
Lemma ends_in : forall sub t s, ends_with t s = true -> py_in sub t = true -> py_in sub s = true.
Proof.
  intros sub t s H E. apply andb_true_iff in H as [_ H]. apply String.eqb_eq in H. rewrite H in E. now apply py_in_sub in E.
Qed.
Lemma eqb_neq : forall cs s (f : string -> bool), f cs = true -> f s = false -> String.eqb cs s = false.
Proof. intros cs s f A B. destruct (String.eqb_spec cs s) as [->|]; [congruence|reflexivity]. Qed.
Lemma neqb_neq : forall cs s (f : string -> bool), f cs = false -> f s = true -> String.eqb cs s = false.
Proof. intros cs s f A B. destruct (String.eqb_spec cs s) as [->|]; [congruence|reflexivity]. Qed.
Lemma named_coord : forall cs k, named cs k -> coord_system cs = Ok (coord_of k).
Proof.
  intros cs k N. destruct k; cbn [named] in N; try (subst cs; reflexivity).
  - destruct N as (A & B & C). unfold coord_system. rewrite A, (ends_in "Spherical" _ _ B eq_refl). unfold spherical_like.
    rewrite (eqb_neq cs "Spherical" (ends_with "SinhSpherical") B eq_refl), B, C. reflexivity.
  - destruct N as (A & B & C & D). unfold coord_system. rewrite A, (prefix_in "Spherical" _ _ C eq_refl). unfold spherical_like.
    rewrite (eqb_neq cs "Spherical" (prefix "SinhSphericalv2n") C eq_refl), B, C, D. reflexivity.
  - destruct N as (A & B & C & D & E & F). unfold coord_system. rewrite A, B, C, D, (prefix_in "Cylindrical" _ _ E eq_refl).
    unfold cylindrical_like. rewrite (eqb_neq cs "Cylindrical" (prefix "SinhCylindricalv2") E eq_refl).
    rewrite (eqb_neq cs "SinhCylindrical" (prefix "SinhCylindricalv2") E eq_refl), E, F. reflexivity.
Qed.
Lemma accepts : forall cs pre, (exists r, reference_metric cs pre = Ok r) <-> exists k, named cs k.
Proof.
  intros cs pre. split.
  - intros (r & H). destruct (rm_kinds cs pre r H) as (k & _ & N & _). eauto.
  - intros (k & N). apply (kind_ok cs k pre); [now apply named_coord|now apply (named_even cs)].
Qed.
Lemma v2_err : forall cs e, sinhv2_power cs = Err e -> e = ValueError.
Proof.
  intros cs e. unfold sinhv2_power. destruct (after_v2n cs); [|congruence]. destruct (prefix "Sinh" cs); [|congruence].
  destruct (isdigit_int s); [|congruence]. destruct (Nat.even n); congruence.
Qed.
Lemma sph_err : forall cs e, spherical_like cs = Err e -> e = ValueError.
Proof.
  intros cs e. unfold spherical_like. cbn zeta. destruct (String.eqb cs "Spherical"); [discriminate|].
  destruct (ends_with "SinhSpherical" cs).
  - destruct (py_in "HoleySinhSpherical" cs); [|discriminate]. destruct (String.eqb cs "HoleySinhSpherical"); [discriminate|].
    destruct (String.eqb cs "RingHoleySinhSpherical"); [discriminate|congruence].
  - destruct (prefix "SinhSphericalv2n" cs); [|congruence]. pose proof (v2_err cs) as V. destruct (sinhv2_power cs) as [n|x]; [discriminate|].
    cbn [py_bind]. intros Q. rewrite <- (V x eq_refl). congruence.
Qed.
Lemma cyl_err : forall cs e, cylindrical_like cs = Err e -> e = ValueError.
Proof.
  intros cs e. unfold cylindrical_like. cbn zeta. destruct (String.eqb cs "Cylindrical"); [discriminate|].
  destruct (String.eqb cs "SinhCylindrical"); [discriminate|].
  destruct (prefix "SinhCylindricalv2" cs); [|congruence]. pose proof (v2_err cs) as V. destruct (sinhv2_power cs) as [n|x]; [discriminate|].
  cbn [py_bind]. intros Q. rewrite <- (V x eq_refl). congruence.
Qed.
Lemma coord_err : forall cs e, coord_system cs = Err e -> e = ValueError.
Proof.
  intros cs e. unfold coord_system. destruct (py_in "Cartesian" cs); [discriminate|].
  destruct (py_in "Spherical" cs); [apply sph_err|]. destruct (py_in "Wedge" cs); [discriminate|].
  destruct (py_in "SymTP" cs).
  - unfold prolate_spheroidal_like. destruct (String.eqb cs "SymTP"); [discriminate|]. destruct (String.eqb cs "SinhSymTP"); [discriminate|congruence].
  - destruct (py_in "Cylindrical" cs); [apply cyl_err|congruence].
Qed.
Lemma sph_nz : forall cs m, spherical_like cs = Ok m -> to_cart m = zero3 -> False.
Proof.
  intros cs m. unfold spherical_like. cbn zeta.
  assert (Q : forall mn mx ct r m, Ok (spherical_of mn mx ct r) = Ok m -> to_cart m = zero3 -> False).
  { intros mn mx ct r m' E Z. apply ok_inj in E. subst m'. apply (f_equal (fun f => f 2%nat)) in Z. discriminate Z. }
  destruct (String.eqb cs "Spherical"); [apply Q|]. destruct (ends_with "SinhSpherical" cs).
  - destruct (py_in "HoleySinhSpherical" cs); [|apply Q]. destruct (String.eqb cs "HoleySinhSpherical"); [apply Q|].
    destruct (String.eqb cs "RingHoleySinhSpherical"); [apply Q|discriminate].
  - destruct (prefix "SinhSphericalv2n" cs); [|discriminate]. destruct (sinhv2_power cs) as [n|x]; [|discriminate]. cbn [py_bind]. apply Q.
Qed.
Lemma cyl_nz : forall cs m, cylindrical_like cs = Ok m -> to_cart m = zero3 -> False.
Proof.
  intros cs m. unfold cylindrical_like. cbn zeta.
  assert (Q : forall mn mx ct r z m, Ok (cylindrical_of mn mx ct r z) = Ok m -> to_cart m = zero3 -> False).
  { intros mn mx ct r z m' E Z. apply ok_inj in E. subst m'. apply (f_equal (fun f => f 1%nat)) in Z. discriminate Z. }
  destruct (String.eqb cs "Cylindrical"); [apply Q|]. destruct (String.eqb cs "SinhCylindrical"); [apply Q|].
  destruct (prefix "SinhCylindricalv2" cs); [|discriminate]. destruct (sinhv2_power cs) as [n|x]; [|discriminate]. cbn [py_bind]. apply Q.
Qed.
Lemma bind_err : forall {A B} (x : py A) (f : A -> py B) e, x = Err e -> py_bind x f = Err e.
Proof. intros A B x f e ->. reflexivity. Qed.
Lemma bind_step : forall {A B} (x : py A) (f : A -> py B) a y, x = Ok a -> f a = y -> py_bind x f = y.
Proof. intros A B x f a y -> E. exact E. Qed.
Lemma rm_err : forall cs pre e, coord_system cs = Err e -> reference_metric cs pre = Err e.
Proof. intros cs pre e H. unfold reference_metric. exact (bind_err _ _ e H). Qed.
Lemma rm_zero : forall cs pre m, coord_system cs = Ok m -> to_cart m = zero3 -> reference_metric cs pre = Err NonInvertibleMatrixError.
Proof.
  intros cs pre m H Z. unfold reference_metric. apply (bind_step _ _ m _ H). cbv beta. apply bind_err. exact (zero_jacobian m Z).
Qed.
Lemma refuses : forall cs pre e, reference_metric cs pre = Err e ->
  e = ValueError \/ (e = NonInvertibleMatrixError /\ (py_in "Cartesian" cs = true \/ py_in "Wedge" cs = true)).
Proof.
  intros cs pre e H. destruct (coord_system cs) as [m|x] eqn:EC.
  - destruct (coord_kinds cs m EC) as [(k & -> & N)|Z].
    + destruct (kind_ok cs k pre EC (named_even cs k N)) as (r & E). rewrite E in H. discriminate.
    + rewrite (rm_zero cs pre m EC Z) in H. right. split; [congruence|]. clear H. unfold coord_system in EC.
      destruct (py_in "Cartesian" cs); [now left|]. destruct (py_in "Spherical" cs) eqn:ES.
      * exfalso. apply (sph_nz cs m EC Z).
      * destruct (py_in "Wedge" cs); [now right|]. exfalso. destruct (py_in "SymTP" cs).
        { unfold prolate_spheroidal_like in EC. destruct (String.eqb cs "SymTP").
          - apply ok_inj in EC. subst m. apply (f_equal (fun f => f 2%nat)) in Z. discriminate Z.
          - destruct (String.eqb cs "SinhSymTP"); [|discriminate EC]. apply ok_inj in EC. subst m.
            apply (f_equal (fun f => f 2%nat)) in Z. discriminate Z. }
        destruct (py_in "Cylindrical" cs); [|discriminate EC]. apply (cyl_nz cs m EC Z).
  - left. rewrite (rm_err cs pre x EC) in H. apply (coord_err cs). congruence.
Qed.

(** ** Extents *)
Lemma sinhv1_at : forall v k A w, 0 < ep v A -> 0 < ep v w ->
  (exx v k = 1 -> eval v (sinhv1 (XX k) (Par A) (Par w)) = ep v A) /\ (exx v k = 0 -> eval v (sinhv1 (XX k) (Par A) (Par w)) = 0) /\
  (exx v k = -1 -> eval v (sinhv1 (XX k) (Par A) (Par w)) = - ep v A).
Proof.
  intros v k A w HA HW. rewrite (sinhv1_val v k A w HA HW). pose proof (sinh_arg _ HW). repeat split; intros ->.
  - field. lra.
  - replace (0 / ep v w) with 0 by (field; lra). rewrite sinh_0. field. lra.
  - replace (-1 / ep v w) with (- (1 / ep v w)) by (field; lra). unfold sinh at 1. rewrite Ropp_involutive.
    replace ((exp (- (1 / ep v w)) - exp (1 / ep v w)) / 2) with (- sinh (1 / ep v w)) by (unfold sinh; lra). field. lra.
Qed.
Lemma sinhv1_min : forall v k A w s, 0 < ep v A -> 0 < ep v w -> exx v k = eval v (asinhv1 (Par s) (Par A) (Par w)) ->
  eval v (sinhv1 (XX k) (Par A) (Par w)) = ep v s.
Proof.
  intros v k A w s HA HW E. rewrite (sinhv1_val v k A w HA HW), E. pose proof (sinh_arg _ HW). cbn [eval asinhv1].
  match goal with |- _ * sinh (_ * arcsinh ?q / _) / _ = _ => replace (ep v w * arcsinh q / ep v w) with (arcsinh q) by (field; lra) end.
  rewrite sinh_arcsinh. field. lra.
Qed.
Lemma sinhv2_at : forall v k n A w s, 0 < ep v A -> 0 < ep v w -> Nat.even n = true ->
  (exx v k = 1 -> eval v (sinhv2 n (XX k) (Par A) (Par w) (Par s)) = ep v A) /\
  (exx v k = 0 -> eval v (sinhv2 n (XX k) (Par A) (Par w) (Par s)) = 0) /\
  (exx v k = -1 -> eval v (sinhv2 n (XX k) (Par A) (Par w) (Par s)) = - ep v A).
Proof.
  intros v k n A w s HA HW EV. rewrite (sinhv2_val v k A w s HA HW n). pose proof (sinh_arg _ HW). repeat split; intros ->.
  - rewrite pow1. field. lra.
  - replace (0 / ep v w) with 0 by (field; lra). rewrite sinh_0. field. lra.
  - replace (-1 / ep v w) with (- (1 / ep v w)) by (field; lra). unfold sinh at 1. rewrite Ropp_involutive.
    replace ((exp (- (1 / ep v w)) - exp (1 / ep v w)) / 2) with (- sinh (1 / ep v w)) by (unfold sinh; lra).
    apply Nat.even_spec in EV as [q ->]. rewrite pow_1_even. field. lra.
Qed.

(** the distance from the origin at the ends of xx0 in the spherical systems, and the axis lengths of the others *)
Definition radius2 (m : coord) (v : env) : R := cart_of m v 0%nat ^ 2 + cart_of m v 1%nat ^ 2 + cart_of m v 2%nat ^ 2.
Definition rho2 (m : coord) (v : env) : R := cart_of m v 0%nat ^ 2 + cart_of m v 1%nat ^ 2.
Lemma sph_radius2 : forall mn mx ct r v, radius2 (spherical_of mn mx ct r) v = eval v r ^ 2.
Proof.
  intros. unfold radius2, cart_of. cbn [spherical_of to_cart v3 eval]. norm_trig v.
Qed.
Lemma cyl_rho2 : forall mn mx ct rho z v, rho2 (cylindrical_of mn mx ct rho z) v = eval v rho ^ 2.
Proof. intros. unfold rho2, cart_of. cbn [cylindrical_of to_cart v3 eval]. norm_trig v. Qed.
Lemma prolate_rho2 : forall mx0 AA v, exx v 1%nat = PI / 2 -> rho2 (prolate_of mx0 AA) v = eval v AA ^ 2 /\ cart_of (prolate_of mx0 AA) v 2%nat = 0.
Proof.
  intros mx0 AA v E. unfold rho2, cart_of. cbn [prolate_of to_cart v3 eval]. rewrite E, sin_PI2, cos_PI2. split; [|ring].
  pose proof (sc2 (exx v 2%nat)) as C. replace (cos (exx v 2%nat) ^ 2) with (1 - sin (exx v 2%nat) ^ 2) by lra.
  match goal with |- (?a * 1 * ?c) ^ 2 + _ = _ => replace ((a * 1 * c) ^ 2) with (a ^ 2 * (c * c)) by ring end. rewrite C. ring.
Qed.
Lemma wedge_radius2 : forall cs v, (cs = "UWedgeHSinhSph" \/ cs = "LWedgeHSinhSph")%string ->
  radius2 (spherical_wedge_like cs) v = eval v (sinhv1 X0 (Par "AMPL") (Par "SINHW")) ^ 2.
Proof.
  intros cs v D. unfold radius2, cart_of.
  destruct D as [-> | ->]; cbn [spherical_wedge_like String.eqb Ascii.eqb Bool.eqb to_cart v3];
    generalize (sinhv1 X0 (Par "AMPL") (Par "SINHW")); intros r; cbn [eval]; norm_trig v.
Qed.
