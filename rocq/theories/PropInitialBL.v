(** C78: the Brill-Lindquist initial data of InitialData_Cartesian.py. *)
From Coq Require Import String List ZArith Bool Arith Lia Reals Lra.
From Verif Require Import PyBase RefMetric RefMetricReal RefMetricCalc RefMetricFacts Inverter InverterFacts GRMetric BSSN BSSNFacts BSSNCalc BSSNRicci PropBSSNConv InitialData PropInitialData.
Import ListNotations.
Local Open Scope R_scope.

(** ** psi^4 times the flat metric, with psi harmonic *)
Definition dlt (i j : nat) : ex := if Nat.eqb i j then Num 1 else Num 0.
Definition flat4 (psi : ex) (i j : nat) : ex := if Nat.eqb i j then Pow psi 4 else Num 0.
Definition Gcf (psi : ex) (i j k : nat) : ex :=
  Mul (Div (Num 2) psi) (Sub (Add (Mul (dlt i j) (diff k psi)) (Mul (dlt i k) (diff j psi))) (Mul (dlt j k) (diff i psi))).
Ltac evs := rewrite ?eval_sadd, ?eval_ssub, ?eval_smul, ?eval_sdiv, ?eval_sopp, ?eval_spow.
Definition dl (i j : nat) : R := if Nat.eqb i j then 1 else 0.
Lemma dlt_dl : forall v i j, eval v (dlt i j) = dl i j.
Proof. intros v i j. unfold dlt, dl. destruct (Nat.eqb i j); reflexivity. Qed.
Lemma dlt_d : forall v i j k, eval v (diff k (dlt i j)) = 0.
Proof. intros v i j k. unfold dlt. destruct (Nat.eqb i j); reflexivity. Qed.
Lemma G_val : forall v psi i j k, eval v (Gcf psi i j k) = 2 / eval v psi * (dl i j * eval v (diff k psi) + dl i k * eval v (diff j psi) - dl j k * eval v (diff i psi)).
Proof. intros. unfold Gcf. cbn [eval]. rewrite !dlt_dl. ring. Qed.
Lemma dG_val : forall v psi i j k l, eval v psi <> 0 -> eval v (diff l (Gcf psi i j k)) =
  - 2 * eval v (diff l psi) / eval v psi ^ 2 * (dl i j * eval v (diff k psi) + dl i k * eval v (diff j psi) - dl j k * eval v (diff i psi))
  + 2 / eval v psi * (dl i j * eval v (diff l (diff k psi)) + dl i k * eval v (diff l (diff j psi)) - dl j k * eval v (diff l (diff i psi))).
Proof.
  intros v psi i j k l N. unfold Gcf. cbn [diff]. evs. cbn [eval]. rewrite !dlt_dl. evs. cbn [eval]. evs. rewrite !dlt_d, !dlt_dl. field. assumption.
Qed.
Lemma cf_ricci : forall P (p : nat -> R) (pp : nat -> nat -> R) i, P <> 0 -> (i < 3)%nat ->
  ricci (fun i j k => 2 / P * (dl i j * p k + dl i k * p j - dl j k * p i))
    (fun i j k l => - 2 * p l / P ^ 2 * (dl i j * p k + dl i k * p j - dl j k * p i) + 2 / P * (dl i j * pp k l + dl i k * pp j l - dl j k * pp i l)) i i
  = - 2 * pp i i / P + 6 * p i ^ 2 / P ^ 2 - 2 * ((pp 0%nat 0%nat + pp 1%nat 1%nat + pp 2%nat 2%nat) / P + (p 0%nat ^ 2 + p 1%nat ^ 2 + p 2%nat ^ 2) / P ^ 2).
Proof.
  intros P p pp i N Hi. unfold ricci. rewrite ?s3_eq. cases3 i; unfold dl; cbn [Nat.eqb]; field; assumption.
Qed.
Lemma cf_vacuum : forall (dom : env -> Prop) psi, (forall v, dom v -> wd v psi /\ eval v psi <> 0 /\
    eval v (diff 0 (diff 0 psi)) + eval v (diff 1 (diff 1 psi)) + eval v (diff 2 (diff 2 psi)) = 0) ->
  vacuum_data dom (flat4 psi) zero2.
Proof.
  intros dom psi H. exists (fun i j k w => eval w (Gcf psi i j k)). split.
  - intros w D i j k Hi Hj Hk. destruct (H w D) as (W & N & _). split.
    + unfold Gcf. cbn [eval]. rewrite (Nat.eqb_sym k j) || idtac. unfold dlt. rewrite (Nat.eqb_sym k j). ring.
    + assert (E : eval w (diff k (flat4 psi i j)) = s3 (fun n => eval w (flat4 psi n j) * eval w (Gcf psi n i k) + eval w (flat4 psi i n) * eval w (Gcf psi n j k))).
      { rewrite s3_eq. cases3 i; cases3 j; cases3 k; unfold flat4, Gcf, dlt; cbn [Nat.eqb diff eval Nat.sub Z.of_nat Pos.of_succ_nat Pos.succ]; evs; cbn [eval]; field; assumption. }
      rewrite <- E. apply diff_correct. cases3 i; cases3 j; cbn; auto.
  - intros v D. destruct (H v D) as (W & N & L).
    assert (WG : forall i j k, wd v (Gcf psi i j k)).
    { intros i j k. unfold Gcf, dlt. cbn [wd]. repeat split; auto; try (apply wd_diff; auto); destruct (Nat.eqb _ _); exact I. }
    exists (fun i j => if Nat.eqb i j then / (eval v psi ^ 4) else 0), (fun i j k l => eval v (diff l (Gcf psi i j k))), (fun _ _ _ => 0). repeat split.
    + intros i j Hi Hj. rewrite s3_eq. cases3 i; cases3 j; unfold flat4; cbn [Nat.eqb eval]; try ring; field; assumption.
    + intros i j k l Hi Hj Hk Hl. apply diff_correct, WG.
    + intros i j k Hi Hj Hk. unfold zero2. cbn [eval]. change 0 with (eval v (diff k (Num 0))). apply (diff_correct (Num 0)). exact I.
    + assert (R0 : forall i, (i < 3)%nat -> ricci (fun i j k => eval v (Gcf psi i j k)) (fun i j k l => eval v (diff l (Gcf psi i j k))) i i =
        - 2 * eval v (diff i (diff i psi)) / eval v psi + 6 * eval v (diff i psi) ^ 2 / eval v psi ^ 2
        - 2 * ((eval v (diff 0 (diff 0 psi)) + eval v (diff 1 (diff 1 psi)) + eval v (diff 2 (diff 2 psi))) / eval v psi
          + (eval v (diff 0 psi) ^ 2 + eval v (diff 1 psi) ^ 2 + eval v (diff 2 psi) ^ 2) / eval v psi ^ 2)).
      { intros i Hi. rewrite <- (cf_ricci (eval v psi) (fun k => eval v (diff k psi)) (fun k l => eval v (diff l (diff k psi))) i N Hi).
        unfold ricci. rewrite ?s3_eq, ?G_val, ?dG_val by assumption. reflexivity. }
      unfold zero2. cbn [eval]. rewrite ?s3_eq. cbn [Nat.eqb]. rewrite ?R0 by lia. rewrite L.
      replace (eval v (diff 2 (diff 2 psi))) with (- eval v (diff 0 (diff 0 psi)) - eval v (diff 1 (diff 1 psi))) by lra.
      field. assumption.
    + intros i Hi. unfold cov, zero2. rewrite ?s3_eq. cbn [eval]. ring.
Qed.

(** ** BrillLindquist *)
(** away from the punctures, and where the conformal factor does not vanish (which it does not for positive masses) *)
Definition BL_r2 (n : string) (v : env) : R :=
  (exx v 0%nat - ep v (n ++ "_posn_x")%string) ^ 2 + (exx v 1%nat - ep v (n ++ "_posn_y")%string) ^ 2 + (exx v 2%nat - ep v (n ++ "_posn_z")%string) ^ 2.
Definition BL_dom (v : env) : Prop := 0 < BL_r2 "BH1" v /\ 0 < BL_r2 "BH2" v /\ eval v BL_psi <> 0.
Lemma BL_g : forall i j, (i < 3)%nat -> (j < 3)%nat -> d_gammaDD BrillLindquist i j = flat4 BL_psi i j.
Proof. intros i j Hi Hj. cases3 i; cases3 j; vm_compute; reflexivity. Qed.
Lemma BL_wd : forall v, BL_dom v -> wd v BL_psi.
Proof.
  intros v (D1 & D2 & _). cbv - [eval Rlt Rplus Rmult Rdiv Rminus IZR ep exx pow not sqrt]; cbn [eval]. unfold BL_r2 in *. cbn [append] in *.
  pose proof (sqrt_lt_R0 _ D1). pose proof (sqrt_lt_R0 _ D2). repeat split; auto; lra.
Qed.
Lemma BL_dd : forall v, BL_dom v -> forall k, (k < 3)%nat ->
  let c := fun n : string => exx v k - ep v (n ++ match k with 0%nat => "_posn_x" | 1%nat => "_posn_y" | _ => "_posn_z" end)%string in
  eval v (diff k (diff k BL_psi)) = ep v "BH1_mass"%string / 2 * (3 * c "BH1"%string ^ 2 / sqrt (BL_r2 "BH1" v) ^ 5 - 1 / sqrt (BL_r2 "BH1" v) ^ 3)
    + ep v "BH2_mass"%string / 2 * (3 * c "BH2"%string ^ 2 / sqrt (BL_r2 "BH2" v) ^ 5 - 1 / sqrt (BL_r2 "BH2" v) ^ 3).
Proof.
  intros v (D1 & D2 & _). unfold BL_r2 in *. cbn [append] in *. pose proof (sqrt_lt_R0 _ D1) as P1. pose proof (sqrt_lt_R0 _ D2) as P2.
  intros k Hk. cases3 k; norm_ex; cbn [append].
  all: set (d1 := sqrt ((exx v 0%nat - ep v "BH1_posn_x"%string) ^ 2 + _ + _)) in *; set (d2 := sqrt ((exx v 0%nat - ep v "BH2_posn_x"%string) ^ 2 + _ + _)) in *; clearbody d1 d2; clear D1 D2.
  all: match goal with |- context [exx ?v ?k - ep ?v ?s] => generalize (exx v k - ep v s); intro X1 end.
  all: match goal with |- context [exx ?v ?k - ep ?v ?s] => generalize (exx v k - ep v s); intro X2 end.
  all: field; lra.
Qed.
Lemma BL_harmonic : forall v, BL_dom v -> eval v (diff 0 (diff 0 BL_psi)) + eval v (diff 1 (diff 1 BL_psi)) + eval v (diff 2 (diff 2 BL_psi)) = 0.
Proof.
  intros v D. rewrite !BL_dd by (auto || lia). destruct D as (D1 & D2 & _). pose proof (sqrt_lt_R0 _ D1) as P1. pose proof (sqrt_lt_R0 _ D2) as P2.
  pose proof (sqrt_sqrt _ (Rlt_le _ _ D1)) as Q1. pose proof (sqrt_sqrt _ (Rlt_le _ _ D2)) as Q2.
  set (d1 := sqrt (BL_r2 "BH1" v)) in *. set (d2 := sqrt (BL_r2 "BH2" v)) in *. clearbody d1 d2. unfold BL_r2 in *. cbn [append] in *. clear D1 D2.
  transitivity (ep v "BH1_mass"%string / 2 * (3 * ((exx v 0%nat - ep v "BH1_posn_x"%string) ^ 2 + (exx v 1%nat - ep v "BH1_posn_y"%string) ^ 2 + (exx v 2%nat - ep v "BH1_posn_z"%string) ^ 2) / d1 ^ 5 - 3 / d1 ^ 3)
    + ep v "BH2_mass"%string / 2 * (3 * ((exx v 0%nat - ep v "BH2_posn_x"%string) ^ 2 + (exx v 1%nat - ep v "BH2_posn_y"%string) ^ 2 + (exx v 2%nat - ep v "BH2_posn_z"%string) ^ 2) / d2 ^ 5 - 3 / d2 ^ 3)); [field; lra |].
  rewrite <- Q1, <- Q2. field. lra.
Qed.
Lemma vacuum_ext : forall dom g g' K K', (forall i j, (i < 3)%nat -> (j < 3)%nat -> g i j = g' i j) -> (forall i j, (i < 3)%nat -> (j < 3)%nat -> K i j = K' i j) ->
  vacuum_data dom g K -> vacuum_data dom g' K'.
Proof.
  intros dom g g' K K' EG EK (G & LC & H). exists G. split.
  - intros w D i j k Hi Hj Hk. destruct (LC w D i j k Hi Hj Hk) as (S & A). split; [exact S |]. rewrite s3_eq in *. rewrite <- !EG by (auto; lia). exact A.
  - intros v D. destruct (H v D) as (u & dG & dK & HU & HG & HK & HC & HM). exists u, dG, dK. split; [| split; [| split; [| split]]].
    + intros i j Hi Hj. rewrite <- HU by assumption. rewrite !s3_eq. rewrite <- !EG by (auto; lia). reflexivity.
    + exact HG.
    + intros i j k Hi Hj Hk. rewrite <- EK by assumption. auto.
    + rewrite ?s3_eq in *. rewrite <- !EK by lia. exact HC.
    + intros i Hi. rewrite <- (HM i Hi). unfold cov. rewrite ?s3_eq in *. rewrite <- !EK by (auto; lia). reflexivity.
Qed.
(** The Brill-Lindquist data solve the constraints: the conformal factor is harmonic away from the punctures *)
Theorem C78_brill_lindquist_vacuum : vacuum_data BL_dom (d_gammaDD BrillLindquist) (d_KDD BrillLindquist).
Proof.
  apply (vacuum_ext BL_dom (flat4 BL_psi) _ zero2).
  - intros i j Hi Hj. now rewrite BL_g.
  - reflexivity.
  - apply cf_vacuum. intros v D. split; [now apply BL_wd |]. split; [apply D | now apply BL_harmonic].
Qed.

(** ** The gauge *)
(** The standard gauge: whichever conformal factor is evolved, the lapse is the power -1/6 of det(gamma) / det(gammahat), the shift and
    its time derivative vanish *)
Theorem C78_standard_gauge : forall nm m d v ov, In nm ["phi"; "chi"; "W"]%string -> d_gauge d = None \/ ov = true ->
  sym3 (fun i j => eval v (d_gammaDD d i j)) -> 0 < det3 (fun i j => eval v (d_gammaDD d i j)) -> 0 < h_det m ->
  exists alpha be B, gauge_values ov nm m d v = Ok (alpha, be, B) /\ 0 < alpha /\ alpha ^ 6 * det3 (fun i j => eval v (d_gammaDD d i j)) = h_det m /\
    forall i, be i = 0 /\ B i = 0.
Proof.
  intros nm m d v ov I G S P Hm.
  destruct (C61_conformal nm m _ (fun i j => eval v (d_KDD d i j)) (fun _ => 0) (fun _ => 0) I S P Hm) as (o & p & E & Ep & Pp & DB & GB & _).
  assert (DS : det3 (fun i j => eval v (d_gammaDD d i j)) = p * p * p * h_det m).
  { rewrite <- DB, <- det3_scale. apply det3_ext. intros. apply GB; assumption. }
  assert (SA : exists alpha, standard_alpha nm (o_cf o) = Ok alpha /\ 0 < alpha /\ alpha * alpha * p = 1).
  { assert (CF : nm = "W"%string -> 0 < o_cf o).
    { intros ->. unfold ADM_to_BSSN in E. destruct (inv3 _) as [pp|] eqn:?; [| discriminate]. cbn [py_bind] in E. destruct (inv3 _) as [pb|] eqn:? in E; [| discriminate].
      cbn [py_bind] in E. injection E as <-. cbn [o_cf]. unfold Rpower. apply exp_pos. }
    destruct I as [<- | [<- | [<- | []]]]; cbn in Ep; injection Ep as Ep; cbn.
    - exists (exp (-2 * o_cf o)). split; [reflexivity |]. split; [apply exp_pos |]. rewrite <- Ep, <- !exp_plus. rewrite <- exp_0. f_equal. ring.
    - assert (0 < o_cf o). { rewrite <- Ep in Pp. destruct (Rlt_le_dec 0 (o_cf o)) as [|L]; [assumption | exfalso]. destruct L as [L | L].
        - assert (/ o_cf o < 0) by now apply Rinv_lt_0_compat. lra.
        - rewrite L in Pp. unfold Rdiv in Pp. rewrite Rinv_0 in Pp. lra. }
      exists (sqrt (o_cf o)). split; [reflexivity |]. split; [now apply sqrt_lt_R0 |]. rewrite sqrt_sqrt, <- Ep by lra. field. lra.
    - specialize (CF eq_refl). exists (o_cf o). split; [reflexivity |]. split; [assumption |]. rewrite <- Ep. field. lra. }
  destruct SA as (al & SA & AP & AE). exists al, (fun _ => 0), (fun _ => 0). split; [| split; [exact AP | split; [| auto]]].
  - unfold gauge_values. rewrite E. cbn [py_bind]. rewrite SA. cbn [py_bind]. destruct G as [-> | ->]; [reflexivity |]. destruct (d_gauge d) as [[[? ?] ?]|]; reflexivity.
  - rewrite DS. replace (al ^ 6 * (p * p * p * h_det m)) with ((al * al * p) ^ 3 * h_det m) by ring. rewrite AE. ring.
Qed.
(** For the Brill-Lindquist data it is 1/psi^2 *)
Theorem C78_brill_lindquist_lapse : forall nm m v ov, In nm ["phi"; "chi"; "W"]%string -> h_det m = 1 -> eval v BL_psi <> 0 ->
  exists be B, gauge_values ov nm m BrillLindquist v = Ok (1 / eval v BL_psi ^ 2, be, B) /\ forall i, be i = 0 /\ B i = 0.
Proof.
  intros nm m v ov I Hm N. assert (GV : forall i j, (i < 3)%nat -> (j < 3)%nat -> eval v (d_gammaDD BrillLindquist i j) = if Nat.eqb i j then eval v BL_psi ^ 4 else 0).
  { intros i j Hi Hj. rewrite BL_g by assumption. unfold flat4. destruct (Nat.eqb i j); reflexivity. }
  assert (DV : det3 (fun i j => eval v (d_gammaDD BrillLindquist i j)) = eval v BL_psi ^ 12). { rewrite (det3_ext _ _ GV). cbv - [eval BL_psi pow Rplus Rmult Ropp IZR]. ring. }
  assert (P2 : 0 < eval v BL_psi ^ 2) by (rewrite <- Rsqr_pow2; now apply Rsqr_pos_lt).
  destruct (C78_standard_gauge nm m BrillLindquist v ov I (or_introl eq_refl)) as (al & be & B & E & AP & AE & Z).
  - intros i j Hi Hj. rewrite !GV by assumption. now rewrite Nat.eqb_sym.
  - rewrite DV. replace (eval v BL_psi ^ 12) with ((eval v BL_psi ^ 2) ^ 6) by ring. now apply pow_lt.
  - rewrite Hm. lra.
  - exists be, B. split; [| exact Z]. rewrite E. do 3 f_equal. rewrite DV, Hm in AE.
    set (t := al * eval v BL_psi ^ 2). assert (T6 : t ^ 6 = 1) by (unfold t; rewrite <- AE; ring). assert (T0 : 0 < t) by now apply Rmult_lt_0_compat.
    assert (T1 : t = 1).
    { destruct (Rtotal_order t 1) as [L | [L | L]]; [exfalso | exact L | exfalso].
      - destruct (pow_lt_1_compat t 6 ltac:(lra) ltac:(lia)). lra.
      - pose proof (Rlt_pow_R1 t 6 L ltac:(lia)). lra. }
    unfold t in T1. replace al with (al * eval v BL_psi ^ 2 / eval v BL_psi ^ 2) by (field; assumption). rewrite T1. reflexivity.
Qed.
(** A gauge that comes with the data is kept unless overridden; other names are rejected *)
Theorem C78_gauge_names : 
  (forall nm m v, gauge_values false nm m StaticTrumpet v = Ok (eval v T_alpha, fun i => eval v (set1 0 T_betar zero1 i), fun i => eval v (zero1 i))) /\
  (forall nm m v, gauge_values false nm m OffsetKerrSchild v = Ok (eval v K_alpha, fun i => eval v (set1 0 K_betar zero1 i), fun i => eval v (zero1 i))) /\
  (forall s d, cartesian_data s = Ok d <-> s = "BrillLindquist"%string /\ d = BrillLindquist) /\
  (forall s d, spherical_data s = Ok d <-> s = "UIUCBlackHole"%string /\ d = UIUCBlackHole \/ s = "StaticTrumpet"%string /\ d = StaticTrumpet \/ s = "OffsetKerrSchild"%string /\ d = OffsetKerrSchild) /\
  (forall s, ~ In s ["BrillLindquist"]%string -> cartesian_data s = Err ValueError) /\
  (forall s, ~ In s ["UIUCBlackHole"; "StaticTrumpet"; "OffsetKerrSchild"]%string -> spherical_data s = Err ValueError) /\
  (forall nm m d v, d_gauge d = None -> sym3 (fun i j => eval v (d_gammaDD d i j)) -> 0 < det3 (fun i j => eval v (d_gammaDD d i j)) -> 0 < h_det m ->
     ~ In nm ["phi"; "chi"; "W"]%string -> gauge_values false nm m d v = Err ValueError).
Proof.
  split; [| split; [| split; [| split; [| split; [| split]]]]]; try reflexivity.
  - intros s d. unfold cartesian_data. destruct (String.eqb_spec s "BrillLindquist") as [->|N]; split.
    + intro E; injection E as <-; auto.
    + intros (_ & ->); reflexivity.
    + discriminate.
    + tauto.
  - intros s d. unfold spherical_data. destruct (String.eqb_spec s "UIUCBlackHole") as [->|N1]; [| destruct (String.eqb_spec s "StaticTrumpet") as [->|N2]; [| destruct (String.eqb_spec s "OffsetKerrSchild") as [->|N3]]]; split.
    all: try (intro E; first [discriminate | injection E as <-]; auto).
    all: intros [(? & ->) | [(? & ->) | (? & ->)]]; first [reflexivity | discriminate | contradiction].
  - intros s N. unfold cartesian_data. destruct (String.eqb_spec s "BrillLindquist"); [| reflexivity]. exfalso. apply N. cbn. auto.
  - intros s N. unfold spherical_data. destruct (String.eqb_spec s "UIUCBlackHole"); [exfalso; apply N; cbn; auto |].
    destruct (String.eqb_spec s "StaticTrumpet"); [exfalso; apply N; cbn; auto |]. destruct (String.eqb_spec s "OffsetKerrSchild"); [exfalso; apply N; cbn; auto | reflexivity].
  - intros nm m d v DN S P Hm N. unfold gauge_values. rewrite DN.
    destruct (C61_conformal "W" m _ (fun i j => eval v (d_KDD d i j)) (fun _ => 0) (fun _ => 0) ltac:(cbn; auto) S P Hm) as (o & p & E & _).
    unfold ADM_to_BSSN in *. destruct (inv3 (fun i j => eval v (d_gammaDD d i j))) as [pp|] eqn:?; [| discriminate]. cbn [py_bind] in *. destruct (inv3 _) as [pb|] eqn:? in E; [| discriminate].
    rewrite Heqp1. cbn [py_bind]. unfold cf_of. destruct (String.eqb_spec nm "phi"); [exfalso; apply N; cbn; auto |].
    destruct (String.eqb_spec nm "chi"); [exfalso; apply N; cbn; auto |]. destruct (String.eqb_spec nm "W"); [exfalso; apply N; cbn; auto | reflexivity].
Qed.

(** two unit masses at (1, 0, 0) and (-1, 0, 0), seen from the origin: psi = 2 and the lapse is 1/4 *)
Definition BL_at : env :=
  MkEnv (fun s => if String.eqb s "BH1_posn_x" then 1 else if String.eqb s "BH2_posn_x" then -1 else if String.eqb s "BH1_mass" then 1 else if String.eqb s "BH2_mass" then 1 else 0)
    (fun _ => 0) (fun _ => 0) (fun _ _ => 0).
Example C78_brill_lindquist_example : BL_dom BL_at /\ eval BL_at BL_psi = 2.
Proof.
  assert (E : eval BL_at BL_psi = 2).
  { change (1 + 1 / (2 * sqrt ((0 - 1) ^ 2 + (0 - 0) ^ 2 + (0 - 0) ^ 2)) + 1 / (2 * sqrt ((0 - -1) ^ 2 + (0 - 0) ^ 2 + (0 - 0) ^ 2)) = 2).
    replace ((0 - 1) ^ 2 + (0 - 0) ^ 2 + (0 - 0) ^ 2) with 1 by ring. replace ((0 - -1) ^ 2 + (0 - 0) ^ 2 + (0 - 0) ^ 2) with 1 by ring. rewrite sqrt_1. lra. }
  split; [| exact E]. unfold BL_dom. rewrite E. unfold BL_r2. cbn. lra.
Qed.

Print Assumptions C78_brill_lindquist_vacuum.
Print Assumptions C78_standard_gauge.
Print Assumptions C78_brill_lindquist_lapse.
Print Assumptions C78_gauge_names.
