(** The derivatives, connections and covariant derivatives that BSSN_quantities.py, BSSN_to_ADM.py and BSSN_RHSs.py write out by
    hand are what they are called, in every coordinate system. *)
From Coq Require Import String List Arith Bool Lia Reals Lra.
From Verif Require Import PyBase Inverter InverterFacts GRMetric RefMetric RefMetricReal RefMetricFacts RefMetricFlat PropRefMetric BSSN BSSNFacts BSSNCalc BSSNGeo BSSNInv BSSNConn.
Import ListNotations.
Local Open Scope R_scope.

(** The symmetries with which the symbols are declared *)
Record declared (b : vars) : Prop := MkDecl {
  y_h : sym3 (v_h b); y_a : sym3 (v_a b);
  y_hD : forall i j k, (i < 3)%nat -> (j < 3)%nat -> (k < 3)%nat -> v_h_dD b i j k = v_h_dD b j i k;
  y_hDD : forall i j k l, (i < 3)%nat -> (j < 3)%nat -> (k < 3)%nat -> (l < 3)%nat ->
    v_h_dDD b i j k l = v_h_dDD b j i k l /\ v_h_dDD b i j k l = v_h_dDD b i j l k;
  y_vetDD : forall i j k, (i < 3)%nat -> (j < 3)%nat -> (k < 3)%nat -> v_vet_dDD b i j k = v_vet_dDD b i k j;
  y_cfDD : sym3 (v_cf_dDD b); y_alphaDD : sym3 (v_alpha_dDD b) }.
(** A point [v] inside the grid of a coordinate system, and fields [V] around it whose derivatives are those declared: the _dD and
    _dDD components are derivatives at [v] *)
Record setting (cs : string) (r : rfm) (V : env -> vars) (v : env) : Prop := MkSetting {
  s_rm : reference_metric cs false = Ok r; s_good : good (ep v); s_inside : inside (r_coord r) v;
  s_vars : vars_ok V v; s_decl : near v (fun w => declared (V w)) }.
(** Covariant derivatives with the connection [Gam]: of T_ij, T_ijl, T^i, T^i_k, T_i, given the partial derivatives [dT] *)
Definition cov_DD (Gam : nat -> nat -> nat -> R) (T : nat -> nat -> R) (dT : nat -> nat -> nat -> R) (i j l : nat) : R :=
  dT i j l - s3 (fun n => Gam n i l * T n j) - s3 (fun n => Gam n j l * T i n).
Definition cov_DDD (Gam : nat -> nat -> nat -> R) (T : nat -> nat -> nat -> R) (dT : nat -> nat -> nat -> nat -> R) (i j l k : nat) : R :=
  dT i j l k - s3 (fun n => Gam n i k * T n j l) - s3 (fun n => Gam n j k * T i n l) - s3 (fun n => Gam n l k * T i j n).
Definition cov_U (Gam : nat -> nat -> nat -> R) (T : nat -> R) (dT : nat -> nat -> R) (i l : nat) : R :=
  dT i l + s3 (fun n => Gam i n l * T n).
Definition cov_UD (Gam : nat -> nat -> nat -> R) (T : nat -> nat -> R) (dT : nat -> nat -> nat -> R) (i k l : nat) : R :=
  dT i k l + s3 (fun n => Gam i n l * T n k) - s3 (fun n => Gam n k l * T i n).
Definition cov_D (Gam : nat -> nat -> nat -> R) (T : nat -> R) (dT : nat -> nat -> R) (i l : nat) : R :=
  dT i l - s3 (fun n => Gam n i l * T n).

Lemma sub_self2 : forall x y : R, x + y - x - y = 0.
Proof. intros; ring. Qed.
(** Every partial derivative of a tensor written out in BSSN_quantities.py is the derivative of that tensor. *)
Theorem C62_tensors : forall cs r V v, setting cs r V v -> let M := ref_at r in
  forall i j k l, (i < 3)%nat -> (j < 3)%nat -> (k < 3)%nat -> (l < 3)%nat ->
  d_at (fun w => gammabarDD (M w) (V w) i j) l v (gammabarDD_dD (M v) (V v) i j l) /\
  d_at (fun w => gammabarDD_dD (M w) (V w) i j k) l v (gammabarDD_dDD (M v) (V v) i j k l) /\
  d_at (fun w => AbarDD (M w) (V w) i j) l v (AbarDD_dD (M v) (V v) i j l) /\
  d_at (fun w => betaU (M w) (V w) i) l v (betaU_dD (M v) (V v) i l) /\
  d_at (fun w => betaU_dD (M w) (V w) i k) l v (betaU_dDD (M v) (V v) i k l) /\
  (* upwinding replaces the derivatives of the evolved variable only *)
  ((forall a c e, v_h_dupD (V v) a c e = v_h_dD (V v) a c e) -> gammabarDD_dupD (M v) (V v) i j l = gammabarDD_dD (M v) (V v) i j l) /\
  ((forall a c e, v_a_dupD (V v) a c e = v_a_dD (V v) a c e) -> AbarDD_dupD (M v) (V v) i j l = AbarDD_dD (M v) (V v) i j l) /\
  ((forall a c, v_vet_dupD (V v) a c = v_vet_dD (V v) a c) -> betaU_dupD (M v) (V v) i l = betaU_dD (M v) (V v) i l) /\
  ((forall a c, v_lam_dupD (V v) a c = v_lam_dD (V v) a c) -> d_at (fun w => LambdabarU (M w) (V w) i) l v (LambdabarU_dupD (M v) (V v) i l)).
Proof.
  intros cs r V v S M i j k l Hi Hj Hk Hl. pose proof (ref_at_ok cs r v (s_rm _ _ _ _ S) (s_good _ _ _ _ S) (s_inside _ _ _ _ S)) as HM.
  pose proof (s_vars _ _ _ _ S) as HV. unfold M.
  split; [exact (d_gammabar _ _ _ HM HV i j l Hi Hj Hl)|].
  split; [exact (d_gammabar2 _ _ _ HM HV i j k l Hi Hj Hk Hl)|].
  split; [exact (d_Abar _ _ _ HM HV i j l Hi Hj Hl)|].
  split; [exact (d_beta _ _ _ HM HV i l Hi Hl)|].
  split; [exact (d_beta2 _ _ _ HM HV i k l Hi Hk Hl)|].
  split; [intros E; unfold gammabarDD_dupD; rewrite E; reflexivity|].
  split; [intros E; unfold AbarDD_dupD; rewrite E; reflexivity|].
  split; [intros E; unfold betaU_dupD; rewrite E; reflexivity|].
  intros E. eapply d_eq; [intros; reflexivity| |exact (d_Lambar _ _ _ HM HV i l Hi Hl)]. unfold LambdabarU_dupD. now rewrite E.
Qed.

(** The hatted derivatives are covariant derivatives of gammabar and of Lambdabar with the connection of the reference metric. *)
Lemma hat_cov : forall m b, ref_geo m -> forall i j l, (i < 3)%nat -> (j < 3)%nat -> (l < 3)%nat ->
  gammabarDD_dHatD m b i j l = cov_DD (h_Gam m) (gammabarDD m b) (gammabarDD_dD m b) i j l.
Proof.
  intros m b E i j l Hi Hj Hl. unfold gammabarDD_dHatD, cov_DD, gammabarDD_dD, gammabarDD, epsDD_dD, epsDD.
  rewrite (e_compat _ E i j l Hi Hj Hl), !s3_eq. ring.
Qed.
Theorem C62_hatted : forall cs r V v, setting cs r V v -> let M := ref_at r in
  forall i j l k, (i < 3)%nat -> (j < 3)%nat -> (l < 3)%nat -> (k < 3)%nat ->
  let D1 := fun w => cov_DD (h_Gam (M w)) (gammabarDD (M w) (V w)) (gammabarDD_dD (M w) (V w)) in
  gammabarDD_dHatD (M v) (V v) i j l = D1 v i j l /\
  d_at (fun w => D1 w i j l) k v (gammabarDD_dHatD_dD (M v) (V v) i j l k) /\
  gammabarDD_dHatDD (M v) (V v) i j l k = cov_DDD (h_Gam (M v)) (D1 v) (gammabarDD_dHatD_dD (M v) (V v)) i j l k /\
  (exists dL, (forall a c, (a < 3)%nat -> (c < 3)%nat -> d_at (fun w => LambdabarU (M w) (V w) a) c v (dL a c)) /\
     LambarU_dHatD (M v) (V v) i j = cov_U (h_Gam (M v)) (LambdabarU (M v) (V v)) dL i j).
Proof.
  intros cs r V v S M i j l k Hi Hj Hl Hk D1. destruct S as [H G IN HV _]. pose proof (ref_at_ok cs r v H G IN) as HM.
  pose proof (ref_at_geo cs r v H G IN) as GE. pose proof (hat_cov (M v) (V v) GE) as HC.
  split; [exact (HC i j l Hi Hj Hl)|]. split; [|split].
  - eapply d_ext; [exact Hk| |reflexivity|exact (d_hat _ _ _ HM HV i j l k Hi Hj Hl Hk)].
    eapply near_imp; [exact (near_ok cs r v H G IN)|]. intros w (Gw & Iw). exact (hat_cov _ _ (ref_at_geo cs r w H Gw Iw) i j l Hi Hj Hl).
  - unfold gammabarDD_dHatDD, cov_DDD.
    rewrite (s3_ext _ (fun n => - h_Gam (M v) n l k * D1 v i j n - h_Gam (M v) n i k * D1 v n j l - h_Gam (M v) n j k * D1 v i n l)).
    + generalize (D1 v) (h_Gam (M v)) (gammabarDD_dHatD_dD (M v) (V v) i j l k). intros T ga x. rewrite !s3_eq. ring.
    + intros n Hn. unfold D1. rewrite <- !HC by assumption. reflexivity.
  - exists (fun a c => v_lam_dD (V v) a c * h_ReU (M v) a + v_lam (V v) a * h_ReUdD (M v) a c). split.
    + intros a c Ha Hc. exact (d_Lambar _ _ _ HM HV a c Ha Hc).
    + unfold LambarU_dHatD, cov_U, LambdabarU. f_equal. apply s3_ext. intros n Hn. apply Rmult_assoc.
Qed.

(** The conformal factor: phi_dD and phi_dDD of BSSN_quantities.py are the derivatives of phi, exp_m4phi is exp(-4 phi), and
    phi_dBarDD is the second covariant derivative of phi. *)
Theorem C62_phi : forall cs r V v nm, setting cs r V v -> In nm ["phi"; "chi"; "W"]%string -> (nm <> "phi"%string -> 0 < v_cf (V v)) ->
  let phi := fun w => if String.eqb nm "phi" then v_cf (V w) else if String.eqb nm "W" then - ln (v_cf (V w)) / 2 else - ln (v_cf (V w)) / 4 in
  exists ph, (forall w, phi_part nm (V w) = Ok (ph w)) /\
  exp_m4phi (ph v) = exp (- 4 * phi v) /\
  (forall l, (l < 3)%nat -> d_at phi l v (phi_dD (ph v) l)) /\
  (forall i l, (i < 3)%nat -> (l < 3)%nat -> d_at (fun w => phi_dD (ph w) i) l v (phi_dDD (ph v) i l)) /\
  forall rbar q, bssn_quantities nm true rbar (ref_at r v) (V v) = Ok q ->
    q_phi q = ph v /\ forall i j, q_phi_dBarDD q i j = cov_D (GammabarUDD (ref_at r v) (V v) (q_gUU q)) (phi_dD (ph v)) (phi_dDD (ph v)) i j.
Proof.
  intros cs r V v nm S I P phi.
  assert (X : exists ph, forall w, phi_part nm (V w) = Ok (ph w)).
  { destruct I as [<-|[<-|[<-|[]]]]; (eexists; intros w; unfold phi_part; cbn [String.eqb Ascii.eqb Bool.eqb]; reflexivity). }
  destruct X as (ph & E). exists ph. split; [exact E|].
  destruct (phi_deriv V v (s_vars _ _ _ _ S) nm ph I P E) as (E4 & D). split; [exact E4|].
  split; [intros l Hl; exact (proj1 (D l Hl))|]. split; [intros i l Hi Hl; exact (proj2 (D l Hl) i Hi)|].
  intros rbar q Q. unfold bssn_quantities in Q. destruct (inv3 (gammabarDD (ref_at r v) (V v))) as [p|e]; [|discriminate].
  cbn [py_bind negb] in Q. rewrite E in Q. cbn [py_bind] in Q. apply ok_inj in Q. subst q. split; [reflexivity|].
  intros i j. cbn [q_phi_dBarDD q_gUU]. unfold cov_D. rewrite !s3_eq. ring.
Qed.

(** BSSN_to_ADM.py: gammaDDdD, gammaDDdDD, KDDdD are the derivatives of gammaDD and KDD; GammaUDD is the connection of gammaDD. *)
Lemma decl_gd_sym : forall cs r V v, setting cs r V v ->
  near v (fun w => ref_geo (ref_at r w) /\ sym3 (gammabarDD (ref_at r w) (V w)) /\ sym3 (AbarDD (ref_at r w) (V w))).
Proof.
  intros cs r V v [H G IN HV DC]. eapply near_imp; [exact (near_and _ _ _ (near_ok cs r v H G IN) DC)|].
  intros w ((Gw & Iw) & DW). pose proof (ref_at_geo cs r w H Gw Iw) as E. split; [exact E|].
  apply gammabar_sym. split; [exact (e_sym _ E)|]. split; [exact (e_ReDDsym _ E)|]. split; [exact (y_h _ DW)|exact (y_a _ DW)].
Qed.
Lemma gd_sym : forall cs r V v, setting cs r V v -> forall i j l, (i < 3)%nat -> (j < 3)%nat -> (l < 3)%nat ->
  gammabarDD_dD (ref_at r v) (V v) i j l = gammabarDD_dD (ref_at r v) (V v) j i l.
Proof.
  intros cs r V v S i j l Hi Hj Hl. pose proof (decl_gd_sym _ _ _ _ S) as N.
  apply (sym_deriv (fun w => gammabarDD (ref_at r w) (V w)) (fun i j => gammabarDD_dD (ref_at r v) (V v) i j l) l v Hl); auto.
  - eapply near_imp; [exact N|]. intros w (_ & X & _). exact X.
  - intros a c Ha Hc. destruct S as [H G IN HV _]. exact (d_gammabar _ _ _ (ref_at_ok cs r v H G IN) HV a c l Ha Hc Hl).
Qed.
Theorem C62_adm : forall cs r V v nm A, setting cs r V v -> In nm ["phi"; "chi"; "W"]%string -> (nm <> "phi"%string -> v_cf (V v) <> 0) ->
  near v (fun w => BSSN_to_ADM nm true (ref_at r w) (V w) = Ok (A w)) ->
  forall i j k l, (i < 3)%nat -> (j < 3)%nat -> (k < 3)%nat -> (l < 3)%nat ->
  d_at (fun w => a_gammaDD (A w) i j) l v (a_gammaDDdD (A v) i j l) /\
  d_at (fun w => a_gammaDDdD (A w) i j k) l v (a_gammaDDdDD (A v) i j k l) /\
  d_at (fun w => a_KDD (A w) i j) l v (a_KDDdD (A v) i j l) /\
  s3 (fun n => a_gammaUU (A v) i n * a_gammaDD (A v) n j) = (if Nat.eqb i j then 1 else 0) /\
  a_GammaUDD (A v) i j k = a_GammaUDD (A v) i k j /\
  cov_DD (a_GammaUDD (A v)) (a_gammaDD (A v)) (a_gammaDDdD (A v)) i j k = 0.
Proof.
  intros cs r V v nm A S I P N i j k l Hi Hj Hk Hl.
  pose proof (gd_sym _ _ _ _ S) as GDS. pose proof (near_here _ _ (decl_gd_sym _ _ _ _ S)) as (_ & SG & _).
  assert (X : exists p, forall w, exp4phi_of nm (v_cf (V w)) = Ok (p w)).
  { destruct I as [<-|[<-|[<-|[]]]]; (eexists; intros w; unfold exp4phi_of; cbn [String.eqb Ascii.eqb Bool.eqb]; reflexivity). }
  destruct X as (p & Ep).
  assert (X : exists ph, forall w, phi_derivs nm (V w) (p w) = Ok (ph w)).
  { destruct I as [<-|[<-|[<-|[]]]]; (eexists; intros w; unfold phi_derivs; cbn [String.eqb Ascii.eqb Bool.eqb]; reflexivity). }
  destruct X as (ph & Eph).
  destruct S as [H G IN HV DC]. pose proof (ref_at_ok cs r v H G IN) as HM.
  pose proof (exp4_deriv V v HV nm p ph I P Ep Eph) as DP. set (M := ref_at r) in *.
  assert (F : near v (fun w => exists u d, inv3 (fun i j => p w * gammabarDD (M w) (V w) i j) = Ok (u, d) /\
    let g' := fun i j k => 4 * p w * fst (ph w) k * gammabarDD (M w) (V w) i j + p w * gammabarDD_dD (M w) (V w) i j k in
    A w = MkAdm (betaU (M w) (V w)) (fun i j => p w * gammabarDD (M w) (V w) i j) g'
      (fun i j k l => (16 * p w * fst (ph w) k * fst (ph w) l + 4 * p w * snd (ph w) k l) * gammabarDD (M w) (V w) i j
         + 4 * p w * fst (ph w) k * gammabarDD_dD (M w) (V w) i j l + 4 * p w * fst (ph w) l * gammabarDD_dD (M w) (V w) i j k
         + p w * gammabarDD_dDD (M w) (V w) i j k l)
      u d (fun i j k => s3 (fun l => 1 / 2 * u i l * (g' l j k + g' l k j - g' j k l)))
      (fun i j => p w * AbarDD (M w) (V w) i j + 1 / 3 * (p w * gammabarDD (M w) (V w) i j) * v_trK (V w))
      (fun i j k => 4 * p w * fst (ph w) k * AbarDD (M w) (V w) i j + p w * AbarDD_dD (M w) (V w) i j k
         + 1 / 3 * (g' i j k * v_trK (V w) + p w * gammabarDD (M w) (V w) i j * v_trK_dD (V w) k)))).
  { eapply near_imp; [exact N|]. intros w Ew. unfold BSSN_to_ADM in Ew. destruct (bssn_quantities nm true None (M w) (V w)) as [q|e]; [|discriminate].
    cbn [py_bind] in Ew. rewrite Ep in Ew. cbn [py_bind] in Ew. rewrite Eph in Ew. cbn [py_bind] in Ew.
    destruct (inv3 (fun i j => p w * gammabarDD (M w) (V w) i j)) as [[u d]|e]; [|discriminate]. cbn [py_bind fst snd] in Ew.
    exists u, d. split; [reflexivity|]. apply ok_inj in Ew. rewrite <- Ew. reflexivity. }
  pose proof (near_here _ _ F) as (u & d & EI & EA). cbn zeta in EA.
  pose proof (d_gammabar M V v HM HV) as D1. pose proof (d_gammabar2 M V v HM HV) as D2. pose proof (d_Abar M V v HM HV) as D3.
  assert (DPL := proj1 (DP l Hl)). assert (DPI := proj2 (DP l Hl)).
  split; [|split; [|split]].
  - eapply d_ext; [exact Hl| | |exact (d_mult _ _ l v _ _ DPL (D1 i j l Hi Hj Hl))].
    + eapply near_imp; [exact F|]. intros w (u' & d' & _ & E). rewrite E. reflexivity.
    + rewrite EA. cbn [a_gammaDDdD]. generalize (M v). intros; ring.
  - eapply d_ext; [exact Hl| | |exact (d_plus _ _ l v _ _ (d_mult _ _ l v _ _ (d_mult _ _ l v _ _ (d_scal 4 _ l v _ DPL) (DPI k Hk)) (D1 i j l Hi Hj Hl))
                                              (d_mult _ _ l v _ _ DPL (D2 i j k l Hi Hj Hk Hl)))].
    + eapply near_imp; [exact F|]. intros w (u' & d' & _ & E). rewrite E. reflexivity.
    + rewrite EA. cbn [a_gammaDDdDD]. generalize (M v). intros; ring.
  - eapply d_ext; [exact Hl| | |exact (d_plus _ _ l v _ _ (d_mult _ _ l v _ _ DPL (D3 i j l Hi Hj Hl))
       (d_mult _ _ l v _ _ (d_scal (1 / 3) _ l v _ (d_mult _ _ l v _ _ DPL (D1 i j l Hi Hj Hl))) (k_trK _ _ HV l Hl)))].
    + eapply near_imp; [exact F|]. intros w (u' & d' & _ & E). rewrite E. reflexivity.
    + rewrite EA. cbn [a_KDDdD]. generalize (M v). intros; ring.
  - set (g := fun i j => p v * gammabarDD (M v) (V v) i j) in *.
    set (g' := fun i j k => 4 * p v * fst (ph v) k * gammabarDD (M v) (V v) i j + p v * gammabarDD_dD (M v) (V v) i j k) in *.
    assert (Sg : sym3 g) by (intros a c Ha Hc; unfold g; now rewrite (SG a c Ha Hc)).
    destruct (inv3_spec _ _ _ Sg EI) as (_ & _ & TS).
    assert (Sd : forall i j k, (i < 3)%nat -> (j < 3)%nat -> (k < 3)%nat -> g' i j k = g' j i k).
    { intros a c e Ha Hc He. unfold g'. now rewrite (SG a c Ha Hc), (GDS a c e Ha Hc He). }
    destruct (christoffel_compat g u g' TS Sg Sd) as (C1 & C2).
    rewrite EA. cbn [a_gammaUU a_gammaDD a_GammaUDD a_gammaDDdD]. split; [exact (proj2 (two_sided_r _ _ TS i j Hi Hj))|].
    split; [exact (C1 i j k Hi Hj Hk)|]. unfold cov_DD. rewrite (C2 i j k Hi Hj Hk). apply sub_self2.
Qed.

(** GammabarUDD is the connection of gammabarDD: symmetric, and gammabarDD is covariantly constant; no other connection is. *)
Theorem C62_connection : forall cs r V v u d, setting cs r V v -> inv3 (gammabarDD (ref_at r v) (V v)) = Ok (u, d) ->
  let g := gammabarDD (ref_at r v) (V v) in
  let gd := gammabarDD_dD (ref_at r v) (V v) in
  let Gam := GammabarUDD (ref_at r v) (V v) u in
  (forall i k l, (i < 3)%nat -> (k < 3)%nat -> (l < 3)%nat -> Gam i k l = Gam i l k) /\
  (forall i j l, (i < 3)%nat -> (j < 3)%nat -> (l < 3)%nat -> cov_DD Gam g gd i j l = 0) /\
  (forall Gam', (forall i k l, (i < 3)%nat -> (k < 3)%nat -> (l < 3)%nat -> Gam' i k l = Gam' i l k) ->
     (forall i j l, (i < 3)%nat -> (j < 3)%nat -> (l < 3)%nat -> cov_DD Gam' g gd i j l = 0) ->
     forall i k l, (i < 3)%nat -> (k < 3)%nat -> (l < 3)%nat -> Gam' i k l = Gam i k l).
Proof.
  intros cs r V v u d S E g gd Gam. pose proof (near_here _ _ (decl_gd_sym _ _ _ _ S)) as (_ & SG & _).
  destruct (inv3_spec _ _ _ SG E) as (_ & _ & TS). pose proof (gd_sym _ _ _ _ S) as GDS.
  destruct (christoffel_compat g u gd TS SG GDS) as (C1 & C2). split; [exact C1|]. split.
  - intros i j l Hi Hj Hl. unfold cov_DD. rewrite (C2 i j l Hi Hj Hl). apply sub_self2.
  - intros Gam' S' C'. apply (christoffel_unique g u gd TS SG Gam' S'). intros i j l Hi Hj Hl. specialize (C' i j l Hi Hj Hl).
    unfold cov_DD in C'. lra.
Qed.

(** The shift: as long as det gammabar = det gammahat, the contraction used in the right-hand sides is the divergence of beta with
    the connection of gammabar, its _dBarD is the gradient of it, and the three parts of Term 2 add up to the second covariant
    derivative of beta with the connection of the reference metric. *)
Theorem C62_shift : forall cs r V v u d, setting cs r V v -> near v (fun w => inv3 (gammabarDD (ref_at r w) (V w)) = Ok (u w, d w)) ->
  near v (fun w => det3 (gammabarDD (ref_at r w) (V w)) = h_det (ref_at r w)) ->
  let M := ref_at r in
  let D1 := fun w => cov_U (h_Gam (M w)) (betaU (M w) (V w)) (betaU_dD (M w) (V w)) in
  Dbarbetacontraction (M v) (V v) = s3 (fun k => cov_U (GammabarUDD (M v) (V v) (u v)) (betaU (M v) (V v)) (betaU_dD (M v) (V v)) k k) /\
  (forall l, (l < 3)%nat -> d_at (fun w => Dbarbetacontraction (M w) (V w)) l v (Dbarbetacontraction_dBarD (M v) (V v) l)) /\
  exists D1d, (forall i k j, (i < 3)%nat -> (k < 3)%nat -> (j < 3)%nat -> d_at (fun w => D1 w i k) j v (D1d i k j)) /\
    forall i j k, (i < 3)%nat -> (j < 3)%nat -> (k < 3)%nat ->
      betaU_dDD (M v) (V v) i k j + Term2bUDD (M v) (V v) i j k + Term2cUDD (M v) (V v) i j k = cov_UD (h_Gam (M v)) (D1 v) D1d i k j.
Proof.
  intros cs r V v u d S E ED M D1. pose proof (decl_gd_sym _ _ _ _ S) as N. pose proof (gd_sym _ _ _ _ S) as GDS.
  pose proof (near_here _ _ N) as (GE & SG & _). pose proof (near_here _ _ E) as E0. destruct (inv3_spec _ _ _ SG E0) as (D0 & N0 & TS).
  destruct S as [H G IN HV DC]. pose proof (ref_at_ok cs r v H G IN) as HM. fold M in E, ED, N, GDS, GE, SG, HM, TS, D0, E0.
  pose proof (e_pos _ GE) as DP. pose proof (near_here _ _ ED) as ED0.
  assert (SU : sym3 (u v)).
  { destruct (inv3_form _ _ E0) as [F1 _]. cbn [fst] in F1. rewrite F1. intros [|[|[|a]]] [|[|[|c]]] Ha Hc; try lia; reflexivity. }
  assert (TR : forall l, (l < 3)%nat -> h_detD (M v) l / (2 * h_det (M v)) = s3 (fun k => GammabarUDD (M v) (V v) (u v) k k l)).
  { intros l Hl. unfold GammabarUDD.
    rewrite (christoffel_trace _ (u v) (gammabarDD_dD (M v) (V v)) TS SU GDS l Hl).
    assert (X : h_detD (M v) l = det3 (gammabarDD (M v) (V v)) * s3 (fun a => s3 (fun c => u v a c * gammabarDD_dD (M v) (V v) a c l))).
    { apply (d_unique (fun w => h_det (M w)) l v); [exact (k_det _ _ HM l Hl)|].
      eapply d_ext; [exact Hl|exact ED|reflexivity|].
      apply (d_determinant (fun w => gammabarDD (M w) (V w)) u d (fun i j => gammabarDD_dD (M v) (V v) i j l) l v Hl).
      - eapply near_imp; [exact N|]. intros w (_ & X & _). exact X.
      - exact E.
      - intros i j Hi Hj. exact (d_gammabar M V v HM HV i j l Hi Hj Hl).
      - intros i j Hi Hj. exact (GDS i j l Hi Hj Hl). }
    rewrite X, ED0. field. lra. }
  split; [|split].
  - unfold Dbarbetacontraction, detgammabar_dD, detgammabar. rewrite s3_plus.
    unfold cov_U at 1. rewrite s3_plus. f_equal.
    rewrite (s3_ext _ (fun l => betaU (M v) (V v) l * (h_detD (M v) l / (2 * h_det (M v))))) by (intros l Hl; field; lra).
    rewrite (s3_ext _ (fun l => betaU (M v) (V v) l * s3 (fun k => GammabarUDD (M v) (V v) (u v) k k l))) by (intros l Hl; now rewrite TR).
    assert (SY : forall n k, (n < 3)%nat -> (k < 3)%nat -> GammabarUDD (M v) (V v) (u v) k n k = GammabarUDD (M v) (V v) (u v) k k n).
    { intros n k Hn Hk. exact (proj1 (christoffel_compat _ (u v) _ TS SG GDS) k n k Hk Hn Hk). }
    generalize dependent (GammabarUDD (M v) (V v) (u v)). intros Gam _ SY. rewrite !s3_eq.
    rewrite !(SY 1%nat 0%nat), !(SY 2%nat 0%nat), !(SY 0%nat 1%nat), !(SY 2%nat 1%nat), !(SY 0%nat 2%nat), !(SY 1%nat 2%nat) by lia. ring.
  - intros l Hl. apply (d_contr M V v HM HV l Hl). lra.
  - exists (fun i k j => betaU_dDD (M v) (V v) i k j + s3 (fun n => h_GamdD (M v) i n k j * betaU (M v) (V v) n + h_Gam (M v) i n k * betaU_dD (M v) (V v) n j)).
    split.
    + intros i k j Hi Hk Hj. unfold D1, cov_U. apply d_plus; [exact (d_beta2 M V v HM HV i k j Hi Hk Hj)|].
      apply (d_s3 (fun w n => h_Gam (M w) i n k * betaU (M w) (V w) n)). intros n Hn.
      apply d_mult; [exact (k_Gam _ _ HM i n k j Hi Hn Hk Hj)|exact (d_beta M V v HM HV n j Hn Hj)].
    + intros i j k Hi Hj Hk. unfold cov_UD, D1, cov_U, Term2bUDD, Term2cUDD.
      generalize (h_Gam (M v)) (h_GamdD (M v)) (betaU (M v) (V v)) (betaU_dD (M v) (V v)) (betaU_dDD (M v) (V v)).
      intros ga gd be bd bdd. rewrite !s3_eq. ring.
Qed.

(** *** Concrete fields: gammabar differs from gammahat, with the same determinant; nothing is constant *)
Definition kr (i j : nat) : R := if Nat.eqb i j then 1 else 0.
Definition ex_fields (w : env) : vars :=
  let x := exx w 0%nat in
  let y := exx w 1%nat in
  MkVars (fun i j => match i, j with 0, 0 => x * x | 0, 1 | 1, 0 => x | _, _ => 0 end)
    (fun i j => match i, j with 2, 2 => y | _, _ => 0 end) (fun i => kr i 1 * x) (fun i => kr i 0 * (x * y)) (fun _ => 0)
    y (1 + x * x) (1 + x * x)
    (fun i j k => match i, j with 0, 0 => 2 * x * kr k 0 | 0, 1 | 1, 0 => kr k 0 | _, _ => 0 end) (fun _ _ _ => 0)
    (fun i j k l => match i, j with 0, 0 => 2 * kr l 0 * kr k 0 | _, _ => 0 end)
    (fun i j k => match i, j with 2, 2 => kr k 1 | _, _ => 0 end) (fun _ _ _ => 0) (fun i k => kr i 1 * kr k 0) (fun _ _ => 0)
    (fun i k => kr i 0 * (kr k 0 * y + x * kr k 1)) (fun _ _ => 0) (fun i k l => kr i 0 * (kr k 0 * kr l 1 + kr l 0 * kr k 1))
    (fun k => 2 * x * kr k 0) (fun _ => 0) (fun k l => 2 * kr l 0 * kr k 0)
    (fun k => kr k 1) (fun _ => 0) (fun k => 2 * x * kr k 0) (fun k l => 2 * kr l 0 * kr k 0).
Lemma d_xx : forall i l v, d_at (fun w => exx w i) l v (kr l i).
Proof.
  intros i l v. unfold d_at, upd, kr. cbn [exx]. destruct (Nat.eqb_spec i l) as [->|N].
  - rewrite Nat.eqb_refl. apply derivable_pt_lim_id.
  - replace (Nat.eqb l i) with false by (symmetry; apply Nat.eqb_neq; congruence). apply derivable_pt_lim_const.
Qed.
Ltac dx := eapply d_eq; [intros; reflexivity| |repeat first [apply d_xx|apply d_const|eapply d_minus|eapply d_plus|eapply d_mult]]; cbn beta; ring.
Lemma ex_fields_ok : forall v, vars_ok ex_fields v.
Proof.
  intros v. constructor; intros; cbn;
    repeat match goal with
    | |- d_at (fun w => match ?i with O => _ | S _ => _ end) _ _ _ => destruct i; cbn
    end; dx.
Qed.
Lemma ex_fields_decl : forall w, declared (ex_fields w).
Proof.
  intros w. constructor.
  - intros [|[|[|i]]] [|[|[|j]]] Hi Hj; try lia; reflexivity.
  - intros [|[|[|i]]] [|[|[|j]]] Hi Hj; try lia; reflexivity.
  - intros [|[|[|i]]] [|[|[|j]]] k Hi Hj Hk; try lia; reflexivity.
  - intros [|[|[|i]]] [|[|[|j]]] k l Hi Hj Hk Hl; try lia; cbn; split; ring.
  - intros i j k Hi Hj Hk. cbn. ring.
  - intros i j Hi Hj. cbn. ring.
  - intros i j Hi Hj. cbn. ring.
Qed.
Lemma near_all : forall v (P : env -> Prop), (forall w, P w) -> near v P.
Proof. intros v P H. exists 1. split; [lra|auto]. Qed.
Lemma ex_setting : forall cs r v, reference_metric cs false = Ok r -> good (ep v) -> inside (r_coord r) v -> setting cs r ex_fields v.
Proof. intros cs r v H G I. constructor; auto; [apply ex_fields_ok|]. apply near_all. exact ex_fields_decl. Qed.
Lemma ex_det_alg : forall (s : nat -> R) (g : nat -> nat -> R) x, (forall i j, g i j = match i, j with 0, 0 => x * x | 0, 1 | 1, 0 => x | _, _ => 0 end * (s i * s j) + kr i j * (s i * s i)) ->
  det3 g = det3 (fun i j => kr i j * (s i * s i)).
Proof. intros s g x E. unfold leibniz, kr in *. cbn. rewrite !E. cbn. ring. Qed.
Lemma ex_det_one : forall r w, ref_geo (ref_at r w) -> det3 (gammabarDD (ref_at r w) (ex_fields w)) = h_det (ref_at r w).
Proof.
  intros r w E. rewrite (e_det _ E). rewrite (ex_det_alg (fun i => eval w (r_scale r i)) _ (exx w 0%nat)).
  - apply det3_ext. intros i j Hi Hj. change (h_g (ref_at r w) i j) with (eval w (ghatDD (r_scale r) i j)). rewrite ghat_val. unfold delta, kr.
    destruct (Nat.eqb i j); ring.
  - intros i j. unfold gammabarDD. change (h_g (ref_at r w) i j) with (eval w (ghatDD (r_scale r) i j)).
    change (h_ReDD (ref_at r w) i j) with (eval w (ReDD (r_scale r) i j)). rewrite ghat_val. unfold ReDD. rewrite eval_smul. unfold delta, kr.
    f_equal. destruct (Nat.eqb_spec i j) as [->|]; ring.
Qed.
Lemma ex_point : exists r v, reference_metric "SinhSymTP" false = Ok r /\ good (ep v) /\ inside (r_coord r) v.
Proof. apply C58_ex_point. cbn. tauto. Qed.
Lemma ex_inverse : forall cs r v, setting cs r ex_fields v ->
  exists u, near v (fun w => inv3 (gammabarDD (ref_at r w) (ex_fields w)) = Ok (u w, det3 (gammabarDD (ref_at r w) (ex_fields w)))).
Proof.
  intros cs r v S.
  exists (fun w => match inv3 (gammabarDD (ref_at r w) (ex_fields w)) with Ok p => fst p | Err _ => fun _ _ => 0 end).
  eapply near_imp; [exact (decl_gd_sym _ _ _ _ S)|]. intros w (E & SG & _).
  destruct (inv3_total _ SG) as (h & ->); [|reflexivity]. rewrite ex_det_one by exact E. pose proof (e_pos _ E). lra.
Qed.
Example ex_C62_tensors : exists cs r v, setting cs r ex_fields v /\ forall l, (l < 3)%nat ->
  d_at (fun w => gammabarDD (ref_at r w) (ex_fields w) 0%nat 1%nat) l v (gammabarDD_dD (ref_at r v) (ex_fields v) 0%nat 1%nat l).
Proof.
  destruct ex_point as (r & v & H & G & I). exists "SinhSymTP"%string, r, v. split; [now apply ex_setting|].
  intros l Hl. exact (proj1 (C62_tensors _ r ex_fields v (ex_setting _ r v H G I) 0%nat 1%nat 0%nat l ltac:(lia) ltac:(lia) ltac:(lia) Hl)).
Qed.
Example ex_C62_hatted : exists cs r v, setting cs r ex_fields v /\
  gammabarDD_dHatD (ref_at r v) (ex_fields v) 0%nat 1%nat 2%nat =
  cov_DD (h_Gam (ref_at r v)) (gammabarDD (ref_at r v) (ex_fields v)) (gammabarDD_dD (ref_at r v) (ex_fields v)) 0%nat 1%nat 2%nat.
Proof.
  destruct ex_point as (r & v & H & G & I). exists "SinhSymTP"%string, r, v. split; [now apply ex_setting|].
  exact (proj1 (C62_hatted _ r ex_fields v (ex_setting _ r v H G I) 0%nat 1%nat 2%nat 0%nat ltac:(lia) ltac:(lia) ltac:(lia) ltac:(lia))).
Qed.
Example ex_C62_phi : exists cs r v ph, setting cs r ex_fields v /\ (forall w, phi_part "W" (ex_fields w) = Ok (ph w)) /\
  d_at (fun w => - ln (1 + exx w 0%nat * exx w 0%nat) / 2) 0 v (phi_dD (ph v) 0%nat).
Proof.
  destruct ex_point as (r & v & H & G & I).
  destruct (C62_phi _ r ex_fields v "W"%string (ex_setting _ r v H G I)) as (ph & E & _ & D & _); [cbn; tauto|cbn; intros _; nra|].
  exists "SinhSymTP"%string, r, v, ph. split; [now apply ex_setting|]. split; [exact E|]. exact (D 0%nat ltac:(lia)).
Qed.
Example ex_C62_adm : exists cs r v A, setting cs r ex_fields v /\ near v (fun w => BSSN_to_ADM "chi" true (ref_at r w) (ex_fields w) = Ok (A w)) /\
  forall l, (l < 3)%nat -> d_at (fun w => a_KDD (A w) 0%nat 1%nat) l v (a_KDDdD (A v) 0%nat 1%nat l).
Proof.
  destruct ex_point as (r & v & H & G & I). pose proof (ex_setting _ r v H G I) as S.
  set (A := fun w => match BSSN_to_ADM "chi" true (ref_at r w) (ex_fields w) with Ok a => a
                     | Err _ => MkAdm (fun _ => 0) (fun _ _ => 0) (fun _ _ _ => 0) (fun _ _ _ _ => 0) (fun _ _ => 0) 0 (fun _ _ _ => 0) (fun _ _ => 0) (fun _ _ _ => 0) end).
  assert (N : near v (fun w => BSSN_to_ADM "chi" true (ref_at r w) (ex_fields w) = Ok (A w))).
  { eapply near_imp; [exact (decl_gd_sym _ _ _ _ S)|]. intros w (E & SG & SA). unfold A.
    assert (Q : 0 < 1 + exx w 0%nat * exx w 0%nat) by nra.
    destruct (to_adm "chi" (ref_at r w) (ex_fields w) (1 / (1 + exx w 0%nat * exx w 0%nat))) as (a & _ & _ & EA & _);
      [cbn; tauto| |reflexivity| | |rewrite EA; reflexivity].
    - split; [exact (e_sym _ E)|]. split; [exact (e_ReDDsym _ E)|]. split; [exact (y_h _ (ex_fields_decl w))|exact (y_a _ (ex_fields_decl w))].
    - apply Rgt_not_eq. apply Rdiv_lt_0_compat; lra.
    - rewrite ex_det_one by exact E. pose proof (e_pos _ E). lra. }
  exists "SinhSymTP"%string, r, v, A. split; [exact S|]. split; [exact N|]. intros l Hl.
  destruct (C62_adm _ r ex_fields v "chi"%string A S ltac:(cbn; tauto) ltac:(intros _; cbn; nra) N 0%nat 1%nat 0%nat l ltac:(lia) ltac:(lia) ltac:(lia) Hl) as (_ & _ & X & _).
  exact X.
Qed.
Example ex_C62_connection : exists cs r v u d, setting cs r ex_fields v /\ inv3 (gammabarDD (ref_at r v) (ex_fields v)) = Ok (u, d) /\
  cov_DD (GammabarUDD (ref_at r v) (ex_fields v) u) (gammabarDD (ref_at r v) (ex_fields v)) (gammabarDD_dD (ref_at r v) (ex_fields v)) 0%nat 1%nat 0%nat = 0.
Proof.
  destruct ex_point as (r & v & H & G & I). pose proof (ex_setting _ r v H G I) as S. destruct (ex_inverse _ _ _ S) as (u & N).
  exists "SinhSymTP"%string, r, v, (u v), (det3 (gammabarDD (ref_at r v) (ex_fields v))). split; [exact S|]. split; [exact (near_here _ _ N)|].
  destruct (C62_connection _ r ex_fields v _ _ S (near_here _ _ N)) as (_ & X & _). exact (X 0%nat 1%nat 0%nat ltac:(lia) ltac:(lia) ltac:(lia)).
Qed.
Example ex_C62_shift : exists cs r v u, setting cs r ex_fields v /\
  Dbarbetacontraction (ref_at r v) (ex_fields v) =
  s3 (fun k => cov_U (GammabarUDD (ref_at r v) (ex_fields v) u) (betaU (ref_at r v) (ex_fields v)) (betaU_dD (ref_at r v) (ex_fields v)) k k).
Proof.
  destruct ex_point as (r & v & H & G & I). pose proof (ex_setting _ r v H G I) as S. destruct (ex_inverse _ _ _ S) as (u & N).
  exists "SinhSymTP"%string, r, v, (u v). split; [exact S|].
  destruct (C62_shift _ r ex_fields v u _ S N) as (X & _); [|exact X].
  eapply near_imp; [exact (decl_gd_sym _ _ _ _ S)|]. intros w (E & _). exact (ex_det_one r w E).
Qed.

Print Assumptions C62_tensors.
Print Assumptions C62_hatted.
Print Assumptions C62_phi.
Print Assumptions C62_adm.
Print Assumptions C62_connection.
Print Assumptions C62_shift.
