(** The gauge conditions of BSSN_gauge_RHSs.py: what the lapse and the shift do in time, and what a call leaves behind. *)
From Coq Require Import String List Arith Bool Lia Reals Lra.
From Verif Require Import PyBase Inverter InverterFacts GRMetric Grid RefMetric RefMetricReal RefMetricFacts RefMetricFlat PropRefMetric BSSN BSSNFacts BSSNCalc BSSNGeo BSSNInv BSSNConn PropBSSNConv PropBSSNDeriv BSSNRicci BSSNRicciFacts PropBSSNRicci BSSNEvolAlg BSSNPhys BSSNTime PropBSSNEvol BSSNEvolEx BSSNGauge BSSNGaugeFacts.
Import ListNotations.
Local Open Scope R_scope.

(** A point [v] with fields [V] around it; the symbols that a call of BSSN_gauge_RHSs uses have the values of these fields and of
    their derivatives at [v], the upwinded ones too *)
Record gauge_at (cs : string) (r : rfm) (V : env -> vars) (v : env) (x : gauge_in) : Prop := MkGat {
  ga_setting : setting cs r V v; ga_m : i_m x = ref_at r v; ga_b : i_b x = V v;
  ga_vet : forall i l, v_vet_dupD (V v) i l = v_vet_dD (V v) i l; ga_lam : forall i l, v_lam_dupD (V v) i l = v_lam_dD (V v) i l;
  ga_bet : forall i l, (i < 3)%nat -> (l < 3)%nat -> d_at (fun w => v_bet (V w) i) l v (i_betU_dupD x i l);
  ga_alpha : forall l, (l < 3)%nat -> d_at (fun w => v_alpha (V w)) l v (i_alpha_dupD x l) }.
(** The variables [X] at the point depend on time and change at the rates of the two modules *)
Record gauge_flows (g : gauge) (rh : rhss) (b : vars) (X : R -> vars) : Prop := MkGflow {
  gf_start : X 0 = b;
  gf_alpha : derivable_pt_lim (fun t => v_alpha (X t)) 0 (g_alpha g);
  gf_vet : forall i, (i < 3)%nat -> derivable_pt_lim (fun t => v_vet (X t) i) 0 (g_vet g i);
  gf_bet : forall i, (i < 3)%nat -> derivable_pt_lim (fun t => v_bet (X t) i) 0 (g_bet g i);
  gf_lam : forall i, (i < 3)%nat -> derivable_pt_lim (fun t => v_lam (X t) i) 0 (r_lambda rh i) }.
(** [Gam] is the connection of the metric [g] with derivatives [gd] *)
Definition levi_civita (g : nat -> nat -> R) (gd : nat -> nat -> nat -> R) (Gam : nat -> nat -> nat -> R) : Prop :=
  (forall i k l, (i < 3)%nat -> (k < 3)%nat -> (l < 3)%nat -> Gam i k l = Gam i l k) /\
  (forall i j l, (i < 3)%nat -> (j < 3)%nat -> (l < 3)%nat -> cov_DD Gam g gd i j l = 0).
(** The derivative that each option is named after *)
Inductive driven (m : refm) (b : vars) (hatted barred : string) : string -> (nat -> nat -> nat -> R) -> Prop :=
  | dr_bar : forall Gam, levi_civita (gammabarDD m b) (gammabarDD_dD m b) Gam -> driven m b hatted barred barred Gam
  | dr_hat : forall Gam, levi_civita (h_g m) (h_gD m) Gam -> driven m b hatted barred hatted Gam.
Definition second_order (m : refm) (b : vars) (shift : string) (Gam : nat -> nat -> nat -> R) : Prop :=
  driven m b "GammaDriving2ndOrder_Covariant__Hatted" "GammaDriving2ndOrder_Covariant" shift Gam \/
  shift = "GammaDriving2ndOrder_NoCovariant"%string /\ Gam = no_conn.
Definition first_order (m : refm) (b : vars) : string -> (nat -> nat -> nat -> R) -> Prop :=
  driven m b "GammaDriving1stOrder_Covariant__Hatted" "GammaDriving1stOrder_Covariant".
(** B^i - 3/4 Lambdabar^i + eta beta^i *)
Definition drive (eta : R) (m : refm) (b : vars) (i : nat) : R := BU m b i - 3 / 4 * LambdabarU m b i + eta * betaU m b i.

(** ** Lemmas *)
Lemma lc_bar : forall cs r V v u d Gam, setting cs r V v -> inv3 (gammabarDD (ref_at r v) (V v)) = Ok (u, d) ->
  levi_civita (gammabarDD (ref_at r v) (V v)) (gammabarDD_dD (ref_at r v) (V v)) Gam ->
  forall i k l, (i < 3)%nat -> (k < 3)%nat -> (l < 3)%nat -> Gam i k l = GammabarUDD (ref_at r v) (V v) u i k l.
Proof. intros cs r V v u d Gam S I (L1 & L2). exact (proj2 (proj2 (C62_connection cs r V v u d S I)) Gam L1 L2). Qed.
Lemma lc_hat : forall m Gam, ref_geo m -> levi_civita (h_g m) (h_gD m) Gam ->
  forall i k l, (i < 3)%nat -> (k < 3)%nat -> (l < 3)%nat -> Gam i k l = h_Gam m i k l.
Proof.
  intros m Gam GE (L1 & L2) i k l Hi Hk Hl. pose proof (e_sym _ GE) as SG.
  assert (ND : det3 (h_g m) <> 0) by (rewrite <- (e_det _ GE); pose proof (e_pos _ GE); lra).
  destruct (inv3_total _ SG ND) as (u & I). destruct (inv3_spec _ _ _ SG I) as (_ & _ & TS).
  rewrite (christoffel_unique _ u (h_gD m) TS SG Gam L1); [|intros a c e Ha Hc He; specialize (L2 a c e Ha Hc He); unfold cov_DD in L2; lra|assumption..].
  symmetry. apply (christoffel_unique _ u (h_gD m) TS SG (h_Gam m) (e_Gam _ GE)); [exact (e_compat _ GE)|assumption..].
Qed.
Lemma adv_ext : forall be G1 G2 T1 T2 D1 D2 i, (i < 3)%nat -> (forall n l, (n < 3)%nat -> (l < 3)%nat -> G1 i n l = G2 i n l) -> (forall n, (n < 3)%nat -> T1 n = T2 n) ->
  (forall l, (l < 3)%nat -> D1 i l = D2 i l) -> adv be G1 T1 D1 i = adv be G2 T2 D2 i.
Proof.
  intros be G1 G2 T1 T2 D1 D2 i Hi EG ET ED. unfold adv. apply s3_ext. intros j Hj. f_equal. unfold cov_U. rewrite (ED j Hj). f_equal.
  apply s3_ext. intros n Hn. now rewrite (EG n j Hn Hj), (ET n Hn).
Qed.
Lemma scaled_flow : forall (f : R -> R) (k y : R), k <> 0 -> derivable_pt_lim f 0 (y / k) -> derivable_pt_lim (fun t => f t * k) 0 y.
Proof.
  intros f k y NZ D. apply d_t. eapply d_eq; [intros w; reflexivity| |exact (d_mult _ _ 0 t0 _ _ (t_d f _ D) (d_const k 0 t0))]. cbn beta. field. exact NZ.
Qed.
Lemma key_clear : forall k shift st, (forall i, st k i = false) -> shift <> "Frozen"%string -> forall i, cache_after k shift st k i = false.
Proof. intros k shift st H N i. unfold cache_after. destruct (String.eqb_spec shift "Frozen"); [contradiction|apply H]. Qed.

Section Flow.
Variables (cs : string) (r : rfm) (V : env -> vars) (v : env) (x : gauge_in) (nm cs' : string) (pre : bool) (lapse shift : string) (st st' : bq_cache) (g : gauge) (rh : rhss) (X : R -> vars).
Hypothesis GA : gauge_at cs r V v x.
Hypothesis E : BSSN_gauge_RHSs nm true cs' pre lapse shift x st = Ok (g, st').
Hypothesis ER : BSSN_RHSs nm true None (i_src x) (ref_at r v) (V v) = Ok rh.
Hypothesis FL : gauge_flows g rh (V v) X.
Lemma gf_form : exists u d, inv3 (gammabarDD (ref_at r v) (V v)) = Ok (u, d) /\ In shift shift_options /\
  let B := fun i => if cache_after (bq_key cs' pre) shift st (bq_key cs' pre) i then 0 else BU (ref_at r v) (V v) i in
  forall i, (i < 3)%nat -> derivable_pt_lim (fun t => betaU (ref_at r v) (X t) i) 0 (fst (shift_rhs x rh u B shift) i) /\
  derivable_pt_lim (fun t => BU (ref_at r v) (X t) i) 0 (snd (shift_rhs x rh u B shift) i) /\
  derivable_pt_lim (fun t => LambdabarU (ref_at r v) (X t) i) 0 (r_Lambdabar rh i).
Proof using GA E ER FL.
  destruct GA as [S EM EB UV UL UB UA]. destruct (gauge_ok _ _ _ _ _ _ _ _ _ E) as (u & d & rh' & a & I & R' & LA & SI & ES & F). cbn zeta in F. destruct F as (_ & F1 & F2).
  rewrite EM, EB in I, R', F1, F2. rewrite ER in R'. apply ok_inj in R'. subst rh'. subst st'.
  pose proof (near_here _ _ (decl_gd_sym _ _ _ _ S)) as (GE & _).
  exists u, d. split; [exact I|]. split; [exact SI|]. cbn zeta. intros i Hi. pose proof (e_ReU _ GE i Hi) as NZ.
  split; [|split].
  - apply (scaled_flow (fun t => v_vet (X t) i)); [exact NZ|]. rewrite <- F1. exact (gf_vet _ _ _ _ FL i Hi).
  - apply (scaled_flow (fun t => v_bet (X t) i)); [exact NZ|]. rewrite <- F2. exact (gf_bet _ _ _ _ FL i Hi).
  - apply (scaled_flow (fun t => v_lam (X t) i)); [exact NZ|]. pose proof (gf_lam _ _ _ _ FL i Hi) as L.
    unfold BSSN_RHSs in ER. destruct (bssn_quantities nm true None (ref_at r v) (V v)) as [q|]; [|discriminate]. cbn [py_bind] in ER.
    destruct (cf_rhs (ref_at r v) (V v) q nm) as [c|]; [|discriminate]. cbn [py_bind] in ER.
    destruct (i_src x) as [[[sK sA] sL]|]; apply ok_inj in ER; rewrite <- ER in L |- *; exact L.
Qed.
Lemma d_B : forall i l, (i < 3)%nat -> (l < 3)%nat -> d_at (fun w => BU (ref_at r w) (V w) i) l v (BU_dupD x i l).
Proof using GA.
  intros i l Hi Hl. destruct GA as [S EM EB UV UL UB UA]. pose proof (ref_at_ok _ r v (s_rm _ _ _ _ S) (s_good _ _ _ _ S) (s_inside _ _ _ _ S)) as HM.
  unfold BU, BU_dupD. rewrite EM, EB. exact (d_mult _ _ l v _ _ (UB i l Hi Hl) (k_ReU _ _ HM i l Hi Hl)).
Qed.
Lemma d_lam : forall i l, (i < 3)%nat -> (l < 3)%nat -> d_at (fun w => LambdabarU (ref_at r w) (V w) i) l v (LambdabarU_dupD (ref_at r v) (V v) i l).
Proof using GA. intros i l Hi Hl. destruct GA as [S EM EB UV UL UB UA]. destruct (C62_tensors _ _ _ _ S i i i l Hi Hi Hi Hl) as (_ & _ & _ & _ & _ & _ & _ & _ & H). now apply H. Qed.
Lemma d_bet : forall i l, (i < 3)%nat -> (l < 3)%nat -> d_at (fun w => betaU (ref_at r w) (V w) i) l v (betaU_dupD (ref_at r v) (V v) i l).
Proof using GA.
  intros i l Hi Hl. destruct GA as [S EM EB UV UL UB UA]. destruct (C62_tensors _ _ _ _ S i i i l Hi Hi Hi Hl) as (_ & _ & _ & D & _ & _ & _ & H & _). rewrite (H UV). exact D.
Qed.
Lemma d_drive : forall i l, (i < 3)%nat -> (l < 3)%nat -> d_at (fun w => drive (i_eta x) (ref_at r w) (V w) i) l v
  (BU_dupD x i l - 3 / 4 * LambdabarU_dupD (ref_at r v) (V v) i l + i_eta x * betaU_dupD (ref_at r v) (V v) i l).
Proof using GA. intros i l Hi Hl. exact (d_plus _ _ l v _ _ (d_minus _ _ l v _ _ (d_B i l Hi Hl) (d_scal (3 / 4) _ l v _ (d_lam i l Hi Hl))) (d_scal (i_eta x) _ l v _ (d_bet i l Hi Hl))). Qed.
Lemma t_drive : forall i b1 b2 b3, derivable_pt_lim (fun t => betaU (ref_at r v) (X t) i) 0 b1 -> derivable_pt_lim (fun t => BU (ref_at r v) (X t) i) 0 b2 ->
  derivable_pt_lim (fun t => LambdabarU (ref_at r v) (X t) i) 0 b3 -> derivable_pt_lim (fun t => drive (i_eta x) (ref_at r v) (X t) i) 0 (b2 - 3 / 4 * b3 + i_eta x * b1).
Proof using.
  intros i b1 b2 b3 D1 D2 D3. apply d_t. exact (d_plus _ _ 0 t0 _ _ (d_minus _ _ 0 t0 _ _ (t_d _ _ D2) (d_scal (3 / 4) _ 0 t0 _ (t_d _ _ D3))) (d_scal (i_eta x) _ 0 t0 _ (t_d _ _ D1))).
Qed.
End Flow.

(** ** The Gamma-driving shift conditions *)
(** Second order: the shift is driven by B, and B - 3/4 Lambdabar + eta beta is carried along beta without change, both with the
    derivative that the option is named after (partial, of gammabar, of the reference metric). *)
Theorem C68_second_order : forall cs r V v x nm cs' pre lapse shift st st' g rh X Gam, gauge_at cs r V v x ->
  BSSN_gauge_RHSs nm true cs' pre lapse shift x st = Ok (g, st') -> (forall i, st (bq_key cs' pre) i = false) ->
  BSSN_RHSs nm true None (i_src x) (ref_at r v) (V v) = Ok rh -> gauge_flows g rh (V v) X ->
  second_order (ref_at r v) (V v) shift Gam ->
  forall dbeta dQ, (forall i l, (i < 3)%nat -> (l < 3)%nat -> d_at (fun w => betaU (ref_at r w) (V w) i) l v (dbeta i l)) ->
    (forall i l, (i < 3)%nat -> (l < 3)%nat -> d_at (fun w => drive (i_eta x) (ref_at r w) (V w) i) l v (dQ i l)) ->
  let beta := betaU (ref_at r v) (V v) in
  forall i, (i < 3)%nat ->
  derivable_pt_lim (fun t => betaU (ref_at r v) (X t) i) 0 (s3 (fun j => beta j * cov_U Gam beta dbeta i j) + BU (ref_at r v) (V v) i) /\
  derivable_pt_lim (fun t => drive (i_eta x) (ref_at r v) (X t) i) 0 (s3 (fun j => beta j * cov_U Gam (drive (i_eta x) (ref_at r v) (V v)) dQ i j)).
Proof.
  intros cs r V v x nm cs' pre lapse shift st st' g rh X Gam GA E CL ER FL SO dbeta dQ DB DQ beta i Hi.
  destruct (gf_form cs r V v x nm cs' pre lapse shift st st' g rh X GA E ER FL) as (u & d & I & _ & F). cbn zeta in F.
  pose proof GA as [S EM EB UV UL UB UA]. pose proof (near_here _ _ (decl_gd_sym _ _ _ _ S)) as (GE & _).
  set (B := fun j => if cache_after (bq_key cs' pre) shift st (bq_key cs' pre) j then 0 else BU (ref_at r v) (V v) j) in *.
  assert (K : exists Gam0, (forall n l, (n < 3)%nat -> (l < 3)%nat -> Gam0 i n l = Gam i n l) /\ second x rh B Gam0 (shift_rhs x rh u B shift) /\ shift <> "Frozen"%string).
  { destruct SO as [SO|(-> & ->)]; [|exists no_conn; split; [reflexivity|]; split; [apply sh_nocov|discriminate]].
    destruct SO as [G0 L|G0 L].
    - exists (GammabarUDD (i_m x) (i_b x) u). split; [intros n l Hn Hl; rewrite EM, EB; symmetry; exact (lc_bar cs r V v u d G0 S I L i n l Hi Hn Hl)|]. split; [apply sh_cov|discriminate].
    - exists (h_Gam (i_m x)). split; [intros n l Hn Hl; rewrite EM; symmetry; exact (lc_hat _ _ GE L i n l Hi Hn Hl)|]. split; [apply sh_hat|discriminate]. }
  destruct K as (Gam0 & EG & SE & NF). pose proof (key_clear _ shift st CL NF) as KC.
  assert (EBU : forall n, B n = BU (ref_at r v) (V v) n) by (intros n; unfold B; now rewrite KC).
  destruct (F i Hi) as (F1 & F2 & F3). destruct (SE i) as (E1 & E2). rewrite E1 in F1. rewrite E2 in F2. rewrite EM, EB in F1, F2. rewrite (EBU i) in F1, F2.
  assert (EDB : forall l, (l < 3)%nat -> dbeta i l = betaU_dupD (ref_at r v) (V v) i l).
  { intros l Hl. exact (d_unique _ _ _ _ _ (DB i l Hi Hl) (d_bet _ _ _ _ _ GA i l Hi Hl)). }
  split.
  - change (s3 (fun j => beta j * cov_U Gam beta dbeta i j)) with (adv beta Gam beta dbeta i).
    rewrite (adv_ext beta Gam Gam0 beta beta dbeta (betaU_dupD (ref_at r v) (V v)) i Hi); [exact F1|intros; symmetry; now apply EG|reflexivity|exact EDB].
  - pose proof (t_drive r v x X i _ _ _ F1 F2 F3) as D. 
    replace (s3 (fun j => beta j * cov_U Gam (drive (i_eta x) (ref_at r v) (V v)) dQ i j)) with
      (adv beta Gam0 (drive (i_eta x) (ref_at r v) (V v)) (fun i l => BU_dupD x i l - 3 / 4 * LambdabarU_dupD (ref_at r v) (V v) i l + i_eta x * betaU_dupD (ref_at r v) (V v) i l) i).
    + eapply eq_ind; [exact D|]. unfold adv, cov_U, drive. rewrite !s3_eq. fold beta. rewrite !EBU. ring.
    + symmetry. change (s3 (fun j => beta j * cov_U Gam (drive (i_eta x) (ref_at r v) (V v)) dQ i j)) with (adv beta Gam (drive (i_eta x) (ref_at r v) (V v)) dQ i).
      apply adv_ext; [exact Hi|intros; symmetry; now apply EG|reflexivity|]. intros l Hl.
      exact (d_unique _ _ _ _ _ (DQ i l Hi Hl) (d_drive _ _ _ _ _ GA i l Hi Hl)).
Qed.
(** First order: the shift itself is driven by Lambdabar and damped; B does not change. *)
Theorem C68_first_order : forall cs r V v x nm cs' pre lapse shift st st' g rh X Gam, gauge_at cs r V v x ->
  BSSN_gauge_RHSs nm true cs' pre lapse shift x st = Ok (g, st') ->
  BSSN_RHSs nm true None (i_src x) (ref_at r v) (V v) = Ok rh -> gauge_flows g rh (V v) X ->
  first_order (ref_at r v) (V v) shift Gam ->
  forall dbeta, (forall i l, (i < 3)%nat -> (l < 3)%nat -> d_at (fun w => betaU (ref_at r w) (V w) i) l v (dbeta i l)) ->
  let beta := betaU (ref_at r v) (V v) in
  forall i, (i < 3)%nat ->
  derivable_pt_lim (fun t => betaU (ref_at r v) (X t) i) 0 (s3 (fun j => beta j * cov_U Gam beta dbeta i j) + 3 / 4 * LambdabarU (ref_at r v) (V v) i - i_eta x * beta i) /\
  derivable_pt_lim (fun t => BU (ref_at r v) (X t) i) 0 0.
Proof.
  intros cs r V v x nm cs' pre lapse shift st st' g rh X Gam GA E ER FL SO dbeta DB beta i Hi.
  destruct (gf_form cs r V v x nm cs' pre lapse shift st st' g rh X GA E ER FL) as (u & d & I & _ & F). cbn zeta in F.
  pose proof GA as [S EM EB UV UL UB UA]. pose proof (near_here _ _ (decl_gd_sym _ _ _ _ S)) as (GE & _).
  set (B := fun j => if cache_after (bq_key cs' pre) shift st (bq_key cs' pre) j then 0 else BU (ref_at r v) (V v) j) in *.
  assert (K : exists Gam0, (forall n l, (n < 3)%nat -> (l < 3)%nat -> Gam0 i n l = Gam i n l) /\ first x Gam0 (shift_rhs x rh u B shift)).
  { destruct SO as [G0 L|G0 L].
    - exists (GammabarUDD (i_m x) (i_b x) u). split; [intros n l Hn Hl; rewrite EM, EB; symmetry; exact (lc_bar cs r V v u d G0 S I L i n l Hi Hn Hl)|]. apply sh_cov1.
    - exists (h_Gam (i_m x)). split; [intros n l Hn Hl; rewrite EM; symmetry; exact (lc_hat _ _ GE L i n l Hi Hn Hl)|]. apply sh_hat1. }
  destruct K as (Gam0 & EG & SE).
  destruct (F i Hi) as (F1 & F2 & _). destruct (SE i) as (E1 & E2). rewrite E1 in F1. rewrite E2 in F2. rewrite EM, EB in F1. split; [|exact F2].
  change (s3 (fun j => beta j * cov_U Gam beta dbeta i j)) with (adv beta Gam beta dbeta i).
  rewrite (adv_ext beta Gam Gam0 beta beta dbeta (betaU_dupD (ref_at r v) (V v)) i Hi); [exact F1|intros; symmetry; now apply EG|reflexivity|].
  intros l Hl. exact (d_unique _ _ _ _ _ (DB i l Hi Hl) (d_bet _ _ _ _ _ GA i l Hi Hl)).
Qed.
(** Without advection the same holds with no derivative at all; a frozen shift stays, and so does B. *)
Theorem C68_other_shifts : forall cs r V v x nm cs' pre lapse shift st st' g rh X, gauge_at cs r V v x ->
  BSSN_gauge_RHSs nm true cs' pre lapse shift x st = Ok (g, st') ->
  BSSN_RHSs nm true None (i_src x) (ref_at r v) (V v) = Ok rh -> gauge_flows g rh (V v) X -> forall i, (i < 3)%nat ->
  (shift = "NonAdvectingGammaDriving"%string -> (forall n, st (bq_key cs' pre) n = false) ->
     derivable_pt_lim (fun t => betaU (ref_at r v) (X t) i) 0 (BU (ref_at r v) (V v) i) /\
     derivable_pt_lim (fun t => drive (i_eta x) (ref_at r v) (X t) i) 0 0) /\
  (shift = "Frozen"%string -> derivable_pt_lim (fun t => betaU (ref_at r v) (X t) i) 0 0 /\ derivable_pt_lim (fun t => BU (ref_at r v) (X t) i) 0 0).
Proof.
  intros cs r V v x nm cs' pre lapse shift st st' g rh X GA E ER FL i Hi.
  destruct (gf_form cs r V v x nm cs' pre lapse shift st st' g rh X GA E ER FL) as (u & d & I & _ & F). cbn zeta in F.
  destruct (F i Hi) as (F1 & F2 & F3). split.
  - intros -> CL. match type of F1 with context [shift_rhs x rh u ?B0 _] => destruct (sh_nonadv x rh u B0 i) as (E1 & E2) end. rewrite E1 in F1. rewrite E2 in F2.
    rewrite (key_clear _ "NonAdvectingGammaDriving"%string st CL ltac:(discriminate)) in F1, F2. split; [exact F1|].
    pose proof (t_drive r v x X i _ _ _ F1 F2 F3) as D. eapply eq_ind; [exact D|]. ring.
  - intros ->. match type of F1 with context [shift_rhs x rh u ?B0 _] => destruct (sh_frozen x rh u B0 i) as (E1 & E2) end. rewrite E1 in F1. rewrite E2 in F2. split; assumption.
Qed.

(** ** The lapse conditions *)
Theorem C68_lapse : forall cs r V v x nm cs' pre lapse shift st st' g rh X, gauge_at cs r V v x ->
  BSSN_gauge_RHSs nm true cs' pre lapse shift x st = Ok (g, st') -> gauge_flows g rh (V v) X ->
  forall dalpha, (forall l, (l < 3)%nat -> d_at (fun w => v_alpha (V w)) l v (dalpha l)) ->
  let alpha := v_alpha (V v) in
  let K := v_trK (V v) in
  let transport := s3 (fun k => betaU (ref_at r v) (V v) k * dalpha k) in
  (lapse = "OnePlusLog"%string -> derivable_pt_lim (fun t => v_alpha (X t)) 0 (transport - 2 * alpha * K)) /\
  (lapse = "OnePlusLogAlt"%string -> derivable_pt_lim (fun t => v_alpha (X t)) 0 (transport - alpha * (1 - alpha) * K)) /\
  (lapse = "Frozen"%string -> derivable_pt_lim (fun t => v_alpha (X t)) 0 0).
Proof.
  intros cs r V v x nm cs' pre lapse shift st st' g rh X GA E FL dalpha DA alpha K transport.
  destruct GA as [S EM EB UV UL UB UA]. destruct (gauge_ok _ _ _ _ _ _ _ _ _ E) as (u & d & rh' & a & I & R' & LA & _ & _ & F). cbn zeta in F. destruct F as (EA & _).
  pose proof (gf_alpha _ _ _ _ FL) as D. rewrite EA in D.
  assert (T : transport = s3 (fun k => betaU (i_m x) (i_b x) k * i_alpha_dupD x k)).
  { unfold transport. apply s3_ext. intros k Hk. rewrite EM, EB. f_equal. exact (d_unique _ _ _ _ _ (DA k Hk) (UA k Hk)). }
  rewrite T. unfold alpha, K. rewrite <- EB. unfold lapse_rhs, advect_alpha in LA.
  repeat split; intros ->; cbn [String.eqb Ascii.eqb Bool.eqb] in LA; apply ok_inj in LA; rewrite <- LA in D; [eapply eq_ind; [exact D|]; ring|eapply eq_ind; [exact D|]; ring|exact D].
Qed.
(** Harmonic slicing: the lapse follows the volume element of the physical metric relative to the reference metric. *)
Lemma sqrt_flow : forall (F : R -> R) f e, F 0 = e * e -> 0 < e -> derivable_pt_lim F 0 f -> derivable_pt_lim (fun t => sqrt (F t)) 0 (f / (2 * e)).
Proof.
  intros F f e E0 P D. pose proof (derivable_pt_lim_sqrt (F 0)) as SQ. rewrite E0 in SQ. specialize (SQ ltac:(nra)).
  replace (f / (2 * e)) with (/ (2 * sqrt (e * e)) * f) by (rewrite (sqrt_square e) by lra; field; lra).
  apply (derivable_pt_lim_comp F sqrt); [exact D|]. rewrite E0. exact SQ.
Qed.
Theorem C68_harmonic : forall cs r V v x nm cs' pre shift st st' g rh X A, gauge_at cs r V v x -> centred (V v) ->
  near v (fun w => det3 (gammabarDD (ref_at r w) (V w)) = h_det (ref_at r w)) ->
  BSSN_gauge_RHSs nm true cs' pre "HarmonicSlicing" shift x st = Ok (g, st') -> (nm = "W"%string -> 0 < v_cf (V v)) ->
  BSSN_RHSs nm true None (i_src x) (ref_at r v) (V v) = Ok rh -> gauge_flows g rh (V v) X -> flows rh (V v) X ->
  near0 (fun t => BSSN_to_ADM nm true (ref_at r v) (X t) = Ok (A t)) ->
  derivable_pt_lim (fun t => v_alpha (X t) - sqrt (det3 (a_gammaDD (A t)) / h_det (ref_at r v))) 0 0.
Proof.
  intros cs r V v x nm cs' pre shift st st' g rh X A GA C ND E CF ER FG FL NA.
  destruct GA as [S EM EB UV UL UB UA]. destruct (gauge_ok _ _ _ _ _ _ _ _ _ E) as (u & d & rh' & a & I & R' & LA & _ & _ & F). cbn zeta in F. destruct F as (EA & _).
  rewrite EM, EB in R'. rewrite ER in R'. apply ok_inj in R'. subst rh'.
  pose proof (gf_alpha _ _ _ _ FG) as D. rewrite EA in D.
  pose proof (near_here _ _ (decl_gd_sym _ _ _ _ S)) as (GE & _). pose proof (e_pos _ GE) as HP.
  pose proof (C64_determinant _ _ _ _ _ _ _ _ _ S ND C ER FL) as DD. pose proof (near_here _ _ ND) as D0. cbn beta in D0.
  assert (NM : nm = "W"%string \/ nm = "phi"%string).
  { unfold lapse_rhs in LA. cbn [String.eqb Ascii.eqb Bool.eqb] in LA. destruct (String.eqb_spec nm "W"); [now left|]. destruct (String.eqb_spec nm "phi"); [now right|discriminate]. }
  destruct (rhs_form _ _ _ _ _ _ ER) as (u1 & d1 & ps & I1 & _ & Q). cbn zeta in Q. destruct Q as (_ & QC & _).
  match type of QC with cf_rhs _ _ ?q _ = _ => set (q0 := q) in * end.
  assert (IN : In nm cf_names) by (destruct NM as [-> | ->]; cbn; tauto). destruct (names_total nm IN) as (p & ph & pp & TOT).
  pose proof (t_e _ _ _ _ _ _ FL QC (fun t => p (X t)) (fun t => proj1 (TOT (X t)))) as DP. cbn beta in DP.
  assert (NZ : nm <> "phi"%string -> v_cf (V v) <> 0) by (intros N; destruct NM as [M|M]; [specialize (CF M); lra|contradiction]). specialize (DP NZ).
  rewrite (f_start _ _ _ FL) in DP.
  set (m := ref_at r v) in *. set (b := V v) in *.
  assert (NG : near0 (fun t => det3 (a_gammaDD (A t)) / h_det m = p (X t) * p (X t) * p (X t) * det3 (gammabarDD m (X t)) / h_det m)).
  { eapply near0_imp; [exact NA|]. intros t Et. cbn beta. rewrite <- det3_scale. f_equal.
    unfold BSSN_to_ADM in Et. destruct (bssn_quantities nm true None m (X t)) as [q|]; [|discriminate]. cbn [py_bind] in Et.
    destruct (TOT (X t)) as (T1 & T2 & _). rewrite T1 in Et. cbn [py_bind] in Et. rewrite T2 in Et. cbn [py_bind] in Et.
    match type of Et with py_bind ?y _ = _ => destruct y as [[u2 d2]|]; [|discriminate] end. cbn [py_bind] in Et. apply ok_inj in Et. rewrite <- Et. reflexivity. }
  assert (DG : derivable_pt_lim (fun t => p (X t) * p (X t) * p (X t) * det3 (gammabarDD m (X t)) / h_det m) 0 (12 * (p b * p b * p b) * phi_rhs m b q0)).
  { apply d_t. eapply d_eq; [intros w; reflexivity| |exact (d_mult _ _ 0 t0 _ _ (d_mult _ _ 0 t0 _ _ (d_mult _ _ 0 t0 _ _ (d_mult _ _ 0 t0 _ _ (t_d _ _ DP) (t_d _ _ DP)) (t_d _ _ DP)) (t_d _ _ DD)) (d_const (/ h_det m) 0 t0))].
    cbn beta. change (exx t0 0%nat) with 0. rewrite (f_start _ _ _ FL). fold b. rewrite D0. field. lra. }
  assert (EX : exists e, 0 < e /\ p b * p b * p b = e * e /\ a = 6 * e * phi_rhs m b q0).
  { destruct (TOT b) as (T1 & _). unfold lapse_rhs in LA. cbn [String.eqb Ascii.eqb Bool.eqb] in LA. rewrite EB in LA. fold b in LA. unfold cf_rhs in QC. unfold exp4phi_of in T1. destruct NM as [EN|EN]; subst nm; cbn [String.eqb Ascii.eqb Bool.eqb] in *.
    - specialize (CF eq_refl). exists (/ (v_cf b * v_cf b * v_cf b)). split; [apply Rinv_0_lt_compat; repeat apply Rmult_lt_0_compat; exact CF|].
      apply ok_inj in T1, LA, QC. rewrite <- T1, <- LA, <- QC. split; field; lra.
    - exists (exp (6 * v_cf b)). split; [apply exp_pos|]. apply ok_inj in T1, LA, QC. rewrite <- T1, <- LA, <- QC. split; [|reflexivity].
      rewrite <- !exp_plus. f_equal. ring. }
  destruct EX as (e & PE & E3 & Ea).
  assert (DS : derivable_pt_lim (fun t => sqrt (det3 (a_gammaDD (A t)) / h_det m)) 0 (6 * e * phi_rhs m b q0)).
  { apply (t_ext (fun t => sqrt (p (X t) * p (X t) * p (X t) * det3 (gammabarDD m (X t)) / h_det m))).
    - eapply near0_imp; [exact NG|]. intros t Et. now rewrite Et.
    - replace (6 * e * phi_rhs m b q0) with (12 * (p b * p b * p b) * phi_rhs m b q0 / (2 * e)) by (rewrite E3; field; lra).
      apply sqrt_flow; [|exact PE|exact DG]. rewrite (f_start _ _ _ FL). fold b. rewrite D0, <- E3. field. lra. }
  rewrite Ea in D. apply d_t. eapply d_eq; [intros w; reflexivity| |exact (d_minus _ _ 0 t0 _ _ (t_d _ _ D) (t_d _ _ DS))]. ring.
Qed.

(** ** Which calls are refused *)
Lemma rhs_names : forall nm src m b rh, BSSN_RHSs nm true None src m b = Ok rh -> In nm cf_names.
Proof.
  intros nm src m b rh E. destruct (rhs_form _ _ _ _ _ _ E) as (u & d & ps & _ & _ & Q). cbn zeta in Q. destruct Q as (_ & QC & _). unfold cf_rhs in QC.
  destruct (String.eqb_spec nm "phi") as [->|]; [cbn; tauto|]. destruct (String.eqb_spec nm "W") as [->|]; [cbn; tauto|]. destruct (String.eqb_spec nm "chi") as [->|]; [cbn; tauto|discriminate].
Qed.
Theorem C68_refused : forall nm cs pre lapse shift x st rh, BSSN_RHSs nm true None (i_src x) (i_m x) (i_b x) = Ok rh ->
  let lapses := ["OnePlusLog"; "HarmonicSlicing"; "Frozen"; "OnePlusLogAlt"]%string in
  let shifts := ["Frozen"; "GammaDriving2ndOrder_NoCovariant"; "GammaDriving2ndOrder_Covariant"; "GammaDriving2ndOrder_Covariant__Hatted";
    "GammaDriving1stOrder_Covariant"; "GammaDriving1stOrder_Covariant__Hatted"; "NonAdvectingGammaDriving"]%string in
  let good := In lapse lapses /\ (lapse = "HarmonicSlicing"%string -> nm = "W"%string \/ nm = "phi"%string) /\ In shift shifts in
  (good -> exists res, BSSN_gauge_RHSs nm true cs pre lapse shift x st = Ok res) /\
  (~ good -> BSSN_gauge_RHSs nm true cs pre lapse shift x st = Err ValueError).
Proof.
  intros nm cs pre lapse shift x st rh ER lapses shifts good. pose proof (rhs_names _ _ _ _ _ ER) as NM.
  destruct (rhs_form _ _ _ _ _ _ ER) as (u & d & ps & _ & _ & Q). cbn zeta in Q. destruct Q as (Q & _).
  unfold BSSN_gauge_RHSs. rewrite Q, ER. cbn [py_bind]. destruct (str_in shift shift_options) eqn:SI.
  - apply str_in_In in SI. destruct (lapse_names x rh nm lapse NM) as [((a & ->) & LI & LC)|(-> & LB)].
    + cbn [py_bind negb]. cbn zeta. split; [intros _; eexists; reflexivity|]. intros NG. exfalso. apply NG. split; [exact LI|]. split; [|exact SI].
      intros EL. specialize (LC EL). destruct NM as [<-|[<-|[<-|[]]]]; auto. congruence.
    + cbn [py_bind]. split; [|reflexivity]. intros (G1 & G2 & _). exfalso. destruct LB as [LB|(-> & ->)]; [exact (LB G1)|]. destruct (G2 eq_refl); discriminate.
  - assert (NI : ~ In shift shifts) by (intros J; apply str_in_In in J; change (str_in shift shift_options = true) in J; congruence).
    split; [intros (_ & _ & J); contradiction|]. intros _. destruct (lapse_names x rh nm lapse NM) as [((a & ->) & _)|(-> & _)]; reflexivity.
Qed.

(** ** What earlier calls do *)
Lemma run_untouched : forall nm cs st k, (forall c, In c cs -> c_shift c = "Frozen"%string -> bq_key (c_coord c) (c_pre c) <> k) ->
  forall i, gcalls_run nm true cs st k i = st k i.
Proof.
  intros nm cs. induction cs as [|c cs IH]; intros st k H i; [reflexivity|]. unfold gcalls_run. cbn [fold_left]. fold (gcalls_run nm true cs).
  match goal with |- fold_left _ cs ?s k i = _ => change (gcalls_run nm true cs s k i = st k i) end.
  rewrite IH by (intros c' I; apply H; now right). unfold gcall_run.
  destruct (BSSN_gauge_RHSs nm true (c_coord c) (c_pre c) (c_lapse c) (c_shift c) (c_in c) st) as [[g st']|e] eqn:E; [|reflexivity].
  destruct (gauge_ok _ _ _ _ _ _ _ _ _ E) as (_ & _ & _ & _ & _ & _ & _ & _ & -> & _). unfold cache_after.
  destruct (String.eqb_spec (c_shift c) "Frozen") as [EF|]; [|reflexivity]. rewrite zero_BU_val.
  destruct (String.eqb_spec k (bq_key (c_coord c) (c_pre c))) as [EK|]; [|reflexivity]. exfalso. apply (H c (or_introl eq_refl) EF). now rewrite EK.
Qed.
(** two different systems, or the same system with and without precomputation, have different keys *)
Lemma key_inj : forall a p b q, (forall s, a <> s ++ "_rfm_precompute")%string -> (forall s, b <> s ++ "_rfm_precompute")%string -> bq_key a p = bq_key b q -> (a, p) = (b, q).
Proof.
  assert (C : forall (a b t : string), (a ++ t = b ++ t)%string -> a = b).
  { intros a b t E. apply (f_equal list_ascii_of_string) in E. assert (L : forall x y, list_ascii_of_string (x ++ y)%string = (list_ascii_of_string x ++ list_ascii_of_string y)%list) by (induction x; intro y; cbn; [reflexivity | now rewrite IHx]).
    rewrite !L in E. apply app_inv_tail in E. rewrite <- (string_of_list_ascii_of_string a), <- (string_of_list_ascii_of_string b). now rewrite E. }
  assert (N : forall a, (a ++ "")%string = a) by (induction a; cbn; [reflexivity | now rewrite IHa]).
  intros a p b q Ha Hb E. unfold bq_key in E. destruct p, q; rewrite ?N in E; [apply C in E; now rewrite E | exfalso; exact (Hb a (eq_sym E)) | exfalso; exact (Ha b E) | now rewrite E].
Qed.
(** The values that a call returns do not depend on the earlier calls, as long as none of them froze the shift in the same
    coordinate system with the same choice of precomputation.  (Names of coordinate systems do not end in _rfm_precompute.) *)
Theorem C68_history : forall nm cs c, (forall c' s, In c' (c :: cs) -> c_coord c' <> (s ++ "_rfm_precompute")%string) ->
  (forall c', In c' cs -> c_shift c' = "Frozen"%string -> (c_coord c', c_pre c') <> (c_coord c, c_pre c)) ->
  match gcall_run nm true c (gcalls_run nm true cs fresh), gcall_run nm true c fresh with
  | Ok (g1, _), Ok (g2, _) => g_alpha g1 = g_alpha g2 /\ (forall i, (i < 3)%nat -> g_vet g1 i = g_vet g2 i /\ g_bet g1 i = g_bet g2 i)
  | Err e1, Err e2 => e1 = e2
  | _, _ => False
  end.
Proof.
  intros nm cs c Nm H0. assert (H : forall c', In c' cs -> c_shift c' = "Frozen"%string -> bq_key (c_coord c') (c_pre c') <> bq_key (c_coord c) (c_pre c)).
  { intros c' I F E. apply (H0 c' I F). apply (key_inj _ _ _ _ (fun s => Nm c' s (or_intror I)) (fun s => Nm c s (or_introl eq_refl)) E). }
  pose proof (run_untouched nm cs fresh _ H) as U. set (s1 := gcalls_run nm true cs fresh) in *. unfold gcall_run, BSSN_gauge_RHSs.
  destruct (bssn_quantities nm true None (i_m (c_in c)) (i_b (c_in c))) as [q|e]; [|reflexivity]. cbn [py_bind].
  destruct (BSSN_RHSs nm true None (i_src (c_in c)) (i_m (c_in c)) (i_b (c_in c))) as [rh|e]; [|reflexivity]. cbn [py_bind].
  destruct (lapse_rhs (c_in c) rh nm (c_lapse c)) as [a|e]; [|reflexivity]. cbn [py_bind]. destruct (str_in (c_shift c) shift_options); [|reflexivity]. cbn [negb]. cbn zeta. cbn [g_alpha g_vet g_bet].
  split; [reflexivity|]. set (k := bq_key (c_coord c) (c_pre c)) in *.
  assert (EB : forall n, (if String.eqb (c_shift c) "Frozen" then zero_BU k s1 else s1) k n = (if String.eqb (c_shift c) "Frozen" then zero_BU k fresh else fresh) k n).
  { intros n. destruct (String.eqb (c_shift c) "Frozen"); [rewrite !zero_BU_val, (U n); reflexivity|apply U]. }
  intros i Hi. assert (EF : (fun n => if (if String.eqb (c_shift c) "Frozen" then zero_BU k s1 else s1) k n then 0 else BU (i_m (c_in c)) (i_b (c_in c)) n)
    = (fun n => if (if String.eqb (c_shift c) "Frozen" then zero_BU k fresh else fresh) k n then 0 else BU (i_m (c_in c)) (i_b (c_in c)) n)).
  { apply FunctionalExtensionality.functional_extensionality. intros n. now rewrite EB. }
  rewrite EF. split; reflexivity.
Qed.
(** After a call with a frozen shift in the same coordinate system, the second-order conditions lose B: the rate of the shift is that
    of B = 0, whatever B is.  The test at the end of the module calls the Frozen option first. *)
Theorem C68_after_frozen : forall nm coord pre lapse0 x0 g0 st0 lapse x g st', BSSN_gauge_RHSs nm true coord pre lapse0 "Frozen" x0 fresh = Ok (g0, st0) ->
  BSSN_gauge_RHSs nm true coord pre lapse "NonAdvectingGammaDriving" x st0 = Ok (g, st') -> forall i, (i < 3)%nat -> g_vet g i = 0.
Proof.
  intros nm coord pre lapse0 x0 g0 st0 lapse x g st' E0 E i Hi.
  destruct (gauge_ok _ _ _ _ _ _ _ _ _ E0) as (_ & _ & _ & _ & _ & _ & _ & _ & -> & _).
  destruct (gauge_ok _ _ _ _ _ _ _ _ _ E) as (u & d & rh & a & _ & _ & _ & _ & -> & F). cbn zeta in F. destruct F as (_ & -> & _).
  match goal with |- context [shift_rhs x rh u ?B0 _] => destruct (sh_nonadv x rh u B0 i) as (-> & _) end.
  unfold cache_after. cbn [String.eqb Ascii.eqb Bool.eqb]. rewrite zero_BU_val, String.eqb_refl. cbn [andb].
  replace (Nat.ltb i 3) with true by (symmetry; apply Nat.ltb_lt; exact Hi). unfold Rdiv. ring.
Qed.
(** The values of a call depend on the calls before it: B^i = 7/2 (and 7/4, 7/2) is lost after a call with a frozen shift. *)
Definition ex_gin : gauge_in := MkGin ex_refm ex_vars None (fun _ => 0) (fun _ _ => 0) 2.
Lemma ex_gin_rhs : exists rh, BSSN_RHSs "W" true None None ex_refm ex_vars = Ok rh.
Proof.
  assert (GD : forall i j, gammabarDD ex_refm ex_vars i j = if Nat.eqb i j then ex_scale i * ex_scale i else 0) by (intros; unfold gammabarDD; cbn; ring).
  destruct (inv3_total (gammabarDD ex_refm ex_vars)) as (u & I).
  - intros i j Hi Hj. rewrite !GD. rewrite (Nat.eqb_sym j i). destruct (Nat.eqb_spec i j) as [->|]; reflexivity.
  - unfold leibniz. cbn. rewrite !GD. cbn. lra.
  - apply (rhs_total "W" _ _ u _ ltac:(cbn; tauto) I).
Qed.
Theorem C68_history_refuted : exists nm before c g1 s1 g2 s2, before = [MkCall "SinhSpherical" false "OnePlusLog" "Frozen" ex_gin] /\
  c = MkCall "SinhSpherical" false "OnePlusLog" "NonAdvectingGammaDriving" ex_gin /\
  gcall_run nm true c (gcalls_run nm true before fresh) = Ok (g1, s1) /\ gcall_run nm true c fresh = Ok (g2, s2) /\ g_vet g1 0%nat = 0 /\ g_vet g2 0%nat = 7.
Proof.
  exists "W"%string, [MkCall "SinhSpherical" false "OnePlusLog" "Frozen" ex_gin], (MkCall "SinhSpherical" false "OnePlusLog" "NonAdvectingGammaDriving" ex_gin).
  destruct ex_gin_rhs as (rh & ER).
  assert (T : forall shift st, In shift shift_options -> exists g st', BSSN_gauge_RHSs "W" true "SinhSpherical" false "OnePlusLog" shift ex_gin st = Ok (g, st')).
  { intros shift st IS. destruct (C68_refused "W" "SinhSpherical" false "OnePlusLog" shift ex_gin st rh ER) as (G & _).
    destruct G as ((g & st') & E); [split; [cbn; tauto|]; split; [discriminate|exact IS]|]. exists g, st'. exact E. }
  destruct (T "Frozen"%string fresh ltac:(cbn; tauto)) as (g0 & st0 & E0).
  destruct (T "NonAdvectingGammaDriving"%string st0 ltac:(cbn; tauto)) as (g1 & s1 & E1). destruct (T "NonAdvectingGammaDriving"%string fresh ltac:(cbn; tauto)) as (g2 & s2 & E2).
  exists g1, s1, g2, s2. split; [reflexivity|]. split; [reflexivity|]. split; [|split; [exact E2|]].
  - unfold gcalls_run, gcall_run. cbn [fold_left c_coord c_pre c_lapse c_shift c_in]. rewrite E0. exact E1.
  - split; [exact (C68_after_frozen _ _ _ _ _ _ _ _ _ _ _ E0 E1 0%nat ltac:(lia))|].
    destruct (gauge_ok _ _ _ _ _ _ _ _ _ E2) as (u & d & rh' & a & _ & _ & _ & _ & -> & F). cbn zeta in F. destruct F as (_ & -> & _).
    match goal with |- context [shift_rhs ex_gin rh' u ?B0 _] => destruct (sh_nonadv ex_gin rh' u B0 0%nat) as (-> & _) end.
    unfold cache_after, fresh, BU. cbn. unfold ex_scale. field.
Qed.

(** ** Concrete cases *)
(** the fields of ex_fields with B^2 = x and with exact upwinded derivatives *)
Definition ga_fields (w : env) : vars :=
  let b := ex_fields w in
  MkVars (v_h b) (v_a b) (v_lam b) (v_vet b) (fun i => kr i 2 * exx w 0%nat) (v_trK b) (v_cf b) (v_alpha b) (v_h_dD b) (v_h_dD b) (v_h_dDD b) (v_a_dD b) (v_a_dD b) (v_lam_dD b) (v_lam_dD b)
    (v_vet_dD b) (v_vet_dD b) (v_vet_dDD b) (v_cf_dD b) (v_cf_dD b) (v_cf_dDD b) (v_trK_dD b) (v_trK_dD b) (v_alpha_dD b) (v_alpha_dDD b).
Definition ga_in (r : rfm) (v : env) : gauge_in := MkGin (ref_at r v) (ga_fields v) None (v_alpha_dD (ga_fields v)) (fun i l => kr i 2 * kr l 0) 2.
Definition linear2 (g : gauge) (rh : rhss) (b : vars) (t : R) : vars :=
  MkVars (fun i j => v_h b i j + t * r_h rh i j) (fun i j => v_a b i j + t * r_a rh i j) (fun i => v_lam b i + t * r_lambda rh i) (fun i => v_vet b i + t * g_vet g i) (fun i => v_bet b i + t * g_bet g i)
    (v_trK b + t * r_trK rh) (v_cf b + t * r_cf rh) (v_alpha b + t * g_alpha g) (v_h_dD b) (v_h_dupD b) (v_h_dDD b) (v_a_dD b) (v_a_dupD b) (v_lam_dD b) (v_lam_dupD b) (v_vet_dD b) (v_vet_dupD b)
    (v_vet_dDD b) (v_cf_dD b) (v_cf_dupD b) (v_cf_dDD b) (v_trK_dD b) (v_trK_dupD b) (v_alpha_dD b) (v_alpha_dDD b).
Lemma linear2_start : forall g rh b, linear2 g rh b 0 = b.
Proof.
  intros g rh b. unfold linear2.
  assert (E1 : (fun i j => v_h b i j + 0 * r_h rh i j) = v_h b) by (do 2 (apply FunctionalExtensionality.functional_extensionality; intros ?); ring).
  assert (E2 : (fun i j => v_a b i j + 0 * r_a rh i j) = v_a b) by (do 2 (apply FunctionalExtensionality.functional_extensionality; intros ?); ring).
  assert (E3 : (fun i => v_lam b i + 0 * r_lambda rh i) = v_lam b) by (apply FunctionalExtensionality.functional_extensionality; intros ?; ring).
  assert (E4 : (fun i => v_vet b i + 0 * g_vet g i) = v_vet b) by (apply FunctionalExtensionality.functional_extensionality; intros ?; ring).
  assert (E5 : (fun i => v_bet b i + 0 * g_bet g i) = v_bet b) by (apply FunctionalExtensionality.functional_extensionality; intros ?; ring).
  rewrite E1, E2, E3, E4, E5, !Rmult_0_l, !Rplus_0_r. destruct b. reflexivity.
Qed.
Lemma ga_example : forall lapse shift, In lapse ["OnePlusLog"; "HarmonicSlicing"; "Frozen"; "OnePlusLogAlt"]%string -> In shift shift_options ->
  exists r v u g st' rh, gauge_at "SinhSymTP" r ga_fields v (ga_in r v) /\ centred (ga_fields v) /\
  near v (fun w => det3 (gammabarDD (ref_at r w) (ga_fields w)) = h_det (ref_at r w)) /\
  inv3 (gammabarDD (ref_at r v) (ga_fields v)) = Ok (u, det3 (gammabarDD (ref_at r v) (ga_fields v))) /\
  BSSN_gauge_RHSs "W" true "SinhSymTP" false lapse shift (ga_in r v) fresh = Ok (g, st') /\
  BSSN_RHSs "W" true None (i_src (ga_in r v)) (ref_at r v) (ga_fields v) = Ok rh /\ ref_geo (ref_at r v) /\
  gauge_flows g rh (ga_fields v) (linear2 g rh (ga_fields v)) /\ flows rh (ga_fields v) (linear2 g rh (ga_fields v)).
Proof.
  intros lapse shift IL IS. destruct ex_point as (r & v & H & G & I). pose proof (ex_setting _ r v H G I) as S. destruct (ex_inverse _ _ _ S) as (u & N).
  assert (S' : setting "SinhSymTP" r ga_fields v).
  { destruct S as [S1 S2 S3 SV SD]. constructor; [exact S1|exact S2|exact S3| |].
    - destruct SV. constructor; assumption.
    - eapply near_imp; [exact SD|]. intros w [A1 A2 A3 A4 A5 A6 A7]. constructor; assumption. }
  pose proof (near_here _ _ N) as I0.
  destruct (rhs_total "W" (ref_at r v) (ga_fields v) (u v) _ ltac:(cbn; tauto) I0 None None) as (rh & ER).
  destruct (C68_refused "W" "SinhSymTP" false lapse shift (ga_in r v) fresh rh ER) as (GO & _).
  destruct GO as ((g & st') & E); [split; [exact IL|]; split; [intros _; now left|exact IS]|].
  exists r, v, (u v), g, st', rh. pose proof (near_here _ _ (decl_gd_sym _ _ _ _ S)) as (GE & _).
  split; [constructor; [exact S'|reflexivity|reflexivity|reflexivity|reflexivity| |]|].
  { intros i l Hi Hl. eapply d_eq; [intros w; reflexivity| |exact (d_scal (kr i 2) _ l v _ (d_xx 0%nat l v))]. reflexivity. }
  { exact (k_alpha _ _ (s_vars _ _ _ _ S')). }
  split; [constructor; reflexivity|].
  split; [eapply near_imp; [exact (decl_gd_sym _ _ _ _ S)|]; intros w (Ew & _); exact (ex_det_one r w Ew)|].
  split; [exact I0|]. split; [exact E|]. split; [exact ER|]. split; [exact GE|].
  assert (DC : declared (ga_fields v)) by exact (near_here _ _ (s_decl _ _ _ _ S')).
  destruct (C64_symmetric _ r ga_fields v "W"%string None None rh S') as (S1 & S2); [|exact Logic.I|exact Logic.I|exact ER|].
  { intros i j k Hi Hj Hk. split; [exact (y_hD _ DC i j k Hi Hj Hk)|]. cbn [v_a_dupD ga_fields]. destruct i as [|[|[|i]]], j as [|[|[|j]]]; try lia; reflexivity. }
  split; constructor; try (intros; apply lin_deriv); try apply linear2_start.
  intros t. split; intros i j Hi Hj; cbn [v_h v_a linear2]; [rewrite (y_h _ DC i j Hi Hj), (S1 i j Hi Hj)|rewrite (y_a _ DC i j Hi Hj), (S2 i j Hi Hj)]; reflexivity.
Qed.
Example ex_C68_second_order : exists r v g rh Gam dbeta dQ st', BSSN_gauge_RHSs "W" true "SinhSymTP" false "OnePlusLog" "GammaDriving2ndOrder_Covariant" (ga_in r v) fresh = Ok (g, st') /\
  v_bet (ga_fields v) 2%nat = exx v 0%nat /\ v_vet (ga_fields v) 0%nat = exx v 0%nat * exx v 1%nat /\
  let X := linear2 g rh (ga_fields v) in
  derivable_pt_lim (fun t => drive 2 (ref_at r v) (X t) 2%nat) 0
    (s3 (fun j => betaU (ref_at r v) (ga_fields v) j * cov_U Gam (drive 2 (ref_at r v) (ga_fields v)) dQ 2%nat j)) /\
  derivable_pt_lim (fun t => betaU (ref_at r v) (X t) 2%nat) 0
    (s3 (fun j => betaU (ref_at r v) (ga_fields v) j * cov_U Gam (betaU (ref_at r v) (ga_fields v)) dbeta 2%nat j) + BU (ref_at r v) (ga_fields v) 2%nat).
Proof.
  destruct (ga_example "OnePlusLog" "GammaDriving2ndOrder_Covariant") as (r & v & u & g & st' & rh & GA & C & ND & I & E & ER & GE & FG & FL); [cbn; tauto|cbn; tauto|].
  pose proof (C62_connection _ _ _ _ _ _ (ga_setting _ _ _ _ _ GA) I) as LC. cbn zeta in LC. destruct LC as (L1 & L2 & _).
  destruct (C68_second_order _ _ _ _ _ _ _ _ _ _ _ _ _ _ _ _ GA E (fun _ => eq_refl) ER FG (or_introl (dr_bar _ _ _ _ _ (conj L1 L2))) _ _ (d_bet _ _ _ _ _ GA) (d_drive _ _ _ _ _ GA) 2%nat ltac:(lia)) as (P1 & P2).
  do 7 eexists. exists st'. split; [exact E|]. split; [cbn; ring|]. split; [cbn; ring|]. split; [exact P2|exact P1].
Qed.
Example ex_C68_first_order : exists r v g rh Gam dbeta st', BSSN_gauge_RHSs "W" true "SinhSymTP" false "Frozen" "GammaDriving1stOrder_Covariant__Hatted" (ga_in r v) fresh = Ok (g, st') /\
  let X := linear2 g rh (ga_fields v) in
  derivable_pt_lim (fun t => betaU (ref_at r v) (X t) 1%nat) 0
    (s3 (fun j => betaU (ref_at r v) (ga_fields v) j * cov_U Gam (betaU (ref_at r v) (ga_fields v)) dbeta 1%nat j) + 3 / 4 * LambdabarU (ref_at r v) (ga_fields v) 1%nat - 2 * betaU (ref_at r v) (ga_fields v) 1%nat) /\
  derivable_pt_lim (fun t => BU (ref_at r v) (X t) 2%nat) 0 0.
Proof.
  destruct (ga_example "Frozen" "GammaDriving1stOrder_Covariant__Hatted") as (r & v & u & g & st' & rh & GA & C & ND & I & E & ER & GE & FG & FL); [cbn; tauto|cbn; tauto|].
  assert (LC : levi_civita (h_g (ref_at r v)) (h_gD (ref_at r v)) (h_Gam (ref_at r v))).
  { split; [exact (e_Gam _ GE)|]. intros i j l Hi Hj Hl. unfold cov_DD. rewrite (e_compat _ GE i j l Hi Hj Hl). apply sub_self2. }
  pose proof (C68_first_order _ _ _ _ _ _ _ _ _ _ _ _ _ _ _ _ GA E ER FG (dr_hat _ _ _ _ _ LC) _ (d_bet _ _ _ _ _ GA)) as P.
  do 6 eexists. exists st'. split; [exact E|]. split; [exact (proj1 (P 1%nat ltac:(lia)))|exact (proj2 (P 2%nat ltac:(lia)))].
Qed.
Example ex_C68_other_shifts : exists r v g rh st', BSSN_gauge_RHSs "W" true "SinhSymTP" false "OnePlusLog" "NonAdvectingGammaDriving" (ga_in r v) fresh = Ok (g, st') /\
  let X := linear2 g rh (ga_fields v) in
  derivable_pt_lim (fun t => betaU (ref_at r v) (X t) 2%nat) 0 (BU (ref_at r v) (ga_fields v) 2%nat) /\ derivable_pt_lim (fun t => drive 2 (ref_at r v) (X t) 2%nat) 0 0.
Proof.
  destruct (ga_example "OnePlusLog" "NonAdvectingGammaDriving") as (r & v & u & g & st' & rh & GA & C & ND & I & E & ER & GE & FG & FL); [cbn; tauto|cbn; tauto|].
  exists r, v, g, rh, st'. split; [exact E|]. exact (proj1 (C68_other_shifts _ _ _ _ _ _ _ _ _ _ _ _ _ _ _ GA E ER FG 2%nat ltac:(lia)) eq_refl (fun _ => eq_refl)).
Qed.
Example ex_C68_lapse : exists r v g rh st', BSSN_gauge_RHSs "W" true "SinhSymTP" false "OnePlusLog" "Frozen" (ga_in r v) fresh = Ok (g, st') /\
  let x := exx v 0%nat in let y := exx v 1%nat in
  derivable_pt_lim (fun t => v_alpha (linear2 g rh (ga_fields v) t)) 0
    (s3 (fun k => betaU (ref_at r v) (ga_fields v) k * (2 * x * kr k 0)) - 2 * (1 + x * x) * y).
Proof.
  destruct (ga_example "OnePlusLog" "Frozen") as (r & v & u & g & st' & rh & GA & C & ND & I & E & ER & GE & FG & FL); [cbn; tauto|cbn; tauto|].
  exists r, v, g, rh, st'. split; [exact E|]. exact (proj1 (C68_lapse _ _ _ _ _ _ _ _ _ _ _ _ _ _ _ GA E FG _ (k_alpha _ _ (s_vars _ _ _ _ (ga_setting _ _ _ _ _ GA)))) eq_refl).
Qed.
Example ex_C68_harmonic : exists r v g rh A st', BSSN_gauge_RHSs "W" true "SinhSymTP" false "HarmonicSlicing" "GammaDriving2ndOrder_NoCovariant" (ga_in r v) fresh = Ok (g, st') /\
  let X := linear2 g rh (ga_fields v) in
  near0 (fun t => BSSN_to_ADM "W" true (ref_at r v) (X t) = Ok (A t)) /\
  derivable_pt_lim (fun t => v_alpha (X t) - sqrt (det3 (a_gammaDD (A t)) / h_det (ref_at r v))) 0 0.
Proof.
  destruct (ga_example "HarmonicSlicing" "GammaDriving2ndOrder_NoCovariant") as (r & v & u & g & st' & rh & GA & C & ND & I & E & ER & GE & FG & FL); [cbn; tauto|cbn; tauto|].
  assert (CP : 0 < v_cf (ga_fields v)) by (cbn; nra).
  pose proof (adm_flow "W" (ref_at r v) (ga_fields v) None None rh _ GE (fun _ => Rgt_not_eq _ _ CP) ER FL) as NA.
  exists r, v, g, rh, (fun t => adm_value "W" (ref_at r v) (linear2 g rh (ga_fields v) t)), st'. split; [exact E|]. split; [exact NA|].
  exact (C68_harmonic _ _ _ _ _ _ _ _ _ _ _ _ _ _ _ GA C ND E (fun _ => CP) ER FG FL NA).
Qed.
Example ex_C68_refused : (exists res, BSSN_gauge_RHSs "W" true "Cartesian" false "HarmonicSlicing" "Frozen" ex_gin fresh = Ok res) /\
  BSSN_gauge_RHSs "W" true "Cartesian" false "OnePlusLog" "GammaDriving2ndOrder" ex_gin fresh = Err ValueError.
Proof.
  destruct ex_gin_rhs as (rh & ER). split.
  - apply (C68_refused "W" "Cartesian" false "HarmonicSlicing" "Frozen" ex_gin fresh rh ER). split; [cbn; tauto|]. split; [intros _; now left|cbn; tauto].
  - apply (C68_refused "W" "Cartesian" false "OnePlusLog" "GammaDriving2ndOrder" ex_gin fresh rh ER). intros (_ & _ & J). cbn in J. repeat destruct J as [J|J]; try discriminate. exact J.
Qed.
Example ex_C68_history : exists g1 s1 g2 s2,
  gcall_run "W" true (MkCall "Cartesian" true "OnePlusLog" "NonAdvectingGammaDriving" ex_gin) (gcalls_run "W" true [MkCall "Cartesian" false "OnePlusLog" "Frozen" ex_gin] fresh) = Ok (g1, s1) /\
  gcall_run "W" true (MkCall "Cartesian" true "OnePlusLog" "NonAdvectingGammaDriving" ex_gin) fresh = Ok (g2, s2) /\ g_vet g1 1%nat = g_vet g2 1%nat.
Proof.
  pose proof (C68_history "W" [MkCall "Cartesian" false "OnePlusLog" "Frozen" ex_gin] (MkCall "Cartesian" true "OnePlusLog" "NonAdvectingGammaDriving" ex_gin)) as P.
  assert (Nm : forall c' s, In c' [MkCall "Cartesian" true "OnePlusLog" "NonAdvectingGammaDriving" ex_gin; MkCall "Cartesian" false "OnePlusLog" "Frozen" ex_gin] -> c_coord c' <> (s ++ "_rfm_precompute")%string).
  { assert (L : forall s t, String.length (s ++ t) = (String.length s + String.length t)%nat) by (induction s; intro t; cbn; [reflexivity | now rewrite IHs]).
    intros c' s [<-|[<-|[]]] E; apply (f_equal String.length) in E; rewrite L in E; cbn in E; lia. }
  specialize (P Nm). clear Nm.
  destruct ex_gin_rhs as (rh & ER).
  destruct (C68_refused "W" "Cartesian" true "OnePlusLog" "NonAdvectingGammaDriving" ex_gin fresh rh ER) as (G2 & _).
  destruct G2 as ((g2 & s2) & E2); [split; [cbn; tauto|]; split; [discriminate|cbn; tauto]|].
  change (gcall_run "W" true (MkCall "Cartesian" true "OnePlusLog" "NonAdvectingGammaDriving" ex_gin) fresh = Ok (g2, s2)) in E2. rewrite E2 in P.
  destruct (gcall_run "W" true (MkCall "Cartesian" true "OnePlusLog" "NonAdvectingGammaDriving" ex_gin) _) as [[g1 s1]|e].
  - exists g1, s1, g2, s2. split; [reflexivity|]. split; [exact E2|]. apply P; [|lia]. intros c' [<-|[]] _. discriminate.
  - exfalso. apply P. intros c' [<-|[]] _. discriminate.
Qed.
Example ex_C68_after_frozen : exists g0 st0 g st', BSSN_gauge_RHSs "W" true "Cartesian" false "OnePlusLog" "Frozen" ex_gin fresh = Ok (g0, st0) /\
  BSSN_gauge_RHSs "W" true "Cartesian" false "OnePlusLog" "NonAdvectingGammaDriving" ex_gin st0 = Ok (g, st') /\ BU (i_m ex_gin) (i_b ex_gin) 0%nat = 7 / ex_scale 0 /\ g_vet g 0%nat = 0.
Proof.
  destruct ex_gin_rhs as (rh & ER).
  destruct (C68_refused "W" "Cartesian" false "OnePlusLog" "Frozen" ex_gin fresh rh ER) as (G1 & _).
  destruct G1 as ((g0 & st0) & E0); [split; [cbn; tauto|]; split; [discriminate|cbn; tauto]|].
  destruct (C68_refused "W" "Cartesian" false "OnePlusLog" "NonAdvectingGammaDriving" ex_gin st0 rh ER) as (G2 & _).
  destruct G2 as ((g & st') & E); [split; [cbn; tauto|]; split; [discriminate|cbn; tauto]|].
  exists g0, st0, g, st'. split; [exact E0|]. split; [exact E|]. split; [unfold BU; cbn [i_m i_b ex_gin h_ReU ex_refm v_bet ex_vars]; unfold Rdiv; ring|].
  exact (C68_after_frozen _ _ _ _ _ _ _ _ _ _ _ E0 E 0%nat ltac:(lia)).
Qed.

Print Assumptions C68_second_order.
Print Assumptions C68_first_order.
Print Assumptions C68_other_shifts.
Print Assumptions C68_lapse.
Print Assumptions C68_harmonic.
Print Assumptions C68_refused.
Print Assumptions C68_history.
Print Assumptions C68_after_frozen.
Print Assumptions C68_history_refuted.
