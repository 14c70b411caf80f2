(** C67: the stress-energy source terms (model: T4munu.v). *)
From Coq Require Import String List Arith Bool Lia Reals Lra.
From Verif Require Import PyBase Inverter InverterFacts GRMetric RefMetric RefMetricReal RefMetricFacts RefMetricFlat PropRefMetric BSSN BSSNFacts BSSNCalc BSSNGeo BSSNInv BSSNConn PropBSSNDeriv BSSNRicci BSSNRicciFacts PropBSSNRicci BSSNEvolAlg BSSNMomAlg BSSNPhys BSSNTime BSSNEvolEx PropBSSNEvol BSSNConstraints PropBSSNAdm PropBSSNLam T4munu T4munuFacts.
Import ListNotations.
Local Open Scope R_scope.

(** ** The projections of T^{mu nu} *)
(** A tensor with energy density E, momentum density J^i and stress P^ij gives rho = E, S_i = J_i, S_ij = P_ij and S = P^k_k. *)
Theorem C67_projections : forall g be al T s E J P, sym3 g -> al <> 0 ->
  (forall mu nu, (mu < 4)%nat -> (nu < 4)%nat -> T mu nu = stress_energy al be E J P mu nu) ->
  T4UU_and_ADM_to_SDD_SD_S_rho g be al T = Ok s ->
  x_rho s = E /\ (forall i, x_SD s i = s3 (fun k => g i k * J k)) /\
  (forall i j, x_SDD s i j = s3 (fun k => s3 (fun l => g i k * g j l * P k l))) /\ x_S s = s3 (fun k => s3 (fun l => g k l * P k l)).
Proof.
  intros g be al T s E J P SG AL ET ES. unfold T4UU_and_ADM_to_SDD_SD_S_rho in ES. destruct (inv3 g) as [[u d]|e] eqn:I; [|discriminate]. cbn [py_bind fst] in ES. apply ok_inj in ES. subst s.
  cbn [x_rho x_SD x_SDD x_S]. destruct (src_ext g be al T _ ET) as (H1 & H2 & H3). destruct (inv3_spec _ _ _ SG I) as (_ & _ & TS).
  split; [rewrite H1; exact (rho_val be al AL E J P)|]. split; [intros i; rewrite H2; exact (SD_val g be al AL E J P i)|].
  assert (K : forall i j, SDD g be al T i j = lower2 g P i j) by (intros i j; rewrite H3; exact (SDD_val g be al AL E J P i j)).
  split; [exact K|]. change (s3 (fun k => s3 (fun l => g k l * P k l))) with (trace g P). rewrite <- (trace_up g u TS SG (inv3_sym _ _ _ I) P).
  unfold S_trace. apply s3_ext. intros i Hi. apply s3_ext. intros j Hj. now rewrite K.
Qed.
(** Conversely T^{mu nu} is recovered from rho, S_i and S_ij. *)
Theorem C67_decomposition : forall g be al T s, sym3 g -> al <> 0 -> symmetric R 4 T -> T4UU_and_ADM_to_SDD_SD_S_rho g be al T = Ok s ->
  exists u, two_sided3 g u /\ forall mu nu, (mu < 4)%nat -> (nu < 4)%nat ->
  T mu nu = stress_energy al be (x_rho s) (fun i => s3 (fun k => u i k * x_SD s k)) (fun i j => s3 (fun k => s3 (fun l => u i k * u j l * x_SDD s k l))) mu nu.
Proof.
  intros g be al T s SG AL ST ES. pose proof (stress_of be al AL T ST) as ET.
  destruct (C67_projections g be al T s _ _ _ SG AL ET ES) as (H1 & H2 & H3 & _).
  unfold T4UU_and_ADM_to_SDD_SD_S_rho in ES. destruct (inv3 g) as [[u d]|e] eqn:I; [|discriminate]. clear ES. destruct (inv3_spec _ _ _ SG I) as (_ & _ & TS).
  exists u. split; [exact TS|]. intros mu nu Hm Hn. rewrite (ET mu nu Hm Hn). rewrite H1. unfold stress_energy.
  assert (Q1 : forall J i, (i < 3)%nat -> (forall k, x_SD s k = s3 (fun l => g k l * J l)) -> s3 (fun k => u i k * x_SD s k) = J i).
  { intros J i Hi Q. rewrite (s3_ext _ (fun k => u i k * lower1 g J k)) by (intros k _; now rewrite Q). exact (raise1 g u TS J i Hi). }
  assert (Q2 : forall P i j, (i < 3)%nat -> (j < 3)%nat -> (forall k l, x_SDD s k l = lower2 g P k l) -> s3 (fun k => s3 (fun l => u i k * u j l * x_SDD s k l)) = P i j).
  { intros P i j Hi Hj Q. rewrite (s3_ext _ (fun k => s3 (fun l => u i k * u j l * lower2 g P k l))) by (intros k _; apply s3_ext; intros l _; now rewrite Q). exact (raise2 g u TS P i j Hi Hj). }
  destruct mu as [|i]; destruct nu as [|j]; cbn [unit_normal spatial spatial2]; try reflexivity.
  - now rewrite (Q1 _ j ltac:(lia) H2).
  - now rewrite (Q1 _ i ltac:(lia) H2).
  - rewrite (Q1 _ i ltac:(lia) H2), (Q1 _ j ltac:(lia) H2), (Q2 _ i j ltac:(lia) ltac:(lia) H3). reflexivity.
Qed.

(** ** The source terms at a point *)
Lemma adm_beta : forall nm m b A, BSSN_to_ADM nm true m b = Ok A -> a_betaU A = betaU m b.
Proof.
  intros nm m b A E. unfold BSSN_to_ADM in E. destruct (bssn_quantities nm true None m b) as [q|e]; [|discriminate].
  cbn [py_bind] in E. destruct (exp4phi_of nm (v_cf b)) as [p|e]; [|discriminate]. cbn [py_bind] in E.
  destruct (phi_derivs nm b p) as [ph|e]; [|discriminate]. cbn [py_bind] in E.
  destruct (inv3 (fun i j => p * gammabarDD m b i j)) as [[up dp]|e]; [|discriminate]. cbn [py_bind fst snd] in E. apply ok_inj in E. now subst A.
Qed.
Lemma TF_alg : forall pi al em p g tr S : R, p * em = 1 -> p * (- 8 * pi * al * em * (S + - (1 / 3) * g * tr)) = - 8 * pi * al * (S - 1 / 3 * g * tr).
Proof. intros pi al em p g tr S E. replace (p * (- 8 * pi * al * em * (S + - (1 / 3) * g * tr))) with (- 8 * pi * al * (p * em) * (S - 1 / 3 * g * tr)) by ring. rewrite E. ring. Qed.
Lemma TF_sum : forall (g : R) (u S : nat -> nat -> R), s3 (fun k => s3 (fun n => - (1 / 3) * g * u k n * S k n)) = - (1 / 3) * g * s3 (fun k => s3 (fun n => u k n * S k n)).
Proof. intros. rewrite !s3_eq. ring. Qed.
Lemma trace_scale : forall c g P, trace (fun i j => c * g i j) P = c * trace g P.
Proof. intros. unfold trace. rewrite !s3_eq. ring. Qed.
Lemma lower2_scale : forall c g P i j, lower2 (fun i j => c * g i j) P i j = c * c * lower2 g P i j.
Proof. intros. unfold lower2. rewrite !s3_eq. ring. Qed.
Lemma lower1_scale : forall c g J i, lower1 (fun i j => c * g i j) J i = c * lower1 g J i.
Proof. intros. unfold lower1. rewrite !s3_eq. ring. Qed.
Lemma src_val : forall nm m b u d p ps A T E J P pi, inv3 (gammabarDD m b) = Ok (u, d) -> sym3 (gammabarDD m b) ->
  exp4phi_of nm (v_cf b) = Ok p -> phi_part nm b = Ok ps -> p * exp_m4phi ps = 1 -> BSSN_to_ADM nm true m b = Ok A -> v_alpha b <> 0 ->
  (forall mu nu, (mu < 4)%nat -> (nu < 4)%nat -> T mu nu = stress_energy (v_alpha b) (a_betaU A) E J P mu nu) ->
  let g := a_gammaDD A in
  exists sK sA sL sH sM, BSSN_RHSs_T4UU_source_terms nm true m b pi T = Ok (sK, sA, sL) /\ BSSN_constraints_T4UU_source_terms nm true m b pi T = Ok (sH, sM) /\
  sK = 4 * pi * v_alpha b * (E + trace g P) /\ (forall i j, p * sA i j = - 8 * pi * v_alpha b * (lower2 g P i j - 1 / 3 * g i j * trace g P)) /\
  (forall i, (i < 3)%nat -> sL i = - 16 * pi * v_alpha b * p * J i) /\ sH = - 16 * pi * E /\ (forall i, (i < 3)%nat -> sM i = - 8 * pi * J i).
Proof.
  intros nm m b u d p ps A T E J P pi I SG P1 P3 EM EA AL ET g. destruct (inv3_spec _ _ _ SG I) as (_ & _ & TS). pose proof (inv3_sym _ _ _ I) as SU.
  destruct (adm_form _ _ _ _ EA) as (p' & ph & up & dp & E1 & _ & E3 & Z). cbn zeta in Z. rewrite P1 in E1. apply ok_inj in E1. subst p'. destruct Z as (Zg & _ & ZU & _).
  assert (SGP : sym3 (a_gammaDD A)) by (rewrite Zg; intros i j Hi Hj; f_equal; exact (SG i j Hi Hj)).
  assert (IA : inv3 (a_gammaDD A) = Ok (up, dp)) by (rewrite Zg; exact E3).
  destruct (inv3_spec _ _ _ SGP IA) as (_ & _ & TP).
  assert (ES : exists s, T4UU_and_BSSN_to_SDD_SD_S_rho nm true m b T = Ok s /\ T4UU_and_ADM_to_SDD_SD_S_rho (a_gammaDD A) (a_betaU A) (v_alpha b) T = Ok s).
  { unfold T4UU_and_BSSN_to_SDD_SD_S_rho. rewrite EA. cbn [py_bind]. unfold T4UU_and_ADM_to_SDD_SD_S_rho. rewrite IA. eexists. split; reflexivity. }
  destruct ES as (s & ES & ES'). destruct (C67_projections _ _ _ T s E J P SGP AL ET ES') as (H1 & H2 & H3 & H4).
  unfold BSSN_RHSs_T4UU_source_terms, BSSN_constraints_T4UU_source_terms. rewrite ES, EA. cbn [py_bind]. unfold bssn_quantities. rewrite I, P3. cbn [py_bind negb fst].
  eexists _, _, _, _, _. split; [reflexivity|]. split; [reflexivity|]. cbn [q_phi]. unfold sourceterm_trK_rhs, sourceterm_Abar_rhsDD, tracefree_SDD, sourceterm_Lambdabar_rhsU.
  split; [rewrite H1, H4; reflexivity|].
  assert (TG : s3 (fun k => s3 (fun n => u k n * x_SDD s k n)) = p * trace g P).
  { rewrite (s3_ext _ (fun k => s3 (fun n => p * p * (u k n * lower2 (gammabarDD m b) P k n)))).
    2: { intros k _. apply s3_ext. intros n _. rewrite H3. change (s3 (fun k0 => s3 (fun l => a_gammaDD A k k0 * a_gammaDD A n l * P k0 l))) with (lower2 (a_gammaDD A) P k n). rewrite Zg, lower2_scale. ring. }
    transitivity (p * p * s3 (fun k => s3 (fun n => u k n * lower2 (gammabarDD m b) P k n))); [rewrite <- s3_scale; apply s3_ext; intros k _; apply s3_scale|].
    rewrite (trace_up _ _ TS SG SU). unfold g. rewrite Zg, trace_scale. ring. }
  split. { intros i j. rewrite TF_sum, TG. rewrite (H3 i j). change (s3 (fun k => s3 (fun l => a_gammaDD A i k * a_gammaDD A j l * P k l))) with (lower2 g P i j).
    replace (1 / 3 * g i j * trace g P) with (1 / 3 * gammabarDD m b i j * (p * trace g P)) by (unfold g; rewrite Zg; ring). exact (TF_alg pi (v_alpha b) _ p (gammabarDD m b i j) _ _ EM). }
  split. { intros i Hi. rewrite <- (raise1 _ _ TS J i Hi).
    rewrite (s3_ext _ (fun j => (- 16 * pi * v_alpha b * p) * (u i j * lower1 (gammabarDD m b) J j))).
    - rewrite s3_scale. reflexivity.
    - intros j _. rewrite H2. change (s3 (fun k => a_gammaDD A j k * J k)) with (lower1 (a_gammaDD A) J j). rewrite Zg, lower1_scale. ring. }
  split; [now rewrite H1|]. intros i Hi. rewrite <- (raise1 _ _ TP J i Hi). rewrite ZU. unfold lower1 at 1. f_equal. apply s3_ext. intros j _. rewrite H2. reflexivity.
Qed.

(** ** The BSSN equations with matter *)
Section Matter.
Variables (cs : string) (r : rfm) (V : env -> vars) (v : env) (nm : string) (u : env -> nat -> nat -> R) (A : env -> adm_of).
Variables (pi E : R) (J : nat -> R) (P T : nat -> nat -> R).
Hypothesis D : bssn_data cs r V v nm u A.
Hypothesis AL : v_alpha (V v) <> 0.
Hypothesis ET : forall mu nu, (mu < 4)%nat -> (nu < 4)%nat -> T mu nu = stress_energy (v_alpha (V v)) (a_betaU (A v)) E J P mu nu.
Lemma src_here : exists p sK sA sL sH sM, exp4phi_of nm (v_cf (V v)) = Ok p /\
  BSSN_RHSs_T4UU_source_terms nm true (ref_at r v) (V v) pi T = Ok (sK, sA, sL) /\ BSSN_constraints_T4UU_source_terms nm true (ref_at r v) (V v) pi T = Ok (sH, sM) /\
  sK = 4 * pi * v_alpha (V v) * (E + trace (a_gammaDD (A v)) P) /\
  (forall i j, p * sA i j = - 8 * pi * v_alpha (V v) * (lower2 (a_gammaDD (A v)) P i j - 1 / 3 * a_gammaDD (A v) i j * trace (a_gammaDD (A v)) P)) /\
  (forall i, (i < 3)%nat -> sL i = - 16 * pi * v_alpha (V v) * p * J i) /\ sH = - 16 * pi * E /\ (forall i, (i < 3)%nat -> sM i = - 8 * pi * J i).
Proof using D AL ET.
  destruct (phys_here _ _ _ _ _ _ _ D) as (p & ps & em & Y). cbn zeta in Y. destruct Y as (P1 & P3 & EEM & EM & _ & _ & SG & _ & _ & (d & I) & _).
  destruct (src_val nm (ref_at r v) (V v) (u v) d p ps (A v) T E J P pi I SG P1 P3 ltac:(now rewrite <- EEM) (near_here _ _ (b_adm _ _ _ _ _ _ _ D)) AL ET) as (sK & sA & sL & sH & sM & Q).
  exists p, sK, sA, sL, sH, sM. split; [exact P1|exact Q].
Qed.
Lemma K_alg : forall (x al g H pi Sij tr E pa : R), pa = - 8 * pi * al * (Sij - 1 / 3 * g * tr) ->
  x - 1 / 3 * al * g * H + (pa + 1 / 3 * g * (4 * pi * al * (E + tr))) = x - 8 * pi * al * (Sij - 1 / 2 * g * (tr - E)) - 1 / 3 * al * g * (H - 16 * pi * E).
Proof. intros x al g H p0 Sij tr E0 pa ->. field. Qed.
Theorem C67_extrinsic : forall rh X At, centred (V v) -> BSSN_RHSs_T4munu nm true None pi T (ref_at r v) (V v) = Ok rh -> flows rh (V v) X ->
  near0 (fun t => BSSN_to_ADM nm true (ref_at r v) (X t) = Ok (At t)) ->
  exists dGam, (forall i j k l, (i < 3)%nat -> (j < 3)%nat -> (k < 3)%nat -> (l < 3)%nat -> d_at (fun w => a_GammaUDD (A w) i j k) l v (dGam i j k l)) /\
  let Ric := ricci (a_GammaUDD (A v)) dGam in let b := V v in let m := ref_at r v in let g := a_gammaDD (A v) in
  forall i j, (i < 3)%nat -> (j < 3)%nat -> derivable_pt_lim (fun t => a_KDD (At t) i j) 0
    (adm_rhs (v_alpha b) (v_alpha_dD b) (v_alpha_dDD b) (betaU m b) (betaU_dD m b) (A v) Ric i j
     - 8 * pi * v_alpha b * (lower2 g P i j - 1 / 2 * g i j * (trace g P - E))
     - 1 / 3 * v_alpha b * g i j * (hamiltonian (A v) Ric - 16 * pi * E)).
Proof using D AL ET.
  intros rh X At C EB FL NA. destruct src_here as (p & sK & sA & sL & sH & sM & P1 & E1 & _ & HK & HA & _). unfold BSSN_RHSs_T4munu in EB. rewrite E1 in EB. cbn [py_bind] in EB.
  destruct (extrinsic_src cs r V v nm u A _ rh X At p D C EB FL NA P1) as (dG & DG & K). exists dG. split; [exact DG|]. cbn zeta in *. intros i j Hi Hj.
  pose proof (K i j Hi Hj) as Q. cbn [sK_of sA_of] in Q. rewrite HK in Q. rewrite (K_alg _ (v_alpha (V v)) (a_gammaDD (A v) i j) _ pi _ (trace (a_gammaDD (A v)) P) E _ (HA i j)) in Q. exact Q.
Qed.
Theorem C67_hamiltonian : forall c, BSSN_constraints_T4munu nm true None pi T (ref_at r v) (V v) = Ok c ->
  exists dGam, (forall i j k l, (i < 3)%nat -> (j < 3)%nat -> (k < 3)%nat -> (l < 3)%nat -> d_at (fun w => a_GammaUDD (A w) i j k) l v (dGam i j k l)) /\
  c_H c = hamiltonian (A v) (ricci (a_GammaUDD (A v)) dGam) - 16 * pi * E.
Proof using D AL ET.
  intros c EC. destruct src_here as (p & sK & sA & sL & sH & sM & P1 & _ & E2 & _ & _ & _ & HH & _). unfold BSSN_constraints_T4munu in EC. rewrite E2 in EC. cbn [py_bind] in EC.
  destruct (phys_here _ _ _ _ _ _ _ D) as (p' & ps & em & Y). cbn zeta in Y. destruct Y as (_ & P3 & _ & _ & _ & _ & _ & _ & _ & (d & I) & _).
  assert (EC0 : exists c0, BSSN_constraints nm true None None (ref_at r v) (V v) = Ok c0) by (unfold BSSN_constraints, bssn_quantities; rewrite I, P3; cbn [py_bind negb]; eauto).
  destruct EC0 as (c0 & EC0). destruct (C65_hamiltonian _ _ _ _ _ _ _ c0 D EC0) as (dG & DG & K). exists dG. split; [exact DG|]. rewrite <- K.
  destruct (cons_form _ _ _ _ _ _ _ _ EC I P3) as (-> & _). destruct (cons_form _ _ _ _ _ _ _ _ EC0 I P3) as (-> & _). rewrite HH. ring.
Qed.
Theorem C67_momentum : forall c, BSSN_constraints_T4munu nm true None pi T (ref_at r v) (V v) = Ok c ->
  exists dK, (forall k, (k < 3)%nat -> d_at (fun w => mean_K (A w)) k v (dK k)) /\ forall i, (i < 3)%nat ->
  c_MU c i = momentum (A v) dK i - 8 * pi * J i /\ c_mU c i * h_ReU (ref_at r v) i = momentum (A v) dK i - 8 * pi * J i.
Proof using D AL ET.
  intros c EC. destruct src_here as (p & sK & sA & sL & sH & sM & P1 & _ & E2 & _ & _ & _ & _ & HM). unfold BSSN_constraints_T4munu in EC. rewrite E2 in EC. cbn [py_bind] in EC.
  destruct (phys_here _ _ _ _ _ _ _ D) as (p' & ps & em & Y). cbn zeta in Y. destruct Y as (_ & P3 & _ & _ & _ & _ & _ & _ & _ & (d & I) & _).
  assert (EC0 : exists c0, BSSN_constraints nm true None None (ref_at r v) (V v) = Ok c0) by (unfold BSSN_constraints, bssn_quantities; rewrite I, P3; cbn [py_bind negb]; eauto).
  destruct EC0 as (c0 & EC0). destruct (C65_momentum _ _ _ _ _ _ _ c0 D EC0) as (dK & DK & K). exists dK. split; [exact DK|]. intros i Hi. destruct (K i Hi) as (K1 & _). rewrite <- K1.
  destruct (cons_form _ _ _ _ _ _ _ _ EC I P3) as (_ & CM & _ & Cm). destruct (cons_form _ _ _ _ _ _ _ _ EC0 I P3) as (_ & CM0 & _).
  pose proof (near_here _ _ (decl_gd_sym _ _ _ _ (b_set _ _ _ _ _ _ _ D))) as (GE & _).
  assert (Q : c_MU c i = c_MU c0 i - 8 * pi * J i) by (rewrite CM, CM0, (HM i Hi); ring).
  split; [exact Q|]. rewrite Cm, Q. field. exact (e_ReU _ GE i Hi).
Qed.
End Matter.
(** Lambdabar with matter: it leaves the contracted connection at the rate 2 alpha e^{4 phi} M^i, where M^i is the momentum constraint
    with its matter term. *)
Theorem C67_Lambdabar : forall cs r V v nm u rbar pi T s RH X hd U c e, lam_flow cs r V v nm u rbar (fun w => Some (s w)) RH X hd ->
  v_alpha (V v) <> 0 -> symmetric R 4 T -> BSSN_RHSs_T4UU_source_terms nm true (ref_at r v) (V v) pi T = Ok (s v) ->
  (forall i, (i < 3)%nat -> derivable_pt_lim (fun t => v_lam (X t) i) 0 (r_lambda (RH v) i)) ->
  near0 (fun t => exists d, inv3 (gammabarDD (ref_at r v) (X t)) = Ok (U t, d)) ->
  BSSN_constraints_T4munu nm true (rbar v) pi T (ref_at r v) (V v) = Ok c -> exp4phi_of nm (v_cf (V v)) = Ok e ->
  forall i, (i < 3)%nat -> derivable_pt_lim (fun t => LambdabarU (ref_at r v) (X t) i - contracted (ref_at r v) (X t) (U t) i) 0 (2 * v_alpha (V v) * e * c_MU c i).
Proof.
  intros cs r V v nm u rbar pi T s RH X hd U c e LF AL ST ES FLam NU EC EE i Hi. pose proof LF as [S CF IV ND NT NL NC LC NR FL HX].
  destruct (near_here _ _ IV) as (d0 & I0). pose proof (near_here _ _ (decl_gd_sym _ _ _ _ S)) as (_ & SG & _).
  destruct (rhs_form _ _ _ _ _ _ (near_here _ _ NR)) as (u' & d' & ps & I' & EP & _).
  destruct (names_total nm (names_of _ _ _ EP)) as (p & ph & ps' & TOT). pose proof (TOT (V v)) as (P1 & P2 & _). rewrite EE in P1. apply ok_inj in P1. subst e.
  destruct (phi_same _ _ _ _ _ EE P2 EP CF) as (PE & _).
  assert (EA : exists A, BSSN_to_ADM nm true (ref_at r v) (V v) = Ok A).
  { destruct (BSSN_to_ADM nm true (ref_at r v) (V v)) as [A|x] eqn:E; [eauto|]. unfold BSSN_RHSs_T4UU_source_terms, T4UU_and_BSSN_to_SDD_SD_S_rho in ES. rewrite E in ES. discriminate. }
  destruct EA as (A & EA).
  assert (EM : p (V v) * exp_m4phi ps = 1).
  { pose proof (near_here _ _ (p_near cs r V v nm S (names_of _ _ _ EP) CF p ph ps' TOT)) as NZ. cbn beta in NZ. rewrite PE; solve [field|field; exact NZ]. }
  destruct (src_val nm (ref_at r v) (V v) (u v) d0 (p (V v)) ps A T _ _ _ pi I0 SG EE EP EM EA AL (stress_of (a_betaU A) (v_alpha (V v)) AL T ST))
    as (sK & sA & sL & sH & sM & Q1 & Q2 & _ & _ & HL & _ & HM).
  rewrite ES in Q1. apply ok_inj in Q1. unfold BSSN_constraints_T4munu in EC. rewrite Q2 in EC. cbn [py_bind] in EC.
  assert (EC0 : exists c0, BSSN_constraints nm true (rbar v) None (ref_at r v) (V v) = Ok c0 /\ c_MU c i = c_MU c0 i + sM i).
  { unfold BSSN_constraints, bssn_quantities in *. rewrite I0, EP in *. cbn [py_bind negb] in *. eexists. split; [reflexivity|]. apply ok_inj in EC. rewrite <- EC. cbn [c_MU]. ring. }
  destruct EC0 as (c0 & EC0 & CM). pose proof (C66_constraint cs r V v nm u rbar _ RH X hd U c0 (p (V v)) LF FLam NU EC0 EE i Hi) as Q. cbn beta in Q.
  rewrite Q1 in Q. cbn [sL_of] in Q. rewrite (HL i Hi) in Q. rewrite CM, (HM i Hi).
  match type of Q with derivable_pt_lim _ _ ?x => match goal with |- derivable_pt_lim _ _ ?y => replace y with x; [exact Q|ring] end end.
Qed.
(** The algebraic constraints stay satisfied with matter: the source of Abar has no trace and is symmetric. *)
Lemma TF_trace : forall (g u S : nat -> nat -> R) (c : R), two_sided3 g u -> sym3 g ->
  s3 (fun i => s3 (fun j => u i j * (c * (S i j + s3 (fun k => s3 (fun n => - (1 / 3) * g i j * u k n * S k n)))))) = 0.
Proof.
  intros g u S c TS SG.
  assert (G3 : s3 (fun i => s3 (fun j => u i j * g i j)) = 3).
  { rewrite (s3_ext _ (fun i => 1)); [rewrite s3_eq; ring|]. intros i Hi.
    rewrite (s3_ext _ (fun j => u i j * g j i)) by (intros j Hj; now rewrite (SG i j Hi Hj)). rewrite (proj2 (two_sided_r g u TS i i Hi Hi)). now rewrite Nat.eqb_refl. }
  transitivity (c * (s3 (fun i => s3 (fun j => u i j * S i j)) - 1 / 3 * s3 (fun i => s3 (fun j => u i j * g i j)) * s3 (fun i => s3 (fun j => u i j * S i j)))).
  - rewrite !s3_eq. ring.
  - rewrite G3. field.
Qed.
Lemma src_shape : forall nm m b pi T sK sA sL, BSSN_RHSs_T4UU_source_terms nm true m b pi T = Ok (sK, sA, sL) ->
  exists A s u d c, BSSN_to_ADM nm true m b = Ok A /\ T4UU_and_ADM_to_SDD_SD_S_rho (a_gammaDD A) (a_betaU A) (v_alpha b) T = Ok s /\ inv3 (gammabarDD m b) = Ok (u, d) /\
  sA = fun i j => c * (x_SDD s i j + s3 (fun k => s3 (fun n => - (1 / 3) * gammabarDD m b i j * u k n * x_SDD s k n))).
Proof.
  intros nm m b pi T sK sA sL E. unfold BSSN_RHSs_T4UU_source_terms, T4UU_and_BSSN_to_SDD_SD_S_rho in E.
  destruct (BSSN_to_ADM nm true m b) as [A|x]; [|discriminate]. cbn [py_bind] in E. destruct (T4UU_and_ADM_to_SDD_SD_S_rho _ _ _ T) as [s|x] eqn:ES; [|discriminate]. cbn [py_bind] in E.
  destruct (bssn_quantities nm true None m b) as [q|x]; [|discriminate]. cbn [py_bind] in E. destruct (inv3 (gammabarDD m b)) as [[u d]|x] eqn:I; [|discriminate]. cbn [py_bind fst] in E.
  apply ok_inj in E. exists A, s, u, d. eexists. split; [reflexivity|]. split; [exact ES|]. split; [reflexivity|]. assert (EA : sA = sourceterm_Abar_rhsDD pi (v_alpha b) (exp_m4phi (q_phi q)) (gammabarDD m b) u s) by congruence.
  rewrite EA. reflexivity.
Qed.
Theorem C67_trace : forall cs r V v nm rbar pi T rh X u d, setting cs r V v ->
  near v (fun w => det3 (gammabarDD (ref_at r w) (V w)) = h_det (ref_at r w)) -> centred (V v) ->
  near v (fun w => inv3 (gammabarDD (ref_at r w) (V w)) = Ok (u w, d w)) ->
  near v (fun w => s3 (fun i => s3 (fun j => u w i j * AbarDD (ref_at r w) (V w) i j)) = 0) ->
  BSSN_RHSs_T4munu nm true rbar pi T (ref_at r v) (V v) = Ok rh -> flows rh (V v) X ->
  exists U D, near0 (fun t => inv3 (gammabarDD (ref_at r v) (X t)) = Ok (U t, D t)) /\
    derivable_pt_lim (fun t => s3 (fun i => s3 (fun j => U t i j * AbarDD (ref_at r v) (X t) i j))) 0 0.
Proof.
  intros cs r V v nm rbar pi T rh X u d S ND C IV NT E FL. unfold BSSN_RHSs_T4munu in E.
  destruct (BSSN_RHSs_T4UU_source_terms nm true (ref_at r v) (V v) pi T) as [[[sK sA] sL]|x] eqn:ES; [|discriminate]. cbn [py_bind] in E.
  refine (C64_trace cs r V v nm rbar (Some (sK, sA, sL)) rh X u d S ND C IV NT _ E FL).
  destruct (src_shape _ _ _ _ _ _ _ _ ES) as (A & s & u' & d' & c & _ & _ & I & ->). pose proof (near_here _ _ IV) as I0. cbn beta in I0. rewrite I in I0. apply ok_inj in I0. assert (EU : u v = u') by congruence.
  pose proof (near_here _ _ (decl_gd_sym _ _ _ _ S)) as (_ & SG & _). destruct (inv3_spec _ _ _ SG I) as (_ & _ & TS). rewrite EU. apply TF_trace; assumption.
Qed.
Theorem C67_symmetric : forall cs r V v nm rbar pi T rh, setting cs r V v -> symmetric R 4 T ->
  (forall i j k, (i < 3)%nat -> (j < 3)%nat -> (k < 3)%nat -> v_h_dupD (V v) i j k = v_h_dupD (V v) j i k /\ v_a_dupD (V v) i j k = v_a_dupD (V v) j i k) ->
  match rbar with Some R => sym3 R | None => True end ->
  BSSN_RHSs_T4munu nm true rbar pi T (ref_at r v) (V v) = Ok rh -> sym3 (r_h rh) /\ sym3 (r_a rh).
Proof.
  intros cs r V v nm rbar pi T rh S ST UP SR E. unfold BSSN_RHSs_T4munu in E.
  destruct (BSSN_RHSs_T4UU_source_terms nm true (ref_at r v) (V v) pi T) as [[[sK sA] sL]|x] eqn:ES; [|discriminate]. cbn [py_bind] in E.
  refine (C64_symmetric cs r V v nm rbar (Some (sK, sA, sL)) rh S UP SR _ E). cbn beta iota.
  destruct (src_shape _ _ _ _ _ _ _ _ ES) as (A & s & u' & d' & c & EA & EX & I & ->).
  pose proof (near_here _ _ (decl_gd_sym _ _ _ _ S)) as (_ & SG & _).
  assert (SX : sym3 (x_SDD s)).
  { unfold T4UU_and_ADM_to_SDD_SD_S_rho in EX. destruct (inv3 (a_gammaDD A)) as [[up dp]|x]; [|discriminate]. cbn [py_bind] in EX. apply ok_inj in EX. rewrite <- EX. cbn [x_SDD].
    intros i j Hi Hj. unfold SDD. rewrite !s4_eq. rewrite (ST 1%nat 0%nat), (ST 2%nat 0%nat), (ST 3%nat 0%nat), (ST 2%nat 1%nat), (ST 3%nat 1%nat), (ST 3%nat 2%nat) by lia. ring. }
  intros i j Hi Hj. rewrite (SX i j Hi Hj). f_equal. f_equal. apply s3_ext. intros k _. apply s3_ext. intros n _. now rewrite (SG i j Hi Hj).
Qed.

(** ** Concrete cases *)
(** energy density 2, momentum density (0, 3, 0), shear stress *)
Definition ex_J (i : nat) : R := match i with 1%nat => 3 | _ => 0 end.
Definition ex_P (i j : nat) : R := match i, j with 0%nat, 1%nat | 1%nat, 0%nat => 5 | 2%nat, 2%nat => 1 | _, _ => 0 end.
Definition ex_g (i j : nat) : R := match i, j with 0%nat, 0%nat => 2 | 0%nat, 1%nat | 1%nat, 0%nat => 1 | 1%nat, 1%nat => 1 | 2%nat, 2%nat => 1 | _, _ => 0 end.
Definition ex_be (i : nat) : R := match i with 0%nat => 1 | _ => 0 end.
Lemma ex_stress_sym : forall al be, symmetric R 4 (stress_energy al be 2 ex_J ex_P).
Proof. intros al be i j Hi Hj. unfold stress_energy. destruct i as [|i]; destruct j as [|j]; cbn [spatial spatial2 unit_normal]; try ring. rewrite (Rmult_comm (- be j / al)). destruct i as [|[|[|i]]]; destruct j as [|[|[|j]]]; cbn; try ring; lia. Qed.
Example ex_C67_projections : exists s, T4UU_and_ADM_to_SDD_SD_S_rho ex_g ex_be 2 (stress_energy 2 ex_be 2 ex_J ex_P) = Ok s /\
  stress_energy 2 ex_be 2 ex_J ex_P 1 2 = 7 / 2 /\ x_rho s = 2 /\ x_SD s 0%nat = 3 /\ x_SD s 1%nat = 3 /\ x_SDD s 0%nat 1%nat = 15 /\ x_S s = 11.
Proof.
  assert (SG : sym3 ex_g) by (intros [|[|[|i]]] [|[|[|j]]] Hi Hj; try lia; reflexivity).
  destruct (inv3_total ex_g SG) as (h & I); [rewrite (det3_ext ex_g (fun i j => ex_g i j)) by reflexivity; unfold det3; cbn; lra|].
  assert (E : exists s, T4UU_and_ADM_to_SDD_SD_S_rho ex_g ex_be 2 (stress_energy 2 ex_be 2 ex_J ex_P) = Ok s) by (unfold T4UU_and_ADM_to_SDD_SD_S_rho; rewrite I; eexists; reflexivity).
  destruct E as (s & E). exists s. split; [exact E|]. destruct (C67_projections ex_g ex_be 2 _ s 2 ex_J ex_P SG ltac:(lra) (fun _ _ _ _ => eq_refl) E) as (H1 & H2 & H3 & H4).
  split; [unfold stress_energy; cbn; lra|]. split; [exact H1|]. rewrite !H2, H3, H4. rewrite !s3_eq. cbn [ex_g ex_J ex_P]. repeat split; lra.
Qed.
Example ex_C67_equations : exists r v V u rh X c dGam dK,
  let A := fun w => adm_value "chi" (ref_at r w) (V w) in let T := stress_energy (v_alpha (V v)) (a_betaU (A v)) 2 ex_J ex_P in let g := a_gammaDD (A v) in
  bssn_data "SinhSymTP" r V v "chi" u A /\ BSSN_RHSs_T4munu "chi" true None 3 T (ref_at r v) (V v) = Ok rh /\ flows rh (V v) X /\
  BSSN_constraints_T4munu "chi" true None 3 T (ref_at r v) (V v) = Ok c /\
  derivable_pt_lim (fun t => a_KDD (adm_value "chi" (ref_at r v) (X t)) 0%nat 1%nat) 0
    (adm_rhs (v_alpha (V v)) (v_alpha_dD (V v)) (v_alpha_dDD (V v)) (betaU (ref_at r v) (V v)) (betaU_dD (ref_at r v) (V v)) (A v) (ricci (a_GammaUDD (A v)) dGam) 0%nat 1%nat
     - 8 * 3 * v_alpha (V v) * (lower2 g ex_P 0%nat 1%nat - 1 / 2 * g 0%nat 1%nat * (trace g ex_P - 2))
     - 1 / 3 * v_alpha (V v) * g 0%nat 1%nat * (hamiltonian (A v) (ricci (a_GammaUDD (A v)) dGam) - 16 * 3 * 2)) /\
  c_MU c 1%nat = momentum (A v) dK 1%nat - 8 * 3 * 3.
Proof.
  destruct ev_here_ex as (r & v & V & u & H & EX & NA). pose proof H as (S & C & CF & ED & N & TR & NL).
  assert (AL : v_alpha (V v) <> 0) by (rewrite (proj2 (proj2 (C v))); exact CF).
  set (A := fun w => adm_value "chi" (ref_at r w) (V w)). set (T := stress_energy (v_alpha (V v)) (a_betaU (A v)) 2 ex_J ex_P).
  assert (D : bssn_data "SinhSymTP" r V v "chi" u A).
  { constructor; auto. eapply near_imp; [exact N|]. intros w Iw. eexists. exact Iw. }
  destruct (src_here _ r V v _ u A 3 2 ex_J ex_P T D AL (fun _ _ _ _ => eq_refl)) as (p & sK & sA & sL & sH & sM & _ & E1 & E2 & _).
  destruct (rhs_total "chi" _ _ _ _ ltac:(cbn; tauto) (near_here _ _ N) None (Some (sK, sA, sL))) as (rh & E).
  assert (EB : BSSN_RHSs_T4munu "chi" true None 3 T (ref_at r v) (V v) = Ok rh) by (unfold BSSN_RHSs_T4munu; rewrite E1; exact E).
  destruct (cons_ex r v V u (Some (sH, sM)) H) as (c & EC).
  assert (EC' : BSSN_constraints_T4munu "chi" true None 3 T (ref_at r v) (V v) = Ok c) by (unfold BSSN_constraints_T4munu; rewrite E2; exact EC).
  assert (DC : declared (V v)) by exact (near_here _ _ (s_decl _ _ _ _ S)).
  destruct (C67_symmetric _ r V v "chi"%string None 3 T rh S (ex_stress_sym _ _)) as (S1 & S2); [|exact Logic.I|exact EB|].
  { intros i j k Hi Hj Hk. rewrite !(n_h _ (proj1 (C v))), !(n_a _ (proj1 (C v))). split; [exact (y_hD _ DC i j k Hi Hj Hk)|].
    apply (d_unique (fun w => v_a (V w) i j) k v); [exact (k_a _ _ (s_vars _ _ _ _ S) i j k Hi Hj Hk)|].
    apply (d_ext (fun w => v_a (V w) j i) (fun w => v_a (V w) i j) k v (v_a_dD (V v) j i k) _ Hk); [|reflexivity|exact (k_a _ _ (s_vars _ _ _ _ S) j i k Hj Hi Hk)].
    eapply near_imp; [exact (s_decl _ _ _ _ S)|]. intros w Dw. exact (y_a _ Dw j i Hj Hi). }
  pose proof (linear_flows rh (V v) (y_h _ DC) (y_a _ DC) S1 S2) as FL. pose proof (near_here _ _ (decl_gd_sym _ _ _ _ S)) as (GE & _).
  destruct (C67_extrinsic _ r V v _ u A 3 2 ex_J ex_P T D AL (fun _ _ _ _ => eq_refl) rh (linear rh (V v)) _ (proj1 (C v)) EB FL (adm_flow _ _ _ _ _ _ _ GE (fun _ => CF) E FL)) as (dG & _ & K).
  destruct (C67_momentum _ r V v _ u A 3 2 ex_J ex_P T D AL (fun _ _ _ _ => eq_refl) c EC') as (dK & _ & M).
  exists r, v, V, u, rh, (linear rh (V v)), c, dG, dK. cbn zeta. split; [exact D|]. split; [exact EB|]. split; [exact FL|]. split; [exact EC'|]. split; [exact (K 0%nat 1%nat ltac:(lia) ltac:(lia))|exact (proj1 (M 1%nat ltac:(lia)))].
Qed.
Definition src_value (m : refm) (b : vars) (T : nat -> nat -> R) : R * (nat -> nat -> R) * (nat -> R) :=
  match BSSN_RHSs_T4UU_source_terms "chi" true m b 3 T with Ok s => s | Err _ => (0, fun _ _ => 0, fun _ => 0) end.
Example ex_C67_Lambdabar : exists r v V u RH X hd U c, let T := stress_energy (v_alpha (V v)) (a_betaU (adm_value "chi" (ref_at r v) (V v))) 2 ex_J ex_P in
  let s := fun w => src_value (ref_at r w) (V w) T in
  lam_flow "SinhSymTP" r V v "chi" u (fun _ => None) (fun w => Some (s w)) RH X hd /\ BSSN_RHSs_T4UU_source_terms "chi" true (ref_at r v) (V v) 3 T = Ok (s v) /\
  BSSN_constraints_T4munu "chi" true None 3 T (ref_at r v) (V v) = Ok c /\
  derivable_pt_lim (fun t => LambdabarU (ref_at r v) (X t) 1%nat - contracted (ref_at r v) (X t) (U t) 1%nat) 0 (2 * v_alpha (V v) * (1 / v_cf (V v)) * c_MU c 1%nat).
Proof.
  destruct ev_here_ex as (r & v & V & u & H & EX & NA). pose proof H as (S & C & CF & ED & N & TR & NL).
  assert (AL : v_alpha (V v) <> 0) by (rewrite (proj2 (proj2 (C v))); exact CF).
  set (A := fun w => adm_value "chi" (ref_at r w) (V w)). set (T := stress_energy (v_alpha (V v)) (a_betaU (A v)) 2 ex_J ex_P).
  assert (D : bssn_data "SinhSymTP" r V v "chi" u A).
  { constructor; auto. eapply near_imp; [exact N|]. intros w Iw. eexists. exact Iw. }
  destruct (src_here _ r V v _ u A 3 2 ex_J ex_P T D AL (fun _ _ _ _ => eq_refl)) as (p & sK & sA & sL & sH & sM & _ & E1 & E2 & _).
  assert (ES : src_value (ref_at r v) (V v) T = (sK, sA, sL)) by (unfold src_value; now rewrite E1).
  destruct (lam_example r v V u (fun w => Some (src_value (ref_at r w) (V w) T)) H) as (hd & U & LF & NU).
  { cbn beta. rewrite ES. destruct (src_shape _ _ _ _ _ _ _ _ E1) as (A' & s & u' & d' & c & EA & EY & I & ->). pose proof (near_here _ _ (decl_gd_sym _ _ _ _ S)) as (_ & SG & _).
    assert (SX : sym3 (x_SDD s)).
    { pose proof (ex_stress_sym (v_alpha (V v)) (a_betaU (A v))) as ST. fold T in ST. unfold T4UU_and_ADM_to_SDD_SD_S_rho in EY. destruct (inv3 (a_gammaDD A')) as [[up dp]|x]; [|discriminate]. cbn [py_bind] in EY. apply ok_inj in EY. rewrite <- EY. cbn [x_SDD].
      intros i j Hi Hj. unfold SDD. rewrite !s4_eq. rewrite (ST 1%nat 0%nat), (ST 2%nat 0%nat), (ST 3%nat 0%nat), (ST 2%nat 1%nat), (ST 3%nat 1%nat), (ST 3%nat 2%nat) by lia. ring. }
    intros i j Hi Hj. rewrite (SX i j Hi Hj). f_equal. f_equal. apply s3_ext. intros k _. apply s3_ext. intros n _. now rewrite (SG i j Hi Hj). }
  destruct (cons_ex r v V u (Some (sH, sM)) H) as (c & EC).
  assert (EC' : BSSN_constraints_T4munu "chi" true None 3 T (ref_at r v) (V v) = Ok c) by (unfold BSSN_constraints_T4munu; rewrite E2; exact EC).
  assert (E1' : BSSN_RHSs_T4UU_source_terms "chi" true (ref_at r v) (V v) 3 T = Ok (src_value (ref_at r v) (V v) T)) by (rewrite ES; exact E1).
  set (RH := fun w => rhs_value (Some (src_value (ref_at r w) (V w) T)) (ref_at r w) (V w)) in *. change (rhs_value (Some (src_value (ref_at r v) (V v) T)) (ref_at r v) (V v)) with (RH v) in LF, NU.
  exists r, v, V, u, RH, (linear1 (RH v) hd (V v)), hd, U, c. cbn zeta. split; [exact LF|]. split; [exact E1'|]. split; [exact EC'|].
  refine (C67_Lambdabar _ r V v _ u (fun _ => None) 3 T (fun w => src_value (ref_at r w) (V w) T) RH _ hd U c _ LF AL (ex_stress_sym _ _) E1' _ NU EC' eq_refl 1%nat ltac:(lia)). intros i Hi. apply lin_deriv.
Qed.

Print Assumptions C67_projections.
Print Assumptions C67_decomposition.
Print Assumptions C67_extrinsic.
Print Assumptions C67_hamiltonian.
Print Assumptions C67_momentum.
Print Assumptions C67_Lambdabar.
Print Assumptions C67_trace.
Print Assumptions C67_symmetric.
