(** The BSSN equations in physical variables: the right-hand sides of BSSN_RHSs.py evolve the extrinsic curvature as the ADM
    equations do, and BSSN_constraints.py computes the Hamiltonian and momentum constraints. *)
From Coq Require Import String List Arith Bool Lia Reals Lra.
From Verif Require Import PyBase Inverter InverterFacts GRMetric RefMetric RefMetricReal RefMetricFacts RefMetricFlat PropRefMetric BSSN BSSNFacts BSSNCalc BSSNGeo BSSNInv BSSNConn PropBSSNDeriv BSSNRicci BSSNRicciFacts PropBSSNRicci BSSNEvolAlg BSSNMomAlg BSSNPhys BSSNTime BSSNEvolEx PropBSSNEvol BSSNConstraints.
Import ListNotations.
Local Open Scope R_scope.

(** The fields around a point at which the algebraic constraints and the one of Lambdabar hold; [A] are their ADM variables. *)
Record bssn_data (cs : string) (r : rfm) (V : env -> vars) (v : env) (nm : string) (u : env -> nat -> nat -> R) (A : env -> adm_of) : Prop := MkData {
  b_set : setting cs r V v; b_cf : nm <> "phi"%string -> v_cf (V v) <> 0;
  b_inv : near v (fun w => exists d, inv3 (gammabarDD (ref_at r w) (V w)) = Ok (u w, d));
  b_adm : near v (fun w => BSSN_to_ADM nm true (ref_at r w) (V w) = Ok (A w));
  b_tr : near v (fun w => s3 (fun i => s3 (fun j => u w i j * AbarDD (ref_at r w) (V w) i j)) = 0);
  b_lam : near v (fun w => forall i, (i < 3)%nat -> LambdabarU (ref_at r w) (V w) i =
    s3 (fun j => s3 (fun k => u w j k * (GammabarUDD (ref_at r w) (V w) (u w) i j k - h_Gam (ref_at r w) i j k)))) }.
(** The physical quantities: mean curvature, and Hamiltonian constraint for the Ricci tensor [Ric] *)
Definition mean_K (a : adm_of) : R := s3 (fun i => s3 (fun j => a_gammaUU a i j * a_KDD a i j)).
Definition hamiltonian (a : adm_of) (Ric : nat -> nat -> R) : R :=
  s3 (fun i => s3 (fun j => a_gammaUU a i j * Ric i j)) + mean_K a * mean_K a
  - s3 (fun i => s3 (fun j => s3 (fun k => s3 (fun l => a_gammaUU a i k * a_gammaUU a j l * a_KDD a i j * a_KDD a k l)))).

Lemma names_of : forall nm b ps, phi_part nm b = Ok ps -> In nm cf_names.
Proof.
  intros nm b ps EP. unfold phi_part in EP; destruct (String.eqb_spec nm "phi") as [->|]; [cbn; tauto|]; destruct (String.eqb_spec nm "W") as [->|]; [cbn; tauto|];
    destruct (String.eqb_spec nm "chi") as [->|]; [cbn; tauto|discriminate].
Qed.
Lemma names_adm : forall nm m b A, BSSN_to_ADM nm true m b = Ok A -> In nm cf_names.
Proof.
  intros nm m b A E. unfold BSSN_to_ADM in E. destruct (bssn_quantities nm true None m b) as [q|e] eqn:Q; [|discriminate].
  unfold bssn_quantities in Q. destruct (inv3 (gammabarDD m b)); [|discriminate]. cbn [py_bind negb] in Q. destruct (phi_part nm b) as [ps|] eqn:EP; [|discriminate]. exact (names_of _ _ _ EP).
Qed.
Lemma tr_flip : forall (u Phi : nat -> nat -> R), sym3 u -> s3 (fun k => s3 (fun n => u k n * Phi n k)) = s3 (fun i => s3 (fun j => u i j * Phi i j)).
Proof. intros u Phi SU. rewrite s3_swap. apply s3_ext. intros i Hi. apply s3_ext. intros j Hj. now rewrite (SU j i Hj Hi). Qed.
Lemma nn_flip : forall (u : nat -> nat -> R) (p : nat -> R), s3 (fun k => p k * s3 (fun n => u k n * p n)) = s3 (fun i => s3 (fun j => u i j * p i * p j)).
Proof. intros. rewrite !s3_eq. ring. Qed.

(** The ADM variables at the point *)
Lemma phys_here : forall cs r V v nm u A, bssn_data cs r V v nm u A ->
  let m := ref_at r v in let b := V v in
  exists p ps em, let g := gammabarDD m b in let p1 := phi_dD ps in
  let Phi := fun i j => phi_dDD ps i j + s3 (fun k => - GammabarUDD m b (u v) k i j * p1 k) in
  exp4phi_of nm (v_cf b) = Ok p /\ phi_part nm b = Ok ps /\ em = exp_m4phi ps /\ p * em = 1 /\ p <> 0 /\
  two_sided3 g (u v) /\ sym3 g /\ sym3 (u v) /\ sym3 (AbarDD m b) /\ (exists d, inv3 g = Ok (u v, d)) /\
  (forall i j, a_gammaDD (A v) i j = p * g i j) /\ (forall i j k, a_gammaDDdD (A v) i j k = 4 * p * p1 k * g i j + p * gammabarDD_dD m b i j k) /\
  (forall i j, (i < 3)%nat -> (j < 3)%nat -> a_gammaUU (A v) i j = u v i j * em) /\
  (forall i j, a_KDD (A v) i j = p * AbarDD m b i j + 1 / 3 * (p * g i j) * v_trK b) /\
  (forall i j k, a_KDDdD (A v) i j k = 4 * p * p1 k * AbarDD m b i j + p * AbarDD_dD m b i j k
     + 1 / 3 * ((4 * p * p1 k * g i j + p * gammabarDD_dD m b i j k) * v_trK b + p * g i j * v_trK_dD b k)) /\
  (forall i j k, (i < 3)%nat -> (j < 3)%nat -> (k < 3)%nat -> a_GammaUDD (A v) i j k = GammabarUDD m b (u v) i j k + Ce g (fun k => s3 (fun n => u v k n * p1 n)) p1 i j k) /\
  exists dGam, (forall i j k l, (i < 3)%nat -> (j < 3)%nat -> (k < 3)%nat -> (l < 3)%nat -> d_at (fun w => a_GammaUDD (A w) i j k) l v (dGam i j k l)) /\
  forall i j, (i < 3)%nat -> (j < 3)%nat ->
    ricci (a_GammaUDD (A v)) dGam i j = RbarDD m b (u v) i j - 2 * Phi i j - 2 * g i j * s3 (fun i => s3 (fun j => u v i j * Phi i j)) + 4 * p1 i * p1 j
      - 4 * g i j * s3 (fun i => s3 (fun j => u v i j * p1 i * p1 j)).
Proof.
  intros cs r V v nm u A D m b. pose proof D as [S CF IV NA NT NL].
  assert (IV' : near v (fun w => inv3 (gammabarDD (ref_at r w) (V w)) = Ok (u w, det3 (gammabarDD (ref_at r w) (V w))))).
  { eapply near_imp; [exact (near_and _ _ _ IV (decl_gd_sym _ _ _ _ S))|]. intros w ((d & Iw) & (_ & SG & _)). rewrite Iw. now rewrite (proj1 (inv3_spec _ _ _ SG Iw)). }
  pose proof (near_here _ _ NA) as A0. pose proof (names_adm _ _ _ _ A0) as NM. destruct (names_total nm NM) as (p & ph & ps & TOT).
  pose proof (TOT b) as (P1 & P2 & P3). destruct (phi_same _ _ _ _ _ P1 P2 P3 CF) as (PE & PD & PDD & _).
  pose proof (near_here _ _ (p_near cs r V v nm S NM CF p ph ps TOT)) as NZ. cbn beta in NZ. fold b in NZ.
  assert (EM : exp_m4phi (ps b) = / p b) by (apply (Rmult_eq_reg_l (p b)); [rewrite PE; field; exact NZ|exact NZ]).
  exists (p b), (ps b), (exp_m4phi (ps b)). cbn zeta.
  pose proof (near_here _ _ (at_near cs r V v u _ S IV')) as (GE & SG & SU & TS & DC). pose proof (near_here _ _ (decl_gd_sym _ _ _ _ S)) as (_ & _ & SA).
  split; [exact P1|]. split; [exact P3|]. split; [reflexivity|]. split; [exact PE|]. split; [exact NZ|]. split; [exact TS|]. split; [exact SG|]. split; [exact SU|]. split; [exact SA|].
  split; [eexists; exact (near_here _ _ IV')|].
  destruct (adm_form _ _ _ _ A0) as (p' & ph' & up & dp & E1 & E2 & _ & Z). cbn zeta in Z. fold m b in E1, E2, Z.
  rewrite P1 in E1. apply ok_inj in E1. subst p'. rewrite P2 in E2. apply ok_inj in E2. subst ph'.
  destruct Z as (Z1 & Z2 & _ & _ & Z3 & Z4).
  split; [intros i j; now rewrite Z1|]. split; [intros i j k; now rewrite Z2, PD|].
  split; [intros i j Hi Hj; rewrite (near_here _ _ (up_near cs r V v u _ nm A S IV' NM CF NA p ph ps TOT) i j Hi Hj), EM; reflexivity|].
  split; [intros i j; now rewrite Z3|]. split; [intros i j k; now rewrite Z4, PD|].
  assert (PF : fst (ph b) = phi_dD (ps b)) by (apply FunctionalExtensionality.functional_extensionality; intros k; now rewrite PD).
  split.
  { intros i j k Hi Hj Hk. pose proof (near_here _ _ (conn_phys cs r V v u _ nm A S IV' NM CF NA p ph ps TOT) i j k Hi Hj Hk) as X. cbn beta in X. change (V v) with b in X. rewrite PF in X. exact X. }
  destruct (C63_ricci cs r V v u _ S IV' NL) as (dG & DG & RG). cbn zeta in DG, RG.
  destruct (phys_ricci cs r V v u _ nm A S IV' NM CF NA p ph ps TOT dG DG) as (dP & DP & RP). exists dP. split; [exact DP|].
  intros i j Hi Hj. rewrite (RP i j Hi Hj). clear RP. cbn beta. change (V v) with b. rewrite PF. pose proof (RG i j Hi Hj) as RG'. change (V v) with b in RG'. change (ref_at r v) with m in RG'. rewrite RG'. change (ref_at r v) with m. unfold ricci.
  set (Phi := fun i j => phi_dDD (ps b) i j + s3 (fun k => - GammabarUDD m b (u v) k i j * phi_dD (ps b) k)).
  assert (PP : forall i l, snd (ph b) i l - s3 (fun n => GammabarUDD m b (u v) n i l * phi_dD (ps b) n) = Phi i l).
  { intros a l. unfold Phi. rewrite PDD. generalize (GammabarUDD m b (u v)) (phi_dD (ps b)) (snd (ph b) a l). intros; rewrite !s3_eq; ring. }
  rewrite PP, nn_flip.
  rewrite (s3_ext (fun k => s3 (fun n => u v k n * (snd (ph b) n k - s3 (fun n0 => GammabarUDD m b (u v) n0 n k * phi_dD (ps b) n0)))) (fun k => s3 (fun n => u v k n * Phi n k)))
    by (intros k Hk; apply s3_ext; intros n Hn; now rewrite PP).
  rewrite (tr_flip (u v) Phi SU). reflexivity.
Qed.
(** Mean curvature *)
Lemma mean_alg : forall (g u A : nat -> nat -> R) (e em K : R) a, two_sided3 g u -> sym3 g -> e * em = 1 -> s3 (fun i => s3 (fun j => u i j * A i j)) = 0 ->
  (forall i j, (i < 3)%nat -> (j < 3)%nat -> a_gammaUU a i j = u i j * em) -> (forall i j, a_KDD a i j = e * A i j + 1 / 3 * (e * g i j) * K) -> mean_K a = K.
Proof.
  intros g u A e em K a TS SG EM T0 AU AK. unfold mean_K. rewrite <- (up_trK g u A e em K TS SG EM T0) at 1.
  apply s3_ext. intros i Hi. apply s3_ext. intros j Hj. now rewrite (AU i j Hi Hj), AK.
Qed.
Theorem C65_mean : forall cs r V v nm u A, bssn_data cs r V v nm u A ->
  mean_K (A v) = v_trK (V v) /\ forall k, (k < 3)%nat -> d_at (fun w => mean_K (A w)) k v (v_trK_dD (V v) k).
Proof.
  intros cs r V v nm u A D. pose proof D as [S CF IV NA NT NL].
  assert (IV' : near v (fun w => inv3 (gammabarDD (ref_at r w) (V w)) = Ok (u w, det3 (gammabarDD (ref_at r w) (V w))))).
  { eapply near_imp; [exact (near_and _ _ _ IV (decl_gd_sym _ _ _ _ S))|]. intros w ((d & Iw) & (_ & SG & _)). rewrite Iw. now rewrite (proj1 (inv3_spec _ _ _ SG Iw)). }
  pose proof (names_adm _ _ _ _ (near_here _ _ NA)) as NM. destruct (names_total nm NM) as (p & ph & ps & TOT).
  assert (N : near v (fun w => mean_K (A w) = v_trK (V w))).
  { eapply near_imp; [exact (near_and _ _ _ (near_and _ _ _ (p_near cs r V v nm S NM CF p ph ps TOT) (near_and _ _ _ NA NT)) (near_and _ _ _ (at_near cs r V v u _ S IV') (up_near cs r V v u _ nm A S IV' NM CF NA p ph ps TOT)))|].
    intros w ((NZ & Aw & T0) & ((_ & SG & _ & TS & _) & UP)).
    apply (mean_alg (gammabarDD (ref_at r w) (V w)) (u w) (AbarDD (ref_at r w) (V w)) (p (V w)) (/ p (V w))); auto.
    - field. exact NZ.
    - intros i j. destruct (adm_form _ _ _ _ Aw) as (p' & ph' & up & dp & E1 & _ & E3 & X). cbn zeta in X. destruct X as (_ & _ & _ & _ & -> & _).
      rewrite (proj1 (TOT (V w))) in E1. apply ok_inj in E1. now subst p'. }
  split; [exact (near_here _ _ N)|]. intros k Hk. apply (d_ext (fun w => v_trK (V w)) (fun w => mean_K (A w)) k v (v_trK_dD (V v) k) _ Hk).
  - eapply near_imp; [exact N|]. intros w X. symmetry. exact X.
  - reflexivity.
  - exact (k_trK _ _ (s_vars _ _ _ _ S) k Hk).
Qed.
Lemma ham_val : forall (g u A Rb Phi : nat -> nat -> R) (p1 : nat -> R) (e em K : R) a Ric, two_sided3 g u -> sym3 g -> sym3 u -> sym3 A -> e * em = 1 -> s3 (fun i => s3 (fun j => u i j * A i j)) = 0 ->
  (forall i j, (i < 3)%nat -> (j < 3)%nat -> a_gammaUU a i j = u i j * em) -> (forall i j, a_KDD a i j = e * A i j + 1 / 3 * (e * g i j) * K) ->
  (forall i j, (i < 3)%nat -> (j < 3)%nat -> Ric i j = Rb i j - 2 * Phi i j - 2 * g i j * s3 (fun i => s3 (fun j => u i j * Phi i j)) + 4 * p1 i * p1 j
      - 4 * g i j * s3 (fun i => s3 (fun j => u i j * p1 i * p1 j))) ->
  hamiltonian a Ric = em * (s3 (fun i => s3 (fun j => u i j * Rb i j)) - 8 * s3 (fun i => s3 (fun j => u i j * Phi i j)) - 8 * s3 (fun i => s3 (fun j => u i j * p1 i * p1 j)))
    + K * K - (s3 (fun i => s3 (fun j => A i j * s3 (fun k => s3 (fun l => u i k * u j l * A k l)))) + 1 / 3 * K * K).
Proof.
  intros g u A Rb Phi p1 e em K a Ric TS SG SU SA EM T0 AU AK RR. unfold hamiltonian. rewrite (mean_alg g u A e em K a TS SG EM T0 AU AK).
  rewrite <- (up_ric g u em TS SG Rb Phi p1 _ _ eq_refl eq_refl), <- (up_K2 g u A e em K TS SG SU SA EM T0). f_equal; [f_equal|].
  - apply s3_ext. intros i Hi. apply s3_ext. intros j Hj. now rewrite (AU i j Hi Hj), (RR i j Hi Hj).
  - apply s3_ext. intros i Hi. apply s3_ext. intros j Hj. apply s3_ext. intros k Hk. apply s3_ext. intros l Hl. now rewrite (AU i k Hi Hk), (AU j l Hj Hl), !AK.
Qed.
(** What BSSN_constraints returns *)
Lemma cons_form : forall nm src m b c u d ps, BSSN_constraints nm true None src m b = Ok c -> inv3 (gammabarDD m b) = Ok (u, d) -> phi_part nm b = Ok ps ->
  let q := MkQ u (RbarDD m b u) ps (fun i j => phi_dDD ps i j + s3 (fun k => - GammabarUDD m b u k i j * phi_dD ps k)) in
  let '(sH, sM) := match src with Some s => s | None => (0, fun _ => 0) end in
  c_H c = H_constraint m b q + sH /\ (forall i, c_MU c i = MU_constraint m b q i + sM i) /\ c_Msquared c = s3 (fun i => s3 (fun j => gammabarDD m b i j * c_MU c i * c_MU c j)) /\
  forall i, c_mU c i = c_MU c i / h_ReU m i.
Proof.
  intros nm src m b c u d ps E I P. unfold BSSN_constraints, bssn_quantities in E. rewrite I, P in E. cbn [py_bind negb fst] in E. cbn zeta.
  destruct src as [[sH sM]|]; apply ok_inj in E; subst c; cbn [c_H c_MU c_Msquared c_mU]; repeat split; reflexivity.
Qed.
Lemma H_alg : forall (A U : nat -> nat -> R) (K em rho n t : R),
  2 / 3 * (K * K) + s3 (fun i => s3 (fun j => - A i j * U i j)) + em * (rho - 8 * (n + t)) + 0 = em * (rho - 8 * t - 8 * n) + K * K - (s3 (fun i => s3 (fun j => A i j * U i j)) + 1 / 3 * K * K).
Proof. intros. rewrite !s3_eq. field. Qed.
(** H is the Hamiltonian constraint R + K^2 - K_ij K^ij of the physical metric and extrinsic curvature. *)
Theorem C65_hamiltonian : forall cs r V v nm u A c, bssn_data cs r V v nm u A -> BSSN_constraints nm true None None (ref_at r v) (V v) = Ok c ->
  exists dGam, (forall i j k l, (i < 3)%nat -> (j < 3)%nat -> (k < 3)%nat -> (l < 3)%nat -> d_at (fun w => a_GammaUDD (A w) i j k) l v (dGam i j k l)) /\
  c_H c = hamiltonian (A v) (ricci (a_GammaUDD (A v)) dGam).
Proof.
  intros cs r V v nm u A c D E. destruct (phys_here _ _ _ _ _ _ _ D) as (p & ps & em & X). cbn zeta in X.
  destruct X as (P1 & P3 & EEM & EM & NZ & TS & SG & SU & SA & (d & I) & Z1 & Z2 & Z3 & Z4 & Z5 & Z6 & dGam & DG & RG). exists dGam. split; [exact DG|].
  destruct (cons_form _ _ _ _ _ _ _ _ E I P3) as (CH & _). cbn [fst snd] in CH. rewrite CH.
  rewrite (ham_val (gammabarDD (ref_at r v) (V v)) (u v) (AbarDD (ref_at r v) (V v)) (RbarDD (ref_at r v) (V v) (u v)) _ (phi_dD ps) p em (v_trK (V v)) (A v) _ TS SG SU SA EM (near_here _ _ (b_tr _ _ _ _ _ _ _ D)) Z3 Z4 RG).
  unfold H_constraint, AbarUU, Rbartrace, phi_dBar_times_phi_dBar, phi_dBarDD_contraction. cbn [q_gUU q_phi q_Rbar q_phi_dBarDD]. rewrite <- EEM. apply H_alg.
Qed.
(** MU is the momentum constraint D_j (K^ij - gamma^ij K). *)
Definition momentum (a : adm_of) (dK : nat -> R) (i : nat) : R :=
  s3 (fun j => s3 (fun k => s3 (fun l => a_gammaUU a i k * a_gammaUU a j l * cov_DD (a_GammaUDD a) (a_KDD a) (a_KDDdD a) k l j))) - s3 (fun j => a_gammaUU a i j * dK j).
Lemma DA_alg : forall (G : nat -> nat -> nat -> R) (A : nat -> nat -> R) (x : R) k l j, (forall n a, (n < 3)%nat -> (a < 3)%nat -> G n j a = G n a j) -> (k < 3)%nat -> (l < 3)%nat ->
  x + s3 (fun n => - G n j k * A n l + - G n j l * A k n) = x - s3 (fun n => G n k j * A n l) - s3 (fun n => G n l j * A k n).
Proof. intros G A x k l j S Hk Hl. rewrite !s3_eq. rewrite !(fun n Hn => S n k Hn Hk), !(fun n Hn => S n l Hn Hl) by lia. ring. Qed.
Theorem C65_momentum : forall cs r V v nm u A c, bssn_data cs r V v nm u A -> BSSN_constraints nm true None None (ref_at r v) (V v) = Ok c ->
  exists dK, (forall k, (k < 3)%nat -> d_at (fun w => mean_K (A w)) k v (dK k)) /\ forall i, (i < 3)%nat ->
  c_MU c i = momentum (A v) dK i /\ c_mU c i * h_ReU (ref_at r v) i = momentum (A v) dK i.
Proof.
  intros cs r V v nm u A c D E. exists (v_trK_dD (V v)). split; [exact (proj2 (C65_mean _ _ _ _ _ _ _ D))|].
  destruct (phys_here _ _ _ _ _ _ _ D) as (p & ps & em & X). cbn zeta in X.
  destruct X as (P1 & P3 & EEM & EM & NZ & TS & SG & SU & SA & (d & I) & Z1 & Z2 & Z3 & Z4 & Z5 & Z6 & _).
  destruct (cons_form _ _ _ _ _ _ _ _ E I P3) as (_ & CM & _ & Cm). cbn [fst snd] in CM.
  assert (KEY : forall i, (i < 3)%nat -> c_MU c i = momentum (A v) (v_trK_dD (V v)) i).
  { intros i Hi. rewrite CM, Rplus_0_r. destruct (C62_connection cs r V v (u v) d (b_set _ _ _ _ _ _ _ D) I) as (GS & GC & _). cbn zeta in GS, GC.
    unfold MU_constraint. cbn [q_gUU q_phi]. rewrite <- EEM.
    transitivity (s3 (fun j => s3 (fun k => s3 (fun l => (u v i k * em) * (u v j l * em) * cov_DD (fun n a c => GammabarUDD (ref_at r v) (V v) (u v) n a c + Ce (gammabarDD (ref_at r v) (V v)) (fun k => s3 (fun n => u v k n * phi_dD ps n)) (phi_dD ps) n a c)
       (fun i j => p * AbarDD (ref_at r v) (V v) i j + 1 / 3 * (p * gammabarDD (ref_at r v) (V v) i j) * v_trK (V v))
       (fun i j k => 4 * p * phi_dD ps k * AbarDD (ref_at r v) (V v) i j + p * AbarDD_dD (ref_at r v) (V v) i j k + 1 / 3 * ((4 * p * phi_dD ps k * gammabarDD (ref_at r v) (V v) i j + p * gammabarDD_dD (ref_at r v) (V v) i j k) * v_trK (V v) + p * gammabarDD (ref_at r v) (V v) i j * v_trK_dD (V v) k)) k l j)))
       - s3 (fun j => u v i j * em * v_trK_dD (V v) j)).
    - rewrite (mom (gammabarDD (ref_at r v) (V v)) (u v) (AbarDD (ref_at r v) (V v)) (phi_dD ps) (v_trK_dD (V v)) p em (v_trK (V v)) (GammabarUDD (ref_at r v) (V v) (u v)) (gammabarDD_dD (ref_at r v) (V v)) (AbarDD_dD (ref_at r v) (V v))
         TS SG SU SA EM (near_here _ _ (b_tr _ _ _ _ _ _ _ D))); [|intros a c0 l Ha Hc Hl; pose proof (GC a c0 l Ha Hc Hl) as Y; unfold cov_DD in Y; lra|exact Hi].
      f_equal. f_equal. apply s3_ext. intros j Hj. apply s3_ext. intros k Hk. apply s3_ext. intros l Hl. f_equal. unfold AbarDD_dBarD. cbn [q_gUU].
      apply DA_alg; [|exact Hk|exact Hl]. intros n a Hn Ha. exact (GS n j a Hn Hj Ha).
    - unfold momentum. f_equal.
      + apply s3_ext. intros j Hj. apply s3_ext. intros k Hk. apply s3_ext. intros l Hl. rewrite (Z3 i k Hi Hk), (Z3 j l Hj Hl). f_equal. unfold cov_DD. rewrite Z5. f_equal; [f_equal|].
        * apply s3_ext. intros n Hn. now rewrite (Z6 n k j Hn Hk Hj), Z4.
        * apply s3_ext. intros n Hn. now rewrite (Z6 n l j Hn Hl Hj), Z4.
      + apply s3_ext. intros j Hj. now rewrite (Z3 i j Hi Hj). }
  intros i Hi. split; [now apply KEY|]. rewrite Cm, <- (KEY i Hi). pose proof (near_here _ _ (decl_gd_sym _ _ _ _ (b_set _ _ _ _ _ _ _ D))) as (GE & _).
  field. exact (e_ReU _ GE i Hi).
Qed.
(** Msquared is M^i M_i up to the conformal factor: the index is lowered with gammabar, not with gamma. *)
Theorem C65_Msquared : forall cs r V v nm u A src c, bssn_data cs r V v nm u A -> BSSN_constraints nm true None src (ref_at r v) (V v) = Ok c ->
  exists p, exp4phi_of nm (v_cf (V v)) = Ok p /\ s3 (fun i => s3 (fun j => a_gammaDD (A v) i j * c_MU c i * c_MU c j)) = p * c_Msquared c.
Proof.
  intros cs r V v nm u A src c D E. destruct (phys_here _ _ _ _ _ _ _ D) as (p & ps & em & X). cbn zeta in X.
  destruct X as (P1 & P3 & _ & _ & _ & _ & _ & _ & _ & (d & I) & Z1 & _). exists p. split; [exact P1|].
  pose proof (cons_form _ _ _ _ _ _ _ _ E I P3) as Y. cbn zeta in Y. assert (M2 : c_Msquared c = s3 (fun i => s3 (fun j => gammabarDD (ref_at r v) (V v) i j * c_MU c i * c_MU c j))) by (destruct src as [[sH sM]|]; tauto).
  rewrite M2, <- s3_scale. apply s3_ext. intros i Hi. rewrite <- s3_scale. apply s3_ext. intros j Hj. rewrite Z1. ring.
Qed.
(** The extrinsic curvature evolves as
    K_ij,t = -D_i D_j alpha + alpha (R_ij + K K_ij - 2 K_ik K^k_j) + (L_beta K)_ij - 1/3 alpha gamma_ij H. *)
Definition adm_rhs (al : R) (ad : nat -> R) (add : nat -> nat -> R) (be : nat -> R) (bd : nat -> nat -> R) (a : adm_of) (Ric : nat -> nat -> R) (i j : nat) : R :=
  - cov_D (a_GammaUDD a) ad add i j
  + al * (Ric i j + mean_K a * a_KDD a i j - 2 * s3 (fun k => s3 (fun l => a_KDD a i k * a_gammaUU a k l * a_KDD a l j)))
  + s3 (fun k => be k * a_KDDdD a i j k + bd k i * a_KDD a k j + bd k j * a_KDD a i k).
Lemma lie_K : forall (p K : R) (be p1 Kd : nat -> R) (bd g A : nat -> nat -> R) (gd Ad : nat -> nat -> nat -> R) i j,
  s3 (fun k => be k * (4 * p * p1 k * A i j + p * Ad i j k + 1 / 3 * ((4 * p * p1 k * g i j + p * gd i j k) * K + p * g i j * Kd k))
     + bd k i * (p * A k j + 1 / 3 * (p * g k j) * K) + bd k j * (p * A i k + 1 / 3 * (p * g i k) * K)) =
  4 * p * s3 (fun k => be k * p1 k) * A i j + p * s3 (fun k => be k * Ad i j k + bd k i * A k j + bd k j * A i k)
  + 1 / 3 * ((4 * p * s3 (fun k => be k * p1 k) * g i j + p * s3 (fun k => be k * gd i j k + bd k i * g k j + bd k j * g i k)) * K + p * g i j * s3 (fun k => be k * Kd k)).
Proof. intros. rewrite !s3_eq. ring. Qed.
Lemma scal_AA : forall (A B : nat -> nat -> R) (al : R) i j, s3 (fun k => - 2 * al * A i k * B k j) = - 2 * al * s3 (fun k => A i k * B k j).
Proof. intros. rewrite !s3_eq. ring. Qed.
Lemma adm_shape : forall p f A Ar g gr K Kr a k : R,
  4 * p * f * A + p * (Ar + a) + 1 / 3 * ((4 * p * f * g + p * gr) * K + p * g * (Kr + k)) = 4 * p * f * A + p * Ar + 1 / 3 * ((4 * p * f * g + p * gr) * K + p * g * Kr) + (p * a + 1 / 3 * (p * g) * k).
Proof. intros. ring. Qed.
Lemma up_trKrhs0 : forall (u A : nat -> nat -> R) (em K : R), sym3 u -> forall (al bK : R) (Da AU : nat -> nat -> R) (p ad : nat -> R),
  1 / 3 * al * K * K + bK + s3 (fun i => s3 (fun j => - em * u i j * (Da i j + 2 * ad j * p i))) + s3 (fun i => s3 (fun j => al * A i j * AU i j)) =
  1 / 3 * al * K * K + bK - em * (s3 (fun i => s3 (fun j => u i j * Da i j)) + 2 * s3 (fun k => s3 (fun n => u k n * p n) * ad k)) + al * s3 (fun i => s3 (fun j => A i j * AU i j)).
Proof. intros u A em K SU al bK Da AU p ad. rewrite <- (up_trKrhs u A em K SU al bK Da AU p ad). ring. Qed.
Lemma extrinsic_src : forall cs r V v nm u A src rh X At p0, bssn_data cs r V v nm u A -> centred (V v) ->
  BSSN_RHSs nm true None src (ref_at r v) (V v) = Ok rh -> flows rh (V v) X -> near0 (fun t => BSSN_to_ADM nm true (ref_at r v) (X t) = Ok (At t)) -> exp4phi_of nm (v_cf (V v)) = Ok p0 ->
  exists dGam, (forall i j k l, (i < 3)%nat -> (j < 3)%nat -> (k < 3)%nat -> (l < 3)%nat -> d_at (fun w => a_GammaUDD (A w) i j k) l v (dGam i j k l)) /\
  let Ric := ricci (a_GammaUDD (A v)) dGam in let b := V v in let m := ref_at r v in
  forall i j, (i < 3)%nat -> (j < 3)%nat -> derivable_pt_lim (fun t => a_KDD (At t) i j) 0
    (adm_rhs (v_alpha b) (v_alpha_dD b) (v_alpha_dDD b) (betaU m b) (betaU_dD m b) (A v) Ric i j - 1 / 3 * v_alpha b * a_gammaDD (A v) i j * hamiltonian (A v) Ric
     + (p0 * sA_of src i j + 1 / 3 * a_gammaDD (A v) i j * sK_of src)).
Proof.
  intros cs r V v nm u A src rh X At p0 D C E FL NA P0. destruct (phys_here _ _ _ _ _ _ _ D) as (p & ps & em & Y). cbn zeta in Y.
  destruct Y as (P1 & P3 & EEM & EM & NZ & TS & SG & SU & SA & (d & I) & Z1 & Z2 & Z3 & Z4 & Z5 & Z6 & dGam & DG & RG). rewrite P1 in P0. apply ok_inj in P0. subst p0. exists dGam. split; [exact DG|].
  cbn zeta. intros i j Hi Hj. pose proof (b_set _ _ _ _ _ _ _ D) as S. pose proof (near_here _ _ (decl_gd_sym _ _ _ _ S)) as (GE & _). pose proof (near_here _ _ (b_tr _ _ _ _ _ _ _ D)) as T0. cbn beta in T0.
  destruct (rhs_form _ _ _ _ _ _ E) as (u0 & d0 & ps0 & I0 & EP & Q). cbn zeta in Q. destruct Q as (_ & EC & EK & EH & EA).
  rewrite I in I0. apply ok_inj in I0. assert (Eu : u0 = u v) by congruence. subst u0. clear I0 d0. rewrite P3 in EP. apply ok_inj in EP. subst ps0.
  pose proof (names_of _ _ _ P3) as NM. destruct (names_total nm NM) as (pf & ph & ps' & TOT). pose proof (TOT (V v)) as (Q1 & Q2 & _).
  rewrite P1 in Q1. apply ok_inj in Q1. pose proof (b_cf _ _ _ _ _ _ _ D) as CF. destruct (phi_same _ _ _ _ _ P1 ltac:(rewrite Q1; exact Q2) P3 CF) as (_ & PD & _ & PU). specialize (PU (n_cf _ C)).
  pose proof (t_e _ _ _ _ _ _ FL EC (fun t => pf (X t)) (fun t => proj1 (TOT (X t))) CF) as DP. cbn beta in DP. rewrite (f_start _ _ _ FL), <- Q1 in DP.
  pose proof (t_g _ _ _ _ _ GE FL EH i j Hi Hj) as Dg. pose proof (t_A _ _ _ _ _ _ GE FL EA i j Hi Hj) as DA. pose proof (f_trK _ _ _ FL) as DK. rewrite EK in DK.
  apply (t_ext (fun t => pf (X t) * AbarDD (ref_at r v) (X t) i j + 1 / 3 * (pf (X t) * gammabarDD (ref_at r v) (X t) i j * v_trK (X t)))).
  { eapply near0_imp; [exact NA|]. intros t E0. destruct (adm_form _ _ _ _ E0) as (p' & ph' & up' & dp' & E1 & _ & _ & Z). cbn zeta in Z.
    rewrite (proj1 (TOT (X t))) in E1. apply ok_inj in E1. subst p'. destruct Z as (_ & _ & _ & _ & -> & _). ring. }
  pose proof (derivable_pt_lim_plus _ _ _ _ _ (derivable_pt_lim_mult _ _ _ _ _ DP DA) (derivable_pt_lim_scal _ (1 / 3) _ _ (derivable_pt_lim_mult _ _ _ _ _ (derivable_pt_lim_mult _ _ _ _ _ DP Dg) DK))) as DD.
  unfold mult_fct in DD. cbn beta in DD. rewrite (f_start _ _ _ FL), <- Q1 in DD.
  match type of DD with derivable_pt_lim _ _ ?x => match goal with |- derivable_pt_lim _ _ ?y => replace y with x; [exact DD|] end end. clear DD DP Dg DA DK.
  rewrite (ham_val (gammabarDD (ref_at r v) (V v)) (u v) (AbarDD (ref_at r v) (V v)) (RbarDD (ref_at r v) (V v) (u v)) _ (phi_dD ps) p em (v_trK (V v)) (A v) _ TS SG SU SA EM T0 Z3 Z4 RG).
  unfold adm_rhs. rewrite (mean_alg _ _ _ p em (v_trK (V v)) (A v) TS SG EM T0 Z3 Z4), (RG i j Hi Hj).
  rewrite (s3_ext (fun k => s3 (fun l => a_KDD (A v) i k * a_gammaUU (A v) k l * a_KDD (A v) l j)) (fun k => s3 (fun l => (p * AbarDD (ref_at r v) (V v) i k + 1 / 3 * (p * gammabarDD (ref_at r v) (V v) i k) * v_trK (V v)) * (u v k l * em) * (p * AbarDD (ref_at r v) (V v) l j + 1 / 3 * (p * gammabarDD (ref_at r v) (V v) l j) * v_trK (V v)))))
    by (intros k Hk; apply s3_ext; intros l Hl; now rewrite (Z3 k l Hk Hl), !Z4).
  rewrite (up_KK _ _ (AbarDD (ref_at r v) (V v)) p em (v_trK (V v)) TS EM i j Hi Hj).
  rewrite (s3_ext (fun k => betaU (ref_at r v) (V v) k * a_KDDdD (A v) i j k + betaU_dD (ref_at r v) (V v) k i * a_KDD (A v) k j + betaU_dD (ref_at r v) (V v) k j * a_KDD (A v) i k)
     (fun k => betaU (ref_at r v) (V v) k * (4 * p * phi_dD ps k * AbarDD (ref_at r v) (V v) i j + p * AbarDD_dD (ref_at r v) (V v) i j k + 1 / 3 * ((4 * p * phi_dD ps k * gammabarDD (ref_at r v) (V v) i j + p * gammabarDD_dD (ref_at r v) (V v) i j k) * v_trK (V v) + p * gammabarDD (ref_at r v) (V v) i j * v_trK_dD (V v) k))
     + betaU_dD (ref_at r v) (V v) k i * (p * AbarDD (ref_at r v) (V v) k j + 1 / 3 * (p * gammabarDD (ref_at r v) (V v) k j) * v_trK (V v)) + betaU_dD (ref_at r v) (V v) k j * (p * AbarDD (ref_at r v) (V v) i k + 1 / 3 * (p * gammabarDD (ref_at r v) (V v) i k) * v_trK (V v))))
    by (intros k Hk; now rewrite Z5, !Z4).
  rewrite (lie_K p (v_trK (V v)) (betaU (ref_at r v) (V v)) (phi_dD ps) (v_trK_dD (V v)) (betaU_dD (ref_at r v) (V v)) (gammabarDD (ref_at r v) (V v)) (AbarDD (ref_at r v) (V v)) (gammabarDD_dD (ref_at r v) (V v)) (AbarDD_dD (ref_at r v) (V v)) i j).
  rewrite Z1, Z4. unfold cov_D.
  rewrite (s3_ext (fun n => a_GammaUDD (A v) n i j * v_alpha_dD (V v) n) (fun n => (GammabarUDD (ref_at r v) (V v) (u v) n i j + Ce (gammabarDD (ref_at r v) (V v)) (fun k => s3 (fun n => u v k n * phi_dD ps n)) (phi_dD ps) n i j) * v_alpha_dD (V v) n))
    by (intros n Hn; now rewrite (Z6 n i j Hn Hi Hj)).
  rewrite (hess_alg (gammabarDD (ref_at r v) (V v)) (fun k => s3 (fun n => u v k n * phi_dD ps n)) (phi_dD ps) (v_alpha_dD (V v)) (GammabarUDD (ref_at r v) (V v) (u v)) _ i j Hi Hj).
  unfold gammabar_rhsDD, Abar_rhsDD, trK_rhs, curlybracketterms_trace, AbarUD, AbarUU. cbn [q_gUU q_phi].
  rewrite (trA_val _ _ _ SA). rewrite <- EEM.
  rewrite (phi_rhs_val (ref_at r v) (V v)) by (intros k Hk; cbn [q_phi]; now rewrite PU, PD). cbn [q_phi].
  rewrite (s3_ext (fun k => betaU (ref_at r v) (V v) k * gammabarDD_dupD (ref_at r v) (V v) i j k + _ + _) (fun k => betaU (ref_at r v) (V v) k * gammabarDD_dD (ref_at r v) (V v) i j k + betaU_dD (ref_at r v) (V v) k i * gammabarDD (ref_at r v) (V v) k j + betaU_dD (ref_at r v) (V v) k j * gammabarDD (ref_at r v) (V v) i k))
    by (intros k Hk; now rewrite (g_dup _ _ C)).
  rewrite (s3_ext (fun k => betaU (ref_at r v) (V v) k * AbarDD_dupD (ref_at r v) (V v) i j k + _ + _) (fun k => betaU (ref_at r v) (V v) k * AbarDD_dD (ref_at r v) (V v) i j k + betaU_dD (ref_at r v) (V v) k i * AbarDD (ref_at r v) (V v) k j + betaU_dD (ref_at r v) (V v) k j * AbarDD (ref_at r v) (V v) i k))
    by (intros k Hk; now rewrite (A_dup _ _ C)).
  rewrite (s3_ext (fun k => betaU (ref_at r v) (V v) k * v_trK_dupD (V v) k) (fun k => betaU (ref_at r v) (V v) k * v_trK_dD (V v) k)) by (intros k Hk; now rewrite (n_trK _ C)).
  rewrite (up_trKrhs0 (u v) (AbarDD (ref_at r v) (V v)) em (v_trK (V v)) SU).
  unfold curlybrackettermsDD. cbn [q_gUU q_phi q_Rbar q_phi_dBarDD]. rewrite (up_curly (u v) SU).
  rewrite (scal_AA (AbarDD (ref_at r v) (V v)) (fun k j => s3 (fun l => u v k l * AbarDD (ref_at r v) (V v) l j)) (v_alpha (V v)) i j).
  pose proof (adm_K p em (1 / 6 * (Dbarbetacontraction (ref_at r v) (V v) - v_alpha (V v) * v_trK (V v)) + s3 (fun k => betaU (ref_at r v) (V v) k * phi_dD ps k))
    (v_alpha (V v)) (v_trK (V v)) (Dbarbetacontraction (ref_at r v) (V v)) (s3 (fun i => s3 (fun j => u v i j * AbarDD (ref_at r v) (V v) i j)))
    (s3 (fun k => betaU (ref_at r v) (V v) k * phi_dD ps k)) (s3 (fun k => betaU (ref_at r v) (V v) k * v_trK_dD (V v) k))
    (s3 (fun k => betaU (ref_at r v) (V v) k * gammabarDD_dD (ref_at r v) (V v) i j k + betaU_dD (ref_at r v) (V v) k i * gammabarDD (ref_at r v) (V v) k j + betaU_dD (ref_at r v) (V v) k j * gammabarDD (ref_at r v) (V v) i k))
    (s3 (fun k => betaU (ref_at r v) (V v) k * AbarDD_dD (ref_at r v) (V v) i j k + betaU_dD (ref_at r v) (V v) k i * AbarDD (ref_at r v) (V v) k j + betaU_dD (ref_at r v) (V v) k j * AbarDD (ref_at r v) (V v) i k))
    (gammabarDD (ref_at r v) (V v) i j) (AbarDD (ref_at r v) (V v) i j) (s3 (fun k => AbarDD (ref_at r v) (V v) i k * s3 (fun l => u v k l * AbarDD (ref_at r v) (V v) l j)))
    (s3 (fun i => s3 (fun j => AbarDD (ref_at r v) (V v) i j * s3 (fun k => s3 (fun l => u v i k * u v j l * AbarDD (ref_at r v) (V v) k l)))))
    (phi_dD ps i) (phi_dD ps j) (phi_dDD ps i j + s3 (fun k => - GammabarUDD (ref_at r v) (V v) (u v) k i j * phi_dD ps k))
    (s3 (fun i => s3 (fun j => u v i j * (phi_dDD ps i j + s3 (fun k => - GammabarUDD (ref_at r v) (V v) (u v) k i j * phi_dD ps k)))))
    (s3 (fun i => s3 (fun j => u v i j * phi_dD ps i * phi_dD ps j))) (s3 (fun k => s3 (fun n => u v k n * phi_dD ps n) * v_alpha_dD (V v) k)) (v_alpha_dD (V v) i) (v_alpha_dD (V v) j)
    (v_alpha_dDD (V v) i j + s3 (fun k => - GammabarUDD (ref_at r v) (V v) (u v) k i j * v_alpha_dD (V v) k))
    (s3 (fun i => s3 (fun j => u v i j * (v_alpha_dDD (V v) i j + s3 (fun k => - GammabarUDD (ref_at r v) (V v) (u v) k i j * v_alpha_dD (V v) k)))))
    (RbarDD (ref_at r v) (V v) (u v) i j) (s3 (fun i => s3 (fun j => u v i j * RbarDD (ref_at r v) (V v) (u v) i j))) T0 EM eq_refl) as K.
  cbn zeta in K. unfold alpha_dBarDD. cbn [q_gUU].
  rewrite <- K. apply adm_shape.
Qed.

Theorem C65_extrinsic : forall cs r V v nm u A rh X At, bssn_data cs r V v nm u A -> centred (V v) ->
  BSSN_RHSs nm true None None (ref_at r v) (V v) = Ok rh -> flows rh (V v) X -> near0 (fun t => BSSN_to_ADM nm true (ref_at r v) (X t) = Ok (At t)) ->
  exists dGam, (forall i j k l, (i < 3)%nat -> (j < 3)%nat -> (k < 3)%nat -> (l < 3)%nat -> d_at (fun w => a_GammaUDD (A w) i j k) l v (dGam i j k l)) /\
  let Ric := ricci (a_GammaUDD (A v)) dGam in let b := V v in let m := ref_at r v in
  forall i j, (i < 3)%nat -> (j < 3)%nat -> derivable_pt_lim (fun t => a_KDD (At t) i j) 0
    (adm_rhs (v_alpha b) (v_alpha_dD b) (v_alpha_dDD b) (betaU m b) (betaU_dD m b) (A v) Ric i j - 1 / 3 * v_alpha b * a_gammaDD (A v) i j * hamiltonian (A v) Ric).
Proof.
  intros cs r V v nm u A rh X At D C E FL NA. destruct (phys_here _ _ _ _ _ _ _ D) as (p & ps & em & Y). cbn zeta in Y. destruct Y as (P1 & _).
  destruct (extrinsic_src cs r V v nm u A None rh X At p D C E FL NA P1) as (dG & DG & K). exists dG. split; [exact DG|]. cbn zeta in *. intros i j Hi Hj.
  pose proof (K i j Hi Hj) as Q. cbn [sK_of sA_of] in Q. rewrite !Rmult_0_r, !Rplus_0_r in Q. exact Q.
Qed.

(** *** Concrete case: the fields of ev_flow *)
Lemma ev_bssn : exists r v V u rh X, bssn_data "SinhSymTP" r V v "chi" u (fun w => adm_value "chi" (ref_at r w) (V w)) /\ centred (V v) /\
  (forall w, v_h (V w) 0%nat 1%nat = exx w 0%nat /\ v_a (V w) 0%nat 2%nat = exx w 1%nat /\ v_trK (V w) = exx w 1%nat) /\
  BSSN_RHSs "chi" true None None (ref_at r v) (V v) = Ok rh /\ flows rh (V v) X /\
  near0 (fun t => BSSN_to_ADM "chi" true (ref_at r v) (X t) = Ok (adm_value "chi" (ref_at r v) (X t))) /\
  exists c, BSSN_constraints "chi" true None None (ref_at r v) (V v) = Ok c.
Proof.
  destruct ev_point as (r & v & V & u & S & C & CF & EX & ED & N & T & NA & NL).
  assert (D : bssn_data "SinhSymTP" r V v "chi" u (fun w => adm_value "chi" (ref_at r w) (V w))).
  { constructor; auto. eapply near_imp; [exact N|]. intros w Iw. eexists. exact Iw. }
  destruct (rhs_total "chi" _ _ _ _ ltac:(cbn; tauto) (near_here _ _ N) None None) as (rh & E).
  assert (DC : declared (V v)) by exact (near_here _ _ (s_decl _ _ _ _ S)).
  destruct (C64_symmetric _ r V v "chi"%string None None rh S) as (S1 & S2); [|exact Logic.I|exact Logic.I|exact E|].
  { intros i j k Hi Hj Hk. rewrite !(n_h _ C), !(n_a _ C). split; [exact (y_hD _ DC i j k Hi Hj Hk)|].
    apply (d_unique (fun w => v_a (V w) i j) k v); [exact (k_a _ _ (s_vars _ _ _ _ S) i j k Hi Hj Hk)|].
    apply (d_ext (fun w => v_a (V w) j i) (fun w => v_a (V w) i j) k v (v_a_dD (V v) j i k) _ Hk); [|reflexivity|exact (k_a _ _ (s_vars _ _ _ _ S) j i k Hj Hi Hk)].
    eapply near_imp; [exact (s_decl _ _ _ _ S)|]. intros w Dw. exact (y_a _ Dw j i Hj Hi). }
  pose proof (linear_flows rh (V v) (y_h _ DC) (y_a _ DC) S1 S2) as FL. pose proof (near_here _ _ (decl_gd_sym _ _ _ _ S)) as (GE & _).
  exists r, v, V, u, rh, (linear rh (V v)). split; [exact D|]. split; [exact C|]. split; [exact EX|]. split; [exact E|]. split; [exact FL|].
  split; [exact (adm_flow _ _ _ _ _ _ _ GE (fun _ => CF) E FL)|].
  unfold BSSN_constraints, bssn_quantities. rewrite (near_here _ _ N). cbn [py_bind negb]. eexists. unfold phi_part. cbn [String.eqb Ascii.eqb Bool.eqb py_bind]. reflexivity.
Qed.
Example ex_C65_extrinsic : exists r v V u rh X At dGam, bssn_data "SinhSymTP" r V v "chi" u (fun w => adm_value "chi" (ref_at r w) (V w)) /\
  (forall w, v_a (V w) 0%nat 2%nat = exx w 1%nat /\ v_trK (V w) = exx w 1%nat) /\ flows rh (V v) X /\
  derivable_pt_lim (fun t => a_KDD (At t) 0%nat 2%nat) 0
    (adm_rhs (v_alpha (V v)) (v_alpha_dD (V v)) (v_alpha_dDD (V v)) (betaU (ref_at r v) (V v)) (betaU_dD (ref_at r v) (V v)) (adm_value "chi" (ref_at r v) (V v))
       (ricci (a_GammaUDD (adm_value "chi" (ref_at r v) (V v))) dGam) 0%nat 2%nat
     - 1 / 3 * v_alpha (V v) * a_gammaDD (adm_value "chi" (ref_at r v) (V v)) 0%nat 2%nat
       * hamiltonian (adm_value "chi" (ref_at r v) (V v)) (ricci (a_GammaUDD (adm_value "chi" (ref_at r v) (V v))) dGam)).
Proof.
  destruct ev_bssn as (r & v & V & u & rh & X & D & C & EX & E & FL & NA & _). destruct (C65_extrinsic _ r V v _ u _ rh X _ D C E FL NA) as (dG & _ & K).
  exists r, v, V, u, rh, X, (fun t => adm_value "chi" (ref_at r v) (X t)), dG. split; [exact D|]. split; [intros w; split; apply EX|]. split; [exact FL|]. exact (K 0%nat 2%nat ltac:(lia) ltac:(lia)).
Qed.
Example ex_C65_constraints : exists r v V u c dGam dK, bssn_data "SinhSymTP" r V v "chi" u (fun w => adm_value "chi" (ref_at r w) (V w)) /\
  (forall w, v_a (V w) 0%nat 2%nat = exx w 1%nat /\ v_trK (V w) = exx w 1%nat) /\ BSSN_constraints "chi" true None None (ref_at r v) (V v) = Ok c /\
  c_H c = hamiltonian (adm_value "chi" (ref_at r v) (V v)) (ricci (a_GammaUDD (adm_value "chi" (ref_at r v) (V v))) dGam) /\
  d_at (fun w => mean_K (adm_value "chi" (ref_at r w) (V w))) 1 v (dK 1%nat) /\ c_MU c 1%nat = momentum (adm_value "chi" (ref_at r v) (V v)) dK 1%nat.
Proof.
  destruct ev_bssn as (r & v & V & u & rh & X & D & C & EX & _ & _ & _ & c & E). destruct (C65_hamiltonian _ r V v _ u _ c D E) as (dG & _ & H). destruct (C65_momentum _ r V v _ u _ c D E) as (dK & DK & M).
  exists r, v, V, u, c, dG, dK. split; [exact D|]. split; [intros w; split; apply EX|]. split; [exact E|]. split; [exact H|]. split; [exact (DK 1%nat ltac:(lia))|]. exact (proj1 (M 1%nat ltac:(lia))).
Qed.

(** *** Msquared is not M^i M_i *)
Definition fl_fields (w : env) : vars :=
  MkVars (fun _ _ => 0) (fun _ _ => 0) (fun _ => 0) (fun _ => 0) (fun _ => 0) (exx w 1%nat) 2 1 (fun _ _ _ => 0) (fun _ _ _ => 0) (fun _ _ _ _ => 0) (fun _ _ _ => 0) (fun _ _ _ => 0)
    (fun _ _ => 0) (fun _ _ => 0) (fun _ _ => 0) (fun _ _ => 0) (fun _ _ _ => 0) (fun _ => 0) (fun _ => 0) (fun _ _ => 0) (fun k => kr k 1) (fun k => kr k 1) (fun _ => 0) (fun _ _ => 0).
Lemma fl_setting : forall cs r v, reference_metric cs false = Ok r -> good (ep v) -> inside (r_coord r) v -> setting cs r fl_fields v.
Proof.
  intros cs r v H G I. constructor; auto.
  - constructor; intros; cbn; first [apply d_xx|apply d_const].
  - apply near_all. intros w. constructor; intros; repeat intro; cbn; try split; ring.
Qed.
Lemma fl_g : forall m w i j, gammabarDD m (fl_fields w) i j = h_g m i j.
Proof. intros. unfold gammabarDD. cbn. ring. Qed.
Lemma fl_gd : forall m w i j k, gammabarDD_dD m (fl_fields w) i j k = h_gD m i j k.
Proof. intros. unfold gammabarDD_dD. cbn. ring. Qed.
Lemma fl_A : forall m w i j, AbarDD m (fl_fields w) i j = 0.
Proof. intros. unfold AbarDD. cbn. ring. Qed.
Lemma fl_bssn : exists r v u, bssn_data "SinhSymTP" r fl_fields v "chi" u (fun w => adm_value "chi" (ref_at r w) (fl_fields w)).
Proof.
  destruct ex_point as (r & v & H & G & I). pose proof (fl_setting _ r v H G I) as S. pose proof (near_here _ _ (decl_gd_sym _ _ _ _ S)) as (GE & SG & _).
  destruct (inv3_total _ SG) as (u0 & I0).
  { rewrite (det3_ext _ (h_g (ref_at r v))) by (intros; apply fl_g). rewrite <- (e_det _ GE). pose proof (e_pos _ GE). lra. }
  destruct (near_inverse _ _ _ _ S _ _ I0) as (u & d & _ & N). exists r, v, u. constructor.
  - exact S.
  - intros _. cbn. lra.
  - eapply near_imp; [exact N|]. intros w Iw. eexists. exact Iw.
  - eapply near_imp; [exact (near_and _ _ _ N (decl_gd_sym _ _ _ _ S))|]. intros w (Iw & GEw & SGw & _). unfold adm_value.
    destruct (to_adm "chi" (ref_at r w) (fl_fields w) (1 / 2)) as (a & _ & _ & EA & _); [cbn; tauto| |reflexivity|lra| |rewrite EA; reflexivity].
    + split; [exact (e_sym _ GEw)|]. split; [exact (e_ReDDsym _ GEw)|]. split; intros i j _ _; reflexivity.
    + destruct (inv3_spec _ _ _ SGw Iw) as (<- & NZ & _). exact NZ.
  - apply near_all. intros w. rewrite (s3_ext _ (fun _ => 0)); [apply s3_0|]. intros i Hi. rewrite (s3_ext _ (fun _ => 0)); [apply s3_0|]. intros j Hj. rewrite fl_A. ring.
  - eapply near_imp; [exact (near_and _ _ _ N (near_and _ _ _ (near_ok _ r v H G I) (decl_gd_sym _ _ _ _ S)))|]. intros w (Iw & (Gw & Inw) & GEw & _) i Hi.
    pose proof (fl_setting _ r w H Gw Inw) as Sw. destruct (C62_connection _ r fl_fields w (u w) (d w) Sw Iw) as (_ & _ & UQ). cbn zeta in UQ.
    transitivity 0; [unfold LambdabarU; cbn; ring|]. symmetry. rewrite (s3_ext _ (fun _ => 0)); [apply s3_0|]. intros j Hj. rewrite (s3_ext _ (fun _ => 0)); [apply s3_0|]. intros k Hk.
    assert (GG : h_Gam (ref_at r w) i j k = GammabarUDD (ref_at r w) (fl_fields w) (u w) i j k).
    { apply UQ; [exact (e_Gam _ GEw)| |exact Hi|exact Hj|exact Hk].
      intros a c l Ha Hc Hl. unfold cov_DD. rewrite fl_gd, (e_compat _ GEw a c l Ha Hc Hl).
      rewrite (s3_ext (fun n => h_Gam (ref_at r w) n a l * gammabarDD (ref_at r w) (fl_fields w) n c) (fun n => h_Gam (ref_at r w) n a l * h_g (ref_at r w) n c)) by (intros; now rewrite fl_g).
      rewrite (s3_ext (fun n => h_Gam (ref_at r w) n c l * gammabarDD (ref_at r w) (fl_fields w) a n) (fun n => h_Gam (ref_at r w) n c l * h_g (ref_at r w) a n)) by (intros; now rewrite fl_g). ring. }
    rewrite GG. ring.
Qed.
Lemma fl_M : forall (g u : nat -> nat -> R) (M : nat -> R), two_sided3 g u -> sym3 g -> sym3 u -> (forall i, M i = (- (2 / 3) * u i 1%nat) * 2) ->
  s3 (fun i => s3 (fun j => g i j * M i * M j)) = 16 / 9 * u 1%nat 1%nat.
Proof.
  intros g u M TS SG SU EM.
  transitivity (16 / 9 * s3 (fun i => u i 1%nat * s3 (fun j => g i j * u j 1%nat))).
  - rewrite (s3_ext _ (fun i => s3 (fun j => g i j * ((- (2 / 3) * u i 1%nat) * 2) * ((- (2 / 3) * u j 1%nat) * 2)))) by (intros i Hi; apply s3_ext; intros j Hj; now rewrite !EM).
    rewrite !s3_eq. field.
  - f_equal. rewrite (s3_ext _ (fun i => u i 1%nat * (if Nat.eqb i 1 then 1 else 0))) by (intros i Hi; now rewrite (proj1 (two_sided_r g u TS i 1%nat Hi ltac:(lia)))).
    rewrite s3_eq. cbn [Nat.eqb]. ring.
Qed.
Theorem C65_Msquared_refuted : exists cs r V v nm u A c, bssn_data cs r V v nm u A /\ BSSN_constraints nm true None None (ref_at r v) (V v) = Ok c /\
  c_Msquared c <> s3 (fun i => s3 (fun j => a_gammaDD (A v) i j * c_MU c i * c_MU c j)).
Proof.
  destruct fl_bssn as (r & v & u & D). destruct (phys_here _ _ _ _ _ _ _ D) as (p & ps & em & Y). cbn zeta in Y. destruct Y as (P1 & P3 & EEM & _ & _ & TS & SG & SU & _ & (d & I) & Z1 & _).
  assert (EC : exists c, BSSN_constraints "chi" true None None (ref_at r v) (fl_fields v) = Ok c).
  { unfold BSSN_constraints, bssn_quantities. rewrite I. cbn [py_bind negb]. eexists. unfold phi_part. cbn [String.eqb Ascii.eqb Bool.eqb py_bind]. reflexivity. }
  destruct EC as (c & E). exists "SinhSymTP"%string, r, fl_fields, v, "chi"%string, u, (fun w => adm_value "chi" (ref_at r w) (fl_fields w)), c. split; [exact D|]. split; [exact E|].
  destruct (C65_Msquared _ r fl_fields v _ u _ None c D E) as (p' & P1' & ->). pose proof (cons_form _ _ _ _ _ _ _ _ E I P3) as (_ & CM & M2 & _). cbn [fst snd] in CM.
  assert (Hp : p' = 1 / 2) by (apply ok_inj in P1'; symmetry; exact P1'). subst p'.
  assert (EM : forall i, c_MU c i = (- (2 / 3) * u v i 1%nat) * 2).
  { intros i. rewrite CM. unfold MU_constraint. cbn [q_gUU q_phi]. assert (X4 : exp_m4phi ps = 2) by (apply ok_inj in P3; rewrite <- P3; reflexivity). rewrite X4.
    rewrite (s3_ext (fun j => 6 * AbarUU (ref_at r v) (fl_fields v) (u v) i j * phi_dD ps j) (fun _ => 0)).
    2: { intros j Hj. replace (AbarUU (ref_at r v) (fl_fields v) (u v) i j) with 0; [ring|]. symmetry. unfold AbarUU. rewrite (s3_ext _ (fun _ => 0)); [apply s3_0|]. intros k Hk. rewrite (s3_ext _ (fun _ => 0)); [apply s3_0|]. intros l Hl. rewrite fl_A. ring. }
    rewrite (s3_ext (fun j => s3 (fun k => s3 (fun l => _))) (fun _ => 0)).
    2: { intros j Hj. rewrite (s3_ext _ (fun _ => 0)); [apply s3_0|]. intros k Hk. rewrite (s3_ext _ (fun _ => 0)); [apply s3_0|]. intros l Hl. unfold AbarDD_dBarD. rewrite (s3_ext _ (fun _ => 0)); [|intros n Hn; rewrite !fl_A; ring].
         rewrite s3_0. unfold AbarDD_dD. cbn. ring. }
    rewrite s3_0, s3_eq. cbn. unfold kr. cbn [Nat.eqb]. ring. }
  rewrite M2, (fl_M _ (u v) (c_MU c) TS SG SU EM).
  assert (NZ : u v 1%nat 1%nat <> 0).
  { pose proof (proj1 (two_sided_r _ _ TS 1%nat 1%nat ltac:(lia) ltac:(lia))) as T1. cbn [Nat.eqb] in T1. rewrite s3_eq, !fl_g in T1.
    intros Z. rewrite Z in T1. change (h_g (ref_at r v) 1%nat 0%nat) with (eval v (ghatDD (r_scale r) 1%nat 0%nat)) in T1. change (h_g (ref_at r v) 1%nat 2%nat) with (eval v (ghatDD (r_scale r) 1%nat 2%nat)) in T1.
    rewrite !ghat_val in T1. unfold delta in T1. cbn [Nat.eqb] in T1. lra. }
  intros X. apply NZ. lra.
Qed.

Print Assumptions C65_mean.
Print Assumptions C65_hamiltonian.
Print Assumptions C65_momentum.
Print Assumptions C65_Msquared.
Print Assumptions C65_Msquared_refuted.
Print Assumptions C65_extrinsic.
