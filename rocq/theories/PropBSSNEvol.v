(** The BSSN right-hand sides of BSSN_RHSs.py: they keep the algebraic constraints, and are the ADM equations in the conformal
    variables. *)
From Coq Require Import String List Arith Bool Lia Reals Lra.
From Verif Require Import PyBase Inverter InverterFacts GRMetric RefMetric RefMetricReal RefMetricFacts RefMetricFlat PropRefMetric BSSN BSSNFacts BSSNCalc BSSNGeo BSSNInv BSSNConn PropBSSNDeriv BSSNRicci BSSNRicciFacts PropBSSNRicci BSSNEvolAlg BSSNPhys BSSNTime BSSNEvolEx.
Import ListNotations.
Local Open Scope R_scope.

Lemma div_alg : forall (bd : nat -> nat -> R) (be : nat -> R) (G : nat -> nat -> nat -> R) (T : nat -> R),
  (forall n k, (n < 3)%nat -> (k < 3)%nat -> G k n k = G k k n) -> (forall l, (l < 3)%nat -> s3 (fun k => G k k l) = 1 / 2 * T l) ->
  s3 (fun k => bd k k + s3 (fun n => G k n k * be n)) = s3 (fun k => bd k k) + 1 / 2 * s3 (fun k => be k * T k).
Proof.
  intros bd be G T S E. rewrite s3_plus. f_equal. rewrite s3_swap, <- s3_scale. apply s3_ext. intros n Hn.
  rewrite (s3_ext _ (fun k => be n * G k k n)) by (intros k Hk; rewrite (S n k Hn Hk); ring). rewrite s3_scale, (E n Hn). ring.
Qed.
(** the divergence of the shift *)
Lemma div_val : forall cs r V v u d, setting cs r V v -> inv3 (gammabarDD (ref_at r v) (V v)) = Ok (u, d) ->
  near v (fun w => det3 (gammabarDD (ref_at r w) (V w)) = h_det (ref_at r w)) -> let m := ref_at r v in
  Dbarbetacontraction m (V v) = s3 (fun k => betaU_dD m (V v) k k)
    + 1 / 2 * s3 (fun k => betaU m (V v) k * s3 (fun a => s3 (fun c => u a c * gammabarDD_dD m (V v) a c k))).
Proof.
  intros cs r V v u0 d0 S I0 ND m. destruct (near_inverse _ _ _ _ S u0 d0 I0) as (u & d & <- & IV).
  destruct (C62_shift cs r V v u d S IV ND) as (E & _). cbn zeta in E. fold m in E. rewrite E. clear E. unfold cov_U.
  pose proof (near_here _ _ (at_near cs r V v u d S IV)) as (_ & SG & SU & TS & _). fold m in SG, TS.
  apply div_alg.
  - intros n k Hn Hk. destruct (C62_connection cs r V v (u v) d0 S I0) as (X & _). exact (X k n k Hk Hn Hk).
  - intros l Hl. exact (christoffel_trace _ (u v) (gammabarDD_dD m (V v)) TS SU (gd_sym _ _ _ _ S) l Hl).
Qed.
Lemma trA_val : forall m b u, sym3 (AbarDD m b) -> trAbar m b u = s3 (fun i => s3 (fun j => u i j * AbarDD m b i j)).
Proof. intros m b u SA. unfold trAbar. apply s3_ext. intros i Hi. apply s3_ext. intros j Hj. now rewrite (SA j i Hj Hi). Qed.
Lemma g_dup : forall m b, centred b -> forall i j k, gammabarDD_dupD m b i j k = gammabarDD_dD m b i j k.
Proof. intros m b C i j k. unfold gammabarDD_dupD. now rewrite (n_h _ C). Qed.
Lemma A_dup : forall m b, centred b -> forall i j k, AbarDD_dupD m b i j k = AbarDD_dD m b i j k.
Proof. intros m b C i j k. unfold AbarDD_dupD. now rewrite (n_a _ C). Qed.
Lemma rhs_g_trace : forall cs r V v rbar ps pb u d, setting cs r V v -> inv3 (gammabarDD (ref_at r v) (V v)) = Ok (u, d) ->
  near v (fun w => det3 (gammabarDD (ref_at r w) (V w)) = h_det (ref_at r w)) -> centred (V v) ->
  s3 (fun i => s3 (fun j => u i j * gammabar_rhsDD (ref_at r v) (V v) (MkQ u rbar ps pb) i j)) = 0.
Proof.
  intros cs r V v rbar ps pb u d S I0 ND C. pose proof (near_here _ _ (decl_gd_sym _ _ _ _ S)) as (GE & SG & SA).
  destruct (inv3_spec _ _ _ SG I0) as (_ & _ & TS). unfold gammabar_rhsDD. cbn [q_gUU].
  rewrite <- (trace_rhs _ u (gammabarDD_dD (ref_at r v) (V v)) (betaU (ref_at r v) (V v)) (betaU_dD (ref_at r v) (V v)) (v_alpha (V v)) _ _ (AbarDD (ref_at r v) (V v)) TS SG (inv3_sym _ _ _ I0)
     (trA_val _ _ _ SA) (div_val cs r V v u d S I0 ND)).
  apply s3_ext. intros i Hi. apply s3_ext. intros j Hj. f_equal. f_equal. f_equal. apply s3_ext. intros k Hk. now rewrite (g_dup _ _ C).
Qed.

Lemma raise_swap : forall (u A W : nat -> nat -> R), sym3 u ->
  s3 (fun i => s3 (fun j => s3 (fun a => s3 (fun c => u i a * u j c * A a c)) * W i j)) =
  s3 (fun i => s3 (fun j => s3 (fun a => s3 (fun c => u i a * u j c * W a c)) * A i j)).
Proof. intros u A W SU. rewrite !s3_eq. rewrite (SU 1%nat 0%nat), (SU 2%nat 0%nat), (SU 2%nat 1%nat) by lia. ring. Qed.

(** The determinant of gammabar does not change. *)
Theorem C64_determinant : forall cs r V v nm rbar src rh X, setting cs r V v ->
  near v (fun w => det3 (gammabarDD (ref_at r w) (V w)) = h_det (ref_at r w)) -> centred (V v) ->
  BSSN_RHSs nm true rbar src (ref_at r v) (V v) = Ok rh -> flows rh (V v) X ->
  derivable_pt_lim (fun t => det3 (gammabarDD (ref_at r v) (X t))) 0 0.
Proof.
  intros cs r V v nm rbar src rh X S ND C E FL. pose proof (near_here _ _ (decl_gd_sym _ _ _ _ S)) as (GE & _).
  destruct (rhs_form _ _ _ _ _ _ E) as (u & d & ps & I0 & _ & Q). cbn zeta in Q. destruct Q as (_ & _ & _ & EH & _).
  pose proof (t_det _ _ _ _ _ GE FL EH u d I0) as D. rewrite (rhs_g_trace cs r V v _ _ _ u d S I0 ND C), Rmult_0_r in D. exact D.
Qed.

(** The trace of Abar stays zero. *)
Theorem C64_trace : forall cs r V v nm rbar src rh X u d, setting cs r V v ->
  near v (fun w => det3 (gammabarDD (ref_at r w) (V w)) = h_det (ref_at r w)) -> centred (V v) ->
  near v (fun w => inv3 (gammabarDD (ref_at r w) (V w)) = Ok (u w, d w)) ->
  near v (fun w => s3 (fun i => s3 (fun j => u w i j * AbarDD (ref_at r w) (V w) i j)) = 0) ->
  match src with Some (_, sA, _) => s3 (fun i => s3 (fun j => u v i j * sA i j)) = 0 | None => True end ->
  BSSN_RHSs nm true rbar src (ref_at r v) (V v) = Ok rh -> flows rh (V v) X ->
  exists U D, near0 (fun t => inv3 (gammabarDD (ref_at r v) (X t)) = Ok (U t, D t)) /\
    derivable_pt_lim (fun t => s3 (fun i => s3 (fun j => U t i j * AbarDD (ref_at r v) (X t) i j))) 0 0.
Proof.
  intros cs r V v nm rbar src rh X u d S ND C IV NT NS E FL. pose proof (near_here _ _ (decl_gd_sym _ _ _ _ S)) as (GE & SG & SA).
  destruct (rhs_form _ _ _ _ _ _ E) as (u0 & d0 & ps & I0 & _ & Q). cbn zeta in Q. destruct Q as (_ & _ & _ & EH & EA).
  pose proof (near_here _ _ IV) as I1. rewrite I1 in I0. apply ok_inj in I0. assert (Eu : u0 = u v) by congruence. subst u0. clear I0 d0.
  destruct (t_inv _ _ _ _ _ GE FL EH _ _ I1) as (U & U0 & N). exists U, (fun t => det3 (gammabarDD (ref_at r v) (X t))). split; [exact N|].
  pose proof (t_tr _ _ _ _ _ _ GE FL EH EA U N) as D. rewrite U0 in D.
  destruct (inv3_spec _ _ _ SG I1) as (_ & _ & TS). pose proof (inv3_sym _ _ _ I1) as SU.
  set (m := ref_at r v) in *. set (b := V v) in *.
  assert (T0 : trAbar m b (u v) = 0) by (rewrite (trA_val _ _ _ SA); exact (near_here _ _ NT)).
  assert (DT : forall k, (k < 3)%nat -> s3 (fun i => s3 (fun j => u v i j * AbarDD_dD m b i j k)) =
     s3 (fun i => s3 (fun j => s3 (fun a => s3 (fun c => u v i a * u v j c * AbarDD m b a c)) * gammabarDD_dD m b i j k))).
  { intros k Hk.
    assert (Z : s3 (fun i => s3 (fun j => - s3 (fun a => s3 (fun c => u v i a * u v j c * gammabarDD_dD m b a c k)) * AbarDD m b i j + u v i j * AbarDD_dD m b i j k)) = 0).
    { apply (d_unique (fun w => s3 (fun i => s3 (fun j => u w i j * AbarDD (ref_at r w) (V w) i j))) k v).
      - apply (d_s3 (fun w i => s3 (fun j => u w i j * AbarDD (ref_at r w) (V w) i j))). intros i Hi.
        apply (d_s3 (fun w j => u w i j * AbarDD (ref_at r w) (V w) i j)). intros j Hj.
        destruct S as [HR Gd IN HV DC] eqn:ES.
        exact (d_mult _ _ k v _ _ (d_uu cs r V v u d S IV i j k Hi Hj Hk) (d_Abar _ _ _ (ref_at_ok cs r v HR Gd IN) HV i j k Hi Hj Hk)).
      - eapply d_ext; [exact Hk| |reflexivity|apply (d_const 0)]. eapply near_imp; [exact NT|]. intros w X0. symmetry. exact X0. }
    revert Z SU. generalize (u v) (gammabarDD_dD m b) (AbarDD m b) (AbarDD_dD m b). intros u0 gd A Ad Z SU.
    transitivity (s3 (fun i => s3 (fun j => u0 i j * Ad i j k)) - 0); [ring|]. rewrite <- Z. rewrite !s3_eq.
    rewrite (SU 1%nat 0%nat), (SU 2%nat 0%nat), (SU 2%nat 1%nat) by lia. ring. }
  assert (S0 : s3 (fun i => s3 (fun j => u v i j * sA_of src i j)) = 0).
  { destruct src as [[[sK sA] sL]|]; [exact NS|]. cbn [sA_of]. rewrite !s3_eq. ring. }
  pose proof (trace_A (gammabarDD m b) (u v) (gammabarDD_dD m b) (AbarDD_dD m b) (betaU m b) (betaU_dD m b) (v_alpha b) (trAbar m b (u v)) (Dbarbetacontraction m b)
    (exp_m4phi ps) (v_trK b) (AbarDD m b) (curlybrackettermsDD m b (MkQ (u v) (match rbar with Some r0 => r0 | None => RbarDD m b (u v) end) ps (fun i j => phi_dDD ps i j + s3 (fun k => - GammabarUDD m b (u v) k i j * phi_dD ps k))))
    (sA_of src) TS SG SU SA (trA_val _ _ _ SA) T0 DT S0) as TA. cbn zeta in TA.
  match type of D with derivable_pt_lim _ _ ?x => replace x with 0 in D; [exact D|symmetry] end.
  apply Rminus_diag_eq.
  match type of TA with ?a = ?c => transitivity a; [|transitivity c; [exact TA|]] end.
  - apply s3_ext. intros i Hi. apply s3_ext. intros j Hj. f_equal. unfold Abar_rhsDD, curlybracketterms_trace, AbarUD. cbn [q_gUU q_phi].
    f_equal. f_equal. f_equal. f_equal. apply s3_ext. intros k Hk. now rewrite (A_dup _ _ C).
  - unfold gammabar_rhsDD. cbn [q_gUU].
    rewrite (s3_ext (fun i => s3 (fun j => s3 (fun a => s3 (fun c => u v i a * u v j c * AbarDD m b a c)) * _))
      (fun i => s3 (fun j => s3 (fun a => s3 (fun c => u v i a * u v j c * AbarDD m b a c)) *
        (s3 (fun k => betaU m b k * gammabarDD_dupD m b i j k + betaU_dD m b k i * gammabarDD m b k j + betaU_dD m b k j * gammabarDD m b i k) +
         2 / 3 * gammabarDD m b i j * (v_alpha b * trAbar m b (u v) - Dbarbetacontraction m b) + - 2 * v_alpha b * AbarDD m b i j)))).
    + exact (raise_swap (u v) (AbarDD m b) _ SU).
    + intros i Hi. apply s3_ext. intros j Hj. f_equal. f_equal. f_equal. apply s3_ext. intros k Hk. now rewrite (g_dup _ _ C).
Qed.

(** The right-hand sides of hDD and aDD are symmetric. *)
Lemma rhs_sym_alg : forall (u A : nat -> nat -> R) (al : R), sym3 u -> sym3 A -> forall i j, (i < 3)%nat -> (j < 3)%nat ->
  s3 (fun k => - 2 * al * A i k * s3 (fun l => u k l * A l j)) = s3 (fun k => - 2 * al * A j k * s3 (fun l => u k l * A l i)).
Proof.
  intros u A al SU SA i j Hi Hj. rewrite !s3_eq. rewrite (SU 1%nat 0%nat), (SU 2%nat 0%nat), (SU 2%nat 1%nat) by lia.
  rewrite !(fun k Hk => SA k i Hk Hi), !(fun k Hk => SA k j Hk Hj) by lia. ring.
Qed.
Lemma lie_sym_alg : forall (be : nat -> R) (bd A : nat -> nat -> R) (Ad : nat -> nat -> nat -> R), sym3 A ->
  (forall i j k, (i < 3)%nat -> (j < 3)%nat -> (k < 3)%nat -> Ad i j k = Ad j i k) -> forall i j, (i < 3)%nat -> (j < 3)%nat ->
  s3 (fun k => be k * Ad i j k + bd k i * A k j + bd k j * A i k) = s3 (fun k => be k * Ad j i k + bd k j * A k i + bd k i * A j k).
Proof.
  intros be bd A Ad SA SD i j Hi Hj. apply s3_ext. intros k Hk. rewrite (SD i j k Hi Hj Hk), (SA k j Hk Hj), (SA k i Hk Hi). ring.
Qed.
Theorem C64_symmetric : forall cs r V v nm rbar src rh, setting cs r V v ->
  (forall i j k, (i < 3)%nat -> (j < 3)%nat -> (k < 3)%nat -> v_h_dupD (V v) i j k = v_h_dupD (V v) j i k /\ v_a_dupD (V v) i j k = v_a_dupD (V v) j i k) ->
  match rbar with Some R => sym3 R | None => True end -> match src with Some (_, sA, _) => sym3 sA | None => True end ->
  BSSN_RHSs nm true rbar src (ref_at r v) (V v) = Ok rh -> sym3 (r_h rh) /\ sym3 (r_a rh).
Proof.
  intros cs r V v nm rbar src rh S UP SR SS E. pose proof (near_here _ _ (decl_gd_sym _ _ _ _ S)) as (GE & SG & SA).
  destruct (rhs_form _ _ _ _ _ _ E) as (u & d & ps & I0 & EP & Q). cbn zeta in Q. destruct Q as (_ & _ & _ & EH & EA).
  pose proof (redd_sym1 cs r v (s_rm _ _ _ _ S) (s_good _ _ _ _ S) (s_inside _ _ _ _ S)) as RS. assert (DC : declared (V v)) by exact (near_here _ _ (s_decl _ _ _ _ S)).
  pose proof (proj1 (C62_connection cs r V v u d S I0)) as GS. pose proof (C63_symmetric cs r V v u d S I0) as RB. pose proof (inv3_sym _ _ _ I0) as SU.
  set (m := ref_at r v) in *. set (b := V v) in *.
  assert (HD : forall i j k, (i < 3)%nat -> (j < 3)%nat -> (k < 3)%nat -> h_gD m i j k = h_gD m j i k).
  { intros i j k Hi Hj Hk. rewrite (e_compat _ GE i j k Hi Hj Hk), (e_compat _ GE j i k Hj Hi Hk), Rplus_comm. f_equal; apply s3_ext; intros n Hn; f_equal; apply (e_sym _ GE); assumption. }
  assert (GU : forall i j k, (i < 3)%nat -> (j < 3)%nat -> (k < 3)%nat -> gammabarDD_dupD m b i j k = gammabarDD_dupD m b j i k).
  { intros i j k Hi Hj Hk. unfold gammabarDD_dupD. rewrite (HD i j k Hi Hj Hk), (proj1 (UP i j k Hi Hj Hk)), (e_ReDDsym _ GE i j Hi Hj), (RS i j k Hi Hj Hk), (y_h _ DC i j Hi Hj). reflexivity. }
  assert (AU : forall i j k, (i < 3)%nat -> (j < 3)%nat -> (k < 3)%nat -> AbarDD_dupD m b i j k = AbarDD_dupD m b j i k).
  { intros i j k Hi Hj Hk. unfold AbarDD_dupD. rewrite (proj2 (UP i j k Hi Hj Hk)), (e_ReDDsym _ GE i j Hi Hj), (RS i j k Hi Hj Hk), (y_a _ DC i j Hi Hj). reflexivity. }
  assert (PD : forall i j, (i < 3)%nat -> (j < 3)%nat -> phi_dDD ps i j = phi_dDD ps j i).
  { intros i j Hi Hj. pose proof (y_cfDD _ DC i j Hi Hj) as Y. unfold phi_part in EP.
    destruct (String.eqb nm "phi"); [apply ok_inj in EP; rewrite <- EP; exact Y|].
    destruct (String.eqb nm "W"); [|destruct (String.eqb nm "chi"); [|discriminate]]; apply ok_inj in EP; rewrite <- EP; cbn [phi_dDD];
      rewrite Y, (Rmult_comm (v_cf_dD (V v) i)); reflexivity. }
  rewrite EH, EA. split; intros i j Hi Hj; rewrite (e_ReDDsym _ GE i j Hi Hj); f_equal.
  - unfold gammabar_rhsDD. rewrite (lie_sym_alg _ _ _ _ SG GU i j Hi Hj), (SG i j Hi Hj), (SA i j Hi Hj). reflexivity.
  - f_equal.
    + unfold Abar_rhsDD. rewrite (lie_sym_alg _ _ _ _ SA AU i j Hi Hj), (SG i j Hi Hj), (SA i j Hi Hj). cbn [q_gUU q_phi].
      pose proof (rhs_sym_alg u (AbarDD m b) (v_alpha b) SU SA i j Hi Hj) as QS. unfold AbarUD. rewrite QS. f_equal. f_equal. f_equal.
      unfold curlybrackettermsDD, alpha_dBarDD. cbn [q_phi q_phi_dBarDD q_gUU q_Rbar].
      rewrite (PD i j Hi Hj), (y_alphaDD _ DC i j Hi Hj).
      rewrite (s3_ext (fun k => - GammabarUDD m b u k i j * phi_dD ps k) (fun k => - GammabarUDD m b u k j i * phi_dD ps k)) by (intros k Hk; now rewrite (GS k i j Hk Hi Hj)).
      rewrite (s3_ext (fun k => - GammabarUDD m b u k i j * v_alpha_dD b k) (fun k => - GammabarUDD m b u k j i * v_alpha_dD b k)) by (intros k Hk; now rewrite (GS k i j Hk Hi Hj)).
      assert (X : match rbar with Some r0 => r0 | None => RbarDD m b u end i j = match rbar with Some r0 => r0 | None => RbarDD m b u end j i).
      { destruct rbar as [R0|]; [exact (SR i j Hi Hj)|exact (RB i j Hi Hj)]. }
      rewrite X. ring.
    + destruct src as [[[sK sA] sL]|]; [exact (SS i j Hi Hj)|reflexivity].
Qed.

(** The physical metric evolves with its extrinsic curvature: gamma_ij,t = -2 alpha K_ij + (L_beta gamma)_ij. *)
Lemma lie_scaled : forall (p : R) (be p1 : nat -> R) (bd g : nat -> nat -> R) (gd : nat -> nat -> nat -> R) i j,
  s3 (fun k => be k * (4 * p * p1 k * g i j + p * gd i j k) + bd k i * (p * g k j) + bd k j * (p * g i k)) =
  4 * p * s3 (fun k => be k * p1 k) * g i j + p * s3 (fun k => be k * gd i j k + bd k i * g k j + bd k j * g i k).
Proof. intros. rewrite !s3_eq. ring. Qed.
Lemma phi_rhs_val : forall m b q, (forall k, (k < 3)%nat -> phi_dupD (q_phi q) k = phi_dD (q_phi q) k) ->
  phi_rhs m b q = 1 / 6 * (Dbarbetacontraction m b - v_alpha b * v_trK b) + s3 (fun k => betaU m b k * phi_dD (q_phi q) k).
Proof. intros m b q H. unfold phi_rhs. f_equal. apply s3_ext. intros k Hk. now rewrite (H k Hk). Qed.
Theorem C64_metric : forall cs r V v nm rbar src rh X A u d, setting cs r V v -> centred (V v) -> (nm <> "phi"%string -> v_cf (V v) <> 0) ->
  inv3 (gammabarDD (ref_at r v) (V v)) = Ok (u, d) -> s3 (fun i => s3 (fun j => u i j * AbarDD (ref_at r v) (V v) i j)) = 0 ->
  BSSN_RHSs nm true rbar src (ref_at r v) (V v) = Ok rh -> flows rh (V v) X ->
  near0 (fun t => BSSN_to_ADM nm true (ref_at r v) (X t) = Ok (A t)) ->
  let beta := betaU (ref_at r v) (V v) in let betaD := betaU_dD (ref_at r v) (V v) in
  forall i j, (i < 3)%nat -> (j < 3)%nat ->
  derivable_pt_lim (fun t => a_gammaDD (A t) i j) 0
    (- 2 * v_alpha (V v) * a_KDD (A 0) i j
     + s3 (fun k => beta k * a_gammaDDdD (A 0) i j k + betaD k i * a_gammaDD (A 0) k j + betaD k j * a_gammaDD (A 0) i k)).
Proof.
  intros cs r V v nm rbar src rh X A u d S C CF I1 T0 E FL NA beta betaD i j Hi Hj. pose proof (near_here _ _ (decl_gd_sym _ _ _ _ S)) as (GE & SG & SA).
  destruct (rhs_form _ _ _ _ _ _ E) as (u0 & d0 & ps & I0 & EP & Q). cbn zeta in Q. destruct Q as (_ & EC & _ & EH & EA).
  rewrite I1 in I0. apply ok_inj in I0. assert (Eu : u0 = u) by congruence. subst u0. clear I0 d0.
  assert (NM : In nm cf_names) by (unfold phi_part in EP; destruct (String.eqb_spec nm "phi") as [->|]; [cbn; tauto|]; destruct (String.eqb_spec nm "W") as [->|]; [cbn; tauto|]; destruct (String.eqb_spec nm "chi") as [->|]; [cbn; tauto|discriminate]).
  destruct (names_total nm NM) as (p & ph & ps' & TOT). pose proof (TOT (V v)) as (P1 & P2 & P3). rewrite EP in P3. apply ok_inj in P3.
  destruct (phi_same _ _ _ _ _ P1 P2 EP CF) as (PE & PD & _ & PU). specialize (PU (n_cf _ C)).
  pose proof (t_e _ _ _ _ _ _ FL EC (fun t => p (X t)) (fun t => proj1 (TOT (X t))) CF) as DP. cbn beta in DP. rewrite (f_start _ _ _ FL) in DP.
  pose proof (t_g _ _ _ _ _ GE FL EH i j Hi Hj) as DG.
  pose proof (near0_here _ NA) as A0. cbn beta in A0. rewrite (f_start _ _ _ FL) in A0. destruct (adm_form _ _ _ _ A0) as (p' & ph' & up & dp & E1 & E2 & _ & Z). cbn zeta in Z.
  rewrite P1 in E1. apply ok_inj in E1. subst p'. rewrite P2 in E2. apply ok_inj in E2. subst ph'.
  destruct Z as (Z1 & Z2 & _ & _ & Z3 & _). rewrite Z1, Z2, Z3. clear Z1 Z2 Z3.
  apply (t_ext (fun t => p (X t) * gammabarDD (ref_at r v) (X t) i j)).
  { eapply near0_imp; [exact NA|]. intros t At. destruct (adm_form _ _ _ _ At) as (p' & ph' & up' & dp' & E1 & _ & _ & Z). cbn zeta in Z.
    rewrite (proj1 (TOT (X t))) in E1. apply ok_inj in E1. subst p'. destruct Z as (Z1 & _). now rewrite Z1. }
  pose proof (derivable_pt_lim_mult _ _ _ _ _ DP DG) as D. cbn beta in D. rewrite (f_start _ _ _ FL) in D.
  match type of D with derivable_pt_lim _ _ ?x => match goal with |- derivable_pt_lim _ _ ?y => replace y with x; [exact D|] end end. clear D DP DG.
  rewrite (lie_scaled (p (V v)) beta (fst (ph (V v))) betaD (gammabarDD (ref_at r v) (V v)) (gammabarDD_dD (ref_at r v) (V v)) i j).
  unfold gammabar_rhsDD. cbn [q_gUU].
  rewrite (s3_ext (fun k => betaU (ref_at r v) (V v) k * gammabarDD_dupD (ref_at r v) (V v) i j k + _ + _) (fun k => beta k * gammabarDD_dD (ref_at r v) (V v) i j k + betaD k i * gammabarDD (ref_at r v) (V v) k j + betaD k j * gammabarDD (ref_at r v) (V v) i k))
    by (intros k Hk; now rewrite (g_dup _ _ C)).
  apply adm_metric; [rewrite (trA_val _ _ _ SA); exact T0|].
  rewrite phi_rhs_val by (intros k Hk; cbn [q_phi]; now rewrite PU, PD). cbn [q_phi]. f_equal. apply s3_ext. intros k Hk. now rewrite PD.
Qed.

(** *** Concrete case: non-constant fields with gammabar_01, Abar_02 and K not zero, in SinhSymTP coordinates *)
Lemma ev_flow : exists r v V u rh X, setting "SinhSymTP" r V v /\ centred (V v) /\ v_cf (V v) <> 0 /\
  (forall w, v_h (V w) 0%nat 1%nat = exx w 0%nat /\ v_a (V w) 0%nat 2%nat = exx w 1%nat /\ v_trK (V w) = exx w 1%nat) /\
  near v (fun w => det3 (gammabarDD (ref_at r w) (V w)) = h_det (ref_at r w)) /\
  near v (fun w => inv3 (gammabarDD (ref_at r w) (V w)) = Ok (u w, det3 (gammabarDD (ref_at r w) (V w)))) /\
  near v (fun w => s3 (fun i => s3 (fun j => u w i j * AbarDD (ref_at r w) (V w) i j)) = 0) /\
  BSSN_RHSs "chi" true None None (ref_at r v) (V v) = Ok rh /\ flows rh (V v) X /\
  near0 (fun t => BSSN_to_ADM "chi" true (ref_at r v) (X t) = Ok (adm_value "chi" (ref_at r v) (X t))).
Proof.
  destruct ev_point as (r & v & V & u & S & C & CF & EX & ED & N & T & _ & _).
  destruct (rhs_total "chi" _ _ _ _ ltac:(cbn; tauto) (near_here _ _ N) None None) as (rh & E).
  assert (DC : declared (V v)) by exact (near_here _ _ (s_decl _ _ _ _ S)).
  destruct (C64_symmetric _ r V v "chi"%string None None rh S) as (S1 & S2); [|exact Logic.I|exact Logic.I|exact E|].
  { intros i j k Hi Hj Hk. rewrite !(n_h _ C), !(n_a _ C). split; [exact (y_hD _ DC i j k Hi Hj Hk)|].
    apply (d_unique (fun w => v_a (V w) i j) k v); [exact (k_a _ _ (s_vars _ _ _ _ S) i j k Hi Hj Hk)|].
    apply (d_ext (fun w => v_a (V w) j i) (fun w => v_a (V w) i j) k v (v_a_dD (V v) j i k) _ Hk); [|reflexivity|exact (k_a _ _ (s_vars _ _ _ _ S) j i k Hj Hi Hk)].
    eapply near_imp; [exact (s_decl _ _ _ _ S)|]. intros w Dw. exact (y_a _ Dw j i Hj Hi). }
  pose proof (linear_flows rh (V v) (y_h _ DC) (y_a _ DC) S1 S2) as FL. pose proof (near_here _ _ (decl_gd_sym _ _ _ _ S)) as (GE & _).
  exists r, v, V, u, rh, (linear rh (V v)). repeat (split; [assumption|]). exact (adm_flow _ _ _ _ _ _ _ GE (fun _ => CF) E FL).
Qed.
Example ex_C64_determinant : exists r v V rh X, setting "SinhSymTP" r V v /\ (forall w, v_h (V w) 0%nat 1%nat = exx w 0%nat) /\ flows rh (V v) X /\
  derivable_pt_lim (fun t => det3 (gammabarDD (ref_at r v) (X t))) 0 0.
Proof.
  destruct ev_flow as (r & v & V & u & rh & X & S & C & CF & EX & ED & N & T & E & FL & NA). exists r, v, V, rh, X. split; [exact S|]. split; [intros w; apply EX|]. split; [exact FL|].
  exact (C64_determinant _ r V v _ None None rh X S ED C E FL).
Qed.
Example ex_C64_trace : exists r v V rh X U D, setting "SinhSymTP" r V v /\ (forall w, v_a (V w) 0%nat 2%nat = exx w 1%nat) /\ flows rh (V v) X /\
  near0 (fun t => inv3 (gammabarDD (ref_at r v) (X t)) = Ok (U t, D t)) /\
  derivable_pt_lim (fun t => s3 (fun i => s3 (fun j => U t i j * AbarDD (ref_at r v) (X t) i j))) 0 0.
Proof.
  destruct ev_flow as (r & v & V & u & rh & X & S & C & CF & EX & ED & N & T & E & FL & NA).
  destruct (C64_trace _ r V v _ None None rh X u _ S ED C N T Logic.I E FL) as (U & D & NI & DT).
  exists r, v, V, rh, X, U, D. split; [exact S|]. split; [intros w; apply EX|]. split; [exact FL|]. split; [exact NI|exact DT].
Qed.
Example ex_C64_metric : exists r v V rh X A, setting "SinhSymTP" r V v /\ (forall w, v_a (V w) 0%nat 2%nat = exx w 1%nat) /\ flows rh (V v) X /\
  near0 (fun t => BSSN_to_ADM "chi" true (ref_at r v) (X t) = Ok (A t)) /\
  derivable_pt_lim (fun t => a_gammaDD (A t) 0%nat 2%nat) 0
    (- 2 * v_alpha (V v) * a_KDD (A 0) 0%nat 2%nat
     + s3 (fun k => betaU (ref_at r v) (V v) k * a_gammaDDdD (A 0) 0%nat 2%nat k + betaU_dD (ref_at r v) (V v) k 0%nat * a_gammaDD (A 0) k 2%nat + betaU_dD (ref_at r v) (V v) k 2%nat * a_gammaDD (A 0) 0%nat k)).
Proof.
  destruct ev_flow as (r & v & V & u & rh & X & S & C & CF & EX & ED & N & T & E & FL & NA).
  exists r, v, V, rh, X, (fun t => adm_value "chi" (ref_at r v) (X t)). split; [exact S|]. split; [intros w; apply EX|]. split; [exact FL|]. split; [exact NA|].
  exact (C64_metric _ r V v _ None None rh X _ (u v) _ S C (fun _ => CF) (near_here _ _ N) (near_here _ _ T) E FL NA 0%nat 2%nat ltac:(lia) ltac:(lia)).
Qed.
Example ex_C64_symmetric : exists r v V rh, setting "SinhSymTP" r V v /\ (forall w, v_a (V w) 0%nat 2%nat = exx w 1%nat) /\
  BSSN_RHSs "chi" true None None (ref_at r v) (V v) = Ok rh /\ r_a rh 0%nat 2%nat = r_a rh 2%nat 0%nat.
Proof.
  destruct ev_flow as (r & v & V & u & rh & X & S & C & CF & EX & ED & N & T & E & FL & NA). exists r, v, V, rh. split; [exact S|]. split; [intros w; apply EX|]. split; [exact E|].
  apply (uniqueness_limite (fun t => v_a (X t) 0%nat 2%nat) 0); [exact (f_a _ _ _ FL 0%nat 2%nat ltac:(lia) ltac:(lia))|].
  apply (t_ext (fun t => v_a (X t) 2%nat 0%nat)); [exists 1; split; [lra|intros t _; exact (proj2 (f_sym _ _ _ FL t) 2%nat 0%nat ltac:(lia) ltac:(lia))]|exact (f_a _ _ _ FL 2%nat 0%nat ltac:(lia) ltac:(lia))].
Qed.

Print Assumptions C64_determinant.
Print Assumptions C64_trace.
Print Assumptions C64_symmetric.
Print Assumptions C64_metric.
