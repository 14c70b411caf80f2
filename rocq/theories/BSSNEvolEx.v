(** Concrete fields and flows for the statements about the evolution. *)
From Coq Require Import String List Arith Bool Lia Reals Lra.
From Verif Require Import PyBase Inverter InverterFacts GRMetric RefMetric RefMetricReal RefMetricFacts RefMetricFlat PropRefMetric BSSN BSSNFacts BSSNCalc BSSNGeo BSSNInv BSSNConn PropBSSNDeriv BSSNRicci BSSNRicciFacts PropBSSNRicci BSSNEvolAlg BSSNPhys BSSNTime.
Import ListNotations.
Local Open Scope R_scope.

(** Variables that change linearly in time *)
Definition linear (rh : rhss) (b : vars) (t : R) : vars :=
  MkVars (fun i j => v_h b i j + t * r_h rh i j) (fun i j => v_a b i j + t * r_a rh i j) (v_lam b) (v_vet b) (v_bet b) (v_trK b + t * r_trK rh) (v_cf b + t * r_cf rh) (v_alpha b)
    (v_h_dD b) (v_h_dupD b) (v_h_dDD b) (v_a_dD b) (v_a_dupD b) (v_lam_dD b) (v_lam_dupD b) (v_vet_dD b) (v_vet_dupD b) (v_vet_dDD b) (v_cf_dD b) (v_cf_dupD b) (v_cf_dDD b)
    (v_trK_dD b) (v_trK_dupD b) (v_alpha_dD b) (v_alpha_dDD b).
Lemma lin_deriv : forall x y, derivable_pt_lim (fun t => x + t * y) 0 y.
Proof.
  intros x y. replace y with (0 + (1 * y + 0 * 0)) at 1 by ring. apply (derivable_pt_lim_plus (fun _ => x) (fun t => t * y)); [apply derivable_pt_lim_const|].
  apply (derivable_pt_lim_mult (fun t => t) (fun _ => y)); [apply derivable_pt_lim_id|apply derivable_pt_lim_const].
Qed.
Lemma linear_flows : forall rh b, sym3 (v_h b) -> sym3 (v_a b) -> sym3 (r_h rh) -> sym3 (r_a rh) -> flows rh b (linear rh b).
Proof.
  intros rh b S1 S2 S3 S4. constructor.
  - assert (E1 : (fun i j => v_h b i j + 0 * r_h rh i j) = v_h b) by (apply FunctionalExtensionality.functional_extensionality; intros i; apply FunctionalExtensionality.functional_extensionality; intros j; ring).
    assert (E2 : (fun i j => v_a b i j + 0 * r_a rh i j) = v_a b) by (apply FunctionalExtensionality.functional_extensionality; intros i; apply FunctionalExtensionality.functional_extensionality; intros j; ring).
    unfold linear. rewrite E1, E2, !Rmult_0_l, !Rplus_0_r. destruct b. reflexivity.
  - intros t. split; intros i j Hi Hj; cbn [v_h v_a linear]; [rewrite (S1 i j Hi Hj), (S3 i j Hi Hj)|rewrite (S2 i j Hi Hj), (S4 i j Hi Hj)]; reflexivity.
  - intros i j _ _. apply lin_deriv.
  - intros i j _ _. apply lin_deriv.
  - apply lin_deriv.
  - apply lin_deriv.
Qed.
(** Along a flow the variables stay convertible for a while *)
Definition adm_zero : adm_of := MkAdm (fun _ => 0) (fun _ _ => 0) (fun _ _ _ => 0) (fun _ _ _ _ => 0) (fun _ _ => 0) 0 (fun _ _ _ => 0) (fun _ _ => 0) (fun _ _ _ => 0).
Definition adm_value (nm : string) (m : refm) (b : vars) : adm_of := match BSSN_to_ADM nm true m b with Ok a => a | Err _ => adm_zero end.
Lemma adm_flow : forall nm m b rbar src rh X, ref_geo m -> (nm <> "phi"%string -> v_cf b <> 0) -> BSSN_RHSs nm true rbar src m b = Ok rh -> flows rh b X ->
  near0 (fun t => BSSN_to_ADM nm true m (X t) = Ok (adm_value nm m (X t))).
Proof.
  intros nm m b rbar src rh X GE CF E FL. destruct (rhs_form _ _ _ _ _ _ E) as (u & d & ps & I0 & EP & Q). cbn zeta in Q. destruct Q as (_ & EC & _ & EH & EA).
  assert (NM : In nm cf_names) by (unfold phi_part in EP; destruct (String.eqb_spec nm "phi") as [->|]; [cbn; tauto|]; destruct (String.eqb_spec nm "W") as [->|]; [cbn; tauto|]; destruct (String.eqb_spec nm "chi") as [->|]; [cbn; tauto|discriminate]).
  destruct (names_total nm NM) as (p & ph & ps' & TOT). pose proof (TOT b) as (P1 & P2 & _). destruct (phi_same _ _ _ _ _ P1 P2 EP CF) as (PE & _).
  pose proof (t_e _ _ _ _ _ _ FL EC (fun t => p (X t)) (fun t => proj1 (TOT (X t))) CF) as DP. cbn beta in DP.
  destruct (t_inv _ _ _ _ _ GE FL EH u d I0) as (U & _ & NI).
  assert (NP : near t0 (fun w => p (X (exx w 0%nat)) <> 0)).
  { apply (nonzero_near (fun w => p (X (exx w 0%nat)))).
    - intros l Hl. destruct l as [|[|[|l]]]; try lia; [eexists; exact (t_d (fun t => p (X t)) _ DP)|exists 0; exact (derivable_pt_lim_const (p (X 0)) 0)|exists 0; exact (derivable_pt_lim_const (p (X 0)) 0)].
    - change (exx t0 0%nat) with 0. rewrite (f_start _ _ _ FL). intros Z. rewrite Z in PE. lra. }
  apply near_t. eapply near_imp; [exact (near_and _ _ _ NP (t_near _ NI))|]. intros w (NZ & Iw). cbn beta in Iw. unfold adm_value.
  pose proof (t_sym _ _ _ _ GE FL (exx w 0%nat)) as (SG & _).
  destruct (to_adm nm m (X (exx w 0%nat)) (p (X (exx w 0%nat))) NM) as (a & _ & _ & -> & _); [|exact (proj1 (TOT _))|exact NZ| |reflexivity].
  - split; [exact (e_sym _ GE)|]. split; [exact (e_ReDDsym _ GE)|]. exact (f_sym _ _ _ FL _).
  - exact (proj1 (proj2 (inv3_spec _ _ _ SG Iw))).
Qed.

(** The fields: gammabar as in ex_fields, Abar trace-free, Lambdabar as the constraint says, all upwinded derivatives exact *)
Definition ev_fields (lam : env -> nat -> R) (lamD : nat -> nat -> R) (w : env) : vars :=
  let b := ex_fields w in let y := exx w 1%nat in
  let aD := fun i j k => match i, j with 0, 2 | 2, 0 => kr k 1 | _, _ => 0 end in
  MkVars (v_h b) (fun i j => match i, j with 0, 2 | 2, 0 => y | _, _ => 0 end) (lam w) (v_vet b) (v_bet b) (v_trK b) (v_cf b) (v_alpha b) (v_h_dD b) (v_h_dD b) (v_h_dDD b) aD aD
    lamD lamD (v_vet_dD b) (v_vet_dD b) (v_vet_dDD b) (v_cf_dD b) (v_cf_dD b) (v_cf_dDD b) (v_trK_dD b) (v_trK_dD b) (v_alpha_dD b) (v_alpha_dDD b).
Lemma ev_a : forall v i j l, d_at (fun w => match i, j with 0, 2 | 2, 0 => exx w 1%nat | _, _ => 0 end) l v (match i, j with 0, 2 | 2, 0 => kr l 1 | _, _ => 0 end).
Proof. intros v [|[|[|i]]] [|[|[|j]]] l; first [apply d_xx|apply (d_const 0)]. Qed.
Lemma ev_trace_alg : forall (u : nat -> nat -> R) (A : nat -> nat -> R) (s : nat -> nat -> R) y, u 0%nat 2%nat = 0 -> u 2%nat 0%nat = 0 ->
  (forall i j, A i j = match i, j with 0, 2 | 2, 0 => y | _, _ => 0 end * s i j) -> s3 (fun i => s3 (fun j => u i j * A i j)) = 0.
Proof. intros u A s y U1 U2 E. rewrite !s3_eq, !E, U1, U2. ring. Qed.
Lemma ev_inv02 : forall g u d, inv3 g = Ok (u, d) -> g 0%nat 2%nat = 0 -> g 1%nat 2%nat = 0 -> u 0%nat 2%nat = 0 /\ u 2%nat 0%nat = 0.
Proof.
  intros g u d I G1 G2. destruct (inv3_form _ _ I) as [F _]. cbn [fst snd] in F. rewrite F. unfold symm3_inv. rewrite G1, G2.
  split; unfold Rdiv; ring.
Qed.
Lemma ev_point_all : exists r v V u, setting "SinhSymTP" r V v /\ (forall w, centred (V w) /\ (forall i k, v_lam_dupD (V w) i k = v_lam_dD (V w) i k) /\ v_alpha (V w) = v_cf (V w)) /\ v_cf (V v) <> 0 /\
  (forall w, v_h (V w) 0%nat 1%nat = exx w 0%nat /\ v_a (V w) 0%nat 2%nat = exx w 1%nat /\ v_trK (V w) = exx w 1%nat) /\
  near v (fun w => det3 (gammabarDD (ref_at r w) (V w)) = h_det (ref_at r w)) /\
  near v (fun w => inv3 (gammabarDD (ref_at r w) (V w)) = Ok (u w, det3 (gammabarDD (ref_at r w) (V w)))) /\
  near v (fun w => s3 (fun i => s3 (fun j => u w i j * AbarDD (ref_at r w) (V w) i j)) = 0) /\
  near v (fun w => BSSN_to_ADM "chi" true (ref_at r w) (V w) = Ok (adm_value "chi" (ref_at r w) (V w))) /\
  near v (fun w => forall i, (i < 3)%nat -> LambdabarU (ref_at r w) (V w) i =
     s3 (fun j => s3 (fun k => u w j k * (GammabarUDD (ref_at r w) (V w) (u w) i j k - h_Gam (ref_at r w) i j k)))).
Proof.
  destruct ex_point as (r & v & H & G & I). pose proof (ex_setting _ r v H G I) as S. destruct (ex_inverse _ _ _ S) as (u & N).
  pose proof (d_contr' _ r ex_fields v u _ S N) as DC. pose proof (ref_at_ok _ r v H G I) as RO. pose proof (near_ok _ r v H G I) as NO.
  set (c := contr r ex_fields u) in *. cbn zeta in DC.
  assert (RU : forall i, (i < 3)%nat -> h_ReU (ref_at r v) i <> 0) by exact (e_ReU _ (ref_at_geo _ r v H G I)).
  assert (X : exists X, forall i l, (i < 3)%nat -> (l < 3)%nat -> d_at (fun w => c w i / h_ReU (ref_at r w) i) l v (X i l)).
  { eexists (fun i l => _). intros i l Hi Hl. exact (d_div _ _ l v _ _ (RU i Hi) (DC i l Hi Hl) (k_ReU _ _ RO i l Hi Hl)). }
  destruct X as (X & DX).
  set (V := ev_fields (fun w i => c w i / h_ReU (ref_at r w) i) X).
  assert (DE : forall w, declared (V w)).
  { intros w. destruct (ex_fields_decl w) as [A1 A2 A3 A4 A5 A6 A7]. constructor; try assumption.
    intros [|[|[|i]]] [|[|[|j]]] Hi Hj; try lia; reflexivity. }
  assert (S' : setting "SinhSymTP" r V v).
  { destruct S as [_ _ _ SV SD]. constructor; [exact H|exact G|exact I| |now apply near_all].
    destruct SV. constructor; try assumption. intros i j l _ _ _. exact (ev_a v i j l). }
  assert (ED : near v (fun w => det3 (gammabarDD (ref_at r w) (V w)) = h_det (ref_at r w))).
  { eapply near_imp; [exact (decl_gd_sym _ _ _ _ S)|]. intros w (E & _). exact (ex_det_one r w E). }
  exists r, v, V, u. split; [exact S'|]. split; [intros w; split; [constructor; reflexivity|split; reflexivity]|].
  assert (Q : forall w, 0 < v_cf (V w)) by (intros w; cbn; nra). split; [apply Rgt_not_eq; apply Q|]. split; [intros w; repeat split|].
  split; [exact ED|]. split; [exact N|]. split; [|split].
  - eapply near_imp; [exact (near_and _ _ _ N (decl_gd_sym _ _ _ _ S))|]. intros w (Iw & GE & _).
    destruct (ev_inv02 _ _ _ Iw) as (U1 & U2).
    + unfold gammabarDD. change (h_g (ref_at r w) 0%nat 2%nat) with (eval w (ghatDD (r_scale r) 0%nat 2%nat)). rewrite ghat_val. unfold delta. cbn [Nat.eqb]. change (v_h (ex_fields w) 0%nat 2%nat) with 0. ring.
    + unfold gammabarDD. change (h_g (ref_at r w) 1%nat 2%nat) with (eval w (ghatDD (r_scale r) 1%nat 2%nat)). rewrite ghat_val. unfold delta. cbn [Nat.eqb]. change (v_h (ex_fields w) 1%nat 2%nat) with 0. ring.
    + apply (ev_trace_alg (u w) _ (h_ReDD (ref_at r w)) (exx w 1%nat) U1 U2). intros i j. reflexivity.
  - eapply near_imp; [exact (near_and _ _ _ ED (decl_gd_sym _ _ _ _ S'))|]. intros w (Ew & GE & SG & SA). unfold adm_value.
    destruct (to_adm "chi" (ref_at r w) (V w) (1 / v_cf (V w))) as (a & _ & _ & EA & _);
      [cbn; tauto| |reflexivity| | |rewrite EA; reflexivity].
    + split; [exact (e_sym _ GE)|]. split; [exact (e_ReDDsym _ GE)|]. split; [exact (y_h _ (DE w))|exact (y_a _ (DE w))].
    + apply Rgt_not_eq. apply Rdiv_lt_0_compat; [lra|apply Q].
    + rewrite Ew. pose proof (e_pos _ GE). lra.
  - eapply near_imp; [exact NO|]. intros w (Gw & Iw) i Hi. pose proof (e_ReU _ (ref_at_geo _ r w H Gw Iw) i Hi) as RW.
    transitivity (c w i / h_ReU (ref_at r w) i * h_ReU (ref_at r w) i); [reflexivity|].
    transitivity (c w i); [|reflexivity]. unfold Rdiv. rewrite Rmult_assoc, Rinv_l by exact RW. apply Rmult_1_r.
Qed.
Lemma ev_point : exists r v V u, setting "SinhSymTP" r V v /\ centred (V v) /\ v_cf (V v) <> 0 /\
  (forall w, v_h (V w) 0%nat 1%nat = exx w 0%nat /\ v_a (V w) 0%nat 2%nat = exx w 1%nat /\ v_trK (V w) = exx w 1%nat) /\
  near v (fun w => det3 (gammabarDD (ref_at r w) (V w)) = h_det (ref_at r w)) /\
  near v (fun w => inv3 (gammabarDD (ref_at r w) (V w)) = Ok (u w, det3 (gammabarDD (ref_at r w) (V w)))) /\
  near v (fun w => s3 (fun i => s3 (fun j => u w i j * AbarDD (ref_at r w) (V w) i j)) = 0) /\
  near v (fun w => BSSN_to_ADM "chi" true (ref_at r w) (V w) = Ok (adm_value "chi" (ref_at r w) (V w))) /\
  near v (fun w => forall i, (i < 3)%nat -> LambdabarU (ref_at r w) (V w) i =
     s3 (fun j => s3 (fun k => u w j k * (GammabarUDD (ref_at r w) (V w) (u w) i j k - h_Gam (ref_at r w) i j k)))).
Proof. destruct ev_point_all as (r & v & V & u & S & C & Q). exists r, v, V, u. split; [exact S|]. split; [exact (proj1 (C v))|]. exact Q. Qed.
(** the right-hand sides exist there *)
Lemma rhs_total : forall nm m b u d, In nm cf_names -> inv3 (gammabarDD m b) = Ok (u, d) -> forall rbar src, exists rh, BSSN_RHSs nm true rbar src m b = Ok rh.
Proof.
  intros nm m b u d NM I rbar src. unfold BSSN_RHSs, bssn_quantities. rewrite I. cbn [py_bind negb]. destruct (names_total nm NM) as (p & ph & ps & TOT). destruct (TOT b) as (_ & _ & ->). cbn [py_bind].
  assert (C : forall q, exists x, cf_rhs m b q nm = Ok x) by (intros q; destruct NM as [<-|[<-|[<-|[]]]]; eexists; unfold cf_rhs; cbn [String.eqb Ascii.eqb Bool.eqb]; reflexivity).
  match goal with |- context [cf_rhs m b ?q nm] => destruct (C q) as (x & ->) end. cbn [py_bind].
  destruct src as [[[sK sA] sL]|]; eexists; reflexivity.
Qed.
