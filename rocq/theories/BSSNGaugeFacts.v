(** Facts about the gauge right-hand sides. *)
From Coq Require Import String List Arith Bool Lia Reals Lra.
From Verif Require Import PyBase Inverter InverterFacts GRMetric Grid RefMetric RefMetricReal RefMetricFacts RefMetricFlat PropRefMetric BSSN BSSNFacts BSSNCalc BSSNGeo BSSNInv BSSNConn PropBSSNDeriv BSSNRicci BSSNRicciFacts PropBSSNRicci BSSNEvolAlg BSSNPhys BSSNTime BSSNGauge.
Import ListNotations.
Local Open Scope R_scope.

Lemma str_in_In : forall s l, str_in s l = true <-> In s l.
Proof.
  intros s l. unfold str_in. rewrite existsb_exists. split.
  - intros (y & I & E). apply String.eqb_eq in E. now subst.
  - intros I. exists s. split; [exact I|apply String.eqb_refl].
Qed.
(** ** The cache *)
Lemma zero_BU_val : forall k st k' i, zero_BU k st k' i = if String.eqb k' k && Nat.ltb i 3 then true else st k' i.
Proof.
  intros k st k' i. unfold zero_BU. cbn [seq fold_left]. destruct (String.eqb k' k); cbn [andb]; [|reflexivity].
  destruct i as [|[|[|i]]]; reflexivity.
Qed.
Definition cache_after (k shift : string) (st : bq_cache) : bq_cache := if String.eqb shift "Frozen" then zero_BU k st else st.
(** ** What a call returns *)
Lemma gauge_ok : forall nm cs pre lapse shift x st g st', BSSN_gauge_RHSs nm true cs pre lapse shift x st = Ok (g, st') ->
  exists u d rh a, inv3 (gammabarDD (i_m x) (i_b x)) = Ok (u, d) /\ BSSN_RHSs nm true None (i_src x) (i_m x) (i_b x) = Ok rh /\
  lapse_rhs x rh nm lapse = Ok a /\ In shift shift_options /\ st' = cache_after (bq_key cs pre) shift st /\
  let B := fun i => if st' (bq_key cs pre) i then 0 else BU (i_m x) (i_b x) i in
  g_alpha g = a /\ (forall i, g_vet g i = fst (shift_rhs x rh u B shift) i / h_ReU (i_m x) i) /\
  (forall i, g_bet g i = snd (shift_rhs x rh u B shift) i / h_ReU (i_m x) i).
Proof.
  intros nm cs pre lapse shift x st g st' E. unfold BSSN_gauge_RHSs in E.
  destruct (bssn_quantities nm true None (i_m x) (i_b x)) as [q|e] eqn:Q; [|discriminate]. cbn [py_bind] in E.
  destruct (BSSN_RHSs nm true None (i_src x) (i_m x) (i_b x)) as [rh|e] eqn:R; [|discriminate]. cbn [py_bind] in E.
  destruct (lapse_rhs x rh nm lapse) as [a|e] eqn:L; [|discriminate]. cbn [py_bind] in E.
  destruct (str_in shift shift_options) eqn:SI; cbn [negb] in E; [|discriminate]. cbn zeta in E. apply ok_inj in E.
  destruct (rhs_form _ _ _ _ _ _ R) as (u & d & ps & I0 & _ & F). cbn zeta in F. destruct F as (Q' & _). rewrite Q in Q'. apply ok_inj in Q'.
  exists u, d, rh, a. split; [exact I0|]. split; [reflexivity|]. split; [exact L|]. split; [now apply str_in_In|].
  assert (EU : q_gUU q = u) by (rewrite Q'; reflexivity).
  pose proof (f_equal fst E) as E1. pose proof (f_equal snd E) as E2. cbn [fst snd] in E1, E2. rewrite EU in E1. clear E.
  rewrite <- E2. split; [reflexivity|]. cbn zeta. rewrite <- E1. cbn [g_alpha g_vet g_bet]. split; [reflexivity|]. split; intros i; reflexivity.
Qed.
(** ** The shift conditions one by one *)
Section Cases.
Variables (x : gauge_in) (rh : rhss) (u : nat -> nat -> R) (B : nat -> R).
Notation m := (i_m x).
Notation b := (i_b x).
Notation beta := (betaU (i_m x) (i_b x)).
(** beta^j D_j T^i with the connection Gam *)
Definition adv (be : nat -> R) (Gam : nat -> nat -> nat -> R) (T : nat -> R) (dT : nat -> nat -> R) (i : nat) : R :=
  s3 (fun j => be j * cov_U Gam T dT i j).
Ltac run := unfold shift_rhs, step_NonAdvecting, step_1stOrder, step_Covariant_B, step_Covariant_beta, step_NoCovariant;
  repeat match goal with |- context [substr_in ?a ?c] => let v := eval vm_compute in (substr_in a c) in change (substr_in a c) with v end;
  cbn [String.eqb Ascii.eqb Bool.eqb fst snd]; cbn beta zeta; cbn [fst snd]; unfold adv, cov_U, Lambdabar_partial0; rewrite ?s3_eq; try ring.
Definition no_conn (_ _ _ : nat) : R := 0.
Lemma sh_frozen : forall i, fst (shift_rhs x rh u B "Frozen") i = 0 /\ snd (shift_rhs x rh u B "Frozen") i = 0.
Proof. intros i. split; run. Qed.
Lemma sh_nonadv : forall i, fst (shift_rhs x rh u B "NonAdvectingGammaDriving") i = B i /\
  snd (shift_rhs x rh u B "NonAdvectingGammaDriving") i = 3 / 4 * r_Lambdabar rh i - i_eta x * B i.
Proof. intros i. split; run. Qed.
Definition second (Gam : nat -> nat -> nat -> R) (p : bB) : Prop := forall i,
  fst p i = adv beta Gam beta (betaU_dupD m b) i + B i /\
  snd p i = adv beta Gam B (BU_dupD x) i + 3 / 4 * (r_Lambdabar rh i - adv beta Gam (LambdabarU m b) (LambdabarU_dupD m b) i) - i_eta x * B i.
Definition first (Gam : nat -> nat -> nat -> R) (p : bB) : Prop := forall i,
  fst p i = adv beta Gam beta (betaU_dupD m b) i + 3 / 4 * LambdabarU m b i - i_eta x * beta i /\ snd p i = 0.
Lemma sh_nocov : second no_conn (shift_rhs x rh u B "GammaDriving2ndOrder_NoCovariant").
Proof. unfold no_conn. intros i. split; run. Qed.
Lemma sh_cov : second (GammabarUDD m b u) (shift_rhs x rh u B "GammaDriving2ndOrder_Covariant").
Proof. intros i. split; run. Qed.
Lemma sh_hat : second (h_Gam m) (shift_rhs x rh u B "GammaDriving2ndOrder_Covariant__Hatted").
Proof. intros i. split; run. Qed.
Lemma sh_cov1 : first (GammabarUDD m b u) (shift_rhs x rh u B "GammaDriving1stOrder_Covariant").
Proof. intros i. split; run. Qed.
Lemma sh_hat1 : first (h_Gam m) (shift_rhs x rh u B "GammaDriving1stOrder_Covariant__Hatted").
Proof. intros i. split; run. Qed.
End Cases.
Lemma lapse_names : forall x rh nm lapse, In nm cf_names ->
  (exists a, lapse_rhs x rh nm lapse = Ok a) /\ In lapse ["OnePlusLog"; "HarmonicSlicing"; "Frozen"; "OnePlusLogAlt"]%string /\ (lapse = "HarmonicSlicing"%string -> nm <> "chi"%string) \/
  lapse_rhs x rh nm lapse = Err ValueError /\ (~ In lapse ["OnePlusLog"; "HarmonicSlicing"; "Frozen"; "OnePlusLogAlt"]%string \/ lapse = "HarmonicSlicing"%string /\ nm = "chi"%string).
Proof.
  intros x rh nm lapse NM. unfold lapse_rhs.
  destruct (String.eqb_spec lapse "OnePlusLog") as [->|N1]; [left; split; [eexists; reflexivity|]; split; [cbn; tauto|discriminate]|].
  destruct (String.eqb_spec lapse "HarmonicSlicing") as [->|N2].
  - destruct NM as [<-|[<-|[<-|[]]]]; cbn [String.eqb Ascii.eqb Bool.eqb];
      first [left; split; [eexists; reflexivity|]; split; [cbn; tauto|discriminate]|right; split; [reflexivity|right; split; reflexivity]].
  - destruct (String.eqb_spec lapse "Frozen") as [->|N3]; [left; split; [eexists; reflexivity|]; split; [cbn; tauto|discriminate]|].
    destruct (String.eqb_spec lapse "OnePlusLogAlt") as [->|N4]; [left; split; [eexists; reflexivity|]; split; [cbn; tauto|discriminate]|].
    right. split; [reflexivity|]. left. cbn. intros [E|[E|[E|[E|[]]]]]; congruence.
Qed.
