(** Derivatives in time of the BSSN variables that evolve with the right-hand sides of BSSN_RHSs. *)
From Coq Require Import String List Arith Bool Lia Reals Lra.
From Verif Require Import PyBase Inverter InverterFacts GRMetric RefMetric RefMetricReal RefMetricFacts RefMetricFlat PropRefMetric BSSN BSSNFacts BSSNCalc BSSNGeo BSSNInv BSSNConn PropBSSNDeriv BSSNRicci BSSNRicciFacts PropBSSNRicci BSSNEvolAlg BSSNPhys.
Import ListNotations.
Local Open Scope R_scope.

(** [P] holds at all times near 0 *)
Definition near0 (P : R -> Prop) : Prop := exists e, 0 < e /\ forall t, Rabs t < e -> P t.
Lemma near0_here : forall P, near0 P -> P 0.
Proof. intros P (e & He & H). apply H. now rewrite Rabs_R0. Qed.
Lemma near0_imp : forall (P Q : R -> Prop), near0 P -> (forall t, P t -> Q t) -> near0 Q.
Proof. intros P Q (e & He & H) I. exists e. auto. Qed.
(** The upwinded derivatives are derivatives *)
Record centred (b : vars) : Prop := MkCen {
  n_h : forall i j k, v_h_dupD b i j k = v_h_dD b i j k; n_a : forall i j k, v_a_dupD b i j k = v_a_dD b i j k;
  n_cf : forall k, v_cf_dupD b k = v_cf_dD b k; n_trK : forall k, v_trK_dupD b k = v_trK_dD b k }.
(** The variables [X] depend on time, are [b] at time 0, and change there at the rates of [rh] *)
Record flows (rh : rhss) (b : vars) (X : R -> vars) : Prop := MkFlow {
  f_start : X 0 = b; f_sym : forall t, sym3 (v_h (X t)) /\ sym3 (v_a (X t));
  f_h : forall i j, (i < 3)%nat -> (j < 3)%nat -> derivable_pt_lim (fun t => v_h (X t) i j) 0 (r_h rh i j);
  f_a : forall i j, (i < 3)%nat -> (j < 3)%nat -> derivable_pt_lim (fun t => v_a (X t) i j) 0 (r_a rh i j);
  f_cf : derivable_pt_lim (fun t => v_cf (X t)) 0 (r_cf rh); f_trK : derivable_pt_lim (fun t => v_trK (X t)) 0 (r_trK rh) }.

(** Time as the coordinate 0 *)
Definition t0 : env := MkEnv (fun _ => 0) (fun _ => 0) (fun _ => 0) (fun _ _ => 0).
Lemma t_d : forall F x, derivable_pt_lim F 0 x -> d_at (fun w => F (exx w 0%nat)) 0 t0 x.
Proof. intros F x H. exact H. Qed.
Lemma d_t : forall F x, d_at (fun w => F (exx w 0%nat)) 0 t0 x -> derivable_pt_lim F 0 x.
Proof. intros F x H. exact H. Qed.
Lemma t_near : forall P, near0 P -> near t0 (fun w => P (exx w 0%nat)).
Proof.
  intros P (e & He & H). exists e. split; [exact He|]. intros l t Hl Ht. apply H.
  destruct l as [|[|[|l]]]; try lia; [exact (eq_ind _ (fun x => Rabs x < e) Ht _ (Rminus_0_r t))| |]; (replace (exx _ 0%nat) with 0 by reflexivity; now rewrite Rabs_R0).
Qed.
Lemma near_t : forall P, near t0 (fun w => P (exx w 0%nat)) -> near0 P.
Proof.
  intros P (e & He & H). exists e. split; [exact He|]. intros t Ht. apply (H 0%nat t ltac:(lia)). change (exx t0 0%nat) with 0. now rewrite Rminus_0_r.
Qed.
Lemma t_ext : forall F G x, near0 (fun t => F t = G t) -> derivable_pt_lim F 0 x -> derivable_pt_lim G 0 x.
Proof.
  intros F G x (e & He & N) H eps Heps. destruct (H eps Heps) as [dl Hd].
  assert (Hm : 0 < Rmin dl e) by (apply Rmin_glb_lt; [apply cond_pos|exact He]).
  exists (mkposreal _ Hm). intros h Hh Hb. cbn in Hb. rewrite <- (N (0 + h)), <- (N 0).
  - apply Hd; [exact Hh|]. eapply Rlt_le_trans; [exact Hb|apply Rmin_l].
  - now rewrite Rabs_R0.
  - rewrite Rplus_0_l. eapply Rlt_le_trans; [exact Hb|apply Rmin_r].
Qed.

(** What BSSN_RHSs returns *)
Definition sK_of (src : option (R * (nat -> nat -> R) * (nat -> R))) : R := match src with Some (x, _, _) => x | None => 0 end.
Definition sA_of (src : option (R * (nat -> nat -> R) * (nat -> R))) : nat -> nat -> R := match src with Some (_, x, _) => x | None => fun _ _ => 0 end.
Lemma rhs_form : forall nm rbar src m b rh, BSSN_RHSs nm true rbar src m b = Ok rh ->
  exists u d ps, inv3 (gammabarDD m b) = Ok (u, d) /\ phi_part nm b = Ok ps /\
  let q := MkQ u (match rbar with Some r => r | None => RbarDD m b u end) ps (fun i j => phi_dDD ps i j + s3 (fun k => - GammabarUDD m b u k i j * phi_dD ps k)) in
  bssn_quantities nm true rbar m b = Ok q /\ cf_rhs m b q nm = Ok (r_cf rh) /\ r_trK rh = trK_rhs m b q + sK_of src /\
  r_h rh = (fun i j => gammabar_rhsDD m b q i j / h_ReDD m i j) /\ r_a rh = (fun i j => (Abar_rhsDD m b q i j + sA_of src i j) / h_ReDD m i j).
Proof.
  intros nm rbar src m b rh E. unfold BSSN_RHSs in E. destruct (bssn_quantities nm true rbar m b) as [q|e] eqn:Q; [|discriminate]. cbn [py_bind] in E.
  unfold bssn_quantities in Q. destruct (inv3 (gammabarDD m b)) as [[u d]|e]; [|discriminate]. cbn [py_bind negb] in Q.
  destruct (phi_part nm b) as [ps|e]; [|discriminate]. cbn [py_bind fst] in Q. apply ok_inj in Q. subst q.
  match type of E with py_bind ?x _ = _ => destruct x as [cfr|e] eqn:C; [|discriminate] end. cbn [py_bind] in E.
  exists u, d, ps. split; [reflexivity|]. split; [reflexivity|]. cbn zeta. split; [reflexivity|].
  destruct src as [[[sK sA] sL]|]; apply ok_inj in E; subst rh; cbn [r_cf r_trK r_h r_a sK_of sA_of]; (split; [exact C|split; [reflexivity|split; reflexivity]]).
Qed.

Section Time.
Variables (m : refm) (b : vars) (rh : rhss) (X : R -> vars) (q : quantities) (nm : string) (sA : nat -> nat -> R).
Hypothesis GEO : ref_geo m.
Hypothesis FL : flows rh b X.
Hypothesis EH : r_h rh = (fun i j => gammabar_rhsDD m b q i j / h_ReDD m i j).
Hypothesis EA : r_a rh = (fun i j => (Abar_rhsDD m b q i j + sA i j) / h_ReDD m i j).
Hypothesis EC : cf_rhs m b q nm = Ok (r_cf rh).
Lemma t_g : forall i j, (i < 3)%nat -> (j < 3)%nat -> derivable_pt_lim (fun t => gammabarDD m (X t) i j) 0 (gammabar_rhsDD m b q i j).
Proof using GEO FL EH.
  intros i j Hi Hj. pose proof (f_h _ _ _ FL i j Hi Hj) as D. rewrite EH in D. pose proof (e_ReDD _ GEO i j Hi Hj) as NZ.
  unfold gammabarDD. replace (gammabar_rhsDD m b q i j) with (gammabar_rhsDD m b q i j / h_ReDD m i j * h_ReDD m i j + v_h (X 0) i j * 0 + 0) by (field; exact NZ).
  apply (derivable_pt_lim_plus (fun t => v_h (X t) i j * h_ReDD m i j) (fun _ => h_g m i j)); [|apply derivable_pt_lim_const].
  apply (derivable_pt_lim_mult (fun t => v_h (X t) i j) (fun _ => h_ReDD m i j)); [exact D|apply derivable_pt_lim_const].
Qed.
Lemma t_A : forall i j, (i < 3)%nat -> (j < 3)%nat -> derivable_pt_lim (fun t => AbarDD m (X t) i j) 0 (Abar_rhsDD m b q i j + sA i j).
Proof using GEO FL EA.
  intros i j Hi Hj. pose proof (f_a _ _ _ FL i j Hi Hj) as D. rewrite EA in D. pose proof (e_ReDD _ GEO i j Hi Hj) as NZ.
  unfold AbarDD at 1. replace (Abar_rhsDD m b q i j + sA i j) with ((Abar_rhsDD m b q i j + sA i j) / h_ReDD m i j * h_ReDD m i j + v_a (X 0) i j * 0) by (field; exact NZ).
  apply (derivable_pt_lim_mult (fun t => v_a (X t) i j) (fun _ => h_ReDD m i j)); [exact D|apply derivable_pt_lim_const].
Qed.
Lemma t_e : forall p, (forall t, exp4phi_of nm (v_cf (X t)) = Ok (p t)) -> (nm <> "phi"%string -> v_cf b <> 0) -> derivable_pt_lim p 0 (4 * p 0 * phi_rhs m b q).
Proof using FL EC.
  intros p TOT NZ. pose proof (f_cf _ _ _ FL) as D. apply t_d in D. apply d_t. rewrite <- (f_start _ _ _ FL) in NZ. pose proof (TOT 0) as T0.
  pose proof EC as C. unfold cf_rhs in C. unfold exp4phi_of in TOT, T0. assert (CB : v_cf b = v_cf (X 0)) by (now rewrite (f_start _ _ _ FL)). rewrite CB in C.
  destruct (String.eqb_spec nm "phi").
  - apply ok_inj in C, T0. rewrite <- C in D. eapply d_eq; [| |exact (d_exp _ 0 t0 _ (d_scal 4 _ 0 t0 _ D))].
    + intros w. exact (ok_inj _ _ (TOT (exx w 0%nat))).
    + rewrite <- T0. change (exx t0 0%nat) with 0. ring.
  - specialize (NZ n). destruct (String.eqb_spec nm "W") as [->|]; [|destruct (String.eqb_spec nm "chi"); [|discriminate]].
    + cbn [String.eqb Ascii.eqb Bool.eqb] in TOT, T0. apply ok_inj in C, T0. rewrite <- C in D.
      eapply d_eq; [| |exact (d_inv (fun w => v_cf (X (exx w 0%nat)) * v_cf (X (exx w 0%nat))) 0 t0 _ (Rmult_integral_contrapositive_currified _ _ NZ NZ) (d_mult _ _ 0 t0 _ _ D D))].
      * intros w. rewrite <- (ok_inj _ _ (TOT (exx w 0%nat))). unfold Rdiv. ring.
      * rewrite <- T0. change (exx t0 0%nat) with 0. field. exact NZ.
    + apply ok_inj in C, T0. rewrite <- C in D.
      eapply d_eq; [| |exact (d_inv (fun w => v_cf (X (exx w 0%nat))) 0 t0 _ NZ D)].
      * intros w. rewrite <- (ok_inj _ _ (TOT (exx w 0%nat))). unfold Rdiv. ring.
      * rewrite <- T0. change (exx t0 0%nat) with 0. field. exact NZ.
Qed.
(** gammabar stays invertible for a while *)
Lemma t_sym : forall t, sym3 (gammabarDD m (X t)) /\ sym3 (AbarDD m (X t)).
Proof using GEO FL.
  intros t. apply gammabar_sym. split; [exact (e_sym _ GEO)|]. split; [exact (e_ReDDsym _ GEO)|]. exact (f_sym _ _ _ FL t).
Qed.
Lemma t_inv : forall u0 d0, inv3 (gammabarDD m b) = Ok (u0, d0) ->
  exists U, U 0 = u0 /\ near0 (fun t => inv3 (gammabarDD m (X t)) = Ok (U t, det3 (gammabarDD m (X t)))).
Proof using GEO FL EH.
  intros u0 d0 I0.
  exists (fun t => match inv3 (gammabarDD m (X t)) with Ok p => fst p | Err _ => fun _ _ => 0 end). split; [now rewrite (f_start _ _ _ FL), I0|].
  apply near_t.
  assert (Z : near t0 (fun w => symm3_det R 1 Rplus Rmult Rminus Ropp (gammabarDD m (X (exx w 0%nat))) <> 0)).
  { apply (nonzero_near (fun w => symm3_det R 1 Rplus Rmult Rminus Ropp (gammabarDD m (X (exx w 0%nat))))).
    - intros l Hl. destruct l as [|[|[|l]]]; try lia; [|exists 0; exact (derivable_pt_lim_const (symm3_det R 1 Rplus Rmult Rminus Ropp (gammabarDD m (X 0))) 0)|exists 0; exact (derivable_pt_lim_const (symm3_det R 1 Rplus Rmult Rminus Ropp (gammabarDD m (X 0))) 0)].
      apply (ex_det (fun w => gammabarDD m (X (exx w 0%nat))) (gammabar_rhsDD m b q) 0 t0 Hl). intros i j Hi Hj. apply (t_d (fun t => gammabarDD m (X t) i j)). now apply t_g.
    - change (exx t0 0%nat) with 0. destruct (inv3_form _ _ I0) as [_ F]. cbn [snd] in F. rewrite (f_start _ _ _ FL). rewrite <- F.
      pose proof (proj1 (t_sym 0)) as SG. rewrite (f_start _ _ _ FL) in SG. apply (inv3_spec _ _ _ SG I0). }
  eapply near_imp; [exact Z|]. intros w NZ. pose proof (proj1 (t_sym (exx w 0%nat))) as SG. destruct (inv3_total _ SG) as (h & ->); [|reflexivity].
  intros DZ. apply NZ. rewrite <- DZ. revert SG. generalize (gammabarDD m (X (exx w 0%nat))). intros a SG.
  unfold symm3_det, leibniz. cbn. rewrite (SG 1%nat 0%nat), (SG 2%nat 0%nat), (SG 2%nat 1%nat) by lia. ring.
Qed.
Lemma t_gs : forall i j, (i < 3)%nat -> (j < 3)%nat -> gammabar_rhsDD m b q i j = gammabar_rhsDD m b q j i.
Proof using GEO FL EH.
  intros i j Hi Hj. apply (uniqueness_limite (fun t => gammabarDD m (X t) i j) 0); [now apply t_g|].
  apply (t_ext (fun t => gammabarDD m (X t) j i)); [|now apply t_g]. exists 1. split; [lra|]. intros t _. exact (proj1 (t_sym t) j i Hj Hi).
Qed.
Lemma t_det : forall u0 d0, inv3 (gammabarDD m b) = Ok (u0, d0) ->
  derivable_pt_lim (fun t => det3 (gammabarDD m (X t))) 0 (det3 (gammabarDD m b) * s3 (fun i => s3 (fun j => u0 i j * gammabar_rhsDD m b q i j))).
Proof using GEO FL EH.
  intros u0 d0 I0. destruct (t_inv u0 d0 I0) as (U & <- & N). apply d_t. replace (det3 (gammabarDD m b)) with (det3 (gammabarDD m (X 0))) by (now rewrite (f_start _ _ _ FL)).
  refine (d_determinant (fun w => gammabarDD m (X (exx w 0%nat))) (fun w => U (exx w 0%nat)) _ (gammabar_rhsDD m b q) 0 t0 ltac:(lia) _ (t_near _ N) _ t_gs).
  - apply near_all. intros w. exact (proj1 (t_sym _)).
  - intros i j Hi Hj. apply (t_d (fun t => gammabarDD m (X t) i j)). now apply t_g.
Qed.
Lemma t_tr : forall U, near0 (fun t => inv3 (gammabarDD m (X t)) = Ok (U t, det3 (gammabarDD m (X t)))) ->
  derivable_pt_lim (fun t => s3 (fun i => s3 (fun j => U t i j * AbarDD m (X t) i j))) 0
    (s3 (fun i => s3 (fun j => U 0 i j * (Abar_rhsDD m b q i j + sA i j)))
     - s3 (fun i => s3 (fun j => s3 (fun a => s3 (fun c => U 0 i a * U 0 j c * gammabar_rhsDD m b q a c)) * AbarDD m b i j))).
Proof using GEO FL EH EA.
  intros U N. apply d_t.
  assert (DU : forall i j, (i < 3)%nat -> (j < 3)%nat -> d_at (fun w => U (exx w 0%nat) i j) 0 t0 (- s3 (fun a => s3 (fun c => U 0 i a * U 0 j c * gammabar_rhsDD m b q a c)))).
  { refine (d_inverse (fun w => gammabarDD m (X (exx w 0%nat))) (fun w => U (exx w 0%nat)) _ (gammabar_rhsDD m b q) 0 t0 ltac:(lia) _ (t_near _ N) _).
    - apply near_all. intros w. exact (proj1 (t_sym _)).
    - intros i j Hi Hj. apply (t_d (fun t => gammabarDD m (X t) i j)). now apply t_g. }
  eapply d_eq; [intros; reflexivity| |apply (d_s3 (fun w i => s3 (fun j => U (exx w 0%nat) i j * AbarDD m (X (exx w 0%nat)) i j))); intros i Hi;
    apply (d_s3 (fun w j => U (exx w 0%nat) i j * AbarDD m (X (exx w 0%nat)) i j)); intros j Hj;
    exact (d_mult _ _ 0 t0 _ _ (DU i j Hi Hj) (t_d (fun t => AbarDD m (X t) i j) _ (t_A i j Hi Hj)))].
  cbn beta. change (exx t0 0%nat) with 0. rewrite (f_start _ _ _ FL).
  set (w1 := fun i j => s3 (fun a => s3 (fun c => U 0 i a * U 0 j c * gammabar_rhsDD m b q a c))). set (w2 := fun i j => Abar_rhsDD m b q i j + sA i j).
  change (s3 (fun i => s3 (fun j => - w1 i j * AbarDD m b i j + U 0 i j * w2 i j)) = s3 (fun i => s3 (fun j => U 0 i j * w2 i j)) - s3 (fun i => s3 (fun j => w1 i j * AbarDD m b i j))).
  generalize w1 w2 (AbarDD m b) (U 0). intros. rewrite !s3_eq. ring.
Qed.
End Time.
