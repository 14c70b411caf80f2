(** The evolution equation of Lambdabar in BSSN_RHSs.py is the time derivative of what Lambdabar stands for, the contracted difference of
    the connections of gammabar and of the reference metric, up to the momentum constraint. *)
From Coq Require Import String List Arith Bool Lia Reals Lra.
From Verif Require Import PyBase Inverter InverterFacts GRMetric RefMetric RefMetricReal RefMetricCalc RefMetricFacts RefMetricFlat PropRefMetric BSSN BSSNFacts BSSNCalc BSSNGeo BSSNInv BSSNConn PropBSSNDeriv BSSNRicci BSSNRicciFacts PropBSSNRicci BSSNEvolAlg BSSNMomAlg BSSNPhys BSSNTime BSSNEvolEx PropBSSNEvol BSSNConstraints PropBSSNAdm BSSNLamAlg.
Import ListNotations.
Local Open Scope R_scope.

(** ** Symmetries of the reference metric's second derivatives *)
Lemma ghat_dd_sym : forall cs r v, reference_metric cs false = Ok r -> good (ep v) -> inside (r_coord r) v ->
  forall i j k l, (i < 3)%nat -> (j < 3)%nat -> h_gDD (ref_at r v) i j k l = h_gDD (ref_at r v) i j l k.
Proof.
  intros cs r v H G IN i j k l Hi Hj. destruct (rm_kinds cs false r H) as (q & E & _ & EV & EJ & IJ & _ & _ & ES & HG).
  rewrite E in *. cbn iota in ES. pose proof (kind_regular q v G EV IN) as RG.
  unfold ref_at. cbn [h_gDD]. unfold ghatDDdDD, ghatDDdD. apply diff_sym. apply wd_ghatDD. rewrite ES. now apply (reg_wds _ _ RG).
Qed.
Lemma reu_dd_sym : forall cs r v, reference_metric cs false = Ok r -> good (ep v) -> inside (r_coord r) v ->
  forall i k l, (i < 3)%nat -> h_ReUdDD (ref_at r v) i k l = h_ReUdDD (ref_at r v) i l k.
Proof.
  intros cs r v H G IN i k l Hi. destruct (rm_kinds cs false r H) as (q & E & _ & EV & EJ & IJ & _ & _ & ES & HG).
  rewrite E in *. cbn iota in ES. pose proof (kind_regular q v G EV IN) as RG.
  unfold ref_at. cbn [h_ReUdDD]. unfold ReUdDD, ReUdD. apply diff_sym. unfold ReU. rewrite ES. apply wd_sdiv; [exact Logic.I|now apply (reg_wds _ _ RG)|]. pose proof (reg_pos _ _ RG i Hi). lra.
Qed.
Lemma gam_d_sym : forall cs r v, reference_metric cs false = Ok r -> good (ep v) -> inside (r_coord r) v ->
  forall i j k l, (i < 3)%nat -> (j < 3)%nat -> (k < 3)%nat -> (l < 3)%nat -> h_GamdD (ref_at r v) i j k l = h_GamdD (ref_at r v) i k j l.
Proof.
  intros cs r v H G IN i j k l Hi Hj Hk Hl. pose proof (ref_at_ok cs r v H G IN) as RO.
  apply (d_unique (fun w => h_Gam (ref_at r w) i j k) l v); [exact (k_Gam _ _ RO i j k l Hi Hj Hk Hl)|].
  apply (d_ext (fun w => h_Gam (ref_at r w) i k j) _ l v (h_GamdD (ref_at r v) i k j l) _ Hl); [|reflexivity|exact (k_Gam _ _ RO i k j l Hi Hk Hj Hl)].
  eapply near_imp; [exact (near_ok cs r v H G IN)|]. intros w (Gw & Iw). exact (e_Gam _ (ref_at_geo cs r w H Gw Iw) i k j Hi Hk Hj).
Qed.

(** ** The change of gammabar and of its derivatives *)
(** The contracted difference of the connections, as in DGammaU of BSSN_quantities.py *)
Definition contracted (m : refm) (b : vars) (u : nat -> nat -> R) (i : nat) : R := s3 (fun j => s3 (fun k => u j k * (GammabarUDD m b u i j k - h_Gam m i j k))).
Lemma G_val : forall m b u i j k, GammabarUDD m b u i j k = G u (gammabarDD_dD m b) i j k.
Proof. intros. unfold GammabarUDD, G, low. apply s3_ext. intros n _. ring. Qed.

Section Lam.
Variables (cs : string) (r : rfm) (V : env -> vars) (v : env) (nm : string) (u : env -> nat -> nat -> R).
Variables (rbar : env -> option (nat -> nat -> R)) (src : env -> option (R * (nat -> nat -> R) * (nat -> R))) (RH : env -> rhss).
Let M := ref_at r.
Hypothesis S : setting cs r V v.
Hypothesis IV : near v (fun w => inv3 (gammabarDD (ref_at r w) (V w)) = Ok (u w, det3 (gammabarDD (ref_at r w) (V w)))).
Hypothesis ND : near v (fun w => det3 (gammabarDD (ref_at r w) (V w)) = h_det (ref_at r w)).
Hypothesis NT : near v (fun w => s3 (fun i => s3 (fun j => u w i j * AbarDD (ref_at r w) (V w) i j)) = 0).
Hypothesis NC : near v (fun w => centred (V w)).
Hypothesis NR : near v (fun w => BSSN_RHSs nm true (rbar w) (src w) (ref_at r w) (V w) = Ok (RH w)).
Let LWw := fun w => LW (gammabarDD (M w) (V w)) (gammabarDD_dD (M w) (V w)) (betaU (M w) (V w)) (betaU_dD (M w) (V w)).
Let Sxw := fun w => Sx (gammabarDD (M w) (V w)) (AbarDD (M w) (V w)) (v_alpha (V w)) (Dbarbetacontraction (M w) (V w)).
Lemma rhs_near : near v (fun w => forall i j, (i < 3)%nat -> (j < 3)%nat -> r_h (RH w) i j * h_ReDD (M w) i j = LWw w i j + Sxw w i j).
Proof using S IV NT NC NR.
  eapply near_imp; [exact (near_and _ _ _ (near_and _ _ _ NR NC) (near_and _ _ _ (near_and _ _ _ IV NT) (decl_gd_sym _ _ _ _ S)))|].
  intros w ((E & C) & (Iw & T) & GE & SG & SA) i j Hi Hj. destruct (rhs_form _ _ _ _ _ _ E) as (u' & d & ps & I' & _ & Q). cbn zeta in Q. destruct Q as (_ & _ & _ & EH & _).
  rewrite Iw in I'. apply ok_inj in I'. injection I' as <- _. rewrite EH. unfold LWw, Sxw, LW, Sx, M.
  unfold gammabar_rhsDD. cbn [q_gUU]. rewrite (trA_val _ _ _ SA), T.
  rewrite (s3_ext (fun k => betaU (ref_at r w) (V w) k * gammabarDD_dupD (ref_at r w) (V w) i j k + _ + _)
    (fun k => betaU (ref_at r w) (V w) k * gammabarDD_dD (ref_at r w) (V w) i j k + betaU_dD (ref_at r w) (V w) k i * gammabarDD (ref_at r w) (V w) k j + betaU_dD (ref_at r w) (V w) k j * gammabarDD (ref_at r w) (V w) i k))
    by (intros k Hk; now rewrite (g_dup _ _ C)).
  field. exact (e_ReDD _ GE i j Hi Hj).
Qed.
Let LWdv := LWd (gammabarDD (M v) (V v)) (gammabarDD_dD (M v) (V v)) (gammabarDD_dDD (M v) (V v)) (betaU (M v) (V v)) (betaU_dD (M v) (V v)) (betaU_dDD (M v) (V v)).
Let Sxdv := Sxd (gammabarDD (M v) (V v)) (AbarDD (M v) (V v)) (gammabarDD_dD (M v) (V v)) (AbarDD_dD (M v) (V v)) (v_alpha_dD (V v)) (Dbarbetacontraction_dBarD (M v) (V v)) (v_alpha (V v)) (Dbarbetacontraction (M v) (V v)).
Lemma d_W : forall i j l, (i < 3)%nat -> (j < 3)%nat -> (l < 3)%nat -> d_at (fun w => LWw w i j + Sxw w i j) l v (LWdv i j l + Sxdv i j l).
Proof using S IV ND.
  intros i j l Hi Hj Hl. pose proof (C62_tensors cs r V v S) as D. cbn zeta in D. fold M in D.
  apply d_plus.
  - unfold LWw, LWdv, LW, LWd. apply (d_s3 (fun w k => betaU (M w) (V w) k * gammabarDD_dD (M w) (V w) i j k + betaU_dD (M w) (V w) k i * gammabarDD (M w) (V w) k j + betaU_dD (M w) (V w) k j * gammabarDD (M w) (V w) i k)). intros k Hk.
    destruct (D k i j l Hk Hi Hj Hl) as (_ & _ & _ & B1 & B2 & _). destruct (D k j i l Hk Hj Hi Hl) as (_ & _ & _ & _ & B3 & _).
    destruct (D i j k l Hi Hj Hk Hl) as (_ & G2 & _). destruct (D k j j l Hk Hj Hj Hl) as (G3 & _). destruct (D i k k l Hi Hk Hk Hl) as (G4 & _).
    eapply d_eq; [intros; reflexivity| |exact (d_plus _ _ l v _ _ (d_plus _ _ l v _ _ (d_mult _ _ l v _ _ B1 G2) (d_mult _ _ l v _ _ B3 G3)) (d_mult _ _ l v _ _ B2 G4))].
    cbn beta. ring.
  - destruct (C62_shift cs r V v u _ S IV ND) as (_ & DT & _). cbn zeta in DT. fold M in DT.
    destruct (D i j i l Hi Hj Hi Hl) as (G1 & _ & A1 & _). unfold Sxw, Sxdv, Sx, Sxd.
    eapply d_eq; [| |exact (d_minus _ _ l v _ _ (d_scal (- (2 / 3)) _ l v _ (d_mult _ _ l v _ _ G1 (DT l Hl))) (d_scal 2 _ l v _ (d_mult _ _ l v _ _ (k_alpha _ _ (s_vars _ _ _ _ S) l Hl) A1)))].
    + intros w. cbn beta. ring.
    + cbn beta. ring.
Qed.
Let udv := fun i j l => - s3 (fun a => s3 (fun c => u v i a * u v j c * gammabarDD_dD (M v) (V v) a c l)).
Lemma d_contracted : forall i l, (i < 3)%nat -> (l < 3)%nat ->
  d_at (fun w => contracted (M w) (V w) (u w) i) l v (Dcd (u v) (gammabarDD_dD (M v) (V v)) udv (gammabarDD_dDD (M v) (V v)) (h_Gam (M v)) (h_GamdD (M v)) i l).
Proof using S IV.
  intros i l Hi Hl. pose proof (C62_tensors cs r V v S) as D. cbn zeta in D. fold M in D.
  pose proof (ref_at_ok cs r v (s_rm _ _ _ _ S) (s_good _ _ _ _ S) (s_inside _ _ _ _ S)) as HM. fold M in HM.
  unfold contracted, Dcd. apply (d_s3 (fun w j => s3 (fun k => u w j k * (GammabarUDD (M w) (V w) (u w) i j k - h_Gam (M w) i j k)))). intros j Hj.
  apply (d_s3 (fun w k => u w j k * (GammabarUDD (M w) (V w) (u w) i j k - h_Gam (M w) i j k))). intros k Hk.
  assert (DG : d_at (fun w => GammabarUDD (M w) (V w) (u w) i j k) l v (Gd (u v) (gammabarDD_dD (M v) (V v)) udv (gammabarDD_dDD (M v) (V v)) i j k l)).
  { unfold Gd. eapply d_eq; [intros w; symmetry; apply G_val|reflexivity|]. unfold G.
    apply (d_s3 (fun w n => u w i n * low (gammabarDD_dD (M w) (V w)) n j k)). intros n Hn.
    destruct (D n j k l Hn Hj Hk Hl) as (_ & G1 & _). destruct (D n k j l Hn Hk Hj Hl) as (_ & G2 & _). destruct (D j k n l Hj Hk Hn Hl) as (_ & G3 & _).
    exact (d_mult _ _ l v _ _ (d_uu cs r V v u _ S IV i n l Hi Hn Hl) (d_scal (1 / 2) _ l v _ (d_minus _ _ l v _ _ (d_plus _ _ l v _ _ G1 G2) G3))). }
  eapply d_eq; [intros; reflexivity| |exact (d_mult _ _ l v _ _ (d_uu cs r V v u _ S IV j k l Hj Hk Hl) (d_minus _ _ l v _ _ DG (k_Gam _ _ HM i j k l Hi Hj Hk Hl)))].
  cbn beta. now rewrite <- G_val.
Qed.

(** ** In time *)
Variables (X : R -> vars) (U : R -> nat -> nat -> R) (hd : nat -> nat -> nat -> R).
Hypothesis FL : flows (RH v) (V v) X.
Hypothesis HD : forall i j k, (i < 3)%nat -> (j < 3)%nat -> (k < 3)%nat -> d_at (fun w => r_h (RH w) i j) k v (hd i j k).
Hypothesis FD : forall i j k, (i < 3)%nat -> (j < 3)%nat -> (k < 3)%nat -> derivable_pt_lim (fun t => v_h_dD (X t) i j k) 0 (hd i j k).
Hypothesis NU : near0 (fun t => exists d, inv3 (gammabarDD (M v) (X t)) = Ok (U t, d)).
Let W := fun i j => LWw v i j + Sxw v i j.
Let Wd := fun i j l => LWdv i j l + Sxdv i j l.
Lemma tl_g : forall i j, (i < 3)%nat -> (j < 3)%nat -> derivable_pt_lim (fun t => gammabarDD (M v) (X t) i j) 0 (W i j).
Proof using S IV NT NC NR FL.
  intros i j Hi Hj. unfold W. rewrite <- (near_here _ _ rhs_near i j Hi Hj). unfold gammabarDD.
  replace (r_h (RH v) i j * h_ReDD (M v) i j) with (r_h (RH v) i j * h_ReDD (M v) i j + v_h (X 0) i j * 0 + 0) by ring.
  apply (derivable_pt_lim_plus (fun t => v_h (X t) i j * h_ReDD (M v) i j) (fun _ => h_g (M v) i j)); [|apply derivable_pt_lim_const].
  apply (derivable_pt_lim_mult (fun t => v_h (X t) i j) (fun _ => h_ReDD (M v) i j)); [exact (f_h _ _ _ FL i j Hi Hj)|apply derivable_pt_lim_const].
Qed.
Lemma tl_gd : forall i j l, (i < 3)%nat -> (j < 3)%nat -> (l < 3)%nat -> derivable_pt_lim (fun t => gammabarDD_dD (M v) (X t) i j l) 0 (Wd i j l).
Proof using S IV ND NT NC NR FL HD FD.
  intros i j l Hi Hj Hl. pose proof (ref_at_ok cs r v (s_rm _ _ _ _ S) (s_good _ _ _ _ S) (s_inside _ _ _ _ S)) as HM. fold M in HM.
  assert (E : Wd i j l = hd i j l * h_ReDD (M v) i j + r_h (RH v) i j * h_ReDDdD (M v) i j l).
  { apply (d_unique (fun w => LWw w i j + Sxw w i j) l v); [exact (d_W i j l Hi Hj Hl)|].
    eapply d_ext; [exact Hl| |reflexivity|exact (d_mult _ _ l v _ _ (HD i j l Hi Hj Hl) (k_ReDD _ _ HM i j l Hi Hj Hl))].
    eapply near_imp; [exact rhs_near|]. intros w Hw. exact (Hw i j Hi Hj). }
  rewrite E. apply d_t. unfold gammabarDD_dD.
  eapply d_eq; [intros w; reflexivity| |exact (d_plus _ _ 0 t0 _ _ (d_plus _ _ 0 t0 _ _ (d_const (h_gD (M v) i j l) 0 t0) (d_mult _ _ 0 t0 _ _ (t_d (fun t => v_h_dD (X t) i j l) _ (FD i j l Hi Hj Hl)) (d_const (h_ReDD (M v) i j) 0 t0)))
     (d_mult _ _ 0 t0 _ _ (t_d (fun t => v_h (X t) i j) _ (f_h _ _ _ FL i j Hi Hj)) (d_const (h_ReDDdD (M v) i j l) 0 t0)))].
  cbn beta. ring.
Qed.
Lemma U_start : U 0 = u v.
Proof using IV NU FL.
  destruct (near0_here _ NU) as (d & E). rewrite (f_start _ _ _ FL) in E. pose proof (near_here _ _ IV) as I0. cbn beta in I0. fold M in I0. rewrite I0 in E. apply ok_inj in E. now injection E as -> _.
Qed.
Lemma tl_u : forall i j, (i < 3)%nat -> (j < 3)%nat -> derivable_pt_lim (fun t => U t i j) 0 (dU (u v) W i j).
Proof using S IV NT NC NR FL NU.
  intros i j Hi Hj. apply d_t. unfold dU. rewrite <- U_start. pose proof (near_here _ _ (decl_gd_sym _ _ _ _ S)) as (GE & _).
  assert (N : near t0 (fun w => inv3 (gammabarDD (M v) (X (exx w 0%nat))) = Ok (U (exx w 0%nat), det3 (gammabarDD (M v) (X (exx w 0%nat)))))).
  { eapply near_imp; [exact (t_near _ NU)|]. intros w (d & Iw). rewrite Iw. now rewrite (proj1 (inv3_spec _ _ _ (proj1 (t_sym _ _ _ _ GE FL _)) Iw)). }
  refine (d_inverse (fun w => gammabarDD (M v) (X (exx w 0%nat))) (fun w => U (exx w 0%nat)) _ W 0 t0 ltac:(lia) _ N _ i j Hi Hj).
  - apply near_all. intros w. exact (proj1 (t_sym _ _ _ _ GE FL _)).
  - intros a c Ha Hc. apply (t_d (fun t => gammabarDD (M v) (X t) a c)). now apply tl_g.
Qed.
Lemma tl_contracted : forall i, (i < 3)%nat ->
  derivable_pt_lim (fun t => contracted (M v) (X t) (U t) i) 0 (dDc (u v) (gammabarDD_dD (M v) (V v)) (h_Gam (M v)) W Wd i).
Proof using S IV ND NT NC NR FL HD FD NU.
  intros i Hi. apply d_t. unfold contracted, dDc.
  apply (d_s3 (fun w j => s3 (fun k => U (exx w 0%nat) j k * (GammabarUDD (M v) (X (exx w 0%nat)) (U (exx w 0%nat)) i j k - h_Gam (M v) i j k)))). intros j Hj.
  apply (d_s3 (fun w k => U (exx w 0%nat) j k * (GammabarUDD (M v) (X (exx w 0%nat)) (U (exx w 0%nat)) i j k - h_Gam (M v) i j k))). intros k Hk.
  assert (DU : forall a c, (a < 3)%nat -> (c < 3)%nat -> d_at (fun w => U (exx w 0%nat) a c) 0 t0 (dU (u v) W a c)) by (intros a c Ha Hc; exact (t_d (fun t => U t a c) _ (tl_u a c Ha Hc))).
  assert (DD : forall a c l, (a < 3)%nat -> (c < 3)%nat -> (l < 3)%nat -> d_at (fun w => gammabarDD_dD (M v) (X (exx w 0%nat)) a c l) 0 t0 (Wd a c l)) by (intros a c l Ha Hc Hl; exact (t_d (fun t => gammabarDD_dD (M v) (X t) a c l) _ (tl_gd a c l Ha Hc Hl))).
  assert (DG : d_at (fun w => GammabarUDD (M v) (X (exx w 0%nat)) (U (exx w 0%nat)) i j k) 0 t0 (dG (u v) (gammabarDD_dD (M v) (V v)) W Wd i j k)).
  { unfold dG. eapply d_eq; [intros w; symmetry; apply G_val|reflexivity|]. unfold G.
    apply (d_s3 (fun w n => U (exx w 0%nat) i n * low (gammabarDD_dD (M v) (X (exx w 0%nat))) n j k)). intros n Hn.
    eapply d_eq; [intros; reflexivity| |exact (d_mult _ _ 0 t0 _ _ (DU i n Hi Hn) (d_scal (1 / 2) _ 0 t0 _ (d_minus _ _ 0 t0 _ _ (d_plus _ _ 0 t0 _ _ (DD n j k Hn Hj Hk) (DD n k j Hn Hk Hj)) (DD j k n Hj Hk Hn))))].
    cbn beta. change (exx t0 0%nat) with 0. rewrite (f_start _ _ _ FL), U_start. reflexivity. }
  eapply d_eq; [intros; reflexivity| |exact (d_mult _ _ 0 t0 _ _ (DU j k Hj Hk) (d_minus _ _ 0 t0 _ _ DG (d_const (h_Gam (M v) i j k) 0 t0)))].
  cbn beta. change (exx t0 0%nat) with 0. rewrite (f_start _ _ _ FL), U_start, Rminus_0_r, G_val. reflexivity.
Qed.
End Lam.

(** What BSSN_RHSs returns for Lambdabar *)
Definition sL_of (src : option (R * (nat -> nat -> R) * (nat -> R))) : nat -> R := match src with Some (_, _, x) => x | None => fun _ => 0 end.
Lemma lam_form : forall nm rbar src m b rh u d ps, BSSN_RHSs nm true rbar src m b = Ok rh -> inv3 (gammabarDD m b) = Ok (u, d) -> phi_part nm b = Ok ps ->
  exists q, q_gUU q = u /\ q_phi q = ps /\ (forall i, r_Lambdabar rh i = Lambdabar_rhsU m b q i + sL_of src i) /\ forall i, r_lambda rh i = r_Lambdabar rh i / h_ReU m i.
Proof.
  intros nm rbar src m b rh u d ps E I P. unfold BSSN_RHSs, bssn_quantities in E. rewrite I, P in E. cbn [py_bind negb fst] in E.
  match type of E with py_bind ?x _ = _ => destruct x as [cfr|e] eqn:C; [|discriminate] end. cbn [py_bind] in E.
  match type of C with cf_rhs _ _ ?q _ = _ => exists q end. split; [reflexivity|]. split; [reflexivity|].
  destruct src as [[[sK sA] sL]|]; apply ok_inj in E; subst rh; cbn [r_Lambdabar r_lambda sL_of]; split; intros i; reflexivity.
Qed.
Lemma mu_form : forall nm rbar m b c u d ps, BSSN_constraints nm true rbar None m b = Ok c -> inv3 (gammabarDD m b) = Ok (u, d) -> phi_part nm b = Ok ps ->
  exists q, q_gUU q = u /\ q_phi q = ps /\ forall i, c_MU c i = MU_constraint m b q i.
Proof.
  intros nm rbar m b c u d ps E I P. unfold BSSN_constraints, bssn_quantities in E. rewrite I, P in E. cbn [py_bind negb fst] in E.
  match type of E with Ok (MkCons (H_constraint _ _ ?q + _) _ _ _) = _ => exists q end. split; [reflexivity|]. split; [reflexivity|]. apply ok_inj in E; subst c; cbn [c_MU]. intros i. ring.
Qed.

(** Fields [V] around the point [v] that satisfy the constraints det gammabar = det gammahat, trace of Abar = 0 and Lambdabar = the
    contracted difference of the connections, whose upwinded derivatives are derivatives; [RH] are the right-hand sides around [v], and
    at [v] the variables, and the first derivatives of h, change in time at these rates and their derivatives *)
Record lam_flow (cs : string) (r : rfm) (V : env -> vars) (v : env) (nm : string) (u : env -> nat -> nat -> R)
    (rbar : env -> option (nat -> nat -> R)) (src : env -> option (R * (nat -> nat -> R) * (nat -> R))) (RH : env -> rhss) (X : R -> vars) (hd : nat -> nat -> nat -> R) : Prop := MkLam {
  l_set : setting cs r V v; l_cf : nm <> "phi"%string -> v_cf (V v) <> 0;
  l_inv : near v (fun w => exists d, inv3 (gammabarDD (ref_at r w) (V w)) = Ok (u w, d));
  l_det : near v (fun w => det3 (gammabarDD (ref_at r w) (V w)) = h_det (ref_at r w));
  l_tr : near v (fun w => s3 (fun i => s3 (fun j => u w i j * AbarDD (ref_at r w) (V w) i j)) = 0);
  l_lam : near v (fun w => forall i, (i < 3)%nat -> LambdabarU (ref_at r w) (V w) i = contracted (ref_at r w) (V w) (u w) i);
  l_cen : near v (fun w => centred (V w)); l_lup : forall i k, v_lam_dupD (V v) i k = v_lam_dD (V v) i k;
  l_rhs : near v (fun w => BSSN_RHSs nm true (rbar w) (src w) (ref_at r w) (V w) = Ok (RH w));
  l_flow : flows (RH v) (V v) X;
  l_flowd : forall i j k, (i < 3)%nat -> (j < 3)%nat -> (k < 3)%nat ->
    d_at (fun w => r_h (RH w) i j) k v (hd i j k) /\ derivable_pt_lim (fun t => v_h_dD (X t) i j k) 0 (hd i j k) }.
Lemma fin_alg : forall x s y p em al : R, p * em = 1 -> x - 2 * al * y = x + s - s - 2 * al * p * (y * em).
Proof. intros x s y p em al E. replace (2 * al * p * (y * em)) with (2 * al * y * (p * em)) by ring. rewrite E. ring. Qed.
(** Lambdabar_rhsU is the time derivative of the contracted difference of the connections, plus 2 alpha e^{4 phi} times the momentum
    constraint. *)
Theorem C66_Lambdabar : forall cs r V v nm u rbar src RH X hd U c e, lam_flow cs r V v nm u rbar src RH X hd ->
  near0 (fun t => exists d, inv3 (gammabarDD (ref_at r v) (X t)) = Ok (U t, d)) ->
  BSSN_constraints nm true (rbar v) None (ref_at r v) (V v) = Ok c -> exp4phi_of nm (v_cf (V v)) = Ok e ->
  forall i, (i < 3)%nat -> derivable_pt_lim (fun t => contracted (ref_at r v) (X t) (U t) i) 0
    (r_Lambdabar (RH v) i - sL_of (src v) i - 2 * v_alpha (V v) * e * c_MU c i).
Proof.
  intros cs r V v nm u rbar src RH X hd U c e [S CF IV ND NT NL NC LC NR FL HX] NU EC EE i Hi.
  assert (IV' : near v (fun w => inv3 (gammabarDD (ref_at r w) (V w)) = Ok (u w, det3 (gammabarDD (ref_at r w) (V w))))).
  { eapply near_imp; [exact (near_and _ _ _ IV (decl_gd_sym _ _ _ _ S))|]. intros w ((d & Iw) & (_ & SG & _)). rewrite Iw. now rewrite (proj1 (inv3_spec _ _ _ SG Iw)). }
  pose proof (near_here _ _ IV') as I0. cbn beta in I0. destruct (rhs_form _ _ _ _ _ _ (near_here _ _ NR)) as (u' & d' & ps & I' & EP & _).
  rewrite I0 in I'. apply ok_inj in I'. injection I' as <- <-.
  destruct (lam_form _ _ _ _ _ _ _ _ _ (near_here _ _ NR) I0 EP) as (q & Qu & Qp & QL & _).
  destruct (mu_form _ _ _ _ _ _ _ _ EC I0 EP) as (q' & Qu' & Qp' & QM).
  destruct (names_total nm (names_of _ _ _ EP)) as (p & ph & ps' & TOT). pose proof (TOT (V v)) as (P1 & P2 & _). rewrite EE in P1. apply ok_inj in P1. subst e.
  destruct (phi_same _ _ _ _ _ EE P2 EP CF) as (PE & _).
  rewrite QL, QM. unfold MU_constraint, Lambdabar_rhsU. rewrite Qu, Qp, Qu', Qp'.
  pose proof (tl_contracted cs r V v nm u rbar src RH S IV' ND NT NC NR X U hd FL (fun i j k Hi Hj Hk => proj1 (HX i j k Hi Hj Hk)) (fun i j k Hi Hj Hk => proj2 (HX i j k Hi Hj Hk)) NU i Hi) as D.
  match type of D with derivable_pt_lim _ _ ?x => match goal with |- derivable_pt_lim _ _ ?y => replace y with x; [exact D|] end end. clear D.
  set (m := ref_at r v) in *. set (b := V v) in *.
  pose proof (near_here _ _ (at_near cs r V v u _ S IV')) as (GE & SG & SU & TS & DC). pose proof (near_here _ _ (decl_gd_sym _ _ _ _ S)) as (_ & _ & SA). fold m b in GE, SG, SU, TS, DC, SA.
  pose proof (s_rm _ _ _ _ S) as HR. pose proof (s_good _ _ _ _ S) as HG. pose proof (s_inside _ _ _ _ S) as HI.
  pose proof (near_here _ _ NT) as T0. cbn beta in T0. fold m b in T0.
  assert (TD : forall l, (l < 3)%nat -> s3 (fun j => s3 (fun k => - s3 (fun a => s3 (fun c => u v j a * u v k c * gammabarDD_dD m b a c l)) * AbarDD m b j k + u v j k * AbarDD_dD m b j k l)) = 0).
  { intros l Hl. apply (d_unique (fun w => s3 (fun i => s3 (fun j => u w i j * AbarDD (ref_at r w) (V w) i j))) l v).
    - apply (d_s3 (fun w i => s3 (fun j => u w i j * AbarDD (ref_at r w) (V w) i j))). intros j Hj. apply (d_s3 (fun w k => u w j k * AbarDD (ref_at r w) (V w) j k)). intros k Hk.
      exact (d_mult _ _ l v _ _ (d_uu cs r V v u _ S IV' j k l Hj Hk Hl) (d_Abar _ _ _ (ref_at_ok cs r v HR HG HI) (s_vars _ _ _ _ S) j k l Hj Hk Hl)).
    - eapply d_ext; [exact Hl| |reflexivity|exact (d_const 0 l v)]. eapply near_imp; [exact NT|]. intros w Hw. symmetry. exact Hw. }
  rewrite (lam_total (gammabarDD m b) (u v) (AbarDD m b) (gammabarDD_dD m b) (fun i j l => - s3 (fun a => s3 (fun c => u v i a * u v j c * gammabarDD_dD m b a c l))) (AbarDD_dD m b) (gammabarDD_dDD m b)
    (betaU m b) (v_alpha_dD b) (Dbarbetacontraction_dBarD m b) (betaU_dD m b) (betaU_dDD m b) (v_alpha b) (Dbarbetacontraction m b) TS SG SU SA (gd_sym _ _ _ _ S)) with (Hd := h_GamdD m) (p := phi_dD ps) (Kd := v_trK_dD b);
    [|..|exact Hi].
  2:{ intros a c' k l Ha Hc Hk Hl. pose proof (ghat_dd_sym cs r v HR HG HI a c' k l Ha Hc) as Z1. pose proof (redd_sym cs r v HR HG HI a c' k l Ha Hc) as Z2. fold m in Z1, Z2. unfold gammabarDD_dDD. rewrite Z1, Z2, (proj2 (y_hDD _ DC a c' k l Ha Hc Hk Hl)). ring. }
  2:{ intros a k l Ha Hk Hl. pose proof (reu_dd_sym cs r v HR HG HI a k l Ha) as Z1. fold m in Z1. unfold betaU_dDD. rewrite Z1, (y_vetDD _ DC a k l Ha Hk Hl). ring. }
  2:{ intros; reflexivity. }
  2:{ exact T0. }
  2:{ exact TD. }
  2:{ intros; reflexivity. }
  2:{ intros; reflexivity. }
  2:{ exact (e_Gam _ GE). }
  2:{ exact (gam_d_sym cs r v HR HG HI). }
  2:{ exact (e_flat _ GE). }
  assert (LD : forall a, (a < 3)%nat -> Dc (u v) (gammabarDD_dD m b) (h_Gam m) a = LambdabarU m b a).
  { intros a Ha. pose proof (near_here _ _ NL a Ha) as Z. fold m b in Z. rewrite Z. unfold Dc, contracted. apply s3_ext. intros j Hj. apply s3_ext. intros k Hk. now rewrite G_val. }
  assert (LDd : forall a l, (a < 3)%nat -> (l < 3)%nat -> Dcd (u v) (gammabarDD_dD m b) (fun i j l => - s3 (fun a => s3 (fun c => u v i a * u v j c * gammabarDD_dD m b a c l))) (gammabarDD_dDD m b) (h_Gam m) (h_GamdD m) a l = LambdabarU_dupD m b a l).
  { intros a l Ha Hl. apply (d_unique (fun w => LambdabarU (ref_at r w) (V w) a) l v).
    - eapply d_ext; [exact Hl| |reflexivity|exact (d_contracted cs r V v u S IV' a l Ha Hl)]. eapply near_imp; [exact NL|]. intros w Hw. symmetry. exact (Hw a Ha).
    - destruct (C62_tensors cs r V v S a a a l Ha Ha Ha Hl) as (_ & _ & _ & _ & _ & _ & _ & _ & Z). exact (Z LC). }
  rewrite (s3_ext (fun k => betaU m b k * Dcd _ _ _ _ _ _ i k - betaU_dD m b i k * Dc _ _ _ k) (fun k => betaU m b k * LambdabarU_dupD m b i k - betaU_dD m b i k * LambdabarU m b k)) by (intros k Hk; now rewrite LDd, LD).
  assert (LD0 : Dc (u v) (gammabarDD_dD m b) (h_Gam m) i = DGammaU m b (u v) i).
  { unfold Dc, DGammaU, DGammaUDD. apply s3_ext. intros j Hj. apply s3_ext. intros k Hk. now rewrite G_val. }
  rewrite LD0.
  rewrite (s3_ext (fun j => s3 (fun k => 2 * v_alpha b * AU (u v) (AbarDD m b) j k * (G _ _ i j k - h_Gam m i j k))) (fun j => s3 (fun k => 2 * v_alpha b * AbarUU m b (u v) j k * DGammaUDD m b (u v) i j k)))
    by (intros j Hj; apply s3_ext; intros k Hk; unfold DGammaUDD; now rewrite G_val).
  rewrite (s3_ext (fun j => s3 (fun k => s3 (fun l => u v i k * u v j l * cov _ _ (AbarDD m b) (AbarDD_dD m b) k l j))) (fun j => s3 (fun k => s3 (fun l => u v i k * u v j l * AbarDD_dBarD m b q' k l j)))).
  2:{ intros j Hj. apply s3_ext. intros k Hk. apply s3_ext. intros l Hl. f_equal. unfold cov, AbarDD_dBarD. rewrite Qu'.
      rewrite (s3_ext (fun l0 => - GammabarUDD m b (u v) l0 j k * AbarDD m b l0 l + - GammabarUDD m b (u v) l0 j l * AbarDD m b k l0) (fun n => - G (u v) (gammabarDD_dD m b) n j k * AbarDD m b n l + - G (u v) (gammabarDD_dD m b) n j l * AbarDD m b k n)) by (intros n Hn; now rewrite !G_val).
      generalize (G (u v) (gammabarDD_dD m b)). intros G0. rewrite !s3_eq. ring. }
  exact (fin_alg _ _ _ _ _ _ PE).
Qed.
(** So the constraint Lambdabar = contracted difference changes at the rate of the momentum constraint (and of the source term), and
    is preserved in vacuum where the momentum constraint holds. *)
Theorem C66_constraint : forall cs r V v nm u rbar src RH X hd U c e, lam_flow cs r V v nm u rbar src RH X hd ->
  (forall i, (i < 3)%nat -> derivable_pt_lim (fun t => v_lam (X t) i) 0 (r_lambda (RH v) i)) ->
  near0 (fun t => exists d, inv3 (gammabarDD (ref_at r v) (X t)) = Ok (U t, d)) ->
  BSSN_constraints nm true (rbar v) None (ref_at r v) (V v) = Ok c -> exp4phi_of nm (v_cf (V v)) = Ok e ->
  forall i, (i < 3)%nat -> derivable_pt_lim (fun t => LambdabarU (ref_at r v) (X t) i - contracted (ref_at r v) (X t) (U t) i) 0
    (sL_of (src v) i + 2 * v_alpha (V v) * e * c_MU c i).
Proof.
  intros cs r V v nm u rbar src RH X hd U c e F FLam NU EC EE i Hi. pose proof (C66_Lambdabar cs r V v nm u rbar src RH X hd U c e F NU EC EE i Hi) as D.
  pose proof F as [S CF IV ND NT NL NC LC NR FL HX]. pose proof (near_here _ _ (decl_gd_sym _ _ _ _ S)) as (GE & _).
  destruct (near_here _ _ IV) as (d0 & I0). destruct (rhs_form _ _ _ _ _ _ (near_here _ _ NR)) as (u' & d' & ps & I' & EP & _).
  destruct (lam_form _ _ _ _ _ _ _ _ _ (near_here _ _ NR) I' EP) as (q & _ & _ & _ & QL).
  pose proof (FLam i Hi) as L. rewrite QL in L. apply d_t.
  eapply d_eq; [intros w; reflexivity| |exact (d_minus _ _ 0 t0 _ _ (d_mult _ _ 0 t0 _ _ (t_d (fun t => v_lam (X t) i) _ L) (d_const (h_ReU (ref_at r v) i) 0 t0)) (t_d (fun t => contracted (ref_at r v) (X t) (U t) i) _ D))].
  cbn beta. field. exact (e_ReU _ GE i Hi).
Qed.

(** ** A concrete case: the fields of ev_point, changing linearly in time *)
Definition linear1 (rh : rhss) (hd : nat -> nat -> nat -> R) (b : vars) (t : R) : vars :=
  MkVars (fun i j => v_h b i j + t * r_h rh i j) (fun i j => v_a b i j + t * r_a rh i j) (fun i => v_lam b i + t * r_lambda rh i) (v_vet b) (v_bet b) (v_trK b + t * r_trK rh) (v_cf b + t * r_cf rh) (v_alpha b)
    (fun i j k => v_h_dD b i j k + t * hd i j k) (v_h_dupD b) (v_h_dDD b) (v_a_dD b) (v_a_dupD b) (v_lam_dD b) (v_lam_dupD b) (v_vet_dD b) (v_vet_dupD b) (v_vet_dDD b) (v_cf_dD b) (v_cf_dupD b) (v_cf_dDD b)
    (v_trK_dD b) (v_trK_dupD b) (v_alpha_dD b) (v_alpha_dDD b).
Lemma linear1_flows : forall rh hd b, sym3 (v_h b) -> sym3 (v_a b) -> sym3 (r_h rh) -> sym3 (r_a rh) -> flows rh b (linear1 rh hd b).
Proof.
  intros rh hd b S1 S2 S3 S4. constructor.
  - assert (E1 : (fun i j => v_h b i j + 0 * r_h rh i j) = v_h b) by (do 2 (apply FunctionalExtensionality.functional_extensionality; intros ?); ring).
    assert (E2 : (fun i j => v_a b i j + 0 * r_a rh i j) = v_a b) by (do 2 (apply FunctionalExtensionality.functional_extensionality; intros ?); ring).
    assert (E3 : (fun i => v_lam b i + 0 * r_lambda rh i) = v_lam b) by (apply FunctionalExtensionality.functional_extensionality; intros ?; ring).
    assert (E4 : (fun i j k => v_h_dD b i j k + 0 * hd i j k) = v_h_dD b) by (do 3 (apply FunctionalExtensionality.functional_extensionality; intros ?); ring).
    unfold linear1. rewrite E1, E2, E3, E4, !Rmult_0_l, !Rplus_0_r. destruct b. reflexivity.
  - intros t. split; intros i j Hi Hj; cbn [v_h v_a linear1]; [rewrite (S1 i j Hi Hj), (S3 i j Hi Hj)|rewrite (S2 i j Hi Hj), (S4 i j Hi Hj)]; reflexivity.
  - intros i j _ _. apply lin_deriv.
  - intros i j _ _. apply lin_deriv.
  - apply lin_deriv.
  - apply lin_deriv.
Qed.
Definition no_rhs : rhss := MkRhs 0 0 (fun _ => 0) (fun _ => 0) (fun _ _ => 0) (fun _ _ => 0).
Definition ev_here (r : rfm) (v : env) (V : env -> vars) (u : env -> nat -> nat -> R) : Prop :=
  setting "SinhSymTP" r V v /\ (forall w, centred (V w) /\ (forall i k, v_lam_dupD (V w) i k = v_lam_dD (V w) i k) /\ v_alpha (V w) = v_cf (V w)) /\ v_cf (V v) <> 0 /\
  near v (fun w => det3 (gammabarDD (ref_at r w) (V w)) = h_det (ref_at r w)) /\
  near v (fun w => inv3 (gammabarDD (ref_at r w) (V w)) = Ok (u w, det3 (gammabarDD (ref_at r w) (V w)))) /\
  near v (fun w => s3 (fun i => s3 (fun j => u w i j * AbarDD (ref_at r w) (V w) i j)) = 0) /\
  near v (fun w => forall i, (i < 3)%nat -> LambdabarU (ref_at r w) (V w) i = contracted (ref_at r w) (V w) (u w) i).
Definition rhs_value (src : option (R * (nat -> nat -> R) * (nat -> R))) (m : refm) (b : vars) : rhss :=
  match BSSN_RHSs "chi" true None src m b with Ok x => x | Err _ => no_rhs end.
Lemma lam_example : forall r v V u src, ev_here r v V u -> match src v with Some (_, sA, _) => sym3 sA | None => True end ->
  let RH := fun w => rhs_value (src w) (ref_at r w) (V w) in
  exists hd U, let X := linear1 (RH v) hd (V v) in lam_flow "SinhSymTP" r V v "chi" u (fun _ => None) src RH X hd /\
  near0 (fun t => exists d, inv3 (gammabarDD (ref_at r v) (X t)) = Ok (U t, d)).
Proof.
  intros r v V u src (S & C & CF & ED & N & T & NL) SS RH.
  assert (NR : near v (fun w => BSSN_RHSs "chi" true None (src w) (ref_at r w) (V w) = Ok (RH w))).
  { eapply near_imp; [exact N|]. intros w Iw. destruct (rhs_total "chi" _ _ _ _ ltac:(cbn; tauto) Iw None (src w)) as (rh & E). unfold RH, rhs_value. now rewrite E. }
  assert (NC : near v (fun w => centred (V w))) by (apply near_all; intros w; apply C).
  pose proof (near_here _ _ (decl_gd_sym _ _ _ _ S)) as (GE & _). pose proof (ref_at_ok _ r v (s_rm _ _ _ _ S) (s_good _ _ _ _ S) (s_inside _ _ _ _ S)) as HM.
  assert (HD : exists hd, forall i j k, (i < 3)%nat -> (j < 3)%nat -> (k < 3)%nat -> d_at (fun w => r_h (RH w) i j) k v (hd i j k)).
  { eexists (fun i j k => _). intros i j k Hi Hj Hk.
    eapply d_ext; [exact Hk| |reflexivity|exact (d_div _ _ k v _ _ (e_ReDD _ GE i j Hi Hj) (d_W _ r V v u S N ED i j k Hi Hj Hk) (k_ReDD _ _ HM i j k Hi Hj Hk))].
    eapply near_imp; [exact (near_and _ _ _ (rhs_near _ r V v "chi" u (fun _ => None) src RH S N T NC NR) (decl_gd_sym _ _ _ _ S))|].
    intros w (Hw & Gw & _). cbn beta. rewrite <- (Hw i j Hi Hj). field. exact (e_ReDD _ Gw i j Hi Hj). }
  destruct HD as (hd & HD).
  assert (DC : declared (V v)) by exact (near_here _ _ (s_decl _ _ _ _ S)).
  destruct (C64_symmetric _ r V v "chi"%string None (src v) (RH v) S) as (S1 & S2); [|exact Logic.I|exact SS|exact (near_here _ _ NR)|].
  { intros i j k Hi Hj Hk. rewrite !(n_h _ (proj1 (C v))), !(n_a _ (proj1 (C v))). split; [exact (y_hD _ DC i j k Hi Hj Hk)|].
    apply (d_unique (fun w => v_a (V w) i j) k v); [exact (k_a _ _ (s_vars _ _ _ _ S) i j k Hi Hj Hk)|].
    apply (d_ext (fun w => v_a (V w) j i) (fun w => v_a (V w) i j) k v (v_a_dD (V v) j i k) _ Hk); [|reflexivity|exact (k_a _ _ (s_vars _ _ _ _ S) j i k Hj Hi Hk)].
    eapply near_imp; [exact (s_decl _ _ _ _ S)|]. intros w Dw. exact (y_a _ Dw j i Hj Hi). }
  pose proof (linear1_flows (RH v) hd (V v) (y_h _ DC) (y_a _ DC) S1 S2) as FL.
  destruct (rhs_form _ _ _ _ _ _ (near_here _ _ NR)) as (u0 & d0 & ps & I0 & _ & Q). cbn zeta in Q. destruct Q as (_ & _ & _ & EH & _).
  destruct (t_inv _ _ _ _ _ GE FL EH u0 d0 I0) as (U & _ & NI).
  exists hd, U. split.
  - constructor; try assumption.
    + intros _. exact CF.
    + eapply near_imp; [exact N|]. intros w Iw. eexists. exact Iw.
    + intros i k. apply C.
    + intros i j k Hi Hj Hk. split; [now apply HD|]. apply lin_deriv.
  - eapply near0_imp; [exact NI|]; intros t It; eexists; exact It.
Qed.
Lemma ev_here_ex : exists r v V u, ev_here r v V u /\ (forall w, v_h (V w) 0%nat 1%nat = exx w 0%nat /\ v_a (V w) 0%nat 2%nat = exx w 1%nat /\ v_trK (V w) = exx w 1%nat) /\
  near v (fun w => BSSN_to_ADM "chi" true (ref_at r w) (V w) = Ok (adm_value "chi" (ref_at r w) (V w))).
Proof.
  destruct ev_point_all as (r & v & V & u & S & C & CF & EX & ED & N & T & NA & NL). exists r, v, V, u. split; [|split; [exact EX|exact NA]].
  split; [exact S|]. split; [exact C|]. split; [exact CF|]. split; [exact ED|]. split; [exact N|]. split; [exact T|exact NL].
Qed.
Lemma cons_ex : forall r v V u src, ev_here r v V u -> exists c, BSSN_constraints "chi" true None src (ref_at r v) (V v) = Ok c.
Proof.
  intros r v V u src (_ & _ & _ & _ & N & _). unfold BSSN_constraints, bssn_quantities. rewrite (near_here _ _ N). cbn [py_bind negb]. unfold phi_part. cbn [String.eqb Ascii.eqb Bool.eqb py_bind].
  destruct src as [[sH sM]|]; eexists; reflexivity.
Qed.
Example ex_C66 : exists r v V u RH X hd U c, lam_flow "SinhSymTP" r V v "chi" u (fun _ => None) (fun _ => None) RH X hd /\
  (forall w, v_h (V w) 0%nat 1%nat = exx w 0%nat /\ v_a (V w) 0%nat 2%nat = exx w 1%nat /\ v_trK (V w) = exx w 1%nat) /\
  BSSN_constraints "chi" true None None (ref_at r v) (V v) = Ok c /\
  derivable_pt_lim (fun t => contracted (ref_at r v) (X t) (U t) 1%nat) 0 (r_Lambdabar (RH v) 1%nat - 0 - 2 * v_alpha (V v) * (1 / v_cf (V v)) * c_MU c 1%nat) /\
  derivable_pt_lim (fun t => LambdabarU (ref_at r v) (X t) 1%nat - contracted (ref_at r v) (X t) (U t) 1%nat) 0 (0 + 2 * v_alpha (V v) * (1 / v_cf (V v)) * c_MU c 1%nat).
Proof.
  destruct ev_here_ex as (r & v & V & u & H & EX & _). destruct (lam_example r v V u (fun _ => None) H Logic.I) as (hd & U & LF & NU). destruct (cons_ex r v V u None H) as (c & EC).
  set (RH := fun w => rhs_value None (ref_at r w) (V w)) in *. change (rhs_value None (ref_at r v) (V v)) with (RH v) in LF, NU. set (X := linear1 (RH v) hd (V v)) in *.
  exists r, v, V, u, RH, X, hd, U, c. split; [exact LF|]. split; [exact EX|]. split; [exact EC|]. split.
  - exact (C66_Lambdabar _ r V v _ u _ _ RH X hd U c _ LF NU EC eq_refl 1%nat ltac:(lia)).
  - apply (C66_constraint _ r V v _ u _ _ RH X hd U c _ LF); [|exact NU|exact EC|reflexivity|lia]. intros i Hi. apply lin_deriv.
Qed.

Print Assumptions C66_Lambdabar.
Print Assumptions C66_constraint.
