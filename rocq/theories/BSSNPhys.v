(** The ADM variables of BSSN_to_ADM in terms of the conformal ones: inverse metric, connection, Ricci tensor. *)
From Coq Require Import String List Arith Bool Lia Reals Lra.
From Verif Require Import PyBase Inverter InverterFacts GRMetric RefMetric RefMetricReal RefMetricFacts RefMetricFlat PropRefMetric BSSN BSSNFacts BSSNCalc BSSNGeo BSSNInv BSSNConn PropBSSNDeriv BSSNRicci BSSNRicciFacts PropBSSNRicci BSSNEvolAlg.
Import ListNotations.
Local Open Scope R_scope.

Lemma adm_form : forall nm m b A, BSSN_to_ADM nm true m b = Ok A ->
  exists p ph up dp, exp4phi_of nm (v_cf b) = Ok p /\ phi_derivs nm b p = Ok ph /\ inv3 (fun i j => p * gammabarDD m b i j) = Ok (up, dp) /\
  let g' := fun i j k => 4 * p * fst ph k * gammabarDD m b i j + p * gammabarDD_dD m b i j k in
  a_gammaDD A = (fun i j => p * gammabarDD m b i j) /\ a_gammaDDdD A = g' /\ a_gammaUU A = up /\
  a_GammaUDD A = (fun i j k => s3 (fun l => 1 / 2 * up i l * (g' l j k + g' l k j - g' j k l))) /\
  a_KDD A = (fun i j => p * AbarDD m b i j + 1 / 3 * (p * gammabarDD m b i j) * v_trK b) /\
  a_KDDdD A = (fun i j k => 4 * p * fst ph k * AbarDD m b i j + p * AbarDD_dD m b i j k
         + 1 / 3 * (g' i j k * v_trK b + p * gammabarDD m b i j * v_trK_dD b k)).
Proof.
  intros nm m b A E. unfold BSSN_to_ADM in E. destruct (bssn_quantities nm true None m b) as [q|e]; [|discriminate].
  cbn [py_bind] in E. destruct (exp4phi_of nm (v_cf b)) as [p|e]; [|discriminate]. cbn [py_bind] in E.
  destruct (phi_derivs nm b p) as [ph|e] eqn:Eph; [|discriminate]. cbn [py_bind] in E.
  destruct (inv3 (fun i j => p * gammabarDD m b i j)) as [[up dp]|e] eqn:EI; [|discriminate]. cbn [py_bind fst snd] in E.
  exists p, ph, up, dp. apply ok_inj in E. subst A. split; [reflexivity|]. split; [exact Eph|]. split; [exact EI|]. repeat split.
Qed.
(** phi in BSSN_quantities and in BSSN_to_ADM *)
Lemma phi_same : forall nm b p ph ps, exp4phi_of nm (v_cf b) = Ok p -> phi_derivs nm b p = Ok ph -> phi_part nm b = Ok ps -> (nm <> "phi"%string -> v_cf b <> 0) ->
  p * exp_m4phi ps = 1 /\ (forall k, phi_dD ps k = fst ph k) /\ (forall k l, phi_dDD ps k l = snd ph k l) /\
  ((forall k, v_cf_dupD b k = v_cf_dD b k) -> forall k, phi_dupD ps k = fst ph k).
Proof.
  intros nm b p ph ps E1 E2 E3 N. unfold exp4phi_of, phi_derivs, phi_part in *.
  destruct (String.eqb_spec nm "phi"); [|destruct (String.eqb_spec nm "W"); [subst nm|destruct (String.eqb_spec nm "chi"); [|discriminate]]].
  - apply ok_inj in E1, E2, E3. subst p ph ps. cbn [phi_dD phi_dDD phi_dupD exp_m4phi fst snd].
    split; [rewrite <- exp_plus; replace (4 * v_cf b + -4 * v_cf b) with 0 by ring; apply exp_0|]. auto.
  - cbn [String.eqb Ascii.eqb Bool.eqb] in *. specialize (N ltac:(discriminate)). apply ok_inj in E1, E2, E3. subst p ph ps. cbn [phi_dD phi_dDD phi_dupD exp_m4phi fst snd].
    split; [field; exact N|]. split; [intros; field; exact N|]. split; [intros; field; exact N|]. intros X k. rewrite X. field; exact N.
  - specialize (N n). apply ok_inj in E1, E2, E3. subst p ph ps. cbn [phi_dD phi_dDD phi_dupD exp_m4phi fst snd].
    split; [field; exact N|]. split; [intros; field; exact N|]. split; [intros; field; exact N|]. intros X k. rewrite X. field; exact N.
Qed.
Lemma inv_scaled : forall (p : R) g u d up dp, p <> 0 -> sym3 g -> inv3 g = Ok (u, d) -> inv3 (fun i j => p * g i j) = Ok (up, dp) ->
  forall i j, (i < 3)%nat -> (j < 3)%nat -> up i j = u i j / p.
Proof.
  intros p g u d up dp P S E1 E2. destruct (inv3_spec _ _ _ S E1) as (_ & _ & T1).
  assert (S2 : sym3 (fun i j => p * g i j)) by (intros a c Ha Hc; now rewrite (S a c Ha Hc)). destruct (inv3_spec _ _ _ S2 E2) as (_ & _ & T2).
  exact (inverse_unique _ _ _ _ T2 (inverse_scale p g u P T1) (fun i j _ _ => eq_refl)).
Qed.
Lemma inv3_sym : forall g u d, inv3 g = Ok (u, d) -> sym3 u.
Proof. intros g u d E. destruct (inv3_form _ _ E) as [F1 _]. cbn [fst] in F1. rewrite F1. intros [|[|[|a]]] [|[|[|c]]] Ha Hc; try lia; reflexivity. Qed.
Lemma names_total : forall nm, In nm cf_names -> exists p ph ps, forall b, exp4phi_of nm (v_cf b) = Ok (p b) /\ phi_derivs nm b (p b) = Ok (ph b) /\ phi_part nm b = Ok (ps b).
Proof.
  intros nm [<-|[<-|[<-|[]]]]; (do 3 eexists; intros b; unfold exp4phi_of, phi_derivs, phi_part; cbn [String.eqb Ascii.eqb Bool.eqb]; repeat split; reflexivity).
Qed.

Section Phys.
Variables (cs : string) (r : rfm) (V : env -> vars) (v : env) (u : env -> nat -> nat -> R) (d : env -> R) (nm : string) (A : env -> adm_of).
Hypothesis S : setting cs r V v.
Hypothesis IV : near v (fun w => inv3 (gammabarDD (ref_at r w) (V w)) = Ok (u w, d w)).
Hypothesis NM : In nm cf_names.
Hypothesis CF : nm <> "phi"%string -> v_cf (V v) <> 0.
Hypothesis NA : near v (fun w => BSSN_to_ADM nm true (ref_at r w) (V w) = Ok (A w)).
Variables (p : vars -> R) (ph : vars -> (nat -> R) * (nat -> nat -> R)) (ps : vars -> phis).
Hypothesis TOT : forall b, exp4phi_of nm (v_cf b) = Ok (p b) /\ phi_derivs nm b (p b) = Ok (ph b) /\ phi_part nm b = Ok (ps b).
Let M := ref_at r.
Let g := fun w => gammabarDD (M w) (V w).
Let gd := fun w => gammabarDD_dD (M w) (V w).
Let p1 := fun w => fst (ph (V w)).
Let f := fun w k => s3 (fun n => u w k n * p1 w n).
Let G := fun w => GammabarUDD (M w) (V w) (u w).
Lemma p_near : near v (fun w => p (V w) <> 0).
Proof using S NM CF TOT.
  assert (DP := fun l Hl => proj1 (exp4_deriv V v (s_vars _ _ _ _ S) nm (fun w => p (V w)) (fun w => ph (V w)) NM CF (fun w => proj1 (TOT (V w))) (fun w => proj1 (proj2 (TOT (V w)))) l Hl)).
  apply nonzero_near; [intros l Hl; eexists; exact (DP l Hl)|].
  destruct (TOT (V v)) as (E1 & E2 & E3). destruct (phi_same _ _ _ _ _ E1 E2 E3 CF) as (X & _). intros Z. rewrite Z in X. lra.
Qed.
Lemma up_near : near v (fun w => forall i j, (i < 3)%nat -> (j < 3)%nat -> a_gammaUU (A w) i j = u w i j / p (V w)).
Proof using S IV NM CF NA TOT.
  eapply near_imp; [exact (near_and _ _ _ (near_and _ _ _ p_near NA) (near_and _ _ _ (at_near cs r V v u d S IV) IV))|].
  intros w ((NZ & Aw) & ((_ & SG & _) & Iw)). destruct (adm_form _ _ _ _ Aw) as (p' & ph' & up & dp & E1 & _ & E3 & X). cbn zeta in X.
  destruct X as (_ & _ & -> & _). rewrite (proj1 (TOT (V w))) in E1. apply ok_inj in E1. subst p'. exact (inv_scaled _ _ _ _ _ _ NZ SG Iw E3).
Qed.
Lemma conn_phys : near v (fun w => forall i j k, (i < 3)%nat -> (j < 3)%nat -> (k < 3)%nat ->
  a_GammaUDD (A w) i j k = G w i j k + Ce (g w) (f w) (p1 w) i j k).
Proof using S IV NM CF NA TOT.
  eapply near_imp; [exact (near_and _ _ _ (near_and _ _ _ p_near NA) (near_and _ _ _ (at_near cs r V v u d S IV) (near_and _ _ _ IV up_near)))|].
  intros w ((NZ & Aw) & ((_ & SG & _ & TS & _) & (Iw & UP))) i j k Hi Hj Hk.
  destruct (adm_form _ _ _ _ Aw) as (p' & ph' & up & dp & E1 & E2 & E3 & X). cbn zeta in X.
  destruct X as (_ & _ & EU & -> & _). rewrite (proj1 (TOT (V w))) in E1. apply ok_inj in E1. subst p'.
  rewrite (proj1 (proj2 (TOT (V w)))) in E2. apply ok_inj in E2. subst ph'. rewrite EU in UP.
  rewrite (s3_ext _ (fun l => 1 / 2 * (u w i l / p (V w)) * ((4 * p (V w) * p1 w k * g w l j + p (V w) * gd w l j k) + (4 * p (V w) * p1 w j * g w l k + p (V w) * gd w l k j) - (4 * p (V w) * p1 w l * g w j k + p (V w) * gd w j k l))))
    by (intros l Hl; rewrite (UP i l Hi Hl); reflexivity).
  exact (conf_conn (g w) (u w) (gd w) (p1 w) (p (V w)) NZ TS SG i j k Hi Hj Hk).
Qed.
Let du := fun i j l => - s3 (fun a => s3 (fun b => u v i a * u v j b * gd v a b l)).
Let pd := snd (ph (V v)).
Let fd := fun k l => s3 (fun n => du k n l * p1 v n + u v k n * pd n l).
Lemma d_uu : forall i j l, (i < 3)%nat -> (j < 3)%nat -> (l < 3)%nat -> d_at (fun w => u w i j) l v (du i j l).
Proof using S IV.
  intros i j l Hi Hj Hl. apply (d_inverse g u d (fun a b => gd v a b l) l v Hl); try assumption.
  - eapply near_imp; [exact (at_near cs r V v u d S IV)|]. intros w (_ & X & _). exact X.
  - intros a b Ha Hb. destruct S as [HR Gd IN HV DC]. exact (d_gammabar _ _ _ (ref_at_ok cs r v HR Gd IN) HV a b l Ha Hb Hl).
Qed.
Lemma d_p1 : forall i l, (i < 3)%nat -> (l < 3)%nat -> d_at (fun w => p1 w i) l v (pd i l).
Proof using S NM CF TOT.
  intros i l Hi Hl. exact (proj2 (exp4_deriv V v (s_vars _ _ _ _ S) nm (fun w => p (V w)) (fun w => ph (V w)) NM CF (fun w => proj1 (TOT (V w))) (fun w => proj1 (proj2 (TOT (V w)))) l Hl) i Hi).
Qed.
Lemma d_f : forall k l, (k < 3)%nat -> (l < 3)%nat -> d_at (fun w => f w k) l v (fd k l).
Proof using S IV NM CF TOT.
  intros k l Hk Hl. apply (d_s3 (fun w n => u w k n * p1 w n)). intros n Hn. exact (d_mult _ _ l v _ _ (d_uu k n l Hk Hn Hl) (d_p1 n l Hn Hl)).
Qed.
Lemma d_Ce : forall k i j l, (k < 3)%nat -> (i < 3)%nat -> (j < 3)%nat -> (l < 3)%nat ->
  d_at (fun w => Ce (g w) (f w) (p1 w) k i j) l v (dCe (g v) (f v) (gd v) fd pd k i j l).
Proof using S IV NM CF TOT.
  intros k i j l Hk Hi Hj Hl. unfold Ce, dCe. apply d_scal.
  apply d_minus; [apply d_plus; apply d_scal; apply d_p1; assumption|]. apply d_mult; [|now apply d_f].
  destruct S as [HR Gd IN HV DC]. exact (d_gammabar _ _ _ (ref_at_ok cs r v HR Gd IN) HV i j l Hi Hj Hl).
Qed.
Let Phi := fun i l => pd i l - s3 (fun n => G v n i l * p1 v n).
Lemma phys_ricci : forall dG, (forall i j k l, (i < 3)%nat -> (j < 3)%nat -> (k < 3)%nat -> (l < 3)%nat -> d_at (fun w => G w i j k) l v (dG i j k l)) ->
  exists dP, (forall i j k l, (i < 3)%nat -> (j < 3)%nat -> (k < 3)%nat -> (l < 3)%nat -> d_at (fun w => a_GammaUDD (A w) i j k) l v (dP i j k l)) /\
  forall i j, (i < 3)%nat -> (j < 3)%nat ->
    ricci (a_GammaUDD (A v)) dP i j = ricci (G v) dG i j - 2 * Phi i j - 2 * g v i j * s3 (fun k => s3 (fun n => u v k n * Phi n k)) + 4 * p1 v i * p1 v j
      - 4 * g v i j * s3 (fun k => p1 v k * f v k).
Proof using S IV NM CF NA TOT.
  intros dG DG. exists (fun k i j l => dG k i j l + dCe (g v) (f v) (gd v) fd pd k i j l). split.
  { intros i j k l Hi Hj Hk Hl. eapply d_ext; [exact Hl| |reflexivity|exact (d_plus _ _ l v _ _ (DG i j k l Hi Hj Hk Hl) (d_Ce i j k l Hi Hj Hk Hl))].
    eapply near_imp; [exact conn_phys|]. intros w X. symmetry. exact (X i j k Hi Hj Hk). }
  intros i j Hi Hj. rewrite (ricci_ext _ _ _ (near_here _ _ conn_phys) i j Hi Hj).
  pose proof (near_here _ _ (at_near cs r V v u d S IV)) as (E & SG & SU & TS & DC). fold M in E, SG, TS. fold (g v) in SG, TS.
  destruct (C62_connection cs r V v (u v) (d v) S (near_here _ _ IV)) as (GS & GC & _). cbn zeta in GS, GC. fold M in GS, GC. fold (g v) (gd v) (G v) in GS, GC.
  assert (CO : forall i j l, (i < 3)%nat -> (j < 3)%nat -> (l < 3)%nat -> gd v i j l = s3 (fun n => G v n i l * g v n j) + s3 (fun n => G v n j l * g v i n)).
  { intros a c e Ha Hc He. specialize (GC a c e Ha Hc He). unfold cov_DD in GC. revert GC. generalize (s3 (fun n => G v n a e * g v n c)) (s3 (fun n => G v n c e * g v a n)) (gd v a c e). intros; lra. }
  assert (PS : sym3 Phi).
  { intros a c Ha Hc. unfold Phi. rewrite (s3_ext (fun n => G v n a c * p1 v n) (fun n => G v n c a * p1 v n)) by (intros n Hn; now rewrite (GS n a c Hn Ha Hc)).
    assert (Z : pd a c = pd c a); [|now rewrite Z].
    unfold pd. destruct (TOT (V v)) as (E1 & E2 & E3). destruct (phi_same _ _ _ _ _ E1 E2 E3 CF) as (_ & _ & X & _). rewrite <- !X.
    pose proof (y_cfDD _ DC a c Ha Hc) as Y. unfold phi_part in E3.
    destruct (String.eqb nm "phi"); [apply ok_inj in E3; rewrite <- E3; exact Y|].
    destruct (String.eqb nm "W"); [|destruct (String.eqb nm "chi"); [|discriminate]]; apply ok_inj in E3; rewrite <- E3; cbn [phi_dDD];
      rewrite Y, (Rmult_comm (v_cf_dD (V v) a)); reflexivity. }
  refine (conf_ricci (g v) (f v) (fun k l => s3 (fun n => u v k n * Phi n l)) (p1 v) Phi SG _ _ PS (G v) (gd v) fd pd CO _ _ GS dG i j Hi Hj).
  - intros a Ha. unfold f. rewrite <- (s3_pick_r (g v) (u v) (p1 v) a TS Ha) at 1. generalize (g v) (u v) (p1 v). intros. rewrite !s3_eq. ring.
  - intros a l Ha Hl. rewrite <- (s3_pick_r (g v) (u v) (fun n => Phi n l) a TS Ha) at 1. generalize (g v) (u v) (fun n => Phi n l). intros. rewrite !s3_eq. ring.
  - intros k l Hk Hl. unfold fd, f. 
    assert (DU : forall n, (n < 3)%nat -> du k n l = - s3 (fun m => G v k m l * u v m n) - s3 (fun m => G v n m l * u v k m)).
    { intros n Hn. unfold du.
      rewrite (s3_ext _ (fun a => s3 (fun b => u v k a * u v n b * (s3 (fun c => G v c a l * g v c b) + s3 (fun c => G v c b l * g v a c)))))
        by (intros a Ha; apply s3_ext; intros b Hb; now rewrite (CO a b l Ha Hb Hl)).
      pose proof (s3_pick_l (g v) (u v) (fun c => s3 (fun a => u v k a * G v c a l)) n TS Hn) as X1. pose proof (s3_pick_l (g v) (u v) (fun c => s3 (fun b => u v n b * G v c b l)) k TS Hk) as X2.
      cbn beta in X1, X2. 
      transitivity (- s3 (fun a => u v k a * G v n a l) - s3 (fun b => u v n b * G v k b l)).
      - rewrite <- X1, <- X2. rewrite !s3_eq. revert SG. generalize (g v) (u v) (G v). intros g0 u0 G0 SG.
        rewrite (SG 1%nat 0%nat), (SG 2%nat 0%nat), (SG 2%nat 1%nat) by lia. ring.
      - revert SU. generalize (u v) (G v). intros u0 G0 SU. rewrite !s3_eq. rewrite !(fun m Hm => SU n m Hn Hm) by lia. ring. }
    rewrite (s3_ext _ (fun n => (- s3 (fun m => G v k m l * u v m n) - s3 (fun m => G v n m l * u v k m)) * p1 v n + u v k n * pd n l)) by (intros n Hn; now rewrite (DU n Hn)).
    unfold Phi. generalize (u v) (G v) (p1 v) pd. intros. rewrite !s3_eq. ring.
  - intros a l Ha Hl. unfold Phi. generalize (pd a l) (s3 (fun n => G v n a l * p1 v n)). intros; ring.
Qed.
End Phys.
