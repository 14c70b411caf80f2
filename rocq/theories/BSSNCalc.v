(** Derivatives of the quantities of BSSN.v along the coordinate lines, for the reference metrics of RefMetric.v. *)
From Coq Require Import String List Arith Bool Lia Reals Lra FunctionalExtensionality.
From Verif Require Import PyBase Inverter InverterFacts GRMetric RefMetric RefMetricReal RefMetricFacts PropRefMetric BSSN BSSNFacts.
Import ListNotations.
Local Open Scope R_scope.

(** [f] has the derivative [x] at [v] in the direction of the coordinate [l] *)
Definition d_at (f : env -> R) (l : nat) (v : env) (x : R) : Prop := derivable_pt_lim (fun t => f (upd l t v)) (exx v l) x.
(** [P] holds on the coordinate lines through [v], near [v] *)
Definition near (v : env) (P : env -> Prop) : Prop :=
  exists e, 0 < e /\ forall l t, (l < 3)%nat -> Rabs (t - exx v l) < e -> P (upd l t v).

Lemma upd_same : forall l v, upd l (exx v l) v = v.
Proof.
  intros l [p x c f]. unfold upd. cbn. f_equal. apply functional_extensionality. intros j.
  destruct (Nat.eqb_spec j l); subst; reflexivity.
Qed.
Lemma near_here : forall v P, near v P -> P v.
Proof.
  intros v P (e & He & H). rewrite <- (upd_same 0 v). apply H; [lia|].
  replace (exx v 0 - exx v 0) with 0 by ring. now rewrite Rabs_R0.
Qed.
Lemma near_and : forall v P Q, near v P -> near v Q -> near v (fun w => P w /\ Q w).
Proof.
  intros v P Q (e & He & HP) (d & Hd & HQ). exists (Rmin e d). split; [now apply Rmin_glb_lt|].
  intros l t Hl H. split; [apply HP|apply HQ]; auto; eapply Rlt_le_trans; eauto using Rmin_l, Rmin_r.
Qed.
Lemma near_imp : forall v (P Q : env -> Prop), near v P -> (forall w, P w -> Q w) -> near v Q.
Proof. intros v P Q (e & He & HP) I. exists e. split; auto. Qed.

Lemma d_ext : forall f g l v x y, (l < 3)%nat -> near v (fun w => f w = g w) -> x = y -> d_at f l v x -> d_at g l v y.
Proof.
  intros f g l v x y Hl (e & He & HN) <- H eps Heps. destruct (H eps Heps) as [d Hd].
  assert (Hm : 0 < Rmin d e) by (apply Rmin_glb_lt; [apply cond_pos|exact He]).
  exists (mkposreal _ Hm). intros h Hh Hlt. cbn in Hlt.
  rewrite <- (HN l (exx v l + h)), <- (HN l (exx v l)); auto.
  - apply Hd; auto. eapply Rlt_le_trans; [exact Hlt|apply Rmin_l].
  - replace (exx v l - exx v l) with 0 by ring. now rewrite Rabs_R0.
  - replace (exx v l + h - exx v l) with h by ring. eapply Rlt_le_trans; [exact Hlt|apply Rmin_r].
Qed.
Lemma d_eq : forall f g l v x y, (forall w, f w = g w) -> x = y -> d_at f l v x -> d_at g l v y.
Proof.
  intros f g l v x y E <- H. unfold d_at in *. replace (fun t => g (upd l t v)) with (fun t => f (upd l t v)); auto.
  apply functional_extensionality. intros. apply E.
Qed.
Lemma d_unique : forall f l v x y, d_at f l v x -> d_at f l v y -> x = y.
Proof. intros f l v x y. apply uniqueness_limite. Qed.
Lemma d_const : forall c l v, d_at (fun _ => c) l v 0.
Proof. intros. apply derivable_pt_lim_const. Qed.
Lemma d_plus : forall f g l v x y, d_at f l v x -> d_at g l v y -> d_at (fun w => f w + g w) l v (x + y).
Proof. intros f g l v x y F G. apply (derivable_pt_lim_plus (fun t => f (upd l t v)) (fun t => g (upd l t v))); assumption. Qed.
Lemma d_opp : forall f l v x, d_at f l v x -> d_at (fun w => - f w) l v (- x).
Proof. intros f l v x F. apply (derivable_pt_lim_opp (fun t => f (upd l t v))); assumption. Qed.
Lemma d_minus : forall f g l v x y, d_at f l v x -> d_at g l v y -> d_at (fun w => f w - g w) l v (x - y).
Proof. intros f g l v x y F G. apply (derivable_pt_lim_minus (fun t => f (upd l t v)) (fun t => g (upd l t v))); assumption. Qed.
Lemma d_mult : forall f g l v x y, d_at f l v x -> d_at g l v y -> d_at (fun w => f w * g w) l v (x * g v + f v * y).
Proof.
  intros f g l v x y F G. pose proof (derivable_pt_lim_mult (fun t => f (upd l t v)) (fun t => g (upd l t v)) (exx v l) x y F G) as H.
  cbn beta in H. now rewrite upd_same in H.
Qed.
Lemma d_scal : forall c f l v x, d_at f l v x -> d_at (fun w => c * f w) l v (c * x).
Proof. intros c f l v x F. apply (derivable_pt_lim_scal (fun t => f (upd l t v))); assumption. Qed.
Lemma d_inv : forall f l v x, f v <> 0 -> d_at f l v x -> d_at (fun w => / f w) l v (- x / (f v * f v)).
Proof.
  intros f l v x N F. assert (N' : f (upd l (exx v l) v) <> 0) by now rewrite upd_same.
  pose proof (derivable_pt_lim_div (fun _ => 1) (fun t => f (upd l t v)) (exx v l) 0 x (derivable_pt_lim_const 1 _) F N') as H.
  cbn beta in H. rewrite upd_same in H.
  apply (d_eq (fun w => 1 / f w) _ l v ((0 * f v - x * 1) / Rsqr (f v))); [intros w; unfold Rdiv; ring|unfold Rsqr; field; exact N|exact H].
Qed.
Lemma d_div : forall f g l v x y, g v <> 0 -> d_at f l v x -> d_at g l v y -> d_at (fun w => f w / g w) l v (x / g v - f v * y / (g v * g v)).
Proof.
  intros f g l v x y N F G. eapply d_eq; [| |apply (d_mult f (fun w => / g w) l v x _ F (d_inv g l v y N G))].
  - reflexivity.
  - cbn beta. field. exact N.
Qed.
Lemma d_comp : forall (h : R -> R) f l v x y, d_at f l v x -> derivable_pt_lim h (f v) y -> d_at (fun w => h (f w)) l v (y * x).
Proof.
  intros h f l v x y F H. apply (derivable_pt_lim_comp (fun t => f (upd l t v)) h); [exact F|]. now rewrite upd_same.
Qed.
Lemma d_exp : forall f l v x, d_at f l v x -> d_at (fun w => exp (f w)) l v (exp (f v) * x).
Proof. intros f l v x F. apply (d_comp exp f l v x _ F). apply derivable_pt_lim_exp. Qed.
Lemma d_ln : forall f l v x, 0 < f v -> d_at f l v x -> d_at (fun w => ln (f w)) l v (x / f v).
Proof.
  intros f l v x P F. eapply d_eq; [intros w; reflexivity| |apply (d_comp ln f l v x (/ f v) F); now apply derivable_pt_lim_ln].
  unfold Rdiv. ring.
Qed.
Lemma d_s3 : forall (f : env -> nat -> R) l v (x : nat -> R), (forall n, (n < 3)%nat -> d_at (fun w => f w n) l v (x n)) ->
  d_at (fun w => s3 (f w)) l v (s3 x).
Proof.
  intros f l v x H. eapply d_eq; [| |apply (d_plus _ _ l v _ _ (d_plus _ _ l v _ _ (H 0%nat ltac:(lia)) (H 1%nat ltac:(lia))) (H 2%nat ltac:(lia)))].
  - intros w. now rewrite s3_eq.
  - now rewrite s3_eq.
Qed.

(** The reference-metric quantities of ReferenceMetric at a point. *)
Definition ref_at (r : rfm) (v : env) : refm :=
  MkRefm (eval v (detgammahat r)) (fun i => eval v (detgammahatdD r i)) (fun i j => eval v (detgammahatdDD r i j))
    (fun i j => eval v (ghatDD (r_scale r) i j)) (fun i j k => eval v (ghatDDdD r i j k)) (fun i j k l => eval v (ghatDDdDD r i j k l))
    (fun i j => eval v (ReDD (r_scale r) i j)) (fun i j k => eval v (ReDDdD r i j k)) (fun i j k l => eval v (ReDDdDD r i j k l))
    (fun i => eval v (ReU (r_scale r) i)) (fun i j => eval v (ReUdD r i j)) (fun i j k => eval v (ReUdDD r i j k))
    (fun i j k => eval v (GammahatUDD r i j k)) (fun i j k l => eval v (GammahatUDDdD r i j k l)).
(** What is used of them: the quantities named as derivatives are the derivatives, and ... *)
Record ref_ok (M : env -> refm) (v : env) : Prop := MkRefOk {
  k_det : forall l, (l < 3)%nat -> d_at (fun w => h_det (M w)) l v (h_detD (M v) l);
  k_detD : forall i l, (i < 3)%nat -> (l < 3)%nat -> d_at (fun w => h_detD (M w) i) l v (h_detDD (M v) i l);
  k_g : forall i j l, (i < 3)%nat -> (j < 3)%nat -> (l < 3)%nat -> d_at (fun w => h_g (M w) i j) l v (h_gD (M v) i j l);
  k_gD : forall i j k l, (i < 3)%nat -> (j < 3)%nat -> (k < 3)%nat -> (l < 3)%nat -> d_at (fun w => h_gD (M w) i j k) l v (h_gDD (M v) i j k l);
  k_ReDD : forall i j l, (i < 3)%nat -> (j < 3)%nat -> (l < 3)%nat -> d_at (fun w => h_ReDD (M w) i j) l v (h_ReDDdD (M v) i j l);
  k_ReDDdD : forall i j k l, (i < 3)%nat -> (j < 3)%nat -> (k < 3)%nat -> (l < 3)%nat -> d_at (fun w => h_ReDDdD (M w) i j k) l v (h_ReDDdDD (M v) i j k l);
  k_ReU : forall i l, (i < 3)%nat -> (l < 3)%nat -> d_at (fun w => h_ReU (M w) i) l v (h_ReUdD (M v) i l);
  k_ReUdD : forall i j l, (i < 3)%nat -> (j < 3)%nat -> (l < 3)%nat -> d_at (fun w => h_ReUdD (M w) i j) l v (h_ReUdDD (M v) i j l);
  k_Gam : forall i j k l, (i < 3)%nat -> (j < 3)%nat -> (k < 3)%nat -> (l < 3)%nat -> d_at (fun w => h_Gam (M w) i j k) l v (h_GamdD (M v) i j k l) }.
Lemma ref_at_ok : forall cs r v, reference_metric cs false = Ok r -> good (ep v) -> inside (r_coord r) v -> ref_ok (ref_at r) v.
Proof.
  intros cs r v H G I. pose proof (C58_derivatives cs r v H G I) as D. cbn zeta in D. constructor.
  - intros l Hl. exact (proj1 (D l Hl)).
  - intros i l Hi Hl. destruct (proj2 (D l Hl) i i i Hi Hi Hi) as (X & _). exact X.
  - intros i j l Hi Hj Hl. destruct (proj2 (D l Hl) i j i Hi Hj Hi) as (_ & _ & _ & _ & _ & _ & _ & X & _). exact X.
  - intros i j k l Hi Hj Hk Hl. destruct (proj2 (D l Hl) i j k Hi Hj Hk) as (_ & _ & _ & _ & _ & _ & _ & _ & X & _). exact X.
  - intros i j l Hi Hj Hl. destruct (proj2 (D l Hl) i j i Hi Hj Hi) as (_ & _ & _ & _ & _ & X & _). exact X.
  - intros i j k l Hi Hj Hk Hl. destruct (proj2 (D l Hl) i j k Hi Hj Hk) as (_ & _ & _ & _ & _ & _ & X & _). exact X.
  - intros i l Hi Hl. destruct (proj2 (D l Hl) i i i Hi Hi Hi) as (_ & X & _). exact X.
  - intros i j l Hi Hj Hl. destruct (proj2 (D l Hl) i j i Hi Hj Hi) as (_ & _ & X & _). exact X.
  - intros i j k l Hi Hj Hk Hl. destruct (proj2 (D l Hl) i j k Hi Hj Hk) as (_ & _ & _ & _ & _ & _ & _ & _ & _ & X). exact X.
Qed.
(** The derivative symbols of the evolved variables stand for their derivatives; the second derivatives of h and cf are symmetric
    (hDD_dDD is declared with sym01_sym23, cf_dDD with sym01). *)
Record vars_ok (V : env -> vars) (v : env) : Prop := MkVarsOk {
  k_h : forall i j l, (i < 3)%nat -> (j < 3)%nat -> (l < 3)%nat -> d_at (fun w => v_h (V w) i j) l v (v_h_dD (V v) i j l);
  k_hD : forall i j k l, (i < 3)%nat -> (j < 3)%nat -> (k < 3)%nat -> (l < 3)%nat -> d_at (fun w => v_h_dD (V w) i j k) l v (v_h_dDD (V v) i j k l);
  k_a : forall i j l, (i < 3)%nat -> (j < 3)%nat -> (l < 3)%nat -> d_at (fun w => v_a (V w) i j) l v (v_a_dD (V v) i j l);
  k_lam : forall i l, (i < 3)%nat -> (l < 3)%nat -> d_at (fun w => v_lam (V w) i) l v (v_lam_dD (V v) i l);
  k_vet : forall i l, (i < 3)%nat -> (l < 3)%nat -> d_at (fun w => v_vet (V w) i) l v (v_vet_dD (V v) i l);
  k_vetD : forall i j l, (i < 3)%nat -> (j < 3)%nat -> (l < 3)%nat -> d_at (fun w => v_vet_dD (V w) i j) l v (v_vet_dDD (V v) i j l);
  k_cf : forall l, (l < 3)%nat -> d_at (fun w => v_cf (V w)) l v (v_cf_dD (V v) l);
  k_cfD : forall i l, (i < 3)%nat -> (l < 3)%nat -> d_at (fun w => v_cf_dD (V w) i) l v (v_cf_dDD (V v) i l);
  k_trK : forall l, (l < 3)%nat -> d_at (fun w => v_trK (V w)) l v (v_trK_dD (V v) l);
  k_alpha : forall l, (l < 3)%nat -> d_at (fun w => v_alpha (V w)) l v (v_alpha_dD (V v) l);
  k_alphaD : forall i l, (i < 3)%nat -> (l < 3)%nat -> d_at (fun w => v_alpha_dD (V w) i) l v (v_alpha_dDD (V v) i l) }.

Ltac dstep := lazymatch goal with
  | |- d_at (fun w => ?f + ?g) _ _ _ => eapply d_plus
  | |- d_at (fun w => ?f - ?g) _ _ _ => eapply d_minus
  | |- d_at (fun w => - ?f) _ _ _ => eapply d_opp
  | |- d_at (fun w => ?f * ?g) _ _ _ => eapply d_mult
  end.
Ltac dgo H1 H2 := eapply d_eq; [intros; reflexivity| |
   repeat first [eapply (k_det _ _ H1); lia|eapply (k_detD _ _ H1); lia|eapply (k_g _ _ H1); lia|eapply (k_gD _ _ H1); lia|eapply (k_ReDD _ _ H1); lia|eapply (k_ReDDdD _ _ H1); lia
     |eapply (k_ReU _ _ H1); lia|eapply (k_ReUdD _ _ H1); lia|eapply (k_Gam _ _ H1); lia
     |eapply (k_h _ _ H2); lia|eapply (k_hD _ _ H2); lia|eapply (k_a _ _ H2); lia|eapply (k_lam _ _ H2); lia|eapply (k_vet _ _ H2); lia|eapply (k_vetD _ _ H2); lia
     |eapply (k_cf _ _ H2); lia|eapply (k_cfD _ _ H2); lia|eapply (k_trK _ _ H2); lia|dstep]].

Section D.
Variables (M : env -> refm) (V : env -> vars) (v : env).
Hypotheses (HM : ref_ok M v) (HV : vars_ok V v).
Lemma d_gammabar : forall i j l, (i < 3)%nat -> (j < 3)%nat -> (l < 3)%nat ->
  d_at (fun w => gammabarDD (M w) (V w) i j) l v (gammabarDD_dD (M v) (V v) i j l).
Proof using HM HV. intros. unfold gammabarDD, gammabarDD_dD. dgo HM HV. cbn beta. ring. Qed.
Lemma d_gammabar2 : forall i j k l, (i < 3)%nat -> (j < 3)%nat -> (k < 3)%nat -> (l < 3)%nat ->
  d_at (fun w => gammabarDD_dD (M w) (V w) i j k) l v (gammabarDD_dDD (M v) (V v) i j k l).
Proof using HM HV. intros. unfold gammabarDD_dDD, gammabarDD_dD. dgo HM HV. cbn beta. ring. Qed.
Lemma d_Abar : forall i j l, (i < 3)%nat -> (j < 3)%nat -> (l < 3)%nat ->
  d_at (fun w => AbarDD (M w) (V w) i j) l v (AbarDD_dD (M v) (V v) i j l).
Proof using HM HV. intros. unfold AbarDD, AbarDD_dD. dgo HM HV. cbn beta. ring. Qed.
Lemma d_beta : forall i l, (i < 3)%nat -> (l < 3)%nat -> d_at (fun w => betaU (M w) (V w) i) l v (betaU_dD (M v) (V v) i l).
Proof using HM HV. intros. unfold betaU, betaU_dD. dgo HM HV. cbn beta. ring. Qed.
Lemma d_beta2 : forall i j l, (i < 3)%nat -> (j < 3)%nat -> (l < 3)%nat ->
  d_at (fun w => betaU_dD (M w) (V w) i j) l v (betaU_dDD (M v) (V v) i j l).
Proof using HM HV. intros. unfold betaU_dDD, betaU_dD. dgo HM HV. cbn beta. ring. Qed.
Lemma d_Lambar : forall i l, (i < 3)%nat -> (l < 3)%nat ->
  d_at (fun w => LambdabarU (M w) (V w) i) l v (v_lam_dD (V v) i l * h_ReU (M v) i + v_lam (V v) i * h_ReUdD (M v) i l).
Proof using HM HV. intros. unfold LambdabarU. dgo HM HV. cbn beta. ring. Qed.
Lemma d_eps : forall i j l, (i < 3)%nat -> (j < 3)%nat -> (l < 3)%nat ->
  d_at (fun w => epsDD (M w) (V w) i j) l v (epsDD_dD (M v) (V v) i j l).
Proof using HM HV. intros. unfold epsDD, epsDD_dD. dgo HM HV. cbn beta. ring. Qed.
Lemma d_eps2 : forall i j k l, (i < 3)%nat -> (j < 3)%nat -> (k < 3)%nat -> (l < 3)%nat ->
  d_at (fun w => epsDD_dD (M w) (V w) i j k) l v (epsDD_dDD (M v) (V v) i j k l).
Proof using HM HV. intros. unfold epsDD_dDD, epsDD_dD. dgo HM HV. cbn beta. ring. Qed.
Lemma d_hat : forall i j k l, (i < 3)%nat -> (j < 3)%nat -> (k < 3)%nat -> (l < 3)%nat ->
  d_at (fun w => gammabarDD_dHatD (M w) (V w) i j k) l v (gammabarDD_dHatD_dD (M v) (V v) i j k l).
Proof using HM HV.
  intros. unfold gammabarDD_dHatD, gammabarDD_dHatD_dD. apply d_plus; [now apply d_eps2|].
  apply (d_s3 (fun w n => - h_Gam (M w) n i k * epsDD (M w) (V w) n j - h_Gam (M w) n j k * epsDD (M w) (V w) i n)). intros n Hn.
  assert (G1 : forall a, (a < 3)%nat -> d_at (fun w => h_Gam (M w) n a k) l v (h_GamdD (M v) n a k l)) by (intros; now apply (k_Gam _ _ HM)).
  assert (E1 : forall a c, (a < 3)%nat -> (c < 3)%nat -> d_at (fun w => epsDD (M w) (V w) a c) l v (epsDD_dD (M v) (V v) a c l)) by (intros; now apply d_eps).
  eapply d_eq; [intros; reflexivity| |exact (d_minus _ _ l v _ _ (d_mult _ _ l v _ _ (d_opp _ l v _ (G1 i H)) (E1 n j Hn H0)) (d_mult _ _ l v _ _ (G1 j H0) (E1 i n H Hn)))].
  cbn beta. ring.
Qed.
Lemma d_contr : forall l, (l < 3)%nat -> h_det (M v) <> 0 ->
  d_at (fun w => Dbarbetacontraction (M w) (V w)) l v (Dbarbetacontraction_dBarD (M v) (V v) l).
Proof using HM HV.
  intros l Hl N. unfold Dbarbetacontraction, Dbarbetacontraction_dBarD. eapply d_s3. intros n Hn. cbn beta.
  unfold detgammabar_dD, detgammabar, detgammabar_dDD.
  eapply d_eq; [intros; reflexivity| |apply d_plus; [now apply d_beta2|apply d_div; [lra|apply d_mult; [now apply d_beta|]|]]].
  2: { apply d_plus; apply d_mult; try apply d_const; [apply (k_det _ _ HM)|apply (k_detD _ _ HM)]; lia. }
  2: { apply d_mult; [apply d_const|]. apply d_mult; [apply d_const|]. apply (k_det _ _ HM). lia. }
  cbn beta. field. exact N.
Qed.
End D.
