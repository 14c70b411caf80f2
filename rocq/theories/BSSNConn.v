(** Christoffel symbols, the divergence of the shift, covariant derivatives, and the conformal factor. *)
From Coq Require Import String List Arith Bool Lia Reals Lra.
From Verif Require Import PyBase Inverter InverterFacts GRMetric RefMetric RefMetricReal RefMetricFacts BSSN BSSNFacts BSSNCalc BSSNGeo BSSNInv.
Import ListNotations.
Local Open Scope R_scope.

Lemma ltac3 : forall P : nat -> Prop, P 0%nat -> P 1%nat -> P 2%nat -> forall i, (i < 3)%nat -> P i.
Proof. intros P P0 P1 P2 [|[|[|i]]] H; [assumption..|lia]. Qed.

(** the Christoffel symbols of the first kind *)
Lemma christoffel_low : forall g u gd, two_sided3 g u -> forall a k l, (a < 3)%nat ->
  s3 (fun i => g a i * s3 (fun n => 1 / 2 * u i n * (gd n k l + gd n l k - gd k l n))) = 1 / 2 * (gd a k l + gd a l k - gd k l a).
Proof.
  intros g u gd T a k l Ha.
  transitivity (s3 (fun n => s3 (fun i => g a i * u i n) * (1 / 2 * (gd n k l + gd n l k - gd k l n)))); [rewrite !s3_eq; ring|].
  rewrite s3_eq. rewrite !(fun n Hn => proj1 (two_sided_r g u T a n Ha Hn)) by lia.
  destruct a as [|[|[|a]]]; try lia; cbn [Nat.eqb]; ring.
Qed.
Lemma christoffel_compat : forall g u gd, two_sided3 g u -> sym3 g ->
  (forall i j k, (i < 3)%nat -> (j < 3)%nat -> (k < 3)%nat -> gd i j k = gd j i k) ->
  let Gam := fun i k l => s3 (fun n => 1 / 2 * u i n * (gd n k l + gd n l k - gd k l n)) in
  (forall i k l, (i < 3)%nat -> (k < 3)%nat -> (l < 3)%nat -> Gam i k l = Gam i l k) /\
  (forall i j l, (i < 3)%nat -> (j < 3)%nat -> (l < 3)%nat ->
     gd i j l = s3 (fun n => Gam n i l * g n j) + s3 (fun n => Gam n j l * g i n)).
Proof.
  intros g u gd T S GS Gam. split.
  - intros i k l Hi Hk Hl. unfold Gam. apply s3_ext. intros n Hn. rewrite (GS k l n Hk Hl Hn). ring.
  - intros i j l Hi Hj Hl. pose proof (christoffel_low g u gd T i j l Hi) as X. pose proof (christoffel_low g u gd T j i l Hj) as Y.
    transitivity (s3 (fun n => g j n * Gam n i l) + s3 (fun n => g i n * Gam n j l)).
    + unfold Gam. rewrite X, Y. rewrite (GS j i l Hj Hi Hl), (GS i l j Hi Hl Hj), (GS j l i Hj Hl Hi). field.
    + f_equal; apply s3_ext; intros n Hn; [rewrite (S j n Hj Hn)|]; ring.
Qed.
(** Gamma^k_kj = (log sqrt det)_,j *)
Lemma christoffel_trace : forall g u gd, two_sided3 g u -> sym3 u ->
  (forall i j k, (i < 3)%nat -> (j < 3)%nat -> (k < 3)%nat -> gd i j k = gd j i k) ->
  let Gam := fun i k l => s3 (fun n => 1 / 2 * u i n * (gd n k l + gd n l k - gd k l n)) in
  forall j, (j < 3)%nat -> s3 (fun k => Gam k k j) = 1 / 2 * s3 (fun a => s3 (fun b => u a b * gd a b j)).
Proof.
  intros g u gd T S GS Gam j Hj. unfold Gam. rewrite !s3_eq.
  rewrite (S 1%nat 0%nat), (S 2%nat 0%nat), (S 2%nat 1%nat) by lia.
  rewrite (GS 1%nat 0%nat), (GS 2%nat 0%nat), (GS 2%nat 1%nat) by lia.
  destruct j as [|[|[|j]]]; try lia;
  rewrite ?(GS 1%nat 0%nat), ?(GS 2%nat 0%nat), ?(GS 2%nat 1%nat) by lia; field.
Qed.
(** the connection is determined by being symmetric and compatible *)
Lemma christoffel_unique : forall g u gd, two_sided3 g u -> sym3 g ->
  forall Gam, (forall i k l, (i < 3)%nat -> (k < 3)%nat -> (l < 3)%nat -> Gam i k l = Gam i l k) ->
  (forall i j l, (i < 3)%nat -> (j < 3)%nat -> (l < 3)%nat -> gd i j l = s3 (fun n => Gam n i l * g n j) + s3 (fun n => Gam n j l * g i n)) ->
  forall i k l, (i < 3)%nat -> (k < 3)%nat -> (l < 3)%nat -> Gam i k l = s3 (fun n => 1 / 2 * u i n * (gd n k l + gd n l k - gd k l n)).
Proof.
  intros g u gd T S Gam GS GC i k l Hi Hk Hl.
  assert (X : forall n, (n < 3)%nat -> 1 / 2 * (gd n k l + gd n l k - gd k l n) = s3 (fun a => g n a * Gam a k l)).
  { intros n Hn. rewrite !GC by assumption.
    rewrite (s3_ext (fun n0 => Gam n0 n l * g n0 k) (fun n0 => Gam n0 l n * g n0 k)) by (intros a Ha; rewrite (GS a n l) by assumption; reflexivity).
    rewrite (s3_ext (fun n0 => Gam n0 n k * g n0 l) (fun n0 => Gam n0 k n * g n0 l)) by (intros a Ha; rewrite (GS a n k) by assumption; reflexivity).
    rewrite (s3_ext (fun n0 => Gam n0 l k * g n n0) (fun n0 => Gam n0 k l * g n n0)) by (intros a Ha; rewrite (GS a l k) by assumption; reflexivity).
    rewrite (s3_ext (fun n0 => Gam n0 l n * g n0 k) (fun n0 => Gam n0 l n * g k n0)) by (intros a Ha; rewrite (S a k) by assumption; reflexivity).
    rewrite (s3_ext (fun n0 => g n n0 * Gam n0 k l) (fun n0 => Gam n0 k l * g n n0)) by (intros a Ha; ring).
    field. }
  rewrite (s3_ext _ (fun n => u i n * s3 (fun a => g n a * Gam a k l))).
  - transitivity (s3 (fun a => s3 (fun n => u i n * g n a) * Gam a k l)); [|rewrite !s3_eq; ring].
    rewrite s3_eq. rewrite !(fun a Ha => proj2 (two_sided_r g u T i a Hi Ha)) by lia.
    destruct i as [|[|[|i]]]; try lia; cbn [Nat.eqb]; ring.
  - intros n Hn. rewrite <- X by assumption. ring.
Qed.

(** ** Symmetries *)
Definition sym_near (V : env -> vars) (v : env) : Prop := near v (fun w => sym3 (v_h (V w)) /\ sym3 (v_a (V w))).
Lemma gammabar_near : forall cs r V v, reference_metric cs false = Ok r -> good (ep v) -> inside (r_coord r) v -> sym_near V v ->
  near v (fun w => sym3 (gammabarDD (ref_at r w) (V w)) /\ sym3 (AbarDD (ref_at r w) (V w))).
Proof.
  intros cs r V v H G IN SV. eapply near_imp; [exact (near_and _ _ _ (near_ok cs r v H G IN) SV)|].
  intros w ((Gw & Iw) & Sh & Sa). apply gammabar_sym. pose proof (ref_at_geo cs r w H Gw Iw) as E.
  split; [exact (e_sym _ E)|]. split; [exact (e_ReDDsym _ E)|]. split; assumption.
Qed.
Lemma sym_deriv : forall (f : env -> nat -> nat -> R) (x : nat -> nat -> R) l v, (l < 3)%nat -> near v (fun w => sym3 (f w)) ->
  (forall i j, (i < 3)%nat -> (j < 3)%nat -> d_at (fun w => f w i j) l v (x i j)) -> sym3 x.
Proof.
  intros f x l v Hl N D i j Hi Hj. apply (d_unique (fun w => f w i j) l v); [now apply D|].
  eapply d_ext; [exact Hl| |reflexivity|apply (D j i Hj Hi)]. eapply near_imp; [exact N|]. intros w S. cbn beta. now apply S.
Qed.

(** ** The conformal factor *)
Definition phi_of (nm : string) (cf : R) : R :=
  if String.eqb nm "phi" then cf else if String.eqb nm "W" then - ln cf / 2 else - ln cf / 4.
Section Phi.
Variables (V : env -> vars) (v : env).
Hypothesis HV : vars_ok V v.
Lemma phi_deriv : forall nm ph, In nm cf_names -> (nm <> "phi"%string -> 0 < v_cf (V v)) ->
  (forall w, phi_part nm (V w) = Ok (ph w)) ->
  exp_m4phi (ph v) = exp (- 4 * phi_of nm (v_cf (V v))) /\
  forall l, (l < 3)%nat ->
    d_at (fun w => phi_of nm (v_cf (V w))) l v (phi_dD (ph v) l) /\
    forall i, (i < 3)%nat -> d_at (fun w => phi_dD (ph w) i) l v (phi_dDD (ph v) i l).
Proof using HV.
  intros nm ph I P E.
  assert (EV := E v). destruct I as [<-|[<-|[<-|[]]]]; unfold phi_part in EV; cbn [String.eqb Ascii.eqb Bool.eqb] in EV; injection EV as EV;
    unfold phi_of; cbn [String.eqb Ascii.eqb Bool.eqb].
  - split; [now rewrite <- EV|]. intros l Hl. rewrite <- EV. cbn [phi_dD phi_dDD]. split; [now apply (k_cf _ _ HV)|].
    intros i Hi. eapply d_eq; [|reflexivity|apply (k_cfD _ _ HV i l Hi Hl)]. intros w. specialize (E w). cbn in E. injection E as E. now rewrite <- E.
  - specialize (P ltac:(discriminate)). split.
    { rewrite <- EV. cbn [exp_m4phi]. transitivity (exp (ln (v_cf (V v)))); [now rewrite exp_ln|f_equal; field]. }
    intros l Hl. rewrite <- EV. cbn [phi_dD phi_dDD]. split.
    + eapply d_eq; [| |apply (d_scal (- / 4) _ l v _ (d_ln _ l v _ P (k_cf _ _ HV l Hl)))]; [intros w; cbn beta; field|field; lra].
    + intros i Hi. eapply d_eq; [| |apply (d_div (fun w => - v_cf_dD (V w) i) (fun w => 4 * v_cf (V w)) l v _ _ ltac:(lra)
        (d_opp _ l v _ (k_cfD _ _ HV i l Hi Hl)) (d_scal 4 _ l v _ (k_cf _ _ HV l Hl)))].
      * intros w. specialize (E w). cbn in E. injection E as E. now rewrite <- E.
      * field. lra.
  - specialize (P ltac:(discriminate)). split.
    { rewrite <- EV. cbn [exp_m4phi]. transitivity (exp (ln (v_cf (V v)) + ln (v_cf (V v)))); [now rewrite exp_plus, exp_ln|f_equal; field]. }
    intros l Hl. rewrite <- EV. cbn [phi_dD phi_dDD]. split.
    + eapply d_eq; [| |apply (d_scal (- / 2) _ l v _ (d_ln _ l v _ P (k_cf _ _ HV l Hl)))]; [intros w; cbn beta; field|field; lra].
    + intros i Hi. eapply d_eq; [| |apply (d_div (fun w => - v_cf_dD (V w) i) (fun w => 2 * v_cf (V w)) l v _ _ ltac:(lra)
        (d_opp _ l v _ (k_cfD _ _ HV i l Hi Hl)) (d_scal 2 _ l v _ (k_cf _ _ HV l Hl)))].
      * intros w. specialize (E w). cbn in E. injection E as E. now rewrite <- E.
      * field. lra.
Qed.
(** the derivatives of phi in BSSN_to_ADM are the same *)
Lemma exp4_deriv : forall nm p ph, In nm cf_names -> (nm <> "phi"%string -> v_cf (V v) <> 0) ->
  (forall w, exp4phi_of nm (v_cf (V w)) = Ok (p w)) -> (forall w, phi_derivs nm (V w) (p w) = Ok (ph w)) ->
  forall l, (l < 3)%nat ->
    d_at p l v (4 * p v * fst (ph v) l) /\
    forall i, (i < 3)%nat -> d_at (fun w => fst (ph w) i) l v (snd (ph v) i l).
Proof using HV.
  intros nm p ph I P E F l Hl.
  assert (EV := E v). assert (FV := F v).
  destruct I as [<-|[<-|[<-|[]]]]; unfold phi_derivs in FV; unfold exp4phi_of in EV; cbn [String.eqb Ascii.eqb Bool.eqb] in EV, FV; injection EV as EV;
    injection FV as FV; rewrite <- FV; cbn [fst snd].
  - split.
    + eapply d_eq; [| |apply (d_exp _ l v _ (d_scal 4 _ l v _ (k_cf _ _ HV l Hl)))].
      * intros w. specialize (E w). cbn in E. injection E as E. now rewrite <- E.
      * rewrite <- EV. ring.
    + intros i Hi. eapply d_eq; [|reflexivity|apply (k_cfD _ _ HV i l Hi Hl)]. intros w. specialize (F w). cbn in F. injection F as F. now rewrite <- F.
  - specialize (P ltac:(discriminate)).
    assert (DP : d_at p l v (4 * p v * (- (1 / 4) * p v * v_cf_dD (V v) l))).
    { eapply d_eq; [| |apply (d_inv _ l v _ P (k_cf _ _ HV l Hl))].
      - intros w. specialize (E w). cbn in E. injection E as E. rewrite <- E. unfold Rdiv. ring.
      - rewrite <- EV. field. exact P. }
    split; [exact DP|]. intros i Hi.
    eapply d_eq; [| |apply (d_scal (- (1 / 4)) _ l v _ (d_mult _ _ l v _ _ DP (k_cfD _ _ HV i l Hi Hl)))].
    + intros w. specialize (F w). cbn in F. injection F as F. rewrite <- F. cbn [fst]. ring.
    + cbn beta. field.
  - specialize (P ltac:(discriminate)).
    assert (DP : d_at p l v (4 * p v * (- (1 / 2) * (1 / v_cf (V v)) * v_cf_dD (V v) l))).
    { eapply d_eq; [| |apply (d_inv (fun w => v_cf (V w) * v_cf (V w)) l v _ ltac:(apply Rmult_integral_contrapositive_currified; exact P)
        (d_mult _ _ l v _ _ (k_cf _ _ HV l Hl) (k_cf _ _ HV l Hl)))].
      - intros w. specialize (E w). cbn in E. injection E as E. rewrite <- E. unfold Rdiv. ring.
      - rewrite <- EV. field. exact P. }
    split; [exact DP|]. intros i Hi.
    eapply d_eq; [| |apply (d_scal (- (1 / 2)) _ l v _ (d_mult _ _ l v _ _ (d_inv _ l v _ P (k_cf _ _ HV l Hl)) (k_cfD _ _ HV i l Hi Hl)))].
    + intros w. specialize (F w). cbn in F. injection F as F. rewrite <- F. cbn [fst]. unfold Rdiv. ring.
    + cbn beta. rewrite <- EV. field. exact P.
Qed.
End Phi.
