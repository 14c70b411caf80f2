(** The reference metric as a flat geometry: what RefMetric.v's quantities satisfy at every inner point. *)
From Coq Require Import String List Arith Bool Lia Reals Lra FunctionalExtensionality.
From Verif Require Import PyBase Inverter InverterFacts GRMetric RefMetric RefMetricReal RefMetricCalc RefMetricFacts RefMetricInvFacts RefMetricFlat
  PropRefMetric BSSN BSSNFacts BSSNCalc.
Import ListNotations.
Local Open Scope R_scope.

Lemma near_ok : forall cs r v, reference_metric cs false = Ok r -> good (ep v) -> inside (r_coord r) v ->
  near v (fun w => good (ep w) /\ inside (r_coord r) w).
Proof.
  intros cs r v H G IN. destruct (rm_kinds cs false r H) as (k & E & _). rewrite E in *.
  destruct (inside_near k v 0 IN ltac:(lia)) as (d0 & P0 & N0). destruct (inside_near k v 1 IN ltac:(lia)) as (d1 & P1 & N1).
  destruct (inside_near k v 2 IN ltac:(lia)) as (d2 & P2 & N2).
  exists (Rmin d0 (Rmin d1 d2)). split; [repeat apply Rmin_glb_lt; assumption|].
  intros l t Hl Ht. split; [exact G|].
  assert (Rabs (t - exx v l) < d0 /\ Rabs (t - exx v l) < d1 /\ Rabs (t - exx v l) < d2).
  { pose proof (Rmin_l d0 (Rmin d1 d2)). pose proof (Rmin_r d0 (Rmin d1 d2)). pose proof (Rmin_l d1 d2). pose proof (Rmin_r d1 d2). lra. }
  destruct l as [|[|[|l]]]; try lia; [apply N0|apply N1|apply N2]; tauto.
Qed.

(** What holds of the reference metric at a point. *)
Record ref_geo (m : refm) : Prop := MkGeo {
  e_pos : 0 < h_det m;
  e_det : h_det m = det3 (h_g m);
  e_sym : sym3 (h_g m);
  e_ReDD : forall i j, (i < 3)%nat -> (j < 3)%nat -> h_ReDD m i j <> 0;
  e_ReDDsym : sym3 (h_ReDD m);
  e_ReU : forall i, (i < 3)%nat -> h_ReU m i <> 0;
  e_Gam : forall i j k, (i < 3)%nat -> (j < 3)%nat -> (k < 3)%nat -> h_Gam m i j k = h_Gam m i k j;
  e_compat : forall i j l, (i < 3)%nat -> (j < 3)%nat -> (l < 3)%nat ->
    h_gD m i j l = s3 (fun n => h_Gam m n i l * h_g m n j) + s3 (fun n => h_Gam m n j l * h_g m i n);
  e_flat : forall i k l p, (i < 3)%nat -> (k < 3)%nat -> (l < 3)%nat -> (p < 3)%nat ->
    h_GamdD m i k l p + s3 (fun n => h_Gam m i n p * h_Gam m n k l) = h_GamdD m i k p l + s3 (fun n => h_Gam m i n l * h_Gam m n k p) }.

Lemma ref_at_flat : forall cs r v, reference_metric cs false = Ok r -> good (ep v) -> inside (r_coord r) v ->
  forall i k l p, (i < 3)%nat -> (k < 3)%nat -> (l < 3)%nat -> (p < 3)%nat ->
  let m := ref_at r v in
  h_GamdD m i k l p + s3 (fun n => h_Gam m i n p * h_Gam m n k l) = h_GamdD m i k p l + s3 (fun n => h_Gam m i n l * h_Gam m n k p).
Proof.
  intros cs r v H G IN i k l p Hi Hk Hl Hp. cbn zeta. destruct (rm_kinds cs false r H) as (q & E & _ & EV & EJ & IJ & _ & _ & ES & HG).
  pose proof (near_ok cs r v H G IN) as NR. pose proof (ref_at_ok cs r v H G IN) as RO.
  rewrite E in *. cbn iota in ES. pose proof (kind_regular q v G EV IN) as RG.
  set (J := fun a b => eval v (jac r a b)).
  set (T := fun n l p => h_GamdD (ref_at r v) n k l p + s3 (fun c => h_Gam (ref_at r v) n c p * h_Gam (ref_at r v) c k l)).
  (** the second derivatives of the Jacobian, in terms of the connection *)
  assert (Q : forall a l p, (a < 3)%nat -> (l < 3)%nat -> (p < 3)%nat ->
    eval v (diff p (diff l (diff k (to_cart (coord_of q) a)))) =
    s3 (fun n => J a n * T n l p)).
  { intros a l' p' Ha Hl' Hp'.
    assert (D1 : d_at (fun w => eval w (diff l' (diff k (to_cart (coord_of q) a)))) p' v (eval v (diff p' (diff l' (diff k (to_cart (coord_of q) a)))))).
    { apply diff_correct. apply wd_diff, wd_diff. now apply (reg_wd _ _ RG). }
    assert (D2 : d_at (fun w => s3 (fun n => eval w (jac r a n) * h_Gam (ref_at r w) n k l')) p' v
                   (s3 (fun n => eval v (diff p' (jac r a n)) * h_Gam (ref_at r v) n k l' + eval v (jac r a n) * h_GamdD (ref_at r v) n k l' p'))).
    { apply (d_s3 (fun w n => eval w (jac r a n) * h_Gam (ref_at r w) n k l')). intros n Hn.
      apply (d_mult (fun w => eval w (jac r a n)) (fun w => h_Gam (ref_at r w) n k l')).
      - apply diff_correct. rewrite EJ. apply wd_diff. now apply (reg_wd _ _ RG).
      - now apply (k_Gam _ _ RO). }
    rewrite (d_unique (fun w => eval w (diff l' (diff k (to_cart (coord_of q) a)))) p' v _
      (s3 (fun n => eval v (diff p' (jac r a n)) * h_Gam (ref_at r v) n k l' + eval v (jac r a n) * h_GamdD (ref_at r v) n k l' p')) D1).
    - assert (X : forall n, (n < 3)%nat -> eval v (diff p' (jac r a n)) = s3 (fun c => J a c * h_Gam (ref_at r v) c n p')).
      { intros n Hn. rewrite EJ. rewrite <- (flat_alg q v r G EV IN ES HG a n p' Ha Hn Hp'). rewrite s3_eq. unfold sum3, J, ref_at. cbn [h_Gam].
        rewrite EJ. reflexivity. }
      rewrite (s3_ext _ (fun n => s3 (fun c => J a c * h_Gam (ref_at r v) c n p') * h_Gam (ref_at r v) n k l' + J a n * h_GamdD (ref_at r v) n k l' p')).
      + subst T. cbn beta. clear. generalize (h_Gam (ref_at r v)) (h_GamdD (ref_at r v)) J. intros. rewrite !s3_eq. ring.
      + intros n Hn. now rewrite X.
    - eapply d_ext; [exact Hp'| |reflexivity|exact D2]. eapply near_imp; [exact NR|]. intros w [Gw INw].
      rewrite <- (flat_alg q w r Gw EV INw ES HG a k l' Ha Hk Hl'). rewrite s3_eq. unfold sum3, ref_at. cbn [h_Gam]. rewrite EJ. reflexivity. }
  change (T i l p = T i p l).
  assert (S : forall a, (a < 3)%nat -> s3 (fun n => J a n * T n l p) = s3 (fun n => J a n * T n p l)).
  { intros a Ha. rewrite <- !Q by assumption. apply diff_sym. apply wd_diff. now apply (reg_wd _ _ RG). }
  destruct (C58_jacobian cs false r v H G ltac:(rewrite E; exact IN) i i Hi Hi) as [_ _].
  assert (L : forall X, X i = s3 (fun a => eval v (jac_inv r i a) * s3 (fun n => J a n * X n))).
  { intros X. transitivity (s3 (fun n => sum3 (fun a => eval v (jac_inv r i a) * eval v (jac r a n)) * X n)).
    - rewrite s3_eq.
      rewrite !(fun n Hn => proj2 (proj2 (C58_jacobian cs false r v H G ltac:(rewrite E; exact IN) i n Hi Hn))) by lia.
      destruct i as [|[|[|i]]]; try lia; unfold delta; cbn [Nat.eqb]; ring.
    - set (I' := fun a b => eval v (jac_inv r a b)).
      change (s3 (fun n => sum3 (fun a => I' i a * J a n) * X n) = s3 (fun a => I' i a * s3 (fun n => J a n * X n))).
      clearbody I' J. unfold sum3. rewrite !s3_eq. ring. }
  rewrite (L (fun n => T n l p)), (L (fun n => T n p l)). apply s3_ext. intros a Ha. now rewrite S.
Qed.

Lemma compat_alg : forall (g : nat -> nat -> R) (D : nat -> nat -> R) (D2 Ga : nat -> nat -> nat -> R) x i j l,
  (i < 3)%nat -> (j < 3)%nat -> (l < 3)%nat ->
  (forall a b, (a < 3)%nat -> (b < 3)%nat -> g a b = sum3 (fun c => D c a * D c b)) ->
  (forall a k l, (a < 3)%nat -> (k < 3)%nat -> (l < 3)%nat -> sum3 (fun i => D a i * Ga i k l) = D2 a k l) ->
  x = sum3 (fun b => D2 b i l * D b j + D b i * D2 b j l) ->
  x = s3 (fun n => Ga n i l * g n j) + s3 (fun n => Ga n j l * g i n).
Proof.
  intros g D D2 Ga x i j l Hi Hj Hl GM FA ->. unfold sum3 at 1. rewrite <- !FA by lia. rewrite !s3_eq, !GM by lia. unfold sum3. ring.
Qed.
Section At.
Variables (cs : string) (r : rfm) (v : env).
Hypotheses (H : reference_metric cs false = Ok r) (G : good (ep v)) (IN : inside (r_coord r) v).
Lemma geo_pos : 0 < eval v (detgammahat r).
Proof using H G IN. destruct (C58_metric cs r v H G IN 0%nat 0%nat ltac:(lia) ltac:(lia)) as (_ & _ & _ & P & _). exact P. Qed.
Lemma geo_det : eval v (detgammahat r) = det3 (fun a b => eval v (ghatDD (r_scale r) a b)).
Proof using H G IN.
  destruct (C58_metric cs r v H G IN 0%nat 0%nat ltac:(lia) ltac:(lia)) as (_ & _ & P & _). rewrite P.
  generalize (fun a b => eval v (ghatDD (r_scale r) a b)). intros a. unfold gen3_det, leibniz. cbn. ring.
Qed.
Lemma geo_sym : forall i j, eval v (ghatDD (r_scale r) i j) = eval v (ghatDD (r_scale r) j i).
Proof.
  intros i j. rewrite !ghat_val. unfold delta. rewrite (Nat.eqb_sym j i). destruct (Nat.eqb_spec i j) as [->|]; ring.
Qed.
Lemma geo_ReDD : forall i j, (i < 3)%nat -> (j < 3)%nat -> eval v (ReDD (r_scale r) i j) <> 0.
Proof using H G IN.
  intros i j Hi Hj Z. destruct (C58_metric cs r v H G IN i j Hi Hj) as (_ & _ & _ & _ & _ & P). rewrite Z in P.
  assert (PI : forall i, (i < 3)%nat -> 0 < eval v (ghatDD (r_scale r) i i)).
  { intros a Ha. rewrite ghat_val. unfold delta. rewrite Nat.eqb_refl.
    destruct (rm_kinds cs false r H) as (k & E & _ & EV & _ & _ & _ & _ & ES & _). rewrite E in *. cbn iota in ES. rewrite ES.
    pose proof (reg_pos _ _ (kind_regular k v G EV IN) a Ha). rewrite Rmult_1_l. now apply pow_lt. }
  pose proof (Rmult_lt_0_compat _ _ (PI i Hi) (PI j Hj)). rewrite <- P in H0. cbn in H0. lra.
Qed.
Lemma geo_ReDDsym : forall i j, eval v (ReDD (r_scale r) i j) = eval v (ReDD (r_scale r) j i).
Proof. intros i j. unfold ReDD. generalize (r_scale r). intros sc. ev. cbn [eval]. ring. Qed.
Lemma geo_ReU : forall i, (i < 3)%nat -> eval v (ReU (r_scale r) i) <> 0.
Proof using H G IN. intros i Hi Z. destruct (C58_metric cs r v H G IN i i Hi Hi) as (_ & _ & _ & _ & P & _). rewrite Z in P. lra. Qed.
Lemma geo_compat : forall i j l, (i < 3)%nat -> (j < 3)%nat -> (l < 3)%nat ->
  eval v (ghatDDdD r i j l) = s3 (fun n => eval v (GammahatUDD r n i l) * eval v (ghatDD (r_scale r) n j))
    + s3 (fun n => eval v (GammahatUDD r n j l) * eval v (ghatDD (r_scale r) i n)).
Proof using H G IN.
  intros i j l Hi Hj Hl. destruct (rm_kinds cs false r H) as (q & E & _ & EV & EJ & IJ & _ & _ & ES & HG).
  pose proof (C58_metric cs r v H G IN) as M. rewrite E in *. cbn iota in ES.
  assert (GM : forall a b, (a < 3)%nat -> (b < 3)%nat -> eval v (ghatDD (r_scale r) a b) =
    sum3 (fun c => eval v (diff a (to_cart (coord_of q) c)) * eval v (diff b (to_cart (coord_of q) c)))).
  { intros a b Ha Hb. destruct (M a b Ha Hb) as (P & _). rewrite P, EJ. reflexivity. }
  exact (compat_alg (fun a b => eval v (ghatDD (r_scale r) a b)) (fun b j => eval v (diff j (to_cart (coord_of q) b)))
    (fun b j l => eval v (diff l (diff j (to_cart (coord_of q) b)))) (fun a b c => eval v (GammahatUDD r a b c)) _ i j l Hi Hj Hl GM
    (flat_alg q v r G EV IN ES HG) (metric_diff q v r G EV IN ES i j l Hi Hj Hl)).
Qed.
Lemma ref_at_geo : ref_geo (ref_at r v).
Proof using H G IN.
  constructor.
  - exact geo_pos.
  - exact geo_det.
  - exact (fun i j _ _ => geo_sym i j).
  - exact geo_ReDD.
  - exact (fun i j _ _ => geo_ReDDsym i j).
  - exact geo_ReU.
  - exact (fun i j k Hi Hj Hk => proj2 (C58_connection cs r v H G IN i j k Hi Hj Hk)).
  - exact geo_compat.
  - exact (ref_at_flat cs r v H G IN).
Qed.
End At.
