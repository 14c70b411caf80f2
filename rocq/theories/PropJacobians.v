(** C76: the basis transformations of helpers/jacobians.py. *)
From Coq Require Import String List ZArith Bool Arith Lia Reals Lra.
From Verif Require Import PyBase Inverter GRMetric RefMetric RefMetricReal RefMetricFacts RefMetricFlat RefMetricAccept PropRefMetric BSSN BSSNFacts T4munu Jacobians.
Local Open Scope R_scope.

Section Alg.
Variables J I : nat -> nat -> R.
Hypothesis JI : forall i j, (i < 3)%nat -> (j < 3)%nat -> sum3 (fun a => J i a * I a j) = delta i j.
Lemma cancel1 : forall V i, (i < 3)%nat -> s3 (fun l => J i l * s3 (fun m => I l m * V m)) = V i.
Proof.
  intros V i Hi. transitivity (s3 (fun m => sum3 (fun a => J i a * I a m) * V m)); [rewrite !s3_eq; unfold sum3; ring |].
  transitivity (s3 (fun m => delta i m * V m)); [apply s3_ext; intros m Hm; now rewrite JI |].
  rewrite s3_eq. unfold delta. destruct i as [| [| [| i]]]; [| | | lia]; cbn [Nat.eqb]; ring.
Qed.
Lemma cancel1t : forall V i, (i < 3)%nat -> s3 (fun l => I l i * s3 (fun m => J m l * V m)) = V i.
Proof.
  intros V i Hi. transitivity (s3 (fun m => sum3 (fun a => J m a * I a i) * V m)); [rewrite !s3_eq; unfold sum3; ring |].
  transitivity (s3 (fun m => delta m i * V m)); [apply s3_ext; intros m Hm; now rewrite JI |].
  rewrite s3_eq. unfold delta. destruct i as [| [| [| i]]]; [| | | lia]; cbn [Nat.eqb]; ring.
Qed.
End Alg.

Section At.
Variables (cs : string) (pre : bool) (r : rfm) (v : env).
Hypothesis RM : reference_metric cs pre = Ok r.
Hypothesis G : good (ep v).
Hypothesis IN : inside (r_coord r) v.
Let J := Jac_dUCart_dDrfmUD r v.
Let K := Jac_dUrfm_dDCartUD r v.
Lemma JK : forall i j, (i < 3)%nat -> (j < 3)%nat -> sum3 (fun a => J i a * K a j) = delta i j.
Proof. intros i j Hi Hj. exact (proj1 (proj2 (C58_jacobian cs pre r v RM G IN i j Hi Hj))). Qed.
Lemma KJ : forall i j, (i < 3)%nat -> (j < 3)%nat -> sum3 (fun a => K i a * J a j) = delta i j.
Proof. intros i j Hi Hj. exact (proj2 (proj2 (C58_jacobian cs pre r v RM G IN i j Hi Hj))). Qed.
End At.

(** the 4-dimensional sums as a time part and a spatial part *)
Lemma s4_split : forall f, s4 f = f 0%nat + s3 (fun k => f (S k)).
Proof. intros f. rewrite s3_eq. unfold s4, acc. cbn [fold_left seq]. ring. Qed.
Lemma Jac4_apply : forall J f mu, (mu < 4)%nat -> s4 (fun d => Jac4 J mu d * f d) = match mu with O => f 0%nat | S i => s3 (fun l => J i l * f (S l)) end.
Proof. intros J f mu H. rewrite s4_split. destruct mu as [| i]; cbn [Jac4]; rewrite !s3_eq; ring. Qed.
Lemma s4_ext : forall f g, (forall i, (i < 4)%nat -> f i = g i) -> s4 f = s4 g.
Proof. intros f g H. unfold s4, acc. cbn [fold_left seq]. rewrite !H by lia. reflexivity. Qed.
Lemma s4_double : forall A B T mu nu, s4 (fun d => s4 (fun s => Jac4 A mu d * Jac4 B nu s * T d s)) = s4 (fun d => Jac4 A mu d * s4 (fun s => Jac4 B nu s * T d s)).
Proof. intros. unfold s4, acc. cbn [fold_left seq]. ring. Qed.
Lemma s3_double : forall (a b : nat -> R) (T : nat -> nat -> R), s3 (fun l => s3 (fun m => a l * b m * T l m)) = s3 (fun l => a l * s3 (fun m => b m * T l m)).
Proof. intros. rewrite !s3_eq. ring. Qed.
Lemma cancel4 : forall J I, (forall i j, (i < 3)%nat -> (j < 3)%nat -> sum3 (fun a => J i a * I a j) = delta i j) ->
  forall f mu, (mu < 4)%nat -> s4 (fun d => Jac4 J mu d * s4 (fun e => Jac4 I d e * f e)) = f mu.
Proof.
  intros J I H f mu Hm. rewrite Jac4_apply by exact Hm. destruct mu as [| i]; [now rewrite Jac4_apply by lia |].
  transitivity (s3 (fun l => J i l * s3 (fun m => I l m * f (S m)))).
  - apply s3_ext. intros l Hl. now rewrite Jac4_apply by lia.
  - apply (cancel1 J I H (fun m => f (S m))). lia.
Qed.

(** ** Going there and back is the identity, for each kind of tensor and in both orders. *)
Theorem C76_roundtrip : forall cs pre r v, reference_metric cs pre = Ok r -> good (ep v) -> inside (r_coord r) v ->
  (forall V i, (i < 3)%nat ->
     vectorU_from_Cartesian_to_rfmbasis r v (vectorU_from_rfmbasis_to_Cartesian r v V) i = V i /\
     vectorU_from_rfmbasis_to_Cartesian r v (vectorU_from_Cartesian_to_rfmbasis r v V) i = V i /\
     vectorD_from_Cartesian_to_rfmbasis r v (vectorD_from_rfmbasis_to_Cartesian r v V) i = V i /\
     vectorD_from_rfmbasis_to_Cartesian r v (vectorD_from_Cartesian_to_rfmbasis r v V) i = V i) /\
  (forall T i j, (i < 3)%nat -> (j < 3)%nat ->
     tensorDD_from_Cartesian_to_rfmbasis r v (tensorDD_from_rfmbasis_to_Cartesian r v T) i j = T i j /\
     tensorDD_from_rfmbasis_to_Cartesian r v (tensorDD_from_Cartesian_to_rfmbasis r v T) i j = T i j) /\
  (forall T mu nu, (mu < 4)%nat -> (nu < 4)%nat ->
     tensor4UU_from_Cartesian_to_rfmbasis r v (tensor4UU_from_rfmbasis_to_Cartesian r v T) mu nu = T mu nu /\
     tensor4UU_from_rfmbasis_to_Cartesian r v (tensor4UU_from_Cartesian_to_rfmbasis r v T) mu nu = T mu nu).
Proof.
  intros cs pre r v RM G IN. pose proof (JK cs pre r v RM G IN) as JK. pose proof (KJ cs pre r v RM G IN) as KJ. split; [| split].
  - intros V i Hi. split; [exact (cancel1 _ _ KJ V i Hi) |]. split; [exact (cancel1 _ _ JK V i Hi) |].
    split; [exact (cancel1t _ _ KJ V i Hi) | exact (cancel1t _ _ JK V i Hi)].
  - intros T i j Hi Hj.
    assert (DD : forall A B, (forall i j, (i < 3)%nat -> (j < 3)%nat -> sum3 (fun a => A i a * B a j) = delta i j) ->
      s3 (fun l => s3 (fun m => B l i * B m j * s3 (fun l' => s3 (fun m' => A l' l * A m' m * T l' m')))) = T i j).
    { intros A B H. rewrite s3_double.
      transitivity (s3 (fun l => B l i * s3 (fun l' => A l' l * s3 (fun m => B m j * s3 (fun m' => A m' m * T l' m'))))).
      - apply s3_ext. intros l _. f_equal. rewrite !s3_eq. ring.
      - transitivity (s3 (fun l => B l i * s3 (fun l' => A l' l * T l' j))).
        + apply s3_ext. intros l _. f_equal. apply s3_ext. intros l' _. f_equal. exact (cancel1t A B H (T l') j Hj).
        + exact (cancel1t A B H (fun l' => T l' j) i Hi). }
    split; [exact (DD _ _ KJ) | exact (DD _ _ JK)].
  - intros T mu nu Hm Hn.
    assert (UU : forall A B, (forall i j, (i < 3)%nat -> (j < 3)%nat -> sum3 (fun a => A i a * B a j) = delta i j) ->
      s4 (fun d => s4 (fun s => Jac4 A mu d * Jac4 A nu s * s4 (fun d' => s4 (fun s' => Jac4 B d d' * Jac4 B s s' * T d' s')))) = T mu nu).
    { intros A B H. rewrite s4_double.
      transitivity (s4 (fun d => Jac4 A mu d * s4 (fun d' => Jac4 B d d' * T d' nu))); [| exact (cancel4 A B H (fun d' => T d' nu) mu Hm)].
      apply s4_ext. intros d Hd. f_equal.
      transitivity (s4 (fun s => Jac4 A nu s * s4 (fun s' => Jac4 B s s' * s4 (fun d' => Jac4 B d d' * T d' s')))).
      - apply s4_ext. intros s Hs. f_equal. unfold s4, acc. cbn [fold_left seq]. ring.
      - exact (cancel4 A B H (fun s' => s4 (fun d' => Jac4 B d d' * T d' s')) nu Hn). }
    split; [exact (UU _ _ KJ) | exact (UU _ _ JK)].
Qed.

(** ** The transformations are those of tensors: contractions do not depend on the basis. *)
Theorem C76_contractions : forall cs pre r v, reference_metric cs pre = Ok r -> good (ep v) -> inside (r_coord r) v ->
  (forall D U, s3 (fun i => vectorD_from_rfmbasis_to_Cartesian r v D i * vectorU_from_rfmbasis_to_Cartesian r v U i) = s3 (fun i => D i * U i)) /\
  (forall T U V, s3 (fun i => s3 (fun j => tensorDD_from_rfmbasis_to_Cartesian r v T i j * vectorU_from_rfmbasis_to_Cartesian r v U i
                                          * vectorU_from_rfmbasis_to_Cartesian r v V j)) = s3 (fun i => s3 (fun j => T i j * U i * V j))) /\
  (forall T (a b : R) (D E : nat -> R),
     let c4 := fun t F mu => match mu with O => t | S i => vectorD_from_rfmbasis_to_Cartesian r v F i end in
     let r4 := fun t (F : nat -> R) mu => match mu with O => t | S i => F i end in
     s4 (fun mu => s4 (fun nu => tensor4UU_from_rfmbasis_to_Cartesian r v T mu nu * c4 a D mu * c4 b E nu))
     = s4 (fun mu => s4 (fun nu => T mu nu * r4 a D mu * r4 b E nu))).
Proof.
  intros cs pre r v RM G IN. destruct (C76_roundtrip cs pre r v RM G IN) as (RV & RT & R4). split; [| split].
  - intros D U.
    transitivity (s3 (fun i => D i * vectorU_from_Cartesian_to_rfmbasis r v (vectorU_from_rfmbasis_to_Cartesian r v U) i)).
    + unfold vectorD_from_rfmbasis_to_Cartesian, vectorU_from_Cartesian_to_rfmbasis. rewrite !s3_eq. ring.
    + apply s3_ext. intros i Hi. now rewrite (proj1 (RV U i Hi)).
  - intros T U V.
    transitivity (s3 (fun l => s3 (fun m => T l m * vectorU_from_Cartesian_to_rfmbasis r v (vectorU_from_rfmbasis_to_Cartesian r v U) l
                                                  * vectorU_from_Cartesian_to_rfmbasis r v (vectorU_from_rfmbasis_to_Cartesian r v V) m))).
    + set (U' := vectorU_from_rfmbasis_to_Cartesian r v U). set (V' := vectorU_from_rfmbasis_to_Cartesian r v V).
      unfold tensorDD_from_rfmbasis_to_Cartesian, vectorU_from_Cartesian_to_rfmbasis. rewrite !s3_eq. ring.
    + apply s3_ext. intros l Hl. apply s3_ext. intros m Hm. rewrite (proj1 (RV U l Hl)), (proj1 (RV V m Hm)). reflexivity.
  - intros T a b D E c4 r4.
    assert (B : forall F t de, (de < 4)%nat -> s4 (fun mu => Jac4 (Jac_dUCart_dDrfmUD r v) mu de * c4 t F mu) = r4 t F de).
    { intros F t de Hd. rewrite s4_split. unfold c4, r4. destruct de as [| l]; cbn [Jac4].
      - rewrite s3_eq. ring.
      - rewrite <- (proj1 (proj2 (proj2 (RV F l ltac:(lia))))). unfold vectorD_from_Cartesian_to_rfmbasis. rewrite Rmult_0_l, Rplus_0_l. reflexivity. }
    transitivity (s4 (fun de => s4 (fun si => T de si * s4 (fun mu => Jac4 (Jac_dUCart_dDrfmUD r v) mu de * c4 a D mu)
                                                      * s4 (fun nu => Jac4 (Jac_dUCart_dDrfmUD r v) nu si * c4 b E nu)))).
    + unfold tensor4UU_from_rfmbasis_to_Cartesian. clearbody c4. unfold s4, acc. cbn [fold_left seq]. ring.
    + apply s4_ext. intros de Hd. apply s4_ext. intros si Hs. rewrite !B by lia. reflexivity.
Qed.

(** ** They are the transformations of these two bases: coordinate directions go to the derivatives of the Cartesian
    coordinates along the coordinate lines, and the reference metric to the Cartesian flat metric. *)
Theorem C76_basis : forall cs pre r v, reference_metric cs pre = Ok r -> good (ep v) -> inside (r_coord r) v ->
  forall i j, (i < 3)%nat -> (j < 3)%nat ->
  derivable_pt_lim (cart_along r v i j) (exx v j) (vectorU_from_rfmbasis_to_Cartesian r v (fun l => delta l j) i).
Proof.
  intros cs pre r v RM G IN i j Hi Hj. pose proof (proj1 (C58_jacobian cs pre r v RM G IN i j Hi Hj)) as D.
  replace (vectorU_from_rfmbasis_to_Cartesian r v (fun l => delta l j) i) with (eval v (jac r i j)); [exact D |].
  unfold vectorU_from_rfmbasis_to_Cartesian, Jac_dUCart_dDrfmUD, delta. rewrite s3_eq. destruct j as [| [| [| j]]]; [| | | lia]; cbn [Nat.eqb]; ring.
Qed.
Theorem C76_metric : forall cs r v, reference_metric cs false = Ok r -> good (ep v) -> inside (r_coord r) v ->
  forall i j, (i < 3)%nat -> (j < 3)%nat -> tensorDD_from_rfmbasis_to_Cartesian r v (fun l m => eval v (ghatDD (r_scale r) l m)) i j = delta i j.
Proof.
  intros cs r v RM G IN i j Hi Hj. destruct (C76_roundtrip cs false r v RM G IN) as (_ & RT & _).
  transitivity (tensorDD_from_rfmbasis_to_Cartesian r v (tensorDD_from_Cartesian_to_rfmbasis r v delta) i j); [| exact (proj2 (RT delta i j Hi Hj))].
  unfold tensorDD_from_rfmbasis_to_Cartesian at 1 2. apply s3_ext. intros l Hl. apply s3_ext. intros m Hm. f_equal.
  rewrite (proj1 (C58_metric cs r v RM G IN l m Hl Hm)). unfold tensorDD_from_Cartesian_to_rfmbasis, Jac_dUCart_dDrfmUD, delta, sum3.
  rewrite !s3_eq. cbn [Nat.eqb]. ring.
Qed.

(** ** Example: in spherical coordinates the azimuthal basis vector has the Cartesian length r sin(theta), and there is such a point. *)
Example ex_C76_spherical : exists r v, reference_metric "Spherical" false = Ok r /\ good (ep v) /\ inside (r_coord r) v /\
  s3 (fun i => vectorU_from_rfmbasis_to_Cartesian r v (fun l => delta l 2) i * vectorU_from_rfmbasis_to_Cartesian r v (fun l => delta l 2) i)
  = (exx v 0%nat * sin (exx v 1%nat)) ^ 2.
Proof.
  destruct (C58_ex_point "Spherical" ltac:(cbn; tauto) false) as (r & v & RM & G & IN). exists r, v. split; [exact RM |]. split; [exact G |]. split; [exact IN |].
  set (U := fun l => delta l 2). destruct (C76_contractions "Spherical" false r v RM G IN) as (_ & CT & _).
  pose proof (CT (fun l m => eval v (ghatDD (r_scale r) l m)) U U) as E.
  assert (L : s3 (fun i => s3 (fun j => tensorDD_from_rfmbasis_to_Cartesian r v (fun l m => eval v (ghatDD (r_scale r) l m)) i j
      * vectorU_from_rfmbasis_to_Cartesian r v U i * vectorU_from_rfmbasis_to_Cartesian r v U j))
    = s3 (fun i => vectorU_from_rfmbasis_to_Cartesian r v U i * vectorU_from_rfmbasis_to_Cartesian r v U i)).
  { apply s3_ext. intros i Hi. transitivity (s3 (fun j => delta i j * vectorU_from_rfmbasis_to_Cartesian r v U i * vectorU_from_rfmbasis_to_Cartesian r v U j)).
    - apply s3_ext. intros j Hj. now rewrite (C76_metric "Spherical" r v RM G IN i j Hi Hj).
    - rewrite s3_eq. unfold delta. destruct i as [| [| [| i]]]; [| | | lia]; cbn [Nat.eqb]; ring. }
  rewrite <- L, E. destruct (rm_kinds _ _ _ RM) as (k & EC & NM & _ & _ & _ & _ & _ & ES & _).
  pose proof (named_coord _ _ NM) as N1. assert (N2 : coord_of k = coord_of KSph) by (pose proof (named_coord "Spherical" KSph ltac:(cbn; reflexivity)) as N2; congruence).
  rewrite !s3_eq. unfold U, delta. cbn [Nat.eqb]. rewrite !ghat_val, ES, EC, N2. unfold delta. cbn. ring.
Qed.

Print Assumptions C76_roundtrip.
Print Assumptions C76_contractions.
Print Assumptions C76_basis.
Print Assumptions C76_metric.
