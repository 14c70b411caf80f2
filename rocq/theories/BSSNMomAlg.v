(** Algebra of the momentum constraint: the divergence of the extrinsic curvature in conformal variables. *)
From Coq Require Import String List Arith Bool Lia Reals Lra.
From Verif Require Import PyBase Inverter InverterFacts GRMetric BSSN BSSNFacts BSSNConn BSSNRicci BSSNRicciFacts PropBSSNDeriv BSSNEvolAlg.
Import ListNotations.
Local Open Scope R_scope.

Section Mom.
Variables (g u A : nat -> nat -> R) (p Kd : nat -> R) (e em K : R) (G gd Ad : nat -> nat -> nat -> R).
Hypothesis TS : two_sided3 g u.
Hypothesis SG : sym3 g.
Hypothesis SU : sym3 u.
Hypothesis SA : sym3 A.
Hypothesis EM : e * em = 1.
Hypothesis T0 : s3 (fun i => s3 (fun j => u i j * A i j)) = 0.
Hypothesis CO : forall i j l, (i < 3)%nat -> (j < 3)%nat -> (l < 3)%nat -> gd i j l = s3 (fun n => G n i l * g n j) + s3 (fun n => G n j l * g i n).
Let f := fun k => s3 (fun n => u k n * p n).
Let C := Ce g f p.
Let KD := fun i j => e * A i j + 1 / 3 * (e * g i j) * K.
Let KDD := fun i j k => 4 * e * p k * A i j + e * Ad i j k + 1 / 3 * ((4 * e * p k * g i j + e * gd i j k) * K + e * g i j * Kd k).
Let DA := fun k l j => Ad k l j - s3 (fun n => G n k j * A n l) - s3 (fun n => G n l j * A k n).
Lemma low_f : forall l, (l < 3)%nat -> s3 (fun n => f n * g n l) = p l.
Proof using TS SG.
  intros l Hl. rewrite <- (s3_pick_r g u p l TS Hl). unfold f. rewrite !s3_eq. rewrite !(fun n Hn => SG n l Hn Hl) by lia. ring.
Qed.
Lemma C_g : forall k j l, (k < 3)%nat -> (j < 3)%nat -> (l < 3)%nat -> s3 (fun n => C n k j * g n l) = 2 * (g k l * p j + g j l * p k - g k j * p l).
Proof using TS SG.
  intros k j l Hk Hj Hl. transitivity (2 * (g k l * p j + g j l * p k - g k j * s3 (fun n => f n * g n l))); [|now rewrite low_f].
  unfold C, Ce. generalize f. intros f0. rewrite !s3_eq. unfold dl. destruct k as [|[|[|k]]], j as [|[|[|j]]]; try lia; cbn [Nat.eqb]; ring.
Qed.
Lemma cov_K : forall k l j, (k < 3)%nat -> (l < 3)%nat -> (j < 3)%nat ->
  cov_DD (fun n a c => G n a c + C n a c) KD KDD k l j =
  e * (4 * p j * A k l + DA k l j - s3 (fun n => C n k j * A n l) - s3 (fun n => C n l j * A k n)) + 1 / 3 * e * g k l * Kd j.
Proof using TS SG CO.
  intros k l j Hk Hl Hj. pose proof (C_g k j l Hk Hj Hl) as C1. pose proof (C_g l j k Hl Hj Hk) as C2. pose proof (CO k l j Hk Hl Hj) as C0.
  assert (C2' : s3 (fun n => C n l j * g k n) = 2 * (g l k * p j + g j k * p l - g l j * p k)).
  { rewrite <- C2. apply s3_ext. intros n Hn. now rewrite (SG k n Hk Hn). }
  unfold cov_DD, KD, KDD, DA.
  transitivity (e * (4 * p j * A k l + (Ad k l j - s3 (fun n => G n k j * A n l) - s3 (fun n => G n l j * A k n)) - s3 (fun n => C n k j * A n l) - s3 (fun n => C n l j * A k n))
    + 1 / 3 * e * g k l * Kd j + 1 / 3 * e * K * (4 * p j * g k l + gd k l j - s3 (fun n => G n k j * g n l) - s3 (fun n => G n l j * g k n) - s3 (fun n => C n k j * g n l) - s3 (fun n => C n l j * g k n))).
  - generalize C. intros C0'. rewrite !s3_eq. ring.
  - rewrite C0, C1, C2', (SG l k Hl Hk), (SG j l Hj Hl), (SG j k Hj Hk). ring.
Qed.
Let AUU := fun i j => s3 (fun k => s3 (fun l => u i k * u j l * A k l)).
Lemma f_A : forall i, (i < 3)%nat -> s3 (fun n => f n * s3 (fun l => u i l * A n l)) = s3 (fun j => AUU i j * p j).
Proof using SU SA.
  intros i Hi. unfold f, AUU. rewrite !s3_eq. rewrite (SA 1%nat 0%nat), (SA 2%nat 0%nat), (SA 2%nat 1%nat) by lia. rewrite (SU 1%nat 0%nat), (SU 2%nat 0%nat), (SU 2%nat 1%nat) by lia. ring.
Qed.
Lemma mom_1 : forall i, (i < 3)%nat -> s3 (fun j => s3 (fun k => s3 (fun l => u i k * u j l * s3 (fun n => C n k j * A n l)))) = 0.
Proof using TS SU SA T0.
  intros i Hi.
  assert (P : forall n l, (l < 3)%nat -> s3 (fun k => u i k * s3 (fun j => g k j * u j l)) * A n l = u i l * A n l).
  { intros n l Hl. f_equal. rewrite (s3_ext _ (fun k => u i k * dl k l)) by (intros k Hk; rewrite (proj1 (two_sided_r g u TS k l Hk Hl)); reflexivity).
    rewrite s3_eq. unfold dl. destruct l as [|[|[|l]]]; try lia; cbn [Nat.eqb]; ring. }
  transitivity (2 * (s3 (fun j => AUU i j * p j) + f i * s3 (fun i => s3 (fun j => u i j * A i j)) - s3 (fun n => f n * s3 (fun l => s3 (fun k => u i k * s3 (fun j => g k j * u j l)) * A n l)))).
  - unfold C, Ce, AUU. unfold f at 2. generalize f. intros f0. rewrite !s3_eq. unfold dl. cbn [Nat.eqb]. ring.
  - rewrite (s3_ext (fun n => f n * s3 (fun l => _)) (fun n => f n * s3 (fun l => u i l * A n l))) by (intros n Hn; f_equal; apply s3_ext; intros l Hl; now apply P).
    rewrite (f_A i Hi), T0. ring.
Qed.
Lemma mom_2 : forall i, (i < 3)%nat -> s3 (fun j => s3 (fun k => s3 (fun l => u i k * u j l * s3 (fun n => C n l j * A k n)))) = - 2 * s3 (fun j => AUU i j * p j).
Proof using TS SG SU SA.
  intros i Hi. pose proof (f_A i Hi) as FA.
  transitivity (2 * (2 * s3 (fun n => f n * s3 (fun l => u i l * A n l)) - s3 (fun j => s3 (fun l => u j l * g j l)) * s3 (fun n => f n * s3 (fun l => u i l * A n l)))).
  - transitivity (2 * (s3 (fun j => AUU i j * p j) + s3 (fun j => AUU i j * p j) - s3 (fun j => s3 (fun l => u j l * g j l)) * s3 (fun n => f n * s3 (fun l => u i l * A n l)))); [|rewrite FA; ring].
    rewrite <- FA at 1. unfold C, Ce, AUU, f. rewrite !s3_eq. unfold dl. cbn [Nat.eqb].
    rewrite (SA 1%nat 0%nat), (SA 2%nat 0%nat), (SA 2%nat 1%nat) by lia. rewrite (SU 1%nat 0%nat), (SU 2%nat 0%nat), (SU 2%nat 1%nat) by lia. 
    rewrite (SG 1%nat 0%nat), (SG 2%nat 0%nat), (SG 2%nat 1%nat) by lia. ring.
  - rewrite (trace_id g u TS SG), FA. ring.
Qed.
Lemma mom : forall i, (i < 3)%nat ->
  s3 (fun j => s3 (fun k => s3 (fun l => (u i k * em) * (u j l * em) * cov_DD (fun n a c => G n a c + C n a c) KD KDD k l j))) - s3 (fun j => u i j * em * Kd j) =
  (s3 (fun j => 6 * AUU i j * p j) + s3 (fun j => - (2 / 3) * u i j * Kd j) + s3 (fun j => s3 (fun k => s3 (fun l => u i k * u j l * DA k l j)))) * em.
Proof using TS SG SU SA EM T0 CO.
  intros i Hi. pose proof (mom_1 i Hi) as M1. pose proof (mom_2 i Hi) as M2.
  rewrite (s3_ext _ (fun j => s3 (fun k => s3 (fun l => (u i k * em) * (u j l * em) *
     (e * (4 * p j * A k l + DA k l j - s3 (fun n => C n k j * A n l) - s3 (fun n => C n l j * A k n)) + 1 / 3 * e * g k l * Kd j)))))
    by (intros j Hj; apply s3_ext; intros k Hk; apply s3_ext; intros l Hl; now rewrite cov_K).
  assert (UG : forall j, (j < 3)%nat -> s3 (fun k => s3 (fun l => u i k * u j l * g k l)) = u i j).
  { intros j Hj. pose proof (s3_pick_l g u (fun l => u j l) i TS Hi) as P. cbn beta in P. transitivity (u j i); [|exact (SU j i Hj Hi)]. rewrite <- P. rewrite !s3_eq. ring. }
  transitivity ((e * em) * em * (4 * s3 (fun j => AUU i j * p j) + s3 (fun j => s3 (fun k => s3 (fun l => u i k * u j l * DA k l j)))
      - s3 (fun j => s3 (fun k => s3 (fun l => u i k * u j l * s3 (fun n => C n k j * A n l))))
      - s3 (fun j => s3 (fun k => s3 (fun l => u i k * u j l * s3 (fun n => C n l j * A k n))))
      + 1 / 3 * s3 (fun j => s3 (fun k => s3 (fun l => u i k * u j l * g k l)) * Kd j)) - s3 (fun j => u i j * em * Kd j)).
  - unfold AUU. generalize DA C. intros. rewrite !s3_eq. ring.
  - rewrite EM, M1, M2. rewrite (s3_ext (fun j => s3 (fun k => s3 (fun l => u i k * u j l * g k l)) * Kd j) (fun j => u i j * Kd j)) by (intros j Hj; now rewrite UG).
    generalize AUU DA. intros. rewrite !s3_eq. field.
Qed.
End Mom.
