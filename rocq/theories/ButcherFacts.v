(** The coefficients a + b*sqrt(21) form a field (21 is not a rational square). *)
From Coq Require Import String List Bool Arith QArith Qcanon ZArith Znumtheory Lia Field.
From Verif Require Import PyBase MoL Butcher.
Import ListNotations.

Lemma sq21_Z : forall m (n d : Z), (Z.abs_nat n <= m)%nat -> (n * n = 21 * (d * d))%Z -> n = 0%Z /\ d = 0%Z.
Proof.
  induction m as [|m IH]; intros n d L H.
  - assert (n = 0)%Z by lia. subst. split; [reflexivity|nia].
  - destruct (Z.eq_dec n 0) as [->|N]; [split; [reflexivity|nia]|]. exfalso.
    assert (D : (3 | n)%Z).
    { assert (D : (3 | n * n)%Z) by (exists (7 * (d * d))%Z; lia). apply prime_mult in D; [tauto|apply prime_3]. }
    destruct D as [n' ->].
    assert (D : (3 | d)%Z).
    { assert (D : (3 | 7 * (d * d))%Z) by (exists (n' * n')%Z; lia). apply prime_mult in D; [|apply prime_3].
      destruct D as [D|D]; [destruct D as [x X]; lia|]. apply prime_mult in D; [tauto|apply prime_3]. }
    destruct D as [d' ->].
    destruct (IH n' d'); [lia|lia|]. lia.
Qed.
Lemma sq21_Qc : forall a b : Qc, (a * a = c21 * (b * b))%Qc -> a = 0%Qc /\ b = 0%Qc.
Proof.
  intros a b H. assert (E : (this a * this a == 21 * (this b * this b))%Q).
  { assert (E : (this (a * a) == this (c21 * (b * b)))%Q) by now rewrite H.
    unfold Qcmult, Q2Qc in E. cbn [this] in E. rewrite !Qred_correct in E. exact E. }
  destruct a as [[an ad] ca], b as [[bn bd] cb]. cbn [this] in E. unfold Qeq, Qmult in E. cbn [Qnum Qden] in E.
  rewrite ?Pos2Z.inj_mul in E.
  assert (G : ((an * Z.pos bd) * (an * Z.pos bd) = 21 * ((bn * Z.pos ad) * (bn * Z.pos ad)))%Z) by lia.
  destruct (sq21_Z _ _ _ (le_n _) G) as [A B].
  assert (an = 0)%Z by lia. assert (bn = 0)%Z by lia. subst. split; apply Qc_is_canon; reflexivity.
Qed.
Lemma q21_norm_nz : forall x, x <> q21_0 -> q21_norm x <> 0%Qc.
Proof.
  intros [a b] N H. unfold q21_norm in H. cbn [fst snd] in H.
  assert (E : (a * a = c21 * (b * b))%Qc).
  { replace (a * a)%Qc with ((a * a - c21 * (b * b)) + c21 * (b * b))%Qc by ring. rewrite H. ring. }
  apply sq21_Qc in E. destruct E as [-> ->]. apply N. reflexivity.
Qed.
Lemma q21_ring : ring_theory q21_0 q21_1 q21_add q21_mul q21_sub q21_opp eq.
Proof.
  constructor; intros; unfold q21_0, q21_1, q21_add, q21_mul, q21_sub, q21_opp;
    repeat match goal with x : Q21 |- _ => destruct x end; cbn [fst snd];
    change (Q2Qc 0) with 0%Qc; change (Q2Qc 1) with 1%Qc; f_equal; ring.
Qed.
Lemma q21_field : field_theory q21_0 q21_1 q21_add q21_mul q21_sub q21_opp q21_div q21_inv eq.
Proof.
  constructor.
  - exact q21_ring.
  - intros H. apply (f_equal fst) in H. vm_compute in H. discriminate.
  - reflexivity.
  - intros p N. pose proof (q21_norm_nz p N) as Z. destruct p as [a b].
    unfold q21_mul, q21_inv, q21_1. unfold q21_norm in *. cbn [fst snd] in *.
    change (Q2Qc 0) with 0%Qc; change (Q2Qc 1) with 1%Qc. f_equal; field; exact Z.
Qed.
Lemma Qc_eqb_eq : forall a b, Qc_eq_bool a b = true <-> a = b.
Proof.
  intros a b. split; [apply Qc_eq_bool_correct|]. intros ->. unfold Qc_eq_bool. destruct (Qc_eq_dec b b); congruence.
Qed.
Lemma q21_eqb_eq : forall a b, q21_eqb a b = true <-> a = b.
Proof.
  intros [a b] [c d]. unfold q21_eqb. cbn [fst snd]. rewrite andb_true_iff, !Qc_eqb_eq. split.
  - intros [-> ->]. reflexivity.
  - intros H. inversion H. auto.
Qed.
