(** Proofs about the 4-metric conversions (model: GRMetric.v). *)
From Coq Require Import List Arith Bool Lia Field Ring.
From Verif Require Import PyBase Inverter InverterFacts GRMetric.
Import ListNotations.

Section Facts.
Variables (F : Type) (fO fI : F) (fadd fmul fsub fdiv : F -> F -> F) (fopp finv : F -> F) (feqb : F -> F -> bool) (fsqrt : F -> F).
Hypothesis Fth : field_theory fO fI fadd fmul fsub fopp fdiv finv (@eq F).
Hypothesis feqb_eq : forall x y, feqb x y = true <-> x = y.
Add Field Fg : Fth.
Local Notation "x + y" := (fadd x y).
Local Notation "x * y" := (fmul x y).
Local Notation "x - y" := (fsub x y).
Local Notation "x / y" := (fdiv x y).
Local Notation "- x" := (fopp x).
Local Notation two_sided := (two_sided_inverse F fO fI fadd fmul).
Local Notation det := (leibniz F fO fI fadd fmul fopp).
Local Notation g4 := (ADM_to_g4DD F fO fadd fmul fopp).
Local Notation inv3 := (symm_matrix_inverter3x3 F fO fI fadd fmul fsub fdiv fopp feqb).
Local Notation back := (g4DD_to_ADM F fO fI fadd fmul fsub fdiv fopp feqb fsqrt).
Local Notation lower := (lower F fO fadd fmul).
Local Notation acc := (acc F fO fadd).
Local Notation up := (ADM_to_g4UU F fO fI fadd fmul fsub fdiv fopp feqb).

Lemma acc3 : forall f, acc 3 f = f 0 + f 1 + f 2.
Proof. intros. unfold GRMetric.acc. cbn [seq fold_left]. ring. Qed.
Lemma inv3_ok : forall a h d, symmetric F 3 a -> inv3 a = Ok (h, d) -> d = det 3 a /\ d <> fO /\ two_sided 3 a h.
Proof.
  intros a h d Hs H. unfold symm_matrix_inverter3x3 in H.
  destruct (feqb _ fO) eqn:E; [discriminate|]. injection H as <- <-.
  assert (Hn : symm3_det F fI fadd fmul fsub fopp a <> fO)
    by (intro E'; rewrite (proj2 (feqb_eq _ _) E') in E; discriminate).
  split; [|split].
  - exact (symm3_det_leibniz F fO fI fadd fmul fsub fdiv fopp finv Fth a Hs).
  - exact Hn.
  - exact (symm3_inverse F fO fI fadd fmul fsub fdiv fopp finv Fth a _ Hs eq_refl Hn).
Qed.
Lemma inv3_accepts : forall a, symmetric F 3 a -> det 3 a <> fO -> exists h d, inv3 a = Ok (h, d).
Proof.
  intros a Hs Hn. unfold symm_matrix_inverter3x3. destruct (feqb _ fO) eqn:E; [|eauto].
  apply feqb_eq in E. exfalso. apply Hn.
  rewrite <- (symm3_det_leibniz F fO fI fadd fmul fsub fdiv fopp finv Fth a Hs). exact E.
Qed.
Lemma inv3_rejects : forall a, symmetric F 3 a -> det 3 a = fO -> inv3 a = Err NonInvertibleMatrixError.
Proof.
  intros a Hs Hn. unfold symm_matrix_inverter3x3.
  rewrite (proj2 (feqb_eq _ _)); [reflexivity|].
  rewrite (symm3_det_leibniz F fO fI fadd fmul fsub fdiv fopp finv Fth a Hs). exact Hn.
Qed.

Lemma sym4 : forall a b al, symmetric F 3 a -> symmetric F 4 (g4 a b al).
Proof. intros a b al Hs i j Hi Hj. destruct i, j; cbn; auto. apply Hs; lia. Qed.

Lemma g4_inverse : forall a h b al, symmetric F 3 a -> two_sided 3 a h -> al <> fO ->
  two_sided 4 (g4 a b al) (g4UU_of F fI fmul fsub fdiv fopp h b al).
Proof.
  intros a h b al Hs H Hal.
  assert (E : forall i j, i < 3 -> j < 3 -> a i 0 * h 0 j + a i 1 * h 1 j + a i 2 * h 2 j = delta F fO fI i j /\
                                          h i 0 * a 0 j + h i 1 * a 1 j + h i 2 * a 2 j = delta F fO fI i j).
  { intros i j Hi Hj. destruct (H i j Hi Hj) as [H1 H2].
    rewrite (matmul3 F fO fI fadd fmul fsub fdiv fopp finv Fth) in H1, H2. split; assumption. }
  assert (S10 : a 1 0 = a 0 1) by (apply Hs; lia). assert (S20 : a 2 0 = a 0 2) by (apply Hs; lia).
  assert (S21 : a 2 1 = a 1 2) by (apply Hs; lia).
  assert (L : forall i, lower a b i = a i 0 * b 0 + a i 1 * b 1 + a i 2 * b 2) by (intro; apply acc3).
  assert (B2 : beta2 F fO fadd fmul a b = b 0 * lower a b 0 + b 1 * lower a b 1 + b 2 * lower a b 2) by apply acc3.
  (* the shift raised and lowered *)
  assert (U : forall j, j < 3 -> h j 0 * lower a b 0 + h j 1 * lower a b 1 + h j 2 * lower a b 2 = b j).
  { intros j Hj. rewrite !L.
    transitivity ((h j 0 * a 0 0 + h j 1 * a 1 0 + h j 2 * a 2 0) * b 0 + (h j 0 * a 0 1 + h j 1 * a 1 1 + h j 2 * a 2 1) * b 1
                  + (h j 0 * a 0 2 + h j 1 * a 1 2 + h j 2 * a 2 2) * b 2); [ring|].
    rewrite (proj2 (E j 0 Hj ltac:(lia))), (proj2 (E j 1 Hj ltac:(lia))), (proj2 (E j 2 Hj ltac:(lia))).
    unfold delta. destruct j as [|[|[|j]]]; [| | |lia]; cbn [Nat.eqb]; ring. }
  assert (U' : forall j, j < 3 -> h 0 j * lower a b 0 + h 1 j * lower a b 1 + h 2 j * lower a b 2 = b j).
  { intros j Hj. rewrite !L.
    transitivity ((a 0 0 * h 0 j + a 0 1 * h 1 j + a 0 2 * h 2 j) * b 0 + (a 1 0 * h 0 j + a 1 1 * h 1 j + a 1 2 * h 2 j) * b 1
                  + (a 2 0 * h 0 j + a 2 1 * h 1 j + a 2 2 * h 2 j) * b 2); [rewrite S10, S20, S21; ring|].
    rewrite (proj1 (E 0 j ltac:(lia) Hj)), (proj1 (E 1 j ltac:(lia) Hj)), (proj1 (E 2 j ltac:(lia) Hj)).
    unfold delta. destruct j as [|[|[|j]]]; [| | |lia]; cbn [Nat.eqb]; ring. }
  assert (LT : forall j, j < 3 -> a 0 j * b 0 + a 1 j * b 1 + a 2 j * b 2 = lower a b j).
  { intros j Hj. rewrite L. rewrite (Hs 0 j), (Hs 1 j), (Hs 2 j) by lia. ring. }
  intros mu nu Hm Hn. rewrite !(matmul4 F fO fI fadd fmul fsub fdiv fopp finv Fth).
  destruct mu as [|m]; destruct nu as [|n]; cbn [ADM_to_g4DD g4UU_of].
  - rewrite B2. unfold delta. cbn [Nat.eqb]. split; field; exact Hal.
  - assert (Hn' : n < 3) by lia. unfold delta. cbn [Nat.eqb]. rewrite B2. split.
    + transitivity (h 0 n * lower a b 0 + h 1 n * lower a b 1 + h 2 n * lower a b 2 - b n); [field; exact Hal|].
      rewrite (U' n Hn'). ring.
    + transitivity ((a 0 n * b 0 + a 1 n * b 1 + a 2 n * b 2 - lower a b n) / (al * al)); [field; exact Hal|].
      rewrite (LT n Hn'). field. exact Hal.
  - assert (Hm' : m < 3) by lia. unfold delta. cbn [Nat.eqb]. rewrite B2. split.
    + transitivity ((a m 0 * b 0 + a m 1 * b 1 + a m 2 * b 2 - lower a b m) / (al * al)); [field; exact Hal|].
      rewrite L. field. exact Hal.
    + transitivity (h m 0 * lower a b 0 + h m 1 * lower a b 1 + h m 2 * lower a b 2 - b m); [field; exact Hal|].
      rewrite (U m Hm'). ring.
  - assert (Hm' : m < 3) by lia. assert (Hn' : n < 3) by lia.
    change (delta F fO fI (S m) (S n)) with (delta F fO fI m n). split.
    + transitivity (a m 0 * h 0 n + a m 1 * h 1 n + a m 2 * h 2 n
                    + (lower a b m - (a m 0 * b 0 + a m 1 * b 1 + a m 2 * b 2)) * b n / (al * al)); [field; exact Hal|].
      rewrite (proj1 (E m n Hm' Hn')), L. field. exact Hal.
    + transitivity (h m 0 * a 0 n + h m 1 * a 1 n + h m 2 * a 2 n
                    + b m * (lower a b n - (a 0 n * b 0 + a 1 n * b 1 + a 2 n * b 2)) / (al * al)); [field; exact Hal|].
      rewrite (proj2 (E m n Hm' Hn')), (LT n Hn'). field. exact Hal.
Qed.

Lemma g4_det : forall a b al, symmetric F 3 a -> det 4 (g4 a b al) = - (al * al) * det 3 a.
Proof.
  intros a b al Hs.
  assert (S10 : a 1 0 = a 0 1) by (apply Hs; lia). assert (S20 : a 2 0 = a 0 2) by (apply Hs; lia).
  assert (S21 : a 2 1 = a 1 2) by (apply Hs; lia).
  unfold leibniz. cbn -[GRMetric.beta2 GRMetric.lower]. unfold GRMetric.beta2, GRMetric.lower. rewrite !acc3, S10, S20, S21. ring.
Qed.

(** What comes back *)
Lemma back_ok : forall g a' al' b', symmetric F 4 g -> back g = Ok (a', al', b') ->
  (forall i j, i < 3 -> j < 3 -> a' i j = g (S i) (S j)) /\
  (forall i, i < 3 -> a' i 0 * b' 0 + a' i 1 * b' 1 + a' i 2 * b' 2 = g 0 i) /\
  al' = fsqrt (b' 0 * g 0 0 + b' 1 * g 0 1 + b' 2 * g 0 2 - g 0 0).
Proof.
  intros g a' al' b' Hs H. unfold g4DD_to_ADM in H.
  remember (fun i j => g (S i) (S j)) as a eqn:Ea.
  assert (Hsa : symmetric F 3 a) by (intros i j Hi Hj; rewrite Ea; apply Hs; lia).
  destruct (inv3 a) as [[h d]|e] eqn:E; [|discriminate]. cbn [py_bind fst] in H.
  destruct (inv3_ok a h d Hsa E) as [_ [_ Hh]].
  injection H as <- <- <-.
  assert (EE : forall i j, i < 3 -> j < 3 -> a i 0 * h 0 j + a i 1 * h 1 j + a i 2 * h 2 j = delta F fO fI i j).
  { intros i j Hi Hj. destruct (Hh i j Hi Hj) as [H1 _].
    rewrite (matmul3 F fO fI fadd fmul fsub fdiv fopp finv Fth) in H1. exact H1. }
  split; [intros; rewrite Ea; reflexivity|split].
  - intros i Hi. rewrite !acc3.
    transitivity ((a i 0 * h 0 0 + a i 1 * h 1 0 + a i 2 * h 2 0) * g 0 0 + (a i 0 * h 0 1 + a i 1 * h 1 1 + a i 2 * h 2 1) * g 0 1
                  + (a i 0 * h 0 2 + a i 1 * h 1 2 + a i 2 * h 2 2) * g 0 2); [ring|].
    rewrite !EE by lia. unfold delta. destruct i as [|[|[|i]]]; [| | |lia]; cbn [Nat.eqb]; ring.
  - f_equal. rewrite !acc3. ring.
Qed.
End Facts.
