(** Specification and proofs for the matrix inverters and Levi-Civita objects (model: Inverter.v). *)
From Coq Require Import List Arith Bool Lia Field Ring Permutation.
From Verif Require Import PyBase Inverter.
Import ListNotations.

(** All arrangements of a list, and the number of inversions of an arrangement. *)
Fixpoint insert_all {A} (x : A) (l : list A) : list (list A) :=
  match l with
  | [] => [[x]]
  | y :: r => (x :: y :: r) :: map (cons y) (insert_all x r)
  end.
Fixpoint perms {A} (l : list A) : list (list A) :=
  match l with [] => [[]] | x :: r => flat_map (insert_all x) (perms r) end.
Fixpoint inversions (l : list nat) : nat :=
  match l with [] => 0 | x :: r => List.length (filter (fun y => Nat.ltb y x) r) + inversions r end.

Section Spec.
Variables (F : Type) (fO fI : F) (fadd fmul fsub fdiv : F -> F -> F) (fopp finv : F -> F).

Definition fsum (l : list F) : F := fold_right fadd fO l.
Definition fprod (l : list F) : F := fold_right fmul fI l.
Definition signed (odd : bool) (x : F) : F := if odd then fopp x else x.

(** Leibniz: the sum over all permutations p of sign(p) a(0,p0) a(1,p1) ... *)
Definition leibniz (n : nat) (a : nat -> nat -> F) : F :=
  fsum (map (fun p => signed (Nat.odd (inversions p))
                             (fprod (map (fun ij => a (fst ij) (snd ij)) (combine (seq 0 n) p))))
            (perms (seq 0 n))).

Definition matmul (n : nat) (a b : nat -> nat -> F) (i j : nat) : F :=
  fsum (map (fun k => fmul (a i k) (b k j)) (seq 0 n)).
Definition delta (i j : nat) : F := if Nat.eqb i j then fI else fO.

Definition two_sided_inverse (n : nat) (a b : nat -> nat -> F) : Prop :=
  forall i j, i < n -> j < n -> matmul n a b i j = delta i j /\ matmul n b a i j = delta i j.
Definition symmetric (n : nat) (a : nat -> nat -> F) : Prop :=
  forall i j, i < n -> j < n -> a i j = a j i.
End Spec.

Section Facts.
Variables (F : Type) (fO fI : F) (fadd fmul fsub fdiv : F -> F -> F) (fopp finv : F -> F)
          (feqb : F -> F -> bool).
Hypothesis Fth : field_theory fO fI fadd fmul fsub fopp fdiv finv (@eq F).
Hypothesis feqb_eq : forall x y, feqb x y = true <-> x = y.
Add Field Ff : Fth.

Local Notation "x + y" := (fadd x y).
Local Notation "x * y" := (fmul x y).
Local Notation "x / y" := (fdiv x y).

Lemma sum2_div : forall d x0 x1 y0 y1 s, d <> fO -> x0 * y0 + x1 * y1 = s * d ->
  (x0 / d) * y0 + (x1 / d) * y1 = s.
Proof.
  intros. transitivity ((x0 * y0 + x1 * y1) / d); [field; auto|]. rewrite H0. field; auto.
Qed.
Lemma sum3_div : forall d x0 x1 x2 y0 y1 y2 s, d <> fO -> x0 * y0 + x1 * y1 + x2 * y2 = s * d ->
  (x0 / d) * y0 + (x1 / d) * y1 + (x2 / d) * y2 = s.
Proof.
  intros. transitivity ((x0 * y0 + x1 * y1 + x2 * y2) / d); [field; auto|]. rewrite H0. field; auto.
Qed.
Lemma sum4_div : forall d x0 x1 x2 x3 y0 y1 y2 y3 s, d <> fO ->
  x0 * y0 + x1 * y1 + x2 * y2 + x3 * y3 = s * d ->
  (x0 / d) * y0 + (x1 / d) * y1 + (x2 / d) * y2 + (x3 / d) * y3 = s.
Proof.
  intros. transitivity ((x0 * y0 + x1 * y1 + x2 * y2 + x3 * y3) / d); [field; auto|].
  rewrite H0. field; auto.
Qed.

Lemma matmul2 : forall a b i j, matmul F fO fadd fmul 2 a b i j = a i 0 * b 0 j + a i 1 * b 1 j.
Proof. intros. unfold matmul. cbn. ring. Qed.
Lemma matmul3 : forall a b i j,
  matmul F fO fadd fmul 3 a b i j = a i 0 * b 0 j + a i 1 * b 1 j + a i 2 * b 2 j.
Proof. intros. unfold matmul. cbn. ring. Qed.
Lemma matmul4 : forall a b i j,
  matmul F fO fadd fmul 4 a b i j = a i 0 * b 0 j + a i 1 * b 1 j + a i 2 * b 2 j + a i 3 * b 3 j.
Proof. intros. unfold matmul. cbn. ring. Qed.

Ltac split_idx i Hi n :=
  match n with
  | 0 => exfalso; lia
  | S ?m => destruct i as [|i]; [clear Hi|assert (Hi' : i < m) by lia; clear Hi; rename Hi' into Hi; split_idx i Hi m]
  end.

Lemma mul_flip2 : forall x0 x1 y0 y1, y0 * x0 + y1 * x1 = x0 * y0 + x1 * y1.
Proof. intros; ring. Qed.
Lemma mul_flip3 : forall x0 x1 x2 y0 y1 y2, y0 * x0 + y1 * x1 + y2 * x2 = x0 * y0 + x1 * y1 + x2 * y2.
Proof. intros; ring. Qed.
Lemma mul_flip4 : forall x0 x1 x2 x3 y0 y1 y2 y3,
  y0 * x0 + y1 * x1 + y2 * x2 + y3 * x3 = x0 * y0 + x1 * y1 + x2 * y2 + x3 * y3.
Proof. intros; ring. Qed.

Local Notation two_sided := (two_sided_inverse F fO fI fadd fmul).
Local Notation det := (leibniz F fO fI fadd fmul fopp).

(** *** Generic matrices *)
Lemma gen2_det_leibniz : forall a, gen2_det F fmul fsub a = det 2 a.
Proof. intros. unfold gen2_det, leibniz. cbn. ring. Qed.
Lemma gen3_det_leibniz : forall a, gen3_det F fadd fmul fsub fopp a = det 3 a.
Proof. intros. unfold gen3_det, leibniz. cbn. ring. Qed.
Lemma gen4_det_leibniz : forall a, gen4_det F fadd fmul fsub fopp a = det 4 a.
Proof. intros. unfold gen4_det, leibniz. cbn. ring. Qed.

Lemma gen2_inverse : forall a d, d = gen2_det F fmul fsub a -> d <> fO ->
  two_sided 2 a (gen2_inv F fO fdiv fopp a d).
Proof.
  intros a d Hd Hn i j Hi Hj. split; rewrite matmul2.
  - split_idx i Hi 2; split_idx j Hj 2; unfold gen2_inv, delta; cbn [Nat.eqb];
      rewrite mul_flip2; apply sum2_div; auto; rewrite Hd; unfold gen2_det; ring.
  - split_idx i Hi 2; split_idx j Hj 2; unfold gen2_inv, delta; cbn [Nat.eqb];
      apply sum2_div; auto; rewrite Hd; unfold gen2_det; ring.
Qed.

Lemma gen3_inverse : forall a d, d = gen3_det F fadd fmul fsub fopp a -> d <> fO ->
  two_sided 3 a (gen3_inv F fO fadd fmul fsub fdiv fopp a d).
Proof.
  intros a d Hd Hn i j Hi Hj. split; rewrite matmul3.
  - split_idx i Hi 3; split_idx j Hj 3; unfold gen3_inv, delta; cbn [Nat.eqb];
      rewrite mul_flip3; apply sum3_div; auto; rewrite Hd; unfold gen3_det; ring.
  - split_idx i Hi 3; split_idx j Hj 3; unfold gen3_inv, delta; cbn [Nat.eqb];
      apply sum3_div; auto; rewrite Hd; unfold gen3_det; ring.
Qed.

Lemma gen4_inverse : forall a d, d = gen4_det F fadd fmul fsub fopp a -> d <> fO ->
  two_sided 4 a (gen4_inv F fO fadd fmul fsub fdiv fopp a d).
Proof.
  intros a d Hd Hn i j Hi Hj. split; rewrite matmul4.
  - split_idx i Hi 4; split_idx j Hj 4; unfold gen4_inv, delta; cbn [Nat.eqb];
      rewrite mul_flip4; apply sum4_div; auto; rewrite Hd; unfold gen4_det; ring.
  - split_idx i Hi 4; split_idx j Hj 4; unfold gen4_inv, delta; cbn [Nat.eqb];
      apply sum4_div; auto; rewrite Hd; unfold gen4_det; ring.
Qed.

(** *** Symmetric matrices *)
Lemma symm2_det_leibniz : forall a, symmetric F 2 a -> symm2_det F fmul fsub a = det 2 a.
Proof. intros a H. unfold symm2_det, leibniz. cbn. rewrite (H 1 0) by lia. ring. Qed.
Lemma symm3_det_leibniz : forall a, symmetric F 3 a -> symm3_det F fI fadd fmul fsub fopp a = det 3 a.
Proof.
  intros a H. unfold symm3_det, leibniz. cbn.
  rewrite (H 1 0), (H 2 0), (H 2 1) by lia. ring.
Qed.
Lemma symm4_det_leibniz : forall a, symmetric F 4 a -> symm4_det F fI fadd fmul fsub fopp a = det 4 a.
Proof.
  intros a H. unfold symm4_det, leibniz. cbn.
  rewrite (H 1 0), (H 2 0), (H 2 1), (H 3 0), (H 3 1), (H 3 2) by lia. ring.
Qed.

Lemma symm2_inverse : forall a d, symmetric F 2 a -> d = symm2_det F fmul fsub a -> d <> fO ->
  two_sided 2 a (symm2_inv F fO fdiv fopp a d).
Proof.
  intros a d H Hd Hn i j Hi Hj. split; rewrite matmul2.
  - split_idx i Hi 2; split_idx j Hj 2; unfold symm2_inv, delta; cbn [Nat.eqb];
      rewrite mul_flip2; apply sum2_div; auto; rewrite Hd; unfold symm2_det; rewrite ?(H 1 0) by lia; ring.
  - split_idx i Hi 2; split_idx j Hj 2; unfold symm2_inv, delta; cbn [Nat.eqb];
      apply sum2_div; auto; rewrite Hd; unfold symm2_det; rewrite ?(H 1 0) by lia; ring.
Qed.
Lemma symm3_inverse : forall a d, symmetric F 3 a -> d = symm3_det F fI fadd fmul fsub fopp a -> d <> fO ->
  two_sided 3 a (symm3_inv F fO fadd fmul fsub fdiv fopp a d).
Proof.
  intros a d H Hd Hn i j Hi Hj. split; rewrite matmul3.
  - split_idx i Hi 3; split_idx j Hj 3; unfold symm3_inv, delta; cbn [Nat.eqb];
      rewrite mul_flip3; apply sum3_div; auto; rewrite Hd; unfold symm3_det;
      rewrite ?(H 1 0), ?(H 2 0), ?(H 2 1) by lia; ring.
  - split_idx i Hi 3; split_idx j Hj 3; unfold symm3_inv, delta; cbn [Nat.eqb];
      apply sum3_div; auto; rewrite Hd; unfold symm3_det;
      rewrite ?(H 1 0), ?(H 2 0), ?(H 2 1) by lia; ring.
Qed.
Lemma symm4_inverse : forall a d, symmetric F 4 a -> d = symm4_det F fI fadd fmul fsub fopp a -> d <> fO ->
  two_sided 4 a (symm4_inv F fO fI fadd fmul fsub fdiv fopp a d).
Proof.
  intros a d H Hd Hn i j Hi Hj. split; rewrite matmul4.
  - split_idx i Hi 4; split_idx j Hj 4; unfold symm4_inv, delta; cbn [Nat.eqb];
      rewrite mul_flip4; apply sum4_div; auto; rewrite Hd; unfold symm4_det;
      rewrite ?(H 1 0), ?(H 2 0), ?(H 2 1), ?(H 3 0), ?(H 3 1), ?(H 3 2) by lia; ring.
  - split_idx i Hi 4; split_idx j Hj 4; unfold symm4_inv, delta; cbn [Nat.eqb];
      apply sum4_div; auto; rewrite Hd; unfold symm4_det;
      rewrite ?(H 1 0), ?(H 2 0), ?(H 2 1), ?(H 3 0), ?(H 3 1), ?(H 3 2) by lia; ring.
Qed.

(** *** Levi-Civita *)
Hypothesis two_neq : fI + fI <> fO.
Local Notation eps := (LeviCivitaSymbol_dim3_rank3 F fO fI fadd fmul fsub fdiv).

Definition sign_of (l : list nat) : F :=
  if forallb (fun p => negb (Nat.eqb (fst p) (snd p)))
             [(nth 0 l 0, nth 1 l 0); (nth 0 l 0, nth 2 l 0); (nth 1 l 0, nth 2 l 0)]
  then signed F fopp (Nat.odd (inversions l)) fI else fO.

Lemma eps_sign : forall i j k, i < 3 -> j < 3 -> k < 3 -> eps i j k = sign_of [i; j; k].
Proof.
  intros i j k Hi Hj Hk. unfold LeviCivitaSymbol_dim3_rank3.
  split_idx i Hi 3; split_idx j Hj 3; split_idx k Hk 3; cbn; field; auto.
Qed.

Lemma eps_antisym : forall i j k, eps j i k = fopp (eps i j k) /\ eps i k j = fopp (eps i j k) /\
  eps k j i = fopp (eps i j k).
Proof.
  intros. unfold LeviCivitaSymbol_dim3_rank3. generalize (fnat F fO fI fadd i) (fnat F fO fI fadd j) (fnat F fO fI fadd k).
  intros x y z. repeat split; field; auto.
Qed.

Local Notation up := (LeviCivitaTensorUUU_dim3_rank3 F fO fI fadd fmul fsub fdiv).
Local Notation dn := (LeviCivitaTensorDDD_dim3_rank3 F fO fI fadd fmul fsub fdiv).
Local Notation dlt := (delta F fO fI).

Lemma eps_contract : forall i j l m, i < 3 -> j < 3 -> l < 3 -> m < 3 ->
  fsum F fO fadd (map (fun k => eps i j k * eps l m k) (seq 0 3))
  = fsub (dlt i l * dlt j m) (dlt i m * dlt j l).
Proof.
  intros i j l m Hi Hj Hl Hm. cbn [seq map fsum fold_right].
  rewrite !eps_sign by lia.
  split_idx i Hi 3; split_idx j Hj 3; split_idx l Hl 3; split_idx m Hm 3; cbn; ring.
Qed.

Lemma up_dn_contract : forall s i j l m, s <> fO -> i < 3 -> j < 3 -> l < 3 -> m < 3 ->
  fsum F fO fadd (map (fun k => up s i j k * dn s l m k) (seq 0 3))
  = fsub (dlt i l * dlt j m) (dlt i m * dlt j l).
Proof.
  intros s i j l m Hs Hi Hj Hl Hm. rewrite <- eps_contract by auto.
  unfold LeviCivitaTensorUUU_dim3_rank3, LeviCivitaTensorDDD_dim3_rank3.
  cbn [seq map fsum fold_right]. generalize (eps i j 0) (eps i j 1) (eps i j 2) (eps l m 0) (eps l m 1) (eps l m 2).
  intros. field; auto.
Qed.
End Facts.
