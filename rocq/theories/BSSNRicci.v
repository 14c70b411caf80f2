(** Algebra of the Ricci tensor of a connection that differs from a flat one by a tensor. *)
From Coq Require Import String List Arith Bool Lia Reals Lra.
From Verif Require Import PyBase Inverter InverterFacts GRMetric BSSN BSSNFacts.
Import ListNotations.
Local Open Scope R_scope.

(** The Ricci tensor of a connection with derivatives [dG] *)
Definition ricci (G : nat -> nat -> nat -> R) (dG : nat -> nat -> nat -> nat -> R) (i j : nat) : R :=
  s3 (fun k => dG k i j k) - s3 (fun k => dG k i k j) + s3 (fun k => s3 (fun n => G k n k * G n i j - G k n j * G n i k)).

Section Alg.
Variables (u : nat -> nat -> R) (L : nat -> nat -> nat -> R) (Q : nat -> nat -> nat -> nat -> R).
Hypothesis US : forall i j, (i < 3)%nat -> (j < 3)%nat -> u i j = u j i.
Hypothesis LS : forall i j k, (i < 3)%nat -> (j < 3)%nat -> (k < 3)%nat -> L i j k = L i k j.
Hypothesis QS : forall i j k l, (i < 3)%nat -> (j < 3)%nat -> (k < 3)%nat -> (l < 3)%nat -> Q i j k l = Q j i k l /\ Q i j k l = Q i j l k.
Definition De (i j k : nat) : R := s3 (fun n => u i n * L n j k).
Definition Pe (i j k : nat) : R := L i j k + L j i k.
Definition Qe (i j k l : nat) : R := 1 / 2 * (Q i j k l + Q i k j l - Q j k i l).
(** D_l Delta^i_jk *)
Definition Ee (i j k l : nat) : R := s3 (fun n => u i n * Qe n j k l) - s3 (fun a => s3 (fun b => u i a * Pe a b l * De b j k)).
(** g_ik D_j Lambda^k *)
Definition Fe (i j : nat) : R :=
  s3 (fun a => s3 (fun b => u a b * (Qe i a b j - s3 (fun c => Pe i c j * De c a b)) - s3 (fun c => s3 (fun d => u a c * u b d * Pe c d j)) * L i a b)).
Ltac canon := rewrite ?(US 1 0), ?(US 2 0), ?(US 2 1) by lia;
  rewrite ?(fun i Hi => LS i 1 0 Hi), ?(fun i Hi => LS i 2 0 Hi), ?(fun i Hi => LS i 2 1 Hi) by lia.
Definition quad (i j : nat) : R := s3 (fun k => s3 (fun n => De k n k * De n i j - De k n j * De n i k)).

Lemma Q10 : forall c d, (c < 3)%nat -> (d < 3)%nat -> Q 1 0 c d = Q 0 1 c d. Proof using QS. intros. apply QS; lia. Qed.
Lemma Q20 : forall c d, (c < 3)%nat -> (d < 3)%nat -> Q 2 0 c d = Q 0 2 c d. Proof using QS. intros. apply QS; lia. Qed.
Lemma Q21 : forall c d, (c < 3)%nat -> (d < 3)%nat -> Q 2 1 c d = Q 1 2 c d. Proof using QS. intros. apply QS; lia. Qed.
Lemma Q_10 : forall c d, (c < 3)%nat -> (d < 3)%nat -> Q c d 1 0 = Q c d 0 1. Proof using QS. intros. apply QS; lia. Qed.
Lemma Q_20 : forall c d, (c < 3)%nat -> (d < 3)%nat -> Q c d 2 0 = Q c d 0 2. Proof using QS. intros. apply QS; lia. Qed.
Lemma Q_21 : forall c d, (c < 3)%nat -> (d < 3)%nat -> Q c d 2 1 = Q c d 1 2. Proof using QS. intros. apply QS; lia. Qed.
Ltac canonQ := repeat (rewrite Q10 by lia); repeat (rewrite Q20 by lia); repeat (rewrite Q21 by lia);
  repeat (rewrite Q_10 by lia); repeat (rewrite Q_20 by lia); repeat (rewrite Q_21 by lia).
Ltac canonL := repeat (rewrite (fun i Hi => LS i 1 0 Hi) by lia); repeat (rewrite (fun i Hi => LS i 2 0 Hi) by lia); repeat (rewrite (fun i Hi => LS i 2 1 Hi) by lia).
Ltac canonU := rewrite ?(US 1 0), ?(US 2 0), ?(US 2 1) by lia.
Lemma ricci_Q : forall i j, (i < 3)%nat -> (j < 3)%nat ->
  s3 (fun k => s3 (fun n => u k n * Qe n i j k)) - s3 (fun k => s3 (fun n => u k n * Qe n i k j))
  = s3 (fun k => s3 (fun l => - (1 / 2) * u k l * Q i j l k)) + 1 / 2 * (s3 (fun a => s3 (fun b => u a b * Qe i a b j)) + s3 (fun a => s3 (fun b => u a b * Qe j a b i))).
Proof using US QS.
  intros i j Hi Hj. unfold Qe. rewrite !s3_eq.
  destruct i as [|[|[|i]]], j as [|[|[|j]]]; try lia; canonU; canonQ; field.
Qed.
(** the terms quadratic in L *)
Lemma ricci_L : forall i j, (i < 3)%nat -> (j < 3)%nat ->
  - s3 (fun k => s3 (fun a => s3 (fun b => u k a * Pe a b k * De b i j))) + s3 (fun k => s3 (fun a => s3 (fun b => u k a * Pe a b j * De b i k))) + quad i j
  = 1 / 2 * (s3 (fun a => s3 (fun b => u a b * (- s3 (fun c => Pe i c j * De c a b)) - s3 (fun c => s3 (fun d => u a c * u b d * Pe c d j)) * L i a b))
           + s3 (fun a => s3 (fun b => u a b * (- s3 (fun c => Pe j c i * De c a b)) - s3 (fun c => s3 (fun d => u a c * u b d * Pe c d i)) * L j a b)))
    + s3 (fun k => 1 / 2 * s3 (fun a => s3 (fun b => u a b * De k a b)) * (L i j k + L j i k))
    + s3 (fun k => s3 (fun l => s3 (fun n => u k l * (De n k i * L j n l + De n k j * L i n l + De n i k * L n j l)))).
Proof using US LS.
  intros i j Hi Hj. unfold quad, Pe, De. rewrite !s3_eq.
  destruct i as [|[|[|i]]], j as [|[|[|j]]]; try lia; canonU; canonL; field.
Qed.
End Alg.
