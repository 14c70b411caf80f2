(** More on symbolic differentiation: derivatives of simplified terms, differentiability of derivatives, and symmetry of second
    derivatives. *)
From Coq Require Import String List ZArith Bool Arith Lia Reals Lra.
From Verif Require Import PyBase RefMetric RefMetricReal.
Import ListNotations.
Open Scope R_scope.

Ltac num1 a := destruct a as [[|?p|?p]| | | | | | | | | | | | | | | | | | | |].
Lemma ed_sadd : forall v k a b, eval v (diff k (sadd a b)) = eval v (diff k a) + eval v (diff k b).
Proof. intros v k a b. num1 a; num1 b; cbn [sadd]; try (cbn [diff]; ev; cbn [eval]; lra). Qed.
Lemma ed_ssub : forall v k a b, eval v (diff k (ssub a b)) = eval v (diff k a) - eval v (diff k b).
Proof. intros v k a b. num1 a; num1 b; cbn [ssub]; try (cbn [diff]; ev; cbn [eval]; lra). Qed.
Lemma ed_sopp : forall v k a, eval v (diff k (sopp a)) = - eval v (diff k a).
Proof. intros v k a. num1 a; cbn [sopp]; try (cbn [diff]; ev; cbn [eval]; lra). Qed.
Lemma ed_smul : forall v k a b, eval v (diff k (smul a b)) = eval v (diff k a) * eval v b + eval v a * eval v (diff k b).
Proof.
  intros v k a b. destruct (smul_cases a b) as [->|[[-> ->]|[[-> ->]|[[-> ->]|[-> ->]]]]]; cbn [diff]; ev; cbn [eval]; lra.
Qed.
Lemma ed_sdiv : forall v k a b,
  eval v (diff k (sdiv a b)) = (eval v (diff k a) * eval v b - eval v a * eval v (diff k b)) / (eval v b * eval v b).
Proof.
  intros v k a b. destruct (sdiv_cases a b) as [->|[[-> ->]|[-> ->]]]; cbn [diff]; ev; cbn [eval].
  - reflexivity.
  - unfold Rdiv. lra.
  - field.
Qed.
Lemma ed_spow : forall v k a n, eval v (diff k (spow a n)) = INR n * eval v a ^ (n - 1) * eval v (diff k a).
Proof.
  intros v k a n. destruct n as [|[|n]]; cbn [spow].
  - cbn. lra.
  - cbn. lra.
  - num1 a; cbn [diff]; ev; cbn [eval]; rewrite <- ?INR_IZR_INZ; try lra.
    destruct p; cbn [diff]; ev; cbn [eval]; rewrite <- ?INR_IZR_INZ; lra.
Qed.
Ltac ed := repeat first [rewrite ed_sadd|rewrite ed_ssub|rewrite ed_sopp|rewrite ed_smul|rewrite ed_sdiv|rewrite ed_spow].

(** ** Differentiability is kept *)
Lemma wd_sadd : forall v a b, wd v a -> wd v b -> wd v (sadd a b).
Proof. intros v a b A B. num1 a; num1 b; cbn in *; auto. Qed.
Lemma wd_ssub : forall v a b, wd v a -> wd v b -> wd v (ssub a b).
Proof. intros v a b A B. num1 a; num1 b; cbn in *; auto. Qed.
Lemma wd_sopp : forall v a, wd v a -> wd v (sopp a).
Proof. intros v a A. num1 a; cbn in *; auto. Qed.
Lemma wd_smul : forall v a b, wd v a -> wd v b -> wd v (smul a b).
Proof. intros v a b A B. destruct (smul_cases a b) as [->|[[-> ->]|[[-> ->]|[[-> ->]|[-> ->]]]]]; cbn; auto. Qed.
Lemma wd_sdiv : forall v a b, wd v a -> wd v b -> eval v b <> 0 -> wd v (sdiv a b).
Proof. intros v a b A B N. destruct (sdiv_cases a b) as [->|[[-> ->]|[-> ->]]]; cbn; auto. Qed.
Lemma wd_spow : forall v a n, wd v a -> wd v (spow a n).
Proof.
  intros v a n A. destruct n as [|[|n]]; cbn [spow]; [exact I|exact A|]. num1 a; try exact A; try exact I.
  destruct p; exact I.
Qed.
Lemma atan2_domain : forall x y, 0 < x \/ y <> 0 -> x ^ 2 + y ^ 2 <> 0.
Proof.
  intros x y D. pose proof (pow2_ge_0 x). pose proof (pow2_ge_0 y). destruct D as [D|D].
  - assert (0 < x ^ 2) by (now apply pow_lt). lra.
  - assert (0 < y ^ 2) by (rewrite <- Rsqr_pow2; now apply Rlt_0_sqr). lra.
Qed.
Lemma sqrt_arg_1 : forall x, -1 < x < 1 -> 0 < 1 - x ^ 2.
Proof. intros x B. nra. Qed.
Lemma wd_diff : forall e k v, wd v e -> wd v (diff k e).
Proof.
  induction e; intros q v W; cbn [wd diff] in *;
    repeat match goal with H : _ /\ _ |- _ => destruct H end;
    repeat match goal with IH : forall q v, wd v ?e -> wd v (diff q ?e), H : wd ?v ?e |- _ => pose proof (IH q v H); clear IH end;
    try exact I;
    repeat first [apply wd_sadd|apply wd_ssub|apply wd_sopp|apply wd_smul|apply wd_spow|apply wd_sdiv]; cbn [wd]; auto;
    ev; cbn [eval].
  - destruct (Nat.eqb k q); exact I.
  - now apply Rmult_integral_contrapositive.
  - assert (0 < sqrt (eval v e)) by now apply sqrt_lt_R0. lra.
  - pose proof (pow2_ge_0 (eval v e)). repeat split; auto; lra.
  - pose proof (pow2_ge_0 (eval v e)). assert (0 < sqrt (eval v e ^ 2 + 1)) by (apply sqrt_lt_R0; lra). lra.
  - repeat split; auto. now apply sqrt_arg_1.
  - assert (0 < sqrt (1 - eval v e ^ 2)) by (now apply sqrt_lt_R0, sqrt_arg_1). lra.
  - now apply atan2_domain.
  - destruct W.
Qed.

(** ** Second derivatives are symmetric *)
Lemma diff_sym : forall e k l v, wd v e -> eval v (diff k (diff l e)) = eval v (diff l (diff k e)).
Proof.
  induction e; intros q l v W; cbn [wd] in W;
    repeat match goal with H : _ /\ _ |- _ => destruct H end;
    repeat match goal with IH : forall k l v, wd v ?e -> _, H : wd ?v ?e |- _ => specialize (IH q l v H) end;
    cbn [diff]; ed; cbn [eval diff]; ev; cbn [eval]; try lra.
  all: try (rewrite ?IHe, ?IHe1, ?IHe2; ring).
  - destruct (Nat.eqb k l), (Nat.eqb k q); reflexivity.
  - rewrite IHe1, IHe2. now field.
  - rewrite IHe. assert (0 < sqrt (eval v e)) by now apply sqrt_lt_R0. field. lra.
  - rewrite IHe. pose proof (pow2_ge_0 (eval v e)). assert (0 < sqrt (eval v e ^ 2 + 1)) by (apply sqrt_lt_R0; lra).
    change (2 - 1)%nat with 1%nat. change (Z.of_nat 2) with 2%Z. field. lra.
  - rewrite IHe. assert (0 < sqrt (1 - eval v e ^ 2)) by (now apply sqrt_lt_R0, sqrt_arg_1).
    change (2 - 1)%nat with 1%nat. change (Z.of_nat 2) with 2%Z. field. lra.
  - rewrite IHe1, IHe2. change (2 - 1)%nat with 1%nat. change (Z.of_nat 2) with 2%Z. field. now apply atan2_domain.
Qed.

(** ** Substituting for one coordinate an expression does not contain *)
Lemma eval_free : forall e k t v, free_of k e = true -> eval (upd k t v) e = eval v e.
Proof.
  induction e; intros q t v F; cbn [free_of eval] in *;
    repeat match goal with H : _ && _ = true |- _ => apply andb_true_iff in H as [? ?] end;
    try reflexivity; try (rewrite ?IHe, ?IHe1, ?IHe2; auto; fail).
  cbn. destruct (Nat.eqb k q); [discriminate F|reflexivity].
Qed.
