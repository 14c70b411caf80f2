(** Derivatives of the inverse and of the determinant of a symmetric 3x3 matrix. *)
From Coq Require Import String List Arith Bool Lia Reals Lra.
From Verif Require Import PyBase Inverter InverterFacts GRMetric RefMetricReal BSSN BSSNFacts BSSNCalc.
Import ListNotations.
Local Open Scope R_scope.

Definition d_ex (f : env -> R) (l : nat) (v : env) : Prop := exists x, d_at f l v x.
Lemma ex_plus : forall f g l v, d_ex f l v -> d_ex g l v -> d_ex (fun w => f w + g w) l v.
Proof. intros f g l v [x X] [y Y]. eexists. exact (d_plus f g l v x y X Y). Qed.
Lemma ex_minus : forall f g l v, d_ex f l v -> d_ex g l v -> d_ex (fun w => f w - g w) l v.
Proof. intros f g l v [x X] [y Y]. eexists. exact (d_minus f g l v x y X Y). Qed.
Lemma ex_opp : forall f l v, d_ex f l v -> d_ex (fun w => - f w) l v.
Proof. intros f l v [x X]. eexists. exact (d_opp f l v x X). Qed.
Lemma ex_mult : forall f g l v, d_ex f l v -> d_ex g l v -> d_ex (fun w => f w * g w) l v.
Proof. intros f g l v [x X] [y Y]. eexists. exact (d_mult f g l v x y X Y). Qed.
Lemma ex_div : forall f g l v, g v <> 0 -> d_ex f l v -> d_ex g l v -> d_ex (fun w => f w / g w) l v.
Proof. intros f g l v N [x X] [y Y]. eexists. exact (d_div f g l v x y N X Y). Qed.
Lemma ex_const : forall c l v, d_ex (fun _ => c) l v.
Proof. intros. eexists. apply d_const. Qed.

Section Inv.
Variables (g : env -> nat -> nat -> R) (u : env -> nat -> nat -> R) (d : env -> R) (gd : nat -> nat -> R) (l : nat) (v : env).
Hypothesis L : (l < 3)%nat.
Hypothesis S : near v (fun w => sym3 (g w)).
Hypothesis I : near v (fun w => inv3 (g w) = Ok (u w, d w)).
Hypothesis DG : forall i j, (i < 3)%nat -> (j < 3)%nat -> d_at (fun w => g w i j) l v (gd i j).
Lemma inv3_form : forall a p, inv3 a = Ok p -> fst p = symm3_inv R 0 Rplus Rmult Rminus Rdiv Ropp a (snd p) /\ snd p = symm3_det R 1 Rplus Rmult Rminus Ropp a.
Proof. intros a p. unfold inv3, symm_matrix_inverter3x3. cbn zeta. destruct (reqb _ _); [discriminate|]. intros H. injection H as <-. split; reflexivity. Qed.
Lemma ex_g : forall i j, (i < 3)%nat -> (j < 3)%nat -> d_ex (fun w => g w i j) l v.
Proof using DG. intros i j Hi Hj. exists (gd i j). now apply DG. Qed.
Ltac ex := repeat first [apply ex_g; lia|apply ex_const|apply ex_plus|apply ex_minus|apply ex_opp|apply ex_mult].
Lemma ex_det : d_ex (fun w => symm3_det R 1 Rplus Rmult Rminus Ropp (g w)) l v.
Proof using DG L. unfold symm3_det. ex. Qed.
Lemma ex_inv : forall i j, (i < 3)%nat -> (j < 3)%nat -> d_ex (fun w => u w i j) l v.
Proof using DG I S L.
  intros i j Hi Hj. pose proof (near_here _ _ I) as I0. destruct (inv3_spec _ _ _ (near_here _ _ S) I0) as (_ & N & _).
  destruct (inv3_form _ _ I0) as [_ F0]. cbn [snd] in F0.
  assert (X : d_ex (fun w => symm3_inv R 0 Rplus Rmult Rminus Rdiv Ropp (g w) (symm3_det R 1 Rplus Rmult Rminus Ropp (g w)) i j) l v).
  { rewrite F0 in N. pose proof ex_det as ED.
    destruct i as [|[|[|i]]], j as [|[|[|j]]]; try lia; unfold symm3_inv;
      (apply (ex_div _ (fun w => symm3_det R 1 Rplus Rmult Rminus Ropp (g w)) l v); [exact N|ex|exact ED]). }
  destruct X as [x X]. exists x. eapply d_ext; [exact L| |reflexivity|exact X].
  eapply near_imp; [exact I|]. intros w Hw. cbn beta. destruct (inv3_form _ _ Hw) as [F1 F2]. cbn [fst snd] in F1, F2. now rewrite F1, F2.
Qed.
Lemma d_inverse : forall i j, (i < 3)%nat -> (j < 3)%nat ->
  d_at (fun w => u w i j) l v (- s3 (fun a => s3 (fun b => u v i a * u v j b * gd a b))).
Proof using DG I S L.
  intros i j Hi Hj.
  pose proof (near_here _ _ I) as I0. destruct (inv3_spec _ _ _ (near_here _ _ S) I0) as (_ & N & TS).
  pose proof (near_here _ _ S) as S0.
  destruct (ex_inv i 0 Hi ltac:(lia)) as [x0 X0]. destruct (ex_inv i 1 Hi ltac:(lia)) as [x1 X1]. destruct (ex_inv i 2 Hi ltac:(lia)) as [x2 X2].
  set (x := fun k => match k with 0 => x0 | 1 => x1 | _ => x2 end).
  assert (X : forall k, (k < 3)%nat -> d_at (fun w => u w i k) l v (x k)).
  { intros [|[|[|k]]] Hk; try lia; assumption. }
  (** differentiate u g = 1 *)
  assert (Z : forall b, (b < 3)%nat -> s3 (fun a => x a * g v a b + u v i a * gd a b) = 0).
  { intros b Hb.
    apply (d_unique (fun w => s3 (fun a => u w i a * g w a b)) l v).
    - apply (d_s3 (fun w a => u w i a * g w a b)). intros a Ha. apply (d_mult (fun w => u w i a) (fun w => g w a b)); auto.
    - eapply d_ext; [exact L| |reflexivity|apply (d_const (if Nat.eqb i b then 1 else 0))].
      eapply near_imp; [exact (near_and _ _ _ S I)|]. intros w [Sw Iw]. cbn beta.
      destruct (inv3_spec _ _ _ Sw Iw) as (_ & _ & Tw). symmetry. exact (proj2 (two_sided_r _ _ Tw i b Hi Hb)). }
  assert (US : sym3 (u v)).
  { intros a b Ha Hb. destruct (inv3_form _ _ I0) as [F1 F2]. cbn [fst snd] in F1, F2. rewrite F1.
    destruct a as [|[|[|a]]], b as [|[|[|b]]]; try lia; reflexivity. }
  assert (V : x j = - s3 (fun a => s3 (fun b => u v i a * u v j b * gd a b))).
  { assert (W : s3 (fun b => s3 (fun a => x a * g v a b + u v i a * gd a b) * u v b j) = 0).
    { rewrite s3_eq, !Z by lia. ring. }
    assert (Y : s3 (fun a => x a * s3 (fun b => g v a b * u v b j)) = x j).
    { rewrite s3_eq. rewrite !(fun a Ha => proj1 (two_sided_r _ _ TS a j Ha Hj)) by lia.
      destruct j as [|[|[|j]]]; try lia; cbn [Nat.eqb]; ring. }
    rewrite <- Y.
    transitivity (s3 (fun b => s3 (fun a => x a * g v a b + u v i a * gd a b) * u v b j) - s3 (fun a => s3 (fun b => u v i a * u v b j * gd a b))).
    - rewrite !s3_eq. ring.
    - rewrite W. rewrite (s3_ext (fun a => s3 (fun b => u v i a * u v b j * gd a b)) (fun a => s3 (fun b => u v i a * u v j b * gd a b))).
      + ring.
      + intros a Ha. apply s3_ext. intros b Hb. now rewrite (US b j Hb Hj). }
  rewrite <- V. now apply X.
Qed.
(** Jacobi's formula *)
Lemma d_determinant : (forall i j, (i < 3)%nat -> (j < 3)%nat -> gd i j = gd j i) ->
  d_at (fun w => det3 (g w)) l v (det3 (g v) * s3 (fun a => s3 (fun b => u v a b * gd a b))).
Proof using DG I S L.
  intros GS. pose proof (near_here _ _ I) as I0. pose proof (near_here _ _ S) as S0.
  destruct (inv3_spec _ _ _ S0 I0) as (D0 & N & TS). destruct (inv3_form _ _ I0) as [F1 F2]. cbn [fst snd] in F1, F2.
  assert (DD : d_at (fun w => g w 0%nat 0%nat * (g w 1%nat 1%nat * g w 2%nat 2%nat - g w 1%nat 2%nat * g w 2%nat 1%nat)
     - g w 0%nat 1%nat * (g w 1%nat 0%nat * g w 2%nat 2%nat - g w 1%nat 2%nat * g w 2%nat 0%nat)
     + g w 0%nat 2%nat * (g w 1%nat 0%nat * g w 2%nat 1%nat - g w 1%nat 1%nat * g w 2%nat 0%nat)) l v
     (det3 (g v) * s3 (fun a => s3 (fun b => u v a b * gd a b)))).
  { eapply d_eq; [intros; reflexivity| |
      repeat first [apply DG; lia|eapply d_minus|eapply d_plus|eapply d_mult]].
    cbn beta. rewrite <- D0. rewrite F1. rewrite !s3_eq. cbn [symm3_inv].
    rewrite (GS 1%nat 0%nat), (GS 2%nat 0%nat), (GS 2%nat 1%nat) by lia.
    rewrite (S0 1%nat 0%nat), (S0 2%nat 0%nat), (S0 2%nat 1%nat) by lia. field. exact N. }
  eapply d_eq; [|reflexivity|exact DD]. intros w. unfold leibniz. cbn. ring.
Qed.
End Inv.
