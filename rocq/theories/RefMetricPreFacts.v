(** Proofs about the precomputed form of the reference metric. *)
From Coq Require Import String Ascii List ZArith Bool Arith Lia Reals Lra Permutation.
From Verif Require Import PyBase PyBaseFacts PyList PyListFacts Inverter RefMetric RefMetricReal RefMetricCalc RefMetricFacts RefMetricPre.
Import ListNotations.
Open Scope list_scope.

(** ** Equality up to the automatic treatment of zero and one *)
Inductive sim : ex -> ex -> Prop :=
| s_refl : forall a, sim a a
| s_sym : forall a b, sim a b -> sim b a
| s_trans : forall a b c, sim a b -> sim b c -> sim a c
| s_Add : forall a a' b b', sim a a' -> sim b b' -> sim (Add a b) (Add a' b')
| s_Sub : forall a a' b b', sim a a' -> sim b b' -> sim (Sub a b) (Sub a' b')
| s_Mul : forall a a' b b', sim a a' -> sim b b' -> sim (Mul a b) (Mul a' b')
| s_Div : forall a a' b b', sim a a' -> sim b b' -> sim (Div a b) (Div a' b')
| s_Atan2 : forall a a' b b', sim a a' -> sim b b' -> sim (Atan2 a b) (Atan2 a' b')
| s_Opp : forall a a', sim a a' -> sim (Opp a) (Opp a')
| s_Pow : forall n a a', sim a a' -> sim (Pow a n) (Pow a' n)
| s_Sqrt : forall a a', sim a a' -> sim (Sqrt a) (Sqrt a')
| s_Exp : forall a a', sim a a' -> sim (Exp a) (Exp a')
| s_Sin : forall a a', sim a a' -> sim (Sin a) (Sin a')
| s_Cos : forall a a', sim a a' -> sim (Cos a) (Cos a')
| s_Sinh : forall a a', sim a a' -> sim (Sinh a) (Sinh a')
| s_Cosh : forall a a', sim a a' -> sim (Cosh a) (Cosh a')
| s_Asinh : forall a a', sim a a' -> sim (Asinh a) (Asinh a')
| s_Acos : forall a a', sim a a' -> sim (Acos a) (Acos a')
| s_Sign : forall a a', sim a a' -> sim (Sign a) (Sign a')
| s_0add : forall b, sim (Add (Num 0) b) b
| s_add0 : forall a, sim (Add a (Num 0)) a
| s_sub0 : forall a, sim (Sub a (Num 0)) a
| s_0sub : forall b, sim (Sub (Num 0) b) (Opp b)
| s_0mul : forall b, sim (Mul (Num 0) b) (Num 0)
| s_mul0 : forall a, sim (Mul a (Num 0)) (Num 0)
| s_1mul : forall b, sim (Mul (Num 1) b) b
| s_mul1 : forall a, sim (Mul a (Num 1)) a
| s_0div : forall b, sim (Div (Num 0) b) (Num 0)
| s_div1 : forall a, sim (Div a (Num 1)) a
| s_opp0 : sim (Opp (Num 0)) (Num 0)
| s_pow0 : forall a, sim (Pow a 0) (Num 1)
| s_pow1 : forall a, sim (Pow a 1) a
| s_0pow : forall n, sim (Pow (Num 0) (S n)) (Num 0)
| s_1pow : forall n, sim (Pow (Num 1) n) (Num 1).
#[global] Hint Constructors sim : sim.

Ltac ecases x := destruct x as [[|?p|?p]| | | | | | | | | | | | | | | | | | | |].
Lemma sadd_sim : forall a b, sim (sadd a b) (Add a b).
Proof. intros a b. ecases a; ecases b; cbn; try apply s_refl; apply s_sym; first [apply s_0add | apply s_add0]. Qed.
Lemma ssub_sim : forall a b, sim (ssub a b) (Sub a b).
Proof. intros a b. ecases a; ecases b; cbn; try apply s_refl; apply s_sym; first [apply s_sub0 | apply s_0sub]. Qed.
Lemma sopp_sim : forall a, sim (sopp a) (Opp a).
Proof. intros a. ecases a; cbn; try apply s_refl. apply s_sym, s_opp0. Qed.
Lemma smul_sim : forall a b, sim (smul a b) (Mul a b).
Proof. intros a b. destruct (smul_cases a b) as [->|[[-> ->]|[[-> ->]|[[-> ->]|[-> ->]]]]]; auto with sim. Qed.
Lemma sdiv_sim : forall a b, sim (sdiv a b) (Div a b).
Proof. intros a b. destruct (sdiv_cases a b) as [->|[[-> ->]|[-> ->]]]; auto with sim. Qed.
Lemma spow_sim : forall a n, sim (spow a n) (Pow a n).
Proof.
  intros a [|[|n]]; cbn [spow]; [apply s_sym, s_pow0|apply s_sym, s_pow1|].
  destruct a as [[|p|p]| | | | | | | | | | | | | | | | | | | |]; try apply s_refl; [apply s_sym, s_0pow|].
  destruct p; try apply s_refl. apply s_sym, s_1pow.
Qed.
Lemma c_add : forall a a' b b', sim a a' -> sim b b' -> sim (sadd a b) (sadd a' b').
Proof. intros. eapply s_trans; [apply sadd_sim|]. eapply s_trans; [apply s_Add; eassumption|]. apply s_sym, sadd_sim. Qed.
Lemma c_sub : forall a a' b b', sim a a' -> sim b b' -> sim (ssub a b) (ssub a' b').
Proof. intros. eapply s_trans; [apply ssub_sim|]. eapply s_trans; [apply s_Sub; eassumption|]. apply s_sym, ssub_sim. Qed.
Lemma c_mul : forall a a' b b', sim a a' -> sim b b' -> sim (smul a b) (smul a' b').
Proof. intros. eapply s_trans; [apply smul_sim|]. eapply s_trans; [apply s_Mul; eassumption|]. apply s_sym, smul_sim. Qed.
Lemma c_div : forall a a' b b', sim a a' -> sim b b' -> sim (sdiv a b) (sdiv a' b').
Proof. intros. eapply s_trans; [apply sdiv_sim|]. eapply s_trans; [apply s_Div; eassumption|]. apply s_sym, sdiv_sim. Qed.
Lemma c_opp : forall a a', sim a a' -> sim (sopp a) (sopp a').
Proof. intros. eapply s_trans; [apply sopp_sim|]. eapply s_trans; [apply s_Opp; eassumption|]. apply s_sym, sopp_sim. Qed.
Lemma c_pow : forall a a' n, sim a a' -> sim (spow a n) (spow a' n).
Proof. intros. eapply s_trans; [apply spow_sim|]. eapply s_trans; [apply s_Pow; eassumption|]. apply s_sym, spow_sim. Qed.

(** zero and one under the operations *)
Lemma z_add : forall a b, sim a (Num 0) -> sim b (Num 0) -> sim (sadd a b) (Num 0).
Proof. intros. eapply s_trans; [apply c_add; eassumption|]. apply s_refl. Qed.
Lemma z_sub : forall a b, sim a (Num 0) -> sim b (Num 0) -> sim (ssub a b) (Num 0).
Proof. intros. eapply s_trans; [apply c_sub; eassumption|]. apply s_refl. Qed.
Lemma z_mull : forall a b, sim a (Num 0) -> sim (smul a b) (Num 0).
Proof. intros. eapply s_trans; [apply c_mul; [eassumption|apply s_refl]|]. apply s_refl. Qed.
Lemma z_mulr : forall a b, sim b (Num 0) -> sim (smul a b) (Num 0).
Proof. intros. eapply s_trans; [apply c_mul; [apply s_refl|eassumption]|]. eapply s_trans; [apply smul_sim|]. apply s_mul0. Qed.
Lemma z_div : forall a b, sim a (Num 0) -> sim (sdiv a b) (Num 0).
Proof. intros. eapply s_trans; [apply c_div; [eassumption|apply s_refl]|]. apply s_refl. Qed.
Lemma z_opp : forall a, sim a (Num 0) -> sim (sopp a) (Num 0).
Proof. intros. eapply s_trans; [apply c_opp; eassumption|]. apply s_refl. Qed.
Lemma a_0l : forall a b, sim a (Num 0) -> sim (sadd a b) b.
Proof. intros. eapply s_trans; [apply c_add; [eassumption|apply s_refl]|]. apply s_refl. Qed.
Lemma a_0r : forall a b, sim b (Num 0) -> sim (sadd a b) a.
Proof. intros. eapply s_trans; [apply sadd_sim|]. eapply s_trans; [apply s_Add; [apply s_refl|eassumption]|]. apply s_add0. Qed.
Lemma b_0r : forall a b, sim b (Num 0) -> sim (ssub a b) a.
Proof. intros. eapply s_trans; [apply ssub_sim|]. eapply s_trans; [apply s_Sub; [apply s_refl|eassumption]|]. apply s_sub0. Qed.
Lemma b_0l : forall a b, sim a (Num 0) -> sim (ssub a b) (sopp b).
Proof.
  intros. eapply s_trans; [apply ssub_sim|]. eapply s_trans; [apply s_Sub; [eassumption|apply s_refl]|].
  eapply s_trans; [apply s_0sub|]. apply s_sym, sopp_sim.
Qed.
Lemma m_1l : forall a b, sim a (Num 1) -> sim (smul a b) b.
Proof. intros. eapply s_trans; [apply smul_sim|]. eapply s_trans; [apply s_Mul; [eassumption|apply s_refl]|]. apply s_1mul. Qed.
Lemma m_1r : forall a b, sim b (Num 1) -> sim (smul a b) a.
Proof. intros. eapply s_trans; [apply smul_sim|]. eapply s_trans; [apply s_Mul; [apply s_refl|eassumption]|]. apply s_mul1. Qed.
Lemma d_1r : forall a b, sim b (Num 1) -> sim (sdiv a b) a.
Proof. intros. eapply s_trans; [apply sdiv_sim|]. eapply s_trans; [apply s_Div; [apply s_refl|eassumption]|]. apply s_div1. Qed.

Lemma sim_diff : forall k a b, sim a b -> sim (diff k a) (diff k b).
Proof.
  intros k a b H. induction H; try (cbn [diff]; apply s_refl); try (eapply s_trans; eassumption); try (apply s_sym; assumption);
    cbn [diff]; try (repeat first [assumption | apply s_refl | apply c_add | apply c_sub | apply c_mul | apply c_div | apply c_opp | apply c_pow
       | apply s_Sqrt | apply s_Exp | apply s_Sin | apply s_Cos | apply s_Sinh | apply s_Cosh | apply s_Add | apply s_Sub | apply s_Pow ]; fail).
  all: first
   [ solve [apply a_0l, s_refl] | solve [apply a_0r, s_refl] | solve [apply b_0r, s_refl]
   | solve [eapply s_trans; [apply b_0l, s_refl|]; apply sopp_sim]
   | solve [apply z_add; apply z_mull, s_refl] | solve [apply z_add; apply z_mulr, s_refl]
   | solve [eapply s_trans; [apply a_0l; apply z_mull, s_refl|]; apply m_1l, s_refl]
   | solve [eapply s_trans; [apply a_0r; apply z_mulr, s_refl|]; apply m_1r, s_refl]
   | solve [apply z_div, z_sub; apply z_mull, s_refl]
   | solve [eapply s_trans; [apply d_1r; apply s_refl|]; eapply s_trans; [apply b_0r; apply z_mulr, s_refl|]; apply m_1r, s_refl]
   | solve [apply z_mull, z_mull, s_refl] | solve [cbn [Nat.sub spow]; apply m_1l; apply m_1l, s_refl] | solve [apply z_mulr, s_refl]
   | idtac ].
Qed.
Lemma sim_eval : forall a b, sim a b -> forall v, eval v a = eval v b.
Proof.
  intros a b H v. induction H; cbn [eval]; try congruence; try lra; try (now rewrite IHsim1, IHsim2); try (now rewrite IHsim).
  all: first [solve [unfold Rdiv; ring] | solve [field] | solve [cbn; ring] | solve [apply pow1] | solve [apply Rdiv_1_r] | idtac].
Qed.
Lemma free_sim : forall j e, free_of j e = true -> sim (diff j e) (Num 0).
Proof.
  intros j e. induction e; cbn [free_of diff]; intros H; try apply s_refl;
    try (apply andb_true_iff in H as [H1 H2]; specialize (IHe1 H1); specialize (IHe2 H2)); try (specialize (IHe H));
    try (now repeat first [assumption | apply z_add | apply z_sub | apply z_div | apply z_opp | (apply z_mull; assumption) | (apply z_mulr; assumption)]).
  - apply negb_true_iff in H. rewrite H. apply s_refl.
  - apply negb_true_iff in H. rewrite H. apply s_refl.
Qed.
Lemma fr_add : forall j a b, free_of j a = true -> free_of j b = true -> free_of j (sadd a b) = true.
Proof. intros j a b A B. ecases a; ecases b; cbn in *; try reflexivity; try assumption; try (rewrite ?A, ?B; reflexivity). Qed.
Lemma fr_sub : forall j a b, free_of j a = true -> free_of j b = true -> free_of j (ssub a b) = true.
Proof. intros j a b A B. ecases a; ecases b; cbn in *; try reflexivity; try assumption; try (rewrite ?A, ?B; reflexivity). Qed.
Lemma fr_opp : forall j a, free_of j a = true -> free_of j (sopp a) = true.
Proof. intros j a A. ecases a; exact A. Qed.
Lemma fr_mul : forall j a b, free_of j a = true -> free_of j b = true -> free_of j (smul a b) = true.
Proof. intros j a b A B. destruct (smul_cases a b) as [->|[[-> ->]|[[-> ->]|[[-> ->]|[-> ->]]]]]; cbn; auto. now rewrite A, B. Qed.
Lemma fr_div : forall j a b, free_of j a = true -> free_of j b = true -> free_of j (sdiv a b) = true.
Proof. intros j a b A B. destruct (sdiv_cases a b) as [->|[[-> ->]|[-> ->]]]; cbn; auto. now rewrite A, B. Qed.
Lemma fr_pow : forall j a n, free_of j a = true -> free_of j (spow a n) = true.
Proof.
  intros j a [|[|n]] A; cbn [spow]; auto.
  destruct a as [[|p|p]| | | | | | | | | | | | | | | | | | | |]; auto. destruct p; auto.
Qed.
Lemma free_diff : forall j k e, free_of j e = true -> free_of j (diff k e) = true.
Proof.
  intros j k e. induction e; cbn [free_of diff]; intros H; try reflexivity;
    try (apply andb_true_iff in H as [H1 H2]; specialize (IHe1 H1); specialize (IHe2 H2)); try (specialize (IHe H));
    try (now repeat first [assumption | reflexivity | apply fr_add | apply fr_sub | apply fr_div | apply fr_opp | apply fr_mul | apply fr_pow
      | (cbn [free_of]; rewrite ?H, ?H1, ?H2; reflexivity)]).
  - destruct (Nat.eqb k0 k); reflexivity.
  - destruct (Nat.eqb (var_of f) k); [exact H|reflexivity].
Qed.

(** ** The generic functions replaced by what they stand for *)
Section Inst.
Variable D : nat -> nat -> ex.
Hypothesis D_next : forall f n, sim (diff (var_of f) (D f n)) (D f (S n)).
Hypothesis D_free : forall f n j, j <> var_of f -> sim (diff j (D f n)) (Num 0).
Fixpoint inst (e : ex) : ex :=
  match e with
  | Num z => Num z | Par s => Par s | XX k => XX k | Cart k => Cart k
  | Add a b => Add (inst a) (inst b) | Sub a b => Sub (inst a) (inst b)
  | Mul a b => Mul (inst a) (inst b) | Div a b => Div (inst a) (inst b)
  | Opp a => Opp (inst a) | Pow a n => Pow (inst a) n
  | Sqrt a => Sqrt (inst a) | Exp a => Exp (inst a) | Sin a => Sin (inst a) | Cos a => Cos (inst a)
  | Sinh a => Sinh (inst a) | Cosh a => Cosh (inst a) | Asinh a => Asinh (inst a) | Acos a => Acos (inst a)
  | Atan2 y x => Atan2 (inst y) (inst x) | Sign a => Sign (inst a)
  | Fn f n => D f n
  end.
Lemma sim_inst : forall a b, sim a b -> sim (inst a) (inst b).
Proof. intros a b H. induction H; cbn [inst]; eauto with sim. Qed.
Definition rel (e e' : ex) : Prop := sim (inst e) e'.
Lemma r_add : forall a a' b b', rel a a' -> rel b b' -> rel (sadd a b) (sadd a' b').
Proof. unfold rel. intros. eapply s_trans; [apply sim_inst, sadd_sim|]. eapply s_trans; [apply s_Add; eassumption|]. apply s_sym, sadd_sim. Qed.
Lemma r_sub : forall a a' b b', rel a a' -> rel b b' -> rel (ssub a b) (ssub a' b').
Proof. unfold rel. intros. eapply s_trans; [apply sim_inst, ssub_sim|]. eapply s_trans; [apply s_Sub; eassumption|]. apply s_sym, ssub_sim. Qed.
Lemma r_mul : forall a a' b b', rel a a' -> rel b b' -> rel (smul a b) (smul a' b').
Proof. unfold rel. intros. eapply s_trans; [apply sim_inst, smul_sim|]. eapply s_trans; [apply s_Mul; eassumption|]. apply s_sym, smul_sim. Qed.
Lemma r_div : forall a a' b b', rel a a' -> rel b b' -> rel (sdiv a b) (sdiv a' b').
Proof. unfold rel. intros. eapply s_trans; [apply sim_inst, sdiv_sim|]. eapply s_trans; [apply s_Div; eassumption|]. apply s_sym, sdiv_sim. Qed.
Lemma r_opp : forall a a', rel a a' -> rel (sopp a) (sopp a').
Proof. unfold rel. intros. eapply s_trans; [apply sim_inst, sopp_sim|]. eapply s_trans; [apply s_Opp; eassumption|]. apply s_sym, sopp_sim. Qed.
Lemma r_pow : forall a a' n, rel a a' -> rel (spow a n) (spow a' n).
Proof. unfold rel. intros. eapply s_trans; [apply sim_inst, spow_sim|]. eapply s_trans; [apply s_Pow; eassumption|]. apply s_sym, spow_sim. Qed.
Lemma inst_diff : forall k e, rel (diff k e) (diff k (inst e)).
Proof using D_next D_free.
  intros k e. induction e; cbn [diff inst]; try (apply s_refl);
    try (now repeat first [eassumption | apply r_add | apply r_sub | apply r_mul | apply r_div | apply r_opp | apply r_pow | (unfold rel; cbn [inst]; apply s_refl)]).
  - unfold rel. destruct (Nat.eqb k0 k); apply s_refl.
  - unfold rel. destruct (Nat.eqb_spec (var_of f) k) as [<-|N]; cbn [inst].
    + apply s_sym, D_next.
    + apply s_sym, D_free. auto.
Qed.
Lemma r_diff : forall k e e', rel e e' -> rel (diff k e) (diff k e').
Proof using D_next D_free. intros k e e' H. eapply s_trans; [apply inst_diff|]. now apply sim_diff. Qed.
End Inst.
