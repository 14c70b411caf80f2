(** Evaluating elementary weights in a simpler number representation that is related to the real one. *)
From Coq Require Import String List Bool Arith QArith Qcanon ZArith Lia.
From Verif Require Import PyBase MoL MoLFacts Butcher ButcherFacts ButcherOrder.
Import ListNotations.

Fixpoint tree_ind' (Q : tree -> Prop) (H : forall l, Forall Q l -> Q (Node l)) (t : tree) : Q t :=
  match t with
  | Node l => H l ((fix go l := match l return Forall Q l with
                                | [] => Forall_nil Q
                                | u :: r => Forall_cons u (tree_ind' Q H u) (go r) end) l)
  end.

Section Param.
Variables (K1 K2 : Type).
Variables (O1 I1 : K1) (add1 mul1 : K1 -> K1 -> K1).
Variables (O2 I2 : K2) (add2 mul2 : K2 -> K2 -> K2).
Variable R : K1 -> K2 -> Prop.
Hypothesis RO : R O1 O2.
Hypothesis RI : R I1 I2.
Hypothesis Radd : forall x y x' y', R x x' -> R y y' -> R (add1 x y) (add2 x' y').
Hypothesis Rmul : forall x y x' y', R x x' -> R y y' -> R (mul1 x y) (mul2 x' y').
Lemma R_dotl : forall x x', Forall2 R x x' -> forall y y', Forall2 R y y' ->
  R (dotl K1 O1 add1 mul1 x y) (dotl K2 O2 add2 mul2 x' y').
Proof.
  induction 1 as [|a a' x x' A X IH]; intros y y' Y; [exact RO|]. destruct Y as [|b b' y y' B Y]; [exact RO|].
  cbn. apply Radd; [now apply Rmul|now apply IH].
Qed.
Lemma R_phi : forall A A', Forall2 (Forall2 R) A A' -> forall t,
  Forall2 R (phi K1 O1 I1 add1 mul1 A t) (phi K2 O2 I2 add2 mul2 A' t).
Proof.
  intros A A' HA t. induction t as [l IH] using tree_ind'. cbn [phi].
  assert (V : Forall2 (Forall2 R) (map (phi K1 O1 I1 add1 mul1 A) l) (map (phi K2 O2 I2 add2 mul2 A') l)).
  { induction IH as [|u r U _ IHr]; constructor; assumption. }
  revert V. generalize (map (phi K1 O1 I1 add1 mul1 A) l) (map (phi K2 O2 I2 add2 mul2 A') l). clear IH.
  intros vs vs' V. induction HA as [|row row' A A' RR HA IHA]; [constructor|].
  cbn [map]. constructor; [|exact IHA].
  clear -RR V RO RI Radd Rmul. induction V as [|v v' vs vs' V1 V IHV]; cbn [fold_right]; [exact RI|].
  apply Rmul; [now apply R_dotl|exact IHV].
Qed.
Lemma R_Phi : forall A A' b b' t, Forall2 (Forall2 R) A A' -> Forall2 R b b' ->
  R (Phi K1 O1 I1 add1 mul1 A b t) (Phi K2 O2 I2 add2 mul2 A' b' t).
Proof. intros. apply R_dotl; [assumption|now apply R_phi]. Qed.
Lemma R_knat : forall n, R (knat K1 O1 I1 add1 n) (knat K2 O2 I2 add2 n).
Proof. induction n as [|n IH]; [exact RO|]. cbn. now apply Radd. Qed.
End Param.

(** Pairs of plain fractions. *)
Definition QQ : Type := (Q * Q)%type.
Definition qq_add (x y : QQ) : QQ := (Qred (fst x + fst y), Qred (snd x + snd y)).
Definition qq_mul (x y : QQ) : QQ :=
  (Qred (fst x * fst y + (21 # 1) * (snd x * snd y)), Qred (fst x * snd y + snd x * fst y)).
Definition qq_eqb (x y : QQ) : bool := Qeq_bool (fst x) (fst y) && Qeq_bool (snd x) (snd y).
Definition rel (x : Q21) (y : QQ) : Prop := (this (fst x) == fst y)%Q /\ (this (snd x) == snd y)%Q.
Definition to_qq (x : Q21) : QQ := (this (fst x), this (snd x)).
Lemma rel_to : forall x, rel x (to_qq x).
Proof. intros x. split; reflexivity. Qed.
Lemma rel_add : forall x y x' y', rel x x' -> rel y y' -> rel (q21_add x y) (qq_add x' y').
Proof.
  intros x y x' y' [A B] [C D]. split; cbn [q21_add qq_add fst snd Qcplus Q2Qc this]; rewrite !Qred_correct;
    [rewrite A, C|rewrite B, D]; reflexivity.
Qed.
Lemma rel_mul : forall x y x' y', rel x x' -> rel y y' -> rel (q21_mul x y) (qq_mul x' y').
Proof.
  intros x y x' y' [A B] [C D]. split; cbn [q21_mul qq_mul fst snd Qcplus Qcmult Q2Qc this c21]; rewrite !Qred_correct;
    rewrite ?A, ?B, ?C, ?D; reflexivity.
Qed.
Lemma rel_eqb : forall x y x' y', rel x x' -> rel y y' -> qq_eqb x' y' = true -> x = y.
Proof.
  intros [x1 x2] [y1 y2] x' y' [A B] [C D] H. unfold qq_eqb in H. apply andb_true_iff in H as [H1 H2].
  apply Qeq_bool_iff in H1, H2. cbn [fst snd] in *. f_equal; apply Qc_is_canon; [rewrite A, C|rewrite B, D]; assumption.
Qed.
Lemma Forall2_map_r : forall (A B : Type) (S : A -> B -> Prop) (f : A -> B) l, (forall x, S x (f x)) -> Forall2 S l (map f l).
Proof. intros A B S f l H. induction l; constructor; auto. Qed.
Definition qq1 : QQ := (1%Q, 0%Q).
Definition qq0 : QQ := (0%Q, 0%Q).
Definition order_qq (A : list (list QQ)) (b : list QQ) (p : nat) : bool :=
  forallb (fun t => qq_eqb (qq_mul (Phi QQ qq0 qq1 qq_add qq_mul A b t) (Z.of_nat (gamma t) # 1, 0%Q)) qq1) (trees_upto p).
Lemma rel_nat : forall n, rel (knat Q21 q21_0 q21_1 q21_add n) (Z.of_nat n # 1, 0%Q).
Proof.
  induction n as [|n [A B]]; [split; reflexivity|]. cbn [knat].
  split; cbn [q21_add fst snd Qcplus Q2Qc this q21_1] in *; rewrite !Qred_correct; rewrite ?A, ?B.
  - rewrite Nat2Z.inj_succ. unfold Qeq. cbn [Qplus Qnum Qden]. lia.
  - reflexivity.
Qed.
Lemma order_qq_ok : forall A b p, order_qq (map (map to_qq) A) (map to_qq b) p = true ->
  has_order Q21 q21_0 q21_1 q21_add q21_mul A b p.
Proof.
  intros A b p H t L. unfold order_qq in H. rewrite forallb_forall in H. specialize (H t (trees_upto_complete p t L)).
  refine (rel_eqb _ _ _ _ _ _ H).
  - apply rel_mul; [|apply rel_nat].
    apply (R_Phi Q21 QQ q21_0 q21_1 q21_add q21_mul qq0 qq1 qq_add qq_mul rel).
    + split; reflexivity.
    + split; reflexivity.
    + intros; now apply rel_add.
    + intros; now apply rel_mul.
    + apply Forall2_map_r. intros. apply Forall2_map_r. apply rel_to.
    + apply Forall2_map_r. apply rel_to.
  - split; reflexivity.
Qed.
