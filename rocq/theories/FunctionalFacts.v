(** Specification and proofs for Functional.v. *)
From Coq Require Import List Arith ZArith Bool Lia Sorted Permutation.
From Verif Require Import PyBase PyList PyListFacts Functional.
Import ListNotations.

Lemma pipe_spec : forall (A : Type) (f : list (A -> A)) d x,
  pipe d x f = if length f <? d then Ok (fold_left (fun v g => g v) f x) else Err RecursionError.
Proof.
  induction f as [|g f IH]; intros [|d] x; cbn [pipe length fold_left]; auto.
  rewrite IH. reflexivity.
Qed.

Lemma repeat_ok : forall (A : Type) (f : A -> A) n d x, n < d ->
  repeat_py d f x (Z.of_nat n) = Ok (Nat.iter n f x).
Proof.
  induction n as [|n IH]; intros d x H; destruct d as [|d]; try lia; cbn [repeat_py].
  - reflexivity.
  - destruct (Z.eqb_spec (Z.of_nat (S n)) 0); [lia|].
    replace (Z.of_nat (S n) - 1)%Z with (Z.of_nat n) by lia. rewrite IH by lia. f_equal.
    clear. induction n as [|n IHn]; [reflexivity|]. cbn [Nat.iter nat_rect] in *. unfold Nat.iter in *. cbn. now rewrite IHn.
Qed.
Lemma repeat_err : forall (A : Type) (f : A -> A) d x n, (n < 0 \/ Z.of_nat d <= n)%Z ->
  repeat_py d f x n = Err RecursionError.
Proof.
  induction d as [|d IH]; intros x n H; cbn [repeat_py]; auto.
  destruct (Z.eqb_spec n 0); [lia|]. apply IH. lia.
Qed.

Lemma reduce_loop_fold : forall (A B : Type) (f : B -> A -> B) l r, reduce_loop f l r = fold_left f l r.
Proof. induction l; intros; cbn; auto. Qed.

(** uniquify computes the same list as superfast_uniq. *)
Section Uniq.
Context {A : Type} (eqb : A -> A -> bool) (eqb_eq : forall x y, eqb x y = true <-> x = y).
Lemma uniquify_from : forall l acc seen, (forall x, In x acc <-> In x seen) ->
  reduce_loop (fun acc x => if existsb (eqb x) acc then acc else acc ++ [x]) l acc = acc ++ uniq_from eqb seen l.
Proof.
  induction l as [|x l IH]; intros acc seen H; cbn [reduce_loop uniq_from].
  - now rewrite app_nil_r.
  - replace (existsb (eqb x) seen) with (existsb (eqb x) acc).
    2:{ apply Bool.eq_true_iff_eq. rewrite !(existsb_eqb eqb eqb_eq). apply H. }
    destruct (existsb (eqb x) acc).
    + now apply IH.
    + rewrite (IH _ (x :: seen)).
      * rewrite <- app_assoc. reflexivity.
      * intros y. rewrite in_app_iff, H. cbn. tauto.
Qed.
Lemma uniquify_superfast : forall l, uniquify eqb l = superfast_uniq eqb l.
Proof. intros l. unfold uniquify, reduce_init, superfast_uniq. apply (uniquify_from l [] []). tauto. Qed.
End Uniq.

(** Textbook Cartesian product, last factor fastest. *)
Fixpoint cart {A : Type} (ls : list (list A)) : list (list A) :=
  match ls with [] => [[]] | l :: r => flat_map (fun x => map (cons x) (cart r)) l end.

Lemma in_cart : forall (A : Type) (ls : list (list A)) t, In t (cart ls) <-> Forall2 (@In A) t ls.
Proof.
  induction ls as [|l ls IH]; intros t; cbn.
  - split; [intros [<-|[]]; constructor|intros H; inversion H; auto].
  - rewrite in_flat_map. split.
    + intros (x & Hx & H). apply in_map_iff in H. destruct H as (u & <- & Hu). constructor; auto. now apply IH.
    + intros H. inversion H; subst. exists x. split; auto. apply in_map. now apply IH.
Qed.
Lemma length_cart : forall (A : Type) (ls : list (list A)),
  length (cart ls) = fold_right (fun l n => length l * n) 1 ls.
Proof.
  induction ls as [|l ls IH]; cbn; auto. rewrite <- IH. clear IH.
  induction l as [|x l IHl]; cbn; auto. rewrite app_length, map_length. lia.
Qed.

(** Lexicographic order on tuples. *)
Inductive lex {A : Type} (R : A -> A -> Prop) : list A -> list A -> Prop :=
| lex_head : forall x y s t, R x y -> lex R (x :: s) (y :: t)
| lex_tail : forall x s t, lex R s t -> lex R (x :: s) (x :: t).

Lemma StronglySorted_app : forall (A : Type) (R : A -> A -> Prop) a b,
  StronglySorted R a -> StronglySorted R b -> (forall x y, In x a -> In y b -> R x y) -> StronglySorted R (a ++ b).
Proof.
  induction a as [|x a IH]; intros b Ha Hb H; cbn; auto. inversion Ha; subst. constructor.
  - apply IH; auto. intros; apply H; cbn; auto.
  - apply Forall_app. split; auto. apply Forall_forall. intros; apply H; cbn; auto.
Qed.
Lemma StronglySorted_map : forall (A B : Type) (R : A -> A -> Prop) (S : B -> B -> Prop) (f : A -> B) l,
  (forall x y, R x y -> S (f x) (f y)) -> StronglySorted R l -> StronglySorted S (map f l).
Proof.
  intros A B R S f l H Hl. induction Hl as [|x l Hl IH F]; cbn; constructor; auto.
  rewrite Forall_map. eapply Forall_impl; [|exact F]. intros; auto.
Qed.

Lemma cart_sorted : forall (A : Type) (R : A -> A -> Prop) ls,
  Forall (StronglySorted R) ls -> StronglySorted (lex R) (cart ls).
Proof.
  intros A R ls; induction ls as [|l ls IH]; intros H; cbn.
  - repeat constructor.
  - inversion H as [|? ? Hl Hls]; subst. specialize (IH Hls).
    induction Hl as [|x l Hl IHl F]; cbn; [constructor|]. apply StronglySorted_app.
    + eapply StronglySorted_map; [|exact IH]. intros; now apply lex_tail.
    + apply IHl. constructor; auto.
    + intros s t Hs Ht. apply in_map_iff in Hs. destruct Hs as (u & <- & _). apply in_flat_map in Ht.
      destruct Ht as (y & Hy & Ht). apply in_map_iff in Ht. destruct Ht as (v & <- & _).
      apply lex_head. rewrite Forall_forall in F. now apply F.
Qed.

(** product on non-nested elements *)
Definition leaves {A : Type} (l : list A) : list (val A) := map Leaf l.
Definition tuple_val {A : Type} (t : list A) : val A := Node (leaves t).

Lemma chain_leaves : forall (A : Type) (t : list A), chain (leaves t) = leaves t.
Proof. induction t as [|a t IH]; [reflexivity|]. cbn. f_equal. exact IH. Qed.

Lemma product_f_step : forall (A : Type) (ts : list (list A)) l,
  product_f (map tuple_val ts) (leaves l) = map tuple_val (flat_map (fun t => map (fun x => t ++ [x]) l) ts).
Proof.
  intros A ts l. unfold product_f.
  induction ts as [|t ts IH]; cbn [map flat_map]; auto. rewrite map_app, IH. f_equal.
  unfold leaves. rewrite !map_map. apply map_ext. intros x. unfold tuple_val. f_equal.
  cbn. unfold leaves. rewrite map_app. reflexivity.
Qed.
Lemma product_f_first : forall (A : Type) (l0 l1 : list A),
  product_f (leaves l0) (leaves l1) = map tuple_val (flat_map (fun x => map (fun y => [x; y]) l1) l0).
Proof.
  intros A l0 l1. unfold product_f, leaves.
  induction l0 as [|x l0 IH]; cbn [map flat_map]; auto. rewrite map_app, IH. f_equal. rewrite !map_map. reflexivity.
Qed.

Lemma flat_map_flat_map : forall (A B C : Type) (f : A -> list B) (g : B -> list C) l,
  flat_map g (flat_map f l) = flat_map (fun x => flat_map g (f x)) l.
Proof. induction l as [|x l IH]; cbn; auto. rewrite flat_map_app, IH. reflexivity. Qed.
Lemma flat_map_map : forall (A B C : Type) (f : A -> B) (g : B -> list C) l,
  flat_map g (map f l) = flat_map (fun x => g (f x)) l.
Proof. induction l as [|x l IH]; cbn; auto. now rewrite IH. Qed.
Lemma map_flat_map : forall (A B C : Type) (f : A -> list B) (g : B -> C) l,
  map g (flat_map f l) = flat_map (fun x => map g (f x)) l.
Proof. induction l as [|x l IH]; cbn; auto. now rewrite map_app, IH. Qed.

Lemma product_loop : forall (A : Type) (ls : list (list A)) ts,
  reduce_loop product_f (map leaves ls) (map tuple_val ts) =
  map tuple_val (flat_map (fun t => map (app t) (cart ls)) ts).
Proof.
  intros A ls; induction ls as [|l ls IH]; intros ts; cbn [map reduce_loop cart].
  - f_equal. induction ts as [|t ts IHt]; cbn; auto. rewrite app_nil_r. congruence.
  - rewrite product_f_step, IH. f_equal. rewrite flat_map_flat_map. apply flat_map_ext. intros t.
    rewrite flat_map_map, map_flat_map. apply flat_map_ext. intros x. rewrite map_map. apply map_ext.
    intros u. now rewrite <- app_assoc.
Qed.
Lemma as_tuples_map : forall (A : Type) (ts : list (list A)), as_tuples (map tuple_val ts) = Ok (map leaves ts).
Proof. induction ts as [|t ts IH]; cbn; auto. rewrite IH. reflexivity. Qed.

Lemma reduce_product : forall (A : Type) (ls : list (list A)), 2 <= length ls ->
  reduce product_f (map leaves ls) = Ok (map tuple_val (cart ls)).
Proof.
  intros A [|l0 [|l1 ls]] H; cbn in H; try lia. cbn [map reduce reduce_loop].
  rewrite product_f_first, product_loop. f_equal. f_equal. rewrite flat_map_flat_map.
  cbn [cart]. apply flat_map_ext. intros x. rewrite flat_map_map, map_flat_map.
  apply flat_map_ext. intros y. rewrite map_map. reflexivity.
Qed.

Lemma product_spec : forall (A : Type) (ls : list (list A)), 2 <= length ls ->
  product (map leaves ls) None = Ok (map leaves (cart ls)).
Proof. intros A ls H. unfold product. rewrite reduce_product by auto. apply as_tuples_map. Qed.

Lemma product_repeat_spec : forall (A : Type) (l : list A) n, (1 < n)%Z ->
  product [leaves l] (Some n) = Ok (map leaves (cart (List.repeat l (Z.to_nat n)))).
Proof.
  intros A l n H. unfold product. destruct (Z.ltb_spec 1 n); [|lia]. cbn [length Nat.eqb andb].
  assert (E : concat (List.repeat [leaves l] (Z.to_nat n)) = map leaves (List.repeat l (Z.to_nat n))).
  { induction (Z.to_nat n) as [|m IH]; cbn; auto. now rewrite IH. }
  rewrite E, reduce_product by (rewrite repeat_length; lia). apply as_tuples_map.
Qed.
