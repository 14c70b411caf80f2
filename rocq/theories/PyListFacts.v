(** Specifications of the shared list helpers. *)
From Coq Require Import List Bool Permutation Sorted Lia Arith.
From Verif Require Import PyList.
Import ListNotations.

Section Uniq.
Context {A : Type} (eqb : A -> A -> bool) (eqb_eq : forall x y, eqb x y = true <-> x = y).

Lemma existsb_eqb : forall x l, existsb (eqb x) l = true <-> In x l.
Proof.
  intros x l. rewrite existsb_exists. split.
  - intros (y & H & E). apply eqb_eq in E. now subst.
  - intros H. exists x. split; auto. now apply eqb_eq.
Qed.

Lemma uniq_from_spec : forall l seen,
  NoDup (uniq_from eqb seen l) /\
  (forall x, In x (uniq_from eqb seen l) <-> In x l /\ ~ In x seen).
Proof.
  induction l as [|x l IH]; intros seen; cbn [uniq_from].
  - split; [constructor|]. intros x; cbn; tauto.
  - destruct (existsb (eqb x) seen) eqn:E.
    + apply existsb_eqb in E. destruct (IH seen) as [N M]. split; auto.
      intros y. rewrite M. cbn. split; [tauto|]. intros [[<-|H] H']; [contradiction|auto].
    + assert (Hx : ~ In x seen) by (intros H; apply existsb_eqb in H; congruence).
      destruct (IH (x :: seen)) as [N M]. split.
      * constructor; auto. rewrite M. cbn. tauto.
      * intros y. cbn. rewrite M. cbn. split.
        -- intros [<-|[H1 H2]]; tauto.
        -- intros [[<-|H1] H2]; [now left|].
           destruct (existsb (eqb y) [x]) eqn:Q.
           ++ apply existsb_eqb in Q. cbn in Q. left. destruct Q as [Q|[]]. exact Q.
           ++ right. split; auto. intros [Q'|Q']; auto. subst y.
              rewrite (proj2 (existsb_eqb x [x])) in Q by (cbn; auto). discriminate.
Qed.

Lemma uniq_from_order : forall l seen l1 x l2, uniq_from eqb seen l = l1 ++ x :: l2 ->
  exists m1 m2, l = m1 ++ x :: m2 /\ ~ In x m1 /\ (forall y, In y l1 <-> In y m1 /\ ~ In y seen).
Proof.
  induction l as [|a l IH]; intros seen l1 x l2 H; cbn [uniq_from] in H; [destruct l1; discriminate|].
  destruct (existsb (eqb a) seen) eqn:E.
  - apply existsb_eqb in E. destruct (IH seen l1 x l2 H) as (m1 & m2 & -> & N & M).
    assert (Hx : ~ In x seen).
    { assert (I : In x (uniq_from eqb seen (m1 ++ x :: m2))) by (rewrite H; apply in_elt).
      apply uniq_from_spec in I. tauto. }
    exists (a :: m1), m2. split; auto. split.
    + intros [->|Q]; auto.
    + intros y. rewrite M. cbn. split; [tauto|]. intros [[->|Q] Q']; tauto.
  - assert (Ha : ~ In a seen) by (intros Q; apply existsb_eqb in Q; congruence).
    destruct l1 as [|b l1]; cbn in H; inversion H; subst.
    + exists [], l. split; auto. split; [auto|]. intros y; cbn; tauto.
    + destruct (IH (b :: seen) l1 x l2 H2) as (m1 & m2 & -> & N & M).
      assert (Hx : ~ In x (b :: seen)).
      { assert (I : In x (uniq_from eqb (b :: seen) (m1 ++ x :: m2))) by (rewrite H2; apply in_elt).
        apply uniq_from_spec in I. tauto. }
      exists (b :: m1), m2. split; auto. split.
      * intros [->|Q]; [apply Hx; cbn; auto|auto].
      * intros y. cbn. rewrite M. cbn. split.
        -- intros [<-|[Q1 Q2]]; tauto.
        -- intros [[<-|Q1] Q2]; [now left|].
           destruct (existsb (eqb y) [b]) eqn:Q.
           ++ apply existsb_eqb in Q. left. destruct Q as [Q|[]]. exact Q.
           ++ right. split; auto. intros [Q'|Q']; auto. subst y.
              rewrite (proj2 (existsb_eqb b [b])) in Q by (cbn; auto). discriminate.
Qed.

(** The result has every element once, in order of first appearance. *)
Lemma superfast_uniq_spec : forall l,
  NoDup (superfast_uniq eqb l) /\
  (forall x, In x (superfast_uniq eqb l) <-> In x l) /\
  (forall l1 x l2, superfast_uniq eqb l = l1 ++ x :: l2 ->
     exists m1 m2, l = m1 ++ x :: m2 /\ ~ In x m1 /\ (forall y, In y l1 <-> In y m1)).
Proof.
  intros l. unfold superfast_uniq. destruct (uniq_from_spec l []) as [N M]. split; auto. split.
  - intros x. rewrite M. cbn. tauto.
  - intros l1 x l2 H. destruct (uniq_from_order l [] l1 x l2 H) as (m1 & m2 & E & N' & M').
    exists m1, m2. split; auto. split; auto. intros y. rewrite M'. cbn. tauto.
Qed.

Lemma uniq_id : forall l, NoDup l -> superfast_uniq eqb l = l.
Proof.
  assert (G : forall l seen, NoDup l -> (forall x, In x l -> ~ In x seen) -> uniq_from eqb seen l = l).
  { induction l as [|x l IH]; intros seen N D; cbn [uniq_from]; auto.
    inversion N; subst. destruct (existsb (eqb x) seen) eqn:E.
    - apply existsb_eqb in E. exfalso. apply (D x); cbn; auto.
    - f_equal. apply IH; auto. intros y Hy [<-|Q]; [contradiction|]. apply (D y); cbn; auto. }
  intros l N. apply G; auto.
Qed.
End Uniq.

Section Sort.
Context {A : Type} (leb : A -> A -> bool)
  (leb_total : forall x y, leb x y = true \/ leb y x = true)
  (leb_trans : forall x y z, leb x y = true -> leb y z = true -> leb x z = true).

Definition lebP (x y : A) : Prop := leb x y = true.

Lemma insert_leb_perm : forall x l, Permutation (x :: l) (insert_leb leb x l).
Proof.
  induction l as [|y l IH]; cbn; auto. destruct (leb y x); auto.
  rewrite perm_swap. now constructor.
Qed.
Lemma insert_leb_sorted : forall x l, StronglySorted lebP l -> StronglySorted lebP (insert_leb leb x l).
Proof.
  induction l as [|y l IH]; intros H; cbn; [repeat constructor|].
  inversion H as [|? ? Hs Hf]; subst. destruct (leb y x) eqn:E.
  - constructor; auto. rewrite <- insert_leb_perm. constructor; auto.
  - assert (Exy : leb x y = true) by (destruct (leb_total x y) as [Q|Q]; congruence).
    constructor; auto. constructor; auto. eapply Forall_impl; [|exact Hf].
    intros z Hz. eapply leb_trans; eauto.
Qed.
Lemma py_sorted_spec : forall l, Permutation l (py_sorted leb l) /\ StronglySorted lebP (py_sorted leb l).
Proof.
  intros l. unfold py_sorted.
  assert (G : forall l acc, StronglySorted lebP acc ->
     Permutation (acc ++ l) (fold_left (fun acc x => insert_leb leb x acc) l acc) /\
     StronglySorted lebP (fold_left (fun acc x => insert_leb leb x acc) l acc)).
  { induction l0 as [|x r IH]; intros acc Ha; cbn [fold_left].
    - rewrite app_nil_r. auto.
    - destruct (IH (insert_leb leb x acc)) as [P S]; [now apply insert_leb_sorted|]. split; auto.
      rewrite <- P. rewrite <- insert_leb_perm. apply Permutation_sym, Permutation_middle. }
  apply (G l []). constructor.
Qed.
Lemma In_py_sorted : forall l x, In x (py_sorted leb l) <-> In x l.
Proof.
  intros l x. destruct (py_sorted_spec l) as [P _].
  split; intros H; [eapply Permutation_in; [apply Permutation_sym|]; eauto|eapply Permutation_in; eauto].
Qed.
Lemma NoDup_py_sorted : forall l, NoDup l -> NoDup (py_sorted leb l).
Proof. intros l H. destruct (py_sorted_spec l) as [P _]. eapply Permutation_NoDup; eauto. Qed.

(** Elements that compare equal keep their order. *)
Lemma insert_leb_filter : forall p x l, (forall y z, p y = true -> p z = true -> leb y z = true) ->
  StronglySorted lebP l ->
  filter p (insert_leb leb x l) = filter p l ++ (if p x then [x] else []).
Proof.
  intros p x l Hp; induction l as [|y l IH]; intros H; cbn; [destruct (p x); reflexivity|].
  inversion H as [|? ? Hs Hf]; subst. destruct (leb y x) eqn:E; cbn.
  - rewrite IH by auto. destruct (p y); reflexivity.
  - destruct (p x) eqn:Px; [|now rewrite app_nil_r].
    assert (N : forall z, In z (y :: l) -> p z = false).
    { intros z Hz. destruct (p z) eqn:Pz; auto. exfalso.
      assert (leb y x = true); [|congruence].
      destruct Hz as [->|Hz]; [now apply Hp|].
      eapply leb_trans; [|apply (Hp z x Pz Px)]. rewrite Forall_forall in Hf. now apply Hf. }
    assert (F : filter p (y :: l) = []).
    { clear -N. induction (y :: l) as [|a r IH]; cbn; auto. rewrite (N a) by (cbn; auto).
      apply IH. intros; apply N; cbn; auto. }
    cbn [filter] in F. rewrite F. reflexivity.
Qed.
Lemma py_sorted_stable : forall p l, (forall y z, p y = true -> p z = true -> leb y z = true) ->
  filter p (py_sorted leb l) = filter p l.
Proof.
  intros p l Hp. unfold py_sorted.
  assert (G : forall l acc, StronglySorted lebP acc ->
     filter p (fold_left (fun acc x => insert_leb leb x acc) l acc) = filter p acc ++ filter p l).
  { induction l0 as [|x r IH]; intros acc Ha; cbn [fold_left].
    - cbn. now rewrite app_nil_r.
    - rewrite IH by now apply insert_leb_sorted. rewrite insert_leb_filter by auto.
      rewrite <- app_assoc. f_equal. cbn. destruct (p x); reflexivity. }
  apply (G l []). constructor.
Qed.
End Sort.

Lemma StronglySorted_NoDup_strict : forall (A : Type) (R S : A -> A -> Prop) l,
  (forall x y, R x y -> x <> y -> S x y) -> NoDup l -> StronglySorted R l -> StronglySorted S l.
Proof.
  intros A R S l H N Hs; induction Hs as [|x l Hs IH Hf]; [constructor|].
  inversion N; subst. constructor; auto. rewrite Forall_forall in *. intros y Hy.
  apply H; auto. intros ->; contradiction.
Qed.
