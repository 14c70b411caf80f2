(** Headline theorems for expression trees (C27).  Nodes are identified by their path from the root;
    [subst p s e] replaces the subexpression at [p], [graft p s t] the node at [p]. *)
From Coq Require Import List Arith Bool Lia Sorted.
From Verif Require Import PyBase ExprTree ExprTreeFacts.
Import ListNotations.

(** Building and reconstructing (evaluate=False) gives the expression back. *)
Theorem C27_round_trip : forall (A F : Type) (e : expr A F), reconstruct App (tree_of e) = Ok e.
Proof.
  intros. rewrite reconstruct_spec.
  replace (tree_of e) with (fresh None e); [apply meaning_fresh|]. destruct e; reflexivity.
Qed.
(** Rebuilding after clearing forgets the old children. *)
Theorem C27_rebuild : forall (A F : Type) (e : expr A F) fn ch,
  reconstruct App (build (Node e fn ch) true) = Ok e.
Proof.
  intros. rewrite reconstruct_spec.
  replace (build (Node e fn ch) true) with (fresh fn e); [apply meaning_fresh|]. destruct e; reflexivity.
Qed.

(** The subexpression at a path. *)
Fixpoint subterm {A F : Type} (p : path) (e : expr A F) : option (expr A F) :=
  match p, e with
  | [], _ => Some e
  | i :: q, App _ l => match nth_error l i with Some x => subterm q x | None => None end
  | _ :: _, Atom _ => None
  end.
Lemma get_fresh : forall (A F : Type) p (e : expr A F) fn, option_map node_expr (get p (fresh fn e)) = subterm p e.
Proof.
  intros A F p; induction p as [|i p IH]; intros e fn.
  - destruct e; reflexivity.
  - destruct e as [a|f l]; cbn [fresh get node_children subterm].
    + destruct i; reflexivity.
    + rewrite nth_error_map. destruct (nth_error l i) as [x|]; [|reflexivity]. cbn. apply IH.
Qed.

(** Traversals of any tree: every node exactly once, parents before (after) children, left to right. *)
Theorem C27_traversals : forall (A F : Type) (t : node A F),
  (forall p, In p (preorder t) <-> get p t <> None) /\ NoDup (preorder t) /\ StronglySorted pre_before (preorder t) /\
  (forall p, In p (postorder t) <-> get p t <> None) /\ NoDup (postorder t) /\ StronglySorted post_before (postorder t) /\
  (forall p i, pre_before p (p ++ [i]) /\ post_before (p ++ [i]) p).
Proof.
  intros A F t. split; [apply in_preorder|]. split; [eapply sorted_nodup; [apply pre_before_irrefl|apply preorder_sorted]|].
  split; [apply preorder_sorted|]. split; [apply in_postorder|].
  split; [eapply sorted_nodup; [apply post_before_irrefl|apply postorder_sorted]|]. split; [apply postorder_sorted|].
  exact parent_before.
Qed.
(** For a freshly built tree the nodes carry exactly the subexpressions. *)
Theorem C27_nodes : forall (A F : Type) (e : expr A F) p, option_map node_expr (get p (tree_of e)) = subterm p e.
Proof. intros. replace (tree_of e) with (fresh None e); [apply get_fresh|]. destruct e; reflexivity. Qed.

(** Editing: replacing the node at a path by a leaf with another expression and reconstructing
    substitutes at that position and nowhere else; repeated edits compose. *)
Theorem C27_edit : forall (A F : Type) (t s : node A F) e x p,
  reconstruct App t = Ok e -> reconstruct App s = Ok x -> get p t <> None ->
  reconstruct App (graft p s t) = Ok (subst p x e).
Proof. intros A F t s e x p. rewrite !reconstruct_spec. intros H1 H2 H3. now apply meaning_graft. Qed.

(** Any edited tree, any way of applying functions: the result is computed from the leaves up, using the
    functions stored at the inner nodes. *)
Theorem C27_edited_tree : forall (A F : Type) (call : F -> list (expr A F) -> expr A F) t,
  reconstruct call t = meaning call t.
Proof. intros. apply reconstruct_spec. Qed.

Inductive fn := Cos | Add | PowF.
Definition ex_e : expr nat fn := App PowF [App Cos [App Add [Atom 10; Atom 11]]; Atom 2].
Example C27_ex :
  map (fun p => option_map node_expr (get p (tree_of ex_e))) (preorder (tree_of ex_e)) =
    map Some [ex_e; App Cos [App Add [Atom 10; Atom 11]]; App Add [Atom 10; Atom 11]; Atom 10; Atom 11; Atom 2] /\
  postorder (tree_of ex_e) = [[0; 0; 0]; [0; 0; 1]; [0; 0]; [0]; [1]; []] /\
  get [0; 0; 1] (tree_of ex_e) <> None /\
  reconstruct App (graft [0; 0; 1] (Node (App Cos [Atom 7]) None []) (tree_of ex_e)) =
    Ok (App PowF [App Cos [App Add [Atom 10; App Cos [Atom 7]]]; Atom 2]).
Proof. vm_compute. repeat split; discriminate. Qed.

(** Not part of the claim: build with clear=False on a node that still has children doubles them. *)
Example C27_build_without_clear :
  reconstruct App (build (tree_of (App Add [Atom 1; Atom 2] : expr nat fn)) false) =
  Ok (App Add [Atom 1; Atom 2; Atom 1; Atom 2]).
Proof. reflexivity. Qed.

Print Assumptions C27_round_trip.
Print Assumptions C27_rebuild.
Print Assumptions C27_traversals.
Print Assumptions C27_nodes.
Print Assumptions C27_edit.
Print Assumptions C27_edited_tree.
