(** Model of nrpy/helpers/expr_tree.py.  A SymPy expression is an atom (no args) or a function applied
    to args; [func( *args, evaluate=False )] builds exactly that application.  With evaluate=True the
    result is SymPy's, a parameter here. *)
From Coq Require Import List Bool.
From Verif Require Import PyBase.
Import ListNotations.
Set Implicit Arguments.

Section Tree.
Variables A F : Type.

Inductive expr : Type := Atom (a : A) | App (f : F) (args : list expr).

(** Node, l.55-83: expr, func (of the parent), children. *)
Inductive node : Type := Node (e : expr) (func : option F) (children : list node).
Definition node_expr (t : node) : expr := match t with Node e _ _ => e end.
Definition node_children (t : node) : list node := match t with Node _ _ c => c end.

(** build, l.95-116: [fresh] is Node(arg, func) followed by build with clear=True. *)
Fixpoint fresh (func : option F) (e : expr) : node :=
  match e with
  | Atom _ => Node e func []
  | App f args => Node e func (map (fresh (Some f)) args)
  end.
Definition build (t : node) (clear : bool) : node :=
  match t with
  | Node e func ch =>
      Node e func ((if clear then [] else ch) ++
        match e with Atom _ => [] | App f args => map (fresh (Some f)) args end)
  end.
(** __init__, l.86-93 *)
Definition tree_of (e : expr) : node := build (Node e None []) true.

(** A node of the tree is identified by its path from the root. *)
Definition path : Type := list nat.
Fixpoint get (p : path) (t : node) : option node :=
  match p with
  | [] => Some t
  | i :: q => match nth_error (node_children t) i with Some c => get q c | None => None end
  end.

(** preorder, l.118-140, and postorder, l.142-164 *)
Fixpoint preorder (t : node) : list path :=
  match t with
  | Node _ _ ch =>
      [] :: (fix go (i : nat) (l : list node) : list path :=
               match l with [] => [] | c :: r => map (cons i) (preorder c) ++ go (S i) r end) 0 ch
  end.
Fixpoint postorder (t : node) : list path :=
  match t with
  | Node _ _ ch =>
      (fix go (i : nat) (l : list node) : list path :=
         match l with [] => [] | c :: r => map (cons i) (postorder c) ++ go (S i) r end) 0 ch ++ [[]]
  end.

(** [l[i] = x] *)
Fixpoint list_set {T : Type} (i : nat) (x : T) (l : list T) : list T :=
  match l, i with
  | [], _ => []
  | _ :: r, O => x :: r
  | y :: r, S j => y :: list_set j x r
  end.
(** [node.expr = e] for the node at path [p] *)
Fixpoint set_expr (p : path) (e : expr) (t : node) : node :=
  match t with
  | Node e0 func ch =>
      match p with
      | [] => Node e func ch
      | i :: q => match nth_error ch i with
                  | Some c => Node e0 func (list_set i (set_expr q e c) ch)
                  | None => t
                  end
      end
  end.

(** [expr.func]; calling the class of an atom with arguments raises. *)
Definition func_of (e : expr) : option F := match e with Atom _ => None | App f _ => Some f end.

(** reconstruct, l.166-184 *)
Definition reconstruct_step (call : F -> list expr -> expr) (t : node) (p : path) : py node :=
  match get p t with
  | None => Ok t
  | Some (Node e _ ch) =>
      match ch with
      | [] => Ok t
      | _ => match func_of e with
             | None => Err TypeError
             | Some f => Ok (set_expr p (call f (map node_expr ch)) t)
             end
      end
  end.
Fixpoint reconstruct_loop (call : F -> list expr -> expr) (ps : list path) (t : node) : py node :=
  match ps with
  | [] => Ok t
  | p :: r => match reconstruct_step call t p with
              | Err e => Err e
              | Ok t' => reconstruct_loop call r t'
              end
  end.
Definition reconstruct (call : F -> list expr -> expr) (t : node) : py expr :=
  match reconstruct_loop call (postorder t) t with
  | Ok t' => Ok (node_expr t')
  | Err e => Err e
  end.
End Tree.
Arguments Atom {A F} a.
Arguments App {A F} f args.
Arguments Node {A F} e func children.
Arguments node_expr {A F} t.
Arguments node_children {A F} t.
