(** Python list helpers shared by several models.  Definitions only. *)
From Coq Require Import List Bool.
Import ListNotations.

Section Lists.
Context {A : Type}.

(** superfast_uniq, nrpy/helpers/generic.py l.21-32: the [seen] set and the comprehension. *)
Fixpoint uniq_from (eqb : A -> A -> bool) (seen : list A) (l : list A) : list A :=
  match l with
  | [] => []
  | x :: r => if existsb (eqb x) seen then uniq_from eqb seen r else x :: uniq_from eqb (x :: seen) r
  end.
Definition superfast_uniq (eqb : A -> A -> bool) (l : list A) : list A := uniq_from eqb [] l.

(** Python's stable [sorted]: insertion before the first strictly larger element. *)
Fixpoint insert_leb (leb : A -> A -> bool) (x : A) (l : list A) : list A :=
  match l with
  | [] => [x]
  | y :: r => if leb y x then y :: insert_leb leb x r else x :: l
  end.
Definition py_sorted (leb : A -> A -> bool) (l : list A) : list A :=
  fold_left (fun acc x => insert_leb leb x acc) l [].
End Lists.
