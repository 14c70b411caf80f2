(** Model of nrpy/helpers/functional.py.  Generators are the lists they yield; an exception while a
    generator runs is the exception of list(generator). *)
From Coq Require Import List ZArith Bool.
From Verif Require Import PyBase.
Import ListNotations.
Set Implicit Arguments.

(** pipe, l.12-28; [depth] is the remaining recursion depth of the interpreter. *)
Fixpoint pipe {A} (depth : nat) (x : A) (f : list (A -> A)) : py A :=
  match depth with
  | O => Err RecursionError
  | S d => match f with [] => Ok x | g :: r => pipe d (g x) r end
  end.

(** repeat, l.31-46 *)
Fixpoint repeat_py {A} (depth : nat) (f : A -> A) (x : A) (n : Z) : py A :=
  match depth with
  | O => Err RecursionError
  | S d => if Z.eqb n 0 then Ok x else repeat_py d f (f x) (n - 1)
  end.

(** Python values as chain/flatten see them: a non-iterable, or an iterable of values. *)
Inductive val (A : Type) : Type := Leaf (a : A) | Node (l : list (val A)).
Arguments Leaf {A} a.
Arguments Node {A} l.

(** chain, l.49-65: [iter(x)] fails exactly on a non-iterable. *)
Definition chain1 {A} (v : val A) : list (val A) := match v with Leaf _ => [v] | Node l => l end.
Fixpoint chain {A} (args : list (val A)) : list (val A) :=
  match args with [] => [] | v :: r => chain1 v ++ chain r end.
(** flatten, l.68-79: chain( *iterable ). *)
Definition flatten {A} (iterable : list (val A)) : list (val A) := chain iterable.

(** reduce, l.82-108 *)
Fixpoint reduce_loop {A B} (f : B -> A -> B) (l : list A) (result : B) : B :=
  match l with [] => result | x :: r => reduce_loop f r (f result x) end.
Definition reduce_init {A B} (f : B -> A -> B) (l : list A) (init : B) : B := reduce_loop f l init.
Definition reduce {A} (f : A -> A -> A) (l : list A) : py A :=
  match l with [] => Err StopIteration | x :: r => Ok (reduce_loop f r x) end.

(** uniquify, l.111-122; [eqb] is Python's ==. *)
Definition uniquify {A} (eqb : A -> A -> bool) (l : list A) : list A :=
  reduce_init (fun acc x => if existsb (eqb x) acc then acc else acc ++ [x]) l [].

(** product, l.125-156.  An exhausted [next] inside a generator is a RuntimeError. *)
Definition product_f {A} (X Y : list (val A)) : list (val A) :=
  flat_map (fun x => map (fun y => Node (flatten ([x] ++ [y]))) Y) X.
(** [tuple(prod)] for every yielded [prod] *)
Fixpoint as_tuples {A} (l : list (val A)) : py (list (list (val A))) :=
  match l with
  | [] => Ok []
  | Leaf _ :: _ => Err TypeError
  | Node t :: r => match as_tuples r with Ok ts => Ok (t :: ts) | Err e => Err e end
  end.
Definition product {A} (iterable : list (list (val A))) (rep : option Z) : py (list (list (val A))) :=
  let iterable' :=
    match rep with
    | Some n => if (Z.ltb 1 n && Nat.eqb (length iterable) 1)%bool
                then concat (List.repeat iterable (Z.to_nat n)) else iterable
    | None => iterable
    end in
  match reduce product_f iterable' with
  | Err _ => Err RuntimeError
  | Ok l => as_tuples l
  end.
