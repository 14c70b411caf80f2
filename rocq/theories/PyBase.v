(** Shared vocabulary for the models: Python results (exceptions as values), insertion-ordered
    dictionaries, and the string methods the modelled code uses.  Definitions only. *)
From Coq Require Import String Ascii List ZArith Bool QArith.
Import ListNotations.
Open Scope string_scope.
Set Implicit Arguments.

(** Python exception classes raised by the modelled code. *)
Inductive pyexc : Type :=
| ValueError | TypeError | KeyError | IndexError | RuntimeError | AssertionError
| StopIteration | RecursionError | FileNotFoundError | UnpicklingError
| NonInvertibleMatrixError | AttributeError | NotImplementedError.

(** The outcome of a Python call. *)
Inductive py (A : Type) : Type :=
| Ok (a : A)
| Err (e : pyexc).
Arguments Ok {A} a.
Arguments Err {A} e.

Definition py_bind {A B} (m : py A) (f : A -> py B) : py B :=
  match m with Ok a => f a | Err e => Err e end.

Definition is_ok {A} (m : py A) : bool := match m with Ok _ => true | Err _ => false end.

(** Python values that occur as parameter values. *)
Inductive pyval : Type :=
| VStr (s : string)
| VInt (z : Z)
| VBool (b : bool)
| VFloat (q : Q)
| VList (l : list pyval).

Definition pyval_is_str (v : pyval) (s : string) : bool :=
  match v with VStr t => String.eqb t s | _ => false end.

(** Insertion-ordered dictionaries with string keys. *)
Definition dict (A : Type) : Type := list (string * A).

Fixpoint dget {A} (k : string) (d : dict A) : option A :=
  match d with
  | [] => None
  | (k', v) :: r => if String.eqb k k' then Some v else dget k r
  end.

Definition dmem {A} (k : string) (d : dict A) : bool :=
  match dget k d with Some _ => true | None => false end.

(** [d[k] = v]: overwrite in place, or append a new key at the end. *)
Fixpoint dset {A} (k : string) (v : A) (d : dict A) : dict A :=
  match d with
  | [] => [(k, v)]
  | (k', v') :: r => if String.eqb k k' then (k', v) :: r else (k', v') :: dset k v r
  end.

Definition dkeys {A} (d : dict A) : list string := map fst d.

(** [d.update(e)] *)
Definition dupdate {A} (d e : dict A) : dict A :=
  fold_left (fun acc kv => dset (fst kv) (snd kv) acc) e d.

(** String methods.  [skip] counts characters of a separator already recognised. *)
Fixpoint split_aux (sep s : string) (skip : nat) (acc : string) : list string :=
  match s with
  | EmptyString => [acc]
  | String c s' =>
      match skip with
      | S k => split_aux sep s' k acc
      | O => if prefix sep s
             then acc :: split_aux sep s' (String.length sep - 1) ""
             else split_aux sep s' 0 (acc ++ String c "")
      end
  end.

(** [s.split(sep)] for non-empty [sep]. *)
Definition py_split (sep s : string) : list string := split_aux sep s 0 "".

(** [sub in s] *)
Fixpoint py_in (sub s : string) : bool :=
  prefix sub s || match s with EmptyString => false | String _ s' => py_in sub s' end.

(** [s.replace(old, new)] for non-empty [old]. *)
Definition py_replace (old new s : string) : string := String.concat new (py_split old s).

Definition lower_ascii (c : ascii) : ascii :=
  let n := nat_of_ascii c in
  if (Nat.leb 65 n && Nat.leb n 90)%bool then ascii_of_nat (n + 32) else c.
Definition upper_ascii (c : ascii) : ascii :=
  let n := nat_of_ascii c in
  if (Nat.leb 97 n && Nat.leb n 122)%bool then ascii_of_nat (n - 32) else c.

Fixpoint smap (f : ascii -> ascii) (s : string) : string :=
  match s with EmptyString => EmptyString | String c s' => String (f c) (smap f s') end.

Definition py_lower : string -> string := smap lower_ascii.
Definition py_upper : string -> string := smap upper_ascii.

Definition is_digit (c : ascii) : bool :=
  let n := nat_of_ascii c in (Nat.leb 48 n && Nat.leb n 57)%bool.

(** [s[-1]] *)
Fixpoint last_char (s : string) : option ascii :=
  match s with
  | EmptyString => None
  | String c EmptyString => Some c
  | String _ s' => last_char s'
  end.

Fixpoint str_to_list (s : string) : list ascii :=
  match s with EmptyString => [] | String c s' => c :: str_to_list s' end.
Fixpoint list_to_str (l : list ascii) : string :=
  match l with [] => EmptyString | c :: l' => String c (list_to_str l') end.

(** Decimal text of a number, [str(n)]. *)
Definition digit_ascii (n : nat) : ascii := ascii_of_nat (48 + n).

Fixpoint nat_digits (fuel n : nat) : string :=
  match fuel with
  | O => ""
  | S f => if Nat.ltb n 10 then String (digit_ascii n) ""
           else nat_digits f (Nat.div n 10) ++ String (digit_ascii (Nat.modulo n 10)) ""
  end.
Definition str_of_nat (n : nat) : string := nat_digits (S n) n.
Definition str_of_Z (z : Z) : string :=
  match z with
  | Z0 => "0"
  | Zpos p => str_of_nat (Pos.to_nat p)
  | Zneg p => "-" ++ str_of_nat (Pos.to_nat p)
  end.
