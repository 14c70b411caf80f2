(** Model of nrpy/indexedexp.py: declaration, symmetrisation and zeroing of indexed expressions. *)
From Coq Require Import String Ascii List ZArith Bool.
From Verif Require Import PyBase.
Import ListNotations.
Open Scope string_scope.

(** Slices [s[:n]], [s[n:]] and [s[-2:]]. *)
Definition str_take (n : nat) (s : string) : string := list_to_str (firstn n (str_to_list s)).
Definition str_drop (n : nat) (s : string) : string := list_to_str (skipn n (str_to_list s)).
Definition str_last2 (s : string) : string := str_drop (String.length s - 2) s.

(** A rank-r indexed expression: nested lists become a function of the index list
    (simplification: cubic shape, indices below the dimension). *)
Definition tensor (A : Type) : Type := list nat -> A.

Fixpoint idx_eqb (a b : list nat) : bool :=
  match a, b with
  | [], [] => true
  | x :: a', y :: b' => Nat.eqb x y && idx_eqb a' b'
  | _, _ => false
  end.

(** [indexedexp[i][j]... = v] *)
Definition tset {A} (T : tensor A) (idx : list nat) (v : A) : tensor A :=
  fun i => if idx_eqb i idx then v else T i.

(** [func.product(range(dimension), repeat=rank)]: lexicographic order. *)
Fixpoint product_range (dim rank : nat) : list (list nat) :=
  match rank with
  | O => [[]]
  | S r => flat_map (fun i => map (cons i) (product_range dim r)) (seq 0 dim)
  end.

(** The index list with positions [a] and [b] exchanged. *)
Definition swap_pos (a b : nat) (idx : list nat) : list nat :=
  map (fun k => nth (if Nat.eqb k a then b else if Nat.eqb k b then a else k) idx 0)
      (seq 0 (List.length idx)).

(** An elementary exchange symmetry: antisymmetric?, first and second position. *)
Record symop : Type := MkSym { so_anti : bool; so_a : nat; so_b : nat }.

Section Symm.
Variables (A : Type) (neg : A -> A) (zero : A).

(** Loop body, l.281-287 (rank 2), l.333-348 (rank 3), l.395-425 (rank 4): all branches have this
    shape for their pair of positions. *)
Definition sym_body (o : symop) (T : tensor A) (idx : list nat) : tensor A :=
  let ia := nth (so_a o) idx 0 in
  let ib := nth (so_b o) idx 0 in
  if Nat.ltb ib ia then
    let v := T (swap_pos (so_a o) (so_b o) idx) in
    tset T idx (if so_anti o then neg v else v)
  else if Nat.eqb ia ib && so_anti o then tset T idx zero
  else T.

(** One pass over all index tuples. *)
Definition sym_pass (rank dim : nat) (o : symop) (T : tensor A) : tensor A :=
  fold_left (sym_body o) (product_range dim rank) T.
End Symm.

(** The pair of positions named by [sym[-2:]], l.282, l.334-344, l.396-421. *)
Definition sym_positions (rank : nat) (last2 : string) : option (nat * nat) :=
  if String.eqb last2 "01" then Some (0, 1)
  else if Nat.leb 3 rank && String.eqb last2 "02" then Some (0, 2)
  else if Nat.leb 3 rank && String.eqb last2 "12" then Some (1, 2)
  else if Nat.leb 4 rank && String.eqb last2 "03" then Some (0, 3)
  else if Nat.leb 4 rank && String.eqb last2 "13" then Some (1, 3)
  else if Nat.leb 4 rank && String.eqb last2 "23" then Some (2, 3)
  else None.

(** One entry of the symmetry list: [None] is "nosym". *)
Definition sym_parse (rank : nat) (sym : string) : py (option symop) :=
  match sym_positions rank (str_last2 sym) with
  | Some (a, b) => Ok (Some (MkSym (negb (String.eqb (str_take 3 sym) "sym")) a b))
  | None => if String.eqb sym "nosym" then Ok None else Err ValueError
  end.

(** Expansion of 3- and 4-index options, l.320-328 and l.380-390; rank 2 has none (l.279). *)
Definition sym_expand_one (rank : nat) (sym : string) : list string :=
  let index := if String.eqb (str_take 3 sym) "sym" then 3 else 4 in
  let rest := str_drop index sym in
  let pre := str_take index sym in
  let n := String.length rest in
  if Nat.ltb rank 3 then [sym]
  else if Nat.eqb n 3 || (Nat.eqb rank 4 && Nat.eqb n 4) then
    [pre ++ str_take 2 rest; pre ++ str_take 2 (str_drop 1 rest)] ++
    (if Nat.eqb n 4 then [pre ++ str_take 2 (str_drop 2 rest)] else [])
  else [sym].

Definition sym_expand (rank : nat) (symmetry : string) : list string :=
  flat_map (sym_expand_one rank) (py_split "_" symmetry).

(** The order of the passes: l.329-331, l.391-393
    [symmetry_list[k] for n in range(len, 0, -1) for k in range(n)]; rank 2 once through (l.279). *)
Definition bubble_schedule {X} (l : list X) : list X :=
  flat_map (fun n => firstn n l) (rev (seq 1 (List.length l))).

Definition sym_schedule (rank : nat) (symmetry : string) : list string :=
  if Nat.ltb rank 3 then sym_expand rank symmetry else bubble_schedule (sym_expand rank symmetry).

(** symmetrize_rank2/3/4, l.260-430, for positive dimension (a pass over an empty index range
    would not raise). *)
Fixpoint sym_run {A} (neg : A -> A) (zero : A) (rank dim : nat) (l : list string) (T : tensor A)
  : py (tensor A) :=
  match l with
  | [] => Ok T
  | s :: r => match sym_parse rank s with
              | Err e => Err e
              | Ok None => sym_run neg zero rank dim r T
              | Ok (Some o) => sym_run neg zero rank dim r (sym_pass A neg zero rank dim o T)
              end
  end.

Definition symmetrize {A} (neg : A -> A) (zero : A) (rank dim : nat) (symmetry : string) (T : tensor A)
  : py (tensor A) := sym_run neg zero rank dim (sym_schedule rank symmetry) T.

(** Entries as produced by declare_indexedexp: a symbol, its negative, or zero. *)
Inductive entry : Type := EZero | ESym (minus : bool) (name : string).
Definition eneg (e : entry) : entry :=
  match e with EZero => EZero | ESym m n => ESym (negb m) n end.
(** [str(entry)] *)
Definition str_entry (e : entry) : string :=
  match e with EZero => "0" | ESym false n => n | ESym true n => "-" ++ n end.

(** create_tensor_symbolic, l.29-101 (default naming, cubic shape); an empty or absent base name
    gives zeros. *)
Definition component_name (base : string) (idx : list nat) : string :=
  base ++ String.concat "" (map str_of_nat idx).
Definition create_tensor_symbolic (base : option string) : tensor entry :=
  match base with
  | None => fun _ => EZero
  | Some b => if String.eqb b "" then fun _ => EZero else fun idx => ESym false (component_name b idx)
  end.

Definition is_alpha (c : ascii) : bool :=
  let n := nat_of_ascii c in
  ((Nat.leb 65 n && Nat.leb n 90) || (Nat.leb 97 n && Nat.leb n 122))%bool.

(** valid_symbol, l.218-224 *)
Definition valid_symbol (s : string) : bool :=
  forallb (fun c => is_alpha c || is_digit c || Ascii.eqb c "_" || Ascii.eqb c "-" || Ascii.eqb c ">")
          (str_to_list s).

(** The derivative order found by the scan l.550-560; [ord] is the current value. *)
Fixpoint deriv_scan (s : string) (ord : nat) : py nat :=
  match s with
  | EmptyString => Ok ord
  | String c s' =>
      if prefix "_d" s then
        let rest := str_drop 2 s in
        if py_in "DDD" rest then Err ValueError
        else deriv_scan s' (if py_in "DD" rest then 2 else ord)
      else deriv_scan s' ord
  end.

(** performs_derivative_across_symmetry_axis, l.548-567; the last [ord] characters are tested. *)
Definition performs_deriv (axes s : string) : py bool :=
  if py_in "_d" s then
    match deriv_scan s 1 with
    | Err e => Err e
    | Ok ord => Ok (existsb (fun c => existsb (Ascii.eqb c) (str_to_list axes))
                            (firstn ord (rev (str_to_list s))))
    end
  else Ok false.

(** zero_out_derivatives_across_symmetry_axes, l.503-612, over the index tuples in order. *)
Fixpoint zero_out_loop (axes : string) (l : list (list nat)) (T : tensor entry) : py (tensor entry) :=
  match l with
  | [] => Ok T
  | idx :: r =>
      match performs_deriv axes (str_entry (T idx)) with
      | Err e => Err e
      | Ok b => zero_out_loop axes r (if b then tset T idx EZero else T)
      end
  end.
Definition zero_out (axes : string) (rank dim : nat) (T : tensor entry) : py (tensor entry) :=
  if String.eqb axes "" then Ok T else zero_out_loop axes (product_range dim rank) T.

(** declare_indexedexp, l.104-257: [symmetry = ""] stands for an absent option, [dim <= 0] for an
    absent dimension. *)
Definition eff_dim (dim : Z) : nat := if Z.leb dim 0 then 3 else Z.to_nat dim.

Definition declare_indexedexp (axes : string) (base : option string) (rank : nat) (dim : Z)
  (symmetry : string) : py (tensor entry) :=
  if match base with Some b => negb (valid_symbol b) | None => false end then Err ValueError
  else if negb (Nat.leb 1 rank && Nat.leb rank 4) then Err ValueError
  else
    let d := eff_dim dim in
    let T := create_tensor_symbolic base in
    let symmetrized :=
      if String.eqb symmetry "" then Ok T
      else if negb (prefix "sym" symmetry || prefix "anti" symmetry || prefix "nosym" symmetry)
      then Err ValueError
      else if Nat.eqb rank 1 then
        if String.eqb symmetry "nosym" then Ok T else Err ValueError
      else symmetrize eneg EZero rank d symmetry T in
    match symmetrized with
    | Err e => Err e
    | Ok T' => zero_out axes rank d T'
    end.
