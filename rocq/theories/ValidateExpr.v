(** nrpy/validate_expressions/validate_expressions.py: comparison of expressions by their values.
    The numerical evaluation of a sympy expression is a parameter; here is what is done with its results.  Definitions only. *)
From Coq Require Import String List Arith Bool Reals.
From Verif Require Import PyBase PyList.
Import ListNotations.
Local Open Scope R_scope.
Local Open Scope string_scope.

(** mpf and mpc numbers: complex numbers, or nan.  Rounding of the differences and means taken below is not modelled. *)
Inductive num : Type := Cx (re im : R) | NaN.
Definition num0 : num := Cx 0 0.
(** fabs; no value for nan *)
Definition fabs (x : num) : option R := match x with Cx a b => Some (sqrt (a * a + b * b)) | NaN => None end.
Definition nsub (x y : num) : num := match x, y with Cx a b, Cx c d => Cx (a - c) (b - d) | _, _ => NaN end.
Definition navg (x y : num) : num := match x, y with Cx a b, Cx c d => Cx ((a + c) / 2) ((b + d) / 2) | _, _ => NaN end.
(** x > y * t; comparisons with nan are False *)
Definition gt_scaled (x y : option R) (t : R) : bool :=
  match x, y with Some a, Some b => if Rlt_dec (b * t) a then true else false | _, _ => false end.
(** x < t *)
Definition lt_num (x : option R) (t : R) : bool := match x with Some a => if Rlt_dec a t then true else false | None => false end.
Definition is_num0 (x : num) : bool := match x with Cx a b => if Req_EM_T a 0 then (if Req_EM_T b 0 then true else false) else false | NaN => false end.
(** 10 ** (-4.0 / 5.0 * dps) for a multiple of 5 *)
Definition tolerance (dps : nat) : R := / (10 ^ (4 * dps / 5)).
(** l.21 *)
Definition precision : nat := 30%nat.

Section Exprs.
Variable expr : Type.
Variable is_zero : expr -> bool.                     (* expr == sp.sympify(0) *)
(** [ev dps n e]: inject_mpfs_into_cse_expression (l.108-145) with [dps] digits for the n-th choice of values of the free
    symbols.  With fixed_mpfs_for_free_symbols (l.148-176) every choice is the same. *)
Variable ev : nat -> nat -> expr -> num.

(** a value of one of the dictionaries *)
Inductive tval : Type := TExpr (e : expr) | TList (l : list tval) | TOther.

(** flatten_tensor, l.24-37 *)
Fixpoint flatten1 (x : tval) : list tval :=
  match x with
  | TList l => (fix go (l : list tval) : list tval := match l with [] => [] | y :: r => (flatten1 y ++ go r)%list end) l
  | _ => [x]
  end.
Definition flatten_tensor (l : list tval) : list tval := flatten1 (TList l).

(** convert_one_expression_to_mpfmpc, l.179-245; [d1], [d2] are the choices of the values of the free symbols *)
Definition convert_one_expression_to_mpfmpc (d1 d2 : nat) (e : expr) : num :=
  if is_zero e then num0 else
  let result_value := ev precision d1 e in
  if negb (is_num0 result_value) && lt_num (fabs result_value) (tolerance precision) then
    if lt_num (fabs (ev (2 * precision) d2 e)) (tolerance (2 * precision)) then num0 else result_value
  else result_value.

(** check_zero, l.285-320 *)
Definition check_zero (d1 d2 : nat) (e : expr) : bool := is_num0 (convert_one_expression_to_mpfmpc d1 d2 e).

(** process_dictionary_of_expressions, l.248-282, with fixed_mpfs_for_free_symbols=True *)
Definition conv (e : expr) : num := convert_one_expression_to_mpfmpc 0 0 e.
Fixpoint process_list (lhs : string) (element : nat) (l : list tval) (results : dict num) : dict num :=
  match l with
  | [] => results
  | TExpr e :: r => process_list lhs (S element) r (dset (lhs ++ "_" ++ str_of_nat element) (conv e) results)
  | _ :: r => process_list lhs (S element) r results
  end.
Definition process_item (results : dict num) (it : string * tval) : dict num :=
  let (lhs, rhs) := it in
  if py_in "funcform" lhs then results else
  match rhs with
  | TExpr e => dset lhs (conv e) results
  | TList l => process_list lhs 0 (flatten_tensor l) results
  | TOther => results
  end.
Definition process_dictionary_of_expressions (d : dict tval) : dict num :=
  fold_left process_item (py_sorted (fun a b => String.leb (fst a) (fst b)) d) [].

(** assert_equal, l.40-105, for two dictionaries; an expression is the dictionary {"": expression} (l.85-88) *)
Definition differ (x y : num) : bool := gt_scaled (fabs (nsub x y)) (fabs (navg x y)) (tolerance precision).
Definition assert_equal (vardict_1 vardict_2 : dict tval) : py unit :=
  let r1 := process_dictionary_of_expressions vardict_1 in
  let r2 := process_dictionary_of_expressions vardict_2 in
  if existsb (fun ab => differ (snd (fst ab)) (snd (snd ab))) (combine r1 r2) then Err AssertionError else Ok tt.
Definition assert_equal_expr (e1 e2 : expr) : py unit := assert_equal [("", TExpr e1)] [("", TExpr e2)].
End Exprs.

(** compare_against_trusted, l.370-435, for the contents of the trusted file.  mp.dps is [precision], to which
    process_dictionary_of_expressions sets it. *)
Definition mismatch (result trusted : num) : bool := gt_scaled (fabs (nsub result trusted)) (fabs trusted) (tolerance precision).
Fixpoint compare_keys (results : dict num) (trusted : dict num) : py unit :=
  match trusted with
  | [] => Ok tt
  | (key, t) :: r =>
      match dget key results with
      | None => Err KeyError
      | Some x => if mismatch x t then Err ValueError else compare_keys results r
      end
  end.
Definition compare_against_trusted (results trusted : dict num) : py unit :=
  if Nat.eqb (length trusted) (length results) then compare_keys results trusted else Err ValueError.
(** compare_or_generate_trusted_results, l.438-482: the file exists, or is written (output_trusted, l.323-367) *)
Definition compare_or_generate (file : option (dict num)) (results : dict num) : py (dict num) :=
  match file with
  | Some trusted => py_bind (compare_against_trusted results trusted) (fun _ => Ok trusted)
  | None => Ok results
  end.
