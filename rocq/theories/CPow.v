(** Model of nrpy/helpers/custom_c_codegen_functions.py: the C text chosen for [base**exponent] and
    [nrpyAbs].  Definitions only.

    SymPy calls these tables from [CodePrinter._print_Function]: the conditions are evaluated on the
    exponent in list order, and the first one that holds decides; a lambda is applied to the printed
    arguments, a plain name [f] is printed as [f(base, exponent)].  Simplification: exponents that are
    numbers are rationals compared by value (so the separate tests for [Rational(1,2)] and [0.5] agree),
    every other exponent is [ESym] and equals no number. *)
From Coq Require Import String List ZArith Bool QArith.
From Verif Require Import PyBase.
Import ListNotations.
Open Scope string_scope.

(** The keys "double", "float", "long double" (custom_c_codegen_functions.py:17, 48, 73). *)
Inductive fptype : Type := FpDouble | FpFloat | FpLongDouble.

Inductive expo : Type := ENum (q : Q) | ESym.

Definition expo_is (q : Q) (e : expo) : bool :=
  match e with ENum r => Qeq_bool r q | ESym => false end.

(** One row of the table: the exponent tested for, and the lambda building the text. *)
Definition row : Type := (Q * (string -> string))%type.

(** custom_c_codegen_functions.py:20-43 *)
Definition pow_rows_double : list row :=
  [ ((1 # 2)%Q, fun b => "sqrt(" ++ b ++ ")");
    ((1 # 2)%Q, fun b => "sqrt(" ++ b ++ ")");
    (((-1) # 2)%Q, fun b => "(1.0/sqrt(" ++ b ++ "))");
    (((-1) # 2)%Q, fun b => "(1.0/sqrt(" ++ b ++ "))");
    ((1 # 3)%Q, fun b => "cbrt(" ++ b ++ ")");
    (((-1) # 3)%Q, fun b => "(1.0/cbrt(" ++ b ++ "))");
    ((1 # 6)%Q, fun b => "(sqrt(cbrt(" ++ b ++ ")))");
    (((-1) # 6)%Q, fun b => "(1.0/(sqrt(cbrt(" ++ b ++ "))))");
    (2%Q, fun b => "((" ++ b ++ ")*(" ++ b ++ "))");
    (3%Q, fun b => "((" ++ b ++ ")*(" ++ b ++ ")*(" ++ b ++ "))");
    (4%Q, fun b => "((" ++ b ++ ")*(" ++ b ++ ")*(" ++ b ++ ")*(" ++ b ++ "))");
    (5%Q, fun b => "((" ++ b ++ ")*(" ++ b ++ ")*(" ++ b ++ ")*(" ++ b ++ ")*(" ++ b ++ "))");
    ((-1)%Q, fun b => "(1.0/(" ++ b ++ "))");
    ((-2)%Q, fun b => "(1.0/((" ++ b ++ ")*(" ++ b ++ ")))");
    ((-3)%Q, fun b => "(1.0/((" ++ b ++ ")*(" ++ b ++ ")*(" ++ b ++ ")))");
    ((-4)%Q, fun b => "(1.0/((" ++ b ++ ")*(" ++ b ++ ")*(" ++ b ++ ")*(" ++ b ++ ")))");
    ((-5)%Q, fun b => "(1.0/((" ++ b ++ ")*(" ++ b ++ ")*(" ++ b ++ ")*(" ++ b ++ ")*(" ++ b ++ ")))") ].

(** custom_c_codegen_functions.py:49-69 *)
Definition pow_rows_float : list row :=
  [ ((1 # 2)%Q, fun b => "sqrtf(" ++ b ++ ")");
    ((1 # 2)%Q, fun b => "sqrtf(" ++ b ++ ")");
    (((-1) # 2)%Q, fun b => "(1.0f/sqrtf(" ++ b ++ "))");
    (((-1) # 2)%Q, fun b => "(1.0f/sqrtf(" ++ b ++ "))");
    ((1 # 3)%Q, fun b => "cbrtf(" ++ b ++ ")");
    (((-1) # 3)%Q, fun b => "(1.0f/cbrtf(" ++ b ++ "))");
    (2%Q, fun b => "((" ++ b ++ ")*(" ++ b ++ "))");
    (3%Q, fun b => "((" ++ b ++ ")*(" ++ b ++ ")*(" ++ b ++ "))");
    (4%Q, fun b => "((" ++ b ++ ")*(" ++ b ++ ")*(" ++ b ++ ")*(" ++ b ++ "))");
    (5%Q, fun b => "((" ++ b ++ ")*(" ++ b ++ ")*(" ++ b ++ ")*(" ++ b ++ ")*(" ++ b ++ "))");
    ((-1)%Q, fun b => "(1.0f/(" ++ b ++ "))");
    ((-2)%Q, fun b => "(1.0f/((" ++ b ++ ")*(" ++ b ++ ")))");
    ((-3)%Q, fun b => "(1.0f/((" ++ b ++ ")*(" ++ b ++ ")*(" ++ b ++ ")))");
    ((-4)%Q, fun b => "(1.0f/((" ++ b ++ ")*(" ++ b ++ ")*(" ++ b ++ ")*(" ++ b ++ ")))");
    ((-5)%Q, fun b => "(1.0f/((" ++ b ++ ")*(" ++ b ++ ")*(" ++ b ++ ")*(" ++ b ++ ")*(" ++ b ++ ")))") ].

(** custom_c_codegen_functions.py:74-94 *)
Definition pow_rows_long_double : list row :=
  [ ((1 # 2)%Q, fun b => "sqrtl(" ++ b ++ ")");
    ((1 # 2)%Q, fun b => "sqrtl(" ++ b ++ ")");
    (((-1) # 2)%Q, fun b => "(1.0l/sqrtl(" ++ b ++ "))");
    (((-1) # 2)%Q, fun b => "(1.0l/sqrtl(" ++ b ++ "))");
    ((1 # 3)%Q, fun b => "cbrtl(" ++ b ++ ")");
    (((-1) # 3)%Q, fun b => "(1.0l/cbrtl(" ++ b ++ "))");
    (2%Q, fun b => "((" ++ b ++ ")*(" ++ b ++ "))");
    (3%Q, fun b => "((" ++ b ++ ")*(" ++ b ++ ")*(" ++ b ++ "))");
    (4%Q, fun b => "((" ++ b ++ ")*(" ++ b ++ ")*(" ++ b ++ ")*(" ++ b ++ "))");
    (5%Q, fun b => "((" ++ b ++ ")*(" ++ b ++ ")*(" ++ b ++ ")*(" ++ b ++ ")*(" ++ b ++ "))");
    ((-1)%Q, fun b => "(1.0l/(" ++ b ++ "))");
    ((-2)%Q, fun b => "(1.0l/((" ++ b ++ ")*(" ++ b ++ ")))");
    ((-3)%Q, fun b => "(1.0l/((" ++ b ++ ")*(" ++ b ++ ")*(" ++ b ++ ")))");
    ((-4)%Q, fun b => "(1.0l/((" ++ b ++ ")*(" ++ b ++ ")*(" ++ b ++ ")*(" ++ b ++ ")))");
    ((-5)%Q, fun b => "(1.0l/((" ++ b ++ ")*(" ++ b ++ ")*(" ++ b ++ ")*(" ++ b ++ ")*(" ++ b ++ ")))") ].

Definition pow_rows (fp : fptype) : list row :=
  match fp with
  | FpDouble => pow_rows_double | FpFloat => pow_rows_float | FpLongDouble => pow_rows_long_double
  end.

(** The last row: [(lambda b, e: e != -5, "pow")] (custom_c_codegen_functions.py:44, 70, 95). *)
Definition pow_name (fp : fptype) : string :=
  match fp with FpDouble => "pow" | FpFloat => "powf" | FpLongDouble => "powl" end.

(** The "nrpyAbs" entry (custom_c_codegen_functions.py:18, 49, 74). *)
Definition abs_name (fp : fptype) : string :=
  match fp with FpDouble => "fabs" | FpFloat => "fabsf" | FpLongDouble => "fabsl" end.

Fixpoint first_row (rows : list row) (e : expo) : option (string -> string) :=
  match rows with
  | [] => None
  | (q, f) :: r => if expo_is q e then Some f else first_row r e
  end.

(** The text of [Pow(base, e)], where [b] is the printed base and [et] the printed exponent. *)
Definition pow_text (fp : fptype) (b : string) (e : expo) (et : string) : string :=
  match first_row (pow_rows fp) e with
  | Some f => f b
  | None => pow_name fp ++ "(" ++ b ++ ", " ++ et ++ ")"
  end.

(** The text of [nrpyAbs(arg)]. *)
Definition abs_text (fp : fptype) (b : string) : string := abs_name fp ++ "(" ++ b ++ ")".
