(** Model of nrpy/equations/general_relativity/g4munu_conversions.py: the 4-metric from the lapse, the shift and the 3-metric,
    and back.  Simplification, as in Inverter.v: SymPy expressions are replaced by values of a field, so cached_simplify (l.180)
    is the identity and the call without an argument (l.150-152) is the call with arbitrary symmetric values. *)
From Coq Require Import List ZArith Bool.
From Verif Require Import PyBase Inverter.
Import ListNotations.

Section Metric.
Variables (F : Type) (fO fI : F) (fadd fmul fsub fdiv : F -> F -> F) (fopp : F -> F) (feqb : F -> F -> bool).
Variable fsqrt : F -> F.
Local Notation "x + y" := (fadd x y).
Local Notation "x * y" := (fmul x y).
Local Notation "x - y" := (fsub x y).
Local Notation "x / y" := (fdiv x y).
Local Notation "- x" := (fopp x).

(** [acc n f]: a value that starts at sp.sympify(0) and is increased by [f k] for k in range(n) *)
Definition acc (n : nat) (f : nat -> F) : F := fold_left (fun a k => a + f k) (seq 0 n) fO.

(** Steps 1 and 2 of ADM_to_g4DD, l.36-45. *)
Definition lower (gammaDD : mat F) (betaU : nat -> F) (i : nat) : F := acc 3 (fun j => gammaDD i j * betaU j).
Definition beta2 (gammaDD : mat F) (betaU : nat -> F) : F := acc 3 (fun i => betaU i * lower gammaDD betaU i).
(** ADM_to_g4DD, l.20-55. *)
Definition ADM_to_g4DD (gammaDD : mat F) (betaU : nat -> F) (alpha : F) : mat F := fun mu nu =>
  match mu, nu with
  | 0, 0 => - (alpha * alpha) + beta2 gammaDD betaU
  | S m, 0 => lower gammaDD betaU m
  | 0, S n => lower gammaDD betaU n
  | S m, S n => gammaDD m n
  end.

(** ADM_to_g4UU with gammaUU, l.101-112. *)
Definition g4UU_of (gammaUU : mat F) (betaU : nat -> F) (alpha : F) : mat F := fun mu nu =>
  match mu, nu with
  | 0, 0 => - fI / (alpha * alpha)
  | S m, 0 => betaU m / (alpha * alpha)
  | 0, S n => betaU n / (alpha * alpha)
  | S m, S n => gammaUU m n - betaU m * betaU n / (alpha * alpha)
  end.
(** ADM_to_g4UU, l.82-112. *)
Definition ADM_to_g4UU (gammaDD : mat F) (betaU : nat -> F) (alpha : F) (gammaUU : option (mat F)) : py (mat F) :=
  match gammaUU with
  | Some g => Ok (g4UU_of g betaU alpha)
  | None => py_bind (symm_matrix_inverter3x3 F fO fI fadd fmul fsub fdiv fopp feqb gammaDD) (fun p => Ok (g4UU_of (fst p) betaU alpha))
  end.

(** g4DD_to_ADM, l.139-185: (gammaDD, alpha, betaU). *)
Definition g4DD_to_ADM (g4DD : mat F) : py (mat F * F * (nat -> F)) :=
  let betaD := fun i => g4DD 0 i in
  let gammaDD := fun i j => g4DD (S i) (S j) in
  py_bind (symm_matrix_inverter3x3 F fO fI fadd fmul fsub fdiv fopp feqb gammaDD) (fun p =>
  let betaU := fun i => acc 3 (fun j => fst p i j * betaD j) in
  let beta_squared := acc 3 (fun k => betaU k * betaD k) in
  Ok (gammaDD, fsqrt (beta_squared - g4DD 0 0), betaU)).
End Metric.
