(** Model of the matrix inverters and Levi-Civita objects of nrpy/indexedexp.py, over an arbitrary
    field with decidable equality.  Simplification: SymPy expressions are replaced by field values,
    so [outDET == 0] (structural equality of expressions) becomes equality of values. *)
From Coq Require Import List ZArith Bool.
From Verif Require Import PyBase.
Import ListNotations.

Section Inv.
Variables (F : Type) (fO fI : F) (fadd fmul fsub fdiv : F -> F -> F) (fopp : F -> F)
          (feqb : F -> F -> bool).
Local Notation "x + y" := (fadd x y).
Local Notation "x * y" := (fmul x y).
Local Notation "x - y" := (fsub x y).
Local Notation "x / y" := (fdiv x y).
Local Notation "- x" := (fopp x).
Local Notation two := (fI + fI).
Local Notation sq x := (x * x).

(** A matrix [a[i][j]]. *)
Definition mat : Type := nat -> nat -> F.

(** symm_matrix_inverter2x2: outDET, l.688-688. *)
Definition symm2_det (a : mat) : F :=
  a 0 0 * a 1 1 - sq (a 0 1).

(** outINV, l.695-698; [outDET] is the determinant computed above. *)
Definition symm2_inv (a : mat) (outDET : F) : mat :=
  fun i j => match i, j with
  | 0, 0 => a 1 1 / outDET
  | 0, 1 => - a 0 1 / outDET
  | 1, 0 => - a 0 1 / outDET
  | 1, 1 => a 0 0 / outDET
  | _, _ => fO
  end.

(** symm_matrix_inverter2x2, l.668-699. *)
Definition symm_matrix_inverter2x2 (a : mat) : py (mat * F) :=
  let outDET := symm2_det a in
  if feqb outDET fO then Err NonInvertibleMatrixError else Ok (symm2_inv a outDET, outDET).

(** symm_matrix_inverter3x3: outDET, l.722-728. *)
Definition symm3_det (a : mat) : F :=
  - sq (a 0 2) * a 1 1 + two * a 0 1 * a 0 2 * a 1 2 - a 0 0 * sq (a 1 2) - sq (a 0 1) * a 2 2 + a 0
  0 * a 1 1 * a 2 2.

(** outINV, l.736-744; [outDET] is the determinant computed above. *)
Definition symm3_inv (a : mat) (outDET : F) : mat :=
  fun i j => match i, j with
  | 0, 0 => (- sq (a 1 2) + a 1 1 * a 2 2) / outDET
  | 0, 1 => (a 0 2 * a 1 2 - a 0 1 * a 2 2) / outDET
  | 0, 2 => (- a 0 2 * a 1 1 + a 0 1 * a 1 2) / outDET
  | 1, 0 => (a 0 2 * a 1 2 - a 0 1 * a 2 2) / outDET
  | 1, 1 => (- sq (a 0 2) + a 0 0 * a 2 2) / outDET
  | 1, 2 => (a 0 1 * a 0 2 - a 0 0 * a 1 2) / outDET
  | 2, 0 => (- a 0 2 * a 1 1 + a 0 1 * a 1 2) / outDET
  | 2, 1 => (a 0 1 * a 0 2 - a 0 0 * a 1 2) / outDET
  | 2, 2 => (- sq (a 0 1) + a 0 0 * a 1 1) / outDET
  | _, _ => fO
  end.

(** symm_matrix_inverter3x3, l.702-745. *)
Definition symm_matrix_inverter3x3 (a : mat) : py (mat * F) :=
  let outDET := symm3_det a in
  if feqb outDET fO then Err NonInvertibleMatrixError else Ok (symm3_inv a outDET, outDET).

(** symm_matrix_inverter4x4: outDET, l.805-833. *)
Definition symm4_det (a : mat) : F :=
  a 0 2 * a 0 2 * a 1 3 * a 1 3 + a 0 3 * a 0 3 * a 1 2 * a 1 2 + a 0 1 * a 0 1 * a 2 3 * a 2 3 - a
  0 0 * a 1 3 * a 1 3 * a 2 2 - a 0 3 * a 0 3 * a 1 1 * a 2 2 - a 0 0 * a 1 1 * a 2 3 * a 2 3 - two
  * (a 0 1 * a 0 2 * a 1 3 * a 2 3 - a 0 0 * a 1 2 * a 1 3 * a 2 3 - a 0 3 * (- a 0 2 * a 1 2 * a 1
  3 + a 0 1 * a 1 3 * a 2 2 + a 0 2 * a 1 1 * a 2 3 - a 0 1 * a 1 2 * a 2 3)) - a 3 3 * (a 0 2 * a 0
  2 * a 1 1 - a 0 1 * a 0 2 * a 1 2 - a 0 1 * a 0 2 * a 1 2 + a 0 0 * a 1 2 * a 1 2 + a 0 1 * a 0 1
  * a 2 2 - a 0 0 * a 1 1 * a 2 2).

(** outINV, l.840-923; [outDET] is the determinant computed above. *)
Definition symm4_inv (a : mat) (outDET : F) : mat :=
  fun i j => match i, j with
  | 0, 0 => (- a 1 3 * a 1 3 * a 2 2 + two * a 1 2 * a 1 3 * a 2 3 - a 1 1 * a 2 3 * a 2 3 - a 1 2 *
            a 1 2 * a 3 3 + a 1 1 * a 2 2 * a 3 3) / outDET
  | 0, 1 => (a 0 3 * a 1 3 * a 2 2 - a 0 3 * a 1 2 * a 2 3 - a 0 2 * a 1 3 * a 2 3 + a 0 1 * a 2 3 *
            a 2 3 + a 0 2 * a 1 2 * a 3 3 - a 0 1 * a 2 2 * a 3 3) / outDET
  | 0, 2 => (- a 0 3 * a 1 2 * a 1 3 + a 0 2 * a 1 3 * a 1 3 + a 0 3 * a 1 1 * a 2 3 - a 0 1 * a 1 3
            * a 2 3 - a 0 2 * a 1 1 * a 3 3 + a 0 1 * a 1 2 * a 3 3) / outDET
  | 0, 3 => (- a 0 2 * a 1 2 * a 1 3 + a 0 1 * a 1 3 * a 2 2 + a 0 3 * a 1 2 * a 1 2 - a 0 3 * a 1 1
            * a 2 2 + a 0 2 * a 1 1 * a 2 3 - a 0 1 * a 1 2 * a 2 3) / outDET
  | 1, 0 => (a 0 3 * a 1 3 * a 2 2 - a 0 3 * a 1 2 * a 2 3 - a 0 2 * a 1 3 * a 2 3 + a 0 1 * a 2 3 *
            a 2 3 + a 0 2 * a 1 2 * a 3 3 - a 0 1 * a 2 2 * a 3 3) / outDET
  | 1, 1 => (- a 0 3 * a 0 3 * a 2 2 + two * a 0 2 * a 0 3 * a 2 3 - a 0 0 * a 2 3 * a 2 3 - a 0 2 *
            a 0 2 * a 3 3 + a 0 0 * a 2 2 * a 3 3) / outDET
  | 1, 2 => (a 0 3 * a 0 3 * a 1 2 + a 0 0 * a 1 3 * a 2 3 - a 0 3 * a 0 2 * a 1 3 - a 0 3 * a 0 1 *
            a 2 3 + a 0 1 * a 0 2 * a 3 3 - a 0 0 * a 1 2 * a 3 3) / outDET
  | 1, 3 => (a 0 2 * a 0 2 * a 1 3 + a 0 1 * a 0 3 * a 2 2 - a 0 0 * a 1 3 * a 2 2 + a 0 0 * a 1 2 *
            a 2 3 - a 0 2 * a 0 3 * a 1 2 - a 0 2 * a 0 1 * a 2 3) / outDET
  | 2, 0 => (- a 0 3 * a 1 2 * a 1 3 + a 0 2 * a 1 3 * a 1 3 + a 0 3 * a 1 1 * a 2 3 - a 0 1 * a 1 3
            * a 2 3 - a 0 2 * a 1 1 * a 3 3 + a 0 1 * a 1 2 * a 3 3) / outDET
  | 2, 1 => (a 0 3 * a 0 3 * a 1 2 + a 0 0 * a 1 3 * a 2 3 - a 0 3 * a 0 2 * a 1 3 - a 0 3 * a 0 1 *
            a 2 3 + a 0 1 * a 0 2 * a 3 3 - a 0 0 * a 1 2 * a 3 3) / outDET
  | 2, 2 => (- a 0 3 * a 0 3 * a 1 1 + two * a 0 1 * a 0 3 * a 1 3 - a 0 0 * a 1 3 * a 1 3 - a 0 1 *
            a 0 1 * a 3 3 + a 0 0 * a 1 1 * a 3 3) / outDET
  | 2, 3 => (a 0 2 * a 0 3 * a 1 1 - a 0 1 * a 0 3 * a 1 2 - a 0 1 * a 0 2 * a 1 3 + a 0 0 * a 1 2 *
            a 1 3 + a 0 1 * a 0 1 * a 2 3 - a 0 0 * a 1 1 * a 2 3) / outDET
  | 3, 0 => (- a 0 2 * a 1 2 * a 1 3 + a 0 1 * a 1 3 * a 2 2 + a 0 3 * a 1 2 * a 1 2 - a 0 3 * a 1 1
            * a 2 2 + a 0 2 * a 1 1 * a 2 3 - a 0 1 * a 1 2 * a 2 3) / outDET
  | 3, 1 => (a 0 2 * a 0 2 * a 1 3 + a 0 1 * a 0 3 * a 2 2 - a 0 0 * a 1 3 * a 2 2 + a 0 0 * a 1 2 *
            a 2 3 - a 0 2 * a 0 3 * a 1 2 - a 0 2 * a 0 1 * a 2 3) / outDET
  | 3, 2 => (a 0 2 * a 0 3 * a 1 1 - a 0 1 * a 0 3 * a 1 2 - a 0 1 * a 0 2 * a 1 3 + a 0 0 * a 1 2 *
            a 1 3 + a 0 1 * a 0 1 * a 2 3 - a 0 0 * a 1 1 * a 2 3) / outDET
  | 3, 3 => (- a 0 2 * a 0 2 * a 1 1 + two * a 0 1 * a 0 2 * a 1 2 - a 0 0 * a 1 2 * a 1 2 - a 0 1 *
            a 0 1 * a 2 2 + a 0 0 * a 1 1 * a 2 2) / outDET
  | _, _ => fO
  end.

(** symm_matrix_inverter4x4, l.773-925. *)
Definition symm_matrix_inverter4x4 (a : mat) : py (mat * F) :=
  let outDET := symm4_det a in
  if feqb outDET fO then Err NonInvertibleMatrixError else Ok (symm4_inv a outDET, outDET).

(** generic_matrix_inverter2x2: outDET, l.947-947. *)
Definition gen2_det (a : mat) : F :=
  a 0 0 * a 1 1 - a 0 1 * a 1 0.

(** outINV, l.953-956; [outDET] is the determinant computed above. *)
Definition gen2_inv (a : mat) (outDET : F) : mat :=
  fun i j => match i, j with
  | 0, 0 => a 1 1 / outDET
  | 0, 1 => - a 0 1 / outDET
  | 1, 0 => - a 1 0 / outDET
  | 1, 1 => a 0 0 / outDET
  | _, _ => fO
  end.

(** generic_matrix_inverter2x2, l.930-957. *)
Definition generic_matrix_inverter2x2 (a : mat) : py (mat * F) :=
  let outDET := gen2_det a in
  if feqb outDET fO then Err NonInvertibleMatrixError else Ok (gen2_inv a outDET, outDET).

(** generic_matrix_inverter3x3: outDET, l.977-984. *)
Definition gen3_det (a : mat) : F :=
  - a 0 2 * a 1 1 * a 2 0 + a 0 1 * a 1 2 * a 2 0 + a 0 2 * a 1 0 * a 2 1 - a 0 0 * a 1 2 * a 2 1 -
  a 0 1 * a 1 0 * a 2 2 + a 0 0 * a 1 1 * a 2 2.

(** outINV, l.990-998 (then divided by outDET entry by entry); [outDET] is the determinant computed above. *)
Definition gen3_inv (a : mat) (outDET : F) : mat :=
  fun i j => match i, j with
  | 0, 0 => (- a 1 2 * a 2 1 + a 1 1 * a 2 2) / outDET
  | 0, 1 => (a 0 2 * a 2 1 - a 0 1 * a 2 2) / outDET
  | 0, 2 => (- a 0 2 * a 1 1 + a 0 1 * a 1 2) / outDET
  | 1, 0 => (a 1 2 * a 2 0 - a 1 0 * a 2 2) / outDET
  | 1, 1 => (- a 0 2 * a 2 0 + a 0 0 * a 2 2) / outDET
  | 1, 2 => (a 0 2 * a 1 0 - a 0 0 * a 1 2) / outDET
  | 2, 0 => (- a 1 1 * a 2 0 + a 1 0 * a 2 1) / outDET
  | 2, 1 => (a 0 1 * a 2 0 - a 0 0 * a 2 1) / outDET
  | 2, 2 => (- a 0 1 * a 1 0 + a 0 0 * a 1 1) / outDET
  | _, _ => fO
  end.

(** generic_matrix_inverter3x3, l.960-1004. *)
Definition generic_matrix_inverter3x3 (a : mat) : py (mat * F) :=
  let outDET := gen3_det a in
  if feqb outDET fO then Err NonInvertibleMatrixError else Ok (gen3_inv a outDET, outDET).

(** generic_matrix_inverter4x4: outDET, l.1031-1065. *)
Definition gen4_det (a : mat) : F :=
  a 0 1 * a 1 3 * a 2 2 * a 3 0 - a 0 1 * a 1 2 * a 2 3 * a 3 0 - a 0 0 * a 1 3 * a 2 2 * a 3 1 + a
  0 0 * a 1 2 * a 2 3 * a 3 1 - a 0 1 * a 1 3 * a 2 0 * a 3 2 + a 0 0 * a 1 3 * a 2 1 * a 3 2 + a 0
  1 * a 1 0 * a 2 3 * a 3 2 - a 0 0 * a 1 1 * a 2 3 * a 3 2 + a 0 3 * (a 1 2 * a 2 1 * a 3 0 - a 1 1
  * a 2 2 * a 3 0 - a 1 2 * a 2 0 * a 3 1 + a 1 0 * a 2 2 * a 3 1 + a 1 1 * a 2 0 * a 3 2 - a 1 0 *
  a 2 1 * a 3 2) + (a 0 1 * a 1 2 * a 2 0 - a 0 0 * a 1 2 * a 2 1 - a 0 1 * a 1 0 * a 2 2 + a 0 0 *
  a 1 1 * a 2 2) * a 3 3 + a 0 2 * (- (a 1 3 * a 2 1 * a 3 0) + a 1 1 * a 2 3 * a 3 0 + a 1 3 * a 2
  0 * a 3 1 - a 1 0 * a 2 3 * a 3 1 - a 1 1 * a 2 0 * a 3 3 + a 1 0 * a 2 1 * a 3 3).

(** outINV, l.1073-1200 (then divided by outDET entry by entry); [outDET] is the determinant computed above. *)
Definition gen4_inv (a : mat) (outDET : F) : mat :=
  fun i j => match i, j with
  | 0, 0 => (- a 1 3 * a 2 2 * a 3 1 + a 1 2 * a 2 3 * a 3 1 + a 1 3 * a 2 1 * a 3 2 - a 1 1 * a 2 3
            * a 3 2 - a 1 2 * a 2 1 * a 3 3 + a 1 1 * a 2 2 * a 3 3) / outDET
  | 0, 1 => (a 0 3 * a 2 2 * a 3 1 - a 0 2 * a 2 3 * a 3 1 - a 0 3 * a 2 1 * a 3 2 + a 0 1 * a 2 3 *
            a 3 2 + a 0 2 * a 2 1 * a 3 3 - a 0 1 * a 2 2 * a 3 3) / outDET
  | 0, 2 => (- a 0 3 * a 1 2 * a 3 1 + a 0 2 * a 1 3 * a 3 1 + a 0 3 * a 1 1 * a 3 2 - a 0 1 * a 1 3
            * a 3 2 - a 0 2 * a 1 1 * a 3 3 + a 0 1 * a 1 2 * a 3 3) / outDET
  | 0, 3 => (a 0 3 * a 1 2 * a 2 1 - a 0 2 * a 1 3 * a 2 1 - a 0 3 * a 1 1 * a 2 2 + a 0 1 * a 1 3 *
            a 2 2 + a 0 2 * a 1 1 * a 2 3 - a 0 1 * a 1 2 * a 2 3) / outDET
  | 1, 0 => (a 1 3 * a 2 2 * a 3 0 - a 1 2 * a 2 3 * a 3 0 - a 1 3 * a 2 0 * a 3 2 + a 1 0 * a 2 3 *
            a 3 2 + a 1 2 * a 2 0 * a 3 3 - a 1 0 * a 2 2 * a 3 3) / outDET
  | 1, 1 => (- a 0 3 * a 2 2 * a 3 0 + a 0 2 * a 2 3 * a 3 0 + a 0 3 * a 2 0 * a 3 2 - a 0 0 * a 2 3
            * a 3 2 - a 0 2 * a 2 0 * a 3 3 + a 0 0 * a 2 2 * a 3 3) / outDET
  | 1, 2 => (a 0 3 * a 1 2 * a 3 0 - a 0 2 * a 1 3 * a 3 0 - a 0 3 * a 1 0 * a 3 2 + a 0 0 * a 1 3 *
            a 3 2 + a 0 2 * a 1 0 * a 3 3 - a 0 0 * a 1 2 * a 3 3) / outDET
  | 1, 3 => (- a 0 3 * a 1 2 * a 2 0 + a 0 2 * a 1 3 * a 2 0 + a 0 3 * a 1 0 * a 2 2 - a 0 0 * a 1 3
            * a 2 2 - a 0 2 * a 1 0 * a 2 3 + a 0 0 * a 1 2 * a 2 3) / outDET
  | 2, 0 => (- a 1 3 * a 2 1 * a 3 0 + a 1 1 * a 2 3 * a 3 0 + a 1 3 * a 2 0 * a 3 1 - a 1 0 * a 2 3
            * a 3 1 - a 1 1 * a 2 0 * a 3 3 + a 1 0 * a 2 1 * a 3 3) / outDET
  | 2, 1 => (a 0 3 * a 2 1 * a 3 0 - a 0 1 * a 2 3 * a 3 0 - a 0 3 * a 2 0 * a 3 1 + a 0 0 * a 2 3 *
            a 3 1 + a 0 1 * a 2 0 * a 3 3 - a 0 0 * a 2 1 * a 3 3) / outDET
  | 2, 2 => (- a 0 3 * a 1 1 * a 3 0 + a 0 1 * a 1 3 * a 3 0 + a 0 3 * a 1 0 * a 3 1 - a 0 0 * a 1 3
            * a 3 1 - a 0 1 * a 1 0 * a 3 3 + a 0 0 * a 1 1 * a 3 3) / outDET
  | 2, 3 => (a 0 3 * a 1 1 * a 2 0 - a 0 1 * a 1 3 * a 2 0 - a 0 3 * a 1 0 * a 2 1 + a 0 0 * a 1 3 *
            a 2 1 + a 0 1 * a 1 0 * a 2 3 - a 0 0 * a 1 1 * a 2 3) / outDET
  | 3, 0 => (a 1 2 * a 2 1 * a 3 0 - a 1 1 * a 2 2 * a 3 0 - a 1 2 * a 2 0 * a 3 1 + a 1 0 * a 2 2 *
            a 3 1 + a 1 1 * a 2 0 * a 3 2 - a 1 0 * a 2 1 * a 3 2) / outDET
  | 3, 1 => (- a 0 2 * a 2 1 * a 3 0 + a 0 1 * a 2 2 * a 3 0 + a 0 2 * a 2 0 * a 3 1 - a 0 0 * a 2 2
            * a 3 1 - a 0 1 * a 2 0 * a 3 2 + a 0 0 * a 2 1 * a 3 2) / outDET
  | 3, 2 => (a 0 2 * a 1 1 * a 3 0 - a 0 1 * a 1 2 * a 3 0 - a 0 2 * a 1 0 * a 3 1 + a 0 0 * a 1 2 *
            a 3 1 + a 0 1 * a 1 0 * a 3 2 - a 0 0 * a 1 1 * a 3 2) / outDET
  | 3, 3 => (- a 0 2 * a 1 1 * a 2 0 + a 0 1 * a 1 2 * a 2 0 + a 0 2 * a 1 0 * a 2 1 - a 0 0 * a 1 2
            * a 2 1 - a 0 1 * a 1 0 * a 2 2 + a 0 0 * a 1 1 * a 2 2) / outDET
  | _, _ => fO
  end.

(** generic_matrix_inverter4x4, l.1007-1206. *)
Definition generic_matrix_inverter4x4 (a : mat) : py (mat * F) :=
  let outDET := gen4_det a in
  if feqb outDET fO then Err NonInvertibleMatrixError else Ok (gen4_inv a outDET, outDET).

(** Integers as field values. *)
Fixpoint fnat (n : nat) : F := match n with O => fO | S m => fI + fnat m end.

(** LeviCivitaSymbol_dim3_rank3, l.1210-1240, entry [i][j][k]. *)
Definition LeviCivitaSymbol_dim3_rank3 (i j k : nat) : F :=
  (fnat i - fnat j) * (fnat j - fnat k) * (fnat k - fnat i) * (fI / two).

(** LeviCivitaTensorUUU_dim3_rank3, l.1241-1272. *)
Definition LeviCivitaTensorUUU_dim3_rank3 (sqrtgammaDET : F) (i j k : nat) : F :=
  LeviCivitaSymbol_dim3_rank3 i j k / sqrtgammaDET.

(** LeviCivitaTensorDDD_dim3_rank3, l.1276-1306. *)
Definition LeviCivitaTensorDDD_dim3_rank3 (sqrtgammaDET : F) (i j k : nat) : F :=
  LeviCivitaSymbol_dim3_rank3 i j k * sqrtgammaDET.
End Inv.
