(** Model of nrpy/equations/quaternion_rotations/tensor_rotation.py: rotation of 3-vectors and 3x3 matrices by quaternions.
    Simplification: SymPy expressions are replaced by their values.  sp.Quaternion is not part of the repository; its
    product, conjugate and from_axis_angle are modelled from their documentation: the Hamilton product, and
    cos(angle/2) + sin(angle/2) (x i + y j + z k)/norm for the axis (x, y, z).  For a zero axis SymPy divides by zero: [nan]. *)
From Coq Require Import String List Arith Bool Reals.
From Verif Require Import PyBase.
Import ListNotations.
Local Open Scope R_scope.

Record quat : Type := Q4 { qa : R; qb : R; qc : R; qd : R }.
(** sp.Quaternion.__mul__ *)
Definition qmul (p q : quat) : quat :=
  Q4 (qa p * qa q - qb p * qb q - qc p * qc q - qd p * qd q)
     (qa p * qb q + qb p * qa q + qc p * qd q - qd p * qc q)
     (qa p * qc q - qb p * qd q + qc p * qa q + qd p * qb q)
     (qa p * qd q + qb p * qc q - qc p * qb q + qd p * qa q).
(** sp.Quaternion.conjugate *)
Definition conj (q : quat) : quat := Q4 (qa q) (- qb q) (- qc q) (- qd q).
(** sp.Quaternion.from_axis_angle *)
Definition from_axis_angle (x y z angle : R) : quat :=
  let norm := sqrt (x ^ 2 + y ^ 2 + z ^ 2) in
  let s := sin (angle * / 2) in
  Q4 (cos (angle * / 2)) (x / norm * s) (y / norm * s) (z / norm * s).

(** the argument [tensor]: a list of expressions or a list of lists of expressions *)
Inductive tensor : Type := Vec (l : list R) | Mat (rows : list (list R)).
(** the outcomes that are not exceptions: a tensor, or expressions that are nan *)
Inductive outcome : Type := Val (t : tensor) | nan.

Definition is_row3 (r : list R) : bool := (length r =? 3)%nat.
(** entry [i][j] of sp.Matrix(tensor) *)
Definition entry (rows : list (list R)) (i j : nat) : R := nth j (nth i rows []) 0.

(** ** mul, l.94-109 *)
Definition mul_left (q : quat) (M : list quat) : list quat := map (fun col => qmul q col) M.
Definition mul_right (M : list quat) (q : quat) : list quat := map (fun col => qmul col q) M.
Definition parts (q : quat) : list R := [qb q; qc q; qd q].
(** sp.Quaternion( 0, *column i ) for i in range(3), l.118-121 *)
Definition columns (rows : list (list R)) : list quat :=
  map (fun i => Q4 0 (entry rows 0 i) (entry rows 1 i) (entry rows 2 i)) (seq 0 3).
(** sp.Quaternion( 0, *row i ), l.125-128 *)
Definition row_quats (rows : list (list R)) : list quat :=
  map (fun i => Q4 0 (entry rows i 0) (entry rows i 1) (entry rows i 2)) (seq 0 3).
(** the matrix whose columns are given, l.123-124 *)
Definition of_columns (cols : list (list R)) : list (list R) := map (fun i => map (fun c => nth i c 0) cols) (seq 0 3).

(** l.113-132 *)
Definition rotate_matrix (q : quat) (rows : list (list R)) : list (list R) :=
  let M := mul_left q (mul_right (columns rows) (conj q)) in
  let rows' := of_columns (map parts M) in
  let M' := mul_left q (mul_right (row_quats rows') (conj q)) in
  map parts M'.
(** l.134-139 *)
Definition rotate_vector (q : quat) (a b c : R) : list R := parts (qmul (qmul q (Q4 0 a b c)) (conj q)).

(** ** rotate, l.15-141 *)
Definition rotate (t : tensor) (axis : list R) (angle : R) : py outcome :=
  match axis with
  | [x; y; z] =>
      let zero := if Req_EM_T (x ^ 2 + y ^ 2 + z ^ 2) 0 then true else false in
      let q := from_axis_angle x y z angle in
      match t with
      | Vec [] | Mat [] => Err IndexError
      | Mat rows =>
          if (length rows =? 3)%nat && forallb is_row3 rows then
            Ok (if zero then nan else Val (Mat (rotate_matrix q rows)))
          else Err ValueError
      | Vec [a; b; c] => Ok (if zero then nan else Val (Vec (rotate_vector q a b c)))
      | Vec _ => Err ValueError
      end
  | _ => Err ValueError
  end.
