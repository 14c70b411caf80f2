(** Model of nrpy/finite_difference.py l.93-199: the finite-difference moment matrix, its LU-based
    inversion, and the cache of inverted matrices. *)
From Coq Require Import List ZArith Bool QArith Qcanon.
From Verif Require Import PyBase QcLib.
Import ListNotations.
Open Scope Qc_scope.

Definition matrix : Type := nat -> nat -> Qc.

(** Store the n x n entries as rows (so that reading an entry does not recompute it). *)
Definition mtab (n : nat) (A : matrix) : matrix :=
  let rows := map (fun i => map (A i) (seq 0 n)) (seq 0 n) in
  fun i j => nth j (nth i rows []) 0.

(** finite_difference.py l.120-122: [j - Rational(stencil_width - 1, 2) + shift] *)
Definition fd_node (w : nat) (shift : Z) (j : nat) : Qc :=
  qn j - (qz (Z.of_nat w - 1)) / (qz 2) + qz shift.

(** finite_difference.py l.111-126 *)
Definition fd_M (w : nat) (shift : Z) : matrix := fun i j =>
  if Nat.eqb i 0 then 1
  else let x := fd_node w shift j in if qeqb x 0 then 0 else x ^ i.

(** SymPy [Matrix.LUdecomposition] (called at l.128): at column k take the first row p >= k with a
    non-zero entry as pivot, swap rows p and k, eliminate below; L and U share storage. *)
Definition find_pivot (n k : nat) (A : matrix) : option nat :=
  find (fun p => negb (qeqb (A p k) 0)) (seq k (n - k)).

Definition swap_rows (p k : nat) (A : matrix) : matrix := fun i j =>
  if Nat.eqb i p then A k j else if Nat.eqb i k then A p j else A i j.

Definition elim_col (k : nat) (A : matrix) : matrix := fun i j =>
  if Nat.ltb k i then
    let l := A i k / A k k in
    if Nat.eqb j k then l else if Nat.ltb k j then A i j - l * A k j else A i j
  else A i j.

(** State: combined LU matrix and the list of row swaps (the third component of SymPy's result). *)
Definition lu_state : Type := (matrix * list (nat * nat))%type.

Definition lu_step (n : nat) (st : py lu_state) (k : nat) : py lu_state :=
  match st with
  | Err e => Err e
  | Ok (A, perm) =>
      match find_pivot n k A with
      | None => Err NonInvertibleMatrixError
      | Some p =>
          if Nat.eqb p k then Ok (mtab n (elim_col k A), perm)
          else Ok (mtab n (elim_col k (swap_rows p k A)), (perm ++ [(k, p)])%list)
      end
  end.

Definition lu_decomposition (n : nat) (A : matrix) : py lu_state :=
  fold_left (lu_step n) (seq 0 n) (Ok (A, [])).

Definition lu_L (A : matrix) : matrix := fun i j =>
  if Nat.eqb i j then 1 else if Nat.ltb j i then A i j else 0.
Definition lu_U (A : matrix) : matrix := fun i j => if Nat.leb i j then A i j else 0.

(** [L.inv()], l.129.  SymPy's inverse of a lower-triangular matrix, by forward substitution:
    rows 0..i-1 of column j. *)
Fixpoint fwd (L : matrix) (j i : nat) : list Qc :=
  match i with
  | O => []
  | S i' => let acc := fwd L j i' in
            (acc ++ [(qdelta i' j - qsum i' (fun k => L i' k * nth k acc 0)) / L i' i'])%list
  end.
Definition lower_inv (n : nat) (L : matrix) : matrix :=
  let cols := map (fun j => fwd L j n) (seq 0 n) in fun i j => nth i (nth j cols []) 0.

(** [U.inv()], l.130, by back substitution: the last m rows of column j. *)
Fixpoint bwd (n : nat) (U : matrix) (j m : nat) : list Qc :=
  match m with
  | O => []
  | S m' => let acc := bwd n U j m' in
            let i := (n - S m')%nat in
            (qdelta i j - qsum m' (fun k => U i (i + 1 + k)%nat * nth k acc 0)) / U i i :: acc
  end.
Definition upper_inv (n : nat) (U : matrix) : matrix :=
  let cols := map (fun j => bwd n U j n) (seq 0 n) in fun i j => nth i (nth j cols []) 0.

Definition mmul (n : nat) (A B : matrix) : matrix := fun i j => qsum n (fun k => A i k * B k j).

(** setup_FD_matrix__return_inverse_lowlevel, l.93-131: the permutation is discarded. *)
Definition setup_FD_matrix_inverse_lowlevel (w : nat) (shift : Z) : py matrix :=
  match lu_decomposition w (mtab w (fd_M w shift)) with
  | Err e => Err e
  | Ok (A, _) =>
      let L_inv := lower_inv w (lu_L A) in
      let U_inv := upper_inv w (lu_U A) in
      Ok (mtab w (mmul w U_inv L_inv))
  end.

(** ** The cache, l.134-169 and l.172-199 *)
Definition mkey : Type := (nat * Z)%type.
Definition mkey_eqb (a b : mkey) : bool := Nat.eqb (fst a) (fst b) && Z.eqb (snd a) (snd b).
Definition matrix_dict : Type := list (mkey * matrix).

Fixpoint mdict_get (k : mkey) (d : matrix_dict) : option matrix :=
  match d with
  | [] => None
  | (k', m) :: r => if mkey_eqb k k' then Some m else mdict_get k r
  end.

(** Matrix_dict.__getitem__, l.142-162 *)
Definition setup_FD_matrix_inverse (w : nat) (shift : Z) (d : matrix_dict)
  : matrix_dict * py matrix :=
  match mdict_get (w, shift) d with
  | Some m => (d, Ok m)
  | None => match setup_FD_matrix_inverse_lowlevel w shift with
            | Ok m => ((d ++ [((w, shift), m)])%list, Ok m)
            | Err e => (d, Err e)
            end
  end.
