(** Model of nrpy/equations/general_relativity/LorentzBoost.py: Lorentz boosts of four-dimensional vectors and tensors.
    Simplification: SymPy expressions are replaced by their values, so the components of vBoost are arbitrary reals.  The
    two places where the expression has no real value are values of the model: where vBoost2 is 0 the spatial entries are
    (gamma - 1) * v_i * v_j / vBoost2 = 0/0, and where vBoost2 is 1 or more gamma_lorentz is a division by zero or
    imaginary.  In both cases the matrix is [None]. *)
From Coq Require Import List Arith Bool Reals.
From Verif Require Import PyBase GRMetric T4munu.
Local Open Scope R_scope.

(** ** _compute_LorentzMatrix, l.38-80 *)
(** Step 1, l.47-49 *)
Definition vBoost2 (v : nat -> R) : R := acc R 0 Rplus 3 (fun i => v i ^ 2).
(** l.50 *)
Definition gamma_lorentz (v : nat -> R) : R := 1 / sqrt (1 - vBoost2 v).
(** Step 2.a to 2.c, l.53-70: the entries of the upper triangle that are assigned; the others keep the 0 of zerorank2 *)
Definition Lorentz_upper (v : nat -> R) (mu nu : nat) : R :=
  match mu, nu with
  | O, O => gamma_lorentz v
  | O, S i => - gamma_lorentz v * v i
  | S i, S j => if (i <=? j)%nat
                then (gamma_lorentz v - 1) * v i * v j / vBoost2 v + (if (i =? j)%nat then 1 else 0)
                else 0
  | S _, O => 0
  end.
(** Step 2.d, l.73-75: symmetrize_rank2 with sym01 (nrpy/indexedexp.py l.279-285) copies entry [j][i] to [i][j] for j < i *)
Definition sym01 (A : nat -> nat -> R) (i j : nat) : R := if (j <? i)%nat then A j i else A i j.
Definition Lorentz_entries (v : nat -> R) : nat -> nat -> R := sym01 (Lorentz_upper v).
Definition compute_LorentzMatrix (v : nat -> R) : option (nat -> nat -> R) :=
  if Rlt_dec 0 (vBoost2 v) then
    if Rlt_dec (vBoost2 v) 1 then Some (Lorentz_entries v) else None
  else None.

(** ** __init__, l.20-36: LorentzMatrix and InverseLorentzMatrix *)
Record boost : Type := MkBoost { LorentzMatrix : nat -> nat -> R; InverseLorentzMatrix : nat -> nat -> R }.
Definition LorentzBoost (v : nat -> R) : option boost :=
  match compute_LorentzMatrix v, compute_LorentzMatrix (fun i => - v i) with
  | Some L, Some M => Some (MkBoost L M)
  | _, _ => None
  end.

(** ** The boosts.  A loop over several indices that adds to one entry is a nested sum. *)
(** boost_vectorU, l.82-100 *)
Definition boost_vectorU (b : boost) (V : nat -> R) (mu : nat) : R := s4 (fun nu => LorentzMatrix b mu nu * V nu).
(** inverse_boost_vectorU, l.102-122 *)
Definition inverse_boost_vectorU (b : boost) (V : nat -> R) (mu : nat) : R :=
  s4 (fun nu => InverseLorentzMatrix b mu nu * V nu).
(** boost_vectorD, l.124-142 *)
Definition boost_vectorD (b : boost) (D : nat -> R) (mu : nat) : R :=
  s4 (fun nu => InverseLorentzMatrix b nu mu * D nu).
(** boost_tensorDD, l.144-168 *)
Definition boost_tensorDD (b : boost) (D : nat -> nat -> R) (mu1 mu2 : nat) : R :=
  s4 (fun nu1 => s4 (fun nu2 => InverseLorentzMatrix b nu1 mu1 * InverseLorentzMatrix b nu2 mu2 * D nu1 nu2)).
(** boost_tensorDDD, l.170-199 *)
Definition boost_tensorDDD (b : boost) (D : nat -> nat -> nat -> R) (mu1 mu2 mu3 : nat) : R :=
  s4 (fun nu1 => s4 (fun nu2 => s4 (fun nu3 =>
    InverseLorentzMatrix b nu1 mu1 * InverseLorentzMatrix b nu2 mu2 * InverseLorentzMatrix b nu3 mu3 * D nu1 nu2 nu3))).
(** boost_tensorDDDD, l.201-234 *)
Definition boost_tensorDDDD (b : boost) (D : nat -> nat -> nat -> nat -> R) (mu1 mu2 mu3 mu4 : nat) : R :=
  s4 (fun nu1 => s4 (fun nu2 => s4 (fun nu3 => s4 (fun nu4 =>
    InverseLorentzMatrix b nu1 mu1 * InverseLorentzMatrix b nu2 mu2 * InverseLorentzMatrix b nu3 mu3
    * InverseLorentzMatrix b nu4 mu4 * D nu1 nu2 nu3 nu4)))).
