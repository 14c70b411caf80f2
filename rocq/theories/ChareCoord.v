(** Coordinates of the whole grid and of the local grids of the chares.  The C text repeats the same
    line for the three directions; one direction is modelled.  REAL arithmetic is exact rational
    arithmetic here.  Definitions only. *)
From Coq Require Import ZArith QArith Qcanon.
From Verif Require Import QcLib.
Open Scope Qc_scope.

(** nrpy/infrastructures/BHaH/numerical_grids_and_timestep.py l.138-144: dxx and invdxx. *)
Definition grid_dxx (xxmin xxmax : Qc) (Nxx : nat) : Qc := (xxmax - xxmin) / qn Nxx.
Definition grid_invdxx (xxmin xxmax : Qc) (Nxx : nat) : Qc := qn Nxx / (xxmax - xxmin).

(** numerical_grids_and_timestep.py l.152-154: the coordinate array of the whole grid. *)
Definition grid_xx (ng : nat) (xxmin dxx : Qc) (j : nat) : Qc :=
  xxmin + (qz (Z.of_nat j - Z.of_nat ng) + 1 / qz 2) * dxx.

(** nrpy/infrastructures/superB/numerical_grids.py l.77-81: xxmin and xxmax of a chare. *)
Definition chare_xxmin (xxmin dxx : Qc) (Nxxchare chare_index : nat) : Qc :=
  xxmin + dxx * qn (Nxxchare * chare_index).
Definition chare_xxmax (xxmax dxx : Qc) (Nxxchare chare_index : nat) : Qc :=
  xxmax + dxx * qn (Nxxchare * chare_index).

(** superB/numerical_grids.py l.97-102: the coordinate array of a chare. *)
Definition chare_xx (ng : nat) (xxmin dxx : Qc) (Nxxchare chare_index j : nat) : Qc :=
  xxmin + (qz (Z.of_nat j - Z.of_nat ng + Z.of_nat (Nxxchare * chare_index)) + 1 / qz 2) * dxx.
