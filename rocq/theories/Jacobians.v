(** nrpy/helpers/jacobians.py: transformations between the basis of the reference metric and the Cartesian basis.
    Values at a point [v] of the coordinate system [r]; the Jacobians are those of RefMetric.v.  Definitions only. *)
From Coq Require Import List Arith Bool Reals.
From Verif Require Import PyBase Inverter GRMetric RefMetric RefMetricReal BSSN T4munu.
Local Open Scope R_scope.

Section Point.
Variables (r : rfm) (v : env).
Definition Jac_dUCart_dDrfmUD (i j : nat) : R := eval v (jac r i j).
Definition Jac_dUrfm_dDCartUD (i j : nat) : R := eval v (jac_inv r i j).
(** l.28-43 *)
Definition vectorU_from_rfmbasis_to_Cartesian (src_vectorU : nat -> R) (i : nat) : R :=
  s3 (fun l => Jac_dUCart_dDrfmUD i l * src_vectorU l).
(** l.46-61 *)
Definition vectorD_from_rfmbasis_to_Cartesian (src_vectorD : nat -> R) (i : nat) : R :=
  s3 (fun l => Jac_dUrfm_dDCartUD l i * src_vectorD l).
(** l.64-85 *)
Definition tensorDD_from_rfmbasis_to_Cartesian (src_tensorDD : nat -> nat -> R) (i j : nat) : R :=
  s3 (fun l => s3 (fun m => Jac_dUrfm_dDCartUD l i * Jac_dUrfm_dDCartUD m j * src_tensorDD l m)).
(** l.88-103 *)
Definition vectorU_from_Cartesian_to_rfmbasis (Cart_src_vectorU : nat -> R) (i : nat) : R :=
  s3 (fun l => Jac_dUrfm_dDCartUD i l * Cart_src_vectorU l).
(** l.106-121 *)
Definition vectorD_from_Cartesian_to_rfmbasis (Cart_src_vectorD : nat -> R) (i : nat) : R :=
  s3 (fun l => Jac_dUCart_dDrfmUD l i * Cart_src_vectorD l).
(** l.124-145 *)
Definition tensorDD_from_Cartesian_to_rfmbasis (Cart_src_tensorDD : nat -> nat -> R) (i j : nat) : R :=
  s3 (fun l => s3 (fun m => Jac_dUCart_dDrfmUD l i * Jac_dUCart_dDrfmUD m j * Cart_src_tensorDD l m)).
(** l.161-165, 194-198: the Jacobian with time *)
Definition Jac4 (J : nat -> nat -> R) (mu nu : nat) : R :=
  match mu, nu with O, O => 1 | S i, S j => J i j | _, _ => 0 end.
(** l.149-177 *)
Definition tensor4UU_from_rfmbasis_to_Cartesian (T4UU : nat -> nat -> R) (mu nu : nat) : R :=
  s4 (fun delta => s4 (fun sigma => Jac4 Jac_dUCart_dDrfmUD mu delta * Jac4 Jac_dUCart_dDrfmUD nu sigma * T4UU delta sigma)).
(** l.180-208 *)
Definition tensor4UU_from_Cartesian_to_rfmbasis (T4UU : nat -> nat -> R) (mu nu : nat) : R :=
  s4 (fun delta => s4 (fun sigma => Jac4 Jac_dUrfm_dDCartUD mu delta * Jac4 Jac_dUrfm_dDCartUD nu sigma * T4UU delta sigma)).
End Point.
