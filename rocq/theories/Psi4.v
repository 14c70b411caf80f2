(** Model of nrpy/equations/general_relativity/psi4_tetrads.py (class Psi4Tetrads) and psi4.py (class Psi4) at a point: the
    quantities of BSSN_to_ADM.py (model: BSSN.v), of the reference metric and the symbols declared by the two classes are their
    values.  cached_simplify and doit() do not change values and are left out. *)
From Coq Require Import String List ZArith Bool Arith Reals.
From Verif Require Import PyBase Inverter BSSN.
Import ListNotations.
Local Open Scope R_scope.

(** ixp.LeviCivitaSymbol_dim3_rank3 (indexedexp.py l.1210-1240; model: Inverter.v) *)
Definition eps3 (i j k : nat) : R := LeviCivitaSymbol_dim3_rank3 R 0 1 Rplus Rmult Rminus Rdiv i j k.

(** ** psi4_tetrads.py *)
Section Tetrad.
Variables (xCart : nat -> R) (Jac : nat -> nat -> R) (gammaDD gammaUU : nat -> nat -> R) (detgamma : R).
(** Step 2.c, l.81-83 *)
Definition v1UCart (i : nat) : R := match i with 0%nat => - xCart 1%nat | 1%nat => xCart 0%nat | _ => 0 end.
Definition v2UCart (i : nat) : R := xCart i.
(** Step 2.f, l.94-100 *)
Definition v1U (i : nat) : R := s3 (fun j => Jac i j * v1UCart j).
Definition v2U (i : nat) : R := s3 (fun j => Jac i j * v2UCart j).
(** Step 2.g, l.102-115 *)
Definition v3U (a : nat) : R := s3 (fun b => s3 (fun c => s3 (fun d => sqrt detgamma * gammaUU a d * eps3 d b c * v1U b * v2U c))).
(** v_vectorDU, l.129-138, with the entry [i] in 0..2, and update_omega, l.140-156, which overwrites omegaDD[i][j] *)
Definition v_vectorDU (v1 v2 v3 : nat -> R) (i a : nat) : R := match i with 0%nat => v1 a | 1%nat => v2 a | _ => v3 a end.
Definition omega (i j : nat) (v1 v2 v3 : nat -> R) : R :=
  s3 (fun a => s3 (fun b => v_vectorDU v1 v2 v3 i a * v_vectorDU v1 v2 v3 j b * gammaDD a b)).
(** Step 2.i, l.158-187 *)
Definition e1U (a : nat) : R := v1U a / sqrt (omega 0 0 v1U v2U v3U).
Definition e2U_orth (a : nat) : R := v2U a - omega 0 1 e1U v2U v3U * e1U a.
Definition e2U (a : nat) : R := e2U_orth a / sqrt (omega 1 1 e1U e2U_orth v3U).
Definition e3U_orth (a : nat) : R := v3U a - omega 0 2 e1U e2U v3U * e1U a - omega 1 2 e1U e2U v3U * e2U a.
Definition e3U (a : nat) : R := e3U_orth a / sqrt (omega 2 2 e1U e2U e3U_orth).

(** Step 2.j, l.189-238 *)
Variables (use_metric_to_construct_unit_normal : bool) (alpha : R) (betaU : nat -> R) (M_SQRT1_2 : R).
Definition r4U (mu : nat) : R := match mu with 0%nat => 0 | S a => e2U a end.
Definition theta4U (mu : nat) : R := match mu with 0%nat => 0 | S a => e3U a end.
Definition phi4U (mu : nat) : R := match mu with 0%nat => 0 | S a => e1U a end.
Definition u4U (mu : nat) : R :=
  if use_metric_to_construct_unit_normal then match mu with 0%nat => 1 / alpha | S i => - betaU i / alpha end
  else match mu with 0%nat => 1 | S _ => 0 end.
Definition l4U (mu : nat) : R := M_SQRT1_2 * (u4U mu + r4U mu).
Definition n4U (mu : nat) : R := M_SQRT1_2 * (u4U mu - r4U mu).
Definition mre4U (mu : nat) : R := M_SQRT1_2 * theta4U mu.
Definition mim4U (mu : nat) : R := M_SQRT1_2 * phi4U mu.
End Tetrad.
(** Step 1.c, l.42-47 *)
Definition tetrad_supported (tetrad : string) : py unit := if String.eqb tetrad "quasiKinnersley" then Ok tt else Err ValueError.

(** ** psi4.py *)
Section Psi4.
(** the arrays of BSSN_to_ADM *)
Variables (gammaDD gammaUU KDD : nat -> nat -> R) (A_gammaDDdDD : nat -> nat -> nat -> nat -> R) (A_GammaUDD A_KDDdD : nat -> nat -> nat -> R).
(** gammaDDdDD, GammaUDD and KDDdD are declared as symbols with symmetries sym01_sym23, sym12 and sym01, l.64-65, l.109: an entry is the
    symbol with ordered indices (C20), whose value is the entry of the array with these indices (l.300-333) *)
Definition gammaDDdDD (i j k l : nat) : R := A_gammaDDdDD (Nat.min i j) (Nat.max i j) (Nat.min k l) (Nat.max k l).
Definition GammaUDD (i j k : nat) : R := A_GammaUDD i (Nat.min j k) (Nat.max j k).
Definition KDDdD (i j k : nat) : R := A_KDDdD (Nat.min i j) (Nat.max i j) k.
(** Step 2, l.66-89 *)
Definition RDDDD (i k l m : nat) : R :=
  1 / 2 * (gammaDDdDD i m k l + gammaDDdDD k l i m - gammaDDdDD i l k m - gammaDDdDD k m i l)
  + s3 (fun n => s3 (fun p => gammaDD n p * (GammaUDD n k l * GammaUDD p i m - GammaUDD n k m * GammaUDD p i l))).
(** Step 3, l.91-104 *)
Definition rank4term1DDDD (i j k l : nat) : R := RDDDD i j k l + KDD i k * KDD l j - KDD i l * KDD k j.
(** Step 4, l.106-132 *)
Definition rank3term2DDD (j k l : nat) : R :=
  (1 / 2 * (KDDdD j k l - KDDdD j l k) + s3 (fun p => 1 / 2 * (GammaUDD p j k * KDD l p - GammaUDD p j l * KDD k p))) * -8.
(** Step 5, l.134-170 *)
Definition RDD (j l : nat) : R := s3 (fun i => s3 (fun m => gammaUU i m * RDDDD i j m l)).
Definition KUD (p l : nat) : R := s3 (fun i => gammaUU p i * KDD i l).
Definition trK : R := s3 (fun i => s3 (fun j => gammaUU i j * KDD i j)).
Definition rank2term3DD (j l : nat) : R := (RDD j l + trK * KDD j l + s3 (fun p => - KDD j p * KUD p l)) * 4.
(** Step 6, l.172-286 *)
Variables (n Mre Mim : nat -> R).
Definition tetrad_product__Real_psi4 (mu nu eta delta : nat) : R := n mu * Mre nu * n eta * Mre delta - n mu * Mim nu * n eta * Mim delta.
Definition tetrad_product__Imag_psi4 (mu nu eta delta : nat) : R := - n mu * Mre nu * n eta * Mim delta - n mu * Mim nu * n eta * Mre delta.
Definition psi4_piece1 (tp : nat -> nat -> nat -> nat -> R) : R :=
  s3 (fun i => s3 (fun j => s3 (fun k => s3 (fun l => rank4term1DDDD i j k l * tp (i + 1)%nat (j + 1)%nat (k + 1)%nat (l + 1)%nat)))).
Definition psi4_piece2 (tp : nat -> nat -> nat -> nat -> R) : R :=
  s3 (fun j => s3 (fun k => s3 (fun l => rank3term2DDD j k l * (1 / 2) * (tp 0%nat (j + 1)%nat (k + 1)%nat (l + 1)%nat - tp (j + 1)%nat 0%nat (k + 1)%nat (l + 1)%nat)))).
Definition psi4_piece3 (tp : nat -> nat -> nat -> nat -> R) : R :=
  s3 (fun j => s3 (fun l => rank2term3DD j l * (1 / 4 *
    (tp 0%nat (j + 1)%nat 0%nat (l + 1)%nat - tp (j + 1)%nat 0%nat 0%nat (l + 1)%nat - tp 0%nat (j + 1)%nat (l + 1)%nat 0%nat + tp (j + 1)%nat 0%nat (l + 1)%nat 0%nat)))).
Definition psi4_of (tp : nat -> nat -> nat -> nat -> R) : R := psi4_piece1 tp + psi4_piece2 tp + psi4_piece3 tp.
Definition psi4_re : R := psi4_of tetrad_product__Real_psi4.
Definition psi4_im : R := psi4_of tetrad_product__Imag_psi4.
End Psi4.

(** l.299-347: the lists that link the C functions; [expr] names the array entry that is the expression *)
Local Open Scope string_scope.
Local Open Scope nat_scope.
Definition dig (n : nat) : string := str_of_nat n.
Inductive dexpr : Type := E_gammaDDdDD (i j k l : nat) | E_GammaUDD (i j k : nat) | E_KDDdD (i j k : nat).
Definition r3 : list nat := [0; 1; 2].
Definition rfrom (i : nat) : list nat := filter (fun j => Nat.leb i j) r3.
(** (varname, varname_arr, expr) in the order in which they are appended *)
Definition metric_derivs : list (string * string * dexpr) :=
  flat_map (fun i => flat_map (fun j => flat_map (fun k => map (fun l =>
    ("gammaDDdDD" ++ dig i ++ dig j ++ dig k ++ dig l, "arr_gammaDDdDD[" ++ dig (l + 3 * (k + 3 * (j + 3 * i))) ++ "]", E_gammaDDdDD i j k l)) (rfrom k)) r3) (rfrom i)) r3 ++
  flat_map (fun i => flat_map (fun j => map (fun k =>
    ("GammaUDD" ++ dig i ++ dig j ++ dig k, "arr_GammaUDD[" ++ dig (k + 3 * (j + 3 * i)) ++ "]", E_GammaUDD i j k)) (rfrom j)) r3) r3 ++
  flat_map (fun i => flat_map (fun j => map (fun k =>
    ("KDDdD" ++ dig i ++ dig j ++ dig k, "arr_KDDdD[" ++ dig (k + 3 * (j + 3 * i)) ++ "]", E_KDDdD i j k)) r3) (rfrom i)) r3.
Definition metric_deriv_unpack_arrays : string :=
  fold_left (fun s v => s ++ fst (fst v) ++ " = " ++ snd (fst v) ++ ";" ++ String (Ascii.ascii_of_nat 10) "") metric_derivs "".
