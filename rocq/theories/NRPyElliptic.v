(** Model of nrpy/equations/nrpyelliptic: ConformallyFlat_SourceTerms.py (two Bowen-York punctures) and ConformallyFlat_RHSs.py (the
    hyperbolic relaxation equation).  Cartx, Carty, Cartz are the variables xx 0-2 of RefMetric.v; as the expressions put in their place
    contain none of them, replacing them one after the other is replacing them at once ([subst]).  Registration is left out. *)
From Coq Require Import String List ZArith Bool Arith Reals.
From Verif Require Import PyBase RefMetric WaveEquation.
Import ListNotations.
Local Open Scope string_scope.
Local Open Scope nat_scope.

(** CommonParams.py l.26-54 *)
Definition bare_mass (n : nat) : ex := Par (match n with 0 => "bare_mass_0" | _ => "bare_mass_1" end).
Definition zPunc : ex := Par "zPunc".
Definition PU (n i : nat) : ex :=
  Par (match n, i with 0, 0 => "P0_x" | 0, 1 => "P0_y" | 0, _ => "P0_z" | _, 0 => "P1_x" | _, 1 => "P1_y" | _, _ => "P1_z" end).
Definition SU (n i : nat) : ex :=
  Par (match n, i with 0, 0 => "S0_x" | 0, 1 => "S0_y" | 0, _ => "S0_z" | _, 0 => "S1_x" | _, 1 => "S1_y" | _, _ => "S1_z" end).
(** Steps 2 and 3, ConformallyFlat_SourceTerms.py l.41-52: xxCart, x0U, x1U *)
Definition xxCart (i : nat) : ex := XX i.
Definition xU (n i : nat) : ex :=
  match i with 2 => match n with 0 => ssub (xxCart 2) zPunc | _ => sadd (xxCart 2) zPunc end | _ => xxCart i end.

Definition sumex (f : nat -> ex) : ex := fold_left (fun acc i => sadd acc (f i)) [0; 1; 2] (Num 0).
(** dot, l.113-128 *)
Definition dot (a b : nat -> ex) : ex := sumex (fun i => smul (a i) (b i)).
(** LeviCivitaSymbol_dim3_rank3, nrpy/indexedexp.py l.1210-1237, as used in cross; its entries are the integers below *)
Definition levi (i j k : nat) : Z :=
  let z := Z.of_nat in (((z i - z j) * (z j - z k) * (z k - z i)) / 2)%Z.
(** cross, l.130-148 *)
Definition cross (a b : nat -> ex) (i : nat) : ex :=
  fold_left (fun acc j => fold_left (fun acc k => sadd acc (smul (smul (Num (levi i j k)) (a j)) (b k))) [0; 1; 2] acc) [0; 1; 2] (Num 0).
(** the distance, l.162-165 and l.296-299 *)
Definition rad (x : nat -> ex) : ex := Sqrt (sumex (fun i => spow (x i) 2)).
(** VU_cart_single_puncture, l.150-174 *)
Definition VU_cart_single_puncture (x P S : nat -> ex) (i : nat) : ex :=
  let r := rad x in
  sadd (Num 0) (sadd (sadd (sdiv (smul (frac (-7) 4) (P i)) r) (sdiv (smul (smul (frac (-1) 4) (dot x P)) (x i)) (spow r 3)))
    (sdiv (cross x S i) (spow r 3))).
(** VU_cart_two_punctures, l.89-185 *)
Definition VU_cart_two_punctures (i : nat) : ex :=
  sadd (VU_cart_single_puncture (xU 0) (PU 0) (SU 0) i) (VU_cart_single_puncture (xU 1) (PU 1) (SU 1) i).
(** kronecker_delta, l.219-229, as it is in the source: 0 on the diagonal and 1 off it *)
Definition kronecker_delta (i j : nat) : ex := if Nat.eqb i j then Num 0 else Num 1.
(** ADD_conf_cartesian, l.188-240 *)
Definition V_cart_div (V : nat -> ex) : ex := sumex (fun i => diff i (V i)).
Definition ADD_conf_cartesian (V : nat -> ex) (i j : nat) : ex :=
  ssub (sadd (diff j (V i)) (diff i (V j))) (smul (smul (frac 2 3) (kronecker_delta i j)) (V_cart_div V)).
(** ADD_times_AUU_conf_cartesian, l.243-262 *)
Definition ADD_times_AUU_conf_cartesian (A : nat -> nat -> ex) : ex :=
  fold_left (fun acc i => fold_left (fun acc j => sadd acc (smul (A i j) (A i j))) [0; 1; 2] acc) [0; 1; 2] (Num 0).
(** psi_background_cartesian_single_puncture, l.284-303 *)
Definition psi_single (m : ex) (x : nat -> ex) : ex := sdiv m (smul (Num 2) (rad x)).
(** psi_background_cartesian, l.265-310 *)
Definition psi_background_cartesian : ex := sadd (sadd (Num 1) (psi_single (bare_mass 0) (xU 0))) (psi_single (bare_mass 1) (xU 1)).
(** replace_cart_coord_by_xx, l.73-86 *)
Definition replace_cart_coord_by_xx (to_cart : nat -> ex) (e : ex) : ex := subst to_cart e.
(** compute_psi_background_and_ADD_times_AUU, l.28-69 *)
Definition ADD_conf_cart : nat -> nat -> ex := ADD_conf_cartesian VU_cart_two_punctures.
Definition compute_psi_background_and_ADD_times_AUU (to_cart : nat -> ex) : ex * ex :=
  (replace_cart_coord_by_xx to_cart psi_background_cartesian,
   replace_cart_coord_by_xx to_cart (ADD_times_AUU_conf_cartesian ADD_conf_cart)).

(** ** HyperbolicRelaxationCurvilinearRHSs.__init__, ConformallyFlat_RHSs.py l.29-136: (uu_rhs, vv_rhs, residual) *)
Local Open Scope R_scope.
Definition relaxation_residual (uu psi AA : R) (guu : nat -> nat -> R) (gam : nat -> nat -> nat -> R) (uD : nat -> R) (uDD : nat -> nat -> R) : R :=
  laplacian guu gam uD uDD + 1 / 8 * AA * (/ (psi + uu) ^ 7).
Definition relaxation_rhs (eta uu vv speed psi AA : R) (guu : nat -> nat -> R) (gam : nat -> nat -> nat -> R) (uD : nat -> R) (uDD : nat -> nat -> R)
  : R * R * R :=
  let residual := relaxation_residual uu psi AA guu gam uD uDD in
  (vv - eta * uu, residual * (speed * speed), residual).
