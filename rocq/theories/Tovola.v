(** Model of the C code of nrpy/infrastructures/BHaH/general_relativity/TOVola/TOVola_solve.py and TOVola_interp.py: equation of state, right-hand
    sides, the tables and their growth, extension to r < 0, normalisation, bisection, Lagrange interpolation and the initial data.  REAL is the
    real numbers; a nan is [None].  Left out: the GSL integrator (its results are the tables), printing, failures of malloc. *)
From Coq Require Import List ZArith Bool Arith Reals.
From Verif Require Import TOVEquations.
Import ListNotations.
Local Open Scope R_scope.

(** ** TOVola_solve.py *)
(** C's pow for the exponents of the code; a base below 0 gives a nan (the exponent not being an integer) *)
Definition cpow (x y : R) : option R :=
  if Rlt_dec 0 x then Some (Rpower x y) else if Req_EM_T x 0 then (if Rlt_dec 0 y then Some 0 else None) else None.
(** C division; x / 0 is not a number that can be used further *)
Definition cdiv (x y : R) : option R := if Req_EM_T y 0 then None else Some (x / y).
(** TOVola_evaluate_rho_and_eps, l.91-120, with ghl_hybrid_get_K_and_Gamma and ghl_hybrid_compute_P_cold_and_eps_cold, l.51-64: rho_baryon and
    rho_energy for a pressure *)
Definition evaluate_rho_and_eps (K Gamma P : R) : option R * option R :=
  let rho_baryon := cpow (P / K) (1 / Gamma) in
  let rho_energy := match rho_baryon with
    | Some rb => match cpow rb Gamma with
                 | Some a => match cdiv (K * a) ((Gamma - 1) * rb) with Some eps => Some (rb * (1 + eps)) | None => None end
                 | None => None
                 end
    | None => None
    end in
  (rho_baryon, rho_energy).
(** the variables y[0..3]: pressure, nu, mass, isotropic radius, l.21-25 *)
Record ode_state : Type := MkY { y_P : R; y_nu : R; y_M : R; y_r_iso : R }.
(** TOVola_ODE, l.123-168, without the lengthscale *)
Definition TOVola_ODE (K Gamma r_Schw : R) (y : ode_state) : ode_state :=
  let rho_energy := match snd (evaluate_rho_and_eps K Gamma (y_P y)) with Some e => e | None => 0 end in
  if Req_EM_T r_Schw 0 then MkY 0 0 0 1
  else MkY (dP_dr r_Schw rho_energy (y_P y) (y_M y)) (dnu_dr r_Schw (y_P y) (y_M y)) (dM_dr r_Schw rho_energy) (dr_iso_dr r_Schw (y_r_iso y) (y_M y)).
(** TOVola_get_initial_condition, l.178-194: the state and rho_energy, for a positive central density *)
Definition get_initial_condition (K Gamma rhoC : R) : ode_state * R :=
  let P := K * Rpower rhoC Gamma in (MkY P 0 0 0, Rpower (P / K) (1 / Gamma) + P / (Gamma - 1)).

Definition NEGATIVE_R_INTERP_BUFFER : nat := 11.
(** one pass of the integration loop, l.375-427, as far as the memory goes: the state is (numpoints_actually_saved, numels_alloced_TOV_arr); the second
    component of the result is the index that is stored to, with the size of the arrays then *)
Definition save_step (s : nat * nat) : (nat * nat) * (nat * nat) :=
  let '(saved, alloced) := s in
  let alloced' := if (alloced <=? saved + NEGATIVE_R_INTERP_BUFFER + 1)%nat then (3 * alloced / 2)%nat else alloced in
  ((S saved, alloced'), (saved, alloced')).
Fixpoint save_steps (n : nat) (s : nat * nat) : (nat * nat) * list (nat * nat) :=
  match n with
  | O => (s, [])
  | S k => let '(s1, w) := save_step s in let '(s2, ws) := save_steps k s1 in (s2, w :: ws)
  end.
(** l.366: the arrays start empty with 1024 elements *)
Definition saved_after (n : nat) := save_steps n (0%nat, 1024%nat).

(** extend_to_negative_r, l.330-334, on the stored part of an array; [None]: elements are read that were never stored *)
Definition extend_to_negative_r (parity : R) (arr : list R) : option (list R) :=
  if (List.length arr <? NEGATIVE_R_INTERP_BUFFER)%nat then None
  else Some (map (fun i => parity * nth (NEGATIVE_R_INTERP_BUFFER - i - 1) arr 0) (seq 0 NEGATIVE_R_INTERP_BUFFER) ++ arr).
(** the parities of the seven arrays, l.451-457 *)
Definition parity_r_Schw : R := -1.
Definition parity_rho_energy : R := 1.
Definition parity_rho_baryon : R := 1.
Definition parity_P : R := 1.
Definition parity_M : R := 1.
Definition parity_nu : R := 1.
Definition parity_r_iso : R := -1.

(** TOVola_Normalize_and_set_data_integrated, l.290-327, on arrays of n >= 2 elements *)
Section Normalize.
Variables (n : nat) (r_Schw M nu r_iso : nat -> R).
Definition R_Schw_surface : R := r_Schw (n - 1)%nat.
Definition M_surface : R := M (n - 1)%nat.
Definition r_iso_surface : R := r_iso (n - 1)%nat.
Definition nu_surface : R := nu (n - 1)%nat.
Definition normalize : R := / 2 * (sqrt (R_Schw_surface * (R_Schw_surface - 2 * M_surface)) + R_Schw_surface - M_surface) / r_iso_surface.
Definition set_r_iso (i : nat) : R := r_iso i * normalize.
Definition set_expnu (i : nat) : R := exp (nu i - nu_surface + ln (1 - 2 * M_surface / R_Schw_surface)).
Definition set_exp4phi (i : nat) : R := r_Schw i / set_r_iso i * (r_Schw i / set_r_iso i).
End Normalize.

(** ** TOVola_interp.py *)
(** TOVola_bisection_idx_finder, l.25-57; [None]: exit *)
Section Bisection.
Variables (rr : R) (arr : nat -> R).
Fixpoint bisect (fuel x1 x2 : nat) (y1 : R) : option nat :=
  match fuel with
  | O => None
  | S k =>
      let mid := ((x1 + x2) / 2)%nat in
      let ymid := rr - arr mid in
      let '(x1', y1', x2') := if Rle_dec (ymid * y1) 0 then (x1, y1, mid) else (mid, ymid, x2) in
      if (Nat.max x1' x2' - Nat.min x1' x2' =? 1)%nat
      then (if Rlt_dec (Rabs (rr - arr x1')) (Rabs (rr - arr x2')) then Some x1' else Some x2')
      else bisect k x1' x2' y1'
  end.
Definition bisection_idx_finder (n : nat) : option nat :=
  if Rlt_dec 0 ((rr - arr 0%nat) * (rr - arr (n - 1)%nat)) then None else bisect n 0 (n - 1) (rr - arr 0%nat).
End Bisection.

(** the results of a C function: exit(EXIT_FAILURE), an access outside an array, or a value *)
Inductive cres (A : Type) : Type := CExit | COutside | CVal (a : A).
Arguments CExit {A}. Arguments COutside {A}. Arguments CVal {A} a.

Record tov_tables : Type := MkT { t_n : nat; t_r_Schw : nat -> R; t_rho_energy : nat -> R; t_rho_baryon : nat -> R; t_P : nat -> R; t_M : nat -> R;
  t_expnu : nat -> R; t_exp4phi : nat -> R; t_r_iso : nat -> R }.
Record tov_values : Type := MkV { v_rho_energy : R; v_rho_baryon : R; v_P : R; v_M : R; v_expnu : R; v_exp4phi : R }.
(** the Lagrange coefficients, l.95-111 *)
Definition lagrange (s : nat -> R) (size : nat) (x : R) (i : nat) : R :=
  let numer := fold_left (fun a j => if (j =? i)%nat then a else a * (x - s j)) (seq 0 size) 1 in
  let denom := fold_left (fun a j => if (j =? i)%nat then a else a * (s i - s j)) (seq 0 size) 1 in
  numer / denom.
(** l.114-129, for one of the arrays *)
Definition interpolate (s f : nat -> R) (idxmin size : nat) (x : R) : R :=
  fold_left (fun a i => a + lagrange (fun k => s (idxmin + k)%nat) size x i * f (idxmin + i)%nat) (seq 0 size) 0.
(** the first index of the stencil, l.79-84 *)
Definition stencil_start (n size : nat) (idx_mid : nat) : Z :=
  Z.min (Z.max 0 (Z.of_nat idx_mid - Z.of_nat size / 2 - 1)) (Z.of_nat n - 1 - Z.of_nat size + 1).
(** TOVola_TOV_interpolate_1D, l.60-142; [size] and [max_size] are the parameters interpolation_stencil_size and max_interpolation_stencil_size *)
Definition interpolate_1D (size max_size : nat) (T : tov_tables) (rr : R) : cres tov_values :=
  let R_idx := (t_n T - 1)%nat in
  let M_star := t_M T R_idx in
  if Rlt_dec rr (t_r_iso T R_idx) then
    let rr := if Rlt_dec rr 0 then - rr else rr in
    match bisection_idx_finder rr (t_r_iso T) (t_n T) with
    | None => CExit
    | Some idx_mid =>
        let idxmin := stencil_start (t_n T) size idx_mid in
        if (max_size <? size)%nat then CExit
        else if ((idxmin <? 0) || (Z.of_nat (t_n T) <? idxmin + Z.of_nat size))%Z then COutside
        else let ip f := interpolate (t_r_iso T) f (Z.to_nat idxmin) size rr in
             CVal (MkV (ip (t_rho_energy T)) (ip (t_rho_baryon T)) (ip (t_P T)) (ip (t_M T)) (ip (t_expnu T)) (ip (t_exp4phi T)))
    end
  else
    let r_Schw := rr + M_star + M_star * M_star / (4 * rr) in
    CVal (MkV 0 0 0 M_star (1 - 2 * M_star / r_Schw) (r_Schw * r_Schw / (rr * rr))).

(** the body of TOVola_interp, l.148-198: lapse, spatial metric and energy-momentum tensor in spherical coordinates; shift, B and extrinsic
    curvature are 0 *)
Section Data.
Variables (v : tov_values) (r_iso theta : R).
Definition d_alpha : R := sqrt (v_expnu v).
Definition d_gammaDD (i j : nat) : R :=
  match i, j with
  | 0%nat, 0%nat => v_exp4phi v
  | 1%nat, 1%nat => v_exp4phi v * r_iso * r_iso
  | 2%nat, 2%nat => v_exp4phi v * r_iso * r_iso * sin theta * sin theta
  | _, _ => 0
  end.
Definition d_T4UU (mu nu : nat) : R :=
  match mu, nu with
  | 0%nat, 0%nat => v_rho_energy v / v_expnu v
  | 1%nat, 1%nat => v_P v / v_exp4phi v
  | 2%nat, 2%nat => v_P v / (v_exp4phi v * r_iso * r_iso)
  | 3%nat, 3%nat => v_P v / (v_exp4phi v * r_iso * r_iso * sin theta * sin theta)
  | _, _ => 0
  end.
End Data.
