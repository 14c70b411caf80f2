(** Model of nrpy/equations/grhd: Min_Max_and_Piecewise_Expressions.py, characteristic_speeds.py, GRHD_equations.py and
    HLL_fluxes.py.  Simplification: SymPy expressions are replaced by their values (sp.together is then the identity), and
    nrpyAbs is the absolute value.  A division whose divisor may be 0 is real division, so that theorems carry the divisor
    as a hypothesis; the places where it can be 0 are stated as theorems of their own. *)
From Coq Require Import List Arith Bool Reals.
From Verif Require Import PyBase Inverter GRMetric BSSN T4munu.
Import ListNotations.
Local Open Scope R_scope.

(** * Min_Max_and_Piecewise_Expressions.py *)
(** An argument of min_noif and max_noif: the number 0, for which `a == sp.sympify(0)' holds, or any other expression. *)
Inductive arg : Type := Zero | Expr (x : R).
Definition aval (a : arg) : R := match a with Zero => 0 | Expr x => x end.
(** min_noif, l.21-34 *)
Definition min_noif (a b : arg) : R :=
  match a, b with
  | Zero, _ => 1 / 2 * (aval b - Rabs (aval b))
  | _, Zero => 1 / 2 * (aval a - Rabs (aval a))
  | _, _ => 1 / 2 * (aval a + aval b - Rabs (aval a - aval b))
  end.
(** max_noif, l.37-50 *)
Definition max_noif (a b : arg) : R :=
  match a, b with
  | Zero, _ => 1 / 2 * (aval b + Rabs (aval b))
  | _, Zero => 1 / 2 * (aval a + Rabs (aval a))
  | _, _ => 1 / 2 * (aval a + aval b + Rabs (aval a - aval b))
  end.
(** The bounds divide; [None] is 0/0, which C evaluates to NaN. *)
Definition quot (n d : R) : option R := if Req_EM_T d 0 then None else Some (n / d).
Section Bounds.
Variable TINYDOUBLE : R.
(** coord_leq_bound, l.53-62 *)
Definition coord_leq_bound (x xstar : R) : option R :=
  quot (min_noif (Expr (x - xstar - TINYDOUBLE)) Zero) (x - xstar - TINYDOUBLE).
(** coord_geq_bound, l.65-74 *)
Definition coord_geq_bound (x xstar : R) : option R :=
  quot (max_noif (Expr (x - xstar + TINYDOUBLE)) Zero) (x - xstar + TINYDOUBLE).
(** coord_less_bound, l.77-86 *)
Definition coord_less_bound (x xstar : R) : option R :=
  quot (min_noif (Expr (x - xstar)) Zero) (x - xstar - TINYDOUBLE).
(** coord_greater_bound, l.89-98 *)
Definition coord_greater_bound (x xstar : R) : option R :=
  quot (max_noif (Expr (x - xstar)) Zero) (x - xstar + TINYDOUBLE).
End Bounds.

(** * characteristic_speeds.py *)
(** find_cp_cm, l.18-64: (cminus, cplus) *)
Definition quad_a (g4UU : mat R) (u4U : nat -> R) (cs2 : R) : R := (1 - cs2) * u4U 0%nat ^ 2 - cs2 * g4UU 0%nat 0%nat.
Definition quad_b (d : nat) (g4UU : mat R) (u4U : nat -> R) (cs2 : R) : R :=
  2 * cs2 * g4UU (d + 1)%nat 0%nat - 2 * u4U (d + 1)%nat * u4U 0%nat * (1 - cs2).
Definition quad_c (d : nat) (g4UU : mat R) (u4U : nat -> R) (cs2 : R) : R :=
  (1 - cs2) * u4U (d + 1)%nat ^ 2 - cs2 * g4UU (d + 1)%nat (d + 1)%nat.
Definition find_cp_cm (flux_dirn : nat) (g4UU : mat R) (u4U : nat -> R) (cs2 : R) : R * R :=
  let a := quad_a g4UU u4U cs2 in
  let b := quad_b flux_dirn g4UU u4U cs2 in
  let c := quad_c flux_dirn g4UU u4U cs2 in
  let detm := b * b - 4 * a * c in
  let detm := sqrt (max_noif Zero (Expr detm)) in
  let cplus_tmp := 1 / 2 * (- b / a + detm / a) in
  let cminus_tmp := 1 / 2 * - (b / a + detm / a) in
  (min_noif (Expr cplus_tmp) (Expr cminus_tmp), max_noif (Expr cplus_tmp) (Expr cminus_tmp)).
Definition ADM_to_g4UU_R : mat R -> (nat -> R) -> R -> option (mat R) -> py (mat R) :=
  ADM_to_g4UU R 0 1 Rplus Rmult Rminus Rdiv Ropp reqb.
Definition ADM_to_g4DD_R : mat R -> (nat -> R) -> R -> mat R := ADM_to_g4DD R 0 Rplus Rmult Ropp.
(** find_cmax_cmin, l.67-117: (cmin, cmax) *)
Definition find_cmax_cmin (flux_dirn : nat) (gamma_faceDD : mat R) (beta_faceU : nat -> R) (alpha_face : R)
    (u4U_r u4U_l : nat -> R) (cs2_r cs2_l : R) : py (R * R) :=
  py_bind (ADM_to_g4UU_R gamma_faceDD beta_faceU alpha_face None) (fun g4UU =>
  let r := find_cp_cm flux_dirn g4UU u4U_r cs2_r in
  let l := find_cp_cm flux_dirn g4UU u4U_l cs2_l in
  let cmax := max_noif Zero (Expr (max_noif (Expr (snd l)) (Expr (snd r)))) in
  let cmin := - min_noif Zero (Expr (min_noif (Expr (fst l)) (Expr (fst r)))) in
  Ok (cmin, cmax)).

(** * GRHD_equations.py *)
(** The quantities an object of class GRHD_Equations holds after __init__ (l.38-134). *)
Record grhd : Type := MkHydro {
  h_alpha : R; h_betaU : nat -> R; h_gammaDD : mat R; h_e6phi : R; h_KDD : mat R;
  h_alpha_dD : nat -> R; h_betaU_dD : nat -> nat -> R;                         (* betaU_dD[j][i] is the derivative in direction i *)
  h_exp_m4phi : R; h_gammabarDD : mat R; h_gammabarDD_dD : nat -> nat -> nat -> R; h_phi_dD : nat -> R;
  h_GammahatUDD : nat -> nat -> nat -> R; h_ReU : nat -> R;
  h_rho_b : R; h_P : R; h_h : R; h_Ye : R; h_u4U : nat -> R; h_VU : nat -> R }.
(** l.93 *)
Definition e6phi_of (exp_m4phi : R) : R := Rpower (Rpower exp_m4phi (1 / 2)) (-3).
(** l.75-80: the velocity and the four-velocity from the rescaled velocity and u^0 *)
Definition VU_of (rescaledvU ReU : nat -> R) (i : nat) : R := rescaledvU i * ReU i.
Definition u4U_of (u4Ut : R) (VU : nat -> R) (mu : nat) : R := match mu with O => u4Ut | S i => VU i * u4Ut end.

(** compute_T4UU, l.136-161 *)
Definition T4UU_of (x : grhd) (g4UU : mat R) : mat R := fun mu nu =>
  h_rho_b x * h_h x * h_u4U x mu * h_u4U x nu + h_P x * g4UU mu nu.
Definition compute_T4UU (x : grhd) : py (mat R) :=
  py_bind (ADM_to_g4UU_R (h_gammaDD x) (h_betaU x) (h_alpha x) None) (fun g4UU => Ok (T4UU_of x g4UU)).
(** l.163-174 *)
Definition rescaledT4UU (x : grhd) (T4UU : mat R) : mat R := fun mu nu =>
  match mu, nu with
  | O, O => T4UU O O
  | O, S n => T4UU O (S n) / h_ReU x n
  | S m, O => T4UU O (S m) / h_ReU x m
  | S m, S n => T4UU (S m) (S n) / (h_ReU x m * h_ReU x n)
  end.
(** compute_T4UD, l.176-198 *)
Definition T4UD_of (x : grhd) (T4UU : mat R) : mat R := fun mu nu =>
  s4 (fun delta => T4UU mu delta * ADM_to_g4DD_R (h_gammaDD x) (h_betaU x) (h_alpha x) delta nu).
(** l.200-213 *)
Definition rescaledT4UD (x : grhd) (T4UD : mat R) : mat R := fun mu nu =>
  match mu, nu with
  | O, O => T4UD O O
  | O, S n => T4UD O (S n) * h_ReU x n
  | S m, O => T4UD (S m) O / h_ReU x m
  | S m, S n => T4UD (S m) (S n) * (h_ReU x n / h_ReU x m)
  end.
(** compute_rho_star, l.220-228 *)
Definition rho_star (x : grhd) : R := h_alpha x * h_e6phi x * h_rho_b x * h_u4U x 0%nat.
(** compute_Ye_star, l.230-239 *)
Definition Ye_star (x : grhd) : R := h_Ye x * h_alpha x * h_e6phi x * h_rho_b x * h_u4U x 0%nat.
(** compute_tau_tilde, l.241-248 *)
Definition tau_tilde (x : grhd) (T4UU : mat R) : R := h_alpha x ^ 2 * h_e6phi x * T4UU 0%nat 0%nat - rho_star x.
(** compute_S_tildeD, l.250-262 *)
Definition S_tildeD (x : grhd) (T4UD : mat R) (i : nat) : R := h_alpha x * h_e6phi x * T4UD 0%nat (i + 1)%nat.
Definition rescaledS_tildeD (x : grhd) (T4UD : mat R) (i : nat) : R :=
  h_alpha x * h_e6phi x * rescaledT4UD x T4UD 0%nat (i + 1)%nat.
(** compute_vU_from_u4U__no_speed_limit, l.266-272 *)
Definition VU_from_u4U (x : grhd) (j : nat) : R := h_u4U x (j + 1)%nat / h_u4U x 0%nat.
(** compute_rho_star_fluxU, l.274-285 *)
Definition rho_star_fluxU (x : grhd) (j : nat) : R := rho_star x * h_VU x j.
Definition rescaled_rho_star_fluxU (x : grhd) (j : nat) : R := rho_star_fluxU x j / h_ReU x j.
(** compute_Ye_star_fluxU, l.287-298 *)
Definition Ye_star_fluxU (x : grhd) (j : nat) : R := Ye_star x * h_VU x j.
Definition rescaled_Ye_star_fluxU (x : grhd) (j : nat) : R := Ye_star_fluxU x j / h_ReU x j.
(** compute_tau_tilde_fluxU, l.300-317 *)
Definition tau_tilde_fluxU (x : grhd) (T4UU : mat R) (j : nat) : R :=
  h_alpha x ^ 2 * h_e6phi x * T4UU 0%nat (j + 1)%nat - rho_star x * h_VU x j.
Definition rescaled_tau_tilde_fluxU (x : grhd) (T4UU : mat R) (j : nat) : R :=
  h_alpha x ^ 2 * h_e6phi x * rescaledT4UU x T4UU 0%nat (j + 1)%nat - rho_star x * h_VU x j / h_ReU x j.
(** compute_S_tilde_fluxUD, l.319-332 *)
Definition S_tilde_fluxUD (x : grhd) (T4UD : mat R) (j i : nat) : R := h_alpha x * h_e6phi x * T4UD (j + 1)%nat (i + 1)%nat.
Definition rescaled_S_tilde_fluxUD (x : grhd) (T4UD : mat R) (j i : nat) : R :=
  h_alpha x * h_e6phi x * rescaledT4UD x T4UD (j + 1)%nat (i + 1)%nat.
(** compute_tau_source_term, l.334-358 *)
Definition tau_source_term (x : grhd) (T : mat R) : R :=
  (s3 (fun i => s3 (fun j => (T 0%nat 0%nat * h_betaU x i * h_betaU x j + 2 * T 0%nat (i + 1)%nat * h_betaU x j
                              + T (i + 1)%nat (j + 1)%nat) * h_KDD x i j))
   + s3 (fun i => - (T 0%nat 0%nat * h_betaU x i + T 0%nat (i + 1)%nat) * h_alpha_dD x i))
  * (h_alpha x * h_e6phi x).
(** compute_rho_star__Ye_star__and_tau_connection_terms, l.360-375 *)
Definition connection_term (x : grhd) (fluxU : nat -> R) : R :=
  s3 (fun i => s3 (fun j => h_GammahatUDD x i i j * fluxU j)).
Definition rho_star_connection_term (x : grhd) : R := connection_term x (rho_star_fluxU x).
Definition Ye_star_connection_term (x : grhd) : R := connection_term x (Ye_star_fluxU x).
Definition tau_connection_term (x : grhd) (T4UU : mat R) : R := connection_term x (tau_tilde_fluxU x T4UU).
(** compute_S_tilde_connection_termsD, l.377-386 *)
Definition S_tilde_connection_termsD (x : grhd) (T4UD : mat R) (i : nat) : R :=
  s3 (fun j => s3 (fun l => h_GammahatUDD x j j l * S_tilde_fluxUD x T4UD l i - h_GammahatUDD x l j i * S_tilde_fluxUD x T4UD j l)).
(** compute_S_tilde_source_termD, l.388-438 *)
(** l.403-415 *)
Definition covhatdD_gammaDD (x : grhd) (i j k : nat) : R :=
  / h_exp_m4phi x * (4 * h_gammabarDD x j k * h_phi_dD x i + h_gammabarDD_dD x j k i)
  - s3 (fun l => / h_exp_m4phi x * (h_GammahatUDD x l i j * h_gammabarDD x l k + h_GammahatUDD x l i k * h_gammabarDD x j l)).
(** l.417-433 *)
Definition first_termD (x : grhd) (T : mat R) (i : nat) : R := - (T 0%nat 0%nat * h_alpha x * h_alpha_dD x i).
Definition second_termD (x : grhd) (T4UD : mat R) (i : nat) : R :=
  s3 (fun j => T4UD 0%nat (j + 1)%nat * h_betaU_dD x j i
               + s3 (fun k => T4UD 0%nat (j + 1)%nat * h_GammahatUDD x j i k * h_betaU x k)).
Definition third_termD (x : grhd) (T : mat R) (i : nat) : R :=
  s3 (fun j => s3 (fun k => 1 / 2 * covhatdD_gammaDD x i j k
    * (T 0%nat 0%nat * h_betaU x j * h_betaU x k + 2 * T 0%nat (j + 1)%nat * h_betaU x k + T (j + 1)%nat (k + 1)%nat))).
(** l.435-438 *)
Definition S_tilde_source_termD (x : grhd) (T4UU T4UD : mat R) (i : nat) : R :=
  h_alpha x * h_e6phi x * (first_termD x T4UU i + second_termD x T4UD i + third_termD x T4UU i).

(** * HLL_fluxes.py *)
(** The object that calculate_GRHD_Tmunu_and_contractions (l.64-78) fills in: the Cartesian one with the given quantities;
    VU is VU_from_u4U.  The fields that the called methods do not read keep the values of [x0]. *)
Definition face_state (x0 : grhd) (gammaDD : mat R) (betaU : nat -> R) (alpha e6phi rho_b Ye P h : R) (u4U : nat -> R) : grhd :=
  MkHydro alpha betaU gammaDD e6phi (h_KDD x0) (h_alpha_dD x0) (h_betaU_dD x0) (h_exp_m4phi x0) (h_gammabarDD x0)
    (h_gammabarDD_dD x0) (h_phi_dD x0) (h_GammahatUDD x0) (h_ReU x0) rho_b P h Ye u4U
    (fun j => u4U (j + 1)%nat / u4U 0%nat).
(** a conserved quantity and its flux *)
Record state : Type := MkState {
  U_rho_star : R; F_rho_star : R; U_Ye_star : R; F_Ye_star : R; U_tau_tilde : R; F_tau_tilde : R;
  U_S_tildeD : nat -> R; F_S_tildeD : nat -> R }.
(** calculate_GRHD_Tmunu_and_contractions, l.18-117 *)
Definition Tmunu_and_contractions (flux_dirn : nat) (x : grhd) : py state :=
  py_bind (compute_T4UU x) (fun T =>
  let TD := T4UD_of x T in
  Ok (MkState (rho_star x) (rho_star_fluxU x flux_dirn) (Ye_star x) (Ye_star_fluxU x flux_dirn)
        (tau_tilde x T) (tau_tilde_fluxU x T flux_dirn) (S_tildeD x TD) (S_tilde_fluxUD x TD flux_dirn))).
(** HLL_solver, l.120-139 *)
Definition HLL_solver (cmax cmin Fr Fl Ur Ul : R) : R := (cmin * Fr + cmax * Fl - cmin * cmax * (Ur - Ul)) / (cmax + cmin).
(** calculate_HLL_fluxes, l.142-262, for the states [xr] and [xl] of the two sides, which share the metric *)
Definition calculate_HLL_fluxes (flux_dirn : nat) (xr xl : grhd) (cs2_r cs2_l : R) : py (R * R * R * (nat -> R)) :=
  py_bind (Tmunu_and_contractions flux_dirn xr) (fun r =>
  py_bind (Tmunu_and_contractions flux_dirn xl) (fun l =>
  py_bind (find_cmax_cmin flux_dirn (h_gammaDD xr) (h_betaU xr) (h_alpha xr) (h_u4U xr) (h_u4U xl) cs2_r cs2_l) (fun c =>
  let cmin := fst c in
  let cmax := snd c in
  Ok (HLL_solver cmax cmin (F_rho_star r) (F_rho_star l) (U_rho_star r) (U_rho_star l),
      HLL_solver cmax cmin (F_Ye_star r) (F_Ye_star l) (U_Ye_star r) (U_Ye_star l),
      HLL_solver cmax cmin (F_tau_tilde r) (F_tau_tilde l) (U_tau_tilde r) (U_tau_tilde l),
      fun m => HLL_solver cmax cmin (F_S_tildeD r m) (F_S_tildeD l m) (U_S_tildeD r m) (U_S_tildeD l m))))).
