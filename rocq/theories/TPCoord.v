(** Model of nrpy/infrastructures/BHaH/general_relativity/TwoPunctures/CoordTransf.py: the C functions that take a point of the spectral grid to Cartesian
    coordinates and the derivatives of the fields with it.  Arithmetic is exact.  A [derivs] is what the arrays of the C struct hold for one field. *)
From Coq Require Import Reals List.
Import ListNotations.
Open Scope R_scope.

(** TwoPunctures.h: the struct derivs, without dependence on the index of the field *)
Record derivs : Type := MkU { d0 : R; d1 : R; d2 : R; d3 : R; d11 : R; d12 : R; d13 : R; d22 : R; d23 : R; d33 : R }.
(** atanh of math.h for |x| < 1 *)
Definition atanh (x : R) : R := ln ((1 + x) / (1 - x)) / 2.

(** AB_To_XR, l.50-78; Pih is PI / 2 here *)
Definition AB_step (A B : R) (U : derivs) : derivs :=
  let At := / 2 * (A + 1) in
  let A_X := 1 - At * At in
  let A_XX := - At * A_X in
  let B_R := / 2 * (1 + B * B) in
  let B_RR := B * B_R in
  MkU (d0 U) (A_X * d1 U) (B_R * d2 U) (d3 U) (A_X * A_X * d11 U + A_XX * d1 U) (A_X * B_R * d12 U) (A_X * d13 U) (B_R * B_R * d22 U + B_RR * d2 U) (B_R * d23 U) (d33 U).
Definition AB_To_XR (A B : R) (U : list derivs) : R * R * list derivs :=
  (2 * atanh (/ 2 * (A + 1)), PI / 2 + 2 * atan B, map (AB_step A B) U).

(** The complex numbers of GSL *)
Definition gsl_complex : Type := (R * R)%type.
Definition c_mul (a b : gsl_complex) : gsl_complex := (fst a * fst b - snd a * snd b, fst a * snd b + snd a * fst b).
Definition c_add (a b : gsl_complex) : gsl_complex := (fst a + fst b, snd a + snd b).
Definition c_neg (a : gsl_complex) : gsl_complex := (- fst a, - snd a).
Definition c_mul_real (a : gsl_complex) (x : R) : gsl_complex := (fst a * x, snd a * x).
Definition c_abs2 (a : gsl_complex) : R := fst a * fst a + snd a * snd a.
Definition c_inverse (a : gsl_complex) : gsl_complex := (fst a / c_abs2 a, - snd a / c_abs2 a).
Definition c_cosh (a : gsl_complex) : gsl_complex := (cosh (fst a) * cos (snd a), sinh (fst a) * sin (snd a)).
Definition c_sinh (a : gsl_complex) : gsl_complex := (sinh (fst a) * cos (snd a), cosh (fst a) * sin (snd a)).

(** C_To_c, l.81-137 *)
Definition C_step (par_b X R0 : R) (U : derivs) : derivs :=
  let C := (X, R0) in
  let c := c_mul_real (c_cosh C) par_b in
  let c_C := c_mul_real (c_sinh C) par_b in
  let c_CC := c in
  let C_c := c_inverse c_C in
  let C_cc := c_neg (c_mul (c_mul C_c C_c) (c_mul C_c c_CC)) in
  let C_c2 := c_abs2 C_c in
  let U_c3 := c_mul (/ 2 * d13 U, - / 2 * d23 U) C_c in
  let U_C := (/ 2 * d1 U, - / 2 * d2 U) in
  let U_c := c_mul U_C C_c in
  let U_CC := (/ 4 * (d11 U - d22 U), - / 2 * d12 U) in
  let U_CB := / 4 * (d11 U + d22 U) in
  let U_cb := U_CB * C_c2 in
  let U_cc := c_add (c_mul C_cc U_C) (c_mul (c_mul C_c C_c) U_CC) in
  MkU (d0 U) (2 * fst U_c) (-2 * snd U_c) (d3 U) (2 * (U_cb + fst U_cc)) (-2 * snd U_cc) (2 * fst U_c3) (2 * (U_cb - fst U_cc)) (-2 * snd U_c3) (d33 U).
Definition C_To_c (par_b X R0 : R) (U : list derivs) : R * R * list derivs :=
  let c := c_mul_real (c_cosh (X, R0)) par_b in (fst c, snd c, map (C_step par_b X R0) U).

(** rx3_To_xyz, l.140-170 *)
Definition rx3_step (r phi : R) (U : derivs) : derivs :=
  let sin_phi := sin phi in
  let cos_phi := cos phi in
  let sin2_phi := sin_phi * sin_phi in
  let cos2_phi := cos_phi * cos_phi in
  let sin_2phi := 2 * sin_phi * cos_phi in
  let cos_2phi := cos2_phi - sin2_phi in
  let r_inv := 1 / r in
  let r_inv2 := r_inv * r_inv in
  let '(MkU u U_x U_r U_3 U_xx U_xr U_x3 U_rr U_r3 U_33) := U in
  MkU u U_x (U_r * cos_phi - U_3 * r_inv * sin_phi) (U_r * sin_phi + U_3 * r_inv * cos_phi)
    U_xx (U_xr * cos_phi - U_x3 * r_inv * sin_phi) (U_xr * sin_phi + U_x3 * r_inv * cos_phi)
    (U_rr * cos2_phi + r_inv2 * sin2_phi * (U_33 + r * U_r) + sin_2phi * r_inv2 * (U_3 - r * U_r3))
    (/ 2 * sin_2phi * (U_rr - r_inv * U_r - r_inv2 * U_33) - cos_2phi * r_inv2 * (U_3 - r * U_r3))
    (U_rr * sin2_phi + r_inv2 * cos2_phi * (U_33 + r * U_r) - sin_2phi * r_inv2 * (U_3 - r * U_r3)).
Definition rx3_To_xyz (r phi : R) (U : list derivs) : R * R * list derivs := (r * cos phi, r * sin phi, map (rx3_step r phi) U).
