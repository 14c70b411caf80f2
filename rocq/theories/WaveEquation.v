(** Model of nrpy/equations/wave_equation: the exact solutions of WaveEquation_Solutions_InitialData.py and the right-hand sides of
    WaveEquation_RHSs.py and WaveEquationCurvilinear_RHSs.py.  The solutions are SymPy terms (those of RefMetric.v); the right-hand
    sides are values over the real numbers, as functions of the values of the symbols they are built from.  Registration of
    gridfunctions and CodeParameters is left out (C12, C43). *)
From Coq Require Import String List ZArith Bool Arith Reals.
From Verif Require Import PyBase RefMetric.
Import ListNotations.
Local Open Scope string_scope.
Local Open Scope R_scope.

(** expr.subs: every xx[k] replaced by [s k] at once *)
Fixpoint subst (s : nat -> ex) (e : ex) : ex :=
  match e with
  | Num _ | Par _ | Cart _ | Fn _ _ => e
  | XX j => s j
  | Add a b => sadd (subst s a) (subst s b) | Sub a b => ssub (subst s a) (subst s b)
  | Mul a b => smul (subst s a) (subst s b) | Div a b => sdiv (subst s a) (subst s b)
  | Opp a => sopp (subst s a) | Pow a n => spow (subst s a) n
  | Sqrt a => Sqrt (subst s a) | Exp a => Exp (subst s a) | Sin a => Sin (subst s a) | Cos a => Cos (subst s a)
  | Sinh a => Sinh (subst s a) | Cosh a => Cosh (subst s a) | Asinh a => Asinh (subst s a) | Acos a => Acos (subst s a)
  | Atan2 y x => Atan2 (subst s y) (subst s x) | Sign a => Sign (subst s a)
  end.

(** xCart[i], time, rvar (WaveEquation_Solutions_InitialData.py l.89, l.93, l.124, l.157-162) are the variables 0-2, 3 and 4 *)
Definition xCart (i : nat) : ex := XX i.
Definition time : ex := XX 3.
Definition rvar : ex := XX 4.
(** CommonParams.py l.22-24 *)
Definition wavespeed : ex := Par "wavespeed".

(** PlaneWave, WaveEquation_Solutions_InitialData.py l.141-185 *)
Definition kk (i : nat) : ex := Par (match i with 0%nat => "kk0" | 1%nat => "kk1" | _ => "kk2" end).
Definition kk_norm_factor : ex := Sqrt (sadd (sadd (spow (kk 0) 2) (spow (kk 1) 2)) (spow (kk 2) 2)).
Definition dot_product : ex :=
  sdiv (fold_left (fun acc i => sadd acc (smul (kk i) (xCart i))) [0; 1; 2]%nat (Num 0)) kk_norm_factor.
Definition plane_uu : ex := sadd (Sin (ssub dot_product (smul wavespeed time))) (Num 2).
Definition plane_vv : ex := diff 3 plane_uu.

(** SphericalGaussian, WaveEquation_Solutions_InitialData.py l.76-137.  [pulse s w] is the numerator
    (w -+ wavespeed*time) * exp(-(w -+ wavespeed*time)**2 / (2*sigma**2)), written out twice in the source with w = r and w = rvar. *)
Definition sigma : ex := Par "sigma".
Definition sph_r : ex := Sqrt (fold_left (fun acc i => sadd acc (spow (xCart i) 2)) [0; 1; 2]%nat (Num 0)).
Definition gauss (d : ex) : ex := Exp (sdiv (sopp (spow d 2)) (smul (Num 2) (spow sigma 2))).
(** l.111-118 *)
Definition sph_uu : ex :=
  let m := ssub sph_r (smul wavespeed time) in
  let p := sadd sph_r (smul wavespeed time) in
  sadd (sadd (smul (sdiv m sph_r) (gauss m)) (smul (sdiv p sph_r) (gauss p))) (Num 2).
(** l.119 *)
Definition sph_vv : ex := diff 3 sph_uu.
(** l.125-134 *)
Definition sph_uu_r0 : ex :=
  let m := ssub rvar (smul wavespeed time) in
  let p := sadd rvar (smul wavespeed time) in
  let d := sadd (diff 4 (sadd (smul m (gauss m)) (smul p (gauss p)))) (Num 2) in
  subst (fun k => if Nat.eqb k 4 then sph_r else XX k) d.
(** l.135 *)
Definition sph_vv_r0 : ex := diff 3 sph_uu_r0.

(** WaveEquation_solution_Cartesian.__init__, l.43-72 *)
Record solution : Type := MkSol { s_uu : ex; s_vv : ex; s_r0 : option (ex * ex) }.
Definition WaveEquation_solution_Cartesian (WaveType : string) : py solution :=
  if String.eqb WaveType "PlaneWave" then Ok (MkSol plane_uu plane_vv None)
  else if String.eqb WaveType "SphericalGaussian" then Ok (MkSol sph_uu sph_vv (Some (sph_uu_r0, sph_vv_r0)))
  else Err ValueError.

(** ixp.declarerank2(..., symmetry="sym01"): the component below the diagonal is the symbol above it *)
Definition sym01 (d : nat -> nat -> R) (i j : nat) : R := if Nat.ltb j i then d j i else d i j.
(** WaveEquation_RHSs.__init__, WaveEquation_RHSs.py l.42-69 *)
Definition wave_rhs (c vv : R) (uu_dDD : nat -> nat -> R) : R * R :=
  (vv, fold_left (fun acc i => acc + c * c * sym01 uu_dDD i i) [0; 1; 2]%nat 0).

(** Step 2 of WaveEquationCurvilinear_RHSs.__init__, WaveEquationCurvilinear_RHSs.py l.64-71, and of
    ConformallyFlat_RHSs.py l.46-53 *)
Definition contracted (guu : nat -> nat -> R) (gam : nat -> nat -> nat -> R) (k : nat) : R :=
  fold_left (fun acc i => fold_left (fun acc j => acc + guu i j * gam k i j) [0; 1; 2]%nat acc) [0; 1; 2]%nat 0.
(** Step 5b, WaveEquationCurvilinear_RHSs.py l.102-108, and Step 6b, ConformallyFlat_RHSs.py l.110-116 *)
Definition laplacian (guu : nat -> nat -> R) (gam : nat -> nat -> nat -> R) (uD : nat -> R) (uDD : nat -> nat -> R) : R :=
  fold_left (fun acc i => fold_left (fun acc j => acc + guu i j * sym01 uDD i j) [0; 1; 2]%nat (acc - contracted guu gam i * uD i))
    [0; 1; 2]%nat 0.
(** WaveEquationCurvilinear_RHSs.__init__, l.47-110 *)
Definition wave_curvilinear_rhs (c vv : R) (guu : nat -> nat -> R) (gam : nat -> nat -> nat -> R) (uD : nat -> R) (uDD : nat -> nat -> R)
  : R * R := (vv, laplacian guu gam uD uDD * (c * c)).
