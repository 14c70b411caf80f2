(** Model of nrpy/equations/general_relativity/T4munu.py: the stress-energy source terms of the BSSN equations.
    Simplification, as in BSSN.v: SymPy expressions are replaced by their values, so the symbols alpha and T4UU and the
    CodeParameter PI (default 3.14159265358979323846264338327950288, l.115-123) are arbitrary reals; T4UU is declared with
    symmetry sym01 (l.48), which is a hypothesis of the theorems. *)
From Coq Require Import String List Arith Bool Reals.
From Verif Require Import PyBase Inverter GRMetric BSSN BSSNConstraints.
Local Open Scope R_scope.

(** an array entry that starts at 0 and is increased in a loop over range(4) *)
Definition s4 (f : nat -> R) : R := acc R 0 Rplus 4 f.

(** ** T4UU_and_ADM_to_SDD_SD_S_rho, l.19-81 *)
Section Sources.
Variables (gammaDD : nat -> nat -> R) (betaU : nat -> R) (alpha : R) (T4UU : nat -> nat -> R).
(** l.38 *)
Definition n4D (mu : nat) : R := match mu with 0%nat => -1 * alpha | _ => 0 end.
(** l.39-44 *)
Definition gamma4DD (mu nu : nat) : R := ADM_to_g4DD R 0 Rplus Rmult Ropp gammaDD betaU alpha mu nu + n4D mu * n4D nu.
(** Step 3.a, l.52-59 *)
Definition SDD (i j : nat) : R := s4 (fun mu => s4 (fun nu => gamma4DD (i + 1) mu * gamma4DD (j + 1) nu * T4UU mu nu)).
(** Step 3.b, l.62-66 *)
Definition SD (i : nat) : R := s4 (fun mu => s4 (fun nu => - gamma4DD (i + 1) mu * n4D nu * T4UU mu nu)).
(** Step 3.c, l.70-73 *)
Definition S_trace (gammaUU : nat -> nat -> R) : R := s3 (fun i => s3 (fun j => gammaUU i j * SDD i j)).
(** Step 3.d, l.76-79 *)
Definition rho : R := s4 (fun mu => s4 (fun nu => n4D mu * n4D nu * T4UU mu nu)).
Record sources : Type := MkSrc { x_SDD : nat -> nat -> R; x_SD : nat -> R; x_S : R; x_rho : R }.
Definition T4UU_and_ADM_to_SDD_SD_S_rho : py sources :=
  py_bind (inv3 gammaDD) (fun p => Ok (MkSrc SDD SD (S_trace (fst p)) rho)).
End Sources.

(** ** T4UU_and_BSSN_to_SDD_SD_S_rho, l.84-97 *)
Definition T4UU_and_BSSN_to_SDD_SD_S_rho (cfname : string) (det_one : bool) (m : refm) (b : vars) (T4UU : nat -> nat -> R) : py sources :=
  py_bind (BSSN_to_ADM cfname det_one m b) (fun A =>
  T4UU_and_ADM_to_SDD_SD_S_rho (a_gammaDD A) (a_betaU A) (v_alpha b) T4UU).

(** ** BSSN_RHSs_T4UU_source_terms, l.101-163: (sourceterm_trK_rhs, sourceterm_Abar_rhsDD, sourceterm_Lambdabar_rhsU) *)
Section Terms.
Variables (PI alpha exp_m4 : R) (gammabar gammabarUU : nat -> nat -> R) (s : sources).
(** l.129 *)
Definition sourceterm_trK_rhs : R := 4 * PI * alpha * (x_rho s + x_S s).
(** l.131-145 *)
Definition tracefree_SDD (i j : nat) : R :=
  x_SDD s i j + s3 (fun k => s3 (fun n => - (1 / 3) * gammabar i j * gammabarUU k n * x_SDD s k n)).
(** l.147-152 *)
Definition sourceterm_Abar_rhsDD (i j : nat) : R := - 8 * PI * alpha * exp_m4 * tracefree_SDD i j.
(** l.154-157 *)
Definition sourceterm_Lambdabar_rhsU (i : nat) : R := s3 (fun j => - 16 * PI * alpha * gammabarUU i j * x_SD s j).
End Terms.
Definition BSSN_RHSs_T4UU_source_terms (cfname : string) (det_one : bool) (m : refm) (b : vars) (PI : R) (T4UU : nat -> nat -> R)
    : py (R * (nat -> nat -> R) * (nat -> R)) :=
  py_bind (T4UU_and_BSSN_to_SDD_SD_S_rho cfname det_one m b T4UU) (fun s =>
  py_bind (bssn_quantities cfname det_one None m b) (fun q =>
  py_bind (inv3 (gammabarDD m b)) (fun p =>
  Ok (sourceterm_trK_rhs PI (v_alpha b) s,
      sourceterm_Abar_rhsDD PI (v_alpha b) (exp_m4phi (q_phi q)) (gammabarDD m b) (fst p) s,
      sourceterm_Lambdabar_rhsU PI (v_alpha b) (fst p) s)))).

(** ** BSSN_constraints_T4UU_source_terms, l.167-214: (sourceterm_H, sourceterm_MU) *)
Definition BSSN_constraints_T4UU_source_terms (cfname : string) (det_one : bool) (m : refm) (b : vars) (PI : R) (T4UU : nat -> nat -> R)
    : py (R * (nat -> R)) :=
  py_bind (T4UU_and_BSSN_to_SDD_SD_S_rho cfname det_one m b T4UU) (fun s =>
  py_bind (BSSN_to_ADM cfname det_one m b) (fun A =>
  let SU := fun i => s3 (fun j => a_gammaUU A i j * x_SD s j) in
  Ok (- 16 * PI * x_rho s, fun i => - 8 * PI * SU i))).

(** ** With enable_T4munu = True: BSSN_RHSs.py l.324-344, BSSN_constraints.py l.158-173
    (the registration of the gridfunctions T4UU is left out) *)
Definition BSSN_RHSs_T4munu (cfname : string) (det_one : bool) (rbar : option (nat -> nat -> R)) (PI : R) (T4UU : nat -> nat -> R) (m : refm) (b : vars) : py rhss :=
  py_bind (BSSN_RHSs_T4UU_source_terms cfname det_one m b PI T4UU) (fun s => BSSN_RHSs cfname det_one rbar (Some s) m b).
Definition BSSN_constraints_T4munu (cfname : string) (det_one : bool) (rbar : option (nat -> nat -> R)) (PI : R) (T4UU : nat -> nat -> R) (m : refm) (b : vars) : py constraints :=
  py_bind (BSSN_constraints_T4UU_source_terms cfname det_one m b PI T4UU) (fun s => BSSN_constraints cfname det_one rbar (Some s) m b).
