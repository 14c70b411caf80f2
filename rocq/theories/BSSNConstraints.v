(** Model of nrpy/equations/general_relativity/BSSN_constraints.py, with the simplifications of BSSN.v.  Not modelled: the
    registration of the grid functions H, MSQUARED, MU (l.60-73) and the dictionary of objects (l.187-229). *)
From Coq Require Import String List ZArith Bool Reals.
From Verif Require Import PyBase Inverter GRMetric BSSN.
Import ListNotations.
Local Open Scope R_scope.

Section Constraints.
Variables (m : refm) (b : vars) (q : quantities).
Notation gU := (q_gUU q).
Notation A := (AbarDD m b).
(** Step 2, l.80-108; phi_dBarD is phi_dD (BSSN_quantities.py l.551) *)
Definition Rbartrace : R := s3 (fun i => s3 (fun j => gU i j * q_Rbar q i j)).
Definition phi_dBar_times_phi_dBar : R := s3 (fun i => s3 (fun j => gU i j * phi_dD (q_phi q) i * phi_dD (q_phi q) j)).
Definition phi_dBarDD_contraction : R := s3 (fun i => s3 (fun j => gU i j * q_phi_dBarDD q i j)).
Definition H_constraint : R :=
  2 / 3 * (v_trK b * v_trK b) + s3 (fun i => s3 (fun j => - A i j * AbarUU m b gU i j))
  + exp_m4phi (q_phi q) * (Rbartrace - 8 * (phi_dBar_times_phi_dBar + phi_dBarDD_contraction)).
(** l.130-142 *)
Definition AbarDD_dBarD (i j k : nat) : R :=
  AbarDD_dD m b i j k + s3 (fun l => - GammabarUDD m b gU l k i * A l j + - GammabarUDD m b gU l k j * A i l).
(** Step 3, l.114-156 *)
Definition MU_constraint (i : nat) : R :=
  (s3 (fun j => 6 * AbarUU m b gU i j * phi_dD (q_phi q) j) + s3 (fun j => - (2 / 3) * gU i j * v_trK_dD b j)
   + s3 (fun j => s3 (fun k => s3 (fun l => gU i k * gU j l * AbarDD_dBarD k l j)))) * exp_m4phi (q_phi q).
End Constraints.
(** The results; [src] is what T4munu.BSSN_constraints_T4UU_source_terms returns (l.159-173), [None] without enable_T4munu.
    l.176-184: Msquared and the rescaled MU *)
Record constraints : Type := MkCons { c_H : R; c_MU : nat -> R; c_Msquared : R; c_mU : nat -> R }.
Definition BSSN_constraints (cfname : string) (det_one : bool) (rbar : option (nat -> nat -> R)) (src : option (R * (nat -> R)))
    (m : refm) (b : vars) : py constraints :=
  py_bind (bssn_quantities cfname det_one rbar m b) (fun q =>
  let '(sH, sM) := match src with Some s => s | None => (0, fun _ => 0) end in
  let MU := fun i => MU_constraint m b q i + sM i in
  Ok (MkCons (H_constraint m b q + sH) MU (s3 (fun i => s3 (fun j => gammabarDD m b i j * MU i * MU j))) (fun i => MU i / h_ReU m i))).
