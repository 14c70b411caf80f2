(** Model of nrpy/equations/tov/TOV_equations.py: the right-hand sides of the Tolman-Oppenheimer-Volkoff equations.  SymPy expressions are
    replaced by their values; the symbol M_PI, the C macro, is pi. *)
From Coq Require Import Reals.
Local Open Scope R_scope.

(** TOV_Equations.__init__, l.16-43 *)
Section TOV.
Variables (r_Schw r_iso rho_energy P M : R).
(** l.33-35 *)
Definition dP_dr : R :=
  - ((rho_energy + P) * (2 * M / r_Schw + 8 * PI * r_Schw * r_Schw * P)) / (r_Schw * 2 * (1 - 2 * M / r_Schw)).
(** l.36-38 *)
Definition dnu_dr : R := (2 * M / r_Schw + 8 * PI * r_Schw * r_Schw * P) / (r_Schw * (1 - 2 * M / r_Schw)).
(** l.39 *)
Definition dM_dr : R := 4 * PI * r_Schw * r_Schw * rho_energy.
(** l.41 *)
Definition dr_iso_dr : R := r_iso / (r_Schw * sqrt (1 - 2 * M / r_Schw)).
End TOV.
