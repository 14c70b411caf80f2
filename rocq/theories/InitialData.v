(** Model of nrpy/equations/general_relativity/InitialData_Cartesian.py and InitialData_Spherical.py.  The ADM quantities are SymPy
    terms (those of RefMetric.v); the lapse of the standard gauge is a value, computed with the model of ADM_to_BSSN.py (BSSN.v).
    Registration of CodeParameters is left out (C43). *)
From Coq Require Import String List ZArith Bool Arith Reals.
From Verif Require Import PyBase RefMetric RefMetricReal BSSN.
Import ListNotations.
Local Open Scope string_scope.

(** gammaDD, KDD and, if the data define them, alpha, betaU and BU *)
Record adm_data : Type := MkAdm { d_gammaDD : nat -> nat -> ex; d_KDD : nat -> nat -> ex; d_gauge : option (ex * (nat -> ex) * (nat -> ex)) }.
(** ixp.zerorank1, ixp.zerorank2, and their entries set by the index pair *)
Definition zero1 (_ : nat) : ex := Num 0.
Definition zero2 (_ _ : nat) : ex := Num 0.
Definition set1 (i : nat) (e : ex) (t : nat -> ex) (i' : nat) : ex := if Nat.eqb i' i then e else t i'.
Definition set2 (i j : nat) (e : ex) (t : nat -> nat -> ex) (i' j' : nat) : ex := if Nat.eqb i' i && Nat.eqb j' j then e else t i' j'.

(** BrillLindquist, InitialData_Cartesian.py l.78-108; x, y, z of l.42 are the variables 0-2 *)
Definition BL_dist (n : string) : ex :=
  Sqrt (sadd (sadd (spow (ssub (XX 0) (Par (n ++ "_posn_x"))) 2) (spow (ssub (XX 1) (Par (n ++ "_posn_y"))) 2)) (spow (ssub (XX 2) (Par (n ++ "_posn_z"))) 2)).
Definition BL_psi : ex :=
  sadd (sadd (Num 1) (sdiv (Par "BH1_mass") (smul (Num 2) (BL_dist "BH1")))) (sdiv (Par "BH2_mass") (smul (Num 2) (BL_dist "BH2"))).
Definition BrillLindquist : adm_data :=
  MkAdm (fold_left (fun g i => set2 i i (spow BL_psi 4) g) [0; 1; 2]%nat zero2) zero2 None.

(** InitialData_Spherical.py; r, th, ph of l.34 are the variables 0-2 *)
Definition r_ : ex := XX 0.
Definition th : ex := XX 1.
Definition M_ : ex := Par "M".

(** UIUCBlackHole, l.88-158 *)
Definition U_a : ex := smul M_ (Par "chi").
Definition U_rp : ex := sadd M_ (Sqrt (ssub (spow M_ 2) (spow U_a 2))).
Definition U_rm : ex := ssub M_ (Sqrt (ssub (spow M_ 2) (spow U_a 2))).
Definition U_rBL : ex := smul r_ (spow (sadd (Num 1) (sdiv U_rp (smul (Num 4) r_))) 2).
Definition U_SIG : ex := sadd (spow U_rBL 2) (smul (spow U_a 2) (spow (Cos th) 2)).
Definition U_DEL : ex := sadd (ssub (spow U_rBL 2) (smul (smul (Num 2) M_) U_rBL)) (spow U_a 2).
Definition U_AA : ex := ssub (spow (sadd (spow U_rBL 2) (spow U_a 2)) 2) (smul (smul U_DEL (spow U_a 2)) (spow (Sin th) 2)).
(** l.145-147 *)
Definition U_Krph : ex :=
  sdiv (smul (smul (smul (sdiv (smul (smul M_ U_a) (spow (Sin th) 2)) (smul U_SIG (Sqrt (smul U_AA U_SIG))))
    (ssub (ssub (sadd (smul (Num 3) (spow U_rBL 4)) (smul (smul (Num 2) (spow U_a 2)) (spow U_rBL 2))) (spow U_a 4))
          (smul (smul (spow U_a 2) (ssub (spow U_rBL 2) (spow U_a 2))) (spow (Sin th) 2))))
    (sadd (Num 1) (sdiv U_rp (smul (Num 4) r_)))) (Num 1)) (Sqrt (smul r_ (ssub U_rBL U_rm))).
(** l.155-156 *)
Definition U_Kthph : ex :=
  smul (smul (sopp (sdiv (smul (smul (smul (smul (smul (Num 2) (spow U_a 3)) M_) U_rBL) (Cos th)) (spow (Sin th) 3)) (smul U_SIG (Sqrt (smul U_AA U_SIG)))))
             (ssub r_ (sdiv U_rp (Num 4)))) (Sqrt (sdiv (ssub U_rBL U_rm) r_)).
Definition UIUCBlackHole : adm_data :=
  MkAdm (set2 2 2 (smul (sdiv U_AA U_SIG) (spow (Sin th) 2)) (set2 1 1 U_SIG
          (set2 0 0 (sdiv (smul U_SIG (spow (sadd r_ (sdiv U_rp (Num 4))) 2)) (smul (spow r_ 3) (ssub U_rBL U_rm))) zero2)))
        (set2 2 1 U_Kthph (set2 1 2 U_Kthph (set2 2 0 U_Krph (set2 0 2 U_Krph zero2)))) None.

(** StaticTrumpet, l.160-214 *)
Definition T_psi0 : ex := Sqrt (sadd (Num 1) (sdiv M_ r_)).
Definition T_alpha : ex := sdiv r_ (sadd r_ M_).
Definition T_betar : ex := sdiv (smul M_ r_) (spow (sadd r_ M_) 2).
Definition StaticTrumpet : adm_data :=
  MkAdm (set2 2 2 (smul (smul (spow T_psi0 4) (spow r_ 2)) (spow (Sin th) 2)) (set2 1 1 (smul (spow T_psi0 4) (spow r_ 2)) (set2 0 0 (spow T_psi0 4) zero2)))
        (set2 2 2 (smul M_ (spow (Sin th) 2)) (set2 1 1 M_ (set2 0 0 (sdiv (sopp M_) (spow r_ 2)) zero2)))
        (Some (T_alpha, set1 0 T_betar zero1, zero1)).

(** OffsetKerrSchild, l.216-303 *)
Definition K_a : ex := Par "a".
Definition K_r : ex := sadd r_ (Par "r0").
Definition K_rho2 : ex := sadd (smul K_r K_r) (smul (smul K_a K_a) (spow (Cos th) 2)).
Definition K_2MrKS : ex := smul (smul (Num 2) M_) K_r.
Definition K_alpha : ex := sdiv (Num 1) (Sqrt (sadd (Num 1) (sdiv K_2MrKS K_rho2))).
Definition K_betar : ex := sdiv (smul (smul (smul (smul K_alpha K_alpha) (Num 2)) M_) K_r) K_rho2.
Definition K_grr : ex := sadd (Num 1) (sdiv K_2MrKS K_rho2).
Definition K_grph : ex := smul (smul (sopp K_a) K_grr) (spow (Sin th) 2).
Definition K_gphph : ex :=
  smul (sadd (sadd (smul K_r K_r) (smul K_a K_a)) (sdiv (smul (smul (smul K_2MrKS K_a) K_a) (spow (Sin th) 2)) K_rho2)) (spow (Sin th) 2).
Definition K_cos2 : ex := Cos (smul (Num 2) th).
Definition K_cos4 : ex := Cos (smul (Num 4) th).
Definition K_A : ex := sadd (sadd (smul (smul K_a K_a) K_cos2) (smul K_a K_a)) (smul (smul (Num 2) K_r) K_r).
Definition K_B : ex := sadd K_A (smul (smul (Num 4) M_) K_r).
Definition K_D : ex := Sqrt (sadd (sdiv K_2MrKS (sadd (smul (smul K_a K_a) (spow (Cos th) 2)) (smul K_r K_r))) (Num 1)).
(** a*a*cos(2*th) + a*a - 2*rKS*rKS of l.283 and l.289 *)
Definition K_mid : ex := ssub (sadd (smul (smul K_a K_a) K_cos2) (smul K_a K_a)) (smul (smul (Num 2) K_r) K_r).
(** l.283, l.286, l.289, l.292, l.295, l.299-301 *)
Definition K_Krr : ex := smul (sdiv (smul K_D (sadd K_A K_2MrKS)) (smul (smul K_A K_A) K_B)) (smul (smul (Num 4) M_) K_mid).
Definition K_Krth : ex := smul (sdiv K_D (smul K_A K_B)) (smul (smul (smul (smul (smul (smul (Num 8) K_a) K_a) M_) K_r) (Sin th)) (Cos th)).
Definition K_Krph : ex := smul (sdiv K_D (smul K_A K_A)) (smul (smul (smul (smul (Num (-2)) K_a) M_) (spow (Sin th) 2)) K_mid).
Definition K_Kthth : ex := smul (sdiv K_D K_B) (smul (smul (smul (Num 4) M_) K_r) K_r).
Definition K_Kthph : ex := smul (sdiv K_D (smul K_A K_B)) (smul (smul (smul (smul (smul (Num (-8)) (spow K_a 3)) M_) K_r) (spow (Sin th) 3)) (Cos th)).
Definition K_Kphph : ex :=
  smul (sdiv K_D (smul (smul K_A K_A) K_B)) (smul (smul K_2MrKS (spow (Sin th) 2))
    (sadd (sadd (sadd (sadd (smul (smul (spow K_a 4) (ssub K_r M_)) K_cos4) (smul (spow K_a 4) (sadd M_ (smul (Num 3) K_r))))
                (smul (smul (smul (smul (smul (Num 4) K_a) K_a) K_r) K_r) (ssub (smul (Num 2) K_r) M_)))
          (smul (smul (smul (smul (smul (Num 4) K_a) K_a) K_r) K_cos2) (sadd (smul K_a K_a) (smul K_r (sadd M_ (smul (Num 2) K_r))))))
          (smul (Num 8) (spow K_r 5)))).
Definition OffsetKerrSchild : adm_data :=
  MkAdm (set2 2 2 K_gphph (set2 1 1 K_rho2 (set2 2 0 K_grph (set2 0 2 K_grph (set2 0 0 K_grr zero2)))))
        (set2 2 2 K_Kphph (set2 2 1 K_Kthph (set2 1 2 K_Kthph (set2 1 1 K_Kthth (set2 2 0 K_Krph (set2 0 2 K_Krph
          (set2 1 0 K_Krth (set2 0 1 K_Krth (set2 0 0 K_Krr zero2)))))))))
        (Some (K_alpha, set1 0 K_betar zero1, zero1)).

(** the choice by IDtype: InitialData_Cartesian.py l.44-48, InitialData_Spherical.py l.36-58 *)
Definition cartesian_data (IDtype : string) : py adm_data :=
  if String.eqb IDtype "BrillLindquist" then Ok BrillLindquist else Err ValueError.
Definition spherical_data (IDtype : string) : py adm_data :=
  if String.eqb IDtype "UIUCBlackHole" then Ok UIUCBlackHole
  else if String.eqb IDtype "StaticTrumpet" then Ok StaticTrumpet
  else if String.eqb IDtype "OffsetKerrSchild" then Ok OffsetKerrSchild else Err ValueError.

Local Open Scope R_scope.
(** alpha from the conformal factor: InitialData_Cartesian.py l.64-75, InitialData_Spherical.py l.74-85 *)
Definition standard_alpha (cfname : string) (cf : R) : py R :=
  if String.eqb cfname "phi" then Ok (exp (-2 * cf))
  else if String.eqb cfname "chi" then Ok (sqrt cf)
  else if String.eqb cfname "W" then Ok cf
  else Err ValueError.
(** alpha, betaU and BU at the point [v]; [m] is the reference metric there: InitialData_Cartesian.py l.50-75, InitialData_Spherical.py l.60-85 *)
Definition gauge_values (override_gauge_with_standard : bool) (cfname : string) (m : refm) (d : adm_data) (v : env) : py (R * (nat -> R) * (nat -> R)) :=
  let standard :=
    py_bind (ADM_to_BSSN cfname m (fun i j => eval v (d_gammaDD d i j)) (fun i j => eval v (d_KDD d i j)) (fun _ => 0) (fun _ => 0)) (fun o =>
    py_bind (standard_alpha cfname (o_cf o)) (fun alpha => Ok (alpha, fun _ => 0, fun _ => 0))) in
  match d_gauge d with
  | None => standard
  | Some (alpha, betaU, BU) =>
      if override_gauge_with_standard then standard else Ok (eval v alpha, fun i => eval v (betaU i), fun i => eval v (BU i))
  end.
