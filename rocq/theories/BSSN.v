(** Model of nrpy/equations/general_relativity/{BSSN_quantities,ADM_to_BSSN,BSSN_to_ADM,BSSN_RHSs}.py.  Simplification: SymPy
    expressions are replaced by real values; x**(1/3) of SymPy is [Rpower x (1/3)] (the same for x > 0), sp.log is [ln].  The
    grid functions, their derivatives and the reference-metric quantities enter as records of values.  Not modelled: the
    registration of grid functions (BSSN_quantities.py l.51-83), the printing order of the results. *)
From Coq Require Import String List ZArith Bool Reals.
From Verif Require Import PyBase Inverter GRMetric.
Import ListNotations.
Local Open Scope R_scope.

Definition reqb (x y : R) : bool := if Req_EM_T x y then true else false.
Definition inv3 : mat R -> py (mat R * R) := symm_matrix_inverter3x3 R 0 1 Rplus Rmult Rminus Rdiv Ropp reqb.
(** an array entry that starts at 0 and is increased in a loop over range(3) *)
Definition s3 (f : nat -> R) : R := acc R 0 Rplus 3 f.

(** The reference-metric quantities (reference_metric.py l.245-376; model: RefMetric.v) at a point. *)
Record refm : Type := MkRefm {
  h_det : R; h_detD : nat -> R; h_detDD : nat -> nat -> R;
  h_g : nat -> nat -> R; h_gD : nat -> nat -> nat -> R; h_gDD : nat -> nat -> nat -> nat -> R;
  h_ReDD : nat -> nat -> R; h_ReDDdD : nat -> nat -> nat -> R; h_ReDDdDD : nat -> nat -> nat -> nat -> R;
  h_ReU : nat -> R; h_ReUdD : nat -> nat -> R; h_ReUdDD : nat -> nat -> nat -> R;
  h_Gam : nat -> nat -> nat -> R; h_GamdD : nat -> nat -> nat -> nat -> R }.

(** The evolved variables and their derivatives: the symbols of BSSN_quantities.py l.51-85, 130-131, 145, 246-247, 352, 460-466,
    493-495 and of BSSN_RHSs.py l.150-151, 208, 234, 319. *)
Record vars : Type := MkVars {
  v_h : nat -> nat -> R; v_a : nat -> nat -> R; v_lam : nat -> R; v_vet : nat -> R; v_bet : nat -> R;
  v_trK : R; v_cf : R; v_alpha : R;
  v_h_dD : nat -> nat -> nat -> R; v_h_dupD : nat -> nat -> nat -> R; v_h_dDD : nat -> nat -> nat -> nat -> R;
  v_a_dD : nat -> nat -> nat -> R; v_a_dupD : nat -> nat -> nat -> R;
  v_lam_dD : nat -> nat -> R; v_lam_dupD : nat -> nat -> R;
  v_vet_dD : nat -> nat -> R; v_vet_dupD : nat -> nat -> R; v_vet_dDD : nat -> nat -> nat -> R;
  v_cf_dD : nat -> R; v_cf_dupD : nat -> R; v_cf_dDD : nat -> nat -> R;
  v_trK_dD : nat -> R; v_trK_dupD : nat -> R; v_alpha_dD : nat -> R; v_alpha_dDD : nat -> nat -> R }.

(** ** BSSN_quantities.py *)
Section Quantities.
Variables (m : refm) (b : vars).
(** Step 3, l.97-113 *)
Definition gammabarDD (i j : nat) : R := v_h b i j * h_ReDD m i j + h_g m i j.
Definition AbarDD (i j : nat) : R := v_a b i j * h_ReDD m i j.
Definition LambdabarU (i : nat) : R := v_lam b i * h_ReU m i.
Definition betaU (i : nat) : R := v_vet b i * h_ReU m i.
Definition BU (i : nat) : R := v_bet b i * h_ReU m i.
(** Step 4.b.i, l.128-140 *)
Definition gammabarDD_dD (i j k : nat) : R := h_gD m i j k + v_h_dD b i j k * h_ReDD m i j + v_h b i j * h_ReDDdD m i j k.
Definition gammabarDD_dupD (i j k : nat) : R := h_gD m i j k + v_h_dupD b i j k * h_ReDD m i j + v_h b i j * h_ReDDdD m i j k.
(** Step 4.b.ii, l.146-159 *)
Definition gammabarDD_dDD (i j k l : nat) : R :=
  h_gDD m i j k l + v_h_dDD b i j k l * h_ReDD m i j
  + (v_h_dD b i j k * h_ReDDdD m i j l + v_h_dD b i j l * h_ReDDdD m i j k) + v_h b i j * h_ReDDdDD m i j k l.
(** Step 5, l.175-208, with detgbarOverdetghat = 1 and its derivatives 0 *)
Definition detgammabar : R := 1 * h_det m.
Definition detgammabar_dD (i : nat) : R := 0 * h_det m + 1 * h_detD m i.
Definition detgammabar_dDD (i j : nat) : R := 0 * h_det m + 0 * h_detD m j + 0 * h_detD m i + 1 * h_detDD m i j.
(** Step 6.a.iv, l.244-258 *)
Definition AbarDD_dupD (i j k : nat) : R := h_ReDDdD m i j k * v_a b i j + h_ReDD m i j * v_a_dupD b i j k.
Definition AbarDD_dD (i j k : nat) : R := h_ReDDdD m i j k * v_a b i j + h_ReDD m i j * v_a_dD b i j k.
(** Steps 7.a.i-iii, l.265-293 *)
Definition epsDD (i j : nat) : R := v_h b i j * h_ReDD m i j.
Definition epsDD_dD (i j k : nat) : R := v_h_dD b i j k * h_ReDD m i j + v_h b i j * h_ReDDdD m i j k.
Definition epsDD_dDD (i j k l : nat) : R :=
  v_h_dDD b i j k l * h_ReDD m i j + v_h_dD b i j k * h_ReDDdD m i j l + v_h_dD b i j l * h_ReDDdD m i j k
  + v_h b i j * h_ReDDdDD m i j k l.
(** Step 7.a.iv, l.299-308 *)
Definition gammabarDD_dHatD (i j l : nat) : R :=
  epsDD_dD i j l + s3 (fun n => - h_Gam m n i l * epsDD n j - h_Gam m n j l * epsDD i n).
(** Step 7.a.v, l.316-328 *)
Definition gammabarDD_dHatD_dD (i j l k : nat) : R :=
  epsDD_dDD i j l k +
  s3 (fun n => - h_GamdD m n i l k * epsDD n j - h_Gam m n i l * epsDD_dD n j k - h_GamdD m n j l k * epsDD i n - h_Gam m n j l * epsDD_dD i n k).
(** Step 7.a.vi, l.335-349 *)
Definition gammabarDD_dHatDD (i j l k : nat) : R :=
  gammabarDD_dHatD_dD i j l k +
  s3 (fun n => - h_Gam m n l k * gammabarDD_dHatD i j n - h_Gam m n i k * gammabarDD_dHatD n j l - h_Gam m n j k * gammabarDD_dHatD i n l).
(** Step 7.b, l.353-362 *)
Definition LambarU_dHatD (k j : nat) : R :=
  v_lam_dD b k j * h_ReU m k + v_lam b k * h_ReUdD m k j + s3 (fun n => h_Gam m k n j * v_lam b n * h_ReU m n).
(** Step 8, l.467-485 *)
Definition betaU_dD (i j : nat) : R := v_vet_dD b i j * h_ReU m i + v_vet b i * h_ReUdD m i j.
Definition betaU_dupD (i j : nat) : R := v_vet_dupD b i j * h_ReU m i + v_vet b i * h_ReUdD m i j.
Definition betaU_dDD (i j k : nat) : R :=
  v_vet_dDD b i j k * h_ReU m i + v_vet_dD b i j * h_ReUdD m i k + v_vet_dD b i k * h_ReUdD m i j + v_vet b i * h_ReUdDD m i j k.

(** What needs the inverse of gammabarDD *)
Variable gammabarUU : nat -> nat -> R.
(** Step 4.b.iii, l.162-169 *)
Definition GammabarUDD (i k l : nat) : R :=
  s3 (fun n => 1 / 2 * gammabarUU i n * (gammabarDD_dD n k l + gammabarDD_dD n l k - gammabarDD_dD k l n)).
(** Step 6.a, l.216-241 *)
Definition AbarUU (i j : nat) : R := s3 (fun k => s3 (fun l => gammabarUU i k * gammabarUU j l * AbarDD k l)).
Definition AbarUD (i j : nat) : R := s3 (fun k => gammabarUU i k * AbarDD k j).
Definition trAbar : R := s3 (fun k => s3 (fun j => gammabarUU k j * AbarDD j k)).
(** Step 7.c, l.369-396 *)
Definition DGammaUDD (i j k : nat) : R := GammabarUDD i j k - h_Gam m i j k.
Definition DGammaU (i : nat) : R := s3 (fun j => s3 (fun k => gammabarUU j k * DGammaUDD i j k)).
Definition DGammaDDD (i j k : nat) : R := s3 (fun n => gammabarDD i n * DGammaUDD n j k).
(** Step 7.d, l.401-452 *)
Definition RbarDD (i j : nat) : R :=
  s3 (fun k => s3 (fun l => - (1 / 2) * gammabarUU k l * gammabarDD_dHatDD i j l k))
  + s3 (fun k => 1 / 2 * (gammabarDD k i * LambarU_dHatD k j + gammabarDD k j * LambarU_dHatD k i))
  + s3 (fun k => 1 / 2 * DGammaU k * (DGammaDDD i j k + DGammaDDD j i k))
  + s3 (fun k => s3 (fun l => s3 (fun n => gammabarUU k l *
      (DGammaUDD n k i * DGammaDDD j n l + DGammaUDD n k j * DGammaDDD i n l + DGammaUDD n i k * DGammaDDD n j l)))).
End Quantities.

(** Step 9.a, l.497-546: phi_dD, phi_dupD, phi_dDD, exp_m4phi *)
Record phis : Type := MkPhis { phi_dD : nat -> R; phi_dupD : nat -> R; phi_dDD : nat -> nat -> R; exp_m4phi : R }.
Definition phi_part (cfname : string) (b : vars) : py phis :=
  if String.eqb cfname "phi" then
    Ok (MkPhis (v_cf_dD b) (v_cf_dupD b) (v_cf_dDD b) (exp (- 4 * v_cf b)))
  else if String.eqb cfname "W" then
    Ok (MkPhis (fun i => - v_cf_dD b i / (2 * v_cf b)) (fun i => - v_cf_dupD b i / (2 * v_cf b))
               (fun i j => (- v_cf_dDD b i j + v_cf_dD b i * v_cf_dD b j / v_cf b) / (2 * v_cf b)) (v_cf b * v_cf b))
  else if String.eqb cfname "chi" then
    Ok (MkPhis (fun i => - v_cf_dD b i / (4 * v_cf b)) (fun i => - v_cf_dupD b i / (4 * v_cf b))
               (fun i j => (- v_cf_dDD b i j + v_cf_dD b i * v_cf_dD b j / v_cf b) / (4 * v_cf b)) (v_cf b))
  else Err ValueError.

(** The object: the values above together with what depends on the inverse and the conformal factor.  [rbar] is the RbarDD grid
    function of enable_RbarDD_gridfunctions (l.85, l.385-386); [det_one] is the parameter detgbarOverdetghat_equals_one (l.179-182). *)
Record quantities : Type := MkQ { q_gUU : nat -> nat -> R; q_Rbar : nat -> nat -> R; q_phi : phis; q_phi_dBarDD : nat -> nat -> R }.
Definition bssn_quantities (cfname : string) (det_one : bool) (rbar : option (nat -> nat -> R)) (m : refm) (b : vars) : py quantities :=
  py_bind (inv3 (gammabarDD m b)) (fun p =>
  if negb det_one then Err ValueError
  else py_bind (phi_part cfname b) (fun ph =>
    Ok (MkQ (fst p) (match rbar with Some r => r | None => RbarDD m b (fst p) end) ph
            (** Step 9.b, l.552-557 *)
            (fun i j => phi_dDD ph i j + s3 (fun k => - GammabarUDD m b (fst p) k i j * phi_dD ph k))))).

(** ** ADM_to_BSSN.py, l.24-144 *)
Record bssn_of : Type := MkBssn {
  o_gammabarDD : nat -> nat -> R; o_hDD : nat -> nat -> R; o_cf : R; o_trK : R; o_AbarDD : nat -> nat -> R; o_aDD : nat -> nat -> R;
  o_vetU : nat -> R; o_betU : nat -> R }.
(** Step 2.b, l.91-109 *)
Definition cf_of (cfname : string) (gammaDET gammabarDET : R) : py R :=
  if String.eqb cfname "phi" then Ok (1 / 12 * ln (gammaDET / gammabarDET))
  else if String.eqb cfname "chi" then Ok (Rpower (gammaDET / gammabarDET) (- (1 / 3)))
  else if String.eqb cfname "W" then Ok (Rpower (gammaDET / gammabarDET) (- (1 / 6)))
  else Err ValueError.
(** compute_cf_only=True stops after Step 2.b, with the first three of these. *)
Definition ADM_to_BSSN (cfname : string) (m : refm) (gammaDD KDD : nat -> nat -> R) (beta B : nat -> R) : py bssn_of :=
  py_bind (inv3 gammaDD) (fun p =>
  let gammaUU := fst p in
  let gammaDET := snd p in
  let gbar := fun i j => Rpower (h_det m / gammaDET) (1 / 3) * gammaDD i j in
  let h := fun i j => (gbar i j - h_g m i j) / h_ReDD m i j in
  py_bind (inv3 gbar) (fun pb =>
  py_bind (cf_of cfname gammaDET (snd pb)) (fun cf =>
  let trK := s3 (fun i => s3 (fun j => gammaUU i j * KDD i j)) in
  let Abar := fun i j => Rpower (h_det m / gammaDET) (1 / 3) * (KDD i j - 1 / 3 * gammaDD i j * trK) in
  Ok (MkBssn gbar h cf trK Abar (fun i j => Abar i j / h_ReDD m i j) (fun i => beta i / h_ReU m i) (fun i => B i / h_ReU m i))))).

(** ** BSSN_to_ADM.py, l.19-171 *)
Record adm_of : Type := MkAdm {
  a_betaU : nat -> R; a_gammaDD : nat -> nat -> R; a_gammaDDdD : nat -> nat -> nat -> R; a_gammaDDdDD : nat -> nat -> nat -> nat -> R;
  a_gammaUU : nat -> nat -> R; a_detgamma : R; a_GammaUDD : nat -> nat -> nat -> R; a_KDD : nat -> nat -> R; a_KDDdD : nat -> nat -> nat -> R }.
(** l.52-62 *)
Definition exp4phi_of (cfname : string) (cf : R) : py R :=
  if String.eqb cfname "phi" then Ok (exp (4 * cf))
  else if String.eqb cfname "chi" then Ok (1 / cf)
  else if String.eqb cfname "W" then Ok (1 / (cf * cf))
  else Err ValueError.
(** Step 2.a, l.69-96 *)
Definition phi_derivs (cfname : string) (b : vars) (exp4phi : R) : py ((nat -> R) * (nat -> nat -> R)) :=
  if String.eqb cfname "phi" then Ok (v_cf_dD b, v_cf_dDD b)
  else if String.eqb cfname "chi" then
    Ok (fun i => - (1 / 4) * exp4phi * v_cf_dD b i,
        fun i j => 1 / 4 * (exp4phi * exp4phi * v_cf_dD b i * v_cf_dD b j - exp4phi * v_cf_dDD b i j))
  else if String.eqb cfname "W" then
    let exp2phi := 1 / v_cf b in
    Ok (fun i => - (1 / 2) * exp2phi * v_cf_dD b i,
        fun i j => 1 / 2 * (exp4phi * v_cf_dD b i * v_cf_dD b j - exp2phi * v_cf_dDD b i j))
  else Err ValueError.
Definition BSSN_to_ADM (cfname : string) (det_one : bool) (m : refm) (b : vars) : py adm_of :=
  py_bind (bssn_quantities cfname det_one None m b) (fun _ =>
  py_bind (exp4phi_of cfname (v_cf b)) (fun exp4phi =>
  let gammaDD := fun i j => exp4phi * gammabarDD m b i j in
  py_bind (phi_derivs cfname b exp4phi) (fun ph =>
  let phidD := fst ph in
  let phidDD := snd ph in
  let exp4phidD := fun i => 4 * exp4phi * phidD i in
  let exp4phidDD := fun i j => 16 * exp4phi * phidD i * phidD j + 4 * exp4phi * phidDD i j in
  let gammaDDdD := fun i j k => exp4phidD k * gammabarDD m b i j + exp4phi * gammabarDD_dD m b i j k in
  let gammaDDdDD := fun i j k l =>
    exp4phidDD k l * gammabarDD m b i j + exp4phidD k * gammabarDD_dD m b i j l + exp4phidD l * gammabarDD_dD m b i j k
    + exp4phi * gammabarDD_dDD m b i j k l in
  py_bind (inv3 gammaDD) (fun p =>
  let GammaUDD := fun i j k => s3 (fun l => 1 / 2 * fst p i l * (gammaDDdD l j k + gammaDDdD l k j - gammaDDdD j k l)) in
  let KDD := fun i j => exp4phi * AbarDD m b i j + 1 / 3 * gammaDD i j * v_trK b in
  let KDDdD := fun i j k =>
    exp4phidD k * AbarDD m b i j + exp4phi * AbarDD_dD m b i j k
    + 1 / 3 * (gammaDDdD i j k * v_trK b + gammaDD i j * v_trK_dD b k) in
  Ok (MkAdm (betaU m b) gammaDD gammaDDdD gammaDDdDD (fst p) (snd p) GammaUDD KDD KDDdD))))).

(** ** BSSN_RHSs.py, l.28-356 *)
Section RHS.
Variables (m : refm) (b : vars) (q : quantities).
Notation gU := (q_gUU q).
Notation gD := (gammabarDD m b).
Notation A := (AbarDD m b).
Notation beta := (betaU m b).
Notation alpha := (v_alpha b).
(** Step 2.b.ii, l.99-101 *)
Definition Dbarbetacontraction : R :=
  s3 (fun k => betaU_dD m b k k + beta k * detgammabar_dD m k / (2 * detgammabar m)).
(** Step 2, l.83-113 *)
Definition gammabar_rhsDD (i j : nat) : R :=
  s3 (fun k => beta k * gammabarDD_dupD m b i j k + betaU_dD m b k i * gD k j + betaU_dD m b k j * gD i k)
  + 2 / 3 * gD i j * (alpha * trAbar m b gU - Dbarbetacontraction) + - 2 * alpha * A i j.
(** Step 3.c.iii, l.150-159 *)
Definition alpha_dBarDD (i j : nat) : R := v_alpha_dDD b i j + s3 (fun k => - GammabarUDD m b gU k i j * v_alpha_dD b k).
(** Step 3.c.iv, l.162-168 *)
Definition curlybrackettermsDD (i j : nat) : R :=
  - 2 * alpha * q_phi_dBarDD q i j + 4 * alpha * phi_dD (q_phi q) i * phi_dD (q_phi q) j
  + 2 * v_alpha_dD b i * phi_dD (q_phi q) j + 2 * v_alpha_dD b j * phi_dD (q_phi q) i - alpha_dBarDD i j + alpha * q_Rbar q i j.
Definition curlybracketterms_trace : R := s3 (fun i => s3 (fun j => gU i j * curlybrackettermsDD i j)).
(** Step 3, l.121-136, 176-180 *)
Definition Abar_rhsDD (i j : nat) : R :=
  s3 (fun k => beta k * AbarDD_dupD m b i j k + betaU_dD m b k i * A k j + betaU_dD m b k j * A i k)
  + (- (2 / 3) * A i j * Dbarbetacontraction + alpha * A i j * v_trK b) + s3 (fun k => - 2 * alpha * A i k * AbarUD m b gU k j)
  + exp_m4phi (q_phi q) * (curlybrackettermsDD i j - 1 / 3 * gD i j * curlybracketterms_trace).
(** Step 4, l.186-199 *)
Definition phi_rhs : R := 1 / 6 * (Dbarbetacontraction - alpha * v_trK b) + s3 (fun k => beta k * phi_dupD (q_phi q) k).
Definition cf_rhs (cfname : string) : py R :=
  if String.eqb cfname "phi" then Ok phi_rhs
  else if String.eqb cfname "W" then Ok (phi_rhs * (- 2 * v_cf b))
  else if String.eqb cfname "chi" then Ok (phi_rhs * (- 4 * v_cf b))
  else Err ValueError.
(** Step 5, l.207-220 *)
Definition trK_rhs : R :=
  1 / 3 * alpha * v_trK b * v_trK b + s3 (fun i => beta i * v_trK_dupD b i)
  + s3 (fun i => s3 (fun j => - exp_m4phi (q_phi q) * gU i j * (alpha_dBarDD i j + 2 * v_alpha_dD b j * phi_dD (q_phi q) i)))
  + s3 (fun i => s3 (fun j => alpha * A i j * AbarUU m b gU i j)).
(** Step 6, l.233-322 *)
Definition LambdabarU_dupD (i j : nat) : R := v_lam_dupD b i j * h_ReU m i + v_lam b i * h_ReUdD m i j.
Definition Term2bUDD (i j k : nat) : R :=
  s3 (fun n => h_GamdD m i n k j * beta n + h_Gam m i n k * betaU_dD m b n j + h_Gam m i n j * betaU_dD m b n k
               - h_Gam m n k j * betaU_dD m b i n).
Definition Term2cUDD (i j k : nat) : R :=
  s3 (fun n => s3 (fun d => (h_Gam m i d j * h_Gam m d n k - h_Gam m d k j * h_Gam m i n d) * beta n)).
Definition Dbarbetacontraction_dBarD (n : nat) : R :=
  s3 (fun k => betaU_dDD m b k k n + (betaU_dD m b k n * detgammabar_dD m k + beta k * detgammabar_dDD m k n) / (2 * detgammabar m)
               - beta k * detgammabar_dD m k * detgammabar_dD m n / (2 * detgammabar m * detgammabar m)).
Definition Lambdabar_rhsU (i : nat) : R :=
  s3 (fun k => beta k * LambdabarU_dupD i k - betaU_dD m b i k * LambdabarU m b k)
  + s3 (fun j => s3 (fun k => gU j k * (betaU_dDD m b i k j + Term2bUDD i j k + Term2cUDD i j k)))
  + 2 / 3 * DGammaU m b gU i * Dbarbetacontraction
  + s3 (fun n => 1 / 3 * gU i n * Dbarbetacontraction_dBarD n)
  + s3 (fun j => - 2 * AbarUU m b gU i j * (v_alpha_dD b j - 6 * alpha * phi_dD (q_phi q) j))
  + s3 (fun j => s3 (fun k => 2 * alpha * AbarUU m b gU j k * DGammaUDD m b gU i j k))
  + s3 (fun j => - (4 / 3) * alpha * gU i j * v_trK_dD b j).
End RHS.
(** The results; [src] is what T4munu.BSSN_RHSs_T4UU_source_terms returns (Step 7, l.325-344), [None] without enable_T4munu. *)
Record rhss : Type := MkRhs { r_cf : R; r_trK : R; r_Lambdabar : nat -> R; r_lambda : nat -> R; r_a : nat -> nat -> R; r_h : nat -> nat -> R }.
Definition BSSN_RHSs (cfname : string) (det_one : bool) (rbar : option (nat -> nat -> R)) (src : option (R * (nat -> nat -> R) * (nat -> R)))
    (m : refm) (b : vars) : py rhss :=
  py_bind (bssn_quantities cfname det_one rbar m b) (fun q =>
  py_bind (cf_rhs m b q cfname) (fun cfr =>
  let '(sK, sA, sL) := match src with Some s => s | None => (0, fun _ _ => 0, fun _ => 0) end in
  let L := fun i => Lambdabar_rhsU m b q i + sL i in
  Ok (MkRhs cfr (trK_rhs m b q + sK) L (fun i => L i / h_ReU m i)
            (fun i j => (Abar_rhsDD m b q i j + sA i j) / h_ReDD m i j)
            (fun i j => gammabar_rhsDD m b q i j / h_ReDD m i j)))).
