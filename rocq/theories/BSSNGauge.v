(** Model of nrpy/equations/general_relativity/BSSN_gauge_RHSs.py (BSSN_gauge_RHSs, l.32-329).  As in BSSN.v SymPy expressions are
    replaced by real values.  The symbols declared in this file (alpha_dupD, betU_dupD) and the code parameter eta are arguments.
    What is kept of the dictionary BSSN_quantities of cached objects is the one attribute that a call can change: for every key and
    every index whether the entry BU[i] has been overwritten with 0.  Not modelled: the registration of eta, the look-up of the
    reference metric (RefMetric.v). *)
From Coq Require Import String List ZArith Bool Reals.
From Verif Require Import PyBase Inverter GRMetric Grid BSSN.
Import ListNotations.
Local Open Scope R_scope.

(** Python's [x in s] for strings *)
Definition substr_in (x s : string) : bool := match String.index 0 x s with Some _ => true | None => false end.

(** The entries of Bq.BU that have been set to 0, per key of the dictionary BSSN_quantities *)
Definition bq_cache : Type := string -> nat -> bool.
(** a fresh interpreter: BSSN_quantities.py l.109-113 has set every BU[i] *)
Definition fresh : bq_cache := fun _ _ => false.
(** the key, l.64-66 *)
Definition bq_key (CoordSystem : string) (enable_rfm_precompute : bool) : string :=
  (CoordSystem ++ (if enable_rfm_precompute then "_rfm_precompute" else ""))%string.
(** BU[i] = sp.sympify(0) for i in range(3), l.155-158 *)
Definition zero_BU (k : string) (st : bq_cache) : bq_cache :=
  fold_left (fun st i => fun k' i' => if String.eqb k' k && Nat.eqb i' i then true else st k' i') (seq 0 3) st.

(** The arguments that are values at the point *)
Record gauge_in : Type := MkGin {
  i_m : refm; i_b : vars; i_src : option (R * (nat -> nat -> R) * (nat -> R));
  i_alpha_dupD : nat -> R; i_betU_dupD : nat -> nat -> R; i_eta : R }.
Record gauge : Type := MkGauge { g_alpha : R; g_vet : nat -> R; g_bet : nat -> R }.

Section Gauge.
Variables (x : gauge_in) (rh : rhss) (gU : nat -> nat -> R) (BU : nat -> R).
Notation m := (i_m x).
Notation b := (i_b x).
Notation beta := (betaU (i_m x) (i_b x)).
Notation eta := (i_eta x).
(** ** Step 2, l.82-124 *)
Definition advect_alpha (start : R) : R := start + s3 (fun i => beta i * i_alpha_dupD x i).
Definition lapse_rhs (cfname lapse : string) : py R :=
  if String.eqb lapse "OnePlusLog" then Ok (advect_alpha (- 2 * v_alpha b * v_trK b))
  else if String.eqb lapse "HarmonicSlicing" then
    if String.eqb cfname "W" then Ok (- 3 * / (v_cf b ^ 4) * r_cf rh)
    else if String.eqb cfname "phi" then Ok (6 * exp (6 * v_cf b) * r_cf rh)
    else Err ValueError
  else if String.eqb lapse "Frozen" then Ok 0
  else if String.eqb lapse "OnePlusLogAlt" then Ok (advect_alpha (- v_alpha b * (1 - v_alpha b) * v_trK b))
  else Err ValueError.
(** ** Step 3, l.130-141 *)
Definition shift_options : list string :=
  ["Frozen"; "GammaDriving2ndOrder_NoCovariant"; "GammaDriving2ndOrder_Covariant"; "GammaDriving2ndOrder_Covariant__Hatted";
   "GammaDriving1stOrder_Covariant"; "GammaDriving1stOrder_Covariant__Hatted"; "NonAdvectingGammaDriving"]%string.
(** l.173-177, 232-236 *)
Definition BU_dupD (i j : nat) : R := i_betU_dupD x i j * h_ReU m i + v_bet b i * h_ReUdD m i j.
(** l.180-185 *)
Definition Lambdabar_partial0 (j : nat) : R := r_Lambdabar rh j + s3 (fun i => - beta i * LambdabarU_dupD m b j i).
(** beta_rhsU and B_rhsU as they grow; [bB] is the pair *)
Definition bB : Type := ((nat -> R) * (nat -> R))%type.
(** l.160-191 *)
Definition step_NoCovariant (shift : string) (p : bB) : bB :=
  if String.eqb shift "GammaDriving2ndOrder_NoCovariant" then
    (fun i => fst p i + BU i + s3 (fun j => beta j * betaU_dupD m b i j),
     fun i => snd p i + (3 / 4 * Lambdabar_partial0 i - eta * BU i) + s3 (fun j => beta j * BU_dupD i j))
  else p.
(** l.194-214 *)
Definition step_Covariant_beta (shift : string) (p : bB) : bB :=
  if substr_in "GammaDriving2ndOrder_Covariant" shift then
    let Conn := if String.eqb shift "GammaDriving2ndOrder_Covariant__Hatted" then h_Gam m else GammabarUDD m b gU in
    (fun i => fst p i + s3 (fun j => beta j * betaU_dupD m b i j) + s3 (fun j => s3 (fun n => beta j * Conn i n j * beta n)) + BU i, snd p)
  else p.
(** l.216-267 *)
Definition step_Covariant_B (shift : string) (p : bB) : bB :=
  if substr_in "GammaDriving2ndOrder_Covariant" shift then
    let Conn := if String.eqb shift "GammaDriving2ndOrder_Covariant__Hatted" then h_Gam m else GammabarUDD m b gU in
    (fst p,
     fun i => snd p i + s3 (fun j => beta j * BU_dupD i j) + s3 (fun j => s3 (fun n => beta j * Conn i n j * BU n))
       + 3 / 4 * r_Lambdabar rh i
       + s3 (fun j => - (3 / 4) * beta j * LambdabarU_dupD m b i j)
       + s3 (fun j => s3 (fun n => - (3 / 4) * beta j * Conn i n j * LambdabarU m b n))
       + - eta * BU i)
  else p.
(** l.269-298 *)
Definition step_1stOrder (shift : string) (p : bB) : bB :=
  if substr_in "GammaDriving1stOrder_Covariant" shift then
    let Conn := if String.eqb shift "GammaDriving1stOrder_Covariant__Hatted" then h_Gam m else GammabarUDD m b gU in
    (fun i => fst p i + s3 (fun j => beta j * betaU_dupD m b i j) + s3 (fun j => s3 (fun n => beta j * Conn i n j * beta n))
       + (3 / 4 * LambdabarU m b i - eta * beta i),
     fun _ => 0)
  else p.
(** l.300-313 *)
Definition step_NonAdvecting (shift : string) (p : bB) : bB :=
  if String.eqb shift "NonAdvectingGammaDriving" then
    (fun i => fst p i + BU i, fun i => snd p i + (3 / 4 * r_Lambdabar rh i - eta * BU i))
  else p.
(** l.147-313: both start at zerorank1(); the Frozen branch stores 0 in beta_rhsU again *)
Definition shift_rhs (shift : string) : bB :=
  step_NonAdvecting shift (step_1stOrder shift (step_Covariant_B shift (step_Covariant_beta shift (step_NoCovariant shift (fun _ => 0, fun _ => 0))))).
End Gauge.

(** l.32-329: the values returned, and the cache afterwards *)
Definition BSSN_gauge_RHSs (cfname : string) (det_one : bool) (CoordSystem : string) (pre : bool) (lapse shift : string)
    (x : gauge_in) (st : bq_cache) : py (gauge * bq_cache) :=
  py_bind (bssn_quantities cfname det_one None (i_m x) (i_b x)) (fun q =>
  py_bind (BSSN_RHSs cfname det_one None (i_src x) (i_m x) (i_b x)) (fun rh =>
  py_bind (lapse_rhs x rh cfname lapse) (fun a =>
  if negb (str_in shift shift_options) then Err ValueError
  else
    let k := bq_key CoordSystem pre in
    let st' := if String.eqb shift "Frozen" then zero_BU k st else st in
    let BUs := fun i => if st' k i then 0 else BU (i_m x) (i_b x) i in
    let p := shift_rhs x rh (q_gUU q) BUs shift in
    Ok (MkGauge a (fun i => fst p i / h_ReU (i_m x) i) (fun i => snd p i / h_ReU (i_m x) i), st')))).

(** A sequence of calls in one interpreter; a call that raises ValueError is caught by its caller and leaves the cache as it is *)
Record gcall : Type := MkCall { c_coord : string; c_pre : bool; c_lapse : string; c_shift : string; c_in : gauge_in }.
Definition gcall_run (cfname : string) (det_one : bool) (c : gcall) (st : bq_cache) : py (gauge * bq_cache) :=
  BSSN_gauge_RHSs cfname det_one (c_coord c) (c_pre c) (c_lapse c) (c_shift c) (c_in c) st.
Definition gcalls_run (cfname : string) (det_one : bool) (cs : list gcall) (st : bq_cache) : bq_cache :=
  fold_left (fun st c => match gcall_run cfname det_one c st with Ok (_, st') => st' | Err _ => st end) cs st.
