(** Model of nrpy/infrastructures/BHaH/MoLtimestepping/MoL.py: choice of storage scheme, generated time step, memory. *)
From Coq Require Import String Ascii List Bool Arith.
From Verif Require Import PyBase.
Import ListNotations.
Open Scope string_scope.

Section MoL.
(** Numbers: coefficients of the tables and gridfunction values.  Rounding is not modelled. *)
Variable K : Type.
Variables (kO kI : K) (kadd kmul ksub : K -> K -> K) (kinv : K -> K) (keqb : K -> K -> bool).

(** ** Butcher tables (RK_Butcher_Table_Dictionary.py): rows of a leading cell and coefficients; [coef B i j] is
    Butcher[i][j] for j >= 1.  IndexError on ragged tables is not modelled (0 is returned). *)
Inductive cell : Type := CNum (c : K) | CTag (s : string).
Definition table : Type := list (cell * list K).
Definition coef (B : table) (i j : nat) : K := nth (j - 1) (snd (nth i B (CTag "", []))) kO.
Definition head (B : table) (i : nat) : cell := fst (nth i B (CTag "", [])).

(** is_diagonal_Butcher, l.36-66 *)
Definition is_diagonal (B : table) : bool :=
  forallb (fun i => forallb (fun j => keqb (coef B i j) kO) (seq 1 (i - 1))) (seq 0 (List.length B - 1)).

(** generate_gridfunction_names, l.69-148: the non-y_n arrays and the two diagnostics targets (None is printed as the
    text None by l.205) *)
Definition k_gfs (i : nat) : string := "k" ++ str_of_nat i ++ "_gfs".
Definition rk3_a : string := "k1_or_y_nplus_a21_k1_or_y_nplus1_running_total_gfs".
Definition rk3_b : string := "k2_or_y_nplus_a32_k2_gfs".
Definition gridfunction_names (name : string) (B : table) : list string * string * option string :=
  if is_diagonal B && py_in "RK3" name then
    ([rk3_a; rk3_b; "auxevol_gfs"], rk3_a, Some rk3_b)
  else if negb (is_diagonal B) then
    let l := "next_y_input_gfs" :: map (fun i => k_gfs (i + 1)) (seq 0 (List.length B - 1)) in
    ((l ++ ["auxevol_gfs"])%list, "k1_gfs", if existsb (String.eqb "k2_gfs") l then Some "k2_gfs" else None)
  else
    (("y_nplus1_running_total_gfs" :: (if String.eqb name "Euler" then [] else ["k_odd_gfs"; "k_even_gfs"]))
       ++ ["auxevol_gfs"], "y_nplus1_running_total_gfs", Some "k_odd_gfs")%list.

(** ** Expressions of the RK updates.  A symbol X_gfsL of the source is the value of array X_gfs at the current point
    (the .replace('gfsL', 'gfs[i]') of l.306-322). *)
Inductive ex : Type :=
| ESym (s : string) | EDt | ENum (k : K) | EAdd (a b : ex) | ESub (a b : ex) | EMul (a b : ex) | EDiv (a b : ex).
Record substep : Type := MkSub {
  ss_time : K; ss_in : string; ss_out : string; ss_upd : list (string * ex); ss_post : list string }.

Definition y_n : string := "y_n_gfs".
Definition next_y : string := "next_y_input_gfs".
Definition running : string := "y_nplus1_running_total_gfs".
Definition k_odd : string := "k_odd_gfs".
Definition k_even : string := "k_even_gfs".

(** l.276-283: the time offset must be a number *)
Definition mk_substep (c : cell) (i o : string) (u : list (string * ex)) (p : list string) : py substep :=
  match c with CNum q => Ok (MkSub q i o u p) | CTag _ => Err ValueError end.
Fixpoint sequence (l : list (py substep)) : py (list substep) :=
  match l with
  | [] => Ok []
  | m :: r => py_bind m (fun s => py_bind (sequence r) (fun t => Ok (s :: t)))
  end.

(** Diagonal RK3, l.485-594 *)
Definition gen_rk3 (B : table) : list (py substep) :=
  [ mk_substep (head B 0) y_n rk3_a
      [(rk3_a, EAdd (EMul (EMul (ENum (coef B 1 1)) (ESym rk3_a)) EDt) (ESym y_n))] [rk3_a];
    mk_substep (head B 1) rk3_a rk3_b
      [(rk3_a, EAdd (EAdd (EDiv (EMul (ENum (coef B 3 1)) (ESub (ESym rk3_a) (ESym y_n))) (ENum (coef B 1 1))) (ESym y_n))
                    (EMul (EMul (ENum (coef B 3 2)) (ESym rk3_b)) EDt));
       (rk3_b, EAdd (EMul (EMul (ENum (coef B 2 2)) (ESym rk3_b)) EDt) (ESym y_n))] [rk3_b; rk3_a];
    mk_substep (head B 2) rk3_b y_n
      [(y_n, EAdd (ESym rk3_a) (EMul (EMul (ENum (coef B 3 3)) (ESym y_n)) EDt))] [y_n] ].

(** Non-diagonal tables, l.597-644 *)
Definition general_rhs (B : table) (s : nat) : ex :=
  fold_left (fun e m =>
      let a := coef B (s + 1) (m + 1) in
      if negb (keqb a kO) then
        if negb (keqb a kI) then EAdd e (EMul (EMul EDt (ESym (k_gfs (m + 1)))) (ENum a))
        else EAdd e (EMul EDt (ESym (k_gfs (m + 1))))
      else e) (seq 0 (s + 1)) (ESym y_n).
Definition gen_general (B : table) : list (py substep) :=
  let n := List.length B - 1 in
  map (fun s =>
      let lhs := if Nat.eqb s (n - 1) then y_n else next_y in
      mk_substep (head B s) (if Nat.eqb s 0 then y_n else next_y) (k_gfs (s + 1)) [(lhs, general_rhs B s)] [lhs])
    (seq 0 n).

(** Euler, l.650-665 *)
Definition gen_euler (B : table) : list (py substep) :=
  [mk_substep (head B 0) y_n running [(y_n, EAdd (ESym y_n) (EMul (ESym running) EDt))] [y_n]].

(** Diagonal tables with k_odd and k_even, l.667-745 *)
Definition diag_updates (B : table) (n s : nat) (out : string) : list (string * ex) :=
  let b := coef B n (s + 1) in
  let a := coef B (s + 1) (s + 1) in
  let term (e : ex) (c : K) := if negb (keqb c kI) then EAdd e (EMul (EMul (ESym out) EDt) (ENum c))
                               else EAdd e (EMul (ESym out) EDt) in
  if negb (Nat.eqb s (n - 1)) then
    if Nat.eqb s 0 then
      [(running, EMul (EMul (ESym out) EDt) (ENum b)); (out, EAdd (ESym y_n) (EMul (EMul (ESym out) EDt) (ENum a)))]
    else
      ((if negb (keqb b kO) then [(running, term (ESym running) b)] else [])
       ++ (if negb (keqb a kO) then [(out, term (ESym y_n) a)] else []))%list
  else
    if negb (keqb b kO) then [(y_n, term (EAdd (ESym y_n) (ESym running)) b)] else [].
Definition gen_diag (B : table) : list (py substep) :=
  let n := List.length B - 1 in
  map (fun s =>
      let inp := if Nat.eqb s 0 then y_n else if Nat.even s then k_even else k_odd in
      let out := if Nat.even s then k_odd else k_even in
      mk_substep (head B s) inp out (diag_updates B n s out) [if Nat.eqb s (n - 1) then y_n else out])
    (seq 0 n).

(** register_CFunction_MoL_step_forward_in_time, l.471-745: dispatch *)
Definition gen_step (name : string) (B : table) : py (list substep) :=
  match head B (List.length B - 1) with
  | CTag "" =>
      sequence (if is_diagonal B && py_in "RK3" name then gen_rk3 B
                else if negb (is_diagonal B) then gen_general B
                else if String.eqb name "Euler" then gen_euler B
                else gen_diag B)
  | _ => Err ValueError
  end.

(** ** Meaning of the generated C code.  [P] is the set of all (grid, gridfunction, point) triples; arrays map them to
    numbers.  The right-hand side function computes [rhs t u p] at the points it writes ([writes p]) and leaves the rest of
    its output array alone; [post] is the post-RHS function (boundary conditions etc.).  The per-grid loop (l.278, 360) is
    merged: substeps of different grids touch different points.  post_post_rhs_string is taken empty.  OpenMP loops are
    pointwise. *)
Variable P : Type.
Definition arr : Type := P -> K.
Definition store : Type := string -> arr.
Definition upd (st : store) (n : string) (a : arr) : store := fun m => if String.eqb m n then a else st m.
Variable writes : P -> bool.
Variable rhs : K -> arr -> arr.
Variable post : arr -> arr.

Fixpoint eval (dt : K) (env : string -> K) (e : ex) : K :=
  match e with
  | ESym s => env s
  | EDt => dt
  | ENum k => k
  | EAdd a b => kadd (eval dt env a) (eval dt env b)
  | ESub a b => ksub (eval dt env a) (eval dt env b)
  | EMul a b => kmul (eval dt env a) (eval dt env b)
  | EDiv a b => kmul (eval dt env a) (kinv (eval dt env b))
  end.
(** l.285-292 *)
Definition run_rhs (t : K) (st : store) (i o : string) : store :=
  upd st o (fun p => if writes p then rhs t (st i) p else st o p).
(** l.294-353: at each point all symbols are read first, then the left-hand sides are written *)
Definition run_updates (dt : K) (st : store) (u : list (string * ex)) : store :=
  fold_left (fun st' '(n, e) => upd st' n (fun p => eval dt (fun s => st s p) e)) u st.
(** l.355-359 *)
Definition run_post (st : store) (l : list string) : store := fold_left (fun st' n => upd st' n (post (st' n))) l st.
Definition run_substep (t dt : K) (st : store) (s : substep) : store :=
  run_post (run_updates dt (run_rhs (kadd t (kmul (ss_time s) dt)) st (ss_in s) (ss_out s)) (ss_upd s)) (ss_post s).
Definition run_step (t dt : K) (l : list substep) (st : store) : store := fold_left (run_substep t dt) l st.

(** l.747-754: time and iteration counter after the step *)
Variable of_nat : nat -> K.
Definition after_step (nn : nat) (dt : K) : K * nat := (kmul (of_nat (nn + 1)) dt, nn + 1).

(** ** Memory: register_CFunction_MoL_malloc l.151-220, register_CFunction_MoL_free_memory l.770-820.  The arrays each
    generated function allocates or frees (auxevol_gfs only when NUM_AUXEVOL_GFS > 0). *)
Definition malloc_list (which name : string) (B : table) (naux : nat) : py (list string) :=
  let '(l, _, _) := gridfunction_names name B in
  let keep g := negb (String.eqb g "auxevol_gfs") || Nat.ltb 0 naux in
  if String.eqb which "y_n_gfs" then Ok (filter keep [y_n])
  else if String.eqb which "non_y_n_gfs" then Ok (filter keep l)
  else Err ValueError.
Definition free_list (which name : string) (B : table) (naux : nat) : py (list string) :=
  let '(l, _, _) := gridfunction_names name B in
  let gfs := if String.eqb which "y_n_gfs" then Ok [y_n] else if String.eqb which "non_y_n_gfs" then Ok l
             else Err ValueError in
  py_bind gfs (fun gfs => Ok (flat_map (fun g => if String.eqb g "auxevol_gfs" then (if Nat.ltb 0 naux then [g] else [])
                                                else [g]) gfs)).
(** register_CFunctions, l.912-935: members of MoL_gridfunctions_struct *)
Definition struct_members (name : string) (B : table) : list string :=
  let '(l, _, _) := gridfunction_names name B in
  (y_n :: l ++ ["diagnostic_output_gfs"; "diagnostic_output_gfs2"])%list.
(** l.204-205: right-hand sides of the two pointer assignments emitted by each malloc function *)
Definition pointer_targets (name : string) (B : table) : list string :=
  let '(_, d1, d2) := gridfunction_names name B in [d1; match d2 with Some d => d | None => "None" end].
End MoL.
