(** Model of nrpy/infrastructures/ETLegacy/schedule_ccl.py and make_code_defn.py, and of their CarpetX copies, which differ in the list of
    scheduling bins and in the file suffix.  Left out: ConditionalFileUpdater (only the text and the name of each file are kept), mkdir, the
    warning printed for a function without schedule entries. *)
From Coq Require Import String Ascii List Bool Arith DecimalString.
From Verif Require Import PyBase PyList.
From Verif Require Import CFunction.
Import ListNotations.
Open Scope string_scope.

(** The attributes of CFunction read here, c_function.py l.87-110; an ET_schedule_bins_entries of None is the empty list (l.68 of schedule_ccl.py
    treats them alike) *)
Record cfun : Type := mk_cfun { f_name : string; f_subdirectory : string; f_thorn : string; f_bins : list (string * string); f_full : string }.

(** class ScheduleCCL, schedule_ccl.py l.15-42 *)
Record sccl : Type := mk_sccl { s_fun : string; s_bin : string; s_entry : string; s_out : bool }.

(** setdefault(thorn, []).append(x), l.70-76 *)
Definition add_sccl (d : dict (list sccl)) (kx : string * sccl) : dict (list sccl) :=
  let '(k, x) := kx in dset k (match dget k d with Some l => (l ++ [x])%list | None => [x] end) d.
(** sorted(cfc.CFunction_dict.items()), l.67: the keys are distinct, so the functions are never compared *)
Definition sorted_items (d : dict cfun) : list (string * cfun) := py_sorted (fun a b => String.leb (fst a) (fst b)) d.
(** the loops of l.67-80 *)
Definition collect (d : dict cfun) : dict (list sccl) :=
  fold_left (fun acc it => fold_left (fun acc be => add_sccl acc (f_thorn (snd it), mk_sccl (fst it) (fst be) (snd be) false)) (f_bins (snd it)) acc)
    (sorted_items d) [].
(** l.81-85 *)
Fixpoint add_extras (thorn : string) (extras : list (string * string)) (d : dict (list sccl)) : py (dict (list sccl)) :=
  match extras with
  | [] => Ok d
  | (b, e) :: r => match dget thorn d with
                   | None => Err KeyError
                   | Some l => add_extras thorn r (dset thorn (l ++ [mk_sccl "" b e false])%list d)
                   end
  end.

(** What is appended to outstr: a header for a known bin, a header for the remaining bins, an entry *)
Inductive piece : Type := Header (step : nat) (bin : string) | Remaining (step : nat) | Entry (text : string).
(** sccl.entry.replace("FUNC_NAME", sccl.function_name), l.110, l.118 *)
Definition entry_text (s : sccl) : string := py_replace "FUNC_NAME" (s_fun s) (s_entry s).
(** The condition of l.100-103 *)
Definition due (bin : string) (s : sccl) : bool := String.eqb (py_upper (s_bin s)) (py_upper bin) && negb (s_out s).
(** The inner loop, l.99-111: the entries with their flags, the step, what is appended *)
Fixpoint bin_pass (bin : string) (l : list sccl) (header : bool) (step : nat) : list sccl * nat * list piece :=
  match l with
  | [] => ([], step, [])
  | s :: r =>
      if due bin s
      then let '(r', step', out) := bin_pass bin r true (if header then step else S step) in
           (mk_sccl (s_fun s) (s_bin s) (s_entry s) true :: r', step', ((if header then [] else [Header step bin]) ++ Entry (entry_text s) :: out)%list)
      else let '(r', step', out) := bin_pass bin r header step in (s :: r', step', out)
  end.
(** The loop over the bins, l.88-111 *)
Fixpoint all_bins (bins : list string) (l : list sccl) (step : nat) : list sccl * nat * list piece :=
  match bins with
  | [] => (l, step, [])
  | b :: r => let '(l', step', out) := bin_pass b l false step in let '(l'', step'', out') := all_bins r l' step' in (l'', step'', (out ++ out')%list)
  end.
(** l.113-118: neither the step nor the flag changes *)
Definition remaining (l : list sccl) (step : nat) : list piece :=
  flat_map (fun s => if s_out s then [] else [Remaining step; Entry (entry_text s)]) l.

(** l.88-97 *)
Definition bins_ETLegacy : list string :=
  ["STARTUP"; "Driver_BoundarySelect"; "BASEGRID"; "CCTK_INITIAL"; "MoL_Register"; "MoL_CalcRHS"; "MoL_PostStep"; "MoL_PseudoEvolution"].
(** CarpetX/schedule_ccl.py l.88-94 *)
Definition bins_CarpetX : list string := ["STARTUP"; "BASEGRID"; "CCTK_INITIAL"; "ODESolvers_RHS"; "ODESolvers_PostStep"].

(** The texts of l.105-107, l.115-117 *)
Definition rule : string := nl ++ "##################################################" ++ nl.
Definition dec (n : nat) : string := NilEmpty.string_of_uint (Nat.to_uint n).
Definition piece_text (p : piece) : string :=
  match p with
  | Header n b => rule ++ "# Step " ++ dec n ++ ": Schedule functions in the " ++ b ++ " scheduling bin." ++ nl
  | Remaining n => rule ++ "# Step " ++ dec n ++ ": Schedule functions in the remaining scheduling bins." ++ nl
  | Entry t => t
  end.
(** l.58-65 *)
Definition preamble (STORAGE : string) : string :=
  "# This schedule.ccl file was automatically generated by NRPy+." ++ nl ++ "#   You are advised against modifying it directly; instead" ++ nl
  ++ "#   modify the Python code that generates it." ++ nl ++ rule
  ++ "# Step 0: Allocate memory for gridfunctions, using the STORAGE: keyword." ++ nl ++ STORAGE ++ nl.
(** construct_schedule_ccl, l.46-123: the text of schedule.ccl *)
Definition construct_schedule_ccl (bins : list string) (d : dict cfun) (thorn STORAGE : string) (extras : list (string * string)) : py string :=
  py_bind (add_extras thorn extras (collect d)) (fun sd =>
  match dget thorn sd with
  | None => Err KeyError
  | Some l => let '(l', step, out) := all_bins bins l 1 in
              Ok (preamble STORAGE ++ String.concat "" (map piece_text (out ++ remaining l' step)))
  end).

(** make_code_defn.py l.30-37 *)
Definition thorn_functions (d : dict cfun) (thorn : string) : list cfun :=
  py_sorted (fun a b => String.leb (f_name a) (f_name b)) (filter (fun f => String.eqb (f_subdirectory f) thorn) (map snd d)).
Definition backslash : string := String (ascii_of_nat 92) "".
(** l.50-62: the lines of SRCS, with the test i < len - 1 *)
Fixpoint src_lines (suffix : string) (l : list cfun) : string :=
  match l with
  | [] => ""
  | [f] => "       " ++ f_name f ++ suffix ++ nl
  | f :: r => "       " ++ f_name f ++ suffix ++ " " ++ backslash ++ nl ++ src_lines suffix r
  end.
(** output_CFunctions_and_construct_make_code_defn, l.15-62: the text of make.code.defn, and the files written in the order they are written *)
Definition make_code_defn (suffix : string) (d : dict cfun) (thorn : string) : string * list (string * string) :=
  let l := thorn_functions d thorn in
  ("# make.code.defn file for thorn " ++ thorn ++ nl ++ nl ++ "# Source files that need to be compiled:" ++ nl ++ "SRCS = " ++ backslash ++ nl
   ++ src_lines suffix l, map (fun f => (f_name f ++ suffix, f_full f)) l).
