(** Model of construct_param_ccl in nrpy/infrastructures/ETLegacy/param_ccl.py (the CarpetX file has the same code).  Left out: ConditionalFileUpdater and
    mkdir; only the text of param.ccl is kept. *)
From Coq Require Import String List Bool.
From Verif Require Import PyBase PyList CFunction.
Import ListNotations.
Open Scope string_scope.

(** The attributes of CFunction read here; an ET_current_thorn_CodeParams_used of None is the empty list (l.41 treats them alike) *)
Record pfun : Type := mk_pfun { p_thorn : string; p_used : list string }.
(** The attributes of CodeParameter read here; [c_default] is the text of defaultvalue *)
Record cparam : Type := mk_cparam { c_type : string; c_name : string; c_default : string }.

(** l.45-46 *)
Definition declare (acc : list string) (n : string) : list string := if existsb (String.eqb n) acc then acc else (acc ++ [n])%list.
(** l.36-46 *)
Definition registered (d : dict pfun) (thorn : string) : list string :=
  fold_left (fun acc f => if String.eqb (p_thorn f) thorn then fold_left declare (p_used f) acc else acc) (map snd d) [].
(** l.50-53 *)
Definition block (c : cparam) : string :=
  c_type c ++ " " ++ c_name c ++ " " ++ dq ++ "(see NRPy+ for parameter definition)" ++ dq ++ nl ++ "{" ++ nl
  ++ " *:* :: " ++ dq ++ "All values accepted. NRPy+ does not restrict the allowed ranges of parameters yet." ++ dq ++ nl
  ++ "} " ++ c_default c ++ nl ++ nl.
(** the loop of l.48-53 *)
Fixpoint blocks (params : dict cparam) (names : list string) : py string :=
  match names with
  | [] => Ok ""
  | n :: r => match dget n params with
              | None => Err KeyError
              | Some c => py_bind (blocks params r) (fun t => Ok (block c ++ t))
              end
  end.
(** l.29-35 *)
Definition intro (shares : string) : string :=
  "# This param.ccl file was automatically generated by NRPy+." ++ nl ++ "#   You are advised against modifying it directly; instead" ++ nl
  ++ "#   modify the Python code that generates it." ++ nl ++ shares ++ nl ++ nl ++ "restricted:" ++ nl.
(** construct_param_ccl, l.16-59: the text and the returned list *)
Definition construct_param_ccl (d : dict pfun) (params : dict cparam) (thorn shares : string) : py (string * list string) :=
  let l := registered d thorn in
  py_bind (blocks params (py_sorted String.leb l)) (fun t => Ok (intro shares ++ t, l)).
