(** Model of nrpy/c_function.py (CFunction, register_CFunction) and of prefix_with_star in nrpy/helpers/generic.py. *)
From Coq Require Import String Ascii List Bool Arith.
From Verif Require Import PyBase CacheFS.
Import ListNotations.
Open Scope string_scope.

Definition nl : string := String (ascii_of_nat 10) "".
Definition dq : string := String (ascii_of_nat 34) "".

(** ** Paths (posixpath) *)
(** os.path.join(a, b), used in c_function.py l.162, l.173, l.199, l.240 *)
Definition path_join (a b : string) : string :=
  if prefix "/" b then b
  else match last_char a with
       | None => b
       | Some c => if Ascii.eqb c "/" then a ++ b else a ++ "/" ++ b
       end.
(** one step of the loop of posixpath.normpath; [st] is new_comps, last component first *)
Definition norm_step (absolute : bool) (st : list string) (comp : string) : list string :=
  if String.eqb comp "" || String.eqb comp "." then st
  else if negb (String.eqb comp "..") || (negb absolute && match st with [] => true | _ => false end)
          || match st with t :: _ => String.eqb t ".." | [] => false end
       then comp :: st
       else tl st.
Definition norm_comps (absolute : bool) (comps : list string) : list string :=
  rev (fold_left (norm_step absolute) comps []).
(** os.path.normpath, c_function.py l.139 *)
Definition normpath (p : string) : string :=
  if String.eqb p "" then "."
  else
    let absolute := prefix "/" p in
    let lead := if prefix "//" p && negb (prefix "///" p) then "//" else if absolute then "/" else "" in
    let q := lead ++ String.concat "/" (norm_comps absolute (py_split "/" p)) in
    if String.eqb q "" then "." else q.
(** CFunction.subdirectory_depth, c_function.py l.113-146 *)
Definition subdirectory_depth (subdirectory : string) : nat :=
  let s := normpath subdirectory in
  if String.eqb s "." then 0
  else List.length (filter (fun f => negb (String.eqb f "")) (py_split "/" s)).
(** rel_path_to_root_directory, c_function.py l.160-162 *)
Fixpoint rel_path (n : nat) : string :=
  match n with O => "" | S k => path_join (rel_path k) ".." end.

(** ** Text *)
(** prefix_with_star, generic.py l.36-56 *)
Definition prefix_with_star (s : string) : string :=
  String.concat nl (map (fun line => "   * " ++ py_strip line) (py_split nl s)).

(** Elements of the includes list (l.182): a string or something else. *)
Inductive inc_item : Type := IStr (s : string) | IOther.
(** The includes argument (l.60): None or an empty value, a truthy non-list, or a list. *)
Inductive inc_arg : Type := INone | INotList | IList (l : list inc_item).

(** The arguments of register_CFunction (l.247-266) and of CFunction.__init__ (l.54-74).  The four ET_* arguments are
    only stored; they are kept as one opaque value of type [E]. *)
Record cargs (E : Type) : Type := MkArgs {
  a_subdir : string; a_simd : bool; a_includes : inc_arg; a_prefunc : string; a_desc : string;
  a_decorators : string; a_type : string; a_name : string; a_params : string; a_cparams_h : bool;
  a_body : string; a_postfunc : string; a_coord : string; a_et : E; a_clang : string }.
Arguments MkArgs {E}. Arguments a_subdir {E}. Arguments a_simd {E}. Arguments a_includes {E}. Arguments a_prefunc {E}.
Arguments a_desc {E}. Arguments a_decorators {E}. Arguments a_type {E}. Arguments a_name {E}. Arguments a_params {E}.
Arguments a_cparams_h {E}. Arguments a_body {E}. Arguments a_postfunc {E}. Arguments a_coord {E}. Arguments a_et {E}.
Arguments a_clang {E}.

(** A CFunction object (l.90-110): its attributes ([c_args], with the decorators already carrying their trailing
    space) and the three texts. *)
Record cfunction (E : Type) : Type := MkC { c_args : cargs E; c_proto : string; c_raw : string; c_full : string }.
Arguments MkC {E}. Arguments c_args {E}. Arguments c_proto {E}. Arguments c_raw {E}. Arguments c_full {E}.

Section CF.
Variable E : Type.
(** par.parval_from_str("Infrastructure") (l.172, l.190) and clang_format (generic.py l.59-102: an external program, which
    may fail with RuntimeError) are parameters. *)
Variable infra : string.
Variable clang_format : string -> string -> py string.

(** l.165-176 *)
Definition cparams_include (a : cargs E) (rel : string) : string :=
  if a_cparams_h a then
    let file := if a_simd a || py_in "simd_width" (a_body a)
                then "set_CodeParameters-simd.h" else "set_CodeParameters.h" in
    if String.eqb infra "BHaH" then "#include " ++ dq ++ path_join rel file ++ dq ++ nl
    else "#include " ++ dq ++ file ++ dq ++ nl
  else "".

(** l.187-200, one include *)
Definition include_line (rel inc : string) : string :=
  if py_in "<" inc then "#include " ++ inc ++ nl
  else
    let inc' := if String.eqb infra "BHaH"
                   && (py_in "BHaH_defines.h" inc || py_in "BHaH_function_prototypes.h" inc
                       || py_in "simd_intrinsics.h" inc)
                then path_join rel inc else inc in
    "#include " ++ dq ++ inc' ++ dq ++ nl.

(** l.180-200 *)
Fixpoint include_lines (rel : string) (l : list inc_item) : py string :=
  match l with
  | [] => Ok ""
  | IOther :: _ => Err TypeError
  | IStr s :: r => py_bind (include_lines rel r) (fun t => Ok (include_line rel s ++ t))
  end.
Definition includes_text (rel : string) (i : inc_arg) : py string :=
  match i with IList l => include_lines rel l | _ => Ok "" end.

(** l.208-210 *)
Definition prototype_of (a : cargs E) : string :=
  a_decorators a ++ a_type a ++ " " ++ a_name a ++ "(" ++ a_params a ++ ");".

(** generate_full_function, l.148-218 *)
Definition generate_full_function (a : cargs E) : py (string * string * string) :=
  let rel := rel_path (subdirectory_depth (a_subdir a)) in
  py_bind (includes_text rel (a_includes a)) (fun incs =>
    let raw :=
      incs
      ++ (if String.eqb (a_prefunc a) "" then "" else a_prefunc a ++ nl)
      ++ (if String.eqb (a_desc a) "" then "" else "/**" ++ nl ++ prefix_with_star (a_desc a) ++ nl ++ "*/" ++ nl)
      ++ py_replace ";" "" (prototype_of a) ++ " {" ++ nl ++ cparams_include a rel ++ a_body a ++ "}" ++ nl
      ++ a_postfunc a ++ nl in
    py_bind (clang_format raw (a_clang a)) (fun full => Ok (prototype_of a, raw, full))).

Definition set_decorators (a : cargs E) (d : string) : cargs E :=
  MkArgs (a_subdir a) (a_simd a) (a_includes a) (a_prefunc a) (a_desc a) d (a_type a) (a_name a) (a_params a)
         (a_cparams_h a) (a_body a) (a_postfunc a) (a_coord a) (a_et a) (a_clang a).

(** CFunction.__init__, l.75-110 *)
Definition cfunction_init (a : cargs E) : py (cfunction E) :=
  if String.eqb (a_name a) "" || String.eqb (a_desc a) "" || String.eqb (a_body a) "" then Err ValueError
  else match a_includes a with
       | INotList => Err ValueError
       | _ =>
           if negb (String.eqb (a_coord a) "") && py_in "griddata_struct" (a_params a) then Err ValueError
           else
             let a' := set_decorators a (if String.eqb (a_decorators a) "" then "" else a_decorators a ++ " ") in
             py_bind (generate_full_function a') (fun t => Ok (MkC a' (fst (fst t)) (snd (fst t)) (snd t)))
       end.

(** function_name_and_subdir_with_CoordSystem, l.224-244 *)
Definition name_and_subdir (subdir name coord : string) : string * string :=
  if String.eqb coord "" then (subdir, name) else (path_join subdir coord, name ++ "__rfm__" ++ coord).

Definition qualify (a : cargs E) : cargs E :=
  let '(sd, nm) := name_and_subdir (a_subdir a) (a_name a) (a_coord a) in
  MkArgs sd (a_simd a) (a_includes a) (a_prefunc a) (a_desc a) (a_decorators a) (a_type a) nm (a_params a)
         (a_cparams_h a) (a_body a) (a_postfunc a) (a_coord a) (a_et a) (a_clang a).

(** register_CFunction, l.296-320: new dictionary and outcome *)
Definition register_CFunction (d : dict (cfunction E)) (a : cargs E) : dict (cfunction E) * py unit :=
  let a' := qualify a in
  if dmem (a_name a') d then (d, Err ValueError)
  else match cfunction_init a' with
       | Err e => (d, Err e)
       | Ok f => (dset (a_name a') f d, Ok tt)
       end.

(** a sequence of calls, each wrapped so that an exception is caught and the run continues *)
Definition run_calls (l : list (cargs E)) (d : dict (cfunction E)) : dict (cfunction E) :=
  fold_left (fun d a => fst (register_CFunction d a)) l d.
End CF.
