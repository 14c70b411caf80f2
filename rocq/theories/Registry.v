(** Struct declarations and the C text made from them: griddata_commondata.py, the struct and module parts
    of BHaH_defines_h.py, and CodeParameters.py, all in nrpy/infrastructures/BHaH.  Definitions only. *)
From Coq Require Import String Ascii List Arith ZArith Bool.
From Verif Require Import PyBase PyList Params.
From Verif Require CacheFS.
Import ListNotations.
Open Scope string_scope.
Set Implicit Arguments.

Definition NL : string := String (ascii_of_nat 10) "".
Definition DQ : string := String (ascii_of_nat 34) "".

(** * griddata_commondata.py *)

(** GridCommonData.__init__, griddata_commondata.py l.25-30: the object, or ValueError for a semicolon. *)
Record gdata := MkGD { gd_module : string; gd_decl : string; gd_desc : string }.
Definition GridCommonData_init (module decl desc : string) : py gdata :=
  if py_in ";" decl then Err ValueError else Ok (MkGD module decl desc).

(** register_griddata_or_commondata, griddata_commondata.py l.56-68. *)
Definition register_in (module decl desc : string) (d : dict (list gdata)) : dict (list gdata) * py unit :=
  match dget module d with
  | Some l =>
      if existsb (fun gd => String.eqb (gd_decl gd) decl) l then (d, Err ValueError)
      else match GridCommonData_init module decl desc with
           | Err e => (d, Err e)
           | Ok g => (dset module (l ++ [g])%list d, Ok tt)
           end
  | None => match GridCommonData_init module decl desc with
            | Err e => (d, Err e)
            | Ok g => (dset module [g] d, Ok tt)
            end
  end.

(** The two entries of par.glb_extras_dict this function uses; None: the key is absent. *)
Record extras := MkEx { ex_common : option (dict (list gdata)); ex_grid : option (dict (list gdata)) }.
Definition or_empty (o : option (dict (list gdata))) : dict (list gdata) :=
  match o with Some d => d | None => [] end.

(** register_griddata_commondata, griddata_commondata.py l.70-79: the missing dictionary is created before anything can raise. *)
Definition register_griddata_commondata (module decl desc : string) (is_common : bool) (e : extras)
  : extras * py unit :=
  if is_common then
    let (d, r) := register_in module decl desc (or_empty (ex_common e)) in (MkEx (Some d) (ex_grid e), r)
  else
    let (d, r) := register_in module decl desc (or_empty (ex_grid e)) in (MkEx (ex_common e) (Some d), r).

(** Histories. *)
Definition reg_call : Type := string * string * string * bool.
Definition reg_step (e : extras) (c : reg_call) : extras :=
  match c with (module, decl, desc, b) => fst (register_griddata_commondata module decl desc b e) end.
Definition reg_run (e : extras) (l : list reg_call) : extras := fold_left reg_step l e.

(** * BHaH_defines_h.py *)

(** register_griddata_struct_and_return_griddata_struct_str, BHaH_defines_h.py l.49-89: the registrations it makes.
    [rfm]: some imported module's name contains "reference_metric". *)
Definition griddata_calls (rfm enable_rfm_precompute : bool) : list reg_call :=
  ("params", "params_struct params", "BHaH parameters, generated from NRPy+'s CodeParameters", false) ::
  if rfm then
    [("reference_metric", "char CoordSystemname[100]", "the name of the CoordSystem (from reference_metric)", false);
     ("reference_metric", "char gridname[100]", "a user-defined alias for describing the grid", false)] ++
    (if enable_rfm_precompute then
       [("reference_metric", "rfm_struct rfmstruct", "includes e.g., 1D arrays of reference metric quantities", false)]
     else [])
  else [].
(** Consecutive calls; the first exception ends them. *)
Fixpoint reg_calls (l : list reg_call) (e : extras) : extras * py unit :=
  match l with
  | [] => (e, Ok tt)
  | (module, decl, desc, b) :: r =>
      match register_griddata_commondata module decl desc b e with
      | (e', Err x) => (e', Err x)
      | (e', Ok _) => reg_calls r e'
      end
  end.

Definition griddata_line (g : gdata) : string :=
  "  " ++ gd_decl g ++ ";" ++ (if String.eqb (gd_desc g) "" then "" else "// <- " ++ gd_desc g) ++ NL.
Definition griddata_text (d : dict (list gdata)) : string :=
  NL ++ "typedef struct __griddata__ {" ++ NL ++
  "  // griddata_struct stores data needed on each grid" ++ NL ++
  "  // xx[3] stores the uniform grid coordinates." ++ NL ++
  "  REAL *restrict xx[3];" ++ NL ++
  String.concat "" (map (fun kv => "  // NRPy+ MODULE: " ++ fst kv ++ NL ++
                                   String.concat "" (map griddata_line (snd kv))) d) ++
  "} griddata_struct;" ++ NL.

Definition register_griddata_struct (rfm pre : bool) (e : extras) : extras * py string :=
  match reg_calls (griddata_calls rfm pre) e with
  | (e', Err x) => (e', Err x)
  | (e', Ok _) => (e', Ok (griddata_text (or_empty (ex_grid e'))))
  end.

(** register_BHaH_defines, BHaH_defines_h.py l.105-111. *)
Definition register_BHaH_defines (module text : string) (d : dict string) : dict string :=
  match dget module d with
  | None => dset module text d
  | Some t => dset module (t ++ text) d
  end.

(** [s.split(c, 1)]: the parts before and after the first [c]. *)
Fixpoint split1 (c : ascii) (s : string) : string * option string :=
  match s with
  | EmptyString => ("", None)
  | String a r => if Ascii.eqb a c then ("", Some r)
                  else let (x, y) := split1 c r in (String a x, y)
  end.
Definition is_array (t : string) : bool := py_in "[" t && py_in "]" t.

(** format_c_declaration, BHaH_defines_h.py l.238-271: the declaration up to the semicolon, and the comment. *)
Definition c_decl (cp_type name : string) : string :=
  if is_array cp_type then
    let (base, rest) := split1 "[" cp_type in
    let size := fst (split1 "]" (match rest with Some r => r | None => "" end)) in
    let base := CacheFS.py_strip base in
    let size := CacheFS.py_strip size in
    if prefix "char" base then "  char " ++ name ++ "[" ++ size ++ "]"
    else "  " ++ base ++ " " ++ name ++ "[" ++ size ++ "]"
  else "  " ++ cp_type ++ " " ++ name.
Definition c_comment (module desc : string) : string :=
  if String.eqb desc "" then " // (" ++ module ++ ")" else " // " ++ desc ++ " (" ++ module ++ ")".
Definition format_c_declaration (cp_type name module desc : string) : string :=
  c_decl cp_type name ++ ";" ++ c_comment module desc ++ NL.

(** BHaH_defines_h.py l.275-287 and l.289-295: the lines of the two structs, before sorting. *)
Definition param_lines (common : bool) (d : cparams_dict) : list string :=
  map (fun kv => format_c_declaration (cp_type (snd kv)) (fst kv) (cp_module (snd kv))
                                      (CacheFS.py_strip (cp_desc (snd kv))))
      (filter (fun kv => negb (String.eqb (cp_type (snd kv)) "#define") &&
                         Bool.eqb (cp_commondata (snd kv)) common) d).
Definition extra_line (module : string) (g : gdata) : string :=
  "  " ++ gd_decl g ++ ";" ++ (if String.eqb (gd_desc g) "" then "" else " // <- " ++ module ++ ": " ++ gd_desc g) ++ NL.
Definition extra_lines (ex : dict (list gdata)) : list string :=
  flat_map (fun kv => map (extra_line (fst kv)) (snd kv)) ex.

(** BHaH_defines_h.py l.232-233 and l.297-308 *)
Definition params_struct_text (d : cparams_dict) : string :=
  "typedef struct __params_struct__ {" ++ NL ++ String.concat "" (py_sorted String.leb (param_lines false d)) ++
  "} params_struct;" ++ NL.
Definition commondata_lines (d : cparams_dict) (ex : dict (list gdata)) : list string :=
  (param_lines true d ++ extra_lines ex)%list.
Definition commondata_struct_text (d : cparams_dict) (ex : dict (list gdata)) : string :=
  "typedef struct __commondata_struct__ {" ++ NL ++ String.concat "" (py_sorted String.leb (commondata_lines d ex)) ++
  "} commondata_struct;" ++ NL.

(** BHaH_defines_h.py l.210-222: the CodeParameters of type #define, in registration order ([vstr]: Python's str). *)
Definition define_text (vstr : pyval -> string) (d : cparams_dict) : string :=
  match filter (fun kv => String.eqb (cp_type (snd kv)) "#define") d with
  | [] => ""
  | l => "// START: CodeParameters declared as #define." ++ NL ++
         String.concat "" (map (fun kv => "#ifndef " ++ fst kv ++ NL ++ "#define " ++ fst kv ++ " " ++
            vstr (cp_default (snd kv)) ++ " // " ++ cp_module (snd kv) ++ NL ++ "#endif" ++ NL) l) ++
         "// END: CodeParameters declared as #define." ++ NL
  end.

(** BHaH_defines_h.py l.20-32 *)
Definition core_modules_list : list string :=
  ["general"; "after_general"; "nrpy.infrastructures.BHaH.diagnostics.progress_indicator";
   "commondata_struct"; "params_struct"; "finite_difference"; "reference_metric";
   "nrpy.infrastructures.BHaH.CurviBoundaryConditions.CurviBoundaryConditions";
   "nrpy.infrastructures.BHaH.MoLtimestepping.MoL"; "nrpy.infrastructures.BHaH.interpolation.interpolation"; "grid"].

(** output_key, BHaH_defines_h.py l.372-382, and the assembly of the file, l.384-411 (before clang_format). *)
Definition output_key (key item : string) : string :=
  NL ++ "//********************************************" ++ NL ++ "// Basic definitions for module " ++ key ++ ":" ++ NL ++ item.
Definition core_text (bd : dict string) : string :=
  String.concat "" (map (fun m => match dget m bd with Some t => output_key m t | None => "" end) core_modules_list).
Definition str_mem (k : string) (l : list string) : bool := existsb (String.eqb k) l.
Definition noncore_items (bd : dict string) : list (string * string) :=
  filter (fun kv => negb (str_mem (fst kv) core_modules_list))
         (py_sorted (fun a b => String.leb (fst a) (fst b)) bd).
Definition noncore_text (bd : dict string) : string :=
  String.concat "" (map (fun kv => output_key (fst kv) (snd kv)) (noncore_items bd)).
Definition suppl_text (s : dict string) : string := String.concat "" (map (fun kv => output_key (fst kv) (snd kv)) s).
Definition header_text (restrict_type : string) (bd suppl : dict string) : string :=
  py_replace "*restrict" restrict_type
   ("#ifndef __BHAH_DEFINES_H__" ++ NL ++ "#define __BHAH_DEFINES_H__" ++ NL ++
    "// BHaH core header file, automatically generated from output_BHaH_defines_h within BHaH_defines_h.py," ++ NL ++
    "//    DO NOT EDIT THIS FILE BY HAND." ++ NL ++ NL ++
    core_text bd ++ noncore_text bd ++ suppl_text suppl ++ NL ++ "#endif" ++ NL).

(** * CodeParameters.py *)

(** The statements register_CFunctions_params_commondata_struct_set_to_default emits,
    CodeParameters.py l.78-131. *)
Inductive cstmt :=
| CSnprintf (struct name size text : string)    (* snprintf(struct->name, size, "text"); *)
| CFor (struct name size value : string)        (* for(...) { struct->name[i] = value; } *)
| CAssign (struct name value : string).         (* struct->name = value; *)

Definition render (s : cstmt) : string :=
  match s with
  | CSnprintf st n sz t => "snprintf(" ++ st ++ "->" ++ n ++ ", " ++ sz ++ ", " ++ DQ ++ t ++ DQ ++ ");"
  | CFor st n sz v => "for(int i=0; i<" ++ sz ++ "; i++) { " ++ st ++ "->" ++ n ++ "[i] = " ++ v ++ "; }"
  | CAssign st n v => st ++ "->" ++ n ++ " = " ++ v ++ ";"
  end.

(** [CPtype.split("[")[1]]; the types that reach it contain "[". *)
Definition after_bracket (t : string) : string := nth 1 (py_split "[" t) "".
Definition struct_name (common : bool) : string := if common then "commondata" else "params".
Definition is_char_array (t : string) : bool := py_in "char" t && py_in "[" t && py_in "]" t.

(** One CodeParameter: nothing, a statement, or ValueError. *)
Definition default_stmt (vstr : pyval -> string) (name : string) (c : code_param) : py (option cstmt) :=
  if negb (pyval_is_str (cp_default c) "unset") && negb (String.eqb (cp_type c) "#define") then
    let st := struct_name (cp_commondata c) in
    let t := cp_type c in
    let v := cp_default c in
    if is_char_array t then Ok (Some (CSnprintf st name (py_replace "]" "" (after_bracket t)) (vstr v)))
    else if is_array t then Ok (Some (CFor st name (nth 0 (py_split "]" (after_bracket t)) "") (py_lower (vstr v))))
    else if match v with
            | VBool _ | VInt _ | VFloat _ => true
            | VStr _ => String.eqb t "REAL"
            | VList _ => false
            end
         then Ok (Some (CAssign st name (py_lower (vstr v))))
         else Err ValueError
  else Ok None.

(** The loop over the parameters of one struct. *)
Fixpoint default_stmts (vstr : pyval -> string) (common : bool) (d : cparams_dict) : py (list (cstmt * string)) :=
  match d with
  | [] => Ok []
  | (n, c) :: r =>
      if Bool.eqb (cp_commondata c) common then
        match default_stmt vstr n c with
        | Err e => Err e
        | Ok None => default_stmts vstr common r
        | Ok (Some s) => match default_stmts vstr common r with
                         | Err e => Err e
                         | Ok l => Ok ((s, "  // " ++ cp_module c ++ "::" ++ n ++ NL) :: l)
                         end
        end
      else default_stmts vstr common r
  end.
(** The emitted lines in the emitted order: sorted as text. *)
Definition line_of (sc : cstmt * string) : string := render (fst sc) ++ snd sc.
Definition sorted_stmts (l : list (cstmt * string)) : list (cstmt * string) :=
  py_sorted (fun a b => String.leb (line_of a) (line_of b)) l.
Definition set_to_default_body (vstr : pyval -> string) (common : bool) (d : cparams_dict) : py string :=
  match default_stmts vstr common d with
  | Err e => Err e
  | Ok l =>
      let lines := String.concat "" (map line_of (sorted_stmts l)) in
      Ok (if common then NL ++ "// Set commondata_struct variables to default" ++ NL ++ lines
          else "// Loop over params structs:" ++ NL ++
               "  for(int grid=0; grid<commondata->NUMGRIDS; grid++) {" ++ NL ++
               "    params_struct *restrict params = &griddata[grid].params;" ++ NL ++
               "    // Set params_struct variables to default" ++ NL ++ lines ++ "}" ++ NL)
  end.

(** gen_set_CodeParameters, CodeParameters.py l.197-247: what is declared.  [LChar n]: a char array of n, copied by strncpy and
    terminated; [LArr base size]: copied element by element; [LConst t]: a const of type t. *)
Inductive ldecl := LChar (n : Z) | LArr (base size : string) | LConst (t : string).
Record local := MkLoc { l_kind : ldecl; l_name : string; l_struct : string; l_field : string }.

(** int(): optional sign, decimal digits (int() also takes surrounding blanks and underscores). *)
Fixpoint digits_val (acc : Z) (s : string) : option Z :=
  match s with
  | EmptyString => Some acc
  | String c r => if is_digit c then digits_val (10 * acc + Z.of_nat (nat_of_ascii c - 48)) r else None
  end.
Definition py_int (s : string) : py Z :=
  match s with
  | EmptyString => Err ValueError
  | _ => match digits_val 0 s with Some z => Ok z | None => Err ValueError end
  end.

(** sorted(items, key=lambda x: x[0].lower()) *)
Definition by_lower {A} (d : dict A) : dict A :=
  py_sorted (fun a b => String.leb (py_lower (fst a)) (py_lower (fst b))) d.

Definition set_local (name : string) (c : code_param) : py local :=
  let st := struct_name (cp_commondata c) in
  let t := cp_type c in
  if is_char_array t then
    match py_int (nth 0 (py_split "]" (after_bracket t)) "") with
    | Err e => Err e
    | Ok n => Ok (MkLoc (LChar n) name st name)
    end
  else if is_array t then
    Ok (MkLoc (LArr (nth 0 (py_split "[" t) "") (nth 0 (py_split "]" (after_bracket t)) "")) name st name)
  else Ok (MkLoc (LConst t) name st name).

Fixpoint py_mapM {A B} (f : A -> py B) (l : list A) : py (list B) :=
  match l with
  | [] => Ok []
  | x :: r => match f x with
              | Err e => Err e
              | Ok y => match py_mapM f r with Err e => Err e | Ok ys => Ok (y :: ys) end
              end
  end.
Definition set_h_selected (common_only : bool) (d : cparams_dict) : cparams_dict :=
  filter (fun kv => cp_set_h (snd kv) && negb (common_only && String.eqb (struct_name (cp_commondata (snd kv))) "params"))
         (by_lower d).
Definition set_locals (common_only : bool) (d : cparams_dict) : py (list local) :=
  py_mapM (fun kv => set_local (fst kv) (snd kv)) (set_h_selected common_only d).

(** The text of one declaration; [ptr] is "->" or ".". *)
Definition local_text (ptr comment : string) (l : local) : string :=
  let src := l_struct l ++ ptr ++ l_field l in
  match l_kind l with
  | LChar n =>
      let sz := str_of_Z n in
      "char " ++ l_name l ++ "[" ++ sz ++ "]; " ++ comment ++ NL ++ "{" ++ NL ++
      "  // Copy up to " ++ str_of_Z (n - 1) ++ " characters from " ++ src ++ " to " ++ l_name l ++ NL ++
      "  strncpy(" ++ l_name l ++ ", " ++ src ++ ", " ++ sz ++ "-1);" ++ NL ++
      "  // Explicitly null-terminate " ++ l_name l ++ " to ensure it is a valid C-string" ++ NL ++
      "  " ++ l_name l ++ "[" ++ sz ++ "-1]='\0'; // Properly null terminate char array." ++ NL ++ "}"
  | LArr base sz =>
      base ++ " " ++ l_name l ++ "[" ++ sz ++ "];" ++ comment ++ NL ++ "{" ++ NL ++
      "  // Copy " ++ sz ++ " elements from " ++ src ++ " to " ++ l_name l ++ NL ++
      "  for(int i=0; i<" ++ sz ++ "; i++) {" ++ NL ++
      "    " ++ l_name l ++ "[i] = " ++ src ++ "[i];" ++ NL ++ "  }" ++ NL ++ "}"
  | LConst t => "MAYBE_UNUSED const " ++ t ++ " " ++ l_name l ++ " = " ++ src ++ ";" ++ comment ++ NL
  end.

(** The SIMD file, CodeParameters.py l.268-291: each scalar, REAL ones through a NOSIMD variable. *)
Inductive slocal := SScalar (t name struct field : string) | SVector (name from : string).
Definition s_name (s : slocal) : string := match s with SScalar _ n _ _ => n | SVector n _ => n end.
Definition simd_locals_of (kv : string * code_param) : list slocal :=
  let (n, c) := kv in
  let st := struct_name (cp_commondata c) in
  if String.eqb (cp_type c) "REAL" then
    [SScalar "REAL" ("NOSIMD" ++ n) st n; SVector n ("NOSIMD" ++ n)]
  else [SScalar (cp_type c) n st n].
Definition simd_selected (common_only : bool) (d : cparams_dict) : cparams_dict :=
  filter (fun kv => cp_set_h (snd kv) && negb (py_in "char" (cp_type (snd kv))) && negb (py_in "[" (cp_type (snd kv))) &&
                    negb (common_only && String.eqb (struct_name (cp_commondata (snd kv))) "params"))
         (by_lower d).
Definition simd_locals (common_only : bool) (d : cparams_dict) : list slocal :=
  flat_map simd_locals_of (simd_selected common_only d).

(** * Running the emitted C *)

(** The value of a struct field or local variable.  C expressions are kept as text. *)
Inductive fval := FVal (text : string) | FArr (n : Z) (text : string) | FStr (s : string) | FUndef.
Definition fmem : Type := string -> fval.
Definition fupd (m : fmem) (n : string) (v : fval) : fmem := fun k => if String.eqb k n then v else m k.

(** A string literal used as a format: no escapes, no conversions, no end of literal. *)
Definition plain_char (c : ascii) : bool :=
  negb (Ascii.eqb c (ascii_of_nat 34) || Ascii.eqb c (ascii_of_nat 37) || Ascii.eqb c (ascii_of_nat 92) ||
        Ascii.eqb c (ascii_of_nat 10)).
Definition plain (s : string) : bool := forallb plain_char (str_to_list s).

Definition stake (n : Z) (s : string) : string := substring 0 (Z.to_nat n) s.

(** One statement on the fields of the struct it names. *)
Definition exec (s : cstmt) (m : fmem) : fmem :=
  match s with
  | CSnprintf _ n sz t =>
      fupd m n (match py_int sz with
                | Ok z => if plain t && (0 <? z)%Z then FStr (stake (z - 1) t) else FUndef
                | Err _ => FUndef
                end)
  | CFor _ n sz v => fupd m n (match py_int sz with Ok z => FArr z v | Err _ => FUndef end)
  | CAssign _ n v => fupd m n (FVal v)
  end.
Definition exec_all (l : list cstmt) (m : fmem) : fmem := fold_left (fun m s => exec s m) l m.

(** Including set_CodeParameters.h: the locals, given the fields of the two structs. *)
Definition read_field (k : ldecl) (v : fval) : fval :=
  match k, v with
  | LChar n, FStr s => if (0 <? n)%Z then FStr (stake (n - 1) s) else FUndef
  | LArr _ sz, FArr z t => match py_int sz with Ok n => if (n <=? z)%Z then FArr n t else FUndef | Err _ => FUndef end
  | LConst _, FVal t => FVal t
  | _, _ => FUndef
  end.
Definition include_set_h (ls : list local) (common prms : fmem) (m : fmem) : fmem :=
  fold_left (fun m l => fupd m (l_name l)
               (read_field (l_kind l) ((if String.eqb (l_struct l) "commondata" then common else prms) (l_field l)))) ls m.
