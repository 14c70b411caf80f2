(** Model of nrpy/params.py: the NRPy-parameter and C-parameter registries. *)
From Coq Require Import String Ascii List ZArith Bool.
From Verif Require Import PyBase.
Import ListNotations.
Open Scope string_scope.
Set Implicit Arguments.

(** Python types usable as [py_type]; [TOther] stands for any other object. *)
Inductive pytype : Type := TBool | TInt | TFloat | TStr | TOther (n : string).

(** params.py l.50: [self.py_type not in (bool, int, float, str)] *)
Definition py_type_allowed (t : pytype) : bool :=
  match t with TOther _ => false | _ => true end.

(** NRPyParameter, params.py l.44-48 *)
Record nrpy_param : Type := MkNP {
  np_type : pytype; np_module : string; np_name : string; np_value : pyval; np_desc : string }.

Definition params_dict : Type := dict nrpy_param.

(** NRPyParameter.__init__, params.py l.50-58 (the [very_verbose] warning is not modelled). *)
Definition NRPyParameter_init (p : nrpy_param) (d : params_dict) : params_dict * py unit :=
  if negb (py_type_allowed (np_type p)) then (d, Err ValueError)
  else if dmem (np_name p) d then (d, Ok tt)
  else (dset (np_name p) p d, Ok tt).

(** register_param, params.py l.171-196 *)
Definition register_param (p : nrpy_param) (d : params_dict) : params_dict * py unit :=
  NRPyParameter_init p d.

(** parval_from_str, params.py l.220: [parameter_name.split("::")[-1]] *)
Definition actual_param_name (s : string) : string := last (py_split "::" s) "".

(** parval_from_str, params.py l.220-227 *)
Definition parval_from_str (s : string) (d : params_dict) : py pyval :=
  match dget (actual_param_name s) d with
  | Some p => Ok (np_value p)
  | None => Err ValueError
  end.

Definition set_np_value (p : nrpy_param) (v : pyval) : nrpy_param :=
  MkNP (np_type p) (np_module p) (np_name p) v (np_desc p).

(** set_parval_from_str, params.py l.248-253: no prefix stripping, no type check. *)
Definition set_parval_from_str (s : string) (v : pyval) (d : params_dict)
  : params_dict * py unit :=
  match dget s d with
  | Some p => (dset s (set_np_value p v) d, Ok tt)
  | None => (d, Err ValueError)
  end.

(** params.py l.508-509: the registrations made at import time. *)
Definition default_params : list nrpy_param :=
  [ MkNP TStr "nrpy.params" "Infrastructure" (VStr "BHaH") "";
    MkNP TStr "nrpy.params" "fp_type" (VStr "double") "" ].

(** ** C parameters *)

(** CodeParameter, params.py l.112-121 (the SymPy symbol is determined by name and assumption). *)
Record code_param : Type := MkCP {
  cp_type : string; cp_module : string; cp_name : string; cp_default : pyval;
  cp_assumption : string; cp_commondata : bool; cp_parfile : bool; cp_set_h : bool;
  cp_add_glb : bool; cp_desc : string }.

Definition cparams_dict : Type := dict code_param.

(** params.py l.124-128 *)
Definition is_array_type (t : string) : bool :=
  (prefix "REAL" t || prefix "int" t) && py_in "[" t && py_in "]" t.

(** CodeParameter.__init__ up to the registration, params.py l.112-152: the constructed object,
    or the exception. *)
Definition CodeParameter_make (c : code_param) : py code_param :=
  if is_array_type (cp_type c) && negb (cp_commondata c && negb (cp_set_h c))
  then Err ValueError
  else
    let c' := if String.eqb (cp_type c) "#define"
              then MkCP (cp_type c) (cp_module c) (cp_name c) (cp_default c) (cp_assumption c)
                        (cp_commondata c) false false (cp_add_glb c) (cp_desc c)
              else c in
    if cp_parfile c' && pyval_is_str (cp_default c') "unset" then Err ValueError
    else if String.eqb (cp_assumption c') "Real" then Ok c'
    else if String.eqb (cp_assumption c') "RealPositive" then Ok c'
    else Err ValueError.

(** CodeParameter.__init__ with the registration, params.py l.154-160: only if absent. *)
Definition CodeParameter_init (c : code_param) (d : cparams_dict)
  : cparams_dict * py code_param :=
  match CodeParameter_make c with
  | Err e => (d, Err e)
  | Ok c' => (if cp_add_glb c' then
                if dmem (cp_name c') d then d else dset (cp_name c') c' d
              else d, Ok c')
  end.

(** The returned SymPy symbol: name plus "positive" flag, params.py l.145-148. *)
Definition cp_symbol (c : code_param) : string * bool :=
  (cp_name c, String.eqb (cp_assumption c) "RealPositive").

(** register_CodeParameter, params.py l.459-476; [name] not a string is [None]. *)
Definition register_CodeParameter (name : option string) (c : string -> code_param)
  (d : cparams_dict) : cparams_dict * py (string * bool) :=
  match name with
  | None => (d, Err TypeError)
  | Some n => match CodeParameter_init (c n) d with
              | (d', Ok c') => (d', Ok (cp_symbol c'))
              | (d', Err e) => (d', Err e)
              end
  end.

(** The [defaultvalues] argument: a scalar, or a list. *)
Inductive defaults_arg : Type := DScalar (v : pyval) | DList (l : list pyval).
(** The [descriptions] argument: a string, a list of strings, or anything else. *)
Inductive descs_arg : Type := DescStr (s : string) | DescList (l : list string) | DescOther.

(** Arguments shared by all names of one bulk call. *)
Record bulk_common : Type := MkBulk {
  bk_type : string; bk_module : string; bk_assumption : string; bk_commondata : bool;
  bk_parfile : bool; bk_set_h : bool; bk_add_glb : bool }.

Definition bulk_cp (b : bulk_common) (n : string) (v : pyval) (desc : string) : code_param :=
  MkCP (bk_type b) (bk_module b) n v (bk_assumption b) (bk_commondata b) (bk_parfile b)
       (bk_set_h b) (bk_add_glb b) desc.

(** The loop of register_CodeParameters, params.py l.386-403: construct (which registers if
    absent), then overwrite the dictionary entry. *)
Fixpoint bulk_loop (b : bulk_common) (l : list (string * (pyval * string))) (d : cparams_dict)
  (acc : list (string * bool)) : cparams_dict * py (list (string * bool)) :=
  match l with
  | [] => (d, Ok acc)
  | (n, (v, desc)) :: r =>
      match CodeParameter_init (bulk_cp b n v desc) d with
      | (d1, Err e) => (d1, Err e)
      | (d1, Ok c') =>
          let d2 := if bk_add_glb b then dset n c' d1 else d1 in
          bulk_loop b r d2 (acc ++ [cp_symbol c'])
      end
  end.

(** register_CodeParameters, params.py l.353-405 ([names] not a list is [None]). *)
Definition register_CodeParameters (b : bulk_common) (names : option (list string))
  (defaults : defaults_arg) (descs : descs_arg) (d : cparams_dict)
  : cparams_dict * py (list (string * bool)) :=
  match names with
  | None => (d, Err ValueError)
  | Some ns =>
      if Nat.ltb (List.length ns) 1 then (d, Err ValueError)
      else
        let dv := match defaults with
                  | DScalar v => Ok (repeat v (List.length ns))
                  | DList l => if Nat.eqb (List.length l) (List.length ns) then Ok l
                               else Err ValueError
                  end in
        match dv with
        | Err e => (d, Err e)
        | Ok dvl =>
            let de := match descs with
                      | DescList l => if Nat.eqb (List.length l) (List.length ns) then Ok l
                                      else Err ValueError
                      | DescStr s => if String.eqb s "" then Ok (repeat "" (List.length ns))
                                     else Err ValueError
                      | DescOther => Err TypeError
                      end in
            match de with
            | Err e => (d, Err e)
            | Ok del => bulk_loop b (combine ns (combine dvl del)) d []
            end
        end
  end.

(** adjust_CodeParam_default, params.py l.499-504 *)
Definition adjust_CodeParam_default (n : string) (v : pyval) (d : cparams_dict)
  : cparams_dict * py unit :=
  match dget n d with
  | Some c => (dset n (MkCP (cp_type c) (cp_module c) (cp_name c) v (cp_assumption c)
                            (cp_commondata c) (cp_parfile c) (cp_set_h c) (cp_add_glb c)
                            (cp_desc c)) d, Ok tt)
  | None => (d, Err ValueError)
  end.

(** ** Histories *)
Inductive param_op : Type :=
| OpReg (p : nrpy_param)
| OpSet (n : string) (v : pyval).

Definition param_step (d : params_dict) (o : param_op) : params_dict :=
  match o with
  | OpReg p => fst (register_param p d)
  | OpSet n v => fst (set_parval_from_str n v d)
  end.
Definition param_run (d : params_dict) (l : list param_op) : params_dict := fold_left param_step l d.

Inductive cparam_op : Type :=
| OpCReg (name : option string) (c : string -> code_param)
| OpCRegs (b : bulk_common) (names : option (list string)) (dv : defaults_arg) (ds : descs_arg)
| OpCAdjust (n : string) (v : pyval).

Definition cparam_step (d : cparams_dict) (o : cparam_op) : cparams_dict :=
  match o with
  | OpCReg n c => fst (register_CodeParameter n c d)
  | OpCRegs b n dv ds => fst (register_CodeParameters b n dv ds d)
  | OpCAdjust n v => fst (adjust_CodeParam_default n v d)
  end.
Definition cparam_run (d : cparams_dict) (l : list cparam_op) : cparams_dict :=
  fold_left cparam_step l d.
