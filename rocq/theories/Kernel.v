(** Model of the kernels that c_codegen emits when gridfunctions are read from memory and derivatives
    are finite-differenced: nrpy/c_codegen.py l.359-446 and l.742-1190
    (gridfunction_management_and_FD_codegen), nrpy/finite_difference.py l.839-1094 (FDFunction,
    proto_FD_operators_to_sympy_expressions), together with what the emitted C statements compute.
    Definitions only.

    Simplifications: an expression is a tree over exact rationals with uninterpreted unary functions;
    the factoring, the extraction of common subexpressions and the naming of rational constants inside
    one group of statements are not repeated here (they are modelled, and shown to preserve values, in
    Cse.v, Simd.v and ExprTree.v), so a group of statements is the list of the assignments
    requested.  Comments, types and qualifiers of a declaration are dropped, only the declared name is
    kept.  [sympy.sympify] of a name is that symbol. *)
From Coq Require Import String Ascii List ZArith Bool QArith Qcanon.
From Verif Require Import PyBase PyList QcLib FDMatrix FDCoeffs Grid FDRead.
Import ListNotations.
Open Scope string_scope.

(** ** Expressions and emitted statements *)
Inductive kexpr : Type :=
| KNum (q : Qc)
| KVar (s : string)
| KAdd (a b : kexpr)
| KMul (a b : kexpr)
| KFun (f : string) (a : kexpr).

(** [expr.free_symbols] (here a list, with repetitions) *)
Fixpoint kvars (e : kexpr) : list string :=
  match e with
  | KNum _ => []
  | KVar s => [s]
  | KAdd a b | KMul a b => (kvars a ++ kvars b)%list
  | KFun _ a => kvars a
  end.

(** Right-hand sides of the declarations [const T x = ...;]. *)
Inductive krhs : Type :=
| RRead (gf : string) (p : pt)                                (* one memory read *)
| RExp (e : kexpr)                                            (* an expression *)
| RUpwind (x : string)                                        (* UPWIND_ALG(x) *)
| RCall (params args : list string) (body : kexpr).           (* fd_function_...(args) *)

(** The three steps: declarations (steps 1 and 2), then the outputs (step 3); with SIMD the outputs
    are first computed into [__RHS_exp_i] and then stored. *)
Record kernel : Type := MkKernel {
  k_decls : list (string * krhs);
  k_outs : list (string * kexpr);
  k_simd : bool }.

(** ** What the C code computes *)
Section Run.
Variable F : string -> Qc -> Qc.          (* the unary functions *)
Variable mem : string -> pt -> Qc.        (* gridfunction data around the current point *)

Fixpoint keval (env : string -> option Qc) (e : kexpr) : option Qc :=
  match e with
  | KNum q => Some q
  | KVar s => env s
  | KAdd a b => match keval env a, keval env b with Some x, Some y => Some (x + y)%Qc | _, _ => None end
  | KMul a b => match keval env a, keval env b with Some x, Some y => Some (x * y)%Qc | _, _ => None end
  | KFun f a => match keval env a with Some x => Some (F f x) | None => None end
  end.

(** [#define UPWIND_ALG(UpwindVecU) UpwindVecU > 0.0 ? 1.0 : 0.0], BHaH_defines_h.py l.336. *)
Definition upwind_alg (x : Qc) : Qc := if Qclt_le_dec 0 x then 1%Qc else 0%Qc.

(** Positional binding of the arguments of a call. *)
Fixpoint bind_args (env : string -> option Qc) (params args : list string) : option (dict Qc) :=
  match params, args with
  | [], [] => Some []
  | p :: ps, a :: r => match env a, bind_args env ps r with
                       | Some v, Some d => Some ((p, v) :: d)
                       | _, _ => None
                       end
  | _, _ => None
  end.

Definition rhs_value (env : dict Qc) (r : krhs) : option Qc :=
  match r with
  | RRead gf p => Some (mem gf p)
  | RExp e => keval (fun s => dget s env) e
  | RUpwind x => option_map upwind_alg (dget x env)
  | RCall ps args body =>
      match bind_args (fun s => dget s env) ps args with
      | Some d => keval (fun s => dget s d) body
      | None => None
      end
  end.

(** A declaration; [None]: the C code does not compile (undeclared identifier, or a second declaration
    of the same name). *)
Definition run_decl (env : dict Qc) (s : string * krhs) : option (dict Qc) :=
  if dmem (fst s) env then None
  else match rhs_value env (snd s) with Some v => Some (dset (fst s) v env) | None => None end.
Fixpoint run_decls (env : dict Qc) (l : list (string * krhs)) : option (dict Qc) :=
  match l with
  | [] => Some env
  | s :: r => match run_decl env s with Some env' => run_decls env' r | None => None end
  end.

Fixpoint run_outs (env : dict Qc) (l : list (string * kexpr)) : option (dict Qc) :=
  match l with
  | [] => Some env
  | (x, e) :: r => match keval (fun s => dget s env) e with
                   | Some v => run_outs (dset x v env) r
                   | None => None
                   end
  end.
(** SIMD: all values first, then the [WriteSIMD] calls. *)
Fixpoint out_values (env : dict Qc) (l : list (string * kexpr)) : option (dict Qc) :=
  match l with
  | [] => Some []
  | (x, e) :: r => match keval (fun s => dget s env) e, out_values env r with
                   | Some v, Some d => Some ((x, v) :: d)
                   | _, _ => None
                   end
  end.

Definition run_kernel (k : kernel) (env : dict Qc) : option (dict Qc) :=
  match run_decls env (k_decls k) with
  | None => None
  | Some env1 => if k_simd k
                 then option_map (dupdate env1) (out_values env1 (k_outs k))
                 else run_outs env1 (k_outs k)
  end.
End Run.

(** ** Prototype finite-difference expressions, finite_difference.py l.1013-1094 *)
(** The sum of l.1043-1047. *)
Fixpoint fd_sum (acc : kexpr) (cs : list Qc) (pts : list pt) : py kexpr :=
  match cs with
  | [] => Ok acc
  | c :: cs' =>
      match pts with
      | [] => Err IndexError
      | p :: pts' =>
          match fd_temp_variable_name "FDPROTO" p with
          | Err e => Err e
          | Ok v => fd_sum (KAdd acc (KMul (KNum c) (KVar v))) cs' pts'
          end
      end
  end.

(** [invdxx = [sp.sympify(f"invdxx{d}") for d in range(3)]], l.1014 *)
Definition invdxx (d : nat) : py kexpr :=
  if Nat.ltb d 3 then Ok (KVar ("invdxx" ++ str_of_nat d)) else Err IndexError.

(** [operator[-1-k]] must be a digit, l.1050-1062 *)
Definition op_digit (op : string) (k : nat) : py nat :=
  match char_from_end op k with
  | None => Err IndexError
  | Some c => if is_digit c then Ok (nat_of_ascii c - 48)%nat else Err ValueError
  end.

(** [expr *= ...], l.1058-1072 *)
Definition fd_scale (op : string) (e : kexpr) : py kexpr :=
  py_bind (op_digit op 0) (fun direction =>
  if prefix "dDD" op then
    py_bind (op_digit op 1) (fun direction1 =>
    py_bind (invdxx direction1) (fun a => py_bind (invdxx direction) (fun b => Ok (KMul e (KMul a b)))))
  else if prefix "dKOD" op || prefix "dD" op || prefix "dupD" op || prefix "ddnD" op then
    py_bind (invdxx direction) (fun a => Ok (KMul e a))
  else Err ValueError).

(** [str(item).split("_")[1]], l.1022-1024 *)
Definition proto_op (symb : string) : py string :=
  match nth_error (py_split "_" symb) 1 with Some s => Ok s | None => Err IndexError end.

(** Name of the left-hand side, l.1028-1030 *)
Definition proto_lhs (symb : string) : string :=
  if py_in "_dupD" symb || py_in "_ddnD" symb then "UpwindAlgInput" ++ symb else symb.

(** The body of the loop l.1025-1087: (lhs, expression). *)
Definition proto_one (symb : string) (r : fd_result) : py (string * string * kexpr) :=
  py_bind (proto_op symb) (fun op =>
  py_bind (fd_sum (KNum 0) (fst r) (snd r)) (fun s =>
  py_bind (fd_scale op s) (fun e => Ok (op, proto_lhs symb, e)))).

(** The loop; [fdf] is the global FDFunctions_dict, of which only the expression stored for each
    operator is kept. *)
Fixpoint proto_loop (l : list (string * fd_result)) (fdf : dict kexpr)
  : py (list (string * kexpr) * dict kexpr) :=
  match l with
  | [] => Ok ([], fdf)
  | (symb, r) :: rest =>
      py_bind (proto_one symb r) (fun '(op, lhs, e) =>
      py_bind (proto_loop rest (dset op e fdf)) (fun '(t, fdf') => Ok ((lhs, e) :: t, fdf')))
  end.

(** [for i, op in enumerate(FDFunctions_dict.keys()): FDFunctions_dict[op].FDexpr = FDexprs[i]], l.1091-1092 *)
Fixpoint fdf_realign (exprs : list kexpr) (fdf : dict kexpr) : py (dict kexpr) :=
  match fdf with
  | [] => Ok []
  | (op, _) :: rest =>
      match exprs with
      | [] => Err IndexError
      | e :: es => py_bind (fdf_realign es rest) (fun d => Ok ((op, e) :: d))
      end
  end.

Definition proto_FD (l : list (string * fd_result)) (fdf : dict kexpr)
  : py (list (string * kexpr) * dict kexpr) :=
  py_bind (proto_loop l fdf) (fun '(protos, fdf') =>
  py_bind (fdf_realign (map snd protos) fdf') (fun fdf'' => Ok (protos, fdf''))).

(** ** gridfunction_management_and_FD_codegen *)
(** [expr.xreplace] of every symbol whose name contains FDPROTO, c_codegen.py l.917-924 *)
Definition rename_proto (gf s : string) : string :=
  if py_in "FDPROTO" s then py_replace "FDPROTO" gf s else s.
Fixpoint krename (f : string -> string) (e : kexpr) : kexpr :=
  match e with
  | KNum q => KNum q
  | KVar s => KVar (f s)
  | KAdd a b => KAdd (krename f a) (krename f b)
  | KMul a b => KMul (krename f a) (krename f b)
  | KFun g a => KFun g (krename f a)
  end.

(** The sorted operator dictionary and its prototypes, l.883-902. *)
Definition op_leb (a b : string * fd_result) : bool := String.leb (fst a) (fst b).
Definition sorted_ops (d : dict fd_result) : list (string * fd_result) := py_sorted op_leb d.

(** The loop l.904-925: one (name, expression) per derivative variable.  [protos] is keyed by operator
    ([deriv_op_list.index(operator)]). *)
Fixpoint deriv_exprs (protos : dict (string * kexpr)) (vars bases ops : list string)
  : py (list (string * kexpr)) :=
  match vars, bases, ops with
  | v :: vs, b :: bs, o :: os =>
      match dget o protos with
      | None => Err ValueError
      | Some (lhs, e) =>
          py_bind (deriv_exprs protos vs bs os) (fun t =>
          Ok ((py_replace ("FDPROTO_" ++ o) v lhs, krename (rename_proto b) e) :: t))
      end
  | [], _, _ => Ok []
  | _, _, _ => Err IndexError
  end.

(** process_upwinded_derivatives, l.941-982; [None]: upwind_control_vec is not a list. *)
Fixpoint up_digits (ops : list string) : py (list nat) :=
  match ops with
  | [] => Ok []
  | o :: r => if py_in "dupD" o
              then py_bind (op_digit o 0) (fun d => py_bind (up_digits r) (fun t => Ok (d :: t)))
              else up_digits r
  end.
Definition upwind_directions (ctrl : option (list kexpr)) (ops : list string) : py (list nat) :=
  match ctrl with
  | None => Ok []
  | Some _ => py_bind (up_digits ops) (fun l => Ok (py_sorted Nat.leb (superfast_uniq Nat.eqb l)))
  end.
Definition ctrl_name (d : nat) : string := "UpwindControlVectorU" ++ str_of_nat d.
Definition up_name (d : nat) : string := "Upwind" ++ str_of_nat d.
Fixpoint ctrl_exprs (ctrl : list kexpr) (dirs : list nat) : py (list (string * kexpr)) :=
  match dirs with
  | [] => Ok []
  | d :: r => match nth_error ctrl d with
              | None => Err IndexError
              | Some e => py_bind (ctrl_exprs ctrl r) (fun t => Ok ((ctrl_name d, e) :: t))
              end
  end.

(** FDFunction.c_function_call and CFunction_fd_function, finite_difference.py l.880-929: the sorted
    free symbols, without the rational constants. *)
Definition fd_params (e : kexpr) : list string :=
  py_sorted String.leb (filter (fun s => negb (py_in "FDPart1_" s)) (superfast_uniq String.eqb (kvars e))).
Definition call_name (v : string) : string :=
  if py_in "_dupD" v || py_in "_ddnD" v then "UpwindAlgInput" ++ v else v.
(** l.1034-1043; [c_function_call.replace("FDPROTO", gf_name)] is applied to each argument. *)
Fixpoint fd_calls (fdf : dict kexpr) (vars bases ops : list string) : py (list (string * krhs)) :=
  match vars, bases, ops with
  | v :: vs, b :: bs, o :: os =>
      match dget o fdf with
      | None => Err KeyError
      | Some e =>
          py_bind (fd_calls fdf vs bs os) (fun t =>
          Ok ((call_name v, RCall (fd_params e) (map (py_replace "FDPROTO" b) (fd_params e)) e) :: t))
      end
  | [], _, _ => Ok []
  | _, _, _ => Err IndexError
  end.

(** Step 2, l.1091-1120: the upwinded derivatives. *)
Fixpoint upwinded (dirs : list nat) (vars ops : list string) : py (list (string * kexpr)) :=
  match vars, ops with
  | v :: vs, o :: os =>
      if Nat.eqb (String.length o) 5 && py_in "dupD" o then
        py_bind (int_of_char (char_from_end o 0)) (fun d =>
        if Nat.ltb d 3 then
          let U := if existsb (Nat.eqb d) dirs then KVar (up_name d) else KNum 0 in
          let up := KVar ("UpwindAlgInput" ++ v) in
          let dn := KVar ("UpwindAlgInput" ++ py_replace "_dupD" "_ddnD" v) in
          py_bind (upwinded dirs vs os) (fun t =>
          Ok ((v, KAdd (KMul U (KAdd up (KMul (KNum (qz (-1))) dn))) dn) :: t))
        else Err IndexError)
      else upwinded dirs vs os
  | [], _ => Ok []
  | _, _ => Err IndexError
  end.

Definition as_rhs (p : string * kexpr) : string * krhs := (fst p, RExp (snd p)).
Definition by_name (A : Type) (a b : string * A) : bool := String.leb (fst a) (fst b).
Arguments by_name {A}.
Definition read_stmt (r : read) : string * krhs := (r_var r, RRead (r_gf r) (r_pt r)).

Definition fd_codegen (exprs : list kexpr) (outs vars bases ops : list string) (opdict : dict fd_result)
  (reads : list read) (ctrl : option (list kexpr)) (fd_functions simd : bool) (fdf : dict kexpr)
  : py (kernel * dict kexpr) :=
  let sops := sorted_ops opdict in
  py_bind (proto_FD (map (fun kv => ("FDPROTO_" ++ fst kv, snd kv)) sops) fdf) (fun '(protos, fdf') =>
  py_bind (deriv_exprs (combine (map fst sops) protos) vars bases ops) (fun derivs =>
  py_bind (upwind_directions ctrl ops) (fun dirs =>
  py_bind (ctrl_exprs (match ctrl with Some l => l | None => [] end) dirs) (fun cexprs =>
  py_bind (match reads with
           | [] => Ok []
           | _ => if fd_functions
                  then py_bind (fd_calls fdf' vars bases ops) (fun calls =>
                       Ok (map read_stmt reads ++ py_sorted by_name calls ++ map as_rhs cexprs)%list)
                  else Ok (map read_stmt reads
                           ++ map as_rhs (py_sorted by_name (derivs ++ cexprs)))%list
           end) (fun step1 =>
  if forallb (fun d => Nat.ltb d 3) dirs then      (* [upwindU[direction] = ...], l.1093-1094 *)
    py_bind (upwinded dirs vars ops) (fun ups =>
    Ok ({| k_decls := (step1 ++ map (fun d => (up_name d, RUpwind (ctrl_name d))) dirs ++ map as_rhs ups)%list;
           k_outs := combine outs exprs;
           k_simd := simd |}, fdf'))
  else Err IndexError))))).

(** ** c_codegen, l.359-446: the gridfunction path *)
(** deriv_operator_dict, l.406-412 (the matrix cache does not change results: C16). *)
Fixpoint op_dict (fd_order : nat) (ops : list string) : py (dict fd_result) :=
  match ops with
  | [] => Ok []
  | o :: r => match snd (compute_fdcoeffs_fdstencl o fd_order []) with
              | Err e => Err e
              | Ok c => py_bind (op_dict fd_order r) (fun d => Ok ((o, c) :: d))
              end
  end.
(** fdstencl, l.417-421 *)
Fixpoint stencils_of (d : dict fd_result) (ops : list string) : py (list (list pt)) :=
  match ops with
  | [] => Ok []
  | o :: r => match dget o d with
              | None => Err KeyError
              | Some c => py_bind (stencils_of d r) (fun t => Ok (snd c :: t))
              end
  end.

Record codegen_opts : Type := MkOpts {
  o_enable_fd_codegen : bool;
  o_fd_functions : bool;
  o_simd : bool;
  o_fd_order : nat;
  o_mem_alloc_style : string;
  o_ctrl : option (list kexpr) }.

Definition c_codegen_gf (order : list string -> list string) (reg : registry) (cpars : list string)
  (infra : string) (o : codegen_opts) (exprs : list kexpr) (outs : list string) (fdf0 : dict kexpr)
  : py (kernel * dict kexpr) :=
  let fdf := if o_enable_fd_codegen o then [] else fdf0 in
  if negb (Nat.eqb (List.length outs) (List.length exprs)) then Err ValueError
  else
    let free := flat_map kvars exprs in
    py_bind (extract_deriv_vars order reg cpars free true) (fun vars =>
    py_bind (extract_bases_ops vars) (fun '(bases, ops) =>
    py_bind (op_dict (o_fd_order o) (superfast_uniq String.eqb ops)) (fun opd =>
    py_bind (stencils_of opd ops) (fun stencils =>
    py_bind (read_gfs_list reg cpars infra bases stencils free (o_mem_alloc_style o) (o_simd o)) (fun reads =>
    fd_codegen exprs outs vars bases ops opd reads (o_ctrl o) (o_fd_functions o) (o_simd o) fdf))))).
