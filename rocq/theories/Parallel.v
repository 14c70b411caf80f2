(** Model of nrpy/helpers/parallel_codegen.py: the registry of calls, the workers' environments and their merging. *)
From Coq Require Import String List Bool Arith.
From Verif Require Import PyBase.
Import ListNotations.
Open Scope string_scope.

(** Values of glb_extras_dict (l.53): nested dictionaries of other objects. *)
Inductive tree (V : Type) : Type := Leaf (v : V) | Node (d : list (string * tree V)).
Arguments Leaf {V}. Arguments Node {V}.

(** deep_update, l.71-89.  [deep_update_with d u] goes through the items of u; a dictionary meeting a value that is not
    one has no .items/.get to update: an error in Python. *)
Fixpoint deep_value {V} (old : option (tree V)) (v : tree V) : py (tree V) :=
  match v with
  | Leaf x => Ok (Leaf x)
  | Node u =>
      match old with
      | Some (Leaf _) => Err TypeError
      | _ =>
          let d0 := match old with Some (Node x) => x | _ => [] end in
          py_bind ((fix go (d : dict (tree V)) (u : list (string * tree V)) : py (dict (tree V)) :=
             match u with
             | [] => Ok d
             | (k, w) :: r => py_bind (deep_value (dget k d) w) (fun w' => go (dset k w' d) r)
             end) d0 u) (fun d => Ok (Node d))
      end
  end.
Definition deep_update {V} (d u : dict (tree V)) : py (dict (tree V)) :=
  match deep_value (Some (Node d)) (Node u) with Ok (Node r) => Ok r | Ok (Leaf _) => Ok d | Err e => Err e end.

(** NRPyEnv, l.39-68; the entries of the four flat registries are values of one type here. *)
Record env (V : Type) : Type := MkEnv {
  e_params : dict V; e_code : dict V; e_cfun : dict V; e_gridfcs : dict V; e_extras : dict (tree V) }.
Arguments MkEnv {V}. Arguments e_params {V}. Arguments e_code {V}. Arguments e_cfun {V}. Arguments e_gridfcs {V}.
Arguments e_extras {V}.

(** unpack_NRPy_environment_dict, l.92-105 *)
Definition unpack1 {V} (main e : env V) : py (env V) :=
  py_bind (deep_update (e_extras main) (e_extras e)) (fun x =>
  Ok (MkEnv (dupdate (e_params main) (e_params e)) (dupdate (e_code main) (e_code e))
            (dupdate (e_cfun main) (e_cfun e)) (dupdate (e_gridfcs main) (e_gridfcs e)) x)).
Fixpoint unpack {V} (main : env V) (l : list (string * env V)) : py (env V) :=
  match l with
  | [] => Ok main
  | (_, e) :: r => py_bind (unpack1 main e) (fun m => unpack m r)
  end.

(** register_func_call, l.120-132; the arguments are given by their printed form, [F] is what is stored. *)
Definition register_func_call {F} (calls : dict F) (name args : string) (f : F) : py (dict F) :=
  if dmem (name ++ args) calls then Err ValueError else Ok (dset (name ++ args) f calls).

(** A registered function acts on the registries of the process it runs in. *)
Definition task (V : Type) : Type := env V -> py (env V).

(** pool.map, l.216-244: [sched] lists the calls in completion order with the worker that ran each; every worker starts
    with a copy of the main process's registries and keeps what its earlier calls registered.  An exception in a worker
    reaches the main process as RuntimeError (l.203-213). *)
Definition set_worker {V} (ws : nat -> env V) (w : nat) (e : env V) : nat -> env V :=
  fun x => if Nat.eqb x w then e else ws x.
Fixpoint run_pool {V} (calls : dict (task V)) (ws : nat -> env V) (shared : dict (env V)) (sched : list (nat * string))
  : py (dict (env V)) :=
  match sched with
  | [] => Ok shared
  | (w, key) :: r =>
      match dget key calls with
      | None => Err KeyError
      | Some f =>
          match f (ws w) with
          | Ok e => run_pool calls (set_worker ws w e) (dset key e shared) r
          | Err _ => Err RuntimeError
          end
      end
  end.

(** do_parallel_codegen, l.216-244, with parallel_codegen_enable true; [codegen] is the stored value of
    parallel_codegen_stage after set_parval_from_str. *)
Definition do_parallel_codegen {V} (enable : bool) (codegen : V) (calls : dict (task V)) (main : env V)
    (sched : list (nat * string)) : py (env V) :=
  if negb enable then Ok main
  else
    let main := MkEnv (dset "parallel_codegen_stage" codegen (e_params main)) (e_code main) (e_cfun main)
                      (e_gridfcs main) (e_extras main) in
    py_bind (run_pool calls (fun _ => main) [] sched) (fun shared => unpack main shared).
