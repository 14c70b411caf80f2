(** Models of clang_format and validate_strings in nrpy/helpers/generic.py. *)
From Coq Require Import String Ascii List Bool Arith.
From Verif Require Import PyBase CacheFS.
Import ListNotations.
Open Scope string_scope.

Section Clang.
(** The clang-format program (l.88-95): output text or an error message and non-zero exit status. *)
Variable program : string -> string -> option string.

(** clang_format, l.59-102; the on-disk cache of CacheFS.v is taken as a dictionary from identifiers to texts (C23).
    [module] is [__name__]. *)
Definition clang_format (module : string) (cache : dict string) (code opts : string) : dict string * py string :=
  let id := module ++ code ++ opts in
  match dget id cache with
  | Some s => (cache, Ok s)
  | None => match program code opts with
            | Some out => (dset id out cache, Ok out)
            | None => (cache, Err RuntimeError)
            end
  end.
(** the results of a sequence of calls *)
Fixpoint clang_calls (module : string) (cache : dict string) (l : list (string * string)) : list (py string) :=
  match l with
  | [] => []
  | (c, o) :: r => let '(cache', res) := clang_format module cache c o in res :: clang_calls module cache' r
  end.
End Clang.

(** ** validate_strings, l.105-191: the tests directory of one caller as a dictionary from file names to bytes.  The
    caller's name (l.131-166) is an argument. *)
Definition trusted_name (caller desc : string) : string := caller ++ "_" ++ desc ++ ".c".
Definition validate_strings (files : dict string) (caller to_check desc : string) : dict string * py unit :=
  if String.eqb desc "" || py_in " " desc then (files, Err ValueError)
  else match dget (trusted_name caller desc) files with
       | Some bytes => if String.eqb (read_text bytes) to_check then (files, Ok tt) else (files, Err ValueError)
       | None => (dset (trusted_name caller desc) to_check files, Ok tt)
       end.
Definition run_validations (files : dict string) (l : list (string * string * string)) : dict string :=
  fold_left (fun f '(c, s, d) => fst (validate_strings f c s d)) l files.
