(** Models of nrpy/helpers/cached_functions.py and nrpy/helpers/conditional_file_updater.py: files as byte strings in a
    directory, with interrupted writes. *)
From Coq Require Import String Ascii List Bool Arith.
From Verif Require Import PyBase.
Import ListNotations.
Open Scope list_scope.

(** ** cached_functions.py *)
Section Cache.
(** [D] objects, [B] bytes.  pickle.dumps (None: PicklingError), pickle.load, sp.simplify, SHA-256 (l.24-35) and the
    encoding of identifiers are parameters; the theorems state what they need of them.  The directory is one fixed
    directory (user_cache_dir). *)
Variables (D B : Type).
Variable dumps : D -> option (list B).
Variable loads : list B -> py D.
Variable simplify : D -> D.
Variables (is_zero : D -> bool) (zero : D).
Variable sha : list B -> string.
Variable encode : string -> list B.

Definition fs : Type := dict (list B).
(** cache_file, l.38-51 *)
Definition cache_file (id : string) : string := (sha (encode id) ++ ".nrpycache")%string.
(** is_cached, l.67-79 *)
Definition is_cached (f : fs) (id : string) : bool := dmem (cache_file id) f.
(** open(.., "rb") + pickle.load, l.96-98 *)
Definition load_file (f : fs) (path : string) : py D :=
  match dget path f with None => Err FileNotFoundError | Some b => loads b end.
Definition read_cached (f : fs) (id : string) : py D := load_file f (cache_file id).
(** open(.., "wb") truncates; then the pickle is written.  [upto] is the number of bytes that reach the file before the
    process dies, None when it does not die.  pickle.dump of an object that cannot be pickled leaves what was written
    before the error, modelled as nothing. *)
Definition dump_file (f : fs) (path : string) (d : D) (upto : option nat) : fs * py unit :=
  match dumps d with
  | None => (dset path [] f, Err UnpicklingError)
  | Some b => match upto with
              | None => (dset path b f, Ok tt)
              | Some n => (dset path (firstn n b) f, Ok tt)
              end
  end.
(** write_cached, l.101-116 *)
Definition write_cached (f : fs) (id : string) (d : D) (upto : option nat) : fs * py unit :=
  dump_file f (cache_file id) d upto.
(** cached_simplify, l.119-149.  UnpicklingError stands for pickle.PicklingError here. *)
Definition simplify_file (b : list B) : string := (sha b ++ ".nrpycache")%string.
Definition cached_simplify (f : fs) (e : D) (upto : option nat) : fs * py D :=
  if is_zero e then (f, Ok zero)
  else match dumps e with
       | None => (f, Ok (simplify e))
       | Some b =>
           if dmem (simplify_file b) f then (f, load_file f (simplify_file b))
           else let '(f', r) := dump_file f (simplify_file b) (simplify e) upto in
                (f', Ok (simplify e))
       end.

Inductive op : Type :=
| Write (id : string) (d : D) (upto : option nat)
| Simplify (e : D) (upto : option nat).
Definition run_op (f : fs) (o : op) : fs :=
  match o with
  | Write id d u => fst (write_cached f id d u)
  | Simplify e u => fst (cached_simplify f e u)
  end.
Definition run_ops (f : fs) (l : list op) : fs := fold_left run_op l f.
End Cache.

(** ** conditional_file_updater.py *)
(** str.strip: ASCII white space *)
Definition is_ws (c : ascii) : bool :=
  let n := nat_of_ascii c in ((9 <=? n) && (n <=? 13) || (28 <=? n) && (n <=? 32))%nat.
Fixpoint lstrip (s : string) : string :=
  match s with String c r => if is_ws c then lstrip r else s | EmptyString => s end.
Fixpoint all_ws (s : string) : bool := match s with EmptyString => true | String c r => is_ws c && all_ws r end.
Fixpoint rstrip (s : string) : string :=
  match s with EmptyString => EmptyString | String c r => if all_ws s then EmptyString else String c (rstrip r) end.
Definition py_strip (s : string) : string := rstrip (lstrip s).

(** Reading in text mode translates "\r\n" and "\r" to "\n". *)
Definition CR : ascii := ascii_of_nat 13.
Definition LF : ascii := ascii_of_nat 10.
Fixpoint newlines (after_cr : bool) (s : string) : string :=
  match s with
  | EmptyString => EmptyString
  | String c r => if Ascii.eqb c CR then String LF (newlines true r)
                  else if (Ascii.eqb c LF && after_cr)%bool then newlines false r
                  else String c (newlines false r)
  end.
Definition read_text (s : string) : string := newlines false s.

(** __enter__/__exit__, l.61-107: the body prints the chunks up to the point where it raises; __exit__ runs in any case
    and does not look at the exception, which then propagates.  Result: the file afterwards, whether it was written, and
    what the with statement does.  [fmt] is clang_format when do_format is set; messages are left out. *)
Definition update (fmt : option (string -> string)) (nochange : bool) (file : option string) (chunks : list string)
    (raises_after : option nat) : option string * bool * py unit :=
  let printed := match raises_after with None => chunks | Some n => firstn n chunks end in
  let new := String.concat "" printed in
  let new := match fmt with Some f => f new | None => new end in
  let old := match file with Some s => read_text s | None => EmptyString end in
  let res := match raises_after with None => Ok tt | Some _ => Err RuntimeError end in
  if negb (String.eqb (py_strip new) (py_strip old)) && negb nochange then (Some new, true, res)
  else (file, false, res).
