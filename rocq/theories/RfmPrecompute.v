(** Model of nrpy/infrastructures/BHaH/rfm_precompute.py: the precomputed arrays of the reference metric.  The generated C
    statements are kept as small terms together with the text they are written as. *)
From Coq Require Import String Ascii List ZArith Bool.
From Verif Require Import PyBase PyList CFunction SimdLoop.
Import ListNotations.
Open Scope string_scope.
Open Scope list_scope.

Section Precompute.
(** [E]: the SymPy expressions; [deps e k]: rfm.xx[k] is among the free symbols of e; [ccode e]: sp.ccode(e, ...).  These are
    SymPy's own and are parameters. *)
Variables (E : Type) (deps : E -> nat -> bool) (ccode : E -> string).

(** One pair of zip(freevars_uniq_xx_indep, freevars_uniq_vals): the first component's text, the value, and str of the pair
    (the sort key, l.54-62). *)
Record item : Type := MkItem { it_name : string; it_expr : E; it_key : string }.

(** The two subscripts used: [i{d}] and [i0 + Nxx_plus_2NGHOSTS0*i1]. *)
Inductive subscript : Type := Sub1 (d : nat) | Sub2.

(** The attributes filled by the constructor, l.37-47: rfm_struct__malloc (name, directions multiplied), rfm_struct__freemem,
    rfm_struct__define, and the three families of reads, by direction. *)
Record out : Type := MkOut {
  o_members : list string; o_malloc : list (string * list nat); o_free : list string; o_fill : list (item * subscript);
  o_read : nat -> list (string * subscript) }.
Definition out0 : out := MkOut [] [] [] [] (fun _ => []).

(** l.92-116 and l.118-141: a definition and a read (plain, SIMD outer and SIMD inner at the same time) in direction [d]. *)
Definition add_fill (it : item) (d : nat) (s : subscript) (o : out) : out :=
  MkOut (o_members o) (o_malloc o) (o_free o) (o_fill o ++ [(it, s)])
        (fun k => if Nat.eqb k d then o_read o k ++ [(it_name it, s)] else o_read o k).

(** l.73-153, one pass of the loop *)
Definition step (it : item) (o : out) : py out :=
  if py_in "_of_xx" (it_name it) then
    let dep := deps (it_expr it) in
    let o1 := MkOut (o_members o ++ [it_name it]) (o_malloc o ++ [(it_name it, filter dep [0; 1; 2])])
                    (o_free o ++ [it_name it]) (o_fill o) (o_read o) in
    let alone d := dep d && negb (dep ((d + 1) mod 3)) && negb (dep ((d + 2) mod 3)) in
    let o2 := fold_left (fun o d => if alone d then add_fill it d (Sub1 d) o else o) [0; 1; 2] o1 in
    let done := existsb alone [0; 1; 2] in
    if negb done && dep 0 && dep 1 then Ok (add_fill it 0 Sub2 o2)
    else if done then Ok o2 else Err RuntimeError
  else Ok o.
Fixpoint steps (l : list item) (o : out) : py out :=
  match l with
  | [] => Ok o
  | it :: r => py_bind (step it o) (steps r)
  end.
(** ReferenceMetricPrecompute.__init__, l.30-153; sorted by str of the pairs (l.54-62) *)
Definition precompute (l : list item) : py out := steps (py_sorted (fun a b => String.leb (it_key a) (it_key b)) l) out0.

(** ** The texts *)
Definition dirname (k : nat) : string := match k with 0 => "0" | 1 => "1" | _ => "2" end.
Definition size_name (k : nat) : string := "Nxx_plus_2NGHOSTS" ++ dirname k.
(** l.84-90; str of a SymPy product of these symbols *)
Definition member_text (n : string) : string := "REAL *restrict " ++ n ++ ";".
Definition malloc_text (a : string * list nat) : string :=
  "rfmstruct->" ++ fst a ++ " = (REAL *)malloc(sizeof(REAL)*" ++
  (match snd a with [] => "1" | l => String.concat "*" (map size_name l) end) ++ ");" ++ nl.
Definition free_text (n : string) : string := "free(rfmstruct->" ++ n ++ ");" ++ nl.
Definition sub_text (s : subscript) : string :=
  match s with Sub1 d => "[i" ++ dirname d ++ "]" | Sub2 => "[i0 + Nxx_plus_2NGHOSTS0*i1]" end.
(** l.98-103 and l.123-128 *)
Definition fill_text (f : item * subscript) : string :=
  let '(it, s) := f in
  match s with
  | Sub1 d =>
      "for(int i" ++ dirname d ++ "=0;i" ++ dirname d ++ "<Nxx_plus_2NGHOSTS" ++ dirname d ++ ";i" ++ dirname d ++ "++) {" ++ nl ++
      "  const REAL xx" ++ dirname d ++ " = xx[" ++ dirname d ++ "][i" ++ dirname d ++ "];" ++ nl ++
      "  rfmstruct->" ++ it_name it ++ "[i" ++ dirname d ++ "] = " ++ ccode (it_expr it) ++ ";" ++ nl ++ "}" ++ nl ++ nl
  | Sub2 =>
      nl ++ "                for(int i1=0;i1<Nxx_plus_2NGHOSTS1;i1++) for(int i0=0;i0<Nxx_plus_2NGHOSTS0;i0++) {" ++ nl ++
      "                  const REAL xx0 = xx[0][i0];" ++ nl ++ "                  const REAL xx1 = xx[1][i1];" ++ nl ++
      "                  rfmstruct->" ++ it_name it ++ "[i0 + Nxx_plus_2NGHOSTS0*i1] = " ++ ccode (it_expr it) ++ ";" ++ nl ++
      "                }" ++ nl ++ nl
  end.
(** l.104-115 and l.129-140 *)
Definition read_text (r : string * subscript) : string :=
  "MAYBE_UNUSED const REAL " ++ fst r ++ " = rfmstruct->" ++ fst r ++ sub_text (snd r) ++ ";" ++ nl.
Definition outer_text (r : string * subscript) : string :=
  "const double NOSIMD" ++ fst r ++ " = rfmstruct->" ++ fst r ++ sub_text (snd r) ++ "; " ++
  "MAYBE_UNUSED const REAL_SIMD_ARRAY " ++ fst r ++ " = ConstSIMD(NOSIMD" ++ fst r ++ ");" ++ nl.
Definition inner_text (r : string * subscript) : string :=
  "MAYBE_UNUSED const REAL_SIMD_ARRAY " ++ fst r ++ " = ReadSIMD(&rfmstruct->" ++ fst r ++ sub_text (snd r) ++ ");" ++ nl.
Definition malloc_body (o : out) : string := String.concat "" (map malloc_text (o_malloc o)).
Definition free_body (o : out) : string := String.concat "" (map free_text (o_free o)).
Definition fill_body (o : out) : string := String.concat "" (map fill_text (o_fill o)).
(** The strings handed to simple_loop (SimdLoop.v). *)
Definition reads (o : out) : rfm_reads :=
  MkReads (fun k => String.concat "" (map read_text (o_read o k))) (fun k => String.concat "" (map inner_text (o_read o k)))
          (fun k => String.concat "" (map outer_text (o_read o k))).

(** ** register_CFunctions_rfm_precompute, l.156-201 *)
Section Register.
Variables (et : Type) (et0 : et) (infra : string) (clang : string -> string -> py string).
(** rfm = refmetric.reference_metric[CoordSystem + "_rfm_precompute"] *)
Variable reference_metric : string -> list item.
Definition rfm_args (coord fn body : string) : cargs et :=
  MkArgs "." false (IList [IStr "BHaH_defines.h"]) ""
    ("rfm_precompute_" ++ fn ++ ": reference metric precomputed lookup arrays: " ++ fn) "" "void" ("rfm_precompute_" ++ fn)
    ("const commondata_struct *restrict commondata, const params_struct *restrict params, rfm_struct *restrict rfmstruct" ++
     (if String.eqb fn "defines" then ", REAL *restrict xx[3]" else "")) true (" " ++ body) "" coord et0
    "-style={BasedOnStyle: LLVM, ColumnLimit: 150}".
(** the inner loop l.168-196: each function adds the member list again *)
Fixpoint register_funcs (coord : string) (members : list string) (fs : list (string * string))
  (d : dict (cfunction et)) (acc : list string) : dict (cfunction et) * py (list string) :=
  match fs with
  | [] => (d, Ok acc)
  | (fn, body) :: r =>
      match register_CFunction et infra clang d (rfm_args coord fn body) with
      | (d', Err e) => (d', Err e)
      | (d', Ok _) => register_funcs coord members r d' (acc ++ members)
      end
  end.
Fixpoint register_coords (cs : list string) (d : dict (cfunction et)) (acc : list string)
  : dict (cfunction et) * py (list string) :=
  match cs with
  | [] => (d, Ok acc)
  | c :: r =>
      match precompute (reference_metric c) with
      | Err e => (d, Err e)
      | Ok o =>
          match register_funcs c (map member_text (o_members o))
                  [("malloc", malloc_body o); ("defines", fill_body o); ("free", free_body o)] d acc with
          | (d', Err e) => (d', Err e)
          | (d', Ok acc') => register_coords r d' acc'
          end
      end
  end.
(** l.198-201: the text registered for BHaH_defines.h *)
Definition struct_text (acc : list string) : string :=
  "typedef struct __rfmstruct__ {" ++ nl ++ String.concat nl (py_sorted String.leb (superfast_uniq String.eqb acc)) ++
  nl ++ "} rfm_struct;" ++ nl.
Definition register_rfm_precompute (cs : list string) (d : dict (cfunction et)) : dict (cfunction et) * py string :=
  match register_coords cs d [] with
  | (d', Ok acc) => (d', Ok (struct_text acc))
  | (d', Err e) => (d', Err e)
  end.
End Register.

(** ** Meaning of the statements *)
(** [size k] is Nxx_plus_2NGHOSTSk, [xx k i] the coordinate array; [eval e env] evaluates the C expression, None if a variable
    it uses is not declared. *)
Section Meaning.
Variables (X V : Type) (size : nat -> Z) (xx : nat -> Z -> X) (eval : E -> (nat -> option X) -> option V).
(** an allocated array: its length and its cells, None before they are set *)
Notation heap := (dict (Z * (Z -> option V))).
Definition do_malloc (h : heap) (a : string * list nat) : heap :=
  dset (fst a) (fold_left Z.mul (map size (snd a)) 1%Z, fun _ => None) h.
(** one assignment: refused (None) outside the array or if the expression does not compile *)
Definition assign (n : string) (i : Z) (v : option V) (h : option heap) : option heap :=
  match h with
  | None => None
  | Some h =>
      match dget n h, v with
      | Some (len, c), Some v =>
          if (0 <=? i)%Z && (i <? len)%Z then Some (dset n (len, fun j => if (j =? i)%Z then Some v else c j) h) else None
      | _, _ => None
      end
  end.
Definition only (l : list (nat * Z)) : nat -> option X :=
  fun k => match find (fun p => Nat.eqb (fst p) k) l with Some p => Some (xx k (snd p)) | None => None end.
Definition do_fill (h : option heap) (f : item * subscript) : option heap :=
  let '(it, s) := f in
  match s with
  | Sub1 d => fold_left (fun h i => assign (it_name it) i (eval (it_expr it) (only [(d, i)])) h)
                (zrange (Z.to_nat (size d))) h
  | Sub2 => fold_left (fun h i1 => fold_left (fun h i0 =>
                assign (it_name it) (i0 + size 0%nat * i1)%Z (eval (it_expr it) (only [(0, i0); (1, i1)])) h)
                (zrange (Z.to_nat (size 0))) h)
              (zrange (Z.to_nat (size 1))) h
  end.
(** rfm_precompute_malloc, then rfm_precompute_defines *)
Definition setup (o : out) : option heap := fold_left do_fill (o_fill o) (Some (fold_left do_malloc (o_malloc o) [])).
(** reading cell i: None when outside or unset *)
Definition fetch (h : heap) (n : string) (i : Z) : option V :=
  match dget n h with
  | Some (len, c) => if (0 <=? i)%Z && (i <? len)%Z then c i else None
  | None => None
  end.
Definition sub_value (s : subscript) (i : nat -> Z) : Z := match s with Sub1 d => i d | Sub2 => (i 0%nat + size 0%nat * i 1%nat)%Z end.
(** rfm_precompute_free: free of a name not allocated (or freed twice) is refused *)
Definition do_free (h : option heap) (n : string) : option heap :=
  match h with
  | Some h => match dget n h with Some _ => Some (filter (fun p => negb (String.eqb (fst p) n)) h) | None => None end
  | None => None
  end.
End Meaning.
End Precompute.
