(** Model of nrpy/reference_metric.py, Steps 5 and 6 (l.378-629): the precomputed form of the hatted quantities, and of the
    dictionary of reference metrics (l.1472-1499). *)
From Coq Require Import String Ascii List ZArith Bool.
From Verif Require Import PyBase PyList RefMetric.
Import ListNotations.
Open Scope string_scope.
Open Scope list_scope.

(** The hatted quantities, by name and index. *)
Inductive quant : Type :=
| QDet | QDetD (i : nat) | QDetDD (i j : nat) | QReU (i : nat) | QReD (i : nat) | QReDD (i j : nat)
| QReUdD (i j : nat) | QReUdDD (i j k : nat) | QReDdD (i j : nat) | QReDdDD (i j k : nat)
| QReDDdD (i j k : nat) | QReDDdDD (i j k l : nat) | QgDD (i j : nat) | QgUU (i j : nat)
| QgDDdD (i j k : nat) | QgDDdDD (i j k l : nat) | QGamma (i j k : nat) | QGammadD (i j k l : nat).
Definition hat (r : rfm) (q : quant) : ex :=
  match q with
  | QDet => detgammahat r | QDetD i => detgammahatdD r i | QDetDD i j => detgammahatdDD r i j
  | QReU i => ReU (r_scale r) i | QReD i => ReD (r_scale r) i | QReDD i j => ReDD (r_scale r) i j
  | QReUdD i j => ReUdD r i j | QReUdDD i j k => ReUdDD r i j k | QReDdD i j => ReDdD r i j | QReDdDD i j k => ReDdDD r i j k
  | QReDDdD i j k => ReDDdD r i j k | QReDDdDD i j k l => ReDDdDD r i j k l
  | QgDD i j => ghatDD (r_scale r) i j | QgUU i j => ghatUU r i j
  | QgDDdD i j k => ghatDDdD r i j k | QgDDdDD i j k l => ghatDDdDD r i j k l
  | QGamma i j k => GammahatUDD r i j k | QGammadD i j k l => GammahatUDDdD r i j k l
  end.
(** The loops of Steps 5, 6.a and 6.c, l.452-484, l.496-519, l.571-629. *)
Definition all_quants : list quant :=
  let d3 := [0; 1; 2] in
  QDet :: flat_map (fun i => [QReU i; QReD i; QDetD i] ++
    flat_map (fun j => [QReDD i j; QReUdD i j; QReDdD i j; QgDD i j; QgUU i j; QDetDD i j] ++
      flat_map (fun k => [QReDDdD i j k; QReUdDD i j k; QReDdDD i j k; QgDDdD i j k; QGamma i j k] ++
        flat_map (fun l => [QReDDdDD i j k l; QgDDdDD i j k l; QGammadD i j k l]) d3) d3) d3) d3.

(** make_replacements, l.386-432 (SymPy >= 1.2): the n-th derivative of a generic function, and the function itself, become
    symbols; the name of the function without "_funcform" is the name of its symbol (l.117-140). *)
Definition fbase (f : nat) : string :=
  match f with 0 => "f0_of_xx0" | 1 => "f1_of_xx1" | 2 => "f2_of_xx0" | 3 => "f3_of_xx2" | _ => "f4_of_xx1" end.
Definition vname (f : nat) : string := match var_of f with 0 => "0" | 1 => "1" | _ => "2" end.
Fixpoint reps (s : string) (n : nat) : string := match n with O => "" | S k => (s ++ reps s k)%string end.
Definition fname (f n : nat) : string :=
  match n with
  | O => fbase f
  | S k => (fbase f ++ "__D" ++ reps "D" k ++ reps (vname f) n)%string
  end.
Fixpoint make_replacements (e : ex) : ex :=
  match e with
  | Num z => Num z | Par s => Par s | XX k => XX k | Cart k => Cart k
  | Add a b => Add (make_replacements a) (make_replacements b) | Sub a b => Sub (make_replacements a) (make_replacements b)
  | Mul a b => Mul (make_replacements a) (make_replacements b) | Div a b => Div (make_replacements a) (make_replacements b)
  | Opp a => Opp (make_replacements a) | Pow a n => Pow (make_replacements a) n
  | Sqrt a => Sqrt (make_replacements a) | Exp a => Exp (make_replacements a) | Sin a => Sin (make_replacements a)
  | Cos a => Cos (make_replacements a) | Sinh a => Sinh (make_replacements a) | Cosh a => Cosh (make_replacements a)
  | Asinh a => Asinh (make_replacements a) | Acos a => Acos (make_replacements a)
  | Atan2 y x => Atan2 (make_replacements y) (make_replacements x) | Sign a => Sign (make_replacements a)
  | Fn f n => Par (fname f n)
  end.

(** Step 6.a: free_symbols.  SymPy returns a set; the order here is that of the term. *)
Fixpoint symbols (e : ex) : list string :=
  match e with
  | Num _ | Cart _ | Fn _ _ => []
  | Par s => [s]
  | XX k => [match k with 0 => "xx0" | 1 => "xx1" | _ => "xx2" end]
  | Add a b | Sub a b | Mul a b | Div a b | Atan2 a b => symbols a ++ symbols b
  | Opp a | Pow a _ | Sqrt a | Exp a | Sin a | Cos a | Sinh a | Cosh a | Asinh a | Acos a | Sign a => symbols a
  end.
Definition freevars (r : rfm) : list string :=
  superfast_uniq String.eqb (flat_map (fun q => symbols (make_replacements (hat r q))) all_quants).

(** Step 6.b, l.529-565: the value of a symbol, from its name.  [xx_free e]: none of xx[0], xx[1], xx[2] occurs. *)
Definition base_func (m : coord) (basename : string) : py ex :=
  if String.eqb basename "f0_of_xx0" then Ok (base m 0)
  else if String.eqb basename "f1_of_xx1" then Ok (base m 1)
  else if String.eqb basename "f2_of_xx0" then Ok (base m 2)
  else if String.eqb basename "f3_of_xx2" then Ok (base m 3)
  else if String.eqb basename "f4_of_xx1" then Ok (base m 4)
  else Err ValueError.
Fixpoint diff_along (dirs : list string) (e : ex) : py ex :=
  match dirs with
  | [] => Ok e
  | d :: r =>
      if String.eqb d "" then diff_along r e
      else match isdigit_int d with
           | None => Err ValueError
           | Some k => if Nat.ltb k 3 then diff_along r (diff k e) else Err IndexError
           end
  end.
Definition freevar_val (m : coord) (var : string) : py ex :=
  let basename := py_replace "_funcform" "" (nth 0 (py_split "__" var) "") in
  let derivatv := if py_in "__" var then py_replace "_funcform" "" (nth 1 (py_split "__" var) "") else "" in
  py_bind (base_func m basename) (fun basefunc =>
  if String.eqb derivatv "" then Ok basefunc
  else diff_along (py_split " " (py_replace "2" "2 " (py_replace "1" "1 " (py_replace "0" "0 "
                     (py_replace "D" "" (py_replace "d" "" derivatv)))))) basefunc).
Fixpoint xx_free (e : ex) : bool :=
  match e with
  | Num _ | Cart _ | Fn _ _ | Par _ => true
  | XX k => false
  | Add a b | Sub a b | Mul a b | Div a b | Atan2 a b => xx_free a && xx_free b
  | Opp a | Pow a _ | Sqrt a | Exp a | Sin a | Cos a | Sinh a | Cosh a | Asinh a | Acos a | Sign a => xx_free a
  end.
(** (freevar, freevars_uniq_xx_indep, freevars_uniq_vals) for every free symbol *)
Fixpoint freevar_vals (m : coord) (vars : list string) : py (list (string * (ex * ex))) :=
  match vars with
  | [] => Ok []
  | v :: r => py_bind (freevar_val m v) (fun e =>
              py_bind (freevar_vals m r) (fun l => Ok ((v, (if xx_free e then e else Par v, e)) :: l)))
  end.

(** expr.subs(freevar, value), l.567-629: the expression is built again, zeros and ones disappear. *)
Fixpoint subs (s : string) (x e : ex) : ex :=
  match e with
  | Num z => Num z | XX k => XX k | Cart k => Cart k | Fn f n => Fn f n
  | Par t => if String.eqb t s then x else Par t
  | Add a b => sadd (subs s x a) (subs s x b) | Sub a b => ssub (subs s x a) (subs s x b)
  | Mul a b => smul (subs s x a) (subs s x b) | Div a b => sdiv (subs s x a) (subs s x b)
  | Opp a => sopp (subs s x a) | Pow a n => spow (subs s x a) n
  | Sqrt a => Sqrt (subs s x a) | Exp a => Exp (subs s x a) | Sin a => Sin (subs s x a) | Cos a => Cos (subs s x a)
  | Sinh a => Sinh (subs s x a) | Cosh a => Cosh (subs s x a) | Asinh a => Asinh (subs s x a) | Acos a => Acos (subs s x a)
  | Atan2 y z => Atan2 (subs s x y) (subs s x z) | Sign a => Sign (subs s x a)
  end.
(** Step 6.c *)
Definition subs_all (l : list (string * (ex * ex))) (e : ex) : ex := fold_left (fun e p => subs (fst p) (fst (snd p)) e) l e.

(** ReferenceMetric(CoordSystem, enable_rfm_precompute=True) from Step 5 on; [vars] is freevars_uniq, whose order is that of
    SymPy's sets. *)
Record prefm : Type := MkPre { p_rfm : rfm; p_vals : list (string * (ex * ex)); p_hat : quant -> ex }.
Definition precomputed (vars : list string) (r : rfm) : py prefm :=
  py_bind (freevar_vals (r_coord r) vars) (fun l =>
  Ok (MkPre r l (fun q => subs_all l (make_replacements (hat r q))))).
Definition precomputed_metric (cs : string) : py prefm := py_bind (reference_metric cs true) (fun r => precomputed (freevars r) r).

(** The symbols registered as CodeParameters, l.122-183. *)
Definition registered_symbols : list string :=
  ["f0_of_xx0"; "f1_of_xx1"; "f2_of_xx0"; "f3_of_xx2"; "f4_of_xx1";
   "f0_of_xx0__D0"; "f0_of_xx0__DD00"; "f0_of_xx0__DDD000"; "f1_of_xx1__D1"; "f1_of_xx1__DD11"; "f1_of_xx1__DDD111";
   "f2_of_xx0__D0"; "f2_of_xx0__DD00"; "f3_of_xx2__D2"; "f3_of_xx2__DD22"; "f4_of_xx1__D1"; "f4_of_xx1__DD11"; "f4_of_xx1__DDD111"].

(** rfm_dict.__getitem__, l.1475-1492; [rm c pre] is ReferenceMetric(c, pre). *)
Section Table.
Variables (R : Type) (rm : string -> bool -> py R).
Definition suffix : string := "_rfm_precompute".
Definition getitem (d : dict R) (cs : string) : dict R * py R :=
  let ret d := match dget cs d with Some r => Ok r | None => Err KeyError end in
  if dmem cs d then (d, ret d)
  else
    let c := py_replace suffix "" cs in
    match rm c false with
    | Err e => (d, Err e)
    | Ok r =>
        let d1 := dset c r d in
        match rm c true with
        | Err e => (d1, Err e)
        | Ok r2 => let d2 := dset (c ++ suffix) r2 d1 in (d2, ret d2)
        end
    end.
End Table.
