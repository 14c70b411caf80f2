(** Model of nrpy/helpers/cse_preprocess_postprocess.py (debug=False) on the expressions of Simd.v.
    SymPy's collect and the automatic evaluation done by xreplace/subs are parameters. *)
From Coq Require Import String List ZArith Bool QArith Qcanon.
From Verif Require Import PyBase QcLib ExprTree Simd.
Import ListNotations.
Open Scope list_scope.

(** ** cse_preprocess, l.22-272 *)
(** map_rat_to_sym: the inverse of symbol_to_Rational_dict, kept in step with it. *)
Fixpoint find_rat (q : Qc) (d : dict Qc) : option string :=
  match d with [] => None | (s, r) :: t => if qeqb r q then Some s else find_rat q t end.

(** l.141-147 *)
Definition rat_name (prefix : string) (q : Qc) : string :=
  if Pos.eqb (Qden (this q)) 1 then (prefix ++ "_Integer_" ++ str_of_Z (Qnum (this q)))%string
  else (prefix ++ "_Rational_" ++ str_of_Z (Qnum (this q)) ++ "_" ++ str_of_Z (Zpos (Qden (this q))))%string.
Definition negone_name (prefix : string) : string := (prefix ++ "_NegativeOne_")%string.
Definition one_name (prefix : string) : string := (prefix ++ "_Integer_1")%string.

(** l.136-156, 165-172: the symbol of a number, registered if new *)
Definition sym_of_rat (name : string) (q : Qc) (d : dict Qc) : dict Qc * sexpr :=
  match find_rat q d with
  | Some s => (d, Atom (Sym s))
  | None => (dset name q d, Atom (Sym name))
  end.
Definition neg1_node (prefix : string) (declare : bool) (d : dict Qc) : dict Qc * sexpr :=
  if declare then sym_of_rat (negone_name prefix) minus_one d else (d, Atom (Rat minus_one)).
Definition qneg (q : Qc) : bool := Z.ltb (Qnum (this q)) 0.

(** l.111-172: the preorder traversal; [parent] is subtree.func.  A negative number becomes the product
    (-1)*symbol, whose children are visited too. *)
Definition pre_atom (prefix : string) (declare : bool) (parent : option fname) (d : dict Qc) (q : Qc) : dict Qc * sexpr :=
  if qeqb q minus_one then neg1_node prefix declare d
  else match parent with
       | Some FPow => (d, Atom (Rat q))
       | _ => if qneg q then
                let '(d1, s) := sym_of_rat (rat_name prefix (- q)) (- q)%Qc d in
                let '(d2, m) := neg1_node prefix declare d1 in
                (d2, App FMul [m; s])
              else sym_of_rat (rat_name prefix q) q d
       end.
Fixpoint pre_rat (prefix : string) (declare : bool) (parent : option fname) (d : dict Qc) (e : sexpr) : dict Qc * sexpr :=
  match e with
  | Atom (Rat q) => pre_atom prefix declare parent d q
  | Atom _ => (d, e)
  | App f l =>
      let '(d', l') := (fix go (d : dict Qc) (l : list sexpr) : dict Qc * list sexpr :=
        match l with
        | [] => (d, [])
        | x :: r => let '(d1, x') := pre_rat prefix declare (Some f) d x in
                    let '(d2, r') := go d1 r in (d2, x' :: r')
        end) d l in
      (d', App f l')
  end.

(** Step (-1)^n, l.214-229: sp.Integer truncates; a non-number raises TypeError. *)
Definition parity_node (prefix : string) (ex : sexpr) : py sexpr :=
  match ex with
  | Atom (Rat q) | Atom (Flt q) =>
      Ok (Atom (Sym (if Z.even (Z.quot (Qnum (this q)) (Zpos (Qden (this q)))) then one_name prefix else negone_name prefix)))
  | _ => Err TypeError
  end.
Definition neg1_exponent (prefix : string) (f : fname) (l : list sexpr) : option sexpr :=
  match f, l with
  | FPow, Atom (Sym s) :: ex :: _ => if String.eqb s (negone_name prefix) then Some ex else None
  | _, _ => None
  end.
Fixpoint neg1_powers (prefix : string) (e : sexpr) : py sexpr :=
  match e with
  | Atom a => Ok (Atom a)
  | App f l =>
      match neg1_exponent prefix f l with
      | Some ex => parity_node prefix ex
      | None =>
          py_bind ((fix go (l : list sexpr) : py (list sexpr) :=
            match l with
            | [] => Ok []
            | x :: r => py_bind (neg1_powers prefix x) (fun x' => py_bind (go r) (fun r' => Ok (x' :: r')))
            end) l) (fun l' => Ok (App f l'))
      end
  end.

(** l.232-237: every remaining number 1 becomes the symbol. *)
Fixpoint replace_ones (prefix : string) (e : sexpr) : sexpr :=
  match e with
  | Atom (Rat q) => if qeqb q 1 then Atom (Sym (one_name prefix)) else e
  | Atom _ => e
  | App f l => App f (map (replace_ones prefix) l)
  end.

Section Collect.
(** sp.collect(expr, symbols) *)
Variable collect : list string -> sexpr -> sexpr.

(** l.184-191 and 205-209: the first argument of every function, top down *)
Definition collect_each (vars : list string) (e : sexpr) : sexpr :=
  fold_left (fun x v => if existsb (String.eqb v) (symbols x) then collect [v] x else x) vars e.
Definition rule_collect (c : sexpr -> sexpr) (e : sexpr) : sexpr :=
  match e with
  | App (FUn u) (x :: r) => App (FUn u) (c x :: r)
  | App (FOther s) (x :: r) => App (FOther s) (c x :: r)
  | _ => e
  end.

(** One expression, l.103-270 *)
Definition preprocess1 (fuel : nat) (prefix : string) (declare factor negative : bool) (d : dict Qc) (e : sexpr)
  : py (dict Qc * sexpr) :=
  let '(d, e) := pre_rat prefix declare None d e in
  let e := if factor then
             let vars := filter (fun v => negb (String.eqb v (negone_name prefix))) (dkeys d) in
             let e1 := topdown fuel (rule_collect (collect_each vars)) e in
             collect (filter (fun v => existsb (String.eqb v) (symbols e1)) vars) e1
           else e in
  let e := if negative then
             collect [negone_name prefix] (topdown fuel (rule_collect (collect [negone_name prefix])) e)
           else e in
  py_bind (if declare then neg1_powers prefix e else Ok e) (fun e =>
  if factor || negative then
    let tmp := replace_ones prefix e in
    Ok (if negb (expr_eqb tmp e) then
          match find_rat 1%Qc d with Some _ => d | None => dset (one_name prefix) 1%Qc d end
        else d, tmp)
  else Ok (d, e)).
Fixpoint cse_preprocess (fuel : nat) (prefix : string) (declare factor negative : bool) (d : dict Qc) (es : list sexpr)
  : py (dict Qc * list sexpr) :=
  match es with
  | [] => Ok (d, [])
  | e :: r => py_bind (preprocess1 fuel prefix declare factor negative d e) (fun '(d1, e') =>
              py_bind (cse_preprocess fuel prefix declare factor negative d1 r) (fun '(d2, r') => Ok (d2, e' :: r')))
  end.
End Collect.

(** ** cse_postprocess, l.275-496 *)
Inductive relem : Type := RExpr (e : sexpr) | REq (lhs : string) (rhs : sexpr).
Notation repls := (list (string * sexpr)).

(** l.341-348 *)
Definition split_equalities (replaced : repls) (reduced : list relem) : repls * list sexpr :=
  (replaced ++ flat_map (fun x => match x with REq l r => [(l, r)] | RExpr _ => [] end) reduced,
   flat_map (fun x => match x with RExpr e => [e] | REq _ _ => [] end) reduced).

Fixpoint subst_sym (s : string) (v e : sexpr) : sexpr :=
  match e with
  | Atom (Sym t) => if String.eqb t s then v else e
  | Atom _ => e
  | App f l => App f (map (subst_sym s v) l)
  end.
Definition occurs (s : string) (e : sexpr) : bool := existsb (String.eqb s) (symbols e).
Fixpoint count_sym (s : string) (e : sexpr) : nat :=
  match e with
  | Atom (Sym t) => if String.eqb t s then 1 else 0
  | Atom _ => 0
  | App _ l => list_sum (map (count_sym s) l)
  end.

(** l.374-402: topological sort *)
Definition lookup_of (replaced : repls) : dict sexpr := fold_left (fun d kv => dset (fst kv) (snd kv) d) replaced [].
Definition ready (lookup : dict sexpr) (e : sexpr) : bool := negb (existsb (fun s => dmem s lookup) (symbols e)).
Fixpoint sort_loop (fuel : nat) (lookup : dict sexpr) (out : repls) : py repls :=
  match fuel with
  | O => Err RecursionError
  | S n =>
      match lookup with
      | [] => Ok out
      | _ =>
          let new_lookup := fold_left (fun d kv => if ready lookup (snd kv) then d else dset (fst kv) (snd kv) d) lookup [] in
          let out' := out ++ filter (fun kv => ready lookup (snd kv)) lookup in
          if Nat.ltb (length new_lookup) (length lookup) then sort_loop n new_lookup out' else Err AssertionError
      end
  end.
Definition sort_repls (replaced : repls) : py repls :=
  py_bind (sort_loop (S (length replaced)) (lookup_of replaced) []) (fun out =>
  if Nat.eqb (length replaced) (length out) then Ok out else Err AssertionError).

(** l.410-418; [str(a2)] contains "_NegativeOne_" when a symbol of it does *)
Definition is_sym (e : sexpr) : bool := match e with Atom (Sym _) => true | _ => false end.
Definition neg_like (e : sexpr) : bool :=
  (match e with Atom (Rat q) => qeqb q minus_one | _ => false end) || existsb (py_in "_NegativeOne_") (symbols e).
Definition neg_pair (e : sexpr) : bool :=
  match e with
  | App FMul [a; b] => (is_sym a && neg_like b) || (is_sym b && neg_like a)
  | _ => false
  end.
(** l.432-441 *)
Definition small_arg (e : sexpr) : bool := match e with Atom (Sym _) | Atom (Rat _) => true | _ => false end.
Definition small (e : sexpr) : bool :=
  match e with
  | App FAdd l | App FMul l => (0 <? length l)%nat && (length l <=? 2)%nat && forallb small_arg l
  | App FPow (b :: x :: _) => is_sym b && is_num x (qz 2)
  | _ => false
  end.

(** l.479-500 *)
Definition keep_used (st : list string * repls) (kv : string * sexpr) : list string * repls :=
  let '(used, out) := st in
  if existsb (String.eqb (fst kv)) used then (used ++ symbols (snd kv), kv :: out) else (used, out).
Definition remove_unused (replaced : repls) (reduced : list sexpr) : repls :=
  snd (fold_left keep_used (rev replaced) (flat_map symbols reduced, [])).

Section Eval.
(** SymPy's evaluation of the result of a substitution *)
Variable norm : sexpr -> sexpr.
(** xreplace({sym: v}) and subs(sym, v); nothing happens to an expression without the symbol *)
Definition xrep (s : string) (v e : sexpr) : sexpr := if occurs s e then norm (subst_sym s v e) else e.

(** l.350-370 *)
Definition const_step (st : repls * list sexpr) (kv : string * sexpr) : repls * list sexpr :=
  let '(replaced, reduced) := st in
  (map (fun p => (fst p, xrep (fst kv) (snd kv) (snd p))) (filter (fun p => negb (String.eqb (fst p) (fst kv))) replaced),
   map (xrep (fst kv) (snd kv)) reduced).
Definition is_const (e : sexpr) : bool := match symbols e with [] => true | _ => false end.
Fixpoint const_loop (fuel : nat) (st : repls * list sexpr) : py (repls * list sexpr) :=
  match fuel with
  | O => Err RecursionError
  | S n => match filter (fun p => is_const (snd p)) (fst st) with
           | [] => Ok st
           | cs => const_loop n (fold_left const_step cs st)
           end
  end.

(** l.404-475: one iteration at index i.  [back_sub] substitutes into the entries after i and the reduced
    expressions and removes entry i. *)
Definition sub_after (i : nat) (s : string) (v : sexpr) (l : repls) : repls :=
  firstn (S i) l ++ map (fun p => (fst p, xrep s v (snd p))) (skipn (S i) l).
Definition back_sub (i : nat) (s : string) (v : sexpr) (st : repls * list sexpr) : repls * list sexpr :=
  (pop_at i (sub_after i s v (fst st)), map (xrep s v) (snd st)).
Fixpoint count_reduced (s : string) (c : nat) (reduced : list sexpr) : nat :=
  match reduced with
  | [] => c
  | e :: r => count_reduced s (if (c <=? 2)%nat then c + count_sym s e else c)%nat r
  end.
Definition uses (i : nat) (s : string) (st : repls * list sexpr) : nat :=
  count_reduced s (list_sum (map (fun p => count_sym s (snd p)) (skipn i (fst st)))) (snd st).
Definition back_step (i : nat) (s : string) (v : sexpr) (st : repls * list sexpr) : py (nat * (repls * list sexpr)) :=
  let '(i1, st1) := if neg_pair v then (pred i, back_sub i s v st) else (i, st) in
  if small v then
    let c := uses i1 s st1 in
    if ((0 <? c) && (c <=? 2))%nat then
      if (i1 <? length (fst st1))%nat then Ok (i1, back_sub i1 s v st1) else Err IndexError
    else Ok (S i1, st1)
  else Ok (S i1, st1).
Fixpoint back_loop (fuel i : nat) (st : repls * list sexpr) : py (repls * list sexpr) :=
  match fuel with
  | O => Err RecursionError
  | S n => match nth_error (fst st) i with
           | None => Ok st
           | Some (s, v) => py_bind (back_step i s v st) (fun '(i', st') => back_loop n i' st')
           end
  end.

Definition cse_postprocess (replaced : repls) (reduced : list relem) : py (repls * list sexpr) :=
  let st := split_equalities replaced reduced in
  py_bind (const_loop (S (length (fst st))) st) (fun st1 =>
  py_bind (sort_repls (fst st1)) (fun sorted =>
  py_bind (back_loop (S (length sorted)) 0 (sorted, snd st1)) (fun st2 =>
  Ok (remove_unused (fst st2) (snd st2), snd st2)))).
End Eval.
