(** Model of expr_convert_to_simd_intrins, nrpy/helpers/simd.py l.152-786 (debug=False).
    Expressions are those of ExprTree.v.  Each "for subtree in tree.preorder(): ...; tree.reconstruct()"
    is a top-down pass: the generator resumes with the node's new children, so a node is rewritten at
    most once and then its (new) arguments are visited.
    Simplified: where the code calls Mul(...) or Add(...) with SymPy's automatic evaluation, the result is the
    argument list in SymPy's canonical order (a parameter [canon]; one factor: the factor; no factor: 1), and
    SqrtSIMD(a)*a*a is SqrtSIMD(a)*a**2; further merging of equal factors is not modelled.  A pattern that
    indexes args[1] or args[2] of a node with fewer arguments does not match instead of raising.
    reconstruct() never evaluates (evaluate=False). *)
From Coq Require Import String List ZArith Bool QArith Qcanon.
From Verif Require Import PyBase QcLib ExprTree.
Import ListNotations.
Open Scope list_scope.

(** Atoms: symbols, exact rationals (Integer and Rational), floats. *)
Inductive atom : Type := Sym (s : string) | Rat (q : Qc) | Flt (q : Qc).
Inductive un : Type := Abs | Exp | Log | Sin | Cos | Sign.
Inductive fname : Type :=
| FAdd | FMul | FPow | FUn (u : un) | FOther (s : string)
| SAdd | SSub | SMul | SFMA | SFMS | SNFMA | SNFMS | SDiv | SPow | SSqrt | SCbrt | SUn (u : un).

Notation sexpr := (expr atom fname).

Definition un_eqb (a b : un) : bool :=
  match a, b with Abs, Abs | Exp, Exp | Log, Log | Sin, Sin | Cos, Cos | Sign, Sign => true | _, _ => false end.
Definition fname_eqb (f g : fname) : bool :=
  match f, g with
  | FAdd, FAdd | FMul, FMul | FPow, FPow | SAdd, SAdd | SSub, SSub | SMul, SMul | SFMA, SFMA | SFMS, SFMS
  | SNFMA, SNFMA | SNFMS, SNFMS | SDiv, SDiv | SPow, SPow | SSqrt, SSqrt | SCbrt, SCbrt => true
  | FUn u, FUn v => un_eqb u v
  | SUn u, SUn v => un_eqb u v
  | FOther s, FOther t => String.eqb s t
  | _, _ => false
  end.
Definition atom_eqb (a b : atom) : bool :=
  match a, b with
  | Sym s, Sym t => String.eqb s t
  | Rat p, Rat q => qeqb p q
  | Flt p, Flt q => qeqb p q
  | _, _ => false
  end.
(** Structural equality, SymPy's ==. *)
Fixpoint expr_eqb (a b : sexpr) : bool :=
  match a, b with
  | Atom x, Atom y => atom_eqb x y
  | App f l, App g m =>
      fname_eqb f g &&
      (fix go l m := match l, m with
                     | [], [] => true
                     | x :: l', y :: m' => expr_eqb x y && go l' m'
                     | _, _ => false
                     end) l m
  | _, _ => false
  end.

(** [arg.func == f] with two (three) arguments *)
Definition as2 (f : fname) (e : sexpr) : option (sexpr * sexpr) :=
  match e with App g [a; b] => if fname_eqb g f then Some (a, b) else None | _ => None end.
Definition as3 (f : fname) (e : sexpr) : option (sexpr * sexpr * sexpr) :=
  match e with App g [a; b; c] => if fname_eqb g f then Some (a, b, c) else None | _ => None end.

(** The two dictionaries: symbol_to_Rational_dict, and whether map_rat_to_sym has the key 1. *)
Record sstate : Type := MkS { s_dict : dict Qc; s_one : bool }.

(** l.263-265 *)
Definition init_state (d : dict Qc) : sstate := MkS d (existsb (fun kv => qeqb (snd kv) 1) d).

(** lookup_rational, l.339-347, compared with the number [q] *)
Definition is_rat (d : dict Qc) (e : sexpr) (q : Qc) : bool :=
  match e with
  | Atom (Sym s) => match dget s d with Some r => qeqb r q | None => false end
  | Atom (Rat r) => qeqb r q
  | _ => false
  end.
Definition minus_one : Qc := (- (1))%Qc.

(** Top-down passes. *)
Fixpoint topdown (fuel : nat) (r : sexpr -> sexpr) (e : sexpr) : sexpr :=
  match fuel with
  | O => e
  | S n => match r e with
           | Atom a => Atom a
           | App f l => App f (map (topdown n r) l)
           end
  end.
Fixpoint map_st (g : sstate -> sexpr -> sstate * sexpr) (st : sstate) (l : list sexpr) : sstate * list sexpr :=
  match l with
  | [] => (st, [])
  | x :: r => let '(st1, x') := g st x in let '(st2, r') := map_st g st1 r in (st2, x' :: r')
  end.
Fixpoint topdown_st (fuel : nat) (r : sstate -> sexpr -> sstate * sexpr) (st : sstate) (e : sexpr) : sstate * sexpr :=
  match fuel with
  | O => (st, e)
  | S n => let '(st1, e1) := r st e in
           match e1 with
           | Atom a => (st1, Atom a)
           | App f l => let '(st2, l2) := map_st (topdown_st n r) st1 l in (st2, App f l2)
           end
  end.

(** if/elif chains: the first alternative that matches. *)
Fixpoint first_match (alts : list (sexpr -> option sexpr)) (e : sexpr) : sexpr :=
  match alts with
  | [] => e
  | a :: r => match a e with Some e' => e' | None => first_match r e end
  end.

(** Step 1, first loop, l.291-307 *)
Definition rule_un (e : sexpr) : sexpr := match e with App (FUn u) l => App (SUn u) l | _ => e end.

(** IntegerPowSIMD, l.309-337.  [pos_pow a k] is the power k+2. *)
Fixpoint pos_pow (a : sexpr) (k : nat) : sexpr :=
  match k with O => App SMul [a; a] | S k' => App SMul [pos_pow a k'; a] end.
Definition add_one (one : string) (st : sstate) : sstate :=
  if s_one st then st else MkS (dset one 1%Qc (s_dict st)) true.
Definition integer_pow (one : string) (st : sstate) (a : sexpr) (n : Z) : sstate * sexpr :=
  if Z.leb 2 n then (st, pos_pow a (Z.to_nat (n - 2)))
  else if Z.leb n (-2) then (add_one one st, App SDiv [Atom (Sym one); pos_pow a (Z.to_nat (- n - 2))])
  else if Z.eqb n (-1) then (add_one one st, App SDiv [Atom (Sym one); a])
  else (st, a).

(** lookup_rational of the exponent *)
Definition exponent (d : dict Qc) (e : sexpr) : sexpr :=
  match e with
  | Atom (Sym s) => match dget s d with Some q => Atom (Rat q) | None => e end
  | _ => e
  end.
Definition is_num (e : sexpr) (q : Qc) : bool :=
  match e with Atom (Rat r) => qeqb r q | Atom (Flt r) => qeqb r q | _ => false end.
Definition half (n : Z) : Qc := Q2Qc (n # 2).
Definition third : Qc := Q2Qc (1 # 3).

Section Canon.
Variable canon : list sexpr -> list sexpr.

(** [Mul(l)] with SymPy's collapsing of short lists *)
Definition smul (l : list sexpr) : sexpr :=
  match l with [] => Atom (Rat 1%Qc) | [x] => x | _ => App FMul (canon l) end.

(** Step 1, second loop, l.349-379 *)
Definition rule_pow (one : string) (st : sstate) (e : sexpr) : sstate * sexpr :=
  match as2 FPow e with
  | None => (st, e)
  | Some (a, b) =>
      let ex := exponent (s_dict st) b in
      let o := Atom (Sym one) in
      if is_num ex (half 1) then (st, App SSqrt [a])
      else if is_num ex (half (-1)) then (st, App SDiv [o; App SSqrt [a]])
      else if is_num ex (half (-3)) then (st, App SDiv [o; smul [App SSqrt [a]; a]])
      else if is_num ex (half (-5)) then (st, App SDiv [o; smul [App SSqrt [a]; App FPow [a; Atom (Rat (qz 2))]]])
      else match ex with
           | Atom (Rat q) =>
               if qeqb q third then (st, App SCbrt [a])
               else if Pos.eqb (Qden (this q)) 1 then integer_pow one st a (Qnum (this q))
               else (st, App SPow [a; b])
           | _ => (st, App SPow [a; b])
           end
  end.

(** Step 2, l.381-414 *)
Fixpoint find_index {A} (p : A -> bool) (l : list A) : option nat :=
  match l with [] => None | x :: r => if p x then Some 0%nat else option_map S (find_index p r) end.
Fixpoint pop_at {A} (i : nat) (l : list A) : list A :=
  match l, i with [], _ => [] | _ :: r, O => r | x :: r, S j => x :: pop_at j r end.
Definition neg_product (d : dict Qc) (e : sexpr) : bool :=
  match e with App FMul l => existsb (fun x => is_rat d x minus_one) l | _ => false end.
Definition mul_args (e : sexpr) : list sexpr := match e with App FMul l => l | _ => [] end.
Definition rule_sub (d : dict Qc) (e : sexpr) : sexpr :=
  match e with
  | App FAdd args =>
      match find_index (neg_product d) args with
      | None => e
      | Some i =>
          let ai := nth i args e in
          match find_index (fun x => is_rat d x minus_one) (mul_args ai) with
          | None => e
          | Some j =>
              match find_index (fun k => negb (Nat.eqb k i)) (seq 0%nat (length args)) with
              | None => e
              | Some k =>
                  let ak := nth k args e in
                  let subexpr := App SSub [ak; smul (pop_at j (mul_args ai))] in
                  let rest := filter (fun x => negb (expr_eqb x ai || expr_eqb x ak)) args in
                  match rest with
                  | [] => subexpr
                  | _ => App FAdd (canon (subexpr :: rest))
                  end
              end
          end
      end
  | _ => e
  end.

(** Step 3, l.416-437: the last two arguments, then the others pairwise from the front. *)
Fixpoint pair_up (f : fname) (l : list sexpr) (acc : sexpr) : sexpr :=
  match l with
  | [] => acc
  | [x] => App f [x; acc]
  | x :: y :: r => pair_up f r (App f [App f [x; y]; acc])
  end.
Definition nest2 (f : fname) (args : list sexpr) : sexpr :=
  let n := length args in
  pair_up f (firstn (n - 2) args) (App f (skipn (n - 2) args)).
Definition rule_nary (e : sexpr) : sexpr :=
  match e with
  | App FMul args => nest2 SMul args
  | App FAdd args => nest2 SAdd args
  | _ => e
  end.

(** Step 4, l.439-461 *)
Definition alt_div_l (d : dict Qc) (e : sexpr) : option sexpr :=
  match as2 SMul e with
  | Some (x, a) => match as2 SDiv x with
                   | Some (o, b) => if is_rat d o 1 then Some (App SDiv [a; b]) else None
                   | None => None
                   end
  | None => None
  end.
Definition alt_div_r (d : dict Qc) (e : sexpr) : option sexpr :=
  match as2 SMul e with
  | Some (a, x) => match as2 SDiv x with
                   | Some (o, b) => if is_rat d o 1 then Some (App SDiv [a; b]) else None
                   | None => None
                   end
  | None => None
  end.
Definition rule_div (d : dict Qc) : sexpr -> sexpr := first_match [alt_div_l d; alt_div_r d].

(** Step 5.a, l.473-515 *)
Definition alt_fma2_r (e : sexpr) : option sexpr :=
  match as2 SAdd e with
  | Some (a, x) =>
      match as2 SAdd x with
      | Some (y, z) => match as2 SMul y, as2 SMul z with
                       | Some (b, c), Some (p, q) => Some (App SFMA [b; c; App SFMA [p; q; a]])
                       | _, _ => None
                       end
      | None => None
      end
  | None => None
  end.
Definition alt_fma2_l (e : sexpr) : option sexpr :=
  match as2 SAdd e with
  | Some (x, a) =>
      match as2 SAdd x with
      | Some (y, z) => match as2 SMul y, as2 SMul z with
                       | Some (b, c), Some (p, q) => Some (App SFMA [b; c; App SFMA [p; q; a]])
                       | _, _ => None
                       end
      | None => None
      end
  | None => None
  end.
Definition rule_5a : sexpr -> sexpr := first_match [alt_fma2_r; alt_fma2_l].

(** Step 5.b, l.517-550 *)
Definition alt_fma_l (e : sexpr) : option sexpr :=
  match as2 SAdd e with
  | Some (x, a) => match as2 SMul x with Some (b, c) => Some (App SFMA [b; c; a]) | None => None end
  | None => None
  end.
Definition alt_fma_r (e : sexpr) : option sexpr :=
  match as2 SAdd e with
  | Some (a, x) => match as2 SMul x with Some (b, c) => Some (App SFMA [b; c; a]) | None => None end
  | None => None
  end.
Definition alt_fms (e : sexpr) : option sexpr :=
  match as2 SSub e with
  | Some (x, a) => match as2 SMul x with Some (b, c) => Some (App SFMS [b; c; a]) | None => None end
  | None => None
  end.
Definition alt_nfma (e : sexpr) : option sexpr :=
  match as2 SSub e with
  | Some (a, x) => match as2 SMul x with Some (b, c) => Some (App SNFMA [b; c; a]) | None => None end
  | None => None
  end.
Definition alt_nfms (d : dict Qc) (e : sexpr) : option sexpr :=
  match as3 SFMS e with
  | Some (m, x, c) => match as2 SMul x with
                      | Some (a, b) => if is_rat d m minus_one then Some (App SNFMS [a; b; c]) else None
                      | None => None
                      end
  | None => None
  end.
Definition rule_5b (d : dict Qc) (e : sexpr) : sexpr :=
  first_match [alt_nfms d] (first_match [alt_fma_l; alt_fma_r; alt_fms; alt_nfma] e).

(** Step 5.c, l.552-611 *)
Definition alt_5c_add (e : sexpr) : option sexpr :=
  match as2 SAdd e with
  | Some (a, x) => match as3 SFMS x with
                   | Some (b, c, y) => match as2 SMul y with
                                       | Some (p, q) => Some (App SFMS [b; c; App SFMS [p; q; a]])
                                       | None => None
                                       end
                   | None => None
                   end
  | None => None
  end.
Definition alt_5c_sub_fma (e : sexpr) : option sexpr :=
  match as2 SSub e with
  | Some (x, a) => match as3 SFMA x with
                   | Some (b, c, y) => match as2 SMul y with
                                       | Some (p, q) => Some (App SFMA [b; c; App SFMS [p; q; a]])
                                       | None => None
                                       end
                   | None => None
                   end
  | None => None
  end.
Definition alt_5c_sub_fms (e : sexpr) : option sexpr :=
  match as2 SSub e with
  | Some (x, a) => match as3 SFMS x with
                   | Some (b, c, y) => match as2 SMul y with
                                       | Some (p, q) => Some (App SFMS [b; c; App SFMA [p; q; a]])
                                       | None => None
                                       end
                   | None => None
                   end
  | None => None
  end.
Definition rule_5c : sexpr -> sexpr := first_match [alt_5c_add; alt_5c_sub_fma; alt_5c_sub_fms].

(** Step 5.d, l.613-650.  [fst_of], [snd_of]: which factor is -1. *)
Definition neg_mul_l (d : dict Qc) (e : sexpr) : option sexpr :=
  match as2 SMul e with Some (m, b) => if is_rat d m minus_one then Some b else None | None => None end.
Definition neg_mul_r (d : dict Qc) (e : sexpr) : option sexpr :=
  match as2 SMul e with Some (b, m) => if is_rat d m minus_one then Some b else None | None => None end.
Definition alt_5d (strip : sexpr -> option sexpr) (second : bool) (e : sexpr) : option sexpr :=
  match as3 SFMA e with
  | Some (a, b, c) =>
      if second then match strip b with Some b' => Some (App SNFMA [a; b'; c]) | None => None end
      else match strip a with Some a' => Some (App SNFMA [a'; b; c]) | None => None end
  | None => None
  end.
Definition rule_5d (d : dict Qc) : sexpr -> sexpr :=
  first_match [alt_5d (neg_mul_l d) true; alt_5d (neg_mul_r d) true;
               alt_5d (neg_mul_l d) false; alt_5d (neg_mul_r d) false].

(** Step 5.e, l.652-673 *)
Definition alt_5e_1 (d : dict Qc) (e : sexpr) : option sexpr :=
  match as3 SFMA e with Some (m, b, c) => if is_rat d m minus_one then Some (App SSub [c; b]) else None | None => None end.
Definition alt_5e_2 (d : dict Qc) (e : sexpr) : option sexpr :=
  match as3 SFMA e with Some (a, m, c) => if is_rat d m minus_one then Some (App SSub [c; a]) else None | None => None end.
Definition alt_5e_3 (d : dict Qc) (e : sexpr) : option sexpr :=
  match as3 SFMS e with
  | Some (a, m, c) => if is_rat d m minus_one then Some (App SMul [m; App SAdd [a; c]]) else None
  | None => None
  end.
Definition alt_5e_4 (d : dict Qc) (e : sexpr) : option sexpr :=
  match as3 SFMS e with
  | Some (m, b, c) => if is_rat d m minus_one then Some (App SMul [m; App SAdd [b; c]]) else None
  | None => None
  end.
Definition rule_5e (d : dict Qc) : sexpr -> sexpr := first_match [alt_5e_1 d; alt_5e_2 d; alt_5e_3 d; alt_5e_4 d].

(** Step 5.f, l.675-737 *)
Definition alt_5f_nfma (strip : sexpr -> option sexpr) (e : sexpr) : option sexpr :=
  match as3 SNFMA e with
  | Some (a, b, c) => match strip c with Some c' => Some (App SNFMS [a; b; c']) | None => None end
  | None => None
  end.
Definition alt_5f_fms (strip : sexpr -> option sexpr) (e : sexpr) : option sexpr :=
  match as3 SFMS e with
  | Some (a, b, c) => match strip b with Some b' => Some (App SNFMS [a; b'; c]) | None => None end
  | None => None
  end.
Definition strip_inner (strip : sexpr -> option sexpr) (e : sexpr) : option sexpr :=
  match as2 SMul e with
  | Some (s, x) => match strip x with Some x' => Some (App SMul [s; x']) | None => None end
  | None => None
  end.
Definition rule_5f (d : dict Qc) : sexpr -> sexpr :=
  first_match [alt_5f_nfma (neg_mul_l d); alt_5f_nfma (neg_mul_r d);
               alt_5f_fms (neg_mul_l d); alt_5f_fms (neg_mul_r d);
               alt_5f_fms (strip_inner (neg_mul_l d)); alt_5f_fms (strip_inner (neg_mul_r d))].

(** Step 5.g, l.739-755 *)
Definition rule_5g : sexpr -> sexpr := first_match [alt_fma_l; alt_fma_r; alt_fms].

(** The whole conversion after cse_preprocess (symbol_to_Rational_dict given), l.242-755; [prefix] is the
    symbol prefix, [more] is simd_find_more_FMAsFMSs. *)
Definition step1 (fuel : nat) (prefix : string) (d : dict Qc) (e : sexpr) : sstate * sexpr :=
  topdown_st fuel (rule_pow (prefix ++ "_Integer_1")) (init_state d) (topdown fuel rule_un e).
Definition later_steps (fuel : nat) (more : bool) (d : dict Qc) (e : sexpr) : sexpr :=
  let pass r e := topdown fuel r e in
  let e := pass (rule_sub d) e in
  let e := pass rule_nary e in
  let e := pass (rule_div d) e in
  let e := if more then pass rule_5a e else e in
  let e := pass (rule_5b d) e in
  let e := if more then pass rule_5c e else e in
  let e := pass (rule_5d d) e in
  let e := pass (rule_5e d) e in
  let e := pass (rule_5f d) e in
  pass rule_5g e.
Definition convert (fuel : nat) (prefix : string) (more : bool) (d : dict Qc) (e : sexpr) : dict Qc * sexpr :=
  let '(st, e1) := step1 fuel prefix d e in
  (s_dict st, later_steps fuel more (s_dict st) e1).

End Canon.

(** free_symbols of an expression *)
Fixpoint symbols (e : sexpr) : list string :=
  match e with
  | Atom (Sym s) => [s]
  | Atom _ => []
  | App _ l => flat_map symbols l
  end.

(** remove_unused_NegativeOnes_from_symbol_to_Rational_dict, l.757-780 *)
Definition remove_unused_negone (prefix : string) (e : sexpr) (d : dict Qc) : dict Qc :=
  let name := (prefix ++ "_NegativeOne_")%string in
  if dmem name d && negb (existsb (String.eqb name) (symbols e))
  then filter (fun kv => negb (String.eqb (fst kv) name)) d
  else d.
