(** Model of the C macros that the generated SIMD code is written with: nrpy/helpers/simd_intrinsics.h
    (239 lines) and nrpy/helpers/cuda_intrinsics.h (83 lines).
    A macro body is the tree of intrinsic calls and C operators of its replacement text; [opcode_of] is what
    the vendor documents for each intrinsic (trusted).  Vectors are lists of lanes.  The bit masks used for the
    absolute value and for upwinding are modelled on 64-bit words, interpreted as binary64 numbers
    (Coq.Floats.SpecFloat).
    Simplified: conversions between REAL and double in the scalar branch (REAL is double); ReadSIMD and
    WriteSIMD are on an array of cells numbered by naturals. *)
From Coq Require Import String List ZArith Bool Floats.SpecFloat.
From Verif Require Import PyBase ExprTree Simd.
Import ListNotations.
Open Scope string_scope.
Open Scope list_scope.

(** The compiler's predefined macros. *)
Record target : Type := MkT { t_avx512 : bool; t_avx : bool; t_sse2 : bool; t_fma : bool; t_sse3 : bool; t_nvcc : bool }.

Inductive branch : Type :=
| BAVX512                        (* simd_intrinsics.h l.12-55 *)
| BAVX (fma : bool)              (* l.58-123; FMA l.96-112 *)
| BSSE2 (fma sse3 : bool)        (* l.126-197; FMA l.159-175, SSE3 l.180-197 *)
| BScalar.                       (* l.199-237 *)
(** #ifdef / #elif / #else, l.12, l.58, l.126, l.199 *)
Definition branch_of (t : target) : branch :=
  if t_avx512 t then BAVX512 else if t_avx t then BAVX (t_fma t)
  else if t_sse2 t then BSSE2 (t_fma t) (t_sse3 t) else BScalar.

(** simd_width, l.17, l.61, l.129, l.202 *)
Definition simd_width (b : branch) : nat :=
  match b with BAVX512 => 8 | BAVX _ => 4 | BSSE2 _ _ => 2 | BScalar => 1 end.

(** Macro bodies: parameters, constants, and calls of intrinsics, C operators or other macros. *)
Inductive mex : Type := MArg (k : nat) | MLit (z : Z) | MCall (f : string) (l : list mex).
Notation A := (MArg 0).
Notation B := (MArg 1).
Notation C := (MArg 2).

(** l.27-45 *)
Definition macros_avx512 : dict mex :=
  [("AddSIMD", MCall "_mm512_add_pd" [A; B]);
   ("SubSIMD", MCall "_mm512_sub_pd" [A; B]);
   ("MulSIMD", MCall "_mm512_mul_pd" [A; B]);
   ("DivSIMD", MCall "_mm512_div_pd" [A; B]);
   ("SqrtSIMD", MCall "_mm512_sqrt_pd" [A]);
   ("ExpSIMD", MCall "_mm512_exp_pd" [A]);
   ("SinSIMD", MCall "_mm512_sin_pd" [A]);
   ("CosSIMD", MCall "_mm512_cos_pd" [A]);
   ("FusedMulAddSIMD", MCall "_mm512_fmadd_pd" [A; B; C]);
   ("FusedMulSubSIMD", MCall "_mm512_fmsub_pd" [A; B; C]);
   ("NegFusedMulAddSIMD", MCall "_mm512_fnmadd_pd" [A; B; C]);
   ("NegFusedMulSubSIMD", MCall "_mm512_fnmsub_pd" [A; B; C]);
   ("AbsSIMD", MCall "_mm512_and_pd,0x7FFFFFFFFFFFFFFF" [A])].
(** l.74, l.84-93; l.96-112 *)
Definition macros_avx (fma : bool) : dict mex :=
  [("AbsSIMD", MCall "_mm256_andnot_pd,-0.0" [A]);
   ("AddSIMD", MCall "_mm256_add_pd" [A; B]);
   ("SubSIMD", MCall "_mm256_sub_pd" [A; B]);
   ("MulSIMD", MCall "_mm256_mul_pd" [A; B]);
   ("DivSIMD", MCall "_mm256_div_pd" [A; B]);
   ("SqrtSIMD", MCall "_mm256_sqrt_pd" [A]);
   ("ExpSIMD", MCall "_mm256_exp_pd" [A]);
   ("SinSIMD", MCall "_mm256_sin_pd" [A]);
   ("CosSIMD", MCall "_mm256_cos_pd" [A])] ++
  if fma then
    [("FusedMulAddSIMD", MCall "_mm256_fmadd_pd" [A; B; C]);
     ("FusedMulSubSIMD", MCall "_mm256_fmsub_pd" [A; B; C]);
     ("NegFusedMulAddSIMD", MCall "_mm256_fnmadd_pd" [A; B; C]);
     ("NegFusedMulSubSIMD", MCall "_mm256_fnmsub_pd" [A; B; C])]
  else
    [("FusedMulAddSIMD", MCall "_mm256_add_pd" [MCall "_mm256_mul_pd" [A; B]; C]);
     ("FusedMulSubSIMD", MCall "_mm256_sub_pd" [MCall "_mm256_mul_pd" [A; B]; C]);
     ("NegFusedMulAddSIMD", MCall "_mm256_sub_pd" [C; MCall "_mm256_mul_pd" [A; B]]);
     ("NegFusedMulSubSIMD",
      MCall "_mm256_sub_pd" [C; MCall "_mm256_add_pd" [C; MCall "_mm256_add_pd" [MCall "_mm256_mul_pd" [A; B]; C]]])].
(** l.132, l.142-151; l.159-175 *)
Definition macros_sse2 (fma : bool) : dict mex :=
  [("AbsSIMD", MCall "_mm_andnot_pd,-0.0" [A]);
   ("AddSIMD", MCall "_mm_add_pd" [A; B]);
   ("SubSIMD", MCall "_mm_sub_pd" [A; B]);
   ("MulSIMD", MCall "_mm_mul_pd" [A; B]);
   ("DivSIMD", MCall "_mm_div_pd" [A; B]);
   ("SqrtSIMD", MCall "_mm_sqrt_pd" [A]);
   ("ExpSIMD", MCall "_mm_exp_pd" [A]);
   ("SinSIMD", MCall "_mm_sin_pd" [A]);
   ("CosSIMD", MCall "_mm_cos_pd" [A])] ++
  if fma then
    [("FusedMulAddSIMD", MCall "_mm_fmadd_pd" [A; B; C]);
     ("FusedMulSubSIMD", MCall "_mm_fmsub_pd" [A; B; C]);
     ("NegFusedMulAddSIMD", MCall "_mm_sub_pd" [C; MCall "_mm_mul_pd" [A; B]]);
     ("NegFusedMulSubSIMD",
      MCall "_mm_sub_pd" [C; MCall "_mm_sub_pd" [C; MCall "_mm_sub_pd" [MCall "_mm_mul_pd" [A; B]; C]]])]
  else
    [("FusedMulAddSIMD", MCall "_mm_add_pd" [MCall "_mm_mul_pd" [A; B]; C]);
     ("FusedMulSubSIMD", MCall "_mm_sub_pd" [MCall "_mm_mul_pd" [A; B]; C]);
     ("NegFusedMulAddSIMD", MCall "_mm_sub_pd" [C; MCall "_mm_mul_pd" [A; B]]);
     ("NegFusedMulSubSIMD",
      MCall "_mm_sub_pd" [C; MCall "_mm_add_pd" [C; MCall "_mm_add_pd" [MCall "_mm_mul_pd" [A; B]; C]]])].
(** l.206-222 *)
Definition macros_scalar : dict mex :=
  [("AbsSIMD", MCall "fabs" [A]);
   ("AddSIMD", MCall "+" [A; B]);
   ("SubSIMD", MCall "-" [A; B]);
   ("MulSIMD", MCall "*" [A; B]);
   ("DivSIMD", MCall "/" [A; B]);
   ("FusedMulAddSIMD", MCall "+" [MCall "*" [A; B]; C]);
   ("FusedMulSubSIMD", MCall "-" [MCall "*" [A; B]; C]);
   ("NegFusedMulAddSIMD", MCall "-" [C; MCall "*" [A; B]]);
   ("NegFusedMulSubSIMD", MCall "unary-" [MCall "+" [MCall "*" [A; B]; C]]);
   ("SqrtSIMD", MCall "sqrt" [A]);
   ("ExpSIMD", MCall "exp" [A]);
   ("SinSIMD", MCall "sin" [A]);
   ("CosSIMD", MCall "cos" [A])].
Definition macros (b : branch) : dict mex :=
  match b with
  | BAVX512 => macros_avx512
  | BAVX fma => macros_avx fma
  | BSSE2 fma _ => macros_sse2 fma
  | BScalar => macros_scalar
  end.

(** cuda_intrinsics.h: compiled by nvcc, l.9-25, and otherwise, l.50-66 *)
Definition macros_nvcc : dict mex :=
  [("AbsCUDA", MCall "fabs" [A]);
   ("AddCUDA", MCall "__dadd_rn" [A; B]);
   ("SubCUDA", MCall "__dsub_rn" [A; B]);
   ("MulCUDA", MCall "__dmul_rn" [A; B]);
   ("DivCUDA", MCall "__ddiv_rn" [A; B]);
   ("FusedMulAddCUDA", MCall "__fma_rn" [A; B; C]);
   ("FusedMulSubCUDA", MCall "FusedMulAddCUDA" [A; B; MCall "MulCUDA" [MLit (-1); C]]);
   ("NegFusedMulAddCUDA", MCall "SubCUDA" [C; MCall "MulCUDA" [A; B]]);
   ("NegFusedMulSubCUDA", MCall "MulCUDA" [MLit (-1); MCall "FusedMulAddCUDA" [A; B; C]]);
   ("SqrtCUDA", MCall "__dsqrt_rn" [A]);
   ("ExpCUDA", MCall "exp" [A]);
   ("SinCUDA", MCall "sin" [A]);
   ("CosCUDA", MCall "cos" [A])].
Definition macros_no_nvcc : dict mex :=
  [("AbsCUDA", MCall "fabs" [A]);
   ("AddCUDA", MCall "+" [A; B]);
   ("SubCUDA", MCall "-" [A; B]);
   ("MulCUDA", MCall "*" [A; B]);
   ("DivCUDA", MCall "/" [A; B]);
   ("FusedMulAddCUDA", MCall "+" [MCall "*" [A; B]; C]);
   ("FusedMulSubCUDA", MCall "-" [MCall "*" [A; B]; C]);
   ("NegFusedMulAddCUDA", MCall "-" [C; MCall "*" [A; B]]);
   ("NegFusedMulSubCUDA", MCall "unary-" [MCall "+" [MCall "*" [A; B]; C]]);
   ("SqrtCUDA", MCall "sqrt" [A]);
   ("ExpCUDA", MCall "exp" [A]);
   ("SinCUDA", MCall "sin" [A]);
   ("CosCUDA", MCall "cos" [A])].
Definition macros_cuda (nvcc : bool) : dict mex := if nvcc then macros_nvcc else macros_no_nvcc.

(** What the intrinsics do to each lane (vendor documentation; SVML for exp, sin and cos). *)
Inductive opcode : Type :=
| OAdd | OSub | OMul | ODiv | ONeg | OSqrt | OExp | OSin | OCos | OAbs | OFmadd | OFmsub | OFnmadd | OFnmsub.
Definition vendor_ops : dict opcode :=
  [("add", OAdd); ("sub", OSub); ("mul", OMul); ("div", ODiv); ("sqrt", OSqrt); ("exp", OExp); ("sin", OSin);
   ("cos", OCos); ("fmadd", OFmadd); ("fmsub", OFmsub); ("fnmadd", OFnmadd); ("fnmsub", OFnmsub)].
Definition opcodes : dict opcode :=
  flat_map (fun p => map (fun kv => (p ++ fst kv ++ "_pd", snd kv)%string) vendor_ops) ["_mm512_"; "_mm256_"; "_mm_"] ++
  [("_mm512_and_pd,0x7FFFFFFFFFFFFFFF", OAbs); ("_mm256_andnot_pd,-0.0", OAbs); ("_mm_andnot_pd,-0.0", OAbs);
   ("+", OAdd); ("-", OSub); ("*", OMul); ("/", ODiv); ("unary-", ONeg); ("fabs", OAbs); ("sqrt", OSqrt);
   ("exp", OExp); ("sin", OSin); ("cos", OCos);
   ("__dadd_rn", OAdd); ("__dsub_rn", OSub); ("__dmul_rn", OMul); ("__ddiv_rn", ODiv); ("__fma_rn", OFmadd);
   ("__dsqrt_rn", OSqrt)].
Definition opcode_of (s : string) : option opcode := dget s opcodes.
Definition op_arity (o : opcode) : nat :=
  match o with
  | OAdd | OSub | OMul | ODiv => 2
  | ONeg | OSqrt | OExp | OSin | OCos | OAbs => 1
  | OFmadd | OFmsub | OFnmadd | OFnmsub => 3
  end.

(** The number of parameters in the #define: the parameters all occur in the bodies. *)
Fixpoint params (e : mex) : nat :=
  match e with
  | MArg k => S k
  | MLit _ => 0
  | MCall _ l => (fix go l := match l with [] => 0 | x :: r => Nat.max (params x) (go r) end) l
  end.

(** The macro a generated function call is printed as: simd.py names the functions like this
    (Function("AddSIMD") ..., l.255-275), and C code printing keeps those names. *)
Definition un_name (u : un) : string :=
  match u with Abs => "Abs" | Exp => "Exp" | Log => "Log" | Sin => "Sin" | Cos => "Cos" | Sign => "Sign" end.
Definition c_name (suffix : string) (f : fname) : option string :=
  match f with
  | SAdd => Some ("Add" ++ suffix)%string
  | SSub => Some ("Sub" ++ suffix)%string
  | SMul => Some ("Mul" ++ suffix)%string
  | SDiv => Some ("Div" ++ suffix)%string
  | SFMA => Some ("FusedMulAdd" ++ suffix)%string
  | SFMS => Some ("FusedMulSub" ++ suffix)%string
  | SNFMA => Some ("NegFusedMulAdd" ++ suffix)%string
  | SNFMS => Some ("NegFusedMulSub" ++ suffix)%string
  | SPow => Some ("Pow" ++ suffix)%string
  | SSqrt => Some ("Sqrt" ++ suffix)%string
  | SCbrt => Some ("Cbrt" ++ suffix)%string
  | SUn u => Some (un_name u ++ suffix)%string
  | _ => None
  end.

Section Eval.
(** The arithmetic of one lane. *)
Variables (F : Type) (sem : opcode -> list F -> F) (lit : Z -> F).

(** Expanding a macro on one lane: arguments, then the body; a call of a name that is neither an intrinsic nor a
    macro, or with a wrong number of arguments, does not compile.  Macros call macros to depth 2 at most. *)
Fixpoint all_some {X : Type} (l : list (option X)) : option (list X) :=
  match l with
  | [] => Some []
  | Some x :: r => option_map (cons x) (all_some r)
  | None :: _ => None
  end.
Fixpoint expand (fuel : nat) (m : dict mex) (args : list F) (e : mex) {struct fuel} : option F :=
  match fuel with
  | O => None
  | S n =>
      match e with
      | MArg k => nth_error args k
      | MLit z => Some (lit z)
      | MCall f l =>
          match all_some (map (expand n m args) l) with
          | None => None
          | Some vs =>
              match opcode_of f with
              | Some o => if Nat.eqb (List.length vs) (op_arity o) then Some (sem o vs) else None
              | None => match dget f m with
                        | Some body => if Nat.eqb (List.length vs) (params body) then expand n m vs body else None
                        | None => None
                        end
              end
          end
      end
  end.
(** The call  f(args)  in the generated code, one lane. *)
Definition call (m : dict mex) (suffix : string) (f : fname) (args : list F) : option F :=
  match c_name suffix f with
  | None => None
  | Some s => match dget s m with
              | Some body => if Nat.eqb (List.length args) (params body) then expand 8 m args body else None
              | None => None
              end
  end.

(** Vectors of [w] lanes: every intrinsic acts on each lane separately. *)
Definition lane (i : nat) (dflt : F) (v : list F) : F := nth i v dflt.
Definition vcall (m : dict mex) (suffix : string) (w : nat) (dflt : F) (f : fname) (args : list (list F)) : option (list F) :=
  all_some (map (fun i => call m suffix f (map (lane i dflt) args)) (seq 0 w)).
(** A generated right-hand side: symbols are vectors, every node is a macro call; numbers do not occur (they have been
    replaced by ConstSIMD symbols). *)
Fixpoint veval (m : dict mex) (suffix : string) (w : nat) (dflt : F) (rho : string -> list F) (e : sexpr) : option (list F) :=
  match e with
  | Atom (Sym s) => Some (rho s)
  | Atom _ => None
  | App f l => match all_some (map (veval m suffix w dflt rho) l) with
               | Some vs => vcall m suffix w dflt f vs
               | None => None
               end
  end.

(** ReadSIMD(&mem[a]), WriteSIMD(&mem[a], v), ConstSIMD(x): l.20-24, l.77-81, l.135-139, l.205, l.225-226 *)
Definition read_simd (w : nat) (mem : nat -> F) (a : nat) : list F := map (fun i => mem (a + i)%nat) (seq 0 w).
Definition write_simd (mem : nat -> F) (a : nat) (v : list F) : nat -> F :=
  fun j => if (a <=? j)%nat && (j <? a + List.length v)%nat then nth (j - a) v (mem j) else mem j.
Definition const_simd (w : nat) (x : F) : list F := repeat x w.

(** HorizAddSIMD, l.50, l.117-123, l.183-187, l.191-196, l.237.  _mm512_reduce_add_pd adds halves. *)
Definition pair_add (u v : list F) : list F := map (fun p => sem OAdd [fst p; snd p]) (combine u v).
Definition horiz_add (b : branch) (dflt : F) (v : list F) : F :=
  match b with
  | BAVX512 =>
      let q := pair_add (firstn 4 v) (skipn 4 v) in
      let h := pair_add (firstn 2 q) (skipn 2 q) in
      sem OAdd [nth 0 h dflt; nth 1 h dflt]
  | BAVX _ =>
      let low := firstn 2 v in
      let high := skipn 2 v in
      let sum_128 := pair_add low high in
      sem OAdd [nth 0 sum_128 dflt; nth 0 [nth 1 sum_128 dflt; nth 1 sum_128 dflt] dflt]
  | BSSE2 _ true =>
      let sum_128 := [sem OAdd [nth 0 v dflt; nth 1 v dflt]; sem OAdd [nth 0 v dflt; nth 1 v dflt]] in
      nth 0 sum_128 dflt
  | BSSE2 _ false =>
      let temp := [nth 1 v dflt; nth 0 v dflt] in
      nth 0 (pair_add v temp) dflt
  | BScalar => nth 0 v dflt
  end.
End Eval.

(** ** Bit patterns: binary64 *)
Definition decode (w : Z) : spec_float :=
  let s := Z.testbit w 63 in
  let e := Z.land (Z.shiftr w 52) 2047 in
  let m := Z.land w (2 ^ 52 - 1) in
  if (e =? 0)%Z then match m with Zpos p => S754_finite s p (-1074) | _ => S754_zero s end
  else if (e =? 2047)%Z then match m with Zpos _ => S754_nan | _ => S754_infinity s end
  else match (m + 2 ^ 52)%Z with Zpos p => S754_finite s p (e - 1075) | _ => S754_nan end.
Definition all_ones : Z := (2 ^ 64 - 1)%Z.
Definition word_one : Z := 0x3FF0000000000000%Z.      (* 1.0 *)
Definition word_mzero : Z := 0x8000000000000000%Z.    (* -0.0 *)
Definition f_add := SFadd 53 1024.
Definition f_sub := SFsub 53 1024.
Definition f_mul := SFmul 53 1024.

(** AbsSIMD on one lane, l.45, l.74, l.132, l.206 *)
Definition abs_word (b : branch) (w : Z) : Z :=
  match b with
  | BAVX512 => Z.land w 0x7FFFFFFFFFFFFFFF
  | BAVX _ | BSSE2 _ _ => Z.ldiff w word_mzero     (* andnot(m, w) = ~m & w *)
  | BScalar => if Z.testbit w 63 then (w - 2 ^ 63)%Z else w   (* fabs clears the sign bit *)
  end.
(** UPWIND_ALG on one lane, l.55, l.71, l.157, l.232, with upwind_Integer_0/1 = ConstSIMD(0.0), ConstSIMD(1.0)
    (c_codegen.py l.1083-1086).  The comparison is ordered and quiet: false for NaN; true lanes are all ones. *)
Definition cmp_gt (x y : spec_float) : bool := SFltb y x.
Definition upwind_alg (b : branch) (w : Z) : spec_float :=
  match b with
  | BAVX512 => if cmp_gt (decode w) (decode 0) then f_add (decode 0) (decode word_one) else decode 0
  | BAVX _ | BSSE2 _ _ =>
      decode (Z.land (if cmp_gt (decode w) (decode 0) then all_ones else 0) word_one)
  | BScalar => if cmp_gt (decode w) (decode 0) then decode word_one else decode 0
  end.

(** Arithmetic of one lane in binary64 (round to nearest); the fused operations round once and are not
    needed here. *)
Definition float_sem (o : opcode) (l : list spec_float) : spec_float :=
  match o, l with
  | OAdd, [a; b] => f_add a b
  | OSub, [a; b] => f_sub a b
  | OMul, [a; b] => f_mul a b
  | ONeg, [a] => SFopp a
  | OAbs, [a] => SFabs a
  | _, _ => S754_nan
  end.
