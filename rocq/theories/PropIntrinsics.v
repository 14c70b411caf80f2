(** Headline theorems for the SIMD and CUDA macros (C55).
    Specification vocabulary: [value], [fval], [laws] (SimdFacts.v): the meaning of an expression in a field;
    [field_sem]: what one instruction computes on one lane in exact arithmetic; [available f]: the number of
    arguments with which the call compiles; [faulty]: the one macro that is wrong; [macro_expr]: only
    available calls; [positive_float]: greater than zero. *)
From Coq Require Import String Ascii List ZArith Bool QArith Qcanon Lia Field Ring Permutation Floats.SpecFloat.
From Verif Require Import PyBase PyBaseFacts QcLib ExprTree ExprTreeFacts Simd SimdFacts PropSimd Intrinsics IntrinsicsFacts.
Import ListNotations.
Open Scope list_scope.
Open Scope nat_scope.

(** Every macro, whatever the compiler's flags, in every field: a call that compiles computes the
    function the SIMD conversion means, except NegFusedMulSubSIMD with SSE2 and FMA. *)
Theorem C55_macros : forall (F : Type) (fO fI : F) fadd fmul fsub fdiv fopp finv,
  field_theory fO fI fadd fmul fsub fopp fdiv finv (@eq F) ->
  forall (I : interp F) t f args v, ~ faulty (branch_of t) f ->
  call F (field_sem F fO fadd fmul fsub fdiv fopp I) (field_lit F fO fI fopp) (macros (branch_of t)) "SIMD" f args = Some v ->
  v = fval F fO fI fadd fmul fsub fdiv fopp I f args.
Proof. intros F fO fI fadd fmul fsub fdiv fopp finv Fth I t f args v N H. eapply call_value; eauto. Qed.

Theorem C55_cuda_macros : forall (F : Type) (fO fI : F) fadd fmul fsub fdiv fopp finv,
  field_theory fO fI fadd fmul fsub fopp fdiv finv (@eq F) ->
  forall (I : interp F) nvcc f args v,
  call F (field_sem F fO fadd fmul fsub fdiv fopp I) (field_lit F fO fI fopp) (macros_cuda nvcc) "CUDA" f args = Some v ->
  v = fval F fO fI fadd fmul fsub fdiv fopp I f args.
Proof. intros F fO fI fadd fmul fsub fdiv fopp finv Fth I t f args v H. eapply call_value_cuda; eauto. Qed.

(** Which calls compile does not depend on the flags. *)
Theorem C55_defined : forall (F : Type) (sem : opcode -> list F -> F) lit t f args,
  call F sem lit (macros (branch_of t)) "SIMD" f args <> None <-> available f = Some (List.length args).
Proof. intros. apply call_defined. Qed.

(** Every vector instruction of a branch works on that branch's vector type. *)
Fixpoint calls (e : mex) : list string :=
  match e with
  | MArg _ | MLit _ => []
  | MCall f l => f :: (fix go l := match l with [] => [] | x :: r => calls x ++ go r end) l
  end.
Definition type_prefix (b : branch) : string :=
  match b with BAVX512 => "_mm512_" | BAVX _ => "_mm256_" | BSSE2 _ _ => "_mm_" | BScalar => "" end.
Theorem C55_vector_type : forall t s body g, dget s (macros (branch_of t)) = Some body -> In g (calls body) ->
  exists r, g = (type_prefix (branch_of t) ++ r)%string.
Proof.
  intros t s body g H Hg. apply dget_In in H.
  assert (A : Forall (fun kv => Forall (fun g => prefix (type_prefix (branch_of t)) g = true) (calls (snd kv)))
                (macros (branch_of t))).
  { destruct (branch_of t) as [|[]|[]|]; repeat (constructor; [repeat (constructor; [reflexivity|]); constructor|]); constructor. }
  rewrite Forall_forall in A. specialize (A _ H). rewrite Forall_forall in A. apply A in Hg.
  clear -Hg. revert g Hg. induction (type_prefix (branch_of t)) as [|c p IH]; intros g Hg; [exists g; reflexivity|].
  destruct g as [|c' g]; cbn [prefix] in Hg; [discriminate|]. destruct (ascii_dec c c') as [->|]; [|discriminate].
  destruct (IH g Hg) as [r ->]. exists r. reflexivity.
Qed.

(** The compiled right-hand side: lane i of the result is the value of the original expression with
    every symbol replaced by lane i of its vector. *)
Theorem C55_kernel : forall (F : Type) (fO fI : F) fadd fmul fsub fdiv fopp finv,
  field_theory fO fI fadd fmul fsub fopp fdiv finv (@eq F) ->
  forall I, laws F fI fmul fdiv fopp I ->
  forall canon, (forall l, Permutation (canon l) l) ->
  forall fuel pre more d e t v (rho : string -> list F) (dflt : F),
  let b := branch_of t in
  let w := simd_width b in
  let rhs := snd (convert canon fuel pre more d e) in
  (forall s, List.length (rho s) = w) ->
  rho (pre ++ "_Integer_1")%string = const_simd F w fI ->
  (forall s q, dget s d = Some q -> rho s = const_simd F w (i_const F I q)) ->
  no_zero_power d e -> nodup_sums (snd (step1 canon fuel pre d e)) ->
  (forall s, b = BSSE2 true s -> ~ uses SNFMS rhs) ->
  veval F (field_sem F fO fadd fmul fsub fdiv fopp I) (field_lit F fO fI fopp) (macros b) "SIMD" w dflt rho rhs = Some v ->
  List.length v = w /\
  forall i, i < w -> nth i v dflt = value F fO fI fadd fmul fsub fdiv fopp I (fun s => nth i (rho s) dflt) e.
Proof.
  intros F fO fI fadd fmul fsub fdiv fopp finv Fth I L canon CP fuel pre more d e t v rho dflt b w rhs Hr H1 Hd Hz Hs Hf E.
  assert (Hw : 0 < w) by (unfold w; destruct b; cbn; lia).
  assert (M : macro_expr rhs) by (eapply veval_macro_expr; eauto).
  destruct (veval_lanes F (field_sem F fO fadd fmul fsub fdiv fopp I) (field_lit F fO fI fopp) (macros b) "SIMD" w dflt
    (fval F fO fI fadd fmul fsub fdiv fopp I) (fun f => ~ faulty b f)) with (rho := rho) (e := rhs) (v := v) as [Lv V]; auto.
  - intros f args u G C. eapply call_value; eauto.
  - intros f l Hsub [[s Es] ->]. apply (Hf s Es). exists l. auto.
  - split; auto. intros i Hi. rewrite V by auto. rewrite value_lane by auto.
    assert (Cn : forall x, nth i (const_simd F w x) dflt = x).
    { intros x. unfold const_simd. rewrite (nth_indep _ dflt x) by (rewrite repeat_length; auto). apply nth_repeat. }
    unfold rhs. eapply C28_value; eauto.
    + cbn beta. rewrite H1. apply Cn.
    + intros s q Hq. cbn beta. rewrite (Hd s q Hq). apply Cn.
Qed.

(** It compiles if, and only if, only available calls occur. *)
Theorem C55_compiles : forall (F : Type) (sem : opcode -> list F -> F) lit t (rho : string -> list F) dflt e,
  veval F sem lit (macros (branch_of t)) "SIMD" (simd_width (branch_of t)) dflt rho e <> None <-> macro_expr e.
Proof.
  intros F sem lit t rho dflt e. split.
  - destruct (veval _ _ _ _ _ _ _ _ e) as [v|] eqn:E; [|congruence]. intros _.
    apply (fun H => veval_macro_expr F sem lit _ _ dflt rho e v H E). destruct (branch_of t); cbn; lia.
  - apply veval_total. intros f args A. now apply call_defined.
Qed.

(** Loads and stores: writing a vector computed lane by lane from loaded vectors changes exactly the
    [w] cells from [a] on, cell a+i getting lane i; lane i of a load is cell a+i. *)
Theorem C55_load_store : forall (F : Type) w (mem : nat -> F) a a' v dflt, List.length v = w ->
  (forall i, i < w -> nth i (read_simd F w mem a') dflt = mem (a' + i)) /\
  List.length (read_simd F w mem a') = w /\
  (forall i, i < w -> write_simd F mem a v (a + i) = nth i v dflt) /\
  (forall j, j < a \/ a + w <= j -> write_simd F mem a v j = mem j) /\
  read_simd F w (write_simd F mem a v) a = v.
Proof.
  intros F w mem a a' v dflt L.
  assert (W : forall i, i < w -> write_simd F mem a v (a + i) = nth i v dflt).
  { intros i Hi. rewrite (write_simd_spec F mem a v dflt).
    replace ((a <=? a + i) && (a + i <? a + List.length v)) with true.
    - f_equal. lia.
    - symmetry. apply andb_true_iff. split; [apply Nat.leb_le|apply Nat.ltb_lt]; lia. }
  split; [|split; [|split; [|split]]]; auto.
  - intros i Hi. now apply read_simd_lane.
  - apply read_simd_length.
  - intros j Hj. rewrite (write_simd_spec F mem a v dflt).
    replace ((a <=? j) && (j <? a + List.length v)) with false; auto.
    symmetry. apply andb_false_iff. destruct Hj; [left; apply Nat.leb_gt|right; apply Nat.ltb_ge]; lia.
  - apply (nth_ext _ _ dflt dflt); rewrite read_simd_length; auto. intros i Hi. rewrite read_simd_lane by auto. auto.
Qed.

(** The horizontal sum is the sum of the lanes (in exact arithmetic, whatever the order of additions). *)
Theorem C55_horizontal_sum : forall (F : Type) (fO fI : F) fadd fmul fsub fdiv fopp finv,
  field_theory fO fI fadd fmul fsub fopp fdiv finv (@eq F) ->
  forall I t v dflt, List.length v = simd_width (branch_of t) ->
  horiz_add F (field_sem F fO fadd fmul fsub fdiv fopp I) (branch_of t) dflt v = fold_right fadd fO v.
Proof.
  intros F fO fI fadd fmul fsub fdiv fopp finv Fth I t v dflt L. eapply horiz_value; eauto.
Qed.

(** The absolute value: on every 64-bit word, including zeros, infinities and NaNs. *)
Theorem C55_abs : forall t w, word w ->
  word (abs_word (branch_of t) w) /\ decode (abs_word (branch_of t) w) = SFabs (decode w).
Proof.
  intros t w H. rewrite abs_word_mod by auto. split; [|now apply decode_abs].
  unfold word. pose proof (Z.mod_pos_bound w (2 ^ 63) ltac:(lia)). lia.
Qed.

(** The upwind switch: 1.0 for words that denote a number above zero, 0.0 for all others (negative numbers, both
    zeros, NaN). *)
Theorem C55_upwind : forall t w,
  upwind_alg (branch_of t) w =
  if positive_float (decode w) then S754_finite false 4503599627370496 (-52) else S754_zero false.
Proof.
  intros t w. destruct (branch_of t); cbn [upwind_alg]; rewrite cmp_gt_zero; destruct (positive_float (decode w)); reflexivity.
Qed.

(** ** Examples *)
Definition t_avx2 : target := MkT false true true true true false.
Definition t_sse : target := MkT false false true false true false.
Definition t_sse_fma : target := MkT false false true true true false.
Definition t_plain : target := MkT false false false false false false.
Definition t_512 : target := MkT true true true true true false.
Definition qcall (t : target) (f : fname) (l : list Qc) : option Q :=
  option_map this (call Qc (field_sem Qc 0%Qc Qcplus Qcmult Qcminus Qcdiv Qcopp q_interp) (field_lit Qc 0%Qc 1%Qc Qcopp)
    (macros (branch_of t)) "SIMD" f l).
Example C55_ex_branches :
  map branch_of [t_512; t_avx2; t_sse; t_sse_fma; t_plain] =
    [BAVX512; BAVX true; BSSE2 false true; BSSE2 true true; BScalar] /\
  map (fun t => simd_width (branch_of t)) [t_512; t_avx2; t_sse; t_plain] = [8; 4; 2; 1].
Proof. split; reflexivity. Qed.
Example C55_ex_macros :
  map (fun t => qcall t SNFMS [qz 2; qz 3; qz 5]) [t_512; t_avx2; t_sse; t_plain] = repeat (Some (-11 # 1)) 4 /\
  map (fun t => qcall t SNFMA [qz 2; qz 3; qz 5]) [t_512; t_avx2; t_sse; t_sse_fma; t_plain] = repeat (Some (-1 # 1)) 5 /\
  qcall t_avx2 (SUn Log) [qz 2] = None.
Proof. repeat split; vm_compute; reflexivity. Qed.
Example C55_ex_cuda : forall nvcc,
  option_map this (call Qc (field_sem Qc 0%Qc Qcplus Qcmult Qcminus Qcdiv Qcopp q_interp) (field_lit Qc 0%Qc 1%Qc Qcopp)
    (macros_cuda nvcc) "CUDA" SFMS [qz 2; qz 3; qz 5]) = Some (1 # 1).
Proof. intros []; vm_compute; reflexivity. Qed.
Example C55_ex_vector_type :
  exists body, dget "NegFusedMulSubSIMD"%string (macros (branch_of t_sse)) = Some body /\
    calls body = ["_mm_sub_pd"; "_mm_add_pd"; "_mm_add_pd"; "_mm_mul_pd"]%string.
Proof. eexists; split; reflexivity. Qed.

(** The expression of C28's example on four lanes. *)
Definition lanes_rho (w : nat) (s : string) : list Qc :=
  if String.eqb s "p_NegativeOne_" then const_simd Qc w minus_one
  else if String.eqb s "p_Integer_m2" then const_simd Qc w (qz (-2))
  else if String.eqb s "p_Integer_1" then const_simd Qc w 1%Qc
  else map (fun i => qz (Z.of_nat (i + String.length s + 6))) (seq 0 w).
Definition qveval (t : target) : option (list Q) :=
  option_map (map this) (veval Qc (field_sem Qc 0%Qc Qcplus Qcmult Qcminus Qcdiv Qcopp q_interp)
    (field_lit Qc 0%Qc 1%Qc Qcopp) (macros (branch_of t)) "SIMD" (simd_width (branch_of t)) 0%Qc
    (lanes_rho (simd_width (branch_of t))) (snd (convert keep 20 "p" true ex_dict ex_expr))).
Example C55_ex_kernel :
  (forall t s, List.length (lanes_rho (simd_width (branch_of t)) s) = simd_width (branch_of t)) /\
  (forall t s q, dget s ex_dict = Some q ->
     lanes_rho (simd_width (branch_of t)) s = const_simd Qc (simd_width (branch_of t)) q) /\
  no_zero_power ex_dict ex_expr /\ nodup_sums (snd (step1 keep 20 "p" ex_dict ex_expr)) /\
  qveval t_avx2 = Some [-342 # 49; -511 # 64; -728 # 81; -999 # 100]%Q /\
  qveval t_sse_fma = Some [-342 # 49; -511 # 64]%Q /\
  map this (map (fun i => qval (fun s => nth i (lanes_rho 4 s) 0%Qc) ex_expr) [0; 1; 2; 3]) =
    [-342 # 49; -511 # 64; -728 # 81; -999 # 100]%Q.
Proof.
  split; [|split; [|split; [|split; [|split; [|split]]]]].
  - intros t s. unfold lanes_rho, const_simd. repeat (destruct (String.eqb s _); [apply repeat_length|]).
    now rewrite map_length, seq_length.
  - intros t s q. cbn [ex_dict dget]. unfold lanes_rho.
    destruct (String.eqb_spec s "p_NegativeOne_") as [->|]; [intros [= <-]; reflexivity|].
    destruct (String.eqb_spec s "p_Integer_m2") as [->|]; [intros [= <-]; reflexivity|discriminate].
  - apply no_zero_check; vm_compute; reflexivity.
  - apply sums_ok_spec; vm_compute; reflexivity.
  - vm_compute; reflexivity.
  - vm_compute; reflexivity.
  - vm_compute; reflexivity.
Qed.
Example C55_ex_store :
  map (write_simd nat (fun j => 100 + j) 3 [7; 8]) (seq 0 7) = [100; 101; 102; 7; 8; 105; 106] /\
  read_simd nat 4 (fun j => j * j) 2 = [4; 9; 16; 25].
Proof. split; reflexivity. Qed.
Example C55_ex_horizontal : forall b, In b [BAVX512; BAVX true; BSSE2 false true; BSSE2 false false; BScalar] ->
  this (horiz_add Qc (field_sem Qc 0%Qc Qcplus Qcmult Qcminus Qcdiv Qcopp q_interp) b 0%Qc
    (map (fun i => qz (Z.of_nat (i * i + 1))) (seq 0 (simd_width b)))) =
  inject_Z (match b with BAVX512 => 148 | BAVX _ => 18 | BSSE2 _ _ => 3 | BScalar => 1 end).
Proof. intros b [<-|[<-|[<-|[<-|[<-|[]]]]]]; vm_compute; reflexivity. Qed.
(** -2.5, -0.0, -infinity and a NaN with the sign bit *)
Example C55_ex_bits :
  map (fun w => decode (abs_word (BAVX false) w)) [0xC004000000000000; 0x8000000000000000; 0xFFF0000000000000; 0xFFF8000000000001]%Z
    = [S754_finite false 5629499534213120 (-51); S754_zero false; S754_infinity false; S754_nan] /\
  map (upwind_alg (BAVX false)) [0xC004000000000000; 0x8000000000000000; 0x7FF0000000000000; 0x7FF8000000000001; 1]%Z =
    map decode [0; 0; word_one; 0; word_one]%Z.
Proof. split; vm_compute; reflexivity. Qed.

(** ** Refuted *)
(** With SSE2 and FMA, NegFusedMulSubSIMD(a, b, c) is a*b - c instead of -a*b - c. *)
Theorem C55_sse2_fma_refuted : forall sse3 (a b c : Qc), let t := MkT false false true true sse3 false in
  call Qc (field_sem Qc 0%Qc Qcplus Qcmult Qcminus Qcdiv Qcopp q_interp) (field_lit Qc 0%Qc 1%Qc Qcopp)
    (macros (branch_of t)) "SIMD" SNFMS [a; b; c] = Some (a * b - c)%Qc /\
  (a * b - c = fval Qc 0%Qc 1%Qc Qcplus Qcmult Qcminus Qcdiv Qcopp q_interp SNFMS [a; b; c] <-> a * b = 0)%Qc.
Proof.
  intros sse3 a b c t. split.
  - cbv - [Qcplus Qcmult Qcminus Qcopp]. f_equal. ring.
  - cbn [fval]. split; intros H.
    + assert (E : (a * b + a * b = 0)%Qc).
      { replace (a * b + a * b)%Qc with ((a * b - c) - (- (a * b) - c))%Qc by ring. rewrite H. ring. }
      assert (T : (qz 2 * (a * b) = 0)%Qc) by (replace (qz 2) with (1 + 1)%Qc by reflexivity; rewrite <- E; ring).
      apply Qcmult_integral in T. destruct T as [T|T]; auto. apply (f_equal this) in T. discriminate T.
    + rewrite H. ring.
Qed.
(** Without FMA (AVX or SSE2) the formula c - (c + (a*b + c)) overflows although the result is a number:
    a = b = 0, c = 2^1023; the scalar macro gives -2^1023. *)
Theorem C55_unfused_overflow_refuted :
  let c := S754_finite false 4503599627370496 971 in
  let z := S754_zero false in
  let run b := call spec_float float_sem (fun _ => z) (macros b) "SIMD" SNFMS [z; z; c] in
  run (BAVX false) = Some (S754_infinity true) /\ (forall sse3, run (BSSE2 false sse3) = Some (S754_infinity true)) /\
  run BScalar = Some (SFopp c) /\ decode 0x7FE0000000000000 = c.
Proof. repeat split; vm_compute; reflexivity. Qed.
(** Converted expressions may call macros that no branch defines. *)
Theorem C55_undefined_macros_refuted : forall (F : Type) (sem : opcode -> list F -> F) lit t rho dflt e,
  In e [App (FUn Log) [y "x"]; App (FUn Sign) [y "x"]; App FPow [y "x"; Atom (Rat third)]; App FPow [y "x"; y "y"]] ->
  veval F sem lit (macros (branch_of t)) "SIMD" (simd_width (branch_of t)) dflt rho (snd (convert keep 20 "p" true [] e)) = None.
Proof.
  intros F sem lit t rho dflt e H.
  destruct (veval _ _ _ _ _ _ _ _ _) as [v|] eqn:E; auto.
  assert (M : macro_expr (snd (convert keep 20 "p" true [] e))).
  { eapply (proj1 (C55_compiles F sem lit t rho dflt _)). rewrite E. discriminate. }
  exfalso. cbn [In] in H. destruct H as [<-|[<-|[<-|[<-|[]]]]]; vm_compute in M; destruct M as [M _]; discriminate M.
Qed.

(** the arithmetic of the refutation has 53 bits: 1 + 2^-53 is 1, 1 - 2^-53 is not, and (1 + 2^-52)^2 is 1 + 2^-51 *)
Example ex_C55_binary64 : let one := S754_finite false 4503599627370496 (-52) in let tiny := S754_finite false 4503599627370496 (-105) in let next := S754_finite false 4503599627370497 (-52) in
  f_add one tiny = one /\ f_sub one tiny = S754_finite false 9007199254740991 (-53) /\ f_mul next next = S754_finite false 4503599627370498 (-52) /\ f_add next tiny = S754_finite false 4503599627370498 (-52).
Proof. repeat split; vm_compute; reflexivity. Qed.
Print Assumptions C55_macros.
Print Assumptions C55_cuda_macros.
Print Assumptions C55_defined.
Print Assumptions C55_vector_type.
Print Assumptions C55_kernel.
Print Assumptions C55_compiles.
Print Assumptions C55_load_store.
Print Assumptions C55_horizontal_sum.
Print Assumptions C55_abs.
Print Assumptions C55_upwind.
Print Assumptions C55_sse2_fma_refuted.
Print Assumptions C55_unfused_overflow_refuted.
Print Assumptions C55_undefined_macros_refuted.
