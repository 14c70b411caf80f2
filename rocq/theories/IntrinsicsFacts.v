(** Specification vocabulary and proofs for the SIMD macros (model: Intrinsics.v). *)
From Coq Require Import String List ZArith Bool QArith Qcanon Lia Field Ring Permutation Floats.SpecFloat.
From Verif Require Import PyBase PyBaseFacts QcLib ExprTree ExprTreeFacts Simd SimdFacts Intrinsics.
Import ListNotations.
Open Scope list_scope.
Open Scope nat_scope.

Lemma all_some_spec : forall (X : Type) (l : list (option X)) vs, all_some l = Some vs <-> l = map Some vs.
Proof.
  intros X l; induction l as [|[x|] l IH]; intros [|v vs]; cbn [all_some map]; split; intros H; try discriminate; auto.
  - destruct (all_some l); discriminate.
  - destruct (all_some l) as [ws|] eqn:E; [|discriminate]. cbn in H. injection H as -> ->.
    f_equal. now apply IH.
  - injection H as -> H. apply IH in H. rewrite H. reflexivity.
Qed.

Section Field.
Variables (F : Type) (fO fI : F) (fadd fmul fsub fdiv : F -> F -> F) (fopp finv : F -> F).
Hypothesis Fth : field_theory fO fI fadd fmul fsub fopp fdiv finv (@eq F).
Add Field Ff : Fth.
Variable I : interp F.
Notation fv := (fval F fO fI fadd fmul fsub fdiv fopp I).

(** What the instructions compute, in exact arithmetic. *)
Definition field_sem (o : opcode) (l : list F) : F :=
  match o, l with
  | OAdd, [a; b] => fadd a b
  | OSub, [a; b] => fsub a b
  | OMul, [a; b] => fmul a b
  | ODiv, [a; b] => fdiv a b
  | ONeg, [a] => fopp a
  | OSqrt, [a] => i_sqrt F I a
  | OExp, [a] => i_un F I Exp [a]
  | OSin, [a] => i_un F I Sin [a]
  | OCos, [a] => i_un F I Cos [a]
  | OAbs, [a] => i_un F I Abs [a]
  | OFmadd, [a; b; c] => fadd (fmul a b) c
  | OFmsub, [a; b; c] => fsub (fmul a b) c
  | OFnmadd, [a; b; c] => fadd (fopp (fmul a b)) c
  | OFnmsub, [a; b; c] => fsub (fopp (fmul a b)) c
  | _, _ => fO
  end.
(** The only literal of the headers is -1.0. *)
Definition field_lit (z : Z) : F := if (z =? -1)%Z then fopp fI else fO.

(** The pair of macros that computes something else. *)
Definition faulty (b : branch) (f : fname) : Prop := (exists s, b = BSSE2 true s) /\ f = SNFMS.

Ltac args_cases args :=
  destruct args as [|? args]; [|destruct args as [|? args]; [|destruct args as [|? args]; [|destruct args as [|? args]]]].
Lemma call_value : forall b f args v, ~ faulty b f ->
  call F field_sem field_lit (macros b) "SIMD" f args = Some v -> v = fv f args.
Proof.
  intros b f args v N H. args_cases args;
  (destruct b as [|fma|fma s|]; try destruct fma; destruct f as [| | |u|o| | | | | | | | | | | |u]; try destruct u;
   vm_compute in H; try discriminate H; injection H as <-;
   try (exfalso; apply N; split; [eexists|]; reflexivity);
   cbn [fval vsum vprod fold_right]; try reflexivity; ring).
Qed.
Lemma call_value_cuda : forall nvcc f args v,
  call F field_sem field_lit (macros_cuda nvcc) "CUDA" f args = Some v -> v = fv f args.
Proof.
  intros b f args v H. args_cases args;
  (destruct b; destruct f as [| | |u|o| | | | | | | | | | | |u]; try destruct u;
   vm_compute in H; try discriminate H; injection H as <-;
   cbn [fval vsum vprod fold_right]; try reflexivity; ring).
Qed.
Lemma horiz_value : forall b v dflt, List.length v = simd_width b ->
  horiz_add F field_sem b dflt v = fold_right fadd fO v.
Proof.
  intros b v dflt L. destruct b as [|fma|fma []|]; cbn [simd_width] in L.
  - destruct v as [|a0 [|a1 [|a2 [|a3 [|a4 [|a5 [|a6 [|a7 [|]]]]]]]]]; try discriminate L. cbn. ring.
  - destruct v as [|a0 [|a1 [|a2 [|a3 [|]]]]]; try discriminate L. cbn. ring.
  - destruct v as [|a0 [|a1 [|]]]; try discriminate L. cbn. ring.
  - destruct v as [|a0 [|a1 [|]]]; try discriminate L. cbn. ring.
  - destruct v as [|a0 [|]]; try discriminate L. cbn. ring.
Qed.
End Field.

(** ** Which calls compile *)
Definition available (f : fname) : option nat :=
  match f with
  | SAdd | SSub | SMul | SDiv => Some 2
  | SFMA | SFMS | SNFMA | SNFMS => Some 3
  | SSqrt | SUn Abs | SUn Exp | SUn Sin | SUn Cos => Some 1
  | _ => None
  end.
Lemma call_defined : forall (F : Type) (sem : opcode -> list F -> F) lit b f args,
  call F sem lit (macros b) "SIMD" f args <> None <-> available f = Some (List.length args).
Proof.
  intros F sem lit b f args.
  destruct args as [|? args]; [|destruct args as [|? args]; [|destruct args as [|? args]; [|destruct args as [|? args]]]];
  (destruct b as [|fma|fma s|]; try destruct fma; destruct f as [| | |u|o| | | | | | | | | | | |u]; try destruct u;
   vm_compute; split; intros H; (congruence || (intros K; discriminate K) || idtac)).
Qed.

(** ** Expressions whose every node is an available call *)
Fixpoint macro_expr (e : sexpr) : Prop :=
  match e with
  | Atom (Sym _) => True
  | Atom _ => False
  | App f l => available f = Some (List.length l) /\
               (fix go l := match l with [] => True | x :: r => macro_expr x /\ go r end) l
  end.
Lemma macro_expr_app : forall f l, macro_expr (App f l) <-> available f = Some (List.length l) /\ Forall macro_expr l.
Proof.
  intros f l. cbn [macro_expr]. split; intros [H K]; split; auto; clear H.
  - induction l as [|x l IH]; constructor; tauto.
  - induction K; cbn; auto.
Qed.
Definition uses (f : fname) (e : sexpr) : Prop := exists l, subterm (App f l) e.

Section Lanes.
Variables (F : Type) (sem : opcode -> list F -> F) (lit : Z -> F) (m : dict mex) (sfx : string) (w : nat) (d : F).
Variable spec : fname -> list F -> F.
Variable good : fname -> Prop.
Hypothesis Hspec : forall f args v, good f -> call F sem lit m sfx f args = Some v -> v = spec f args.

Fixpoint lane_value (rho : string -> F) (e : sexpr) : F :=
  match e with
  | Atom (Sym s) => rho s
  | Atom _ => d
  | App f l => spec f (map (lane_value rho) l)
  end.
Lemma veval_lanes : forall rho e v, (forall s, List.length (rho s) = w) ->
  (forall f l, subterm (App f l) e -> good f) ->
  veval F sem lit m sfx w d rho e = Some v ->
  List.length v = w /\ forall i, i < w -> nth i v d = lane_value (fun s => nth i (rho s) d) e.
Proof.
  intros rho e v Hr; revert v; induction e as [[s|q|q]|f l IH] using expr_ind2; intros v G H; cbn [veval] in H; try discriminate H.
  - injection H as <-. split; auto.
  - destruct (all_some _) as [vs|] eqn:E; [|discriminate H]. apply all_some_spec in E.
    assert (L : forall i, i < w -> map (lane F i d) vs = map (lane_value (fun s => nth i (rho s) d)) l).
    { intros i Hi. clear H. assert (G' : forall x g k, In x l -> subterm (App g k) x -> good g).
      { intros x g k Hx Hs. apply (G g k). now apply sub_arg with (x := x). }
      clear G. revert vs E. induction IH as [|x l Hx _ IHl]; intros [|u vs] E; try discriminate E; auto.
      cbn [map] in E |- *. injection E as Ex El. f_equal.
      - destruct (Hx u) as [_ K]; [intros g k; apply (G' x g k); left; auto|auto|]. now apply K.
      - apply IHl; auto. intros y g k Hy. apply (G' y g k). right; auto. }
    unfold vcall in H. apply all_some_spec in H.
    assert (Lv : List.length v = w).
    { apply (f_equal (@List.length _)) in H. rewrite !map_length, seq_length in H. auto. }
    split; auto. intros i Hi. cbn [lane_value]. apply Hspec; [apply (G f l), sub_refl|].
    rewrite <- L by auto.
    assert (N : nth_error (map Some v) i = Some (Some (nth i v d))).
    { rewrite nth_error_map, (nth_error_nth' v d) by lia. reflexivity. }
    rewrite <- H, nth_error_map in N.
    assert (Ns : nth_error (seq 0 w) i = Some i).
    { rewrite (nth_error_nth' _ 0) by (rewrite seq_length; lia). now rewrite seq_nth by lia. }
    rewrite Ns in N. cbn in N. now injection N.
Qed.
Lemma veval_total : forall rho e, (forall f args, available f = Some (List.length args) -> call F sem lit m sfx f args <> None) ->
  macro_expr e -> veval F sem lit m sfx w d rho e <> None.
Proof.
  intros rho e Hc; induction e as [[s|q|q]|f l IH] using expr_ind2; intros M; cbn [veval]; try discriminate; try (destruct M).
  assert (A : exists vs, all_some (map (veval F sem lit m sfx w d rho) l) = Some vs /\ List.length vs = List.length l).
  { change ((fix go (l0 : list (expr atom fname)) : Prop := match l0 with [] => True | x :: r => macro_expr x /\ go r end) l) in H0.
    clear H. induction IH as [|x l Hx _ IHl]; [exists []; auto|]. destruct H0 as [Mx Ml].
    destruct IHl as (vs & E & L); auto. cbn [map all_some].
    destruct (veval F sem lit m sfx w d rho x) as [u|]; [|exfalso; now apply Hx].
    exists (u :: vs). rewrite E. split; [reflexivity|cbn; lia]. }
  destruct A as (vs & -> & L). unfold vcall.
  assert (B : forall k, exists r, all_some (map (fun i => call F sem lit m sfx f (map (lane F i d) vs)) (seq k w)) = Some r).
  { clear IH. induction w as [|n IHn]; intros k; [exists []; reflexivity|]. cbn [seq map all_some].
    destruct (call F sem lit m sfx f (map (lane F k d) vs)) as [u|] eqn:C.
    - destruct (IHn (S k)) as [r ->]. eexists; reflexivity.
    - exfalso. revert C. apply Hc. rewrite map_length. congruence. }
  destruct (B 0) as [r ->]. discriminate.
Qed.
End Lanes.

Lemma value_lane : forall (F : Type) fO fI fadd fmul fsub fdiv fopp (I : interp F) d rho e, macro_expr e ->
  lane_value F d (fval F fO fI fadd fmul fsub fdiv fopp I) rho e = value F fO fI fadd fmul fsub fdiv fopp I rho e.
Proof.
  intros F fO fI fadd fmul fsub fdiv fopp I d rho e; induction e as [[s|q|q]|f l IH] using expr_ind2; intros M;
    cbn [lane_value value]; auto; try destruct M.
  f_equal. apply map_ext_in. intros x Hx. rewrite Forall_forall in IH. apply IH; auto.
  assert (M' := proj1 (macro_expr_app f l) (conj H H0)). destruct M' as [_ M']. rewrite Forall_forall in M'. auto.
Qed.

(** A program that compiles consists of available calls. *)
Lemma veval_macro_expr : forall (F : Type) (sem : opcode -> list F -> F) lit b w d rho e v, 0 < w ->
  veval F sem lit (macros b) "SIMD" w d rho e = Some v -> macro_expr e.
Proof.
  intros F sem lit b w d rho e v Hw; revert v; induction e as [[s|q|q]|f l IH] using expr_ind2; intros v H; cbn [veval] in H;
    try discriminate H; [exact Logic.I|]. apply macro_expr_app.
  destruct (all_some _) as [vs|] eqn:E; [|discriminate H]. apply all_some_spec in E. split.
  - unfold vcall in H. destruct w as [|n]; [lia|]. cbn [seq map all_some] in H.
    destruct (call F sem lit (macros b) "SIMD" f (map (lane F 0 d) vs)) as [u|] eqn:C; [|discriminate H].
    assert (D : call F sem lit (macros b) "SIMD" f (map (lane F 0 d) vs) <> None) by congruence.
    apply call_defined in D. rewrite D, map_length. f_equal.
    apply (f_equal (@List.length _)) in E. rewrite !map_length in E. auto.
  - clear H. revert vs E. induction IH as [|x l Hx _ IHl]; intros [|u vs] E; try discriminate E; constructor.
    + injection E as E _. eauto.
    + injection E as _ E. eauto.
Qed.

(** ** Memory *)
Lemma read_simd_lane : forall (F : Type) w (mem : nat -> F) a i d, i < w -> nth i (read_simd F w mem a) d = mem (a + i).
Proof.
  intros F w mem a i d H. unfold read_simd. rewrite (nth_indep _ d (mem (a + 0))) by (rewrite map_length, seq_length; auto).
  change (mem (a + 0)) with ((fun i => mem (a + i)) 0). rewrite map_nth, seq_nth by auto. reflexivity.
Qed.
Lemma read_simd_length : forall (F : Type) w (mem : nat -> F) a, List.length (read_simd F w mem a) = w.
Proof. intros. unfold read_simd. now rewrite map_length, seq_length. Qed.
Lemma write_simd_spec : forall (F : Type) (mem : nat -> F) a v d j,
  write_simd F mem a v j = if (a <=? j) && (j <? a + List.length v) then nth (j - a) v d else mem j.
Proof.
  intros. unfold write_simd. destruct ((a <=? j) && (j <? a + List.length v)) eqn:E; auto.
  apply andb_true_iff in E. destruct E as [E1 E2]. apply Nat.leb_le in E1. apply Nat.ltb_lt in E2.
  apply nth_indep. lia.
Qed.

(** ** Bits *)
Lemma testbit_mod : forall w i, (0 <= i < 63)%Z -> Z.testbit (w mod 2 ^ 63) i = Z.testbit w i.
Proof. intros. rewrite Z.mod_pow2_bits_low by lia. reflexivity. Qed.

Definition word (w : Z) : Prop := (0 <= w < 2 ^ 64)%Z.
Lemma abs_word_mod : forall b w, word w -> abs_word b w = (w mod 2 ^ 63)%Z.
Proof.
  intros b w [H1 H2]. assert (T : forall i, (64 <= i)%Z -> Z.testbit w i = false).
  { intros i Hi. destruct (Z.eq_dec w 0) as [->|N]; [apply Z.testbit_0_l|]. apply Z.bits_above_log2; auto.
    apply Z.log2_lt_pow2; [lia|]. apply Z.lt_le_trans with (2 ^ 64)%Z; auto. apply Z.pow_le_mono_r; lia. }
  assert (M : (w mod 2 ^ 63 = Z.land w (Z.ones 63))%Z) by (rewrite Z.land_ones; lia).
  destruct b as [|f|f s|]; cbn [abs_word].
  - rewrite M. reflexivity.
  - rewrite M. apply Z.bits_inj'. intros i Hi. rewrite Z.ldiff_spec, Z.land_spec.
    change word_mzero with (2 ^ 63)%Z. rewrite Z.pow2_bits_eqb by lia. rewrite Z.testbit_ones_nonneg by lia.
    destruct (Z.eqb_spec 63 i) as [<-|N]; [reflexivity|]. destruct (Z.ltb_spec i 63); [reflexivity|]. rewrite T by lia. reflexivity.
  - rewrite M. apply Z.bits_inj'. intros i Hi. rewrite Z.ldiff_spec, Z.land_spec.
    change word_mzero with (2 ^ 63)%Z. rewrite Z.pow2_bits_eqb by lia. rewrite Z.testbit_ones_nonneg by lia.
    destruct (Z.eqb_spec 63 i) as [<-|N]; [reflexivity|]. destruct (Z.ltb_spec i 63); [reflexivity|]. rewrite T by lia. reflexivity.
  - change (2 ^ 64)%Z with (2 * 2 ^ 63)%Z in H2. rewrite Z.testbit_eqb by lia.
    assert (Q : (0 <= w / 2 ^ 63 < 2)%Z).
    { split; [apply Z.div_pos; lia|]. apply Z.div_lt_upper_bound; lia. }
    pose proof (Z.div_mod w (2 ^ 63)%Z ltac:(lia)) as D.
    destruct (Z.eqb_spec ((w / 2 ^ 63) mod 2) 1) as [E|E]; rewrite Z.mod_small in E by lia; lia.
Qed.
Lemma decode_abs : forall w, word w -> decode (w mod 2 ^ 63) = SFabs (decode w).
Proof.
  intros w [H1 H2]. unfold decode.
  assert (S : Z.testbit (w mod 2 ^ 63) 63 = false) by (apply Z.mod_pow2_bits_high; lia).
  assert (E : Z.land (Z.shiftr (w mod 2 ^ 63) 52) 2047 = Z.land (Z.shiftr w 52) 2047).
  { apply Z.bits_inj'. intros i Hi. rewrite !Z.land_spec, !Z.shiftr_spec by lia.
    change 2047%Z with (Z.ones 11). rewrite Z.testbit_ones_nonneg by lia.
    destruct (Z.ltb_spec i 11); [|now rewrite !andb_false_r]. rewrite testbit_mod by lia. reflexivity. }
  assert (M : Z.land (w mod 2 ^ 63) (2 ^ 52 - 1) = Z.land w (2 ^ 52 - 1)).
  { apply Z.bits_inj'. intros i Hi. rewrite !Z.land_spec.
    change (2 ^ 52 - 1)%Z with (Z.ones 52). rewrite Z.testbit_ones_nonneg by lia.
    destruct (Z.ltb_spec i 52); [|now rewrite !andb_false_r]. rewrite testbit_mod by lia. reflexivity. }
  rewrite S, E, M. clear S E M. set (e := Z.land (Z.shiftr w 52) 2047). set (m := Z.land w (2 ^ 52 - 1)).
  destruct (e =? 0)%Z; [destruct m; reflexivity|]. destruct (e =? 2047)%Z; [destruct m; reflexivity|].
  destruct (m + 2 ^ 52)%Z; reflexivity.
Qed.

(** Greater than zero. *)
Definition positive_float (x : spec_float) : bool :=
  match x with S754_finite false _ _ | S754_infinity false => true | _ => false end.
Lemma cmp_gt_zero : forall x, cmp_gt x (decode 0) = positive_float x.
Proof. intros [s|s| |s m e]; try destruct s; reflexivity. Qed.
