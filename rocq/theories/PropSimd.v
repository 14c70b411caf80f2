(** Headline theorems for the SIMD conversion (C28).  [value] is the meaning of an expression in any field,
    given the symbols' values [rho]; [laws] says what powers with the special exponents mean. *)
From Coq Require Import String List ZArith Bool QArith Qcanon Lia Field Ring Permutation.
From Verif Require Import PyBase PyBaseFacts QcLib ExprTree Simd SimdFacts.
Import ListNotations.
Open Scope list_scope.

(** The value does not depend on symbols that do not occur. *)
Lemma value_ext : forall (F : Type) (fO fI : F) fadd fmul fsub fdiv fopp I rho rho' e,
  (forall s, In s (symbols e) -> rho s = rho' s) ->
  value F fO fI fadd fmul fsub fdiv fopp I rho e = value F fO fI fadd fmul fsub fdiv fopp I rho' e.
Proof.
  intros F fO fI fadd fmul fsub fdiv fopp I rho rho' e; induction e as [[s|q|q]|f l IH] using ExprTreeFacts.expr_ind2;
    intros H; cbn [value]; auto.
  - apply H. cbn. auto.
  - f_equal. apply map_ext_in. intros x Hx. rewrite Forall_forall in IH. apply IH; auto.
    intros s Hs. apply H. cbn [symbols]. apply in_flat_map. eauto.
Qed.

(** For every expression without a 0th power whose sums have distinct terms once step 1 is done, in every field,
    for every assignment giving the constants their values, with or without the search for more FMAs and with
    any traversal depth: the converted expression has the same value. *)
Theorem C28_value : forall (F : Type) (fO fI : F) fadd fmul fsub fdiv fopp finv,
  field_theory fO fI fadd fmul fsub fopp fdiv finv (@eq F) ->
  forall I, laws F fI fmul fdiv fopp I ->
  forall canon, (forall l, Permutation (canon l) l) ->
  forall rho fuel prefix more d e,
  rho (prefix ++ "_Integer_1")%string = fI -> consistent F I rho d ->
  no_zero_power d e -> nodup_sums (snd (step1 canon fuel prefix d e)) ->
  value F fO fI fadd fmul fsub fdiv fopp I rho (snd (convert canon fuel prefix more d e)) =
  value F fO fI fadd fmul fsub fdiv fopp I rho e.
Proof. intros. eapply convert_value; eauto. Qed.

(** The returned table: the given one, or the given one with the symbol for 1 set to 1. *)
Theorem C28_table : forall canon fuel prefix more d e,
  fst (convert canon fuel prefix more d e) = d \/
  (~ (exists s, In (s, 1%Qc) d) /\
   fst (convert canon fuel prefix more d e) = dset (prefix ++ "_Integer_1") 1%Qc d).
Proof.
  intros canon fuel prefix more d e. unfold convert, step1.
  set (one := (prefix ++ "_Integer_1")%string).
  assert (R : forall n st x, reachable one d st -> reachable one d (fst (topdown_st n (rule_pow canon one) st x))).
  { induction n as [|n IH]; intros st x H; cbn [topdown_st]; auto.
    assert (H1 := rule_pow_reachable canon one d st x H).
    destruct (rule_pow canon one st x) as [st1 e1]. cbn [fst] in H1. destruct e1 as [a|f l]; auto.
    assert (G : forall l st, reachable one d st -> reachable one d (fst (map_st (topdown_st n (rule_pow canon one)) st l))).
    { induction l0 as [|y l0 IHl]; intros st0 H0; cbn [map_st]; auto.
      assert (Hy := IH st0 y H0). destruct (topdown_st n (rule_pow canon one) st0 y) as [st2 y'].
      assert (Hl := IHl st2 Hy). destruct (map_st (topdown_st n (rule_pow canon one)) st2 l0). exact Hl. }
    specialize (G l st1 H1). destruct (map_st (topdown_st n (rule_pow canon one)) st1 l). exact G. }
  specialize (R fuel (init_state d) (topdown fuel rule_un e) (or_introl eq_refl)).
  destruct (topdown_st fuel (rule_pow canon one) (init_state d) (topdown fuel rule_un e)) as [st e1].
  cbn [fst] in *. destruct R as [->|[E ->]]; [left; reflexivity|right]. split; [|reflexivity].
  rewrite <- init_one. congruence.
Qed.

(** Every symbol of the result occurs in the input or is the symbol for 1 ... *)
Theorem C28_symbols : forall canon, (forall l, Permutation (canon l) l) -> forall fuel prefix more d e s,
  In s (symbols (snd (convert canon fuel prefix more d e))) ->
  In s (symbols e) \/ s = (prefix ++ "_Integer_1")%string.
Proof. intros. eapply convert_symbols; eauto. Qed.

(** ... and if 1 is tabulated under that name only and no exponent is -1/2, -3/2 or -5/2, it is declared. *)
Theorem C28_declared : forall canon, (forall l, Permutation (canon l) l) -> forall fuel prefix more d e s,
  (forall t, In (t, 1%Qc) d -> dget (prefix ++ "_Integer_1")%string d = Some 1%Qc) -> no_neg_half d e ->
  In s (symbols (snd (convert canon fuel prefix more d e))) ->
  In s (symbols e) \/ dget s (fst (convert canon fuel prefix more d e)) = Some 1%Qc.
Proof. intros canon CP fuel prefix more d e s H1 N H. eapply convert_declared; eauto. Qed.

(** Together: the value is kept for every assignment that agrees with the given and the returned table. *)
Theorem C28_value_tables : forall (F : Type) (fO fI : F) fadd fmul fsub fdiv fopp finv,
  field_theory fO fI fadd fmul fsub fopp fdiv finv (@eq F) ->
  forall I, laws F fI fmul fdiv fopp I ->
  forall canon, (forall l, Permutation (canon l) l) ->
  forall rho fuel prefix more d e,
  (forall t, In (t, 1%Qc) d -> dget (prefix ++ "_Integer_1")%string d = Some 1%Qc) ->
  (forall q, dget (prefix ++ "_Integer_1")%string d = Some q -> q = 1%Qc) ->
  (In (prefix ++ "_Integer_1")%string (symbols e) -> dget (prefix ++ "_Integer_1")%string d = Some 1%Qc) ->
  no_neg_half d e -> no_zero_power d e -> nodup_sums (snd (step1 canon fuel prefix d e)) ->
  consistent F I rho d -> consistent F I rho (fst (convert canon fuel prefix more d e)) ->
  value F fO fI fadd fmul fsub fdiv fopp I rho (snd (convert canon fuel prefix more d e)) =
  value F fO fI fadd fmul fsub fdiv fopp I rho e.
Proof.
  intros F fO fI fadd fmul fsub fdiv fopp finv Fth I L canon CP rho fuel prefix more d e H1 H2 H3 NH N0 ND C C'.
  set (one := (prefix ++ "_Integer_1")%string) in *.
  destruct (dget one (fst (convert canon fuel prefix more d e))) as [q|] eqn:E.
  - assert (q = 1%Qc).
    { destruct (C28_table canon fuel prefix more d e) as [T|[_ T]]; rewrite T in E; auto.
      fold one in E. rewrite dget_dset_same in E. congruence. }
    subst q. eapply convert_value; eauto. fold one. rewrite (C' _ _ E). apply (l_one _ _ _ _ _ _ L).
  - assert (Ed : dget one d = None).
    { destruct (C28_table canon fuel prefix more d e) as [T|[_ T]]; rewrite T in E; auto.
      fold one in E. rewrite dget_dset_same in E. discriminate. }
    set (rho' := fun s => if String.eqb s one then fI else rho s).
    assert (X : forall x, ~ In one (symbols x) ->
       value F fO fI fadd fmul fsub fdiv fopp I rho x = value F fO fI fadd fmul fsub fdiv fopp I rho' x).
    { intros x Hx. apply value_ext. intros s Hs. unfold rho'. destruct (String.eqb_spec s one) as [->|]; tauto. }
    rewrite !X.
    + eapply convert_value; eauto.
      * fold one. unfold rho'. now rewrite String.eqb_refl.
      * intros s q Hs. unfold rho'. destruct (String.eqb_spec s one) as [->|]; [congruence|auto].
    + intros K. apply H3 in K. congruence.
    + intros K. assert (K' := C28_declared canon CP fuel prefix more d e one H1 NH K). fold one in K'.
      destruct K' as [K'|K']; [apply H3 in K'|]; congruence.
Qed.

(** Cleaning the table: every symbol the expression mentions keeps its entry, and no entry changes. *)
Theorem C28_clean : forall prefix e d s,
  (In s (symbols e) -> dget s (remove_unused_negone prefix e d) = dget s d) /\
  (forall q, dget s (remove_unused_negone prefix e d) = Some q -> dget s d = Some q) /\
  (dget s d <> None -> s <> (prefix ++ "_NegativeOne_")%string -> dget s (remove_unused_negone prefix e d) = dget s d).
Proof.
  intros prefix e d s. unfold remove_unused_negone. set (name := (prefix ++ "_NegativeOne_")%string).
  assert (K : forall m : dict Qc, s <> name -> dget s (filter (fun kv => negb (String.eqb (fst kv) name)) m) = dget s m).
  { induction m as [|[k v] m IH]; intros D; cbn [filter fst]; auto.
    destruct (String.eqb_spec k name) as [->|Dk]; cbn [negb dget].
    - rewrite IH by auto. destruct (String.eqb_spec s name); [contradiction|reflexivity].
    - rewrite IH by auto. reflexivity. }
  assert (K0 : dget name (filter (fun kv : string * Qc => negb (String.eqb (fst kv) name)) d) = None).
  { induction d as [|[k v] m IH]; cbn [filter fst]; auto.
    destruct (String.eqb_spec k name) as [->|Dk]; cbn [negb dget]; auto.
    destruct (String.eqb_spec name k); [congruence|auto]. }
  destruct (dmem name d && negb (existsb (String.eqb name) (symbols e))) eqn:E; [|auto].
  apply andb_true_iff in E. destruct E as [_ E]. apply negb_true_iff in E.
  split; [|split].
  - intros Hs. apply K. intros ->. rewrite (proj2 (existsb_exists _ _)) in E; [discriminate|].
    exists name. split; auto. apply String.eqb_refl.
  - intros q Hq. destruct (String.eqb_spec s name) as [->|D]; [congruence|]. now rewrite K in Hq by auto.
  - intros _ D. now apply K.
Qed.

(** ** A concrete field and interpretation: the rationals, every root being the identity *)
Definition q_pow (a b : Qc) : Qc :=
  if Pos.eqb (Qden (this b)) 1 then
    match Qnum (this b) with
    | Z0 => 1%Qc
    | Zpos p => fold_right Qcmult 1%Qc (repeat a (Pos.to_nat p))
    | Zneg p => (1 / fold_right Qcmult 1 (repeat a (Pos.to_nat p)))%Qc
    end
  else if qeqb b (half (-1)) then (1 / a)%Qc
  else if qeqb b (half (-3)) then (1 / (a * a))%Qc
  else if qeqb b (half (-5)) then (1 / (a * (a * a)))%Qc
  else a.
Definition q_interp : interp Qc :=
  MkI Qc (fun q => q) q_pow (fun a => a) (fun a => a) (fun _ l => hd 0%Qc l) (fun _ l => hd 0%Qc l) (fun _ _ => 0%Qc).
Lemma this_qz : forall z, this (qz z) = (z # 1)%Q.
Proof. intros. unfold qz, inject_Z. cbn [this Q2Qc]. unfold Qred. assert (H := Z.ggcd_gcd z 1). assert (K := Z.ggcd_correct_divisors z 1).
  destruct (Z.ggcd z 1) as [g [a b]]. cbn in H. rewrite Z.gcd_1_r in H. subst g. destruct K as [K1 K2].
  rewrite Z.mul_1_l in *. subst. reflexivity. Qed.
Lemma q_laws : laws Qc 1%Qc Qcmult Qcdiv Qcopp q_interp.
Proof.
  constructor; cbn [i_const i_pow i_sqrt i_cbrt q_interp]; intros; unfold q_pow; try reflexivity.
  - rewrite this_qz. cbn [Qden Qnum Pos.eqb]. destruct (Z.of_nat (S n)) eqn:E; try lia.
    replace (Pos.to_nat p) with (S n) by lia. reflexivity.
  - rewrite this_qz. cbn [Qden Qnum Pos.eqb]. destruct (- Z.of_nat (S n))%Z eqn:E; try lia.
    replace (Pos.to_nat p) with (S n) by lia. reflexivity.
Qed.
Definition qval (rho : string -> Qc) : sexpr -> Qc :=
  value Qc 0%Qc 1%Qc Qcplus Qcmult Qcminus Qcdiv Qcopp q_interp rho.
Definition keep (l : list sexpr) : list sexpr := l.
Lemma keep_perm : forall l, Permutation (keep l) l.
Proof. intros; reflexivity. Qed.
Definition y (s : string) : sexpr := Atom (Sym s).

(** -a*b - c + d**(-2) + f*g, with -1 and the exponent -2 tabulated. *)
Definition ex_dict : dict Qc := [("p_NegativeOne_", minus_one); ("p_Integer_m2", qz (-2))]%string.
Definition ex_expr : sexpr :=
  App FAdd [App FMul [y "p_NegativeOne_"; y "a"; y "b"]; App FMul [y "p_NegativeOne_"; y "c"];
            App FPow [y "d"; y "p_Integer_m2"]; App FMul [y "f"; y "g"]].
Definition ex_rho (s : string) : Qc :=
  if String.eqb s "p_NegativeOne_" then minus_one else if String.eqb s "p_Integer_m2" then qz (-2)
  else if String.eqb s "p_Integer_1" then 1%Qc else qz (Z.of_nat (String.length s) + 6).
Example C28_ex_result :
  convert keep 20 "p" true ex_dict ex_expr =
  (ex_dict ++ [("p_Integer_1"%string, 1%Qc)],
   App SFMA [y "p_NegativeOne_"; App SFMA [y "a"; y "b"; y "c"];
             App SFMA [y "f"; y "g"; App SDiv [y "p_Integer_1"; App SMul [y "d"; y "d"]]]]).
Proof. vm_compute. reflexivity. Qed.

(** The hypotheses of the theorems hold of it. *)
(** Boolean versions, so that concrete expressions can be checked by computation. *)
Fixpoint subterms (e : sexpr) : list sexpr :=
  e :: match e with Atom _ => [] | App _ l => flat_map subterms l end.
Lemma subterms_spec : forall s e, subterm s e -> In s (subterms e).
Proof.
  intros s e H; induction H as [|f l x Hx H IH]; [destruct s; cbn; auto|].
  cbn [subterms]. right. apply in_flat_map. eauto.
Qed.
Fixpoint nodupb (l : list sexpr) : bool :=
  match l with [] => true | x :: r => negb (existsb (expr_eqb x) r) && nodupb r end.
Lemma nodupb_spec : forall l, nodupb l = true -> NoDup l.
Proof.
  induction l as [|x r IH]; intros H; constructor; cbn [nodupb] in H; apply andb_true_iff in H; destruct H as [H1 H2]; auto.
  intros K. apply negb_true_iff in H1. rewrite (proj2 (existsb_exists _ _)) in H1; [discriminate|].
  exists x. split; auto. now apply expr_eqb_eq.
Qed.
Definition sums_ok (e : sexpr) : bool :=
  forallb (fun s => match s with App FAdd l => nodupb l | _ => true end) (subterms e).
Lemma sums_ok_spec : forall e, sums_ok e = true -> nodup_sums e.
Proof.
  intros e H l S. apply subterms_spec in S. unfold sums_ok in H. rewrite forallb_forall in H.
  specialize (H _ S). cbn beta iota in H. now apply nodupb_spec.
Qed.
Definition powers_check (p : sexpr -> bool) (e : sexpr) : bool :=
  forallb (fun s => match s with App FPow [a; b] => p b | _ => true end) (subterms e).
Lemma powers_check_spec : forall p e, powers_check p e = true ->
  forall a b, subterm (App FPow [a; b]) e -> p b = true.
Proof.
  intros p e H a b S. apply subterms_spec in S. unfold powers_check in H. rewrite forallb_forall in H.
  exact (H _ S).
Qed.
Lemma no_zero_check : forall d e,
  powers_check (fun b => negb (expr_eqb (exponent d b) (Atom (Rat 0%Qc)))) e = true -> no_zero_power d e.
Proof.
  intros d e H a b S E. apply (powers_check_spec _ _ H) in S. rewrite E in S. discriminate.
Qed.
Lemma no_neg_half_check : forall d e, powers_check (fun b => negb (neg_half d b)) e = true -> no_neg_half d e.
Proof. intros d e H a b S. apply (powers_check_spec _ _ H) in S. now apply negb_true_iff. Qed.
Lemma consistent_check : forall rho d, forallb (fun kv => qeqb (rho (fst kv)) (snd kv)) d = true ->
  consistent Qc q_interp rho d.
Proof.
  intros rho d H s q E. apply dget_In in E. rewrite forallb_forall in H. apply (H (s, q)) in E. now apply qeqb_eq.
Qed.

Example C28_ex_hypotheses :
  nodup_sums (snd (step1 keep 20 "p" ex_dict ex_expr)) /\ no_zero_power ex_dict ex_expr /\
  no_neg_half ex_dict ex_expr /\ consistent Qc q_interp ex_rho ex_dict /\
  consistent Qc q_interp ex_rho (fst (convert keep 20 "p" true ex_dict ex_expr)) /\
  ex_rho "p_Integer_1" = 1%Qc /\ (forall t, ~ In (t, 1%Qc) ex_dict) /\ dget "p_Integer_1"%string ex_dict = None.
Proof.
  split; [apply sums_ok_spec; vm_compute; reflexivity|].
  split; [apply no_zero_check; vm_compute; reflexivity|].
  split; [apply no_neg_half_check; vm_compute; reflexivity|].
  split; [apply consistent_check; vm_compute; reflexivity|].
  split; [apply consistent_check; vm_compute; reflexivity|].
  split; [reflexivity|]. split; [|reflexivity].
  cbn [In ex_dict]. intros t [H|[H|[]]]; apply (f_equal (fun kv => this (snd kv))) in H; discriminate H.
Qed.
Example C28_ex_value : qval ex_rho (snd (convert keep 20 "p" true ex_dict ex_expr)) = qval ex_rho ex_expr.
Proof.
  destruct C28_ex_hypotheses as (H1 & H2 & _ & H4 & _ & H6 & _).
  exact (C28_value _ _ _ _ _ _ _ _ _ Qcft _ q_laws keep keep_perm ex_rho 20 "p"%string true ex_dict ex_expr H6 H4 H2 H1).
Qed.
Example C28_ex_value_number : qval ex_rho ex_expr = Q2Qc (-342 # 49).
Proof. vm_compute. reflexivity. Qed.

(** The doctests of expr_convert_to_simd_intrins, l.184-242 *)
Definition md : dict Qc := [("_NegativeOne_"%string, minus_one)].
Definition m1 : sexpr := y "_NegativeOne_".
Definition conv (e : sexpr) : sexpr := snd (convert keep 20 "" false md e).
Example C28_ex_doctests :
  conv (App FAdd [y "a"; App FMul [m1; y "b"]]) = App SSub [y "a"; y "b"] /\
  conv (App FAdd [y "a"; y "b"; y "c"; y "d"]) = App SAdd [App SAdd [y "a"; y "b"]; App SAdd [y "c"; y "d"]] /\
  conv (App FMul [y "a"; y "b"; y "c"]) = App SMul [y "a"; App SMul [y "b"; y "c"]] /\
  conv (App FMul [y "a"; App FPow [y "b"; Atom (Rat minus_one)]]) = App SDiv [y "a"; y "b"] /\
  conv (App FAdd [App FMul [y "a"; y "b"]; y "c"]) = App SFMA [y "a"; y "b"; y "c"] /\
  conv (App FAdd [App FMul [y "a"; y "b"]; App FMul [m1; y "c"]]) = App SFMS [y "a"; y "b"; y "c"] /\
  conv (App FAdd [App FMul [m1; y "a"; y "b"]; y "c"]) = App SNFMA [y "a"; y "b"; y "c"] /\
  conv (App FAdd [App FMul [m1; y "c"]; App FMul [m1; y "a"; y "b"]]) = App SNFMS [y "a"; y "b"; y "c"] /\
  conv (App (FUn Cos) [App FAdd [App FMul [y "a"; y "b"]; y "c"]]) = App (SUn Cos) [App SFMA [y "a"; y "b"; y "c"]] /\
  conv (App FPow [y "a"; Atom (Rat (half 1))]) = App SSqrt [y "a"].
Proof. repeat split; vm_compute; reflexivity. Qed.

(** As stated the property is false: equal terms of a sum are lost ... *)
Definition dup_expr : sexpr :=
  App FAdd [App FPow [y "x"; Atom (Flt (half 1))]; App FPow [y "x"; Atom (Rat (half 1))]; App FMul [m1; y "z"]].
Definition dup_rho (s : string) : Qc :=
  if String.eqb s "_NegativeOne_" then minus_one else if String.eqb s "_Integer_1" then 1%Qc else qz 3.
Theorem C28_equal_terms_refuted :
  nodup_sums dup_expr /\ no_zero_power md dup_expr /\ consistent Qc q_interp dup_rho md /\
  dup_rho "_Integer_1" = 1%Qc /\
  conv dup_expr = App SSub [App SSqrt [y "x"]; y "z"] /\ qval dup_rho (conv dup_expr) <> qval dup_rho dup_expr.
Proof.
  split; [apply sums_ok_spec; vm_compute; reflexivity|].
  split; [apply no_zero_check; vm_compute; reflexivity|].
  split; [apply consistent_check; vm_compute; reflexivity|].
  split; [reflexivity|]. split; [vm_compute; reflexivity|].
  intros H. apply (f_equal this) in H. vm_compute in H. discriminate.
Qed.
(** ... and negative half-integer powers use a constant that is not declared. *)
Theorem C28_undeclared_one_refuted : forall canon fuel prefix more,
  let r := convert canon (S (S (S fuel))) prefix more [] (App FPow [y "x"; Atom (Rat (half (-1)))]) in
  In (prefix ++ "_Integer_1")%string (symbols (snd r)) /\ fst r = [].
Proof.
  intros canon fuel prefix more. cbn zeta.
  assert (E : convert canon (S (S (S fuel))) prefix more [] (App FPow [y "x"; Atom (Rat (half (-1)))]) =
              ([], App SDiv [Atom (Sym (prefix ++ "_Integer_1")); App SSqrt [y "x"]])).
  { destruct more; reflexivity. }
  rewrite E. cbn [fst snd symbols flat_map]. split; [left; reflexivity|reflexivity].
Qed.
(** A 0th power becomes its base (the hypothesis [no_zero_power] is needed). *)
Example C28_ex_zero_power :
  qval dup_rho (conv (App FPow [y "x"; Atom (Rat 0%Qc)])) = qz 3 /\ qval dup_rho (App FPow [y "x"; Atom (Rat 0%Qc)]) = 1%Qc.
Proof. split; vm_compute; reflexivity. Qed.
Example C28_ex_clean :
  remove_unused_negone "" (App SSub [y "a"; y "b"]) (md ++ [("_Integer_1"%string, 1%Qc)]) = [("_Integer_1"%string, 1%Qc)] /\
  remove_unused_negone "" (App SMul [m1; y "b"]) md = md.
Proof. split; vm_compute; reflexivity. Qed.

Print Assumptions C28_value.
Print Assumptions C28_table.
Print Assumptions C28_symbols.
Print Assumptions C28_declared.
Print Assumptions C28_value_tables.
Print Assumptions C28_clean.
Print Assumptions C28_equal_terms_refuted.
Print Assumptions C28_undeclared_one_refuted.
