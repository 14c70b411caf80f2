(** Specification and proofs for the SIMD conversion (model: Simd.v). *)
From Coq Require Import String List ZArith Bool QArith Qcanon Lia Field Ring Permutation.
From Verif Require Import PyBase PyBaseFacts QcLib ExprTree ExprTreeFacts Simd.
Import ListNotations.
Open Scope list_scope.

(** ** Specification: the value of an expression in a field *)
Section Spec.
Variables (F : Type) (fO fI : F) (fadd fmul fsub fdiv : F -> F -> F) (fopp finv : F -> F).

(** Meaning of everything that is not field arithmetic: constants, powers, square and cube roots, the other
    functions, and applications with a wrong number of arguments. *)
Record interp : Type := MkI {
  i_const : Qc -> F;
  i_pow : F -> F -> F;
  i_sqrt : F -> F;
  i_cbrt : F -> F;
  i_un : un -> list F -> F;
  i_other : string -> list F -> F;
  i_bad : fname -> list F -> F }.

Definition vsum (l : list F) : F := fold_right fadd fO l.
Definition vprod (l : list F) : F := fold_right fmul fI l.

Definition fval (I : interp) (f : fname) (vs : list F) : F :=
  match f, vs with
  | FAdd, _ | SAdd, _ => vsum vs
  | FMul, _ | SMul, _ => vprod vs
  | FPow, [a; b] | SPow, [a; b] => i_pow I a b
  | FUn u, _ | SUn u, _ => i_un I u vs
  | FOther s, _ => i_other I s vs
  | SSub, [a; b] => fsub a b
  | SFMA, [a; b; c] => fadd (fmul a b) c
  | SFMS, [a; b; c] => fsub (fmul a b) c
  | SNFMA, [a; b; c] => fadd (fopp (fmul a b)) c
  | SNFMS, [a; b; c] => fsub (fopp (fmul a b)) c
  | SDiv, [a; b] => fdiv a b
  | SSqrt, [a] => i_sqrt I a
  | SCbrt, [a] => i_cbrt I a
  | _, _ => i_bad I f vs
  end.
Fixpoint value (I : interp) (rho : string -> F) (e : sexpr) : F :=
  match e with
  | Atom (Sym s) => rho s
  | Atom (Rat q) | Atom (Flt q) => i_const I q
  | App f l => fval I f (map (value I rho) l)
  end.

(** What is assumed of constants and powers. *)
Record laws (I : interp) : Prop := MkL {
  l_one : i_const I 1%Qc = fI;
  l_mone : i_const I minus_one = fopp fI;
  l_half : forall a, i_pow I a (i_const I (half 1)) = i_sqrt I a;
  l_mhalf : forall a, i_pow I a (i_const I (half (-1))) = fdiv fI (i_sqrt I a);
  l_m3half : forall a, i_pow I a (i_const I (half (-3))) = fdiv fI (fmul (i_sqrt I a) a);
  l_m5half : forall a, i_pow I a (i_const I (half (-5))) = fdiv fI (fmul (i_sqrt I a) (fmul a a));
  l_third : forall a, i_pow I a (i_const I third) = i_cbrt I a;
  l_pos : forall a n, i_pow I a (i_const I (qz (Z.of_nat (S n)))) = vprod (repeat a (S n));
  l_neg : forall a n, i_pow I a (i_const I (qz (- Z.of_nat (S n)))) = fdiv fI (vprod (repeat a (S n))) }.

(** An assignment that gives every declared constant its value. *)
Definition consistent (I : interp) (rho : string -> F) (d : dict Qc) : Prop :=
  forall s q, dget s d = Some q -> rho s = i_const I q.
End Spec.

Inductive subterm (s : sexpr) : sexpr -> Prop :=
| sub_refl : subterm s s
| sub_arg : forall f l x, In x l -> subterm s x -> subterm s (App f l).

(** No sum with two equal arguments. *)
Definition nodup_sums (e : sexpr) : Prop := forall l, subterm (App FAdd l) e -> NoDup l.
(** No power with (rational) exponent 0. *)
Definition no_zero_power (d : dict Qc) (e : sexpr) : Prop :=
  forall a b, subterm (App FPow [a; b]) e -> exponent d b <> Atom (Rat 0%Qc).

(** ** Structural facts *)
Lemma un_eqb_eq : forall a b, un_eqb a b = true <-> a = b.
Proof. destruct a, b; cbn; split; intros; congruence. Qed.
Lemma fname_eqb_eq : forall f g, fname_eqb f g = true <-> f = g.
Proof.
  destruct f, g; cbn [fname_eqb]; split; intros H; try congruence; try reflexivity.
  - apply un_eqb_eq in H; congruence.
  - inversion H. now apply un_eqb_eq.
  - apply String.eqb_eq in H; congruence.
  - inversion H. apply String.eqb_refl.
  - apply un_eqb_eq in H; congruence.
  - inversion H. now apply un_eqb_eq.
Qed.
Lemma atom_eqb_eq : forall a b, atom_eqb a b = true <-> a = b.
Proof.
  destruct a, b; cbn [atom_eqb]; split; intros H; try congruence.
  - apply String.eqb_eq in H; congruence.
  - inversion H. apply String.eqb_refl.
  - apply qeqb_eq in H; congruence.
  - inversion H. now apply qeqb_eq.
  - apply qeqb_eq in H; congruence.
  - inversion H. now apply qeqb_eq.
Qed.
Lemma expr_eqb_eq : forall a b, expr_eqb a b = true <-> a = b.
Proof.
  intros a; induction a as [x|f l IH] using expr_ind2; intros [y|g m]; cbn [expr_eqb]; try (split; intros; congruence).
  - rewrite atom_eqb_eq. split; intros; congruence.
  - rewrite andb_true_iff, fname_eqb_eq.
    match goal with |- (_ /\ ?G l m = true) <-> _ => set (go := G) end.
    assert (E : forall m, go l m = true <-> l = m).
    { induction IH as [|x l Hx Hl IHl]; intros [|y m']; try (split; intros; reflexivity || discriminate).
      change (go (x :: l) (y :: m')) with (expr_eqb x y && go l m'). rewrite andb_true_iff, Hx, IHl. split; [intros [-> ->]; reflexivity|intros [= -> ->]; auto]. }
    rewrite E. split; [intros [-> ->]; reflexivity|intros [= -> ->]; auto].
Qed.

Lemma as2_inv : forall f e a b, as2 f e = Some (a, b) -> e = App f [a; b].
Proof.
  intros f e a b H. destruct e as [x|g [|y [|z [|w l]]]]; cbn in H; try discriminate.
  destruct (fname_eqb g f) eqn:E; [|discriminate]. apply fname_eqb_eq in E. congruence.
Qed.
Lemma as3_inv : forall f e a b c, as3 f e = Some (a, b, c) -> e = App f [a; b; c].
Proof.
  intros f e a b c H. destruct e as [x|g [|y [|z [|w [|v l]]]]]; cbn in H; try discriminate.
  destruct (fname_eqb g f) eqn:E; [|discriminate]. apply fname_eqb_eq in E. congruence.
Qed.
Lemma as2_app : forall f a b, as2 f (App f [a; b]) = Some (a, b).
Proof. intros; cbn. assert (E := proj2 (fname_eqb_eq f f) eq_refl). now rewrite E. Qed.

(** Splits all the as2/as3 matches in hypothesis H. *)
Ltac open_alt H :=
  repeat (match type of H with
          | context [match as2 ?f ?e with _ => _ end] =>
              let E := fresh "E" in destruct (as2 f e) as [[? ?]|] eqn:E; [apply as2_inv in E; subst e|try discriminate H]
          | context [match as3 ?f ?e with _ => _ end] =>
              let E := fresh "E" in destruct (as3 f e) as [[[? ?] ?]|] eqn:E; [apply as3_inv in E; subst e|try discriminate H]
          | context [if ?c then _ else _] => let E := fresh "C" in destruct c eqn:E; try discriminate H
          end).

Lemma subterm_trans : forall a b c, subterm a b -> subterm b c -> subterm a c.
Proof. intros a b c H K; induction K; auto. econstructor; eauto. Qed.

Lemma subterm_app : forall s f l, subterm s (App f l) -> s = App f l \/ exists x, In x l /\ subterm s x.
Proof. intros s f l H. inversion H; subst; eauto. Qed.

Lemma find_index_spec : forall A (p : A -> bool) l i, find_index p l = Some i ->
  exists x, nth_error l i = Some x /\ p x = true.
Proof.
  induction l as [|y l IH]; cbn; intros i H; [discriminate|].
  destruct (p y) eqn:E; [injection H as <-; exists y; auto|].
  destruct (find_index p l) as [j|]; [|discriminate]. injection H as <-. apply IH; reflexivity.
Qed.
Lemma find_index_none : forall A (p : A -> bool) l, find_index p l = None -> forall x, In x l -> p x = false.
Proof.
  induction l as [|y l IH]; cbn; intros H x Hx; [contradiction|].
  destruct (p y) eqn:E; [discriminate|]. destruct (find_index p l); [discriminate|].
  destruct Hx as [<-|Hx]; auto.
Qed.
Lemma pop_perm : forall A (l : list A) i x, nth_error l i = Some x -> Permutation l (x :: pop_at i l).
Proof.
  induction l as [|y l IH]; intros [|i] x H; cbn in *; try discriminate.
  - injection H as <-. reflexivity.
  - rewrite perm_swap. constructor. auto.
Qed.

(** ** Values *)
Section Facts.
Variables (F : Type) (fO fI : F) (fadd fmul fsub fdiv : F -> F -> F) (fopp finv : F -> F).
Hypothesis Fth : field_theory fO fI fadd fmul fsub fopp fdiv finv (@eq F).
Add Field Ff : Fth.
Variable I : interp F.
Hypothesis L : laws F fI fmul fdiv fopp I.
Variable rho : string -> F.

Local Notation val := (value F fO fI fadd fmul fsub fdiv fopp I rho).
Local Notation vs := (vsum F fO fadd).
Local Notation vp := (vprod F fI fmul).
Local Notation cons_with := (consistent F I rho).

Lemma vsum_app : forall a b, vs (a ++ b) = fadd (vs a) (vs b).
Proof. unfold vsum, vprod. induction a; intros; cbn; [ring|]. rewrite IHa. ring. Qed.
Lemma vprod_app : forall a b, vp (a ++ b) = fmul (vp a) (vp b).
Proof. unfold vsum, vprod. induction a; intros; cbn; [ring|]. rewrite IHa. ring. Qed.
Lemma vsum_perm : forall a b, Permutation a b -> vs a = vs b.
Proof. unfold vsum, vprod. intros a b H; induction H; cbn; try congruence. ring. Qed.
Lemma vprod_perm : forall a b, Permutation a b -> vp a = vp b.
Proof. unfold vsum, vprod. intros a b H; induction H; cbn; try congruence. ring. Qed.

Lemma value_app : forall f l, val (App f l) = fval F fO fI fadd fmul fsub fdiv fopp I f (map val l).
Proof. reflexivity. Qed.
Lemma value_app_ext : forall f l m, map val l = map val m -> val (App f l) = val (App f m).
Proof. intros. rewrite !value_app. congruence. Qed.

Lemma is_rat_value : forall d e q, cons_with d -> is_rat d e q = true -> val e = i_const F I q.
Proof.
  intros d e q C H. destruct e as [[s|r|r]|]; cbn in H; try discriminate.
  - destruct (dget s d) eqn:E; [|discriminate]. apply qeqb_eq in H; subst. cbn. now apply C.
  - apply qeqb_eq in H; subst. reflexivity.
Qed.
Lemma is_mone_value : forall d e, cons_with d -> is_rat d e minus_one = true -> val e = fopp fI.
Proof. intros. erewrite is_rat_value by eauto. apply (l_mone _ _ _ _ _ _ L). Qed.
Lemma is_one_value : forall d e, cons_with d -> is_rat d e 1%Qc = true -> val e = fI.
Proof. intros. erewrite is_rat_value by eauto. apply (l_one _ _ _ _ _ _ L). Qed.

(** ** Passes *)
Lemma topdown_sound : forall (Inv : sexpr -> Prop) r,
  (forall e, Inv e -> val (r e) = val e) ->
  (forall e f l x, Inv e -> r e = App f l -> In x l -> Inv x) ->
  forall n e, Inv e -> val (topdown n r e) = val e.
Proof.
  intros Inv r Hv Hc n; induction n as [|n IH]; intros e He; cbn [topdown]; auto.
  rewrite <- (Hv e He). destruct (r e) as [a|f l] eqn:E; auto.
  apply value_app_ext. rewrite map_map. apply map_ext_in. intros x Hx. apply IH. eauto.
Qed.
Lemma topdown_sound_all : forall r, (forall e, val (r e) = val e) -> forall n e, val (topdown n r e) = val e.
Proof. intros r H n e. apply (topdown_sound (fun _ => True)); auto. Qed.

Lemma first_match_sound : forall alts, (forall a, In a alts -> forall e e', a e = Some e' -> val e' = val e) ->
  forall e, val (first_match alts e) = val e.
Proof.
  induction alts as [|a r IH]; cbn; intros H e; auto.
  destruct (a e) eqn:E; eauto.
Qed.

(** ** Step 1 *)
Lemma rule_un_value : forall e, val (rule_un e) = val e.
Proof. intros [a|[]]; reflexivity. Qed.

Lemma pos_pow_value : forall a k, val (pos_pow a k) = vp (repeat (val a) (S (S k))).
Proof.
  intros a k; induction k as [|k IH]; cbn [pos_pow]; rewrite value_app; cbn [map fval].
  - reflexivity.
  - rewrite IH. cbn [repeat vprod fold_right]. ring.
Qed.

Lemma exponent_value : forall d e, cons_with d -> val (exponent d e) = val e.
Proof.
  intros d [[s|q|q]|f l] C; try reflexivity. cbn [exponent]. destruct (dget s d) eqn:E; [|reflexivity].
  cbn. symmetry. now apply C.
Qed.
Lemma is_num_value : forall e q, is_num e q = true -> val e = i_const F I q.
Proof. intros [[s|r|r]|f l] q H; cbn in H; try discriminate; apply qeqb_eq in H; subst; reflexivity. Qed.

Lemma Qc_integer : forall q : Qc, Pos.eqb (Qden (this q)) 1 = true -> q = qz (Qnum (this q)).
Proof.
  intros q H. apply Pos.eqb_eq in H. apply Qc_is_canon. unfold qz. cbn [this Q2Qc].
  rewrite Qred_correct. destruct q as [[n d] c]. cbn in *. subst. reflexivity.
Qed.

Variable canon : list sexpr -> list sexpr.
Hypothesis canon_perm : forall l, Permutation (canon l) l.

Lemma smul_value : forall l, val (smul canon l) = vp (map val l).
Proof.
  intros [|x [|y l]]; cbn [smul].
  - cbn. apply (l_one _ _ _ _ _ _ L).
  - cbn. ring.
  - rewrite value_app. cbn [fval]. apply vprod_perm. apply Permutation_map. apply canon_perm.
Qed.

Lemma canon_mul_value : forall l, val (App FMul (canon l)) = vp (map val l).
Proof. intros. rewrite value_app. cbn [fval]. apply vprod_perm, Permutation_map, canon_perm. Qed.

Variable one : string.
Hypothesis rho_one : rho one = fI.

Lemma integer_pow_value : forall st a n st' e', integer_pow one st a n = (st', e') -> n <> 0%Z ->
  val e' = i_pow F I (val a) (i_const F I (qz n)).
Proof.
  intros st a n st' e' H Hn. unfold integer_pow in H.
  destruct (Z.leb_spec 2 n) as [H2|H2]; [|destruct (Z.leb_spec n (-2)) as [H3|H3]; [|destruct (Z.eqb_spec n (-1)) as [H4|H4]]];
    injection H as _ <-.
  - rewrite pos_pow_value. replace n with (Z.of_nat (S (S (Z.to_nat (n - 2))))) at 2 by lia.
    now rewrite (l_pos _ _ _ _ _ _ L).
  - rewrite value_app. cbn [map fval]. rewrite pos_pow_value. cbn [value]. rewrite rho_one.
    replace n with (- Z.of_nat (S (S (Z.to_nat (- n - 2)))))%Z at 2 by lia.
    now rewrite (l_neg _ _ _ _ _ _ L).
  - subst n. rewrite value_app. cbn [map fval value]. rewrite rho_one.
    replace (-1)%Z with (- Z.of_nat (S 0))%Z by reflexivity. rewrite (l_neg _ _ _ _ _ _ L).
    f_equal. cbn. ring.
  - assert (n = 1)%Z by lia. subst n. replace 1%Z with (Z.of_nat (S 0)) by reflexivity.
    rewrite (l_pos _ _ _ _ _ _ L). cbn. ring.
Qed.

Lemma rule_pow_value : forall st e st' e', cons_with (s_dict st) -> no_zero_power (s_dict st) e ->
  rule_pow canon one st e = (st', e') -> val e' = val e.
Proof.
  intros st e st' e' C N H. unfold rule_pow in H.
  destruct (as2 FPow e) as [[a b]|] eqn:E; [|injection H as _ <-; reflexivity].
  apply as2_inv in E; subst e.
  assert (X := exponent_value (s_dict st) b C). specialize (N a b (sub_refl _)).
  rewrite value_app. cbn [map fval]. rewrite <- X. set (ex := exponent (s_dict st) b) in *. clearbody ex.
  destruct (is_num ex (half 1)) eqn:T1.
  { injection H as _ <-. rewrite (is_num_value _ _ T1), (l_half _ _ _ _ _ _ L). reflexivity. }
  destruct (is_num ex (half (-1))) eqn:T2.
  { injection H as _ <-. rewrite (is_num_value _ _ T2), (l_mhalf _ _ _ _ _ _ L). cbn. now rewrite rho_one. }
  destruct (is_num ex (half (-3))) eqn:T3.
  { injection H as _ <-. rewrite (is_num_value _ _ T3), (l_m3half _ _ _ _ _ _ L).
    rewrite value_app. cbn [map fval smul]. rewrite canon_mul_value. cbn. rewrite rho_one. f_equal. ring. }
  destruct (is_num ex (half (-5))) eqn:T4.
  { injection H as _ <-. rewrite (is_num_value _ _ T4), (l_m5half _ _ _ _ _ _ L).
    rewrite value_app. cbn [map fval smul]. rewrite canon_mul_value.
    replace (val (Atom (Sym one))) with fI by (symmetry; exact rho_one).
    cbn [map]. rewrite !value_app. cbn [map fval value].
    change (qz 2) with (qz (Z.of_nat (S 1))). rewrite (l_pos _ _ _ _ _ _ L).
    f_equal. cbn. ring. }
  destruct ex as [[s|q|q]|f l].
  - injection H as _ <-. rewrite value_app. cbn [map fval]. now rewrite X.
  - destruct (qeqb q third) eqn:T5.
    { injection H as _ <-. apply qeqb_eq in T5; subst q. cbn [value]. rewrite (l_third _ _ _ _ _ _ L). reflexivity. }
    destruct (Pos.eqb (Qden (this q)) 1) eqn:T6.
    + rewrite (integer_pow_value _ _ _ _ _ H).
      * cbn [value]. do 2 f_equal. symmetry. now apply Qc_integer.
      * intros Z0. apply N. rewrite (Qc_integer _ T6), Z0. reflexivity.
    + injection H as _ <-. rewrite value_app. cbn [map fval]. now rewrite X.
  - injection H as _ <-. rewrite value_app. cbn [map fval]. now rewrite X.
  - injection H as _ <-. rewrite value_app. cbn [map fval]. now rewrite X.
Qed.

(** ** Step 2 *)
Lemma two_of_nodup : forall (l : list sexpr) a b, NoDup l -> In a l -> In b l -> a <> b ->
  Permutation l (a :: b :: filter (fun x => negb (expr_eqb x a || expr_eqb x b)) l).
Proof.
  intros l a b N Ha Hb D. apply NoDup_Permutation; auto.
  - constructor; [|constructor].
    + cbn [In]. rewrite filter_In, negb_true_iff, orb_false_iff. intros [E|[_ [E _]]]; [congruence|].
      rewrite (proj2 (expr_eqb_eq a a) eq_refl) in E. discriminate.
    + rewrite filter_In, negb_true_iff, orb_false_iff. intros [_ [_ E]].
      rewrite (proj2 (expr_eqb_eq b b) eq_refl) in E. discriminate.
    + now apply NoDup_filter.
  - intros x. cbn [In]. rewrite filter_In, negb_true_iff, orb_false_iff. split; [|intros [->|[->|[? ?]]]; auto].
    intros Hx. destruct (expr_eqb x a) eqn:E1; [apply expr_eqb_eq in E1; auto|].
    destruct (expr_eqb x b) eqn:E2; [apply expr_eqb_eq in E2; auto|]. auto.
Qed.

Lemma nth_error_nth_eq : forall (l : list sexpr) i x d, nth_error l i = Some x -> nth i l d = x.
Proof. intros. now apply nth_error_nth. Qed.

(** What step 2 does to a sum: it takes a negative product apart. *)
Lemma rule_sub_shape : forall d args, let e := App FAdd args in
  rule_sub canon d e = e \/
  exists i k j fs m ak, i <> k /\ nth_error args i = Some (App FMul fs) /\ nth_error args k = Some ak /\
    nth_error fs j = Some m /\ is_rat d m minus_one = true /\
    let rest := filter (fun x => negb (expr_eqb x (App FMul fs) || expr_eqb x ak)) args in
    let s := App SSub [ak; smul canon (pop_at j fs)] in
    rule_sub canon d e = (match rest with [] => s | _ => App FAdd (canon (s :: rest)) end).
Proof.
  intros d args e. unfold e, rule_sub.
  destruct (find_index (neg_product d) args) as [i|] eqn:Ei; [|auto].
  apply find_index_spec in Ei. destruct Ei as (ai & Hi & Ni).
  rewrite (nth_error_nth_eq _ _ _ _ Hi).
  destruct ai as [|[] fs]; try discriminate Ni. cbn [mul_args].
  destruct (find_index (fun x => is_rat d x minus_one) fs) as [j|] eqn:Ej; [|auto].
  apply find_index_spec in Ej. destruct Ej as (m & Hj & Mj).
  destruct (find_index (fun k => negb (Nat.eqb k i)) (seq 0%nat (length args))) as [k|] eqn:Ek; [|auto].
  apply find_index_spec in Ek. destruct Ek as (k' & Hk & Nk).
  assert (K : (k < length (seq 0 (length args)))%nat) by (apply nth_error_Some; congruence).
  rewrite seq_length in K.
  rewrite (nth_error_nth' _ 0%nat) in Hk by now rewrite seq_length.
  rewrite seq_nth in Hk by auto. cbn in Hk. injection Hk as <-.
  apply negb_true_iff, Nat.eqb_neq in Nk.
  destruct (nth_error args k) as [ak|] eqn:Ek'; [|apply nth_error_None in Ek'; lia].
  rewrite (nth_error_nth_eq _ _ _ _ Ek').
  right. exists i, k, j, fs, m, ak. repeat split; auto.
Qed.

Lemma rule_sub_value : forall d e, cons_with d -> nodup_sums e -> val (rule_sub canon d e) = val e.
Proof.
  intros d e C N. destruct e as [a|[] args]; try reflexivity.
  destruct (rule_sub_shape d args) as [E|(i & k & j & fs & m & ak & Dik & Hi & Hk & Hj & Mj & E)];
    cbn zeta in *; [now rewrite E|]. rewrite E. clear E.
  set (rest := filter _ args).
  assert (NA : NoDup args) by (apply N; constructor).
  assert (D : App FMul fs <> ak).
  { intros X. apply Dik. eapply NoDup_nth_error; eauto; [|congruence]. apply nth_error_Some; congruence. }
  assert (P := two_of_nodup args (App FMul fs) ak NA (nth_error_In _ _ Hi) (nth_error_In _ _ Hk) D). fold rest in P.
  assert (S1 : val (App FMul fs) = fopp (val (smul canon (pop_at j fs)))).
  { rewrite smul_value, value_app. cbn [fval]. rewrite (vprod_perm _ _ (Permutation_map _ (pop_perm _ _ _ _ Hj))).
    cbn. rewrite (is_mone_value _ _ C Mj). unfold vprod. ring. }
  assert (S2 : val (App FAdd args) = fadd (fsub (val ak) (val (smul canon (pop_at j fs)))) (vs (map val rest))).
  { rewrite value_app. cbn [fval]. rewrite (vsum_perm _ _ (Permutation_map _ P)). cbn [map]. unfold vsum; cbn [fold_right].
    rewrite S1. ring. }
  rewrite S2. destruct rest as [|x r].
  - rewrite value_app. cbn. ring.
  - rewrite value_app. cbn [fval]. rewrite (vsum_perm _ _ (Permutation_map _ (canon_perm _))). reflexivity.
Qed.

Lemma smul_subterm : forall s l, subterm (App FAdd s) (smul canon l) -> exists x, In x l /\ subterm (App FAdd s) x.
Proof.
  intros s [|x [|y l]] H; cbn [smul] in H.
  - inversion H.
  - exists x; cbn; auto.
  - inversion H as [|? ? z Hz Hs]; subst. exists z. split; auto. eapply Permutation_in; [apply canon_perm|auto].
Qed.
Lemma pop_in : forall A (l : list A) i x, In x (pop_at i l) -> In x l.
Proof. induction l as [|y l IH]; intros [|i] x H; cbn in *; auto. destruct H; eauto. Qed.

Lemma nodup_sums_arg : forall f l x, nodup_sums (App f l) -> In x l -> nodup_sums x.
Proof. intros f l x H Hx s Hs. apply H. econstructor; eauto. Qed.

Lemma rule_sub_children : forall d e f l x, nodup_sums e -> rule_sub canon d e = App f l -> In x l -> nodup_sums x.
Proof.
  intros d e f l x N H Hx.
  destruct e as [a|g args]; [discriminate|].
  assert (Hg : g = FAdd \/ rule_sub canon d (App g args) = App g args) by (destruct g; auto).
  destruct Hg as [->|Hg]; [|rewrite Hg in H; injection H as <- <-; eapply nodup_sums_arg; eauto].
  destruct (rule_sub_shape d args) as [E|(i & k & j & fs & m & ak & Dik & Hi & Hk & Hj & Mj & E)]; cbn zeta in *.
  { rewrite E in H. injection H as <- <-. eapply nodup_sums_arg; eauto. }
  rewrite E in H. clear E.
  assert (NK : nodup_sums ak) by (eapply nodup_sums_arg; eauto using nth_error_In).
  assert (NF : nodup_sums (App FMul fs)) by (eapply nodup_sums_arg; eauto using nth_error_In).
  assert (NP : nodup_sums (smul canon (pop_at j fs))).
  { intros s Hs. apply smul_subterm in Hs. destruct Hs as (y & Hy & Hs). apply pop_in in Hy.
    apply NF. econstructor; eauto. }
  destruct (filter (fun x => negb (expr_eqb x (App FMul fs) || expr_eqb x ak)) args) as [|y r] eqn:R.
  - injection H as <- <-. destruct Hx as [<-|[<-|[]]]; auto.
  - injection H as <- <-. apply (Permutation_in _ (canon_perm _)) in Hx. destruct Hx as [<-|Hx].
    + intros s Hs. inversion Hs as [|? ? z Hz Hs']; subst. destruct Hz as [<-|[<-|[]]]; auto.
    + rewrite <- R in Hx. apply filter_In in Hx. eapply nodup_sums_arg; [exact N|tauto].
Qed.

(** ** Step 3 *)
Lemma pair_up_sum : forall n l acc, (length l <= n)%nat -> val (pair_up SAdd l acc) = fadd (vs (map val l)) (val acc).
Proof.
  induction n as [|n IH]; intros [|x [|y l]] acc H; cbn [length] in H; try lia; cbn [pair_up]; try (cbn; ring).
  rewrite IH by lia. unfold vsum, vprod. cbn. ring.
Qed.
Lemma pair_up_prod : forall n l acc, (length l <= n)%nat -> val (pair_up SMul l acc) = fmul (vp (map val l)) (val acc).
Proof.
  induction n as [|n IH]; intros [|x [|y l]] acc H; cbn [length] in H; try lia; cbn [pair_up]; try (cbn; ring).
  rewrite IH by lia. unfold vsum, vprod. cbn. ring.
Qed.
Lemma rule_nary_value : forall e, val (rule_nary e) = val e.
Proof.
  intros [a|[] l]; try reflexivity; cbn [rule_nary]; unfold nest2.
  - rewrite (pair_up_sum _ _ _ (le_n _)), !value_app. cbn [fval].
    rewrite <- vsum_app, <- map_app, firstn_skipn. reflexivity.
  - rewrite (pair_up_prod _ _ _ (le_n _)), !value_app. cbn [fval].
    rewrite <- vprod_app, <- map_app, firstn_skipn. reflexivity.
Qed.

(** ** Steps 4 and 5 *)
Ltac mones C :=
  repeat match goal with
         | H : is_rat _ ?m minus_one = true |- _ => rewrite (is_mone_value _ m C H); clear H
         | H : is_rat _ ?m 1%Qc = true |- _ => rewrite (is_one_value _ m C H); clear H
         end.
Ltac alt_in H := cbn [In] in H; repeat (destruct H as [<-|H]); [..|contradiction].

Lemma fdiv_inv : forall a b, fdiv a b = fmul a (finv b).
Proof. exact (Fdiv_def Fth). Qed.

Lemma rule_div_value : forall d e, cons_with d -> val (rule_div d e) = val e.
Proof.
  intros d e C. apply first_match_sound. intros a H x y E. alt_in H;
    unfold alt_div_l, alt_div_r in E; open_alt E; injection E as <-; rewrite !value_app; cbn [map fval];
    rewrite ?value_app; cbn [map fval vprod fold_right]; mones C; rewrite !fdiv_inv; ring.
Qed.

Lemma rule_5a_value : forall e, val (rule_5a e) = val e.
Proof.
  intros e. apply first_match_sound. intros a H x y E. alt_in H;
    unfold alt_fma2_l, alt_fma2_r in E; open_alt E; injection E as <-; cbn; ring.
Qed.
Lemma alt_simple_value : forall a, In a [alt_fma_l; alt_fma_r; alt_fms; alt_nfma] ->
  forall e e', a e = Some e' -> val e' = val e.
Proof.
  intros a H x y E. alt_in H;
    unfold alt_fma_l, alt_fma_r, alt_fms, alt_nfma in E; open_alt E; injection E as <-; cbn; ring.
Qed.
Lemma rule_5b_value : forall d e, cons_with d -> val (rule_5b d e) = val e.
Proof.
  intros d e C. unfold rule_5b. rewrite first_match_sound; [apply first_match_sound, alt_simple_value|].
  intros a H x y E. alt_in H. unfold alt_nfms in E. open_alt E. injection E as <-. cbn. mones C. ring.
Qed.
Lemma rule_5c_value : forall e, val (rule_5c e) = val e.
Proof.
  intros e. apply first_match_sound. intros a H x y E. alt_in H;
    unfold alt_5c_add, alt_5c_sub_fma, alt_5c_sub_fms in E; open_alt E; injection E as <-; cbn; ring.
Qed.
Lemma neg_mul_l_value : forall d e e', cons_with d -> neg_mul_l d e = Some e' -> val e = fopp (val e').
Proof. intros d e e' C E. unfold neg_mul_l in E. open_alt E. injection E as <-. cbn. mones C. ring. Qed.
Lemma neg_mul_r_value : forall d e e', cons_with d -> neg_mul_r d e = Some e' -> val e = fopp (val e').
Proof. intros d e e' C E. unfold neg_mul_r in E. open_alt E. injection E as <-. cbn. mones C. ring. Qed.
Definition negates (strip : sexpr -> option sexpr) : Prop := forall e e', strip e = Some e' -> val e = fopp (val e').
Lemma alt_5d_value : forall strip second e e', negates strip -> alt_5d strip second e = Some e' -> val e' = val e.
Proof.
  intros strip second e e' N E. unfold alt_5d in E. open_alt E; destruct (strip _) eqn:K; try discriminate;
    apply N in K; injection E as <-; cbn; rewrite K; ring.
Qed.
Lemma rule_5d_value : forall d e, cons_with d -> val (rule_5d d e) = val e.
Proof.
  intros d e C. apply first_match_sound. intros a H x y E. alt_in H;
    (eapply alt_5d_value; [|exact E]); intros u v; (now apply neg_mul_l_value || now apply neg_mul_r_value).
Qed.
Lemma rule_5e_value : forall d e, cons_with d -> val (rule_5e d e) = val e.
Proof.
  intros d e C. apply first_match_sound. intros a H x y E. alt_in H;
    unfold alt_5e_1, alt_5e_2, alt_5e_3, alt_5e_4 in E; open_alt E; injection E as <-; cbn; mones C; ring.
Qed.
Lemma strip_inner_negates : forall strip, negates strip -> negates (strip_inner strip).
Proof.
  intros strip N e e' E. unfold strip_inner in E. open_alt E. destruct (strip _) eqn:K; [|discriminate].
  apply N in K. injection E as <-. cbn. rewrite K. ring.
Qed.
Lemma alt_5f_nfma_value : forall strip e e', negates strip -> alt_5f_nfma strip e = Some e' -> val e' = val e.
Proof.
  intros strip e e' N E. unfold alt_5f_nfma in E. open_alt E. destruct (strip _) eqn:K; [|discriminate].
  apply N in K. injection E as <-. cbn. rewrite K. ring.
Qed.
Lemma alt_5f_fms_value : forall strip e e', negates strip -> alt_5f_fms strip e = Some e' -> val e' = val e.
Proof.
  intros strip e e' N E. unfold alt_5f_fms in E. open_alt E. destruct (strip _) eqn:K; [|discriminate].
  apply N in K. injection E as <-. cbn. rewrite K. ring.
Qed.
Lemma rule_5f_value : forall d e, cons_with d -> val (rule_5f d e) = val e.
Proof.
  intros d e C.
  assert (NL : negates (neg_mul_l d)) by (intros u v; now apply neg_mul_l_value).
  assert (NR : negates (neg_mul_r d)) by (intros u v; now apply neg_mul_r_value).
  apply first_match_sound. intros a H x y E.
  alt_in H; (eapply alt_5f_nfma_value; [|exact E]) || (eapply alt_5f_fms_value; [|exact E]);
    auto using strip_inner_negates.
Qed.
Lemma rule_5g_value : forall e, val (rule_5g e) = val e.
Proof.
  intros e. apply first_match_sound. intros a H. apply alt_simple_value. cbn [In] in *. tauto.
Qed.

Lemma later_steps_value : forall fuel more d e, cons_with d -> nodup_sums e ->
  val (later_steps canon fuel more d e) = val e.
Proof.
  intros fuel more d e C N. unfold later_steps.
  rewrite (topdown_sound_all _ rule_5g_value).
  rewrite (topdown_sound_all _ (fun e => rule_5f_value d e C)).
  rewrite (topdown_sound_all _ (fun e => rule_5e_value d e C)).
  rewrite (topdown_sound_all _ (fun e => rule_5d_value d e C)).
  destruct more;
    rewrite ?(topdown_sound_all _ rule_5c_value), (topdown_sound_all _ (fun e => rule_5b_value d e C)),
      ?(topdown_sound_all _ rule_5a_value), (topdown_sound_all _ (fun e => rule_div_value d e C)),
      (topdown_sound_all _ rule_nary_value);
    apply (topdown_sound nodup_sums); auto using rule_sub_value; intros; eapply rule_sub_children; eauto.
Qed.

(** ** The power pass *)
Lemma map_st_spec : forall (J : sstate -> Prop) (P : sexpr -> Prop) (R : sexpr -> sexpr -> Prop) g,
  (forall st x, J st -> P x -> J (fst (g st x)) /\ R x (snd (g st x))) ->
  forall l st, J st -> (forall x, In x l -> P x) ->
    J (fst (map_st g st l)) /\ Forall2 R l (snd (map_st g st l)).
Proof.
  intros J P R g G l; induction l as [|x l IH]; intros st Hst HP; cbn [map_st]; [split; [auto|constructor]|].
  destruct (G st x Hst (HP x (or_introl eq_refl))) as [J1 R1]. destruct (g st x) as [st1 x'].
  destruct (IH st1 J1 (fun y Hy => HP y (or_intror Hy))) as [J2 R2]. destruct (map_st g st1 l) as [st2 r'].
  cbn in *. split; auto.
Qed.

Lemma topdown_st_value : forall (J : sstate -> Prop) (P : sexpr -> Prop) r,
  (forall st e, J st -> P e -> J (fst (r st e)) /\ val (snd (r st e)) = val e /\
     forall f l x, snd (r st e) = App f l -> In x l -> P x) ->
  forall n st e, J st -> P e -> J (fst (topdown_st n r st e)) /\ val (snd (topdown_st n r st e)) = val e.
Proof.
  intros J P r H n; induction n as [|n IH]; intros st e Hst He; cbn [topdown_st]; [auto|].
  destruct (H st e Hst He) as (J1 & V1 & C1). destruct (r st e) as [st1 e1]. cbn [fst snd] in *.
  destruct e1 as [a|f l]; [auto|].
  destruct (map_st_spec J P (fun x y => val y = val x) (topdown_st n r) IH l st1 J1) as [J2 R2].
  { intros x Hx. eapply C1; eauto. }
  destruct (map_st (topdown_st n r) st1 l) as [st2 l2]. cbn [fst snd] in *. split; auto.
  rewrite <- V1. apply value_app_ext. clear -R2. induction R2 as [|x y l1 l2 E _ IH2]; cbn [map]; [reflexivity|].
  cbn beta in E. now rewrite E, IH2.
Qed.
End Facts.

(** The states reachable from the dictionary [d]. *)
Definition reachable (one : string) (d : dict Qc) (st : sstate) : Prop :=
  st = init_state d \/ (s_one (init_state d) = false /\ st = MkS (dset one 1%Qc d) true).

Lemma add_one_reachable : forall one d st, reachable one d st -> reachable one d (add_one one st).
Proof.
  intros one d st [->|[H ->]]; unfold add_one.
  - destruct (s_one (init_state d)) eqn:E; [left|right]; auto.
  - right; auto.
Qed.
Lemma integer_pow_reachable : forall one d st a n, reachable one d st -> reachable one d (fst (integer_pow one st a n)).
Proof.
  intros one d st a n H. unfold integer_pow.
  destruct (Z.leb 2 n); [auto|]. destruct (Z.leb n (-2)); [now apply add_one_reachable|].
  destruct (Z.eqb n (-1)); [now apply add_one_reachable|auto].
Qed.
Lemma rule_pow_reachable : forall canon one d st e, reachable one d st -> reachable one d (fst (rule_pow canon one st e)).
Proof.
  intros canon one d st e H. unfold rule_pow. destruct (as2 FPow e) as [[a b]|]; auto.
  repeat match goal with |- context [if ?c then _ else _] => destruct c; auto end.
  destruct (exponent _ b) as [[s|q|q]|]; auto.
  repeat match goal with |- context [if ?c then _ else _] => destruct c; auto end.
  now apply integer_pow_reachable.
Qed.

Lemma exponent_set : forall one d b, exponent (dset one 1%Qc d) b = Atom (Rat 0%Qc) -> exponent d b = Atom (Rat 0%Qc).
Proof.
  intros one d [[s|q|q]|] H; cbn in *; auto. destruct (String.eqb_spec s one) as [->|D].
  - rewrite dget_dset_same in H. inversion H.
  - rewrite dget_dset_other in H by auto. exact H.
Qed.
Lemma reachable_no_zero : forall one d st e, reachable one d st -> no_zero_power d e -> no_zero_power (s_dict st) e.
Proof.
  intros one d st e [->|[_ ->]] N a b S; cbn [s_dict init_state]; [exact (N a b S)|].
  intros H. apply exponent_set in H. exact (N a b S H).
Qed.

Lemma no_zero_arg : forall d f l x, no_zero_power d (App f l) -> In x l -> no_zero_power d x.
Proof. intros d f l x N Hx a b S. apply (N a b). econstructor; eauto. Qed.
Lemma pos_pow_subterm : forall s a k, subterm s (pos_pow a k) -> (exists x y, s = App SMul [x; y]) \/ subterm s a.
Proof.
  intros s a k; induction k as [|k IH]; cbn [pos_pow]; intros H; inversion H as [|? ? z Hz Hs]; subst; eauto;
    destruct Hz as [<-|[<-|[]]]; auto.
Qed.
Definition powers_ok (p : sexpr -> Prop) (e : sexpr) : Prop := forall a b, subterm (App FPow [a; b]) e -> p b.
Lemma powers_arg : forall p f l x, powers_ok p (App f l) -> In x l -> powers_ok p x.
Proof. intros p f l x N Hx a b S. apply (N a b). econstructor; eauto. Qed.
(** Every power inside the result of the power rule is a power inside the base, or has exponent 2. *)
Lemma rule_pow_children : forall canon one (p : sexpr -> Prop) st e f l x, p (Atom (Rat (qz 2))) -> (forall l, Permutation (canon l) l) ->
  powers_ok p e -> snd (rule_pow canon one st e) = App f l -> In x l -> powers_ok p x.
Proof.
  intros canon one p st e f l x P2 CP N H Hx. unfold rule_pow in H.
  destruct (as2 FPow e) as [[a b]|] eqn:E; [|cbn in H; subst e; eapply powers_arg; eauto].
  apply as2_inv in E. subst e.
  assert (Na : powers_ok p a) by (apply (powers_arg p FPow [a; b]); cbn; auto).
  assert (Nb : powers_ok p b) by (apply (powers_arg p FPow [a; b]); cbn; auto).
  assert (No : powers_ok p (Atom (Sym one))) by (intros ? ? S; inversion S).
  assert (Ns : powers_ok p (App SSqrt [a])).
  { intros u v S. inversion S as [|? ? z Hz Hs]; subst. destruct Hz as [<-|[]]. exact (Na u v Hs). }
  assert (N2 : powers_ok p (App FPow [a; Atom (Rat (qz 2))])).
  { intros u v S. inversion S as [|? ? z Hz Hs]; subst.
    - exact P2.
    - destruct Hz as [<-|[<-|[]]]; [exact (Na u v Hs)|inversion Hs]. }
  assert (Np : forall k, powers_ok p (pos_pow a k)).
  { intros k u v S. apply pos_pow_subterm in S. destruct S as [(x' & y' & S)|S]; [discriminate|exact (Na u v S)]. }
  assert (NM : forall m, (forall y, In y m -> powers_ok p y) -> powers_ok p (App FMul (canon m))).
  { intros m Hm u v S. inversion S as [|? ? z Hz Hs]; subst. eapply Hm; [|exact Hs].
    eapply Permutation_in; [apply CP|auto]. }
  assert (Fin : forall g m, (forall y, In y m -> powers_ok p y) -> App g m = App f l -> powers_ok p x).
  { intros g m Hm Em. injection Em as -> ->. auto. }
  repeat match type of H with context [if is_num ?u ?v then _ else _] =>
           destruct (is_num u v); [cbn [snd smul] in H; eapply Fin; [|exact H]|] end.
  1-4: intros y Hy; cbn [In] in Hy; repeat (destruct Hy as [<-|Hy]); try contradiction; auto.
  1,2: apply NM; cbn [In]; intros y Hy; repeat (destruct Hy as [<-|Hy]); try contradiction; auto.
  assert (Sp : App SPow [a; b] = App f l -> powers_ok p x).
  { apply Fin. cbn [In]. intros y Hy; repeat (destruct Hy as [<-|Hy]); try contradiction; auto. }
  destruct (exponent _ b) as [[s|q|q]|]; auto.
  destruct (qeqb q third).
  { cbn [snd] in H. eapply Fin; [|exact H]. cbn [In]. intros y [<-|[]]. auto. }
  destruct (Pos.eqb _ 1); [|auto].
  unfold integer_pow in H.
  repeat match type of H with context [if ?c then _ else _] => destruct c; cbn [snd] in H end.
  - destruct (Z.to_nat (Qnum (this q) - 2)) as [|k] eqn:K; cbn [pos_pow] in H; (eapply Fin; [|exact H]);
      cbn [In]; intros y Hy; repeat (destruct Hy as [<-|Hy]); try contradiction; auto.
  - eapply Fin; [|exact H]. cbn [In]. intros y Hy; repeat (destruct Hy as [<-|Hy]); try contradiction; auto.
  - eapply Fin; [|exact H]. cbn [In]. intros y Hy; repeat (destruct Hy as [<-|Hy]); try contradiction; auto.
  - subst a. exact (powers_arg p f l x Na Hx).
Qed.

Lemma rule_un_children : forall d e f l x, no_zero_power d e -> rule_un e = App f l -> In x l -> no_zero_power d x.
Proof.
  intros d [a|g m] f l x N H Hx; [discriminate|].
  assert (m = l) by (destruct g; cbn in H; congruence). subst m. eapply no_zero_arg; eauto.
Qed.
(** The first loop of step 1 introduces no power with exponent 0. *)
Lemma topdown_un_no_zero : forall d n e, no_zero_power d e -> no_zero_power d (topdown n rule_un e).
Proof.
  intros d n; induction n as [|n IH]; intros e N; cbn [topdown]; auto.
  destruct e as [a|g m]; [auto|].
  assert (E : rule_un (App g m) = App (match g with FUn u => SUn u | _ => g end) m) by (destruct g; reflexivity).
  rewrite E. set (g' := match g with FUn u => SUn u | _ => g end).
  assert (G : g' = FPow -> g = FPow) by (unfold g'; destruct g; auto; discriminate). clearbody g'.
  intros a b S. apply subterm_app in S. destruct S as [Eq|(z & Hz & Hs)].
  - destruct m as [|a0 [|b0 [|]]]; try discriminate Eq. cbn [map] in Eq. injection Eq as <- Ea Eb.
    rewrite (G eq_refl) in N. specialize (N a0 b0 (sub_refl _)).
    rewrite Eb. intros X. apply N. destruct n as [|n]; [exact X|].
    destruct b0 as [b1|g1 m1]; [exact X|]. exfalso. cbn [topdown] in X. destruct g1; cbn in X; discriminate.
  - apply in_map_iff in Hz. destruct Hz as (y & <- & Hy). eapply IH; [eapply no_zero_arg; eauto|exact Hs].
Qed.

(** ** Which symbols the result mentions *)
Definition sym_in (s : string) (e : sexpr) : Prop := In s (symbols e).

Lemma symbols_app : forall s f l, sym_in s (App f l) <-> exists x, In x l /\ sym_in s x.
Proof. intros. unfold sym_in. cbn [symbols]. apply in_flat_map. Qed.

Lemma topdown_symbols : forall r, (forall s e, sym_in s (r e) -> sym_in s e) ->
  forall n s e, sym_in s (topdown n r e) -> sym_in s e.
Proof.
  intros r H n; induction n as [|n IH]; intros s e; cbn [topdown]; auto.
  intros Hs. apply H. destruct (r e) as [a|f l]; [exact Hs|].
  apply symbols_app in Hs. destruct Hs as (x & Hx & Hs). apply in_map_iff in Hx. destruct Hx as (y & <- & Hy).
  apply symbols_app. eauto.
Qed.

Lemma first_match_symbols : forall s alts, (forall a, In a alts -> forall e e', a e = Some e' -> sym_in s e' -> sym_in s e) ->
  forall e, sym_in s (first_match alts e) -> sym_in s e.
Proof.
  intros s alts; induction alts as [|a r IH]; cbn [first_match In]; intros H e; [auto|].
  destruct (a e) eqn:E; [eapply H; eauto|apply IH; eauto].
Qed.

Ltac sym_tac :=
  unfold sym_in; cbn [symbols flat_map]; rewrite ?app_nil_r, ?in_app_iff; cbn [symbols flat_map];
  rewrite ?app_nil_r, ?in_app_iff; tauto.
Ltac alt_cases H := cbn [In] in H; repeat (destruct H as [<-|H]); [..|contradiction].

Lemma rule_un_symbols : forall s e, sym_in s (rule_un e) -> sym_in s e.
Proof. intros s [a|[] l]; auto. Qed.

Lemma smul_symbols : forall canon s l, (forall l, Permutation (canon l) l) -> sym_in s (smul canon l) ->
  exists x, In x l /\ sym_in s x.
Proof.
  intros canon s [|x [|y l]] CP H; cbn [smul] in H.
  - destruct H.
  - exists x. cbn; auto.
  - apply symbols_app in H. destruct H as (z & Hz & H). exists z. split; auto.
    eapply Permutation_in; [apply CP|auto].
Qed.
Lemma rule_sub_symbols : forall canon d s e, (forall l, Permutation (canon l) l) ->
  sym_in s (rule_sub canon d e) -> sym_in s e.
Proof.
  intros canon d s e CP H. destruct e as [a|[] args]; try exact H.
  destruct (rule_sub_shape canon d args) as [E|(i & k & j & fs & m & ak & Dik & Hi & Hk & Hj & Mj & E)];
    cbn zeta in *; rewrite E in H; clear E; [auto|].
  apply symbols_app.
  assert (S : sym_in s (App SSub [ak; smul canon (pop_at j fs)]) -> exists x, In x args /\ sym_in s x).
  { intros S. apply symbols_app in S. destruct S as (x & [<-|[<-|[]]] & S); [eauto using nth_error_In|].
    apply smul_symbols in S; auto. destruct S as (y & Hy & S). apply pop_in in Hy.
    exists (App FMul fs). split; [eauto using nth_error_In|]. apply symbols_app. eauto. }
  destruct (filter _ args) as [|y r] eqn:R; [auto|].
  apply symbols_app in H. destruct H as (x & Hx & H). apply (Permutation_in _ (CP _)) in Hx.
  destruct Hx as [<-|Hx]; auto. rewrite <- R in Hx. apply filter_In in Hx. exists x; tauto.
Qed.
Lemma pair_up_symbols : forall f s n l acc, (List.length l <= n)%nat -> sym_in s (pair_up f l acc) ->
  sym_in s acc \/ exists x, In x l /\ sym_in s x.
Proof.
  intros f s; induction n as [|n IH]; intros [|x [|y l]] acc H S; cbn [List.length] in H; try lia; cbn [pair_up] in S; auto.
  - apply symbols_app in S. destruct S as (z & [<-|[<-|[]]] & S); auto. right. exists x; cbn; auto.
  - apply IH in S; [|lia]. destruct S as [S|(z & Hz & S)]; [|right; exists z; cbn; auto].
    apply symbols_app in S. destruct S as (z & [<-|[<-|[]]] & S); auto.
    apply symbols_app in S. destruct S as (z & [<-|[<-|[]]] & S); right; [exists x|exists y]; cbn; auto.
Qed.
Lemma rule_nary_symbols : forall s e, sym_in s (rule_nary e) -> sym_in s e.
Proof.
  assert (G : forall f s l, sym_in s (nest2 f l) -> exists x, In x l /\ sym_in s x).
  { intros f s l H. unfold nest2 in H. apply (pair_up_symbols f s _ _ _ (le_n _)) in H.
    destruct H as [H|(x & Hx & H)].
    - apply symbols_app in H. destruct H as (x & Hx & H). exists x. split; auto.
      rewrite <- (firstn_skipn (List.length l - 2) l). apply in_or_app; auto.
    - exists x. split; auto. rewrite <- (firstn_skipn (List.length l - 2) l). apply in_or_app; auto. }
  intros s [a|[] l] H; auto; cbn [rule_nary] in H; apply symbols_app; eauto.
Qed.
Lemma rule_div_symbols : forall d s e, sym_in s (rule_div d e) -> sym_in s e.
Proof.
  intros d s. apply first_match_symbols. intros a H x y E. alt_cases H;
    unfold alt_div_l, alt_div_r in E; open_alt E; injection E as <-; sym_tac.
Qed.
Lemma rule_5a_symbols : forall s e, sym_in s (rule_5a e) -> sym_in s e.
Proof.
  intros s. apply first_match_symbols. intros a H x y E. alt_cases H;
    unfold alt_fma2_l, alt_fma2_r in E; open_alt E; injection E as <-; sym_tac.
Qed.
Lemma alt_simple_symbols : forall s a, In a [alt_fma_l; alt_fma_r; alt_fms; alt_nfma] ->
  forall e e', a e = Some e' -> sym_in s e' -> sym_in s e.
Proof.
  intros s a H x y E. alt_cases H;
    unfold alt_fma_l, alt_fma_r, alt_fms, alt_nfma in E; open_alt E; injection E as <-; sym_tac.
Qed.
Lemma rule_5b_symbols : forall d s e, sym_in s (rule_5b d e) -> sym_in s e.
Proof.
  intros d s e H. unfold rule_5b in H.
  apply (first_match_symbols s [alt_fma_l; alt_fma_r; alt_fms; alt_nfma]); [apply alt_simple_symbols|].
  revert H. apply first_match_symbols. intros a H x y E. alt_cases H.
  unfold alt_nfms in E. open_alt E. injection E as <-. sym_tac.
Qed.
Lemma rule_5c_symbols : forall s e, sym_in s (rule_5c e) -> sym_in s e.
Proof.
  intros s. apply first_match_symbols. intros a H x y E. alt_cases H;
    unfold alt_5c_add, alt_5c_sub_fma, alt_5c_sub_fms in E; open_alt E; injection E as <-; sym_tac.
Qed.
Definition strips (strip : sexpr -> option sexpr) : Prop := forall s e e', strip e = Some e' -> sym_in s e' -> sym_in s e.
Lemma neg_mul_strips : forall d, strips (neg_mul_l d) /\ strips (neg_mul_r d).
Proof.
  intros d; split; intros s e e' E; unfold neg_mul_l, neg_mul_r in E; open_alt E; injection E as <-; sym_tac.
Qed.
Lemma strip_inner_strips : forall strip, strips strip -> strips (strip_inner strip).
Proof.
  intros strip N s e e' E. unfold strip_inner in E. open_alt E. destruct (strip _) eqn:K; [|discriminate].
  assert (K' := N s _ _ K). injection E as <-. revert K'. sym_tac.
Qed.
Lemma rule_5d_symbols : forall d s e, sym_in s (rule_5d d e) -> sym_in s e.
Proof.
  intros d s. destruct (neg_mul_strips d) as [NL NR]. apply first_match_symbols. intros a H x y E. alt_cases H;
    unfold alt_5d in E; open_alt E; (destruct (neg_mul_l d _) eqn:K || destruct (neg_mul_r d _) eqn:K); try discriminate;
    (assert (K' := NL s _ _ K) || assert (K' := NR s _ _ K)); injection E as <-; revert K'; sym_tac.
Qed.
Lemma rule_5e_symbols : forall d s e, sym_in s (rule_5e d e) -> sym_in s e.
Proof.
  intros d s. apply first_match_symbols. intros a H x y E. alt_cases H;
    unfold alt_5e_1, alt_5e_2, alt_5e_3, alt_5e_4 in E; open_alt E; injection E as <-; sym_tac.
Qed.
Lemma rule_5f_symbols : forall d s e, sym_in s (rule_5f d e) -> sym_in s e.
Proof.
  intros d s. destruct (neg_mul_strips d) as [NL NR].
  assert (A1 : forall strip, strips strip -> forall e e', alt_5f_nfma strip e = Some e' -> sym_in s e' -> sym_in s e).
  { intros strip N e e' E. unfold alt_5f_nfma in E. open_alt E. destruct (strip _) eqn:K; [|discriminate].
    assert (K' := N s _ _ K). injection E as <-. revert K'. sym_tac. }
  assert (A2 : forall strip, strips strip -> forall e e', alt_5f_fms strip e = Some e' -> sym_in s e' -> sym_in s e).
  { intros strip N e e' E. unfold alt_5f_fms in E. open_alt E. destruct (strip _) eqn:K; [|discriminate].
    assert (K' := N s _ _ K). injection E as <-. revert K'. sym_tac. }
  apply first_match_symbols. intros a H. alt_cases H; (apply A1 || apply A2); auto using strip_inner_strips.
Qed.
Lemma rule_5g_symbols : forall s e, sym_in s (rule_5g e) -> sym_in s e.
Proof.
  intros s. apply first_match_symbols. intros a H. apply alt_simple_symbols. cbn [In] in *. tauto.
Qed.
Lemma later_steps_symbols : forall canon fuel more d s e, (forall l, Permutation (canon l) l) ->
  sym_in s (later_steps canon fuel more d e) -> sym_in s e.
Proof.
  intros canon fuel more d s e CP H. unfold later_steps in H.
  apply (topdown_symbols _ rule_5g_symbols) in H.
  apply (topdown_symbols _ (rule_5f_symbols d)) in H.
  apply (topdown_symbols _ (rule_5e_symbols d)) in H.
  apply (topdown_symbols _ (rule_5d_symbols d)) in H.
  assert (C : forall x, sym_in s (if more then topdown fuel rule_5c x else x) -> sym_in s x)
    by (intros x; destruct more; auto; apply (topdown_symbols _ rule_5c_symbols)).
  apply C in H. apply (topdown_symbols _ (rule_5b_symbols d)) in H.
  assert (A : forall x, sym_in s (if more then topdown fuel rule_5a x else x) -> sym_in s x)
    by (intros x; destruct more; auto; apply (topdown_symbols _ rule_5a_symbols)).
  apply A in H. apply (topdown_symbols _ (rule_div_symbols d)) in H.
  apply (topdown_symbols _ rule_nary_symbols) in H.
  revert H. apply topdown_symbols. intros; eapply rule_sub_symbols; eauto.
Qed.

(** The power pass only adds the symbol for 1, and declares it unless a negative half-integer power occurs. *)
Definition neg_half (d : dict Qc) (b : sexpr) : bool :=
  is_num (exponent d b) (half (-1)) || is_num (exponent d b) (half (-3)) || is_num (exponent d b) (half (-5)).
Definition no_neg_half (d : dict Qc) (e : sexpr) : Prop :=
  forall a b, subterm (App FPow [a; b]) e -> neg_half d b = false.

Lemma pos_pow_symbols : forall s a k, sym_in s (pos_pow a k) -> sym_in s a.
Proof.
  intros s a k; induction k as [|k IH]; cbn [pos_pow]; intros H; apply symbols_app in H;
    destruct H as (x & [<-|[<-|[]]] & H); auto.
Qed.
Lemma add_one_flag : forall one st, s_one (add_one one st) = true.
Proof. intros; unfold add_one; destruct (s_one st) eqn:E; auto. Qed.
Lemma rule_pow_symbols : forall canon one st s e, (forall l, Permutation (canon l) l) ->
  sym_in s (snd (rule_pow canon one st e)) -> sym_in s e \/ s = one.
Proof.
  intros canon one st s e CP H. unfold rule_pow in H.
  destruct (as2 FPow e) as [[a b]|] eqn:E; [|auto]. apply as2_inv in E. subst e.
  assert (A : sym_in s a -> sym_in s (App FPow [a; b])) by (intros; apply symbols_app; exists a; cbn; auto).
  assert (B : sym_in s b -> sym_in s (App FPow [a; b])) by (intros; apply symbols_app; exists b; cbn; auto).
  assert (O : sym_in s (Atom (Sym one)) -> s = one) by (intros [<-|[]]; auto).
  assert (Q : sym_in s (App SSqrt [a]) -> sym_in s a) by (intros X; apply symbols_app in X; destruct X as (x & [<-|[]] & X); auto).
  assert (P2 : sym_in s (App FPow [a; Atom (Rat (qz 2))]) -> sym_in s a)
    by (intros X; apply symbols_app in X; destruct X as (x & [<-|[<-|[]]] & X); [auto|destruct X]).
  assert (D : forall x, sym_in s (App SDiv [Atom (Sym one); x]) -> s = one \/ sym_in s x)
    by (intros x X; apply symbols_app in X; destruct X as (y & [<-|[<-|[]]] & X); auto).
  assert (Sp : sym_in s (App SPow [a; b]) -> sym_in s (App FPow [a; b]) \/ s = one)
    by (intros X; left; exact X).
  destruct (is_num _ (half 1)); [cbn [snd] in H; auto|].
  destruct (is_num _ (half (-1))); [cbn [snd] in H; apply D in H; tauto|].
  destruct (is_num _ (half (-3))).
  { cbn [snd] in H. apply D in H. destruct H as [H|H]; auto.
    apply smul_symbols in H; auto. destruct H as (x & [<-|[<-|[]]] & H); auto. }
  destruct (is_num _ (half (-5))).
  { cbn [snd] in H. apply D in H. destruct H as [H|H]; auto.
    apply smul_symbols in H; auto. destruct H as (x & [<-|[<-|[]]] & H); auto. }
  destruct (exponent _ b) as [[t|q|q]|]; auto.
  destruct (qeqb q third).
  { left. apply A. apply symbols_app in H. destruct H as (x & [<-|[]] & H); auto. }
  destruct (Pos.eqb _ 1); [|auto]. unfold integer_pow in H.
  repeat match type of H with context [if ?c then _ else _] => destruct c; cbn [snd] in H end.
  - apply pos_pow_symbols in H; auto.
  - apply D in H. destruct H as [H|H]; auto. apply pos_pow_symbols in H; auto.
  - apply D in H; tauto.
  - auto.
Qed.

Lemma no_zero_two : forall d, exponent d (Atom (Rat (qz 2))) <> Atom (Rat 0%Qc).
Proof. intros d H. inversion H. Qed.

Lemma reachable_neg_half : forall one d st b, reachable one d st -> neg_half d b = false -> neg_half (s_dict st) b = false.
Proof.
  intros one d st b [->|[_ ->]] H; [exact H|]. cbn [s_dict]. unfold neg_half in *.
  destruct b as [[s|q|q]|]; auto. cbn [exponent] in *. destruct (String.eqb_spec s one) as [->|D].
  - rewrite dget_dset_same. reflexivity.
  - rewrite dget_dset_other by auto. exact H.
Qed.

Lemma rule_pow_declared : forall canon one st s e, (forall l, Permutation (canon l) l) -> no_neg_half (s_dict st) e ->
  sym_in s (snd (rule_pow canon one st e)) ->
  sym_in s e \/ (s = one /\ s_one (fst (rule_pow canon one st e)) = true).
Proof.
  intros canon one st s e CP N H.
  destruct (rule_pow_symbols canon one st s e CP H) as [K| ->]; [auto|].
  unfold rule_pow in *. destruct (as2 FPow e) as [[a b]|] eqn:E; [|auto]. apply as2_inv in E. subst e.
  specialize (N a b (sub_refl _)). unfold neg_half in N. apply orb_false_iff in N. destruct N as [N N5].
  apply orb_false_iff in N. destruct N as [N1 N3]. rewrite N1, N3, N5 in *.
  assert (A : sym_in one a -> sym_in one (App FPow [a; b])) by (intros; apply symbols_app; exists a; cbn; auto).
  destruct (is_num _ (half 1)).
  { apply symbols_app in H. destruct H as (x & [<-|[]] & H); auto. }
  destruct (exponent _ b) as [[t|q|q]|]; auto.
  destruct (qeqb q third).
  { left. apply A. apply symbols_app in H. destruct H as (x & [<-|[]] & H); auto. }
  destruct (Pos.eqb _ 1); [|auto]. unfold integer_pow in *.
  repeat match type of H with context [if ?c then _ else _] => destruct c; cbn [fst snd] in * end;
    auto using add_one_flag. apply pos_pow_symbols in H; auto.
Qed.
Lemma rule_pow_flag : forall canon one st e, s_one st = true -> s_one (fst (rule_pow canon one st e)) = true.
Proof.
  intros canon one st e H. unfold rule_pow. destruct (as2 FPow e) as [[a b]|]; auto.
  repeat match goal with |- context [if is_num ?c ?q then _ else _] => destruct (is_num c q); auto end.
  destruct (exponent _ b) as [[s|q|q]|]; auto.
  destruct (qeqb q third); auto. destruct (Pos.eqb _ 1); auto. unfold integer_pow.
  repeat match goal with |- context [if ?c then _ else _] => destruct c; cbn [fst]; auto using add_one_flag end.
Qed.

(** What the power pass does to symbols, flag and dictionary. *)
Lemma topdown_pow_declared : forall canon one d, (forall l, Permutation (canon l) l) ->
  forall n st e, reachable one d st -> no_neg_half d e ->
  let st' := fst (topdown_st n (rule_pow canon one) st e) in
  reachable one d st' /\ (s_one st = true -> s_one st' = true) /\
  forall s, sym_in s (snd (topdown_st n (rule_pow canon one) st e)) -> sym_in s e \/ (s = one /\ s_one st' = true).
Proof.
  intros canon one d CP n; induction n as [|n IH]; intros st e R N; cbn [topdown_st]; [cbn; auto|].
  assert (R1 := rule_pow_reachable canon one d st e R).
  assert (F1 := rule_pow_flag canon one st e).
  assert (D1 : forall s, sym_in s (snd (rule_pow canon one st e)) ->
     sym_in s e \/ (s = one /\ s_one (fst (rule_pow canon one st e)) = true)).
  { intros s. apply rule_pow_declared; auto. intros a b S. eapply reachable_neg_half; eauto. }
  assert (C1 : forall f l x, snd (rule_pow canon one st e) = App f l -> In x l -> no_neg_half d x).
  { intros f l x E Hx. refine (rule_pow_children canon one (fun b => neg_half d b = false) st e f l x _ CP N E Hx).
    reflexivity. }
  destruct (rule_pow canon one st e) as [st1 e1]. cbn [fst snd] in *.
  destruct e1 as [a|f l]; [cbn [fst snd]; auto|].
  assert (C2 : forall x, In x l -> no_neg_half d x) by eauto.
  assert (G : forall l st, reachable one d st -> (forall x, In x l -> no_neg_half d x) ->
     let st' := fst (map_st (topdown_st n (rule_pow canon one)) st l) in
     reachable one d st' /\ (s_one st = true -> s_one st' = true) /\
     forall s, (exists x, In x (snd (map_st (topdown_st n (rule_pow canon one)) st l)) /\ sym_in s x) ->
       (exists x, In x l /\ sym_in s x) \/ (s = one /\ s_one st' = true)).
  { clear -IH. intros l; induction l as [|x l IHl]; intros st R HN; cbn [map_st].
    - cbn. repeat split; auto.
    - destruct (IH st x R (HN x (or_introl eq_refl))) as (Ra & Fa & Sa).
      destruct (topdown_st n (rule_pow canon one) st x) as [st1 x']. cbn [fst snd] in *.
      destruct (IHl st1 Ra (fun y Hy => HN y (or_intror Hy))) as (Rb & Fb & Sb).
      destruct (map_st (topdown_st n (rule_pow canon one)) st1 l) as [st2 r']. cbn [fst snd] in *.
      repeat split; auto. intros s (y & [<-|Hy] & Hs).
      + destruct (Sa s Hs) as [K|[-> K]]; [left; exists x; cbn; auto|right; auto].
      + destruct (Sb s) as [(z & Hz & K)|K]; [eauto|left; exists z; cbn; auto|auto]. }
  destruct (G l st1 R1 C2) as (R2 & F2 & S2).
  destruct (map_st (topdown_st n (rule_pow canon one)) st1 l) as [st2 l2]. cbn [fst snd] in *.
  repeat split; auto. intros s Hs. apply symbols_app in Hs. apply S2 in Hs.
  destruct Hs as [Hs|Hs]; [|auto]. apply symbols_app with (f := f) in Hs. apply D1 in Hs.
  destruct Hs as [Hs|[-> Hs]]; auto.
Qed.

(** In any case no symbol except the one for 1 is added. *)
Lemma topdown_pow_symbols : forall canon one, (forall l, Permutation (canon l) l) ->
  forall n st e s, sym_in s (snd (topdown_st n (rule_pow canon one) st e)) -> sym_in s e \/ s = one.
Proof.
  intros canon one CP n; induction n as [|n IH]; intros st e s H; cbn [topdown_st] in H; [auto|].
  assert (D1 := fun s => rule_pow_symbols canon one st s e CP).
  destruct (rule_pow canon one st e) as [st1 e1]. cbn [fst snd] in *.
  destruct e1 as [a|f l]; [auto|].
  assert (G : forall l st, (exists x, In x (snd (map_st (topdown_st n (rule_pow canon one)) st l)) /\ sym_in s x) ->
       (exists x, In x l /\ sym_in s x) \/ s = one).
  { clear -IH. intros l; induction l as [|x l IHl]; intros st; cbn [map_st].
    - cbn. intros (x & [] & _).
    - assert (Sa := IH st x s).
      destruct (topdown_st n (rule_pow canon one) st x) as [st1 x']. cbn [fst snd] in *.
      assert (Sb := IHl st1).
      destruct (map_st (topdown_st n (rule_pow canon one)) st1 l) as [st2 r']. cbn [fst snd] in *.
      intros (y & [<-|Hy] & Hs).
      + destruct (Sa Hs) as [K|K]; [left; exists x; cbn; auto|auto].
      + destruct Sb as [(z & Hz & K)|K]; [eauto|left; exists z; cbn; auto|auto]. }
  specialize (G l st1). destruct (map_st (topdown_st n (rule_pow canon one)) st1 l) as [st2 l2]. cbn [fst snd] in *.
  apply symbols_app in H. apply G in H. destruct H as [H|H]; auto.
  apply symbols_app with (f := f) in H. auto.
Qed.

(** The first loop of step 1 keeps the exponents' classification. *)
Lemma topdown_un_no_neg_half : forall d n e, no_neg_half d e -> no_neg_half d (topdown n rule_un e).
Proof.
  intros d n; induction n as [|n IH]; intros e N; cbn [topdown]; auto.
  destruct e as [a|g m]; [auto|].
  assert (E : rule_un (App g m) = App (match g with FUn u => SUn u | _ => g end) m) by (destruct g; reflexivity).
  rewrite E. set (g' := match g with FUn u => SUn u | _ => g end).
  assert (G : g' = FPow -> g = FPow) by (unfold g'; destruct g; auto; discriminate). clearbody g'.
  intros a b S. apply subterm_app in S. destruct S as [Eq|(z & Hz & Hs)].
  - destruct m as [|a0 [|b0 [|]]]; try discriminate Eq. cbn [map] in Eq. injection Eq as <- Ea Eb.
    rewrite (G eq_refl) in N. specialize (N a0 b0 (sub_refl _)).
    rewrite Eb. destruct n as [|n]; [exact N|].
    destruct b0 as [b1|g1 m1]; [exact N|]. cbn [topdown]. destruct g1; reflexivity.
  - apply in_map_iff in Hz. destruct Hz as (y & <- & Hy).
    refine (IH y (powers_arg (fun b => neg_half d b = false) g m y N Hy) a b Hs).
Qed.

(** ** The whole conversion *)
Section Whole.
Variables (F : Type) (fO fI : F) (fadd fmul fsub fdiv : F -> F -> F) (fopp finv : F -> F).
Hypothesis Fth : field_theory fO fI fadd fmul fsub fopp fdiv finv (@eq F).
Variable I : interp F.
Hypothesis L : laws F fI fmul fdiv fopp I.
Variable rho : string -> F.
Local Notation val := (value F fO fI fadd fmul fsub fdiv fopp I rho).
Variable canon : list sexpr -> list sexpr.
Hypothesis canon_perm : forall l, Permutation (canon l) l.

Lemma step1_value : forall fuel prefix d e, rho (prefix ++ "_Integer_1")%string = fI -> consistent F I rho d ->
  no_zero_power d e ->
  val (snd (step1 canon fuel prefix d e)) = val e /\ reachable (prefix ++ "_Integer_1") d (fst (step1 canon fuel prefix d e)) /\
  consistent F I rho (s_dict (fst (step1 canon fuel prefix d e))).
Proof.
  intros fuel prefix d e O C N. unfold step1. set (one := (prefix ++ "_Integer_1")%string) in *.
  assert (CR : forall st, reachable one d st -> consistent F I rho (s_dict st)).
  { intros st [->|[_ ->]]; [exact C|]. intros s q H. cbn [s_dict] in H.
    destruct (String.eqb_spec s one) as [->|D].
    - rewrite dget_dset_same in H. injection H as <-. rewrite O. symmetry. apply (l_one _ _ _ _ _ _ L).
    - rewrite dget_dset_other in H by auto. now apply C. }
  destruct (topdown_st_value F fO fI fadd fmul fsub fdiv fopp I rho (reachable one d) (no_zero_power d)
     (rule_pow canon one)) with (n := fuel) (st := init_state d) (e := topdown fuel rule_un e) as [R V].
  - intros st x R Nx. repeat split.
    + now apply rule_pow_reachable.
    + destruct (rule_pow canon one st x) as [st' e'] eqn:E.
      eapply (rule_pow_value F fO fI fadd fmul fsub fdiv fopp finv Fth I L rho canon canon_perm one O); eauto.
      eapply reachable_no_zero; eauto.
    + intros f l y E Hy.
      exact (rule_pow_children canon one (fun b => exponent d b <> Atom (Rat 0%Qc)) st x f l y (no_zero_two d) canon_perm Nx E Hy).
  - left; reflexivity.
  - now apply topdown_un_no_zero.
  - split; [|split]; auto. rewrite V. apply topdown_sound_all. apply rule_un_value.
Qed.

Lemma convert_value : forall fuel prefix more d e, rho (prefix ++ "_Integer_1")%string = fI -> consistent F I rho d ->
  no_zero_power d e -> nodup_sums (snd (step1 canon fuel prefix d e)) ->
  val (snd (convert canon fuel prefix more d e)) = val e.
Proof.
  intros fuel prefix more d e O C N ND. unfold convert.
  destruct (step1_value fuel prefix d e O C N) as (V & _ & C1).
  destruct (step1 canon fuel prefix d e) as [st e1]. cbn [fst snd] in *.
  rewrite <- V. eapply later_steps_value; eauto.
Qed.
End Whole.

Lemma convert_symbols : forall canon fuel prefix more d e s, (forall l, Permutation (canon l) l) ->
  sym_in s (snd (convert canon fuel prefix more d e)) -> sym_in s e \/ s = (prefix ++ "_Integer_1")%string.
Proof.
  intros canon fuel prefix more d e s CP H. unfold convert, step1 in H.
  assert (T := topdown_pow_symbols canon (prefix ++ "_Integer_1") CP fuel (init_state d) (topdown fuel rule_un e) s).
  destruct (topdown_st _ _ _ _) as [st e1]. cbn [fst snd] in *.
  apply later_steps_symbols in H; auto. apply T in H. destruct H as [H|H]; auto.
  left. revert H. apply topdown_symbols. apply rule_un_symbols.
Qed.

Lemma init_one : forall d, s_one (init_state d) = true <-> exists s, In (s, 1%Qc) d.
Proof.
  intros d. cbn [init_state s_one]. rewrite existsb_exists. split.
  - intros ((s & q) & Hs & E). cbn in E. apply qeqb_eq in E. subst. eauto.
  - intros (s & Hs). exists (s, 1%Qc). split; [auto|reflexivity].
Qed.

Lemma convert_declared : forall canon fuel prefix more d e s, (forall l, Permutation (canon l) l) ->
  let one := (prefix ++ "_Integer_1")%string in
  (forall t, In (t, 1%Qc) d -> dget one d = Some 1%Qc) -> no_neg_half d e ->
  sym_in s (snd (convert canon fuel prefix more d e)) ->
  sym_in s e \/ dget s (fst (convert canon fuel prefix more d e)) = Some 1%Qc.
Proof.
  intros canon fuel prefix more d e s CP one H1 N H. unfold convert, step1 in *. fold one in H. fold one.
  destruct (topdown_pow_declared canon one d CP fuel (init_state d) (topdown fuel rule_un e)) as (R & _ & T);
    [left; reflexivity|now apply topdown_un_no_neg_half|].
  destruct (topdown_st _ _ _ _) as [st e1]. cbn [fst snd] in *.
  apply later_steps_symbols in H; auto. apply T in H. destruct H as [H|[-> H]].
  - left. revert H. apply topdown_symbols. apply rule_un_symbols.
  - right. destruct R as [->|[_ ->]].
    + apply init_one in H. destruct H as (t & Ht). cbn [init_state s_dict]. eauto.
    + cbn [s_dict]. apply dget_dset_same.
Qed.
