(** Headline theorems for CSE pre- and post-processing (C29, C30). *)
From Coq Require Import String List ZArith Bool QArith Qcanon Lia Permutation.
From Verif Require Import PyBase PyBaseFacts QcLib ExprTree ExprTreeFacts Simd SimdFacts Cse CseFacts CsePostFacts CsePreFacts.
Import ListNotations.
Open Scope list_scope.
Open Scope string_scope.
Open Scope nat_scope.

(** ** C29 *)
(** What the caller hands over: the definitions (the replacements and the equations among the outputs) and the
    outputs. *)
Definition defs (replaced : repls) (reduced : list relem) : repls :=
  replaced ++ flat_map (fun x => match x with REq l r => [(l, r)] | RExpr _ => [] end) reduced.
Definition outputs (reduced : list relem) : list sexpr :=
  flat_map (fun x => match x with RExpr e => [e] | REq _ _ => [] end) reduced.

(** Whenever post-processing returns, whatever the values of the symbols are, provided they satisfy the definitions:
    no temporary is defined twice, each is defined before it is used, the outputs mention only defined temporaries, and
    executing the remaining definitions from a state that has the free symbols right gives the outputs their values. *)
Theorem C29_value : forall V cst flt app norm,
  (forall rho e, ev V cst flt app rho (norm e) = ev V cst flt app rho e) ->
  (forall e s, In s (symbols (norm e)) -> In s (symbols e)) ->
  forall replaced reduced rho out red,
  NoDup (names (defs replaced reduced)) ->
  sat V cst flt app rho (defs replaced reduced) ->
  cse_postprocess norm replaced reduced = Ok (out, red) ->
  let free t := ~ In t (names (defs replaced reduced)) in
  NoDup (names out) /\ defined_before_use free out /\
  (forall e t, In e red -> In t (symbols e) -> free t \/ In t (names out)) /\
  (forall s e, In (s, e) out -> exists x, (In x red \/ In x (map snd out)) /\ In s (symbols x)) /\
  forall st, (forall t, free t -> st t = rho t) ->
    map (ev V cst flt app (exec V cst flt app out st)) red = map (ev V cst flt app rho) (outputs reduced).
Proof.
  intros V cst flt app norm NV NS replaced reduced rho out red ND S H free.
  set (T := fun t => In t (names (defs replaced reduced))).
  assert (dec : forall t, T t \/ free t).
  { intros t. unfold T, free. destruct (in_dec string_dec t (names (defs replaced reduced))); auto. }
  set (vals := map (ev V cst flt app rho) (outputs reduced)).
  assert (G0 : good V cst flt app rho T vals (defs replaced reduced, outputs reduced)).
  { constructor; auto. intros t Ht _. exact Ht. }
  unfold cse_postprocess in H.
  change (split_equalities replaced reduced) with (defs replaced reduced, outputs reduced) in H.
  destruct (const_loop norm _ _) as [st1|x] eqn:E1; cbn [py_bind] in H; [|discriminate].
  assert (G1 := const_loop_good V cst flt app norm NV NS rho T vals _ _ _ G0 E1).
  destruct (sort_repls (fst st1)) as [sorted|x] eqn:E2; cbn [py_bind] in H; [|discriminate].
  destruct (sort_repls_spec _ _ (g_nodup _ _ _ _ _ _ _ _ G1) E2) as [P O].
  assert (G2 : good V cst flt app rho T vals (sorted, snd st1)).
  { destruct G1 as [A1 A2 A3 A4]. constructor; cbn [fst snd]; auto.
    - intros s e K. apply A1. eapply Permutation_in; eauto.
    - intros t Ht K. apply (Permutation_in (l := names (fst st1))).
      + apply Permutation_map. apply Permutation_sym; exact P.
      + apply A3; auto. destruct K as [(s & e & K1 & K2)|K]; [left|right; exact K].
        exists s, e. split; auto. eapply Permutation_in; eauto.
    - eapply Permutation_NoDup; [apply Permutation_map, Permutation_sym; exact P|exact A4]. }
  destruct (back_loop_good V cst flt app norm NV NS rho T vals (Datatypes.S (length sorted)) 0 (sorted, snd st1) G2 O)
    as (st2 & E3 & G3 & O3); [cbn [fst]; lia|].
  rewrite E3 in H. cbn [py_bind] in H. injection H as <- <-.
  destruct (remove_unused_good V cst flt app rho T vals st2 G3 O3) as (G4 & O4 & I4 & U4).
  set (l := remove_unused (fst st2) (snd st2)) in *.
  assert (D : defined_before_use free l).
  { apply ordered_closed_defined; auto. intros s e t K1 K2. destruct (dec t) as [Ht|Ht]; auto. right.
    apply (g_closed _ _ _ _ _ _ _ _ G4); auto. left. exists s, e. auto. }
  assert (C : forall e t, In e (snd st2) -> In t (symbols e) -> free t \/ In t (names l)).
  { intros e t K1 K2. destruct (dec t) as [Ht|Ht]; auto. right.
    apply (g_closed _ _ _ _ _ _ _ _ G4); auto. right. eauto. }
  split; [exact (g_nodup _ _ _ _ _ _ _ _ G4)|]. split; [exact D|]. split; [exact C|]. split; [exact U4|].
  intros st Hst. rewrite <- (g_vals _ _ _ _ _ _ _ _ G4). cbn [snd]. apply map_ext_in. intros e He.
  apply ev_ext. intros t Ht.
  apply (exec_agrees V cst flt app rho l free); auto; [exact (g_sat _ _ _ _ _ _ _ _ G4)|exact (C e t He Ht)].
Qed.

(** It terminates without error when every definition is unique and none is circular, and then the definitions have a
    solution for all values of the free symbols. *)
Theorem C29_total : forall norm, (forall e s, In s (symbols (norm e)) -> In s (symbols e)) ->
  forall replaced reduced, NoDup (names (defs replaced reduced)) -> acyclic (defs replaced reduced) ->
  (exists r, cse_postprocess norm replaced reduced = Ok r) /\
  forall V cst flt app st, exists rho, sat V cst flt app rho (defs replaced reduced) /\
    forall t, ~ In t (names (defs replaced reduced)) -> rho t = st t.
Proof.
  intros norm NS replaced reduced ND A. split.
  - unfold cse_postprocess.
    change (split_equalities replaced reduced) with (defs replaced reduced, outputs reduced).
    destruct (const_loop_terminates norm (S (length (defs replaced reduced))) (defs replaced reduced, outputs reduced))
      as (st1 & E1); [cbn [fst]; lia|]. cbn [fst snd]. rewrite E1. cbn [py_bind].
    destruct (const_loop_acyclic norm NS _ _ _ E1 A ND) as [A1 N1].
    destruct (sort_repls_total _ N1 A1) as (sorted & E2). rewrite E2. cbn [py_bind].
    destruct (sort_repls_spec _ _ N1 E2) as [P O].
    (* the loop needs no more than the shape: use the one-point algebra *)
    assert (G : good unit (fun _ => tt) (fun _ => tt) (fun _ _ => tt) (fun _ => tt) (fun _ => False)
                  (map (fun _ => tt) (snd st1)) (sorted, snd st1)).
    { constructor; cbn [fst snd].
      - intros s e _. destruct (ev _ _ _ _ _ e); reflexivity.
      - apply map_ext. intros e. destruct (ev _ _ _ _ _ e); reflexivity.
      - intros t [].
      - eapply Permutation_NoDup; [apply Permutation_map, Permutation_sym; exact P|exact N1]. }
    destruct (back_loop_good unit (fun _ => tt) (fun _ => tt) (fun _ _ => tt) norm) with
      (vals := map (fun _ : sexpr => tt) (snd st1)) (fuel := S (length sorted)) (i := 0) (st := (sorted, snd st1))
      (rho := fun _ : string => tt) (T := fun _ : string => False) as (st2 & E3 & _); auto.
    + intros rho e. destruct (ev _ _ _ _ rho e), (ev _ _ _ _ rho (norm e)). reflexivity.
    + cbn [fst]. lia.
    + rewrite E3. cbn [py_bind]. eauto.
  - intros V cst flt app st. destruct (sort_repls_total _ ND A) as (sorted & E).
    destruct (sort_repls_spec _ _ ND E) as [P O].
    assert (N : NoDup (names sorted))
      by (eapply Permutation_NoDup; [apply Permutation_map, Permutation_sym; exact P|exact ND]).
    exists (exec V cst flt app sorted st). split.
    + intros s e K. apply (exec_sat V cst flt app sorted st O N). eapply Permutation_in; [apply Permutation_sym; exact P|exact K].
    + intros t K. apply exec_other. intros X. apply K. eapply Permutation_in; [|exact X]. apply Permutation_map. exact P.
Qed.

(** The output of a CSE pass: replacements in order, each defined once, no equations.  Executing what is left gives
    every output the value that executing the original replacements gives it. *)
Theorem C29_cse : forall V cst flt app norm,
  (forall rho e, ev V cst flt app rho (norm e) = ev V cst flt app rho e) ->
  (forall e s, In s (symbols (norm e)) -> In s (symbols e)) ->
  forall replaced exprs, NoDup (names replaced) ->
  defined_before_use (fun t => ~ In t (names replaced)) replaced ->
  exists out red, cse_postprocess norm replaced (map RExpr exprs) = Ok (out, red) /\
    NoDup (names out) /\ defined_before_use (fun t => ~ In t (names replaced)) out /\
    forall st, map (ev V cst flt app (exec V cst flt app out st)) red =
               map (ev V cst flt app (exec V cst flt app replaced st)) exprs.
Proof.
  intros V cst flt app norm NV NS replaced exprs ND DB.
  assert (D : defs replaced (map RExpr exprs) = replaced).
  { unfold defs. rewrite <- (app_nil_r replaced) at 2. f_equal. induction exprs; cbn; auto. }
  assert (O' : outputs (map RExpr exprs) = exprs).
  { unfold outputs. clear. induction exprs; cbn; congruence. }
  assert (O : ordered replaced).
  { clear -DB ND.
    assert (X : forall l A, NoDup (names l) -> (forall t, In t (names l) -> ~ A t) -> defined_before_use A l -> ordered l).
    { intros l; induction l as [|[s e] l IH]; intros A N HA H; cbn [ordered]; [exact Logic.I|].
      destruct H as [H1 H2]. split; [intros t Ht K; exact (HA t K (H1 t Ht))|].
      cbn [names map fst] in N. inversion N as [|? ? N1 N2]; subst.
      apply (IH (fun t => A t \/ t = s)); auto. intros t Ht [K|K].
      - apply (HA t); auto. cbn [names map fst]. right; exact Ht.
      - subst t. exact (N1 Ht). }
    eapply X; eauto. cbn beta. tauto. }
  destruct (C29_total norm NS replaced (map RExpr exprs)) as [[[out red] E] _].
  { rewrite D; auto. } { rewrite D; apply ordered_acyclic; auto. }
  exists out, red. split; [exact E|].
  assert (V0 := fun st => C29_value V cst flt app norm NV NS replaced (map RExpr exprs)
    (exec V cst flt app replaced st) out red). rewrite D in V0.
  assert (V1 := fun st => V0 st ND (exec_sat V cst flt app replaced st O ND) E). cbn zeta in V1. clear V0.
  rewrite O' in V1.
  assert (B : NoDup (names out) /\ defined_before_use (fun t => ~ In t (names replaced)) out).
  { clear -E D NS ND O.
    destruct (C29_value unit (fun _ => tt) (fun _ => tt) (fun _ _ => tt) norm) with
      (replaced := replaced) (reduced := map RExpr exprs) (rho := fun _ : string => tt) (out := out) (red := red)
      as (B1 & B2 & _); auto.
    - intros rho e. destruct (ev _ _ _ _ rho e), (ev _ _ _ _ rho (norm e)). reflexivity.
    - rewrite D; auto.
    - intros s e _. destruct (ev _ _ _ _ _ e); reflexivity.
    - rewrite D in B2. auto. }
  destruct B as [B1 B2]. split; auto. split; auto.
  intros st. destruct (V1 st) as (_ & _ & _ & _ & V2). apply V2.
  intros t Ht. symmetry. apply exec_other. exact Ht.
Qed.

(** *** Examples, with SymPy's evaluation left out *)
Definition sy (s : string) : sexpr := Atom (Sym s).
Definition nu (n : Z) : sexpr := Atom (Rat (qz n)).
Definition add l : sexpr := App FAdd l.
Definition mul l : sexpr := App FMul l.
Definition pow a b : sexpr := App FPow [a; b].
Definition cos_ x : sexpr := App (FOther "cos") [x].
Definition post := cse_postprocess (fun e => e).

Example C29_id_ok : (forall V cst flt app rho e, ev V cst flt app rho ((fun e : sexpr => e) e) = ev V cst flt app rho e) /\
  (forall e s, In s (symbols ((fun e : sexpr => e) e)) -> In s (symbols e)).
Proof. auto. Qed.
(** x0 = x + y + 3 is kept; x1 = 3*x is put back; x2 is a constant; x3 is not used; the equation goes to its place. *)
Example C29_ex :
  let replaced := [("x0", add [sy "x"; sy "y"; nu 3]); ("x1", mul [nu 3; sy "x"]); ("x2", nu 5);
                   ("x3", pow (sy "y") (nu 3)); ("x4", mul [sy "t"; sy "x0"; sy "x0"])] in
  let reduced := [RExpr (add [sy "x0"; cos_ (sy "x0")]); RExpr (add [sy "x1"; cos_ (sy "x1"); sy "x2"]);
                  REq "t" (pow (sy "x0") (nu 3)); RExpr (cos_ (mul [sy "x4"; sy "t"]))] in
  post replaced reduced =
  Ok ([("x0", add [sy "x"; sy "y"; nu 3]); ("t", pow (sy "x0") (nu 3)); ("x4", mul [sy "t"; sy "x0"; sy "x0"])],
      [add [sy "x0"; cos_ (sy "x0")]; add [mul [nu 3; sy "x"]; cos_ (mul [nu 3; sy "x"]); nu 5];
       cos_ (mul [sy "x4"; sy "t"])]).
Proof. vm_compute. reflexivity. Qed.
Example C29_ex_hyps :
  let replaced := [("x0", add [sy "x"; sy "y"]); ("x1", mul [nu 3; sy "x0"])] in
  NoDup (names replaced) /\ defined_before_use (fun t => ~ In t (names replaced)) replaced.
Proof.
  cbn. split; [repeat constructor; cbn; intuition discriminate|].
  split; [intros t [<-|[<-|[]]]; intuition discriminate|]. split; [|exact Logic.I].
  intros t [<-|[]]. auto.
Qed.
(** Circular and doubled definitions are refused. *)
Example C29_ex_circular : post [("a", cos_ (sy "b")); ("b", cos_ (sy "a"))] [RExpr (sy "a")] = Err AssertionError.
Proof. vm_compute. reflexivity. Qed.
Example C29_ex_double : post [("a", cos_ (sy "x")); ("a", cos_ (sy "y"))] [RExpr (sy "a")] = Err AssertionError.
Proof. vm_compute. reflexivity. Qed.
(** A negative product at position 0 makes the loop pass over the next entry: x1 stays although it occurs once. *)
Example C29_ex_skip :
  post [("x0", mul [nu (-1); sy "x"]); ("x1", mul [nu 3; sy "y"])] [RExpr (cos_ (sy "x0")); RExpr (cos_ (sy "x1"))] =
  Ok ([("x1", mul [nu 3; sy "y"])], [cos_ (mul [nu (-1); sy "x"]); cos_ (sy "x1")]).
Proof. vm_compute. reflexivity. Qed.

(** ** C30 *)
(** [collect] is SymPy's partial factoring: equal in value, no new symbol, no fractional power of a symbol. *)
Record collect_ok {V} (cst flt : Qc -> V) (app : fname -> list V -> V) (collect : list string -> sexpr -> sexpr) : Prop := {
  co_value : forall vs e rho, ev V cst flt app rho (collect vs e) = ev V cst flt app rho e;
  co_symbols : forall vs e t, In t (symbols (collect vs e)) -> In t (symbols e);
  co_powers : forall vs e s, int_powers (Sym s) e -> int_powers (Sym s) (collect vs e) }.
(** Arithmetic of -1. *)
Record neg_laws {V} (cst : Qc -> V) (app : fname -> list V -> V) : Prop := {
  nl_neg : forall q, app FMul [cst minus_one; cst q] = cst (- q)%Qc;
  nl_pow : forall q, Qden (this q) = 1%positive ->
    app FPow [cst minus_one; cst q] = cst (if Z.even (Qnum (this q)) then 1%Qc else minus_one) }.

(** Every value is kept under every assignment that gives the symbols of the table their numbers (and 1 to
    _Integer_1).  When -1 is made a symbol, its name must be unused and the powers of -1 must be integer powers. *)
Theorem C30_value : forall V (cst flt : Qc -> V) app collect, neg_laws cst app -> collect_ok cst flt app collect ->
  forall fuel prefix declare factor negative es d es',
  cse_preprocess collect fuel prefix declare factor negative [] es = Ok (d, es') ->
  (declare = true -> forall e, In e es -> ~ In (negone_name prefix) (symbols e) /\ int_powers (Rat minus_one) e) ->
  forall rho, (forall s q, In (s, q) d -> rho s = cst q) -> (declare = true -> rho (one_name prefix) = cst 1%Qc) ->
  map (ev V cst flt app rho) es' = map (ev V cst flt app rho) es.
Proof.
  intros V cst flt app collect [L1 L2] [C1 C2 C3] fuel prefix declare factor negative es d es' H Hd rho F R1.
  assert (T : table_ok prefix []) by (split; [constructor|intros ? ? []]).
  destruct (cse_preprocess_spec V cst flt app L1 L2 collect C1 C2 C3 fuel prefix declare factor negative es [] d es' T H)
    as (_ & _ & _ & X). apply X; auto.
Qed.

(** The table names every number it holds once, and every new symbol is in it -- except _Integer_1 when -1 is made a
    symbol. *)
Theorem C30_declared : forall V (cst flt : Qc -> V) app collect, neg_laws cst app -> collect_ok cst flt app collect ->
  forall fuel prefix declare factor negative es d es',
  cse_preprocess collect fuel prefix declare factor negative [] es = Ok (d, es') ->
  NoDup (map fst d) /\ (forall s s' q, In (s, q) d -> In (s', q) d -> s = s') /\
  forall e' t, In e' es' -> In t (symbols e') ->
    (exists e, In e es /\ In t (symbols e)) \/ In t (map fst d) \/ (declare = true /\ t = one_name prefix).
Proof.
  intros V cst flt app collect [L1 L2] [C1 C2 C3] fuel prefix declare factor negative es d es' H.
  assert (T : table_ok prefix []) by (split; [constructor|intros ? ? []]).
  destruct (cse_preprocess_spec V cst flt app L1 L2 collect C1 C2 C3 fuel prefix declare factor negative es [] d es' T H)
    as ([T1 T2] & _ & S & _). split; auto. split; auto.
  intros s s' q K K'. destruct (T2 _ _ K) as [_ ->]. destruct (T2 _ _ K') as [_ ->]. reflexivity.
Qed.

(** Substituting the table back: with -1 left a number, inputs that do not use the table's names keep their value
    under every assignment, unconditionally, and every new symbol is in the table. *)
Definition override {V} (cst : Qc -> V) (d : dict Qc) (st : string -> V) : string -> V :=
  fun t => match dget t d with Some q => cst q | None => st t end.
Theorem C30_substitute : forall V (cst flt : Qc -> V) app collect, neg_laws cst app -> collect_ok cst flt app collect ->
  forall fuel prefix factor negative es d es',
  cse_preprocess collect fuel prefix false factor negative [] es = Ok (d, es') ->
  (forall e t, In e es -> In t (symbols e) -> ~ In t (map fst d)) ->
  (forall e' t, In e' es' -> In t (symbols e') -> (exists e, In e es /\ In t (symbols e)) \/ In t (map fst d)) /\
  forall st, map (ev V cst flt app (override cst d st)) es' = map (ev V cst flt app st) es.
Proof.
  intros V cst flt app collect L C fuel prefix factor negative es d es' H D.
  destruct (C30_declared V cst flt app collect L C _ _ _ _ _ _ _ _ H) as (N & _ & S). split.
  - intros e' t He' Ht. destruct (S e' t He' Ht) as [K|[K|[K _]]]; auto. discriminate.
  - intros st.
    rewrite (C30_value V cst flt app collect L C _ _ _ _ _ _ _ _ H); [| discriminate | | discriminate].
    + apply map_ext_in. intros e He. apply ev_ext. intros t Ht. unfold override.
      destruct (dget t d) eqn:E; auto. exfalso. apply (D e t He Ht). apply dget_In in E. eapply in_dkeys; eauto.
    + intros s q K. unfold override. rewrite (In_dget _ _ _ N K). reflexivity.
Qed.
(** The same with -1 a symbol: _Integer_1 must be given its value too. *)
Theorem C30_substitute_neg : forall V (cst flt : Qc -> V) app collect, neg_laws cst app -> collect_ok cst flt app collect ->
  forall fuel prefix factor negative es d es',
  cse_preprocess collect fuel prefix true factor negative [] es = Ok (d, es') ->
  (forall e t, In e es -> In t (symbols e) -> ~ In t (map fst d) /\ t <> one_name prefix /\ t <> negone_name prefix) ->
  (forall e, In e es -> int_powers (Rat minus_one) e) ->
  forall st, map (ev V cst flt app (override cst (dset (one_name prefix) 1%Qc d) st)) es' = map (ev V cst flt app st) es.
Proof.
  intros V cst flt app collect L C fuel prefix factor negative es d es' H D P st.
  destruct (C30_declared V cst flt app collect L C _ _ _ _ _ _ _ _ H) as (N & U & S).
  assert (T : table_ok prefix d).
  { destruct L as [L1 L2], C as [C1 C2 C3].
    eapply (cse_preprocess_spec V cst flt app L1 L2 collect C1 C2 C3) in H; [tauto|]. split; [constructor|intros ? ? []]. }
  rewrite (C30_value V cst flt app collect L C _ _ _ _ _ _ _ _ H).
  - apply map_ext_in. intros e He. apply ev_ext. intros t Ht. unfold override. destruct (D e t He Ht) as (D1 & D2 & D3).
    rewrite dget_dset_other by congruence.
    destruct (dget t d) eqn:E; auto. exfalso. apply D1. apply dget_In in E. eapply in_dkeys; eauto.
  - intros _ e He. split; auto. intros K. destruct (D e _ He K) as (_ & _ & X). auto.
  - intros s q K. unfold override. destruct (String.eqb_spec s (one_name prefix)) as [->|Ns].
    + rewrite dget_dset_same. destruct T as [_ T]. destruct (T _ _ K) as [L' E].
      change (one_name prefix) with (name_for prefix 1%Qc) in E. apply name_for_inj in E; auto; [now subst|].
      right. unfold nonneg. cbn. lia.
    + rewrite dget_dset_other by auto. rewrite (In_dget _ _ _ N K). reflexivity.
  - intros _. unfold override. now rewrite dget_dset_same.
Qed.

(** *** Refutations and examples *)
(** Values over the rationals, integer powers of -1 only; a fractional power has no value of its own here, the witness
    leaves it arbitrary. *)
Definition pre := cse_preprocess (fun _ e => e).
Lemma id_collect_ok : forall V cst flt app, @collect_ok V cst flt app (fun _ e => e).
Proof. intros. constructor; auto. Qed.

(** (-1)**(1/3): the exponent is truncated to 0, and the expression becomes the constant 1, whatever cube root of -1 the
    algebra has. *)
Theorem C30_fractional_power_refuted :
  exists e d e', pre 5 "" true false false [] [e] = Ok (d, [e']) /\ e = pow (nu (-1)) (Atom (Rat third)) /\
  forall V (cst flt : Qc -> V) app rho, rho "_Integer_1" = cst 1%Qc -> app FPow [cst minus_one; cst third] <> cst 1%Qc ->
    (forall s q, In (s, q) d -> rho s = cst q) -> ev V cst flt app rho e' <> ev V cst flt app rho e.
Proof.
  exists (pow (nu (-1)) (Atom (Rat third))). do 2 eexists. split; [vm_compute; reflexivity|]. split; [reflexivity|].
  intros V cst flt app rho R N _. cbn [ev]. intros K. apply N. cbn in K.
  assert (M : qz (-1) = minus_one) by (apply Qc_is_canon; reflexivity). rewrite M in K. rewrite <- K. exact R.
Qed.
(** (-1)**2 (unevaluated) becomes _Integer_1, which is not in the table when nothing is factored. *)
Theorem C30_undeclared_one_refuted :
  exists e d e', pre 5 "" true false false [] [e] = Ok (d, [e']) /\ In "_Integer_1" (symbols e') /\ ~ In "_Integer_1" (map fst d).
Proof.
  exists (pow (nu (-1)) (nu 2)). do 2 eexists. split; [vm_compute; reflexivity|]. cbn. intuition discriminate.
Qed.
(** A symbolic power of -1 is an error. *)
Example C30_ex_symbolic : pre 5 "" true false false [] [pow (nu (-1)) (sy "n")] = Err TypeError.
Proof. vm_compute. reflexivity. Qed.

(** -x/12 - y/12 + z *)
Definition twelfth : sexpr := Atom (Rat (Q2Qc (-1 # 12))).
Example C30_ex : pre 5 "" false false false [] [add [mul [twelfth; sy "x"]; mul [twelfth; sy "y"]; sy "z"]] =
  Ok ([("_Rational_1_12", Q2Qc (1 # 12))],
      [add [mul [mul [nu (-1); sy "_Rational_1_12"]; sy "x"]; mul [mul [nu (-1); sy "_Rational_1_12"]; sy "y"]; sy "z"]]).
Proof. vm_compute. reflexivity. Qed.
Example C30_ex_neg : pre 5 "FD" true true false []
    [add [mul [twelfth; pow (sy "x") (nu 3)]; pow (nu (-1)) (nu 3); nu 1]; mul [nu (-1); nu 4]] =
  Ok ([("FD_Rational_1_12", Q2Qc (1 # 12)); ("FD_NegativeOne_", minus_one); ("FD_Integer_1", 1%Qc); ("FD_Integer_4", qz 4)],
      [add [mul [mul [sy "FD_NegativeOne_"; sy "FD_Rational_1_12"]; pow (sy "x") (nu 3)]; sy "FD_NegativeOne_"; sy "FD_Integer_1"];
       mul [sy "FD_NegativeOne_"; sy "FD_Integer_4"]]).
Proof. vm_compute. reflexivity. Qed.
(** The laws hold over the rationals. *)
Definition qapp (f : fname) (l : list Qc) : Qc :=
  match f, l with
  | FMul, l => fold_right Qcmult 1%Qc l
  | FAdd, l => fold_right Qcplus 0%Qc l
  | FPow, [b; x] => if Pos.eqb (Qden (this x)) 1 then
                      if Z.even (Qnum (this x)) then Qcpower b (2 * Z.abs_nat (Z.div2 (Qnum (this x)))) else b
                    else 0%Qc
  | _, _ => 0%Qc
  end.
Example C30_laws : neg_laws (fun q => q) qapp.
Proof.
  constructor.
  - intros q. cbn [qapp fold_right]. unfold minus_one. ring.
  - intros q H. cbn [qapp]. rewrite H. cbn [Pos.eqb]. destruct (Z.even (Qnum (this q))); auto.
    generalize (Z.abs_nat (Z.div2 (Qnum (this q)))). intros n. induction n as [|n IH]; [reflexivity|].
    replace (2 * S n) with (S (S (2 * n))) by lia. cbn [Qcpower]. rewrite IH. unfold minus_one. ring.
Qed.

Print Assumptions C29_value.
Print Assumptions C29_total.
Print Assumptions C29_cse.
Print Assumptions C30_value.
Print Assumptions C30_declared.
Print Assumptions C30_substitute.
Print Assumptions C30_substitute_neg.
Print Assumptions C30_fractional_power_refuted.
Print Assumptions C30_undeclared_one_refuted.
