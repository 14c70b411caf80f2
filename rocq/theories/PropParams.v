(** Headline theorems C01-C04 (parameter registries). *)
From Coq Require Import String Ascii List ZArith Bool.
From Verif Require Import PyBase PyBaseFacts Params ParamsFacts.
Import ListNotations.
Open Scope string_scope.

(** C01: the stored parameter is the first valid call; raising = invalid type; raising is a no-op;
    existing entries are never changed. *)
Theorem C01_first_registration_wins : forall calls n p,
  dget n (param_run [] (map OpReg calls)) = Some p <-> first_valid_call calls n p.
Proof. exact C01_first. Qed.

Theorem C01_existing_entries_kept : forall calls d n p,
  dget n d = Some p -> dget n (param_run d (map OpReg calls)) = Some p.
Proof. intros calls d n p H; rewrite C01_find, H; reflexivity. Qed.

Theorem C01_invalid_raises_and_is_noop : forall p d,
  (snd (register_param p d) = Err ValueError <-> ~ valid_call p) /\
  (snd (register_param p d) <> Ok tt -> fst (register_param p d) = d).
Proof. exact C01_raise. Qed.

Example C01_ex :
  let a := MkNP (TOther "list") "m" "x" (VInt 1) "" in
  let b := MkNP TInt "m" "x" (VInt 2) "" in
  let c := MkNP TStr "m2" "x" (VStr "z") "" in
  first_valid_call [a; b; c] "x" b /\
  dget "x" (param_run [] (map OpReg [a; b; c])) = Some b.
Proof.
  cbn zeta. match goal with |- ?P /\ ?Q => assert (H : Q) by reflexivity end.
  split; [apply C01_first_registration_wins|]; exact H.
Qed.

(** C02: every history of registrations and sets behaves as one independent cell per name. *)
Theorem C02_history_refines_cells : forall ops d n,
  option_map np_value (dget n (param_run d ops)) =
  fold_left (cell_step n) ops (option_map np_value (dget n d)).
Proof. exact C02_run_refine. Qed.

Theorem C02_set_then_get : forall n v d d', py_in "::" n = false ->
  set_parval_from_str n v d = (d', Ok tt) ->
  parval_from_str n d' = Ok v /\
  (forall m, actual_param_name m <> n -> parval_from_str m d' = parval_from_str m d).
Proof. exact C02_get_set. Qed.

Theorem C02_errors_exactly_when_missing : forall n d, py_in "::" n = false ->
  (parval_from_str n d = Err ValueError <-> ~ In n (dkeys d)) /\
  (forall v, set_parval_from_str n v d = (d, Err ValueError) <-> ~ In n (dkeys d)).
Proof. exact C02_get_error. Qed.

Theorem C02_module_prefix_ignored_by_get : forall m n d, no_char ":" m ->
  parval_from_str (m ++ "::" ++ n) d = parval_from_str n d.
Proof. intros m n d H; unfold parval_from_str; rewrite actual_name_prefixed; auto. Qed.

Definition d_ex : params_dict := param_run [] (map OpReg default_params).

Example C02_ex : parval_from_str "nrpy.params::fp_type" d_ex = Ok (VStr "double") /\
  parval_from_str "fp_type" (fst (set_parval_from_str "fp_type" (VStr "float") d_ex))
    = Ok (VStr "float").
Proof. split; reflexivity. Qed.

(** C02, refuted parts: the spelling accepted by the getter is rejected by the setter, and a
    parameter whose own name contains "::" can be set but never read back. *)
Theorem C02_setter_accepts_prefix_refuted : exists s v d w,
  parval_from_str s d = Ok w /\ set_parval_from_str s v d = (d, Err ValueError).
Proof.
  exists "nrpy.params::fp_type", (VStr "float"), d_ex, (VStr "double"). split; reflexivity.
Qed.

Theorem C02_colon_name_unreadable_refuted : exists p v d,
  d = fst (register_param p []) /\
  snd (set_parval_from_str (np_name p) v d) = Ok tt /\
  parval_from_str (np_name p) (fst (set_parval_from_str (np_name p) v d)) = Err ValueError.
Proof.
  exists (MkNP TInt "m" "a::b" (VInt 1) ""), (VInt 2); eexists; repeat split; reflexivity.
Qed.

(** C03: every history of registrations (and of default adjustments to a real value) keeps every
    stored C parameter well formed and stored under its own name. *)
Theorem C03_registry_wellformed : forall ops, Forall safe_cop ops ->
  forall n c, In (n, c) (cparam_run [] ops) -> cp_wf c /\ cp_name c = n.
Proof. intros ops H; apply (C03_run ops [] H). intros n c []. Qed.

Definition cp_ex (ty : string) (parf seth : bool) (dv : pyval) (n : string) : code_param :=
  MkCP ty "m" n dv "Real" true parf seth true "".

Example C03_ex :
  let ops := [OpCReg (Some "a") (cp_ex "REAL[3]" true false (VFloat (QArith_base.Qmake 0 1)));
              OpCReg (Some "b") (cp_ex "#define" true true (VStr "unset"));
              OpCReg (Some "c") (cp_ex "REAL" true true (VStr "unset"));
              OpCAdjust "a" (VFloat (QArith_base.Qmake 1 1))] in
  Forall safe_cop ops /\ dkeys (cparam_run [] ops) = ["a"; "b"].
Proof. split; [repeat constructor; discriminate|reflexivity]. Qed.

(** With adjust_CodeParam_default(name, "unset") the invariant fails: a parfile parameter without
    default. *)
Theorem C03_adjust_to_unset_refuted : exists ops n c,
  dget n (cparam_run [] ops) = Some c /\ ~ cp_wf c.
Proof.
  exists [OpCReg (Some "a") (cp_ex "REAL" true true (VFloat (QArith_base.Qmake 0 1))); OpCAdjust "a" (VStr "unset")], "a".
  eexists; split; [reflexivity|]. intros [W _ _ _]. apply W; reflexivity.
Qed.

(** adjust_CodeParam_default changes exactly one default, or raises and changes nothing. *)
Theorem C03_adjust : forall n v d,
  match adjust_CodeParam_default n v d with
  | (d', Ok _) => dkeys d' = dkeys d /\ (exists c c', dget n d = Some c /\ dget n d' = Some c' /\ cp_default c' = v /\
      cp_type c' = cp_type c /\ cp_module c' = cp_module c /\ cp_name c' = cp_name c /\ cp_assumption c' = cp_assumption c /\
      cp_commondata c' = cp_commondata c /\ cp_parfile c' = cp_parfile c /\ cp_set_h c' = cp_set_h c /\ cp_desc c' = cp_desc c) /\
      forall m, m <> n -> dget m d' = dget m d
  | (d', Err e) => e = ValueError /\ d' = d /\ ~ In n (dkeys d)
  end.
Proof.
  intros n v d. unfold adjust_CodeParam_default. destruct (dget n d) as [c|] eqn:G.
  - split; [eapply dkeys_dset_old; eauto|]. split.
    + exists c. eexists. split; [reflexivity|]. split; [apply dget_dset_same|]. cbn. repeat split.
    + intros m H. now apply dget_dset_other.
  - split; [reflexivity|]. split; [reflexivity|]. intros H. apply in_map_iff in H as ([k c] & <- & H).
    apply dget_None_keys in G. apply G. apply in_map_iff. exists (k, c). auto.
Qed.

(** C04: with fresh distinct names the bulk call equals one-by-one registration, including where it
    stops; in general it overwrites, so the last occurrence wins. *)

(** The default and the description the arguments give to position [i]. *)
Definition default_at (dv : defaults_arg) (i : nat) : option pyval :=
  match dv with DScalar v => Some v | DList l => nth_error l i end.
Definition desc_at (ds : descs_arg) (i : nat) : option string :=
  match ds with DescList l => nth_error l i | _ => Some "" end.
(** Arguments that fit together. *)
Definition shape_ok (ns : list string) (dv : defaults_arg) (ds : descs_arg) : Prop :=
  ns <> [] /\ (forall l, dv = DList l -> length l = length ns) /\
  (ds = DescStr "" \/ exists l, ds = DescList l /\ length l = length ns).
(** One entry per name, in order. *)
Definition entries (ns : list string) (dv : defaults_arg) (ds : descs_arg) (l : list (string * (pyval * string))) : Prop :=
  map fst l = ns /\ forall i n v desc, nth_error l i = Some (n, (v, desc)) -> default_at dv i = Some v /\ desc_at ds i = Some desc.

Lemma combine3 : forall (ns : list string) (vs : list pyval) (ds : list string), length vs = length ns -> length ds = length ns ->
  map fst (combine ns (combine vs ds)) = ns /\
  forall i n v d, nth_error (combine ns (combine vs ds)) i = Some (n, (v, d)) -> nth_error vs i = Some v /\ nth_error ds i = Some d.
Proof.
  induction ns as [|n ns IH]; intros [|v vs] [|d ds] H1 H2; try discriminate.
  - split; [reflexivity|]. intros [|i] ? ? ?; discriminate.
  - destruct (IH vs ds) as [A B]; [now injection H1|now injection H2|]. cbn [combine map fst]. split; [now rewrite A|].
    intros [|i] n' v' d'; cbn [nth_error]; [intros [= <- <- <-]; auto|apply B].
Qed.
Lemma nth_error_repeat_some : forall (A : Type) (x : A) k i y, nth_error (repeat x k) i = Some y -> y = x.
Proof. intros A x k i y H. apply nth_error_In in H. now apply repeat_spec in H. Qed.

Lemma bulk_call : forall b ns dv ds d, shape_ok ns dv ds ->
  exists l, entries ns dv ds l /\ register_CodeParameters b (Some ns) dv ds d = bulk_loop b l d [].
Proof.
  intros b ns dv ds d (N & D & S). unfold register_CodeParameters.
  destruct (Nat.ltb_spec (List.length ns) 1) as [L|_]; [exfalso; destruct ns; [congruence|cbn in L; inversion L as [|? L']; inversion L']|].
  set (vs := match dv with DScalar v => repeat v (List.length ns) | DList l => l end).
  assert (Lv : length vs = length ns) by (unfold vs; destruct dv; [apply repeat_length|now apply D]).
  assert (V : forall i v, nth_error vs i = Some v -> default_at dv i = Some v).
  { unfold vs. destruct dv; cbn; intros i v' H; [now apply nth_error_repeat_some in H as ->|exact H]. }
  assert (E : match dv with DScalar v => Ok (repeat v (List.length ns)) | DList l => if Nat.eqb (List.length l) (List.length ns) then Ok l else Err ValueError end = Ok vs).
  { unfold vs in *. destruct dv; [reflexivity|]. now rewrite Lv, Nat.eqb_refl. }
  rewrite E. clear E.
  destruct S as [->|(dl & -> & Ld)].
  - exists (combine ns (combine vs (repeat "" (List.length ns)))). cbn [String.eqb]. split; [|reflexivity].
    destruct (combine3 ns vs (repeat "" (List.length ns)) Lv (repeat_length _ _)) as [A B]. split; [exact A|].
    intros i n v desc H. apply B in H as [H1 H2]. apply nth_error_repeat_some in H2 as ->. split; [auto|reflexivity].
  - exists (combine ns (combine vs dl)). rewrite Ld, Nat.eqb_refl. split; [|reflexivity].
    destruct (combine3 ns vs dl Lv Ld) as [A B]. split; [exact A|]. intros i n v desc H. apply B in H as [H1 H2]. split; [auto|exact H2].
Qed.

(** Ill-fitting arguments raise and change nothing. *)
Theorem C04_bad_shape : forall b names dv ds d,
  (names = None \/ exists ns, names = Some ns /\ ~ shape_ok ns dv ds) ->
  exists e, register_CodeParameters b names dv ds d = (d, Err e) /\ (e = ValueError \/ e = TypeError /\ ds = DescOther).
Proof.
  intros b names dv ds d [->|(ns & -> & H)]; [cbn; eauto|]. unfold register_CodeParameters.
  destruct (Nat.ltb_spec (List.length ns) 1) as [L|L]; [eauto|].
  assert (N : ns <> []) by (intros ->; cbn in L; inversion L).
  destruct dv as [v|l].
  - destruct ds as [s|dl|]; [| |eauto].
    + destruct (String.eqb_spec s "") as [->|Ne]; [|eauto]. exfalso. apply H. split; [exact N|]. split; [discriminate|auto].
    + destruct (Nat.eqb_spec (List.length dl) (List.length ns)) as [E|E]; [|eauto].
      exfalso. apply H. split; [exact N|]. split; [discriminate|]. right. eauto.
  - destruct (Nat.eqb_spec (List.length l) (List.length ns)) as [El|El]; [|eauto].
    destruct ds as [s|dl|]; [| |eauto].
    + destruct (String.eqb_spec s "") as [->|Ne]; [|eauto]. exfalso. apply H. split; [exact N|]. split; [now intros ? [= <-]|auto].
    + destruct (Nat.eqb_spec (List.length dl) (List.length ns)) as [E|E]; [|eauto].
      exfalso. apply H. split; [exact N|]. split; [now intros ? [= <-]|]. right. eauto.
Qed.

(** A single registration: a name that is no string raises TypeError and changes nothing; a string gives the symbol of that name,
    positive exactly when so declared. *)
Theorem C04_single : forall c d, register_CodeParameter None c d = (d, Err TypeError) /\
  (forall n d' r, (forall m, cp_name (c m) = m) -> register_CodeParameter (Some n) c d = (d', Ok r) ->
     fst r = n /\ (snd r = true <-> cp_assumption (c n) = "RealPositive")).
Proof.
  intros c d. split; [reflexivity|]. intros n d' r N H. unfold register_CodeParameter in H.
  destruct (CodeParameter_init (c n) d) as [d1 [c'|]] eqn:E; [|discriminate]. injection H as <- <-.
  unfold CodeParameter_init in E.
  assert (Q : cp_name c' = cp_name (c n) /\ cp_assumption c' = cp_assumption (c n)).
  { destruct (CodeParameter_make (c n)) as [c1|] eqn:M; [|discriminate]. injection E as _ <-. unfold CodeParameter_make in M.
    cbv zeta in M. destruct (is_array_type _ && _); [discriminate|]. destruct (String.eqb (cp_type (c n)) "#define");
    (destruct (cp_parfile _ && _); [discriminate|]); (destruct (String.eqb _ "Real"); [injection M as <-; cbn; auto|]);
    (destruct (String.eqb _ "RealPositive"); [injection M as <-; cbn; auto|discriminate]). }
  destruct Q as [Q1 Q2]. unfold cp_symbol. cbn [fst snd]. rewrite Q1, Q2, N. split; [reflexivity|apply String.eqb_eq].
Qed.

Theorem C04_bulk_is_one_by_one_when_fresh : forall b ns dv ds d, shape_ok ns dv ds ->
  NoDup ns -> (forall n, In n ns -> dget n d = None) ->
  exists l, entries ns dv ds l /\ register_CodeParameters b (Some ns) dv ds d = one_by_one b l d [].
Proof.
  intros b ns dv ds d S N F. destruct (bulk_call b ns dv ds d S) as (l & (E1 & E2) & E). exists l.
  split; [split; auto|]. rewrite E. apply C04_loop; now rewrite E1.
Qed.

(** A successful call returns one symbol per name, in order, and stores for each name the parameter built
    from its last occurrence; other names are untouched. *)
Theorem C04_bulk_result : forall b ns dv ds d d' r, shape_ok ns dv ds -> bk_add_glb b = true ->
  register_CodeParameters b (Some ns) dv ds d = (d', Ok r) ->
  r = map (fun n => (n, String.eqb (bk_assumption b) "RealPositive")) ns /\
  (forall i n, nth_error ns i = Some n -> (forall j, i < j -> nth_error ns j <> Some n) ->
     exists v desc c, default_at dv i = Some v /\ desc_at ds i = Some desc /\
       CodeParameter_make (bulk_cp b n v desc) = Ok c /\ dget n d' = Some c) /\
  (forall m, ~ In m ns -> dget m d' = dget m d).
Proof.
  intros b ns dv ds d d' r Sh G H. destruct (bulk_call b ns dv ds d Sh) as (l & (E1 & E2) & E). rewrite E in H. clear E.
  split; [|split].
  - assert (K : forall l d acc d' r, bulk_loop b l d acc = (d', Ok r) ->
        r = (acc ++ map (fun n => (n, String.eqb (bk_assumption b) "RealPositive")) (map fst l))%list).
    { clear. induction l as [|[n [v desc]] l IH]; intros d acc d' r H; cbn in H.
      - injection H as _ <-. now rewrite app_nil_r.
      - unfold CodeParameter_init in H. destruct (CodeParameter_make (bulk_cp b n v desc)) as [c|e] eqn:M; [|discriminate].
        apply IH in H. rewrite H, <- app_assoc. cbn [map fst List.app]. f_equal. f_equal. unfold cp_symbol.
        assert (A : cp_name c = n /\ cp_assumption c = bk_assumption b).
        { unfold CodeParameter_make in M. cbn in M.
          destruct (is_array_type (bk_type b) && negb (bk_commondata b && negb (bk_set_h b))); [discriminate|].
          destruct (String.eqb (bk_type b) "#define"); cbn in M.
          - destruct (String.eqb (bk_assumption b) "Real"); [injection M as <-; auto|].
            destruct (String.eqb (bk_assumption b) "RealPositive"); [injection M as <-; auto|discriminate].
          - destruct (bk_parfile b && pyval_is_str v "unset"); [discriminate|].
            destruct (String.eqb (bk_assumption b) "Real"); [injection M as <-; auto|].
            destruct (String.eqb (bk_assumption b) "RealPositive"); [injection M as <-; auto|discriminate]. }
        destruct A as [-> ->]. reflexivity. }
    rewrite <- E1. apply (K l d [] d' r H).
  - intros i n Hi Hlast. rewrite <- E1 in Hi, Hlast. rewrite nth_error_map in Hi.
    destruct (nth_error l i) as [[n' [v desc]]|] eqn:Q; [|discriminate]. cbn in Hi. injection Hi as ->.
    exists v, desc. destruct (E2 i n v desc Q) as [D1 D2].
    apply nth_error_split in Q as (l1 & l2 & El & Hl1).
    destruct (C04_last_wins b l d [] d' r G H) as [W _]. destruct (W l1 n v desc l2 El) as (c & C1 & C2).
    + intros I. apply in_map_iff in I as ([m w] & Em & I). cbn in Em. subst m.
      apply In_nth_error in I as [k Hk]. apply (Hlast (S (i + k))); [apply le_n_S, Nat.le_add_r|].
      rewrite El, nth_error_map, nth_error_app2 by (rewrite Hl1; apply Nat.le_trans with (i + k); [apply Nat.le_add_r|apply Nat.le_succ_diag_r]).
      rewrite Hl1. replace (S (i + k) - i) with (S k) by (rewrite <- Nat.add_succ_r, Nat.add_comm; symmetry; apply Nat.add_sub). cbn. rewrite Hk. reflexivity.
    + exists c. auto.
  - intros m Hm. destruct (C04_last_wins b l d [] d' r G H) as [_ W]. apply W. now rewrite E1.
Qed.

Definition bk_ex : bulk_common := MkBulk "REAL" "m" "Real" false true true true.

Example C04_ex_single : let c n := MkCP "REAL" "m" n (VInt 1) "RealPositive" false true true true "" in
  (forall m, cp_name (c m) = m) /\ snd (register_CodeParameter (Some "mass") c []) = Ok ("mass", true).
Proof. split; [reflexivity|vm_compute; reflexivity]. Qed.
Example C04_ex : shape_ok ["a"; "b"] (DScalar (VInt 7)) (DescStr "") /\
  shape_ok ["a"; "b"; "a"] (DList [VInt 1; VInt 2; VInt 3]) (DescList ["x"; "y"; "z"]) /\
  option_map cp_default (dget "b" (fst (register_CodeParameters bk_ex (Some ["a"; "b"]) (DScalar (VInt 7)) (DescStr "") []))) = Some (VInt 7) /\
  (let (d, r) := register_CodeParameters bk_ex (Some ["a"; "b"; "a"]) (DList [VInt 1; VInt 2; VInt 3]) (DescList ["x"; "y"; "z"]) [] in
   r = Ok [("a", false); ("b", false); ("a", false)] /\ option_map cp_default (dget "a" d) = Some (VInt 3)) /\
  adjust_CodeParam_default "q" (VInt 1) [] = ([], Err ValueError).
Proof.
  split; [split; [discriminate|split; [discriminate|auto]]|].
  split; [split; [discriminate|split; [now intros ? [= <-]|right; eexists; split; reflexivity]]|].
  vm_compute. repeat split.
Qed.

Theorem C04_bulk_equals_single_refuted : exists b d n v,
  fst (register_CodeParameters b (Some [n]) (DScalar v) (DescStr "") d)
  <> fst (register_CodeParameter (Some n) (fun m => bulk_cp b m v "") d) /\
  is_ok (snd (register_CodeParameters b (Some [n]) (DScalar v) (DescStr "") d)) = true.
Proof.
  exists bk_ex, [("a", bulk_cp bk_ex "a" (VInt 1) "")], "a", (VInt 2).
  split; [discriminate|reflexivity].
Qed.

Theorem C04_all_or_nothing_refuted : exists b ns dv d e,
  snd (register_CodeParameters b (Some ns) dv (DescStr "") d) = Err e /\
  fst (register_CodeParameters b (Some ns) dv (DescStr "") d) <> d.
Proof.
  exists bk_ex, ["a"; "b"], (DList [VInt 1; VStr "unset"]), [], ValueError.
  split; [reflexivity|discriminate].
Qed.

Print Assumptions C01_first_registration_wins.
Print Assumptions C01_existing_entries_kept.
Print Assumptions C01_invalid_raises_and_is_noop.
Print Assumptions C02_history_refines_cells.
Print Assumptions C02_set_then_get.
Print Assumptions C02_errors_exactly_when_missing.
Print Assumptions C02_module_prefix_ignored_by_get.
Print Assumptions C02_setter_accepts_prefix_refuted.
Print Assumptions C02_colon_name_unreadable_refuted.
Print Assumptions C03_registry_wellformed.
Print Assumptions C03_adjust_to_unset_refuted.
Print Assumptions C03_adjust.
Print Assumptions C04_bad_shape.
Print Assumptions C04_bulk_is_one_by_one_when_fresh.
Print Assumptions C04_bulk_result.
Print Assumptions C04_bulk_equals_single_refuted.
Print Assumptions C04_all_or_nothing_refuted.
Print Assumptions C04_single.
