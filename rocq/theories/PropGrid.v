(** Headline theorems for the gridfunction registry (C05-C09).
    Specification vocabulary (GridFacts.v, GridTensorFacts.v): [grun ops] is the registry after a
    history of the four registration calls; [valid_name]: non-empty, no trailing digit; [canonical ex
    idx]: the index tuple is the representative (ordered) one under the exchanges [ex];
    [component_name base idx]: base name followed by the indices; [parity3], [parity4]: the textbook
    numbering of components. *)
From Coq Require Import String Ascii List Arith ZArith Bool Lia Permutation Sorted.
From Verif Require Import PyBase PyBaseFacts IndexedExp IndexedExpFacts Grid GridFacts GridTensorFacts.
Import ListNotations.
Open Scope list_scope.
Open Scope nat_scope.

(** C05. Every history of calls, accepted or rejected, from the empty registry. *)
Theorem C05_registry_entries_valid : forall ops n gf, dget n (grun ops) = Some gf ->
  In (g_infra gf) ["BHaH"; "ETLegacy"; "CarpetX"]%string /\
  (g_infra gf = "BHaH"%string -> In (g_group gf) ["EVOL"; "AUX"; "AUXEVOL"]%string) /\
  (g_infra gf = "CarpetX"%string ->
     In (g_group gf) ["EVOL"; "AUX"; "AUXEVOL"; "EXTERNAL"; "CORE"; "TILE_TMP"; "SCALAR_TMP"]%string) /\
  (g_isbase gf = true -> n <> ""%string /\ forall c, last_char n = Some c -> is_digit c = false).
Proof.
  intros ops n gf H. destruct (grun_good ops) as [_ G]. destruct (G n gf H) as [A B C D].
  split; auto. split; [|split; auto]; intros E; rewrite E in B; apply B; discriminate.
Qed.

(** Registered entries survive every later call unchanged. *)
Theorem C05_entries_never_change : forall before after n gf,
  dget n (grun before) = Some gf -> dget n (grun (before ++ after)) = Some gf.
Proof. exact grun_stable. Qed.

(** Each key once. *)
Theorem C05_keys_unique : forall ops, NoDup (dkeys (grun ops)).
Proof. intros ops. apply (grun_good ops). Qed.

(** Component names: if scalar calls keep is_basename at its default and the tensor calls use valid
    base names and no antisymmetry, every key is valid or a valid base name followed by indices. *)
Theorem C05_key_names : forall ops, Forall op_ok ops -> forall n gf, dget n (grun ops) = Some gf ->
  valid_name n \/ exists base idx, valid_name base /\ idx <> [] /\ n = component_name base idx.
Proof. exact grun_keys. Qed.

(** What is recorded for each new name of an accepted BlackHoles@Home registration: the i-th entry of
    a list of values at infinity or wave speeds, a single one for all, and by default the array of the
    group. *)
Definition chosen (a : farg) (i : nat) (x : string) : Prop :=
  match a with FScalar y => x = y | FList [] => x = "[]"%string | FList l => nth_error l i = Some x end.
Theorem C05_new_entries_recorded : forall ops names dim k, k_centering k = None ->
  In (k_group k) ["EVOL"; "AUX"; "AUXEVOL"]%string ->
  (k_isbase k = true -> forall n, In n names -> valid_name n) ->
  (forall i n, nth_error names i = Some n -> exists f w, chosen (k_finf k) i f /\ chosen (k_wave k) i w) ->
  NoDup names -> forall i n, nth_error names i = Some n -> dget n (grun ops) = None ->
  exists gf, dget n (grun (ops ++ [OReg "BHaH" names dim k])) = Some gf /\
    g_infra gf = "BHaH"%string /\ g_name gf = n /\ g_group gf = k_group k /\ g_rank gf = k_rank k /\ g_dim gf = dim /\
    chosen (k_finf k) i (g_finf gf) /\ chosen (k_wave k) i (g_wave gf) /\ g_isbase gf = k_isbase k /\
    (forall a, k_array k = Some a -> g_array gf = Some a) /\
    (k_array k = None -> (k_group k, g_array gf) =
       ("EVOL", Some "in_gfs") \/ (k_group k, g_array gf) = ("AUX", Some "aux_gfs") \/
       (k_group k, g_array gf) = ("AUXEVOL", Some "auxevol_gfs"))%string /\
    (k_sync k = None -> g_sync gf = Some true <-> k_group k = "EVOL"%string) /\
    (forall b, k_sync k = Some b -> g_sync gf = Some b).
Proof.
  intros ops names dim k Hc Hg Hb Hp Nd i n Hi Hn.
  assert (P : forall a j x, chosen a j x -> pick a j = Ok x).
  { intros [y|[|y l]] j x H; cbn in *; try congruence. destruct j; cbn in *; [congruence|].
    destruct (nth_error l j); congruence. }
  assert (M : forall j m, nth_error names j = Some m ->
    exists f w, chosen (k_finf k) j f /\ chosen (k_wave k) j w /\ mk_gf "BHaH" m j dim k = mk_BHaH m dim k f w /\
      base_init m (k_isbase k) = Ok tt).
  { intros j m Hj. destruct (Hp j m Hj) as (f & w & F & W). exists f, w. split; auto. split; auto. split.
    - unfold mk_gf. rewrite (P _ _ _ F), (P _ _ _ W). reflexivity.
    - unfold base_init. destruct (k_isbase k) eqn:B; auto. destruct (Hb eq_refl m (nth_error_In _ _ Hj)) as [V1 V2].
      unfold verify_basename. destruct (String.eqb_spec m ""); [contradiction|].
      destruct (last_char m) eqn:L; auto. rewrite (V2 a eq_refl). reflexivity. }
  assert (G : str_in (k_group k) groups3 = true) by (apply str_in_spec; exact Hg).
  assert (M2 : forall j m, nth_error names j = Some m -> exists gf, mk_gf "BHaH" m j dim k = Ok gf).
  { intros j m Hj. destruct (M j m Hj) as (f & w & _ & _ & E & B). rewrite E. unfold mk_BHaH. rewrite Hc, B, G. eauto. }
  assert (L : forall ns o st, (forall j m, nth_error ns j = Some m -> exists gf, mk_gf "BHaH" m (o + j) dim k = Ok gf) ->
    NoDup ns -> forall j gf, nth_error ns j = Some n -> dget n st = None -> mk_gf "BHaH" n (o + j) dim k = Ok gf ->
    dget n (fst (register_loop "BHaH" o ns dim k st)) = Some gf).
  { induction ns as [|m ns IH]; intros o st Hm N j gf Hj Hs Hgf; [destruct j; discriminate|].
    inversion N; subst. cbn [register_loop]. destruct j as [|j].
    - cbn in Hj. injection Hj as ->. unfold dmem. rewrite Hs. rewrite Nat.add_0_r in Hgf. rewrite Hgf.
      apply (register_loop_grows "BHaH" dim k ns (S o)). now rewrite dget_dset_same.
    - cbn in Hj. assert (Ne : n <> m) by (intros ->; apply H1; eapply nth_error_In; eauto).
      assert (Hm' : forall j m, nth_error ns j = Some m -> exists gf, mk_gf "BHaH" m (S o + j) dim k = Ok gf).
      { intros j' m' H'. replace (S o + j') with (o + S j') by lia. apply Hm. exact H'. }
      assert (Hgf' : mk_gf "BHaH" n (S o + j) dim k = Ok gf) by (replace (S o + j) with (o + S j) by lia; auto).
      destruct (dmem m st); [eapply IH; eauto|].
      destruct (Hm 0 m eq_refl) as (gm & Eg). rewrite Nat.add_0_r in Eg. rewrite Eg. eapply IH; eauto.
      rewrite dget_dset_other; auto. }
  destruct (M i n Hi) as (f & w & F & W & E & B). destruct (M2 i n Hi) as (gf & Egf).
  exists gf. split.
  - unfold grun. rewrite fold_left_app. cbn [fold_left grun_op]. unfold register_gridfunctions.
    assert (Q : dget n (fst (register_loop "BHaH" 0 names dim k (grun ops))) = Some gf) by (eapply L; eauto).
    unfold grun in Q. destruct (register_loop "BHaH" 0 names dim k (fold_left grun_op ops [])) as [st' [u|x]]; exact Q.
  - rewrite Egf in E. unfold mk_BHaH in E. rewrite Hc, B, G in E. injection E as ->.
    cbn [g_infra g_name g_group g_rank g_dim g_finf g_wave g_isbase g_array g_sync].
    do 8 (split; [auto|]). split; [intros a ->; auto|]. split.
    { intros ->. destruct Hg as [<-|[<-|[<-|[]]]]; auto. }
    split.
    { intros ->. destruct (String.eqb_spec (k_group k) "EVOL"); split; intros Q; auto; try discriminate Q; contradiction. }
    intros b ->. auto.
Qed.

Example C05_ex_recorded : exists gf,
  dget "beta"%string (grun ([OReg "BHaH" ["phi"]%string 3 kw_default] ++
     [OReg "BHaH" ["alpha"; "beta"]%string 3 (MkKw "AUXEVOL" 0 (FList ["1.0"; "0.5"]) (FScalar "1.0") true None None None)]%string))
    = Some gf /\ g_array gf = Some "auxevol_gfs"%string /\ g_finf gf = "0.5"%string.
Proof. eexists. split; [vm_compute; reflexivity|]. split; reflexivity. Qed.

Definition ex_history : list gop :=
  [OReg "BHaH" ["uu"; "vv"]%string 3 kw_default;
   OReg "BHaH" ["Q2"]%string 3 kw_default;                          (* rejected: trailing digit *)
   ORank1 "" "BHaH" "betU" 3 kw_default;
   ORank2 "" "BHaH" "hDD" "sym01" 3 kw_default;
   OReg "CarpetX" ["rho"]%string 3 (MkKw "EXTERNAL" 0 (FScalar "0.0") (FScalar "1.0") true None None None);
   OReg "BHaH" ["uu"]%string 4 (MkKw "AUX" 0 (FScalar "0.0") (FScalar "1.0") true None None None)].
Example C05_ex : dkeys (grun ex_history) =
   ["uu"; "vv"; "betU0"; "betU1"; "betU2"; "hDD00"; "hDD01"; "hDD02"; "hDD11"; "hDD12"; "hDD22"; "rho"]%string /\
  (exists gf, dget "uu" (grun ex_history) = Some gf /\ g_group gf = "EVOL"%string) /\
  Forall op_ok ex_history.
Proof.
  split; [vm_compute; reflexivity|]. split; [eexists; split; vm_compute; reflexivity|].
  assert (V : forall s, verify_basename s = Ok tt -> valid_name s) by exact verify_basename_ok.
  unfold ex_history. constructor; [reflexivity|]. constructor; [reflexivity|].
  constructor; [split; [now apply V|reflexivity]|].
  constructor; [split; [now apply V|split; [reflexivity|exists [MkSym false 0 1]; right; split]]|].
  - unfold declared_symmetries; rewrite !in_app_iff; vm_compute; intuition.
  - intros o [<-|[]]. reflexivity.
  - constructor; [reflexivity|]. constructor; [reflexivity|constructor].
Qed.

(** Refuted: the ETLegacy class never checks the group, and a tensor base name ending in a digit is
    accepted because the basename check is switched off for components. *)
Theorem C05_ETLegacy_group_refuted : exists ops n gf, dget n (grun ops) = Some gf /\
  g_infra gf = "ETLegacy"%string /\ ~ In (g_group gf) (allowed_groups "ETLegacy").
Proof.
  exists [OReg "ETLegacy" ["uu"]%string 3 (MkKw "BOGUS" 0 (FScalar "0.0") (FScalar "1.0") true None None None)].
  exists "uu"%string. eexists. split; [vm_compute; reflexivity|]. split; [reflexivity|].
  cbn. intuition discriminate.
Qed.
Theorem C05_tensor_basename_refuted : exists ops n gf, dget n (grun ops) = Some gf /\
  n = component_name "u2" [0] /\ ~ valid_name "u2".
Proof.
  exists [ORank1 "" "BHaH" "u2" 3 kw_default], "u20"%string. eexists.
  split; [vm_compute; reflexivity|]. split; [reflexivity|].
  intros [_ H]. specialize (H "2"%char eq_refl). discriminate.
Qed.

(** C06. *)
Theorem C06_lists_partition_sorted : forall ops ev ax ae,
  gridfunction_lists (grun ops) = (ev, ax, ae) ->
  (forall g l, In (g, l) [("EVOL", ev); ("AUX", ax); ("AUXEVOL", ae)]%string ->
     (forall n, In n l <-> exists gf, dget n (grun ops) = Some gf /\ g_group gf = g) /\
     StronglySorted (fun a b => String.leb (py_lower a) (py_lower b) = true) l /\
     (* ties keep the order of registration *)
     (forall key, filter (fun n => String.eqb (py_lower n) key) l =
        filter (fun n => String.eqb (py_lower n) key)
          (map (fun kv => g_name (snd kv)) (filter (fun kv => String.eqb (g_group (snd kv)) g) (grun ops))))) /\
  NoDup (ev ++ ax ++ ae).
Proof.
  intros ops ev ax ae E. unfold gridfunction_lists in E. inversion E; subst. split.
  - intros g l H.
    assert (Hg : In g groups3 /\ l = group_list g (grun ops)).
    { destruct H as [H|[H|[H|[]]]]; inversion H; subst; split; cbn; auto. }
    destruct Hg as [Hg ->]. split; [intros n; apply group_list_In; [apply grun_good|exact Hg]|]. split.
    + apply sort_lower_spec.
    + intros key. apply sort_lower_stable.
  - apply all_lists_NoDup, grun_good.
Qed.
Example C06_ex : gridfunction_lists (grun [OReg "BHaH" ["vv"; "Beta"; "alpha"; "beta"]%string 3 kw_default;
    OReg "BHaH" ["T"]%string 3 (MkKw "AUX" 0 (FScalar "0.0") (FScalar "1.0") true None None None)])
  = (["alpha"; "Beta"; "beta"; "vv"], ["T"], [])%string.
Proof. vm_compute. reflexivity. Qed.

(** C07. Position i of a group's sorted list gets macro number i; the per-gridfunction arrays line up. *)
Theorem C07_defines_number_each_group : forall ops, exists d, gridfunction_defines (grun ops) = Ok d /\
  (forall g, In g ["EVOL"; "AUX"; "AUXEVOL"]%string ->
     let members := group_list g (grun ops) in
     (forall n, In n members <-> exists gf, dget n (grun ops) = Some gf /\ g_group gf = g) /\
     NoDup members /\
     group_num g d = List.length members /\
     map fst (group_macros g d) = map (fun n => py_upper n ++ "GF")%string members /\
     map snd (group_macros g d) = seq 0 (List.length members)) /\
  (forall i n gf, nth_error (group_list "EVOL" (grun ops)) i = Some n -> dget n (grun ops) = Some gf ->
     nth_error (d_finf d) i = Some (g_finf gf) /\ nth_error (d_wave d) i = Some (g_wave gf)) /\
  ((forall a b, In a (dkeys (grun ops)) -> In b (dkeys (grun ops)) -> py_upper a = py_upper b -> a = b) ->
     NoDup (map fst (d_evol d ++ d_aux d ++ d_auxevol d))).
Proof.
  intros ops. pose proof (grun_good ops) as G. destruct (defines_ok _ G) as (d & E & M & A).
  exists d. split; auto. split; [|split; auto].
  - intros g Hg members. destruct (M g Hg) as [M1 M2]. unfold members. rewrite M1, M2.
    split; [intros n; now apply group_list_In|]. split; [now apply group_list_NoDup|].
    split; auto. split; [apply define_gfs_fst|apply define_gfs_snd].
  - apply defines_macros_distinct; auto.
Qed.
Example C07_ex : exists d, gridfunction_defines (grun [OReg "BHaH" ["vv"; "uu"]%string 3
     (MkKw "EVOL" 0 (FList ["2.0"; "3.0"]%string) (FScalar "1.0") true None None None)]) = Ok d /\
  d_evol d = [("UUGF", 0); ("VVGF", 1)]%string /\ d_finf d = ["3.0"; "2.0"]%string /\ d_num d = (2, 0, 0).
Proof. eexists. vm_compute. repeat split. Qed.

(** Refuted for names differing only by case: one macro, two numbers. *)
Theorem C07_case_aliasing_refuted : exists ops d a b, gridfunction_defines (grun ops) = Ok d /\
  a <> b /\ In a (group_list "EVOL" (grun ops)) /\ In b (group_list "EVOL" (grun ops)) /\
  d_evol d = [("AGF", 0); ("AGF", 1)]%string.
Proof.
  exists [OReg "BHaH" ["a"; "A"]%string 3 kw_default]. eexists. exists "a"%string, "A"%string.
  split; [vm_compute; reflexivity|]. split; [discriminate|].
  split; [vm_compute; auto|]. split; [vm_compute; auto|]. reflexivity.
Qed.

(** C08. [shape i idx]: name number i is the component [idx] of a tensor in 3 dimensions, or of a
    rank-2 tensor in 4. *)
Definition expected_parity (dim : Z) (idx : list nat) (v : Z) : Prop :=
  (dim = 3%Z /\ List.length idx <= 2 /\ (forall x, In x idx -> x < 3) /\ v = parity3 idx) \/
  (idx = [] /\ v = 0%Z) \/
  (dim = 4%Z /\ exists i j, idx = [i; j] /\ i < 4 /\ j < 4 /\ v = parity4 i j).

Theorem C08_parity_types : forall ops names vals,
  (forall n gf, dget n (grun ops) = Some gf -> In (g_group gf) ["EVOL"; "AUX"; "AUXEVOL"]%string) ->
  List.length names = List.length vals ->
  (forall i n v, nth_error names i = Some n -> nth_error vals i = Some v ->
     exists gf idx, dget n (grun ops) = Some gf /\ (exists base, n = component_name base idx) /\
       g_rank gf = Z.of_nat (List.length idx) /\ expected_parity (g_dim gf) idx v) ->
  set_parity_types names (grun ops) = Ok vals.
Proof.
  intros ops names vals H3 Hl H. destruct (grun_good ops) as [ND G].
  assert (NK : names_are_keys (grun ops)).
  { intros k gf E. apply (ef_name _ _ (G k gf E)). exact (H3 k gf E). }
  apply set_parity_each; auto. intros i n v Hn Hv.
  destruct (H i n v Hn Hv) as (gf & idx & E & (base & Eb) & Hr & Hx). exists gf. split; auto.
  assert (C : is_component gf idx) by (exists base; rewrite (NK n gf E); auto).
  destruct Hx as [(Hd & Hle & Hb & ->)|[(-> & ->)|(Hd & a & b & -> & Ha & Hbb & ->)]].
  - destruct idx as [|a [|b [|c r]]]; cbn in Hle; try lia.
    + now apply parity_rank0.
    + apply parity_rank1; auto. specialize (Hb a (or_introl eq_refl)). lia.
    + apply parity_rank2_3; auto; apply Hb; cbn; auto.
  - now apply parity_rank0.
  - now apply parity_rank2_4.
Qed.

(** In three dimensions only components that transform alike share a type. *)
Theorem C08_parity_distinguishes : forall a b, List.length a <= 2 -> List.length b <= 2 ->
  (forall x, In x a -> x < 3) -> (forall x, In x b -> x < 3) ->
  parity3 a = parity3 b ->
  a = b \/ exists i j, a = [i; j] /\ b = [j; i].
Proof.
  intros a b La Lb Xa Xb H. pose proof (parity3_inj a b La Lb Xa Xb H) as S.
  destruct a as [|i [|j [|k a]]]; destruct b as [|i' [|j' [|k' b]]]; cbn in *; try lia; try discriminate; auto.
  destruct (Nat.le_gt_cases i j), (Nat.le_gt_cases i' j'); inversion S as [[S1 S2]].
  - left. f_equal; [lia|f_equal; lia].
  - right. exists i, j. split; auto. f_equal; [lia|f_equal; lia].
  - right. exists i, j. split; auto. f_equal; [lia|f_equal; lia].
  - left. f_equal; [lia|f_equal; lia].
Qed.

(** One entry per name, or an error. *)
Theorem C08_one_entry_per_name : forall st names vals, set_parity_types names st = Ok vals ->
  List.length vals = List.length names.
Proof. exact set_parity_length. Qed.

(** Ranks above 2, and rank 2 outside dimensions 3 and 4, raise. *)
Theorem C08_unsupported_refused : forall ops names n gf,
  (forall n gf, dget n (grun ops) = Some gf -> In (g_group gf) ["EVOL"; "AUX"; "AUXEVOL"]%string) ->
  (forall m, In m names -> exists g, dget m (grun ops) = Some g) ->
  In n names -> dget n (grun ops) = Some gf ->
  ~ (0 <= g_rank gf <= 2)%Z \/ (g_rank gf = 2%Z /\ g_dim gf <> 3%Z /\ g_dim gf <> 4%Z) ->
  exists e, set_parity_types names (grun ops) = Err e.
Proof.
  intros ops names n gf H3 HR Hn Hg Hb. destruct (grun_good ops) as [ND G].
  eapply set_parity_refuses; eauto. intros k g E. apply (ef_name _ _ (G k g E)). exact (H3 k g E).
Qed.

Definition ex_tensors : list gop :=
  [OReg "BHaH" ["cf"]%string 3 kw_default; ORank1 "" "BHaH" "betU" 3 kw_default;
   ORank2 "" "BHaH" "hDD" "sym01" 3 kw_default; ORank2 "" "BHaH" "gDD" "sym01" 4 kw_default].
Example C08_ex : set_parity_types ["hDD12"; "cf"; "betU2"; "hDD22"; "gDD00"; "gDD03"; "gDD12"]%string
    (grun ex_tensors) = Ok [8; 0; 3; 9; 0; 3; 5]%Z /\
  expected_parity 3 [1; 2] 8 /\ expected_parity 4 [0; 3] 3 /\ expected_parity 4 [1; 2] 5.
Proof.
  split; [vm_compute; reflexivity|]. split; [|split].
  - left. repeat split; auto. intros x [<-|[<-|[]]]; lia.
  - right. right. split; auto. exists 0, 3. repeat split; lia.
  - right. right. split; auto. exists 1, 2. repeat split; lia.
Qed.
Example C08_refused_ex : exists e, set_parity_types ["rDDDD0101"]%string
    (grun [ORankN (fun l => l) "" "BHaH" "rDDDD" 4 "nosym" 3 kw_default]) = Err e.
Proof. eexists. vm_compute. reflexivity. Qed.

(** Refuted in four dimensions for vectors: the time component gets the x-vector type, and the
    z component the type of an xx tensor component. *)
Theorem C08_vector_dim4_refuted : exists ops vals,
  set_parity_types ["aU0"; "betU0"; "aU3"; "hDD00"]%string (grun ops) = Ok vals /\
  nth_error vals 0 = nth_error vals 1 /\ nth_error vals 2 = nth_error vals 3 /\
  (exists g, dget "aU0" (grun ops) = Some g /\ g_dim g = 4%Z /\ g_rank g = 1%Z).
Proof.
  exists [ORankN (fun l => l) "" "BHaH" "aU" 1 "" 4 kw_default; ORank1 "" "BHaH" "betU" 3 kw_default;
          ORank2 "" "BHaH" "hDD" "sym01" 3 kw_default].
  eexists. split; [vm_compute; reflexivity|]. split; [reflexivity|]. split; [reflexivity|].
  eexists. split; [vm_compute; reflexivity|]. split; reflexivity.
Qed.

(** C09. [registers_components base rank dim ex zdim group st st']: previous entries kept; each
    canonical component not there before is added with its rank, dimension and group; nothing else is
    added; keys stay unique. *)
Theorem C09_rank1 : forall axes infra base k st,
  In infra ["BHaH"; "ETLegacy"; "CarpetX"]%string -> plain_kw k -> base_ok base ->
  exists st' T, register_rank1 axes infra base 3 k st = (st', Ok T) /\
    registers_components base 1 3 [] 3 (k_group k) st st' /\
    (forall i, i < 3 -> T [i] = ESym false (component_name base [i])).
Proof. exact rank1_registers. Qed.

Theorem C09_rank2 : forall axes infra base sym ex dim k st,
  In infra ["BHaH"; "ETLegacy"; "CarpetX"]%string -> plain_kw k -> base_ok base -> sym_option 2 sym ex ->
  (1 <= dim)%Z ->
  exists st' T, register_rank2 axes infra base sym dim k st = (st', Ok T) /\
    registers_components base 2 (Z.to_nat dim) ex dim (k_group k) st st' /\
    (forall i, in_range (Z.to_nat dim) 2 i -> exists src, in_range (Z.to_nat dim) 2 src /\ canonical ex src /\
       T i = ESym false (component_name base src)).
Proof. exact rank2_registers. Qed.

(** The set of names is turned into a list in an unspecified order: any permutation. *)
Theorem C09_rankN : forall order axes infra base rank sym ex dim k st,
  (forall l, Permutation l (order l)) ->
  In infra ["BHaH"; "ETLegacy"; "CarpetX"]%string -> plain_kw k -> base_ok base ->
  (1 <= rank <= 4) -> (rank = 1 -> ex = []) -> (2 <= rank -> sym_option rank sym ex) ->
  exists st' T, register_rankN order axes infra base (Z.of_nat rank) sym dim k st = (st', Ok T) /\
    registers_components base rank (eff_dim dim) ex dim (k_group k) st st' /\
    (forall i, in_range (eff_dim dim) rank i -> exists src, in_range (eff_dim dim) rank src /\ canonical ex src /\
       T i = ESym false (component_name base src)).
Proof. exact rankN_registers. Qed.

(** Up to ten dimensions distinct components have distinct names. *)
Theorem C09_names_injective : forall base a b, (forall x, In x a -> x < 10) -> (forall x, In x b -> x < 10) ->
  component_name base a = component_name base b -> a = b.
Proof. exact component_name_inj. Qed.

Example C09_ex : plain_kw kw_default /\ base_ok "hDD" /\ sym_option 2 "sym01" [MkSym false 0 1] /\
  dkeys (fst (register_rank2 "" "BHaH" "hDD" "sym01" 3 kw_default (grun [OReg "BHaH" ["cf"]%string 3 kw_default])))
  = ["cf"; "hDD00"; "hDD01"; "hDD02"; "hDD11"; "hDD12"; "hDD22"]%string /\
  dkeys (fst (register_rankN (@rev string) "" "BHaH" "rDD" 2 "nosym" 2 kw_default [])) =
  ["rDD11"; "rDD10"; "rDD01"; "rDD00"]%string.
Proof.
  split; [split; [cbn; auto|split; [auto|split; [auto|exists "0.0"%string, "1.0"%string; auto]]]|].
  split; [split; [reflexivity|split; [discriminate|reflexivity]]|].
  split; [right; split|].
  - unfold declared_symmetries; rewrite !in_app_iff; vm_compute; intuition.
  - intros o [<-|[]]. reflexivity.
  - split; vm_compute; reflexivity.
Qed.

(** Refuted: rank-1 registration in four dimensions returns component 3 without registering it. *)
Theorem C09_rank1_dim4_refuted : exists st' T, register_rank1 "" "BHaH" "aU" 4 kw_default [] = (st', Ok T) /\
  T [3] = ESym false "aU3" /\ dkeys st' = ["aU0"; "aU1"; "aU2"]%string.
Proof. eexists; eexists. split; [reflexivity|]. split; vm_compute; reflexivity. Qed.

(** Refuted: antisymmetric rank 2 registers gridfunctions called "0" and "-aDD01". *)
Theorem C09_antisymmetric_refuted :
  dkeys (fst (register_rank2 "" "BHaH" "aDD" "anti01" 2 kw_default [])) = ["0"; "aDD01"; "-aDD01"]%string.
Proof. vm_compute. reflexivity. Qed.

(** Refuted: in twelve dimensions components (1,10) and (11,0) share a name. *)
Theorem C09_dim12_name_clash_refuted : exists base a b, a <> b /\ in_range 12 2 a /\ in_range 12 2 b /\
  component_name base a = component_name base b.
Proof.
  exists "hDD"%string, [1; 10], [11; 0]. split; [discriminate|].
  split; [split; [reflexivity|intros x [<-|[<-|[]]]; lia]|].
  split; [split; [reflexivity|intros x [<-|[<-|[]]]; lia]|]. reflexivity.
Qed.

(** Refuted: dimension 0 is accepted, returns a 3x3 tensor and registers nothing. *)
Theorem C09_rank2_dim0_refuted : exists T, register_rank2 "" "BHaH" "hDD" "sym01" 0 kw_default [] = ([], Ok T) /\
  T [2; 1] = ESym false "hDD12".
Proof. eexists. split; [reflexivity|]. vm_compute. reflexivity. Qed.

Print Assumptions C05_registry_entries_valid.
Print Assumptions C05_entries_never_change.
Print Assumptions C05_keys_unique.
Print Assumptions C05_key_names.
Print Assumptions C05_new_entries_recorded.
Print Assumptions C06_lists_partition_sorted.
Print Assumptions C07_defines_number_each_group.
Print Assumptions C08_parity_types.
Print Assumptions C08_parity_distinguishes.
Print Assumptions C08_unsupported_refused.
Print Assumptions C09_rank1.
Print Assumptions C09_rank2.
Print Assumptions C09_rankN.
Print Assumptions C09_names_injective.
