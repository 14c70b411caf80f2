(** C88: the variable groups of interface.ccl. *)
From Coq Require Import String List ZArith Bool Permutation Lia.
From Verif Require Import PyBase IndexedExp Grid GridFacts GridTensorFacts PropGrid Interface.
Import ListNotations.
Open Scope string_scope.
Open Scope list_scope.

(** A variable is declared in a group *)
Definition declared (gs : list vgroup) (g m : string) : Prop := exists x, In x gs /\ i_name x = g /\ In m (i_members x).
(** A variable stands for a gridfunction that is registered in a group *)
Definition stands_for (st : registry) (g suffix m : string) : Prop := exists it, In it st /\ g_group (snd it) = g /\ m = (g_name (snd it) ++ suffix)%string.

Lemma In_group_list : forall g st n, In n (group_list g st) <-> exists it, In it st /\ g_group (snd it) = g /\ n = g_name (snd it).
Proof.
  intros g st n. unfold group_list. destruct (sort_lower_spec (map (fun kv => g_name (snd kv)) (filter (fun kv => String.eqb (g_group (snd kv)) g) st))) as [P _].
  transitivity (In n (map (fun kv => g_name (snd kv)) (filter (fun kv => String.eqb (g_group (snd kv)) g) st))).
  - split; intros H; [eapply Permutation_in; [apply Permutation_sym; exact P|exact H]|eapply Permutation_in; [exact P|exact H]].
  - rewrite in_map_iff. split.
    + intros (it & <- & I). apply filter_In in I. destruct I as [I E]. apply String.eqb_eq in E. now exists it.
    + intros (it & I & E & ->). exists it. split; auto. apply filter_In. split; auto. now apply String.eqb_eq.
Qed.
Lemma In_members : forall g st m, In m (members (group_list g st)) <-> stands_for st g "GF" m.
Proof.
  intros g st m. unfold members, stands_for. rewrite in_map_iff. split.
  - intros (n & <- & I). apply In_group_list in I. destruct I as (it & I & E & ->). now exists it.
  - intros (it & I & E & ->). exists (g_name (snd it)). split; auto. apply In_group_list. now exists it.
Qed.
Lemma In_rhs : forall g st m, In m (rhs_members (group_list g st)) <-> stands_for st g "_rhsGF" m.
Proof.
  intros g st m. unfold rhs_members, stands_for. rewrite in_map_iff. split.
  - intros (n & <- & I). apply In_group_list in I. destruct I as (it & I & E & ->). now exists it.
  - intros (it & I & E & ->). exists (g_name (snd it)). split; auto. apply In_group_list. now exists it.
Qed.
Lemma nonempty_false : forall A (l : list A), nonempty l = false -> l = [].
Proof. intros A [|x l] H; [auto|discriminate]. Qed.

Lemma with_parities_ok : forall st names f gs, with_parities st names f = Ok gs ->
  (names = [] /\ gs = []) \/ (names <> [] /\ exists vs, set_parity_types names st = Ok vs /\ gs = f (construct_parity_string vs)).
Proof.
  intros st names f gs H. unfold with_parities in H. destruct names as [|n r]; [left; now injection H as <-|]. right. split; [discriminate|].
  cbn [nonempty] in H. destruct (set_parity_types (n :: r) st) as [vs|]; [|discriminate]. injection H as <-. now exists vs.
Qed.
Lemma CarpetX_ok : forall st evol gs, groups_CarpetX st evol = Ok gs ->
  exists a b c, gs = (a ++ b) ++ c /\
    (if evol then with_parities st (group_list "EVOL" st) (fun t => [mk_vgroup "evol_variables" 1 false (Some "evol_variables_rhs") (Some t) (members (group_list "EVOL" st));
                                             mk_vgroup "evol_variables_rhs" 1 true None None (rhs_members (group_list "EVOL" st))]) = Ok a else a = []) /\
    (if evol then with_parities st (group_list "AUXEVOL" st) (fun t => [mk_vgroup "auxevol_variables" 1 true None (Some t) (members (group_list "AUXEVOL" st))]) = Ok b else b = []) /\
    with_parities st (group_list "AUX" st) (fun t => [mk_vgroup "aux_variables" 1 false None (Some t) (members (group_list "AUX" st))]) = Ok c.
Proof.
  intros st evol gs H. unfold groups_CarpetX, gridfunction_lists in H. destruct evol.
  - destruct (with_parities st (group_list "EVOL" st) _) as [a|] eqn:A; [|discriminate].
    destruct (with_parities st (group_list "AUXEVOL" st) _) as [b|] eqn:B; [|discriminate].
    destruct (with_parities st (group_list "AUX" st) _) as [c|] eqn:C; [|discriminate].
    cbn [py_bind] in H. injection H as <-. exists a, b, c. auto.
  - destruct (with_parities st (group_list "AUX" st) _) as [c|] eqn:C; [|discriminate].
    cbn [py_bind] in H. injection H as <-. exists [], [], c. auto.
Qed.

(** C88_declared.  A CarpetX thorn declares the AUX gridfunctions always, and the evolved ones, their right-hand sides and the AUXEVOL ones if and
    only if it is an evolution thorn; nothing else is in these groups and there are no other groups. *)
Theorem C88_declared : forall st evol gs, groups_CarpetX st evol = Ok gs -> forall g m,
  declared gs g m <->
  (g = "aux_variables" /\ stands_for st "AUX" "GF" m) \/
  (evol = true /\ (g = "evol_variables" /\ stands_for st "EVOL" "GF" m \/ g = "evol_variables_rhs" /\ stands_for st "EVOL" "_rhsGF" m \/
                   g = "auxevol_variables" /\ stands_for st "AUXEVOL" "GF" m)).
Proof.
  intros st evol gs H g m. apply CarpetX_ok in H. destruct H as (a & b & c & -> & A & B & C).
  rewrite <- !In_members, <- In_rhs. unfold declared.
  assert (SPLIT : forall l1 l2 : list vgroup, (exists x, In x (l1 ++ l2) /\ i_name x = g /\ In m (i_members x)) <->
     (exists x, In x l1 /\ i_name x = g /\ In m (i_members x)) \/ (exists x, In x l2 /\ i_name x = g /\ In m (i_members x))).
  { intros l1 l2. split.
    - intros (x & I & Q). apply in_app_iff in I. destruct I; [left|right]; now exists x.
    - intros [(x & I & Q)|(x & I & Q)]; exists x; split; auto; apply in_app_iff; auto. }
  rewrite !SPLIT.
  assert (ONE : forall x : vgroup, (exists y, In y [x] /\ i_name y = g /\ In m (i_members y)) <-> (g = i_name x /\ In m (i_members x))).
  { intros x. split; [intros (y & [<-|[]] & <- & I); auto|intros [-> I]; exists x; cbn; auto]. }
  assert (NIL : (exists y : vgroup, In y [] /\ i_name y = g /\ In m (i_members y)) <-> False) by (split; [intros (y & [] & _)|tauto]).
  assert (EC : (exists x, In x c /\ i_name x = g /\ In m (i_members x)) <-> (g = "aux_variables" /\ In m (members (group_list "AUX" st)))).
  { apply with_parities_ok in C. destruct C as [[E ->]|(_ & vs & _ & ->)]; [rewrite NIL, E; cbn; tauto|apply ONE]. }
  rewrite EC. destruct evol.
  - assert (EB : (exists x, In x b /\ i_name x = g /\ In m (i_members x)) <-> (g = "auxevol_variables" /\ In m (members (group_list "AUXEVOL" st)))).
    { apply with_parities_ok in B. destruct B as [[E ->]|(_ & vs & _ & ->)]; [rewrite NIL, E; cbn; tauto|apply ONE]. }
    assert (EA : (exists x, In x a /\ i_name x = g /\ In m (i_members x)) <->
      (g = "evol_variables" /\ In m (members (group_list "EVOL" st)) \/ g = "evol_variables_rhs" /\ In m (rhs_members (group_list "EVOL" st)))).
    { apply with_parities_ok in A. destruct A as [[E ->]|(_ & vs & _ & ->)]; [rewrite NIL, E; cbn; tauto|].
      match goal with |- context [In _ [?x; ?y]] => rewrite (SPLIT [x] [y]), !ONE end. cbn [i_name i_members]. tauto. }
    rewrite EA, EB. tauto.
  - subst a b. rewrite !NIL. intuition discriminate.
Qed.

(** C88_legacy.  An ETLegacy thorn declares gridfunctions only as an evolution thorn, and the AUXEVOL ones only if there are evolved ones. *)
Theorem C88_legacy : forall st evol g m,
  declared (groups_ETLegacy st evol) g m <->
  evol = true /\
  (g = "aux_variables" /\ stands_for st "AUX" "GF" m \/ g = "evol_variables" /\ stands_for st "EVOL" "GF" m \/
   g = "evol_variables_rhs" /\ stands_for st "EVOL" "_rhsGF" m \/
   g = "auxevol_variables" /\ stands_for st "AUXEVOL" "GF" m /\ exists it, In it st /\ g_group (snd it) = "EVOL").
Proof.
  intros st evol g m. rewrite <- !In_members, <- In_rhs.
  assert (EV : (exists it, In it st /\ g_group (snd it) = "EVOL") <-> group_list "EVOL" st <> []).
  { split.
    - intros (it & I & E) Q. assert (X : In (g_name (snd it)) (group_list "EVOL" st)) by (apply In_group_list; now exists it). rewrite Q in X. destruct X.
    - intros Q. destruct (group_list "EVOL" st) as [|n r] eqn:E; [congruence|].
      assert (X : In n (group_list "EVOL" st)) by (rewrite E; cbn; auto). apply In_group_list in X. destruct X as (it & I & G & _). now exists it. }
  rewrite EV. unfold groups_ETLegacy, gridfunction_lists, declared. destruct evol.
  2: { split; [intros (x & [] & _)|intros [Q _]; discriminate]. }
  destruct (group_list "EVOL" st) as [|n0 r0]; destruct (group_list "AUXEVOL" st) as [|n1 r1]; destruct (group_list "AUX" st) as [|n2 r2];
    cbn [nonempty app]; (split;
    [intros (x & I & <- & M); split; [reflexivity|]; cbn [In] in I; decompose [or] I; subst; try tauto; cbn [i_name i_members] in *; intuition congruence
    |intros [_ Q]; decompose [or and] Q; subst; try (cbn in *; tauto); try congruence;
     first [solve [eexists; split; [left; reflexivity|split; [reflexivity|assumption]]]
      |solve [eexists; split; [right; left; reflexivity|split; [reflexivity|assumption]]]
      |solve [eexists; split; [right; right; left; reflexivity|split; [reflexivity|assumption]]]
      |solve [eexists; split; [right; right; right; left; reflexivity|split; [reflexivity|assumption]]]]]).
Qed.
(** C88_legacy_refuted.  So the gridfunctions of group AUX of a thorn that does not evolve are not declared, and neither are the AUXEVOL gridfunctions
    of an evolution thorn without evolved ones. *)
Theorem C88_legacy_refuted : ~ (forall st it, In it st -> g_group (snd it) = "AUX" -> exists g, declared (groups_ETLegacy st false) g (g_name (snd it) ++ "GF")) /\
  ~ (forall st it, In it st -> g_group (snd it) = "AUXEVOL" -> exists g, declared (groups_ETLegacy st true) g (g_name (snd it) ++ "GF")).
Proof.
  split; intros H.
  - destruct (H [("H", MkGf "ETLegacy" "H" "AUX" 0 3 "0.0" "1.0" true None None None)] _ (or_introl eq_refl) eq_refl) as (g & x & [] & _).
  - destruct (H [("V", MkGf "ETLegacy" "V" "AUXEVOL" 0 3 "0.0" "1.0" true None None None)] _ (or_introl eq_refl) eq_refl) as (g & x & [] & _).
Qed.

(** C88_rhs.  In both, the group of the right-hand sides has the members of the group of evolved variables in the same order; the CarpetX group points to it. *)
Theorem C88_rhs : forall st evol gs, groups_CarpetX st evol = Ok gs \/ groups_ETLegacy st evol = gs ->
  forall x r, In x gs -> In r gs -> i_name x = "evol_variables" -> i_name r = "evol_variables_rhs" ->
  Forall2 (fun m m' => exists n, m = (n ++ "GF")%string /\ m' = (n ++ "_rhsGF")%string) (i_members x) (i_members r) /\
  (groups_CarpetX st evol = Ok gs -> i_rhs x = Some (i_name r)) /\ i_temporary x = false /\ i_temporary r = true.
Proof.
  intros st evol gs H x r Ix Ir Nx Nr.
  assert (F : forall l, Forall2 (fun m m' => exists n, m = (n ++ "GF")%string /\ m' = (n ++ "_rhsGF")%string) (members l) (rhs_members l)).
  { induction l as [|n l IH]; cbn; constructor; eauto. }
  assert (X : groups_CarpetX st evol = Ok gs -> x = mk_vgroup "evol_variables" 1 false (Some "evol_variables_rhs") (i_parities x) (members (group_list "EVOL" st)) /\
     r = mk_vgroup "evol_variables_rhs" 1 true None None (rhs_members (group_list "EVOL" st))).
  { intros Q. apply CarpetX_ok in Q. destruct Q as (a & b & c & -> & A & B & C).
    assert (NC : forall y, In y c -> i_name y = "aux_variables").
    { intros y I. apply with_parities_ok in C. destruct C as [[_ ->]|(_ & vs & _ & ->)]; [destruct I|destruct I as [<-|[]]; reflexivity]. }
    assert (NB : forall y, In y b -> i_name y = "auxevol_variables").
    { intros y I. destruct evol; [|subst b; destruct I]. apply with_parities_ok in B.
      destruct B as [[_ ->]|(_ & vs & _ & ->)]; [destruct I|destruct I as [<-|[]]; reflexivity]. }
    assert (IA : forall y, In y ((a ++ b) ++ c) -> i_name y = "evol_variables" \/ i_name y = "evol_variables_rhs" -> In y a).
    { intros y I N. rewrite !in_app_iff in I. destruct I as [[I|I]|I]; auto; [rewrite (NB y I) in N|rewrite (NC y I) in N]; destruct N; discriminate. }
    apply IA in Ix; auto. apply IA in Ir; auto. destruct evol; [|subst a; destruct Ix]. apply with_parities_ok in A.
    destruct A as [[_ ->]|(_ & vs & _ & ->)]; [destruct Ix|].
    destruct Ix as [<-|[<-|[]]]; [|discriminate]. destruct Ir as [<-|[<-|[]]]; [discriminate|]. auto. }
  destruct H as [H|H].
  - destruct (X H) as [-> ->]. cbn. auto.
  - assert (Y : x = mk_vgroup "evol_variables" 3 false None None (members (group_list "EVOL" st)) /\
       r = mk_vgroup "evol_variables_rhs" 1 true None None (rhs_members (group_list "EVOL" st))).
    { clear X. subst gs. unfold groups_ETLegacy, gridfunction_lists in *. destruct evol; [|destruct Ix].
      destruct (nonempty (group_list "EVOL" st)), (nonempty (group_list "AUXEVOL" st)), (nonempty (group_list "AUX" st)); cbn [app In] in Ix, Ir;
        decompose [or] Ix; decompose [or] Ir; subst; try tauto; cbn in Nx, Nr; try discriminate; auto. }
    split; [destruct Y as [-> ->]; apply F|]. split; [|destruct Y as [-> ->]; auto].
    intros Q. destruct (X Q) as [E1 E2]. rewrite E1, E2. reflexivity.
Qed.

(** ** Parities *)
(** The sign a tensor component takes under the reflection of coordinate [k]: one factor -1 for each index that is [k] *)
Definition sign (idx : list nat) (k : nat) : string := if Nat.even (count_occ Nat.eq_dec idx k) then "+1" else "-1".
Definition signs (idx : list nat) : string := ("  " ++ sign idx 0 ++ " " ++ sign idx 1 ++ " " ++ sign idx 2)%string.
Lemma signs3 : forall idx, List.length idx <= 2 -> (forall x, In x idx -> x < 3) -> ("  " ++ parity_signs (parity3 idx))%string = signs idx.
Proof.
  intros idx L B. destruct idx as [|i [|j [|k r]]]; [reflexivity| | |cbn in L; lia].
  - assert (i < 3) by (apply B; cbn; auto). do 3 (destruct i as [|i]; [reflexivity|]). lia.
  - assert (i < 3) by (apply B; cbn; auto). assert (j < 3) by (apply B; cbn; auto).
    do 3 (destruct i as [|i]; [do 3 (destruct j as [|j]; [reflexivity|]); lia|]). lia.
Qed.
Lemma signs4 : forall i j, i < 4 -> j < 4 -> ("  " ++ parity_signs (parity4 i j))%string = signs (map pred (filter (fun x => negb (Nat.eqb x 0)) [i; j])).
Proof. intros i j Hi Hj. do 4 (destruct i as [|i]; [do 4 (destruct j as [|j]; [reflexivity|]); lia|]). lia. Qed.

(** C88_parities.  The parities tag of a group of CarpetX has three signs for each member, in the order of the members: those of a scalar, a vector
    component or a component of a rank-2 tensor in three dimensions under the three reflections; for a rank-2 tensor in four dimensions the index 0
    is time, which they leave alone. *)
Definition spatial (dim : Z) (idx sp : list nat) : Prop :=
  (dim = 3%Z /\ List.length idx <= 2 /\ (forall x, In x idx -> x < 3) /\ sp = idx) \/ (idx = [] /\ sp = []) \/
  (dim = 4%Z /\ exists i j, idx = [i; j] /\ i < 4 /\ j < 4 /\ sp = map pred (filter (fun x => negb (Nat.eqb x 0)) [i; j])).
Theorem C88_parities : forall ops evol gs g G sps,
  (forall n gf, dget n (grun ops) = Some gf -> In (g_group gf) ["EVOL"; "AUX"; "AUXEVOL"]%string) ->
  groups_CarpetX (grun ops) evol = Ok gs -> In (g, G) [("evol_variables", "EVOL"); ("aux_variables", "AUX"); ("auxevol_variables", "AUXEVOL")] ->
  Forall2 (fun n sp => exists gf idx, dget n (grun ops) = Some gf /\ (exists base, n = component_name base idx) /\
     g_rank gf = Z.of_nat (List.length idx) /\ spatial (g_dim gf) idx sp) (group_list G (grun ops)) sps ->
  forall x, In x gs -> i_name x = g -> i_members x = map (fun n => n ++ "GF")%string (group_list G (grun ops)) /\
    i_parities x = Some (String.concat "" (map signs sps)).
Proof.
  intros ops evol gs g G sps H3 H T F x Ix Nx.
  assert (V : exists vals, set_parity_types (group_list G (grun ops)) (grun ops) = Ok vals /\ construct_parity_string vals = String.concat "" (map signs sps)).
  { assert (E : exists vals, Forall2 (fun n v => exists gf idx, dget n (grun ops) = Some gf /\ (exists base, n = component_name base idx) /\
       g_rank gf = Z.of_nat (List.length idx) /\ expected_parity (g_dim gf) idx v) (group_list G (grun ops)) vals /\
       construct_parity_string vals = String.concat "" (map signs sps)).
    { clear T Ix Nx H. induction F as [|n sp l sps (gf & idx & D & N & R & S) F IH]; [exists []; split; [constructor|reflexivity]|].
      destruct IH as (vals & FV & CV).
      assert (W : exists v, expected_parity (g_dim gf) idx v /\ ("  " ++ parity_signs v)%string = signs sp).
      { destruct S as [(Dm & L & B & ->)|[(-> & ->)|(Dm & i & j & -> & Hi & Hj & ->)]].
        - exists (parity3 idx). split; [left; auto|now apply signs3].
        - exists 0%Z. split; [right; left; auto|reflexivity].
        - exists (parity4 i j). split; [right; right; split; auto; exists i, j; auto|now apply signs4]. }
      destruct W as (v & EV & SV). exists (v :: vals). split; [constructor; eauto 8|].
      cbn [construct_parity_string map]. rewrite CV.
      assert (AA : forall a b c : string, ((a ++ b) ++ c = a ++ b ++ c)%string) by (intros a b c; induction a; cbn; congruence).
      assert (Z : forall s, (s ++ "")%string = s) by (induction s; cbn; congruence).
      rewrite <- AA, SV. destruct (map signs sps); [cbn [String.concat]; apply Z|reflexivity]. }
    destruct E as (vals & FV & CV). exists vals. split; auto. apply C08_parity_types; auto; [clear - FV; induction FV; cbn; congruence|].
    clear - FV. induction FV as [|n v l vs Q FV IH]; intros [|i] a b A B; cbn in A, B; try discriminate.
    - injection A as <-. injection B as <-. exact Q.
    - eapply IH; eauto. }
  destruct V as (vals & SV & CV). rewrite <- CV. clear F CV.
  apply CarpetX_ok in H. destruct H as (a & b & c & -> & A & B & C). rewrite !in_app_iff in Ix.
  assert (U : forall names f l, with_parities (grun ops) names f = Ok l -> names = group_list G (grun ops) -> In x l ->
     In x (f (construct_parity_string vals))).
  { intros names f l Q -> I. apply with_parities_ok in Q. destruct Q as [[_ ->]|(_ & vs & S & ->)]; [destruct I|]. congruence. }
  destruct Ix as [[I|I]|I].
  - destruct evol; [|subst a; destruct I]. pose proof (with_parities_ok _ _ _ _ A) as K. destruct K as [[_ ->]|(_ & vs & S & ->)]; [destruct I|].
    destruct I as [<-|[<-|[]]]; cbn in Nx; subst g; cbn in T; decompose [or] T; try tauto; try discriminate.
    match goal with Q : _ = _ |- _ => injection Q as <- end. rewrite S in SV. injection SV as <-. split; reflexivity.
  - destruct evol; [|subst b; destruct I]. pose proof (with_parities_ok _ _ _ _ B) as K. destruct K as [[_ ->]|(_ & vs & S & ->)]; [destruct I|].
    destruct I as [<-|[]]; cbn in Nx; subst g; cbn in T; decompose [or] T; try tauto; try discriminate.
    match goal with Q : _ = _ |- _ => injection Q as <- end. rewrite S in SV. injection SV as <-. split; reflexivity.
  - pose proof (with_parities_ok _ _ _ _ C) as K. destruct K as [[_ ->]|(_ & vs & S & ->)]; [destruct I|].
    destruct I as [<-|[]]; cbn in Nx; subst g; cbn in T; decompose [or] T; try tauto; try discriminate.
    match goal with Q : _ = _ |- _ => injection Q as <- end. rewrite S in SV. injection SV as <-. split; reflexivity.
Qed.

(** ** Examples *)
Definition ex_ops : list gop :=
  [ORank2 "" "CarpetX" "hDD" "sym01" 3 kw_default; ORank1 "" "CarpetX" "betU" 3 kw_default;
   OReg "CarpetX" ["H"]%string 3 (MkKw "AUX" 0 (FScalar "0.0") (FScalar "1.0") true None None None);
   OReg "CarpetX" ["V"]%string 3 (MkKw "AUXEVOL" 0 (FScalar "0.0") (FScalar "1.0") true None None None)].
Example ex_C88_groups : groups_CarpetX (grun ex_ops) true = Ok
  [mk_vgroup "evol_variables" 1 false (Some "evol_variables_rhs")
     (Some "  -1 +1 +1  +1 -1 +1  +1 +1 -1  +1 +1 +1  -1 -1 +1  -1 +1 -1  +1 +1 +1  +1 -1 -1  +1 +1 +1")
     ["betU0GF"; "betU1GF"; "betU2GF"; "hDD00GF"; "hDD01GF"; "hDD02GF"; "hDD11GF"; "hDD12GF"; "hDD22GF"];
   mk_vgroup "evol_variables_rhs" 1 true None None
     ["betU0_rhsGF"; "betU1_rhsGF"; "betU2_rhsGF"; "hDD00_rhsGF"; "hDD01_rhsGF"; "hDD02_rhsGF"; "hDD11_rhsGF"; "hDD12_rhsGF"; "hDD22_rhsGF"];
   mk_vgroup "auxevol_variables" 1 true None (Some "  +1 +1 +1") ["VGF"];
   mk_vgroup "aux_variables" 1 false None (Some "  +1 +1 +1") ["HGF"]].
Proof. vm_compute. reflexivity. Qed.
Example ex_C88_plain : groups_CarpetX (grun ex_ops) false = Ok [mk_vgroup "aux_variables" 1 false None (Some "  +1 +1 +1") ["HGF"]].
Proof. vm_compute. reflexivity. Qed.
Example ex_C88_legacy : map (fun x => (i_name x, i_levels x, List.length (i_members x))) (groups_ETLegacy (grun ex_ops) true) =
  [("evol_variables", 3, 9); ("evol_variables_rhs", 1, 9); ("auxevol_variables", 1, 1); ("aux_variables", 3, 1)] /\ groups_ETLegacy (grun ex_ops) false = [].
Proof. vm_compute. auto. Qed.
Example ex_C88_parities : Forall2 (fun n sp => exists gf idx, dget n (grun ex_ops) = Some gf /\ (exists base, n = component_name base idx) /\
     g_rank gf = Z.of_nat (List.length idx) /\ spatial (g_dim gf) idx sp) (group_list "EVOL" (grun ex_ops))
  [[0]; [1]; [2]; [0; 0]; [0; 1]; [0; 2]; [1; 1]; [1; 2]; [2; 2]].
Proof.
  replace (group_list "EVOL" (grun ex_ops)) with ["betU0"; "betU1"; "betU2"; "hDD00"; "hDD01"; "hDD02"; "hDD11"; "hDD12"; "hDD22"] by (vm_compute; reflexivity).
  repeat constructor;
  match goal with |- exists gf idx, dget ?n _ = _ /\ _ /\ _ /\ spatial _ _ ?sp => eexists; exists sp; split; [vm_compute; reflexivity|];
    (split; [first [exists "betU"; reflexivity|exists "hDD"; reflexivity]|]); (split; [reflexivity|]); left end;
  (split; [reflexivity|]; split; [cbn; lia|]; split; [|reflexivity]; intros x; cbn; lia).
Qed.
Example ex_C88_AUX : forall n gf, dget n (grun ex_ops) = Some gf -> In (g_group gf) ["EVOL"; "AUX"; "AUXEVOL"]%string.
Proof.
  intros n gf H. assert (I : In gf (map snd (grun ex_ops))).
  { revert H. generalize (grun ex_ops). induction r as [|[k v] r IH]; cbn; [discriminate|]. destruct (String.eqb n k); [intros E; injection E as ->; auto|auto]. }
  revert I. assert (F : forallb (fun g => existsb (String.eqb (g_group g)) ["EVOL"; "AUX"; "AUXEVOL"]) (map snd (grun ex_ops)) = true) by (vm_compute; reflexivity).
  intros I. rewrite forallb_forall in F. apply F in I. apply existsb_exists in I. destruct I as (y & I & E). apply String.eqb_eq in E. now subst y.
Qed.

Print Assumptions C88_declared.
Print Assumptions C88_legacy.
Print Assumptions C88_legacy_refuted.
Print Assumptions C88_rhs.
Print Assumptions C88_parities.
