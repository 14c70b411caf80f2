(** Specification and proofs for the gridfunction registry (model: Grid.v). *)
From Coq Require Import String Ascii List Arith ZArith Bool Lia Permutation Sorted.
From Verif Require Import PyBase PyBaseFacts IndexedExp IndexedExpFacts Grid.
Import ListNotations.
Open Scope list_scope.

(** ** Histories of registrations *)
Inductive gop : Type :=
| OReg (infra : string) (names : list string) (dim : Z) (k : kwargs)
| ORank1 (axes infra base : string) (dim : Z) (k : kwargs)
| ORank2 (axes infra base sym : string) (dim : Z) (k : kwargs)
| ORankN (order : list string -> list string) (axes infra base : string) (rank : Z) (sym : string)
         (dim : Z) (k : kwargs).

Definition grun_op (st : registry) (o : gop) : registry :=
  match o with
  | OReg infra names dim k => fst (register_gridfunctions infra names dim k st)
  | ORank1 axes infra base dim k => fst (register_rank1 axes infra base dim k st)
  | ORank2 axes infra base sym dim k => fst (register_rank2 axes infra base sym dim k st)
  | ORankN order axes infra base rank sym dim k =>
      fst (register_rankN order axes infra base rank sym dim k st)
  end.
(** The registry after a history, from the empty one. *)
Definition grun (ops : list gop) : registry := fold_left grun_op ops [].

Definition valid_name (s : string) : Prop :=
  s <> ""%string /\ (forall c, last_char s = Some c -> is_digit c = false).

Definition allowed_groups (infra : string) : list string :=
  if String.eqb infra "BHaH" then groups3 else groupsX.

(** ** What one constructor call guarantees *)
Lemma str_in_spec : forall s l, str_in s l = true <-> In s l.
Proof.
  intros s l. unfold str_in. rewrite existsb_exists. split.
  - intros (x & Hx & E). apply String.eqb_eq in E. now subst.
  - intros H. exists s. split; auto. apply String.eqb_refl.
Qed.

Lemma verify_basename_ok : forall s, verify_basename s = Ok tt -> valid_name s.
Proof.
  intros s H. unfold verify_basename in H. destruct (String.eqb_spec s ""); [discriminate|].
  split; auto. intros c Hc. rewrite Hc in H. destruct (is_digit c); [discriminate|auto].
Qed.

Definition in3 (g : string) : Prop := In g groups3.

Record entry_facts (name : string) (gf : gfunc) : Prop := {
  ef_infra : In (g_infra gf) ["BHaH"; "ETLegacy"; "CarpetX"]%string;
  ef_group : g_infra gf <> "ETLegacy"%string -> In (g_group gf) (allowed_groups (g_infra gf));
  ef_name : in3 (g_group gf) -> g_name gf = name;
  ef_base : g_isbase gf = true -> valid_name name
}.

Lemma base_init_ok : forall s b u, base_init s b = Ok u -> b = true -> valid_name s.
Proof. intros s b [] H ->. now apply verify_basename_ok. Qed.

Lemma suffix3 : forall g, in3 g -> group_suffix g = ""%string.
Proof. intros g [<-|[<-|[<-|[]]]]; reflexivity. Qed.

Lemma mk_gf_facts : forall infra name i dim k gf,
  mk_gf infra name i dim k = Ok gf ->
  entry_facts name gf /\ g_isbase gf = k_isbase k /\ g_group gf = k_group k /\ g_rank gf = k_rank k /\
  g_dim gf = dim /\ g_infra gf = infra.
Proof.
  intros infra name i dim k gf H. unfold mk_gf in H.
  destruct (pick (k_finf k) i) as [fi|]; [|discriminate].
  destruct (pick (k_wave k) i) as [wv|]; [|discriminate].
  destruct (String.eqb_spec infra "BHaH") as [->|_].
  - unfold mk_BHaH in H. destruct (k_centering k); [discriminate|].
    destruct (base_init name (k_isbase k)) as [u|] eqn:B; [|discriminate].
    destruct (str_in (k_group k) groups3) eqn:G; [|discriminate].
    inversion H; subst; clear H. split; [|repeat split]. constructor; cbn; auto.
    + intros _. exact (proj1 (str_in_spec _ _) G).
    + intros E. exact (base_init_ok _ _ _ B E).
  - destruct (String.eqb_spec infra "ETLegacy") as [->|_].
    + unfold mk_ETLegacy in H. destruct (k_centering k), (k_sync k); try discriminate.
      destruct (base_init name (k_isbase k)) as [u|] eqn:B; [|discriminate].
      inversion H; subst; clear H. split; [|repeat split]. constructor; cbn; auto.
      * congruence.
      * intros E. exact (base_init_ok _ _ _ B E).
    + destruct (String.eqb_spec infra "CarpetX") as [->|_]; [|discriminate].
      unfold mk_CarpetX in H. destruct (k_sync k); try discriminate.
      destruct (base_init name (k_isbase k)) as [u|] eqn:B; [|discriminate].
      cbv zeta in H. destruct (str_in _ centerings); [|discriminate].
      destruct (centering_ok _); [|discriminate].
      destruct (str_in (k_group k) groupsX) eqn:G; [|discriminate].
      cbn [negb] in H. inversion H; subst; clear H. split; [|repeat split].
      constructor; cbn [g_infra g_group g_name g_isbase].
      * cbn; auto.
      * intros _. exact (proj1 (str_in_spec _ _) G).
      * intros E. rewrite suffix3 by auto. apply sapp_nil_r.
      * intros E. exact (base_init_ok _ _ _ B E).
Qed.

(** ** The registration loop *)
Definition grows (P : string -> gfunc -> Prop) (st st' : registry) : Prop :=
  (forall n gf, dget n st = Some gf -> dget n st' = Some gf) /\
  (forall n gf, dget n st' = Some gf -> dget n st = Some gf \/ P n gf) /\
  (NoDup (dkeys st) -> NoDup (dkeys st')).

Lemma grows_refl : forall P st, grows P st st.
Proof. intros; split; [|split]; auto. Qed.

Lemma grows_trans : forall P a b c, grows P a b -> grows P b c -> grows P a c.
Proof.
  intros P a b c (A1 & A2 & A3) (B1 & B2 & B3). split; [|split]; auto.
  intros n gf H. apply B2 in H. destruct H as [H|H]; auto.
Qed.

Lemma grows_weaken : forall (P Q : string -> gfunc -> Prop) a b,
  (forall n gf, P n gf -> Q n gf) -> grows P a b -> grows Q a b.
Proof.
  intros P Q a b H (A1 & A2 & A3). split; [|split]; auto.
  intros n gf E. destruct (A2 n gf E); auto.
Qed.

Lemma register_loop_grows : forall infra dim k names i st,
  grows (fun n gf => In n names /\ exists j, mk_gf infra n j dim k = Ok gf)
        st (fst (register_loop infra i names dim k st)).
Proof.
  intros infra dim k names; induction names as [|n names IH]; intros i st; cbn [register_loop].
  - apply grows_refl.
  - destruct (dmem n st) eqn:M.
    + eapply grows_weaken; [|apply IH]. cbn. intros m gf [H1 H2]; auto.
    + destruct (mk_gf infra n i dim k) as [gf|] eqn:E; [|apply grows_refl].
      apply dmem_false in M. eapply grows_trans; [|eapply grows_weaken; [|apply IH]].
      * split; [|split].
        -- intros m g Hm. rewrite dget_dset_other; auto. congruence.
        -- intros m g Hm. rewrite dget_dset in Hm. destruct (String.eqb_spec m n) as [->|N].
           ++ inversion Hm; subst. right. split; [cbn; auto|]. now exists i.
           ++ now left.
        -- now apply NoDup_dset.
      * cbn. intros m g [H1 H2]; auto.
Qed.

Definition good (st : registry) : Prop :=
  NoDup (dkeys st) /\ forall n gf, dget n st = Some gf -> entry_facts n gf.

Lemma grun_op_grows : forall o st, grows (fun n gf => entry_facts n gf) st (grun_op st o).
Proof.
  assert (L : forall infra dim k names i st,
    grows (fun n gf => entry_facts n gf) st (fst (register_loop infra i names dim k st))).
  { intros. eapply grows_weaken; [|apply register_loop_grows]. cbn.
    intros n gf (_ & j & E). now apply mk_gf_facts in E. }
  intros [infra names dim k|axes infra base dim k|axes infra base sym dim k|order axes infra base rank sym dim k] st;
    cbn [grun_op].
  - unfold register_gridfunctions. specialize (L infra dim k names 0 st).
    destruct (register_loop infra 0 names dim k st) as [st' [u|e]]; exact L.
  - unfold register_rank1. destruct (declare_indexedexp axes (Some base) 1 dim "") as [T|]; [|apply grows_refl].
    destruct (Nat.ltb (eff_dim dim) 3); [apply grows_refl|].
    match goal with |- context [register_loop ?a ?b ?c ?d ?e ?f] => specialize (L a d e c b f);
      destruct (register_loop a b c d e f) as [st' [u|er]]; exact L end.
  - unfold register_rank2. destruct (declare_indexedexp axes (Some base) 2 dim sym) as [T|]; [|apply grows_refl].
    cbv zeta.
    match goal with |- context [register_loop ?a ?b ?c ?d ?e ?f] => specialize (L a d e c b f);
      destruct (register_loop a b c d e f) as [st' [u|er]]; exact L end.
  - unfold register_rankN. destruct (negb (Z.leb 1 rank && Z.leb rank 4)); [apply grows_refl|]. cbv zeta.
    destruct (declare_indexedexp axes (Some base) (Z.to_nat rank) dim _) as [T|]; [|apply grows_refl].
    match goal with |- context [register_loop ?a ?b ?c ?d ?e ?f] => specialize (L a d e c b f);
      destruct (register_loop a b c d e f) as [st' [u|er]]; exact L end.
Qed.

Lemma grows_good : forall (P : string -> gfunc -> Prop) st st', (forall n gf, P n gf -> entry_facts n gf) ->
  grows P st st' -> good st -> good st'.
Proof.
  intros P st st' HP (A1 & A2 & A3) [G1 G2]. split; auto.
  intros n gf H. destruct (A2 n gf H) as [H'|H']; auto.
Qed.

Lemma grun_good : forall ops, good (grun ops).
Proof.
  intros ops. unfold grun. apply fold_left_invariant with (P := good).
  - intros st o H. eapply grows_good; [|apply grun_op_grows|exact H]. auto.
  - split; [constructor|]. intros n gf H; discriminate.
Qed.

Lemma grun_app : forall a b, grun (a ++ b) = fold_left grun_op b (grun a).
Proof. intros. unfold grun. apply fold_left_app. Qed.

(** Registered entries are never changed by anything that follows. *)
Lemma grun_stable : forall before after n gf,
  dget n (grun before) = Some gf -> dget n (grun (before ++ after)) = Some gf.
Proof.
  intros before after n gf H. rewrite grun_app. revert H. generalize (grun before) as st.
  induction after as [|o r IH]; intros st H; cbn [fold_left]; auto.
  apply IH. now apply (proj1 (grun_op_grows o st)).
Qed.

(** ** Lists: sorting *)
Definition lower_le (a b : string) : Prop := String.leb (py_lower a) (py_lower b) = true.

Lemma ascii_compare_trans_lt : forall a b c, Ascii.compare a b = Lt -> Ascii.compare b c = Lt -> Ascii.compare a c = Lt.
Proof.
  intros a b c. unfold Ascii.compare. rewrite !N.compare_lt_iff. apply N.lt_trans.
Qed.
Lemma ascii_compare_eq : forall a b, Ascii.compare a b = Eq -> a = b.
Proof. intros a b H. now apply Ascii.compare_eq_iff in H. Qed.

Lemma string_leb_trans : forall a b c, String.leb a b = true -> String.leb b c = true -> String.leb a c = true.
Proof.
  unfold String.leb. induction a as [|x a IH]; intros [|y b] [|z c]; cbn; auto; try discriminate.
  destruct (Ascii.compare x y) eqn:E1; try discriminate; destruct (Ascii.compare y z) eqn:E2; try discriminate; intros H1 H2.
  - apply ascii_compare_eq in E1. subst. rewrite E2. eapply IH; eauto.
  - apply ascii_compare_eq in E1. subst. rewrite E2. auto.
  - apply ascii_compare_eq in E2. subst. rewrite E1. auto.
  - rewrite (ascii_compare_trans_lt _ _ _ E1 E2). auto.
Qed.

Lemma lower_le_trans : forall a b c, lower_le a b -> lower_le b c -> lower_le a c.
Proof. unfold lower_le. intros; eapply string_leb_trans; eauto. Qed.
Lemma lower_le_total : forall a b, lower_le a b \/ lower_le b a.
Proof. unfold lower_le. intros; apply String.leb_total. Qed.

Lemma insert_perm : forall x l, Permutation (x :: l) (insert_by x l).
Proof.
  intros x l; induction l as [|y r IH]; cbn; auto.
  destruct (String.leb (py_lower y) (py_lower x)); auto.
  eapply perm_trans; [apply perm_swap|]. now apply perm_skip.
Qed.
Lemma insert_sorted : forall x l, StronglySorted lower_le l -> StronglySorted lower_le (insert_by x l).
Proof.
  intros x l H; induction H as [|y r Hs IH Hf]; cbn.
  - repeat constructor.
  - destruct (String.leb (py_lower y) (py_lower x)) eqn:E.
    + constructor; auto. rewrite Forall_forall in *. intros z Hz.
      apply (Permutation_in _ (Permutation_sym (insert_perm x r))) in Hz. destruct Hz as [<-|Hz]; auto.
    + assert (L : lower_le x y).
      { destruct (lower_le_total x y); auto. unfold lower_le in H. congruence. }
      constructor; [constructor; auto|]. constructor; auto. rewrite Forall_forall in *.
      intros z Hz. eapply lower_le_trans; eauto.
Qed.
Lemma sort_lower_spec : forall l, Permutation l (sort_lower l) /\ StronglySorted lower_le (sort_lower l).
Proof.
  intros l. unfold sort_lower.
  assert (G : forall l acc, StronglySorted lower_le acc ->
     Permutation (l ++ acc) (fold_left (fun acc x => insert_by x acc) l acc) /\
     StronglySorted lower_le (fold_left (fun acc x => insert_by x acc) l acc)).
  { induction l0 as [|x r IH]; intros acc Ha; cbn [fold_left app]; auto.
    destruct (IH (insert_by x acc) (insert_sorted x acc Ha)) as [P S]. split; auto.
    eapply perm_trans; [|exact P]. eapply perm_trans; [apply Permutation_middle|].
    apply Permutation_app_head. apply insert_perm. }
  destruct (G l [] ltac:(constructor)) as [P S]. rewrite app_nil_r in P. auto.
Qed.

(** Stability: names that differ only in case keep their registration order. *)
Lemma insert_filter : forall key x l, StronglySorted lower_le l ->
  filter (fun y => String.eqb (py_lower y) key) (insert_by x l) =
  filter (fun y => String.eqb (py_lower y) key) l ++ filter (fun y => String.eqb (py_lower y) key) [x].
Proof.
  intros key x l H; induction H as [|y r Hs IH Hf]; [reflexivity|].
  cbn [insert_by]. destruct (String.leb (py_lower y) (py_lower x)) eqn:E.
  - cbn [filter]. rewrite IH. cbn [filter]. destruct (String.eqb (py_lower y) key); reflexivity.
  - cbn [filter]. destruct (String.eqb_spec (py_lower x) key) as [K|K].
    + (* x strictly below y and everything after: none of them has the key of x *)
      assert (N : filter (fun y => String.eqb (py_lower y) key) (y :: r) = []).
      { assert (Q : forall z, In z (y :: r) -> String.eqb (py_lower z) key = false).
        { intros z Hz. destruct (String.eqb_spec (py_lower z) key) as [Kz|]; auto. exfalso.
          assert (lower_le y z).
          { destruct Hz as [->|Hz]; [unfold lower_le; destruct (String.leb_total (py_lower z) (py_lower z)); auto|].
            rewrite Forall_forall in Hf. auto. }
          unfold lower_le in H. rewrite Kz, <- K in H. congruence. }
        clear -Q. induction (y :: r) as [|z l IH]; auto. cbn. rewrite (Q z) by (cbn; auto).
        apply IH. intros; apply Q; cbn; auto. }
      cbn [filter] in N. rewrite N. reflexivity.
    + rewrite app_nil_r. reflexivity.
Qed.
Lemma sort_lower_stable : forall key l,
  filter (fun y => String.eqb (py_lower y) key) (sort_lower l) = filter (fun y => String.eqb (py_lower y) key) l.
Proof.
  intros key l. unfold sort_lower.
  assert (G : forall l acc, StronglySorted lower_le acc ->
     filter (fun y => String.eqb (py_lower y) key) (fold_left (fun acc x => insert_by x acc) l acc) =
     filter (fun y => String.eqb (py_lower y) key) acc ++ filter (fun y => String.eqb (py_lower y) key) l).
  { induction l0 as [|x r IH]; intros acc Ha; cbn [fold_left].
    - cbn. now rewrite app_nil_r.
    - rewrite IH by now apply insert_sorted. rewrite insert_filter by auto. rewrite <- app_assoc.
      f_equal. cbn [filter]. destruct (String.eqb (py_lower x) key); reflexivity. }
  now rewrite G by constructor.
Qed.

Lemma group_list_In : forall st g n, good st -> in3 g ->
  (In n (group_list g st) <-> exists gf, dget n st = Some gf /\ g_group gf = g).
Proof.
  intros st g n [ND G] Hg. unfold group_list.
  destruct (sort_lower_spec (map (fun kv => g_name (snd kv))
     (filter (fun kv => String.eqb (g_group (snd kv)) g) st))) as [P _].
  split.
  - intros H. apply (Permutation_in _ (Permutation_sym P)) in H. apply in_map_iff in H.
    destruct H as ([k gf] & E & H). apply filter_In in H. destruct H as [H1 H2]. cbn in *.
    apply String.eqb_eq in H2. apply In_dget in H1; auto. exists gf.
    rewrite (ef_name _ _ (G k gf H1)) in E by now rewrite H2. now subst k.
  - intros (gf & H1 & H2). apply (Permutation_in _ P). apply in_map_iff. exists (n, gf). cbn. split.
    + apply (ef_name _ _ (G n gf H1)). now rewrite H2.
    + apply filter_In. split; [now apply dget_In|]. cbn. now apply String.eqb_eq.
Qed.

Lemma group_list_NoDup : forall st g, good st -> in3 g -> NoDup (group_list g st).
Proof.
  intros st g [ND G] Hg. unfold group_list.
  destruct (sort_lower_spec (map (fun kv => g_name (snd kv))
     (filter (fun kv => String.eqb (g_group (snd kv)) g) st))) as [P _].
  apply (Permutation_NoDup P).
  assert (E : map (fun kv => g_name (snd kv)) (filter (fun kv => String.eqb (g_group (snd kv)) g) st)
            = map fst (filter (fun kv => String.eqb (g_group (snd kv)) g) st)).
  { apply map_ext_in. intros [k gf] H. apply filter_In in H. destruct H as [H1 H2]. cbn in *.
    apply String.eqb_eq in H2. apply In_dget in H1; auto. apply (ef_name _ _ (G k gf H1)). now rewrite H2. }
  rewrite E. clear -ND. unfold dkeys in ND. induction st as [|[k gf] st IH]; cbn; [constructor|].
  cbn in ND. inversion ND as [|? ? Hk ND']; subst.
  destruct (String.eqb (g_group gf) g); cbn; auto. constructor; auto.
  intros H. apply Hk. apply in_map_iff in H. destruct H as (x & <- & Hx). apply filter_In in Hx.
  apply in_map. apply Hx.
Qed.

(** ** #defines *)
Lemma define_gfs_nth : forall l i, nth_error (define_gfs l) i =
  match nth_error l i with Some n => Some (macro_name n, i) | None => None end.
Proof.
  intros l i. unfold define_gfs.
  assert (G : forall l s i, nth_error (combine (map macro_name l) (seq s (List.length l))) i =
     match nth_error l i with Some n => Some (macro_name n, s + i) | None => None end).
  { induction l0 as [|x r IH]; intros s [|j]; cbn; auto.
    - now rewrite Nat.add_0_r.
    - rewrite IH. destruct (nth_error r j); auto. now rewrite Nat.add_succ_r. }
  now rewrite G.
Qed.
Lemma define_gfs_fst : forall l, map fst (define_gfs l) = map macro_name l.
Proof.
  intros l. unfold define_gfs. generalize 0 as s.
  induction l as [|x r IH]; intros s; cbn; auto. now rewrite IH.
Qed.
Lemma define_gfs_snd : forall l, map snd (define_gfs l) = seq 0 (List.length l).
Proof.
  intros l. unfold define_gfs. generalize 0 as s.
  induction l as [|x r IH]; intros s; cbn; auto. now rewrite IH.
Qed.

Lemma lookup_all_ok : forall f st l, (forall n, In n l -> exists gf, dget n st = Some gf) ->
  exists v, lookup_all f st l = Ok v /\
    forall i n gf, nth_error l i = Some n -> dget n st = Some gf -> nth_error v i = Some (f gf).
Proof.
  intros f st l; induction l as [|n l IH]; intros H.
  - exists []. split; auto. intros [|i] n gf Hi; discriminate.
  - destruct (H n (or_introl eq_refl)) as [gf E]. cbn [lookup_all]. rewrite E.
    destruct IH as (v & Ev & Hv); [intros; apply H; cbn; auto|]. rewrite Ev.
    exists (f gf :: v). split; auto. intros [|i] m g Hi Hg; cbn in *.
    + inversion Hi; subst. congruence.
    + eauto.
Qed.

Lemma macro_name_inj : forall a b, macro_name a = macro_name b -> py_upper a = py_upper b.
Proof. intros a b H. unfold macro_name in H. now apply sapp_inj_r in H. Qed.

Definition group_macros (g : string) (d : defines) : list (string * nat) :=
  if String.eqb g "EVOL" then d_evol d else if String.eqb g "AUX" then d_aux d else d_auxevol d.
Definition group_num (g : string) (d : defines) : nat :=
  let '(a, b, c) := d_num d in
  if String.eqb g "EVOL" then a else if String.eqb g "AUX" then b else c.

Lemma defines_ok : forall st, good st -> exists d, gridfunction_defines st = Ok d /\
  (forall g, in3 g -> group_macros g d = define_gfs (group_list g st) /\
                      group_num g d = List.length (group_list g st)) /\
  (forall i n gf, nth_error (group_list "EVOL" st) i = Some n -> dget n st = Some gf ->
     nth_error (d_finf d) i = Some (g_finf gf) /\ nth_error (d_wave d) i = Some (g_wave gf)).
Proof.
  intros st Hg. unfold gridfunction_defines, gridfunction_lists.
  assert (K : forall n, In n (group_list "EVOL" st) -> exists gf, dget n st = Some gf).
  { intros n H. apply group_list_In in H; [|auto|left; auto]. destruct H as (gf & H & _). eauto. }
  destruct (lookup_all_ok g_finf st _ K) as (fi & Ef & Hf).
  destruct (lookup_all_ok g_wave st _ K) as (wv & Ew & Hw).
  rewrite Ef, Ew. eexists. split; [reflexivity|]. split.
  - intros g [<-|[<-|[<-|[]]]]; split; reflexivity.
  - intros i n gf Hi Hn. split; cbn; eauto.
Qed.

Lemma NoDup_map_of : forall (A B : Type) (f : A -> B) l, NoDup l ->
  (forall x y, In x l -> In y l -> f x = f y -> x = y) -> NoDup (map f l).
Proof.
  intros A B f l H; induction H as [|x l Hx Hl IH]; intros Hi; cbn; constructor.
  - rewrite in_map_iff. intros (y & E & Hy). assert (y = x) by (apply Hi; cbn; auto). now subst.
  - apply IH. intros; apply Hi; cbn; auto.
Qed.

Definition all_lists (st : registry) : list string :=
  group_list "EVOL" st ++ group_list "AUX" st ++ group_list "AUXEVOL" st.

Lemma all_lists_NoDup : forall st, good st -> NoDup (all_lists st).
Proof.
  intros st Hg. unfold all_lists.
  assert (D : forall a b n, in3 a -> in3 b -> a <> b -> In n (group_list a st) -> ~ In n (group_list b st)).
  { intros a b n Ha Hb Hne H1 H2. apply group_list_In in H1; auto. apply group_list_In in H2; auto.
    destruct H1 as (g1 & E1 & G1). destruct H2 as (g2 & E2 & G2). congruence. }
  assert (I1 : in3 "EVOL") by (left; auto). assert (I2 : in3 "AUX") by (right; left; auto).
  assert (I3 : in3 "AUXEVOL") by (right; right; left; auto).
  apply NoDup_app_disj; [now apply group_list_NoDup| |].
  - apply NoDup_app_disj; try now apply group_list_NoDup. intros y H1 H2.
    apply (D "AUX"%string "AUXEVOL"%string y); auto. discriminate.
  - intros y H1 H2. apply in_app_iff in H2. destruct H2 as [H2|H2].
    + apply (D "EVOL"%string "AUX"%string y); auto. discriminate.
    + apply (D "EVOL"%string "AUXEVOL"%string y); auto. discriminate.
Qed.

Lemma defines_macros_distinct : forall st d, good st -> gridfunction_defines st = Ok d ->
  (forall a b, In a (dkeys st) -> In b (dkeys st) -> py_upper a = py_upper b -> a = b) ->
  NoDup (map fst (d_evol d ++ d_aux d ++ d_auxevol d)).
Proof.
  intros st d Hg Hd Hu. destruct (defines_ok st Hg) as (d' & E & M & _).
  assert (d' = d) by congruence. subst d'.
  destruct (M "EVOL"%string (or_introl eq_refl)) as [M1 _].
  destruct (M "AUX"%string (or_intror (or_introl eq_refl))) as [M2 _].
  destruct (M "AUXEVOL"%string (or_intror (or_intror (or_introl eq_refl)))) as [M3 _].
  unfold group_macros in *. cbn in M1, M2, M3.
  rewrite M1, M2, M3, !map_app, !define_gfs_fst, <- !map_app.
  apply NoDup_map_of; [now apply all_lists_NoDup|].
  assert (K : forall x, In x (all_lists st) -> In x (dkeys st)).
  { intros x Hx. unfold all_lists in Hx. rewrite !in_app_iff in Hx.
    assert (exists g, in3 g /\ In x (group_list g st)) as (g & I & Hx').
    { destruct Hx as [H|[H|H]]; eexists; (split; [|exact H]); unfold in3; cbn; auto. }
    apply group_list_In in Hx'; auto. destruct Hx' as (gf & Hx' & _). eapply dget_Some_keys; eauto. }
  intros x y Hx Hy Exy. apply Hu; auto. now apply macro_name_inj.
Qed.
