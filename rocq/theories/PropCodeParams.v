(** C54: the C code that sets parameters to their defaults and the header that reads them. *)
From Coq Require Import String Ascii List Arith ZArith Bool Lia Permutation Sorted.
From Verif Require Import PyBase PyBaseFacts PyList PyListFacts Params GridFacts Registry RegistryFacts.
From Verif Require CFunctionFacts.
Import ListNotations.
Open Scope list_scope.
Open Scope string_scope.

(** ** Sequences of independent assignments *)
Definition target (s : cstmt) : string :=
  match s with CSnprintf _ n _ _ => n | CFor _ n _ _ => n | CAssign _ n _ => n end.
Definition sval (s : cstmt) : fval :=
  match s with
  | CSnprintf _ n sz t => match py_int sz with Ok z => if plain t && (0 <? z)%Z then FStr (stake (z - 1) t) else FUndef | Err _ => FUndef end
  | CFor _ n sz v => match py_int sz with Ok z => FArr z v | Err _ => FUndef end
  | CAssign _ n v => FVal v
  end.
Lemma exec_upd : forall s m, exec s m = fupd m (target s) (sval s).
Proof. now intros [| |] m. Qed.
Lemma fupd_same : forall m n v, fupd m n v n = v.
Proof. intros. unfold fupd. now rewrite String.eqb_refl. Qed.
Lemma fupd_other : forall m n v k, k <> n -> fupd m n v k = m k.
Proof. intros m n v k H. unfold fupd. now apply String.eqb_neq in H as ->. Qed.

Section Upd.
Context {A : Type} (tg : A -> string) (vl : A -> fval).
Lemma upd_notin : forall l m n, ~ In n (map tg l) -> fold_left (fun m a => fupd m (tg a) (vl a)) l m n = m n.
Proof.
  induction l as [|a l IH]; intros m n H; cbn; auto. rewrite IH by (intros Q; apply H; cbn; auto).
  apply fupd_other. intros ->. apply H. cbn. auto.
Qed.
Lemma upd_in : forall l m a, NoDup (map tg l) -> In a l -> fold_left (fun m a => fupd m (tg a) (vl a)) l m (tg a) = vl a.
Proof.
  induction l as [|b l IH]; intros m a N H; [destruct H|]. cbn in *. inversion N; subst.
  destruct H as [->|H]; [|now apply IH]. rewrite upd_notin by auto. apply fupd_same.
Qed.
End Upd.
Lemma exec_all_upd : forall l m, exec_all l m = fold_left (fun m s => fupd m (target s) (sval s)) l m.
Proof.
  unfold exec_all. induction l as [|s l IH]; intros m; cbn; auto. rewrite exec_upd. apply IH.
Qed.

(** ** The statements *)
Lemma default_stmt_target : forall vstr n c s, default_stmt vstr n c = Ok (Some s) -> target s = n.
Proof.
  intros vstr n c s. unfold default_stmt. destruct (_ && _); [|discriminate].
  destruct (is_char_array _); [intros [= <-]; reflexivity|]. destruct (is_array _); [intros [= <-]; reflexivity|].
  destruct (match cp_default c with VStr _ => _ | _ => _ end); [intros [= <-]; reflexivity|discriminate].
Qed.

Lemma default_stmts_spec : forall vstr b d l, default_stmts vstr b d = Ok l ->
  (forall s, In s (map fst l) <-> exists n c, In (n, c) d /\ cp_commondata c = b /\ default_stmt vstr n c = Ok (Some s)) /\
  (forall n c, In (n, c) d -> cp_commondata c = b -> exists o, default_stmt vstr n c = Ok o) /\
  (NoDup (dkeys d) -> NoDup (map target (map fst l))).
Proof.
  intros vstr b d. induction d as [|[n c] d IH]; intros l H; cbn [default_stmts] in H.
  - injection H as <-. cbn. split; [|split; [intros ? ? []|constructor]].
    intros s. split; [easy|]. intros (? & ? & [] & _).
  - destruct (Bool.eqb (cp_commondata c) b) eqn:B.
    + apply eqb_prop in B. destruct (default_stmt vstr n c) as [[s|]|e] eqn:D; [| |discriminate].
      * destruct (default_stmts vstr b d) as [l'|] eqn:E; [|discriminate]. injection H as <-.
        destruct (IH l' eq_refl) as (I1 & I2 & I3). split; [|split].
        -- intros s'. cbn [map fst In]. rewrite I1. split.
           ++ intros [<-|(n' & c' & H1 & H2 & H3)]; [exists n, c; cbn; auto|exists n', c'; cbn; auto].
           ++ intros (n' & c' & [[= <- <-]|H1] & H2 & H3); [left; congruence|right; eauto].
        -- intros n' c' [[= <- <-]|H1] H2; eauto.
        -- intros N. inversion N as [|? ? Nn Nd]; subst. cbn [map fst]. constructor; [|now apply I3].
           rewrite (default_stmt_target _ _ _ _ D). intros Q. apply in_map_iff in Q as (s' & T & Q).
           apply I1 in Q as (n' & c' & H1 & H2 & H3). apply default_stmt_target in H3. apply Nn.
           apply in_map_iff. exists (n', c'). cbn. split; [congruence|auto].
      * destruct (IH l H) as (I1 & I2 & I3). split; [|split].
        -- intros s'. rewrite I1. split.
           ++ intros (n' & c' & H1 & H2 & H3). exists n', c'; cbn; auto.
           ++ intros (n' & c' & [[= <- <-]|H1] & H2 & H3); [congruence|eauto].
        -- intros n' c' [[= <- <-]|H1] H2; eauto.
        -- intros N. inversion N; auto.
    + assert (Bn : cp_commondata c <> b) by (intros Q; rewrite Q, Bool.eqb_reflx in B; discriminate).
      destruct (IH l H) as (I1 & I2 & I3). split; [|split].
      * intros s'. rewrite I1. split.
        -- intros (n' & c' & H1 & H2 & H3). exists n', c'; cbn; auto.
        -- intros (n' & c' & [[= <- <-]|H1] & H2 & H3); [congruence|eauto].
      * intros n' c' [[= <- <-]|H1] H2; [congruence|eauto].
      * intros N. inversion N; auto.
Qed.

(** A parameter that gets a default: the struct it belongs to is fixed by the commondata flag. *)
Definition gets_default (b : bool) (c : code_param) : Prop :=
  cp_commondata c = b /\ cp_type c <> "#define" /\ cp_default c <> VStr "unset".

Lemma gets_default_cond : forall c, cp_type c <> "#define" -> cp_default c <> VStr "unset" ->
  negb (pyval_is_str (cp_default c) "unset") && negb (String.eqb (cp_type c) "#define") = true.
Proof.
  intros c T D. apply andb_true_iff. split; apply negb_true_iff.
  - unfold pyval_is_str. destruct (cp_default c); auto. apply String.eqb_neq. congruence.
  - now apply String.eqb_neq.
Qed.

(** Types of the form base[N], N a decimal number. *)
Definition no_bracket (s : string) : Prop := CFunctionFacts.free_of "[" s /\ CFunctionFacts.free_of "]" s.
Definition sized (base size : string) : string := base ++ "[" ++ size ++ "]".

Lemma free_spec : forall c s, CFunctionFacts.free_of c s -> py_in (String c "") s = false.
Proof.
  intros c s H. apply in_char. intros Q. apply H. clear H. induction s as [|a s IH]; cbn in *; [easy|]. destruct Q; auto.
Qed.
Lemma after_bracket_sized : forall base size, no_bracket base -> no_bracket size ->
  after_bracket (sized base size) = size ++ "]".
Proof.
  intros base size [B1 B2] [S1 S2]. unfold after_bracket, sized, py_split.
  change (base ++ "[" ++ size ++ "]") with (base ++ String "[" (size ++ "]")).
  change "[" with (CFunctionFacts.one "["). rewrite CFunctionFacts.split_one_app.
  rewrite CFunctionFacts.split_one_free by exact B1. cbn [List.app nth].
  unfold py_split. rewrite CFunctionFacts.split_one_free; [reflexivity|].
  unfold CFunctionFacts.free_of. rewrite CFunctionFacts.str_to_list_app, in_app_iff. intros [Q|[Q|[]]]; [now apply S1|discriminate].
Qed.
Lemma size_split : forall size, no_bracket size ->
  nth 0 (py_split "]" (size ++ "]")) "" = size /\ py_replace "]" "" (size ++ "]") = size.
Proof.
  intros size [S1 S2].
  assert (E : py_split "]" (size ++ "]") = [size; ""]).
  { unfold py_split. pose proof (CFunctionFacts.split_one_app "]" size "" "") as H.
    change (CFunctionFacts.one "]") with "]" in H. change (size ++ "]") with (size ++ String "]" ""). rewrite H.
    pose proof (CFunctionFacts.split_one_free "]" size "" S2) as F. change (CFunctionFacts.one "]") with "]" in F. rewrite F. reflexivity. }
  unfold py_replace. rewrite E. cbn. split; [reflexivity|]. apply sapp_nil_r.
Qed.
Lemma sized_array : forall base size, is_array (sized base size) = true.
Proof.
  intros. unfold is_array, sized. apply andb_true_iff. split; apply py_in_spec.
  - exists base, (size ++ "]"). reflexivity.
  - exists (base ++ "[" ++ size), "". now rewrite !sapp_assoc.
Qed.
Lemma sized_char : forall base size, py_in "char" base = true -> is_char_array (sized base size) = true.
Proof.
  intros base size C. pose proof (sized_array base size) as A. unfold is_array in A. apply andb_true_iff in A as [A1 A2].
  unfold is_char_array. rewrite A1, A2, !andb_true_r. unfold sized. apply py_in_spec. apply py_in_spec in C as (x & y & ->).
  exists x, (y ++ "[" ++ size ++ "]"). now rewrite !sapp_assoc.
Qed.

(** What a parameter's field holds after the defaults are set. *)
Definition holds_default (vstr : pyval -> string) (c : code_param) (v : fval) : Prop :=
  (is_array (cp_type c) = false -> v = FVal (py_lower (vstr (cp_default c)))) /\
  (forall base size n, cp_type c = sized base size -> no_bracket base -> no_bracket size -> py_int size = Ok n ->
    (py_in "char" base = true -> plain (vstr (cp_default c)) = true -> (0 < n)%Z ->
       v = FStr (stake (n - 1) (vstr (cp_default c)))) /\
    (py_in "char" (cp_type c) = false -> v = FArr n (py_lower (vstr (cp_default c))))).

Lemma default_stmt_val : forall vstr n c o, cp_type c <> "#define" -> cp_default c <> VStr "unset" ->
  default_stmt vstr n c = Ok o -> exists s, o = Some s /\ holds_default vstr c (sval s).
Proof.
  intros vstr n c o T D H. unfold default_stmt in H. rewrite gets_default_cond in H by auto.
  destruct (is_char_array (cp_type c)) eqn:CA.
  - injection H as <-. eexists. split; [reflexivity|].
    assert (A : is_array (cp_type c) = true).
    { unfold is_char_array in CA. unfold is_array. apply andb_true_iff in CA as [CA A2]. apply andb_true_iff in CA as [_ A1]. now rewrite A1, A2. }
    split; [congruence|]. intros base size k E Nb Ns I. rewrite E in *. rewrite after_bracket_sized by auto.
    destruct (size_split size Ns) as [_ ->]. cbn [sval]. rewrite I. split.
    + intros _ P L. rewrite P. apply Z.ltb_lt in L as ->. reflexivity.
    + intros Q. unfold is_char_array in CA. rewrite Q in CA. discriminate.
  - destruct (is_array (cp_type c)) eqn:A.
    + injection H as <-. eexists. split; [reflexivity|]. split; [congruence|].
      intros base size k E Nb Ns I. rewrite E in *. rewrite after_bracket_sized by auto.
      destruct (size_split size Ns) as [-> _]. cbn [sval]. rewrite I. split; [|auto].
      intros Q. rewrite (sized_char base size Q) in CA. discriminate.
    + destruct (match cp_default c with VStr _ => _ | _ => _ end); [|discriminate]. injection H as <-.
      eexists. split; [reflexivity|]. cbn [sval]. split; auto. intros base size k E. rewrite E, sized_array in A. discriminate.
Qed.

(** Running the generated function, in whatever order its lines are sorted: every parameter of the struct
    that has a default holds it, and no other field changes. *)
Theorem C54_defaults : forall vstr b d l order m, NoDup (dkeys d) -> default_stmts vstr b d = Ok l ->
  Permutation order (map fst l) ->
  (forall n c, In (n, c) d -> gets_default b c -> holds_default vstr c (exec_all order m n)) /\
  (forall n, (forall c, In (n, c) d -> ~ gets_default b c) -> exec_all order m n = m n).
Proof.
  intros vstr b d l order m N H P. destruct (default_stmts_spec _ _ _ _ H) as (I1 & I2 & I3).
  specialize (I3 N). rewrite exec_all_upd.
  assert (No : NoDup (map target order)) by (eapply Permutation_NoDup; [apply Permutation_map, Permutation_sym; exact P|exact I3]).
  split.
  - intros n c Hc (B & T & D). destruct (I2 n c Hc B) as [o E].
    destruct (default_stmt_val vstr n c o T D E) as (s & -> & V).
    assert (Hs : In s order).
    { eapply Permutation_in; [apply Permutation_sym; exact P|]. apply I1. eauto. }
    rewrite <- (default_stmt_target _ _ _ _ E). rewrite (upd_in target sval order m s No Hs). exact V.
  - intros n Hn. apply upd_notin. intros Q. apply in_map_iff in Q as (s & T & Q).
    apply (Permutation_in _ P), I1 in Q as (n' & c & Hc & B & E).
    pose proof (default_stmt_target _ _ _ _ E) as T'. assert (n' = n) as -> by congruence.
    apply (Hn c Hc). split; [exact B|]. unfold default_stmt in E.
    destruct (negb (pyval_is_str (cp_default c) "unset") && negb (String.eqb (cp_type c) "#define")) eqn:Q; [|discriminate].
    apply andb_true_iff in Q as [Q1 Q2]. apply negb_true_iff in Q1, Q2. split; [now apply String.eqb_neq|].
    intros Z. rewrite Z in Q1. cbn in Q1. discriminate.
Qed.

(** The emitted order is one of them. *)
Theorem C54_emitted_order : forall l, Permutation (map fst (sorted_stmts l)) (map fst l).
Proof.
  intros l. apply Permutation_map. unfold sorted_stmts. apply Permutation_sym.
  destruct (py_sorted_spec (fun a b => String.leb (line_of a) (line_of b))) with (l := l) as [P _]; auto.
  - intros x y. apply string_leb_tot.
  - intros x y z. apply string_leb_trans.
Qed.

(** The generator raises ValueError exactly for a scalar whose default is a list, or a string although the
    type is not REAL. *)
Theorem C54_raises : forall vstr b d,
  default_stmts vstr b d = Err ValueError <->
  exists n c, In (n, c) d /\ gets_default b c /\ is_array (cp_type c) = false /\
    ((exists x, cp_default c = VList x) \/ (exists s, cp_default c = VStr s /\ cp_type c <> "REAL")).
Proof.
  intros vstr b d.
  assert (S : forall n c, default_stmt vstr n c = Err ValueError <->
     (cp_type c <> "#define" /\ cp_default c <> VStr "unset" /\ is_array (cp_type c) = false /\
      ((exists x, cp_default c = VList x) \/ (exists s, cp_default c = VStr s /\ cp_type c <> "REAL")))).
  { intros n c. unfold default_stmt.
    destruct (negb (pyval_is_str (cp_default c) "unset") && negb (String.eqb (cp_type c) "#define")) eqn:Q.
    - apply andb_true_iff in Q as [Q1 Q2]. apply negb_true_iff in Q1, Q2. apply String.eqb_neq in Q2.
      assert (U : cp_default c <> VStr "unset") by (intros Z; rewrite Z in Q1; discriminate).
      assert (CI : is_char_array (cp_type c) = true -> is_array (cp_type c) = true).
      { unfold is_char_array, is_array. intros K. apply andb_true_iff in K as [K A2]. apply andb_true_iff in K as [_ A1]. now rewrite A1, A2. }
      destruct (is_char_array (cp_type c)) eqn:CA; [rewrite CI by auto; split; [discriminate|intros (_ & _ & Z & _); discriminate]|].
      destruct (is_array (cp_type c)) eqn:A; [split; [discriminate|intros (_ & _ & Z & _); discriminate]|].
      destruct (cp_default c) as [s|z|bb|q|x] eqn:V;
        try (split; [discriminate|intros (_ & _ & _ & [[? Z]|(? & Z & _)]); discriminate]).
      + destruct (String.eqb_spec (cp_type c) "REAL") as [R|R].
        * split; [discriminate|]. intros (_ & _ & _ & [[? Z]|(? & Z & Z')]); [discriminate|congruence].
        * split; [|auto]. intros _. repeat split; auto. right. eauto.
      + split; [|auto]. intros _. repeat split; auto. left. eauto.
    - split; [discriminate|]. intros (T & D & _). rewrite gets_default_cond in Q by auto. discriminate. }
  assert (O : forall n c e, default_stmt vstr n c = Err e -> e = ValueError).
  { intros n c e. unfold default_stmt. destruct (_ && _); [|discriminate]. destruct (is_char_array _); [discriminate|].
    destruct (is_array _); [discriminate|]. destruct (match cp_default c with VStr _ => _ | _ => _ end); [discriminate|congruence]. }
  induction d as [|[n c] d IH]; cbn [default_stmts].
  - split; [discriminate|]. intros (? & ? & [] & _).
  - destruct (Bool.eqb (cp_commondata c) b) eqn:B.
    + apply eqb_prop in B. destruct (default_stmt vstr n c) as [o|e] eqn:E.
      * assert (R : (exists n' c', In (n', c') ((n, c) :: d) /\ gets_default b c' /\ is_array (cp_type c') = false /\
            ((exists x, cp_default c' = VList x) \/ (exists s, cp_default c' = VStr s /\ cp_type c' <> "REAL"))) <->
           (exists n' c', In (n', c') d /\ gets_default b c' /\ is_array (cp_type c') = false /\
            ((exists x, cp_default c' = VList x) \/ (exists s, cp_default c' = VStr s /\ cp_type c' <> "REAL")))).
        { split; intros (n' & c' & H1 & H2); [|exists n', c'; cbn; auto]. destruct H1 as [[= <- <-]|H1]; [|eauto].
          exfalso. assert (default_stmt vstr n c = Err ValueError); [|congruence]. apply S.
          destruct H2 as ((_ & T & D) & A & V). auto. }
        rewrite R, <- IH. destruct o as [s|]; [|reflexivity].
        destruct (default_stmts vstr b d); split; congruence.
      * pose proof (O _ _ _ E) as ->. split; [|auto]. intros _. apply S in E as (T & D & A & V).
        exists n, c. cbn. repeat split; auto.
    + rewrite IH. split; intros (n' & c' & H1 & H2); exists n', c'; [cbn; auto|].
      destruct H1 as [[= <- <-]|H1]; auto. exfalso. destruct H2 as ((B' & _) & _). rewrite B', Bool.eqb_reflx in B. discriminate.
Qed.

(** ** The header that reads the parameters *)
Lemma py_mapM_spec : forall (A B : Type) (f : A -> py B) l r, py_mapM f l = Ok r -> Forall2 (fun x y => f x = Ok y) l r.
Proof.
  induction l as [|x l IH]; intros r H; cbn in H; [injection H as <-; constructor|].
  destruct (f x) eqn:E; [|discriminate]. destruct (py_mapM f l) eqn:M; [|discriminate]. injection H as <-. constructor; auto.
Qed.
Lemma set_local_name : forall n c l, set_local n c = Ok l ->
  l_name l = n /\ l_field l = n /\ l_struct l = struct_name (cp_commondata c).
Proof.
  intros n c l. unfold set_local. destruct (is_char_array _).
  - destruct (py_int _); [|discriminate]. intros [= <-]. auto.
  - destruct (is_array _); intros [= <-]; auto.
Qed.
Lemma by_lower_perm : forall (A : Type) (d : dict A), Permutation d (by_lower d).
Proof.
  intros A d. unfold by_lower.
  destruct (py_sorted_spec (fun a b : string * A => String.leb (py_lower (fst a)) (py_lower (fst b)))) with (l := d) as [P _]; auto.
  - intros x y. apply string_leb_tot.
  - intros x y z. apply string_leb_trans.
Qed.

(** Which parameters the header declares. *)
Definition in_header (common_only : bool) (c : code_param) : Prop :=
  cp_set_h c = true /\ (common_only = true -> cp_commondata c = true).
Lemma selected_spec : forall co d n c, In (n, c) (set_h_selected co d) <-> In (n, c) d /\ in_header co c.
Proof.
  intros co d n c. unfold set_h_selected, in_header. rewrite filter_In. cbn [fst snd].
  assert (I : In (n, c) (by_lower d) <-> In (n, c) d).
  { split; apply Permutation_in; [apply Permutation_sym|]; apply by_lower_perm. }
  rewrite I. destruct (cp_set_h c), co, (cp_commondata c); cbn; intuition congruence.
Qed.
Lemma NoDup_filter_keys : forall (A : Type) p (d : dict A), NoDup (dkeys d) -> NoDup (dkeys (filter p d)).
Proof.
  intros A p d. unfold dkeys. induction d as [|[k v] d IH]; cbn; auto. intros N. inversion N as [|? ? H1 H2]; subst.
  destruct (p (k, v)); cbn; auto. constructor; auto. intros Q. apply H1. apply in_map_iff in Q as (x & E & Q).
  apply filter_In in Q as [Q _]. apply in_map_iff. eauto.
Qed.

(** Each parameter meant for the header is declared once, and nothing else; after the header, the variable of
    that name holds what the header's kind of read makes of its own struct's field. *)
Theorem C54_locals : forall co d ls common prms m, NoDup (dkeys d) -> set_locals co d = Ok ls ->
  NoDup (map l_name ls) /\
  (forall n, In n (map l_name ls) <-> exists c, In (n, c) d /\ in_header co c) /\
  (forall n c, In (n, c) d -> in_header co c -> exists l, In l ls /\ set_local n c = Ok l /\
     include_set_h ls common prms m n = read_field (l_kind l) ((if cp_commondata c then common else prms) n)) /\
  (forall n, ~ In n (map l_name ls) -> include_set_h ls common prms m n = m n).
Proof.
  intros co d ls common prms m N H. unfold set_locals in H. apply py_mapM_spec in H.
  assert (Nm : map l_name ls = dkeys (set_h_selected co d)).
  { induction H as [|[n c] l s ls E H IH]; [reflexivity|]. cbn [map dkeys fst] in *. rewrite IH.
    apply set_local_name in E as (-> & _). reflexivity. }
  assert (Ns : NoDup (dkeys (set_h_selected co d))).
  { apply NoDup_filter_keys. eapply Permutation_NoDup; [apply Permutation_map, by_lower_perm|exact N]. }
  assert (Nl : NoDup (map l_name ls)) by now rewrite Nm.
  split; [exact Nl|]. split; [|split].
  - intros n. rewrite Nm. unfold dkeys. rewrite in_map_iff. split.
    + intros ([n' c] & <- & Q). cbn. apply selected_spec in Q. eauto.
    + intros (c & Q). exists (n, c). split; auto. now apply selected_spec.
  - intros n c Hc Hh. assert (Q : In (n, c) (set_h_selected co d)) by (apply selected_spec; auto).
    assert (E : exists l, In l ls /\ set_local n c = Ok l).
    { clear - H Q. induction H as [|x l xs ls E H IH]; [destruct Q|]. destruct Q as [->|Q].
      - exists l. cbn. auto.
      - destruct (IH Q) as (l' & A & B). exists l'. cbn. auto. }
    destruct E as (l & Hl & E). exists l. split; [exact Hl|]. split; [exact E|].
    unfold include_set_h. destruct (set_local_name _ _ _ E) as (E1 & E2 & E3).
    pose proof (upd_in l_name (fun l => read_field (l_kind l) ((if String.eqb (l_struct l) "commondata" then common else prms) (l_field l))) ls m l Nl Hl) as U.
    rewrite E1 in U. rewrite U, E2, E3. now destruct (cp_commondata c).
  - intros n Q. unfold include_set_h. now apply (upd_notin l_name (fun l => read_field (l_kind l) ((if String.eqb (l_struct l) "commondata" then common else prms) (l_field l)))).
Qed.

(** From default to local variable: after both set_to_default functions and the header, a scalar has its
    default, and a char array the beginning of its default that fits. *)
Lemma stake_stake : forall n s, stake n (stake n s) = stake n s.
Proof.
  intros n s. unfold stake. generalize (Z.to_nat n). clear n. induction s as [|c s IH]; intros [|n]; cbn; auto. now rewrite IH.
Qed.
Theorem C54_end_to_end : forall vstr d lc lp ls mc mp m n c, NoDup (dkeys d) ->
  default_stmts vstr true d = Ok lc -> default_stmts vstr false d = Ok lp -> set_locals false d = Ok ls ->
  In (n, c) d -> cp_set_h c = true -> cp_type c <> "#define" -> cp_default c <> VStr "unset" ->
  let v := include_set_h ls (exec_all (map fst (sorted_stmts lc)) mc) (exec_all (map fst (sorted_stmts lp)) mp) m n in
  (is_array (cp_type c) = false -> v = FVal (py_lower (vstr (cp_default c)))) /\
  (forall base size k, cp_type c = sized base size -> no_bracket base -> no_bracket size -> py_int size = Ok k ->
     py_in "char" base = true -> plain (vstr (cp_default c)) = true -> (0 < k)%Z ->
     v = FStr (stake (k - 1) (vstr (cp_default c)))).
Proof.
  intros vstr d lc lp ls mc mp m n c N Hc Hp Hs I S T D v.
  destruct (C54_locals false d ls (exec_all (map fst (sorted_stmts lc)) mc) (exec_all (map fst (sorted_stmts lp)) mp) m N Hs) as (_ & _ & R & _).
  destruct (R n c I) as (l & _ & E & V); [split; [exact S|discriminate]|]. fold v in V.
  assert (HD : holds_default vstr c ((if cp_commondata c then exec_all (map fst (sorted_stmts lc)) mc else exec_all (map fst (sorted_stmts lp)) mp) n)).
  { destruct (cp_commondata c) eqn:B.
    - apply (C54_defaults vstr true d lc (map fst (sorted_stmts lc)) mc N Hc (C54_emitted_order lc)); auto. split; auto.
    - apply (C54_defaults vstr false d lp (map fst (sorted_stmts lp)) mp N Hp (C54_emitted_order lp)); auto. split; auto. }
  destruct HD as [H1 H2]. unfold set_local in E. split.
  - intros A. assert (CA : is_char_array (cp_type c) = false).
    { unfold is_array in A. unfold is_char_array. rewrite <- andb_assoc, A. apply andb_false_r. }
    rewrite CA, A in E. injection E as <-. rewrite V, H1 by auto. reflexivity.
  - intros base size k Et Nb Ns Ik Cb Pl K. destruct (H2 base size k Et Nb Ns Ik) as [H3 _].
    rewrite H3 in V by auto. rewrite Et, (sized_char base size Cb), after_bracket_sized in E by auto.
    destruct (size_split size Ns) as [E1 _]. rewrite E1, Ik in E. injection E as <-. rewrite V. cbn [read_field l_kind].
    apply Z.ltb_lt in K as ->. now rewrite stake_stake.
Qed.

(** Lower-casing changes a string default: a REAL whose default is the macro M_PI is set to m_pi. *)
Theorem C54_lowercase_refuted : exists d l n c, In (n, c) d /\ gets_default true c /\
  default_stmts (fun v => match v with VStr s => s | _ => "" end) true d = Ok l /\
  cp_default c = VStr "M_PI" /\ exec_all (map fst (sorted_stmts l)) (fun _ => FUndef) n = FVal "m_pi".
Proof.
  exists [("x", MkCP "REAL" "m" "x" (VStr "M_PI") "Real" true true true true "")].
  eexists. exists "x", (MkCP "REAL" "m" "x" (VStr "M_PI") "Real" true true true true "").
  split; [cbn; auto|]. split; [repeat split; discriminate|]. split; [vm_compute; reflexivity|].
  split; vm_compute; reflexivity.
Qed.

(** The text of a char array default is used as a format: "100%" is not copied. *)
Theorem C54_format_refuted : exists d l n, 
  default_stmts (fun v => match v with VStr s => s | _ => "" end) false d = Ok l /\
  In n (dkeys d) /\ exec_all (map fst (sorted_stmts l)) (fun _ => FVal "old") n = FUndef.
Proof.
  exists [("x", MkCP "char[100]" "m" "x" (VStr "100%") "Real" false true true true "")].
  eexists. exists "x". split; [vm_compute; reflexivity|]. split; [cbn; auto|]. vm_compute. reflexivity.
Qed.

(** ** The SIMD header *)
Lemma simd_selected_spec : forall co d n c, In (n, c) (simd_selected co d) <->
  In (n, c) d /\ in_header co c /\ py_in "char" (cp_type c) = false /\ py_in "[" (cp_type c) = false.
Proof.
  intros co d n c. unfold simd_selected, in_header. rewrite filter_In. cbn [fst snd].
  assert (I : In (n, c) (by_lower d) <-> In (n, c) d).
  { split; apply Permutation_in; [apply Permutation_sym|]; apply by_lower_perm. }
  rewrite I. destruct (cp_set_h c), co, (cp_commondata c), (py_in "char" (cp_type c)), (py_in "[" (cp_type c)); cbn; intuition congruence.
Qed.
Lemma simd_names_of : forall n c x, In x (map s_name (simd_locals_of (n, c))) -> x = n \/ x = "NOSIMD" ++ n.
Proof.
  intros n c x. unfold simd_locals_of. destruct (String.eqb _ _); cbn; intuition.
Qed.

(** Every scalar meant for the header is declared; a REAL both as a vector and, for the broadcast, under the
    prefix NOSIMD.  If no parameter's name starts with that prefix, no name is declared twice. *)
Theorem C54_simd : forall co d, NoDup (dkeys d) -> (forall n, In n (dkeys d) -> prefix "NOSIMD" n = false) ->
  NoDup (map s_name (simd_locals co d)) /\
  forall n c, In (n, c) d -> in_header co c -> py_in "char" (cp_type c) = false -> py_in "[" (cp_type c) = false ->
    (cp_type c = "REAL" -> In (SVector n ("NOSIMD" ++ n)) (simd_locals co d) /\
                           In (SScalar "REAL" ("NOSIMD" ++ n) (struct_name (cp_commondata c)) n) (simd_locals co d)) /\
    (cp_type c <> "REAL" -> In (SScalar (cp_type c) n (struct_name (cp_commondata c)) n) (simd_locals co d)).
Proof.
  intros co d N Np. split.
  - assert (Ns : NoDup (dkeys (simd_selected co d))).
    { apply NoDup_filter_keys. eapply Permutation_NoDup; [apply Permutation_map, by_lower_perm|exact N]. }
    assert (Nq : forall n, In n (dkeys (simd_selected co d)) -> prefix "NOSIMD" n = false).
    { intros n Q. apply in_map_iff in Q as ([n' c] & <- & Q). apply simd_selected_spec in Q as [Q _]. apply Np.
      apply in_map_iff. exists (n', c). auto. }
    unfold simd_locals. induction (simd_selected co d) as [|[n c] s IH]; [constructor|].
    cbn [flat_map]. rewrite map_app. cbn [dkeys map fst] in Ns, Nq. inversion Ns as [|? ? Hn Hs]; subst.
    assert (Pn : prefix "NOSIMD" n = false) by (apply Nq; cbn; auto).
    assert (Sep : forall x, In x (map s_name (simd_locals_of (n, c))) -> ~ In x (map s_name (flat_map simd_locals_of s))).
    { intros x Hx Q. apply in_map_iff in Q as (sl & E & Q). apply in_flat_map in Q as ([n' c'] & Q1 & Q2).
      assert (Hx' : In x (map s_name (simd_locals_of (n', c')))) by (apply in_map_iff; eauto).
      assert (Pn' : prefix "NOSIMD" n' = false) by (apply Nq; right; apply in_map_iff; exists (n', c'); auto).
      assert (Nn : n <> n') by (intros ->; apply Hn; apply in_map_iff; exists (n', c'); auto).
      assert (PP : forall z, prefix "NOSIMD" ("NOSIMD" ++ z) = true) by (intros z; apply prefix_spec; eauto).
      apply simd_names_of in Hx, Hx'. destruct Hx as [-> | ->], Hx' as [E'|E'].
      - congruence.
      - rewrite E', PP in Pn. discriminate.
      - rewrite <- E', PP in Pn'. discriminate.
      - apply sapp_inj_l in E'. congruence. }
    assert (Nh : NoDup (map s_name (simd_locals_of (n, c)))).
    { unfold simd_locals_of. destruct (String.eqb _ _); cbn [map s_name]; repeat constructor; cbn [In]; try tauto.
      intros [Q|[]]. rewrite Q in Pn. assert (prefix "NOSIMD" ("NOSIMD" ++ n) = true) by (apply prefix_spec; eauto). congruence. }
    assert (IH' : NoDup (map s_name (flat_map simd_locals_of s))) by (apply IH; auto; intros; apply Nq; cbn; auto).
    clear - Sep Nh IH'. induction (map s_name (simd_locals_of (n, c))) as [|x l IHl]; cbn; auto.
    inversion Nh; subst. constructor.
    + intros Q. apply in_app_or in Q as [Q|Q]; [auto|]. apply (Sep x); cbn; auto.
    + apply IHl; auto. intros y Hy. apply Sep. cbn. auto.
  - intros n c Hc Hh A B. assert (Q : In (n, c) (simd_selected co d)) by (apply simd_selected_spec; auto).
    assert (F : forall s, In s (simd_locals_of (n, c)) -> In s (simd_locals co d)).
    { intros s Hs. unfold simd_locals. apply in_flat_map. eauto. }
    split; intros T; [split|]; apply F; unfold simd_locals_of.
    + rewrite T. cbn. auto.
    + rewrite T. cbn. auto.
    + apply String.eqb_neq in T. rewrite T. cbn. auto.
Qed.

Theorem C54_simd_clash_refuted : exists d, NoDup (dkeys d) /\ ~ NoDup (map s_name (simd_locals false d)).
Proof.
  exists [("a", MkCP "REAL" "m" "a" (VInt 1) "Real" true true true true "");
          ("NOSIMDa", MkCP "REAL" "m" "NOSIMDa" (VInt 1) "Real" true true true true "")].
  split.
  - repeat constructor; cbn; intuition discriminate.
  - vm_compute. intros N. inversion N as [|? ? H _]; subst. apply H. cbn. auto.
Qed.

(** ** Example *)
Example C54_ex :
  let vstr := fun v => match v with VStr s => s | VInt z => str_of_Z z | VBool true => "True" | VBool false => "False" | _ => "" end in
  let d := [("pi3", MkCP "REAL" "m" "pi3" (VInt 3) "Real" true true true true "");
            ("label", MkCP "char[4]" "m" "label" (VStr "cheese") "Real" false true true true "");
            ("on", MkCP "bool" "m" "on" (VBool true) "Real" false true true true "");
            ("arr", MkCP "int[3]" "m" "arr" (VInt 42) "Real" true true false true "");
            ("MAXN", MkCP "#define" "m" "MAXN" (VInt 9) "Real" false false false true "");
            ("left", MkCP "REAL" "m" "left" (VStr "unset") "Real" true false false true "")] in
  NoDup (dkeys d) /\
  exists lc lp ls, default_stmts vstr true d = Ok lc /\ default_stmts vstr false d = Ok lp /\ set_locals false d = Ok ls /\
  map l_name ls = ["label"; "on"; "pi3"] /\
  (let c := exec_all (map fst (sorted_stmts lc)) (fun _ => FUndef) in
   let p := exec_all (map fst (sorted_stmts lp)) (fun _ => FUndef) in
   c "arr" = FArr 3 "42" /\ c "left" = FUndef /\ p "MAXN" = FUndef /\
   map (include_set_h ls c p (fun _ => FUndef)) ["label"; "on"; "pi3"] = [FStr "che"; FVal "true"; FVal "3"]).
Proof.
  cbv zeta. split; [cbn; repeat constructor; cbn; intuition discriminate|].
  eexists. eexists. eexists. split; [vm_compute; reflexivity|]. split; [vm_compute; reflexivity|]. split; [vm_compute; reflexivity|].
  vm_compute. repeat split.
Qed.

Print Assumptions C54_defaults. Print Assumptions C54_emitted_order. Print Assumptions C54_raises. Print Assumptions C54_locals.
Print Assumptions C54_end_to_end. Print Assumptions C54_simd. Print Assumptions C54_lowercase_refuted.
Print Assumptions C54_format_refuted. Print Assumptions C54_simd_clash_refuted.
