(** Lemmas about the string, path and comment helpers of CFunction.v. *)
From Coq Require Import String Ascii List Bool Arith Lia.
From Verif Require Import PyBase PyBaseFacts CacheFS CFunction.
Import ListNotations.
Open Scope string_scope.

(** ** Splitting at one character *)
Definition one (c : ascii) : string := String c "".
Lemma prefix_one : forall c d s, prefix (one c) (String d s) = Ascii.eqb c d.
Proof.
  intros. unfold one. cbn [prefix]. destruct (ascii_dec c d) as [->|N].
  - rewrite Ascii.eqb_refl. now destruct s.
  - symmetry. now apply Ascii.eqb_neq.
Qed.
Lemma split_one_cons : forall c d s acc,
  split_aux (one c) (String d s) 0 acc
  = if Ascii.eqb c d then acc :: split_aux (one c) s 0 "" else split_aux (one c) s 0 (acc ++ one d).
Proof. intros. cbn [split_aux]. rewrite prefix_one. destruct (Ascii.eqb c d); reflexivity. Qed.
Lemma split_one_nonempty : forall c s acc, split_aux (one c) s 0 acc <> [].
Proof.
  intros c s; induction s as [|d s IH]; intros acc; [discriminate|].
  rewrite split_one_cons. destruct (Ascii.eqb c d); [discriminate|apply IH].
Qed.
Lemma concat_cons : forall sep a l, l <> [] -> String.concat sep (a :: l) = a ++ sep ++ String.concat sep l.
Proof. intros sep a [|b l] H; [congruence|reflexivity]. Qed.
Lemma concat_split_acc : forall c s acc, String.concat (one c) (split_aux (one c) s 0 acc) = acc ++ s.
Proof.
  intros c s; induction s as [|d s IH]; intros acc.
  - cbn. now rewrite sapp_nil_r.
  - rewrite split_one_cons. destruct (Ascii.eqb c d) eqn:E.
    + rewrite concat_cons by apply split_one_nonempty. rewrite IH. apply Ascii.eqb_eq in E. subst. reflexivity.
    + rewrite IH. apply sapp_cons_one.
Qed.
Lemma concat_split : forall c s, String.concat (one c) (py_split (one c) s) = s.
Proof. intros. apply concat_split_acc. Qed.
Lemma split_one_app : forall c a b acc,
  split_aux (one c) (a ++ String c b) 0 acc = (split_aux (one c) a 0 acc ++ py_split (one c) b)%list.
Proof.
  intros c a; induction a as [|d a IH]; intros b acc.
  - change ("" ++ String c b) with (String c b). rewrite split_one_cons, Ascii.eqb_refl. reflexivity.
  - change (String d a ++ String c b) with (String d (a ++ String c b)). rewrite !split_one_cons.
    destruct (Ascii.eqb c d); [cbn [List.app]; now rewrite IH|apply IH].
Qed.
Definition free_of (c : ascii) (s : string) : Prop := ~ In c (str_to_list s).
Lemma str_to_list_app : forall a b, str_to_list (a ++ b) = (str_to_list a ++ str_to_list b)%list.
Proof. induction a; intros; cbn; [reflexivity|]. now rewrite IHa. Qed.
Lemma split_one_free : forall c s acc, free_of c s -> split_aux (one c) s 0 acc = [acc ++ s].
Proof.
  intros c s; induction s as [|d s IH]; intros acc F.
  - cbn. now rewrite sapp_nil_r.
  - rewrite split_one_cons. destruct (Ascii.eqb c d) eqn:E.
    + apply Ascii.eqb_eq in E. subst. exfalso. apply F. now left.
    + rewrite IH; [|intros K; apply F; now right]. unfold one. now rewrite sapp_cons_one.
Qed.
Lemma split_parts_free : forall c s acc, free_of c acc -> forall x, In x (split_aux (one c) s 0 acc) -> free_of c x.
Proof.
  intros c s; induction s as [|d s IH]; intros acc F x I.
  - destruct I as [<-|[]]. exact F.
  - rewrite split_one_cons in I. destruct (Ascii.eqb c d) eqn:E.
    + destruct I as [<-|I]; [exact F|]. apply (IH "" ltac:(intros []) x I).
    + apply (IH (acc ++ one d)); [|exact I]. unfold free_of. rewrite str_to_list_app, in_app_iff. intros [K|[->|[]]].
      * exact (F K).
      * rewrite Ascii.eqb_refl in E. discriminate.
Qed.
Lemma split_concat : forall c l, l <> [] -> (forall x, In x l -> free_of c x) ->
  py_split (one c) (String.concat (one c) l) = l.
Proof.
  intros c l; induction l as [|a l IH]; intros N F; [congruence|].
  destruct l as [|b l].
  - cbn [String.concat]. unfold py_split. rewrite split_one_free; [reflexivity|]. apply F. now left.
  - rewrite concat_cons by discriminate. change (one c ++ ?x) with (String c x). unfold py_split at 1.
    rewrite split_one_app. rewrite split_one_free by (apply F; now left). rewrite IH; [reflexivity|discriminate|].
    intros x I. apply F. now right.
Qed.

(** ** Paths *)
Lemma slash_one : "/" = one "/". Proof. reflexivity. Qed.
Lemma last_char_app_ne : forall a b, b <> "" -> last_char (a ++ b) = last_char b.
Proof.
  induction a as [|c a IH]; intros b N; [reflexivity|].
  change (String c a ++ b) with (String c (a ++ b)). cbn [last_char]. rewrite IH by exact N.
  destruct (a ++ b) eqn:E; [|reflexivity]. destruct a; [contradiction|discriminate].
Qed.
Lemma last_char_split : forall a c, last_char a = Some c -> exists b, a = b ++ one c.
Proof.
  induction a as [|d a IH]; intros c H; [discriminate|]. cbn [last_char] in H. destruct a as [|e a].
  - injection H as <-. now exists "".
  - destruct (IH _ H) as [b E]. exists (String d b). rewrite E. reflexivity.
Qed.

(** Folding over the components of a joined relative path equals folding over both component lists. *)
Lemma fold_path_join : forall b a p st, prefix "/" p = false -> a <> "" ->
  fold_left (norm_step b) (py_split "/" (path_join a p)) st
  = fold_left (norm_step b) (py_split "/" p) (fold_left (norm_step b) (py_split "/" a) st).
Proof.
  intros b a p st P N. unfold path_join. rewrite P. destruct (last_char a) as [c|] eqn:L.
  2:{ destruct a as [|d a]; [congruence|]. exfalso. clear -L. revert d L. induction a as [|e a IH]; intros d L; [discriminate|].
      cbn [last_char] in L. exact (IH e L). }
  rewrite slash_one. unfold py_split. destruct (Ascii.eqb c "/") eqn:E.
  - apply Ascii.eqb_eq in E. subst c. destruct (last_char_split _ _ L) as [a' ->].
    change ((a' ++ one "/") ++ p) with ((a' ++ String "/" "") ++ p). rewrite sapp_cons_one. rewrite split_one_app, fold_left_app. f_equal.
    change (a' ++ one "/") with (a' ++ String "/" ""). rewrite split_one_app, fold_left_app. reflexivity.
  - change (one "/" ++ p) with (String "/" p). rewrite split_one_app, fold_left_app. reflexivity.
Qed.

(** A relative path's normal form: names on top of leading ".."s. *)
Definition plain (x : string) : Prop := x <> "" /\ x <> "." /\ x <> ".." /\ free_of "/" x.
Inductive shape : list string -> Prop :=
| Shape : forall ns m, Forall plain ns -> shape (ns ++ repeat ".." m).
Lemma norm_step_shape : forall st c, free_of "/" c -> shape st -> shape (norm_step false st c).
Proof.
  intros st c F [ns m P]. unfold norm_step.
  destruct (String.eqb_spec c ""); [now constructor|]. destruct (String.eqb_spec c "."); [now constructor|].
  cbn [orb negb andb]. destruct (String.eqb_spec c "..") as [->|N3]; cbn [negb orb].
  - destruct ns as [|x ns].
    + destruct m; cbn; [apply (Shape [] 1); constructor|apply (Shape [] (S (S m))); constructor].
    + cbn. inversion P as [|x' ns' [A [B [C D]]] P']; subst. destruct (String.eqb_spec x ".."); [contradiction|]. now constructor.
  - apply (Shape (c :: ns) m). constructor; [repeat split; auto|exact P].
Qed.
Lemma fold_norm_shape : forall l st, (forall x, In x l -> free_of "/" x) -> shape st -> shape (fold_left (norm_step false) l st).
Proof.
  induction l as [|a l IH]; intros st F S; [exact S|]. cbn. apply IH; [intros x I; apply F; now right|].
  apply norm_step_shape; [apply F; now left|exact S].
Qed.
Lemma split_slash_free : forall s x, In x (py_split "/" s) -> free_of "/" x.
Proof. intros s x I. apply (split_parts_free "/" s "" ltac:(intros []) x). exact I. Qed.

Definition rel_stack (s : string) : list string := fold_left (norm_step false) (py_split "/" s) [].
Lemma rel_stack_shape : forall s, shape (rel_stack s).
Proof. intros. apply fold_norm_shape; [apply split_slash_free|]. apply (Shape [] 0). constructor. Qed.

Lemma concat_slash_nonempty : forall l, (exists x, In x l /\ x <> "") -> String.concat "/" l <> "".
Proof.
  intros [|a [|b l]] [x [I N]] E; [destruct I| |].
  - cbn in E. subst. destruct I as [<-|[]]. congruence.
  - rewrite concat_cons in E by discriminate. destruct a; discriminate.
Qed.

Lemma normpath_rel : forall s, prefix "/" s = false ->
  normpath s = match rel_stack s with [] => "." | st => String.concat "/" (rev st) end.
Proof.
  intros s P. unfold normpath. destruct (String.eqb_spec s "") as [->|N]; [reflexivity|].
  cbv zeta. rewrite P. assert (P2 : prefix "//" s = false).
  { destruct s as [|c s]; [congruence|]. destruct (prefix "//" (String c s)) eqn:E; [|reflexivity].
    apply prefix_spec in E as [t E]. injection E as -> E. cbn in P. now destruct s. }
  rewrite P2. cbn [andb append]. unfold norm_comps. fold (rel_stack s).
  destruct (rel_stack s) as [|x st] eqn:R; [reflexivity|].
  destruct (String.eqb_spec (String.concat "/" (rev (x :: st))) "") as [E|E]; [|reflexivity].
  exfalso. revert E. apply concat_slash_nonempty. exists x. split; [apply -> in_rev; now left|].
  pose proof (rel_stack_shape s) as SH. rewrite R in SH. inversion SH as [ns m F E]. destruct ns as [|y ns].
  - destruct m; [discriminate|]. cbn in E. injection E as <- _. discriminate.
  - injection E as -> _. inversion F as [|? ? [A _] _]; subst. exact A.
Qed.

Lemma shape_elems : forall st, shape st -> forall x, In x st -> x <> "" /\ x <> "." /\ free_of "/" x.
Proof.
  intros st [ns m F] x I. apply in_app_or in I as [I|I].
  - rewrite Forall_forall in F. destruct (F x I) as [A [B [_ D]]]. auto.
  - apply repeat_spec in I. subst. repeat split; try discriminate. intros K. cbn in K. destruct K as [K|[K|[]]]; discriminate.
Qed.

Lemma depth_rel : forall s, prefix "/" s = false -> subdirectory_depth s = List.length (rel_stack s).
Proof.
  intros s P. unfold subdirectory_depth. rewrite (normpath_rel s P).
  pose proof (shape_elems _ (rel_stack_shape s)) as EL. destruct (rel_stack s) as [|x st] eqn:R; [reflexivity|]. cbv zeta.
  assert (SP : py_split "/" (String.concat "/" (rev (x :: st))) = rev (x :: st)).
  { rewrite slash_one. apply split_concat.
    - intros E. apply (f_equal (@List.length _)) in E. rewrite rev_length in E. discriminate.
    - intros y I. apply in_rev in I. now apply EL. }
  destruct (String.eqb_spec (String.concat "/" (rev (x :: st))) ".") as [E|E].
  - exfalso. rewrite E in SP. change (py_split "/" ".") with ["."] in SP. destruct (EL ".") as [_ [K _]]; [|congruence]. apply in_rev. rewrite <- SP. now left.
  - rewrite SP. rewrite <- (rev_length (x :: st)). f_equal.
    assert (G : forall l, (forall y, In y l -> y <> "") -> filter (fun f => negb (String.eqb f "")) l = l).
    { induction l as [|a l IH]; intros H; [reflexivity|]. cbn. destruct (String.eqb_spec a "") as [->|].
      - exfalso. apply (H ""); [now left|reflexivity].
      - cbn. f_equal. apply IH. intros y I. apply H. now right. }
    apply G. intros y I. apply in_rev in I. now apply EL.
Qed.

Lemma split_rel_path : forall n, fold_left (norm_step false) (py_split "/" (rel_path (S n))) =
  fold_left (norm_step false) (repeat ".." (S n)).
Proof.
  assert (H : forall n, py_split "/" (rel_path (S n)) = repeat ".." (S n) /\ last_char (rel_path (S n)) = Some "."%char).
  { induction n as [|n [IH1 IH2]]; [split; reflexivity|].
    change (rel_path (S (S n))) with (path_join (rel_path (S n)) ".."). unfold path_join. cbn [prefix].
    destruct (ascii_dec "/" ".") as [E|_]; [discriminate|]. rewrite IH2.
    destruct (Ascii.eqb_spec "." "/") as [E|_]; [discriminate|].
    split.
    - rewrite slash_one at 1. unfold py_split. change ("/" ++ "..") with (String "/" ".."). rewrite split_one_app.
      change (split_aux (one "/") (rel_path (S n)) 0 "") with (py_split "/" (rel_path (S n))). rewrite IH1.
      change (py_split (one "/") "..") with [".."]. change [".."] with (repeat ".." 1). rewrite <- repeat_app.
      f_equal. lia.
    - rewrite last_char_app_ne by discriminate. reflexivity. }
  intros n. now rewrite (proj1 (H n)).
Qed.
Lemma rel_path_relative : forall n, prefix "/" (rel_path n) = false.
Proof.
  induction n as [|n IH]; [reflexivity|]. cbn [rel_path]. unfold path_join. cbn [prefix].
  destruct (ascii_dec "/" ".") as [E|_]; [discriminate|].
  destruct (rel_path n) as [|c s]; [reflexivity|]. destruct (last_char (String c s)) as [d|]; [|reflexivity].
  cbn [prefix] in IH. destruct (ascii_dec "/" c) as [E|N].
  - subst c. cbn in IH. destruct s; discriminate.
  - destruct (Ascii.eqb d "/"); cbn [append prefix]; destruct (ascii_dec "/" c); congruence.
Qed.

(** Popping: [n] times ".." on a shape. *)
Lemma pop_names : forall ns m, Forall plain ns ->
  fold_left (norm_step false) (repeat ".." (List.length ns)) (ns ++ repeat ".." m)%list = repeat ".." m.
Proof.
  induction ns as [|x ns IH]; intros m F; [reflexivity|]. inversion F as [|? ? [A [B [C D]]] F']; subst.
  cbn [List.length repeat List.app fold_left]. unfold norm_step at 2. cbn [String.eqb Ascii.eqb Bool.eqb orb negb andb].
  destruct (String.eqb_spec x ".."); [contradiction|]. cbn [tl]. now apply IH.
Qed.
Lemma push_dots : forall k m, fold_left (norm_step false) (repeat ".." k) (repeat ".." m) = repeat ".." (k + m).
Proof.
  induction k as [|k IH]; intros m; [reflexivity|]. cbn [repeat fold_left].
  replace (norm_step false (repeat ".." m) "..") with (repeat ".." (S m)) by (destruct m; reflexivity).
  rewrite IH. f_equal. lia.
Qed.
Lemma pop_shape : forall ns m, Forall plain ns ->
  fold_left (norm_step false) (repeat ".." (List.length (ns ++ repeat ".." m))) (ns ++ repeat ".." m)%list = repeat ".." (m + m).
Proof.
  intros ns m F. rewrite app_length, repeat_length, repeat_app, fold_left_app, pop_names by exact F. apply push_dots.
Qed.

(** ** Comments *)
Lemma star_app : forall a b, py_in "*/" (a ++ b) = py_in "*/" a || py_in "*/" b
  || (match last_char a with Some c => Ascii.eqb c "*" | None => false end && prefix "/" b).
Proof.
  induction a as [|c a IH]; intros b.
  - cbn [append last_char]. change (py_in "*/" "") with false. cbn [orb andb]. now rewrite orb_false_r.
  - change (String c a ++ b) with (String c (a ++ b)).
    change (py_in "*/" (String c (a ++ b))) with (prefix "*/" (String c (a ++ b)) || py_in "*/" (a ++ b)).
    change (py_in "*/" (String c a)) with (prefix "*/" (String c a) || py_in "*/" a).
    rewrite IH. destruct a as [|d a].
    + cbn [append last_char]. change (py_in "*/" "") with false.
      assert (E : prefix "*/" (String c b) = Ascii.eqb c "*" && prefix "/" b).
      { cbn [prefix]. destruct (ascii_dec "*" c) as [<-|N]; [reflexivity|].
        destruct (Ascii.eqb_spec c "*"); [congruence|reflexivity]. }
      assert (E2 : prefix "*/" (String c "") = false) by (cbn [prefix]; destruct (ascii_dec "*" c); reflexivity).
      rewrite E, E2. destruct (Ascii.eqb c "*"), (prefix "/" b), (py_in "*/" b); reflexivity.
    + assert (E : prefix "*/" (String c (String d a ++ b)) = prefix "*/" (String c (String d a))).
      { change (String d a ++ b) with (String d (a ++ b)). cbn [prefix]. destruct (ascii_dec "*" c); [|reflexivity].
        destruct (ascii_dec "/" d); [|reflexivity]. now destruct (a ++ b), a. }
      rewrite E. change (last_char (String c (String d a))) with (last_char (String d a)).
      destruct (prefix "*/" (String c (String d a))), (py_in "*/" (String d a)), (py_in "*/" b); reflexivity.
Qed.

Definition no_star_slash (s : string) : Prop := forall c, In c (str_to_list s) -> c <> "*"%char /\ c <> "/"%char.
Lemma nss_in : forall s, no_star_slash s -> py_in "*/" s = false.
Proof.
  induction s as [|c s IH]; intros N; [reflexivity|].
  change (py_in "*/" (String c s)) with (prefix "*/" (String c s) || py_in "*/" s).
  rewrite IH by (intros d I; apply N; now right). destruct (N c (or_introl eq_refl)) as [A _].
  cbn [prefix]. destruct (ascii_dec "*" c); [congruence|reflexivity].
Qed.
Lemma nss_prefix : forall s t, no_star_slash s -> s <> "" -> prefix "/" (s ++ t) = false.
Proof.
  intros [|c s] t N NE; [congruence|]. destruct (N c (or_introl eq_refl)) as [_ A].
  cbn [append prefix]. destruct (ascii_dec "/" c); [congruence|reflexivity].
Qed.
Lemma nss_prefix0 : forall s, no_star_slash s -> prefix "/" s = false.
Proof. intros [|c s] N; [reflexivity|]. rewrite <- (sapp_nil_r (String c s)). now apply nss_prefix. Qed.
Lemma last_char_In : forall s c, last_char s = Some c -> In c (str_to_list s).
Proof.
  intros s c H. destruct (last_char_split _ _ H) as [b ->]. rewrite str_to_list_app. apply in_or_app. right. now left.
Qed.
Lemma nss_last : forall s, no_star_slash s -> match last_char s with Some c => Ascii.eqb c "*" | None => false end = false.
Proof.
  intros s N. destruct (last_char s) as [c|] eqn:E; [|reflexivity]. apply Ascii.eqb_neq. now apply N, last_char_In.
Qed.
Lemma ws_nss : forall s, all_ws s = true -> no_star_slash s.
Proof.
  induction s as [|c s IH]; intros H d I; [destruct I|]. cbn in H. apply andb_true_iff in H as [H1 H2].
  destruct I as [<-|I]; [|now apply IH]. split; intros ->; discriminate.
Qed.
Lemma lstrip_split : forall s, exists w, all_ws w = true /\ s = w ++ lstrip s.
Proof.
  induction s as [|c s [w [A B]]]; [now exists ""|]. cbn [lstrip]. destruct (is_ws c) eqn:E.
  - exists (String c w). cbn. rewrite E, A. split; [reflexivity|]. now rewrite <- B.
  - now exists "".
Qed.
Lemma rstrip_split : forall s, exists w, all_ws w = true /\ s = rstrip s ++ w.
Proof.
  induction s as [|c s [w [A B]]]; [now exists ""|]. cbn [rstrip]. destruct (all_ws (String c s)) eqn:E.
  - exists (String c s). now rewrite E.
  - exists w. split; [exact A|]. cbn. now rewrite <- B.
Qed.
Lemma strip_star : forall s, py_in "*/" (py_strip s) = py_in "*/" s.
Proof.
  intros s. unfold py_strip. destruct (lstrip_split s) as [w [A B]]. rewrite B at 2.
  destruct (rstrip_split (lstrip s)) as [v [C D]]. rewrite D at 2.
  rewrite !star_app. rewrite (nss_in w), (nss_in v), (nss_last w), (nss_prefix0 v) by now apply ws_nss.
  rewrite !andb_false_r, !orb_false_r. reflexivity.
Qed.
Lemma nl_nss : no_star_slash nl. Proof. intros c [<-|[]]. split; discriminate. Qed.
Lemma concat_star : forall l, py_in "*/" (String.concat nl l) = existsb (py_in "*/") l.
Proof.
  induction l as [|a l IH]; [reflexivity|]. destruct l as [|b l].
  - cbn [String.concat existsb]. now rewrite orb_false_r.
  - rewrite concat_cons by discriminate. rewrite !star_app, IH.
    rewrite (nss_in nl), (nss_last nl), (nss_prefix nl) by (try apply nl_nss; discriminate).
    cbn [existsb]. rewrite andb_false_r, andb_false_l, !orb_false_r. reflexivity.
Qed.
Lemma star_comment : forall s, py_in "*/" ("/**" ++ nl ++ prefix_with_star s ++ nl) = py_in "*/" s.
Proof.
  intros s. rewrite star_app. change (py_in "*/" "/**") with false. rewrite star_app, star_app.
  rewrite (nss_in nl), (nss_last nl), (nss_prefix nl) by (try apply nl_nss; discriminate).
  rewrite (nss_prefix0 nl) by apply nl_nss.
  rewrite !andb_false_r, andb_false_l, !orb_false_r, !orb_false_l. unfold prefix_with_star. rewrite concat_star.
  rewrite <- (concat_split (ascii_of_nat 10) s) at 2. change (one (ascii_of_nat 10)) with nl. rewrite concat_star.
  induction (py_split nl s) as [|a l IH]; [reflexivity|]. cbn [map existsb]. rewrite IH. f_equal.
  rewrite star_app, strip_star. change (last_char "   * ") with (Some " "%char).
  change (py_in "*/" "   * ") with false. change (Ascii.eqb " " "*") with false. cbn [orb andb]. apply orb_false_r.
Qed.

(** ** Removing a character that does not occur *)
Lemma replace_free : forall c s, free_of c s -> py_replace (one c) "" s = s.
Proof. intros c s F. unfold py_replace, py_split. rewrite split_one_free by exact F. reflexivity. Qed.
Lemma replace_last : forall c s, free_of c s -> py_replace (one c) "" (s ++ one c) = s.
Proof.
  intros c s F. unfold py_replace, py_split. change (s ++ one c) with (s ++ String c ""). rewrite split_one_app.
  rewrite split_one_free by exact F. cbn. apply sapp_nil_r.
Qed.
Lemma last_cut : forall c n1 n2 c1 c2, free_of c c1 -> free_of c c2 ->
  n1 ++ String c c1 = n2 ++ String c c2 -> n1 = n2 /\ c1 = c2.
Proof.
  intros c n1; induction n1 as [|a n1 IH]; intros [|b n2] c1 c2 F1 F2 E.
  - injection E as ->. auto.
  - exfalso. cbn in E. injection E as -> E. apply F1. rewrite E, str_to_list_app. apply in_or_app. right. now left.
  - exfalso. cbn in E. injection E as -> E. apply F2. rewrite <- E, str_to_list_app. apply in_or_app. right. now left.
  - cbn in E. injection E as -> E. destruct (IH _ _ _ F1 F2 E) as [-> ->]. auto.
Qed.
