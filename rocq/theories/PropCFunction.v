(** Headline theorems for the C-function registry (C31), include paths (C46), description comments (C47) and
    prototypes (C48). *)
From Coq Require Import String Ascii List Bool Arith Lia.
From Verif Require Import PyBase PyBaseFacts CacheFS CFunction CFunctionFacts CseFacts.
Import ListNotations.
Open Scope string_scope.

(** ** C31 *)
Lemma Ok_inj : forall A (x y : A), Ok x = Ok y -> x = y.
Proof. intros A x y H. now injection H. Qed.
Section C31.
Variable E : Type.
Variable infra : string.
Variable clang : string -> string -> py string.
Notation register := (register_CFunction E infra clang).
Notation init := (cfunction_init E infra clang).
Notation run := (run_calls E infra clang).
Notation reg := (dict (cfunction E)).

(** The name a call asks for, written out. *)
Definition qualified (name coord : string) : string :=
  match coord with EmptyString => name | _ => name ++ "__rfm__" ++ coord end.
Lemma qualify_name : forall a : cargs E, a_name (qualify E a) = qualified (a_name a) (a_coord a).
Proof. intros a. unfold qualify, name_and_subdir. now destruct (a_coord a). Qed.

Lemma init_fields : forall a f, init a = Ok f ->
  a_name (c_args f) = a_name a /\ a_desc (c_args f) = a_desc a /\ a_body (c_args f) = a_body a /\
  a_name a <> "" /\ a_desc a <> "" /\ a_body a <> "".
Proof.
  intros a f H. unfold cfunction_init in H.
  destruct (String.eqb_spec (a_name a) ""); [discriminate|]. destruct (String.eqb_spec (a_desc a) ""); [discriminate|].
  destruct (String.eqb_spec (a_body a) ""); [discriminate|]. cbn [orb] in H.
  destruct (a_includes a) eqn:I; try discriminate;
    (destruct (negb (String.eqb (a_coord a) "") && py_in "griddata_struct" (a_params a)); [discriminate|]);
    (destruct (generate_full_function E infra clang _) as [[[? ?] ?]|]; [|discriminate]); cbn in H; injection H as <-;
    cbn; auto 10.
Qed.
Lemma init_params : forall a f, init a = Ok f -> a_params (c_args f) = a_params a.
Proof.
  intros a f H. unfold cfunction_init in H.
  destruct (String.eqb (a_name a) "" || String.eqb (a_desc a) "" || String.eqb (a_body a) ""); [discriminate|].
  destruct (a_includes a) eqn:I; try discriminate;
    (destruct (negb (String.eqb (a_coord a) "") && py_in "griddata_struct" (a_params a)); [discriminate|]);
    (destruct (generate_full_function E infra clang _) as [[[? ?] ?]|]; [|discriminate]); cbn in H; injection H as <-; reflexivity.
Qed.

(** Every call adds exactly one new entry at the end under the qualified name and succeeds, or raises and leaves the
    dictionary as it was. *)
Theorem C31_step : forall (d d' : reg) a r, register d a = (d', r) ->
  (exists f, r = Ok tt /\ ~ In (qualified (a_name a) (a_coord a)) (dkeys d) /\
             d' = (d ++ [(qualified (a_name a) (a_coord a), f)])%list /\ init (qualify E a) = Ok f)
  \/ (exists e, r = Err e /\ d' = d).
Proof.
  intros d d' a r H. unfold register_CFunction in H. rewrite qualify_name in H.
  destruct (dmem (qualified (a_name a) (a_coord a)) d) eqn:M.
  - injection H as <- <-. right. eexists; split; reflexivity.
  - destruct (init (qualify E a)) as [f|e] eqn:I.
    + injection H as <- <-. left. exists f. apply dmem_false in M.
      assert (N : ~ In (qualified (a_name a) (a_coord a)) (dkeys d)) by now apply dget_None_keys.
      repeat split; auto. now apply dset_fresh.
    + injection H as <- <-. right. eexists; split; reflexivity.
Qed.

(** When a call succeeds: exactly when the name is free and CFunction accepts the arguments. *)
Theorem C31_accepts : forall (d : reg) a,
  snd (register d a) = Ok tt <->
  (~ In (qualified (a_name a) (a_coord a)) (dkeys d)
   /\ (a_name a <> "" \/ a_coord a <> "") /\ a_desc a <> "" /\ a_body a <> ""
   /\ a_includes a <> INotList
   /\ ~ (a_coord a <> "" /\ py_in "griddata_struct" (a_params a) = true)
   /\ exists t, generate_full_function E infra clang
        (set_decorators E (qualify E a) (match a_decorators a with EmptyString => "" | d => d ++ " " end)) = Ok t).
Proof.
  intros d a. unfold register_CFunction. rewrite qualify_name.
  assert (QN : String.eqb (a_name (qualify E a)) "" = String.eqb (a_name a) "" && String.eqb (a_coord a) "").
  { rewrite qualify_name. unfold qualified. destruct (a_coord a); [cbn; now rewrite andb_true_r|].
    cbn [String.eqb]. rewrite andb_false_r. destruct (a_name a); reflexivity. }
  destruct (dmem (qualified (a_name a) (a_coord a)) d) eqn:M.
  - split; [discriminate|]. intros [N _]. exfalso. apply N. apply dmem_true in M as [v V]. eapply dget_Some_keys; eauto.
  - assert (N : ~ In (qualified (a_name a) (a_coord a)) (dkeys d)) by now apply dget_None_keys, dmem_false.
    unfold cfunction_init. rewrite QN.
    assert (Q : a_desc (qualify E a) = a_desc a /\ a_body (qualify E a) = a_body a /\ a_includes (qualify E a) = a_includes a
             /\ a_coord (qualify E a) = a_coord a /\ a_params (qualify E a) = a_params a
             /\ a_decorators (qualify E a) = a_decorators a).
    { unfold qualify. destruct (name_and_subdir _ _ _). cbn. auto 10. }
    destruct Q as [Q1 [Q2 [Q3 [Q4 [Q5 Q6]]]]]. rewrite Q1, Q2, Q3, Q4, Q5, Q6.
    assert (DE : (if String.eqb (a_decorators a) "" then "" else a_decorators a ++ " ")
               = match a_decorators a with EmptyString => "" | d0 => d0 ++ " " end) by now destruct (a_decorators a).
    rewrite DE. clear DE.
    destruct (String.eqb_spec (a_name a) "") as [n|n], (String.eqb_spec (a_coord a) "") as [c|c]; cbn [andb orb negb];
      (destruct (String.eqb_spec (a_desc a) "") as [e|e]; [cbn [orb]; split; [discriminate|intros H; exfalso; tauto]|]);
      (destruct (String.eqb_spec (a_body a) "") as [b|b]; [cbn [orb]; split; [discriminate|intros H; exfalso; tauto]|]);
      cbn [orb];
      try (split; [discriminate|intros H; exfalso; tauto]);
      (destruct (a_includes a) eqn:I;
        try (split; [discriminate|intros [_ [_ [_ [_ [H _]]]]]; congruence]);
        try (destruct (py_in "griddata_struct" (a_params a)) eqn:G; cbn [andb]; try (split; [discriminate|intros H; exfalso; tauto]));
        (destruct (generate_full_function E infra clang _) as [t|ex]; cbn;
          [split; [intros _; repeat split; auto; try discriminate;
                   try (intros [K1 K2]; congruence); exists t; reflexivity
                  |reflexivity]
          |split; [discriminate|intros H; destruct H as [_ [_ [_ [_ [_ [_ [t T]]]]]]]; discriminate]])).
Qed.

Definition well_formed (d : reg) : Prop :=
  NoDup (dkeys d) /\
  forall k f, In (k, f) d -> a_name (c_args f) = k /\ k <> "" /\ a_desc (c_args f) <> "" /\ a_body (c_args f) <> "".

Lemma register_extends : forall d a, exists t, fst (register d a) = (d ++ t)%list.
Proof.
  intros d a. destruct (register d a) as [d' r] eqn:H. destruct (C31_step _ _ _ _ H) as [[f [_ [_ [-> _]]]]|[e [_ ->]]].
  - eexists; reflexivity.
  - exists []. now rewrite app_nil_r.
Qed.
Lemma register_well_formed : forall d a, well_formed d -> well_formed (fst (register d a)).
Proof.
  intros d a [N W]. destruct (register d a) as [d' r] eqn:H. cbn.
  destruct (C31_step _ _ _ _ H) as [[f [_ [F [-> I]]]]|[e [_ ->]]]; [|split; assumption].
  split.
  - unfold dkeys. rewrite map_app. cbn.
    change (map fst d) with (dkeys d). clear -N F. induction (dkeys d) as [|x l IH]; cbn; [constructor; [intros []|constructor]|].
    inversion N as [|? ? N1 N2]; subst. constructor.
    + intros K. apply in_app_or in K as [K|[<-|[]]]; [contradiction|]. apply F. now left.
    + apply IH; [exact N2|]. intros K. apply F. now right.
  - intros k g K. apply in_app_or in K as [K|[K|[]]]; [now apply W|]. injection K as <- <-.
    destruct (init_fields _ _ I) as [A [B [C [D1 [D2 D3]]]]]. rewrite A, B, C, qualify_name in *. auto.
Qed.

(** After any history the registry is well formed. *)
Theorem C31_history : forall l, well_formed (run l []).
Proof.
  intros l. unfold run_calls. apply fold_left_invariant.
  - intros s a. apply register_well_formed.
  - split; [constructor|intros k f []].
Qed.

(** Later calls leave earlier entries, and their order, alone. *)
Theorem C31_stable : forall l1 l2 d, exists t, run (l1 ++ l2) d = (run l1 d ++ t)%list.
Proof.
  intros l1 l2 d. unfold run_calls. rewrite fold_left_app. generalize (fold_left (fun d0 a => fst (register d0 a)) l1 d).
  clear d. induction l2 as [|a l2 IH]; intros d; cbn [fold_left].
  - exists []. now rewrite app_nil_r.
  - destruct (register_extends d a) as [t ->]. destruct (IH (d ++ t)%list) as [t' ->]. exists (t ++ t')%list.
    now rewrite app_assoc.
Qed.
Theorem C31_lookup_stable : forall l1 l2 k f, dget k (run l1 []) = Some f -> dget k (run (l1 ++ l2) []) = Some f.
Proof.
  intros l1 l2 k f H. destruct (C31_stable l1 l2 []) as [t Ht].
  apply In_dget; [apply C31_history|]. rewrite Ht. apply in_or_app. left. now apply dget_In.
Qed.
(** The number of entries is the number of calls that did not raise. *)
Fixpoint outcomes (l : list (cargs E)) (d : reg) : list (py unit) :=
  match l with [] => [] | a :: r => snd (register d a) :: outcomes r (fst (register d a)) end.
Theorem C31_count : forall l d, List.length (run l d) = List.length d + List.length (filter is_ok (outcomes l d)).
Proof.
  induction l as [|a l IH]; intros d; cbn [outcomes filter]; [cbn; lia|].
  change (run (a :: l) d) with (run l (fst (register d a))). rewrite IH.
  destruct (register d a) as [d' r] eqn:H. cbn [fst snd].
  destruct (C31_step _ _ _ _ H) as [[f [-> [_ [-> _]]]]|[e [-> ->]]]; cbn; [|lia].
  rewrite app_length. cbn. lia.
Qed.
End C31.

(** Coordinate-system names without "_" (all those of reference_metric.py): two functions with different names or systems
    never ask for the same entry. *)
Theorem C31_qualified_injective : forall n1 c1 n2 c2,
  c1 <> "" -> c2 <> "" -> ~ In "_"%char (str_to_list c1) -> ~ In "_"%char (str_to_list c2) ->
  qualified n1 c1 = qualified n2 c2 -> n1 = n2 /\ c1 = c2.
Proof.
  intros n1 c1 n2 c2 N1 N2 F1 F2 H. unfold qualified in H.
  destruct c1 as [|a1 c1]; [congruence|]. destruct c2 as [|a2 c2]; [congruence|].
  remember (String a1 c1) as d1. remember (String a2 c2) as d2.
  change ("__rfm__" ++ d1) with ("__rfm_" ++ String "_" d1) in H. change ("__rfm__" ++ d2) with ("__rfm_" ++ String "_" d2) in H.
  rewrite <- !sapp_assoc in H. destruct (last_cut "_" _ _ _ _ F1 F2 H) as [A B]. split; [|exact B].
  now apply sapp_inj_r in A.
Qed.
(** Without the condition two different requests clash, and the second is rejected. *)
Theorem C31_qualified_injective_refuted : exists n1 c1 n2 c2, (n1, c1) <> (n2, c2) /\ qualified n1 c1 = qualified n2 c2.
Proof. exists "f__rfm__X", "", "f", "X". split; [discriminate|reflexivity]. Qed.

(** Examples *)
Definition cf_args (name coord desc body : string) : cargs unit :=
  MkArgs "." false (IList [IStr "BHaH_defines.h"]) "" desc "" "void" name "int a" false body "" coord tt "".
Definition no_format (s o : string) : py string := Ok s.
Definition cf_hist : list (cargs unit) :=
  [cf_args "f" "Cartesian" "doc" "return;"; cf_args "f" "" "doc" "return;"; cf_args "f" "Cartesian" "other" "x;";
   cf_args "g" "" "" "return;"; cf_args "f__rfm__Cartesian" "" "doc" "y;"; cf_args "" "Spherical" "doc" "z;"].
Example C31_ex : dkeys (run_calls unit "BHaH" no_format cf_hist []) = ["f__rfm__Cartesian"; "f"; "__rfm__Spherical"].
Proof. vm_compute. reflexivity. Qed.
Example C31_ex_outcomes : outcomes unit "BHaH" no_format cf_hist []
  = [Ok tt; Ok tt; Err ValueError; Err ValueError; Err ValueError; Ok tt].
Proof. vm_compute. reflexivity. Qed.
Example C31_ex_first_kept : option_map (fun f => a_desc (c_args f)) (dget "f__rfm__Cartesian" (run_calls unit "BHaH" no_format cf_hist []))
  = Some "doc".
Proof. vm_compute. reflexivity. Qed.
Example C31_ex_raw : option_map c_raw (dget "f__rfm__Cartesian" (run_calls unit "BHaH" no_format cf_hist []))
  = Some ("#include " ++ """" ++ "../BHaH_defines.h" ++ """" ++ nl ++ "/**" ++ nl ++ "   * doc" ++ nl ++ "*/" ++ nl
          ++ "void f__rfm__Cartesian(int a) {" ++ nl ++ "return;}" ++ nl ++ nl).
Proof. vm_compute. reflexivity. Qed.

(** ** C46 *)
(** For a function placed in a relative subdirectory, going from there along the include prefix ends in the project
    root exactly when the subdirectory does not leave the root. *)
Definition leaves_root (subdir : string) : Prop := In ".." (py_split "/" (normpath subdir)).
Lemma leaves_stack : forall s, prefix "/" s = false -> (leaves_root s <-> In ".." (rel_stack s)).
Proof.
  intros s P. unfold leaves_root. rewrite (normpath_rel s P).
  pose proof (shape_elems _ (rel_stack_shape s)) as EL. destruct (rel_stack s) as [|x st] eqn:R.
  - cbn. split; [intros [K|[]]; discriminate|intros []].
  - rewrite slash_one. rewrite split_concat.
    + symmetry. apply in_rev.
    + intros K. apply (f_equal (@List.length _)) in K. rewrite rev_length in K. discriminate.
    + intros y I. apply in_rev in I. now apply EL.
Qed.
Lemma normpath_dot : forall s, prefix "/" s = false -> (normpath s = "." <-> rel_stack s = []).
Proof.
  intros s P. rewrite (normpath_rel s P). destruct (rel_stack s) as [|x st] eqn:R; [tauto|]. split; [|discriminate].
  intros K. exfalso. pose proof (shape_elems _ (rel_stack_shape s)) as EL. rewrite R in EL.
  assert (SP : py_split (one "/") (String.concat (one "/") (rev (x :: st))) = rev (x :: st)).
  { apply split_concat.
    - intros Q. apply (f_equal (@List.length _)) in Q. rewrite rev_length in Q. discriminate.
    - intros y I. apply in_rev in I. now apply EL. }
  change (one "/") with "/" in SP. rewrite K in SP. change (py_split "/" ".") with ["."] in SP.
  destruct (EL ".") as [_ [Q _]]; [|congruence]. apply in_rev. rewrite <- SP. now left.
Qed.
Lemma prefix_slash_join : forall a b, prefix "/" a = false -> prefix "/" b = false -> prefix "/" (path_join a b) = false.
Proof.
  intros a b A B. unfold path_join. rewrite B. destruct a as [|c s]; [exact B|].
  destruct (last_char (String c s)) as [d|]; [|exact B].
  cbn [prefix] in A. destruct (ascii_dec "/" c) as [<-|N].
  - destruct s; discriminate.
  - destruct (Ascii.eqb d "/"); cbn [append prefix]; destruct (ascii_dec "/" c); congruence.
Qed.
Theorem C46_root : forall subdir, prefix "/" subdir = false ->
  (normpath (path_join subdir (rel_path (subdirectory_depth subdir))) = "." <-> ~ leaves_root subdir).
Proof.
  intros s P. rewrite (leaves_stack s P). rewrite normpath_dot by (apply prefix_slash_join; [exact P|apply rel_path_relative]).
  destruct (string_dec s "") as [->|NE].
  { cbn. split; [intros _ []|reflexivity]. }
  unfold rel_stack at 1. rewrite fold_path_join by (auto using rel_path_relative).
  fold (rel_stack s). rewrite (depth_rel s P).
  pose proof (rel_stack_shape s) as SH. destruct SH as [ns m F].
  assert (G : fold_left (norm_step false) (py_split "/" (rel_path (List.length (ns ++ repeat ".." m)))) (ns ++ repeat ".." m)%list
            = repeat ".." (m + m)).
  { destruct (List.length (ns ++ repeat ".." m)) as [|k] eqn:L.
    - destruct ns; [|discriminate]. destruct m; [reflexivity|discriminate].
    - rewrite split_rel_path, <- L. now apply pop_shape. }
  rewrite G. split.
  - intros K I. destruct m; [|discriminate]. cbn in I. rewrite app_nil_r in I. rewrite Forall_forall in F.
    destruct (F _ I) as [_ [_ [Q _]]]. congruence.
  - intros K. destruct m; [reflexivity|]. exfalso. apply K. apply in_or_app. right. now left.
Qed.
(** The depth is the number of folders of the normalised path, whatever "./", "//" and "a/.." it contains. *)
Theorem C46_depth : forall subdir, prefix "/" subdir = false -> normpath subdir <> "." ->
  subdirectory_depth subdir = List.length (py_split "/" (normpath subdir)).
Proof.
  intros s P N. rewrite (normpath_rel s P) in N. rewrite (depth_rel s P), (normpath_rel s P). pose proof (shape_elems _ (rel_stack_shape s)) as EL.
  destruct (rel_stack s) as [|x st] eqn:R; [congruence|]. rewrite slash_one, split_concat.
  - symmetry. apply rev_length.
  - intros Q. apply (f_equal (@List.length _)) in Q. rewrite rev_length in Q. discriminate.
  - intros y I. apply in_rev in I. now apply EL.
Qed.
(** So a header of the root directory is found from the subdirectory by the path written into the #include line. *)
Lemma rel_path_nonempty : forall n, rel_path (S n) <> "".
Proof.
  intros n. cbn [rel_path]. unfold path_join. cbn [prefix]. destruct (ascii_dec "/" ".") as [E|_]; [discriminate|].
  destruct (last_char (rel_path n)) as [c|] eqn:L; [|discriminate].
  destruct (rel_path n); [discriminate|]. destruct (Ascii.eqb c "/"); discriminate.
Qed.
Theorem C46_header_found : forall subdir h, prefix "/" subdir = false -> ~ leaves_root subdir ->
  h <> "" -> h <> "." -> h <> ".." -> ~ In "/"%char (str_to_list h) ->
  normpath (path_join subdir (path_join (rel_path (subdirectory_depth subdir)) h)) = h.
Proof.
  intros s h P NL H1 H2 H3 HF.
  assert (PH : prefix "/" h = false).
  { destruct h as [|c h]; [congruence|]. cbn [prefix]. destruct (ascii_dec "/" c) as [<-|_]; [|reflexivity].
    exfalso. apply HF. now left. }
  assert (SH : py_split "/" h = [h]) by (rewrite slash_one; unfold py_split; rewrite split_one_free by exact HF; reflexivity).
  assert (ST : forall st, norm_step false st h = h :: st).
  { intros st. unfold norm_step. destruct (String.eqb_spec h ""); [congruence|]. destruct (String.eqb_spec h "."); [congruence|].
    destruct (String.eqb_spec h ".."); [congruence|]. reflexivity. }
  set (r := rel_path (subdirectory_depth s)).
  assert (PR : prefix "/" (path_join r h) = false) by (apply prefix_slash_join; [apply rel_path_relative|exact PH]).
  rewrite normpath_rel by (apply prefix_slash_join; assumption).
  assert (G : rel_stack (path_join s (path_join r h)) = [h]).
  { assert (C : normpath (path_join s r) = ".") by now apply C46_root.
    rewrite normpath_dot in C by (apply prefix_slash_join; [exact P|apply rel_path_relative]).
    destruct (string_dec s "") as [->|NE].
    { unfold r. change (rel_path (subdirectory_depth "")) with "". unfold path_join. rewrite PH. cbn [last_char].
      rewrite PH. cbn. unfold rel_stack. rewrite SH. cbn [fold_left]. apply ST. }
    unfold rel_stack in C |- *. rewrite fold_path_join in C by (unfold r; auto using rel_path_relative).
    rewrite fold_path_join by assumption.
    destruct (string_dec r "") as [R|R].
    - rewrite R in C |- *. cbn in C. replace (path_join "" h) with h by (unfold path_join; now rewrite PH).
      rewrite SH. cbn [fold_left]. rewrite ST. f_equal. exact C.
    - rewrite fold_path_join by assumption. rewrite C, SH. cbn [fold_left]. apply ST. }
  rewrite G. reflexivity.
Qed.
(** Every string of the includes list becomes one #include line, in the given order: system headers (with "<") as they
    are, the three generated headers (BHaH) through the prefix, the others in quotes. *)
Definition include_spec (infra prefix_ s : string) : string :=
  if py_in "<" s then "#include " ++ s ++ nl
  else "#include " ++ """" ++
       (if String.eqb infra "BHaH" &&
           existsb (fun h => py_in h s) ["BHaH_defines.h"; "BHaH_function_prototypes.h"; "simd_intrinsics.h"]
        then path_join prefix_ s else s) ++ """" ++ nl.
Theorem C46_includes : forall E infra clang (a : cargs E) f, cfunction_init E infra clang a = Ok f ->
  forall l, a_includes a = IList l ->
  exists ss post, l = map IStr ss /\
    c_raw f = String.concat "" (map (include_spec infra (rel_path (subdirectory_depth (a_subdir a)))) ss) ++ post.
Proof.
  intros E infra clang a f H l HI. unfold cfunction_init in H.
  destruct (String.eqb (a_name a) "" || String.eqb (a_desc a) "" || String.eqb (a_body a) ""); [discriminate|].
  rewrite HI in H. destruct (negb (String.eqb (a_coord a) "") && py_in "griddata_struct" (a_params a)); [discriminate|].
  cbv zeta in H. set (a' := set_decorators E a _) in *. unfold generate_full_function in H.
  change (a_includes a') with (a_includes a) in H. change (a_subdir a') with (a_subdir a) in H. rewrite HI in H.
  set (rel := rel_path _) in *. cbn [includes_text] in H.
  destruct (include_lines infra rel l) as [incs|] eqn:T; [|discriminate]. cbn [py_bind] in H.
  destruct (clang _ (a_clang a')) as [full|]; [|discriminate]. cbn [py_bind fst snd] in H. apply Ok_inj in H. subst f. cbn [c_raw].
  assert (G : forall l incs, include_lines infra rel l = Ok incs ->
    exists ss, l = map IStr ss /\ incs = String.concat "" (map (include_spec infra rel) ss)).
  { clear. induction l as [|[s|] l IH]; intros incs H.
    - apply Ok_inj in H. subst. now exists [].
    - cbn [include_lines] in H. destruct (include_lines infra rel l) as [t|] eqn:T; [|discriminate]. cbn [py_bind] in H.
      apply Ok_inj in H. subst. destruct (IH t eq_refl) as [ss [-> ->]]. exists (s :: ss). split; [reflexivity|].
      cbn [map]. assert (L : include_line infra rel s = include_spec infra rel s).
      { unfold include_line, include_spec. destruct (py_in "<" s); [reflexivity|]. cbn [existsb].
        rewrite orb_false_r, orb_assoc. reflexivity. }
      rewrite L. destruct ss; cbn [map String.concat]; [now rewrite sapp_nil_r|reflexivity].
    - discriminate. }
  destruct (G l incs T) as [ss [-> ->]]. exists ss. eexists. split; reflexivity.
Qed.
Example C46_ex_includes : forall E et, option_map c_raw (match cfunction_init E "BHaH" (fun s _ => Ok s)
    (MkArgs "a/b" false (IList [IStr "<math.h>"; IStr "BHaH_defines.h"; IStr "x.h"]) "" "d" "" "void" "f" "" false "b" "" "" et "")
    with Ok f => Some f | Err _ => None end)
  = Some ("#include <math.h>" ++ nl ++ "#include " ++ """" ++ "../../BHaH_defines.h" ++ """" ++ nl ++ "#include " ++ """" ++ "x.h" ++ """" ++ nl
          ++ "/**" ++ nl ++ "   * d" ++ nl ++ "*/" ++ nl ++ "void f() {" ++ nl ++ "b}" ++ nl ++ nl)
  /\ normpath "a/b/../../BHaH_defines.h" = "BHaH_defines.h".
Proof. intros. split; vm_compute; reflexivity. Qed.
(** A subdirectory outside the root gets a prefix that does not lead to the root. *)
Theorem C46_outside_refuted : exists subdir, prefix "/" subdir = false /\
  normpath (path_join subdir (rel_path (subdirectory_depth subdir))) <> ".".
Proof. exists "../x". split; [reflexivity|]. vm_compute. discriminate. Qed.
Example C46_ex : subdirectory_depth "./a//b/../c/" = 2 /\ rel_path 2 = "../.." /\ ~ leaves_root "./a//b/../c/".
Proof. repeat split. vm_compute. intros [K|[K|[]]]; discriminate. Qed.

(** ** C47 *)
(** The description comment ends where the generator closes it exactly when the description contains no "*/". *)
Theorem C47_comment : forall desc,
  py_in "*/" ("/**" ++ nl ++ prefix_with_star desc ++ nl) = false <-> ~ exists a b, desc = a ++ "*/" ++ b.
Proof.
  intros desc. rewrite star_comment, <- py_in_spec. destruct (py_in "*/" desc); split; intuition congruence.
Qed.
(** Every registered function's text has that comment directly in front of its header. *)
Theorem C47_placed : forall E infra clang (a : cargs E) f, cfunction_init E infra clang a = Ok f ->
  exists pre post, c_raw f = pre ++ ("/**" ++ nl ++ prefix_with_star (a_desc a) ++ nl) ++ "*/" ++ nl
                             ++ py_replace ";" "" (c_proto f) ++ " {" ++ post.
Proof.
  intros E infra clang a f H. destruct (init_fields _ _ _ _ _ H) as [_ [_ [_ [N1 [N2 N3]]]]].
  unfold cfunction_init in H.
  destruct (String.eqb_spec (a_name a) ""); [contradiction|]. destruct (String.eqb_spec (a_desc a) "") as [|D]; [contradiction|].
  destruct (String.eqb_spec (a_body a) ""); [contradiction|]. cbn [orb] in H.
  destruct (a_includes a) eqn:I; try discriminate;
    (destruct (negb (String.eqb (a_coord a) "") && py_in "griddata_struct" (a_params a)); [discriminate|]);
    cbv zeta in H; set (a' := set_decorators E a _) in *;
    unfold generate_full_function in H;
    (destruct (includes_text infra _ (a_includes a')) as [incs|] eqn:T; [|discriminate]); cbn [py_bind] in H;
    (destruct (clang _ (a_clang a')) as [full|]; [|discriminate]); cbn [py_bind fst snd] in H; apply Ok_inj in H; subst f; cbn [c_raw c_proto];
    change (a_desc a') with (a_desc a); change (a_prefunc a') with (a_prefunc a);
    (destruct (String.eqb_spec (a_desc a) ""); [contradiction|]);
    exists (incs ++ (if String.eqb (a_prefunc a) "" then "" else a_prefunc a ++ nl));
    eexists; repeat rewrite sapp_assoc; reflexivity.
Qed.
Example C47_ex : py_in "*/" ("/**" ++ nl ++ prefix_with_star "a */ b" ++ nl) = true
              /\ py_in "*/" ("/**" ++ nl ++ prefix_with_star "a * / b" ++ nl) = false.
Proof. split; vm_compute; reflexivity. Qed.

(** ** C48 *)
(** The prototype put into the header file is the definition's header followed by a semicolon, provided none of its parts
    contains a semicolon. *)
Theorem C48_prototype : forall E infra clang (a : cargs E) f, cfunction_init E infra clang a = Ok f ->
  (forall s, In s [a_decorators a; a_type a; a_name a; a_params a] -> ~ In ";"%char (str_to_list s)) ->
  exists h pre post, c_proto f = h ++ ";" /\ c_raw f = pre ++ h ++ " {" ++ nl ++ post
    /\ h = match a_decorators a with EmptyString => "" | d => d ++ " " end ++ a_type a ++ " " ++ a_name a ++ "(" ++ a_params a ++ ")".
Proof.
  intros E infra clang a f H S.
  set (h := match a_decorators a with EmptyString => "" | d => d ++ " " end ++ a_type a ++ " " ++ a_name a ++ "(" ++ a_params a ++ ")").
  assert (PR : c_proto f = h ++ ";").
  { unfold cfunction_init in H.
    destruct (String.eqb (a_name a) "" || String.eqb (a_desc a) "" || String.eqb (a_body a) ""); [discriminate|].
    destruct (a_includes a) eqn:I; try discriminate;
    (destruct (negb (String.eqb (a_coord a) "") && py_in "griddata_struct" (a_params a)); [discriminate|]);
    cbv zeta in H; set (a' := set_decorators E a _) in *;
    unfold generate_full_function in H;
    (destruct (includes_text infra _ (a_includes a')) as [incs|] eqn:T; [|discriminate]); cbn [py_bind] in H;
    (destruct (clang _ (a_clang a')) as [full|]; [|discriminate]); cbn [py_bind fst snd] in H; apply Ok_inj in H; subst f;
    cbn [c_proto]; unfold prototype_of, h, a'; cbn [a_decorators a_type a_name a_params set_decorators];
    repeat rewrite sapp_assoc; destruct (a_decorators a); reflexivity. }
  assert (F : free_of ";" h).
  { unfold free_of, h. rewrite !str_to_list_app, !in_app_iff. intros K.
    destruct K as [K|[K|[K|[K|[K|[K|K]]]]]].
    - apply (S (a_decorators a)); [now left|]. destruct (a_decorators a) as [|c s]; [destruct K|].
      rewrite str_to_list_app in K. apply in_app_or in K as [K|[K|[]]]; [exact K|discriminate].
    - apply (S (a_type a)); [right; now left|exact K].
    - destruct K as [K|[]]; discriminate.
    - apply (S (a_name a)); [right; right; now left|exact K].
    - destruct K as [K|[]]; discriminate.
    - apply (S (a_params a)); [right; right; right; now left|exact K].
    - destruct K as [K|[]]; discriminate. }
  exists h. destruct (C47_placed _ _ _ _ _ H) as [pre [post R]].
  unfold cfunction_init in H.
  destruct (String.eqb (a_name a) "" || String.eqb (a_desc a) "" || String.eqb (a_body a) ""); [discriminate|].
  assert (RW : py_replace ";" "" (c_proto f) = h).
  { rewrite PR. change ";" with (one ";"). now apply replace_last. }
  destruct (a_includes a) eqn:I; try discriminate;
    (destruct (negb (String.eqb (a_coord a) "") && py_in "griddata_struct" (a_params a)); [discriminate|]);
    cbv zeta in H; set (a' := set_decorators E a _) in *;
    unfold generate_full_function in H;
    (destruct (includes_text infra _ (a_includes a')) as [incs|] eqn:T; [|discriminate]); cbn [py_bind] in H;
    (destruct (clang _ (a_clang a')) as [full|]; [|discriminate]); cbn [py_bind fst snd] in H; apply Ok_inj in H; subst f;
    cbn [c_raw c_proto] in *; rewrite RW;
    match goal with |- exists _ _, _ /\ incs ++ ?p ++ ?q ++ _ = _ /\ _ => exists (incs ++ p ++ q) end;
    eexists; repeat split; try exact PR; repeat rewrite sapp_assoc; reflexivity.
Qed.
(** What the text contains, in order: includes, the text to come before, the comment, the header, the line including the
    parameters if asked for (the SIMD version if the function is vectorised), the body, the text to come after. *)
Definition line_if (s : string) : string := match s with EmptyString => "" | _ => s ++ nl end.
Definition params_line (infra rel file : string) : string :=
  "#include " ++ """" ++ (if String.eqb infra "BHaH" then path_join rel file else file) ++ """" ++ nl.
Theorem C48_contents : forall E infra clang (a : cargs E) f, cfunction_init E infra clang a = Ok f ->
  exists incs header,
    py_replace ";" "" (c_proto f) = header /\
    c_raw f = incs ++ line_if (a_prefunc a) ++ "/**" ++ nl ++ prefix_with_star (a_desc a) ++ nl ++ "*/" ++ nl
      ++ header ++ " {" ++ nl
      ++ (if a_cparams_h a
          then params_line infra (rel_path (subdirectory_depth (a_subdir a)))
                 (if a_simd a then "set_CodeParameters-simd.h"
                  else if py_in "simd_width" (a_body a) then "set_CodeParameters-simd.h" else "set_CodeParameters.h")
          else "")
      ++ a_body a ++ "}" ++ nl ++ a_postfunc a ++ nl /\
    (a_includes a = INone -> incs = "") /\ clang (c_raw f) (a_clang a) = Ok (c_full f).
Proof.
  intros E infra clang a f H. unfold cfunction_init in H.
  destruct (String.eqb (a_name a) ""); [discriminate|]. destruct (String.eqb_spec (a_desc a) "") as [|D]; [discriminate|].
  destruct (String.eqb (a_body a) ""); [discriminate|]. cbn [orb] in H.
  destruct (a_includes a) eqn:I; try discriminate;
    (destruct (negb (String.eqb (a_coord a) "") && py_in "griddata_struct" (a_params a)); [discriminate|]);
    cbv zeta in H; set (a' := set_decorators E a _) in *; unfold generate_full_function in H;
    (destruct (includes_text infra _ (a_includes a')) as [incs|] eqn:T; [|discriminate]); cbn [py_bind] in H;
    match type of H with context [clang ?r _] => set (raw := r) in * end;
    (destruct (clang raw (a_clang a')) as [full|] eqn:CL; [|discriminate]); cbn [py_bind fst snd] in H; apply Ok_inj in H; subst f;
    cbn [c_raw c_proto c_full]; exists incs; eexists; (split; [reflexivity|]);
    (split; [|split; [|exact CL]]);
    try (change (a_includes a') with (a_includes a) in T; rewrite I in T; cbn in T; intros _; now apply Ok_inj in T);
    try (intros K; discriminate K);
    unfold raw; change (a_desc a') with (a_desc a); change (a_prefunc a') with (a_prefunc a);
    change (a_body a') with (a_body a); change (a_postfunc a') with (a_postfunc a);
    (destruct (String.eqb_spec (a_desc a) ""); [contradiction|]);
    unfold cparams_include, params_line, line_if; change (a_cparams_h a') with (a_cparams_h a);
    change (a_simd a') with (a_simd a); change (a_body a') with (a_body a); change (a_subdir a') with (a_subdir a);
    (destruct (a_prefunc a); cbn [String.eqb]; repeat rewrite sapp_assoc; do 2 f_equal;
     destruct (a_cparams_h a), (a_simd a), (py_in "simd_width" (a_body a)), (String.eqb infra "BHaH");
     cbn [orb]; repeat rewrite sapp_assoc; reflexivity).
Qed.
Example C48_ex_contents : forall E et, option_map c_raw (match cfunction_init E "BHaH" (fun s _ => Ok s)
    (MkArgs "a" false INone "" "d" "" "void" "f" "int n" true "i += simd_width;" "" "" et "") with Ok f => Some f | Err _ => None end)
  = Some ("/**" ++ nl ++ "   * d" ++ nl ++ "*/" ++ nl ++ "void f(int n) {" ++ nl ++
          "#include " ++ """" ++ "../set_CodeParameters-simd.h" ++ """" ++ nl ++ "i += simd_width;}" ++ nl ++ nl).
Proof. intros. vm_compute. reflexivity. Qed.
(** A semicolon inside a part is dropped from the definition but kept in the prototype. *)
Theorem C48_semicolon_refuted : exists (a : cargs unit) f, cfunction_init unit "" no_format a = Ok f /\
  c_proto f <> py_replace ";" "" (c_proto f) ++ ";".
Proof.
  exists (MkArgs "." false INone "" "d" "extern int x;" "void" "f" "" false "b" "" "" tt ""). eexists. split; [vm_compute; reflexivity|].
  vm_compute. discriminate.
Qed.
Example C48_ex : option_map (fun f => c_proto f) (dget "f" (run_calls unit "BHaH" no_format cf_hist [])) = Some "void f(int a);".
Proof. vm_compute. reflexivity. Qed.

Print Assumptions C31_step. Print Assumptions C31_accepts. Print Assumptions C31_history. Print Assumptions C31_stable.
Print Assumptions C31_lookup_stable. Print Assumptions C31_count. Print Assumptions C31_qualified_injective.
Print Assumptions C31_qualified_injective_refuted. Print Assumptions C46_root. Print Assumptions C46_depth.
Print Assumptions C46_outside_refuted. Print Assumptions C47_comment. Print Assumptions C47_placed.
Print Assumptions C46_header_found. Print Assumptions C46_includes. Print Assumptions C48_contents.
Print Assumptions C48_prototype. Print Assumptions C48_semicolon_refuted.
