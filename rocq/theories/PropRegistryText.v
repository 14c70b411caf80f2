(** C40, C53 and C54, the text itself: the C code of the generated struct, macros and local variables, and the
    order of the sections in BHaH_defines.h. *)
From Coq Require Import String Ascii List Arith ZArith Bool Lia Permutation Sorted.
From Verif Require Import PyBase PyBaseFacts PyList PyListFacts Params GridFacts Registry RegistryFacts PropRegistry PropCodeParams.
Import ListNotations.
Open Scope list_scope.
Open Scope string_scope.

(** ** Reading C text: what is left once // comments and white space are taken away *)
Definition slash : ascii := "/"%char.
Definition lf : ascii := ascii_of_nat 10.
Definition blank (c : ascii) : bool := Ascii.eqb c " " || Ascii.eqb c lf.
Definition starts_slash (s : string) : bool := match s with String c _ => Ascii.eqb c slash | "" => false end.
Fixpoint read_c (comment : bool) (s : string) : string :=
  match s with
  | "" => ""
  | String c r =>
      if comment then read_c (negb (Ascii.eqb c lf)) r
      else if Ascii.eqb c slash && starts_slash r then read_c true r
      else if blank c then read_c false r else String c (read_c false r)
  end.
Definition code (s : string) : string := read_c false s.
Fixpoint lacks (c : ascii) (s : string) : bool :=
  match s with "" => true | String d r => negb (Ascii.eqb d c) && lacks c r end.

Definition closed (p : string) : Prop := forall b, code (p ++ b) = code p ++ code b.
Lemma clean_closed : forall p, lacks slash p = true -> closed p.
Proof.
  induction p as [|c p IH]; intros H b; [reflexivity|].
  cbn [lacks] in H. apply andb_true_iff in H as [H1 H2]. apply negb_true_iff in H1.
  specialize (IH H2 b). unfold code in *. cbn [append read_c]. rewrite H1. cbn [andb]. rewrite IH. now destruct (blank c).
Qed.
Lemma closed_app : forall p q, closed p -> closed q -> closed (p ++ q).
Proof. intros p q P Q b. now rewrite sapp_assoc, P, Q, <- sapp_assoc, <- P. Qed.
Lemma in_comment : forall c b, lacks lf c = true -> read_c true (c ++ NL ++ b) = code b.
Proof.
  induction c as [|d c IH]; intros b H; [reflexivity|].
  cbn [lacks] in H. apply andb_true_iff in H as [H1 H2]. cbn [append read_c]. rewrite H1. apply IH, H2.
Qed.
Lemma comment_code : forall c b, lacks lf c = true -> code ("//" ++ c ++ NL ++ b) = code b.
Proof. intros c b H. unfold code. cbn [append read_c]. cbn. now apply in_comment. Qed.
Lemma clean_code : forall p b, lacks slash p = true -> code (p ++ b) = code p ++ code b.
Proof. intros p b H. now apply clean_closed. Qed.
Lemma sapp_nil : forall s : string, (s ++ "")%string = s.
Proof. induction s as [|c s IH]; [reflexivity|]. cbn. now rewrite IH. Qed.

(** * C40: the struct holds the registered declarations, and nothing else *)
Definition plain_item (g : gdata) : Prop := lacks slash (gd_decl g) = true /\ lacks lf (gd_desc g) = true.
Lemma line_code : forall g b, plain_item g -> code (griddata_line g ++ b) = code (gd_decl g ++ ";") ++ code b.
Proof.
  intros g b (H1 & H2). unfold griddata_line. rewrite !sapp_assoc.
  change (code ("  " ++ gd_decl g ++ ";" ++ (if gd_desc g =? "" then "" else "// <- " ++ gd_desc g) ++ NL ++ b))
    with (code (gd_decl g ++ ";" ++ (if gd_desc g =? "" then "" else "// <- " ++ gd_desc g) ++ NL ++ b)).
  rewrite !(clean_code (gd_decl g)) by assumption. rewrite sapp_assoc. f_equal.
  rewrite (clean_code ";") by reflexivity. f_equal.
  destruct (gd_desc g =? ""); [reflexivity|].
  rewrite !sapp_assoc. change ("// <- " ++ gd_desc g ++ NL ++ b) with ("//" ++ (" <- " ++ gd_desc g) ++ NL ++ b).
  apply comment_code. exact H2.
Qed.
Lemma concat_cons : forall x (l : list string), String.concat "" (x :: l) = x ++ String.concat "" l.
Proof. intros x [|y l]; cbn; [now rewrite sapp_nil|reflexivity]. Qed.
Lemma lines_code : forall l b, Forall plain_item l ->
  code (String.concat "" (map griddata_line l) ++ b) = String.concat "" (map (fun g => code (gd_decl g ++ ";")) l) ++ code b.
Proof.
  induction 1 as [|g l H F IH]; [reflexivity|].
  cbn [map]. rewrite !concat_cons, sapp_assoc, line_code, IH, sapp_assoc by assumption. reflexivity.
Qed.
Lemma concat_app_str : forall l1 l2 : list string, String.concat "" (l1 ++ l2) = String.concat "" l1 ++ String.concat "" l2.
Proof. induction l1 as [|x l1 IH]; intros l2; [reflexivity|]. cbn [app]. now rewrite !concat_cons, IH, sapp_assoc. Qed.

(** The fields of the generated griddata_struct: the coordinate arrays, then every registered declaration followed by a
    semicolon, module by module in the order of registration. *)
Theorem C40_struct_fields : forall (d : dict (list gdata)),
  Forall (fun kv => lacks lf (fst kv) = true /\ Forall plain_item (snd kv)) d ->
  code (griddata_text d) =
    "typedefstruct__griddata__{REAL*restrictxx[3];" ++
    String.concat "" (map (fun g => code (gd_decl g ++ ";")) (flat_map snd d)) ++ "}griddata_struct;".
Proof.
  intros d H. unfold griddata_text.
  transitivity ("typedefstruct__griddata__{REAL*restrictxx[3];" ++
    code (String.concat "" (map (fun kv => "  // NRPy+ MODULE: " ++ fst kv ++ NL ++
                                   String.concat "" (map griddata_line (snd kv))) d) ++ "} griddata_struct;" ++ NL)); [reflexivity|].
  f_equal. induction H as [|(k, l) d (H1 & H2) F IH]; [reflexivity|].
  cbn [map flat_map fst snd] in *. rewrite map_app, concat_app_str, concat_cons.
  transitivity (code ("  " ++ "//" ++ (" NRPy+ MODULE: " ++ k) ++ NL ++ String.concat "" (map griddata_line l) ++
    String.concat "" (map (fun kv => "  // NRPy+ MODULE: " ++ fst kv ++ NL ++
                                   String.concat "" (map griddata_line (snd kv))) d) ++ "} griddata_struct;" ++ NL)).
  { f_equal. rewrite !sapp_assoc. reflexivity. }
  rewrite (clean_code "  ") by reflexivity. rewrite comment_code by exact H1. rewrite lines_code by assumption. rewrite IH, !sapp_assoc. reflexivity.
Qed.

(** * C53: macros *)
(** Every parameter of type #define becomes a guarded macro: name, blank, the text of the default value, and a comment. *)
Theorem C53_macros : forall vstr d n c, In (n, c) d -> cp_type c = "#define" ->
  exists a b, define_text vstr d =
    a ++ "#ifndef " ++ n ++ NL ++ "#define " ++ n ++ " " ++ vstr (cp_default c) ++ " // " ++ cp_module c ++ NL ++ "#endif" ++ NL ++ b.
Proof.
  intros vstr d n c H T. unfold define_text.
  set (l := filter _ d).
  assert (I : In (n, c) l) by (apply filter_In; split; [exact H|cbn [snd]; rewrite T; reflexivity]).
  destruct l as [|x l']; [destruct I|].
  set (f := fun kv : string * code_param => "#ifndef " ++ fst kv ++ NL ++ "#define " ++ fst kv ++ " " ++
            vstr (cp_default (snd kv)) ++ " // " ++ cp_module (snd kv) ++ NL ++ "#endif" ++ NL).
  destruct (concat_in (map f (x :: l')) (f (n, c)) (in_map f _ _ I)) as (a & b & ->).
  exists ("// START: CodeParameters declared as #define." ++ NL ++ a), (b ++ "// END: CodeParameters declared as #define." ++ NL).
  unfold f. cbn [fst snd]. rewrite !sapp_assoc. reflexivity.
Qed.
(** Only those: without one, no text at all. *)
Theorem C53_no_macros : forall vstr d, (forall n c, In (n, c) d -> cp_type c <> "#define") -> define_text vstr d = "".
Proof.
  intros vstr d H. unfold define_text. replace (filter _ d) with (@nil (string * code_param)); [reflexivity|].
  symmetry. induction d as [|(n, c) d IH]; [reflexivity|]. cbn [filter snd].
  destruct (String.eqb_spec (cp_type c) "#define") as [E|E]; [now destruct (H n c (or_introl eq_refl))|].
  apply IH. intros m c' I. apply (H m c'). now right.
Qed.

(** * C53: the two structs of parameters *)
(** Where a field comes from: a CodeParameter, or a declaration another module registered. *)
Definition source := (string * code_param + gdata)%type.
(** The C declaration of a field: [type name;], or [base name[size];] for a type [base[size]]; char arrays are of type char. *)
Definition declares (x : source) (t : string) : Prop :=
  match x with
  | inl (n, c) =>
      (is_array (cp_type c) = false -> t = code (cp_type c ++ " " ++ n ++ ";")) /\
      (forall b sz r, cp_type c = b ++ "[" ++ sz ++ "]" ++ r ->
         Forall (fun s => lacks "["%char s = true /\ lacks "]"%char s = true /\ (forall x, In x (list_ascii_of_string s) -> CacheFS.is_ws x = false)) [b; sz] ->
         t = code ((if prefix "char" b then "char" else b) ++ " " ++ n ++ "[" ++ sz ++ "];"))
  | inr g => t = code (gd_decl g ++ ";")
  end.
Definition plain_source (x : string * source) : Prop :=
  match x with
  | (m, inl (n, c)) => lacks slash n = true /\ lacks slash (cp_type c) = true /\ lacks lf (cp_module c) = true /\ lacks lf (cp_desc c) = true
  | (m, inr g) => lacks lf m = true /\ plain_item g
  end.
Definition source_line (x : string * source) : string :=
  match x with
  | (m, inl (n, c)) => format_c_declaration (cp_type c) n (cp_module c) (CacheFS.py_strip (cp_desc c))
  | (m, inr g) => extra_line m g
  end.
(** The sources of a struct: its CodeParameters that are no macros, and what other modules registered. *)
Definition params_of (common : bool) (d : cparams_dict) : list (string * source) :=
  map (fun kv => ("", inl kv)) (filter (fun kv => negb (String.eqb (cp_type (snd kv)) "#define") && Bool.eqb (cp_commondata (snd kv)) common) d).
Definition extras_of (ex : dict (list gdata)) : list (string * source) := flat_map (fun kv => map (fun g => (fst kv, inr g)) (snd kv)) ex.

Lemma lacks_app : forall c a b, lacks c (a ++ b) = lacks c a && lacks c b.
Proof. induction a as [|d a IH]; intros b; [reflexivity|]. cbn [append lacks]. now rewrite IH, andb_assoc. Qed.
Lemma lacks_In : forall c s, lacks c s = true <-> ~ In c (list_ascii_of_string s).
Proof.
  induction s as [|a s IH]; [cbn; tauto|]. cbn [lacks list_ascii_of_string In]. rewrite andb_true_iff, negb_true_iff, Ascii.eqb_neq, IH. tauto.
Qed.
Lemma lacks_sub : forall c s t, (forall x, In x (list_ascii_of_string t) -> In x (list_ascii_of_string s)) -> lacks c s = true -> lacks c t = true.
Proof. intros c s t H L. rewrite lacks_In in *. auto. Qed.
Lemma strip_id : forall s, (forall x, In x (list_ascii_of_string s) -> CacheFS.is_ws x = false) -> CacheFS.py_strip s = s.
Proof.
  intros s H. unfold CacheFS.py_strip. assert (L : CacheFS.lstrip s = s).
  { destruct s as [|a s]; [reflexivity|]. cbn [CacheFS.lstrip]. now rewrite (H a (or_introl eq_refl)). }
  rewrite L. clear L. induction s as [|a s IH]; [reflexivity|]. cbn [CacheFS.rstrip CacheFS.all_ws]. rewrite (H a (or_introl eq_refl)). cbn [andb].
  rewrite IH; [reflexivity|]. intros x I. apply H. now right.
Qed.
Lemma comment_tail : forall p c b, lacks slash p = true -> lacks lf c = true -> code (p ++ " //" ++ c ++ NL ++ b) = code p ++ code b.
Proof.
  intros p c b P C. rewrite clean_code by exact P. f_equal. change (" //" ++ c ++ NL ++ b) with (" " ++ ("//" ++ c ++ NL ++ b)).
  rewrite (clean_code " ") by reflexivity. now rewrite comment_code.
Qed.
Lemma source_line_code : forall x, plain_source x -> exists t, declares (snd x) t /\ forall b, code (source_line x ++ b) = t ++ code b.
Proof.
  intros (m, [(n, c)|g]) H; cbn [plain_source snd] in *.
  - destruct H as (N & T & M & D). exists (code (c_decl (cp_type c) n ++ ";")). split.
    + split.
      * intros A. unfold c_decl. rewrite A. rewrite !sapp_assoc. reflexivity.
      * intros b sz r E F. inversion F as [|? ? (B1 & B2 & B3) F1]; subst. inversion F1 as [|? ? (S1 & S2 & S3) _]; subst.
        assert (A : is_array (cp_type c) = true).
        { unfold is_array. apply andb_true_iff. split; apply py_in_spec; rewrite E; [now exists b, (sz ++ "]" ++ r)|].
          exists (b ++ "[" ++ sz), r. now rewrite !sapp_assoc. }
        unfold c_decl. rewrite A, E. change ("[" ++ sz ++ "]" ++ r) with (String "["%char (sz ++ "]" ++ r)).
        rewrite split1_free by now apply lacks_In. cbn [fst snd]. change ("]" ++ r) with (String "]"%char r).
        rewrite split1_free by now apply lacks_In. cbn [fst]. rewrite !strip_id by assumption.
        destruct (prefix "char" b); rewrite !sapp_assoc; reflexivity.
    + intros b. unfold source_line, format_c_declaration.
      assert (L : lacks slash (c_decl (cp_type c) n ++ ";") = true).
      { apply lacks_In. intros I. assert (Q : In slash (chars (c_decl (cp_type c) n))).
        { rewrite lacks_In in *. clear - I. induction (c_decl (cp_type c) n) as [|a s IH]; cbn in *; [destruct I as [I|[]]; discriminate|].
          destruct I; auto. }
        apply c_decl_in in Q as [Q|[Q|Q]]; [now apply (proj1 (lacks_In _ _) T)|now apply (proj1 (lacks_In _ _) N)|].
        cbn in Q. repeat (destruct Q as [Q|Q]; [discriminate|]). destruct Q. }
      assert (LS : lacks lf (CacheFS.py_strip (cp_desc c)) = true) by (eapply lacks_sub; [intros x; apply strip_in|exact D]).
      unfold c_comment. destruct (CacheFS.py_strip (cp_desc c) =? "").
      * rewrite <- (comment_tail (c_decl (cp_type c) n ++ ";") (" (" ++ cp_module c ++ ")") b) by (try exact L; rewrite !lacks_app, M; reflexivity).
        f_equal. now rewrite !sapp_assoc.
      * rewrite <- (comment_tail (c_decl (cp_type c) n ++ ";") (" " ++ CacheFS.py_strip (cp_desc c) ++ " (" ++ cp_module c ++ ")") b)
          by (try exact L; rewrite !lacks_app, LS, M; reflexivity).
        f_equal. now rewrite !sapp_assoc.
  - destruct H as (M & P1 & P2). exists (code (gd_decl g ++ ";")). split; [reflexivity|]. intros b. unfold source_line, extra_line.
    assert (L : lacks slash (gd_decl g ++ ";") = true) by (rewrite lacks_app, P1; reflexivity).
    destruct (gd_desc g =? "").
    + transitivity (code ((gd_decl g ++ ";") ++ NL ++ b)); [now rewrite !sapp_assoc|]. now rewrite clean_code.
    + transitivity (code ((gd_decl g ++ ";") ++ " //" ++ (" <- " ++ m ++ ": " ++ gd_desc g) ++ NL ++ b)); [now rewrite !sapp_assoc|].
      apply comment_tail; [exact L|]. rewrite !lacks_app, M, P2. reflexivity.
Qed.
Lemma source_lines_code : forall l b, Forall plain_source l ->
  exists ts, Forall2 declares (map snd l) ts /\ code (String.concat "" (map source_line l) ++ b) = String.concat "" ts ++ code b.
Proof.
  induction 1 as [|x l H F (ts & I1 & I2)]; [exists []; split; [constructor|reflexivity]|].
  destruct (source_line_code x H) as (t & D & C). exists (t :: ts). split; [now constructor|].
  cbn [map]. rewrite !concat_cons, !sapp_assoc, C, I2. reflexivity.
Qed.
Lemma sorted_sources : forall l, exists l', Permutation l l' /\ py_sorted String.leb (map source_line l) = map source_line l'.
Proof.
  intros l. destruct (py_sorted_spec String.leb string_leb_tot string_leb_trans (map source_line l)) as (P & _).
  apply Permutation_sym, Permutation_map_inv in P as (l' & E & P'). exists l'. split; [|exact E]. exact P'.
Qed.
Lemma struct_code : forall l nm, Forall plain_source l -> lacks slash nm = true ->
  exists l' ts, Permutation l l' /\ Forall2 declares (map snd l') ts /\
    code ("typedef struct __" ++ nm ++ "__ {" ++ NL ++ String.concat "" (py_sorted String.leb (map source_line l)) ++ "} " ++ nm ++ ";" ++ NL)
    = "typedefstruct__" ++ code nm ++ "__{" ++ String.concat "" ts ++ "}" ++ code nm ++ ";".
Proof.
  intros l nm F N. destruct (sorted_sources l) as (l' & P & E). rewrite E.
  assert (F' : Forall plain_source l') by (rewrite Forall_forall in *; intros x I; apply F; eapply Permutation_in; [apply Permutation_sym, P|exact I]).
  destruct (source_lines_code l' ("} " ++ nm ++ ";" ++ NL) F') as (ts & D & C). exists l', ts. split; [exact P|]. split; [exact D|].
  rewrite (clean_code "typedef struct __") by reflexivity. rewrite (clean_code nm) by exact N. rewrite (clean_code "__ {") by reflexivity.
  rewrite (clean_code NL) by reflexivity. rewrite C. rewrite (clean_code "} ") by reflexivity. rewrite (clean_code nm) by exact N. reflexivity.
Qed.
(** Each parameter struct declares, in some order, exactly its parameters (and the commondata struct what other modules registered). *)
Theorem C53_struct_fields : forall d ex,
  Forall plain_source (params_of false d) -> Forall plain_source (params_of true d) -> Forall plain_source (extras_of ex) ->
  (exists l ts, Permutation (params_of false d) l /\ Forall2 declares (map snd l) ts /\
     code (params_struct_text d) = "typedefstruct__params_struct__{" ++ String.concat "" ts ++ "}params_struct;") /\
  (exists l ts, Permutation (params_of true d ++ extras_of ex) l /\ Forall2 declares (map snd l) ts /\
     code (commondata_struct_text d ex) = "typedefstruct__commondata_struct__{" ++ String.concat "" ts ++ "}commondata_struct;").
Proof.
  intros d ex F1 F2 F3.
  assert (E1 : forall b, param_lines b d = map source_line (params_of b d)).
  { intros b. unfold param_lines, params_of. rewrite map_map. apply map_ext. intros (n, c). reflexivity. }
  assert (E2 : extra_lines ex = map source_line (extras_of ex)).
  { unfold extra_lines, extras_of. clear. induction ex as [|(k, l) ex IH]; [reflexivity|]. cbn [flat_map fst snd].
    rewrite map_app, map_map, IH. reflexivity. }
  split.
  - destruct (struct_code (params_of false d) "params_struct" F1 eq_refl) as (l & ts & P & D & C). exists l, ts. split; [exact P|]. split; [exact D|].
    unfold params_struct_text. rewrite E1. exact C.
  - destruct (struct_code (params_of true d ++ extras_of ex) "commondata_struct" (proj2 (Forall_app _ _ _) (conj F2 F3)) eq_refl) as (l & ts & P & D & C).
    exists l, ts. split; [exact P|]. split; [exact D|]. unfold commondata_struct_text, commondata_lines. rewrite E1, E2, <- map_app. exact C.
Qed.

(** * C53: order of the sections *)
(** The order the sections of the infrastructure must have: each may use what the ones before it define. *)
Definition section_order : list string :=
  ["general"; "after_general"; "nrpy.infrastructures.BHaH.diagnostics.progress_indicator";
   "commondata_struct"; "params_struct"; "finite_difference"; "reference_metric";
   "nrpy.infrastructures.BHaH.CurviBoundaryConditions.CurviBoundaryConditions";
   "nrpy.infrastructures.BHaH.MoLtimestepping.MoL"; "nrpy.infrastructures.BHaH.interpolation.interpolation"; "grid"].
Definition earlier (m1 m2 : string) : Prop :=
  (exists p q r, section_order = p ++ m1 :: q ++ m2 :: r)%list
  \/ (In m1 section_order /\ ~ In m2 section_order)
  \/ (~ In m1 section_order /\ ~ In m2 section_order /\ m1 <> m2 /\ String.leb m1 m2 = true).
Definition section (m : string) (calls : list (string * string)) : string :=
  "// Basic definitions for module " ++ m ++ ":" ++ NL ++ String.concat "" (texts_of m calls).

Lemma str_mem_In : forall k l, str_mem k l = true <-> In k l.
Proof.
  intros k l. unfold str_mem. rewrite existsb_exists. split.
  - intros (x & H & E). apply String.eqb_eq in E as <-. exact H.
  - intros H. exists k. split; [exact H|apply String.eqb_refl].
Qed.
Lemma output_key_section : forall calls m, texts_of m calls <> [] ->
  exists a, output_key m (String.concat "" (texts_of m calls)) = a ++ section m calls.
Proof.
  intros calls m H. exists (NL ++ "//********************************************" ++ NL). reflexivity.
Qed.
Lemma concat_two : forall (p q r : list string) x y, exists a b c, String.concat "" (p ++ x :: q ++ y :: r)%list = a ++ x ++ b ++ y ++ c.
Proof.
  intros p q r x y. exists (String.concat "" p), (String.concat "" q), (String.concat "" r).
  now rewrite concat_app_str, concat_cons, concat_app_str, concat_cons.
Qed.
Lemma filter_sorted : forall (A : Type) (R : A -> A -> Prop) f l, StronglySorted R l -> StronglySorted R (filter f l).
Proof.
  induction 1 as [|x l S IH F]; cbn [filter]; [constructor|]. destruct (f x); [|exact IH].
  constructor; [exact IH|]. rewrite Forall_forall in *. intros y H. apply F. now apply filter_In in H.
Qed.
Lemma order_same : section_order = core_modules_list. Proof. reflexivity. Qed.
Lemma sorted_split : forall (l : list (string * string)) a b,
  StronglySorted (fun x y => String.leb (fst x) (fst y) = true) l -> In a l -> In b l -> fst a <> fst b -> String.leb (fst a) (fst b) = true ->
  exists p q r, l = (p ++ a :: q ++ b :: r)%list.
Proof.
  induction l as [|x l IH]; intros a b S Ia Ib N L; [destruct Ia|].
  inversion S as [|? ? S' F]; subst.
  destruct Ia as [->|Ia].
  - destruct Ib as [->|Ib]; [now destruct N|]. destruct (in_split _ _ Ib) as (q & r & ->). now exists [], q, r.
  - destruct Ib as [->|Ib].
    + rewrite Forall_forall in F. specialize (F a Ia).
      destruct N. apply String.leb_antisym; assumption.
    + destruct (IH a b S' Ia Ib N L) as (p & q & r & ->). now exists (x :: p), q, r.
Qed.
(** For any registrations and any two modules with text, the section of the one that must come first does. *)
Theorem C53_section_order : forall calls m1 m2, earlier m1 m2 -> texts_of m1 calls <> [] -> texts_of m2 calls <> [] ->
  exists a b c, core_text (bd_run calls) ++ noncore_text (bd_run calls) = a ++ section m1 calls ++ b ++ section m2 calls ++ c.
Proof.
  intros calls m1 m2 E H1 H2. set (bd := bd_run calls).
  assert (G : forall m, texts_of m calls <> [] -> dget m bd = Some (String.concat "" (texts_of m calls)))
    by (intros m H; unfold bd; rewrite bd_run_get; destruct (texts_of m calls); [easy|reflexivity]).
  pose (f := fun m => match dget m bd with Some t => output_key m t | None => "" end).
  pose (g := fun kv : string * string => output_key (fst kv) (snd kv)).
  assert (F : forall m, texts_of m calls <> [] -> f m = output_key m (String.concat "" (texts_of m calls)))
    by (intros m H; unfold f; now rewrite (G m H)).
  assert (NI : forall m, texts_of m calls <> [] -> ~ In m section_order -> In (m, String.concat "" (texts_of m calls)) (noncore_items bd)).
  { intros m H N. unfold noncore_items. apply filter_In. cbn [fst]. split.
    - apply In_py_sorted; [intros; apply string_leb_tot|intros x y z; apply string_leb_trans|]. apply dget_In, G, H.
    - apply negb_true_iff, not_true_is_false. rewrite str_mem_In, <- order_same. exact N. }
  destruct (output_key_section calls m1 H1) as (w1 & W1). destruct (output_key_section calls m2 H2) as (w2 & W2).
  destruct E as [(p & q & r & E)|[(I1 & N2)|(N1 & N2 & D & L)]].
  - unfold core_text. fold f. rewrite <- order_same, E, map_app. cbn [map]. rewrite map_app. cbn [map].
    destruct (concat_two (map f p) (map f q) (map f r) (f m1) (f m2)) as (a & b & c & ->).
    rewrite !F, W1, W2 by assumption.
    exists (a ++ w1), (b ++ w2), (c ++ noncore_text bd). now rewrite !sapp_assoc.
  - rewrite order_same in I1. apply (in_map f) in I1. destruct (concat_in _ _ I1) as (a & b & E).
    pose proof (in_map g _ _ (NI m2 H2 N2)) as NI2. destruct (concat_in _ _ NI2) as (a' & b' & E').
    unfold core_text, noncore_text. fold f. fold g. rewrite E, E'. unfold g. cbn [fst snd]. rewrite F, W1, W2 by assumption.
    exists (a ++ w1), (b ++ a' ++ w2), b'. now rewrite !sapp_assoc.
  - assert (S : StronglySorted (fun x y => String.leb (fst x) (fst y) = true) (noncore_items bd)).
    { unfold noncore_items. apply filter_sorted.
      apply (py_sorted_spec (fun a b : string * string => String.leb (fst a) (fst b)));
        [intros; apply string_leb_tot|intros x y z; apply string_leb_trans]. }
    destruct (sorted_split _ _ _ S (NI m1 H1 N1) (NI m2 H2 N2) D L) as (p & q & r & E).
    unfold noncore_text. fold g. rewrite E, map_app. cbn [map]. rewrite map_app. cbn [map].
    match goal with |- context [String.concat "" (map g p ++ ?x :: map g q ++ ?y :: map g r)%list] =>
      destruct (concat_two (map g p) (map g q) (map g r) x y) as (a & b & c & ->) end.
    unfold g. cbn [fst snd]. rewrite W1, W2.
    exists (core_text bd ++ a ++ w1), (b ++ w2), c. now rewrite !sapp_assoc.
Qed.

(** The supplemental sections stand after all others, each with its own text. *)
Theorem C53_supplemental : forall calls suppl k t m, In (k, t) suppl -> texts_of m calls <> [] ->
  exists a b c, core_text (bd_run calls) ++ noncore_text (bd_run calls) ++ suppl_text suppl =
    a ++ section m calls ++ b ++ "// Basic definitions for module " ++ k ++ ":" ++ NL ++ t ++ c.
Proof.
  intros calls suppl k t m I H. destruct (C53_complete calls m H) as (a & b & E).
  destruct (concat_in _ _ (in_map (fun kv => output_key (fst kv) (snd kv)) _ _ I)) as (a' & b' & E').
  rewrite <- sapp_assoc, E. unfold suppl_text. rewrite E'. cbn [fst snd].
  exists a, (b ++ a' ++ NL ++ "//********************************************" ++ NL), b'.
  unfold output_key, section. rewrite !sapp_assoc. reflexivity.
Qed.

(** * C54: the lines that set the defaults *)
(** Every parameter with a default has its line in the body, as C code: a char array is filled by snprintf, an array element
    by element, anything else assigned. *)
Theorem C54_default_code : forall vstr b d t n c, set_to_default_body vstr b d = Ok t -> In (n, c) d -> gets_default b c ->
  exists x line y, t = x ++ line ++ "  // " ++ cp_module c ++ "::" ++ n ++ NL ++ y /\
    let field := (if b then "commondata" else "params") ++ "->" ++ n in
    (is_array (cp_type c) = false -> line = field ++ " = " ++ py_lower (vstr (cp_default c)) ++ ";") /\
    (forall base size, cp_type c = base ++ "[" ++ size ++ "]" -> no_bracket base -> no_bracket size ->
      (py_in "char" base = true -> line = "snprintf(" ++ field ++ ", " ++ size ++ ", """ ++ vstr (cp_default c) ++ """);") /\
      (py_in "char" (cp_type c) = false -> line = "for(int i=0; i<" ++ size ++ "; i++) { " ++ field ++ "[i] = " ++ py_lower (vstr (cp_default c)) ++ "; }")).
Proof.
  intros vstr b d t n c H I (B & T & D).
  unfold set_to_default_body in H. destruct (default_stmts vstr b d) as [l|] eqn:E; [|discriminate].
  assert (L : exists s, default_stmt vstr n c = Ok (Some s) /\ In (s, "  // " ++ cp_module c ++ "::" ++ n ++ NL) l).
  { clear H. revert l E. induction d as [|(n', c') d IH]; intros l E; [destruct I|]. cbn [default_stmts] in E.
    destruct I as [[= -> ->]|I].
    - rewrite B, Bool.eqb_reflx in E. destruct (default_stmt vstr n c) as [o|] eqn:S; [|discriminate].
      destruct (default_stmt_val vstr n c o T D S) as (s & -> & _). exists s. split; [reflexivity|].
      destruct (default_stmts vstr b d); [|discriminate]. injection E as <-. now left.
    - destruct (Bool.eqb (cp_commondata c') b); [|now apply IH].
      destruct (default_stmt vstr n' c') as [[s'|]|]; [|now apply IH|discriminate].
      destruct (default_stmts vstr b d) as [l'|]; [|discriminate]. injection E as <-.
      destruct (IH I l' eq_refl) as (s & S1 & S2). exists s. split; [exact S1|]. now right. }
  destruct L as (s & S & L).
  assert (L' : In (line_of (s, "  // " ++ cp_module c ++ "::" ++ n ++ NL)) (map line_of (sorted_stmts l))).
  { apply in_map. unfold sorted_stmts. apply In_py_sorted; [intros; apply string_leb_tot|intros x y z; apply string_leb_trans|exact L]. }
  destruct (concat_in _ _ L') as (x & y & C). unfold line_of in C at 2. cbn [fst snd] in C. rewrite C in H.
  assert (X : exists x' y', t = x' ++ render s ++ "  // " ++ cp_module c ++ "::" ++ n ++ NL ++ y').
  { assert (OK : forall u v : string, Ok u = Ok v -> u = v) by congruence. destruct b; apply OK in H; rewrite <- H.
    - exists (NL ++ "// Set commondata_struct variables to default" ++ NL ++ x), y. rewrite !sapp_assoc. reflexivity.
    - eexists ("// Loop over params structs:" ++ NL ++
               "  for(int grid=0; grid<commondata->NUMGRIDS; grid++) {" ++ NL ++
               "    params_struct *restrict params = &griddata[grid].params;" ++ NL ++
               "    // Set params_struct variables to default" ++ NL ++ x), (y ++ "}" ++ NL). rewrite !sapp_assoc. reflexivity. }
  destruct X as (x' & y' & X). exists x', (render s), y'. split; [exact X|]. cbv zeta.
  unfold default_stmt in S. rewrite gets_default_cond in S by assumption. unfold struct_name in S. rewrite B in S.
  destruct (is_char_array (cp_type c)) eqn:CA.
  - injection S as <-. split.
    + intros A. unfold is_char_array in CA. unfold is_array in A. destruct (py_in "char" (cp_type c)); [|discriminate].
      cbn [andb] in CA. congruence.
    + intros base size Q Nb Ns. change (base ++ "[" ++ size ++ "]") with (sized base size) in Q. rewrite Q in *.
      rewrite after_bracket_sized by assumption. destruct (size_split size Ns) as (_ & ->). split.
      * intros _. cbn [render]. rewrite !sapp_assoc. reflexivity.
      * intros K. unfold is_char_array in CA. rewrite K in CA. discriminate.
  - destruct (is_array (cp_type c)) eqn:A.
    + injection S as <-. split; [discriminate|]. intros base size Q Nb Ns. change (base ++ "[" ++ size ++ "]") with (sized base size) in Q. rewrite Q in *.
      rewrite after_bracket_sized by assumption. destruct (size_split size Ns) as (-> & _). split.
      * intros K. rewrite (sized_char base size K) in CA. discriminate.
      * intros _. cbn [render]. rewrite !sapp_assoc. reflexivity.
    + destruct (match cp_default c with VStr _ => _ | _ => _ end); [|discriminate]. injection S as <-. split.
      * intros _. cbn [render]. rewrite !sapp_assoc. reflexivity.
      * intros base size Q. change (base ++ "[" ++ size ++ "]") with (sized base size) in Q. rewrite Q, sized_array in A. discriminate.
Qed.

(** * C54: the local variables *)
Definition plain_local (ptr comment : string) (l : local) : Prop :=
  lacks slash ptr = true /\ lacks lf comment = true /\ lacks lf ptr = true /\
  Forall (fun s => lacks slash s = true /\ lacks lf s = true) [l_name l; l_struct l; l_field l] /\
  match l_kind l with
  | LChar _ => True
  | LArr b sz => (lacks slash b = true /\ lacks lf b = true) /\ (lacks slash sz = true /\ lacks lf sz = true)
  | LConst t => lacks slash t = true
  end.
(** The C code, comments aside: a char array of n is filled with at most n-1 characters and ended at n-1; an array is
    copied element by element; anything else is a constant. *)
Definition wanted (src : string) (l : local) : string :=
  let x := l_name l in
  match l_kind l with
  | LChar n => let sz := str_of_Z n in
      "char " ++ x ++ "[" ++ sz ++ "]; { strncpy(" ++ x ++ ", " ++ src ++ ", " ++ sz ++ "-1); " ++ x ++ "[" ++ sz ++ "-1]='\0'; }"
  | LArr base sz =>
      base ++ " " ++ x ++ "[" ++ sz ++ "]; { for (int i=0; i<" ++ sz ++ "; i++) { " ++ x ++ "[i] = " ++ src ++ "[i]; } }"
  | LConst t => "MAYBE_UNUSED const " ++ t ++ " " ++ x ++ " = " ++ src ++ ";"
  end.

Lemma lacks_Z : forall c z, is_digit c = false -> c <> "-"%char -> lacks c (str_of_Z z) = true.
Proof.
  intros c z D M.
  assert (A : forall s, all_digits s -> lacks c s = true).
  { induction s as [|d s IH]; intros H; [reflexivity|]. cbn [lacks]. apply andb_true_iff. split.
    - apply negb_true_iff, Ascii.eqb_neq. intros ->. specialize (H c (or_introl eq_refl)). congruence.
    - apply IH. intros e I. apply H. now right. }
  destruct z as [|p|p]; cbn [str_of_Z].
  - apply A. intros d [<-|[]]. reflexivity.
  - apply A, str_of_nat_digits.
  - rewrite lacks_app, (A (str_of_nat (Pos.to_nat p))) by apply str_of_nat_digits. cbn [lacks]. rewrite !andb_true_r.
    apply negb_true_iff, Ascii.eqb_neq. congruence.
Qed.
Ltac clean := first [reflexivity | assumption | (apply lacks_Z; [reflexivity|discriminate])
                    | rewrite !lacks_app; repeat (apply andb_true_iff; split); first [reflexivity | assumption | (apply lacks_Z; [reflexivity|discriminate])]].
Ltac flat := rewrite !sapp_assoc; reflexivity.
Ltac step := match goal with |- context [code (?p ++ "//" ++ ?c ++ NL ++ ?r)] =>
  rewrite (clean_code p ("//" ++ c ++ NL ++ r)) by clean; rewrite (comment_code c r) by clean end.
Theorem C54_local_code : forall ptr c l, plain_local ptr c l ->
  code (local_text ptr ("  // " ++ c) l) = code (wanted (l_struct l ++ ptr ++ l_field l) l).
Proof.
  intros ptr c [k x st f] (Hp & Hc & Hp' & HF & HK). cbn [l_kind l_name l_struct l_field] in *.
  inversion HF as [|? ? (X1 & X2) HF1]; subst. inversion HF1 as [|? ? (S1 & S2) HF2]; subst.
  inversion HF2 as [|? ? (F1 & F2) _]; subst.
  set (src := st ++ ptr ++ f).
  assert (R1 : lacks slash src = true) by (unfold src; clean).
  assert (R2 : lacks lf src = true) by (unfold src; clean).
  unfold local_text, wanted. cbn [l_kind l_name l_struct l_field]. fold src. destruct k as [n|b sz|t].
  - set (sz := str_of_Z n). set (sm := str_of_Z (n - 1)).
    assert (Z1 : lacks slash sz = true) by (unfold sz; clean). assert (Z2 : lacks lf sz = true) by (unfold sz; clean).
    assert (M2 : lacks lf sm = true) by (unfold sm; clean).
    transitivity (code (("char " ++ x ++ "[" ++ sz ++ "];   ") ++ "//" ++ (" " ++ c) ++ NL ++ ("{" ++ NL ++ "  ") ++
      "//" ++ (" Copy up to " ++ sm ++ " characters from " ++ src ++ " to " ++ x) ++ NL ++
      ("  strncpy(" ++ x ++ ", " ++ src ++ ", " ++ sz ++ "-1);" ++ NL ++ "  ") ++
      "//" ++ (" Explicitly null-terminate " ++ x ++ " to ensure it is a valid C-string") ++ NL ++
      ("  " ++ x ++ "[" ++ sz ++ "-1]='\0'; ") ++ "//" ++ " Properly null terminate char array." ++ NL ++ "}")).
    { f_equal. flat. }
    repeat step.
    repeat step.
    repeat (rewrite clean_code by clean). rewrite !sapp_assoc. reflexivity.
  - destruct HK as ((B1 & B2) & (Z1 & Z2)).
    transitivity (code ((b ++ " " ++ x ++ "[" ++ sz ++ "];  ") ++ "//" ++ (" " ++ c) ++ NL ++ ("{" ++ NL ++ "  ") ++
      "//" ++ (" Copy " ++ sz ++ " elements from " ++ src ++ " to " ++ x) ++ NL ++
      ("  for(int i=0; i<" ++ sz ++ "; i++) {" ++ NL ++ "    " ++ x ++ "[i] = " ++ src ++ "[i];" ++ NL ++ "  }" ++ NL ++ "}"))).
    { f_equal. flat. }
    repeat step.
    repeat (rewrite clean_code by clean). rewrite !sapp_assoc. reflexivity.
  - transitivity (code (("MAYBE_UNUSED const " ++ t ++ " " ++ x ++ " = " ++ src ++ ";  ") ++ "//" ++ (" " ++ c) ++ NL ++ "")).
    { f_equal. flat. }
    repeat step.
    repeat (rewrite clean_code by clean). rewrite !sapp_assoc. reflexivity.
Qed.

(** ** Examples *)
Example C40_ex_fields :
  code (griddata_text [("grid", [MkGD "grid" "params_struct params" "parameters // of the grid"]); ("MoL", [MkGD "MoL" "MoL_struct gridfuncs" ""; MkGD "MoL" "int n" ""])])
  = "typedefstruct__griddata__{REAL*restrictxx[3];params_structparams;MoL_structgridfuncs;intn;}griddata_struct;".
Proof. vm_compute. reflexivity. Qed.
Example C40_ex_fields_hyp :
  Forall (fun kv => lacks lf (fst kv) = true /\ Forall plain_item (snd kv))
    [("grid", [MkGD "grid" "params_struct params" "parameters // of the grid"]); ("MoL", [MkGD "MoL" "MoL_struct gridfuncs" ""; MkGD "MoL" "int n" ""])].
Proof. repeat constructor. Qed.
Example C53_ex_sections : earlier "params_struct" "grid" /\ earlier "grid" "aaa" /\ earlier "aaa" "bbb".
Proof.
  repeat split.
  - left. now exists ["general"; "after_general"; "nrpy.infrastructures.BHaH.diagnostics.progress_indicator"; "commondata_struct"],
      ["finite_difference"; "reference_metric"; "nrpy.infrastructures.BHaH.CurviBoundaryConditions.CurviBoundaryConditions";
       "nrpy.infrastructures.BHaH.MoLtimestepping.MoL"; "nrpy.infrastructures.BHaH.interpolation.interpolation"], [].
  - right. left. split; [cbn; tauto|]. cbn. intros H. decompose [or] H; try discriminate; tauto.
  - right. right. repeat split; try (cbn; intros H; decompose [or] H; try discriminate; tauto); try discriminate.
Qed.
Example C54_ex_char : plain_local "->" "m::label" (MkLoc (LChar 50) "label" "commondata" "label") /\
  code (local_text "->" "  // m::label" (MkLoc (LChar 50) "label" "commondata" "label"))
  = "charlabel[50];{strncpy(label,commondata->label,50-1);label[50-1]='\0';}".
Proof. split; [repeat constructor|vm_compute; reflexivity]. Qed.
Example C53_ex_macros : let d := [("N", MkCP "#define" "m" "N" (VInt 4) "Real" true true false true ""); ("a", MkCP "REAL" "m" "a" (VInt 4) "Real" true true false true "")] in
  code (define_text (fun _ => "4") d) = "#ifndefN#defineN4#endif" /\ In ("N", MkCP "#define" "m" "N" (VInt 4) "Real" true true false true "") d.
Proof. split; [vm_compute; reflexivity|now left]. Qed.

Definition ex_cp (t : string) (v : pyval) (common : bool) : code_param := MkCP t "m" "N" v "Real" common true false true "the // value".
Example C53_ex_structs :
  let d := [("b", ex_cp "REAL" (VInt 4) false); ("a", ex_cp "char[50]" (VStr "x") true); ("k", ex_cp "int[3]" (VInt 1) false); ("N", ex_cp "#define" (VInt 4) false)] in
  let ex := [("mod", [MkGD "mod" "bool flag" "a flag"])] in
  Forall plain_source (params_of false d) /\ Forall plain_source (params_of true d) /\ Forall plain_source (extras_of ex) /\
  List.length (params_of false d) = 2 /\
  code (params_struct_text d) = "typedefstruct__params_struct__{REALb;intk[3];}params_struct;" /\
  code (commondata_struct_text d ex) = "typedefstruct__commondata_struct__{boolflag;chara[50];}commondata_struct;".
Proof. cbv zeta. split; [|split; [|split]]; [repeat constructor|repeat constructor|repeat constructor|]. vm_compute. auto. Qed.
Example C53_ex_supplemental : In ("late", "int z;") [("late", "int z;")] /\ texts_of "general" [("general", "int y;")] <> [] /\
  code (suppl_text [("late", "int z;")]) = "intz;".
Proof. split; [now left|]. split; [discriminate|reflexivity]. Qed.
Example C54_ex_defaults :
  let d := [("b", ex_cp "REAL" (VInt 4) true); ("a", ex_cp "char[50]" (VStr "x") true); ("k", ex_cp "int[3]" (VInt 1) true)] in
  (exists t, set_to_default_body (fun v => match v with VStr s => s | _ => "4" end) true d = Ok t /\
     code t = "commondata->b=4;for(inti=0;i<3;i++){commondata->k[i]=4;}snprintf(commondata->a,50,""x"");") /\
  gets_default true (ex_cp "int[3]" (VInt 1) true) /\ In ("k", ex_cp "int[3]" (VInt 1) true) d.
Proof.
  cbv zeta. split; [eexists; split; [vm_compute; reflexivity|vm_compute; reflexivity]|].
  split; [repeat split; discriminate|]. right. right. now left.
Qed.

Print Assumptions C53_struct_fields. Print Assumptions C53_supplemental. Print Assumptions C54_default_code.
Print Assumptions C40_struct_fields. Print Assumptions C53_macros. Print Assumptions C53_no_macros.
Print Assumptions C53_section_order. Print Assumptions C54_local_code.
