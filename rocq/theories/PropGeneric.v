(** Headline theorems for cached formatting (C49) and trusted-string validation (C50). *)
From Coq Require Import String Ascii List Bool Arith Lia.
From Verif Require Import PyBase PyBaseFacts CacheFS PropCacheFS CFunctionFacts Generic.
Import ListNotations.
Open Scope string_scope.

(** ** C49 *)
Section C49.
Variable program : string -> string -> option string.
Variable module : string.
(** Option strings in use: none is a proper suffix of another. *)
Definition suffix_free (O : list string) : Prop :=
  forall o1 o2 a, In o1 O -> In o2 O -> o2 = a ++ o1 -> o1 = o2.

Lemma app_split_cases : forall a b c d : string, a ++ b = c ++ d ->
  (exists m, c = a ++ m /\ b = m ++ d) \/ (exists m, a = c ++ m /\ d = m ++ b).
Proof.
  induction a as [|x a IH]; intros b c d H.
  - left. exists c. auto.
  - destruct c as [|y c].
    + right. exists (String x a). auto.
    + cbn in H. injection H as -> H. destruct (IH _ _ _ H) as [[m [-> ->]]|[m [-> ->]]]; [left|right]; exists m; auto.
Qed.
Lemma id_inj : forall O c1 o1 c2 o2, suffix_free O -> In o1 O -> In o2 O ->
  module ++ c1 ++ o1 = module ++ c2 ++ o2 -> c1 = c2 /\ o1 = o2.
Proof.
  intros O c1 o1 c2 o2 S I1 I2 H. apply sapp_inj_l in H.
  assert (E : o1 = o2).
  { destruct (app_split_cases _ _ _ _ H) as [[m [_ E]]|[m [_ E]]].
    - symmetry. exact (S o2 o1 m I2 I1 E).
    - exact (S o1 o2 m I1 I2 E). }
  subst o2. split; [|reflexivity]. now apply sapp_inj_r in H.
Qed.
Definition sound (O : list string) (cache : dict string) : Prop :=
  forall c o s, In o O -> dget (module ++ c ++ o) cache = Some s -> program c o = Some s.
Lemma clang_step : forall O cache c o, suffix_free O -> In o O -> sound O cache ->
  sound O (fst (clang_format program module cache c o)) /\
  snd (clang_format program module cache c o) = match program c o with Some s => Ok s | None => Err RuntimeError end.
Proof.
  intros O cache c o S I H. unfold clang_format. destruct (dget (module ++ c ++ o) cache) as [s|] eqn:G.
  - cbn. split; [exact H|]. now rewrite (H _ _ _ I G).
  - destruct (program c o) as [out|] eqn:P; cbn; [|split; auto]. split; [|reflexivity].
    intros c' o' s I' G'. destruct (string_dec (module ++ c' ++ o') (module ++ c ++ o)) as [E|N].
    + rewrite E, dget_dset_same in G'. injection G' as <-. destruct (id_inj O c' o' c o S I' I E) as [-> ->]. exact P.
    + rewrite dget_dset_other in G' by congruence. now apply H.
Qed.
(** Whatever was formatted before, with option strings none of which ends another, each call returns what the program
    itself returns for its own code and options. *)
Theorem C49_transparent : forall O l, suffix_free O -> (forall c o, In (c, o) l -> In o O) ->
  clang_calls program module [] l
  = map (fun '(c, o) => match program c o with Some s => Ok s | None => Err RuntimeError end) l.
Proof.
  intros O l S H. assert (SO : sound O []) by (intros ? ? ? _ K; discriminate).
  revert SO. generalize (@nil (string * string)). induction l as [|[c o] l IH]; intros cache SO; [reflexivity|].
  cbn [clang_calls map]. destruct (clang_format program module cache c o) as [cache' r] eqn:E.
  destruct (clang_step O cache c o S (H c o (or_introl eq_refl)) SO) as [A B]. rewrite E in A, B. cbn in A, B. rewrite B. f_equal.
  apply IH; [intros c' o' K; apply (H c'); now right|exact A].
Qed.
(** One option string throughout. *)
Theorem C49_one_style : forall o codes,
  clang_calls program module [] (map (fun c => (c, o)) codes)
  = map (fun c => match program c o with Some s => Ok s | None => Err RuntimeError end) codes.
Proof.
  intros o codes. rewrite (C49_transparent [o]).
  - rewrite map_map. reflexivity.
  - intros o1 o2 a [<-|[]] [<-|[]] _. reflexivity.
  - intros c o' I. apply in_map_iff in I as [c' [E _]]. injection E as _ <-. now left.
Qed.
End C49.
(** The identifier is a plain concatenation: with options one of which ends another, a call can get another call's text. *)
Theorem C49_transparent_refuted : exists program l,
  clang_calls program "m" [] l <> map (fun '(c, o) => match program c o with Some s => Ok s | None => Err RuntimeError end) l.
Proof.
  exists (fun c o => Some (c ++ "|" ++ o)), [("x; ", "-i -n"); ("x; -i ", "-n")]. vm_compute. discriminate.
Qed.
Example C49_ex : suffix_free ["-style=LLVM"; "-style=GNU"] /\
  clang_calls (fun c o => if String.eqb c "bad" then None else Some (o ++ c)) "m" []
    [("a", "-style=GNU"); ("bad", "-style=GNU"); ("a", "-style=LLVM"); ("a", "-style=GNU")]
  = [Ok "-style=GNUa"; Err RuntimeError; Ok "-style=LLVMa"; Ok "-style=GNUa"].
Proof.
  split; [|reflexivity]. intros o1 o2 a [<-|[<-|[]]] [<-|[<-|[]]] E; auto; exfalso;
  apply (f_equal last_char) in E; rewrite last_char_app_ne in E by discriminate; discriminate.
Qed.

(** ** C50 *)
(** A validation either creates the missing trusted file or leaves every file alone. *)
Theorem C50_step : forall files caller s desc files' r, validate_strings files caller s desc = (files', r) ->
  let name := (caller ++ "_" ++ desc ++ ".c")%string in
  (files' = files /\ (r = Ok tt -> exists t, dget name files = Some t /\ read_text t = s))
  \/ (r = Ok tt /\ dget name files = None /\ files' = dset name s files).
Proof.
  intros files caller s desc files' r H name. change name with (trusted_name caller desc). unfold validate_strings in H.
  destruct (String.eqb desc "" || py_in " " desc).
  { injection H as <- <-. left. split; [reflexivity|discriminate]. }
  destruct (dget (trusted_name caller desc) files) as [t|] eqn:G.
  - destruct (String.eqb_spec (read_text t) s) as [E|E]; injection H as <- <-; left; split; auto.
    + intros _. exists t. auto.
    + discriminate.
  - injection H as <- <-. right. auto.
Qed.
(** The trusted text, once there, survives every later validation. *)
Theorem C50_trusted_kept : forall l files n t, dget n files = Some t -> dget n (run_validations files l) = Some t.
Proof.
  unfold run_validations. induction l as [|[[c s] d] l IH]; intros files n t H; [exact H|]. cbn [fold_left]. apply IH.
  destruct (validate_strings files c s d) as [f' r] eqn:E. cbn [fst].
  destruct (C50_step _ _ _ _ _ _ E) as [[-> _]|[_ [G ->]]]; [exact H|].
  rewrite dget_dset_other; [exact H|]. intros K. subst n. congruence.
Qed.
(** After the first validation of a text without carriage returns, whatever is validated in between, a validation under
    the same name succeeds exactly when the text is the same. *)
Theorem C50_regression : forall files caller desc s0 s l,
  desc <> "" -> py_in " " desc = false -> no_cr s0 ->
  dget (caller ++ "_" ++ desc ++ ".c")%string files = None ->
  let files' := run_validations (fst (validate_strings files caller s0 desc)) l in
  snd (validate_strings files' caller s desc) = Ok tt <-> s = s0.
Proof.
  intros files caller desc s0 s l D B C N files'. change (dget (trusted_name caller desc) files = None) in N.
  assert (T : dget (trusted_name caller desc) files' = Some s0).
  { apply C50_trusted_kept. unfold validate_strings. destruct (String.eqb_spec desc ""); [contradiction|]. rewrite B, N. cbn.
    apply dget_dset_same. }
  unfold validate_strings. destruct (String.eqb_spec desc ""); [contradiction|]. rewrite B. cbn [orb]. rewrite T, read_no_cr by exact C.
  destruct (String.eqb_spec s0 s); cbn; split; congruence.
Qed.
(** A text with a carriage return fails against its own trusted file. *)
Theorem C50_carriage_return_refuted : exists files s, snd (validate_strings (fst (validate_strings files "f" s "d")) "f" s "d") <> Ok tt.
Proof. exists [], (String CR "a"). vm_compute. discriminate. Qed.
(** Different (caller, description) pairs can share a trusted file. *)
Theorem C50_shared_file_refuted : exists c1 d1 c2 d2, (c1, d1) <> (c2, d2) /\ trusted_name c1 d1 = trusted_name c2 d2.
Proof. exists "f_a", "b", "f", "a_b". split; [discriminate|reflexivity]. Qed.
Example C50_ex : snd (validate_strings (run_validations [] [("f", "x = 1;", "d"); ("f", "y", "d"); ("g", "y", "d")]) "f" "x = 1;" "d") = Ok tt
  /\ snd (validate_strings (run_validations [] [("f", "x = 1;", "d")]) "f" "x = 2;" "d") = Err ValueError.
Proof. split; reflexivity. Qed.

Print Assumptions C49_transparent. Print Assumptions C49_one_style. Print Assumptions C49_transparent_refuted.
Print Assumptions C50_step. Print Assumptions C50_trusted_kept. Print Assumptions C50_regression.
Print Assumptions C50_carriage_return_refuted. Print Assumptions C50_shared_file_refuted.
