(** C40 and C53: struct declarations and the header text made from them. *)
From Coq Require Import String Ascii List Arith ZArith Bool Lia Permutation Sorted.
From Verif Require Import PyBase PyBaseFacts PyList PyListFacts Params GridFacts Registry RegistryFacts.
From Verif Require CacheFS.
Import ListNotations.
Open Scope list_scope.
Open Scope string_scope.

Definition empty_extras : extras := MkEx None None.

(** * C40 *)

(** After any history: modules listed once, and in each module no declaration twice, no semicolon, and
    every item filed under its own module. *)
Theorem C40_once : forall calls b k l,
  In (k, l) (or_empty (if b : bool then ex_common (reg_run empty_extras calls) else ex_grid (reg_run empty_extras calls))) ->
  NoDup (map gd_decl l) /\ l <> [] /\
  (forall g, In g l -> gd_module g = k /\ forall x y, gd_decl g <> (x ++ ";" ++ y)%string) /\
  (forall l', In (k, l') (or_empty (if b then ex_common (reg_run empty_extras calls) else ex_grid (reg_run empty_extras calls))) -> l' = l).
Proof.
  intros calls b k l H.
  destruct (reg_run_ok calls empty_extras) as [C G]; [split; (split; constructor)|].
  assert (K : reg_ok (or_empty (if b then ex_common (reg_run empty_extras calls) else ex_grid (reg_run empty_extras calls))))
    by (destruct b; auto).
  clear C G. destruct K as [N F]. rewrite Forall_forall in F. destruct (F _ H) as (Ne & Nd & Fa). cbn [fst snd] in *.
  split; [exact Nd|]. split; [exact Ne|]. split.
  - intros g Hg. rewrite Forall_forall in Fa. destruct (Fa g Hg) as [-> Hs]. split; [reflexivity|].
    intros x y E. assert (py_in ";" (gd_decl g) = true) by (apply py_in_spec; eauto). congruence.
  - intros l' H'. apply (In_dget _ _ _ N) in H. apply (In_dget _ _ _ N) in H'. congruence.
Qed.

(** What a call does: it raises exactly for a semicolon or a declaration the module already has, and then
    changes no declaration; otherwise it appends one item to one module of one struct. *)
Theorem C40_call : forall module decl desc b e,
  let bad := In decl (map gd_decl (items b module e)) \/ (exists x y, decl = x ++ ";" ++ y)%string in
  match register_griddata_commondata module decl desc b e with
  | (e', Err x) => x = ValueError /\ bad /\ forall b' k, items b' k e' = items b' k e
  | (e', Ok _) => ~ bad /\ items b module e' = (items b module e ++ [MkGD module decl desc])%list /\
                  forall b' k, b' <> b \/ k <> module -> items b' k e' = items b' k e
  end.
Proof.
  intros module decl desc b e. cbn zeta.
  pose proof (register_items module decl desc b e) as H. cbn zeta in H.
  rewrite py_in_spec in H.
  destruct (register_griddata_commondata module decl desc b e) as [e' [u|x]]; cbn [fst snd] in H.
  - destruct H as [(R & _)|(_ & B & I)]; [discriminate|]. split; [exact B|]. split.
    + rewrite I, Bool.eqb_reflx, String.eqb_refl. reflexivity.
    + intros b' k Hb. rewrite I.
      destruct (Bool.eqb b' b) eqn:E1; [|apply app_nil_r]. destruct (String.eqb_spec k module) as [->|]; [|apply app_nil_r].
      exfalso. apply eqb_prop in E1. destruct Hb as [?|?]; congruence.
  - destruct H as [(R & B & I)|(R & _)]; [|discriminate]. injection R as ->. auto.
Qed.

(** Declarations already there stay, in order, at the front. *)
Theorem C40_kept : forall calls e b k, exists l', items b k (reg_run e calls) = (items b k e ++ l')%list.
Proof. apply reg_run_keeps. Qed.

(** The function that builds the griddata_struct text registers its own entries, so it works once. *)
Theorem C40_struct_once_only : forall rfm pre rfm' pre' e e' s,
  register_griddata_struct rfm pre e = (e', Ok s) ->
  snd (register_griddata_struct rfm' pre' e') = Err ValueError.
Proof.
  intros rfm pre rfm' pre' e e' s H. unfold register_griddata_struct in *.
  destruct (reg_calls (griddata_calls rfm pre) e) as [e1 r1] eqn:E1. destruct r1; [|discriminate].
  injection H as -> _.
  assert (I : In "params_struct params"%string (map gd_decl (items false "params" e'))).
  { assert (G : forall l e e', reg_calls l e = (e', Ok tt) -> e' = reg_run e l).
    { induction l as [|[[[m d] ds] b] l IH]; cbn; intros e0 e2 Q; [now injection Q|].
      destruct (register_griddata_commondata m d ds b e0) as [e3 [u|x]]; [|discriminate]. cbn. now apply IH. }
    destruct a. pose proof (G _ _ _ E1) as ->. unfold griddata_calls, reg_run. cbn [fold_left].
    set (e1 := reg_step e _). match goal with |- context [fold_left reg_step ?l e1] => destruct (reg_run_keeps l e1 false "params") as [l' K] end.
    unfold reg_run in K. rewrite K, map_app. apply in_or_app. left. unfold e1, reg_step.
    match goal with |- context [register_griddata_commondata ?a ?b ?c ?d ?f] => pose proof (register_items a b c d f) as J end.
    cbn zeta in J. destruct J as [(_ & [B|B] & J)|(_ & _ & J)].
    - rewrite J. exact B.
    - vm_compute in B. discriminate.
    - rewrite J, map_app. apply in_or_app. right. cbn. auto. }
  unfold griddata_calls. cbn [reg_calls].
  match goal with |- context [register_griddata_commondata ?a ?b ?c ?d ?f] => pose proof (register_items a b c d f) as J end.
  cbn zeta in J. destruct J as [(R & _)|(_ & B & _)]; [|exfalso; apply B; auto].
  match goal with |- context [register_griddata_commondata ?a ?b ?c ?d ?f] => destruct (register_griddata_commondata a b c d f) as [e2 r2] end.
  cbn in R. subst r2. reflexivity.
Qed.

(** ** Example *)
Example C40_ex :
  let calls := [("MoL", "MoL_gridfunctions_struct gridfuncs", "the gridfunctions", false);
                ("MoL", "bad; decl", "", false);
                ("MoL", "MoL_gridfunctions_struct gridfuncs", "again", false);
                ("bah", "REAL x", "", true); ("MoL", "int other", "", false)] in
  map gd_decl (items false "MoL" (reg_run empty_extras calls)) = ["MoL_gridfunctions_struct gridfuncs"; "int other"] /\
  map gd_decl (items true "bah" (reg_run empty_extras calls)) = ["REAL x"] /\
  snd (register_griddata_struct true true (reg_run empty_extras calls)) <> Err ValueError.
Proof. vm_compute. repeat split. discriminate. Qed.

(** * C53 *)

(** The struct texts do not depend on the order in which parameters and declarations were registered. *)
Lemma map_filter_perm : forall (A B : Type) (f : A -> B) p l1 l2, Permutation l1 l2 ->
  Permutation (map f (filter p l1)) (map f (filter p l2)).
Proof.
  intros A B f p l1 l2 P. apply Permutation_map. induction P; cbn; auto.
  - destruct (p x); auto.
  - destruct (p x), (p y); auto. constructor.
  - now transitivity (filter p l').
Qed.
Theorem C53_order_free : forall d1 d2 ex1 ex2, Permutation d1 d2 ->
  Permutation (flat_map (fun kv => map (pair (fst kv)) (snd kv)) ex1) (flat_map (fun kv => map (pair (fst kv)) (snd kv)) ex2) ->
  params_struct_text d1 = params_struct_text d2 /\ commondata_struct_text d1 ex1 = commondata_struct_text d2 ex2.
Proof.
  intros d1 d2 ex1 ex2 P Q. unfold params_struct_text, commondata_struct_text.
  assert (E : Permutation (extra_lines ex1) (extra_lines ex2)).
  { assert (K : forall ex, extra_lines ex = map (fun p => extra_line (fst p) (snd p)) (flat_map (fun kv => map (pair (fst kv)) (snd kv)) ex)).
    { induction ex as [|[k l] ex IH]; [reflexivity|]. cbn [flat_map fst snd extra_lines]. rewrite map_app, map_map. unfold extra_lines in *. cbn [flat_map fst snd]. rewrite <- IH. reflexivity. }
    rewrite !K. now apply Permutation_map. }
  split.
  - rewrite (py_sorted_perm (param_lines false d1) (param_lines false d2)); auto. now apply map_filter_perm.
  - rewrite (py_sorted_perm (commondata_lines d1 ex1) (commondata_lines d2 ex2)); auto.
    apply Permutation_app; auto. now apply map_filter_perm.
Qed.

(** The griddata_struct text does. *)
Theorem C53_griddata_order_refuted : exists calls1 calls2, Permutation calls1 calls2 /\
  griddata_text (or_empty (ex_grid (reg_run empty_extras calls1))) <>
  griddata_text (or_empty (ex_grid (reg_run empty_extras calls2))).
Proof.
  exists [("A", "int a", "", false); ("B", "int b", "", false)], [("B", "int b", "", false); ("A", "int a", "", false)].
  split; [constructor|]. vm_compute. discriminate.
Qed.

(** ** Field order and comments *)
Notation chars s := (list_ascii_of_string s).
Lemma chars_app : forall a b, chars (a ++ b) = (chars a ++ chars b)%list.
Proof. induction a as [|c a IH]; intros b; cbn; [reflexivity|]. now rewrite IH. Qed.
Lemma split1_fst : forall c s x, In x (chars (fst (split1 c s))) -> In x (chars s) /\ x <> c.
Proof.
  induction s as [|a s IH]; cbn; [easy|]. intros x.
  destruct (Ascii.eqb_spec a c); [easy|]. destruct (split1 c s) as [u v]. cbn in *. intros [->|H]; auto.
  destruct (IH x H); auto.
Qed.
Lemma split1_snd : forall c s r x, snd (split1 c s) = Some r -> In x (chars r) -> In x (chars s).
Proof.
  induction s as [|a s IH]; cbn; [easy|]. intros r x.
  destruct (Ascii.eqb_spec a c); cbn; [intros [= ->]; auto|]. destruct (split1 c s) as [u v]. cbn in *. eauto.
Qed.
Lemma lstrip_in : forall s x, In x (chars (CacheFS.lstrip s)) -> In x (chars s).
Proof. induction s as [|a s IH]; cbn; auto. intros x. destruct (CacheFS.is_ws a); auto. Qed.
Lemma rstrip_in : forall s x, In x (chars (CacheFS.rstrip s)) -> In x (chars s).
Proof.
  induction s as [|a s IH]; cbn; auto. intros x. destruct (CacheFS.is_ws a && CacheFS.all_ws s); cbn; [easy|].
  intros [->|H]; auto.
Qed.
Lemma strip_in : forall s x, In x (chars (CacheFS.py_strip s)) -> In x (chars s).
Proof. intros s x H. apply lstrip_in. now apply rstrip_in. Qed.

Definition size_of (t : string) : string :=
  CacheFS.py_strip (fst (split1 "]" (match snd (split1 "[" t) with Some r => r | None => "" end))).
Definition base_of (t : string) : string :=
  let b := CacheFS.py_strip (fst (split1 "[" t)) in if prefix "char" b then "char" else b.
Lemma c_decl_eq : forall t n,
  c_decl t n = if is_array t then "  " ++ base_of t ++ " " ++ n ++ "[" ++ size_of t ++ "]" else "  " ++ t ++ " " ++ n.
Proof.
  intros t n. unfold c_decl, base_of, size_of. destruct (is_array t); [|reflexivity].
  destruct (split1 "[" t) as [b r]. cbn [fst snd]. destruct (prefix "char" _); reflexivity.
Qed.
Lemma size_in : forall t x, In x (chars (size_of t)) -> In x (chars t).
Proof.
  intros t x H. unfold size_of in H. apply strip_in, split1_fst in H as [H _].
  destruct (snd (split1 "[" t)) eqn:E; [|easy]. eapply split1_snd; eauto.
Qed.
Lemma base_in : forall t x, In x (chars (base_of t)) -> In x (chars t) \/ In x (chars "char").
Proof.
  intros t x H. unfold base_of in H. cbv zeta in H. destruct (prefix "char" _); [auto|]. left. apply strip_in, split1_fst in H. tauto.
Qed.
Lemma c_decl_in : forall t n x, In x (chars (c_decl t n)) -> In x (chars t) \/ In x (chars n) \/ In x (chars " []char").
Proof.
  intros t n x. rewrite c_decl_eq. destruct (is_array t); rewrite !chars_app, !in_app_iff; cbn; intros H.
  - repeat match goal with H : _ \/ _ |- _ => destruct H end; subst; auto 12.
    + apply base_in in H. cbn in H. tauto.
    + apply size_in in H. tauto.
  - tauto.
Qed.

(** No semicolon inside: names and types as C has them. *)
Definition no_semi (s : string) : Prop := ~ In ";"%char (chars s).
Lemma c_decl_no_semi : forall t n, no_semi t -> no_semi n -> no_semi (c_decl t n).
Proof.
  intros t n T N H. apply c_decl_in in H as [H|[H|H]]; auto. cbn in H.
  repeat match goal with H : _ \/ _ |- _ => destruct H as [H|H]; [discriminate|] end. destruct H.
Qed.
Lemma param_line_decl : forall t n m ds, no_semi t -> no_semi n ->
  has_decl (format_c_declaration t n m ds) /\ decl_of (format_c_declaration t n m ds) = c_decl t n.
Proof.
  intros t n m ds T N. unfold format_c_declaration. cbn [append].
  pose proof (c_decl_no_semi t n T N) as S. split.
  - exists (c_decl t n). eauto.
  - now apply decl_of_spec.
Qed.
Lemma extra_line_decl : forall m g, no_semi (gd_decl g) ->
  has_decl (extra_line m g) /\ decl_of (extra_line m g) = ("  " ++ gd_decl g)%string.
Proof.
  intros m g H. unfold extra_line.
  assert (E : forall r, ("  " ++ gd_decl g ++ ";" ++ r = ("  " ++ gd_decl g) ++ String ";" r)%string).
  { intros r. rewrite sapp_assoc. reflexivity. }
  rewrite E. assert (S : ~ In ";"%char (chars ("  " ++ gd_decl g)))
    by (cbn; intros [Q|[Q|Q]]; [discriminate|discriminate|now apply H]).
  split; [eexists; eexists; split; [reflexivity|exact S]|now apply decl_of_spec].
Qed.

(** The declared fields of the commondata struct, in order: the text of each line before the semicolon. *)
Definition declared (lines : list string) : list string := map decl_of (py_sorted String.leb lines).

Definition names_ok (d : cparams_dict) : Prop :=
  forall kv, In kv d -> no_semi (fst kv) /\ no_semi (cp_type (snd kv)).

Lemma param_lines_decls : forall b d, names_ok d ->
  Forall has_decl (param_lines b d) /\
  map decl_of (param_lines b d) =
  map (fun kv => c_decl (snd (fst kv)) (fst (fst kv)))
      (filter (fun kv => negb (String.eqb (snd (fst kv)) "#define") && Bool.eqb (snd kv) b)
              (map (fun kv => (fst kv, cp_type (snd kv), cp_commondata (snd kv))) d)).
Proof.
  intros b d. unfold param_lines. induction d as [|[k c] d IH]; intros N; [split; [constructor|reflexivity]|].
  destruct IH as [IF IM]; [intros kv Hk; apply N; cbn; auto|].
  destruct (N (k, c)) as [Nk Nt]; [cbn; auto|]. cbn [fst snd map filter] in *.
  destruct (negb (String.eqb (cp_type c) "#define") && Bool.eqb (cp_commondata c) b).
  - cbn [map]. destruct (param_line_decl (cp_type c) k (cp_module c) (CacheFS.py_strip (cp_desc c)) Nt Nk) as [A B].
    split; [constructor; auto|]. cbn [map fst snd]. rewrite <- IM. f_equal. exact B.
  - split; auto.
Qed.

Lemma extra_lines_decls : forall ex, (forall k l g, In (k, l) ex -> In g l -> no_semi (gd_decl g)) ->
  Forall has_decl (extra_lines ex) /\
  map decl_of (extra_lines ex) = map (fun g => "  " ++ gd_decl g)%string (flat_map snd ex).
Proof.
  unfold extra_lines. induction ex as [|[k l] ex IH]; intros H; [split; [constructor|reflexivity]|].
  destruct IH as [A B]; [intros k' l' g' H1 H2; apply (H k' l' g'); cbn; auto|].
  cbn [flat_map fst snd]. rewrite !map_app, Forall_app, B, map_map.
  assert (L : Forall has_decl (map (extra_line k) l) /\ map (fun g => decl_of (extra_line k g)) l = map (fun g => "  " ++ gd_decl g)%string l).
  { specialize (H k l). assert (H' : forall g, In g l -> no_semi (gd_decl g)) by (intros g; apply H; cbn; auto). clear - H'.
    split; [rewrite Forall_forall; intros x Hx; apply in_map_iff in Hx as (g & <- & Hg)|apply map_ext_in; intros g Hg];
      apply extra_line_decl; auto. }
  destruct L as [L1 L2]. split; [split; auto|]. now rewrite L2.
Qed.

(** Which fields are declared, and in which order, depends on names, types and the commondata flag only:
    not on registration order, modules, descriptions or default values. *)
Theorem C53_comments_irrelevant : forall d1 d2 ex1 ex2, names_ok d1 -> names_ok d2 ->
  (forall k l g, In (k, l) ex1 \/ In (k, l) ex2 -> In g l -> no_semi (gd_decl g)) ->
  let shape d := map (fun kv => (fst kv, cp_type (snd kv), cp_commondata (snd kv))) d in
  Permutation (shape d1) (shape d2) ->
  Permutation (map gd_decl (flat_map snd ex1)) (map gd_decl (flat_map snd ex2)) ->
  declared (param_lines false d1) = declared (param_lines false d2) /\
  declared (commondata_lines d1 ex1) = declared (commondata_lines d2 ex2).
Proof.
  intros d1 d2 ex1 ex2 N1 N2 S shape P Q. unfold declared, commondata_lines.
  assert (E1 : forall k l g, In (k, l) ex1 -> In g l -> no_semi (gd_decl g)) by (intros; eauto).
  assert (E2 : forall k l g, In (k, l) ex2 -> In g l -> no_semi (gd_decl g)) by (intros; eauto).
  assert (PP : forall b, Permutation (map decl_of (param_lines b d1)) (map decl_of (param_lines b d2))).
  { intros b. rewrite (proj2 (param_lines_decls b d1 N1)), (proj2 (param_lines_decls b d2 N2)). now apply map_filter_perm. }
  split.
  - apply same_decls_same_order; auto; now apply param_lines_decls.
  - apply same_decls_same_order.
    + apply Forall_app. split; [now apply param_lines_decls|now apply extra_lines_decls].
    + apply Forall_app. split; [now apply param_lines_decls|now apply extra_lines_decls].
    + rewrite !map_app. apply Permutation_app; auto.
      rewrite (proj2 (extra_lines_decls ex1 E1)), (proj2 (extra_lines_decls ex2 E2)).
      rewrite <- !(map_map gd_decl (fun s => "  " ++ s)%string). now apply Permutation_map.
Qed.

(** ** Every parameter is a field once *)

(** The name a declaration declares: what stands between the last blank and the bracket. *)
Fixpoint after_last_blank (s : string) : string :=
  match s with
  | EmptyString => ""
  | String c r => if py_in " " r then after_last_blank r else if Ascii.eqb c " " then r else s
  end.
Definition field_name (decl : string) : string := after_last_blank (fst (split1 "[" decl)).

Lemma after_last_blank_spec : forall a n, ~ In " "%char (chars n) -> after_last_blank (a ++ String " " n) = n.
Proof.
  induction a as [|c a IH]; intros n H; cbn [append after_last_blank].
  - rewrite (proj2 (in_char " " n) H). now rewrite Ascii.eqb_refl.
  - replace (py_in " " (a ++ String " " n)) with true; [now apply IH|].
    symmetry. apply py_in_spec. exists a, n. reflexivity.
Qed.

Definition ident (n : string) : Prop := ~ In " "%char (chars n) /\ ~ In "["%char (chars n).
(** A type with an opening bracket has the closing one. *)
Definition brackets_ok (t : string) : Prop := In "["%char (chars t) -> is_array t = true.

Lemma c_decl_field : forall t n, ident n -> brackets_ok t -> field_name (c_decl t n) = n.
Proof.
  intros t n [B1 B2] T. rewrite c_decl_eq. unfold field_name. destruct (is_array t) eqn:A.
  - replace ("  " ++ base_of t ++ " " ++ n ++ "[" ++ size_of t ++ "]")%string
      with (("  " ++ base_of t ++ " " ++ n) ++ String "[" (size_of t ++ "]"))%string
      by (rewrite !sapp_assoc; reflexivity).
    rewrite split1_free.
    + cbn [fst]. replace ("  " ++ base_of t ++ " " ++ n)%string with (("  " ++ base_of t) ++ String " " n)%string
        by (rewrite !sapp_assoc; reflexivity). now apply after_last_blank_spec.
    + rewrite !chars_app, !in_app_iff. intros [H|[H|[H|H]]]; auto.
      * cbn in H. destruct H as [H|[H|[]]]; discriminate.
      * unfold base_of in H. cbv zeta in H. destruct (prefix "char" _).
        -- cbn in H. repeat match goal with H : _ \/ _ |- _ => destruct H as [H|H]; [discriminate|] end. destruct H.
        -- apply strip_in, split1_fst in H as [_ H]. congruence.
      * cbn in H. destruct H as [H|[]]; discriminate.
  - assert (Nt : ~ In "["%char (chars t)) by (intros H; specialize (T H); congruence).
    assert (F : fst (split1 "[" ("  " ++ t ++ " " ++ n)) = "  " ++ t ++ " " ++ n).
    { assert (K : forall c s, ~ In c (chars s) -> fst (split1 c s) = s).
      { induction s as [|a s IH]; cbn; auto. intros H. destruct (Ascii.eqb_spec a c) as [->|]; [exfalso; apply H; auto|].
        destruct (split1 c s) as [u v]. cbn in *. rewrite IH; auto. }
      apply K. rewrite !chars_app, !in_app_iff. cbn. intros [[H|[H|[]]]|[H|[[H|[]]|H]]]; try discriminate; auto. }
    rewrite F. replace ("  " ++ t ++ " " ++ n)%string with (("  " ++ t) ++ String " " n)%string
      by (rewrite !sapp_assoc; reflexivity). now apply after_last_blank_spec.
Qed.

(** Each struct declares exactly the parameters meant for it, under their names, and none twice. *)
Theorem C53_each_once : forall b d, NoDup (dkeys d) ->
  (forall kv, In kv d -> ident (fst kv) /\ no_semi (fst kv) /\ no_semi (cp_type (snd kv)) /\ brackets_ok (cp_type (snd kv))) ->
  let fields := map field_name (declared (param_lines b d)) in
  NoDup fields /\
  forall n, In n fields <-> exists c, In (n, c) d /\ cp_type c <> "#define"%string /\ cp_commondata c = b.
Proof.
  intros b d N H fields.
  assert (Nok : names_ok d) by (intros kv Hk; destruct (H kv Hk) as (_ & A & B & _); auto).
  destruct (param_lines_decls b d Nok) as [F M].
  destruct (sorted_decls _ F) as [P _].
  set (sel := filter (fun kv => negb (String.eqb (cp_type (snd kv)) "#define") && Bool.eqb (cp_commondata (snd kv)) b) d).
  assert (E : Permutation fields (map fst sel)).
  { unfold fields, declared. rewrite <- P, M. clear P M F fields. unfold sel.
    rewrite map_map. clear N Nok sel. induction d as [|[k c] d IH]; [constructor|].
    cbn [map filter fst snd]. specialize (IH (fun kv Hk => H kv (or_intror Hk))).
    destruct (negb (String.eqb (cp_type c) "#define") && Bool.eqb (cp_commondata c) b); auto. cbn [map fst snd].
    destruct (H (k, c)) as (A & _ & _ & B); [cbn; auto|]. cbn [fst snd] in *.
    rewrite (c_decl_field (cp_type c) k A B). now constructor. }
  assert (Ns : NoDup (map fst sel)).
  { unfold sel. clear - N. induction d as [|[k c] d IH]; cbn; [constructor|]. inversion N; subst.
    destruct (_ && _); cbn; auto. constructor; auto. intros Q. apply H1. apply in_map_iff in Q as ([k' c'] & A & B).
    cbn in A. subst. apply filter_In in B as [B _]. apply in_map_iff. exists (k, c'). auto. }
  split; [eapply Permutation_NoDup; [apply Permutation_sym; exact E|exact Ns]|].
  intros n. split.
  - intros Hn. apply (Permutation_in _ E) in Hn. apply in_map_iff in Hn as ([k c] & <- & Hc). cbn [fst].
    unfold sel in Hc. apply filter_In in Hc as [Hc Q]. cbn [fst snd] in Q. apply andb_true_iff in Q as [Q1 Q2].
    exists c. split; auto. split; [|now apply eqb_prop]. apply negb_true_iff in Q1. now apply String.eqb_neq.
  - intros (c & Hc & T & B). eapply Permutation_in; [apply Permutation_sym; exact E|].
    apply in_map_iff. exists (n, c). split; auto. unfold sel. apply filter_In. split; auto. cbn [fst snd].
    rewrite B, Bool.eqb_reflx, andb_true_r. apply negb_true_iff. now apply String.eqb_neq.
Qed.

(** A declaration registered by another module may repeat a parameter's name. *)
Theorem C53_extra_clash_refuted : exists d calls,
  let ex := or_empty (ex_common (reg_run empty_extras calls)) in
  NoDup (dkeys d) /\ ~ NoDup (map field_name (declared (commondata_lines d ex))).
Proof.
  exists [("x"%string, MkCP "REAL" "m" "x" (VInt 1) "Real" true true true true "")],
         [("other", "REAL x", "", true)].
  split; [repeat constructor; cbn; tauto|]. vm_compute. intros N. inversion N; subst. cbn in *. tauto.
Qed.

(** ** The header file *)

(** A history of register_BHaH_defines calls. *)
Definition bd_run (calls : list (string * string)) : dict string :=
  fold_left (fun d c => register_BHaH_defines (fst c) (snd c) d) calls [].
(** The texts registered for one module, in order. *)
Definition texts_of (m : string) (calls : list (string * string)) : list string :=
  map snd (filter (fun c => String.eqb (fst c) m) calls).

Lemma bd_run_get : forall calls m,
  dget m (bd_run calls) = match texts_of m calls with [] => None | l => Some (String.concat "" l) end.
Proof.
  intros calls m. unfold bd_run.
  assert (C : forall l x, String.concat "" (l ++ [x]) = (String.concat "" l ++ x)%string).
  { induction l as [|y l IH]; intros x; [now cbn|]. destruct l as [|z l]; [reflexivity|].
    change (String.concat "" ((y :: z :: l) ++ [x])) with (y ++ String.concat "" ((z :: l) ++ [x]))%string.
    rewrite IH. change (String.concat "" (y :: z :: l)) with (y ++ String.concat "" (z :: l))%string.
    now rewrite sapp_assoc. }
  rewrite <- (rev_involutive calls). induction (rev calls) as [|[k t] r IH]; [reflexivity|].
  cbn [rev]. rewrite fold_left_app. unfold texts_of in *. rewrite filter_app, map_app. cbn [fold_left fst snd filter].
  set (d := fold_left (fun (d : dict string) (c : string * string) => register_BHaH_defines (fst c) (snd c) d) (rev r) []) in *. unfold register_BHaH_defines.
  destruct (String.eqb_spec k m) as [->|Ne].
  - destruct (dget m d) eqn:G; rewrite dget_dset_same; cbn [map].
    + destruct (map snd (filter _ (rev r))) as [|y l]; [discriminate|]. injection IH as ->.
      change (Some (String.concat "" (y :: l) ++ t) = Some (String.concat "" ((y :: l) ++ [t]))). now rewrite C.
    + destruct (map snd (filter _ (rev r))) as [|y l]; [reflexivity|discriminate].
  - cbn [map]. rewrite app_nil_r. destruct (dget k d); rewrite dget_dset_other by congruence; exact IH.
Qed.
Lemma bd_run_keys : forall calls, NoDup (dkeys (bd_run calls)).
Proof.
  intros calls. unfold bd_run. assert (G : forall l d, NoDup (dkeys d) -> NoDup (dkeys (fold_left (fun d c => register_BHaH_defines (fst c) (snd c) d) l d))).
  { induction l as [|[k t] l IH]; intros d N; cbn; auto. apply IH. unfold register_BHaH_defines.
    destruct (dget k d); now apply NoDup_dset. }
  apply G. constructor.
Qed.

Lemma insert_leb_map : forall (A B : Type) (f : A -> B) (leb : B -> B -> bool) x l,
  map f (insert_leb (fun a b => leb (f a) (f b)) x l) = insert_leb leb (f x) (map f l).
Proof. induction l as [|y l IH]; cbn; auto. destruct (leb (f y) (f x)); cbn; [now rewrite IH|reflexivity]. Qed.
Lemma py_sorted_map : forall (A B : Type) (f : A -> B) (leb : B -> B -> bool) l,
  map f (py_sorted (fun a b => leb (f a) (f b)) l) = py_sorted leb (map f l).
Proof.
  intros A B f leb l. unfold py_sorted.
  assert (G : forall l acc, map f (fold_left (fun acc x => insert_leb (fun a b => leb (f a) (f b)) x acc) l acc)
     = fold_left (fun acc x => insert_leb leb x acc) (map f l) (map f acc)).
  { induction l0 as [|x l0 IH]; intros acc; cbn; auto. rewrite IH, insert_leb_map. reflexivity. }
  apply G.
Qed.

Lemma keyed_sort_same : forall (A : Type) (d1 d2 : dict A), NoDup (dkeys d1) -> NoDup (dkeys d2) ->
  (forall k, dget k d1 = dget k d2) ->
  py_sorted (fun a b => String.leb (fst a) (fst b)) d1 = py_sorted (fun a b => String.leb (fst a) (fst b)) d2.
Proof.
  intros A d1 d2 N1 N2 G.
  assert (KT : forall x y : string * A, String.leb (fst x) (fst y) = true \/ String.leb (fst y) (fst x) = true)
    by (intros; apply string_leb_tot).
  assert (KR : forall x y z : string * A, String.leb (fst x) (fst y) = true -> String.leb (fst y) (fst z) = true -> String.leb (fst x) (fst z) = true)
    by (intros x y z; apply string_leb_trans).
  destruct (py_sorted_spec (fun a b : string * A => String.leb (fst a) (fst b)) KT KR d1) as [P1 _].
  destruct (py_sorted_spec (fun a b : string * A => String.leb (fst a) (fst b)) KT KR d2) as [P2 _].
  assert (K : map fst (py_sorted (fun a b => String.leb (fst a) (fst b)) d1) = map fst (py_sorted (fun a b => String.leb (fst a) (fst b)) d2)).
  { rewrite !(py_sorted_map _ _ fst String.leb). apply py_sorted_perm. apply NoDup_Permutation; auto.
    intros k. split; intros H; apply in_map_iff in H as ([k' v] & <- & H); cbn.
    - apply (In_dget _ _ _ N1) in H. rewrite G in H. apply dget_In in H. apply in_map_iff. exists (k', v). auto.
    - apply (In_dget _ _ _ N2) in H. rewrite <- G in H. apply dget_In in H. apply in_map_iff. exists (k', v). auto. }
  assert (V : forall l1 l2 : dict A, map fst l1 = map fst l2 ->
     (forall k v, In (k, v) l1 -> dget k d1 = Some v) -> (forall k v, In (k, v) l2 -> dget k d1 = Some v) -> l1 = l2).
  { induction l1 as [|[k v] l1 IH]; intros [|[k' v'] l2] E H1 H2; try discriminate; auto.
    cbn in E. injection E as -> E. f_equal.
    - assert (dget k' d1 = Some v) by (apply H1; cbn; auto). assert (dget k' d1 = Some v') by (apply H2; cbn; auto). congruence.
    - apply IH; auto; intros; [apply H1|apply H2]; cbn; auto. }
  apply V; auto; intros k v H.
  - apply In_dget; auto. eapply Permutation_in; [apply Permutation_sym; exact P1|exact H].
  - rewrite G. apply In_dget; auto. eapply Permutation_in; [apply Permutation_sym; exact P2|exact H].
Qed.

(** BHaH_defines.h depends on what each module registered, not on how the modules' calls interleave. *)
Theorem C53_header : forall rt suppl calls1 calls2,
  (forall m, texts_of m calls1 = texts_of m calls2) ->
  header_text rt (bd_run calls1) suppl = header_text rt (bd_run calls2) suppl.
Proof.
  intros rt suppl calls1 calls2 H.
  assert (G : forall m, dget m (bd_run calls1) = dget m (bd_run calls2)) by (intros m; rewrite !bd_run_get, H; reflexivity).
  unfold header_text, core_text, noncore_text, noncore_items.
  rewrite (keyed_sort_same _ _ _ (bd_run_keys calls1) (bd_run_keys calls2) G).
  rewrite (map_ext (fun m => match dget m (bd_run calls1) with Some t => output_key m t | None => "" end)
                   (fun m => match dget m (bd_run calls2) with Some t => output_key m t | None => "" end)) by (intros; now rewrite G).
  reflexivity.
Qed.

(** Every registered text is in the assembled file (before the replacement of "*restrict"): core modules
    first, in their fixed order, then the others. *)
Lemma concat_in : forall l x, In x l -> exists a b, String.concat "" l = (a ++ x ++ b)%string.
Proof.
  induction l as [|y l IH]; intros x H; [destruct H|].
  assert (E : String.concat "" (y :: l) = (y ++ String.concat "" l)%string) by (destruct l; cbn; [now rewrite sapp_nil_r|reflexivity]).
  rewrite E. destruct H as [->|H]; [exists "", (String.concat "" l); reflexivity|].
  destruct (IH x H) as (a & b & ->). exists (y ++ a)%string, b. now rewrite sapp_assoc.
Qed.
Theorem C53_complete : forall calls m, texts_of m calls <> [] ->
  exists a b, (core_text (bd_run calls) ++ noncore_text (bd_run calls))%string
              = (a ++ "// Basic definitions for module " ++ m ++ ":" ++ NL ++ String.concat "" (texts_of m calls) ++ b)%string.
Proof.
  intros calls m H. set (bd := bd_run calls).
  assert (G : dget m bd = Some (String.concat "" (texts_of m calls)))
    by (unfold bd; rewrite bd_run_get; destruct (texts_of m calls); [easy|reflexivity]).
  set (t := String.concat "" (texts_of m calls)) in *.
  assert (K : forall a b, (a ++ output_key m t ++ b = (a ++ NL ++ "//********************************************" ++ NL) ++
      "// Basic definitions for module " ++ m ++ ":" ++ NL ++ t ++ b)%string).
  { intros a b. unfold output_key. rewrite !sapp_assoc. reflexivity. }
  destruct (str_mem m core_modules_list) eqn:C.
  - assert (I : In (output_key m t) (map (fun m => match dget m bd with Some t => output_key m t | None => "" end) core_modules_list)).
    { unfold str_mem in C. apply existsb_exists in C as (x & Hx & E). apply String.eqb_eq in E as <-.
      apply in_map_iff. exists m. rewrite G. auto. }
    destruct (concat_in _ _ I) as (a & b & E). unfold core_text. rewrite E, sapp_assoc, sapp_assoc, K. eauto.
  - assert (I : In (output_key m t) (map (fun kv => output_key (fst kv) (snd kv)) (noncore_items bd))).
    { apply in_map_iff. exists (m, t). split; auto. unfold noncore_items. apply filter_In. cbn [fst]. rewrite C. split; auto.
      apply In_py_sorted; [intros; apply string_leb_tot|intros x y z; apply string_leb_trans|]. now apply dget_In. }
    destruct (concat_in _ _ I) as (a & b & E). unfold noncore_text. rewrite E, <- sapp_assoc, K. eauto.
Qed.

(** ** Example *)
Example C53_ex :
  let p t n desc := (n, MkCP t "m" n (VInt 1) "Real" true true false true desc) in
  let d1 := [p "REAL" "zeta" ""; p "int[ 3 ]" "arr" "an array"; p "char[50]" "label" ""; p "#define" "MAXN" ""]%string in
  let d2 := [p "char[50]" "label" "renamed"; p "#define" "MAXN" ""; p "REAL" "zeta" "other"; p "int[ 3 ]" "arr" ""]%string in
  names_ok d1 /\ NoDup (dkeys d1) /\
  declared (param_lines true d1) = ["  REAL zeta"; "  char label[50]"; "  int arr[3]"]%string /\
  declared (param_lines true d2) = declared (param_lines true d1) /\
  map field_name (declared (param_lines true d1)) = ["zeta"; "label"; "arr"]%string.
Proof.
  cbv zeta. split.
  { intros kv H. cbn in H. unfold no_semi. repeat destruct H as [<-|H]; try destruct H; cbn; split; intros Q;
      repeat match goal with H : _ \/ _ |- _ => destruct H as [H|H]; [discriminate|] end; destruct Q. }
  split; [|vm_compute; auto].
  cbn. repeat constructor; cbn; intros Q; repeat match goal with H : _ \/ _ |- _ => destruct H as [H|H]; [discriminate|] end; destruct Q.
Qed.

Print Assumptions C40_once. Print Assumptions C40_call. Print Assumptions C40_kept. Print Assumptions C40_struct_once_only.
Print Assumptions C53_order_free. Print Assumptions C53_comments_irrelevant. Print Assumptions C53_each_once.
Print Assumptions C53_header. Print Assumptions C53_complete. Print Assumptions C53_griddata_order_refuted. Print Assumptions C53_extra_clash_refuted.
