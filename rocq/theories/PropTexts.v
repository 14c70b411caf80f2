(** Emitted and parsed texts stated letter by letter: C17, C47, C53, C54, C56, C58, continued. *)
From Coq Require Import String Ascii List Bool Arith ZArith Lia.
From Verif Require Import PyBase PyBaseFacts Params ParamsFacts FDRead FDReadFacts CacheFS CFunction CFunctionFacts Registry SimdLoop RefMetric.
Import ListNotations.
Open Scope string_scope.
Open Scope nat_scope.

(** ** C58: the power in Sinh...v2n<N> names is read in decimal *)
Lemma digits_from_app : forall a n acc, (n < 10)%nat ->
  (forall c, In c (str_to_list a) -> is_digit c = true) ->
  digits_from (a ++ String (digit_ascii n) "") acc = match digits_from a acc with Some x => Some (10 * x + n) | None => None end.
Proof.
  induction a as [|c a IH]; intros n acc L H.
  - cbn [String.append digits_from]. rewrite digit_ascii_is_digit by exact L. f_equal.
    unfold digit_ascii. rewrite nat_ascii_embedding by lia. lia.
  - cbn [String.append digits_from]. rewrite (H c) by now left. apply IH; [exact L|]. intros d D. apply H. now right.
Qed.
Theorem C58_int : forall n, isdigit_int (str_of_nat n) = Some n.
Proof.
  assert (G : forall f n, n < f -> digits_from (nat_digits f n) 0 = Some n).
  { induction f as [|f IH]; intros n L; [lia|]. cbn [nat_digits]. destruct (Nat.ltb_spec n 10) as [S|S].
    - cbn [digits_from]. rewrite digit_ascii_is_digit by exact S. f_equal. unfold digit_ascii. rewrite nat_ascii_embedding by lia. lia.
    - rewrite digits_from_app; [|apply Nat.mod_upper_bound; lia|apply nat_digits_digits].
      rewrite IH; [f_equal; symmetry; apply Nat.div_mod; lia|]. assert (n / 10 < n) by (apply Nat.div_lt; lia). lia. }
  intros n. unfold isdigit_int. destruct (str_of_nat n) eqn:E; [now apply str_of_nat_nonempty in E|]. rewrite <- E. apply G. lia.
Qed.
Example C58_ex_int : isdigit_int "307" = Some 307 /\ isdigit_int "3a" = None /\ isdigit_int "" = None.
Proof. repeat split. Qed.

(** ** C56: the text of the update loops of MoL *)
Theorem C56_mol_text : forall stmts,
  mol_loop_text false stmts = "LOOP_ALL_GFS_GPS(i) {" ++ String (ascii_of_nat 10) stmts ++ "}" ++ String (ascii_of_nat 10) "" /\
  mol_loop_text true stmts = "#pragma omp parallel for" ++ String (ascii_of_nat 10)
    ("for(int i=0;i<Nxx_plus_2NGHOSTS0*Nxx_plus_2NGHOSTS1*Nxx_plus_2NGHOSTS2*NUM_EVOL_GFS;i+=simd_width) {{" ++
     String (ascii_of_nat 10) stmts ++ "}" ++ String (ascii_of_nat 10) "").
Proof. intros stmts. split; reflexivity. Qed.
Example C56_ex_mol_text : mol_loop_text false "x" = "LOOP_ALL_GFS_GPS(i) {
x}
".
Proof. reflexivity. Qed.

(** ** C54: a default string is copied as it is exactly when it has no quote, percent sign, backslash or line break *)
Theorem C54_plain : forall s st n sz t m z, py_int sz = Ok z -> (0 < z)%Z ->
  exec (CSnprintf st n sz t) m s =
    if String.eqb s n then
      if forallb (fun c => negb (existsb (Ascii.eqb c) (map ascii_of_nat [34; 37; 92; 10]))) (list_ascii_of_string t)
      then FStr (substring 0 (Z.to_nat (z - 1)) t) else FUndef
    else m s.
Proof.
  intros s st n sz t m z E L. cbn [exec]. rewrite E. apply Z.ltb_lt in L. rewrite L, andb_true_r. unfold fupd.
  destruct (String.eqb s n); [|reflexivity].
  assert (P : plain t = forallb (fun c => negb (existsb (Ascii.eqb c) (map ascii_of_nat [34; 37; 92; 10]))) (list_ascii_of_string t)).
  { unfold plain. assert (Q : str_to_list t = list_ascii_of_string t) by (induction t; cbn; congruence). rewrite Q.
    clear. induction (list_ascii_of_string t) as [|c l IH]; [reflexivity|]. cbn [forallb]. rewrite IH. f_equal.
    unfold plain_char. cbn [map existsb]. now rewrite orb_false_r, !orb_assoc. }
  rewrite P. reflexivity.
Qed.

Example C54_ex_plain : py_int "4" = Ok 4%Z /\
  exec (CSnprintf "params" "name" "4" "abcdef") (fun _ => FUndef) "name" = FStr "abc" /\
  exec (CSnprintf "params" "name" "4" "a%d") (fun _ => FUndef) "name" = FUndef.
Proof. repeat split. Qed.

(** ** C17: a symbol without an underscore *)
Lemma find_char_none : forall c l, ~ In c l -> find_char c l = None.
Proof.
  induction l as [|d l IH]; intros H; [reflexivity|]. cbn [find_char]. destruct (Ascii.eqb_spec d c) as [->|N].
  - exfalso. apply H. now left.
  - rewrite IH; [reflexivity|]. intros K. apply H. now right.
Qed.
(** is not refused unless it has a U, a D or a final digit: its last letter is taken for the separator. *)
Theorem C17_no_underscore : forall b c,
  (forall x, In x (str_to_list (b ++ String c "")) -> is_UD x = false /\ x <> "_"%char) -> is_digit c = false ->
  parse_deriv_var (b ++ String c "") = Ok (b, b ++ String c "").
Proof.
  intros b c H D. unfold parse_deriv_var. cbv zeta.
  assert (E : str_to_list (b ++ String c "") = (str_to_list b ++ [c])%list) by apply str_to_list_app.
  assert (U : forall x, In x (str_to_list (b ++ String c "")) -> is_UD x = false) by (intros x X; now apply H).
  pose proof (ud_count_none _ U) as C. unfold ud_count in C.
  assert (CD : count_char "D" (str_to_list (b ++ String c "")) = 0) by lia. rewrite C.
  assert (R : rstrip_digits (str_to_list (b ++ String c "")) = str_to_list (b ++ String c "")).
  { rewrite E. unfold rstrip_digits. rewrite rev_app_distr. cbn [rev List.app drop_while]. rewrite D.
    cbn [rev]. now rewrite rev_involutive. }
  rewrite R, Nat.sub_diag. cbn [Nat.eqb negb].
  assert (F : rfind_char "_" (str_to_list (b ++ String c "")) = None).
  { unfold rfind_char. rewrite find_char_none; [reflexivity|]. intros K. apply in_rev in K. now apply H in K as [_ K]. }
  rewrite F, CD, Nat.sub_0_r. unfold slice. rewrite skipn_all, Nat.sub_0_r. cbn [skipn]. rewrite firstn_all, app_nil_r.
  rewrite list_to_str_to_list. rewrite E. rewrite app_length. cbn [List.length]. rewrite Nat.add_sub, firstn_app, Nat.sub_diag, firstn_all.
  cbn [firstn]. rewrite app_nil_r, list_to_str_to_list. reflexivity.
Qed.
Example C17_ex_no_underscore : parse_deriv_var "uu" = Ok ("u", "uu") /\ parse_deriv_var "vU0" = Ok ("vU", "vU0") /\
  parse_deriv_var "vU" = Err TypeError.
Proof. repeat split. Qed.

(** ** C47: the lines of the comment *)
(** The comment has one line per line of the description: five characters and the stripped line. *)
Lemma strip_free : forall c s, free_of c s -> free_of c (py_strip s).
Proof.
  intros c s F. unfold py_strip. destruct (lstrip_split s) as [w [_ B]]. destruct (rstrip_split (lstrip s)) as [v [_ D]].
  rewrite B in F. rewrite D in F. unfold free_of in *. rewrite !str_to_list_app, !in_app_iff in F. tauto.
Qed.
Theorem C47_lines : forall desc,
  py_split nl (prefix_with_star desc) = map (fun line => "   * " ++ py_strip line) (py_split nl desc).
Proof.
  intros desc. unfold prefix_with_star. change nl with (one (ascii_of_nat 10)). apply split_concat.
  - intros K. apply map_eq_nil in K. now apply split_one_nonempty in K.
  - intros x X. apply in_map_iff in X as (line & <- & L).
    assert (F : free_of (ascii_of_nat 10) line) by (apply (split_parts_free _ desc "" ltac:(intros []) _ L)).
    apply strip_free in F. unfold free_of in *. rewrite str_to_list_app, in_app_iff. intros [K|K]; [|now apply F].
    cbn in K. repeat (destruct K as [K|K]; [discriminate|]). exact K.
Qed.
Example C47_ex_lines : py_split nl (prefix_with_star ("One." ++ nl ++ "  :param x: y")) = ["   * One."; "   * :param x: y"].
Proof. reflexivity. Qed.

(** ** C53: the include guard *)
Lemma free_b : forall c s, existsb (Ascii.eqb c) (str_to_list s) = false -> free_of c s.
Proof.
  intros c s H K. assert (E : existsb (Ascii.eqb c) (str_to_list s) = true) by (apply existsb_exists; exists c; split; [exact K|apply Ascii.eqb_refl]).
  congruence.
Qed.
Lemma replace_head : forall c o r a s, free_of c a -> py_replace (String c o) r (a ++ s) = a ++ py_replace (String c o) r s.
Proof.
  intros c o r a s F. unfold py_replace, py_split.
  assert (H : forall x l, l <> [] -> String.concat r (match l with [] => [] | y :: t => (x ++ y) :: t end) = x ++ String.concat r l).
  { intros x [|y [|z t]] N; [congruence|reflexivity|]. cbn [String.concat]. now rewrite sapp_assoc. }
  assert (G : forall s k acc, split_aux (String c o) s k acc =
    match split_aux (String c o) s k "" with [] => [] | y :: t => (acc ++ y) :: t end).
  { clear. induction s as [|d s IH]; intros k acc; [cbn; now rewrite sapp_nil_r|]. cbn [split_aux]. destruct k as [|k].
    - destruct (prefix (String c o) (String d s)); [now rewrite sapp_nil_r|].
      rewrite (IH 0 (acc ++ String d "")), (IH 0 ("" ++ String d "")). destruct (split_aux (String c o) s 0 ""); [reflexivity|].
      f_equal. now rewrite sapp_assoc.
    - apply IH. }
  assert (A : forall acc, split_aux (String c o) (a ++ s) 0 acc = split_aux (String c o) s 0 (acc ++ a)).
  { clear -F. induction a as [|d a IH]; intros acc; [cbn [String.append]; now rewrite sapp_nil_r|].
    cbn [String.append split_aux]. assert (P : prefix (String c o) (String d (a ++ s)) = false).
    { cbn [prefix]. destruct (ascii_dec c d) as [->|N]; [exfalso; apply F; now left|reflexivity]. }
    rewrite P, IH; [|intros K; apply F; now right]. now rewrite sapp_cons_one. }
  rewrite A. cbn [String.append]. rewrite G. apply H. apply split_nonempty.
Qed.
Lemma prefix_barrier : forall p s d z, free_of d p -> prefix p (s ++ String d z) = prefix p s.
Proof.
  induction p as [|c p IH]; intros s d z F; [now destruct s|]. destruct s as [|e s].
  - cbn [String.append prefix]. destruct (ascii_dec c d) as [->|N]; [exfalso; apply F; now left|reflexivity].
  - cbn [String.append prefix]. destruct (ascii_dec c e); [|reflexivity]. apply IH. intros K. apply F. now right.
Qed.
Lemma prefix_length : forall p s, prefix p s = true -> String.length p <= String.length s.
Proof.
  induction p as [|c p IH]; intros s H; [cbn; lia|]. destruct s as [|e s]; [discriminate|]. cbn [prefix] in H.
  destruct (ascii_dec c e); [|discriminate]. cbn. apply IH in H. lia.
Qed.
Lemma replace_tail : forall c o r s d z, free_of d (String c o) -> free_of c z ->
  py_replace (String c o) r (s ++ String d z) = py_replace (String c o) r s ++ String d z.
Proof.
  intros c o r s d z D F. unfold py_replace, py_split. generalize "" as acc.
  assert (K : 0 <= String.length s) by lia. revert K. generalize 0 as k.
  induction s as [|e s IH]; intros k K acc.
  - cbn in K. assert (k = 0) as -> by lia. cbn [String.append]. rewrite split_aux_none; [reflexivity|].
    destruct (py_in (String c o) (String d z)) eqn:E; [|reflexivity]. exfalso. apply py_in_spec in E as (a & b & E).
    assert (I : In c (str_to_list (String d z))). { rewrite E, !str_to_list_app. apply in_or_app. right. now left. }
    destruct I as [->|I]; [apply D; now left|now apply F].
  - cbn [String.append split_aux]. destruct k as [|k].
    + change (String e (s ++ String d z)) with (String e s ++ String d z). rewrite prefix_barrier by exact D.
      destruct (prefix (String c o) (String e s)) eqn:P.
      * apply prefix_length in P. cbn in P. rewrite !concat_cons by apply split_nonempty.
        rewrite IH by (cbn; lia). now rewrite !sapp_assoc.
      * apply IH. lia.
    + cbn in K. apply IH. lia.
Qed.
(** BHaH_defines.h is inside an include guard, whatever was registered. *)
Theorem C53_guard : forall rt bd suppl, exists text,
  header_text rt bd suppl = "#ifndef __BHAH_DEFINES_H__" ++ NL ++ "#define __BHAH_DEFINES_H__" ++ NL ++ text ++ NL ++ "#endif" ++ NL.
Proof.
  intros rt bd suppl. unfold header_text. set (m := core_text bd ++ noncore_text bd ++ suppl_text suppl).
  assert (E : forall a, core_text bd ++ noncore_text bd ++ suppl_text suppl ++ a = m ++ a) by (intros; unfold m; now rewrite !sapp_assoc).
  rewrite E. clearbody m.
  set (w := "// BHaH core header file, automatically generated from output_BHaH_defines_h within BHaH_defines_h.py," ++ NL ++
    "//    DO NOT EDIT THIS FILE BY HAND." ++ NL ++ NL).
  exists (py_replace "*restrict" rt (w ++ m)).
  transitivity (py_replace "*restrict" rt (("#ifndef __BHAH_DEFINES_H__" ++ NL ++ "#define __BHAH_DEFINES_H__" ++ NL) ++ (w ++ m) ++ String (ascii_of_nat 10) ("#endif" ++ NL))).
  { reflexivity. }
  rewrite replace_head by (apply free_b; reflexivity). rewrite replace_tail by (apply free_b; reflexivity). rewrite !sapp_assoc. reflexivity.
Qed.
Example C53_ex_guard : header_text "*restrict" [] [] <> "" /\ prefix "#ifndef" (header_text "" [("m", "REAL *restrict x;")] []) = true.
Proof. split; [discriminate|reflexivity]. Qed.
Print Assumptions C58_int. Print Assumptions C56_mol_text. Print Assumptions C54_plain. Print Assumptions C17_no_underscore.
Print Assumptions C47_lines. Print Assumptions C53_guard.
