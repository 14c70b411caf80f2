(** C84, continued: examples, and where the parser does not do what the user or the generated file says. *)
From Coq Require Import String Ascii List ZArith Bool Arith Lia.
From Verif Require Import PyBase PyBaseFacts PyList Params Registry Parfile ParfileFacts PropParfile PropParfileDefault.
From Verif Require CacheFS.
Import ListNotations.
Open Scope list_scope.

(** The default parameter file is read back: every parameter in it gets its default, the others keep their values. *)
Theorem C84_default : forall (REAL : Type) strtod vstr vfloat vint project d table x s steers read prog,
  NoDup (dkeys d) -> param_table d = Ok table -> no_LF project ->
  (forall k c, In (k, c) d -> cp_parfile c = true -> cp_commondata c = true ->
     name_ok k /\ no_LF (cp_module c) /\ no_LF (cp_desc c) /\ default_is REAL strtod vstr vfloat vint c (x k)) ->
  exists text, generate_default_parfile vstr vfloat vint project d = Ok text /\
    ((forall line, In line (py_split NL text) -> (String.length line <= 1022)%nat) ->
     exists s', parser REAL strtod table steers (Some (str_to_list text)) read [prog] s = Ran (PVal s') /\
       (forall k c, In (k, c) d -> cp_parfile c = true -> cp_commondata c = true -> s' k = x k) /\
       (forall k, (forall c, In (k, c) d -> cp_parfile c && cp_commondata c = false) -> s' k = s k)).
Proof. exact default_file. Qed.

(** ** Integers *)
(** A decimal number: accepted if it fits a long, and then reduced modulo 2^32 to an int. *)
Theorem C84_integer : forall z,
  ((- 2 ^ 63 <= z < 2 ^ 63)%Z -> exists w, read_integer (str_to_list (str_of_Z z)) = PVal w /\ int32 w /\ (2 ^ 32 | z - w)%Z) /\
  (~ (- 2 ^ 63 <= z < 2 ^ 63)%Z -> read_integer (str_to_list (str_of_Z z)) = PExit).
Proof.
  intros z. unfold read_integer. rewrite strtol_Z. split; intros H; destruct (Z.ltb_spec z (- 2 ^ 63)), (Z.leb_spec (2 ^ 63) z); try lia; cbn [orb]; try reflexivity.
  exists (to_int z). split; [reflexivity|]. unfold to_int. pose proof (Z.mod_pos_bound (z + 2 ^ 31) (2 ^ 32) ltac:(lia)). split; [unfold int32; lia|].
  exists ((z + 2 ^ 31) / 2 ^ 32)%Z. pose proof (Z.div_mod (z + 2 ^ 31) (2 ^ 32)). lia.
Qed.
Example ex_C84_integer : read_integer (str_to_list "-2147483648") = PVal (- 2 ^ 31)%Z /\ read_integer (str_to_list "9223372036854775808") = PExit.
Proof. split; reflexivity. Qed.
(** Not every number that is accepted is the number that is stored. *)
Theorem C84_integer_range_refuted : exists z w, read_integer (str_to_list (str_of_Z z)) = PVal w /\ w <> z.
Proof. exists 4294967297%Z, 1%Z. split; [|discriminate]. unfold read_integer. rewrite strtol_Z. reflexivity. Qed.

(** ** Writing outside the buffers *)
Lemma upto_length : forall c l, (List.length (fst (upto c l)) <= List.length l)%nat /\
  (forall r, snd (upto c l) = Some r -> (List.length (fst (upto c l)) + 1 + List.length r = List.length l)%nat).
Proof.
  induction l as [|x l IH]; cbn [upto]; [split; [reflexivity|discriminate]|]. destruct (Ascii.eqb x c); cbn [fst snd List.length].
  - split; [lia|]. intros r [= <-]. lia.
  - destruct (upto c l) as [a b]. cbn [fst snd List.length] in *. destruct IH as [I1 I2]. split; [lia|]. intros r E. specialize (I2 r E). lia.
Qed.
Lemma skip_length : forall c l, (List.length (skip c l) <= List.length l)%nat.
Proof. induction l as [|x l IH]; cbn [skip]; [lia|]. destruct (Ascii.eqb x c); cbn [List.length]; lia. Qed.
Lemma skip_head : forall c l x r, skip c l = x :: r -> x <> c.
Proof. induction l as [|y l IH]; intros x r; cbn [skip]; [discriminate|]. destruct (Ascii.eqb_spec y c); [apply IH|]. now intros [= <- <-]. Qed.
Lemma strtok_length : forall c l t r, strtok c l = Some (t, r) -> (0 < List.length t)%nat /\ (r = [] \/ (List.length t + 1 + List.length r <= List.length l)%nat).
Proof.
  intros c l t r. unfold strtok. pose proof (skip_length c l) as SL. pose proof (skip_head c l) as SH. destruct (skip c l) as [|x l']; [discriminate|].
  specialize (SH x l' eq_refl). pose proof (upto_length c (x :: l')) as [U1 U2]. cbn [upto] in *. destruct (Ascii.eqb_spec x c); [congruence|].
  destruct (upto c l') as [a b]. cbn [fst snd] in *. intros [= <- <-]. cbn [List.length] in *. split; [lia|]. destruct b as [b|]; [right|now left]. specialize (U2 b eq_refl). lia.
Qed.
Lemma tokens_no_over : forall fuel count l, (l = [] \/ 2 * count + List.length l <= 200)%nat -> value_tokens fuel count l <> POver.
Proof.
  induction fuel as [|k IH]; intros count l H; cbn [value_tokens]; [discriminate|]. destruct (strtok "," l) as [[t r]|] eqn:E; [|discriminate].
  pose proof E as E'. apply strtok_length in E as [E1 E2]. unfold safe_copy. destruct (PARAM_SIZE <=? _)%nat; [discriminate|]. cbn [pbind]. destruct (Nat.leb_spec MAX_ARRAY_SIZE count) as [M|M].
  - exfalso. unfold MAX_ARRAY_SIZE in M. destruct H as [->|H]; [discriminate|]. destruct l; [discriminate|]. cbn [List.length] in H. lia.
  - specialize (IH (S count) r). destruct (value_tokens k (S count) r); cbn [pbind]; try discriminate. exfalso. apply IH; [|reflexivity].
    destruct E2 as [->|E2]; [now left|]. right. destruct H as [->|H]; [discriminate|]. lia.
Qed.
Lemma value_no_over : forall v, (List.length v < 128)%nat -> parse_value v <> POver.
Proof.
  intros [|c r] H; cbn [parse_value]; [discriminate|]. destruct (Ascii.eqb c "{").
  - destruct (negb _); [discriminate|]. unfold safe_copy at 1. destruct (LINE_SIZE <=? _)%nat; [discriminate|]. cbn [pbind]. apply tokens_no_over. right.
    assert (L : (List.length (removelast r) <= List.length r)%nat) by (clear; induction r as [|a [|b r] IH]; cbn in *; lia). cbn [List.length] in H. lia.
  - unfold safe_copy. destruct (PARAM_SIZE <=? _)%nat; [discriminate|]. cbn [pbind]. destruct (PARAM_SIZE <=? _)%nat; discriminate.
Qed.
Lemma trim_length : forall l, (List.length (trim_space l) <= List.length l)%nat.
Proof.
  assert (L : forall l, (List.length (ltrim l) <= List.length l)%nat) by (induction l as [|c l IH]; cbn [ltrim]; [lia|]; destruct (isspace c); cbn [List.length]; lia).
  intros l. unfold trim_space. rewrite rev_length. pose proof (L (rev (ltrim l))). rewrite rev_length in *. pose proof (L l). lia.
Qed.
(** the values that are stored are shorter than the buffer *)
Lemma value_short : forall v vs, parse_value v = PVal vs -> forall x, In x vs -> (List.length x < 128)%nat.
Proof.
  assert (S : forall l n x, safe_copy l n = PVal x -> x = l /\ (List.length l < n)%nat).
  { intros l n x. unfold safe_copy. destruct (Nat.leb_spec n (List.length l)); [discriminate|]. intros [= <-]. auto. }
  assert (T : forall fuel count l vs, value_tokens fuel count l = PVal vs -> forall x, In x vs -> (List.length x < 128)%nat).
  { induction fuel as [|k IH]; intros count l vs; cbn [value_tokens]; [intros [= <-] x []|]. destruct (strtok "," l) as [[t r]|]; [|intros [= <-] x []].
    destruct (safe_copy (trim_space t) PARAM_SIZE) as [| |y] eqn:E; [discriminate|discriminate|]. apply S in E as [-> E]. cbn [pbind].
    destruct (MAX_ARRAY_SIZE <=? count)%nat; [discriminate|]. destruct (value_tokens k (Datatypes.S count) r) as [| |ws] eqn:F; [discriminate|discriminate|]. cbn [pbind]. intros [= <-] x [<-|I]; [exact E|].
    eapply IH; eauto. }
  intros [|c r] vs; cbn [parse_value]; [intros [= <-] x [<-|[]]; cbn; lia|]. destruct (Ascii.eqb c "{").
  - destruct (negb _); [discriminate|]. destruct (safe_copy r LINE_SIZE); [discriminate|discriminate|]. cbn [pbind]. apply T.
  - destruct (safe_copy (c :: r) PARAM_SIZE) as [| |y] eqn:E; [discriminate|discriminate|]. cbn [pbind]. destruct (safe_copy (trim_space y) PARAM_SIZE) as [| |w] eqn:F; [discriminate|discriminate|].
    cbn [pbind]. intros [= <-] x [<-|[]]. now apply S in F as [-> F].
Qed.
Lemma chararray_no_over : forall v n, (List.length v < 128)%nat -> read_chararray v n <> POver.
Proof.
  intros v n H. unfold read_chararray. assert (S : forall l m, safe_copy l m <> POver) by (intros l m; unfold safe_copy; destruct (m <=? _)%nat; discriminate).
  assert (G : forall t, pbind (PVal t) (fun t : chars => if (n <=? List.length t)%nat then PExit else safe_copy t n) <> POver) by (intros t; cbn [pbind]; destruct (n <=? _)%nat; [discriminate|apply S]).
  destruct (match v with [] => false | _ => _ end).
  - destruct ((List.length v =? 1)%nat || (n <=? List.length v - 2)%nat); [discriminate|]. destruct (Nat.leb_spec PARAM_SIZE (List.length v - 2)) as [L|L]; [unfold PARAM_SIZE in L; lia|apply G].
  - unfold safe_copy at 1. destruct (PARAM_SIZE <=? _)%nat; [discriminate|apply G].
Qed.
Lemma pmap_no_over : forall A B (f : A -> pres B) l, (forall x, f x <> POver) -> pmap f l <> POver.
Proof.
  intros A B f l H. induction l as [|x l IH]; cbn [pmap]; [discriminate|]. pose proof (H x). destruct (f x); cbn [pbind]; try discriminate; [congruence|].
  destruct (pmap f l); cbn [pbind]; try discriminate. congruence.
Qed.
Lemma read_integer_no : forall v, read_integer v <> POver.
Proof. intros v. unfold read_integer. destruct (strtol v) as [[z [|]]|]; try discriminate. destruct (_ || _); discriminate. Qed.
(** infixes *)
Definition infix (a l : chars) : Prop := exists x y, l = x ++ a ++ y.
Lemma infix_trans : forall a b c, infix a b -> infix b c -> infix a c.
Proof. intros a b c (x & y & ->) (u & v & ->). exists (u ++ x), (y ++ v). now rewrite <- !app_assoc. Qed.
Lemma ltrim_suffix : forall l, exists x, l = x ++ ltrim l.
Proof. induction l as [|c l [x E]]; [now exists []|]. cbn [ltrim]. destruct (isspace c); [exists (c :: x); cbn; now rewrite <- E|now exists []]. Qed.
Lemma trim_infix : forall l, infix (trim_space l) l.
Proof.
  intros l. unfold trim_space. destruct (ltrim_suffix l) as [x E]. destruct (ltrim_suffix (rev (ltrim l))) as [y F]. exists x, (rev y).
  rewrite E at 1. f_equal. rewrite <- rev_app_distr, <- F. now rewrite rev_involutive.
Qed.
Lemma upto_prefix : forall c l, exists y, l = fst (upto c l) ++ y.
Proof.
  induction l as [|x l [y E]]; [now exists []|]. cbn [upto]. destruct (Ascii.eqb x c); [now exists (x :: l)|]. destruct (upto c l) as [a b]. cbn [fst] in *. exists y. cbn. congruence.
Qed.
Lemma strtok_infix : forall c l t r, strtok c l = Some (t, r) -> infix t l.
Proof.
  intros c l t r. unfold strtok. assert (S : exists x, l = x ++ skip c l).
  { clear. induction l as [|a l [x E]]; [now exists []|]. cbn [skip]. destruct (Ascii.eqb a c); [exists (a :: x); cbn; now rewrite <- E|now exists []]. }
  destruct S as [x E]. destruct (skip c l) as [|a l'] eqn:F; [discriminate|]. destruct (upto_prefix c (a :: l')) as [y G]. destruct (upto c (a :: l')) as [u v]. cbn [fst] in G.
  intros [= <- _]. exists x, y. now rewrite E, G.
Qed.
(** On a line of a file — whatever it contains — nothing is written outside a buffer, except for a size in brackets of 16 characters or more. *)
Theorem C84_overflow : forall (REAL : Type) strtod table st line, line_step REAL strtod table [] st line = POver ->
  exists size, infix ("["%char :: size ++ ["]"%char]) line /\ (16 <= List.length size)%nat.
Proof.
  intros REAL strtod table st line. unfold line_step.
  destruct (strtok "=" (fst (upto "#" line))) as [[p r]|] eqn:E; [|cbn; discriminate].
  destruct (safe_copy (trim_space p) PARAM_SIZE) as [| |param] eqn:P; [discriminate|unfold safe_copy in P; destruct (PARAM_SIZE <=? _)%nat; discriminate|]. cbn [pbind].
  assert (X : param = trim_space p) by (unfold safe_copy in P; destruct (PARAM_SIZE <=? _)%nat; congruence). subst param.
  destruct (strtok "=" r) as [[q r']|]; [|cbn; discriminate].
  destruct (safe_copy (trim_space q) PARAM_SIZE) as [| |value] eqn:Q; [discriminate|unfold safe_copy in Q; destruct (PARAM_SIZE <=? _)%nat; discriminate|]. cbn [pbind].
  assert (V : (List.length value < 128)%nat).
  { unfold safe_copy in Q. destruct (Nat.leb_spec PARAM_SIZE (List.length (trim_space q))); [discriminate|]. injection Q as <-. exact H. }
  destruct (parse_param (trim_space p)) as [| |[nm n]] eqn:N; [discriminate| |].
  - intros _. unfold parse_param in N. destruct (upto "[" (trim_space p)) as [a [b|]] eqn:U.
    + destruct (upto "]" b) as [sz [w|]] eqn:W; [|discriminate]. destruct (Nat.leb_spec 16 (List.length sz)) as [L|L]; [|destruct (_ <=? 0)%Z; discriminate].
      exists sz. split; [|exact L]. apply upto_some in U. apply upto_some in W. subst b.
      eapply infix_trans; [|eapply infix_trans; [apply trim_infix|eapply infix_trans; [eapply strtok_infix; exact E|]]].
      * exists a, w. rewrite U. cbn [app]. now rewrite <- app_assoc.
      * destruct (upto_prefix "#" line) as [y Y]. exists [], y. exact Y.
    + unfold safe_copy in N. destruct (PARAM_SIZE <=? _)%nat; discriminate.
  - cbn [pbind]. destruct (negb _); [discriminate|]. pose proof (value_no_over value V) as VO. destruct (parse_value value) as [| |vs] eqn:PV; [discriminate|congruence|]. cbn [pbind].
    pose proof (value_short value vs PV) as VS. destruct (find_descr table nm) as [d|]; [|discriminate]. destruct (existsb _ _); [discriminate|]. cbv zeta.
    destruct (if match d_type d with PARAM_CHARARRAY => false | _ => _ end then _ else _); [discriminate|].
    assert (A : assign REAL strtod d vs (fst st) <> POver).
    { assert (V0 : (List.length (nth 0 vs []) < 128)%nat) by (destruct vs as [|v vs]; [cbn; lia|apply VS; now left]).
      assert (RR : forall v, read_REAL REAL strtod v <> POver) by (intros v; unfold read_REAL; destruct (strtod v); discriminate).
      unfold assign. destruct (d_type d).
      - pose proof (RR (nth 0 vs [])). destruct (read_REAL _ _ _); cbn [pbind]; congruence.
      - pose proof (read_integer_no (nth 0 vs [])). destruct (read_integer _); cbn [pbind]; congruence.
      - pose proof (chararray_no_over (nth 0 vs []) (Z.to_nat (d_buf d)) V0). destruct (read_chararray _ _); cbn [pbind]; congruence.
      - pose proof (pmap_no_over _ _ (read_REAL REAL strtod) (firstn (Z.to_nat (d_array d)) vs) RR). destruct (pmap _ _); cbn [pbind]; congruence.
      - pose proof (pmap_no_over _ _ read_integer (firstn (Z.to_nat (d_array d)) vs) read_integer_no). destruct (pmap _ _); cbn [pbind]; congruence. }
    destruct (assign REAL strtod d vs (fst st)); cbn; congruence.
Qed.

(** ** Examples *)
(** REAL numbers are their texts *)
Definition ex_strtod (l : chars) : option string := match l with [] => None | _ => Some (list_to_str l) end.
Definition ex_vstr (v : pyval) : string := match v with VStr s => s | VInt z => str_of_Z z | VBool true => "True" | VBool false => "False" | _ => "1.5" end.
Definition ex_vfloat (v : pyval) : py string := Ok "0.25"%string.
Definition ex_vint (v : pyval) : py string := Ok (ex_vstr v).
Definition ex_cp (ty : string) (v : pyval) (desc : string) : code_param := MkCP ty "mod" "" v "Real" true true false true desc.
Definition ex_d : cparams_dict :=
  [("tol"%string, ex_cp "REAL" (VFloat (QArith_base.Qmake 0 1)) "a tolerance"); ("xs"%string, ex_cp "REAL[3]" (VFloat (QArith_base.Qmake 0 1)) ""); ("bc"%string, ex_cp "char[50]" (VStr "radiation") "conditions");
   ("n"%string, ex_cp "int" (VInt (-7)) ""); ("other"%string, MkCP "int" "mod" "" (VInt 1) "Real" false true false true "")].
Definition ex_x (k : string) : cval string :=
  if String.eqb k "tol" then CReal _ "1.5"%string else if String.eqb k "xs" then CReals _ ["0.25"%string; "0.25"%string; "0.25"%string]
  else if String.eqb k "bc" then CChars _ (str_to_list "radiation") else CInt _ (-7).
Definition ex_table : list descr := match param_table ex_d with Ok t => t | Err _ => [] end.
Definition ex_s : store string := fun _ => CInt _ 0.
Example ex_C84_table : NoDup (dkeys ex_d) /\ param_table ex_d = Ok [MkD "bc" 0 PARAM_CHARARRAY 0 50; MkD "n" 1 PARAM_INT 0 0; MkD "tol" 2 PARAM_REAL 0 0; MkD "xs" 3 PARAM_REAL_ARRAY 3 0].
Proof. split; [repeat constructor; cbn; intuition discriminate|reflexivity]. Qed.
Lemma ex_no_LF : forall s, forallb (fun c => negb (Ascii.eqb c CacheFS.LF)) (str_to_list s) = true -> no_LF s.
Proof. intros s H I. rewrite forallb_forall in H. specialize (H _ I). rewrite Ascii.eqb_refl in H. discriminate. Qed.
Example ex_C84_default :
  (forall k c, In (k, c) ex_d -> cp_parfile c = true -> cp_commondata c = true ->
     name_ok k /\ no_LF (cp_module c) /\ no_LF (cp_desc c) /\ default_is string ex_strtod ex_vstr ex_vfloat ex_vint c (ex_x k)) /\
  exists text, generate_default_parfile ex_vstr ex_vfloat ex_vint "proj" ex_d = Ok text /\
    py_split NL text =
      ["#### proj BH@H parameter file. NOTE: only commondata CodeParameters appear here ###"; "###########################"; "###########################"; "### Module: mod";
       "bc = " ++ DQ ++ "radiation" ++ DQ ++ "              # (char[50]) conditions"; "n = -7                        # (int)"; "tol = 1.5                     # (REAL) a tolerance";
       "xs[3] = { 0.25, 0.25, 0.25 }  # (REAL)"; ""]%string /\
    exists s', parser string ex_strtod ex_table [] (Some (str_to_list text)) (fun _ => None) [[]] ex_s = Ran (PVal s') /\
      s' "tol"%string = CReal _ "1.5"%string /\ s' "n"%string = CInt _ (-7) /\ s' "bc"%string = CChars _ (str_to_list "radiation") /\ s' "other"%string = CInt _ 0.
Proof.
  split.
  - assert (V : forall v, tight v -> forallb (fun c => negb (existsb (Ascii.eqb c) ["#"%char; "="%char; CacheFS.LF])) v = true -> value_text v).
    { intros v T H. rewrite forallb_forall in H. split; [exact T|]. repeat split; intros I; apply H in I; discriminate. }
    intros k c I F C. repeat (destruct I as [[= <- <-]|I]; [split; [split; [split; [discriminate|reflexivity]|cbn; lia]|]; split; [now apply ex_no_LF|]; split; [now apply ex_no_LF|]|]); [| | | |discriminate C|destruct I].
    + left. split; [reflexivity|]. exists "1.5"%string. split; [apply V; [split; reflexivity|reflexivity]|]. repeat split; [cbn; lia|discriminate].
    + right. right. right. left. exists 3%nat, "0.25"%string, "0.25"%string. split; [reflexivity|]. split; [lia|]. split; [reflexivity|].
      split; [apply V; [split; reflexivity|reflexivity]|]. split; [intros X; cbn in X; intuition discriminate|]. split; [cbn; lia|]. split; reflexivity.
    + right. right. left. exists 50%nat, "radiation"%string. split; [reflexivity|]. split; [reflexivity|]. split; [cbn; lia|]. split; [cbn; lia|]. split; [|reflexivity].
      intros ch X Y. cbn in X, Y. intuition (subst; discriminate).
    + right. left. split; [reflexivity|]. exists (-7)%Z. split; [reflexivity|]. split; [unfold int32; lia|reflexivity].
  - eexists. split; [vm_compute; reflexivity|]. split; [vm_compute; reflexivity|]. eexists. split; [vm_compute; reflexivity|]. repeat split.
Qed.
(** A file with its own spacing, a comment, an unknown name, and an argument on the command line *)
Definition ex_ls : list pline :=
  [Blank [] (str_to_list "# my file"); Array [] "xs" [] [" "%char] [([], str_to_list "1.0", []); ([" "%char], str_to_list "2", [" "%char]); ([], str_to_list "-3e4", [])] [] [];
   Scalar [" "%char] "wrong" [" "%char] [] (str_to_list "3") [] []; Scalar [] "n" [" "%char] [" "%char] (str_to_list "12") [" "%char] (str_to_list "# number")].
Definition ex_es : list (effect string) :=
  [Nothing _; Sets _ "xs" (CReals _ ["1.0"%string; "2"%string; "-3e4"%string]); Ignored _; Sets _ "n" (CInt _ 12)].
Definition ex_steers : list (option steer) := [Some (SReal "tol"); Some (SChars "bc" 50)].
Definition ex_args : list chars := [str_to_list "1e-3"; str_to_list "outflow"].
Lemma ex_lines_ok : lines_ok string ex_strtod ex_table ex_ls ex_es.
Proof.
  assert (V : forall v, tight v -> forallb (fun c => negb (existsb (Ascii.eqb c) ["#"%char; "="%char; CacheFS.LF])) v = true -> value_text v).
  { intros v T H. rewrite forallb_forall in H. split; [exact T|]. repeat split; intros I; apply H in I; discriminate. }
  assert (B0 : blank []) by (split; easy). assert (B1 : blank [" "%char]) by apply (blank_sp 1).
  assert (C0 : comment []) by (split; [easy|now left]).
  assert (CC : forall t, no_LF t -> comment ("#"%char :: str_to_list t)) by (intros t H; split; [intros [I|I]; [discriminate|now apply H]|right; eauto]).
  unfold lines_ok, ex_ls, ex_es. constructor; [|constructor; [|constructor; [|constructor; [|constructor]]]].
  - split; [|reflexivity]. split; [cbn; lia|]. split; [exact B0|]. apply (CC " my file"%string). now apply ex_no_LF.
  - split.
    + split; [cbn; lia|]. do 4 (split; [assumption|]). split; [exact C0|]. split; [split; [discriminate|reflexivity]|]. split; [cbn; lia|]. split; [cbn; lia|]. split; [cbn; lia|].
      repeat (apply Forall_cons; [split; [assumption|split; [apply V; [split; reflexivity|reflexivity]|split; [intros I; cbn in I; intuition discriminate|assumption]]]|]); apply Forall_nil.
    + right. exists (MkD "xs" 3 PARAM_REAL_ARRAY 3 0). eexists. split; [do 3 right; now left|]. split; [reflexivity|]. split; [reflexivity|]. split; [|reflexivity].
      eexists. split; [|reflexivity]. repeat constructor.
  - split.
    + split; [cbn; lia|]. do 4 (split; [assumption|]). split; [exact C0|]. split; [split; [discriminate|reflexivity]|]. split; [cbn; lia|].
      split; [apply V; [split; reflexivity|reflexivity]|]. split; [cbn; lia|discriminate].
    + left. split; [|reflexivity]. intros I. vm_compute in I. repeat (destruct I as [I|I]; [discriminate I|]). exact I.
  - split.
    + split; [cbn; lia|]. do 4 (split; [assumption|]). split; [apply (CC " number"%string); now apply ex_no_LF|]. split; [split; [discriminate|reflexivity]|]. split; [cbn; lia|].
      split; [apply V; [split; reflexivity|reflexivity]|]. split; [cbn; lia|discriminate].
    + right. exists (MkD "n" 1 PARAM_INT 0 0). eexists. split; [right; now left|]. split; [reflexivity|]. split; [reflexivity|]. split; [|reflexivity].
      exists 12%Z. split; [reflexivity|]. split; [unfold int32; lia|reflexivity].
Qed.
Lemma ex_args_ok : paired ex_steers ex_args (combine [SReal "tol"; SChars "bc" 50] ex_args) /\ args_ok string ex_strtod (combine [SReal "tol"; SChars "bc" 50] ex_args) [("tol"%string, CReal _ "1e-3"%string); ("bc"%string, CChars _ (str_to_list "outflow"))].
Proof.
  split; [repeat constructor|]. split; [|repeat constructor; cbn; intuition discriminate]. constructor; [|constructor; [|constructor]].
  - split; [reflexivity|]. eexists. split; reflexivity.
  - split; [reflexivity|]. exists (str_to_list "outflow"). split; [right; split; [reflexivity|discriminate]|]. repeat split; cbn; lia.
Qed.
Example ex_C84_reads : command (List.length ex_steers) None (fun f => if list_eq_dec ascii_dec f (str_to_list "a.par") then Some (text_of ex_ls) else None)
    (str_to_list "prog" :: str_to_list "a.par" :: ex_args) (text_of ex_ls) ex_args /\
  lines_ok string ex_strtod ex_table ex_ls ex_es /\ NoDup (keys_set string ex_es) /\
  exists s', parser string ex_strtod ex_table ex_steers None (fun f => if list_eq_dec ascii_dec f (str_to_list "a.par") then Some (text_of ex_ls) else None)
      (str_to_list "prog" :: str_to_list "a.par" :: ex_args) ex_s = Ran (PVal s') /\
    s' "xs"%string = CReals _ ["1.0"%string; "2"%string; "-3e4"%string] /\ s' "n"%string = CInt _ 12 /\ s' "tol"%string = CReal _ "1e-3"%string /\
    s' "bc"%string = CChars _ (str_to_list "outflow").
Proof.
  split; [apply cmd_both; [cbn; lia|reflexivity|reflexivity]|]. split; [exact ex_lines_ok|]. split; [repeat constructor; cbn; intuition discriminate|].
  eexists. split; [vm_compute; reflexivity|]. repeat split.
Qed.
Example ex_C84_duplicate : ~ NoDup (keys_set string (ex_es ++ ex_es)) /\
  parser string ex_strtod ex_table [] (Some (text_of (ex_ls ++ ex_ls))) (fun _ => None) [[]] ex_s = Ran PExit.
Proof.
  split; [|vm_compute; reflexivity]. intros N. cbn in N. inversion N as [|? ? N1 _]; subst. apply N1. cbn. tauto.
Qed.

(** ** Where it fails *)
(** The arguments on the command line are not used when the file is empty, or when all its parameters are unknown. *)
Theorem C84_override_refuted : exists text1 text2,
  lines_ok string ex_strtod ex_table [] [] /\ text1 = text_of [] /\
  (exists l, lines_ok string ex_strtod ex_table [l] [Ignored _] /\ text2 = text_of [l]) /\
  forall text, text = text1 \/ text = text2 -> command 2 (Some text) (fun _ => None) ([] :: ex_args) text ex_args /\
    exists s', parser string ex_strtod ex_table ex_steers (Some text) (fun _ => None) ([] :: ex_args) ex_s = Ran (PVal s') /\ s' "tol"%string = ex_s "tol"%string /\
      s' "tol"%string <> CReal _ "1e-3"%string.
Proof.
  exists [], (render (Scalar [" "%char] "wrong" [" "%char] [] (str_to_list "3") [] [])). split; [constructor|]. split; [reflexivity|]. split.
  - exists (Scalar [" "%char] "wrong" [" "%char] [] (str_to_list "3") [] []). split; [|unfold text_of; cbn [map concat]; now rewrite app_nil_r].
    constructor; [|constructor]. pose proof ex_lines_ok as F. inversion F as [|? ? ? ? _ F1]; subst. inversion F1 as [|? ? ? ? _ F2]; subst. inversion F2 as [|? ? ? ? X _]; subst. exact X.
  - intros text [->| ->]; (split; [apply cmd_steer; [lia|reflexivity|discriminate|reflexivity]|eexists; split; [vm_compute; reflexivity|split; [reflexivity|discriminate]]]).
Qed.
(** A bool parameter is written to the default file and ignored when it is read; as a steerable parameter, the C function that reads it is missing. *)
Definition ex_bool : cparams_dict := ex_d ++ [("flag"%string, ex_cp "bool" (VBool true) "")].
Theorem C84_bool_refuted : exists text table s', generate_default_parfile ex_vstr ex_vfloat ex_vint "proj" ex_bool = Ok text /\ param_table ex_bool = Ok table /\
  In "flag = True                   # (bool)"%string (py_split NL text) /\
  parser string ex_strtod table [] (Some (str_to_list text)) (fun _ => None) [[]] ex_s = Ran (PVal s') /\ s' "flag"%string = ex_s "flag"%string /\
  steer_stmt ex_bool "flag" = Ok (Some (SBool "flag")) /\ compiles table [Some (SBool "flag")] = false.
Proof.
  eexists _, _, _. split; [vm_compute; reflexivity|]. split; [vm_compute; reflexivity|]. split; [vm_compute; tauto|]. split; [vm_compute; reflexivity|].
  repeat split; reflexivity.
Qed.
(** No steerable bool ever compiles. *)
Theorem C84_bool_steer : forall table steers key, In (Some (SBool key)) steers -> compiles table steers = false.
Proof.
  intros table steers key I. unfold compiles. destruct (negb _); [|reflexivity]. cbn [andb]. apply not_true_is_false. intros H. rewrite forallb_forall in H.
  specialize (H _ I). discriminate.
Qed.
(** The default file of a long array, and of a text with an equals sign, stops the program or is not read back. *)
Theorem C84_default_refuted :
  (exists text table, generate_default_parfile ex_vstr ex_vfloat ex_vint "proj" [("xs"%string, ex_cp "REAL[30]" (VFloat (QArith_base.Qmake 0 1)) "")] = Ok text /\
     param_table [("xs"%string, ex_cp "REAL[30]" (VFloat (QArith_base.Qmake 0 1)) "")] = Ok table /\
     parser string ex_strtod table [] (Some (str_to_list text)) (fun _ => None) [[]] ex_s = Ran PExit) /\
  (exists text table s', generate_default_parfile ex_vstr ex_vfloat ex_vint "proj" [("f"%string, ex_cp "char[50]" (VStr "a=b") "")] = Ok text /\
     param_table [("f"%string, ex_cp "char[50]" (VStr "a=b") "")] = Ok table /\
     parser string ex_strtod table [] (Some (str_to_list text)) (fun _ => None) [[]] ex_s = Ran (PVal s') /\ s' "f"%string <> CChars _ (str_to_list "a=b")).
Proof.
  split.
  - eexists _, _. split; [vm_compute; reflexivity|]. split; [vm_compute; reflexivity|]. vm_compute. reflexivity.
  - eexists _, _, _. split; [vm_compute; reflexivity|]. split; [vm_compute; reflexivity|]. split; [vm_compute; reflexivity|]. vm_compute. discriminate.
Qed.
(** The size in brackets is copied to 16 characters without a check; a quoted argument of the command line is copied to 128. *)
Theorem C84_overflow_refuted :
  line_step string ex_strtod ex_table [] (ex_s, []) (str_to_list "xs[0000000000000003] = {1,2,3}") = POver /\
  (forall n buf, (128 <= n < buf)%nat -> steer_one string ex_strtod (SChars "bc" (Z.of_nat buf)) (DQ_char :: repeat "a"%char n ++ [DQ_char]) ex_s = POver).
Proof.
  split; [vm_compute; reflexivity|]. intros n buf H. cbn [steer_one]. rewrite Nat2Z.id. unfold read_chararray.
  assert (L : last (DQ_char :: repeat "a"%char n ++ [DQ_char]) DQ_char = DQ_char) by (rewrite app_comm_cons; apply last_last).
  rewrite L, Ascii.eqb_refl. cbn [andb List.length]. rewrite app_length, repeat_length. cbn [List.length]. replace (S (n + 1) =? 1)%nat with false by (symmetry; apply Nat.eqb_neq; lia).
  cbn [orb]. replace (S (n + 1) - 2)%nat with n by lia. destruct (Nat.leb_spec buf n); [lia|]. unfold PARAM_SIZE. destruct (Nat.leb_spec 128 n); [reflexivity|lia].
Qed.
Example ex_C84_overflow : line_step string ex_strtod ex_table [] (ex_s, []) (str_to_list "xs[0000000000000003] = {1,2,3}") = POver /\
  exists size, infix ("["%char :: size ++ ["]"%char]) (str_to_list "xs[0000000000000003] = {1,2,3}") /\ (16 <= List.length size)%nat.
Proof.
  split; [vm_compute; reflexivity|]. apply (C84_overflow string ex_strtod ex_table (ex_s, [])). vm_compute. reflexivity.
Qed.
(** ** The statements for the arguments *)
Definition steer_is (k : string) (p : ptype) (b : nat) : option steer :=
  match p with PARAM_REAL => Some (SReal k) | PARAM_INT => Some (SInt k) | PARAM_CHARARRAY => Some (SChars k (Z.of_nat b)) | _ => None end.
Theorem C84_steer : forall d k, NoDup (dkeys d) ->
  (~ In k (dkeys d) -> steer_stmt d k = Err KeyError) /\
  (forall c, In (k, c) d -> cp_parfile c && cp_commondata c = false -> steer_stmt d k = Ok None) /\
  (forall c p a b, In (k, c) d -> cp_parfile c = true -> cp_commondata c = true -> type_is (cp_type c) p a b -> steer_stmt d k = Ok (steer_is k p b)).
Proof.
  intros d k N. split; [|split].
  - intros H. apply dget_None_keys in H. unfold steer_stmt. now rewrite H.
  - intros c I F. apply In_dget in I; [|exact N]. unfold steer_stmt, in_parfile. now rewrite I, F.
  - intros c p a b I F C T. apply In_dget in I; [|exact N]. unfold steer_stmt, in_parfile. rewrite I, F, C. cbn [andb]. revert T. generalize (cp_type c). intros t [| |n|n|n]; [reflexivity|reflexivity| | |];
      rewrite sized_strip by (intros x X; repeat (destruct X as [<-|X]; [reflexivity|]); destruct X).
    + replace (py_in "char" (sized "char" n)) with true by (symmetry; apply py_in_spec; exists ""%string; eexists; reflexivity).
      replace (py_in "[" (sized "char" n)) with true by (symmetry; apply py_in_spec; exists "char"%string; eexists; reflexivity). cbv iota.
      rewrite sized_size; [reflexivity|]. split; intros X; repeat (destruct X as [X|X]; [discriminate|]); destruct X.
    + replace (py_in "char" (sized "REAL" n)) with false by (symmetry; apply (FDReadMem.py_in_no_char "c" "char"); [cbn; tauto|apply sized_no; try discriminate; [|reflexivity]; intros X; repeat (destruct X as [X|X]; [discriminate|]); destruct X]).
      replace (py_in "bool" (sized "REAL" n)) with false by (symmetry; apply (FDReadMem.py_in_no_char "b" "bool"); [cbn; tauto|apply sized_no; try discriminate; [|reflexivity]; intros X; repeat (destruct X as [X|X]; [discriminate|]); destruct X]).
      change (String.eqb (sized "REAL" n) "int") with false. change (String.eqb (sized "REAL" n) "REAL") with false. reflexivity.
    + replace (py_in "char" (sized "int" n)) with false by (symmetry; apply (FDReadMem.py_in_no_char "c" "char"); [cbn; tauto|apply sized_no; try discriminate; [|reflexivity]; intros X; repeat (destruct X as [X|X]; [discriminate|]); destruct X]).
      replace (py_in "bool" (sized "int" n)) with false by (symmetry; apply (FDReadMem.py_in_no_char "b" "bool"); [cbn; tauto|apply sized_no; try discriminate; [|reflexivity]; intros X; repeat (destruct X as [X|X]; [discriminate|]); destruct X]).
      change (String.eqb (sized "int" n) "int") with false. change (String.eqb (sized "int" n) "REAL") with false. reflexivity.
Qed.
(** The reading functions that the statements call are generated: the C function compiles, if no steerable parameter is a bool. *)
Theorem C84_compiles : forall d ds keys steers, NoDup (dkeys d) -> param_table d = Ok ds -> ds <> [] ->
  Forall2 (fun k o => steer_stmt d k = Ok o) keys steers ->
  (forall k c, In k keys -> In (k, c) d -> cp_parfile c = true -> cp_commondata c = true -> exists p a b, type_is (cp_type c) p a b) ->
  compiles ds steers = true.
Proof.
  intros d ds keys steers N H E F T. unfold compiles. destruct ds as [|x ds0] eqn:D; [now destruct E|]. rewrite <- D in *. clear E.
  replace (List.length ds =? 0)%nat with false by (subst ds; reflexivity). cbn [negb andb]. apply forallb_forall. intros o I.
  destruct (C84_table d ds N H) as (_ & _ & _ & TB & _).
  assert (X : exists k, In k keys /\ steer_stmt d k = Ok o).
  { clear - F I. induction F as [|k o' keys steers P F IH]; [destruct I|]. destruct I as [->|I]; [exists k; split; [now left|exact P]|].
    destruct (IH I) as (k' & K1 & K2). exists k'. split; [now right|exact K2]. }
  destruct X as (k & K & S). destruct o as [t|]; [|reflexivity].
  destruct (C84_steer d k N) as (S1 & S2 & S3). destruct (dget k d) as [c|] eqn:G; [|apply dget_None_keys in G; rewrite (S1 G) in S; discriminate].
  apply dget_In in G. destruct (cp_parfile c && cp_commondata c)%bool eqn:PC; [|rewrite (S2 c G PC) in S; discriminate]. apply andb_prop in PC as [P1 P2].
  destruct (T k c K G P1 P2) as (p & a & b & TY). rewrite (S3 c p a b G P1 P2 TY) in S. destruct (TB k c p a b G P1 P2 TY) as (j & J).
  injection S as S. destruct p; cbn in S; try discriminate; injection S as <-; cbn [is_defined]; apply existsb_exists; eexists; (split; [exact J|reflexivity]).
Qed.
Example ex_C84_compiles : Forall2 (fun k o => steer_stmt ex_d k = Ok o) ["tol"; "bc"]%string ex_steers /\ compiles ex_table ex_steers = true /\
  param_table ex_d = Ok ex_table.
Proof. split; [repeat constructor|]. split; reflexivity. Qed.
(** The argument for an array is counted and dropped. *)
Theorem C84_array_argument_refuted : exists c, In ("xs"%string, c) ex_d /\ steer_stmt ex_d "xs" = Ok None /\
  exists s1, s1 "xs"%string = CReals _ ["1.0"%string; "2"%string; "-3e4"%string] /\
    forall a, a <> str_to_list "-h" -> a <> str_to_list "--help" ->
      parser string ex_strtod ex_table [None] (Some (text_of ex_ls)) (fun _ => None) [[]; a] ex_s = Ran (PVal s1).
Proof.
  eexists. split; [|split; [reflexivity|]].
  - cbn. right. left. reflexivity.
  - assert (R : exists st, run_lines string ex_strtod ex_table [] (ex_s, []) (file_lines (text_of ex_ls)) = PVal st /\
      fst st "xs"%string = CReals _ ["1.0"%string; "2"%string; "-3e4"%string]) by (eexists; split; [vm_compute; reflexivity|reflexivity]).
    destruct R as (st & R & X). exists (fst st). split; [exact X|]. intros a A1 A2. unfold parser.
    assert (HL : is_help (nth 1 [[]; a] []) = false)
      by (unfold is_help; cbn [nth]; destruct (list_eq_dec _ _ _); [easy|]; destruct (list_eq_dec _ _ _); [easy|reflexivity]).
    unfold usage_option, overrides. cbn [List.length Nat.eqb andb Nat.add orb combine flat_map skipn Nat.sub fst app].
    match goal with |- context [is_help ?x] => replace (is_help x) with false by (symmetry; exact HL) end.
    cbn [Nat.eqb orb]. now rewrite R.
Qed.
(** ** The command line *)
Theorem C84_usage : forall (REAL : Type) strtod table steers par read argv s,
  let n := List.length steers in
  (parser REAL strtod table steers par read argv s = Help <-> exists prog a, argv = [prog; a] /\ (a = str_to_list "-h" \/ a = str_to_list "--help")) /\
  (argv <> [] -> List.length argv <> 1%nat -> List.length argv <> 2%nat -> List.length argv <> (1 + n)%nat -> List.length argv <> (2 + n)%nat ->
     parser REAL strtod table steers par read argv s = Ran PExit) /\
  (List.length argv = (2 + n)%nat -> read (nth 1 argv []) = None -> (0 < n)%nat -> parser REAL strtod table steers par read argv s = Ran PExit) /\
  (List.length argv = 1%nat -> par = None -> parser REAL strtod table steers par read argv s = Ran PExit).
Proof.
  intros REAL strtod table steers par read argv s n. assert (HH : forall a, is_help a = true <-> a = str_to_list "-h" \/ a = str_to_list "--help").
  { intros a. unfold is_help. destruct (list_eq_dec ascii_dec a (str_to_list "-h")), (list_eq_dec ascii_dec a (str_to_list "--help")); cbn; split; intuition congruence. }
  split; [|split; [|split]].
  - split.
    + unfold parser. intros P. destruct (usage_option _ _ _ _) eqn:U in P; [|discriminate|exfalso; destruct (if (_ || _)%bool then _ else _) in P; discriminate].
      unfold usage_option in U. destruct (Nat.eqb_spec (List.length argv) 2) as [L|L].
      * destruct argv as [|p [|a [|b argv]]]; try discriminate L. cbn [nth andb] in U. exists p, a. split; [reflexivity|]. apply HH.
        destruct (is_help a); [reflexivity|]. exfalso. cbn [List.length] in U.
        repeat match type of U with (if ?b then _ else _) = _ => destruct b; try discriminate end.
      * exfalso. cbn [andb] in U. repeat match type of U with (if ?b then _ else _) = _ => destruct b; try discriminate end.
    + intros (p & a & -> & A). apply HH in A. unfold parser, usage_option. cbn [List.length nth Nat.eqb]. now rewrite A.
  - intros _ N1 N2 N3 N4. unfold parser, usage_option. fold n. apply Nat.eqb_neq in N1, N2, N3, N4. now rewrite N2, N1, N3, N4.
  - intros L R P. unfold parser, usage_option. fold n. rewrite L, R. replace (2 + n =? 2)%nat with false by (symmetry; apply Nat.eqb_neq; lia). cbn [andb].
    replace (2 + n =? 1)%nat with false by (symmetry; apply Nat.eqb_neq; lia). replace (2 + n =? 1 + n)%nat with false by (symmetry; apply Nat.eqb_neq; lia). now rewrite Nat.eqb_refl.
  - intros L ->. unfold parser, usage_option. now rewrite L.
Qed.
Example ex_C84_usage : parser string ex_strtod ex_table ex_steers None (fun _ => None) [[]; str_to_list "-h"] ex_s = Help /\
  parser string ex_strtod ex_table ex_steers (Some []) (fun _ => Some []) [[]; []; []; []; []] ex_s = Ran PExit.
Proof. split; reflexivity. Qed.
Print Assumptions C84_characters.
Print Assumptions C84_table.
Print Assumptions C84_reads.
Print Assumptions C84_duplicate.
Print Assumptions C84_default.
Print Assumptions C84_integer.
Print Assumptions C84_integer_range_refuted.
Print Assumptions C84_overflow.
Print Assumptions C84_overflow_refuted.
Print Assumptions C84_override_refuted.
Print Assumptions C84_bool_refuted.
Print Assumptions C84_bool_steer.
Print Assumptions C84_default_refuted.
Print Assumptions C84_usage.
Print Assumptions C84_steer.
Print Assumptions C84_compiles.
Print Assumptions C84_array_argument_refuted.
