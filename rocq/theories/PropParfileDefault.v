(** C84, continued: the table of parameters, and reading back the generated default parameter file. *)
From Coq Require Import String Ascii List ZArith Bool Arith Lia Permutation.
From Verif Require Import PyBase PyBaseFacts PyList PyListFacts Params Registry Parfile ParfileFacts PropParfile.
From Verif Require CacheFS CFunctionFacts FDReadMem PropCodeParams.
Import ListNotations.
Open Scope list_scope.

(** ** The table *)
Lemma sorted_perm : forall A (leb : A -> A -> bool) l, Permutation l (py_sorted leb l).
Proof.
  intros A leb l. unfold py_sorted. assert (G : forall l acc, Permutation (acc ++ l) (fold_left (fun acc x => insert_leb leb x acc) l acc)).
  { clear. induction l as [|x r IH]; intros acc; cbn [fold_left]; [now rewrite app_nil_r|].
    rewrite <- IH. transitivity ((x :: acc) ++ r); [symmetry; apply Permutation_middle|]. apply Permutation_app_tail. apply insert_leb_perm. }
  apply (G l []).
Qed.
Lemma strip_id : forall s, (forall x, In x (str_to_list s) -> CacheFS.is_ws x = false) -> CacheFS.py_strip s = s.
Proof.
  intros s H. unfold CacheFS.py_strip. assert (L : CacheFS.lstrip s = s).
  { destruct s as [|a s]; [reflexivity|]. cbn [CacheFS.lstrip]. now rewrite (H a (or_introl eq_refl)). }
  rewrite L. clear L. induction s as [|a s IH]; [reflexivity|]. cbn [CacheFS.rstrip CacheFS.all_ws]. rewrite (H a (or_introl eq_refl)). cbn [andb].
  rewrite IH; [reflexivity|]. intros x I. apply H. now right.
Qed.
Lemma py_int_nat : forall n, py_int (str_of_nat n) = Ok (Z.of_nat n).
Proof.
  intros n. destruct (digits_str n) as [D1 D2].
  assert (G : forall s acc, forallb is_digit (str_to_list s) = true -> digits_val acc s = Some (fst (digits acc (str_to_list s)))).
  { clear. induction s as [|c s IH]; intros acc A; [reflexivity|]. cbn in A. apply andb_prop in A as [A1 A2]. cbn [digits_val str_to_list digits]. rewrite A1. now apply IH. }
  specialize (G _ 0%Z D2). rewrite D1 in G. cbn [fst] in G. pose proof (str_of_nat_nonempty n). unfold py_int. destruct (str_of_nat n); [easy|]. now rewrite G.
Qed.
(** The supported types: REAL, int, REAL[n], int[n], char[n] *)
Definition sized (base : string) (n : nat) : string := (base ++ "[" ++ str_of_nat n ++ "]")%string.
Inductive type_is : string -> ptype -> nat -> nat -> Prop :=
| T_REAL : type_is "REAL" PARAM_REAL 0 0
| T_int : type_is "int" PARAM_INT 0 0
| T_char : forall n, type_is (sized "char" n) PARAM_CHARARRAY 0 n
| T_REALs : forall n, type_is (sized "REAL" n) PARAM_REAL_ARRAY n 0
| T_ints : forall n, type_is (sized "int" n) PARAM_INT_ARRAY n 0.
Lemma no_bracket_nat : forall n, PropCodeParams.no_bracket (str_of_nat n).
Proof. intros n. split; intros I; apply (str_of_nat_digits n) in I; discriminate. Qed.
Lemma sized_size : forall base n, PropCodeParams.no_bracket base -> bracket_size (sized base n) = Ok (Z.of_nat n).
Proof.
  intros base n B. unfold bracket_size. change (sized base n) with (PropCodeParams.sized base (str_of_nat n)).
  rewrite PropCodeParams.after_bracket_sized by (try exact B; apply no_bracket_nat). rewrite (proj1 (PropCodeParams.size_split _ (no_bracket_nat n))). apply py_int_nat.
Qed.
Lemma sized_in : forall base n c, In c (str_to_list (sized base n)) -> In c (str_to_list base) \/ c = "["%char \/ c = "]"%char \/ is_digit c = true.
Proof.
  intros base n c. unfold sized. rewrite !str_to_list_app, !in_app_iff. intros [I|[[<-|[]]|[I|[<-|[]]]]]; auto. right. right. right. now apply (str_of_nat_digits n).
Qed.
Lemma digit_ws : forall c, is_digit c = true -> CacheFS.is_ws c = false.
Proof.
  intros c H. unfold is_digit in H. apply andb_prop in H as [H1 H2]. apply Nat.leb_le in H1, H2. unfold CacheFS.is_ws. cbv zeta.
  destruct (Nat.leb_spec 9 (nat_of_ascii c)), (Nat.leb_spec (nat_of_ascii c) 13), (Nat.leb_spec 28 (nat_of_ascii c)), (Nat.leb_spec (nat_of_ascii c) 32); try reflexivity; lia.
Qed.
Lemma sized_strip : forall base n, (forall x, In x (str_to_list base) -> CacheFS.is_ws x = false) -> CacheFS.py_strip (sized base n) = sized base n.
Proof. intros base n B. apply strip_id. intros x I. apply sized_in in I as [I|[->|[->|I]]]; [now apply B|reflexivity|reflexivity|now apply digit_ws]. Qed.
Lemma sized_no : forall c base n, ~ In c (str_to_list base) -> c <> "["%char -> c <> "]"%char -> is_digit c = false -> no_char c (sized base n).
Proof. intros c base n B N1 N2 N3 I. apply sized_in in I as [I|[->|[->|I]]]; try easy. congruence. Qed.
Lemma table_type_is : forall t p a b, type_is t p a b -> table_type t = Ok (Some (p, Z.of_nat a, Z.of_nat b)).
Proof.
  intros t p a b [| |n|n|n]; [reflexivity|reflexivity| | |].
  - unfold table_type. rewrite sized_strip by (intros x I; repeat (destruct I as [<-|I]; [reflexivity|]); destruct I).
    rewrite (FDReadMem.py_in_no_char "i" "int["), (FDReadMem.py_in_no_char "i" "int ["), (FDReadMem.py_in_no_char "R" "REAL["), (FDReadMem.py_in_no_char "R" "REAL [");
      try (cbn; tauto); try (apply sized_no; try discriminate; [|reflexivity]; intros I; repeat (destruct I as [I|I]; [discriminate|]); destruct I).
    cbn [orb]. change (String.eqb (sized "char" n) "int") with false. change (String.eqb (sized "char" n) "REAL") with false. cbv iota.
    replace (py_in "char" (sized "char" n) && py_in "[" (sized "char" n) && py_in "]" (sized "char" n)) with true.
    2: { symmetry. rewrite !andb_true_iff. split; [split|]; apply py_in_spec.
         - exists ""%string. eexists. reflexivity.
         - exists "char"%string. eexists. reflexivity.
         - exists ("char[" ++ str_of_nat n)%string, ""%string. unfold sized. now rewrite !sapp_assoc. }
    rewrite sized_size; [reflexivity|]. split; intros I; repeat (destruct I as [I|I]; [discriminate|]); destruct I.
  - unfold table_type. rewrite sized_strip by (intros x I; repeat (destruct I as [<-|I]; [reflexivity|]); destruct I).
    rewrite (FDReadMem.py_in_no_char "i" "int["), (FDReadMem.py_in_no_char "i" "int [");
      try (cbn; tauto); try (apply sized_no; try discriminate; [|reflexivity]; intros I; repeat (destruct I as [I|I]; [discriminate|]); destruct I).
    replace (py_in "REAL[" (sized "REAL" n)) with true by (symmetry; apply py_in_spec; exists ""%string; eexists; reflexivity). cbn [orb].
    rewrite sized_size; [reflexivity|]. split; intros I; repeat (destruct I as [I|I]; [discriminate|]); destruct I.
  - unfold table_type. rewrite sized_strip by (intros x I; repeat (destruct I as [<-|I]; [reflexivity|]); destruct I).
    replace (py_in "int[" (sized "int" n)) with true by (symmetry; apply py_in_spec; exists ""%string; eexists; reflexivity). cbn [orb].
    rewrite sized_size; [reflexivity|]. split; intros I; repeat (destruct I as [I|I]; [discriminate|]); destruct I.
Qed.
Lemma table_from_spec : forall l i ds, table_from l i = Ok ds ->
  map d_index ds = seq i (List.length ds) /\
  (forall d, In d ds -> exists c, In (d_name d, c) l /\ in_parfile c = true /\ table_type (cp_type c) = Ok (Some (d_type d, d_array d, d_buf d))) /\
  (forall k c p a b, In (k, c) l -> in_parfile c = true -> table_type (cp_type c) = Ok (Some (p, a, b)) -> exists j, In (MkD k j p a b) ds) /\
  (NoDup (map fst l) -> NoDup (map d_name ds)) /\
  (List.length ds <= List.length (filter (fun kv => in_parfile (snd kv)) l))%nat.
Proof.
  induction l as [|[k c] l IH]; intros i ds; cbn [table_from].
  - intros [= <-]. cbn. repeat split; try easy.
  - destruct (in_parfile c) eqn:P.
    + destruct (table_type (cp_type c)) as [o|] eqn:T; [|discriminate]. cbn [py_bind]. destruct o as [[[p a] b]|].
      * destruct (table_from l (S i)) as [ds'|] eqn:E; [|discriminate]. cbn [py_bind]. intros [= <-]. destruct (IH _ _ E) as (A1 & A2 & A3 & A4 & A5).
        cbn [map d_index List.length seq filter snd]. rewrite P. cbn [List.length]. split; [now rewrite A1|]. split; [|split; [|split; [|lia]]].
        -- intros d [<-|I]; [exists c; cbn; repeat split; auto|]. destruct (A2 d I) as (c' & C1 & C2). exists c'. split; [now right|exact C2].
        -- intros k' c' p' a' b' [[= <- <-]|I] P' T'; [rewrite T in T'; injection T' as <- <- <-; exists i; now left|].
           destruct (A3 k' c' p' a' b' I P' T') as (j & J). exists j. now right.
        -- cbn [map fst d_name]. intros N. inversion N as [|? ? N1 N2]; subst. constructor; [|now apply A4]. intros I. apply in_map_iff in I as (d & D1 & D2).
           destruct (A2 d D2) as (c' & C1 & _). apply N1. rewrite <- D1. apply (in_map fst) in C1. exact C1.
      * intros E. destruct (IH _ _ E) as (A1 & A2 & A3 & A4 & A5). cbn [map filter snd fst]. rewrite P. cbn [List.length]. split; [exact A1|]. split; [|split; [|split; [|lia]]].
        -- intros d I. destruct (A2 d I) as (c' & C1 & C2). exists c'. split; [now right|exact C2].
        -- intros k' c' p' a' b' [[= <- <-]|I] P' T'; [congruence|]. now apply (A3 k' c').
        -- intros N. inversion N. now apply A4.
    + intros E. destruct (IH _ _ E) as (A1 & A2 & A3 & A4 & A5). cbn [map filter snd fst]. rewrite P. split; [exact A1|]. split; [|split; [|split; [|lia]]].
      * intros d I. destruct (A2 d I) as (c' & C1 & C2). exists c'. split; [now right|exact C2].
      * intros k' c' p' a' b' [[= <- <-]|I] P' T'; [congruence|]. now apply (A3 k' c').
      * intros N. inversion N. now apply A4.
Qed.
(** The table: one descriptor for each parameter of a supported type that is in commondata and in the parameter file, with that type and size; the names and the
    indices are distinct, and the indices are within params_set. *)
Theorem C84_table : forall d ds, NoDup (dkeys d) -> param_table d = Ok ds ->
  NoDup (map d_name ds) /\ NoDup (map d_index ds) /\ (forall x, In x ds -> (d_index x < NUM_PARAMETERS d)%nat) /\
  (forall k c p a b, In (k, c) d -> cp_parfile c = true -> cp_commondata c = true -> type_is (cp_type c) p a b ->
     exists j, In (MkD k j p (Z.of_nat a) (Z.of_nat b)) ds) /\
  (forall x, In x ds -> exists c, In (d_name x, c) d /\ cp_parfile c = true /\ cp_commondata c = true /\
     forall p a b, type_is (cp_type c) p a b -> d_type x = p /\ d_array x = Z.of_nat a /\ d_buf x = Z.of_nat b).
Proof.
  intros d ds N H. unfold param_table in H. pose proof (sorted_perm _ (fun a b : string * code_param => String.leb (fst a) (fst b)) d) as P.
  destruct (table_from_spec _ _ _ H) as (A1 & A2 & A3 & A4 & A5). split; [|split; [|split; [|split]]].
  - apply A4. eapply Permutation_NoDup; [apply Permutation_map; exact P|exact N].
  - rewrite A1. apply seq_NoDup.
  - intros x I. apply (in_map d_index) in I. rewrite A1 in I. apply in_seq in I. unfold NUM_PARAMETERS.
    assert (L : List.length (filter (fun kv : string * code_param => in_parfile (snd kv)) d) =
                List.length (filter (fun kv : string * code_param => in_parfile (snd kv)) (py_sorted (fun a b : string * code_param => String.leb (fst a) (fst b)) d))).
    { apply Permutation_length. clear - P. induction P as [|x l l' P IH|x y l|l l' l'' P1 IH1 P2 IH2]; cbn [filter].
      - constructor. - destruct (in_parfile (snd x)); [now constructor|exact IH].
      - destruct (in_parfile (snd x)), (in_parfile (snd y)); try reflexivity. constructor.
      - now transitivity (filter (fun kv : string * code_param => in_parfile (snd kv)) l'). }
    rewrite L. lia.
  - intros k c p a b I F C T. apply (A3 k c); [eapply Permutation_in; eauto|unfold in_parfile; now rewrite F, C|now apply table_type_is].
  - intros x I. destruct (A2 x I) as (c & C1 & C2 & C3). exists c. unfold in_parfile in C2. apply andb_prop in C2 as [C2 C4].
    split; [eapply Permutation_in; [symmetry; exact P|exact C1]|]. repeat split; try assumption; intros; apply table_type_is in H0; rewrite H0 in C3; now injection C3.
Qed.

(** ** The default parameter file *)
Notation S2L := str_to_list.
Notation sp := (" "%char).
Section DefaultFile.
Variables (REAL : Type) (strtod : chars -> option REAL).
Variables (vstr : pyval -> string) (vfloat vint : pyval -> py string).
(** the text that stands for the default of a parameter, and the value it has *)
Definition default_is (c : code_param) (x : cval REAL) : Prop :=
  (cp_type c = "REAL"%string /\ exists r, value_text (S2L (vstr (cp_default c))) /\ (String.length (vstr (cp_default c)) < 128)%nat /\
     hd_error (S2L (vstr (cp_default c))) <> Some "{"%char /\ strtod (S2L (vstr (cp_default c))) = Some r /\ x = CReal REAL r) \/
  (cp_type c = "int"%string /\ exists z, vstr (cp_default c) = str_of_Z z /\ int32 z /\ x = CInt REAL z) \/
  (exists n t, cp_type c = sized "char" n /\ cp_default c = VStr t /\ (String.length t < n)%nat /\ (String.length t < 126)%nat /\
     (forall ch, In ch [DQ_char; "#"%char; "="%char; CacheFS.LF] -> ~ In ch (S2L t)) /\ x = CChars REAL (S2L t)) \/
  (exists n v r, cp_type c = sized "REAL" n /\ (0 < n <= 100)%nat /\ vfloat (cp_default c) = Ok v /\ value_text (S2L v) /\ ~ In ","%char (S2L v) /\
     (n * (String.length v + 2) + 3 < 128)%nat /\ strtod (S2L v) = Some r /\ x = CReals REAL (repeat r n)) \/
  (exists n z, cp_type c = sized "int" n /\ (0 < n <= 100)%nat /\ vint (cp_default c) = Ok (str_of_Z z) /\ int32 z /\
     (n * (String.length (str_of_Z z) + 2) + 3 < 128)%nat /\ x = CInts REAL (repeat z n)).
Definition name_ok (k : string) : Prop := ident k /\ (String.length k < 120)%nat.
Definition no_LF (s : string) : Prop := ~ In CacheFS.LF (S2L s).

Lemma S2L_len : forall s, List.length (S2L s) = String.length s. Proof. induction s; cbn; congruence. Qed.
Lemma list_app : forall a b, list_to_str (a ++ b) = (list_to_str a ++ list_to_str b)%string.
Proof. induction a as [|c a IH]; intros b; [reflexivity|]. cbn. now rewrite IH. Qed.
Lemma strip_in : forall s x, In x (S2L (CacheFS.py_strip s)) -> In x (S2L s).
Proof.
  assert (L : forall s x, In x (S2L (CacheFS.lstrip s)) -> In x (S2L s)).
  { induction s as [|c s IH]; intros x; [easy|]. cbn [CacheFS.lstrip]. destruct (CacheFS.is_ws c); [|easy]. intros I. right. now apply IH. }
  assert (Rr : forall s x, In x (S2L (CacheFS.rstrip s)) -> In x (S2L s)).
  { induction s as [|c s IH]; intros x; [easy|]. cbn [CacheFS.rstrip]. destruct (CacheFS.all_ws (String c s)); [easy|]. intros [<-|I]; [now left|]. right. now apply IH. }
  intros s x I. apply L, Rr, I.
Qed.
(** the two forms of the lines *)
Definition suffix (c : code_param) : string := let d := CacheFS.py_strip (cp_desc c) in if String.eqb d "" then ""%string else (" " ++ d)%string.
Lemma suffix_free : forall c, no_LF (cp_desc c) -> no_LF (suffix c).
Proof.
  intros c N I. unfold suffix in I. cbv zeta in I. destruct (String.eqb _ ""); [destruct I|]. cbn in I. destruct I as [I|I]; [discriminate|]. now apply strip_in in I.
Qed.
Lemma array_type : forall base n, ~ In "["%char (S2L base) -> ~ In "]"%char (S2L base) -> parse_array_type (sized base n) = Some (base, n).
Proof.
  intros base n B1 B2. unfold parse_array_type, sized. rewrite !str_to_list_app. change (S2L "[" ++ ?a) with ("["%char :: a). cbn [str_to_list app].
  rewrite upto_at by exact B1. rewrite upto_at by (intros I; apply (str_of_nat_digits n) in I; discriminate).
  destruct (digits_str n) as [D1 D2].
  replace (existsb (Ascii.eqb "]") (S2L base)) with false.
  2: { symmetry. destruct (existsb _ (S2L base)) eqn:X; [|reflexivity]. apply existsb_exists in X as (c & C1 & C2). apply Ascii.eqb_eq in C2. destruct B2. now rewrite C2. }
  rewrite !list_to_str_to_list. unfold isdigit. pose proof (str_of_nat_nonempty n) as N. destruct (str_of_nat n) as [|c s] eqn:E; [easy|].
  rewrite D2, D1. cbn [negb andb fst]. now rewrite Nat2Z.id.
Qed.
(** a body "A  # ..." with its spaces extended *)
Lemma adjust_entry : forall m a t c r, ~ In "#"%char a -> a = c :: r -> (isalnum c || Ascii.eqb c "_") = true ->
  S2L (adjust m (list_to_str (a ++ "#"%char :: t))) = a ++ repeat sp (m - List.length a) ++ "#"%char :: t.
Proof.
  intros m a t c r N E A. unfold adjust, to_align. rewrite str_to_list_to_str, upto_at by exact N.
  assert (W : CacheFS.is_ws c = false /\ c <> "#"%char).
  { apply orb_prop in A as [A|A]; [|apply Ascii.eqb_eq in A as ->; split; [reflexivity|discriminate]].
    assert (Q : (48 <= nat_of_ascii c <= 57 \/ 65 <= nat_of_ascii c <= 90 \/ 97 <= nat_of_ascii c <= 122)%nat).
    { unfold isalnum in A. rewrite !orb_true_iff, !andb_true_iff, !Nat.leb_le in A. lia. }
    split; [|intros ->; cbn in Q; lia]. unfold CacheFS.is_ws. cbv zeta.
    destruct (Nat.leb_spec 9 (nat_of_ascii c)), (Nat.leb_spec (nat_of_ascii c) 13), (Nat.leb_spec 28 (nat_of_ascii c)), (Nat.leb_spec (nat_of_ascii c) 32); try reflexivity; lia. }
  assert (P : prefix "#" (CacheFS.py_strip (list_to_str (a ++ "#"%char :: t))) = false).
  { rewrite E. cbn [app list_to_str]. unfold CacheFS.py_strip. cbn [CacheFS.lstrip]. rewrite (proj1 W). cbn [CacheFS.rstrip CacheFS.all_ws]. rewrite (proj1 W). cbn [andb prefix].
    destruct (ascii_dec "#" c) as [Q|]; [|reflexivity]. destruct W as [_ W]. now destruct W. }
  rewrite P. now rewrite str_to_list_to_str.
Qed.
Lemma adjust_hash : forall m t, adjust m (String "#" t) = String "#" t.
Proof.
  intros m t. unfold adjust, to_align. cbn [str_to_list upto]. rewrite Ascii.eqb_refl.
  replace (prefix "#" (CacheFS.py_strip (String "#" t))) with true; [reflexivity|]. unfold CacheFS.py_strip. cbn [CacheFS.lstrip]. change (CacheFS.is_ws "#") with false. cbv iota.
  cbn [CacheFS.rstrip CacheFS.all_ws]. change (CacheFS.is_ws "#") with false. cbn [andb prefix]. destruct (ascii_dec "#" "#"); [|easy]. destruct (CacheFS.rstrip t); reflexivity.
Qed.
Lemma blank_sp : forall n, blank (repeat sp n).
Proof. intros n. split; [intros c I|intros I]; apply repeat_spec in I; [now subst|discriminate]. Qed.
Lemma blank_app : forall a b, blank a -> blank b -> blank (a ++ b).
Proof. intros a b [A1 A2] [B1 B2]. split; [now apply all_space_app|]. rewrite in_app_iff. now intros []. Qed.
Definition has (table : list descr) (k : string) (c : code_param) : Prop :=
  forall p a b, type_is (cp_type c) p a b -> exists j, In (MkD k j p (Z.of_nat a) (Z.of_nat b)) table.
(** what is written for a parameter, what it becomes after aligning, and what it does *)
Definition written (table : list descr) (k : string) (c : code_param) (x : cval REAL) : Prop :=
  exists body, parfile_line vstr vfloat vint k c = Ok (list_to_str body ++ NL)%string /\ ~ In CacheFS.LF body /\
    forall m, exists l, S2L (adjust m (list_to_str body)) ++ [CacheFS.LF] = render l /\
      ((List.length (render l) <= 1023)%nat -> line_ok l) /\ effect_of REAL strtod table l (Sets REAL k x).
Lemma written_scalar : forall table k c x v ty d, name_ok k -> value_text (S2L v) -> (String.length v < 128)%nat -> hd_error (S2L v) <> Some "{"%char ->
  no_LF ty -> no_LF (cp_desc c) -> parfile_line vstr vfloat vint k c = Ok (k ++ " = " ++ v ++ "  # (" ++ ty ++ ")" ++ suffix c ++ NL)%string ->
  In d table -> d_name d = k -> d_array d = 0%Z -> text_value REAL strtod (d_type d) (d_buf d) (S2L v) x -> written table k c x.
Proof.
  intros table k c x v ty d [K1 K2] V L Hd T D E I1 I2 I3 I4.
  set (a := S2L k ++ [sp] ++ "="%char :: [sp] ++ S2L v ++ [sp; sp]). set (t := S2L (" (" ++ ty ++ ")" ++ suffix c)).
  pose proof (suffix_free c D) as SF.
  assert (T' : ~ In CacheFS.LF t).
  { unfold t. rewrite !str_to_list_app, !in_app_iff. intros [Q|[Q|[Q|Q]]]; try easy; cbn in Q; intuition discriminate. }
  assert (A : ~ In "#"%char a).
  { unfold a. rewrite in_app_iff. cbn [app In]. rewrite in_app_iff. intros [Q|[Q|[Q|[Q|[Q|[Q|[Q|[]]]]]]]]; try discriminate; [revert Q; now apply ident_free|now apply V in Q]. }
  exists (a ++ "#"%char :: t). split; [|split].
  - rewrite E. f_equal. unfold a, t. rewrite <- (list_to_str_to_list (k ++ _)). rewrite <- (list_to_str_to_list NL) at 2. rewrite <- list_app. f_equal.
    rewrite !str_to_list_app. repeat (rewrite <- ?app_assoc; cbn [str_to_list app]). reflexivity.
  - unfold a. clearbody t. intros Q. repeat (first [apply in_app_iff in Q as [Q|Q] | destruct Q as [Q|Q]]); try discriminate;
      first [exact Q|exact (T' Q)|now apply V in Q|revert Q; now apply ident_free].
  - intros m. exists (Scalar [] k [sp] [sp] (S2L v) ([sp; sp] ++ repeat sp (m - List.length a)) ("#"%char :: t)). split; [|split].
    + assert (X : exists c0 r, a = c0 :: r /\ (isalnum c0 || Ascii.eqb c0 "_") = true).
      { unfold a. destruct K1 as [N F]. destruct k as [|c0 k]; [easy|]. cbn [str_to_list app]. eexists _, _. split; [reflexivity|].
        cbn in F. now apply andb_prop in F as [F _]. }
      destruct X as (c0 & r & X1 & X2). rewrite (adjust_entry m a t c0 r A X1 X2). unfold a. cbn [render].
      repeat (rewrite <- ?app_assoc; cbn [app]). reflexivity.
    + intros LL. split; [exact LL|]. cbn [line_ok]. pose proof (blank_sp 1) as B1. pose proof (blank_sp 2) as B2. cbn [repeat] in B1, B2.
      repeat (split; [first [assumption|now apply blank_app, blank_sp|split; easy]|]).
      split; [split; [intros [Q|Q]; [discriminate|easy]|right; eauto]|]. split; [exact K1|]. split; [lia|]. split; [exact V|]. split; [now rewrite S2L_len|exact Hd].
    + cbn [effect_of]. right. exists d, x. auto.
Qed.
(** "{ v, v, v }" *)
Fixpoint parts (v : chars) (n : nat) : list (chars * chars * chars) :=
  match n with O => [] | S O => [([sp], v, [sp])] | S k => ([sp], v, []) :: parts v k end.
Lemma parts_spec : forall v n, (0 < n)%nat -> List.length (parts v n) = n /\ map mid (parts v n) = repeat v n /\
  (forall t, In t (parts v n) -> t = ([sp], v, [sp]) \/ t = ([sp], v, [])) /\
  commas (map part (parts v n)) = sp :: S2L (String.concat ", " (repeat (list_to_str v) n)) ++ [sp] /\
  List.length (commas (map part (parts v n))) = (n * (List.length v + 2) + 1 - 1)%nat.
Proof.
  intros v n H. destruct n as [|n]; [lia|]. clear H. induction n as [|n IH].
  - cbn. rewrite app_length. cbn. repeat split; [intros t [<-|[]]; now left|now rewrite str_to_list_to_str|lia].
  - destruct IH as (I1 & I2 & I3 & I4 & I5). change (parts v (S (S n))) with (([sp], v, []) :: parts v (S n)).
    cbn [List.length map]. rewrite I1, I2. cbn [mid repeat]. repeat split.
    + intros t [<-|I]; [now right|now apply I3].
    + destruct (parts v (S n)) as [|u us] eqn:E; [cbn in I1; lia|]. cbn [map] in *.
      change (commas (part ([sp], v, []) :: part u :: map part us)) with (part ([sp], v, []) ++ ","%char :: commas (part u :: map part us)).
      rewrite I4. cbn [part app]. rewrite app_nil_r.
      change (repeat (list_to_str v) (S (S n))) with (list_to_str v :: list_to_str v :: repeat (list_to_str v) n).
      change (String.concat ", " (list_to_str v :: list_to_str v :: repeat (list_to_str v) n)) with
        (list_to_str v ++ ", " ++ String.concat ", " (repeat (list_to_str v) (S n)))%string.
      rewrite !str_to_list_app, str_to_list_to_str. repeat (rewrite <- ?app_assoc; cbn [str_to_list app]). reflexivity.
    + destruct (parts v (S n)) as [|u us] eqn:E; [cbn in I1; lia|]. cbn [map] in *.
      change (commas (part ([sp], v, []) :: part u :: map part us)) with (part ([sp], v, []) ++ ","%char :: commas (part u :: map part us)).
      rewrite app_length. cbn [List.length part]. rewrite I5. cbn [app List.length]. rewrite app_nil_r. lia.
Qed.
Lemma written_array : forall table k c x v n ty d, name_ok k -> value_text (S2L v) -> ~ In ","%char (S2L v) -> (0 < n <= 100)%nat ->
  (n * (String.length v + 2) + 3 < 128)%nat ->
  no_LF ty -> no_LF (cp_desc c) ->
  parfile_line vstr vfloat vint k c =
    Ok (k ++ "[" ++ str_of_nat n ++ "] = { " ++ String.concat ", " (repeat v n) ++ " }  # (" ++ ty ++ ")" ++ suffix c ++ NL)%string ->
  In d table -> d_name d = k -> d_array d = Z.of_nat n -> texts_value REAL strtod (d_type d) (repeat (S2L v) n) x -> written table k c x.
Proof.
  intros table k c x v n ty d [K1 K2] V VC NN L T D E I1 I2 I3 I4.
  destruct (parts_spec (S2L v) n ltac:(lia)) as (P1 & P2 & P3 & P4 & P5). rewrite list_to_str_to_list in P4.
  set (p := S2L k ++ "["%char :: S2L (str_of_nat n) ++ ["]"%char]). set (w := "{"%char :: commas (map part (parts (S2L v) n)) ++ ["}"%char]).
  set (a := p ++ [sp] ++ "="%char :: [sp] ++ w ++ [sp; sp]). set (t := S2L (" (" ++ ty ++ ")" ++ suffix c)).
  pose proof (suffix_free c D) as SF.
  assert (T' : ~ In CacheFS.LF t).
  { unfold t. rewrite !str_to_list_app, !in_app_iff. intros [Q|[Q|[Q|Q]]]; try easy; cbn in Q; intuition discriminate. }
  assert (PF : forall ch, (isalnum ch || Ascii.eqb ch "_") = false -> ch <> "["%char -> ch <> "]"%char -> is_digit ch = false -> ~ In ch p).
  { intros ch C1 C2 C3 C4. unfold p. rewrite in_app_iff. cbn [In]. rewrite in_app_iff. intros [Q|[Q|[Q|[Q|[]]]]]; try congruence; [revert Q; now apply ident_free|].
    apply (str_of_nat_digits n) in Q. congruence. }
  assert (WF : forall ch, ch <> sp -> ch <> "{"%char -> ch <> "}"%char -> ch <> ","%char -> ~ In ch (S2L v) -> ~ In ch w).
  { intros ch C1 C2 C3 C4 C5. unfold w. cbn [In]. rewrite in_app_iff. intros [Q|[Q|[Q|[]]]]; try congruence. revert Q. apply commas_free; [exact C4|].
    intros u U. apply P3 in U as [->| ->]; cbn; rewrite in_app_iff; cbn; intuition congruence. }
  assert (A : ~ In "#"%char a).
  { unfold a. rewrite in_app_iff. cbn [app In]. rewrite in_app_iff. intros [Q|[Q|[Q|[Q|[Q|[Q|[Q|[]]]]]]]]; try discriminate; [revert Q; now apply PF|].
    revert Q. apply WF; try discriminate. apply V. }
  exists (a ++ "#"%char :: t). split; [|split].
  - rewrite E. f_equal. unfold a, t, p, w. rewrite P4. rewrite <- (list_to_str_to_list (k ++ _)). rewrite <- (list_to_str_to_list NL) at 2. rewrite <- list_app. f_equal.
    rewrite !str_to_list_app. repeat (rewrite <- ?app_assoc; cbn [str_to_list app]). reflexivity.
  - unfold a. clearbody p w t. intros Q. repeat (first [apply in_app_iff in Q as [Q|Q] | destruct Q as [Q|Q]]); try discriminate;
      first [exact Q|exact (T' Q)|revert Q; now apply PF|revert Q; apply WF; try discriminate; apply V].
  - intros m. exists (Array [] k [sp] [sp] (parts (S2L v) n) ([sp; sp] ++ repeat sp (m - List.length a)) ("#"%char :: t)). split; [|split].
    + assert (X : exists c0 r, a = c0 :: r /\ (isalnum c0 || Ascii.eqb c0 "_") = true).
      { unfold a, p. destruct K1 as [N F]. destruct k as [|c0 k]; [easy|]. cbn [str_to_list app]. eexists _, _. split; [reflexivity|].
        cbn in F. now apply andb_prop in F as [F _]. }
      destruct X as (c0 & r & X1 & X2). rewrite (adjust_entry m a t c0 r A X1 X2). unfold a, p, w. cbn [render]. rewrite P1.
      repeat (rewrite <- ?app_assoc; cbn [app]). reflexivity.
    + intros LL. split; [exact LL|]. cbn [line_ok]. rewrite P1, P5. pose proof (blank_sp 1) as B1. pose proof (blank_sp 2) as B2. cbn [repeat] in B1, B2.
      repeat (split; [first [assumption|now apply blank_app, blank_sp|split; easy]|]).
      split; [split; [intros [Q|Q]; [discriminate|easy]|right; eauto]|]. split; [exact K1|]. rewrite !S2L_len. split.
      { rewrite app_length. cbn [List.length]. rewrite app_length, !S2L_len. cbn [List.length].
        assert (SN : (String.length (str_of_nat n) <= 3)%nat) by (clear - NN; do 101 (destruct n as [|n]; [cbn; lia|]); lia). lia. }
      split; [exact NN|]. split; [lia|]. apply Forall_forall. intros u U.
      apply P3 in U as [->| ->]; (split; [assumption|]; split; [exact V|]; split; [exact VC|]); [assumption|split; easy].
    + cbn [effect_of]. right. exists d, x. rewrite P1, P2. auto.
Qed.
Lemma int_short : forall z, int32 z -> (String.length (str_of_Z z) <= 11)%nat.
Proof.
  assert (G : forall k f n, (Z.of_nat n < 10 ^ Z.of_nat k)%Z -> (0 < k)%nat -> (String.length (nat_digits f n) <= k)%nat).
  { induction k as [|k IH]; intros f n L P; [lia|]. destruct f as [|f]; [cbn; lia|]. cbn [nat_digits]. destruct (Nat.ltb_spec n 10) as [H|H]; [cbn; lia|].
    destruct k as [|k]; [change (10 ^ Z.of_nat 1)%Z with 10%Z in L; lia|].
    assert (Q : (Z.of_nat (n / 10) < 10 ^ Z.of_nat (S k))%Z).
    { rewrite Nat2Z.inj_div. apply Z.div_lt_upper_bound; [lia|]. rewrite (Nat2Z.inj_succ (S k)), Z.pow_succ_r in L by lia. exact L. }
    specialize (IH f (n / 10)%nat Q ltac:(lia)).
    assert (A : forall a b, String.length (a ++ b) = (String.length a + String.length b)%nat) by (clear; induction a; intros b; cbn; [reflexivity|now rewrite IHa]).
    rewrite A. cbn [String.length]. lia. }
  intros [|p|p] H; unfold int32 in H; cbn [str_of_Z].
  - cbn. lia.
  - unfold str_of_nat. specialize (G 10%nat (S (Pos.to_nat p)) (Pos.to_nat p)). change (10 ^ Z.of_nat 10)%Z with 10000000000%Z in G.
    change (2 ^ 31)%Z with 2147483648%Z in H. lia.
  - unfold str_of_nat. specialize (G 10%nat (S (Pos.to_nat p)) (Pos.to_nat p)). change (10 ^ Z.of_nat 10)%Z with 10000000000%Z in G.
    change (2 ^ 31)%Z with 2147483648%Z in H. cbn [append String.length]. lia.
Qed.
Lemma default_written : forall table k c x, name_ok k -> no_LF (cp_desc c) -> has table k c -> default_is c x -> written table k c x.
Proof.
  intros table k c x K D Ht H.
  destruct H as [(T & r & V & L & Hd & R & ->)|[(T & z & V & I & ->)|[(n & t & T & V & L & L' & F & ->)|[(n & v & r & T & NN & V & V1 & V2 & L & R & ->)|(n & z & T & NN & V & I & L & ->)]]]].
  - destruct (Ht PARAM_REAL 0%nat 0%nat) as (j & J); [rewrite T; constructor|].
    apply (written_scalar table k c _ (vstr (cp_default c)) "REAL" (MkD k j PARAM_REAL (Z.of_nat 0) (Z.of_nat 0)) K V L Hd ltac:(intros Q; cbn in Q; intuition discriminate) D); [|exact J|reflexivity|reflexivity|].
    + unfold parfile_line. rewrite T. reflexivity.
    + cbn. eauto.
  - destruct (Ht PARAM_INT 0%nat 0%nat) as (j & J); [rewrite T; constructor|].
    assert (CZ : forall ch, is_digit ch = false -> ch <> "-"%char -> ~ In ch (S2L (str_of_Z z))) by (intros ch C1 C2 Q; apply chars_Z in Q as [Q|Q]; congruence).
    apply (written_scalar table k c _ (str_of_Z z) "int" (MkD k j PARAM_INT (Z.of_nat 0) (Z.of_nat 0)) K); [| | |intros Q; cbn in Q; intuition discriminate|exact D| |exact J|reflexivity|reflexivity|].
    + split; [apply tight_Z|]. repeat split; now apply CZ.
    + pose proof (int_short z I). lia.
    + intros Q. assert (In "{"%char (S2L (str_of_Z z))) by (destruct (S2L (str_of_Z z)); [discriminate|injection Q as ->; now left]). revert H. now apply CZ.
    + unfold parfile_line. rewrite T, <- V. reflexivity.
    + cbn. exists z. auto.
  - destruct (Ht PARAM_CHARARRAY 0%nat n) as (j & J); [rewrite T; constructor|].
    set (q := (DQ ++ t ++ DQ)%string). assert (Q : S2L q = DQ_char :: S2L t ++ [DQ_char]) by (unfold q; rewrite !str_to_list_app; reflexivity).
    apply (written_scalar table k c _ q (sized "char" n) (MkD k j PARAM_CHARARRAY (Z.of_nat 0) (Z.of_nat n)) K); [| | | |exact D| |exact J|reflexivity|reflexivity|].
    + rewrite Q. split; [|repeat split; cbn [In]; rewrite in_app_iff; cbn [In]; intros [X|[X|[X|[]]]]; try discriminate; revert X; apply F; cbn; tauto].
      split; [reflexivity|]. rewrite app_comm_cons, last_last. reflexivity.
    + rewrite <- S2L_len, Q. cbn [List.length]. rewrite app_length, S2L_len. cbn [List.length]. lia.
    + rewrite Q. discriminate.
    + intros X. apply sized_in in X as [X|[X|[X|X]]]; try discriminate. cbn in X. intuition discriminate.
    + unfold parfile_line. rewrite T, array_type by (intros X; cbn in X; intuition discriminate).
      change (py_lower "char") with "char"%string. cbn [String.eqb Ascii.eqb Bool.eqb]. rewrite V. f_equal. unfold q, sized, suffix, escape.
      rewrite FDReadMem.replace_none.
      2: { apply (FDReadMem.py_in_no_char DQ_char); [now left|]. apply F. now left. }
      rewrite !sapp_assoc. reflexivity.
    + cbn [d_type d_buf text_value]. exists (S2L t). rewrite Q, S2L_len. split; [now left|]. split; [lia|]. split; [lia|reflexivity].
  - destruct (Ht PARAM_REAL_ARRAY n 0%nat) as (j & J); [rewrite T; constructor|].
    apply (written_array table k c _ v n "REAL" (MkD k j PARAM_REAL_ARRAY (Z.of_nat n) (Z.of_nat 0)) K V1 V2 NN L ltac:(intros Q; cbn in Q; intuition discriminate) D); [|exact J|reflexivity|reflexivity|].
    + unfold parfile_line. rewrite T, array_type by (intros X; cbn in X; intuition discriminate). rewrite V. reflexivity.
    + cbn. exists (repeat r n). split; [|reflexivity]. clear - R. induction n; cbn; constructor; auto.
  - destruct (Ht PARAM_INT_ARRAY n 0%nat) as (j & J); [rewrite T; constructor|].
    assert (CZ : forall ch, is_digit ch = false -> ch <> "-"%char -> ~ In ch (S2L (str_of_Z z))) by (intros ch C1 C2 Q; apply chars_Z in Q as [Q|Q]; congruence).
    apply (written_array table k c _ (str_of_Z z) n "int" (MkD k j PARAM_INT_ARRAY (Z.of_nat n) (Z.of_nat 0)) K); [|now apply CZ|exact NN|exact L|intros Q; cbn in Q; intuition discriminate|exact D| |exact J|reflexivity|reflexivity|].
    + split; [apply tight_Z|]. repeat split; now apply CZ.
    + unfold parfile_line. rewrite T, array_type by (intros X; cbn in X; intuition discriminate). rewrite V. reflexivity.
    + cbn. exists (repeat z n). split; [|reflexivity]. clear - I. induction n; cbn; constructor; auto.
Qed.
(** *** All lines *)
Notation line_of := (fun kc : string * code_param => match parfile_line vstr vfloat vint (fst kc) (snd kc) with Ok s => s | Err _ => ""%string end).
Definition in_file (d : cparams_dict) : cparams_dict := filter (fun kv => in_parfile (snd kv)) d.
Lemma append_line : forall (m : dict (list string)) k x, Permutation (concat (map snd (dset k ((match dget k m with Some l => l | None => [] end) ++ [x]) m))) (x :: concat (map snd m)).
Proof.
  induction m as [|[k' v] m IH]; intros k x; [reflexivity|]. cbn [dset dget]. destruct (String.eqb k k').
  - cbn [map snd concat]. rewrite <- app_assoc. symmetry. apply Permutation_middle.
  - cbn [map snd concat]. rewrite IH. symmetry. apply Permutation_middle.
Qed.
Lemma by_module_spec : forall l acc, (forall kc, In kc (in_file l) -> exists s, parfile_line vstr vfloat vint (fst kc) (snd kc) = Ok s) ->
  exists m, by_module vstr vfloat vint l acc = Ok m /\ Permutation (concat (map snd m)) (map line_of (in_file l) ++ concat (map snd acc)) /\
    (forall k, In k (dkeys m) -> In k (dkeys acc) \/ exists kc, In kc (in_file l) /\ k = cp_module (snd kc)).
Proof.
  induction l as [|[k c] l IH]; intros acc H; cbn [by_module in_file filter snd].
  - exists acc. repeat split; auto.
  - unfold in_file in *. cbn [filter snd] in H. destruct (in_parfile c) eqn:P.
    + destruct (H (k, c) (or_introl eq_refl)) as (s & E). cbn [fst snd] in E. rewrite E. cbn [py_bind].
      destruct (IH (dset (cp_module c) ((match dget (cp_module c) acc with Some l => l | None => [] end) ++ [s]) acc)) as (m & M1 & M2 & M3); [intros kc I; apply H; now right|].
      exists m. split; [exact M1|]. split.
      * rewrite M2, append_line. cbn [map fst snd app]. rewrite E. symmetry. apply Permutation_middle.
      * intros k' I. destruct (M3 k' I) as [J|(kc & J1 & J2)].
        -- apply dkeys_dset in J as [->|J]; [right; exists (k, c); split; [now left|reflexivity]|now left].
        -- right. exists kc. split; [now right|exact J2].
    + apply IH. exact H.
Qed.
Lemma concat_map_split : forall A B (f : A -> B) (pss : list (list B)) ps, concat pss = map f ps -> exists qss, pss = map (map f) qss /\ concat qss = ps.
Proof.
  intros A B f. induction pss as [|p pss IH]; intros ps E; cbn [concat] in E.
  - exists []. destruct ps; [split; reflexivity|discriminate].
  - symmetry in E. apply map_eq_app in E as (q & r & -> & <- & E). destruct (IH r) as (qss & -> & <-); [congruence|]. exists (q :: qss). now split.
Qed.
(** lines that are comments, and lines of parameters *)
Inductive item : Type := Head (s : string) | Par (kc : string * code_param).
Definition line_text (i : item) : string := match i with Head s => ("#" ++ s ++ NL)%string | Par kc => line_of kc end.
Definition pars (l : list item) : list (string * code_param) := flat_map (fun i => match i with Par kc => [kc] | _ => [] end) l.
Lemma pars_app : forall a b, pars (a ++ b) = pars a ++ pars b. Proof. intros. apply flat_map_app. Qed.
Lemma pars_map : forall l, pars (map Par l) = l. Proof. induction l as [|a l IH]; [reflexivity|]. cbn. now f_equal. Qed.
Lemma concat_app_s : forall a b, String.concat "" (a ++ b) = (String.concat "" a ++ String.concat "" b)%string.
Proof.
  induction a as [|x a IH]; intros b; [reflexivity|]. assert (C : forall y l, String.concat "" (y :: l) = (y ++ String.concat "" l)%string).
  { intros y l. destruct l; [cbn; now rewrite sapp_nil_r|reflexivity]. }
  cbn [app]. rewrite !C, IH. now rewrite sapp_assoc.
Qed.
Lemma text_items : forall project d, (forall kc, In kc (in_file d) -> exists s, parfile_line vstr vfloat vint (fst kc) (snd kc) = Ok s) ->
  no_LF project -> (forall kc, In kc (in_file d) -> no_LF (cp_module (snd kc))) ->
  exists its, parfile_text vstr vfloat vint project d = Ok (String.concat "" (map line_text its)) /\ Permutation (pars its) (in_file d) /\
    (forall s, In (Head s) its -> no_LF s) /\ (exists s, In (Head s) its).
Proof.
  intros project d H NP NM. unfold parfile_text.
  set (dd := py_sorted (fun a b : string * code_param => String.leb (cp_module (snd a)) (cp_module (snd b))) d).
  assert (PD : Permutation (in_file dd) (in_file d)).
  { unfold in_file. pose proof (sorted_perm _ (fun a b : string * code_param => String.leb (cp_module (snd a)) (cp_module (snd b))) d) as P. fold dd in P. symmetry.
    clear - P. induction P as [|x l l' P IH|x y l|l l' l'' P1 IH1 P2 IH2]; cbn [filter]; [constructor| | |etransitivity; eauto].
    - destruct (in_parfile (snd x)); [now constructor|exact IH]. - destruct (in_parfile (snd x)), (in_parfile (snd y)); try reflexivity. constructor. }
  destruct (by_module_spec dd []) as (m & M1 & M2 & M3).
  { intros kc I. apply H. eapply Permutation_in; eauto. }
  cbn [map concat] in M2. rewrite app_nil_r in M2. rewrite M1. cbn [py_bind].
  set (ms := py_sorted (fun a b : string * list string => String.leb (fst a) (fst b)) m).
  assert (PM : Permutation m ms) by apply sorted_perm.
  assert (MK : forall kv, In kv ms -> no_LF (fst kv)).
  { intros kv I. assert (J : In (fst kv) (dkeys m)) by (apply in_map; eapply Permutation_in; [symmetry; exact PM|exact I]).
    destruct (M3 _ J) as [[]|(kc & J1 & ->)]. apply NM. eapply Permutation_in; eauto. }
  assert (PC : Permutation (concat (map (fun kv => py_sorted String.leb (snd kv)) ms)) (map line_of (in_file d))).
  { transitivity (concat (map snd ms)); [|transitivity (concat (map snd m))].
    - clear. induction ms as [|x ms IH]; [constructor|]. cbn [map concat]. apply Permutation_app; [symmetry; apply sorted_perm|exact IH].
    - clear - PM. induction PM as [|x l l' P IH|x y l|l l' l'' P1 IH1 P2 IH2]; cbn [map concat]; [constructor| | |etransitivity; eauto].
      + now apply Permutation_app_head.
      + rewrite !app_assoc. apply Permutation_app_tail, Permutation_app_comm.
    - rewrite M2. now apply Permutation_map. }
  apply Permutation_map_inv in PC as (ps & PC1 & PC2). apply concat_map_split in PC1 as (qss & Q1 & Q2).
  assert (Z : exists its, (String.concat "" (map (fun kv => RULE ++ RULE ++ "### Module: " ++ fst kv ++ NL ++ String.concat "" (py_sorted String.leb (snd kv))) ms))%string =
                String.concat "" (map line_text its) /\ pars its = concat qss /\ (forall s, In (Head s) its -> no_LF s)).
  { clear - Q1 MK. revert qss Q1. induction ms as [|[k ls] ms IH]; intros qss Q1.
    - exists []. destruct qss; [|discriminate]. repeat split. intros s [].
    - destruct qss as [|q qss]; [discriminate|]. cbn [map snd] in Q1. injection Q1 as Q0 Q1. destruct (IH (fun kv I => MK kv (or_intror I)) qss Q1) as (its & I1 & I2 & I3).
      exists (Head "##########################" :: Head "##########################" :: Head ("## Module: " ++ k) :: map Par q ++ its). split; [|split].
      + cbn [map fst snd]. rewrite Q0. change (?a :: ?b) with ([a] ++ b) at 1. rewrite concat_app_s, I1. rewrite map_app, map_map. cbn [line_text].
        set (X := map line_of q). set (Y := map line_text its). change (String.concat "" [?a]) with a.
        change (map (fun x => line_of x) q) with X.
        assert (C : forall y l, String.concat "" (y :: l) = (y ++ String.concat "" l)%string) by (intros y l; destruct l; [cbn; now rewrite sapp_nil_r|reflexivity]).
        rewrite !C, concat_app_s. unfold RULE. rewrite !sapp_assoc. reflexivity.
      + cbn [pars flat_map app]. fold (pars (map Par q ++ its)). rewrite pars_app, pars_map, I2. reflexivity.
      + intros s [[= <-]|[[= <-]|[[= <-]|I]]]; [intros X; cbn in X; intuition discriminate|intros X; cbn in X; intuition discriminate| |].
        * intros X. cbn in X. repeat (destruct X as [X|X]; [discriminate|]). apply (MK (k, ls) (or_introl eq_refl) X).
        * apply in_app_iff in I as [I|I]; [|now apply I3]. apply in_map_iff in I as (? & I & _). discriminate. }
  destruct Z as (its & Z1 & Z2 & Z3).
  exists (Head ("### " ++ project ++ " BH@H parameter file. NOTE: only commondata CodeParameters appear here ###") :: its). split; [|split; [|split]].
  - f_equal. rewrite Z1. cbn [map line_text].
    assert (C : forall y l, String.concat "" (y :: l) = (y ++ String.concat "" l)%string) by (intros y l; destruct l; [cbn; now rewrite sapp_nil_r|reflexivity]).
    rewrite C. rewrite !sapp_assoc. reflexivity.
  - change (Permutation (pars its) (in_file d)). rewrite Z2, Q2. symmetry. exact PC2.
  - intros s [[= <-]|I]; [|now apply Z3]. intros X. change (In CacheFS.LF (S2L ("### " ++ project ++ " BH@H parameter file. NOTE: only commondata CodeParameters appear here ###"))) in X.
    rewrite !str_to_list_app, !in_app_iff in X. destruct X as [X|[X|X]]; try easy; cbn in X; intuition discriminate.
  - eexists. now left.
Qed.
(** aligning *)
Lemma align_lines : forall bodies, (forall b, In b bodies -> no_LF b) ->
  align_by_hash (String.concat "" (map (fun b => b ++ NL)%string bodies)) =
  String.concat "" (map (fun b => adjust (max_length (bodies ++ [""%string])) b ++ NL)%string bodies).
Proof.
  intros bodies H. unfold align_by_hash.
  assert (C : forall l, String.concat "" (map (fun b => b ++ NL)%string l) = String.concat NL (l ++ [""%string])).
  { clear. induction l as [|x l IH]; [reflexivity|]. cbn [map app]. assert (C : forall y l, String.concat "" (y :: l) = (y ++ String.concat "" l)%string) by (intros y r; destruct r; [cbn; now rewrite sapp_nil_r|reflexivity]).
    rewrite C, IH. rewrite CFunctionFacts.concat_cons by (destruct l; discriminate). now rewrite sapp_assoc. }
  rewrite C. change NL with (CFunctionFacts.one CacheFS.LF). rewrite CFunctionFacts.split_concat.
  - rewrite map_app. cbn [map]. replace (adjust (max_length (bodies ++ [""%string])) "") with ""%string by reflexivity.
    change (CFunctionFacts.one CacheFS.LF) with NL. rewrite <- C, map_map. reflexivity.
  - destruct bodies; discriminate.
  - intros x I. apply in_app_iff in I as [I|[<-|[]]]; [now apply H|easy].
Qed.
Lemma upto_some : forall c l a b, upto c l = (a, Some b) -> l = a ++ c :: b.
Proof.
  induction l as [|x l IH]; intros a b; cbn [upto]; [discriminate|]. destruct (Ascii.eqb_spec x c) as [->|D]; [now intros [= <- <-]|].
  destruct (upto c l) as [a' [b'|]]; [|discriminate]. intros [= <- <-]. cbn [app]. f_equal. now apply IH.
Qed.
Lemma adjust_in : forall m b c, In c (S2L (adjust m b)) -> In c (S2L b) \/ c = sp.
Proof.
  intros m b c. unfold adjust, to_align. destruct (upto "#" (S2L b)) as [a [t|]] eqn:E; [|now left]. destruct (prefix "#" _); [now left|].
  apply upto_some in E. rewrite E, str_to_list_to_str, !in_app_iff. intros [I|[I|I]]; [left; now left|right; now apply repeat_spec in I|left; now right].
Qed.
Definition effect_is (table : list descr) (x : string -> cval REAL) (i : item) (e : effect REAL) : Prop :=
  match i with Head _ => e = Nothing REAL | Par kc => e = Sets REAL (fst kc) (x (fst kc)) end.
Definition item_body (table : list descr) (x : string -> cval REAL) (i : item) (b : string) : Prop :=
  line_text i = (b ++ NL)%string /\ no_LF b /\
  forall m, exists l e, S2L (adjust m b) ++ [CacheFS.LF] = render l /\ ((List.length (render l) <= 1023)%nat -> line_ok l) /\ effect_of REAL strtod table l e /\ effect_is table x i e.
Theorem default_file : forall project d table x s steers read prog,
  NoDup (dkeys d) -> param_table d = Ok table -> no_LF project ->
  (forall k c, In (k, c) d -> cp_parfile c = true -> cp_commondata c = true -> name_ok k /\ no_LF (cp_module c) /\ no_LF (cp_desc c) /\ default_is c (x k)) ->
  exists text, generate_default_parfile vstr vfloat vint project d = Ok text /\
    ((forall line, In line (py_split NL text) -> (String.length line <= 1022)%nat) ->
     exists s', parser REAL strtod table steers (Some (S2L text)) read [prog] s = Ran (PVal s') /\
       (forall k c, In (k, c) d -> cp_parfile c = true -> cp_commondata c = true -> s' k = x k) /\
       (forall k, (forall c, In (k, c) d -> cp_parfile c && cp_commondata c = false) -> s' k = s k)).
Proof.
  intros project d table x s steers read prog ND PT NP H. destruct (C84_table d table ND PT) as (T1 & T2 & _ & T4 & _).
  assert (W : forall kc, In kc (in_file d) -> written table (fst kc) (snd kc) (x (fst kc))).
  { intros [k c] I. apply filter_In in I as [I F]. unfold in_parfile in F. cbn [snd] in F. apply andb_prop in F as [F1 F2]. destruct (H k c I F1 F2) as (H1 & H2 & H3 & H4).
    apply default_written; try assumption. intros p a b T. now apply (T4 k c). }
  destruct (text_items project d) as (its & E & P & Hd & (h & Hh)).
  { intros kc I. destruct (W kc I) as (body & B & _). eauto. }
  { exact NP. }
  { intros [k c] I. apply filter_In in I as [I F]. unfold in_parfile in F. cbn [snd] in F. apply andb_prop in F as [F1 F2]. apply (H k c I F1 F2). }
  assert (B : exists bodies, Forall2 (item_body table x) its bodies).
  { assert (P' : forall kc, In (Par kc) its -> In kc (in_file d)).
    { intros kc I. eapply Permutation_in; [exact P|]. apply in_flat_map. exists (Par kc). split; [exact I|now left]. }
    clear - W Hd P'. induction its as [|i its IH]; [exists []; constructor|].
    destruct IH as (bodies & B); [intros t I; apply Hd; now right|intros kc I; apply P'; now right|].
    assert (X : exists b, item_body table x i b).
    { destruct i as [t|kc].
      - specialize (Hd t (or_introl eq_refl)). exists (String "#" t). split; [reflexivity|]. split; [intros [Q|Q]; [discriminate|now apply Hd]|].
        intros m. exists (Blank [] ("#"%char :: S2L t)), (Nothing REAL). rewrite adjust_hash. split; [reflexivity|]. split; [|split; [reflexivity|reflexivity]].
        intros LL. split; [exact LL|]. split; [split; easy|]. split; [intros [Q|Q]; [discriminate|now apply Hd]|right; eauto].
      - destruct (W kc (P' kc (or_introl eq_refl))) as (body & B1 & B2 & B3). exists (list_to_str body). split; [cbn [line_text]; now rewrite B1|].
        split; [unfold no_LF; now rewrite str_to_list_to_str|]. intros m. destruct (B3 m) as (l & L1 & L2 & L3). exists l, (Sets REAL (fst kc) (x (fst kc))).
        split; [exact L1|]. split; [exact L2|]. split; [exact L3|reflexivity]. }
    destruct X as (b & X). exists (b :: bodies). now constructor. }
  destruct B as (bodies & B).
  assert (TB : map line_text its = map (fun b => b ++ NL)%string bodies).
  { clear - B. induction B as [|i b its bodies [X _] B IH]; [reflexivity|]. cbn [map]. congruence. }
  assert (NB : forall b, In b bodies -> no_LF b).
  { clear - B. induction B as [|i b its bodies X B IH]; intros y I; [destruct I|]. destruct I as [<-|I]; [apply X|now apply IH]. }
  set (m := max_length (bodies ++ [""%string])).
  exists (String.concat "" (map (fun b => adjust m b ++ NL)%string bodies)). split.
  { unfold generate_default_parfile. rewrite E. cbn [py_bind]. f_equal. rewrite TB. now apply align_lines. }
  intros LL.
  assert (SP : py_split NL (String.concat "" (map (fun b => adjust m b ++ NL)%string bodies)) = map (adjust m) bodies ++ [""%string]).
  { rewrite <- (map_map (adjust m) (fun b => b ++ NL)%string).
    assert (C : forall l, String.concat "" (map (fun b => b ++ NL)%string l) = String.concat NL (l ++ [""%string])).
    { clear. induction l as [|y l IH]; [reflexivity|]. cbn [map app]. assert (C : forall y l, String.concat "" (y :: l) = (y ++ String.concat "" l)%string) by (intros z r; destruct r; [cbn; now rewrite sapp_nil_r|reflexivity]).
      rewrite C, IH. rewrite CFunctionFacts.concat_cons by (destruct l; discriminate). now rewrite sapp_assoc. }
    rewrite C. change NL with (CFunctionFacts.one CacheFS.LF). apply CFunctionFacts.split_concat; [destruct (map (adjust m) bodies); discriminate|].
    intros y I. apply in_app_iff in I as [I|[<-|[]]]; [|easy]. apply in_map_iff in I as (b & <- & I). intros Q. apply adjust_in in Q as [Q|Q]; [|discriminate].
    now apply (NB b I). }
  rewrite SP in LL.
  assert (LS : exists ls es, lines_ok REAL strtod table ls es /\ concat (map render ls) = S2L (String.concat "" (map (fun b => adjust m b ++ NL)%string bodies)) /\
                Forall2 (effect_is table x) its es).
  { assert (LB : forall b, In b bodies -> (String.length (adjust m b) <= 1022)%nat) by (intros b I; apply LL, in_app_iff; left; now apply in_map).
    clearbody m. clear - B LB. induction B as [|i b its bodies X B IH]; [exists [], []; repeat constructor|].
    destruct IH as (ls & es & I1 & I2 & I3); [intros y I; apply LB; now right|]. destruct X as (_ & _ & X). destruct (X m) as (l & e & L1 & L2 & L3 & L4).
    exists (l :: ls), (e :: es). split; [|split].
    - constructor; [|exact I1]. split; [|exact L3]. apply L2. rewrite <- L1, app_length, S2L_len. cbn [List.length]. specialize (LB b (or_introl eq_refl)). lia.
    - cbn [map concat]. rewrite I2, <- L1. assert (C : forall y l, String.concat "" (y :: l) = (y ++ String.concat "" l)%string) by (intros z r; destruct r; [cbn; now rewrite sapp_nil_r|reflexivity]).
      rewrite C, !str_to_list_app, <- !app_assoc. reflexivity.
    - now constructor. }
  destruct LS as (ls & es & L1 & L2 & L3).
  assert (KS : keys_set REAL es = map fst (pars its)).
  { clear - L3. induction L3 as [|i e its es X L IH]; [reflexivity|]. destruct i; cbn in X; subst e; cbn; [exact IH|]. unfold keys_set in IH. now rewrite IH. }
  assert (KP : Permutation (keys_set REAL es) (map fst (in_file d))) by (rewrite KS; now apply Permutation_map).
  assert (NK : NoDup (map fst (in_file d))).
  { clear - ND. unfold in_file. induction d as [|kv d IH]; [constructor|]. cbn in ND. inversion ND as [|? ? N1 N2]; subst. cbn [filter].
    destruct (in_parfile (snd kv)); [|now apply IH]. cbn [map]. constructor; [|now apply IH]. intros I. apply N1. apply in_map_iff in I as (kv' & I1 & I2).
    apply filter_In in I2 as [I2 _]. rewrite <- I1. now apply (in_map fst). }
  destruct (C84_reads REAL strtod table steers (Some (S2L (String.concat "" (map (fun b => adjust m b ++ NL)%string bodies)))) read [prog] [] [] ls es [] s T1 T2) as (s' & R & _ & R1 & R2).
  - unfold text_of. rewrite L2. now constructor.
  - exact L1.
  - eapply Permutation_NoDup; [symmetry; exact KP|exact NK].
  - constructor.
  - split; constructor.
  - clear - L3 Hh. induction L3 as [|i e its es X L IH]; [destruct Hh|]. destruct Hh as [->|Hh].
    + cbn in X. subst e. exists (Nothing REAL). split; [now left|discriminate].
    + destruct (IH Hh) as (e' & I1 & I2). exists e'. split; [now right|exact I2].
  - exists s'. split; [exact R|]. split.
    + intros k c I F1 F2. apply R1; [|easy].
      assert (J : In (Par (k, c)) its).
      { assert (J : In (k, c) (pars its)) by (eapply Permutation_in; [symmetry; exact P|]; apply filter_In; split; [exact I|unfold in_parfile; cbn [snd]; now rewrite F1, F2]).
        apply in_flat_map in J as (i & J1 & J2). destruct i as [t|kc]; [destruct J2|]. destruct J2 as [->|[]]. exact J1. }
      clear - L3 J. induction L3 as [|i e its es X L IH]; [destruct J|]. destruct J as [->|J]; [cbn in X; subst e; now left|right; now apply IH].
    + intros k NI. apply R2; [|easy]. intros I. assert (J : In k (map fst (in_file d))) by (eapply Permutation_in; eauto).
      apply in_map_iff in J as ([k' c] & <- & J). apply filter_In in J as [J F]. cbn [fst snd] in *. unfold in_parfile in F. rewrite (NI c J) in F. discriminate.
Qed.
End DefaultFile.
