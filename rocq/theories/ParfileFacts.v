(** What the functions of Parfile.v do on texts of a given form. *)
From Coq Require Import String Ascii List ZArith Bool Arith Lia.
From Verif Require Import PyBase PyBaseFacts PyList PyListFacts Params Registry Parfile.
From Verif Require CacheFS.
Import ListNotations.
Open Scope list_scope.

(** ** Strings *)
Lemma upto_free : forall c l, ~ In c l -> upto c l = (l, None).
Proof.
  induction l as [|x l IH]; intros N; [reflexivity|]. cbn [upto]. destruct (Ascii.eqb_spec x c) as [->|D]; [destruct N; now left|].
  now rewrite IH by (intros I; apply N; now right).
Qed.
Lemma upto_at : forall c a b, ~ In c a -> upto c (a ++ c :: b) = (a, Some b).
Proof.
  induction a as [|x a IH]; intros b N; cbn [app upto]; [now rewrite Ascii.eqb_refl|].
  destruct (Ascii.eqb_spec x c) as [->|D]; [destruct N; now left|]. now rewrite IH by (intros I; apply N; now right).
Qed.
Lemma skip_id : forall c x l, x <> c -> skip c (x :: l) = x :: l.
Proof. intros. cbn [skip]. destruct (Ascii.eqb_spec x c); congruence. Qed.
Lemma strtok_at : forall c a b, a <> [] -> ~ In c a -> strtok c (a ++ c :: b) = Some (a, b).
Proof.
  intros c [|x a] b E N; [easy|]. unfold strtok. cbn [app]. rewrite skip_id by (intros ->; apply N; now left).
  change (x :: a ++ c :: b) with ((x :: a) ++ c :: b). now rewrite upto_at.
Qed.
Lemma strtok_end : forall c a, a <> [] -> ~ In c a -> strtok c a = Some (a, []).
Proof. intros c [|x a] E N; [easy|]. unfold strtok. rewrite skip_id by (intros ->; apply N; now left). now rewrite upto_free. Qed.
Lemma strtok_nil : forall c, strtok c [] = None. Proof. reflexivity. Qed.

Definition all_space (l : chars) : Prop := forall c, In c l -> isspace c = true.
(** starts and ends with a character that is not white space *)
Definition tight (v : chars) : Prop := match v with [] => False | c :: _ => isspace c = false /\ isspace (last v c) = false end.
Lemma ltrim_space : forall sp l, all_space sp -> ltrim (sp ++ l) = ltrim l.
Proof. induction sp as [|c sp IH]; intros l H; [reflexivity|]. cbn [app ltrim]. rewrite (H c (or_introl eq_refl)). apply IH. intros x I. apply H. now right. Qed.
Lemma all_space_rev : forall sp, all_space sp -> all_space (rev sp). Proof. intros sp H c I. apply H. now apply in_rev. Qed.
Lemma trim_tight : forall a v b, all_space a -> tight v -> all_space b -> trim_space (a ++ v ++ b) = v.
Proof.
  intros a v b A T B. unfold trim_space. rewrite ltrim_space by exact A. destruct v as [|c v]; [destruct T|]. destruct T as [T1 T2].
  cbn [app ltrim]. rewrite T1. change (c :: v ++ b) with ((c :: v) ++ b). rewrite rev_app_distr, ltrim_space by now apply all_space_rev.
  rewrite (app_removelast_last c (l := c :: v)) at 1 by discriminate. rewrite rev_app_distr. cbn [rev app ltrim]. rewrite T2.
  cbn [rev]. rewrite rev_involutive. symmetry. apply app_removelast_last. discriminate.
Qed.
Lemma trim_blank : forall a, all_space a -> trim_space a = [].
Proof. intros a A. unfold trim_space. rewrite <- (app_nil_r a) at 1. now rewrite ltrim_space. Qed.
Lemma safe_copy_ok : forall s n, (List.length s < n)%nat -> safe_copy s n = PVal s.
Proof. intros. unfold safe_copy. destruct (Nat.leb_spec n (List.length s)); [lia|reflexivity]. Qed.

(** ** Numbers *)
Lemma digits_app : forall a acc c b, forallb is_digit a = true -> is_digit c = true ->
  digits acc (a ++ c :: b) = digits (10 * fst (digits acc a) + Z.of_nat (nat_of_ascii c - 48)) b.
Proof.
  induction a as [|x a IH]; intros acc c b A C; cbn [app digits]; [now rewrite C|].
  cbn in A. apply andb_prop in A as [A1 A2]. rewrite A1. now apply IH.
Qed.
Lemma digits_str : forall n, digits 0 (str_to_list (str_of_nat n)) = (Z.of_nat n, []) /\ forallb is_digit (str_to_list (str_of_nat n)) = true.
Proof.
  intros n. split; [|apply forallb_forall; intros x; apply str_of_nat_digits]. unfold str_of_nat.
  assert (D : forall f n, (n < f)%nat -> forallb is_digit (str_to_list (nat_digits f n)) = true /\ digits 0 (str_to_list (nat_digits f n)) = (Z.of_nat n, [])).
  { clear. induction f as [|f IH]; intros n H; [lia|]. cbn [nat_digits].
    assert (E : forall k, (k < 10)%nat -> is_digit (digit_ascii k) = true /\ nat_of_ascii (digit_ascii k) = (48 + k)%nat).
    { intros k K. do 10 (destruct k as [|k]; [split; reflexivity|]). lia. }
    destruct (Nat.ltb_spec n 10) as [L|L].
    - destruct (E n L) as [E1 E2]. cbn [str_to_list forallb digits]. rewrite E1, E2. split; [reflexivity|]. f_equal. lia.
    - destruct (IH (n / 10)%nat) as [I1 I2].
      { assert (n / 10 < n)%nat by (apply Nat.div_lt; lia). lia. }
      pose proof (Nat.mod_upper_bound n 10). destruct (E (n mod 10)) as [E1 E2]; [lia|].
      rewrite str_to_list_app, forallb_app. cbn [str_to_list forallb]. rewrite I1, E1. split; [reflexivity|].
      rewrite digits_app by assumption. rewrite I2. cbn [fst digits]. rewrite E2. f_equal. pose proof (Nat.div_mod n 10). lia. }
  apply D. lia.
Qed.
Definition int32 (z : Z) : Prop := (- 2 ^ 31 <= z < 2 ^ 31)%Z.
Lemma to_int_id : forall z, int32 z -> to_int z = z.
Proof. intros z H. unfold to_int, int32 in *. rewrite Z.mod_small; lia. Qed.
Lemma digit_not_space : forall c, is_digit c = true -> isspace c = false /\ Ascii.eqb c "-" = false /\ Ascii.eqb c "+" = false.
Proof.
  intros c H. assert (E : c = ascii_of_nat (nat_of_ascii c)) by (symmetry; apply ascii_nat_embedding).
  unfold is_digit in H. apply andb_prop in H as [H1 H2]. apply Nat.leb_le in H1, H2. unfold isspace.
  split; [|split].
  - destruct (Nat.leb_spec 9 (nat_of_ascii c)), (Nat.leb_spec (nat_of_ascii c) 13), (Nat.eqb_spec (nat_of_ascii c) 32); try reflexivity; lia.
  - destruct (Ascii.eqb_spec c "-") as [->|]; [cbn in *; lia|reflexivity].
  - destruct (Ascii.eqb_spec c "+") as [->|]; [cbn in *; lia|reflexivity].
Qed.
Lemma strtol_nat : forall n, strtol (str_to_list (str_of_nat n)) = Some (Z.of_nat n, []).
Proof.
  intros n. destruct (digits_str n) as [D1 D2]. pose proof (str_of_nat_nonempty n) as N.
  destruct (str_of_nat n) as [|c s] eqn:E; [easy|]. cbn [str_to_list] in *. cbn [forallb] in D2. apply andb_prop in D2 as [D2 _].
  destruct (digit_not_space c D2) as (S1 & S2 & S3). unfold strtol. cbn [ltrim]. now rewrite S1, S2, S3, D2, D1.
Qed.
Lemma strtol_Z : forall z, strtol (str_to_list (str_of_Z z)) = Some (z, []).
Proof.
  intros [|p|p]; [reflexivity| |].
  - cbn [str_of_Z]. rewrite strtol_nat. do 2 f_equal. lia.
  - cbn [str_of_Z]. destruct (digits_str (Pos.to_nat p)) as [D1 D2]. pose proof (str_of_nat_nonempty (Pos.to_nat p)) as N.
    destruct (str_of_nat (Pos.to_nat p)) as [|c s] eqn:E; [easy|]. cbn [append str_to_list] in *. cbn [forallb] in D2. apply andb_prop in D2 as [D2 _].
    unfold strtol. cbn [ltrim isspace nat_of_ascii]. change (isspace "-") with false. cbv iota. rewrite Ascii.eqb_refl, D2, D1. do 2 f_equal. lia.
Qed.
Lemma read_integer_Z : forall z, int32 z -> read_integer (str_to_list (str_of_Z z)) = PVal z.
Proof.
  intros z H. unfold read_integer. rewrite strtol_Z, to_int_id by exact H. unfold int32 in H.
  destruct (Z.ltb_spec z (- 2 ^ 63)), (Z.leb_spec (2 ^ 63) z); try reflexivity; lia.
Qed.
Lemma tight_Z : forall z, tight (str_to_list (str_of_Z z)).
Proof.
  assert (D : forall n, forall a, a <> [] -> forallb is_digit a = true -> isspace (last a n) = false).
  { intros n a N A. rewrite forallb_forall in A. assert (I : In (last a n) a).
    { rewrite (app_removelast_last n (l := a)) at 2 by exact N. apply in_app_iff. right. now left. }
    apply (proj1 (digit_not_space _ (A _ I))). }
  assert (T : forall n, exists c s, str_to_list (str_of_nat n) = c :: s /\ forallb is_digit (c :: s) = true).
  { intros n. destruct (digits_str n) as [_ D2]. pose proof (str_of_nat_nonempty n) as N. destruct (str_of_nat n) as [|c s]; [easy|].
    exists c, (str_to_list s). now split. }
  intros [|p|p]; cbn [str_of_Z].
  - now split.
  - destruct (T (Pos.to_nat p)) as (c & s & -> & F). split; [|now apply D].
    cbn in F. apply andb_prop in F as [F _]. now apply digit_not_space.
  - destruct (T (Pos.to_nat p)) as (c & s & E & F). cbn [append str_to_list]. rewrite E. split; [reflexivity|].
    change (last ("-"%char :: c :: s) "-"%char) with (last (c :: s) "-"%char). now apply D.
Qed.
(** the characters of a decimal number *)
Lemma chars_Z : forall z c, In c (str_to_list (str_of_Z z)) -> is_digit c = true \/ c = "-"%char.
Proof.
  intros [|p|p] c; cbn [str_of_Z].
  - intros [<-|[]]. now left.
  - intros I. left. now apply (str_of_nat_digits (Pos.to_nat p)).
  - intros [<-|I]; [now right|]. left. now apply (str_of_nat_digits (Pos.to_nat p)).
Qed.
Lemma short_nat : forall n, (n <= 100)%nat -> (List.length (str_to_list (str_of_nat n)) < 16)%nat.
Proof. intros n H. do 101 (destruct n as [|n]; [cbn; lia|]). lia. Qed.
Lemma read_quoted : forall t buf, (List.length t < buf)%nat -> (List.length t < 128)%nat -> read_chararray (DQ_char :: t ++ [DQ_char]) buf = PVal t.
Proof.
  intros t buf H1 H2. unfold read_chararray. cbn [List.length tl]. rewrite app_length. cbn [List.length].
  assert (L : last (DQ_char :: t ++ [DQ_char]) DQ_char = DQ_char) by (rewrite app_comm_cons; apply last_last).
  rewrite L, Ascii.eqb_refl. cbn [andb]. replace (S (List.length t + 1) =? 1)%nat with false by (symmetry; apply Nat.eqb_neq; lia).
  replace (S (List.length t + 1) - 2)%nat with (List.length t) by lia. cbn [orb].
  destruct (Nat.leb_spec buf (List.length t)); [lia|]. unfold PARAM_SIZE. destruct (Nat.leb_spec 128 (List.length t)); [lia|].
  cbn [pbind]. rewrite firstn_app, firstn_all, Nat.sub_diag. cbn [firstn]. rewrite app_nil_r.
  destruct (Nat.leb_spec buf (List.length t)); [lia|]. now apply safe_copy_ok.
Qed.
Lemma read_plain : forall t buf, (List.length t < buf)%nat -> (List.length t < 128)%nat -> hd_error t <> Some DQ_char -> read_chararray t buf = PVal t.
Proof.
  intros t buf H1 H2 H3. unfold read_chararray.
  assert (Q : match t with [] => false | c :: _ => Ascii.eqb c DQ_char && Ascii.eqb (last t c) DQ_char end = false).
  { destruct t as [|c t]; [reflexivity|]. destruct (Ascii.eqb_spec c DQ_char) as [->|]; [now destruct H3|reflexivity]. }
  rewrite Q, safe_copy_ok by exact H2. cbn [pbind]. destruct (Nat.leb_spec buf (List.length t)); [lia|]. now apply safe_copy_ok.
Qed.

(** ** Parameter names and values *)
Definition ident (s : string) : Prop := s <> ""%string /\ forallb (fun c => isalnum c || Ascii.eqb c "_") (str_to_list s) = true.
Lemma isalnum_facts : forall c, (isalnum c || Ascii.eqb c "_") = true ->
  isspace c = false /\ c <> "["%char /\ c <> "="%char /\ c <> "#"%char /\ c <> CacheFS.LF.
Proof.
  intros c H. apply orb_prop in H as [H|H].
  2: { apply Ascii.eqb_eq in H as ->. repeat split; discriminate. }
  assert (N : (48 <= nat_of_ascii c <= 57 \/ 65 <= nat_of_ascii c <= 90 \/ 97 <= nat_of_ascii c <= 122)%nat).
  { unfold isalnum in H. rewrite !orb_true_iff, !andb_true_iff, !Nat.leb_le in H. lia. }
  split; [|repeat split; intros ->; cbn in N; lia]. unfold isspace.
  destruct (Nat.leb_spec 9 (nat_of_ascii c)), (Nat.leb_spec (nat_of_ascii c) 13), (Nat.eqb_spec (nat_of_ascii c) 32); try reflexivity; lia.
Qed.
Lemma ident_tight : forall s, ident s -> tight (str_to_list s).
Proof.
  intros s [N A]. destruct s as [|c s]; [easy|]. cbn [str_to_list] in *. rewrite forallb_forall in A. split.
  - apply isalnum_facts, A. now left.
  - apply isalnum_facts, A. rewrite (app_removelast_last c (l := c :: str_to_list s)) at 2 by discriminate. apply in_app_iff. right. now left.
Qed.
Lemma ident_free : forall s c, ident s -> (isalnum c || Ascii.eqb c "_") = false -> ~ In c (str_to_list s).
Proof. intros s c [_ A] F I. rewrite forallb_forall in A. rewrite (A c I) in F. discriminate. Qed.
Lemma param_scalar : forall s, ident s -> (String.length s < 128)%nat -> parse_param (str_to_list s) = PVal (str_to_list s, 0%Z).
Proof.
  intros s I L. unfold parse_param. rewrite upto_free by now apply ident_free. rewrite safe_copy_ok; [reflexivity|].
  replace (List.length (str_to_list s)) with (String.length s); [exact L|]. clear. induction s; cbn; congruence.
Qed.
Lemma param_array : forall s n, ident s -> (0 < n <= 100)%nat ->
  parse_param (str_to_list s ++ "["%char :: str_to_list (str_of_nat n) ++ ["]"%char]) = PVal (str_to_list s, Z.of_nat n).
Proof.
  intros s n I L. unfold parse_param. rewrite upto_at by now apply ident_free.
  rewrite upto_at. 2: { intros K. apply (str_of_nat_digits n) in K. discriminate. }
  pose proof (short_nat n ltac:(lia)). destruct (Nat.leb_spec 16 (List.length (str_to_list (str_of_nat n)))); [lia|].
  unfold atoi. rewrite strtol_nat, to_int_id by (unfold int32; lia). destruct (Z.leb_spec (Z.of_nat n) 0); [lia|reflexivity].
Qed.
(** "a , b" *)
Fixpoint commas (l : list chars) : chars := match l with [] => [] | [p] => p | p :: r => p ++ ","%char :: commas r end.
Definition part (t : chars * chars * chars) : chars := let '(a, v, b) := t in a ++ v ++ b.
Definition mid (t : chars * chars * chars) : chars := let '(a, v, b) := t in v.
Definition part_ok (t : chars * chars * chars) : Prop :=
  let '(a, v, b) := t in all_space a /\ tight v /\ all_space b /\ ~ In ","%char (a ++ v ++ b).
Lemma part_nonempty : forall t, part_ok t -> part t <> [].
Proof. intros [[a v] b] (_ & T & _) E. cbn in E. apply app_eq_nil in E as [_ E]. apply app_eq_nil in E as [-> _]. destruct T. Qed.
Lemma tokens_commas : forall ts fuel count, Forall part_ok ts -> (forall t, In t ts -> (List.length (mid t) < 128)%nat) ->
  (count + List.length ts <= 100)%nat -> (List.length (commas (map part ts)) < fuel)%nat -> value_tokens fuel count (commas (map part ts)) = PVal (map mid ts).
Proof.
  induction ts as [|t ts IH]; intros fuel count O S C F.
  - destruct fuel; reflexivity.
  - destruct fuel as [|fuel]; [cbn in F; lia|]. inversion O as [|? ? O1 O2]; subst. pose proof (part_nonempty t O1) as NE.
    assert (N : ~ In ","%char (part t)) by (destruct t as [[a v] b]; apply O1).
    assert (TR : trim_space (part t) = mid t) by (destruct t as [[a v] b]; apply trim_tight; apply O1).
    assert (Z : (MAX_ARRAY_SIZE <=? count)%nat = false) by (apply Nat.leb_gt; unfold MAX_ARRAY_SIZE; cbn [List.length] in C; lia).
    cbn [value_tokens map]. destruct ts as [|t' ts].
    + cbn [map commas]. rewrite strtok_end by assumption. rewrite TR, safe_copy_ok by (apply S; now left). cbn [pbind]. rewrite Z.
      destruct fuel; reflexivity.
    + change (commas (part t :: map part (t' :: ts))) with (part t ++ ","%char :: commas (map part (t' :: ts))) in *.
      rewrite strtok_at by assumption. rewrite TR, safe_copy_ok by (apply S; now left). cbn [pbind]. rewrite Z.
      rewrite IH; [reflexivity|exact O2|intros x I; apply S; now right|cbn [List.length] in *; lia|].
      assert (F' : (List.length (part t ++ ","%char :: commas (map part (t' :: ts))) < Datatypes.S fuel)%nat) by exact F.
      rewrite app_length in F'. cbn [List.length] in F'. lia.
Qed.
Lemma value_scalar : forall v, tight v -> (List.length v < 128)%nat -> hd_error v <> Some "{"%char -> parse_value v = PVal [v].
Proof.
  intros v T L H. unfold parse_value. destruct v as [|c r]; [destruct T|].
  destruct (Ascii.eqb_spec c "{") as [->|D]; [now destruct H|]. rewrite safe_copy_ok by exact L. cbn [pbind].
  assert (E : trim_space (c :: r) = c :: r).
  { pose proof (trim_tight [] (c :: r) []) as Q. cbn [app] in Q. rewrite app_nil_r in Q. apply Q; try easy. }
  rewrite E, safe_copy_ok by exact L. reflexivity.
Qed.
Lemma value_braces : forall ts, Forall part_ok ts -> (List.length ts <= 100)%nat -> (List.length (commas (map part ts)) + 2 < 128)%nat ->
  parse_value ("{"%char :: commas (map part ts) ++ ["}"%char]) = PVal (map mid ts).
Proof.
  intros ts O C L. unfold parse_value. rewrite Ascii.eqb_refl. rewrite app_comm_cons, last_last, Ascii.eqb_refl. cbn [negb app].
  rewrite safe_copy_ok by (rewrite app_length; cbn [List.length]; unfold LINE_SIZE; lia). cbn [pbind]. rewrite removelast_last.
  apply tokens_commas; [exact O| |lia|lia]. intros t I.
  assert (G : (List.length (part t) <= List.length (commas (map part ts)))%nat).
  { clear - I. induction ts as [|a ts IH]; [destruct I|]. cbn [map]. destruct ts as [|b ts].
    - destruct I as [->|[]]. cbn. lia.
    - change (commas (part a :: map part (b :: ts))) with (part a ++ ","%char :: commas (map part (b :: ts))). rewrite app_length. cbn [List.length].
      destruct I as [->|I]; [lia|]. specialize (IH I). lia. }
  destruct t as [[a v] b]. cbn [part mid] in *. rewrite !app_length in G. lia.
Qed.
