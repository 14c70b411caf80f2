(** Specification and proofs for FDRead.v. *)
From Coq Require Import String Ascii List Arith ZArith Bool Lia Permutation Sorted.
From Verif Require Import PyBase PyBaseFacts PyList PyListFacts Grid GridFacts FDRead.
Import ListNotations.
Open Scope list_scope.
Open Scope nat_scope.

(** ** Parsing derivative symbols *)
(** How the symbol is put together: base name [p], tensor letters [ud], underscore, operator letters
    [op], one D per derivative direction, tensor indices [i], derivative directions [j]. *)
Fixpoint Ds (n : nat) : string := match n with 0 => ""%string | S n => String "D" (Ds n) end.
Definition deriv_symbol (p ud op i j : string) : string :=
  (p ++ ud ++ "_" ++ op ++ Ds (String.length j) ++ i ++ j)%string.
Definition op_letters : list string := ["d"; "dKO"; "dup"; "ddn"]%string.

Definition all_UD (s : string) : Prop := forall c, In c (str_to_list s) -> is_UD c = true.
Definition no_UD (s : string) : Prop := forall c, In c (str_to_list s) -> is_UD c = false.

Lemma slength_list : forall s, List.length (str_to_list s) = String.length s.
Proof. induction s; cbn; auto. Qed.

Lemma Ds_list : forall n, str_to_list (Ds n) = repeat "D"%char n.
Proof. induction n; cbn; congruence. Qed.

Lemma count_char_app : forall c a b, count_char c (a ++ b) = count_char c a + count_char c b.
Proof. intros. unfold count_char. now rewrite filter_app, app_length. Qed.

Lemma count_none : forall c l, (forall x, In x l -> x <> c) -> count_char c l = 0.
Proof.
  intros c l H. unfold count_char. induction l as [|x l IH]; cbn; auto.
  destruct (Ascii.eqb_spec c x); [exfalso; apply (H x); cbn; auto|]. apply IH. intros; apply H; cbn; auto.
Qed.

Definition ud_count (l : list ascii) : nat := count_char "D" l + count_char "U" l.
Lemma ud_count_app : forall a b, ud_count (a ++ b) = ud_count a + ud_count b.
Proof. intros. unfold ud_count. rewrite !count_char_app. lia. Qed.
Lemma ud_count_none : forall l, (forall c, In c l -> is_UD c = false) -> ud_count l = 0.
Proof.
  intros l H. unfold ud_count. rewrite !count_none; auto; intros x Hx E; subst; now apply H in Hx.
Qed.
Lemma ud_count_cons : forall c l, ud_count (c :: l) = (if is_UD c then 1 else 0) + ud_count l.
Proof.
  intros c l. unfold ud_count, count_char, is_UD. cbn [filter].
  rewrite (Ascii.eqb_sym c "U"), (Ascii.eqb_sym c "D").
  destruct (Ascii.eqb_spec "D" c), (Ascii.eqb_spec "U" c); subst; cbn; try discriminate; lia.
Qed.
Lemma ud_count_all : forall l, (forall c, In c l -> is_UD c = true) -> ud_count l = List.length l.
Proof.
  induction l as [|c l IH]; intros H; auto. rewrite ud_count_cons, (H c) by (cbn; auto).
  cbn. rewrite IH; auto. intros; apply H; cbn; auto.
Qed.
Lemma ud_count_pos : forall l c, In c l -> is_UD c = true -> ud_count l > 0.
Proof.
  induction l as [|x l IH]; intros c H E; [destruct H|]. rewrite ud_count_cons. destruct H as [<-|H].
  - rewrite E. lia.
  - specialize (IH c H E). lia.
Qed.
Lemma digit_not_UD : forall c, is_digit c = true -> is_UD c = false.
Proof.
  intros c H. unfold is_UD. destruct (Ascii.eqb_spec c "U"); [subst; discriminate|].
  destruct (Ascii.eqb_spec c "D"); [subst; discriminate|]. reflexivity.
Qed.

Lemma drop_while_app : forall p a b, (forall c, In c a -> p c = true) ->
  drop_while p (a ++ b) = drop_while p b.
Proof. induction a as [|c a IH]; intros b H; cbn; auto. rewrite (H c) by (cbn; auto). apply IH. intros; apply H; cbn; auto. Qed.
Lemma count_while_app : forall p a b, (forall c, In c a -> p c = true) ->
  count_while p (a ++ b) = List.length a + count_while p b.
Proof. induction a as [|c a IH]; intros b H; cbn; auto. rewrite (H c) by (cbn; auto). rewrite IH; auto. intros; apply H; cbn; auto. Qed.
Lemma count_while_none : forall p b, (forall c, In c b -> p c = false) -> count_while p b = 0.
Proof. intros p [|c b] H; cbn; auto. rewrite (H c); cbn; auto. Qed.

Lemma rstrip_spec : forall a c d, (forall x, In x d -> is_digit x = true) -> is_digit c = false ->
  rstrip_digits ((a ++ [c]) ++ d) = a ++ [c].
Proof.
  intros a c d Hd Hc. unfold rstrip_digits. rewrite !rev_app_distr. cbn [rev app].
  rewrite drop_while_app by (intros x Hx; apply Hd; now apply in_rev).
  cbn. rewrite Hc. cbn. now rewrite rev_involutive.
Qed.

Lemma find_char_spec : forall c a b, ~ In c a -> find_char c (a ++ c :: b) = Some (List.length a).
Proof.
  induction a as [|x a IH]; intros b H; cbn.
  - now rewrite Ascii.eqb_refl.
  - destruct (Ascii.eqb_spec x c); [subst; exfalso; apply H; cbn; auto|].
    rewrite IH; auto. intros Q; apply H; cbn; auto.
Qed.
Lemma rfind_spec : forall c a b, ~ In c b -> rfind_char c (a ++ c :: b) = Some (List.length a).
Proof.
  intros c a b H. unfold rfind_char. rewrite rev_app_distr. cbn [rev].
  rewrite <- app_assoc. cbn [app]. rewrite find_char_spec by now rewrite <- in_rev.
  cbn. f_equal. rewrite app_length, rev_length. cbn. lia.
Qed.

Lemma slice_mid : forall a b c, slice (List.length a) (List.length a + List.length b) (a ++ b ++ c) = b.
Proof.
  intros a b c. unfold slice. replace (List.length a + List.length b - List.length a) with (List.length b) by lia.
  rewrite skipn_app, Nat.sub_diag, skipn_all. cbn [app skipn]. rewrite firstn_app, Nat.sub_diag, firstn_all. cbn. apply app_nil_r.
Qed.
Lemma list_to_str_app : forall a b, list_to_str (a ++ b) = (list_to_str a ++ list_to_str b)%string.
Proof. induction a; cbn; intros; congruence. Qed.

Section Parse.
Variables (p ud op i j : string).
Hypothesis (Hud : all_UD ud) (Hop : In op op_letters) (Hi : all_digits i) (Hj : all_digits j)
           (Hlen : String.length i = String.length ud).

Let P := str_to_list p. Let U := str_to_list ud. Let O := str_to_list op.
Let n := String.length j. Let I := str_to_list i. Let J := str_to_list j.

Lemma symbol_list : str_to_list (deriv_symbol p ud op i j) = P ++ U ++ "_"%char :: O ++ repeat "D"%char n ++ I ++ J.
Proof.
  unfold deriv_symbol. rewrite !str_to_list_app, Ds_list. reflexivity.
Qed.

Lemma op_facts : (forall c, In c O -> is_UD c = false /\ is_digit c = false /\ c <> "_"%char) /\ O <> [].
Proof.
  unfold O. split.
  - destruct Hop as [<-|[<-|[<-|[<-|[]]]]]; intros c H; cbn in H;
      repeat (destruct H as [<-|H]; [split; [reflexivity|split; [reflexivity|discriminate]]|]); destruct H.
  - destruct Hop as [<-|[<-|[<-|[<-|[]]]]]; discriminate.
Qed.

Lemma symbol_ud_count : ud_count (P ++ U ++ "_"%char :: O ++ repeat "D"%char n ++ I ++ J) =
  ud_count P + List.length U + n.
Proof.
  destruct op_facts as [HO _].
  rewrite !ud_count_app, ud_count_cons, !ud_count_app.
  rewrite (ud_count_all U) by exact Hud.
  rewrite (ud_count_none O) by (intros c Hc; now apply HO).
  rewrite (ud_count_none I) by (intros c Hc; apply digit_not_UD; now apply Hi).
  rewrite (ud_count_none J) by (intros c Hc; apply digit_not_UD; now apply Hj).
  rewrite (ud_count_all (repeat _ n)) by (intros c Hc; apply repeat_spec in Hc; now subst).
  rewrite repeat_length. cbn. lia.
Qed.

Lemma symbol_digits :
  let l := P ++ U ++ "_"%char :: O ++ repeat "D"%char n ++ I ++ J in
  List.length l - List.length (rstrip_digits l) = List.length U + n.
Proof.
  intros l. destruct op_facts as [HO HO'].
  assert (E : exists a c, is_digit c = false /\ O ++ repeat "D"%char n = a ++ [c]).
  { destruct (Nat.eq_dec n 0) as [->|Hn].
    - cbn [repeat]. rewrite app_nil_r. destruct (exists_last HO') as (a & c & E). exists a, c.
      split; auto. apply HO. rewrite E. apply in_elt.
    - exists (O ++ repeat "D"%char (n - 1)), "D"%char. split; [reflexivity|].
      rewrite <- app_assoc. f_equal. replace n with ((n - 1) + 1) at 1 by lia. now rewrite repeat_app. }
  destruct E as (a & c & Hc & E).
  assert (El : l = ((P ++ U ++ "_"%char :: a) ++ [c]) ++ (I ++ J)).
  { unfold l. rewrite (app_assoc O), E. repeat (rewrite <- !app_assoc; cbn [app]). reflexivity. }
  rewrite El, rstrip_spec; auto.
  - rewrite (app_length _ (I ++ J)), (app_length I J). unfold I, J, U. rewrite !slength_list, Hlen. fold n. lia.
  - intros x Hx. apply in_app_iff in Hx. destruct Hx as [Hx|Hx]; [now apply Hi|now apply Hj].
Qed.

Lemma parse_good : no_UD p ->
  parse_deriv_var (deriv_symbol p ud op i j) = Ok ((p ++ ud ++ i)%string, (op ++ Ds n ++ j)%string).
Proof.
  intros Hp. unfold parse_deriv_var. rewrite symbol_list. cbv zeta.
  set (l := P ++ U ++ "_"%char :: O ++ repeat "D"%char n ++ I ++ J).
  pose proof symbol_digits as SD. cbv zeta in SD. fold l in SD.
  pose proof symbol_ud_count as SU. fold l in SU. unfold ud_count in SU at 1.
  rewrite SD, SU, (ud_count_none P) by exact Hp. cbn [Nat.add]. rewrite Nat.eqb_refl. cbn [negb].
  destruct op_facts as [HO _].
  assert (El : l = (P ++ U) ++ "_"%char :: (O ++ repeat "D"%char n ++ I ++ J)) by (unfold l; now rewrite <- app_assoc).
  assert (Rf : rfind_char "_" l = Some (List.length (P ++ U))).
  { rewrite El. apply rfind_spec. rewrite !in_app_iff. intros [H|[H|[H|H]]].
    - apply HO in H. tauto.
    - apply repeat_spec in H. discriminate.
    - apply Hi in H. discriminate.
    - apply Hj in H. discriminate. }
  rewrite Rf.
  assert (F : firstn (List.length (P ++ U)) l = P ++ U).
  { rewrite El, firstn_app, Nat.sub_diag, firstn_all. cbn. apply app_nil_r. }
  rewrite F.
  assert (R : count_while is_UD (rev (P ++ U)) = List.length U).
  { rewrite rev_app_distr, count_while_app by (intros c Hc; apply Hud; now apply in_rev).
    rewrite rev_length, count_while_none; [lia|]. intros c Hc. apply Hp. now apply in_rev. }
  rewrite R.
  assert (S : skipn (List.length (P ++ U) + 1) l = O ++ repeat "D"%char n ++ I ++ J).
  { rewrite El. replace ((P ++ U) ++ "_"%char :: O ++ repeat "D"%char n ++ I ++ J)
      with (((P ++ U) ++ ["_"%char]) ++ O ++ repeat "D"%char n ++ I ++ J) by (rewrite <- app_assoc; reflexivity).
    rewrite skipn_app. replace (List.length (P ++ U) + 1) with (List.length ((P ++ U) ++ ["_"%char]))
      by (rewrite app_length; reflexivity).
    rewrite skipn_all, Nat.sub_diag. reflexivity. }
  rewrite S.
  assert (C : count_char "D" (O ++ repeat "D"%char n ++ I ++ J) = n).
  { rewrite !count_char_app.
    rewrite (count_none "D" O) by (intros x Hx E; subst; apply HO in Hx; destruct Hx as [Hx _]; discriminate).
    rewrite (count_none "D" I) by (intros x Hx E; subst; apply Hi in Hx; discriminate).
    rewrite (count_none "D" J) by (intros x Hx E; subst; apply Hj in Hx; discriminate).
    unfold count_char. clear. induction n; cbn; auto. }
  rewrite C.
  assert (LU : List.length U = List.length I) by (unfold U, I; rewrite !slength_list; auto).
  assert (LJ : n = List.length J) by (unfold J; now rewrite slength_list).
  set (A := (P ++ U) ++ ["_"%char]). set (B := O ++ repeat "D"%char n).
  assert (El2 : l = (A ++ B) ++ I ++ J).
  { rewrite El. unfold A, B. rewrite <- !app_assoc. cbn [app]. reflexivity. }
  assert (Ln : List.length l = List.length (A ++ B) + List.length I + n).
  { rewrite El2, !app_length, <- LJ. lia. }
  replace (List.length l - n - List.length U) with (List.length (A ++ B)) by lia.
  replace (List.length l - n) with (List.length (A ++ B) + List.length I) by lia.
  f_equal. f_equal.
  - rewrite El2 at 1. rewrite slice_mid. rewrite !list_to_str_app. unfold P, U, I.
    rewrite !list_to_str_to_list. apply sapp_assoc.
  - replace (List.length (P ++ U) + 1) with (List.length A) by (unfold A; rewrite app_length; reflexivity).
    rewrite El2. rewrite (app_length A B). rewrite <- (app_assoc A B). rewrite slice_mid.
    replace (A ++ B ++ I ++ J) with ((A ++ B ++ I) ++ J) by now rewrite <- !app_assoc.
    replace (List.length A + List.length B + List.length I) with (List.length (A ++ B ++ I)) by (rewrite !app_length; lia).
    rewrite skipn_app, Nat.sub_diag, skipn_all. cbn [app skipn].
    unfold B, O, J. rewrite !list_to_str_app, !list_to_str_to_list, <- Ds_list, list_to_str_to_list.
    apply sapp_assoc.
Qed.

Lemma parse_bad : ~ no_UD p -> parse_deriv_var (deriv_symbol p ud op i j) = Err TypeError.
Proof.
  intros Hp. unfold parse_deriv_var. rewrite symbol_list. cbv zeta.
  pose proof symbol_digits as SD. cbv zeta in SD. rewrite SD.
  pose proof symbol_ud_count as SU. unfold ud_count in SU at 1. rewrite SU.
  assert (ud_count P > 0).
  { destruct (existsb is_UD P) eqn:E.
    - apply existsb_exists in E. destruct E as (c & H1 & H2). eapply ud_count_pos; eauto.
    - exfalso. apply Hp. intros c Hc. destruct (is_UD c) eqn:Q; auto.
      assert (existsb is_UD P = true) by (apply existsb_exists; eauto). congruence. }
  destruct (Nat.eqb_spec (ud_count P + List.length U + n) (List.length U + n)); [lia|]. reflexivity.
Qed.
End Parse.

(** Cutting a text at the end of its leading block. *)
Lemma cut_unique : forall (q : ascii -> bool) a b c d,
  (forall x, In x a -> q x = false) -> (forall x, In x c -> q x = false) ->
  (match b with [] => True | x :: _ => q x = true end) -> (match d with [] => True | x :: _ => q x = true end) ->
  a ++ b = c ++ d -> a = c /\ b = d.
Proof.
  induction a as [|x a IH]; intros b [|y c] d Ha Hc Hb Hd E; cbn in E.
  - auto.
  - exfalso. subst b. rewrite Hc in Hb by (cbn; auto). discriminate.
  - exfalso. subst d. rewrite Ha in Hd by (cbn; auto). discriminate.
  - inversion E; subst. destruct (IH b c d) as [-> ->]; auto; intros; [apply Ha|apply Hc]; cbn; auto.
Qed.
Lemma str_list_inj : forall a b, str_to_list a = str_to_list b -> a = b.
Proof. intros a b H. rewrite <- (list_to_str_to_list a), <- (list_to_str_to_list b). congruence. Qed.

Lemma base_unique : forall p ud i p' ud' i', no_UD p -> no_UD p' -> all_UD ud -> all_UD ud' ->
  all_digits i -> all_digits i' -> String.length i = String.length ud -> String.length i' = String.length ud' ->
  (p ++ ud ++ i = p' ++ ud' ++ i')%string -> p = p' /\ ud = ud' /\ i = i'.
Proof.
  intros p ud i p' ud' i' Hp Hp' Hu Hu' Hi Hi' L L' E.
  apply (f_equal str_to_list) in E. rewrite !str_to_list_app in E.
  assert (HB : forall ud i, all_UD ud -> String.length i = String.length ud ->
     match str_to_list ud ++ str_to_list i with [] => True | x :: _ => is_UD x = true end).
  { intros u s H Hl. destruct u as [|c u]; cbn.
    - destruct s; [exact Logic.I|discriminate].
    - apply H. cbn; auto. }
  destruct (cut_unique is_UD _ _ _ _ Hp Hp' (HB ud i Hu L) (HB ud' i' Hu' L') E) as [E1 E2].
  assert (HD : forall i, all_digits i -> match str_to_list i with [] => True | x :: _ => is_digit x = true end).
  { intros s H. destruct s; cbn; [exact Logic.I|]. apply H. cbn; auto. }
  assert (HN : forall u, all_UD u -> forall x, In x (str_to_list u) -> is_digit x = false).
  { intros u H x Hx. apply H in Hx. destruct (is_digit x) eqn:Q; auto. apply digit_not_UD in Q. congruence. }
  destruct (cut_unique is_digit _ _ _ _ (HN ud Hu) (HN ud' Hu') (HD i Hi) (HD i' Hi') E2) as [E3 E4].
  repeat split; now apply str_list_inj.
Qed.

Lemma Ds_length : forall n, String.length (Ds n) = n.
Proof. induction n; cbn; auto. Qed.

Lemma op_unique : forall op j op' j', In op op_letters -> In op' op_letters -> all_digits j -> all_digits j' ->
  (op ++ Ds (String.length j) ++ j = op' ++ Ds (String.length j') ++ j')%string -> op = op' /\ j = j'.
Proof.
  intros op j op' j' Ho Ho' Hj Hj' E.
  assert (NU : forall o, In o op_letters -> no_UD o).
  { intros o [<-|[<-|[<-|[<-|[]]]]] c H; cbn in H; repeat (destruct H as [<-|H]; [reflexivity|]); destruct H. }
  assert (AD : forall n, all_UD (Ds n)).
  { intros n c H. rewrite Ds_list in H. apply repeat_spec in H. now subst. }
  destruct (base_unique op (Ds (String.length j)) j op' (Ds (String.length j')) j') as (A & B & C); auto.
  - now rewrite Ds_length.
  - now rewrite Ds_length.
Qed.
