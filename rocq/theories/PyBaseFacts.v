(** Lemmas about the shared vocabulary. *)
From Coq Require Import String Ascii List ZArith Bool Lia Permutation.
From Verif Require Import PyBase.
Import ListNotations.
Open Scope string_scope.

Section DictFacts.
Context {A : Type}.
Implicit Types (d e : dict A).

Lemma dget_dset_same : forall k (v : A) d, dget k (dset k v d) = Some v.
Proof.
  intros k v d; induction d as [|[k' v'] d IH]; cbn.
  - now rewrite String.eqb_refl.
  - destruct (String.eqb k k') eqn:E; cbn; rewrite E; auto.
Qed.

Lemma dget_dset_other : forall k k' (v : A) d, k <> k' -> dget k (dset k' v d) = dget k d.
Proof.
  intros k k' v d H; induction d as [|[k2 v2] d IH]; cbn.
  - destruct (String.eqb_spec k k'); congruence.
  - destruct (String.eqb_spec k' k2); cbn.
    + subst; destruct (String.eqb_spec k k2); congruence.
    + destruct (String.eqb k k2); auto.
Qed.

Lemma dget_dset : forall k k' (v : A) d,
  dget k (dset k' v d) = if String.eqb k k' then Some v else dget k d.
Proof.
  intros; destruct (String.eqb_spec k k').
  - subst; apply dget_dset_same.
  - now apply dget_dset_other.
Qed.

Lemma dget_In : forall k (v : A) d, dget k d = Some v -> In (k, v) d.
Proof.
  intros k v d; induction d as [|[k' v'] d IH]; cbn; [discriminate|].
  destruct (String.eqb_spec k k'); intros H.
  - inversion H; subst; auto.
  - auto.
Qed.

Lemma dget_None_keys : forall k d, dget k d = None <-> ~ In k (dkeys d).
Proof.
  intros k d; induction d as [|[k' v'] d IH]; cbn; [tauto|].
  destruct (String.eqb_spec k k'); split; intros H.
  - discriminate.
  - subst; exfalso; apply H; auto.
  - intros [->|Hin]; [congruence|]; apply IH in H; auto.
  - apply IH; intro; apply H; auto.
Qed.

Lemma dget_Some_keys : forall k (v : A) d, dget k d = Some v -> In k (dkeys d).
Proof. intros k v d H; apply dget_In in H; apply (in_map fst) in H; exact H. Qed.

Lemma In_dget : forall k (v : A) d, NoDup (dkeys d) -> In (k, v) d -> dget k d = Some v.
Proof.
  intros k v d; induction d as [|[k' v'] d IH]; cbn; [tauto|].
  intros Hn [H|H]; inversion Hn; subst.
  - inversion H; subst; now rewrite String.eqb_refl.
  - destruct (String.eqb_spec k k'); [|auto].
    subst; exfalso; apply H2; apply (in_map fst) in H; exact H.
Qed.

Lemma dkeys_dset_new : forall k (v : A) d, dget k d = None -> dset k v d = (d ++ [(k, v)])%list.
Proof.
  intros k v d; induction d as [|[k' v'] d IH]; cbn; intros H; auto.
  destruct (String.eqb k k'); [discriminate|]; now rewrite IH.
Qed.

Lemma dkeys_dset_old : forall k (v v0 : A) d, dget k d = Some v0 -> dkeys (dset k v d) = dkeys d.
Proof.
  intros k v v0 d; induction d as [|[k' v'] d IH]; cbn; intros H; [discriminate|].
  destruct (String.eqb_spec k k'); cbn; auto. f_equal; auto.
Qed.

Lemma dkeys_dset : forall k (v : A) d x, In x (dkeys (dset k v d)) <-> x = k \/ In x (dkeys d).
Proof.
  intros k v d x; destruct (dget k d) eqn:E.
  - rewrite (dkeys_dset_old _ _ _ _ E); split; auto.
    intros [->|]; auto; now apply dget_Some_keys in E.
  - rewrite dkeys_dset_new by auto; unfold dkeys; rewrite map_app, in_app_iff; cbn.
    intuition.
Qed.

Lemma NoDup_app_one : forall (l : list string) x, NoDup l -> ~ In x l -> NoDup (l ++ [x])%list.
Proof.
  intros l x H; induction H; cbn; intros Hx.
  - constructor; auto; constructor.
  - constructor.
    + rewrite in_app_iff; cbn; intuition.
    + apply IHNoDup; intuition.
Qed.

Lemma NoDup_dset : forall k (v : A) d, NoDup (dkeys d) -> NoDup (dkeys (dset k v d)).
Proof.
  intros k v d H; destruct (dget k d) eqn:E.
  - now rewrite (dkeys_dset_old _ _ _ _ E).
  - rewrite dkeys_dset_new by auto; unfold dkeys; rewrite map_app; cbn.
    apply NoDup_app_one; auto. now apply dget_None_keys.
Qed.

Lemma In_dset : forall k (v : A) d kv, In kv (dset k v d) -> kv = (k, v) \/ In kv d.
Proof.
  intros k v d kv; induction d as [|[k' v'] d IH]; cbn.
  - intuition.
  - destruct (String.eqb_spec k k'); cbn; intuition; subst; auto.
Qed.

Lemma dmem_true : forall k d, dmem k d = true <-> exists v : A, dget k d = Some v.
Proof.
  intros; unfold dmem; destruct (dget k d); split; try discriminate; eauto.
  intros [v H]; discriminate.
Qed.

Lemma dmem_false : forall k d, dmem k d = false <-> dget k d = None.
Proof. intros; unfold dmem; destruct (dget k d); split; congruence. Qed.

Lemma dset_dget_id : forall k (v : A) d, dget k d = Some v -> dset k v d = d.
Proof.
  intros k v d; induction d as [|[k' v'] d IH]; cbn; intros H; [discriminate|].
  destruct (String.eqb_spec k k'); cbn.
  - now inversion H.
  - f_equal; auto.
Qed.

Lemma dset_dset_same : forall k (v w : A) d, dset k v (dset k w d) = dset k v d.
Proof.
  intros k v w d; induction d as [|[k' v'] d IH]; cbn.
  - now rewrite String.eqb_refl.
  - destruct (String.eqb_spec k k'); cbn.
    + subst; now rewrite String.eqb_refl.
    + destruct (String.eqb_spec k k'); [congruence|]; now rewrite IH.
Qed.

Lemma dget_dupdate : forall k e d, NoDup (dkeys e) ->
  dget k (dupdate d e) = match dget k e with Some v => Some v | None => dget k d end.
Proof.
  intros k e; unfold dupdate; induction e as [|[k' v'] e IH]; cbn; intros d Hn; auto.
  inversion Hn; subst.
  rewrite IH by auto.
  rewrite dget_dset. destruct (String.eqb_spec k k').
  - subst. destruct (dget k' e) eqn:E; auto.
    exfalso; apply H1; now apply dget_Some_keys in E.
  - reflexivity.
Qed.

Lemma NoDup_dupdate : forall e d, NoDup (dkeys d) -> NoDup (dkeys (dupdate d e)).
Proof.
  unfold dupdate; induction e as [|[k v] e IH]; cbn; intros d H; auto.
  apply IH; now apply NoDup_dset.
Qed.

End DictFacts.

(** Strings *)
Lemma sapp_nil_r : forall s, (s ++ "")%string = s.
Proof. induction s; cbn; congruence. Qed.

Lemma sapp_assoc : forall a b c : string, (a ++ b) ++ c = a ++ b ++ c.
Proof. induction a; cbn; intros; congruence. Qed.

Lemma slength_app : forall a b, String.length (a ++ b) = String.length a + String.length b.
Proof. induction a; cbn; intros; auto. Qed.

Lemma sapp_inj_l : forall a b c : string, a ++ b = a ++ c -> b = c.
Proof. induction a; cbn; intros b c H; auto. inversion H; auto. Qed.

Lemma sapp_inj_r : forall a b c : string, a ++ c = b ++ c -> a = b.
Proof.
  intros a; induction a as [|x a IH]; intros [|y b] c H; cbn in *; auto.
  - exfalso. apply (f_equal String.length) in H; cbn in H; rewrite slength_app in H; lia.
  - exfalso. apply (f_equal String.length) in H; cbn in H; rewrite slength_app in H; lia.
  - inversion H; subst; f_equal; eauto.
Qed.

Lemma sapp_inj_len : forall a b c d : string,
  String.length a = String.length c -> a ++ b = c ++ d -> a = c /\ b = d.
Proof.
  induction a as [|x a IH]; intros b [|y c] d HL H; cbn in *; try discriminate; auto.
  inversion H; subst. destruct (IH b c d); auto. subst; auto.
Qed.

Lemma prefix_app : forall p s, prefix p (p ++ s) = true.
Proof.
  induction p as [|c p IH]; cbn; intros s; [destruct s; auto|].
  destruct (ascii_dec c c); congruence.
Qed.

Lemma prefix_spec : forall p s, prefix p s = true <-> exists t, s = p ++ t.
Proof.
  induction p as [|c p IH]; intros s; [destruct s; cbn; split; eauto|].
  split; intros H.
  - destruct s as [|c' s]; [discriminate|].
    cbn in H. destruct (ascii_dec c c'); [|discriminate]; subst.
    apply IH in H as [t ->]; exists t; reflexivity.
  - destruct H as [t ->]. cbn. destruct (ascii_dec c c); [|congruence].
    apply IH; eauto.
Qed.

Lemma py_in_spec : forall sub s, py_in sub s = true <-> exists a b, s = a ++ sub ++ b.
Proof.
  intros sub s; induction s as [|c s IH]; cbn [py_in].
  - rewrite orb_false_r; split.
    + intros H; apply prefix_spec in H as [t Ht]; exists "", t; auto.
    + intros (a & b & H). apply prefix_spec.
      destruct a; cbn in H; [exists b; exact H|discriminate].
  - rewrite orb_true_iff, IH; split.
    + intros [H|(a & b & ->)].
      * apply prefix_spec in H as [t Ht]. exists "", t; auto.
      * exists (String c a), b; auto.
    + intros (a & b & H). destruct a as [|c' a]; cbn in H.
      * left; apply prefix_spec; eauto.
      * right; inversion H; subst; eauto.
Qed.

Lemma sapp_cons_one : forall s c t, (s ++ String c "") ++ t = s ++ String c t.
Proof. intros; rewrite sapp_assoc; reflexivity. Qed.

Definition no_char (c : ascii) (s : string) : Prop := ~ In c (str_to_list s).

Lemma str_to_list_app : forall a b, str_to_list (a ++ b) = (str_to_list a ++ str_to_list b)%list.
Proof. induction a; cbn; intros; congruence. Qed.

Lemma list_to_str_to_list : forall s, list_to_str (str_to_list s) = s.
Proof. induction s; cbn; congruence. Qed.

Lemma str_to_list_to_str : forall l, str_to_list (list_to_str l) = l.
Proof. induction l; cbn; congruence. Qed.

(** A string without an occurrence of [sep] is one segment. *)
Lemma split_aux_none : forall sep s acc,
  py_in sep s = false -> split_aux sep s 0 acc = [acc ++ s].
Proof.
  intros sep s; induction s as [|c s IH]; intros acc H.
  - cbn. now rewrite sapp_nil_r.
  - apply orb_false_iff in H as [H1 H2]. cbn [split_aux]. rewrite H1.
    rewrite IH by auto. now rewrite sapp_cons_one.
Qed.

Lemma split_aux_skip : forall sep a s acc,
  split_aux sep (a ++ s) (String.length a) acc = split_aux sep s 0 acc.
Proof. induction a; cbn; intros; auto. Qed.

(** Splitting at a separator that does not occur earlier. *)
Lemma split_aux_at : forall sep a s acc, sep <> "" ->
  (forall a1 a2, a = a1 ++ a2 -> a2 <> "" -> prefix sep (a2 ++ sep ++ s) = false) ->
  split_aux sep (a ++ sep ++ s) 0 acc = (acc ++ a) :: split_aux sep s 0 "".
Proof.
  intros sep a; induction a as [|c a IH]; intros s acc Hsep H.
  - cbn [append]. rewrite sapp_nil_r.
    destruct sep as [|c0 sep0]; [congruence|].
    cbn [append split_aux].
    change (String c0 (sep0 ++ s)) with (String c0 sep0 ++ s).
    rewrite prefix_app. cbn [String.length]. rewrite Nat.sub_succ, Nat.sub_0_r.
    f_equal. apply split_aux_skip.
  - change (String c a ++ sep ++ s) with (String c (a ++ sep ++ s)).
    cbn [split_aux].
    pose proof (H "" (String c a) eq_refl ltac:(discriminate)) as H0.
    change (String c a ++ sep ++ s) with (String c (a ++ sep ++ s)) in H0. rewrite H0.
    rewrite IH; auto.
    + now rewrite sapp_cons_one.
    + intros a1 a2 E Hn. apply (H (String c a1) a2); auto. cbn; congruence.
Qed.

(** ASCII digits and numbers *)
Lemma sapp_last_inj : forall a b (x y : ascii), a ++ String x "" = b ++ String y "" -> a = b /\ x = y.
Proof.
  intros a; induction a as [|c a IH]; intros [|d b] x y H; cbn in *.
  - inversion H; auto.
  - inversion H; subst. destruct b; discriminate.
  - inversion H; subst. destruct a; discriminate.
  - inversion H; subst. destruct (IH b x y); auto. subst; auto.
Qed.

Lemma digit_ascii_inj : forall a b, a < 10 -> b < 10 -> digit_ascii a = digit_ascii b -> a = b.
Proof.
  intros a b Ha Hb H.
  apply (f_equal nat_of_ascii) in H. unfold digit_ascii in H.
  rewrite !nat_ascii_embedding in H by lia. lia.
Qed.

Lemma nat_digits_nonempty : forall f n, 0 < f -> nat_digits f n <> "".
Proof.
  intros [|f] n H; [lia|]. cbn [nat_digits]. destruct (Nat.ltb n 10); [discriminate|].
  destruct (nat_digits f (n / 10)); discriminate.
Qed.

Lemma nat_digits_inj : forall f g n m, n < f -> m < g ->
  nat_digits f n = nat_digits g m -> n = m.
Proof.
  induction f as [|f IH]; intros [|g] n m Hn Hm H; try lia.
  cbn [nat_digits] in H.
  destruct (Nat.ltb_spec n 10), (Nat.ltb_spec m 10).
  - injection H as H'. now apply digit_ascii_inj.
  - exfalso. assert (H2 : nat_digits g (m / 10) <> "").
    { apply nat_digits_nonempty.
      destruct g; [lia|lia]. }
    destruct (nat_digits g (m/10)) as [|c s]; [congruence|].
    injection H as H3 H4. destruct s; discriminate.
  - exfalso. assert (H2 : nat_digits f (n / 10) <> "").
    { apply nat_digits_nonempty. destruct f; [lia|lia]. }
    destruct (nat_digits f (n/10)) as [|c s]; [congruence|].
    injection H as H3 H4. destruct s; discriminate.
  - apply sapp_last_inj in H as [Ha Hb].
    assert (Hd : n / 10 = m / 10).
    { apply (IH g); auto.
      - assert (n / 10 < n) by (apply Nat.div_lt; lia). lia.
      - assert (m / 10 < m) by (apply Nat.div_lt; lia). lia. }
    assert (Hm' : n mod 10 = m mod 10).
    { apply digit_ascii_inj; auto; apply Nat.mod_upper_bound; lia. }
    rewrite (Nat.div_mod n 10), (Nat.div_mod m 10) by lia. congruence.
Qed.

Lemma str_of_nat_inj : forall n m, str_of_nat n = str_of_nat m -> n = m.
Proof. intros n m; apply nat_digits_inj; lia. Qed.

Definition all_digits (s : string) : Prop := forall c, In c (str_to_list s) -> is_digit c = true.

Lemma digit_ascii_is_digit : forall n, n < 10 -> is_digit (digit_ascii n) = true.
Proof.
  intros n H; unfold is_digit, digit_ascii. rewrite nat_ascii_embedding by lia.
  apply andb_true_iff; split; apply Nat.leb_le; lia.
Qed.

Lemma nat_digits_digits : forall f n, all_digits (nat_digits f n).
Proof.
  induction f as [|f IH]; intros n c; cbn [nat_digits]; [cbn; tauto|].
  destruct (Nat.ltb_spec n 10).
  - cbn. intros [<-|[]]. now apply digit_ascii_is_digit.
  - rewrite str_to_list_app, in_app_iff; cbn [str_to_list In]. intros [H1|[<-|[]]].
    + now apply IH in H1.
    + apply digit_ascii_is_digit, Nat.mod_upper_bound; lia.
Qed.

Lemma str_of_nat_digits : forall n, all_digits (str_of_nat n).
Proof. intros; apply nat_digits_digits. Qed.

Lemma str_of_nat_nonempty : forall n, str_of_nat n <> "".
Proof. intros; apply nat_digits_nonempty; lia. Qed.

Lemma str_of_Z_inj : forall a b, str_of_Z a = str_of_Z b -> a = b.
Proof.
  assert (Hm : forall n p, str_of_nat n <> String "-" p).
  { intros n p H. pose proof (@str_of_nat_digits n "-"%char) as D.
    rewrite H in D; cbn in D. specialize (D (or_introl eq_refl)). discriminate. }
  assert (Hz : forall p, str_of_nat (Pos.to_nat p) <> "0").
  { intros p H. change "0" with (str_of_nat 0) in H.
    apply str_of_nat_inj in H. lia. }
  intros [|p|p] [|q|q] H; cbn [str_of_Z] in H; auto.
  - exfalso; eapply Hz; eauto.
  - discriminate.
  - exfalso; eapply Hz; eauto.
  - apply str_of_nat_inj in H. f_equal. apply Pos2Nat.inj; auto.
  - exfalso; eapply Hm; eauto.
  - discriminate.
  - exfalso; symmetry in H; eapply Hm; eauto.
  - apply sapp_inj_l in H. apply str_of_nat_inj in H. f_equal. apply Pos2Nat.inj; auto.
Qed.

(** Misc list facts *)
Lemma fold_left_invariant : forall (S O : Type) (step : S -> O -> S) (P : S -> Prop),
  (forall s o, P s -> P (step s o)) -> forall l s, P s -> P (fold_left step l s).
Proof. intros S O step P H l; induction l; cbn; auto. Qed.
