(** Specification and proofs for symbol extraction and memory reads (model: FDRead.v). *)
From Coq Require Import String Ascii List Arith ZArith Bool Lia Permutation Sorted.
From Verif Require Import PyBase PyBaseFacts PyList PyListFacts Grid GridFacts FDRead FDReadFacts.
Import ListNotations.
Open Scope list_scope.
Open Scope nat_scope.

(** ** str.replace with a separator whose first character does not recur *)
Lemma py_in_app_l : forall sub a b, py_in sub a = true -> py_in sub (a ++ b) = true.
Proof.
  intros sub a b H. apply py_in_spec in H. destruct H as (x & y & ->). apply py_in_spec.
  exists x, (y ++ b)%string. now rewrite !sapp_assoc.
Qed.
Lemma py_in_app_r : forall sub a b, py_in sub b = true -> py_in sub (a ++ b) = true.
Proof.
  intros sub a b H. apply py_in_spec in H. destruct H as (x & y & ->). apply py_in_spec.
  exists (a ++ x)%string, y. now rewrite !sapp_assoc.
Qed.

(** Comparing two cuts of the same text. *)
Lemma app_cut : forall a b c d : string, (a ++ b = c ++ d)%string ->
  (exists t, c = (a ++ t)%string /\ b = (t ++ d)%string) \/
  (exists t, t <> ""%string /\ a = (c ++ t)%string /\ d = (t ++ b)%string).
Proof.
  induction a as [|x a IH]; intros b c d H.
  - left. exists c. auto.
  - destruct c as [|y c].
    + right. exists (String x a). split; [discriminate|]. split; auto.
    + cbn [String.append] in H. inversion H; subst. destruct (IH b c d H2) as [(t & -> & ->)|(t & Ht & -> & ->)].
      * left. exists t. auto.
      * right. exists t. auto.
Qed.

Lemma replace_none : forall old new s, py_in old s = false -> py_replace old new s = s.
Proof. intros. unfold py_replace, py_split. rewrite split_aux_none by auto. reflexivity. Qed.

Lemma replace_once : forall c o new a b, no_char c o ->
  py_in (String c o) a = false -> py_in (String c o) b = false ->
  py_replace (String c o) new (a ++ String c o ++ b) = (a ++ new ++ b)%string.
Proof.
  intros c o new a b Hc Ha Hb. unfold py_replace, py_split. rewrite split_aux_at.
  - rewrite split_aux_none by auto. cbn [String.concat String.append]. reflexivity.
  - discriminate.
  - intros a1 a2 E Hn. destruct (prefix (String c o) (a2 ++ String c o ++ b)) eqn:P; auto. exfalso.
    apply prefix_spec in P. destruct P as (t & P).
    destruct (app_cut _ _ _ _ P) as [(u & E1 & E2)|(u & Hu & E1 & E2)].
    + (* a2 is inside the separator *)
      destruct a2 as [|x a2]; [congruence|]. inversion E1; subst.
      destruct u as [|y u].
      * rewrite sapp_nil_r in *. rewrite (proj2 (py_in_spec _ _)) in Ha; [discriminate|].
        exists a1, ""%string. now rewrite sapp_nil_r.
      * inversion E2; subst. apply Hc. rewrite str_to_list_app, in_app_iff. right. cbn; auto.
    + rewrite (proj2 (py_in_spec (String c o) a)) in Ha; [discriminate|]. exists a1, u. now rewrite E, E1.
Qed.

(** ** Access strings *)
(** An index with its offset, written by hand. *)
Definition signed (axis : string) (o : Z) : string :=
  match o with
  | Z0 => axis
  | Zpos n => (axis ++ "+" ++ str_of_nat (Pos.to_nat n))%string
  | Zneg n => (axis ++ "-" ++ str_of_nat (Pos.to_nat n))%string
  end.
Definition signed_carpetx (d : string) (o : Z) : string :=
  match o with
  | Z0 => ""%string
  | Zpos n => (" + " ++ str_of_nat (Pos.to_nat n) ++ "*p.DI[" ++ d ++ "]")%string
  | Zneg n => (" - " ++ str_of_nat (Pos.to_nat n) ++ "*p.DI[" ++ d ++ "]")%string
  end.

Lemma digits_no : forall n c, is_digit c = false -> no_char c (str_of_nat n).
Proof. intros n c Hc H. apply str_of_nat_digits in H. congruence. Qed.

Lemma no_char_app : forall c a b, no_char c a -> no_char c b -> no_char c (a ++ b).
Proof. intros c a b Ha Hb H. rewrite str_to_list_app in H. apply in_app_iff in H. destruct H; auto. Qed.
Lemma py_in_no_char : forall c sub s, In c (str_to_list sub) -> no_char c s -> py_in sub s = false.
Proof.
  intros c sub s H N. destruct (py_in sub s) eqn:E; auto. apply py_in_spec in E.
  destruct E as (a & b & ->). exfalso. apply N. rewrite !str_to_list_app, !in_app_iff. auto.
Qed.
Lemma no_char_lit : forall c s, existsb (Ascii.eqb c) (str_to_list s) = false -> no_char c s.
Proof.
  intros c s H Hin. assert (existsb (Ascii.eqb c) (str_to_list s) = true); [|congruence].
  apply existsb_exists. exists c. split; auto. apply Ascii.eqb_refl.
Qed.

Lemma offset_index_signed : forall axis o, no_char "+" axis -> no_char "-" axis -> offset_index axis o = signed axis o.
Proof.
  intros axis [|n|n] Hp Hm; unfold offset_index; cbn [Z.eqb signed str_of_Z]; auto.
  - apply replace_none. apply (py_in_no_char "-"); [cbn; auto|].
    apply no_char_app; auto. apply no_char_app; [now apply no_char_lit|now apply digits_no].
  - change ("+" ++ "-" ++ str_of_nat (Pos.to_nat n))%string with ("+-" ++ str_of_nat (Pos.to_nat n))%string.
    apply replace_once.
    + now apply no_char_lit.
    + apply (py_in_no_char "+"); [cbn; auto|auto].
    + apply (py_in_no_char "+"); [cbn; auto|now apply digits_no].
Qed.
Lemma offset_carpetx_signed : forall d o, no_char "+" d -> no_char "-" d ->
  offset_carpetx d o = signed_carpetx d o.
Proof.
  intros d [|n|n] Hp Hm; unfold offset_carpetx; cbn [Z.eqb signed_carpetx str_of_Z]; auto.
  - apply replace_none. apply (py_in_no_char "-"); [cbn; auto|].
    repeat apply no_char_app; auto; try (now apply no_char_lit); now apply digits_no.
  - change (" + " ++ ("-" ++ str_of_nat (Pos.to_nat n)) ++ "*p.DI[" ++ d ++ "]")%string
      with (" " ++ "+ -" ++ (str_of_nat (Pos.to_nat n) ++ "*p.DI[" ++ d ++ "]"))%string.
    rewrite replace_once.
    + reflexivity.
    + now apply no_char_lit.
    + reflexivity.
    + apply (py_in_no_char "+"); [cbn; auto|].
      repeat apply no_char_app; auto; try (now apply no_char_lit); now apply digits_no.
Qed.

(** ** Names of temporaries *)
Definition part (axis : string) (o : Z) : string :=
  match o with
  | Z0 => ""%string
  | Zpos n => ("_" ++ axis ++ "p" ++ str_of_nat (Pos.to_nat n))%string
  | Zneg n => ("_" ++ axis ++ "m" ++ str_of_nat (Pos.to_nat n))%string
  end.
Definition temp_name (base : string) (p : pt) : string :=
  let '(a, b, c) := p in (base ++ part "i0" a ++ part "i1" b ++ part "i2" c)%string.

Lemma temp_name_ok : forall base p, base <> ""%string -> fd_temp_variable_name base p = Ok (temp_name base p).
Proof.
  intros base [[a b] c] H. unfold fd_temp_variable_name. destruct (String.eqb_spec base ""); [contradiction|].
  unfold temp_name, offset_suffix.
  destruct a as [|a|a], b as [|b|b], c as [|c|c]; cbn [Z.ltb Z.compare app String.concat part Z.abs str_of_Z];
    rewrite ?sapp_nil_r; auto; f_equal; f_equal; rewrite ?sapp_assoc; cbn [String.append]; rewrite ?sapp_assoc; auto.
Qed.

Definition not_digit_head (s : string) : Prop :=
  match s with EmptyString => True | String c _ => is_digit c = false end.
Lemma part_head : forall axis o s, not_digit_head s -> not_digit_head (part axis o ++ s).
Proof. intros axis [|n|n] s H; cbn; auto. Qed.

Lemma digits_cut : forall n m s t, not_digit_head s -> not_digit_head t ->
  (str_of_nat n ++ s = str_of_nat m ++ t)%string -> n = m /\ s = t.
Proof.
  intros n m s t Hs Ht H. apply (f_equal str_to_list) in H. rewrite !str_to_list_app in H.
  destruct (cut_unique (fun c => negb (is_digit c)) (str_to_list (str_of_nat n)) (str_to_list s)
     (str_to_list (str_of_nat m)) (str_to_list t)) as [E1 E2]; auto.
  - intros x Hx. apply str_of_nat_digits in Hx. now rewrite Hx.
  - intros x Hx. apply str_of_nat_digits in Hx. now rewrite Hx.
  - destruct s; cbn in *; auto. now rewrite Hs.
  - destruct t; cbn in *; auto. now rewrite Ht.
  - apply str_list_inj in E1. apply str_list_inj in E2. apply str_of_nat_inj in E1. auto.
Qed.

Definition not_axis_head (k : ascii) (s : string) : Prop :=
  match s with String "_" (String "i" (String c _)) => c <> k | _ => True end.

Lemma part_cut : forall k o o' s t, not_digit_head s -> not_digit_head t ->
  not_axis_head k s -> not_axis_head k t ->
  (part (String "i" (String k "")) o ++ s = part (String "i" (String k "")) o' ++ t)%string -> o = o' /\ s = t.
Proof.
  intros k o o' s t Ds Dt As At H.
  destruct o as [|n|n], o' as [|m|m]; cbn [part String.append] in H; auto.
  - subst s. cbn in As. congruence.
  - subst s. cbn in As. congruence.
  - subst t. cbn in At. congruence.
  - inversion H as [H1]. apply digits_cut in H1 as [H1 H2]; auto. split; auto. f_equal. now apply Pos2Nat.inj.
  - discriminate.
  - subst t. cbn in At. congruence.
  - discriminate.
  - inversion H as [H1]. apply digits_cut in H1 as [H1 H2]; auto. split; auto. f_equal. now apply Pos2Nat.inj.
Qed.

Definition tail_text (p : pt) : string := let '(a, b, c) := p in (part "i0" a ++ part "i1" b ++ part "i2" c)%string.
Lemma tail_inj : forall p q, tail_text p = tail_text q -> p = q.
Proof.
  intros [[a b] c] [[a' b'] c'] H. unfold tail_text in H.
  apply (part_cut "0") in H.
  - destruct H as [-> H]. apply (part_cut "1") in H.
    + destruct H as [-> H]. assert (H' : (part "i2" c ++ "" = part "i2" c' ++ "")%string) by now rewrite !sapp_nil_r.
      apply (part_cut "2") in H'; cbn; auto. destruct H' as [-> _]. reflexivity.
    + destruct c; cbn; auto.
    + destruct c'; cbn; auto.
    + destruct c; cbn; auto; discriminate.
    + destruct c'; cbn; auto; discriminate.
  - destruct b; cbn; auto; destruct c; cbn; auto.
  - destruct b'; cbn; auto; destruct c'; cbn; auto.
  - destruct b; cbn; try discriminate; destruct c; cbn; auto; discriminate.
  - destruct b'; cbn; try discriminate; destruct c'; cbn; auto; discriminate.
Qed.
Lemma tail_shape : forall p, tail_text p = ""%string \/ exists t, tail_text p = ("_i" ++ t)%string.
Proof.
  intros [[a b] c]. unfold tail_text. destruct a; cbn; [|eauto|eauto]. destruct b; cbn; [|eauto|eauto].
  destruct c; cbn; eauto.
Qed.

(** No gridfunction name continues another one with "_i". *)
Definition no_offset_like (names : list string) : Prop :=
  forall a b, In a names -> In b names -> prefix (a ++ "_i") b = false.

Lemma temp_name_inj : forall names a b p q, no_offset_like names -> In a names -> In b names ->
  temp_name a p = temp_name b q -> a = b /\ p = q.
Proof.
  assert (L : forall names a b p q, no_offset_like names -> In a names -> In b names ->
     forall t, t <> ""%string -> b = (a ++ t)%string -> tail_text p = (t ++ tail_text q)%string -> False).
  { intros names a b p q Hn Ha Hb t Ht -> E. destruct (tail_shape p) as [E0|(u & E0)].
    - rewrite E0 in E. destruct t; [congruence|discriminate].
    - rewrite E0 in E. destruct t as [|c1 [|c2 t]]; [congruence| |].
      + cbn in E. inversion E as [[E1 E2]]. destruct (tail_shape q) as [Q|(v & Q)]; rewrite Q in E2; discriminate.
      + cbn in E. inversion E; subst. specialize (Hn a _ Ha Hb).
        assert (prefix (a ++ "_i") (a ++ String "_" (String "i" t)) = true); [|congruence].
        apply prefix_spec. exists t. now rewrite sapp_assoc. }
  intros names a b [[p0 p1] p2] [[q0 q1] q2] Hn Ha Hb E.
  change (temp_name a (p0, p1, p2)) with (a ++ tail_text (p0, p1, p2))%string in E.
  change (temp_name b (q0, q1, q2)) with (b ++ tail_text (q0, q1, q2))%string in E.
  destruct (app_cut _ _ _ _ E) as [(t & E1 & E2)|(t & Ht & E1 & E2)].
  - destruct t as [|c t].
    + rewrite sapp_nil_r in E1. subst b. cbn [String.append] in E2. apply tail_inj in E2. auto.
    + exfalso. eapply (L names a b); eauto. discriminate.
  - exfalso. eapply (L names b a); eauto.
Qed.

(** ** Extracting the derivative symbols *)
Definition no_clash (reg : registry) (cpars free : list string) : Prop :=
  forall v, In v free -> dmem v reg = true -> ~ In v cpars.

Lemma deriv_vars_loop_spec : forall reg cpars free, no_clash reg cpars free ->
  exists l, deriv_vars_loop reg cpars free = Ok l /\
    forall v, In v l <-> In v free /\ dget v reg = None /\ ~ In v cpars /\ deriv_like v = true.
Proof.
  intros reg cpars free; induction free as [|v r IH]; intros H.
  - exists []. split; auto. intros v; cbn; tauto.
  - destruct IH as (l & E & M); [intros w Hw; apply H; cbn; auto|].
    cbn [deriv_vars_loop]. unfold symbol_kind.
    destruct (dmem v reg) eqn:G.
    + assert (C : str_in v cpars = false).
      { destruct (str_in v cpars) eqn:Q; auto. apply str_in_spec in Q. exfalso. apply (H v); cbn; auto. }
      rewrite C. cbn [andb]. rewrite E. exists l. split; auto. intros w. rewrite M. cbn [In].
      apply dmem_true in G. destruct G as [g G]. split; [tauto|].
      intros ([<-|Hw] & Hn & R); [congruence|tauto].
    + cbn [andb]. apply dmem_false in G. destruct (str_in v cpars) eqn:C.
      * rewrite E. exists l. split; auto. intros w. rewrite M. cbn [In]. split; [tauto|].
        apply str_in_spec in C. intros ([<-|Hw] & Hn & Hc & R); [contradiction|tauto].
      * rewrite E.
        assert (Hc : ~ In v cpars) by (intros Q; apply str_in_spec in Q; congruence).
        destruct (deriv_like v) eqn:D.
        -- exists (v :: l). split; auto. intros w. cbn [In]. rewrite M. split.
           ++ intros [<-|Q]; tauto.
           ++ intros ([<-|Hw] & R); tauto.
        -- exists l. split; auto. intros w. rewrite M. cbn [In]. split; [tauto|].
           intros ([<-|Hw] & R1 & R2 & R); [congruence|tauto].
Qed.

(** The name contains an underscore, one of the operator letters d, dKO, dup, ddn, and a D. *)
Definition derivative_name (v : string) : Prop :=
  exists a op b, In op op_letters /\ v = (a ++ "_" ++ op ++ "D" ++ b)%string.
Lemma deriv_like_spec : forall v, deriv_like v = true <-> derivative_name v.
Proof.
  intros v. unfold deriv_like, derivative_name, op_letters. rewrite existsb_exists. split.
  - intros (x & Hx & E). apply py_in_spec in E. destruct E as (a & b & ->).
    cbn [In] in Hx. destruct Hx as [<-|[<-|[<-|[<-|[]]]]];
      [exists a, "d"%string, b|exists a, "dKO"%string, b|exists a, "dup"%string, b|exists a, "ddn"%string, b];
      (split; [cbn; auto|reflexivity]).
  - intros (a & op & b & Hx & ->). exists ("_" ++ op ++ "D")%string.
    cbn [In] in Hx. destruct Hx as [<-|[<-|[<-|[<-|[]]]]]; (split; [cbn; auto 6|apply py_in_spec; eexists; eexists; reflexivity]).
Qed.

Definition needs_fd (reg : registry) (cpars free : list string) (v : string) : Prop :=
  In v free /\ dget v reg = None /\ ~ In v cpars /\ derivative_name v.

Lemma extract_spec : forall order reg cpars free upw,
  (forall l, Permutation l (order l)) -> no_clash reg cpars free ->
  exists l, extract_deriv_vars order reg cpars free upw = Ok l /\
    (forall v, In v l <-> needs_fd reg cpars free v \/
       (upw = true /\ exists u, needs_fd reg cpars free u /\ py_in "_dupD" u = true /\
          v = py_replace "_dupD" "_ddnD" u)) /\
    (upw = false -> NoDup l).
Proof.
  intros order reg cpars free upw Ho Hc.
  destruct (deriv_vars_loop_spec reg cpars free Hc) as (l0 & E & M).
  assert (M' : forall v, In v l0 <-> In v free /\ dget v reg = None /\ ~ In v cpars /\ derivative_name v)
    by (intros v; rewrite M, deriv_like_spec; reflexivity).
  clear M. rename M' into M.
  unfold extract_deriv_vars. rewrite E. eexists. split; [reflexivity|].
  destruct (superfast_uniq_spec String.eqb String.eqb_eq l0) as (N & M2 & _).
  assert (IO : forall l v, In v (order l) <-> In v l).
  { intros l v. split; intros H; [apply (Permutation_in _ (Permutation_sym (Ho l)) H)|apply (Permutation_in _ (Ho l) H)]. }
  split.
  - intros v. rewrite IO. unfold needs_fd. destruct upw.
    + rewrite in_app_iff, M2, M, in_map_iff. split.
      * intros [H|(u & <- & H)]; [now left|]. apply filter_In in H. destruct H as [H1 H2].
        apply M2, M in H1. right. split; auto. exists u. auto.
      * intros [H|(_ & u & H1 & H2 & ->)]; [now left|]. right. exists u. split; auto.
        apply filter_In. split; auto. apply M2, M. auto.
    + rewrite M2, M. split; [tauto|]. intros [H|(Q & _)]; [auto|discriminate].
  - intros ->. eapply Permutation_NoDup; [apply Ho|]. auto.
Qed.

(** The downwind partner of a built symbol. *)
Lemma downwind_partner : forall p ud i j, py_in "_dupD" (p ++ ud) = false -> j <> ""%string ->
  all_digits i -> all_digits j ->
  py_in "_dupD" (deriv_symbol p ud "dup" i j) = true /\
  py_replace "_dupD" "_ddnD" (deriv_symbol p ud "dup" i j) = deriv_symbol p ud "ddn" i j.
Proof.
  intros p ud i j H Hj Di Dj. destruct j as [|d j]; [congruence|].
  assert (E : forall o, deriv_symbol p ud o i (String d j) =
    ((p ++ ud) ++ ("_" ++ o ++ "D") ++ (Ds (String.length j) ++ i ++ String d j))%string).
  { intros o. unfold deriv_symbol. cbn [String.length Ds]. rewrite !sapp_assoc. reflexivity. }
  rewrite !E. change ("_" ++ "dup" ++ "D")%string with "_dupD"%string.
  change ("_" ++ "ddn" ++ "D")%string with "_ddnD"%string. split.
  - apply py_in_app_r, py_in_app_l. reflexivity.
  - apply replace_once.
    + now apply no_char_lit.
    + exact H.
    + apply (py_in_no_char "_"); [cbn; auto|]. apply no_char_app; [|apply no_char_app].
      * unfold no_char. rewrite Ds_list. intros Q. apply repeat_spec in Q. discriminate.
      * intros Q. apply Di in Q. discriminate.
      * intros Q. apply Dj in Q. discriminate.
Qed.

(** ** Reads *)
Lemma pt_eqb_eq : forall p q, pt_eqb p q = true <-> p = q.
Proof.
  intros [[a b] c] [[a' b'] c']. unfold pt_eqb. rewrite !andb_true_iff, !Z.eqb_eq. split.
  - intros [[-> ->] ->]. reflexivity.
  - intros E; inversion E; auto.
Qed.

Lemma dkeys_dset_mem : forall (A : Type) k (v : A) d, In k (dkeys d) -> dkeys (dset k v d) = dkeys d.
Proof.
  intros A k v d H. destruct (dget k d) eqn:E; [eapply dkeys_dset_old; eauto|].
  apply dget_None_keys in E. contradiction.
Qed.

Definition stencil_point (bases : list string) (stencils : list (list pt)) (k : string) (p : pt) : Prop :=
  exists m s, nth_error bases m = Some k /\ nth_error stencils m = Some s /\ In p s.

Lemma points_of_derivs_spec : forall bases stencils d, List.length bases <= List.length stencils ->
  exists d', points_of_derivs bases stencils d = Ok d' /\ dkeys d' = dkeys d /\
    forall k l', dget k d' = Some l' -> exists l, dget k d = Some l /\
      forall p, In p l' <-> In p l \/ stencil_point bases stencils k p.
Proof.
  induction bases as [|b r IH]; intros stencils d Hl; cbn [points_of_derivs].
  - exists d. split; auto. split; auto. intros k l' H. exists l'. split; auto. intros p.
    split; auto. intros [Q|(m & s & Q & _)]; auto. destruct m; discriminate.
  - destruct stencils as [|s0 ss]; [cbn in Hl; lia|]. cbn [tl]. cbn in Hl.
    assert (SP : forall k p, stencil_point (b :: r) (s0 :: ss) k p <->
       (b = k /\ In p s0) \/ stencil_point r ss k p).
    { intros k p. split.
      - intros ([|m] & s & H1 & H2 & H3); cbn in *; [left; split; congruence|right; exists m, s; auto].
      - intros [[-> H]|(m & s & H1 & H2 & H3)]; [exists 0, s0; auto|exists (S m), s; auto]. }
    destruct (dget b d) as [l|] eqn:E.
    + destruct (IH ss (dset b (l ++ s0) d)) as (d' & E' & K & M); [lia|].
      exists d'. split; auto. split.
      * rewrite K. apply dkeys_dset_mem. eapply dget_Some_keys; eauto.
      * intros k l' H. destruct (M k l' H) as (l2 & D & Q). rewrite dget_dset in D.
        destruct (String.eqb_spec k b) as [->|Ne].
        -- inversion D; subst l2. exists l. split; auto. intros p. rewrite Q, in_app_iff, SP. intuition.
        -- exists l2. split; auto. intros p. rewrite Q, SP. intuition congruence.
    + destruct (IH ss d) as (d' & E' & K & M); [lia|]. exists d'. split; auto. split; auto.
      intros k l' H. destruct (M k l' H) as (l2 & D & Q). exists l2. split; auto.
      intros p. rewrite Q, SP. split; [tauto|]. intros [W|[[-> W]|W]]; auto. congruence.
Qed.

Definition origin : pt := (0, 0, 0)%Z.
Lemma points_of_free_spec : forall reg cpars free d, no_clash reg cpars free ->
  (forall k, In k (dkeys reg) <-> In k (dkeys d)) ->
  exists d', points_of_free reg cpars free d = Ok d' /\ dkeys d' = dkeys d /\
    forall k l', dget k d' = Some l' -> exists l, dget k d = Some l /\
      forall p, In p l' <-> In p l \/ (p = origin /\ In k free).
Proof.
  intros reg cpars free; induction free as [|v r IH]; intros d Hc Hk; cbn [points_of_free].
  - exists d. split; auto. split; auto. intros k l' H. exists l'. split; auto. cbn. tauto.
  - assert (Hc' : no_clash reg cpars r) by (intros w Hw; apply Hc; cbn; auto).
    unfold symbol_kind. destruct (dmem v reg) eqn:G.
    + assert (C : str_in v cpars = false).
      { destruct (str_in v cpars) eqn:Q; auto. apply str_in_spec in Q. exfalso. apply (Hc v); cbn; auto. }
      rewrite C. cbn [andb]. apply dmem_true in G. destruct G as [g G].
      assert (Kd : In v (dkeys d)) by (apply Hk; eapply dget_Some_keys; eauto).
      destruct (dget v d) as [l|] eqn:E; [|apply dget_None_keys in E; contradiction].
      destruct (IH (dset v (l ++ [origin]) d) Hc') as (d' & E' & K & M).
      { intros k. rewrite dkeys_dset_mem by auto. apply Hk. }
      exists d'. split; auto. split; [rewrite K; now apply dkeys_dset_mem|].
      intros k l' H. destruct (M k l' H) as (l2 & D & Q). rewrite dget_dset in D.
      destruct (String.eqb_spec k v) as [->|Ne].
      * inversion D; subst l2. exists l. split; auto. intros p. rewrite Q, in_app_iff. cbn. intuition.
      * exists l2. split; auto. intros p. rewrite Q. cbn. intuition congruence.
    + cbn [andb]. assert (N : forall k l, dget k d = Some l -> k <> v).
      { intros k l H ->. apply dget_Some_keys in H. apply Hk in H. apply dmem_false in G.
        apply dget_None_keys in G. contradiction. }
      destruct (IH d Hc' Hk) as (d' & E' & K & M).
      exists d'. split; [destruct (str_in v cpars); auto|]. split; auto.
      intros k l' H. destruct (M k l' H) as (l2 & D & Q). exists l2. split; auto.
      intros p. rewrite Q. pose proof (N k l2 D). cbn. intuition congruence.
Qed.

Definition key_of (style : string) (p : pt) : Z :=
  let '(a, b, c) := p in
  (if String.eqb style "210" then (a + 50) + 100 * ((b + 50) + 100 * (c + 50))
   else (c + 50) + 100 * ((b + 50) + 100 * (a + 50)))%Z.
Definition style_ok (style : string) : Prop := style = "210"%string \/ style = "012"%string.

Lemma unique_idx_ok : forall style p, style_ok style -> unique_idx style p = Ok (key_of style p).
Proof. intros style [[a b] c] [->| ->]; reflexivity. Qed.

Lemma sort_points_spec : forall style l, style_ok style -> exists l', sort_points style l = Ok l' /\
  Permutation l l' /\ StronglySorted (fun p q => (key_of style p <= key_of style q)%Z) l'.
Proof.
  intros style l Hs. unfold sort_points.
  assert (K : keyed style l = Ok (map (fun p => (key_of style p, p)) l)).
  { induction l as [|p l IH]; cbn [keyed map]; auto. rewrite unique_idx_ok, IH by auto. reflexivity. }
  rewrite K. eexists. split; [reflexivity|].
  set (leb := fun x y : Z * pt => Z.leb (fst x) (fst y)).
  destruct (py_sorted_spec leb) with (l := map (fun p => (key_of style p, p)) l) as [P S].
  { intros x y. unfold leb. rewrite !Z.leb_le. lia. }
  { intros x y z. unfold leb. rewrite !Z.leb_le. lia. }
  split.
  - eapply Permutation_trans; [|apply Permutation_map; exact P]. rewrite map_map. cbn. now rewrite map_id.
  - assert (W : Forall (fun x => fst x = key_of style (snd x)) (py_sorted leb (map (fun p => (key_of style p, p)) l))).
    { apply Forall_forall. intros x Hx. apply (Permutation_in _ (Permutation_sym P)) in Hx.
      apply in_map_iff in Hx. destruct Hx as (p & <- & _). reflexivity. }
    clear -S W. induction S as [|x r S IH F]; cbn; [constructor|]. inversion W; subst. constructor; auto.
    rewrite Forall_map. rewrite Forall_forall in *. intros y Hy. specialize (F y Hy). unfold lebP, leb in F.
    apply Z.leb_le in F. rewrite H1 in F. rewrite (H2 y Hy) in F. exact F.
Qed.

Lemma sort_all_spec : forall style d, style_ok style -> exists d', sort_all style d = Ok d' /\
  dkeys d' = dkeys d /\
  forall k l', dget k d' = Some l' -> exists l, dget k d = Some l /\ Permutation l l' /\
     StronglySorted (fun p q => (key_of style p <= key_of style q)%Z) l'.
Proof.
  intros style d Hs; induction d as [|[k l] d IH]; cbn [sort_all].
  - exists []. split; auto. split; auto. discriminate.
  - destruct (sort_points_spec style l Hs) as (l' & E & P & S). rewrite E.
    destruct IH as (d' & E' & K & M). rewrite E'. exists ((k, l') :: d'). split; auto.
    split; [cbn; unfold dkeys in K; now rewrite K|]. intros k' m H. cbn in H |- *.
    destruct (String.eqb k' k); [|auto]. inversion H; subst. eauto.
Qed.

Lemma dget_map : forall (A B : Type) (f : A -> B) k d,
  dget k (map (fun kv => (fst kv, f (snd kv))) d) = option_map f (dget k d).
Proof. intros A B f k d; induction d as [|[k' v] d IH]; cbn; auto. destruct (String.eqb k k'); auto. Qed.

Definition the_read (simd : bool) (k : string) (gf : gfunc) (p : pt) : read :=
  MkRead k p (if simd then "REAL_SIMD_ARRAY" else gf_type gf) (temp_name (g_name gf) p) (read_onept gf p simd).

Definition pts_of (pts : dict (list pt)) (n : string) : list pt := match dget n pts with Some l => l | None => [] end.
Definition block (simd : bool) (reg : registry) (pts : dict (list pt)) (n : string) : list read :=
  match dget n reg with Some gf => map (the_read simd n gf) (pts_of pts n) | None => [] end.

Lemma emit_points_spec : forall simd k gf l, g_name gf <> ""%string ->
  emit_points simd k gf (if simd then "REAL_SIMD_ARRAY" else gf_type gf) l = Ok (map (the_read simd k gf) l).
Proof.
  intros simd k gf l H; induction l as [|p l IH]; cbn [emit_points map]; auto.
  rewrite temp_name_ok by auto. rewrite IH. reflexivity.
Qed.
Lemma emit_all_spec : forall infra simd reg pts names,
  (simd = true -> In infra ["BHaH"; "CarpetX"; "ETLegacy"]%string) ->
  (forall n, In n names -> exists gf, dget n reg = Some gf /\ g_name gf <> ""%string) ->
  emit_all infra simd reg pts names = Ok (flat_map (block simd reg pts) names).
Proof.
  intros infra simd reg pts names Hs; induction names as [|n r IH]; intros H; cbn [emit_all flat_map]; auto.
  destruct (H n (or_introl eq_refl)) as (gf & E & Hn). unfold block at 1. rewrite E.
  assert (B : simd && negb (str_in infra ["BHaH"; "CarpetX"; "ETLegacy"]%string) = false).
  { destruct simd; auto. cbn [andb]. rewrite (proj2 (str_in_spec _ _) (Hs eq_refl)). reflexivity. }
  rewrite B. rewrite emit_points_spec by auto. rewrite IH by (intros; apply H; cbn; auto). reflexivity.
Qed.

(** What must be read. *)
Definition needed (reg : registry) (bases : list string) (stencils : list (list pt)) (free : list string)
  (k : string) (p : pt) : Prop :=
  In k (dkeys reg) /\ (stencil_point bases stencils k p \/ (p = origin /\ In k free)).

Lemma map_fst_const : forall (A B : Type) (x : B) (d : dict A), dkeys (map (fun kv => (fst kv, x)) d) = dkeys d.
Proof. intros. unfold dkeys. rewrite map_map. reflexivity. Qed.

Lemma string_leb_tot : forall x y, String.leb x y = true \/ String.leb y x = true.
Proof. apply String.leb_total. Qed.

Lemma flat_map_filter : forall simd reg pts names k, NoDup names -> In k names ->
  filter (fun r => String.eqb (r_gf r) k) (flat_map (block simd reg pts) names) = block simd reg pts k.
Proof.
  intros simd reg pts names k N Hk.
  assert (B1 : forall m, filter (fun r => String.eqb (r_gf r) k) (block simd reg pts m) =
     if String.eqb m k then block simd reg pts m else []).
  { intros m. unfold block. destruct (dget m reg) as [gf|]; [|now destruct (String.eqb m k)].
    induction (pts_of pts m) as [|p l IH]; cbn; [now destruct (String.eqb m k)|].
    destruct (String.eqb m k); rewrite IH; auto. }
  assert (Z : forall l, ~ In k l -> filter (fun r => String.eqb (r_gf r) k) (flat_map (block simd reg pts) l) = []).
  { induction l as [|m l IH]; intros H; cbn; auto. rewrite filter_app, B1, IH by (intros Q; apply H; cbn; auto).
    destruct (String.eqb_spec m k); [subst; exfalso; apply H; cbn; auto|reflexivity]. }
  induction N as [|m l Hm N IH]; [destruct Hk|]. cbn [flat_map]. rewrite filter_app, B1.
  destruct (String.eqb_spec m k) as [->|Ne].
  - rewrite Z by auto. apply app_nil_r.
  - destruct Hk as [->|Hk]; [congruence|]. rewrite IH by auto. reflexivity.
Qed.

Theorem reads_spec : forall reg cpars infra bases stencils free style simd,
  reg <> [] -> NoDup (dkeys reg) -> (forall k gf, dget k reg = Some gf -> g_name gf <> ""%string) ->
  style_ok style -> (simd = true -> In infra ["BHaH"; "CarpetX"; "ETLegacy"]%string) ->
  no_clash reg cpars free -> List.length bases <= List.length stencils ->
  exists l, read_gfs_list reg cpars infra bases stencils free style simd = Ok l /\
    (forall k p, (exists r, In r l /\ r_gf r = k /\ r_pt r = p) <-> needed reg bases stencils free k p) /\
    NoDup (map (fun r => (r_gf r, r_pt r)) l) /\
    (forall r, In r l -> exists gf, dget (r_gf r) reg = Some gf /\ r = the_read simd (r_gf r) gf (r_pt r)) /\
    StronglySorted (fun r1 r2 => String.leb (r_gf r1) (r_gf r2) = true) l /\
    (forall k, StronglySorted (fun r1 r2 => (key_of style (r_pt r1) <= key_of style (r_pt r2))%Z)
       (filter (fun r => String.eqb (r_gf r) k) l)).
Proof.
  intros reg cpars infra bases stencils free style simd Hne ND HN Hst Hs Hc Hl.
  unfold read_gfs_list.
  destruct (points_of_derivs_spec bases stencils (map (fun kv => (fst kv, [])) reg) Hl) as (d1 & E1 & K1 & M1).
  rewrite map_fst_const in K1. rewrite E1. cbn [py_bind].
  destruct (points_of_free_spec reg cpars free d1 Hc) as (d2 & E2 & K2 & M2); [now rewrite K1|].
  rewrite E2. cbn [py_bind].
  set (d3 := map (fun kv => (fst kv, superfast_uniq pt_eqb (snd kv))) d2).
  destruct (sort_all_spec style d3 Hst) as (d4 & E4 & K4 & M4). rewrite E4. cbn [py_bind].
  assert (K3 : dkeys d3 = dkeys d2) by (unfold d3, dkeys; rewrite map_map; reflexivity).
  assert (Kall : dkeys d4 = dkeys reg) by congruence.
  set (names := py_sorted String.leb (dkeys reg)).
  destruct (py_sorted_spec String.leb string_leb_tot string_leb_trans (dkeys reg)) as [PN SN]. fold names in PN, SN.
  assert (Nn : NoDup names) by (eapply Permutation_NoDup; eauto).
  assert (In_n : forall k, In k names <-> In k (dkeys reg)).
  { intros k. split; intros H; [apply (Permutation_in _ (Permutation_sym PN) H)|apply (Permutation_in _ PN H)]. }
  assert (Pt : forall k, In k (dkeys reg) -> NoDup (pts_of d4 k) /\
     (forall p, In p (pts_of d4 k) <-> stencil_point bases stencils k p \/ (p = origin /\ In k free)) /\
     StronglySorted (fun p q => (key_of style p <= key_of style q)%Z) (pts_of d4 k)).
  { intros k Hk. unfold pts_of. destruct (dget k d4) as [l4|] eqn:D4.
    2:{ apply dget_None_keys in D4. rewrite Kall in D4. contradiction. }
    destruct (M4 k l4 D4) as (l3 & D3 & P4 & S4). unfold d3 in D3. rewrite dget_map in D3.
    destruct (dget k d2) as [l2|] eqn:D2; [|discriminate]. cbn in D3. inversion D3; subst l3.
    destruct (superfast_uniq_spec pt_eqb pt_eqb_eq l2) as (U1 & U2 & _).
    destruct (M2 k l2 D2) as (l1 & D1 & Q2). destruct (M1 k l1 D1) as (l0 & D0 & Q1).
    assert (l0 = []).
    { clear -D0. induction reg as [|[k' v] r IH]; cbn in *; [discriminate|].
      destruct (String.eqb k k'); [now inversion D0|auto]. }
    subst l0. split; [eapply Permutation_NoDup; eauto|]. split; [|exact S4].
    intros p. split.
    - intros H. apply (Permutation_in _ (Permutation_sym P4)) in H. apply U2, Q2 in H. rewrite Q1 in H. cbn in H. tauto.
    - intros H. apply (Permutation_in _ P4). apply U2, Q2. rewrite Q1. cbn. tauto. }
  assert (Em : match reg with [] => Err RuntimeError | _ => emit_all infra simd reg d4 names end
               = Ok (flat_map (block simd reg d4) names)).
  { destruct reg as [|kv0 reg0]; [congruence|]. apply emit_all_spec; auto.
    intros n Hn. apply In_n in Hn. destruct (dget n (kv0 :: reg0)) as [gf|] eqn:D.
    - exists gf. split; auto. eapply HN; eauto.
    - apply dget_None_keys in D. contradiction. }
  replace (match reg with [] => Err RuntimeError | _ :: _ => emit_all infra simd reg d4 names end)
    with (Ok (flat_map (block simd reg d4) names)) by (symmetry; exact Em).
  exists (flat_map (block simd reg d4) names). split; [reflexivity|].
  assert (InB : forall r, In r (flat_map (block simd reg d4) names) <->
     exists gf, dget (r_gf r) reg = Some gf /\ In (r_pt r) (pts_of d4 (r_gf r)) /\ r = the_read simd (r_gf r) gf (r_pt r)).
  { intros r. rewrite in_flat_map. split.
    - intros (k & Hk & Hr). unfold block in Hr. destruct (dget k reg) as [gf|] eqn:D; [|destruct Hr].
      apply in_map_iff in Hr. destruct Hr as (p & <- & Hp). exists gf. cbn. auto.
    - intros (gf & D & Hp & E). exists (r_gf r). split.
      + apply In_n. eapply dget_Some_keys; eauto.
      + unfold block. rewrite D. rewrite E. apply in_map. rewrite <- E. exact Hp. }
  split; [|split; [|split; [|split]]].
  - intros k p. split.
    + intros (r & Hr & <- & <-). apply InB in Hr. destruct Hr as (gf & D & Hp & _).
      assert (Hk : In (r_gf r) (dkeys reg)) by (eapply dget_Some_keys; eauto).
      split; auto. now apply (proj1 (proj2 (Pt _ Hk))).
    + intros [Hk Hp]. destruct (dget k reg) as [gf|] eqn:D; [|apply dget_None_keys in D; contradiction].
      exists (the_read simd k gf p). split; [|split; reflexivity]. apply InB. cbn. exists gf.
      split; auto. split; auto. now apply (proj1 (proj2 (Pt _ Hk))).
  - (* no duplicates *)
    clear InB Em. assert (Hsub : forall k, In k names -> In k (dkeys reg)) by (intros; now apply In_n).
    clear In_n PN SN. induction Nn as [|m r Hm Nr IH]; cbn [flat_map map]; [constructor|].
    rewrite map_app. apply IndexedExpFacts.NoDup_app_disj.
    + unfold block. destruct (dget m reg) as [gf|]; [|constructor]. rewrite map_map. cbn.
      assert (Nm : NoDup (pts_of d4 m)) by (apply (Pt m), Hsub; cbn; auto).
      clear -Nm. induction Nm; cbn; constructor; auto. rewrite in_map_iff. intros (y & E & Hy). inversion E; subst. auto.
    + apply IH. intros; apply Hsub; cbn; auto.
    + intros [k p] H1 H2. apply in_map_iff in H1. destruct H1 as (r1 & E1' & H1). apply in_map_iff in H2.
      destruct H2 as (r2 & E2' & H2). inversion E1'; inversion E2'; subst.
      unfold block in H1. destruct (dget m reg) as [gf|]; [|destruct H1]. apply in_map_iff in H1.
      destruct H1 as (p1 & <- & _). cbn in *. apply in_flat_map in H2. destruct H2 as (m' & Hm' & H2).
      unfold block in H2. destruct (dget m' reg) as [gf'|]; [|destruct H2]. apply in_map_iff in H2.
      destruct H2 as (p2 & <- & _). cbn in *. congruence.
  - intros r Hr. apply InB in Hr. destruct Hr as (gf & D & _ & E). eauto.
  - clear InB Em In_n PN Nn. induction SN as [|m r Sr IH F]; cbn [flat_map]; [constructor|].
    assert (G : forall r', In r' (flat_map (block simd reg d4) r) -> String.leb m (r_gf r') = true).
    { intros r' Hr. apply in_flat_map in Hr. destruct Hr as (m' & Hm' & Hr). unfold block in Hr.
      destruct (dget m' reg); [|destruct Hr]. apply in_map_iff in Hr. destruct Hr as (p & <- & _). cbn.
      rewrite Forall_forall in F. now apply F. }
    unfold block at 1. destruct (dget m reg) as [gf|]; cbn; auto.
    induction (pts_of d4 m) as [|p l IHl]; cbn; auto. constructor; auto.
    rewrite Forall_app. split.
    + rewrite Forall_map. apply Forall_forall. intros q _. cbn. destruct (String.leb_total m m); auto.
    + apply Forall_forall. intros r' Hr. cbn. now apply G.
  - intros k. destruct (in_dec string_dec k names) as [Hk|Hk].
    + rewrite flat_map_filter by auto. unfold block. destruct (dget k reg) as [gf|] eqn:D; [|constructor].
      assert (Sk : StronglySorted (fun p q => (key_of style p <= key_of style q)%Z) (pts_of d4 k))
        by (apply Pt; now apply In_n).
      clear -Sk. induction Sk as [|p l S IH F]; cbn; constructor; auto. rewrite Forall_map. exact F.
    + assert (Z : filter (fun r => String.eqb (r_gf r) k) (flat_map (block simd reg d4) names) = []).
      { clear -Hk. induction names as [|m l IH]; cbn; auto. rewrite filter_app, IH by (intros Q; apply Hk; cbn; auto).
        rewrite app_nil_r. unfold block. destruct (dget m reg) as [gf|]; auto.
        induction (pts_of d4 m); cbn; auto. destruct (String.eqb_spec m k); auto. subst. exfalso; apply Hk; cbn; auto. }
      rewrite Z. constructor.
Qed.

(** ** Memory order *)
(** Address of the point at offset [p] from (i0,i1,i2) in an array with x-extent N0 and y-extent N1
    (style "210", x fastest) or with z fastest (style "012", extents N2, N1). *)
Definition address (style : string) (N0 N1 N2 : Z) (i0 i1 i2 : Z) (p : pt) : Z :=
  let '(a, b, c) := p in
  (if String.eqb style "210" then (i0 + a) + N0 * ((i1 + b) + N1 * (i2 + c))
   else (i2 + c) + N2 * ((i1 + b) + N1 * (i0 + a)))%Z.
Definition on_grid (N0 N1 N2 i0 i1 i2 : Z) (p : pt) : Prop :=
  let '(a, b, c) := p in (0 <= i0 + a < N0 /\ 0 <= i1 + b < N1 /\ 0 <= i2 + c < N2)%Z.
Definition in_window (p : pt) : Prop :=
  let '(a, b, c) := p in (-50 <= a < 50 /\ -50 <= b < 50 /\ -50 <= c < 50)%Z.

Lemma lex_less : forall N M x y z x' y' z' : Z,
  (0 <= x < N -> 0 <= x' < N -> 0 <= y < M -> 0 <= y' < M ->
   z < z' \/ (z = z' /\ (y < y' \/ (y = y' /\ x < x'))) ->
   x + N * (y + M * z) < x' + N * (y' + M * z'))%Z.
Proof.
  intros N M x y z x' y' z' Hx Hx' Hy Hy' [Hz|[-> [Hy2|[-> Hx2]]]].
  - assert (y + M * z + 1 <= y' + M * z')%Z by nia. nia.
  - nia.
  - lia.
Qed.

Lemma key_address : forall style N0 N1 N2 i0 i1 i2 p q, style_ok style ->
  in_window p -> in_window q -> on_grid N0 N1 N2 i0 i1 i2 p -> on_grid N0 N1 N2 i0 i1 i2 q ->
  (key_of style p <= key_of style q)%Z -> p <> q ->
  (address style N0 N1 N2 i0 i1 i2 p < address style N0 N1 N2 i0 i1 i2 q)%Z.
Proof.
  intros style N0 N1 N2 i0 i1 i2 [[a b] c] [[a' b'] c'] Hs Wp Wq Gp Gq K Hne.
  unfold in_window, on_grid in *. destruct Hs as [->| ->]; cbn [address key_of String.eqb Ascii.eqb Bool.eqb] in *.
  - apply lex_less; try lia.
    assert (c < c' \/ (c = c' /\ (b < b' \/ (b = b' /\ (a < a' \/ a = a')))))%Z by lia.
    assert (~ (a = a' /\ b = b' /\ c = c')) by (intros (-> & -> & ->); congruence). lia.
  - apply lex_less; try lia.
    assert (a < a' \/ (a = a' /\ (b < b' \/ (b = b' /\ (c < c' \/ c = c')))))%Z by lia.
    assert (~ (a = a' /\ b = b' /\ c = c')) by (intros (-> & -> & ->); congruence). lia.
Qed.
