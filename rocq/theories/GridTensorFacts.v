(** Parity types and tensor registration (model: Grid.v). *)
From Coq Require Import String Ascii List Arith ZArith Bool Lia Permutation.
From Verif Require Import PyBase PyBaseFacts IndexedExp IndexedExpFacts Grid GridFacts.
Import ListNotations.
Open Scope list_scope.

(** ** Component names *)
Lemma all_digits_string : forall s, all_digits s ->
  exists l, (forall x, In x l -> x < 10) /\ s = digit_string l.
Proof.
  induction s as [|c s IH]; intros H.
  - exists []. split; [intros x []|reflexivity].
  - destruct IH as (l & Hl & ->).
    { intros d Hd. apply H. cbn; auto. }
    assert (Hc : is_digit c = true) by (apply H; cbn; auto).
    exists (nat_of_ascii c - 48 :: l). unfold is_digit in Hc. apply andb_true_iff in Hc.
    destruct Hc as [H1 H2]. apply Nat.leb_le in H1. apply Nat.leb_le in H2. split.
    + intros x [<-|Hx]; [lia|auto].
    + unfold digit_string. cbn [map list_to_str]. f_equal. unfold digit_ascii.
      replace (48 + (nat_of_ascii c - 48)) with (nat_of_ascii c) by lia. symmetry. apply ascii_nat_embedding.
Qed.

Lemma concat_digits : forall l, all_digits (String.concat "" (map str_of_nat l)).
Proof.
  induction l as [|x l IH]; [intros c []|]. intros c H.
  destruct l as [|y l].
  - cbn in H. exact (str_of_nat_digits x c H).
  - change (String.concat "" (map str_of_nat (x :: y :: l)))
      with (str_of_nat x ++ "" ++ String.concat "" (map str_of_nat (y :: l)))%string in H.
    cbn [String.append] in H. rewrite str_to_list_app, in_app_iff in H. destruct H as [H|H].
    + exact (str_of_nat_digits x c H).
    + exact (IH c H).
Qed.

Lemma cons_eq : forall (A : Type) (x y : A) a b, x :: a = y :: b -> x = y /\ a = b.
Proof. intros A x y a b H. inversion H; auto. Qed.

Lemma component_name_inj : forall base a b, (forall x, In x a -> x < 10) -> (forall x, In x b -> x < 10) ->
  component_name base a = component_name base b -> a = b.
Proof.
  intros base a b Ha Hb H. unfold component_name in H. apply sapp_inj_l in H.
  rewrite !digit_string_eq in H by auto. apply (f_equal str_to_list) in H.
  rewrite !digit_string_to_list in H. clear base. revert b Hb H.
  induction a as [|x a IH]; intros [|y b] Hb H; try discriminate; auto.
  cbn [map] in H. apply cons_eq in H. destruct H as [E1 E2]. f_equal.
  - apply digit_ascii_inj; [apply Ha|apply Hb|exact E1]; left; auto.
  - apply IH; auto; intros; [apply Ha|apply Hb]; cbn; auto.
Qed.

Lemma component_name_no_d : forall base l, py_in "_d" base = false -> py_in "_d" (component_name base l) = false.
Proof.
  intros base l H. unfold component_name.
  destruct (all_digits_string _ (concat_digits l)) as (ds & Hd & ->).
  rewrite py_in_app_digits; auto; [|discriminate]. intros c [<-|[<-|[]]]; reflexivity.
Qed.

(** ** Parity types *)
Definition pair_order : list (nat * nat) := [(0,0); (0,1); (0,2); (1,1); (1,2); (2,2)].

(** The independent components of a symmetric tensor in three dimensions, in lexicographic order. *)
Fixpoint index_of (p : nat * nat) (l : list (nat * nat)) : nat :=
  match l with
  | [] => 0
  | q :: r => if Nat.eqb (fst p) (fst q) && Nat.eqb (snd p) (snd q) then 0 else S (index_of p r)
  end.

(** What the parity type of a component should be in three dimensions. *)
Definition parity3 (idx : list nat) : Z :=
  match idx with
  | [] => 0%Z
  | [i] => (Z.of_nat i + 1)%Z
  | i :: j :: _ => (4 + Z.of_nat (index_of (Nat.min i j, Nat.max i j) pair_order))%Z
  end.

(** Four dimensions, rank 2: time-time is a scalar, time-space a vector, space-space a tensor. *)
Definition parity4 (i j : nat) : Z :=
  match i, j with
  | 0, 0 => 0%Z
  | 0, S k | S k, 0 => parity3 [k]
  | S k, S l => parity3 [k; l]
  end.

Lemma last_char_app : forall s c, last_char (s ++ String c "") = Some c.
Proof.
  induction s as [|x s IH]; intros c; [reflexivity|]. cbn [String.append]. cbn [last_char].
  rewrite IH. destruct s; reflexivity.
Qed.

Lemma str_last2_app : forall s a b, str_last2 (s ++ String a (String b "")) = String a (String b "").
Proof.
  intros s a b. unfold str_last2. rewrite slength_app. cbn [String.length].
  replace (String.length s + 2 - 2) with (String.length s) by lia. apply str_drop_app.
Qed.

Lemma ltb_two : forall n a b, Nat.ltb (n + String.length (String a (String b ""))) 2 = false.
Proof. intros. apply Nat.ltb_ge. cbn. lia. Qed.

Lemma int_char_digit : forall i, i < 10 -> int_char (digit_ascii i) = Ok (Z.of_nat i).
Proof.
  intros i H. do 10 (destruct i as [|i]; [reflexivity|]). lia.
Qed.

Definition is_component (gf : gfunc) (idx : list nat) : Prop :=
  exists base, g_name gf = component_name base idx /\ g_rank gf = Z.of_nat (List.length idx).

Lemma parity_rank0 : forall gf, is_component gf [] -> parity_one gf = Ok 0%Z.
Proof. intros gf (base & Hn & Hr). unfold parity_one. rewrite Hr. reflexivity. Qed.

Lemma parity_rank1 : forall gf i, is_component gf [i] -> i < 10 -> parity_one gf = Ok (Z.of_nat i + 1)%Z.
Proof.
  intros gf i (base & Hn & Hr) Hi. unfold parity_one. rewrite Hr, Hn. cbn [List.length Z.of_nat Z.eqb Pos.eqb Pos.of_succ_nat].
  unfold component_name. rewrite digit_string_eq by (intros x [<-|[]]; auto).
  unfold digit_string. cbn [map list_to_str]. rewrite last_char_app, int_char_digit by auto. reflexivity.
Qed.

Lemma parity_rank2_3 : forall gf i j, is_component gf [i; j] -> g_dim gf = 3%Z -> i < 3 -> j < 3 ->
  parity_one gf = Ok (parity3 [i; j]).
Proof.
  intros gf i j (base & Hn & Hr) Hd Hi Hj. unfold parity_one. rewrite Hr, Hn, Hd.
  cbn [List.length Z.of_nat Z.eqb Pos.eqb Pos.of_succ_nat Pos.succ].
  unfold component_name. rewrite digit_string_eq by (intros x [<-|[<-|[]]]; lia).
  unfold digit_string. cbn [map list_to_str]. rewrite str_last2_app, slength_app.
  rewrite ltb_two.
  do 3 (destruct i as [|i]; [do 3 (destruct j as [|j]; [reflexivity|]); lia|]). lia.
Qed.

Lemma parity_rank2_4 : forall gf i j, is_component gf [i; j] -> g_dim gf = 4%Z -> i < 4 -> j < 4 ->
  parity_one gf = Ok (parity4 i j).
Proof.
  intros gf i j (base & Hn & Hr) Hd Hi Hj. unfold parity_one. rewrite Hr, Hn, Hd.
  cbn [List.length Z.of_nat Z.eqb Pos.eqb Pos.of_succ_nat Pos.succ].
  unfold component_name. rewrite digit_string_eq by (intros x [<-|[<-|[]]]; lia).
  unfold digit_string. cbn [map list_to_str]. rewrite str_last2_app, slength_app.
  rewrite ltb_two.
  do 4 (destruct i as [|i]; [do 4 (destruct j as [|j]; [reflexivity|]); lia|]). lia.
Qed.

Definition names_are_keys (st : registry) : Prop := forall k gf, dget k st = Some gf -> g_name gf = k.

Lemma parity_values_one : forall st n gf, NoDup (dkeys st) -> names_are_keys st -> dget n st = Some gf ->
  parity_values n st = match parity_one gf with Ok v => Ok [v] | Err e => Err e end.
Proof.
  assert (Z : forall st n, ~ In n (map (fun kv => g_name (snd kv)) st) -> parity_values n st = Ok []).
  { induction st as [|[k g] st IH]; intros n H; cbn; auto. cbn in H.
    destruct (String.eqb_spec (g_name g) n); [exfalso; auto|]. apply IH. auto. }
  induction st as [|[k g] st IH]; intros n gf ND NK H; [discriminate|].
  cbn in ND. inversion ND as [|? ? Hk ND']; subst.
  assert (Ek : g_name g = k) by (apply (NK k g); cbn; now rewrite String.eqb_refl).
  assert (NK' : names_are_keys st).
  { intros k' g' H'. apply NK. cbn. destruct (String.eqb_spec k' k) as [->|]; auto.
    exfalso. apply Hk. eapply dget_Some_keys; eauto. }
  cbn [parity_values]. rewrite Ek. cbn in H. destruct (String.eqb_spec n k) as [->|N].
  - inversion H; subst g. rewrite String.eqb_refl. destruct (parity_one gf); auto.
    rewrite Z; auto. intros Hin. apply Hk. apply in_map_iff in Hin. destruct Hin as ([k' g'] & E & Hin).
    cbn in E. assert (Hg : dget k' st = Some g') by now apply In_dget. apply NK' in Hg.
    unfold dkeys. apply in_map_iff. exists (k', g'). split; auto. cbn. congruence.
  - destruct (String.eqb_spec k n); [congruence|]. now apply IH.
Qed.

Lemma set_parity_each : forall st names vals, NoDup (dkeys st) -> names_are_keys st ->
  List.length names = List.length vals ->
  (forall i n v, nth_error names i = Some n -> nth_error vals i = Some v ->
     exists gf, dget n st = Some gf /\ parity_one gf = Ok v) ->
  set_parity_types names st = Ok vals.
Proof.
  intros st names vals ND NK Hl H.
  assert (G : parity_loop names st = Ok vals).
  { revert vals Hl H. induction names as [|n r IH]; intros [|v vals] Hl H; try discriminate; auto.
    cbn [parity_loop]. destruct (H 0 n v eq_refl eq_refl) as (gf & E & P).
    rewrite (parity_values_one st n gf ND NK E), P.
    rewrite (IH vals); auto. intros i m w Hm Hw. apply (H (S i)); auto. }
  unfold set_parity_types. rewrite G, Hl, Nat.eqb_refl. reflexivity.
Qed.

Lemma set_parity_refuses : forall st names n gf, NoDup (dkeys st) -> names_are_keys st ->
  (forall m, In m names -> exists g, dget m st = Some g) ->
  In n names -> dget n st = Some gf ->
  ~ (0 <= g_rank gf <= 2)%Z \/ (g_rank gf = 2%Z /\ g_dim gf <> 3%Z /\ g_dim gf <> 4%Z) ->
  exists e, set_parity_types names st = Err e.
Proof.
  intros st names n gf ND NK HR Hn Hg Hbad.
  assert (P : exists e, parity_one gf = Err e).
  { unfold parity_one. cbv zeta.
    destruct (Z.eqb_spec (g_rank gf) 0); [lia|]. destruct (Z.eqb_spec (g_rank gf) 1); [lia|].
    destruct (Z.eqb_spec (g_rank gf) 2).
    - destruct (Nat.ltb _ 2); [eauto|]. unfold parity_table.
      destruct (Z.eqb_spec (g_dim gf) 3); [lia|]. destruct (Z.eqb_spec (g_dim gf) 4); [lia|]. cbn. eauto.
    - destruct (Nat.ltb _ 2); eauto. }
  destruct P as (e & P).
  assert (L : exists e, parity_loop names st = Err e).
  { clear Hbad. induction names as [|m r IH]; [destruct Hn|]. cbn [parity_loop].
    destruct (HR m (or_introl eq_refl)) as (g & Eg).
    rewrite (parity_values_one st m g ND NK Eg).
    destruct Hn as [->|Hn].
    - assert (g = gf) by congruence. subst g. rewrite P. eauto.
    - destruct IH as (e' & E'); [intros; apply HR; cbn; auto|auto|]. destruct (parity_one g); [|eauto]. rewrite E'. eauto. }
  destruct L as (e' & L). unfold set_parity_types. rewrite L. eauto.
Qed.

Lemma set_parity_length : forall st names vals, set_parity_types names st = Ok vals ->
  List.length vals = List.length names.
Proof.
  intros st names vals H. unfold set_parity_types in H. destruct (parity_loop names st) as [l|]; [|discriminate].
  destruct (Nat.eqb_spec (List.length l) (List.length names)); [|discriminate]. now inversion H; subst.
Qed.

(** Same parity type in three dimensions only for components that transform alike. *)
Definition sorted_idx (idx : list nat) : list nat :=
  match idx with i :: j :: r => Nat.min i j :: Nat.max i j :: r | _ => idx end.
Lemma parity3_inj : forall a b, List.length a <= 2 -> List.length b <= 2 ->
  (forall x, In x a -> x < 3) -> (forall x, In x b -> x < 3) ->
  parity3 a = parity3 b -> sorted_idx a = sorted_idx b.
Proof.
  assert (T : forall a, List.length a <= 2 -> (forall x, In x a -> x < 3) ->
     In a (product_range 3 0 ++ product_range 3 1 ++ product_range 3 2)).
  { intros a Hl Hx. rewrite !in_app_iff, !In_product_range.
    destruct a as [|x [|y [|z a]]]; cbn in Hl; try lia; [left|right; left|right; right]; split; auto. }
  assert (C : forallb (fun a => forallb (fun b => negb (Z.eqb (parity3 a) (parity3 b)) ||
      idx_eqb (sorted_idx a) (sorted_idx b)) (product_range 3 0 ++ product_range 3 1 ++ product_range 3 2))
      (product_range 3 0 ++ product_range 3 1 ++ product_range 3 2) = true) by (vm_compute; reflexivity).
  intros a b La Lb Xa Xb H. rewrite forallb_forall in C. specialize (C a (T a La Xa)).
  rewrite forallb_forall in C. specialize (C b (T b Lb Xb)). rewrite H, Z.eqb_refl in C. cbn in C.
  now apply idx_eqb_eq.
Qed.

(** ** Tensor registration *)
(** Options without antisymmetry, and the exchanges they promise. *)
Definition sym_option (rank : nat) (sym : string) (ex : list symop) : Prop :=
  (ex = [] /\ (sym = "" \/ sym = "nosym"))%string \/
  (In (rank, sym, ex) declared_symmetries /\ forall o, In o ex -> so_anti o = false).

Lemma declared_prefix : forall rank sym ex, In (rank, sym, ex) declared_symmetries ->
  (forall o, In o ex -> so_anti o = false) ->
  prefix "sym" sym = true /\ sym <> ""%string /\ 2 <= rank /\ rank <= 4 /\ sym <> "nosym"%string.
Proof.
  assert (C : forallb (fun d => let '(r, s, ex) := d in
     existsb so_anti ex ||
     (prefix "sym" s && negb (String.eqb s "") && negb (String.eqb s "nosym") && Nat.leb 2 r && Nat.leb r 4)) declared_symmetries = true)
    by (vm_compute; reflexivity).
  intros rank sym ex H Ha. rewrite forallb_forall in C. specialize (C _ H). cbn [fst snd] in C.
  assert (E : existsb so_anti ex = false).
  { destruct (existsb so_anti ex) eqn:E; auto. apply existsb_exists in E. destruct E as (o & Ho & Eo).
    rewrite Ha in Eo; auto. }
  rewrite E in C. cbn [orb] in C. repeat rewrite andb_true_iff in C.
  destruct C as ((((C1 & C2) & C3) & C4) & C5). apply negb_true_iff in C2. apply negb_true_iff in C3.
  apply String.eqb_neq in C2. apply String.eqb_neq in C3. apply Nat.leb_le in C4. apply Nat.leb_le in C5. auto.
Qed.

Definition base_ok (base : string) : Prop :=
  valid_symbol base = true /\ base <> ""%string /\ py_in "_d" base = false.

Lemma eneg_involutive : forall e, eneg (eneg e) = e.
Proof. intros [|[] n]; reflexivity. Qed.

Lemma declare_components : forall axes base rank dim sym ex, base_ok base -> 1 <= rank -> rank <= 4 ->
  sym_option rank sym ex ->
  exists T, declare_indexedexp axes (Some base) rank dim sym = Ok T /\
    (forall i, in_range (eff_dim dim) rank i ->
       exists src, in_range (eff_dim dim) rank src /\ canonical ex src /\
                   T i = ESym false (component_name base src)) /\
    (forall i, in_range (eff_dim dim) rank i -> canonical ex i -> T i = ESym false (component_name base i)).
Proof.
  intros axes base rank dim sym ex (Hv & Hne & Hd) H1 H4 Hs. unfold declare_indexedexp.
  rewrite Hv. cbn [negb]. apply Nat.leb_le in H1. apply Nat.leb_le in H4. rewrite H1, H4. cbn [negb andb].
  apply Nat.leb_le in H1. apply Nat.leb_le in H4.
  set (T0 := create_tensor_symbolic (Some base)).
  assert (E0 : forall i, T0 i = ESym false (component_name base i)).
  { intros i. unfold T0, create_tensor_symbolic. destruct (String.eqb_spec base ""); [contradiction|reflexivity]. }
  assert (Fin : forall T1 : tensor entry,
    (forall i, in_range (eff_dim dim) rank i -> exists src, in_range (eff_dim dim) rank src /\ canonical ex src /\
       T1 i = ESym false (component_name base src)) ->
    (forall i, in_range (eff_dim dim) rank i -> canonical ex i -> T1 i = ESym false (component_name base i)) ->
    exists T, zero_out axes rank (eff_dim dim) T1 = Ok T /\
      (forall i, in_range (eff_dim dim) rank i -> exists src, in_range (eff_dim dim) rank src /\ canonical ex src /\
         T i = ESym false (component_name base src)) /\
      (forall i, in_range (eff_dim dim) rank i -> canonical ex i -> T i = ESym false (component_name base i))).
  { intros T1 A B. destruct (zero_out_plain axes rank (eff_dim dim) T1) as (T & E & P).
    - intros i Hi. destruct (A i Hi) as (src & _ & _ & ->). cbn. now apply component_name_no_d.
    - exists T. split; auto. split; intros; rewrite P; auto. }
  destruct Hs as [(-> & Hs)|(Hin & Ha)].
  - assert (R : (if String.eqb sym "" then Ok T0
        else if negb (prefix "sym" sym || prefix "anti" sym || prefix "nosym" sym) then Err ValueError
        else if Nat.eqb rank 1 then if String.eqb sym "nosym" then Ok T0 else Err ValueError
        else symmetrize eneg EZero rank (eff_dim dim) sym T0) = Ok T0).
    { destruct Hs as [Hs|Hs]; subst sym; [reflexivity|]. cbn [String.eqb]. cbn [prefix negb orb].
      change (prefix "nosym" "nosym") with true. rewrite !orb_true_r. cbn [negb].
      destruct (Nat.eqb_spec rank 1); [reflexivity|]. apply nosym_run; lia. }
    cbv zeta. rewrite R. apply Fin.
    + intros i Hi. exists i. split; auto. split; auto. intros o [].
    + intros; apply E0.
  - destruct (declared_prefix _ _ _ Hin Ha) as (P1 & P2 & P3 & _ & P5). cbv zeta.
    apply String.eqb_neq in P2. rewrite P2, P1. cbn [orb negb].
    destruct (Nat.eqb_spec rank 1); [lia|].
    destruct (declared_symmetrize entry eneg EZero eneg_involutive eq_refl rank sym ex (eff_dim dim) T0 Hin)
      as (T1 & R & _ & Can & _ & _ & Pos & _).
    rewrite R. apply Fin.
    + intros i Hi. destruct (Pos Ha i Hi) as (src & S1 & S2 & ->). exists src. auto.
    + intros i Hi Hc. rewrite Can by auto. apply E0.
Qed.

Lemma dedup_spec : forall l acc, NoDup acc ->
  NoDup (fold_left dedup_append l acc) /\
  forall s, In s (fold_left dedup_append l acc) <-> In s acc \/ In s l.
Proof.
  induction l as [|x l IH]; intros acc Ha; cbn [fold_left].
  - split; auto. intros s; cbn; tauto.
  - unfold dedup_append at 2 4. destruct (str_in x acc) eqn:E.
    + apply str_in_spec in E. destruct (IH acc Ha) as [N M]. split; auto.
      intros s. rewrite M. cbn. split; [tauto|]. intros [H|[<-|H]]; auto.
    + assert (Hx : ~ In x acc) by (intros H; apply str_in_spec in H; congruence).
      destruct (IH (acc ++ [x])) as [N M]; [now apply NoDup_app_one|]. split; auto.
      intros s. rewrite M, in_app_iff. cbn. tauto.
Qed.

(** A registration whose arguments every name passes. *)
Lemma register_loop_all : forall infra dim k mkf names i st,
  (forall n j, In n names -> mk_gf infra n j dim k = Ok (mkf n)) ->
  exists st', register_loop infra i names dim k st = (st', Ok tt) /\
    forall n, dget n st' = match dget n st with
                           | Some g => Some g
                           | None => if str_in n names then Some (mkf n) else None
                           end.
Proof.
  intros infra dim k mkf names; induction names as [|m names IH]; intros i st H; cbn [register_loop].
  - exists st. split; auto. intros n. cbn. destruct (dget n st); auto.
  - assert (H' : forall n j, In n names -> mk_gf infra n j dim k = Ok (mkf n)) by (intros; apply H; cbn; auto).
    destruct (dmem m st) eqn:M.
    + destruct (IH (S i) st H') as (st' & E & D). exists st'. split; auto. intros n. rewrite D.
      destruct (dget n st) eqn:Dn; auto. unfold str_in. cbn [existsb].
      destruct (String.eqb_spec n m) as [Q|Q]; auto. subst n. apply dmem_true in M. destruct M as [v M]. congruence.
    + rewrite (H m i) by (cbn; auto).
      destruct (IH (S i) (dset m (mkf m) st) H') as (st' & E & D). exists st'. split; auto. intros n. rewrite D.
      rewrite dget_dset. unfold str_in. cbn [existsb]. apply dmem_false in M.
      destruct (String.eqb_spec n m) as [Q|Q]; [subst n; now rewrite M|].
      reflexivity.
Qed.

(** Keyword arguments every infrastructure accepts. *)
Definition plain_kw (k : kwargs) : Prop :=
  In (k_group k) groups3 /\ k_sync k = None /\ k_centering k = None /\
  (exists f w, k_finf k = FScalar f /\ k_wave k = FScalar w).

Lemma mk_gf_plain : forall infra dim k, In infra ["BHaH"; "ETLegacy"; "CarpetX"]%string ->
  plain_kw k -> k_isbase k = false ->
  exists mkf, (forall n j, mk_gf infra n j dim k = Ok (mkf n)) /\
    forall n, g_name (mkf n) = n /\ g_group (mkf n) = k_group k /\ g_rank (mkf n) = k_rank k /\ g_dim (mkf n) = dim.
Proof.
  intros infra dim k Hi (Hg & Hs & Hc & f & w & Hf & Hw) Hb.
  assert (Hgx : str_in (k_group k) groupsX = true).
  { apply str_in_spec. unfold groupsX. apply in_app_iff. now left. }
  pose proof (proj2 (str_in_spec _ _) Hg) as Hg3.
  destruct Hi as [<-|[<-|[<-|[]]]]; eexists; (split; [intros n j; unfold mk_gf; rewrite Hf, Hw; cbn [pick]|]).
  - cbn [String.eqb Ascii.eqb Bool.eqb]. unfold mk_BHaH. rewrite Hc, Hb, Hs. cbn [base_init]. rewrite Hg3. reflexivity.
  - intros n. cbn. auto.
  - change (String.eqb "ETLegacy" "BHaH") with false. change (String.eqb "ETLegacy" "ETLegacy") with true.
    cbv iota. unfold mk_ETLegacy. rewrite Hc, Hb, Hs. cbn [base_init]. reflexivity.
  - intros n. cbn. auto.
  - change (String.eqb "CarpetX" "BHaH") with false. change (String.eqb "CarpetX" "ETLegacy") with false.
    change (String.eqb "CarpetX" "CarpetX") with true.
    cbv iota. unfold mk_CarpetX. rewrite Hs, Hc, Hb. cbn [base_init].
    change (str_in "CCC" centerings) with true. change (centering_ok "CCC") with true. cbn [negb].
    rewrite Hgx. cbn [negb]. rewrite (suffix3 (k_group k) Hg), sapp_nil_r. reflexivity.
  - intros n. cbn. auto.
Qed.

(** The registry after a tensor registration: previous entries kept, and one new entry for each
    independent component that was not there. *)
Definition registers_components (base : string) (rank : nat) (dim : nat) (ex : list symop) (zdim : Z)
  (group : string) (st st' : registry) : Prop :=
  (forall n gf, dget n st = Some gf -> dget n st' = Some gf) /\
  (forall idx, in_range dim rank idx -> canonical ex idx ->
     dget (component_name base idx) st = None ->
     exists gf, dget (component_name base idx) st' = Some gf /\ g_name gf = component_name base idx /\
       g_rank gf = Z.of_nat rank /\ g_dim gf = zdim /\ g_group gf = group) /\
  (forall n gf, dget n st' = Some gf -> dget n st = Some gf \/
     exists idx, in_range dim rank idx /\ canonical ex idx /\ n = component_name base idx) /\
  (NoDup (dkeys st) -> NoDup (dkeys st')).

Lemma register_components : forall infra base rank dim ex zdim k names st,
  In infra ["BHaH"; "ETLegacy"; "CarpetX"]%string -> plain_kw k ->
  (forall s, In s names <-> exists idx, in_range dim rank idx /\ canonical ex idx /\ s = component_name base idx) ->
  exists st', register_loop infra 0 names zdim (tensor_kw (Z.of_nat rank) k) st = (st', Ok tt) /\
     registers_components base rank dim ex zdim (k_group k) st st'.
Proof.
  intros infra base rank dim ex zdim k names st Hi Hk Hn.
  assert (Hk' : plain_kw (tensor_kw (Z.of_nat rank) k)) by exact Hk.
  destruct (mk_gf_plain infra zdim _ Hi Hk' eq_refl) as (mkf & Hm & Hp).
  destruct (register_loop_all infra zdim _ mkf names 0 st (fun n j _ => Hm n j)) as (st' & E & D).
  exists st'. split; auto. split; [|split; [|split]].
  - intros n gf H. rewrite D, H. reflexivity.
  - intros idx Hr Hc Hnone. exists (mkf (component_name base idx)). rewrite D, Hnone.
    assert (I : In (component_name base idx) names) by (apply Hn; eauto).
    apply str_in_spec in I. rewrite I. split; auto. destruct (Hp (component_name base idx)) as (P1 & P2 & P3 & P4).
    cbn [k_rank k_group tensor_kw] in *. auto.
  - intros n gf H. rewrite D in H. destruct (dget n st) eqn:Q; [left; congruence|].
    destruct (str_in n names) eqn:I; [|discriminate]. apply str_in_spec in I. apply Hn in I. now right.
  - intros ND. pose proof (register_loop_grows infra zdim (tensor_kw (Z.of_nat rank) k) names 0 st) as (_ & _ & G).
    rewrite E in G. auto.
Qed.

Lemma names_are_components : forall base rank dim ex (T : tensor entry),
  (forall i, in_range dim rank i -> exists src, in_range dim rank src /\ canonical ex src /\
     T i = ESym false (component_name base src)) ->
  (forall i, in_range dim rank i -> canonical ex i -> T i = ESym false (component_name base i)) ->
  forall s, In s (fold_left dedup_append (map (fun i => str_entry (T i)) (product_range dim rank)) []) <->
    exists idx, in_range dim rank idx /\ canonical ex idx /\ s = component_name base idx.
Proof.
  intros base rank dim ex T H1 H2 s.
  destruct (dedup_spec (map (fun i => str_entry (T i)) (product_range dim rank)) []) as [_ M]; [constructor|].
  rewrite M. cbn [In]. rewrite in_map_iff. split.
  - intros [[]|(i & <- & Hi)]. apply In_product_range in Hi. destruct (H1 i Hi) as (src & S1 & S2 & ->).
    exists src. auto.
  - intros (idx & Hr & Hc & ->). right. exists idx. rewrite H2 by auto. split; auto. now apply In_product_range.
Qed.

Lemma rank2_registers : forall axes infra base sym ex dim k st,
  In infra ["BHaH"; "ETLegacy"; "CarpetX"]%string -> plain_kw k -> base_ok base -> sym_option 2 sym ex ->
  (1 <= dim)%Z ->
  exists st' T, register_rank2 axes infra base sym dim k st = (st', Ok T) /\
    registers_components base 2 (Z.to_nat dim) ex dim (k_group k) st st' /\
    (forall i, in_range (Z.to_nat dim) 2 i -> exists src, in_range (Z.to_nat dim) 2 src /\ canonical ex src /\
       T i = ESym false (component_name base src)).
Proof.
  intros axes infra base sym ex dim k st Hi Hk Hb Hs Hd. unfold register_rank2.
  assert (De : eff_dim dim = Z.to_nat dim).
  { unfold eff_dim. destruct (Z.leb_spec dim 0); [lia|reflexivity]. }
  destruct (declare_components axes base 2 dim sym ex Hb ltac:(lia) ltac:(lia) Hs) as (T & E & A & B).
  rewrite E. cbv zeta. rewrite De in A, B.
  destruct (register_components infra base 2 (Z.to_nat dim) ex dim k _ st Hi Hk
              (names_are_components base 2 (Z.to_nat dim) ex T A B)) as (st' & R & C).
  change 2%Z with (Z.of_nat 2). rewrite R. exists st', T. auto.
Qed.

Lemma rankN_registers : forall order axes infra base rank sym ex dim k st,
  (forall l, Permutation l (order l)) ->
  In infra ["BHaH"; "ETLegacy"; "CarpetX"]%string -> plain_kw k -> base_ok base ->
  (1 <= rank <= 4) -> (rank = 1 -> ex = []) -> (2 <= rank -> sym_option rank sym ex) ->
  exists st' T, register_rankN order axes infra base (Z.of_nat rank) sym dim k st = (st', Ok T) /\
    registers_components base rank (eff_dim dim) ex dim (k_group k) st st' /\
    (forall i, in_range (eff_dim dim) rank i -> exists src, in_range (eff_dim dim) rank src /\ canonical ex src /\
       T i = ESym false (component_name base src)).
Proof.
  intros order axes infra base rank sym ex dim k st Ho Hi Hk Hb Hr H1 H2. unfold register_rankN.
  replace (Z.leb 1 (Z.of_nat rank) && Z.leb (Z.of_nat rank) 4) with true
    by (symmetry; apply andb_true_iff; split; apply Z.leb_le; lia).
  cbn [negb]. cbv zeta. rewrite Nat2Z.id.
  assert (Hs : sym_option rank (if Nat.eqb rank 1 then ""%string else sym) ex).
  { destruct (Nat.eqb_spec rank 1); [left; auto|apply H2; lia]. }
  destruct (declare_components axes base rank dim _ ex Hb ltac:(lia) ltac:(lia) Hs) as (T & E & A & B).
  rewrite E.
  destruct (register_components infra base rank (eff_dim dim) ex dim k
     (order (fold_left dedup_append (map (fun i => str_entry (T i)) (product_range (eff_dim dim) rank)) [])) st Hi Hk)
     as (st' & R & C).
  { intros s. rewrite <- (names_are_components base rank (eff_dim dim) ex T A B s).
    split; intros H; [apply (Permutation_in _ (Permutation_sym (Ho _)) H)|apply (Permutation_in _ (Ho _) H)]. }
  rewrite R. exists st', T. auto.
Qed.

Lemma rank1_registers : forall axes infra base k st,
  In infra ["BHaH"; "ETLegacy"; "CarpetX"]%string -> plain_kw k -> base_ok base ->
  exists st' T, register_rank1 axes infra base 3 k st = (st', Ok T) /\
    registers_components base 1 3 [] 3 (k_group k) st st' /\
    (forall i, i < 3 -> T [i] = ESym false (component_name base [i])).
Proof.
  intros axes infra base k st Hi Hk Hb. unfold register_rank1.
  assert (Hs : sym_option 1 "" []) by (left; auto).
  destruct (declare_components axes base 1 3 "" [] Hb ltac:(lia) ltac:(lia) Hs) as (T & E & A & B).
  rewrite E. change (eff_dim 3) with 3 in *. cbn [Nat.ltb Nat.leb].
  assert (C0 : forall i, i < 3 -> T [i] = ESym false (component_name base [i])).
  { intros i H. apply B; [split; [reflexivity|intros x [<-|[]]; auto]|intros o []]. }
  destruct (register_components infra base 1 3 [] 3 k (map (fun i => str_entry (T [i])) [0; 1; 2]) st Hi Hk)
     as (st' & R & C).
  { intros s. rewrite in_map_iff. split.
    - intros (i & <- & H). assert (i < 3) by (cbn in H; lia). rewrite C0 by auto. exists [i].
      split; [split; [reflexivity|intros x [<-|[]]; auto]|]. split; [intros o []|reflexivity].
    - intros ([|i [|j idx]] & [Hl Hx] & _ & ->); try discriminate. exists i.
      assert (i < 3) by (apply Hx; cbn; auto). rewrite C0 by auto. split; auto. cbn. lia. }
  change 1%Z with (Z.of_nat 1). rewrite R. exists st', T. auto.
Qed.

(** ** Names in histories with sane tensor base names *)
Definition op_ok (o : gop) : Prop :=
  match o with
  | OReg _ _ _ k => k_isbase k = true
  | ORank1 _ _ base _ _ => valid_name base /\ py_in "_d" base = false
  | ORank2 _ _ base sym _ _ => valid_name base /\ py_in "_d" base = false /\ exists ex, sym_option 2 sym ex
  | ORankN order _ _ base rank sym _ _ => valid_name base /\ py_in "_d" base = false /\
      (forall l, Permutation l (order l)) /\
      (rank <> 1%Z -> exists ex, sym_option (Z.to_nat rank) sym ex)
  end.

(** A valid name, or a valid base name followed by component indices. *)
Definition good_key (n : string) : Prop :=
  valid_name n \/ exists base idx, valid_name base /\ idx <> [] /\ n = component_name base idx.

Lemma declare_valid_symbol : forall axes b rank dim sym T,
  declare_indexedexp axes (Some b) rank dim sym = Ok T -> valid_symbol b = true.
Proof.
  intros axes b rank dim sym T H. unfold declare_indexedexp in H. destruct (valid_symbol b); auto. discriminate.
Qed.

Lemma grows_keys : forall infra i names dim k st, (forall n, In n names -> good_key n) ->
  (forall n gf, dget n st = Some gf -> good_key n) ->
  forall n gf, dget n (fst (register_loop infra i names dim k st)) = Some gf -> good_key n.
Proof.
  intros infra i names dim k st Hn Hs n gf H.
  destruct (register_loop_grows infra dim k names i st) as (_ & G & _).
  destruct (G n gf H) as [H'|[H' _]]; eauto.
Qed.

Lemma op_ok_keys : forall o st, op_ok o -> (forall n gf, dget n st = Some gf -> good_key n) ->
  forall n gf, dget n (grun_op st o) = Some gf -> good_key n.
Proof.
  assert (L : forall T base rank dim0 ex, rank <> 0 ->
    (forall i, in_range dim0 rank i -> exists src, in_range dim0 rank src /\ canonical ex src /\
       T i = ESym false (component_name base src)) -> valid_name base ->
    forall i, in_range dim0 rank i -> good_key (str_entry (T i))).
  { intros T base rank dim0 ex Hr H Hb i Hi. destruct (H i Hi) as (src & [Sl _] & _ & ->). cbn.
    right. exists base, src. split; auto. split; auto. intros ->. cbn in Sl. congruence. }
  intros [infra names dim k|axes infra base dim k|axes infra base sym dim k|order axes infra base rank sym dim k] st Ho Hs n gf;
    cbn [grun_op op_ok] in *.
  - intros H. destruct (register_loop_grows infra dim k names 0 st) as (_ & G & _).
    unfold register_gridfunctions in H.
    assert (H' : dget n (fst (register_loop infra 0 names dim k st)) = Some gf).
    { destruct (register_loop infra 0 names dim k st) as [st' [u|e]]; exact H. }
    destruct (G n gf H') as [H''|(_ & j & E)]; eauto. apply mk_gf_facts in E.
    destruct E as (F & Eb & _). left. apply (ef_base _ _ F). congruence.
  - destruct Ho as [Hb Hd]. unfold register_rank1.
    destruct (declare_indexedexp axes (Some base) 1 dim "") as [T|] eqn:E; [|apply Hs].
    destruct (Nat.ltb_spec (eff_dim dim) 3) as [Q|Q]; [apply Hs|].
    assert (Bo : base_ok base).
    { split; [eapply declare_valid_symbol; eauto|]. split; [apply Hb|auto]. }
    destruct (declare_components axes base 1 dim "" [] Bo ltac:(lia) ltac:(lia) ltac:(left; auto)) as (T' & E' & A & _).
    assert (T' = T) by congruence. subst T'. intros H.
    match type of H with context [register_loop ?a ?b ?c ?d ?e ?f] =>
      apply (grows_keys a b c d e f) with (gf := gf); auto;
      [|destruct (register_loop a b c d e f) as [st' [u|er]]; exact H] end.
    intros m Hm. apply in_map_iff in Hm. destruct Hm as (i & <- & Hi).
    apply (L T base 1 (eff_dim dim) []); auto.
    split; [reflexivity|]. intros x [<-|[]]. cbn in Hi. lia.
  - destruct Ho as (Hb & Hd & ex & Hex). unfold register_rank2.
    destruct (declare_indexedexp axes (Some base) 2 dim sym) as [T|] eqn:E; [|apply Hs].
    assert (Bo : base_ok base).
    { split; [eapply declare_valid_symbol; eauto|]. split; [apply Hb|auto]. }
    destruct (declare_components axes base 2 dim sym ex Bo ltac:(lia) ltac:(lia) Hex) as (T' & E' & A & _).
    assert (T' = T) by congruence. subst T'. cbv zeta. intros H.
    match type of H with context [register_loop ?a ?b ?c ?d ?e ?f] =>
      apply (grows_keys a b c d e f) with (gf := gf); auto;
      [|destruct (register_loop a b c d e f) as [st' [u|er]]; exact H] end.
    intros m Hm.
    apply (proj2 (dedup_spec (map (fun i => str_entry (T i)) (product_range (Z.to_nat dim) 2)) [] ltac:(constructor))) in Hm.
    destruct Hm as [[]|Hm]. apply in_map_iff in Hm. destruct Hm as (i & <- & Hi).
    apply In_product_range in Hi. apply (L T base 2 (eff_dim dim) ex); auto.
    destruct Hi as [Hl Hx]. split; auto. intros x Hin. specialize (Hx x Hin). unfold eff_dim.
    destruct (Z.leb_spec dim 0); [lia|auto].
  - destruct Ho as (Hb & Hd & Hperm & Hex). unfold register_rankN.
    destruct (Z.leb_spec 1 rank); [|apply Hs]. destruct (Z.leb_spec rank 4); [|apply Hs].
    cbn [andb negb]. cbv zeta.
    assert (Sx : exists ex, sym_option (Z.to_nat rank) (if Nat.eqb (Z.to_nat rank) 1 then ""%string else sym) ex).
    { destruct (Nat.eqb_spec (Z.to_nat rank) 1); [exists []; left; auto|]. apply Hex. lia. }
    destruct Sx as (ex & Hsx).
    destruct (declare_indexedexp axes (Some base) (Z.to_nat rank) dim _) as [T|] eqn:E; [|apply Hs].
    assert (Bo : base_ok base).
    { split; [eapply declare_valid_symbol; eauto|]. split; [apply Hb|auto]. }
    destruct (declare_components axes base (Z.to_nat rank) dim _ ex Bo ltac:(lia) ltac:(lia) Hsx) as (T' & E' & A & _).
    assert (T' = T) by congruence. subst T'. intros H1.
    match type of H1 with context [register_loop ?a ?b ?c ?d ?e ?f] =>
      apply (grows_keys a b c d e f) with (gf := gf); auto;
      [|destruct (register_loop a b c d e f) as [st' [u|er]]; exact H1] end.
    intros m Hm. apply (Permutation_in _ (Permutation_sym (Hperm _))) in Hm.
    apply (proj2 (dedup_spec (map (fun i => str_entry (T i)) (product_range (eff_dim dim) (Z.to_nat rank))) [] ltac:(constructor))) in Hm.
    destruct Hm as [[]|Hm]. apply in_map_iff in Hm. destruct Hm as (i & <- & Hi).
    apply In_product_range in Hi. apply (L T base (Z.to_nat rank) (eff_dim dim) ex); auto. lia.
Qed.

Lemma grun_keys : forall ops, Forall op_ok ops -> forall n gf, dget n (grun ops) = Some gf -> good_key n.
Proof.
  intros ops Ho. unfold grun.
  assert (G : forall st, (forall n gf, dget n st = Some gf -> good_key n) ->
    forall n gf, dget n (fold_left grun_op ops st) = Some gf -> good_key n).
  { induction Ho as [|o r Ho Hr IH]; intros st Hs; cbn [fold_left]; auto.
    apply IH. now apply op_ok_keys. }
  apply G. intros n gf H; discriminate.
Qed.
