(** Specification and proofs for indexed expressions (model: IndexedExp.v). *)
From Coq Require Import String Ascii List Arith ZArith Bool Lia.
From Verif Require Import PyBase PyBaseFacts IndexedExp.
Import ListNotations.
Open Scope list_scope.

(** ** Indices *)
Lemma idx_eqb_eq : forall a b, idx_eqb a b = true <-> a = b.
Proof.
  induction a as [|x a IH]; intros [|y b]; cbn; split; intros H; try discriminate; auto.
  - apply andb_true_iff in H. destruct H as [H1 H2]. apply Nat.eqb_eq in H1. apply IH in H2. congruence.
  - inversion H; subst. rewrite Nat.eqb_refl. cbn. now apply IH.
Qed.

Lemma tset_same : forall A (T : tensor A) i v, tset T i v i = v.
Proof. intros. unfold tset. now rewrite (proj2 (idx_eqb_eq i i) eq_refl). Qed.
Lemma tset_other : forall A (T : tensor A) i j v, i <> j -> tset T i v j = T j.
Proof.
  intros. unfold tset. destruct (idx_eqb j i) eqn:E; auto. apply idx_eqb_eq in E. congruence.
Qed.

Definition in_range (dim rank : nat) (idx : list nat) : Prop :=
  List.length idx = rank /\ (forall x, In x idx -> x < dim).

Lemma In_product_range : forall dim rank idx,
  In idx (product_range dim rank) <-> in_range dim rank idx.
Proof.
  unfold in_range. intros dim; induction rank as [|r IH]; intros idx; cbn [product_range].
  - split; [intros [<-|[]]; split; [reflexivity|intros x []]|].
    intros [H _]. destruct idx; [left; auto|discriminate].
  - rewrite in_flat_map. split.
    + intros (i & Hi & H). apply in_map_iff in H. destruct H as (t & <- & Ht).
      apply IH in Ht. destruct Ht as [Hl Hb]. apply in_seq in Hi. split; [cbn; lia|].
      intros x [<-|Hx]; [lia|auto].
    + intros [Hl Hb]. destruct idx as [|i t]; [discriminate|]. exists i. split.
      * apply in_seq. specialize (Hb i (or_introl eq_refl)). lia.
      * apply in_map. apply IH. split; [cbn in Hl; lia|]. intros; apply Hb; cbn; auto.
Qed.

Lemma NoDup_app_disj : forall (A : Type) (l1 l3 : list A), NoDup l1 -> NoDup l3 ->
  (forall y, In y l1 -> ~ In y l3) -> NoDup (l1 ++ l3).
Proof.
  intros A l1 l3 N1 N3 Di; induction N1 as [|y l1 Hy Nl IH2]; cbn; auto. constructor.
  - rewrite in_app_iff. intros [I|I]; [auto|]. apply (Di y); cbn; auto.
  - apply IH2. intros; apply Di; cbn; auto.
Qed.

Lemma NoDup_map_cons : forall (i : nat) l, NoDup l -> NoDup (map (cons i) l).
Proof.
  intros i l H; induction H; cbn; constructor; auto.
  rewrite in_map_iff. intros (y & E & Hy). inversion E; subst. contradiction.
Qed.

Lemma NoDup_product_range : forall dim rank, NoDup (product_range dim rank).
Proof.
  intros dim; induction rank as [|r IH]; cbn [product_range].
  - constructor; [intros []|constructor].
  - pose proof (seq_NoDup dim 0) as ND. revert ND. generalize (seq 0 dim) as l.
    intros l ND; induction ND as [|i l Hi Hl IHl]; cbn [flat_map]; [constructor|].
    apply NoDup_app_disj; auto using NoDup_map_cons.
    intros y Hy Hy2. apply in_map_iff in Hy. destruct Hy as (t & <- & _).
    apply in_flat_map in Hy2. destruct Hy2 as (j & Hj & Hy2).
    apply in_map_iff in Hy2. destruct Hy2 as (t' & E & _). inversion E; subst. contradiction.
Qed.

(** ** Exchanging positions *)
Lemma swap_length : forall a b idx, List.length (swap_pos a b idx) = List.length idx.
Proof. intros. unfold swap_pos. now rewrite map_length, seq_length. Qed.

Lemma swap_nth : forall a b idx k, k < List.length idx ->
  nth k (swap_pos a b idx) 0 = nth (if Nat.eqb k a then b else if Nat.eqb k b then a else k) idx 0.
Proof.
  intros a b idx k H. unfold swap_pos.
  set (f := fun k0 => nth (if Nat.eqb k0 a then b else if Nat.eqb k0 b then a else k0) idx 0).
  rewrite nth_indep with (d' := f 0) by now rewrite map_length, seq_length.
  rewrite map_nth, seq_nth by auto. reflexivity.
Qed.

Lemma swap_nth_a : forall a b idx, a < List.length idx -> nth a (swap_pos a b idx) 0 = nth b idx 0.
Proof. intros. rewrite swap_nth by auto. now rewrite Nat.eqb_refl. Qed.
Lemma swap_nth_b : forall a b idx, b < List.length idx -> nth b (swap_pos a b idx) 0 = nth a idx 0.
Proof.
  intros. rewrite swap_nth by auto. rewrite Nat.eqb_refl. destruct (Nat.eqb_spec b a); subst; auto.
Qed.

Lemma swap_incl : forall a b idx, a < List.length idx -> b < List.length idx ->
  forall x, In x (swap_pos a b idx) -> In x idx.
Proof.
  intros a b idx Ha Hb x H. unfold swap_pos in H. apply in_map_iff in H.
  destruct H as (k & <- & Hk). apply in_seq in Hk. apply nth_In.
  destruct (Nat.eqb k a); [|destruct (Nat.eqb k b)]; lia.
Qed.

Lemma swap_map : forall (f : nat -> nat) a b idx, a < List.length idx -> b < List.length idx ->
  swap_pos a b (map f idx) = map f (swap_pos a b idx).
Proof.
  intros f a b idx Ha Hb. unfold swap_pos. rewrite map_map, map_length.
  apply map_ext_in. intros k Hk. apply in_seq in Hk.
  rewrite nth_indep with (d' := f 0).
  - now rewrite map_nth.
  - rewrite map_length. destruct (Nat.eqb k a); [|destruct (Nat.eqb k b)]; lia.
Qed.

Lemma in_range_swap : forall dim rank a b idx, a < rank -> b < rank ->
  in_range dim rank idx -> in_range dim rank (swap_pos a b idx).
Proof.
  intros dim rank a b idx Ha Hb [Hl Hx]. split; [now rewrite swap_length|].
  intros x H. apply Hx. eapply swap_incl; eauto; lia.
Qed.

(** ** One pass *)
Definition wf_op (rank : nat) (o : symop) : Prop := so_a o < so_b o /\ so_b o < rank.

(** Where entry [idx] is read from: sign and source index; [None] is zero. *)
Definition cmp (o : symop) (idx : list nat) : option (bool * list nat) :=
  let ia := nth (so_a o) idx 0 in
  let ib := nth (so_b o) idx 0 in
  if Nat.ltb ib ia then Some (so_anti o, swap_pos (so_a o) (so_b o) idx)
  else if Nat.eqb ia ib && so_anti o then None
  else Some (false, idx).

Section Alg.
Variables (A : Type) (neg : A -> A) (zero : A).
Hypothesis neg_neg : forall x, neg (neg x) = x.
Hypothesis neg_zero : neg zero = zero.

Definition interp (T : tensor A) (r : option (bool * list nat)) : A :=
  match r with
  | None => zero
  | Some (s, i) => if s then neg (T i) else T i
  end.

Lemma cmp_source : forall rank o idx s i, wf_op rank o -> List.length idx = rank ->
  cmp o idx = Some (s, i) -> cmp o i = Some (false, i).
Proof.
  intros rank [an a b] idx s i [H1 H2] Hl H. unfold cmp in *. cbn [so_a so_b so_anti] in *.
  destruct (Nat.ltb_spec (nth b idx 0) (nth a idx 0)) as [L|L].
  - inversion H; subst. rewrite swap_nth_a, swap_nth_b by lia.
    destruct (Nat.ltb_spec (nth a idx 0) (nth b idx 0)); [lia|].
    destruct (Nat.eqb_spec (nth b idx 0) (nth a idx 0)); [lia|]. reflexivity.
  - destruct (Nat.eqb (nth a idx 0) (nth b idx 0) && an) eqn:E; [discriminate|].
    inversion H; subst. destruct (Nat.ltb_spec (nth b i 0) (nth a i 0)); [lia|].
    now rewrite E.
Qed.

Lemma body_spec : forall rank o T idx, wf_op rank o -> List.length idx = rank ->
  forall j, sym_body A neg zero o T idx j = if idx_eqb j idx then interp T (cmp o idx) else T j.
Proof.
  intros rank [an a b] T idx [H1 H2] Hl j. unfold sym_body, cmp. cbn [so_a so_b so_anti] in *.
  destruct (Nat.ltb (nth b idx 0) (nth a idx 0)).
  - reflexivity.
  - destruct (Nat.eqb (nth a idx 0) (nth b idx 0) && an); [reflexivity|].
    cbn. destruct (idx_eqb j idx) eqn:E; auto. apply idx_eqb_eq in E. now subst.
Qed.

Lemma pass_spec : forall rank dim o T, wf_op rank o ->
  forall j, (in_range dim rank j -> sym_pass A neg zero rank dim o T j = interp T (cmp o j)) /\
            (~ in_range dim rank j -> sym_pass A neg zero rank dim o T j = T j).
Proof.
  intros rank dim o T Hw. unfold sym_pass.
  assert (G : forall l T0, NoDup l -> (forall i, In i l -> List.length i = rank) ->
    (forall i s k, In i l -> cmp o i = Some (s, k) -> T0 k = T k) ->
    (forall i, In i l -> T0 i = T i) ->
    forall j, fold_left (sym_body A neg zero o) l T0 j =
      if existsb (idx_eqb j) l then interp T (cmp o j) else T0 j).
  { induction l as [|i l IH]; intros T0 ND Hlen Hsrc Hsame j; [reflexivity|].
    inversion ND as [|? ? Hi NDl]; subst.
    assert (Hb : forall k, sym_body A neg zero o T0 i k = if idx_eqb k i then interp T0 (cmp o i) else T0 k).
    { apply (body_spec rank); auto. apply Hlen; cbn; auto. }
    assert (Hii : interp T0 (cmp o i) = interp T (cmp o i)).
    { destruct (cmp o i) as [[s k]|] eqn:E; auto. cbn. rewrite (Hsrc i s k); cbn; auto. }
    cbn [fold_left existsb]. rewrite IH.
    - rewrite Hb. destruct (existsb (idx_eqb j) l) eqn:Ex; [now rewrite orb_true_r|].
      rewrite orb_false_r. destruct (idx_eqb j i) eqn:Ej; auto.
      apply idx_eqb_eq in Ej. subst. exact Hii.
    - auto.
    - intros; apply Hlen; cbn; auto.
    - intros i' s k Hi' Ec. rewrite Hb. destruct (idx_eqb k i) eqn:Ek.
      + apply idx_eqb_eq in Ek. subst k. rewrite Hii.
        rewrite (cmp_source rank o i' s i Hw (Hlen i' (or_intror Hi')) Ec). reflexivity.
      + apply (Hsrc i' s k); cbn; auto.
    - intros i' Hi'. rewrite Hb. destruct (idx_eqb i' i) eqn:Ek.
      + apply idx_eqb_eq in Ek. subst. contradiction.
      + apply Hsame; cbn; auto. }
  intros j. rewrite G; auto using NoDup_product_range.
  - split; intros H.
    + assert (E : existsb (idx_eqb j) (product_range dim rank) = true).
      { apply existsb_exists. exists j. split; [now apply In_product_range|now apply idx_eqb_eq]. }
      now rewrite E.
    + destruct (existsb (idx_eqb j) (product_range dim rank)) eqn:E; auto.
      apply existsb_exists in E. destruct E as (k & Hk & Ek). apply idx_eqb_eq in Ek. subst k.
      exfalso. apply H. now apply In_product_range.
  - intros i Hi. apply In_product_range in Hi. apply Hi.
Qed.

(** ** A sequence of passes, last first *)
Fixpoint net (l : list symop) (idx : list nat) : option (bool * list nat) :=
  match l with
  | [] => Some (false, idx)
  | o :: r => match cmp o idx with
              | None => None
              | Some (s, i) => match net r i with
                               | None => None
                               | Some (s', j) => Some (xorb s s', j)
                               end
              end
  end.

Lemma interp_neg : forall T s i, interp T (match net [] i with Some (s', j) => Some (xorb s s', j) | None => None end)
  = if s then neg (T i) else T i.
Proof. intros. cbn. rewrite xorb_false_r. reflexivity. Qed.

Lemma interp_xor : forall T s r,
  interp T (match r with Some (s', j) => Some (xorb s s', j) | None => None end)
  = if s then neg (interp T r) else interp T r.
Proof.
  intros T [|] [[[|] j]|]; cbn; auto.
Qed.

Fixpoint pass_list (rank dim : nat) (l : list symop) (T : tensor A) : tensor A :=
  match l with [] => T | o :: r => pass_list rank dim r (sym_pass A neg zero rank dim o T) end.

Lemma pass_list_app : forall rank dim l1 l2 T,
  pass_list rank dim (l1 ++ l2) T = pass_list rank dim l2 (pass_list rank dim l1 T).
Proof. induction l1; intros; cbn; auto. Qed.

Lemma cmp_range : forall dim rank o idx s i, wf_op rank o -> in_range dim rank idx ->
  cmp o idx = Some (s, i) -> in_range dim rank i.
Proof.
  intros dim rank [an a b] idx s i [H1 H2] H E. unfold cmp in E. cbn [so_a so_b so_anti] in *.
  destruct (Nat.ltb (nth b idx 0) (nth a idx 0)).
  - inversion E; subst. apply in_range_swap; auto. lia.
  - destruct (Nat.eqb (nth a idx 0) (nth b idx 0) && an); inversion E; subst; auto.
Qed.

Lemma pass_list_net : forall rank dim l T idx, Forall (wf_op rank) l -> in_range dim rank idx ->
  pass_list rank dim l T idx = interp T (net (rev l) idx).
Proof.
  intros rank dim l T idx Hw. revert T idx. induction l as [|o l IH] using rev_ind; intros T idx Hr.
  - reflexivity.
  - apply Forall_app in Hw. destruct Hw as [Hw Ho]. inversion Ho as [|? ? Ho' _]; subst.
    rewrite pass_list_app, rev_app_distr. cbn [pass_list rev app net].
    rewrite (proj1 (pass_spec rank dim o (pass_list rank dim l T) Ho' idx) Hr).
    destruct (cmp o idx) as [[s i]|] eqn:E; [|reflexivity].
    rewrite interp_xor. cbn [interp]. rewrite IH; auto.
    eapply cmp_range; eauto.
Qed.

Lemma pass_list_outside : forall rank dim l T idx, Forall (wf_op rank) l -> ~ in_range dim rank idx ->
  pass_list rank dim l T idx = T idx.
Proof.
  intros rank dim l T idx Hw Hr. revert T. induction Hw as [|o l Ho Hw IH]; intros T; cbn; auto.
  rewrite IH. now apply (pass_spec rank dim o T Ho idx).
Qed.

(** Parsing a schedule into passes. *)
Fixpoint parse_all (rank : nat) (l : list string) : py (list symop) :=
  match l with
  | [] => Ok []
  | s :: r => match sym_parse rank s with
              | Err e => Err e
              | Ok None => parse_all rank r
              | Ok (Some o) => match parse_all rank r with Err e => Err e | Ok q => Ok (o :: q) end
              end
  end.

Lemma sym_run_parse : forall rank dim l T,
  sym_run neg zero rank dim l T =
  match parse_all rank l with Err e => Err e | Ok q => Ok (pass_list rank dim q T) end.
Proof.
  induction l as [|s l IH]; intros T; cbn; auto.
  destruct (sym_parse rank s) as [[o|]|e]; auto.
  rewrite IH. destruct (parse_all rank l); auto.
Qed.
End Alg.

Lemma sym_positions_wf : forall rank t a b, sym_positions rank t = Some (a, b) -> 2 <= rank ->
  a < b /\ b < rank.
Proof.
  intros rank t a b H Hr. unfold sym_positions in H.
  repeat match type of H with
  | (if ?c then _ else _) = _ => destruct c eqn:?
  end; try discriminate; inversion H; subst; clear H;
  repeat match goal with E : _ && _ = true |- _ => apply andb_true_iff in E; destruct E as [E _]; apply Nat.leb_le in E end;
  lia.
Qed.

Lemma parse_all_wf : forall rank l q, 2 <= rank -> parse_all rank l = Ok q -> Forall (wf_op rank) q.
Proof.
  intros rank l; induction l as [|s l IH]; intros q Hr H; cbn in H.
  - inversion H; constructor.
  - unfold sym_parse in H. destruct (sym_positions rank (str_last2 s)) as [[a b]|] eqn:E.
    + destruct (parse_all rank l) as [q'|] eqn:P; inversion H; subst. constructor; auto.
      split; cbn; apply sym_positions_wf in E; auto; lia.
    + destruct (String.eqb s "nosym"); [auto|discriminate].
Qed.

(** ** Reduction to finitely many order types *)
Lemma filter_le_len : forall (A : Type) (p q : A -> bool) l,
  (forall x, p x = true -> q x = true) -> List.length (filter p l) <= List.length (filter q l).
Proof.
  intros A p q l H; induction l as [|a l IH]; cbn; auto.
  destruct (p a) eqn:E; [rewrite (H a E); cbn; lia|]. destruct (q a); cbn; lia.
Qed.
Lemma filter_lt_len : forall (A : Type) (p q : A -> bool) l x,
  (forall x, p x = true -> q x = true) -> In x l -> p x = false -> q x = true ->
  List.length (filter p l) < List.length (filter q l).
Proof.
  intros A p q l x H Hx Hp Hq; induction l as [|a l IH]; [destruct Hx|]. cbn.
  pose proof (filter_le_len A p q l H).
  destruct Hx as [->|Hx].
  - rewrite Hp, Hq. cbn. lia.
  - specialize (IH Hx). destruct (p a) eqn:E; [rewrite (H a E); cbn; lia|]. destruct (q a); cbn; lia.
Qed.

(** The position of a value in the order of the entries of [idx]. *)
Definition rho (idx : list nat) (v : nat) : nat := List.length (filter (fun u => Nat.ltb u v) idx).

Lemma rho_lt : forall idx v, In v idx -> rho idx v < List.length idx.
Proof.
  intros idx v H. unfold rho.
  assert (E : List.length (filter (fun _ : nat => true) idx) = List.length idx).
  { clear; induction idx; cbn; auto. }
  rewrite <- E. apply filter_lt_len with (x := v); auto. apply Nat.ltb_irrefl.
Qed.

Lemma rho_mono : forall idx u v, In u idx -> u < v -> rho idx u < rho idx v.
Proof.
  intros idx u v Hu Huv. unfold rho. apply filter_lt_len with (x := u); auto.
  - intros x Hx. apply Nat.ltb_lt in Hx. apply Nat.ltb_lt. lia.
  - apply Nat.ltb_irrefl.
  - now apply Nat.ltb_lt.
Qed.

Definition mono_on (f : nat -> nat) (l : list nat) : Prop :=
  forall u v, In u l -> In v l -> u < v -> f u < f v.

Lemma mono_ltb : forall f l u v, mono_on f l -> In u l -> In v l -> Nat.ltb (f u) (f v) = Nat.ltb u v.
Proof.
  intros f l u v H Hu Hv. destruct (Nat.ltb_spec u v).
  - apply Nat.ltb_lt. auto.
  - apply Nat.ltb_ge. destruct (Nat.eq_dec u v); subst; auto. apply Nat.lt_le_incl, H; auto; lia.
Qed.
Lemma mono_eqb : forall f l u v, mono_on f l -> In u l -> In v l -> Nat.eqb (f u) (f v) = Nat.eqb u v.
Proof.
  intros f l u v H Hu Hv. destruct (Nat.eqb_spec u v); subst; [apply Nat.eqb_refl|].
  apply Nat.eqb_neq. destruct (Nat.lt_ge_cases u v) as [L|L].
  - specialize (H u v Hu Hv L). lia.
  - assert (v < u) by lia. specialize (H v u Hv Hu H0). lia.
Qed.

Definition map_res (f : nat -> nat) (r : option (bool * list nat)) : option (bool * list nat) :=
  match r with None => None | Some (s, i) => Some (s, map f i) end.

Lemma cmp_map : forall rank o f idx, wf_op rank o -> List.length idx = rank -> mono_on f idx ->
  cmp o (map f idx) = map_res f (cmp o idx).
Proof.
  intros rank [an a b] f idx [H1 H2] Hl Hm. unfold cmp. cbn [so_a so_b so_anti] in *.
  assert (N : forall k, k < List.length idx -> nth k (map f idx) 0 = f (nth k idx 0)).
  { intros k Hk. rewrite nth_indep with (d' := f 0) by now rewrite map_length. apply map_nth. }
  rewrite !N by lia.
  rewrite (mono_ltb f idx), (mono_eqb f idx) by (auto; apply nth_In; lia).
  destruct (Nat.ltb (nth b idx 0) (nth a idx 0)).
  - cbn. rewrite swap_map by lia. reflexivity.
  - destruct (Nat.eqb (nth a idx 0) (nth b idx 0) && an); reflexivity.
Qed.

Lemma cmp_incl : forall rank o idx s i, wf_op rank o -> List.length idx = rank ->
  cmp o idx = Some (s, i) -> List.length i = rank /\ (forall x, In x i -> In x idx).
Proof.
  intros rank [an a b] idx s i [H1 H2] Hl E. unfold cmp in E. cbn [so_a so_b so_anti] in *.
  destruct (Nat.ltb (nth b idx 0) (nth a idx 0)).
  - inversion E; subst. rewrite swap_length. split; auto. apply swap_incl; lia.
  - destruct (Nat.eqb (nth a idx 0) (nth b idx 0) && an); inversion E; subst; auto.
Qed.

Lemma net_incl : forall rank l idx s i, Forall (wf_op rank) l -> List.length idx = rank ->
  net l idx = Some (s, i) -> List.length i = rank /\ (forall x, In x i -> In x idx).
Proof.
  intros rank l idx s i Hw; revert idx s i; induction Hw as [|o l Ho Hw IH]; intros idx s i Hl E; cbn in E.
  - inversion E; subst; auto.
  - destruct (cmp o idx) as [[s1 i1]|] eqn:C; [|discriminate].
    destruct (net l i1) as [[s2 i2]|] eqn:N; [|discriminate]. inversion E; subst.
    destruct (cmp_incl _ _ _ _ _ Ho eq_refl C) as [L1 I1].
    destruct (IH _ _ _ L1 N) as [L2 I2]. auto.
Qed.

Lemma net_map : forall rank l f idx, Forall (wf_op rank) l -> List.length idx = rank -> mono_on f idx ->
  net l (map f idx) = map_res f (net l idx).
Proof.
  intros rank l f idx Hw; revert idx; induction Hw as [|o l Ho Hw IH]; intros idx Hl Hm; cbn [net]; auto.
  rewrite (cmp_map rank) by auto. destruct (cmp o idx) as [[s i]|] eqn:C; cbn [map_res]; auto.
  destruct (cmp_incl _ _ _ _ _ Ho Hl C) as [L1 I1].
  rewrite IH; auto.
  - destruct (net l i) as [[s' i']|]; reflexivity.
  - intros u v Hu Hv; apply Hm; auto.
Qed.

Definition flip (anti : bool) (r : option (bool * list nat)) : option (bool * list nat) :=
  match r with None => None | Some (s, i) => Some (xorb anti s, i) end.

Definition res_eqb (r r' : option (bool * list nat)) : bool :=
  match r, r' with
  | None, None => true
  | Some (s, i), Some (s', i') => Bool.eqb s s' && idx_eqb i i'
  | _, _ => false
  end.
Lemma res_eqb_eq : forall r r', res_eqb r r' = true -> r = r'.
Proof.
  intros [[s i]|] [[s' i']|] H; cbn in H; try discriminate; auto.
  apply andb_true_iff in H. destruct H as [H1 H2]. apply Bool.eqb_prop in H1. apply idx_eqb_eq in H2.
  congruence.
Qed.

(** Finite checks on index tuples with entries below the rank. *)
Definition check_exchange (rank : nat) (l : list symop) (o : symop) : bool :=
  forallb (fun idx =>
     res_eqb (net l (swap_pos (so_a o) (so_b o) idx)) (flip (so_anti o) (net l idx)) &&
     (if so_anti o && Nat.eqb (nth (so_a o) idx 0) (nth (so_b o) idx 0)
      then res_eqb (net l idx) None else true))
    (product_range rank rank).
Definition check_idem (rank : nat) (l : list symop) : bool :=
  forallb (fun idx => match net l idx with
                      | None => true
                      | Some (_, i) => res_eqb (net l i) (Some (false, i))
                      end) (product_range rank rank).

Lemma rho_idx_range : forall rank idx, List.length idx = rank ->
  in_range rank rank (map (rho idx) idx).
Proof.
  intros rank idx H. split; [now rewrite map_length|]. intros x Hx. apply in_map_iff in Hx.
  destruct Hx as (v & <- & Hv). rewrite <- H. now apply rho_lt.
Qed.
Lemma rho_mono_on : forall idx, mono_on (rho idx) idx.
Proof. intros idx u v Hu _ H. now apply rho_mono. Qed.

Lemma map_mono_inj : forall f l a b, mono_on f l -> (forall x, In x a -> In x l) ->
  (forall x, In x b -> In x l) -> map f a = map f b -> a = b.
Proof.
  intros f l a; induction a as [|x a IH]; intros [|y b] Hm Ha Hb H; try discriminate; auto.
  cbn in H. inversion H. f_equal.
  - assert (E : Nat.eqb (f x) (f y) = true) by (apply Nat.eqb_eq; auto).
    rewrite (mono_eqb f l x y Hm (Ha x (or_introl eq_refl)) (Hb y (or_introl eq_refl))) in E.
    now apply Nat.eqb_eq.
  - apply IH; auto; intros; [apply Ha|apply Hb]; cbn; auto.
Qed.

Lemma map_res_inj : forall f l r r', mono_on f l ->
  (forall s i, r = Some (s, i) -> forall x, In x i -> In x l) ->
  (forall s i, r' = Some (s, i) -> forall x, In x i -> In x l) ->
  map_res f r = map_res f r' -> r = r'.
Proof.
  intros f l [[s i]|] [[s' i']|] Hm H1 H2 H; cbn in H; try discriminate; auto.
  inversion H. f_equal. f_equal. eapply map_mono_inj; eauto.
Qed.

Lemma check_exchange_sound : forall rank l o, Forall (wf_op rank) l -> wf_op rank o ->
  check_exchange rank l o = true -> forall idx, List.length idx = rank ->
  net l (swap_pos (so_a o) (so_b o) idx) = flip (so_anti o) (net l idx) /\
  (so_anti o = true -> nth (so_a o) idx 0 = nth (so_b o) idx 0 -> net l idx = None).
Proof.
  intros rank l o Hw [O1 O2] H idx Hl. unfold check_exchange in H. rewrite forallb_forall in H.
  specialize (H (map (rho idx) idx)). rewrite In_product_range in H.
  specialize (H (rho_idx_range rank idx Hl)). apply andb_true_iff in H. destruct H as [H1 H2].
  pose proof (rho_mono_on idx) as M.
  assert (Hs : forall x, In x (swap_pos (so_a o) (so_b o) idx) -> In x idx) by (apply swap_incl; lia).
  split.
  - apply res_eqb_eq in H1. rewrite swap_map in H1 by lia.
    rewrite (net_map rank) in H1; [|auto|now rewrite swap_length|intros u v Hu Hv; apply M; auto].
    rewrite (net_map rank) in H1 by auto.
    apply (map_res_inj (rho idx) idx); auto.
    + intros s i E x Hx. apply Hs. eapply net_incl in E; eauto; [|now rewrite swap_length]. now apply E.
    + intros s i E x Hx. destruct (net l idx) as [[s2 i2]|] eqn:E2; [|discriminate]. cbn in E.
      inversion E; subst. eapply net_incl in E2; eauto. now apply E2.
    + rewrite H1. destruct (net l idx) as [[s2 i2]|]; reflexivity.
  - intros Ha Hab. rewrite Ha in H2. cbn [andb] in H2.
    assert (N : forall k, k < List.length idx -> nth k (map (rho idx) idx) 0 = rho idx (nth k idx 0)).
    { intros k Hk. rewrite nth_indep with (d' := rho idx 0) by now rewrite map_length. apply map_nth. }
    rewrite !N in H2 by lia. rewrite Hab, Nat.eqb_refl in H2. apply res_eqb_eq in H2.
    rewrite (net_map rank) in H2 by auto. destruct (net l idx) as [[s2 i2]|]; [discriminate|auto].
Qed.

Lemma check_idem_sound : forall rank l, Forall (wf_op rank) l -> check_idem rank l = true ->
  forall idx s i, List.length idx = rank -> net l idx = Some (s, i) -> net l i = Some (false, i).
Proof.
  intros rank l Hw H idx s i Hl E. unfold check_idem in H. rewrite forallb_forall in H.
  specialize (H (map (rho idx) idx)). rewrite In_product_range in H.
  specialize (H (rho_idx_range rank idx Hl)).
  pose proof (rho_mono_on idx) as M.
  rewrite (net_map rank), E in H by auto. cbn [map_res] in H. apply res_eqb_eq in H.
  destruct (net_incl _ _ _ _ _ Hw Hl E) as [Li Ii].
  assert (Mi : mono_on (rho idx) i) by (intros u v Hu Hv; apply M; auto).
  rewrite (net_map rank) in H by auto.
  apply (map_res_inj (rho idx) idx); auto.
  - intros s2 i2 E2 x Hx. apply Ii. eapply net_incl in E2; eauto. now apply E2.
  - intros s2 i2 E2 x Hx. inversion E2; subst. auto.
Qed.

(** Entries already in canonical position are not touched by any pass. *)
Lemma net_canonical : forall l idx,
  (forall o, In o l -> nth (so_a o) idx 0 < nth (so_b o) idx 0 \/
                       (so_anti o = false /\ nth (so_a o) idx 0 = nth (so_b o) idx 0)) ->
  net l idx = Some (false, idx).
Proof.
  induction l as [|o l IH]; intros idx H; cbn [net]; auto.
  assert (C : cmp o idx = Some (false, idx)).
  { unfold cmp. destruct (H o (or_introl eq_refl)) as [L|[Ea Ee]].
    - destruct (Nat.ltb_spec (nth (so_b o) idx 0) (nth (so_a o) idx 0)); [lia|].
      destruct (Nat.eqb_spec (nth (so_a o) idx 0) (nth (so_b o) idx 0)); [lia|reflexivity].
    - rewrite Ee, Nat.ltb_irrefl, Ea, andb_false_r. reflexivity. }
  rewrite C, IH; auto. intros; apply H; cbn; auto.
Qed.

Lemma net_sym : forall l idx, (forall o, In o l -> so_anti o = false) -> exists i, net l idx = Some (false, i).
Proof.
  induction l as [|o l IH]; intros idx H; cbn [net]; [eauto|].
  assert (C : exists i, cmp o idx = Some (false, i)).
  { unfold cmp. rewrite (H o) by (cbn; auto). rewrite andb_false_r.
    destruct (Nat.ltb _ _); eauto. }
  destruct C as [i ->]. destruct (IH i) as [j ->]; [intros; apply H; cbn; auto|]. eauto.
Qed.

(** ** The symmetry options of the documentation, with the exchanges each one promises *)
Definition pairs_of (rank : nat) : list (nat * nat) :=
  filter (fun p => Nat.ltb (fst p) (snd p)) (list_prod (seq 0 rank) (seq 0 rank)).
Definition sgn_str (anti : bool) : string := if anti then "anti" else "sym".
Definition digits_str (l : list nat) : string := String.concat "" (map str_of_nat l).
Definition pair_option (anti : bool) (p : nat * nat) : string :=
  (sgn_str anti ++ digits_str [fst p; snd p])%string.
Definition all_exchanges (anti : bool) (l : list nat) : list symop :=
  map (fun p => MkSym anti (fst p) (snd p))
      (filter (fun p => Nat.ltb (fst p) (snd p)) (list_prod l l)).

(** rank, option string, promised exchanges: single pairs; ascending triples; all four positions;
    two disjoint pairs with independent signs. *)
Definition declared_symmetries : list (nat * string * list symop) :=
  flat_map (fun rank => flat_map (fun p => map (fun an =>
      (rank, pair_option an p, [MkSym an (fst p) (snd p)])) [false; true]) (pairs_of rank)) [2; 3; 4]
  ++ flat_map (fun an =>
       (3, (sgn_str an ++ "012")%string, all_exchanges an [0; 1; 2]) ::
       map (fun t => (4, (sgn_str an ++ digits_str t)%string, all_exchanges an t))
           [[0; 1; 2]; [0; 1; 3]; [0; 2; 3]; [1; 2; 3]; [0; 1; 2; 3]]) [false; true]
  ++ flat_map (fun q => flat_map (fun a1 => map (fun a2 =>
       (4, (pair_option a1 (fst q) ++ "_" ++ pair_option a2 (snd q))%string,
        [MkSym a1 (fst (fst q)) (snd (fst q)); MkSym a2 (fst (snd q)) (snd (snd q))]))
       [false; true]) [false; true])
       [((0,1),(2,3)); ((0,2),(1,3)); ((0,3),(1,2)); ((2,3),(0,1)); ((1,3),(0,2)); ((1,2),(0,3))].

Definition canonicalb (ex : list symop) (idx : list nat) : bool :=
  forallb (fun o => Nat.ltb (nth (so_a o) idx 0) (nth (so_b o) idx 0) ||
                    (negb (so_anti o) && Nat.eqb (nth (so_a o) idx 0) (nth (so_b o) idx 0))) ex.
Definition canonical (ex : list symop) (idx : list nat) : Prop :=
  forall o, In o ex -> nth (so_a o) idx 0 < nth (so_b o) idx 0 \/
                       (so_anti o = false /\ nth (so_a o) idx 0 = nth (so_b o) idx 0).
Lemma canonicalb_ok : forall ex idx, canonicalb ex idx = true <-> canonical ex idx.
Proof.
  intros ex idx. unfold canonicalb, canonical. rewrite forallb_forall. split; intros H o Ho; specialize (H o Ho).
  - apply orb_true_iff in H. destruct H as [H|H]; [left; now apply Nat.ltb_lt|right].
    apply andb_true_iff in H. destruct H as [H1 H2]. apply negb_true_iff in H1. apply Nat.eqb_eq in H2. auto.
  - apply orb_true_iff. destruct H as [H|[H1 H2]]; [left; now apply Nat.ltb_lt|right].
    rewrite H1, H2. cbn. apply Nat.eqb_refl.
Qed.

Definition check_canon (rank : nat) (l ex : list symop) : bool :=
  forallb (fun idx => match net l idx with None => true | Some (_, i) => canonicalb ex i end)
          (product_range rank rank).

Definition wf_opb (rank : nat) (o : symop) : bool := Nat.ltb (so_a o) (so_b o) && Nat.ltb (so_b o) rank.
Lemma wf_opb_ok : forall rank o, wf_opb rank o = true -> wf_op rank o.
Proof.
  intros rank o H. apply andb_true_iff in H. destruct H. split; now apply Nat.ltb_lt.
Qed.

Lemma canonicalb_map : forall rank ex f idx, Forall (wf_op rank) ex -> List.length idx = rank ->
  mono_on f idx -> canonicalb ex (map f idx) = canonicalb ex idx.
Proof.
  intros rank ex f idx Hw Hl Hm. unfold canonicalb. induction Hw as [|o ex [O1 O2] Hw IH]; [reflexivity|].
  cbn [forallb]. rewrite IH.
  assert (N : forall k, k < List.length idx -> nth k (map f idx) 0 = f (nth k idx 0)).
  { intros k Hk. rewrite nth_indep with (d' := f 0) by now rewrite map_length. apply map_nth. }
  rewrite !N by lia. rewrite (mono_ltb f idx), (mono_eqb f idx) by (auto; apply nth_In; lia). reflexivity.
Qed.

Lemma check_canon_sound : forall rank l ex, Forall (wf_op rank) l -> Forall (wf_op rank) ex ->
  check_canon rank l ex = true ->
  forall idx s i, List.length idx = rank -> net l idx = Some (s, i) -> canonical ex i.
Proof.
  intros rank l ex Hw He H idx s i Hl E. unfold check_canon in H. rewrite forallb_forall in H.
  specialize (H (map (rho idx) idx)). rewrite In_product_range in H.
  specialize (H (rho_idx_range rank idx Hl)).
  pose proof (rho_mono_on idx) as M.
  rewrite (net_map rank), E in H by auto. cbn [map_res] in H.
  destruct (net_incl _ _ _ _ _ Hw Hl E) as [Li Ii].
  rewrite (canonicalb_map rank) in H; auto; [now apply canonicalb_ok|].
  intros u v Hu Hv; apply M; auto.
Qed.

Definition declared_ok (d : nat * string * list symop) : bool :=
  let '(rank, opt, ex) := d in
  Nat.leb 2 rank &&
  match parse_all rank (sym_schedule rank opt) with
  | Err _ => false
  | Ok q => forallb (fun o => wf_opb rank o && check_exchange rank (rev q) o) ex
            && check_idem rank (rev q) && check_canon rank (rev q) ex
            && forallb (fun o => existsb (fun o' => Bool.eqb (so_anti o) (so_anti o') &&
                   Nat.eqb (so_a o) (so_a o') && Nat.eqb (so_b o) (so_b o')) ex) q
  end.

Lemma declared_all_ok : forallb declared_ok declared_symmetries = true.
Proof. vm_compute. reflexivity. Qed.

Section Declared.
Variables (A : Type) (neg : A -> A) (zero : A).
Hypothesis neg_neg : forall x, neg (neg x) = x.
Hypothesis neg_zero : neg zero = zero.

Lemma declared_symmetrize : forall rank opt ex dim (T : tensor A),
  In (rank, opt, ex) declared_symmetries ->
  exists T', symmetrize neg zero rank dim opt T = Ok T' /\
    (forall o idx, In o ex -> in_range dim rank idx ->
       T' (swap_pos (so_a o) (so_b o) idx) = (if so_anti o then neg (T' idx) else T' idx) /\
       (so_anti o = true -> nth (so_a o) idx 0 = nth (so_b o) idx 0 -> T' idx = zero)) /\
    (forall idx, canonical ex idx -> T' idx = T idx) /\
    (forall idx, ~ in_range dim rank idx -> T' idx = T idx) /\
    (forall idx, in_range dim rank idx -> T' idx = zero \/
        exists src, in_range dim rank src /\ canonical ex src /\ (forall x, In x src -> In x idx) /\
          (T' idx = T src \/ T' idx = neg (T src))) /\
    ((forall o, In o ex -> so_anti o = false) -> forall idx, in_range dim rank idx ->
        exists src, in_range dim rank src /\ canonical ex src /\ T' idx = T src) /\
    (exists T'', symmetrize neg zero rank dim opt T' = Ok T'' /\ forall idx, T'' idx = T' idx).
Proof.
  intros rank opt ex dim T Hin.
  pose proof declared_all_ok as OK. rewrite forallb_forall in OK. specialize (OK _ Hin).
  unfold declared_ok in OK. apply andb_true_iff in OK. destruct OK as [Hr OK]. apply Nat.leb_le in Hr.
  destruct (parse_all rank (sym_schedule rank opt)) as [q|] eqn:P; [|discriminate].
  apply andb_true_iff in OK. destruct OK as [OK Hsub]. apply andb_true_iff in OK. destruct OK as [OK Hcan].
  apply andb_true_iff in OK. destruct OK as [Hex Hid].
  rewrite forallb_forall in Hex. rewrite forallb_forall in Hsub.
  assert (We : Forall (wf_op rank) ex).
  { apply Forall_forall. intros o Ho. specialize (Hex o Ho). apply andb_true_iff in Hex.
    now apply wf_opb_ok. }
  pose proof (parse_all_wf _ _ _ Hr P) as Wq.
  assert (Wr : Forall (wf_op rank) (rev q)) by now apply Forall_rev.
  pose proof (fun T => sym_run_parse A neg zero rank dim (sym_schedule rank opt) T) as R. rewrite P in R.
  pose proof (fun T idx => pass_list_net A neg zero neg_neg neg_zero rank dim q T idx Wq) as N.
  exists (pass_list A neg zero rank dim q T). split; [apply R|]. repeat split.
  - rename H into Ho. rename H0 into Hi. specialize (Hex o Ho). apply andb_true_iff in Hex. destruct Hex as [W C].
    apply wf_opb_ok in W. destruct (check_exchange_sound _ _ _ Wr W C idx (proj1 Hi)) as [E _].
    rewrite !N; auto; [|destruct W; apply in_range_swap; auto; lia].
    rewrite E. destruct (net (rev q) idx) as [[s i]|]; cbn.
    + destruct (so_anti o), s; cbn; auto.
    + destruct (so_anti o); auto.
  - rename H into Ho. rename H0 into Hi. specialize (Hex o Ho). apply andb_true_iff in Hex. destruct Hex as [W C].
    apply wf_opb_ok in W. destruct (check_exchange_sound _ _ _ Wr W C idx (proj1 Hi)) as [_ E].
    intros Ha Hn. rewrite N, E; auto.
  - intros idx Hc.
    assert (D : in_range dim rank idx \/ ~ in_range dim rank idx).
    { rewrite <- In_product_range. destruct (in_dec (list_eq_dec Nat.eq_dec) idx (product_range dim rank)); auto. }
    destruct D as [D|D].
    + rewrite N by auto. rewrite net_canonical; auto. intros o Ho. apply in_rev in Ho.
      specialize (Hsub o Ho). apply existsb_exists in Hsub. destruct Hsub as (o' & Ho' & E).
      apply andb_true_iff in E. destruct E as [E E3]. apply andb_true_iff in E. destruct E as [E1 E2].
      apply Bool.eqb_prop in E1. apply Nat.eqb_eq in E2. apply Nat.eqb_eq in E3.
      specialize (Hc o' Ho'). now rewrite E1, E2, E3.
    + now apply pass_list_outside.
  - intros idx D. now apply pass_list_outside.
  - intros idx D. rewrite N by auto. destruct (net (rev q) idx) as [[s i]|] eqn:E; [|now left].
    right. exists i. destruct (net_incl _ _ _ _ _ Wr (proj1 D) E) as [Li Ii]. split; [|split; [|split; auto]].
    + split; auto. intros x Hx. apply (proj2 D). auto.
    + exact (check_canon_sound _ _ _ Wr We Hcan idx s i (proj1 D) E).
    + cbn. destruct s; auto.
  - intros Hsy idx D. rewrite N by auto. destruct (net_sym (rev q) idx) as [i E].
    { intros o Ho. apply in_rev in Ho. specialize (Hsub o Ho). apply existsb_exists in Hsub.
      destruct Hsub as (o' & Ho' & E). apply andb_true_iff in E. destruct E as [E _].
      apply andb_true_iff in E. destruct E as [E _]. apply Bool.eqb_prop in E. rewrite E. auto. }
    rewrite E. exists i. destruct (net_incl _ _ _ _ _ Wr (proj1 D) E) as [Li Ii]. split; [|split; auto].
    + split; auto. intros x Hx. apply (proj2 D). auto.
    + exact (check_canon_sound _ _ _ Wr We Hcan idx false i (proj1 D) E).
  - exists (pass_list A neg zero rank dim q (pass_list A neg zero rank dim q T)). split; [apply R|].
    intros idx.
    assert (D : in_range dim rank idx \/ ~ in_range dim rank idx).
    { rewrite <- In_product_range. destruct (in_dec (list_eq_dec Nat.eq_dec) idx (product_range dim rank)); auto. }
    destruct D as [D|D]; [|now apply pass_list_outside].
    rewrite !N by auto. destruct (net (rev q) idx) as [[s i]|] eqn:E; [|reflexivity].
    destruct (net_incl _ _ _ _ _ Wr (proj1 D) E) as [Li Ii].
    pose proof (check_idem_sound _ _ Wr Hid idx s i (proj1 D) E) as I.
    cbn [interp]. rewrite N; [|split; auto; intros x Hx; apply (proj2 D); auto].
    rewrite I. reflexivity.
Qed.
End Declared.

(** ** Derivatives across symmetry axes *)
Lemma str_drop_app : forall a b, str_drop (String.length a) (a ++ b) = b.
Proof.
  intros a b. unfold str_drop. induction a as [|c a IH]; cbn.
  - apply list_to_str_to_list.
  - exact IH.
Qed.

Lemma prefix_false_app2 : forall c1 c2 base rest,
  py_in (String c1 (String c2 "")) base = false ->
  (forall c, base = String c "" -> c <> c1 \/ prefix (String c2 "") rest = false) ->
  base <> "" -> prefix (String c1 (String c2 "")) (base ++ rest) = false.
Proof.
  intros c1 c2 base rest H J Hne. destruct base as [|x [|y base]]; [congruence| |].
  - cbn [String.append]. cbn [prefix]. destruct (ascii_dec c1 x) as [E|E]; auto. subst x.
    destruct (J c1 eq_refl) as [K|K]; [congruence|]. exact K.
  - cbn [String.append]. cbn [py_in] in H. apply orb_false_iff in H. destruct H as [H _].
    cbn [prefix] in *. destruct (ascii_dec c1 x); auto. destruct (ascii_dec c2 y); auto.
    destruct base; discriminate.
Qed.

(** Scanning past a base name without "_d" whose continuation starts with "_". *)
Lemma deriv_scan_skip : forall base rest ord, py_in "_d" base = false ->
  deriv_scan (base ++ String "_" rest) ord = deriv_scan (String "_" rest) ord.
Proof.
  induction base as [|c base IH]; intros rest ord H; [reflexivity|].
  assert (P : prefix "_d" (String c base ++ String "_" rest) = false).
  { apply prefix_false_app2; [exact H| |discriminate]. intros c' E. right. reflexivity. }
  cbn [py_in] in H. apply orb_false_iff in H. destruct H as [_ H].
  cbn [String.append] in *. cbn [deriv_scan]. rewrite P. now apply IH.
Qed.

Lemma deriv_scan_none : forall s ord, py_in "_d" s = false -> deriv_scan s ord = Ok ord.
Proof.
  induction s as [|c s IH]; intros ord H; [reflexivity|].
  cbn [py_in] in H. apply orb_false_iff in H. destruct H as [H1 H2].
  cbn [deriv_scan]. rewrite H1. auto.
Qed.

(** Derivative operators and their orders. *)
Definition deriv_ops : list (string * nat) :=
  [("D", 1); ("upD", 1); ("dnD", 1); ("KOD", 1); ("DD", 2)].

Definition digit_string (l : list nat) : string := list_to_str (map digit_ascii l).

Lemma digit_string_eq : forall l, (forall x, In x l -> x < 10) ->
  String.concat "" (map str_of_nat l) = digit_string l.
Proof.
  assert (D : forall x, x < 10 -> str_of_nat x = String (digit_ascii x) "").
  { intros x Hx. do 10 (destruct x as [|x]; [reflexivity|]). lia. }
  induction l as [|x l IH]; intros H; [reflexivity|]. unfold digit_string in *. cbn [map list_to_str].
  rewrite D by (apply H; cbn; auto). rewrite <- IH by (intros; apply H; cbn; auto).
  destruct l; reflexivity.
Qed.

Lemma digit_string_to_list : forall l, str_to_list (digit_string l) = map digit_ascii l.
Proof. intros. apply str_to_list_to_str. Qed.

Definition no_char (c : ascii) (s : string) : Prop := ~ In c (str_to_list s).

Lemma py_in_char : forall c sub s, In c (str_to_list sub) -> no_char c s -> py_in sub s = false.
Proof.
  intros c sub s H N. destruct (py_in sub s) eqn:E; auto. apply py_in_spec in E.
  destruct E as (a & b & ->). exfalso. apply N. rewrite !str_to_list_app, !in_app_iff. auto.
Qed.

Lemma digit_string_no : forall c l, is_digit c = false -> (forall x, In x l -> x < 10) ->
  no_char c (digit_string l).
Proof.
  intros c l Hc Hl H. rewrite digit_string_to_list in H. apply in_map_iff in H.
  destruct H as (x & <- & Hx). rewrite digit_ascii_is_digit in Hc; auto. discriminate.
Qed.

Lemma py_in_app_digits : forall sub s l, (forall c, In c (str_to_list sub) -> is_digit c = false) ->
  (forall x, In x l -> x < 10) -> sub <> "" ->
  py_in sub (s ++ digit_string l) = py_in sub s.
Proof.
  intros sub s l Hd Hl Hne. destruct (py_in sub s) eqn:E.
  - apply py_in_spec. apply py_in_spec in E. destruct E as (a & b & ->).
    exists a, (b ++ digit_string l)%string. now rewrite !sapp_assoc.
  - destruct (py_in sub (s ++ digit_string l)) eqn:E2; auto. apply py_in_spec in E2.
    destruct E2 as (a & b & H). exfalso.
    (* the occurrence of sub ends inside s *)
    assert (G : forall s a, (s ++ digit_string l)%string = (a ++ sub ++ b)%string -> py_in sub s = true).
    { clear s a H E. induction s as [|c s IH]; intros a H.
      - exfalso. destruct sub as [|c0 sub]; [congruence|].
        assert (In c0 (str_to_list (digit_string l))).
        { change (digit_string l = (a ++ String c0 sub ++ b)%string) in H. rewrite H.
          rewrite !str_to_list_app, !in_app_iff. right; left; cbn; auto. }
        apply (digit_string_no c0 l); auto. apply Hd; cbn; auto.
      - destruct a as [|c' a].
        + cbn [String.append] in H. clear IH.
          apply py_in_spec. exists ""%string.
          assert (G2 : forall u v, (u ++ digit_string l)%string = (v ++ b)%string ->
             (forall c, In c (str_to_list v) -> is_digit c = false) -> exists w, u = (v ++ w)%string).
          { induction u as [|cu u IHu]; intros [|cv v] K Kd.
            - exists ""%string; auto.
            - exfalso. cbn [String.append] in K.
              apply (digit_string_no cv l); auto; [apply Kd; cbn; auto|]. rewrite K. cbn; auto.
            - exists (String cu u). reflexivity.
            - cbn [String.append] in K. inversion K; subst. destruct (IHu v) as [w ->]; auto.
              + intros; apply Kd; cbn; auto.
              + exists w. reflexivity. }
          destruct (G2 (String c s) sub) as [w Hw]; auto. exists w. exact Hw.
        + cbn [String.append] in H. inversion H; subst. cbn [py_in]. apply orb_true_iff. right.
          eapply IH; eauto. }
    specialize (G s a H). congruence.
Qed.

Lemma performs_deriv_name : forall axes base op ord idx,
  py_in "_d" base = false -> In (op, ord) deriv_ops ->
  (forall x, In x idx -> x < 10) -> ord <= List.length idx ->
  performs_deriv axes (component_name (base ++ "_d" ++ op) idx) =
  Ok (existsb (fun x => existsb (Ascii.eqb (digit_ascii x)) (str_to_list axes))
              (skipn (List.length idx - ord) idx)).
Proof.
  intros axes base op ord idx Hb Hop Hidx Hlen. unfold component_name.
  rewrite digit_string_eq by auto. unfold performs_deriv.
  assert (Pin : py_in "_d" ((base ++ "_d" ++ op) ++ digit_string idx) = true).
  { apply py_in_spec. exists base, (op ++ digit_string idx)%string. now rewrite !sapp_assoc. }
  rewrite Pin.
  assert (S1 : deriv_scan ((base ++ "_d" ++ op) ++ digit_string idx) 1 = Ok ord).
  { rewrite !sapp_assoc. change ("_d" ++ op ++ digit_string idx)%string
      with (String "_" ("d" ++ op ++ digit_string idx)%string).
    rewrite deriv_scan_skip by auto.
    change (String "_" ("d" ++ op ++ digit_string idx)%string)
      with ("_d" ++ (op ++ digit_string idx))%string.
    remember (op ++ digit_string idx)%string as rest eqn:Er.
    assert (Hd : forall c, In c (str_to_list "DDD") -> is_digit c = false).
    { intros c [<-|[<-|[<-|[]]]]; reflexivity. }
    assert (R3 : py_in "DDD" rest = false).
    { subst rest. rewrite py_in_app_digits; [|exact Hd|exact Hidx|discriminate].
      repeat (destruct Hop as [E|Hop]; [inversion E; reflexivity|]). destruct Hop. }
    assert (R2 : py_in "DD" rest = Nat.eqb ord 2).
    { subst rest. rewrite py_in_app_digits; [| |exact Hidx|discriminate].
      - repeat (destruct Hop as [E|Hop]; [inversion E; reflexivity|]). destruct Hop.
      - intros c [<-|[<-|[]]]; reflexivity. }
    assert (R1 : py_in "_d" ("d" ++ rest) = false).
    { change (py_in "_d" (String "d" rest) = false). cbn [py_in].
      assert (py_in "_d" rest = false).
      { subst rest. rewrite py_in_app_digits; [| |exact Hidx|discriminate].
        - repeat (destruct Hop as [E|Hop]; [inversion E; reflexivity|]). destruct Hop.
        - intros c [<-|[<-|[]]]; reflexivity. }
      rewrite H. reflexivity. }
    change ("_d" ++ rest)%string with (String "_" ("d" ++ rest)%string).
    cbn [deriv_scan]. assert (Q : prefix "_d" (String "_" ("d" ++ rest)%string) = true) by (apply (prefix_app "_d" rest)).
    rewrite Q.
    assert (Dr : str_drop 2 (String "_" ("d" ++ rest)%string) = rest) by (apply (str_drop_app "_d" rest)).
    rewrite Dr, R3, R2. rewrite deriv_scan_none by auto.
    repeat (destruct Hop as [E|Hop]; [inversion E; reflexivity|]). destruct Hop. }
  rewrite S1. f_equal.
  rewrite !str_to_list_app, digit_string_to_list, rev_app_distr.
  rewrite firstn_app, rev_length, map_length.
  replace (ord - List.length idx) with 0 by lia. cbn [firstn]. rewrite app_nil_r.
  rewrite <- map_rev.
  assert (E : firstn ord (rev idx) = rev (skipn (List.length idx - ord) idx)).
  { rewrite <- (firstn_skipn (List.length idx - ord) idx) at 1.
    rewrite rev_app_distr, firstn_app, rev_length, skipn_length.
    replace (ord - (List.length idx - (List.length idx - ord))) with 0 by lia. cbn [firstn].
    rewrite app_nil_r. apply firstn_all2. rewrite rev_length, skipn_length. lia. }
  rewrite firstn_map, E.
  assert (X : forall (f : nat -> bool) l, existsb f (rev l) = existsb f l).
  { intros f l. apply eq_true_iff_eq. rewrite !existsb_exists.
    split; intros (x & Hx & Fx); exists x; split; auto; apply in_rev; auto. now rewrite rev_involutive. }
  assert (M : forall (f : ascii -> bool) (g : nat -> ascii) l, existsb f (map g l) = existsb (fun x => f (g x)) l).
  { intros f g l; induction l; cbn; auto. now rewrite IHl. }
  rewrite M, X. reflexivity.
Qed.

Lemma performs_deriv_plain : forall axes s, py_in "_d" s = false -> performs_deriv axes s = Ok false.
Proof. intros axes s H. unfold performs_deriv. now rewrite H. Qed.

(** The loop zeroes exactly the components whose name is reported. *)
Lemma zero_out_loop_spec : forall axes l T, NoDup l ->
  (forall i, In i l -> exists b, performs_deriv axes (str_entry (T i)) = Ok b) ->
  exists T', zero_out_loop axes l T = Ok T' /\
    (forall i, In i l -> T' i = if match performs_deriv axes (str_entry (T i)) with Ok b => b | Err _ => false end
                                then EZero else T i) /\
    (forall i, ~ In i l -> T' i = T i).
Proof.
  intros axes l; induction l as [|i l IH]; intros T ND H.
  - exists T. cbn. split; auto. split; [intros i []|auto].
  - inversion ND as [|? ? Hi NDl]; subst. cbn [zero_out_loop].
    destruct (H i (or_introl eq_refl)) as [b Hb]. rewrite Hb.
    set (T1 := if b then tset T i EZero else T).
    assert (O : forall j, j <> i -> T1 j = T j).
    { intros j Hj. unfold T1. destruct b; auto. apply tset_other. congruence. }
    destruct (IH T1 NDl) as (T' & E & I & N).
    { intros j Hj. rewrite O by congruence. apply H; cbn; auto. }
    exists T'. split; auto. split.
    + intros j [<-|Hj].
      * rewrite N by auto. rewrite Hb. unfold T1. destruct b; auto. apply tset_same.
      * rewrite I by auto. rewrite O by congruence. reflexivity.
    + intros j Hj. rewrite N, O; auto; cbn in Hj; firstorder congruence.
Qed.

Lemma py_in_cons_minus : forall s, py_in "_d" s = false -> py_in "_d" ("-" ++ s) = false.
Proof. intros s H. change (py_in "_d" (String "-" s) = false). cbn [py_in]. now rewrite H. Qed.

(** One of the last [ord] indices names a symmetry axis. *)
Definition crosses (axes : string) (ord : nat) (src : list nat) : Prop :=
  exists x, In x (skipn (List.length src - ord) src) /\ In (digit_ascii x) (str_to_list axes).

Lemma crosses_dec : forall axes ord src,
  existsb (fun x => existsb (Ascii.eqb (digit_ascii x)) (str_to_list axes))
          (skipn (List.length src - ord) src) = true <-> crosses axes ord src.
Proof.
  intros. unfold crosses. rewrite existsb_exists. split; intros (x & Hx & H); exists x; split; auto.
  - apply existsb_exists in H. destruct H as (c & Hc & E). apply Ascii.eqb_eq in E. now subst.
  - apply existsb_exists. exists (digit_ascii x). split; auto. apply Ascii.eqb_refl.
Qed.

Definition deriv_entry (base op : string) (ord : nat) (e : entry) (src : list nat) : Prop :=
  (exists m, e = ESym m (component_name (base ++ "_d" ++ op) src)) /\
  (forall x, In x src -> x < 10) /\ ord <= List.length src.

Lemma performs_deriv_entry : forall axes base op ord e src,
  py_in "_d" base = false -> In (op, ord) deriv_ops -> deriv_entry base op ord e src ->
  performs_deriv axes (str_entry e) =
  Ok (existsb (fun x => existsb (Ascii.eqb (digit_ascii x)) (str_to_list axes))
              (skipn (List.length src - ord) src)).
Proof.
  intros axes base op ord e src Hb Hop ((m & ->) & Hs & Hl). cbn [str_entry]. destruct m.
  - replace ("-" ++ component_name (base ++ "_d" ++ op) src)%string
      with (component_name (("-" ++ base) ++ "_d" ++ op) src).
    + now apply performs_deriv_name.
    + unfold component_name. now rewrite !sapp_assoc.
  - now apply performs_deriv_name.
Qed.

Lemma zero_out_derivs : forall axes rank dim base op ord T,
  py_in "_d" base = false -> In (op, ord) deriv_ops ->
  (forall i, in_range dim rank i -> T i = EZero \/ exists src, deriv_entry base op ord (T i) src) ->
  exists T', zero_out axes rank dim T = Ok T' /\
    (forall i, in_range dim rank i -> T i = EZero -> T' i = EZero) /\
    (forall i src, in_range dim rank i -> deriv_entry base op ord (T i) src ->
       (crosses axes ord src -> T' i = EZero) /\ (~ crosses axes ord src -> T' i = T i)).
Proof.
  intros axes rank dim base op ord T Hb Hop HT. unfold zero_out.
  destruct (String.eqb_spec axes "") as [->|Hax].
  - exists T. split; auto. split; auto. intros i src Hi He. split; auto.
    intros (x & _ & []).
  - destruct (zero_out_loop_spec axes (product_range dim rank) T) as (T' & E & I & _).
    + apply NoDup_product_range.
    + intros i Hi. apply In_product_range in Hi. destruct (HT i Hi) as [Z|(src & Hs)].
      * rewrite Z. exists false. reflexivity.
      * eexists. eapply performs_deriv_entry; eauto.
    + exists T'. split; auto. split.
      * intros i Hi Z. apply In_product_range in Hi. rewrite I by auto. rewrite Z. reflexivity.
      * intros i src Hi He. apply In_product_range in Hi. rewrite I by auto.
        rewrite (performs_deriv_entry axes base op ord (T i) src) by auto.
        rewrite <- crosses_dec. destruct (existsb _ (skipn _ src)); split; auto; congruence.
Qed.

Lemma zero_out_plain : forall axes rank dim T,
  (forall i, in_range dim rank i -> py_in "_d" (str_entry (T i)) = false) ->
  exists T', zero_out axes rank dim T = Ok T' /\ forall i, T' i = T i.
Proof.
  intros axes rank dim T H. unfold zero_out. destruct (String.eqb axes ""); [exists T; auto|].
  destruct (zero_out_loop_spec axes (product_range dim rank) T) as (T' & E & I & N).
  - apply NoDup_product_range.
  - intros i Hi. apply In_product_range in Hi. exists false. now apply performs_deriv_plain, H.
  - exists T'. split; auto. intros i.
    destruct (in_dec (list_eq_dec Nat.eq_dec) i (product_range dim rank)) as [D|D]; auto.
    rewrite I by auto. rewrite performs_deriv_plain; auto. apply H. now apply In_product_range.
Qed.

Lemma nosym_run : forall A neg zero rank dim (T : tensor A), 2 <= rank -> rank <= 4 ->
  symmetrize neg zero rank dim "nosym" T = Ok T.
Proof.
  intros A neg zero rank dim T H1 H2.
  destruct rank as [|[|[|[|[|r]]]]]; try lia; reflexivity.
Qed.
