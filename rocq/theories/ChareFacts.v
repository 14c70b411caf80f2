(** Proofs about the superB domain decomposition. *)
From Coq Require Import List Arith Bool Lia.
From Verif Require Import Chare.
Import ListNotations.

Lemma radix_inj : forall N a b a' b',
  a < N -> a' < N -> a + N * b = a' + N * b' -> a = a' /\ b = b'.
Proof.
  intros N a b a' b' H H' E.
  assert (b = b').
  { assert (X : (a + b * N) / N = (a' + b' * N) / N) by (f_equal; lia).
    rewrite !Nat.div_add in X by lia.
    rewrite (Nat.div_small a), (Nat.div_small a') in X by assumption. lia. }
  subst b'. split; [nia|reflexivity].
Qed.

Lemma idx3_inj : forall Ni Nj i j k i' j' k',
  i < Ni -> i' < Ni -> j < Nj -> j' < Nj ->
  IDX3GENERAL i j k Ni Nj = IDX3GENERAL i' j' k' Ni Nj -> i = i' /\ j = j' /\ k = k'.
Proof.
  unfold IDX3GENERAL. intros * Hi Hi' Hj Hj' E.
  apply radix_inj in E; try assumption. destruct E as [-> E].
  apply radix_inj in E; try assumption. tauto.
Qed.

Lemma radix_bound : forall N a b B, a < N -> b < B -> a + N * b < N * B.
Proof. intros. nia. Qed.

Lemma idx3_bound : forall Ni Nj Nk i j k,
  i < Ni -> j < Nj -> k < Nk -> IDX3GENERAL i j k Ni Nj < Ni * Nj * Nk.
Proof.
  unfold IDX3GENERAL. intros. rewrite <- Nat.mul_assoc.
  apply radix_bound; [assumption|]. now apply radix_bound.
Qed.

Lemma idx3_surj : forall Ni Nj Nk g, g < Ni * Nj * Nk ->
  exists i j k, i < Ni /\ j < Nj /\ k < Nk /\ g = IDX3GENERAL i j k Ni Nj.
Proof.
  intros Ni Nj Nk g H.
  destruct Ni as [|Ni]; [cbn in H; lia|]. destruct Nj as [|Nj]; [nia|].
  exists (g mod S Ni), (g / S Ni mod S Nj), (g / S Ni / S Nj).
  split; [apply Nat.mod_upper_bound; lia|]. split; [apply Nat.mod_upper_bound; lia|].
  split.
  - apply Nat.div_lt_upper_bound; [lia|]. apply Nat.div_lt_upper_bound; [lia|]. nia.
  - unfold IDX3GENERAL. rewrite (Nat.add_comm (_ mod S Nj)), <- Nat.div_mod by lia.
    rewrite Nat.add_comm. apply Nat.div_mod. lia.
Qed.

Lemma in_range : forall a b x, In x (range a b) <-> a <= x < b.
Proof. intros. unfold range. rewrite in_seq. lia. Qed.

(** * One direction *)

(** Ownership in one direction: chare [c] of [N] owns local index [l]. *)
Definition own1 (ng N n c l : nat) : Prop :=
  c < N /\ start_local ng c <= l < stop_local ng N n c.

Lemma own1_bound : forall ng N n c l, own1 ng N n c l -> l < n + 2 * ng.
Proof.
  intros * [H [_ K]]. unfold stop_local in K. destruct (c =? N - 1); lia.
Qed.

Lemma own1_global : forall ng N n c l, own1 ng N n c l ->
  MAP_LOCAL_TO_GLOBAL_IDX c l n < N * n + 2 * ng.
Proof.
  unfold own1, stop_local, MAP_LOCAL_TO_GLOBAL_IDX. intros * [H [_ K]].
  destruct (Nat.eqb_spec c (N - 1)).
  - subst c. destruct N; [lia|]. replace (S N - 1) with N in * by lia. nia.
  - assert (c + 1 <= N - 1) by lia. nia.
Qed.

Lemma own1_unique : forall ng N n c l c' l',
  own1 ng N n c l -> own1 ng N n c' l' ->
  MAP_LOCAL_TO_GLOBAL_IDX c l n = MAP_LOCAL_TO_GLOBAL_IDX c' l' n -> c = c' /\ l = l'.
Proof.
  unfold own1, start_local, stop_local, MAP_LOCAL_TO_GLOBAL_IDX.
  intros * [H [K1 K2]] [H' [K1' K2']] E.
  assert (c = c').
  { destruct (Nat.lt_trichotomy c c') as [L|[L|L]]; [exfalso|exact L|exfalso].
    - destruct (Nat.eqb_spec c (N - 1)); [lia|].
      destruct (Nat.eqb_spec c' 0); [lia|].
      assert (c + 1 <= c') by lia. assert (c * n + n <= c' * n) by nia. lia.
    - destruct (Nat.eqb_spec c' (N - 1)); [lia|].
      destruct (Nat.eqb_spec c 0); [lia|].
      assert (c' + 1 <= c) by lia. assert (c' * n + n <= c * n) by nia. lia. }
  subst c'. split; [reflexivity|lia].
Qed.

Lemma own1_exists : forall ng N n g, 0 < N -> g < N * n + 2 * ng ->
  exists c l, own1 ng N n c l /\ MAP_LOCAL_TO_GLOBAL_IDX c l n = g.
Proof.
  intros ng N n g HN H. unfold own1, start_local, stop_local, MAP_LOCAL_TO_GLOBAL_IDX.
  destruct (Nat.lt_ge_cases g ng) as [L|L].
  { exists 0, g. rewrite (Nat.eqb_refl 0). split; [|lia]. split; [exact HN|]. split; [lia|].
    destruct (0 =? N - 1); lia. }
  destruct (Nat.lt_ge_cases g (N * n + ng)) as [U|U].
  - destruct n as [|n]; [lia|].
    exists ((g - ng) / S n), ((g - ng) mod S n + ng).
    assert (D := Nat.div_mod (g - ng) (S n) ltac:(lia)).
    assert (M := Nat.mod_upper_bound (g - ng) (S n) ltac:(lia)).
    assert (Q : (g - ng) / S n < N) by (apply Nat.div_lt_upper_bound; nia).
    split; [|lia]. split; [exact Q|].
    split; [destruct (_ =? 0); lia|]. destruct (_ =? N - 1); lia.
  - exists (N - 1), (g - (N - 1) * n). rewrite Nat.eqb_refl.
    assert ((N - 1) * n + n = N * n) by (destruct N; [lia|cbn; rewrite Nat.sub_0_r; lia]).
    split; [|lia]. split; [lia|]. split; [destruct (N - 1 =? 0); lia|lia].
Qed.

(** Interior points are owned as interior points, with the expected local index. *)
Lemma own1_interior : forall ng N n c l, own1 ng N n c l ->
  ng <= MAP_LOCAL_TO_GLOBAL_IDX c l n < N * n + ng -> ng <= l < n + ng.
Proof.
  unfold own1, start_local, stop_local, MAP_LOCAL_TO_GLOBAL_IDX.
  intros * [H [K1 K2]] [I1 I2]. split.
  - destruct (Nat.eqb_spec c 0); [subst c; lia|lia].
  - destruct (Nat.eqb_spec c (N - 1)); [|lia].
    assert ((N - 1) * n + n = N * n) by (destruct N; [lia|cbn; rewrite Nat.sub_0_r; lia]).
    subst c. lia.
Qed.

(** * Stores into a block *)
Lemma run_stores_ok : forall A size (ws : list (nat * A)) m,
  (forall i v, In (i, v) ws -> i < size) -> exists m', run_stores size ws m = COk m'.
Proof.
  induction ws as [|[i v] r IH]; intros m H; cbn [run_stores].
  - now exists m.
  - assert (L : i < size) by (apply (H i v); now left).
    apply Nat.ltb_lt in L. rewrite L. apply IH. intros. apply (H i0 v0). now right.
Qed.

Lemma run_stores_notin : forall A size (ws : list (nat * A)) m m' x,
  run_stores size ws m = COk m' -> (forall v, ~ In (x, v) ws) -> m' x = m x.
Proof.
  induction ws as [|[i v] r IH]; intros m m' x R H; cbn [run_stores] in R.
  - now inversion R.
  - destruct (i <? size); [|discriminate]. apply IH with (x := x) in R.
    + rewrite R. destruct (Nat.eqb_spec x i); [|reflexivity].
      subst. exfalso. apply (H v). now left.
    + intros w K. apply (H w). now right.
Qed.

Lemma run_stores_in : forall A size (ws : list (nat * A)) m m' x v,
  run_stores size ws m = COk m' -> NoDup (map fst ws) -> In (x, v) ws -> m' x = Some v.
Proof.
  induction ws as [|[i w] r IH]; intros m m' x v R N H; cbn [run_stores] in R; [easy|].
  destruct (i <? size); [|discriminate].
  cbn in N. inversion N as [|? ? N1 N2]; subst.
  destruct H as [H|H].
  - injection H as -> ->. rewrite (run_stores_notin _ _ _ _ _ x R), Nat.eqb_refl; [easy|].
    intros u K. apply N1. change x with (fst (x, u)). now apply in_map.
  - eapply IH; eauto.
Qed.

Lemma run_stores_some : forall A size (ws : list (nat * A)) m m' x v,
  run_stores size ws m = COk m' -> NoDup (map fst ws) ->
  m' x = Some v -> In (x, v) ws \/ m x = Some v.
Proof.
  induction ws as [|[i w] r IH]; intros m m' x v R N H; cbn [run_stores] in R.
  - inversion R; subst. now right.
  - destruct (i <? size); [|discriminate]. cbn in N. inversion N as [|? ? N1 N2]; subst.
    destruct (IH _ _ _ _ R N2 H) as [K|K]; [left; now right|].
    destruct (Nat.eqb_spec x i); [|now right]. subst. injection K as ->. left. now left.
Qed.

(** * The stores of the global maps *)
Lemma in_map_stores : forall nch nxx c ng g ci l,
  In (g, (ci, l)) (map_stores nch nxx c ng) <->
  exists c0 c1 c2 l0 l1 l2,
    own1 ng (p0 nch) (p0 c) c0 l0 /\ own1 ng (p1 nch) (p1 c) c1 l1 /\
    own1 ng (p2 nch) (p2 c) c2 l2 /\
    g = IDX3GENERAL (MAP_LOCAL_TO_GLOBAL_IDX c0 l0 (p0 c)) (MAP_LOCAL_TO_GLOBAL_IDX c1 l1 (p1 c))
          (MAP_LOCAL_TO_GLOBAL_IDX c2 l2 (p2 c)) (p0 nxx + 2 * ng) (p1 nxx + 2 * ng) /\
    ci = IDX3GENERAL c0 c1 c2 (p0 nch) (p1 nch) /\
    l = IDX3GENERAL l0 l1 l2 (p0 c + 2 * ng) (p1 c + 2 * ng).
Proof.
  intros. unfold map_stores. split.
  - intro H.
    apply in_flat_map in H as (c2 & H2 & H). apply in_flat_map in H as (c1 & H1 & H).
    apply in_flat_map in H as (c0 & H0 & H). apply in_flat_map in H as (l2 & K2 & H).
    apply in_flat_map in H as (l1 & K1 & H). apply in_map_iff in H as (l0 & E & K0).
    rewrite in_range in *. injection E as <- <- <-.
    exists c0, c1, c2, l0, l1, l2. unfold own1. repeat split; lia.
  - intros (c0 & c1 & c2 & l0 & l1 & l2 & [A0 B0] & [A1 B1] & [A2 B2] & -> & -> & ->).
    apply in_flat_map. exists c2. split; [apply in_range; lia|].
    apply in_flat_map. exists c1. split; [apply in_range; lia|].
    apply in_flat_map. exists c0. split; [apply in_range; lia|].
    apply in_flat_map. exists l2. split; [now apply in_range|].
    apply in_flat_map. exists l1. split; [now apply in_range|].
    apply in_map_iff. exists l0. split; [reflexivity|now apply in_range].
Qed.

(** Keys of a flat_map are distinct when they are distinct within each block and blocks do not meet. *)
Lemma NoDup_app : forall A (l1 l2 : list A),
  NoDup l1 -> NoDup l2 -> (forall x, In x l1 -> In x l2 -> False) -> NoDup (l1 ++ l2).
Proof.
  induction l1 as [|a r IH]; intros l2 H1 H2 D; cbn; [exact H2|].
  inversion H1; subst. constructor.
  - rewrite in_app_iff. intros [K|K]; [easy|]. apply (D a); [now left|exact K].
  - apply IH; auto. intros x K1 K2. apply (D x); [now right|exact K2].
Qed.

Lemma NoDup_fst_flat_map : forall A K V (f : A -> list (K * V)) l,
  NoDup l -> (forall x, In x l -> NoDup (map fst (f x))) ->
  (forall x y k v w, In x l -> In y l -> In (k, v) (f x) -> In (k, w) (f y) -> x = y) ->
  NoDup (map fst (flat_map f l)).
Proof.
  induction l as [|a r IH]; intros N H D; cbn; [constructor|].
  inversion N; subst. rewrite map_app. apply NoDup_app.
  - apply H. now left.
  - apply IH; auto. + intros; apply H; now right.
    + intros; eapply D; eauto; now right.
  - intros k K1 K2. apply in_map_iff in K1 as ([k1 v] & E1 & K1).
    apply in_map_iff in K2 as ([k2 w] & E2 & K2). cbn in *. subst.
    apply in_flat_map in K2 as (y & Y & K2).
    assert (a = y) by (eapply (D a y); [now left|now right|eassumption|eassumption]). subst. contradiction.
Qed.

Lemma NoDup_fst_map : forall A K V (f : A -> K * V) l,
  NoDup l -> (forall x y, In x l -> In y l -> fst (f x) = fst (f y) -> x = y) ->
  NoDup (map fst (map f l)).
Proof.
  induction l as [|a r IH]; intros N D; cbn; [constructor|].
  inversion N; subst. constructor.
  - intro M. apply in_map_iff in M as (kv & E & M). apply in_map_iff in M as (y & <- & Y).
    assert (a = y) by (apply D; [now left|now right|congruence]). subst. contradiction.
  - apply IH; auto. intros; apply D; auto; now right.
Qed.

Lemma NoDup_range : forall a b, NoDup (range a b).
Proof. intros. apply seq_NoDup. Qed.

Section MAPS.
Variables (nch nxx c : nat * nat * nat) (ng : nat).
Hypothesis E0 : p0 nxx = p0 nch * p0 c.
Hypothesis E1 : p1 nxx = p1 nch * p1 c.
Hypothesis E2 : p2 nxx = p2 nch * p2 c.

Lemma global_inj : forall c0 c1 c2 l0 l1 l2 c0' c1' c2' l0' l1' l2',
  own1 ng (p0 nch) (p0 c) c0 l0 -> own1 ng (p1 nch) (p1 c) c1 l1 ->
  own1 ng (p2 nch) (p2 c) c2 l2 ->
  own1 ng (p0 nch) (p0 c) c0' l0' -> own1 ng (p1 nch) (p1 c) c1' l1' ->
  own1 ng (p2 nch) (p2 c) c2' l2' ->
  IDX3GENERAL (MAP_LOCAL_TO_GLOBAL_IDX c0 l0 (p0 c)) (MAP_LOCAL_TO_GLOBAL_IDX c1 l1 (p1 c))
          (MAP_LOCAL_TO_GLOBAL_IDX c2 l2 (p2 c)) (p0 nxx + 2 * ng) (p1 nxx + 2 * ng) =
  IDX3GENERAL (MAP_LOCAL_TO_GLOBAL_IDX c0' l0' (p0 c)) (MAP_LOCAL_TO_GLOBAL_IDX c1' l1' (p1 c))
          (MAP_LOCAL_TO_GLOBAL_IDX c2' l2' (p2 c)) (p0 nxx + 2 * ng) (p1 nxx + 2 * ng) ->
  (c0 = c0' /\ l0 = l0') /\ (c1 = c1' /\ l1 = l1') /\ (c2 = c2' /\ l2 = l2').
Proof.
  intros * O0 O1 O2 O0' O1' O2' E.
  apply idx3_inj in E; try (rewrite ?E0, ?E1; now apply own1_global).
  destruct E as (F0 & F1 & F2).
  split; [|split]; eapply own1_unique; eauto.
Qed.

Lemma map_stores_NoDup : NoDup (map fst (map_stores nch nxx c ng)).
Proof.
  unfold map_stores.
  assert (O : forall N n k a, In k (range 0 N) ->
             In a (range (start_local ng k) (stop_local ng N n k)) -> own1 ng N n k a).
  { intros N n k a. rewrite !in_range. unfold own1. intros. repeat split; lia. }
  apply NoDup_fst_flat_map; [apply NoDup_range| |].
  2:{ intros x y k v w X Y H H'.
      apply in_flat_map in H as (b1 & Hb1 & H). apply in_flat_map in H as (b0 & Hb0 & H).
      apply in_flat_map in H as (m2 & Hm2 & H). apply in_flat_map in H as (m1 & Hm1 & H).
      apply in_map_iff in H as (m0 & Em & Hm0).
      apply in_flat_map in H' as (d1 & Hd1 & H'). apply in_flat_map in H' as (d0 & Hd0 & H').
      apply in_flat_map in H' as (n2 & Hn2 & H'). apply in_flat_map in H' as (n1 & Hn1 & H').
      apply in_map_iff in H' as (n0 & En & Hn0).
      injection Em as Em _. injection En as En _. rewrite <- En in Em.
      apply global_inj in Em; eauto. tauto. }
  intros x X. apply NoDup_fst_flat_map; [apply NoDup_range| |].
  2:{ intros b1 d1 k v w Hb1 Hd1 H H'.
      apply in_flat_map in H as (b0 & Hb0 & H).
      apply in_flat_map in H as (m2 & Hm2 & H). apply in_flat_map in H as (m1 & Hm1 & H).
      apply in_map_iff in H as (m0 & Em & Hm0).
      apply in_flat_map in H' as (d0 & Hd0 & H').
      apply in_flat_map in H' as (n2 & Hn2 & H'). apply in_flat_map in H' as (n1 & Hn1 & H').
      apply in_map_iff in H' as (n0 & En & Hn0).
      injection Em as Em _. injection En as En _. rewrite <- En in Em.
      apply global_inj in Em; eauto. tauto. }
  intros y Y. apply NoDup_fst_flat_map; [apply NoDup_range| |].
  2:{ intros b0 d0 k v w Hb0 Hd0 H H'.
      apply in_flat_map in H as (m2 & Hm2 & H). apply in_flat_map in H as (m1 & Hm1 & H).
      apply in_map_iff in H as (m0 & Em & Hm0).
      apply in_flat_map in H' as (n2 & Hn2 & H'). apply in_flat_map in H' as (n1 & Hn1 & H').
      apply in_map_iff in H' as (n0 & En & Hn0).
      injection Em as Em _. injection En as En _. rewrite <- En in Em.
      apply global_inj in Em; eauto. tauto. }
  intros z Z. apply NoDup_fst_flat_map; [apply NoDup_range| |].
  2:{ intros m2 n2 k v w Hm2 Hn2 H H'.
      apply in_flat_map in H as (m1 & Hm1 & H).
      apply in_map_iff in H as (m0 & Em & Hm0).
      apply in_flat_map in H' as (n1 & Hn1 & H').
      apply in_map_iff in H' as (n0 & En & Hn0).
      injection Em as Em _. injection En as En _. rewrite <- En in Em.
      apply global_inj in Em; eauto. tauto. }
  intros u U. apply NoDup_fst_flat_map; [apply NoDup_range| |].
  2:{ intros m1 n1 k v w Hm1 Hn1 H H'.
      apply in_map_iff in H as (m0 & Em & Hm0). apply in_map_iff in H' as (n0 & En & Hn0).
      injection Em as Em _. injection En as En _. rewrite <- En in Em.
      apply global_inj in Em; eauto. tauto. }
  intros t T. apply NoDup_fst_map; [apply NoDup_range|].
  intros m0 n0 Hm Hn E. cbn [fst] in E. apply global_inj in E; eauto. tauto.
Qed.

Lemma map_stores_bound : forall g v, In (g, v) (map_stores nch nxx c ng) -> g < grid_size nxx ng.
Proof.
  intros g [ci l] H. apply in_map_stores in H as (c0&c1&c2&l0&l1&l2&O0&O1&O2&->&_&_).
  apply own1_global in O0, O1, O2.
  unfold grid_size. apply idx3_bound; rewrite ?E0, ?E1, ?E2; assumption.
Qed.

End MAPS.

Section LMAPS.
Variables (nxx c : nat * nat * nat) (ng : nat).

Lemma local_stores_spec : forall t l g,
  In (l, g) (local_stores t nxx c ng) <->
  exists l0 l1 l2, l0 < p0 c + 2 * ng /\ l1 < p1 c + 2 * ng /\ l2 < p2 c + 2 * ng /\
    l = IDX3GENERAL l0 l1 l2 (p0 c + 2 * ng) (p1 c + 2 * ng) /\
    g = IDX3GENERAL (MAP_LOCAL_TO_GLOBAL_IDX (p0 t) l0 (p0 c))
          (MAP_LOCAL_TO_GLOBAL_IDX (p1 t) l1 (p1 c))
          (MAP_LOCAL_TO_GLOBAL_IDX (p2 t) l2 (p2 c)) (p0 nxx + 2 * ng) (p1 nxx + 2 * ng).
Proof.
  intros. unfold local_stores. split.
  - intro H. apply in_flat_map in H as (l2 & K2 & H). apply in_flat_map in H as (l1 & K1 & H).
    apply in_map_iff in H as (l0 & E & K0). rewrite in_range in *. injection E as <- <-.
    exists l0, l1, l2. repeat split; lia.
  - intros (l0 & l1 & l2 & B0 & B1 & B2 & -> & ->).
    apply in_flat_map. exists l2. split; [apply in_range; lia|].
    apply in_flat_map. exists l1. split; [apply in_range; lia|].
    apply in_map_iff. exists l0. split; [reflexivity|apply in_range; lia].
Qed.

Lemma local_stores_NoDup : forall t, NoDup (map fst (local_stores t nxx c ng)).
Proof.
  intro t. unfold local_stores.
  apply NoDup_fst_flat_map; [apply NoDup_range| |].
  2:{ intros x y k v w X Y H H'.
      apply in_flat_map in H as (m1 & Hm1 & H). apply in_map_iff in H as (m0 & Em & Hm0).
      apply in_flat_map in H' as (n1 & Hn1 & H'). apply in_map_iff in H' as (n0 & En & Hn0).
      injection Em as Em _. injection En as En _. rewrite <- En in Em. rewrite in_range in *.
      apply idx3_inj in Em; try lia. }
  intros u U. apply NoDup_fst_flat_map; [apply NoDup_range| |].
  2:{ intros x y k v w X Y H H'.
      apply in_map_iff in H as (m0 & Em & Hm0). apply in_map_iff in H' as (n0 & En & Hn0).
      injection Em as Em _. injection En as En _. rewrite <- En in Em. rewrite in_range in *.
      apply idx3_inj in Em; try lia. }
  intros x X. apply NoDup_fst_map; [apply NoDup_range|].
  intros m0 n0 Hm Hn E. cbn [fst] in E. rewrite in_range in *. apply idx3_inj in E; try lia.
Qed.

Lemma local_stores_bound : forall t l g, In (l, g) (local_stores t nxx c ng) -> l < grid_size c ng.
Proof.
  intros t l g H. apply local_stores_spec in H as (l0 & l1 & l2 & B0 & B1 & B2 & -> & _).
  unfold grid_size. now apply idx3_bound.
Qed.

End LMAPS.

Lemma chare_Nxx_ok : forall s c, chare_Nxx s = COk c ->
  (0 < p0 (cs_nch s) /\ 0 < p1 (cs_nch s) /\ 0 < p2 (cs_nch s)) /\
  p0 (cs_nxx s) = p0 (cs_nch s) * p0 c /\ p1 (cs_nxx s) = p1 (cs_nch s) * p1 c /\
  p2 (cs_nxx s) = p2 (cs_nch s) * p2 c /\
  (1 < p0 (cs_nch s) -> cs_ng s <= p0 c) /\ (1 < p1 (cs_nch s) -> cs_ng s <= p1 c) /\
  (1 < p2 (cs_nch s) -> cs_ng s <= p2 c).
Proof.
  intros [[[n0 n1] n2] [[x0 x1] x2] ng] c H. unfold chare_Nxx, p0, p1, p2 in *. cbn [cs_nch cs_nxx cs_ng fst snd] in *.
  destruct (Nat.eqb_spec n0 0); [discriminate|]. destruct (Nat.eqb_spec n1 0); [discriminate|].
  destruct (Nat.eqb_spec n2 0); [discriminate|]. cbn [orb] in H.
  destruct (Nat.eqb_spec (x0 mod n0) 0) as [D0|]; [|discriminate].
  destruct (Nat.eqb_spec (x1 mod n1) 0) as [D1|]; [|discriminate].
  destruct (Nat.eqb_spec (x2 mod n2) 0) as [D2|]; [|discriminate]. cbn [negb] in H.
  destruct (andb (1 <? n0) (x0 / n0 <? ng)) eqn:F0; [discriminate|].
  destruct (andb (1 <? n1) (x1 / n1 <? ng)) eqn:F1; [discriminate|].
  destruct (andb (1 <? n2) (x2 / n2 <? ng)) eqn:F2; [discriminate|].
  injection H as <-. cbn [fst snd].
  assert (D : forall x m, m <> 0 -> x mod m = 0 -> x = m * (x / m)).
  { intros x m Hn Hm. apply Nat.div_exact; assumption. }
  assert (F : forall m x, andb (1 <? m) (x / m <? ng) = false -> 1 < m -> ng <= x / m).
  { intros m x Hx Hn. apply Nat.ltb_lt in Hn. rewrite Hn in Hx. cbn [andb] in Hx.
    now apply Nat.ltb_ge in Hx. }
  repeat split; try lia; try (apply D; assumption); apply F; assumption.
Qed.

(** * Ghost exchange *)
Lemma run_copies_notin : forall V ws (from to : nat -> V) i,
  (forall j, ~ In (i, j) ws) -> run_copies ws from to i = to i.
Proof.
  induction ws as [|[a b] r IH]; intros from to i H; cbn [run_copies]; [reflexivity|].
  rewrite IH by (intros j K; apply (H j); now right).
  destruct (Nat.eqb_spec i a); [|reflexivity]. subst. exfalso. apply (H b). now left.
Qed.

Lemma run_copies_in : forall V ws (from to : nat -> V) i v,
  (exists j, In (i, j) ws) -> (forall j, In (i, j) ws -> from j = v) ->
  run_copies ws from to i = v.
Proof.
  induction ws as [|[a b] r IH]; intros from to i v [j H] A; cbn [run_copies]; [easy|].
  destruct (in_dec (fun x y => Nat.eq_dec x y) i (map fst r)) as [Y|N].
  - apply in_map_iff in Y as ([i' j'] & E & Y). cbn in E. subst i'.
    apply IH; [now exists j'|]. intros k K. apply A. now right.
  - rewrite run_copies_notin.
    + destruct H as [H|H].
      * injection H as -> ->. rewrite Nat.eqb_refl. apply A. now left.
      * exfalso. apply N. change i with (fst (i, j)). now apply in_map.
    + intros k K. apply N. change i with (fst (i, k)). now apply in_map.
Qed.

Lemma in_face_loops : forall ngfs ng A B f p,
  In p (face_loops ngfs ng A B f) <->
  exists g w a b, g < ngfs /\ w < ng /\ a < A /\ b < B /\ p = f g w a b.
Proof.
  intros. unfold face_loops. split.
  - intro H. apply in_flat_map in H as (g & G & H). apply in_flat_map in H as (w & W & H).
    apply in_flat_map in H as (a & HA & H). apply in_map_iff in H as (b & E & HB).
    rewrite in_range in *. exists g, w, a, b. repeat split; try lia. now symmetry.
  - intros (g & w & a & b & G & W & HA & HB & ->).
    apply in_flat_map. exists g. split; [apply in_range; lia|].
    apply in_flat_map. exists w. split; [apply in_range; lia|].
    apply in_flat_map. exists a. split; [apply in_range; lia|].
    apply in_map_iff. exists b. split; [reflexivity|apply in_range; lia].
Qed.

Lemma idx4_inj : forall Ni Nj Nk g i j k g' i' j' k',
  i < Ni -> i' < Ni -> j < Nj -> j' < Nj -> k < Nk -> k' < Nk ->
  IDX4GENERAL g i j k Ni Nj Nk = IDX4GENERAL g' i' j' k' Ni Nj Nk ->
  i = i' /\ j = j' /\ k = k' /\ g = g'.
Proof.
  unfold IDX4GENERAL. intros * Hi Hi' Hj Hj' Hk Hk' E.
  apply radix_inj in E; try assumption. destruct E as [-> E].
  apply radix_inj in E; try assumption. destruct E as [-> E].
  apply radix_inj in E; try assumption. tauto.
Qed.

(** The shape of all three face index macros. *)
Lemma faces_inj : forall A B ng g w a b g' w' a' b',
  a < A -> a' < A -> b < B -> b' < B -> w < ng -> w' < ng ->
  a + A * (b + B * (w + ng * g)) = a' + A * (b' + B * (w' + ng * g')) ->
  a = a' /\ b = b' /\ w = w' /\ g = g'.
Proof.
  intros * Ha Ha' Hb Hb' Hw Hw' E.
  apply radix_inj in E; try assumption. destruct E as [-> E].
  apply radix_inj in E; try assumption. destruct E as [-> E].
  apply radix_inj in E; try assumption. tauto.
Qed.

(** One message: pack with [F <- S], unpack with [R <- F]. *)
Lemma message : forall V ngfs ng A B (F S R : nat -> nat -> nat -> nat -> nat) (d b old : nat -> V),
  (forall g w x y g' w' x' y', w < ng -> x < A -> y < B -> w' < ng -> x' < A -> y' < B ->
     F g w x y = F g' w' x' y' -> g = g' /\ w = w' /\ x = x' /\ y = y') ->
  let recv := face_loops ngfs ng A B (fun g w x y => (R g w x y, F g w x y)) in
  let send := face_loops ngfs ng A B (fun g w x y => (F g w x y, S g w x y)) in
  (forall g w x y, g < ngfs -> w < ng -> x < A -> y < B ->
     (forall g' w' x' y', g' < ngfs -> w' < ng -> x' < A -> y' < B ->
        R g' w' x' y' = R g w x y -> S g' w' x' y' = S g w x y) ->
     run_copies recv (run_copies send d b) old (R g w x y) = d (S g w x y)) /\
  (forall i, (forall g w x y, g < ngfs -> w < ng -> x < A -> y < B -> R g w x y <> i) ->
     run_copies recv (run_copies send d b) old i = old i).
Proof.
  intros * FI recv send. split.
  - intros g w x y Hg Hw Hx Hy U. apply run_copies_in.
    + exists (F g w x y). apply in_face_loops. exists g, w, x, y. repeat split; assumption.
    + intros j Hj. apply in_face_loops in Hj as (g' & w' & x' & y' & G & W & X & Y & E).
      injection E as E ->. apply run_copies_in.
      * exists (S g' w' x' y'). apply in_face_loops. exists g', w', x', y'. repeat split; assumption.
      * intros k Hk. apply in_face_loops in Hk as (g2 & w2 & x2 & y2 & G2 & W2 & X2 & Y2 & E2).
        injection E2 as E2 ->. apply FI in E2; try assumption. destruct E2 as (-> & -> & -> & ->).
        f_equal. apply U; auto.
  - intros i N. apply run_copies_notin. intros j Hj.
    apply in_face_loops in Hj as (g & w & x & y & G & W & X & Y & E).
    injection E as -> ->. apply (N g w x y); auto.
Qed.

Section EXCH.
Variable V : Type.
Variables (nch c : nat * nat * nat) (ng : nat) (sync : list nat).
Notation N0 := (p0 c + 2 * ng).
Notation N1 := (p1 c + 2 * ng).
Notation N2 := (p2 c + 2 * ng).
Notation at4 g i j k := (IDX4GENERAL g i j k N0 N1 N2).

(** Move an index along the axis. *)
Definition replace (a : axis) (x : nat) (p : nat * nat * nat) : nat * nat * nat :=
  match a with AX0 => (x, p1 p, p2 p) | AX1 => (p0 p, x, p2 p) | AX2 => (p0 p, p1 p, x) end.
Definition pt (g : nat) (p : nat * nat * nat) : nat := at4 g (p0 p) (p1 p) (p2 p).
Definition inb (p : nat * nat * nat) : Prop := p0 p < N0 /\ p1 p < N1 /\ p2 p < N2.

Lemma pt_inj : forall g p g' p', inb p -> inb p' -> pt g p = pt g' p' -> g = g' /\ p = p'.
Proof.
  unfold pt, inb. intros g [[i j] k] g' [[i' j'] k']. cbn [p0 p1 p2 fst snd].
  intros (A & B & C) (A' & B' & C') E. apply idx4_inj in E; try assumption.
  destruct E as (-> & -> & -> & ->). tauto.
Qed.

Ltac solve_FI :=
  intros; match goal with
  | E : _ = _ |- _ => apply faces_inj in E; [tauto|assumption..]
  end.

Lemma delivered : forall a pos (d b old : nat -> V) g p,
  In g sync -> inb p ->
  run_copies (ghost_copies c ng sync a pos) (run_copies (send_copies c ng sync a (negb pos)) d b)
    old (pt g p) =
  if (if pos then along a c + ng <=? along a p else along a p <? ng)
  then d (pt g (replace a (if pos then along a p - along a c else along a c + along a p) p))
  else old (pt g p).
Proof.
  intros a pos d b old g p Hg Hp.
  apply In_nth with (d := 0) in Hg as (gi & Gi & <-).
  destruct p as [[i j] k]. destruct Hp as (Hi & Hj & Hk). cbn [p0 p1 p2 fst snd] in *.
  assert (UN : forall g' g'' i' j' k' i'' j'' k'', i' < N0 -> j' < N1 -> k' < N2 ->
      i'' < N0 -> j'' < N1 -> k'' < N2 -> at4 (nth g' sync 0) i' j' k' = at4 (nth g'' sync 0) i'' j'' k'' ->
      nth g' sync 0 = nth g'' sync 0 /\ i' = i'' /\ j' = j'' /\ k' = k'').
  { intros * A B C D E F X. apply idx4_inj in X; tauto. }
  assert (P : forall g i' j' k', pt g (i', j', k') = at4 g i' j' k') by reflexivity.
  destruct a, pos; cbn [negb along replace]; unfold ghost_copies, send_copies;
    change (p0 (i, j, k)) with i; change (p1 (i, j, k)) with j; change (p2 (i, j, k)) with k;
    rewrite !P.
  - edestruct (message V (length sync) ng N2 N1
      (fun g w i2 i1 => IDXFACES0 N1 N2 ng g w i1 i2)
      (fun g w i2 i1 => at4 (nth g sync 0) (2 * ng - 1 - w) i1 i2)
      (fun g w i2 i1 => at4 (nth g sync 0) (N0 - 1 - w) i1 i2) d b old) as [M1 M2]; [solve_FI|].
    destruct (Nat.leb_spec (p0 c + ng) i).
    + specialize (M1 gi (N0 - 1 - i) k j Gi). cbv beta in M1.
      replace (N0 - 1 - (N0 - 1 - i)) with i in M1 by lia.
      replace (2 * ng - 1 - (N0 - 1 - i)) with (i - p0 c) in M1 by lia.
      apply M1; try lia. intros * G' W' X' Y' E. apply UN in E; try lia.
      destruct E as (-> & E1 & -> & ->). f_equal. lia.
    + apply M2. intros * G' W' X' Y' E. apply UN in E; lia.
  - edestruct (message V (length sync) ng N2 N1
      (fun g w i2 i1 => IDXFACES0 N1 N2 ng g w i1 i2)
      (fun g w i2 i1 => at4 (nth g sync 0) (p0 c + w) i1 i2)
      (fun g w i2 i1 => at4 (nth g sync 0) w i1 i2) d b old) as [M1 M2]; [solve_FI|].
    destruct (Nat.ltb_spec i ng).
    + specialize (M1 gi i k j Gi). cbv beta in M1.
      apply M1; try lia. intros * G' W' X' Y' E. apply UN in E; try lia.
      destruct E as (-> & E1 & -> & ->). f_equal. lia.
    + apply M2. intros * G' W' X' Y' E. apply UN in E; lia.
  - edestruct (message V (length sync) ng N2 N0
      (fun g w i2 i0 => IDXFACES1 N0 N2 ng g w i0 i2)
      (fun g w i2 i0 => at4 (nth g sync 0) i0 (2 * ng - 1 - w) i2)
      (fun g w i2 i0 => at4 (nth g sync 0) i0 (N1 - 1 - w) i2) d b old) as [M1 M2]; [solve_FI|].
    destruct (Nat.leb_spec (p1 c + ng) j).
    + specialize (M1 gi (N1 - 1 - j) k i Gi). cbv beta in M1.
      replace (N1 - 1 - (N1 - 1 - j)) with j in M1 by lia.
      replace (2 * ng - 1 - (N1 - 1 - j)) with (j - p1 c) in M1 by lia.
      apply M1; try lia. intros * G' W' X' Y' E. apply UN in E; try lia.
      destruct E as (-> & -> & E1 & ->). f_equal. lia.
    + apply M2. intros * G' W' X' Y' E. apply UN in E; lia.
  - edestruct (message V (length sync) ng N2 N0
      (fun g w i2 i0 => IDXFACES1 N0 N2 ng g w i0 i2)
      (fun g w i2 i0 => at4 (nth g sync 0) i0 (p1 c + w) i2)
      (fun g w i2 i0 => at4 (nth g sync 0) i0 w i2) d b old) as [M1 M2]; [solve_FI|].
    destruct (Nat.ltb_spec j ng).
    + specialize (M1 gi j k i Gi). cbv beta in M1.
      apply M1; try lia. intros * G' W' X' Y' E. apply UN in E; try lia.
      destruct E as (-> & -> & E1 & ->). f_equal. lia.
    + apply M2. intros * G' W' X' Y' E. apply UN in E; lia.
  - edestruct (message V (length sync) ng N1 N0
      (fun g w i1 i0 => IDXFACES2 N0 N1 ng g w i0 i1)
      (fun g w i1 i0 => at4 (nth g sync 0) i0 i1 (2 * ng - 1 - w))
      (fun g w i1 i0 => at4 (nth g sync 0) i0 i1 (N2 - 1 - w)) d b old) as [M1 M2]; [solve_FI|].
    destruct (Nat.leb_spec (p2 c + ng) k).
    + specialize (M1 gi (N2 - 1 - k) j i Gi). cbv beta in M1.
      replace (N2 - 1 - (N2 - 1 - k)) with k in M1 by lia.
      replace (2 * ng - 1 - (N2 - 1 - k)) with (k - p2 c) in M1 by lia.
      apply M1; try lia. intros * G' W' X' Y' E. apply UN in E; try lia.
      destruct E as (-> & -> & -> & E1). f_equal. lia.
    + apply M2. intros * G' W' X' Y' E. apply UN in E; lia.
  - edestruct (message V (length sync) ng N1 N0
      (fun g w i1 i0 => IDXFACES2 N0 N1 ng g w i0 i1)
      (fun g w i1 i0 => at4 (nth g sync 0) i0 i1 (p2 c + w))
      (fun g w i1 i0 => at4 (nth g sync 0) i0 i1 w) d b old) as [M1 M2]; [solve_FI|].
    destruct (Nat.ltb_spec k ng).
    + specialize (M1 gi k j i Gi). cbv beta in M1.
      apply M1; try lia. intros * G' W' X' Y' E. apply UN in E; try lia.
      destruct E as (-> & -> & -> & E1). f_equal. lia.
    + apply M2. intros * G' W' X' Y' E. apply UN in E; lia.
Qed.

(** Gridfunctions that are not listed are not touched. *)
Lemma not_delivered : forall a pos (src old : nat -> V) g p, ~ In g sync -> inb p ->
  run_copies (ghost_copies c ng sync a pos) src old (pt g p) = old (pt g p).
Proof.
  intros a pos src old g [[i j] k] Hg Hp. apply run_copies_notin. intros x Hx.
  assert (Y : exists gi i' j' k', gi < length sync /\ inb (i', j', k') /\
                pt (nth gi sync 0) (i', j', k') = pt g (i, j, k)).
  { unfold ghost_copies in Hx. destruct a, pos; apply in_face_loops in Hx as (gi & w & y & z & G & W & Y & Z & E);
      injection E as E _; exists gi; do 3 eexists; (split; [exact G|]); (split; [|symmetry; exact E]);
      unfold inb; cbn [p0 p1 p2 fst snd]; lia. }
  destruct Y as (gi & i' & j' & k' & G & I & E). apply pt_inj in E as [E _]; try assumption.
  apply Hg. rewrite <- E. now apply nth_In.
Qed.

Definition valid (t : nat * nat * nat) : Prop := forall a, along a t < along a nch.

Variable G : nat -> nat -> nat -> nat -> V.
Definition gval (g : nat) (t p : nat * nat * nat) : V :=
  G g (MAP_LOCAL_TO_GLOBAL_IDX (p0 t) (p0 p) (p0 c)) (MAP_LOCAL_TO_GLOBAL_IDX (p1 t) (p1 p) (p1 c))
      (MAP_LOCAL_TO_GLOBAL_IDX (p2 t) (p2 p) (p2 c)).

Definition good (Q : axis -> nat -> nat -> Prop) (d : nat * nat * nat -> nat -> V) : Prop :=
  forall t g p, valid t -> In g sync -> inb p -> (forall a, Q a (along a t) (along a p)) ->
    d t (pt g p) = gval g t p.

Hypothesis thick : forall a, 1 < along a nch -> ng <= along a c.

Lemma along_replace : forall a a' x p,
  along a' (replace a x p) = if (match a, a' with AX0, AX0 | AX1, AX1 | AX2, AX2 => true | _, _ => false end)
                             then x else along a' p.
Proof. destruct a, a'; reflexivity. Qed.

Lemma along_up : forall a a' t,
  along a' (shift_up a t) = if (match a, a' with AX0, AX0 | AX1, AX1 | AX2, AX2 => true | _, _ => false end)
                             then along a' t + 1 else along a' t.
Proof. destruct a, a'; reflexivity. Qed.

Lemma along_down : forall a a' t,
  along a' (shift_down a t) = if (match a, a' with AX0, AX0 | AX1, AX1 | AX2, AX2 => true | _, _ => false end)
                             then along a' t - 1 else along a' t.
Proof. destruct a, a'; reflexivity. Qed.

Lemma inb_along : forall p, inb p <-> forall a, along a p < along a c + 2 * ng.
Proof.
  intro p. unfold inb. split.
  - intros (A & B & C) []; assumption.
  - intro H. exact (conj (H AX0) (conj (H AX1) (H AX2))).
Qed.

Lemma gval_along : forall g t p t' p',
  (forall a, MAP_LOCAL_TO_GLOBAL_IDX (along a t) (along a p) (along a c) =
             MAP_LOCAL_TO_GLOBAL_IDX (along a t') (along a p') (along a c)) ->
  gval g t p = gval g t' p'.
Proof.
  intros g t p t' p' H. unfold gval. f_equal; [exact (H AX0)|exact (H AX1)|exact (H AX2)].
Qed.

Definition axis_eqb (a a' : axis) : bool :=
  match a, a' with AX0, AX0 | AX1, AX1 | AX2, AX2 => true | _, _ => false end.
Lemma axis_eqb_eq : forall a a', axis_eqb a a' = true <-> a = a'.
Proof. destruct a, a'; cbn; split; congruence. Qed.

Lemma exchange_good : forall a (Q : axis -> nat -> nat -> Prop) b d,
  (forall tc l, Q a tc l <-> own1 ng (along a nch) (along a c) tc l) ->
  good Q d ->
  good (fun a' => if axis_eqb a a' then (fun _ _ => True) else Q a')
       (exchange nch c ng sync b a d).
Proof.
  intros a Q b d HQ Hd t g p Ht Hg Hp HP. unfold exchange.
  assert (Ta := Ht a).
  assert (Pa : along a p < along a c + 2 * ng) by (now apply inb_along).
  assert (other : forall a', a' <> a -> Q a' (along a' t) (along a' p)).
  { intros a' Ne. specialize (HP a'). destruct (axis_eqb a a') eqn:E; [|exact HP].
    apply axis_eqb_eq in E. congruence. }
  assert (pos : forall old : nat -> V,
    along a t < along a nch - 1 ->
    run_copies (ghost_copies c ng sync a true)
      (run_copies (send_copies c ng sync a false) (d (shift_up a t)) (b (shift_up a t))) old (pt g p)
    = if along a c + ng <=? along a p then gval g t p else old (pt g p)).
  { intros old L. rewrite (delivered a true _ _ old g p Hg Hp).
    destruct (Nat.leb_spec (along a c + ng) (along a p)) as [X|X]; [|reflexivity].
    assert (TH := thick a ltac:(lia)).
    rewrite Hd; try assumption.
    - apply gval_along. intro a'. rewrite along_replace, along_up. fold (axis_eqb a a').
      destruct (axis_eqb a a') eqn:E; [|reflexivity]. apply axis_eqb_eq in E. subst a'.
      unfold MAP_LOCAL_TO_GLOBAL_IDX. nia.
    - intro a'. rewrite along_up. fold (axis_eqb a a').
      destruct (axis_eqb a a') eqn:E; [|apply Ht]. apply axis_eqb_eq in E. subst a'. lia.
    - apply inb_along. intro a'. rewrite along_replace. fold (axis_eqb a a').
      destruct (axis_eqb a a') eqn:E; [|now apply inb_along]. apply axis_eqb_eq in E. subst a'. lia.
    - intro a'. rewrite along_replace, along_up. fold (axis_eqb a a').
      destruct (axis_eqb a a') eqn:E.
      + apply axis_eqb_eq in E. subst a'. apply HQ. unfold own1, start_local, stop_local.
        split; [lia|]. split.
        * destruct (_ =? 0); lia.
        * destruct (_ =? _ - 1); lia.
      + apply other. intro K. subst. rewrite (proj2 (axis_eqb_eq a a) eq_refl) in E. discriminate. }
  assert (neg : forall old : nat -> V,
    0 < along a t ->
    run_copies (ghost_copies c ng sync a false)
      (run_copies (send_copies c ng sync a true) (d (shift_down a t)) (b (shift_down a t))) old (pt g p)
    = if along a p <? ng then gval g t p else old (pt g p)).
  { intros old L. rewrite (delivered a false _ _ old g p Hg Hp).
    destruct (Nat.ltb_spec (along a p) ng) as [X|X]; [|reflexivity].
    assert (TH := thick a ltac:(lia)).
    rewrite Hd; try assumption.
    - apply gval_along. intro a'. rewrite along_replace, along_down. fold (axis_eqb a a').
      destruct (axis_eqb a a') eqn:E; [|reflexivity]. apply axis_eqb_eq in E. subst a'.
      unfold MAP_LOCAL_TO_GLOBAL_IDX. destruct (along a t); [lia|]. cbn. rewrite Nat.sub_0_r. lia.
    - intro a'. rewrite along_down. fold (axis_eqb a a').
      destruct (axis_eqb a a') eqn:E; [|apply Ht]. apply axis_eqb_eq in E. subst a'. lia.
    - apply inb_along. intro a'. rewrite along_replace. fold (axis_eqb a a').
      destruct (axis_eqb a a') eqn:E; [|now apply inb_along]. apply axis_eqb_eq in E. subst a'. lia.
    - intro a'. rewrite along_replace, along_down. fold (axis_eqb a a').
      destruct (axis_eqb a a') eqn:E.
      + apply axis_eqb_eq in E. subst a'. apply HQ. unfold own1, start_local, stop_local.
        split; [lia|]. split.
        * destruct (_ =? 0); lia.
        * destruct (Nat.eqb_spec (along a t - 1) (along a nch - 1)); lia.
      + apply other. intro K. subst. rewrite (proj2 (axis_eqb_eq a a) eq_refl) in E. discriminate. }
  assert (own : ~ (0 < along a t /\ along a p < ng) ->
                ~ (along a t < along a nch - 1 /\ along a c + ng <= along a p) ->
                d t (pt g p) = gval g t p).
  { intros X1 X2. apply Hd; try assumption. intro a'.
    destruct (axis_eqb a a') eqn:E.
    - apply axis_eqb_eq in E. subst a'. apply HQ. unfold own1, start_local, stop_local.
      split; [exact Ta|]. split.
      + destruct (Nat.eqb_spec (along a t) 0); lia.
      + destruct (Nat.eqb_spec (along a t) (along a nch - 1)); lia.
    - apply other. intro K. subst. rewrite (proj2 (axis_eqb_eq a a) eq_refl) in E. discriminate. }
  destruct (Nat.ltb_spec 0 (along a t)) as [L|L]; destruct (Nat.ltb_spec (along a t) (along a nch - 1)) as [U|U].
  - rewrite (neg _ L), (pos _ U). destruct (Nat.ltb_spec (along a p) ng); [reflexivity|].
    destruct (Nat.leb_spec (along a c + ng) (along a p)); [reflexivity|]. apply own; lia.
  - rewrite (neg _ L). destruct (Nat.ltb_spec (along a p) ng); [reflexivity|]. apply own; lia.
  - rewrite (pos _ U). destruct (Nat.leb_spec (along a c + ng) (along a p)); [reflexivity|].
    apply own; lia.
  - apply own; lia.
Qed.

Lemma exchange_all_good : forall b d,
  good (fun a => own1 ng (along a nch) (along a c)) d ->
  good (fun _ _ _ => True) (exchange_all nch c ng sync b d).
Proof.
  intros b d H. unfold exchange_all.
  pose proof (exchange_good AX0 _ b d (fun _ _ => iff_refl _) H) as H0.
  pose proof (fun X => exchange_good AX1 _ b _ X H0) as H1. cbn [axis_eqb] in H1.
  specialize (H1 (fun _ _ => iff_refl _)).
  pose proof (fun X => exchange_good AX2 _ b _ X H1) as H2. cbn [axis_eqb] in H2.
  specialize (H2 (fun _ _ => iff_refl _)).
  intros t g p Ht Hg Hp _. apply H2; try assumption. intros []; exact I.
Qed.

Lemma exchange_other : forall a (b d : nat * nat * nat -> nat -> V) t g p, ~ In g sync -> inb p ->
  exchange nch c ng sync b a d t (pt g p) = d t (pt g p).
Proof.
  intros a b d t g p Hg Hp. unfold exchange.
  destruct (0 <? along a t); destruct (along a t <? along a nch - 1);
    rewrite ?not_delivered by assumption; reflexivity.
Qed.
End EXCH.

(** All indices used by a send or a receive lie inside the buffer and inside the gridfunction array. *)
Lemma idx4_bound : forall T g i j k Ni Nj Nk, g < T -> i < Ni -> j < Nj -> k < Nk ->
  IDX4GENERAL g i j k Ni Nj Nk < Ni * (Nj * (Nk * T)).
Proof.
  intros. unfold IDX4GENERAL. repeat (apply radix_bound; [assumption|]). assumption.
Qed.

Lemma face_bound : forall n ng A B g w a b, g < n -> w < ng -> a < A -> b < B ->
  a + A * (b + B * (w + ng * g)) < A * (B * (ng * n)).
Proof. intros. repeat (apply radix_bound; [assumption|]). assumption. Qed.
