(** C35, C51, C52: the superB domain decomposition, its coordinates and its ghost exchange. *)
From Coq Require Import List Arith Bool Lia ZArith QArith Qcanon.
From Verif Require Import QcLib Chare ChareFacts ChareCoord.
Import ListNotations.
Open Scope nat_scope.

(** * C35 *)

(** The set-up never stores outside its arrays: it stops only through the checks on the sizes. *)
Theorem C35_no_overrun : forall s t c, chare_Nxx s = COk c ->
  exists m, charecommstruct_set_up s t = COk m.
Proof.
  intros s t c H. unfold charecommstruct_set_up. rewrite H.
  destruct (chare_Nxx_ok _ _ H) as (_ & E0 & E1 & E2 & _).
  edestruct run_stores_ok as [m1 ->]; [intros i v K; eapply map_stores_bound; eassumption|].
  edestruct run_stores_ok as [m2 ->]; [intros i v K; eapply local_stores_bound; eassumption|]. eauto.
Qed.

(** The checks accept exactly the grids that divide evenly and are thick enough. *)
Lemma checks_complete : forall nch0 nch1 nch2 n0 n1 n2 ng,
  0 < nch0 -> 0 < nch1 -> 0 < nch2 ->
  (1 < nch0 -> ng <= n0) -> (1 < nch1 -> ng <= n1) -> (1 < nch2 -> ng <= n2) ->
  chare_Nxx (MkSize (nch0, nch1, nch2) (nch0 * n0, nch1 * n1, nch2 * n2) ng) = COk (n0, n1, n2).
Proof.
  intros * P0 P1 P2 T0 T1 T2. unfold chare_Nxx. cbn [cs_nch cs_nxx cs_ng].
  assert (Z : forall n, 0 < n -> (n =? 0) = false) by (intros; apply Nat.eqb_neq; lia).
  rewrite (Z _ P0), (Z _ P1), (Z _ P2). cbn [orb].
  assert (M : forall n x, 0 < n -> (n * x) mod n = 0).
  { intros n x H. rewrite Nat.mul_comm. apply Nat.mod_mul. lia. }
  assert (D : forall n x, 0 < n -> (n * x) / n = x).
  { intros n x H. rewrite Nat.mul_comm. apply Nat.div_mul. lia. }
  rewrite !M, !D by assumption. cbn [Nat.eqb negb].
  assert (F : forall n x, (1 < n -> ng <= x) -> (1 <? n) && (x <? ng) = false).
  { intros n x H. destruct (Nat.ltb_spec 1 n); [|reflexivity]. apply Nat.ltb_ge. auto. }
  rewrite !F by assumption. reflexivity.
Qed.

Theorem C35_checks : forall nch0 nch1 nch2 x0 x1 x2 ng n0 n1 n2,
  chare_Nxx (MkSize (nch0, nch1, nch2) (x0, x1, x2) ng) = COk (n0, n1, n2) <->
  0 < nch0 /\ 0 < nch1 /\ 0 < nch2 /\
  x0 = nch0 * n0 /\ x1 = nch1 * n1 /\ x2 = nch2 * n2 /\
  (1 < nch0 -> ng <= n0) /\ (1 < nch1 -> ng <= n1) /\ (1 < nch2 -> ng <= n2).
Proof.
  intros. split.
  - intro H. apply chare_Nxx_ok in H. cbn [cs_nch cs_nxx cs_ng] in H.
    unfold p0, p1, p2 in H. cbn [fst snd] in H. tauto.
  - intros (P0 & P1 & P2 & -> & -> & -> & T0 & T1 & T2). now apply checks_complete.
Qed.

(** Every slot of the global maps is stored exactly once: every global point is owned, and no two
    (chare, local point) pairs claim the same one. *)
Theorem C35_owned_once : forall s c, chare_Nxx s = COk c ->
  let ws := map_stores (cs_nch s) (cs_nxx s) c (cs_ng s) in
  NoDup (map fst ws) /\
  forall g, In g (map fst ws) <->
    g < (p0 (cs_nxx s) + 2 * cs_ng s) * (p1 (cs_nxx s) + 2 * cs_ng s) * (p2 (cs_nxx s) + 2 * cs_ng s).
Proof.
  intros s c H ws. destruct (chare_Nxx_ok _ _ H) as ((P0 & P1 & P2) & E0 & E1 & E2 & _).
  split; [now apply map_stores_NoDup|]. intro g. split.
  - intro K. apply in_map_iff in K as ([g' v] & <- & K). eapply map_stores_bound; eassumption.
  - intro K. apply idx3_surj in K as (i & j & k & I & J & K & ->).
    rewrite E0 in I. rewrite E1 in J. rewrite E2 in K.
    destruct (own1_exists _ _ _ _ P0 I) as (c0 & l0 & O0 & <-).
    destruct (own1_exists _ _ _ _ P1 J) as (c1 & l1 & O1 & <-).
    destruct (own1_exists _ _ _ _ P2 K) as (c2 & l2 & O2 & <-).
    apply in_map_iff. eexists (_, (_, _)). split; [|apply in_map_stores; exists c0, c1, c2, l0, l1, l2].
    2:{ repeat (split; [eassumption|]). split; [reflexivity|]. split; reflexivity. }
    reflexivity.
Qed.

(** What the arrays hold afterwards. *)
Lemma comm_spec : forall s t m c, chare_Nxx s = COk c -> charecommstruct_set_up s t = COk m ->
  (forall g ci l, In (g, (ci, l)) (map_stores (cs_nch s) (cs_nxx s) c (cs_ng s)) <->
     g2chare m g = Some ci /\ g2local m g = Some l) /\
  (forall l g, In (l, g) (local_stores t (cs_nxx s) c (cs_ng s)) <-> l2global m l = Some g).
Proof.
  intros s t m c H M. unfold charecommstruct_set_up in M. rewrite H in M.
  destruct (chare_Nxx_ok _ _ H) as (_ & E0 & E1 & E2 & _).
  destruct (run_stores (grid_size (cs_nxx s) (cs_ng s)) _ _) as [m1|] eqn:R1; [|discriminate].
  destruct (run_stores (grid_size c (cs_ng s)) _ _) as [m2|] eqn:R2; [|discriminate].
  injection M as <-. cbn [g2chare g2local l2global].
  pose proof (map_stores_NoDup (cs_nch s) (cs_nxx s) c (cs_ng s) E0 E1 E2) as N1.
  assert (N2 : NoDup (map fst (local_stores t (cs_nxx s) c (cs_ng s)))) by (eapply local_stores_NoDup; eassumption).
  split.
  - intros g ci l. split.
    + intro K. apply (run_stores_in _ _ _ _ _ _ _ R1 N1) in K. rewrite K. split; reflexivity.
    + intros [A B]. destruct (m1 g) as [[ci' l']|] eqn:E; [|discriminate].
      cbn in A, B. injection A as ->. injection B as ->.
      apply (run_stores_some _ _ _ _ _ _ _ R1 N1) in E as [E|E]; [exact E|discriminate].
  - intros l g. split.
    + intro K. exact (run_stores_in _ _ _ _ _ _ _ R2 N2 K).
    + intro K. apply (run_stores_some _ _ _ _ _ _ _ R2 N2) in K as [K|K]; [exact K|discriminate].
Qed.

(** The owner of a point and its local index, by the formulas of the macros: for every global point
    there is a chare (c0,c1,c2) whose local point MAP_GLOBAL_TO_LOCAL is inside its grid and is the
    one recorded. *)
Theorem C35_owner : forall s t m c i j k,
  chare_Nxx s = COk c -> charecommstruct_set_up s t = COk m ->
  i < p0 (cs_nxx s) + 2 * cs_ng s -> j < p1 (cs_nxx s) + 2 * cs_ng s ->
  k < p2 (cs_nxx s) + 2 * cs_ng s ->
  exists c0 c1 c2,
    c0 < p0 (cs_nch s) /\ c1 < p1 (cs_nch s) /\ c2 < p2 (cs_nch s) /\
    c0 * p0 c <= i /\ c1 * p1 c <= j /\ c2 * p2 c <= k /\
    MAP_GLOBAL_TO_LOCAL_IDX c0 i (p0 c) < p0 c + 2 * cs_ng s /\
    MAP_GLOBAL_TO_LOCAL_IDX c1 j (p1 c) < p1 c + 2 * cs_ng s /\
    MAP_GLOBAL_TO_LOCAL_IDX c2 k (p2 c) < p2 c + 2 * cs_ng s /\
    let g := IDX3GENERAL i j k (p0 (cs_nxx s) + 2 * cs_ng s) (p1 (cs_nxx s) + 2 * cs_ng s) in
    g2chare m g = Some (IDX3GENERAL c0 c1 c2 (p0 (cs_nch s)) (p1 (cs_nch s))) /\
    g2local m g = Some (IDX3GENERAL (MAP_GLOBAL_TO_LOCAL_IDX c0 i (p0 c))
      (MAP_GLOBAL_TO_LOCAL_IDX c1 j (p1 c)) (MAP_GLOBAL_TO_LOCAL_IDX c2 k (p2 c))
      (p0 c + 2 * cs_ng s) (p1 c + 2 * cs_ng s)).
Proof.
  intros s t m c i j k H M I J K.
  destruct (chare_Nxx_ok _ _ H) as ((P0 & P1 & P2) & E0 & E1 & E2 & _).
  rewrite E0 in I. rewrite E1 in J. rewrite E2 in K.
  destruct (own1_exists _ _ _ _ P0 I) as (c0 & l0 & O0 & F0).
  destruct (own1_exists _ _ _ _ P1 J) as (c1 & l1 & O1 & F1).
  destruct (own1_exists _ _ _ _ P2 K) as (c2 & l2 & O2 & F2).
  exists c0, c1, c2.
  assert (L : forall c l n x, MAP_LOCAL_TO_GLOBAL_IDX c l n = x -> MAP_GLOBAL_TO_LOCAL_IDX c x n = l).
  { unfold MAP_LOCAL_TO_GLOBAL_IDX, MAP_GLOBAL_TO_LOCAL_IDX. intros. lia. }
  rewrite (L _ _ _ _ F0), (L _ _ _ _ F1), (L _ _ _ _ F2).
  pose proof (own1_bound _ _ _ _ _ O0). pose proof (own1_bound _ _ _ _ _ O1).
  pose proof (own1_bound _ _ _ _ _ O2).
  unfold MAP_LOCAL_TO_GLOBAL_IDX in F0, F1, F2.
  split; [apply O0|]. split; [apply O1|]. split; [apply O2|].
  split; [lia|]. split; [lia|]. split; [lia|].
  split; [assumption|]. split; [assumption|]. split; [assumption|].
  apply (proj1 (comm_spec _ _ _ _ H M)). apply in_map_stores.
  exists c0, c1, c2, l0, l1, l2. repeat (split; [eassumption|]).
  unfold MAP_LOCAL_TO_GLOBAL_IDX. rewrite F0, F1, F2. repeat split; reflexivity.
Qed.

(** The chare index is a faithful name of the chare, and REVERSE_IDX3GENERAL recovers it. *)
Theorem C35_reverse : forall Ni Nj i j k, i < Ni -> j < Nj ->
  REVERSE_IDX3GENERAL (IDX3GENERAL i j k Ni Nj) Ni Nj = (i, j, k).
Proof.
  intros Ni Nj i j k Hi Hj. unfold REVERSE_IDX3GENERAL, IDX3GENERAL.
  assert (X : i + Ni * j < Ni * Nj) by now apply radix_bound.
  assert (E : i + Ni * (j + Nj * k) = (i + Ni * j) + k * (Ni * Nj)) by nia.
  rewrite E, Nat.div_add, Nat.mod_add by nia.
  rewrite (Nat.div_small _ _ X), (Nat.mod_small _ _ X).
  replace (i + Ni * j) with (i + j * Ni) by lia.
  rewrite Nat.mod_add, Nat.div_add, Nat.mod_small, Nat.div_small by lia. reflexivity.
Qed.

(** The maps are mutually inverse on owned points. *)
Theorem C35_inverse : forall s t m,
  p0 t < p0 (cs_nch s) -> p1 t < p1 (cs_nch s) -> p2 t < p2 (cs_nch s) ->
  charecommstruct_set_up s t = COk m ->
  forall g, g2chare m g = Some (IDX3GENERAL (p0 t) (p1 t) (p2 t) (p0 (cs_nch s)) (p1 (cs_nch s))) ->
  forall l, g2local m g = Some l <-> l2global m l = Some g.
Proof.
  intros s t m T0 T1 T2 M g HG l.
  assert (H : exists c, chare_Nxx s = COk c).
  { unfold charecommstruct_set_up in M. destruct (chare_Nxx s); [eauto|discriminate]. }
  destruct H as [c H]. destruct (comm_spec _ _ _ _ H M) as [S1 S2].
  destruct (chare_Nxx_ok _ _ H) as (_ & E0 & E1 & E2 & _).
  split.
  - intro L. assert (K := proj2 (S1 _ _ _) (conj HG L)).
    apply in_map_stores in K as (c0 & c1 & c2 & l0 & l1 & l2 & O0 & O1 & O2 & -> & C & ->).
    apply idx3_inj in C; try assumption; [|apply O0|apply O1]. destruct C as (<- & <- & <-).
    apply S2. apply local_stores_spec. exists l0, l1, l2.
    split; [eapply own1_bound; eassumption|]. split; [eapply own1_bound; eassumption|].
    split; [eapply own1_bound; eassumption|]. split; reflexivity.
  - intro L. apply S2 in L. apply local_stores_spec in L as (l0 & l1 & l2 & B0 & B1 & B2 & -> & ->).
    match type of HG with g2chare m ?g = _ => destruct (g2local m g) as [x|] eqn:EL end.
    + assert (K := proj2 (S1 _ _ _) (conj HG EL)).
      apply in_map_stores in K as (c0 & c1 & c2 & k0 & k1 & k2 & O0 & O1 & O2 & EG & C & ->).
      apply idx3_inj in C; try assumption; [|apply O0|apply O1]. destruct C as (<- & <- & <-).
      assert (BND : forall tc l N n, tc < N -> l < n + 2 * cs_ng s ->
                MAP_LOCAL_TO_GLOBAL_IDX tc l n < N * n + 2 * cs_ng s).
      { unfold MAP_LOCAL_TO_GLOBAL_IDX. intros. nia. }
      apply idx3_inj in EG;
        try (rewrite ?E0, ?E1; apply BND; try assumption; eapply own1_bound; eassumption).
      unfold MAP_LOCAL_TO_GLOBAL_IDX in EG. destruct EG as (G0 & G1 & G2).
      do 2 f_equal; lia.
    + exfalso.
      assert (X : exists v, In (IDX3GENERAL (MAP_LOCAL_TO_GLOBAL_IDX (p0 t) l0 (p0 c))
          (MAP_LOCAL_TO_GLOBAL_IDX (p1 t) l1 (p1 c)) (MAP_LOCAL_TO_GLOBAL_IDX (p2 t) l2 (p2 c))
          (p0 (cs_nxx s) + 2 * cs_ng s) (p1 (cs_nxx s) + 2 * cs_ng s), v)
          (map_stores (cs_nch s) (cs_nxx s) c (cs_ng s))).
      { assert (BND : forall tc l N n, tc < N -> l < n + 2 * cs_ng s ->
                MAP_LOCAL_TO_GLOBAL_IDX tc l n < N * n + 2 * cs_ng s).
        { unfold MAP_LOCAL_TO_GLOBAL_IDX. intros. nia. }
        pose proof (proj2 (C35_owned_once s c H)
          (IDX3GENERAL (MAP_LOCAL_TO_GLOBAL_IDX (p0 t) l0 (p0 c))
          (MAP_LOCAL_TO_GLOBAL_IDX (p1 t) l1 (p1 c)) (MAP_LOCAL_TO_GLOBAL_IDX (p2 t) l2 (p2 c))
          (p0 (cs_nxx s) + 2 * cs_ng s) (p1 (cs_nxx s) + 2 * cs_ng s))) as [_ W].
        assert (Y := W ltac:(apply idx3_bound; rewrite ?E0, ?E1, ?E2; apply BND; assumption)).
        apply in_map_iff in Y as ([g' v] & Eg & Y). cbn in Eg. subst g'. eauto. }
      destruct X as [[ci x] X]. apply S1 in X as [_ X]. congruence.
Qed.

(** Interior points of the whole grid are interior points of their chare. *)
Theorem C35_interior : forall s t m c i j k l0 l1 l2,
  chare_Nxx s = COk c -> charecommstruct_set_up s t = COk m ->
  cs_ng s <= i < p0 (cs_nxx s) + cs_ng s -> cs_ng s <= j < p1 (cs_nxx s) + cs_ng s ->
  cs_ng s <= k < p2 (cs_nxx s) + cs_ng s ->
  l0 < p0 c + 2 * cs_ng s -> l1 < p1 c + 2 * cs_ng s ->
  g2local m (IDX3GENERAL i j k (p0 (cs_nxx s) + 2 * cs_ng s) (p1 (cs_nxx s) + 2 * cs_ng s)) =
    Some (IDX3GENERAL l0 l1 l2 (p0 c + 2 * cs_ng s) (p1 c + 2 * cs_ng s)) ->
  cs_ng s <= l0 < p0 c + cs_ng s /\ cs_ng s <= l1 < p1 c + cs_ng s /\
  cs_ng s <= l2 < p2 c + cs_ng s.
Proof.
  intros s t m c i j k l0 l1 l2 H M I J K L0 L1 E.
  destruct (chare_Nxx_ok _ _ H) as (_ & E0 & E1 & E2 & _).
  destruct (g2chare m (IDX3GENERAL i j k (p0 (cs_nxx s) + 2 * cs_ng s) (p1 (cs_nxx s) + 2 * cs_ng s)))
    as [ci|] eqn:EC.
  2:{ exfalso. destruct (C35_owner s t m c i j k H M ltac:(lia) ltac:(lia) ltac:(lia))
        as (c0 & c1 & c2 & _ & _ & _ & _ & _ & _ & _ & _ & _ & X & _). congruence. }
  assert (W := proj2 (proj1 (comm_spec _ _ _ _ H M) _ _ _) (conj EC E)).
  apply in_map_stores in W as (c0 & c1 & c2 & k0 & k1 & k2 & O0 & O1 & O2 & EG & _ & EL).
  apply idx3_inj in EL; try assumption; try (eapply own1_bound; eassumption).
  destruct EL as (<- & <- & <-).
  apply idx3_inj in EG; try lia;
    try (rewrite ?E0, ?E1; eapply own1_global; eassumption).
  destruct EG as (-> & -> & ->). rewrite E0 in I. rewrite E1 in J. rewrite E2 in K.
  split; [eapply own1_interior; eassumption|].
  split; eapply own1_interior; eassumption.
Qed.

(** Non-vacuity: 2x1x3 chares over an 8x2x9 grid with ghost width 2. *)
Definition C35_size : csize := MkSize (2, 1, 3) (8, 2, 9) 2.
Example C35_ex_sizes : chare_Nxx C35_size = COk (4, 2, 3).
Proof. reflexivity. Qed.
Example C35_ex : match charecommstruct_set_up C35_size (1, 0, 2) with
  | COk m =>
      let g := IDX3GENERAL 7 3 9 12 6 in
      g2chare m g = Some (IDX3GENERAL 1 0 2 2 1) /\
      g2local m g = Some (IDX3GENERAL 3 3 3 8 6) /\
      l2global m (IDX3GENERAL 3 3 3 8 6) = Some g
  | CStop _ => False end.
Proof. vm_compute. repeat split; reflexivity. Qed.
Example C35_ex_refused :
  chare_Nxx (MkSize (2, 1, 1) (7, 2, 2) 2) = CStop (NotDivisible 0) /\
  chare_Nxx (MkSize (4, 1, 1) (8, 2, 2) 3) = CStop (TooThin 0).
Proof. split; reflexivity. Qed.

(** * C51: coordinates *)
Open Scope Qc_scope.

(** The coordinate array of a chare is the part of the global array that its index map selects. *)
Theorem C51_coordinates_agree : forall ng xxmin dxx n c l,
  chare_xx ng xxmin dxx n c l = grid_xx ng xxmin dxx (MAP_LOCAL_TO_GLOBAL_IDX c l n).
Proof.
  intros. unfold chare_xx, grid_xx, MAP_LOCAL_TO_GLOBAL_IDX.
  f_equal. f_equal. f_equal. f_equal. lia.
Qed.

(** It is also the cell-centred grid that starts at the chare's own xxmin. *)
Theorem C51_xxmin : forall ng xxmin dxx n c l,
  chare_xx ng xxmin dxx n c l = grid_xx ng (chare_xxmin xxmin dxx n c) dxx l.
Proof.
  intros. unfold chare_xx, grid_xx, chare_xxmin, qn. rewrite qz_add. ring.
Qed.

(** Neighbouring chares start one chare width apart, and the last one ends where the grid ends. *)
Theorem C51_tiling : forall xxmin xxmax N n c, N <> 0%nat -> n <> 0%nat ->
  let dxx := grid_dxx xxmin xxmax (N * n) in
  chare_xxmin xxmin dxx n (S c) = chare_xxmin xxmin dxx n c + qn n * dxx /\
  chare_xxmin xxmin dxx n 0 = xxmin /\ chare_xxmin xxmin dxx n N = xxmax.
Proof.
  intros xxmin xxmax N n c HN Hn dxx. unfold chare_xxmin.
  split; [|split].
  - replace (n * S c)%nat with (n * c + n)%nat by lia. unfold qn. rewrite Nat2Z.inj_add, qz_add. ring.
  - rewrite Nat.mul_0_r. unfold qn. cbn [Z.of_nat]. rewrite qz_0. ring.
  - unfold dxx, grid_dxx. rewrite (Nat.mul_comm n N). field.
    intro K. change 0 with (qz 0) in K. apply qz_inj in K. lia.
Qed.

(** The chare's xxmax is not the end of the chare's grid: it is a whole grid width past its xxmin. *)
Theorem C51_xxmax : forall xxmin xxmax dxx n c,
  chare_xxmax xxmax dxx n c = chare_xxmin xxmin dxx n c + (xxmax - xxmin).
Proof. intros. unfold chare_xxmax, chare_xxmin. ring. Qed.

Theorem C51_xxmax_refuted : exists xxmin xxmax N n c,
  (c < N)%nat /\ let dxx := grid_dxx xxmin xxmax (N * n) in
  chare_xxmax xxmax dxx n c <> chare_xxmin xxmin dxx n c + qn n * dxx.
Proof.
  exists 0, 1, 2%nat, 3%nat, 1%nat. split; [lia|]. intros dxx H.
  apply (f_equal this) in H. vm_compute in H. discriminate H.
Qed.

(** dxx and invdxx are inverse to each other on a non-degenerate grid. *)
Theorem C51_invdxx : forall xxmin xxmax N, N <> 0%nat -> xxmin <> xxmax ->
  grid_dxx xxmin xxmax N * grid_invdxx xxmin xxmax N = 1.
Proof.
  intros xxmin xxmax N HN H. unfold grid_dxx, grid_invdxx. field. split.
  - intro K. apply H. rewrite <- (Qcplus_0_l xxmin), <- K. ring.
  - intro K. change 0 with (qz 0) in K. apply qz_inj in K. lia.
Qed.

(** Interior points lie at the centres of equal cells that tile [xxmin, xxmax]. *)
Theorem C51_cell_centred : forall ng xxmin xxmax N i, N <> 0%nat ->
  let dxx := grid_dxx xxmin xxmax N in
  grid_xx ng xxmin dxx (ng + i) = xxmin + qn i * dxx + dxx / qz 2 /\
  grid_xx ng xxmin dxx (ng + N) - dxx / qz 2 = xxmax.
Proof.
  intros ng xxmin xxmax N i HN dxx.
  assert (Z2 : qz 2 <> 0) by (intro K; change 0 with (qz 0) in K; apply qz_inj in K; lia).
  unfold grid_xx. split.
  - replace (Z.of_nat (ng + i) - Z.of_nat ng)%Z with (Z.of_nat i) by lia.
    fold (qn i). field. exact Z2.
  - replace (Z.of_nat (ng + N) - Z.of_nat ng)%Z with (Z.of_nat N) by lia.
    fold (qn N). unfold dxx, grid_dxx. field. split; [|exact Z2].
    intro K. change 0 with (qz 0) in K. apply qz_inj in K. lia.
Qed.

Example C51_ex : chare_xx 2 0 (1 / qz 6) 3 1 2 = qz 7 / qz 12.
Proof. apply Qc_is_canon. reflexivity. Qed.
Close Scope Qc_scope.

(** * C52: ghost exchange *)

(** If every chare holds the values of a global field at the points it owns (as decided by
    charecommstruct_set_up), then after the x, y and z exchanges every chare holds them at every
    point of its local grid - faces, edges and corners - for every gridfunction that is exchanged. *)
Theorem C52_exchange : forall V s c sync (b d : nat * nat * nat -> nat -> V)
    (G : nat -> nat -> nat -> nat -> V),
  chare_Nxx s = COk c ->
  let nch := cs_nch s in let ng := cs_ng s in
  let at4 g i j k := IDX4GENERAL g i j k (p0 c + 2 * ng) (p1 c + 2 * ng) (p2 c + 2 * ng) in
  let glob t l0 l1 l2 g := G g (MAP_LOCAL_TO_GLOBAL_IDX (p0 t) l0 (p0 c))
      (MAP_LOCAL_TO_GLOBAL_IDX (p1 t) l1 (p1 c)) (MAP_LOCAL_TO_GLOBAL_IDX (p2 t) l2 (p2 c)) in
  (forall t m l0 l1 l2 g,
     p0 t < p0 nch -> p1 t < p1 nch -> p2 t < p2 nch -> In g sync ->
     charecommstruct_set_up s t = COk m ->
     l0 < p0 c + 2 * ng -> l1 < p1 c + 2 * ng -> l2 < p2 c + 2 * ng ->
     (exists gi, l2global m (IDX3GENERAL l0 l1 l2 (p0 c + 2 * ng) (p1 c + 2 * ng)) = Some gi /\
        g2chare m gi = Some (IDX3GENERAL (p0 t) (p1 t) (p2 t) (p0 nch) (p1 nch))) ->
     d t (at4 g l0 l1 l2) = glob t l0 l1 l2 g) ->
  forall t l0 l1 l2 g,
     p0 t < p0 nch -> p1 t < p1 nch -> p2 t < p2 nch -> In g sync ->
     l0 < p0 c + 2 * ng -> l1 < p1 c + 2 * ng -> l2 < p2 c + 2 * ng ->
     exchange_all nch c ng sync b d t (at4 g l0 l1 l2) = glob t l0 l1 l2 g.
Proof.
  intros V s c sync b d G H nch ng at4 glob HD t l0 l1 l2 g T0 T1 T2 Hg L0 L1 L2.
  destruct (chare_Nxx_ok _ _ H) as (_ & E0 & E1 & E2 & K0 & K1 & K2).
  apply (exchange_all_good V nch c ng sync G) with (t := t) (g := g) (p := (l0, l1, l2)).
  - intros []; assumption.
  - intros t' g' [[k0 k1] k2] Ht Hg' (B0 & B1 & B2) O.
    destruct (C35_no_overrun s t' c H) as [m M].
    apply (HD t' m k0 k1 k2 g' (Ht AX0) (Ht AX1) (Ht AX2) Hg' M B0 B1 B2).
    destruct (comm_spec _ _ _ _ H M) as [S1 S2].
    eexists. split.
    + apply S2. apply local_stores_spec. exists k0, k1, k2. repeat (split; [eassumption|]).
      split; reflexivity.
    + refine (proj1 (proj1 (S1 _ _ _) _)). apply in_map_stores.
      exists (p0 t'), (p1 t'), (p2 t'), k0, k1, k2.
      split; [exact (O AX0)|]. split; [exact (O AX1)|]. split; [exact (O AX2)|].
      repeat split; reflexivity.
  - intros []; assumption.
  - exact Hg.
  - repeat split; assumption.
  - intros []; exact I.
Qed.

(** Gridfunctions that are not exchanged keep their values everywhere. *)
Theorem C52_others_kept : forall V nch c ng sync (b d : nat * nat * nat -> nat -> V) t g l0 l1 l2,
  ~ In g sync -> l0 < p0 c + 2 * ng -> l1 < p1 c + 2 * ng -> l2 < p2 c + 2 * ng ->
  let i := IDX4GENERAL g l0 l1 l2 (p0 c + 2 * ng) (p1 c + 2 * ng) (p2 c + 2 * ng) in
  exchange_all nch c ng sync b d t i = d t i.
Proof.
  intros V nch c ng sync b d t g l0 l1 l2 Hg L0 L1 L2 i. unfold exchange_all.
  change i with (pt c ng g (l0, l1, l2)).
  rewrite !exchange_other; try assumption; try (repeat split; assumption).
  all: try reflexivity.
Qed.

(** No send or receive leaves its buffer (whose length is what the message carries) or the
    gridfunction array. *)
Theorem C52_in_bounds : forall c ng sync a up T,
  (forall g, In g sync -> g < T) ->
  let N0 := p0 c + 2 * ng in let N1 := p1 c + 2 * ng in let N2 := p2 c + 2 * ng in
  let len := length sync * ng * match a with AX0 => N1 * N2 | AX1 => N0 * N2 | AX2 => N0 * N1 end in
  (forall x y, In (x, y) (send_copies c ng sync a up) -> x < len /\ y < T * (N0 * N1 * N2)) /\
  (forall x y, In (x, y) (ghost_copies c ng sync a up) -> x < T * (N0 * N1 * N2) /\ y < len).
Proof.
  intros c ng sync a up T HT N0 N1 N2 len.
  assert (B4 : forall g i j k, g < length sync -> i < N0 -> j < N1 -> k < N2 ->
             IDX4GENERAL (nth g sync 0) i j k N0 N1 N2 < T * (N0 * N1 * N2)).
  { intros. replace (T * (N0 * N1 * N2)) with (N0 * (N1 * (N2 * T))) by lia.
    apply idx4_bound; try assumption. apply HT. now apply nth_In. }
  assert (BF : forall A B g w x y, g < length sync -> w < ng -> x < A -> y < B ->
             x + A * (y + B * (w + ng * g)) < length sync * ng * (A * B)).
  { intros. replace (length sync * ng * (A * B)) with (A * (B * (ng * length sync))) by lia.
    now apply face_bound. }
  unfold N0, N1, N2 in *.
  split; intros x y H; destruct a, up; unfold send_copies, ghost_copies in H;
    apply in_face_loops in H as (g & w & u & v & Hg & Hw & Hu & Hv & E);
    injection E as -> ->; subst len; split; try (apply B4; [exact Hg|lia..]);
    unfold IDXFACES0, IDXFACES1, IDXFACES2; apply BF; assumption.
Qed.

(** Non-vacuity: two chares in x, one gridfunction; each owns its half, ghosts start wrong. *)
Definition C52_size : csize := MkSize (2, 1, 1) (4, 1, 1) 1.
Definition C52_d (t : nat * nat * nat) (i : nat) : nat :=
  let '(l0, l1, l2) := REVERSE_IDX3GENERAL i 4 3 in
  if (if p0 t =? 0 then l0 <? 3 else 1 <=? l0)
  then (p0 t * 2 + l0) + 10 * l1 + 100 * l2 else 777.
Example C52_ex :
  chare_Nxx C52_size = COk (2, 1, 1) /\
  C52_d (0, 0, 0) (IDX4GENERAL 0 3 2 2 4 3 3) = 777 /\
  exchange_all (2, 1, 1) (2, 1, 1) 1 [0] (fun _ _ => 5) C52_d (0, 0, 0) (IDX4GENERAL 0 3 2 2 4 3 3) = 223 /\
  exchange_all (2, 1, 1) (2, 1, 1) 1 [0] (fun _ _ => 5) C52_d (1, 0, 0) (IDX4GENERAL 0 0 1 2 4 3 3) = 212.
Proof. vm_compute. repeat split; reflexivity. Qed.

Print Assumptions C35_no_overrun.
Print Assumptions C35_checks.
Print Assumptions C35_owned_once.
Print Assumptions C35_owner.
Print Assumptions C35_reverse.
Print Assumptions C35_inverse.
Print Assumptions C35_interior.
Print Assumptions C51_coordinates_agree.
Print Assumptions C51_xxmin.
Print Assumptions C51_tiling.
Print Assumptions C51_xxmax.
Print Assumptions C51_xxmax_refuted.
Print Assumptions C51_invdxx.
Print Assumptions C51_cell_centred.
Print Assumptions C52_exchange.
Print Assumptions C52_others_kept.
Print Assumptions C52_in_bounds.
