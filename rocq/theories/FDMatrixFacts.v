(** The LU inversion of a Vandermonde matrix with distinct nodes never swaps rows and returns the
    two-sided inverse, for every size (model: FDMatrix.v). *)
From Coq Require Import List ZArith Bool Lia QArith Qcanon.
From Verif Require Import PyBase QcLib FDMatrix.
Import ListNotations.
Open Scope Qc_scope.

(** ** Tabulation *)
Lemma nth_map_seq : forall (A : Type) (f : nat -> A) n i d, (i < n)%nat ->
  nth i (map f (seq 0 n)) d = f i.
Proof.
  intros A f n i d H.
  rewrite (nth_indep _ d (f 0%nat)) by (rewrite map_length, seq_length; auto).
  rewrite (map_nth f). now rewrite seq_nth.
Qed.

Lemma mtab_eq : forall n A i j, (i < n)%nat -> (j < n)%nat -> mtab n A i j = A i j.
Proof.
  intros n A i j Hi Hj; unfold mtab.
  rewrite (nth_map_seq _ (fun i => map (A i) (seq 0 n))) by auto.
  now rewrite (nth_map_seq _ (A i)).
Qed.

(** ** Triangular inverses *)
Definition is_right_inverse (n : nat) (A B : matrix) : Prop :=
  forall i j, (i < n)%nat -> (j < n)%nat -> mmul n A B i j = qdelta i j.

Lemma fwd_length : forall L j i, List.length (fwd L j i) = i.
Proof.
  intros L j i; induction i as [|i IH]; cbn [fwd]; auto.
  rewrite app_length, IH; cbn. lia.
Qed.

Lemma fwd_nth : forall L j i k, (k < i)%nat -> nth k (fwd L j i) 0 = nth k (fwd L j (S k)) 0.
Proof.
  intros L j i k H; induction i as [|i IH]; [lia|].
  destruct (Nat.eq_dec k i); [subst; auto|].
  cbn [fwd]. rewrite app_nth1 by (rewrite fwd_length; lia). rewrite IH by lia. reflexivity.
Qed.

Lemma fwd_eq : forall L j i, L i i <> 0 ->
  L i i * nth i (fwd L j (S i)) 0 =
  qdelta i j - qsum i (fun k => L i k * nth k (fwd L j (S k)) 0).
Proof.
  intros L j i Hd.
  rewrite (qsum_ext i _ (fun k => L i k * nth k (fwd L j i) 0)).
  2:{ intros k Hk. now rewrite (fwd_nth L j i k). }
  cbn [fwd].
  rewrite app_nth2 by (rewrite fwd_length; lia). rewrite fwd_length, Nat.sub_diag. cbn [nth].
  field. auto.
Qed.

Lemma lower_inv_entry : forall n L i j, (i < n)%nat -> (j < n)%nat ->
  lower_inv n L i j = nth i (fwd L j (S i)) 0.
Proof.
  intros n L i j Hi Hj; unfold lower_inv.
  rewrite (nth_map_seq _ (fun j => fwd L j n)) by auto. now apply fwd_nth.
Qed.

Lemma lower_inv_right : forall n L,
  (forall i, (i < n)%nat -> L i i <> 0) ->
  (forall i j, (i < n)%nat -> (i < j < n)%nat -> L i j = 0) ->
  is_right_inverse n L (lower_inv n L).
Proof.
  intros n L Hd Hz i j Hi Hj. unfold mmul.
  replace n with (S i + (n - S i))%nat at 1 by lia.
  rewrite qsum_app. rewrite (qsum_zero' (n - S i)).
  2:{ intros k Hk. rewrite Hz by lia. ring. }
  cbn [qsum]. rewrite (qsum_ext i _ (fun k => L i k * nth k (fwd L j (S k)) 0)).
  2:{ intros k Hk. rewrite lower_inv_entry by lia. reflexivity. }
  rewrite lower_inv_entry, fwd_eq by auto. ring.
Qed.

Lemma bwd_length : forall n U j m, List.length (bwd n U j m) = m.
Proof. intros n U j m; induction m; cbn; auto. Qed.

Lemma bwd_shift : forall n U j m k, (k <= m)%nat ->
  forall q, nth (k + q) (bwd n U j m) 0 = nth q (bwd n U j (m - k)) 0.
Proof.
  intros n U j m; induction m as [|m IH]; intros [|k] H q; try lia.
  - reflexivity.
  - cbn [Nat.sub]. reflexivity.
  - cbn [bwd Nat.add nth]. rewrite IH by lia. reflexivity.
Qed.

Lemma upper_inv_entry : forall n U i j, (i < n)%nat -> (j < n)%nat ->
  upper_inv n U i j = nth 0 (bwd n U j (n - i)) 0.
Proof.
  intros n U i j Hi Hj; unfold upper_inv.
  rewrite (nth_map_seq _ (fun j => bwd n U j n)) by auto.
  rewrite <- (Nat.add_0_r i) at 1. rewrite bwd_shift by lia. reflexivity.
Qed.

Lemma upper_inv_right : forall n U,
  (forall i, (i < n)%nat -> U i i <> 0) ->
  (forall i j, (i < n)%nat -> (j < i)%nat -> U i j = 0) ->
  is_right_inverse n U (upper_inv n U).
Proof.
  intros n U Hd Hz i j Hi Hj. unfold mmul.
  rewrite (qsum_ext n _ (fun k => U i k * nth 0 (bwd n U j (n - k)) 0)).
  2:{ intros k Hk. now rewrite upper_inv_entry. }
  set (g := fun k => U i k * nth 0 (bwd n U j (n - k)) 0).
  replace (qsum n g) with (qsum (i + (1 + (n - i - 1))) g) by (f_equal; lia).
  rewrite qsum_app. rewrite (qsum_zero' i).
  2:{ intros k Hk. unfold g. rewrite Hz by lia. ring. }
  rewrite qsum_app. cbn [qsum]. unfold g at 1. rewrite Nat.add_0_r.
  replace (n - i)%nat with (S (n - i - 1)) at 1 by lia.
  cbn [bwd nth]. replace (n - S (n - i - 1))%nat with i by lia.
  set (m := (n - i - 1)%nat).
  assert (E : qsum m (fun k => U i (i + 1 + k)%nat * nth k (bwd n U j m) 0)
              = qsum m (fun i0 => g (i + (1 + i0))%nat)).
  { apply qsum_ext. intros k Hk. unfold g. replace (i + (1 + k))%nat with (i + 1 + k)%nat by lia.
    f_equal. rewrite <- (Nat.add_0_r k) at 1. rewrite bwd_shift by lia.
    f_equal. f_equal. unfold m; lia. }
  rewrite <- E. field. auto.
Qed.

(** ** From a right inverse of triangular matrices to a two-sided inverse *)
Lemma mmul_assoc : forall n A B C i j,
  mmul n (mmul n A B) C i j = mmul n A (mmul n B C) i j.
Proof.
  intros. unfold mmul.
  rewrite (qsum_ext n _ (fun k => qsum n (fun l => A i l * B l k * C k j))).
  2:{ intros k Hk. now rewrite <- qsum_scale_r. }
  rewrite qsum_swap. apply qsum_ext. intros l Hl.
  rewrite <- qsum_scale. apply qsum_ext. intros; ring.
Qed.

Lemma mmul_ext : forall n A A' B B' i j, (i < n)%nat -> (j < n)%nat ->
  (forall k l, (k < n)%nat -> (l < n)%nat -> A k l = A' k l) ->
  (forall k l, (k < n)%nat -> (l < n)%nat -> B k l = B' k l) ->
  mmul n A B i j = mmul n A' B' i j.
Proof. intros. unfold mmul. apply qsum_ext. intros. now rewrite H1, H2. Qed.

Lemma mmul_id_r : forall n A i j, (j < n)%nat -> mmul n A qdelta i j = A i j.
Proof.
  intros. unfold mmul. rewrite (qsum_ext n _ (fun k => qdelta k j * A i k)) by (intros; ring).
  now rewrite qsum_delta.
Qed.

Lemma mmul_id_l : forall n A i j, (i < n)%nat -> mmul n qdelta A i j = A i j.
Proof. intros. unfold mmul. now rewrite qsum_delta_l. Qed.

(** If A B = I and B C = I then B A = I. *)
Lemma two_sided : forall n A B C,
  is_right_inverse n A B -> is_right_inverse n B C -> is_right_inverse n B A.
Proof.
  intros n A B C H1 H2.
  assert (E : forall i j, (i < n)%nat -> (j < n)%nat -> A i j = C i j).
  { intros i j Hi Hj. rewrite <- (mmul_id_r n A i j) by auto.
    rewrite (mmul_ext n A A qdelta (mmul n B C)); auto.
    2:{ intros; symmetry; now apply H2. }
    rewrite <- mmul_assoc. rewrite (mmul_ext n (mmul n A B) qdelta C C); auto.
    now apply mmul_id_l. }
  intros i j Hi Hj. rewrite (mmul_ext n B B A C); auto.
Qed.

Lemma lower_inv_shape : forall n L,
  (forall i, (i < n)%nat -> L i i <> 0) ->
  (forall i j, (i < n)%nat -> (i < j < n)%nat -> L i j = 0) ->
  (forall i j, (i < n)%nat -> (i < j < n)%nat -> lower_inv n L i j = 0) /\
  (forall i, (i < n)%nat -> lower_inv n L i i * L i i = 1).
Proof.
  intros n L Hd Hz.
  assert (Z : forall i j, (i < n)%nat -> (i < j < n)%nat -> lower_inv n L i j = 0).
  { intros i; induction i as [i IH] using lt_wf_ind; intros j Hi Hj.
    apply (Qc_mul_cancel _ _ (L i i)); auto.
    rewrite lower_inv_entry by lia. rewrite Qcmult_comm, fwd_eq by auto.
    rewrite (qsum_zero' i).
    - unfold qdelta. destruct (Nat.eqb_spec i j); [lia|]. ring.
    - intros k Hk. rewrite <- (lower_inv_entry n) by lia. rewrite IH by lia. ring. }
  split; auto. intros i Hi.
  rewrite lower_inv_entry by lia. rewrite Qcmult_comm, fwd_eq by auto.
  rewrite (qsum_zero' i).
  - unfold qdelta. rewrite Nat.eqb_refl. ring.
  - intros k Hk. rewrite <- (lower_inv_entry n) by lia. rewrite Z by lia. ring.
Qed.

Lemma lower_inv_left : forall n L,
  (forall i, (i < n)%nat -> L i i <> 0) ->
  (forall i j, (i < n)%nat -> (i < j < n)%nat -> L i j = 0) ->
  is_right_inverse n (lower_inv n L) L.
Proof.
  intros n L Hd Hz. destruct (lower_inv_shape n L Hd Hz) as [S1 S2].
  apply two_sided with (C := lower_inv n (lower_inv n L)).
  - now apply lower_inv_right.
  - apply lower_inv_right; auto.
    intros i Hi E. specialize (S2 i Hi). rewrite E in S2. rewrite Qcmult_0_l in S2. discriminate.
Qed.

Lemma upper_inv_shape : forall n U,
  (forall i, (i < n)%nat -> U i i <> 0) ->
  (forall i j, (i < n)%nat -> (j < i)%nat -> U i j = 0) ->
  (forall i j, (i < n)%nat -> (j < i)%nat -> upper_inv n U i j = 0) /\
  (forall i, (i < n)%nat -> U i i * upper_inv n U i i = 1).
Proof.
  intros n U Hd Hz.
  pose proof (upper_inv_right n U Hd Hz) as R.
  assert (Z : forall m i j, (i < n)%nat -> (n - i <= m)%nat -> (j < i)%nat ->
              upper_inv n U i j = 0).
  { induction m as [|m IH]; intros i j Hi Hm Hj; [lia|].
    specialize (R i j Hi ltac:(lia)). unfold mmul in R.
    rewrite (qsum_single n i) in R; auto.
    - unfold qdelta in R. destruct (Nat.eqb_spec i j); [lia|].
      apply Qc_integral in R as [R|R]; auto. exfalso; now apply (Hd i).
    - intros k Hk Hne. destruct (lt_dec k i).
      + rewrite Hz by lia. ring.
      + rewrite (IH k j) by lia. ring. }
  split; [intros; eapply Z; eauto|].
  intros i Hi. specialize (R i i Hi Hi). unfold mmul in R.
  rewrite (qsum_single n i) in R; auto.
  - rewrite R. unfold qdelta. now rewrite Nat.eqb_refl.
  - intros k Hk Hne. destruct (lt_dec k i).
    + rewrite Hz by lia. ring.
    + rewrite (Z n k i) by lia. ring.
Qed.

Lemma upper_inv_left : forall n U,
  (forall i, (i < n)%nat -> U i i <> 0) ->
  (forall i j, (i < n)%nat -> (j < i)%nat -> U i j = 0) ->
  is_right_inverse n (upper_inv n U) U.
Proof.
  intros n U Hd Hz. destruct (upper_inv_shape n U Hd Hz) as [S1 S2].
  apply two_sided with (C := upper_inv n (upper_inv n U)).
  - now apply upper_inv_right.
  - apply upper_inv_right; auto.
    intros i Hi E. specialize (S2 i Hi). rewrite E in S2. rewrite Qcmult_0_r in S2. discriminate.
Qed.

(** ** Complete homogeneous symmetric polynomials *)
Fixpoint hsym (X : list Qc) : nat -> Qc :=
  match X with
  | [] => fun d => match d with O => 1 | S _ => 0 end
  | a :: X' => fix hd (d : nat) : Qc :=
      match d with O => 1 | S d' => hsym X' (S d') + a * hd d' end
  end.

Lemma hsym_0 : forall X, hsym X 0 = 1.
Proof. destruct X; reflexivity. Qed.

Lemma hsym_S : forall a X d, hsym (a :: X) (S d) = hsym X (S d) + a * hsym (a :: X) d.
Proof. reflexivity. Qed.

Lemma hsym_one : forall a d, hsym [a] d = a ^ d.
Proof.
  intros a d; induction d as [|d IH]; [reflexivity|].
  rewrite hsym_S, IH, Qcpow_S. cbn [hsym]. ring.
Qed.

Lemma hsym_diff : forall X a b d,
  hsym (a :: X) (S d) - hsym (b :: X) (S d) = (a - b) * hsym (a :: b :: X) d.
Proof.
  intros X a b d; induction d as [|d IH].
  - rewrite !hsym_S, !hsym_0. ring.
  - rewrite (hsym_S a X (S d)), (hsym_S b X (S d)).
    rewrite (hsym_S a (b :: X) d).
    replace ((a - b) * (hsym (b :: X) (S d) + a * hsym (a :: b :: X) d))
      with ((a - b) * hsym (b :: X) (S d) + a * ((a - b) * hsym (a :: b :: X) d)) by ring.
    rewrite <- IH. ring.
Qed.

Section Vandermonde.
Variable n : nat.
Variable x : nat -> Qc.
Hypothesis x_distinct : forall i j, (i < n)%nat -> (j < n)%nat -> x i = x j -> i = j.

Fixpoint nodes (k : nat) : list Qc :=
  match k with O => [] | S k' => x k' :: nodes k' end.

Definition nprod (k j : nat) : Qc := qprod k (fun m => x j - x m).

(** The combined LU storage after k elimination steps. *)
Definition lu_closed (k : nat) : matrix := fun i j =>
  let r := Nat.min i k in
  if Nat.ltb j r then hsym (nodes (S j)) (i - j)
  else hsym (x j :: nodes r) (i - r) * nprod r j.

Lemma nprod_nonzero : forall k, (k < n)%nat -> nprod k k <> 0.
Proof.
  intros k Hk. apply qprod_nonzero. intros i Hi. apply Qc_sub_nonzero. intros E.
  apply x_distinct in E; lia.
Qed.

Lemma lu_closed_0 : forall i j, lu_closed 0 i j = (x j) ^ i.
Proof.
  intros. unfold lu_closed. rewrite Nat.min_0_r. cbn [Nat.ltb Nat.leb nodes].
  rewrite Nat.sub_0_r, hsym_one. unfold nprod; cbn. ring.
Qed.

Lemma lu_closed_pivot : forall k, (k < n)%nat -> lu_closed k k k = nprod k k.
Proof.
  intros k Hk. unfold lu_closed. rewrite Nat.min_id, Nat.ltb_irrefl, Nat.sub_diag, hsym_0. ring.
Qed.

Lemma lu_closed_step : forall k i j, (k < n)%nat -> (i < n)%nat -> (j < n)%nat ->
  elim_col k (lu_closed k) i j = lu_closed (S k) i j.
Proof.
  intros k i j Hk Hi Hj. unfold elim_col.
  destruct (Nat.ltb_spec k i) as [Hki|Hki].
  - pose proof (nprod_nonzero k Hk) as Hp.
    assert (El : lu_closed k i k / lu_closed k k k = hsym (nodes (S k)) (i - k)).
    { rewrite lu_closed_pivot by auto. unfold lu_closed.
      rewrite Nat.min_r, Nat.ltb_irrefl by lia. cbn [nodes]. field. auto. }
    cbv zeta. rewrite El.
    unfold lu_closed at 4. rewrite (Nat.min_r i (S k)) by lia.
    destruct (Nat.eqb_spec j k).
    + subst. destruct (Nat.ltb_spec k (S k)); [reflexivity|lia].
    + destruct (Nat.ltb_spec k j).
      * destruct (Nat.ltb_spec j (S k)); [lia|].
        unfold lu_closed. rewrite (Nat.min_r i k), Nat.min_id by lia.
        destruct (Nat.ltb_spec j k); [lia|]. rewrite Nat.sub_diag, hsym_0.
        cbn [nodes].
        replace (i - k)%nat with (S (i - S k)) by lia.
        unfold nprod; cbn [qprod]. fold (nprod k j).
        replace (hsym (x j :: nodes k) (S (i - S k)) * nprod k j -
                 hsym (x k :: nodes k) (S (i - S k)) * (1 * nprod k j))
          with ((hsym (x j :: nodes k) (S (i - S k)) - hsym (x k :: nodes k) (S (i - S k)))
                * nprod k j) by ring.
        rewrite hsym_diff. ring.
      * destruct (Nat.ltb_spec j (S k)); [|lia].
        unfold lu_closed. rewrite (Nat.min_r i k) by lia.
        destruct (Nat.ltb_spec j k); [reflexivity|lia].
  - unfold lu_closed. rewrite !Nat.min_l by lia. reflexivity.
Qed.

Lemma find_pivot_first : forall k A, (k < n)%nat -> A k k <> 0 -> find_pivot n k A = Some k.
Proof.
  intros k A Hk Ha. unfold find_pivot. replace (n - k)%nat with (S (n - k - 1)) by lia.
  cbn [seq find]. apply qeqb_neq in Ha. rewrite Ha. reflexivity.
Qed.

(** The elimination never swaps and its storage is the closed form. *)
Lemma lu_invariant : forall A0, (forall i j, (i < n)%nat -> (j < n)%nat -> A0 i j = (x j) ^ i) ->
  forall k, (k <= n)%nat ->
  exists A, fold_left (lu_step n) (seq 0 k) (Ok (A0, [])) = Ok (A, []) /\
    forall i j, (i < n)%nat -> (j < n)%nat -> A i j = lu_closed k i j.
Proof.
  intros A0 H0 k; induction k as [|k IH]; intros Hk.
  - exists A0. cbn. split; auto. intros. rewrite lu_closed_0. auto.
  - destruct IH as (A & EA & HA); [lia|].
    rewrite seq_S, fold_left_app, EA. cbn [fold_left Nat.add lu_step].
    assert (Hp : A k k <> 0).
    { rewrite HA, lu_closed_pivot by lia. apply nprod_nonzero; lia. }
    rewrite find_pivot_first by (auto; lia). rewrite Nat.eqb_refl.
    eexists; split; [reflexivity|].
    intros i j Hi Hj. rewrite mtab_eq by auto.
    rewrite <- lu_closed_step by (auto; lia).
    unfold elim_col. destruct (Nat.ltb k i); auto.
    cbv zeta. rewrite !HA by lia. reflexivity.
Qed.

(** Newton form: L U is the Vandermonde matrix. *)
Lemma newton_partial : forall i j m, (m <= i)%nat ->
  (x j) ^ i = qsum m (fun k => hsym (nodes (S k)) (i - k) * nprod k j)
              + hsym (x j :: nodes m) (i - m) * nprod m j.
Proof.
  intros i j m; induction m as [|m IH]; intros Hm.
  - cbn [qsum nodes]. rewrite Nat.sub_0_r, hsym_one. unfold nprod; cbn. ring.
  - rewrite IH by lia. cbn [qsum nodes].
    replace (i - m)%nat with (S (i - S m)) by lia.
    pose proof (hsym_diff (nodes m) (x j) (x m) (i - S m)) as D.
    change (nprod (S m) j) with (nprod m j * (x j - x m)).
    set (a := hsym (x j :: nodes m) (S (i - S m))) in *.
    set (b := hsym (x m :: nodes m) (S (i - S m))) in *.
    replace a with ((a - b) + b) by ring. rewrite D. ring.
Qed.

Theorem vandermonde_lu : forall A0,
  (forall i j, (i < n)%nat -> (j < n)%nat -> A0 i j = (x j) ^ i) ->
  exists A, lu_decomposition n A0 = Ok (A, []) /\
    (forall i, (i < n)%nat -> lu_U A i i <> 0) /\
    (forall i j, (i < n)%nat -> (j < n)%nat -> mmul n (lu_L A) (lu_U A) i j = (x j) ^ i).
Proof.
  intros A0 H0. destruct (lu_invariant A0 H0 n (le_n n)) as (A & EA & HA).
  exists A. split; [exact EA|]. split.
  - intros i Hi. unfold lu_U. rewrite Nat.leb_refl, HA by auto.
    unfold lu_closed. rewrite Nat.min_l, Nat.ltb_irrefl, Nat.sub_diag, hsym_0 by lia.
    rewrite Qcmult_1_l. now apply nprod_nonzero.
  - intros i j Hi Hj.
    assert (HU : forall k, (k < n)%nat -> lu_U A k j = if Nat.leb k j then nprod k j else 0).
    { intros k Hk. unfold lu_U. destruct (Nat.leb_spec k j); auto. rewrite HA by auto.
      unfold lu_closed. rewrite Nat.min_l by lia. destruct (Nat.ltb_spec j k); [lia|].
      rewrite Nat.sub_diag, hsym_0. ring. }
    assert (HU' : forall k, (k < n)%nat -> lu_U A k j = nprod k j).
    { intros k Hk. rewrite HU by auto. destruct (Nat.leb_spec k j); auto.
      symmetry. apply (qprod_zero k _ j); auto. ring. }
    assert (HL : forall k, (k < n)%nat -> lu_L A i k =
              if Nat.leb k i then hsym (nodes (S k)) (i - k) else 0).
    { intros k Hk. unfold lu_L. destruct (Nat.eqb_spec i k).
      - subst. rewrite Nat.leb_refl, Nat.sub_diag, hsym_0. reflexivity.
      - destruct (Nat.ltb_spec k i).
        + destruct (Nat.leb_spec k i); [|lia]. rewrite HA by auto.
          unfold lu_closed. rewrite Nat.min_l by lia. destruct (Nat.ltb_spec k i); [reflexivity|lia].
        + destruct (Nat.leb_spec k i); [lia|reflexivity]. }
    unfold mmul.
    rewrite (qsum_ext n _ (fun k => (if Nat.leb k i then hsym (nodes (S k)) (i - k) else 0)
                                    * nprod k j)).
    2:{ intros k Hk. now rewrite HL, HU'. }
    replace n with (S i + (n - S i))%nat by lia. rewrite qsum_app.
    rewrite (qsum_zero' (n - S i)).
    2:{ intros k Hk. destruct (Nat.leb_spec (S i + k) i); [lia|]. ring. }
    cbn [qsum]. rewrite Nat.leb_refl, Nat.sub_diag, hsym_0.
    rewrite (newton_partial i j i (le_n i)). rewrite Nat.sub_diag, hsym_0.
    rewrite (qsum_ext i _ (fun k => hsym (nodes (S k)) (i - k) * nprod k j)).
    + ring.
    + intros k Hk. destruct (Nat.leb_spec k i); [reflexivity|lia].
Qed.

(** The matrix computed from the factors is the two-sided inverse. *)
Theorem vandermonde_inverse : forall A,
  (forall i, (i < n)%nat -> lu_U A i i <> 0) ->
  (forall i j, (i < n)%nat -> (j < n)%nat -> mmul n (lu_L A) (lu_U A) i j = (x j) ^ i) ->
  let Minv := mmul n (upper_inv n (lu_U A)) (lower_inv n (lu_L A)) in
  let M := fun i j => (x j) ^ i in
  is_right_inverse n M Minv /\ is_right_inverse n Minv M.
Proof.
  intros A HU HM Minv M.
  assert (Uz : forall i j, (i < n)%nat -> (j < i)%nat -> lu_U A i j = 0).
  { intros i j Hi Hj. unfold lu_U. destruct (Nat.leb_spec i j); [lia|reflexivity]. }
  assert (Ld : forall i, (i < n)%nat -> lu_L A i i <> 0).
  { intros i Hi. unfold lu_L. rewrite Nat.eqb_refl. discriminate. }
  assert (Lz : forall i j, (i < n)%nat -> (i < j < n)%nat -> lu_L A i j = 0).
  { intros i j Hi Hj. unfold lu_L. destruct (Nat.eqb_spec i j); [lia|].
    destruct (Nat.ltb_spec j i); [lia|reflexivity]. }
  pose proof (upper_inv_right n _ HU Uz) as UR. pose proof (upper_inv_left n _ HU Uz) as UL.
  pose proof (lower_inv_right n _ Ld Lz) as LR. pose proof (lower_inv_left n _ Ld Lz) as LL.
  set (L := lu_L A) in *. set (U := lu_U A) in *.
  set (Ui := upper_inv n U) in *. set (Li := lower_inv n L) in *.
  assert (EM : forall i j, (i < n)%nat -> (j < n)%nat -> M i j = mmul n L U i j).
  { intros i j Hi Hj. unfold M. now rewrite HM. }
  split; intros i j Hi Hj.
  - rewrite (mmul_ext n M (mmul n L U) Minv Minv); auto. unfold Minv.
    rewrite mmul_assoc.
    rewrite (mmul_ext n L L _ (mmul n (mmul n U Ui) Li)); auto.
    2:{ intros; symmetry; apply mmul_assoc. }
    rewrite (mmul_ext n L L _ (mmul n qdelta Li)); auto.
    2:{ intros; apply mmul_ext; auto. }
    rewrite (mmul_ext n L L _ Li); auto.
    intros; now apply mmul_id_l.
  - rewrite (mmul_ext n Minv Minv M (mmul n L U)); auto. unfold Minv.
    rewrite mmul_assoc.
    rewrite (mmul_ext n Ui Ui _ (mmul n (mmul n Li L) U)); auto.
    2:{ intros; symmetry; apply mmul_assoc. }
    rewrite (mmul_ext n Ui Ui _ (mmul n qdelta U)); auto.
    2:{ intros; apply mmul_ext; auto. }
    rewrite (mmul_ext n Ui Ui _ U); auto.
    intros; now apply mmul_id_l.
Qed.
End Vandermonde.

(** ** The finite-difference matrix *)
Lemma fd_node_distinct : forall w s i j, fd_node w s i = fd_node w s j -> i = j.
Proof.
  intros w s i j H. unfold fd_node in H. apply qn_inj.
  set (c := qz (Z.of_nat w - 1) / qz 2) in *.
  replace (qn i) with ((qn i - c + qz s) + c - qz s) by ring. rewrite H. ring.
Qed.

Lemma fd_M_pow : forall w s i j, fd_M w s i j = (fd_node w s j) ^ i.
Proof.
  intros. unfold fd_M. destruct (Nat.eqb_spec i 0); [subst; reflexivity|].
  cbv zeta. destruct (qeqb (fd_node w s j) 0) eqn:E; auto.
  apply qeqb_eq in E. rewrite E, Qc_0_pow; auto.
Qed.

Theorem fd_inverse_correct : forall w s,
  (exists A, lu_decomposition w (mtab w (fd_M w s)) = Ok (A, [])) /\
  exists Minv, setup_FD_matrix_inverse_lowlevel w s = Ok Minv /\
    is_right_inverse w (fd_M w s) Minv /\ is_right_inverse w Minv (fd_M w s).
Proof.
  intros w s.
  assert (Hd : forall i j, (i < w)%nat -> (j < w)%nat -> fd_node w s i = fd_node w s j -> i = j)
    by (intros; now apply fd_node_distinct in H1).
  assert (H0 : forall i j, (i < w)%nat -> (j < w)%nat ->
                 mtab w (fd_M w s) i j = (fd_node w s j) ^ i).
  { intros i j Hi Hj. rewrite mtab_eq by auto. apply fd_M_pow. }
  destruct (vandermonde_lu w (fd_node w s) Hd _ H0) as (A & EA & HU & HM).
  split; [eauto|].
  unfold setup_FD_matrix_inverse_lowlevel. rewrite EA.
  eexists; split; [reflexivity|].
  destruct (vandermonde_inverse w (fd_node w s) A HU HM) as [R L].
  split; intros i j Hi Hj.
  - rewrite <- (R i j Hi Hj). apply mmul_ext; auto.
    + intros; apply fd_M_pow.
    + intros; now apply mtab_eq.
  - rewrite <- (L i j Hi Hj). apply mmul_ext; auto.
    + intros; now apply mtab_eq.
    + intros; apply fd_M_pow.
Qed.
