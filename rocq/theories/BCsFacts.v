(** Proofs about the boundary-condition model. *)
From Coq Require Import List ZArith Bool Lia Permutation QArith Qcanon.
From Verif Require Import QcLib BCs.
Import ListNotations.
Open Scope Z_scope.

(** ** Ranges and loops *)
Lemma in_zrange : forall lo hi x, In x (zrange lo hi) <-> lo <= x < hi.
Proof.
  intros lo hi x. unfold zrange. rewrite in_map_iff. split.
  - intros (n & <- & Hn). apply in_seq in Hn. lia.
  - intros H. exists (Z.to_nat (x - lo)). split; [lia|]. apply in_seq. lia.
Qed.

Lemma NoDup_zrange : forall lo hi, NoDup (zrange lo hi).
Proof.
  intros lo hi. unfold zrange. apply FinFun.Injective_map_NoDup; [|apply seq_NoDup].
  intros a b H. lia.
Qed.

Lemma zrange_length : forall lo hi, Datatypes.length (zrange lo hi) = Z.to_nat (hi - lo).
Proof. intros. unfold zrange. rewrite map_length, seq_length. reflexivity. Qed.

Definition in_fr (fr : face_range) (p : point) : Prop :=
  r0 fr <= x0 p < r1 fr /\ r2 fr <= x1 p < r3 fr /\ r4 fr <= x2 p < r5 fr.

Definition fr_loop (fr : face_range) : list point :=
  loop_points (r0 fr) (r1 fr) (r2 fr) (r3 fr) (r4 fr) (r5 fr).

Lemma in_loop : forall l0 h0 l1 h1 l2 h2 p,
  In p (loop_points l0 h0 l1 h1 l2 h2) <->
  l0 <= x0 p < h0 /\ l1 <= x1 p < h1 /\ l2 <= x2 p < h2.
Proof.
  intros l0 h0 l1 h1 l2 h2 [[a b] c]. unfold loop_points, x0, x1, x2. cbn [fst snd].
  rewrite in_flat_map. split.
  - intros (i2 & H2 & H). apply in_flat_map in H. destruct H as (i1 & H1 & H).
    apply in_map_iff in H. destruct H as (i0 & E & H0). injection E as -> -> ->.
    apply in_zrange in H0, H1, H2. lia.
  - intros (H0 & H1 & H2). exists c. split; [apply in_zrange; lia|].
    apply in_flat_map. exists b. split; [apply in_zrange; lia|].
    apply in_map_iff. exists a. split; [reflexivity|apply in_zrange; lia].
Qed.

Lemma in_fr_loop : forall fr p, In p (fr_loop fr) <-> in_fr fr p.
Proof. intros. apply in_loop. Qed.

Lemma NoDup_app_intro : forall A (l1 l2 : list A), NoDup l1 -> NoDup l2 ->
  (forall x, In x l1 -> ~ In x l2) -> NoDup (l1 ++ l2).
Proof.
  induction l1 as [|a l1 IH]; cbn; intros l2 H1 H2 H; [exact H2|].
  inversion H1; subst. constructor.
  - rewrite in_app_iff. intros [C|C]; [contradiction|]. exact (H a (or_introl eq_refl) C).
  - apply IH; auto.
Qed.

Lemma NoDup_flat_map_intro : forall A B (f : A -> list B) l, NoDup l ->
  (forall a, In a l -> NoDup (f a)) ->
  (forall a a' b, In a l -> In a' l -> In b (f a) -> In b (f a') -> a = a') ->
  NoDup (flat_map f l).
Proof.
  induction l as [|a l IH]; cbn; intros H1 H2 H3; [constructor|].
  inversion H1; subst. apply NoDup_app_intro.
  - apply H2. left; reflexivity.
  - apply IH; [assumption| |]; intros; [apply H2; right; assumption|].
    eapply H3; [right; eassumption|right; eassumption|eassumption|eassumption].
  - intros x Hx C. apply in_flat_map in C. destruct C as (a' & Ha' & Hx').
    assert (a = a') by (eapply H3; [left; reflexivity|right; eassumption|eassumption|eassumption]).
    subst a'. contradiction.
Qed.

Lemma NoDup_loop : forall l0 h0 l1 h1 l2 h2, NoDup (loop_points l0 h0 l1 h1 l2 h2).
Proof.
  intros. unfold loop_points. apply NoDup_flat_map_intro; [apply NoDup_zrange| |].
  - intros i2 _. apply NoDup_flat_map_intro; [apply NoDup_zrange| |].
    + intros i1 _. apply FinFun.Injective_map_NoDup; [|apply NoDup_zrange].
      intros a b E. injection E as E. exact E.
    + intros i1 i1' p _ _ H H'. apply in_map_iff in H, H'.
      destruct H as (a & <- & _), H' as (b & E & _). injection E as _ E. congruence.
  - intros i2 i2' p _ _ H H'. apply in_flat_map in H, H'.
    destruct H as (i1 & _ & H), H' as (i1' & _ & H'). apply in_map_iff in H, H'.
    destruct H as (a & <- & _), H' as (b & E & _). injection E as _ _ E. congruence.
Qed.

Lemma flat_map_const_length : forall A B (f : A -> list B) k l,
  (forall a, In a l -> Datatypes.length (f a) = k) ->
  Datatypes.length (flat_map f l) = (Datatypes.length l * k)%nat.
Proof.
  induction l as [|a l IH]; cbn; intros H; [reflexivity|].
  rewrite app_length, (H a (or_introl eq_refl)), IH; [lia|]. intros; apply H; right; assumption.
Qed.

Lemma loop_length : forall l0 h0 l1 h1 l2 h2,
  Datatypes.length (loop_points l0 h0 l1 h1 l2 h2)
  = (Z.to_nat (h2 - l2) * (Z.to_nat (h1 - l1) * Z.to_nat (h0 - l0)))%nat.
Proof.
  intros. unfold loop_points.
  rewrite flat_map_const_length with (k := (Z.to_nat (h1 - l1) * Z.to_nat (h0 - l0))%nat);
    [rewrite zrange_length; reflexivity|].
  intros i2 _. rewrite flat_map_const_length with (k := Z.to_nat (h0 - l0));
    [rewrite zrange_length; reflexivity|].
  intros i1 _. rewrite map_length, zrange_length. reflexivity.
Qed.

Lemma point_eqb_eq : forall p q, point_eqb p q = true <-> p = q.
Proof.
  intros [[a b] c] [[a' b'] c']. unfold point_eqb, x0, x1, x2. cbn [fst snd].
  rewrite !andb_true_iff, !Z.eqb_eq. split; [intros [[-> ->] ->]; reflexivity|].
  intros E; injection E as -> -> ->; auto.
Qed.

Lemma point_eqb_neq : forall p q, point_eqb p q = false <-> p <> q.
Proof.
  intros p q. rewrite <- point_eqb_eq. destruct (point_eqb p q); split; congruence.
Qed.

Lemma point_ext : forall p q : point, x0 p = x0 q -> x1 p = x1 q -> x2 p = x2 q -> p = q.
Proof. intros [[a b] c] [[a' b'] c']. unfold x0, x1, x2. cbn. congruence. Qed.

(** ** Boxes grown one direction at a time *)
Record box := MkBox { bmin : point; bmax : point }.
Definition in_box (B : box) (p : point) : Prop :=
  x0 (bmin B) <= x0 p < x0 (bmax B) /\ x1 (bmin B) <= x1 p < x1 (bmax B) /\
  x2 (bmin B) <= x2 p < x2 (bmax B).

Definition ax (d : nat) (p : point) : Z :=
  match d with 0%nat => x0 p | 1%nat => x1 p | _ => x2 p end.

Definition grow (d : nat) (B : box) : box :=
  let '(a0, a1, a2) := bmin B in let '(b0, b1, b2) := bmax B in
  match d with
  | 0%nat => MkBox (a0 - 1, a1, a2) (b0 + 1, b1, b2)
  | 1%nat => MkBox (a0, a1 - 1, a2) (b0, b1 + 1, b2)
  | _ => MkBox (a0, a1, a2 - 1) (b0, b1, b2 + 1)
  end.

(** The two slabs that [grow] adds. *)
Definition lower (d : nat) (B : box) : face_range :=
  let '(a0, a1, a2) := bmin B in let '(b0, b1, b2) := bmax B in
  match d with
  | 0%nat => MkR (a0 - 1) a0 a1 b1 a2 b2
  | 1%nat => MkR a0 b0 (a1 - 1) a1 a2 b2
  | _ => MkR a0 b0 a1 b1 (a2 - 1) a2
  end.
Definition upper (d : nat) (B : box) : face_range :=
  let '(a0, a1, a2) := bmin B in let '(b0, b1, b2) := bmax B in
  match d with
  | 0%nat => MkR b0 (b0 + 1) a1 b1 a2 b2
  | 1%nat => MkR a0 b0 b1 (b1 + 1) a2 b2
  | _ => MkR a0 b0 a1 b1 b2 (b2 + 1)
  end.

Fixpoint chain (B : box) (l : list (nat * (face_range * face_range))) : Prop :=
  match l with
  | [] => True
  | (d, (lo, hi)) :: l' => (d < 3)%nat /\ lo = lower d B /\ hi = upper d B /\ chain (grow d B) l'
  end.

Definition final (B : box) (l : list (nat * (face_range * face_range))) : box :=
  fold_left (fun B dp => grow (fst dp) B) l B.

Lemma face_pairs_chain : forall n a b, chain (MkBox a b) (face_pairs n a b).
Proof.
  induction n as [|n IH]; intros [[a0 a1] a2] [[b0 b1] b2]; cbn [face_pairs layer_faces chain]; [exact I|].
  unfold lower, upper, grow. cbn [bmin bmax].
  repeat (split; [solve [lia|reflexivity]|]). apply IH.
Qed.

Lemma face_pairs_final : forall n a0 a1 a2 b0 b1 b2,
  final (MkBox (a0, a1, a2) (b0, b1, b2)) (face_pairs n (a0, a1, a2) (b0, b1, b2)) =
  let k := Z.of_nat n in MkBox (a0 - k, a1 - k, a2 - k) (b0 + k, b1 + k, b2 + k).
Proof.
  induction n as [|n IH]; intros.
  - cbn. rewrite !Z.sub_0_r, !Z.add_0_r. reflexivity.
  - cbn [face_pairs layer_faces final fold_left fst grow bmin bmax]. unfold final in IH. rewrite IH.
    cbv zeta. rewrite Nat2Z.inj_succ.
    rewrite <- !Z.sub_add_distr, <- !Z.add_assoc, !(Z.add_1_l). reflexivity.
Qed.

Ltac boxes :=
  unfold in_box, in_fr, grow, lower, upper, ax, x0, x1, x2 in *;
  cbn [bmin bmax fst snd r0 r1 r2 r3 r4 r5] in *.

Lemma grow_split : forall d B p, (d < 3)%nat -> ax d (bmin B) <= ax d (bmax B) ->
  (in_box (grow d B) p <-> in_box B p \/ in_fr (lower d B) p \/ in_fr (upper d B) p).
Proof.
  intros d [[[a0 a1] a2] [[b0 b1] b2]] [[p0 p1] p2] Hd H.
  destruct d as [|[|[|]]]; [| | |lia]; boxes; lia.
Qed.

Lemma lower_not_in : forall d B p, (d < 3)%nat -> in_fr (lower d B) p -> ~ in_box B p.
Proof.
  intros d [[[a0 a1] a2] [[b0 b1] b2]] [[p0 p1] p2] Hd H.
  destruct d as [|[|[|]]]; [| | |lia]; boxes; lia.
Qed.
Lemma upper_not_in : forall d B p, (d < 3)%nat -> in_fr (upper d B) p -> ~ in_box B p.
Proof.
  intros d [[[a0 a1] a2] [[b0 b1] b2]] [[p0 p1] p2] Hd H.
  destruct d as [|[|[|]]]; [| | |lia]; boxes; lia.
Qed.
Lemma lower_upper_disjoint : forall d B p, (d < 3)%nat -> ax d (bmin B) <= ax d (bmax B) ->
  in_fr (lower d B) p -> ~ in_fr (upper d B) p.
Proof.
  intros d [[[a0 a1] a2] [[b0 b1] b2]] [[p0 p1] p2] Hd H.
  destruct d as [|[|[|]]]; [| | |lia]; boxes; lia.
Qed.

(** Width at least [w] in every direction, kept by [grow]. *)
Definition wide (w : Z) (B : box) : Prop := forall d, (d < 3)%nat -> ax d (bmin B) + w <= ax d (bmax B).
Lemma wide_grow : forall w d B, wide w B -> wide w (grow d B).
Proof.
  intros w d [[[a0 a1] a2] [[b0 b1] b2]] H.
  pose proof (H 0%nat) as H0; pose proof (H 1%nat) as H1; pose proof (H 2%nat) as H2.
  intros e He; destruct e as [|[|[|]]]; [| | |lia]; destruct d as [|[|d]]; boxes; lia.
Qed.

Lemma shift_lower : forall d B p k, (d < 3)%nat -> ax d (bmin B) + 3 <= ax d (bmax B) ->
  in_fr (lower d B) p -> 1 <= k <= 3 ->
  in_box B (shift p (facex (2 * d)) k).
Proof.
  intros d [[[a0 a1] a2] [[b0 b1] b2]] [[p0 p1] p2] k Hd W H Hk.
  destruct d as [|[|[|]]]; [| | |lia]; cbn [facex Nat.mul Nat.add]; unfold shift; boxes; lia.
Qed.
Lemma shift_upper : forall d B p k, (d < 3)%nat -> ax d (bmin B) + 3 <= ax d (bmax B) ->
  in_fr (upper d B) p -> 1 <= k <= 3 ->
  in_box B (shift p (facex (2 * d + 1)) k).
Proof.
  intros d [[[a0 a1] a2] [[b0 b1] b2]] [[p0 p1] p2] k Hd W H Hk.
  destruct d as [|[|[|]]]; [| | |lia]; cbn [facex Nat.mul Nat.add]; unfold shift; boxes; lia.
Qed.

Lemma in_box_grow : forall d B p, in_box B p -> in_box (grow d B) p.
Proof.
  intros d [[[a0 a1] a2] [[b0 b1] b2]] [[p0 p1] p2] H.
  destruct d as [|[|d]]; boxes; lia.
Qed.
Lemma in_box_final : forall l B p, in_box B p -> in_box (final B l) p.
Proof.
  induction l as [|[d fr] l IH]; intros B p H; cbn; [exact H|]. apply IH, in_box_grow, H.
Qed.

(** ** The points of the batches *)
Definition batch (inb : point -> point) (dp : nat * (face_range * face_range)) : list outer_pt :=
  let '(dirn, (lo, hi)) := dp in
  face_points inb (2 * dirn) lo ++ face_points inb (2 * dirn + 1) hi.

Lemma batches_eq : forall g inb, outer_batches g inb = map (batch inb) (all_pairs g).
Proof. reflexivity. Qed.

Lemma map_op_p_batch : forall inb d lo hi,
  map op_p (batch inb (d, (lo, hi))) =
  filter (fun p => point_eqb p (inb p)) (fr_loop lo ++ fr_loop hi).
Proof.
  intros. unfold batch, face_points. rewrite map_app, !map_map. cbn [op_p].
  rewrite !map_id, filter_app. reflexivity.
Qed.

Lemma in_batch : forall inb d lo hi p, In p (map op_p (batch inb (d, (lo, hi)))) <->
  (in_fr lo p \/ in_fr hi p) /\ inb p = p.
Proof.
  intros. rewrite map_op_p_batch, filter_In, in_app_iff, !in_fr_loop, point_eqb_eq.
  split; intros [H E]; split; auto.
Qed.

Lemma filter_NoDup : forall A (f : A -> bool) l, NoDup l -> NoDup (filter f l).
Proof.
  induction l as [|a l IH]; cbn; intros H; [constructor|]. inversion H; subst.
  destruct (f a); [|auto]. constructor; [|auto]. rewrite filter_In. tauto.
Qed.

Lemma batch_NoDup : forall inb d B, (d < 3)%nat -> ax d (bmin B) <= ax d (bmax B) ->
  NoDup (map op_p (batch inb (d, (lower d B, upper d B)))).
Proof.
  intros. rewrite map_op_p_batch. apply filter_NoDup, NoDup_app_intro; try apply NoDup_loop.
  intros p. rewrite !in_fr_loop. apply lower_upper_disjoint; assumption.
Qed.

Lemma chain_cover : forall inb l B, wide 0 B -> chain B l ->
  NoDup (map op_p (concat (map (batch inb) l))) /\
  forall p, In p (map op_p (concat (map (batch inb) l))) <->
    in_box (final B l) p /\ ~ in_box B p /\ inb p = p.
Proof.
  induction l as [|[d [lo hi]] l IH]; intros B W C.
  - split; [constructor|]. intros p. cbn. tauto.
  - destruct C as (Hd & -> & -> & C). cbn [map concat]. rewrite map_app.
    destruct (IH (grow d B) (wide_grow 0 d B W) C) as [N I].
    assert (Hw : ax d (bmin B) <= ax d (bmax B)) by (pose proof (W d Hd); lia).
    split.
    + apply NoDup_app_intro; [apply batch_NoDup; assumption|exact N|].
      intros p Hp Hp'. apply in_batch in Hp. apply I in Hp'. destruct Hp' as (_ & Hn & _).
      apply Hn. apply grow_split; tauto.
    + intros p. rewrite in_app_iff, in_batch, I. change (final B ((d, (lower d B, upper d B)) :: l)) with (final (grow d B) l).
      pose proof (@lower_not_in d B p Hd). pose proof (@upper_not_in d B p Hd).
      pose proof (@grow_split d B p Hd Hw). pose proof (@in_box_final l (grow d B) p).
      destruct (point_eqb p (inb p)) eqn:E; [apply point_eqb_eq in E|apply point_eqb_neq in E].
      * split; [|intros (H3 & H4 & H5)].
        -- intros [[H3 H4]|H3]; tauto.
        -- assert (D : in_box (grow d B) p \/ ~ in_box (grow d B) p) by (unfold in_box; lia). tauto.
      * split; intros; exfalso; apply E; symmetry; tauto.
Qed.

(** ** Independent assignments *)
Lemma upd_same : forall m i v, upd m i v i = v.
Proof. intros. unfold upd. rewrite Z.eqb_refl. reflexivity. Qed.
Lemma upd_other : forall m i v j, j <> i -> upd m i v j = m j.
Proof. intros. unfold upd. apply Z.eqb_neq in H. rewrite H. reflexivity. Qed.

Section Tasks.
Variable T : Type.
Variable w : T -> Z.
Variable v : T -> mem -> Qc.
Variable reads : T -> Z -> Prop.
Hypothesis v_ext : forall t m m', (forall i, reads t i -> m i = m' i) -> v t m = v t m'.

Definition run (ts : list T) (m : mem) : mem := fold_left (fun m t => upd m (w t) (v t m)) ts m.

Lemma run_notin : forall ts m i, (forall t, In t ts -> w t <> i) -> run ts m i = m i.
Proof.
  induction ts as [|t ts IH]; intros m i H; cbn; [reflexivity|].
  change (run ts (upd m (w t) (v t m)) i = m i).
  rewrite IH by (intros; apply H; right; assumption).
  apply upd_other. intro E. apply (H t); [left; reflexivity|auto].
Qed.

Lemma run_in : forall ts m t, NoDup (map w ts) -> In t ts ->
  (forall t' i, In t' ts -> reads t i -> w t' <> i) -> run ts m (w t) = v t m.
Proof.
  induction ts as [|u ts IH]; intros m t N H R; [destruct H|].
  inversion N as [|? ? Nu N']; subst. cbn.
  change (run ts (upd m (w u) (v u m)) (w t) = v t m).
  destruct H as [<-|H].
  - rewrite run_notin; [apply upd_same|]. intros t' Ht' E. apply Nu. rewrite <- E.
    apply in_map. exact Ht'.
  - rewrite IH; [|exact N'|exact H|intros; apply R; [right; assumption|assumption]].
    apply v_ext. intros i Hi. apply upd_other. intro E. apply (R u i); [left; reflexivity|exact Hi|auto].
Qed.
End Tasks.

(** ** Addresses *)
Definition in_grid (g : gsize) (p : point) : Prop :=
  0 <= x0 p < gN0 g /\ 0 <= x1 p < gN1 g /\ 0 <= x2 p < gN2 g.
Definition adr (g : gsize) (gf : Z) (p : point) : Z := IDX4pt g gf (IDX3 g p).

Lemma zradix : forall N a b a' b', 0 <= a < N -> 0 <= a' < N -> a + N * b = a' + N * b' -> a = a' /\ b = b'.
Proof.
  intros N a b a' b' H H' E.
  assert (b = b').
  { transitivity ((a + N * b) / N); [apply Z.div_unique with a|symmetry; apply Z.div_unique with a']; lia. }
  subst. split; lia.
Qed.

Lemma idx3_range : forall g p, in_grid g p -> 0 <= IDX3 g p < gN0 g * gN1 g * gN2 g.
Proof.
  intros g [[a b] c]. unfold in_grid, IDX3, x0, x1, x2. cbn [fst snd]. intros (A & B & C).
  assert (0 <= b + gN1 g * c < gN1 g * gN2 g) by nia.
  rewrite <- Z.mul_assoc. generalize dependent (b + gN1 g * c). generalize (gN1 g * gN2 g). intros; nia.
Qed.

Lemma idx3_inj : forall g p q, in_grid g p -> in_grid g q -> IDX3 g p = IDX3 g q -> p = q.
Proof.
  intros g [[a b] c] [[a' b'] c']. unfold in_grid, IDX3, x0, x1, x2. cbn [fst snd].
  intros (? & ? & ?) (? & ? & ?) E.
  apply zradix in E; [|lia|lia]. destruct E as [-> E]. apply zradix in E; [|lia|lia].
  destruct E as [-> ->]. reflexivity.
Qed.

Lemma adr_inj : forall g gf gf' p p', in_grid g p -> in_grid g p' ->
  adr g gf p = adr g gf' p' -> gf = gf' /\ p = p'.
Proof.
  intros g gf gf' p p' H H' E. unfold adr, IDX4pt in E.
  pose proof (idx3_range g p H). pose proof (idx3_range g p' H').
  apply zradix in E; [|lia|lia]. destruct E as [E ->]. split; [reflexivity|].
  apply idx3_inj in E; assumption.
Qed.

Lemma adr_range : forall g gf p ngf, in_grid g p -> 0 <= gf < ngf ->
  0 <= adr g gf p < gN0 g * gN1 g * gN2 g * ngf.
Proof. intros g gf p ngf H Hg. pose proof (idx3_range g p H). unfold adr, IDX4pt. nia. Qed.

(** ** Outer batches *)
Definition ext3 (g : gsize) (m : mem) (gf : Z) (p f : point) : Qc :=
  (qz 3 * m (adr g gf (shift p f 1)) - qz 3 * m (adr g gf (shift p f 2))
   + 1 * m (adr g gf (shift p f 3)))%Qc.

Lemma shift_0 : forall p f, shift p f 0 = p.
Proof. intros [[a b] c] f. unfold shift, x0, x1, x2. cbn [fst snd]. rewrite !Z.mul_0_l, !Z.add_0_r. reflexivity. Qed.

Definition ow (g : gsize) (t : otask) : Z := adr g (snd t) (op_p (fst t)).
Definition ov (g : gsize) (t : otask) (m : mem) : Qc := ext3 g m (snd t) (op_p (fst t)) (op_face (fst t)).
Definition oreads (g : gsize) (t : otask) (i : Z) : Prop :=
  exists k, 1 <= k <= 3 /\ i = adr g (snd t) (shift (op_p (fst t)) (op_face (fst t)) k).

Lemma run_batch_run : forall g ts m, run_batch g ts m = run otask (ow g) (ov g) ts m.
Proof.
  intros g ts. unfold run_batch, run. induction ts as [|[o gf] ts IH]; intros m; [reflexivity|].
  cbn [fold_left]. rewrite <- IH. f_equal. unfold outer_assign, ow, ov, ext3, adr. cbn [fst snd].
  rewrite shift_0. reflexivity.
Qed.

Lemma ov_ext : forall g t m m', (forall i, oreads g t i -> m i = m' i) -> ov g t m = ov g t m'.
Proof.
  intros g t m m' H. unfold ov, ext3.
  rewrite !(H (adr g (snd t) _)) by (eexists; split; [|reflexivity]; lia). reflexivity.
Qed.

Lemma in_batch_tasks : forall ngf b o gf, In (o, gf) (batch_tasks ngf b) <-> In o b /\ 0 <= gf < ngf.
Proof.
  intros. unfold batch_tasks. rewrite in_flat_map. split.
  - intros (o' & Ho & H). apply in_map_iff in H. destruct H as (gf' & E & H).
    injection E as -> ->. split; [exact Ho|apply in_zrange, H].
  - intros [Ho Hg]. exists o. split; [exact Ho|]. apply in_map_iff. exists gf.
    split; [reflexivity|apply in_zrange, Hg].
Qed.

Lemma batch_tasks_NoDup : forall g ngf b, NoDup (map op_p b) ->
  (forall o, In o b -> in_grid g (op_p o)) -> NoDup (map (ow g) (batch_tasks ngf b)).
Proof.
  intros g ngf b. induction b as [|o b IH]; intros N G; [constructor|].
  cbn [batch_tasks flat_map]. rewrite map_app. inversion N as [|? ? No N']; subst.
  apply NoDup_app_intro.
  - rewrite map_map. apply FinFun.Injective_map_NoDup with (f := fun gf => ow g (o, gf)); [|apply NoDup_zrange].
    intros a a' E. apply adr_inj in E; [tauto| |]; apply G; left; reflexivity.
  - apply IH; [exact N'|]. intros; apply G; right; assumption.
  - intros i H H'. apply in_map_iff in H, H'. destruct H as ([o1 g1] & <- & H), H' as ([o2 g2] & E & H').
    apply in_map_iff in H. destruct H as (? & E1 & _). injection E1 as <- <-.
    change (In (o2, g2) (batch_tasks ngf b)) in H'. apply in_batch_tasks in H'. destruct H' as [H' _].
    apply adr_inj in E; [|apply G; right; exact H'|apply G; left; reflexivity].
    destruct E as [_ E]. cbn [fst] in E. apply No. rewrite <- E. apply in_map, H'.
Qed.

(** Direction [d] is either at least three points wide, or has no pure outer point on its faces. *)
Definition dir_ok (inb : point -> point) (B0 F : box) (d : nat) : Prop :=
  ax d (bmin B0) + 3 <= ax d (bmax B0) \/
  forall p, in_box F p -> ~ (ax d (bmin B0) <= ax d p < ax d (bmax B0)) -> inb p <> p.

Definition inside (B0 B : box) : Prop :=
  forall d, (d < 3)%nat -> ax d (bmin B) <= ax d (bmin B0) /\ ax d (bmax B0) <= ax d (bmax B).

Lemma inside_grow : forall B0 B d, inside B0 B -> inside B0 (grow d B).
Proof.
  intros [[[c0 c1] c2] [[e0 e1] e2]] [[[a0 a1] a2] [[b0 b1] b2]] d H.
  pose proof (H 0%nat) as H0; pose proof (H 1%nat) as H1; pose proof (H 2%nat) as H2.
  intros e He; destruct e as [|[|[|]]]; [| | |lia]; destruct d as [|[|d]]; boxes; lia.
Qed.

Lemma face_ghost : forall B0 B d p, (d < 3)%nat -> inside B0 B ->
  in_fr (lower d B) p \/ in_fr (upper d B) p -> ~ (ax d (bmin B0) <= ax d p < ax d (bmax B0)).
Proof.
  intros [[[c0 c1] c2] [[e0 e1] e2]] [[[a0 a1] a2] [[b0 b1] b2]] d [[p0 p1] p2] Hd H.
  pose proof (H d Hd) as H0.
  destruct d as [|[|[|]]]; [| | |lia]; boxes; lia.
Qed.

(** Stencil of a batch point: in the current box. *)
Lemma batch_stencil : forall inb B0 F B d o k, (d < 3)%nat -> inside B0 B -> wide 0 B ->
  dir_ok inb B0 F d -> (forall p, in_box (grow d B) p -> in_box F p) ->
  In o (batch inb (d, (lower d B, upper d B))) -> 1 <= k <= 3 ->
  in_box B (shift (op_p o) (op_face o) k).
Proof.
  intros inb B0 F B d o k Hd Hi W D HF Ho Hk.
  assert (Hw : ax d (bmin B) <= ax d (bmax B)) by (pose proof (W d Hd); lia).
  unfold batch in Ho. apply in_app_iff in Ho.
  assert (Hp : In (op_p o) (map op_p (batch inb (d, (lower d B, upper d B)))))
    by (apply in_map; unfold batch; apply in_app_iff; exact Ho).
  apply in_batch in Hp. destruct Hp as [Hp Hf].
  assert (H3 : ax d (bmin B) + 3 <= ax d (bmax B)).
  { destruct D as [D|D]; [pose proof (Hi d Hd); lia|]. exfalso. apply (D (op_p o)).
    - apply HF. apply grow_split; tauto.
    - eapply face_ghost; eassumption.
    - exact Hf. }
  destruct Ho as [Ho|Ho]; unfold face_points in Ho; apply in_map_iff in Ho;
    destruct Ho as (p & <- & Ho); cbn [op_p op_face]; apply filter_In in Ho; destruct Ho as [Ho _];
    apply in_fr_loop in Ho; [apply shift_lower|apply shift_upper]; assumption.
Qed.

Lemma batch_in_grow : forall inb B d o, (d < 3)%nat -> wide 0 B ->
  In o (batch inb (d, (lower d B, upper d B))) ->
  in_box (grow d B) (op_p o) /\ ~ in_box B (op_p o) /\ inb (op_p o) = op_p o.
Proof.
  intros inb B d o Hd W Ho. apply (in_map op_p) in Ho. apply in_batch in Ho. destruct Ho as [H E].
  assert (Hw : ax d (bmin B) <= ax d (bmax B)) by (pose proof (W d Hd); lia).
  split; [apply grow_split; tauto|]. split; [|exact E].
  destruct H; [apply lower_not_in with d|apply upper_not_in with d]; assumption.
Qed.

Section Outer.
Variables (g : gsize) (inb : point -> point) (ngf : Z) (B0 F : box).
Hypothesis F_grid : forall p, in_box F p -> in_grid g p.
Hypothesis dirs : forall d, (d < 3)%nat -> dir_ok inb B0 F d.

(** One batch under any permutation of its tasks. *)
Lemma batch_run : forall d B ts m, (d < 3)%nat -> inside B0 B -> wide 0 B ->
  (forall p, in_box (grow d B) p -> in_box F p) ->
  Permutation (batch_tasks ngf (batch inb (d, (lower d B, upper d B)))) ts ->
  (forall o gf, In o (batch inb (d, (lower d B, upper d B))) -> 0 <= gf < ngf ->
     run_batch g ts m (adr g gf (op_p o)) = ext3 g m gf (op_p o) (op_face o)) /\
  (forall i, (forall gf p, 0 <= gf < ngf -> in_box (grow d B) p -> ~ in_box B p -> inb p = p -> adr g gf p <> i) ->
     run_batch g ts m i = m i).
Proof.
  intros d B ts m Hd Hi W HF P.
  assert (Hw : ax d (bmin B) <= ax d (bmax B)) by (pose proof (W d Hd); lia).
  assert (HG : forall o, In o (batch inb (d, (lower d B, upper d B))) -> in_grid g (op_p o)).
  { intros o Ho. apply F_grid, HF. apply batch_in_grow in Ho; tauto. }
  split.
  - intros o gf Ho Hg. rewrite run_batch_run.
    change (run otask (ow g) (ov g) ts m (ow g (o, gf)) = ov g (o, gf) m).
    apply run_in with (reads := oreads g).
    + intros. apply ov_ext. assumption.
    + apply (Permutation_NoDup (Permutation_map (ow g) P)). apply batch_tasks_NoDup; [|exact HG].
      apply batch_NoDup; assumption.
    + apply (Permutation_in _ P), in_batch_tasks. split; assumption.
    + intros [o' gf'] i H' (k & Hk & ->) E.
      apply (Permutation_in _ (Permutation_sym P)), in_batch_tasks in H'. destruct H' as [Ho' Hg'].
      assert (S : in_box B (shift (op_p o) (op_face o) k))
        by (eapply batch_stencil; eauto).
      unfold ow in E. cbn [fst snd] in E. apply adr_inj in E; [| |].
      * destruct E as [_ E]. apply batch_in_grow in Ho'; [|assumption|assumption].
        destruct Ho' as (_ & Hn & _). apply Hn. rewrite E. exact S.
      * apply HG, Ho'.
      * apply F_grid, HF, in_box_grow, S.
  - intros i H. rewrite run_batch_run. apply run_notin.
    intros [o gf] Ht E. apply (Permutation_in _ (Permutation_sym P)), in_batch_tasks in Ht.
    destruct Ht as [Ho Hg]. apply batch_in_grow in Ho; [|assumption|assumption].
    destruct Ho as (H1 & H2 & H3). exact (H gf (op_p o) Hg H1 H2 H3 E).
Qed.

Lemma chain_run : forall l B bs m, chain B l -> inside B0 B -> wide 0 B ->
  (forall p, in_box (final B l) p -> in_box F p) ->
  Forall2 (@Permutation _) (map (batch_tasks ngf) (map (batch inb) l)) bs ->
  (forall o gf, In o (concat (map (batch inb) l)) -> 0 <= gf < ngf ->
     run_batches g bs m (adr g gf (op_p o)) = ext3 g (run_batches g bs m) gf (op_p o) (op_face o)) /\
  (forall i, (forall gf p, 0 <= gf < ngf -> in_box (final B l) p -> ~ in_box B p -> inb p = p -> adr g gf p <> i) ->
     run_batches g bs m i = m i).
Proof.
  induction l as [|[d [lo hi]] l IH]; intros B bs m C Hi W HF P; cbn [map] in P; inversion P; subst.
  - split; [intros o gf []|reflexivity].
  - destruct C as (Hd & -> & -> & C). rename y into ts. rename l' into bs'.
    assert (Hw : ax d (bmin B) <= ax d (bmax B)) by (pose proof (W d Hd); lia).
    change (final B ((d, (lower d B, upper d B)) :: l)) with (final (grow d B) l) in *.
    assert (HF' : forall p, in_box (grow d B) p -> in_box F p).
    { intros p Hp. apply HF, in_box_final, Hp. }
    destruct (@batch_run d B ts m Hd Hi W HF' H1) as [R1 R2].
    change (run_batches g (ts :: bs') m) with (run_batches g bs' (run_batch g ts m)).
    destruct (IH (grow d B) bs' (run_batch g ts m) C (inside_grow _ _ _ Hi) (wide_grow 0 d B W) HF H3) as [R3 R4].
    assert (K : forall gf p, in_box (grow d B) p -> run_batches g bs' (run_batch g ts m) (adr g gf p) = run_batch g ts m (adr g gf p)).
    { intros gf p Hp. apply R4. intros gf' p' _ Hp' Hn _ E.
      apply adr_inj in E; [|apply F_grid, HF, Hp'|apply F_grid, HF', Hp].
      destruct E as [_ E]. apply Hn. rewrite E. exact Hp. }
    split.
    + intros o gf Ho Hg. cbn [map concat] in Ho. apply in_app_iff in Ho. destruct Ho as [Ho|Ho].
      * assert (Hp := @batch_in_grow inb B d o Hd W Ho). rewrite K by tauto. rewrite (R1 o gf Ho Hg).
        unfold ext3.
        assert (St : forall k, 1 <= k <= 3 -> m (adr g gf (shift (op_p o) (op_face o) k)) =
          run_batches g bs' (run_batch g ts m) (adr g gf (shift (op_p o) (op_face o) k))).
        { intros k Hk. assert (S : in_box B (shift (op_p o) (op_face o) k)) by (eapply batch_stencil; eauto).
          rewrite K by (apply in_box_grow, S). rewrite R2; [reflexivity|].
          intros gf' p' _ Hp' Hn _ E. apply adr_inj in E; [|apply F_grid, HF', Hp'|apply F_grid, HF', in_box_grow, S].
          destruct E as [_ E]. apply Hn. rewrite E. exact S. }
        rewrite !St by lia. reflexivity.
      * apply R3; assumption.
    + intros i Hn. rewrite R4, R2; [reflexivity| |].
      * intros gf p Hg Hp HB. apply Hn; [exact Hg|apply in_box_final, Hp|exact HB].
      * intros gf p Hg Hp HB. apply Hn; [exact Hg|exact Hp|]. intro C'. apply HB, in_box_grow, C'.
Qed.

Lemma ext3_eq : forall m m' gf p f, (forall k, 1 <= k <= 3 -> m (adr g gf (shift p f k)) = m' (adr g gf (shift p f k))) ->
  ext3 g m gf p f = ext3 g m' gf p f.
Proof. intros m m' gf p f H. unfold ext3. rewrite !H by lia. reflexivity. Qed.

(** A memory that satisfies the relation at every outer point is determined by its values elsewhere. *)
Lemma chain_unique : forall l B (m m' : mem), chain B l -> inside B0 B -> wide 0 B ->
  (forall p, in_box (final B l) p -> in_box F p) ->
  (forall o gf, In o (concat (map (batch inb) l)) -> 0 <= gf < ngf ->
     m (adr g gf (op_p o)) = ext3 g m gf (op_p o) (op_face o)) ->
  (forall o gf, In o (concat (map (batch inb) l)) -> 0 <= gf < ngf ->
     m' (adr g gf (op_p o)) = ext3 g m' gf (op_p o) (op_face o)) ->
  (forall gf p, 0 <= gf < ngf -> in_box (final B l) p -> in_box B p \/ inb p <> p -> m (adr g gf p) = m' (adr g gf p)) ->
  forall gf p, 0 <= gf < ngf -> in_box (final B l) p -> m (adr g gf p) = m' (adr g gf p).
Proof.
  induction l as [|[d [lo hi]] l IH]; intros B m m' C Hi W HF E E' H gf p Hg Hp.
  - apply H; [assumption|exact Hp|left; exact Hp].
  - destruct C as (Hd & -> & -> & C).
    assert (Hw : ax d (bmin B) <= ax d (bmax B)) by (pose proof (W d Hd); lia).
    change (final B ((d, (lower d B, upper d B)) :: l)) with (final (grow d B) l) in *.
    cbn [map concat] in E, E'.
    apply IH with (B := grow d B); try assumption;
      [apply inside_grow; assumption|apply wide_grow; assumption
      |intros; apply E; [apply in_app_iff; right; assumption|assumption]
      |intros; apply E'; [apply in_app_iff; right; assumption|assumption]|].
    intros gf1 p1 Hg1 Hp1 [Hb|Hb]; [|apply H; [assumption|exact Hp1|right; exact Hb]].
    destruct (point_eqb p1 (inb p1)) eqn:Ei;
      [apply point_eqb_eq in Ei|apply point_eqb_neq in Ei; apply H; [assumption|exact Hp1|right; congruence]].
    apply grow_split in Hb; [|assumption|assumption].
    destruct Hb as [Hb|Hb]; [apply H; [assumption|exact Hp1|left; exact Hb]|].
    assert (Ho : In p1 (map op_p (batch inb (d, (lower d B, upper d B))))) by (apply in_batch; auto).
    apply in_map_iff in Ho. destruct Ho as (o & <- & Ho).
    rewrite E, E'; [|apply in_app_iff; left; exact Ho|assumption|apply in_app_iff; left; exact Ho|assumption].
    apply ext3_eq. intros k Hk.
    assert (HF' : forall p, in_box (grow d B) p -> in_box F p) by (intros; apply HF, in_box_final; assumption).
    assert (S : in_box B (shift (op_p o) (op_face o) k)) by (eapply batch_stencil; eauto).
    apply H; [assumption|apply in_box_final, in_box_grow, S|left; exact S].
Qed.
End Outer.

(** ** Inner boundary points *)
Definition total (g : gsize) : Z := gN0 g * gN1 g * gN2 g.

Definition iw (g : gsize) (t : Z * inner_pt) : Z := IDX4pt g (fst t) (in_dst (snd t)).
Definition iv (g : gsize) (par : Z -> nat) (t : Z * inner_pt) (m : mem) : Qc :=
  (qz (in_parity (snd t) (par (fst t))) * m (IDX4pt g (fst t) (in_src (snd t))))%Qc.

Lemma run_inner_run : forall g par ts m, run_inner g par ts m = run _ (iw g) (iv g par) ts m.
Proof.
  intros g par ts. unfold run_inner, run. induction ts as [|[gf ip] ts IH]; intros m; [reflexivity|].
  cbn [fold_left]. rewrite <- IH. reflexivity.
Qed.

Lemma in_inner_tasks : forall ngf a gf ip, In (gf, ip) (inner_tasks ngf a) <-> In ip a /\ 0 <= gf < ngf.
Proof.
  intros. unfold inner_tasks. rewrite in_flat_map. split.
  - intros (gf' & Hg & H). apply in_map_iff in H. destruct H as (ip' & E & H).
    injection E as -> ->. apply in_zrange in Hg. tauto.
  - intros [H Hg]. exists gf. split; [apply in_zrange, Hg|]. apply in_map_iff. exists ip. tauto.
Qed.

(** A usable table: targets distinct, everything in the grid, no source is a target. *)
Definition table_ok (g : gsize) (a : list inner_pt) : Prop :=
  NoDup (map in_dst a) /\
  (forall ip, In ip a -> 0 <= in_dst ip < total g /\ 0 <= in_src ip < total g) /\
  (forall ip ip', In ip a -> In ip' a -> in_src ip <> in_dst ip').

Lemma idx4_inj : forall g gf gf' i i', 0 <= i < total g -> 0 <= i' < total g ->
  IDX4pt g gf i = IDX4pt g gf' i' -> gf = gf' /\ i = i'.
Proof. unfold IDX4pt, total. intros. apply zradix in H1; tauto. Qed.

Lemma inner_tasks_NoDup : forall g ngf a, table_ok g a -> NoDup (map (iw g) (inner_tasks ngf a)).
Proof.
  intros g ngf a (N & R & _).
  assert (E : map (iw g) (inner_tasks ngf a) =
              flat_map (fun gf => map (fun d => IDX4pt g gf d) (map in_dst a)) (zrange 0 ngf)).
  { unfold inner_tasks. induction (zrange 0 ngf) as [|x l IH]; [reflexivity|].
    cbn [flat_map]. rewrite map_app, IH, !map_map. reflexivity. }
  rewrite E. apply NoDup_flat_map_intro; [apply NoDup_zrange| |].
  - intros gf _. apply FinFun.Injective_map_NoDup; [|exact N]. intros x y. unfold IDX4pt. lia.
  - intros gf gf' i _ _ H H'. apply in_map_iff in H, H'. destruct H as (d & <- & H), H' as (d' & E' & H').
    apply in_map_iff in H, H'. destruct H as (ip & <- & H), H' as (ip' & <- & H').
    apply idx4_inj in E'; [symmetry; tauto| |]; apply R; assumption.
Qed.

Lemma inner_run : forall g par ngf a ts m, table_ok g a ->
  Permutation (inner_tasks ngf a) ts ->
  (forall gf ip, In ip a -> 0 <= gf < ngf ->
     run_inner g par ts m (IDX4pt g gf (in_dst ip)) =
     (qz (in_parity ip (par gf)) * m (IDX4pt g gf (in_src ip)))%Qc) /\
  (forall i, (forall gf ip, In ip a -> 0 <= gf < ngf -> IDX4pt g gf (in_dst ip) <> i) ->
     run_inner g par ts m i = m i).
Proof.
  intros g par ngf a ts m Ok P. pose proof Ok as (N & R & D). split.
  - intros gf ip Hi Hg. rewrite run_inner_run.
    change (run _ (iw g) (iv g par) ts m (iw g (gf, ip)) = iv g par (gf, ip) m).
    apply run_in with (reads := fun t i => i = IDX4pt g (fst t) (in_src (snd t))).
    + intros t m1 m2 H. unfold iv. rewrite (H _ eq_refl). reflexivity.
    + apply (Permutation_NoDup (Permutation_map (iw g) P)). apply inner_tasks_NoDup, Ok.
    + apply (Permutation_in _ P), in_inner_tasks. tauto.
    + intros [gf' ip'] i H' -> E. cbn [fst snd] in E.
      apply (Permutation_in _ (Permutation_sym P)), in_inner_tasks in H'. destruct H' as [Hi' Hg'].
      unfold iw in E. cbn [fst snd] in E. apply idx4_inj in E; [|apply R; assumption|apply R; assumption].
      destruct E as [_ E]. apply (D ip ip' Hi Hi'). auto.
  - intros i H. rewrite run_inner_run. apply run_notin. intros [gf ip] Ht E.
    apply (Permutation_in _ (Permutation_sym P)), in_inner_tasks in Ht.
    destruct Ht as [Hi Hg]. exact (H gf ip Hi Hg E).
Qed.

Lemma inner_same : forall g par ngf a ts ts' (m m' : mem), table_ok g a ->
  Permutation (inner_tasks ngf a) ts -> Permutation (inner_tasks ngf a) ts' ->
  (forall i, m i = m' i) -> forall i, run_inner g par ts m i = run_inner g par ts' m' i.
Proof.
  intros g par ngf a ts ts' m m' Ok P P' E i.
  destruct (inner_run g par ngf a ts m Ok P) as [A1 A2].
  destruct (inner_run g par ngf a ts' m' Ok P') as [B1 B2].
  destruct (in_dec Z.eq_dec i (map (iw g) (inner_tasks ngf a))) as [H|H].
  - apply in_map_iff in H. destruct H as ([gf ip] & <- & H). apply in_inner_tasks in H.
    unfold iw. cbn [fst snd]. rewrite A1, B1 by tauto. rewrite E. reflexivity.
  - assert (K : forall gf ip, In ip a -> 0 <= gf < ngf -> IDX4pt g gf (in_dst ip) <> i).
    { intros gf ip Hi Hg C. apply H. apply in_map_iff. exists (gf, ip). split; [exact C|].
      apply in_inner_tasks. tauto. }
    rewrite A2, B2 by exact K. apply E.
Qed.

(** The table of bcstruct_set_up. *)
Definition interior (g : gsize) (p : point) : Prop :=
  gNG g <= x0 p < gN0 g - gNG g /\ gNG g <= x1 p < gN1 g - gNG g /\ gNG g <= x2 p < gN2 g - gNG g.

Lemma is_interior_spec : forall g p, is_interior g p = true <-> interior g p.
Proof.
  intros. unfold is_interior, interior. rewrite !andb_true_iff, !Z.leb_le, !Z.ltb_lt. lia.
Qed.

Lemma in_inner_points : forall g inb p, In p (inner_points g inb) <->
  in_grid g p /\ ~ interior g p /\ inb p <> p.
Proof.
  intros. unfold inner_points. rewrite filter_In, andb_true_iff, !negb_true_iff, in_loop.
  rewrite point_eqb_neq. rewrite <- is_interior_spec. unfold in_grid.
  destruct (is_interior g p); split; intuition congruence.
Qed.

Lemma set_up_table : forall g inb par,
  (forall p, in_grid g p -> ~ interior g p -> in_grid g (inb p)) ->
  (forall p, in_grid g p -> ~ interior g p -> inb p <> p -> interior g (inb p) \/ inb (inb p) = inb p) ->
  table_ok g (inner_bc_array g inb par).
Proof.
  intros g inb par Hg Hs. unfold inner_bc_array. split; [|split].
  - rewrite map_map. cbn [in_dst].
    assert (N : NoDup (inner_points g inb)) by (apply filter_NoDup, NoDup_loop).
    assert (G : forall p, In p (inner_points g inb) -> in_grid g p) by (intros p Hp; apply in_inner_points in Hp; tauto).
    clear - N G. induction N as [|p l Hp N IH]; cbn; constructor.
    + intros C. apply in_map_iff in C. destruct C as (q & E & Hq).
      apply idx3_inj in E; [subst; contradiction|apply G; right; exact Hq|apply G; left; reflexivity].
    + apply IH. intros; apply G; right; assumption.
  - intros ip H. apply in_map_iff in H. destruct H as (p & <- & Hp). apply in_inner_points in Hp.
    destruct Hp as (A & B & C). cbn [in_dst in_src]. split; apply idx3_range; [exact A|]. apply Hg; assumption.
  - intros ip ip' H H' E. apply in_map_iff in H, H'. destruct H as (p & <- & Hp), H' as (q & <- & Hq).
    apply in_inner_points in Hp, Hq. cbn [in_dst in_src] in E.
    destruct Hp as (A & B & C), Hq as (A' & B' & C').
    apply idx3_inj in E; [|apply Hg; assumption|exact A'].
    destruct (Hs p A B C) as [S|S]; rewrite E in S; contradiction.
Qed.

(** ** The concrete grid *)
Definition B_int (g : gsize) : box :=
  MkBox (gNG g, gNG g, gNG g) (gN0 g - gNG g, gN1 g - gNG g, gN2 g - gNG g).
Definition B_grid (g : gsize) : box := MkBox (0, 0, 0) (gN0 g, gN1 g, gN2 g).

Lemma in_B_int : forall g p, in_box (B_int g) p <-> interior g p.
Proof. intros. reflexivity. Qed.
Lemma in_B_grid : forall g p, in_box (B_grid g) p <-> in_grid g p.
Proof. intros. reflexivity. Qed.

Definition size_ok (g : gsize) : Prop :=
  0 <= gNG g /\ 0 <= gN0 g - 2 * gNG g /\ 0 <= gN1 g - 2 * gNG g /\ 0 <= gN2 g - 2 * gNG g.

Lemma all_pairs_chain : forall g, chain (B_int g) (all_pairs g).
Proof. intros. apply face_pairs_chain. Qed.

Lemma all_pairs_final : forall g, size_ok g -> final (B_int g) (all_pairs g) = B_grid g.
Proof.
  intros g (H & _). unfold all_pairs, B_int. rewrite face_pairs_final. cbv zeta. rewrite Z2Nat.id by lia.
  unfold B_grid. rewrite Z.sub_diag, !Z.sub_add. reflexivity.
Qed.

Lemma B_int_wide : forall g, size_ok g -> wide 0 (B_int g).
Proof.
  intros g (H & H0 & H1 & H2) d Hd. destruct d as [|[|[|]]]; [| | |lia]; unfold B_int; boxes; lia.
Qed.

Lemma inside_refl : forall B, inside B B.
Proof. intros B d Hd. lia. Qed.
