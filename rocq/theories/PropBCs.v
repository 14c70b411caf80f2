(** Headline theorems for the boundary conditions (C36, C37). *)
From Coq Require Import List ZArith Bool Lia Permutation QArith Qcanon.
From Verif Require Import QcLib BCs BCsFacts.
Import ListNotations.
Open Scope Z_scope.

(** Size of the grid along a direction, ghost points included. *)
Definition gsz (g : gsize) (d : nat) : Z := match d with 0%nat => gN0 g | 1%nat => gN1 g | _ => gN2 g end.

(** In each direction there are at least three interior points, or no pure outer point lies beyond the
    faces of that direction. *)
Definition enough (g : gsize) (inb : point -> point) : Prop :=
  forall d, (d < 3)%nat ->
    3 <= gsz g d - 2 * gNG g \/
    forall p, in_grid g p -> ~ (gNG g <= ax d p < gsz g d - gNG g) -> inb p <> p.

Lemma enough_dirs : forall g inb, enough g inb ->
  forall d, (d < 3)%nat -> dir_ok inb (B_int g) (B_grid g) d.
Proof.
  intros g inb H d Hd. destruct (H d Hd) as [W|W]; [left|right].
  - destruct d as [|[|[|]]]; [| | |lia]; unfold B_int, gsz in *; boxes; lia.
  - intros p Hp Hn. apply W; [exact Hp|]. intro C. apply Hn.
    destruct d as [|[|[|]]]; [| | |lia]; unfold B_int, gsz in *; boxes; lia.
Qed.

(** ** C36: the outer points *)

(** Every ghost point that is its own in-bounds image is in exactly one batch, once; no other point is. *)
Theorem C36_cover : forall g inb, size_ok g ->
  NoDup (map op_p (concat (outer_batches g inb))) /\
  forall p, In p (map op_p (concat (outer_batches g inb))) <->
    in_grid g p /\ ~ interior g p /\ inb p = p.
Proof.
  intros g inb S. rewrite batches_eq.
  destruct (chain_cover inb (all_pairs g) (B_int g) (B_int_wide g S) (all_pairs_chain g)) as [N I].
  split; [exact N|]. intros p. rewrite I, (all_pairs_final g S). reflexivity.
Qed.

(** Each batch fits into the array allocated for it. *)
Lemma chain_slots : forall inb l B, wide 0 B -> chain B l ->
  Forall (fun dp => Z.of_nat (Datatypes.length (batch inb dp)) <= pair_slots (fst (snd dp))) l.
Proof.
  induction l as [|[d [lo hi]] l IH]; intros B W C; constructor.
  - destruct C as (Hd & -> & -> & _). cbn [fst snd].
    rewrite <- (map_length op_p), map_op_p_batch.
    assert (L : (Datatypes.length (filter (fun p => point_eqb p (inb p)) (fr_loop (lower d B) ++ fr_loop (upper d B)))
      <= Datatypes.length (fr_loop (lower d B) ++ fr_loop (upper d B)))%nat).
    { clear. generalize (fr_loop (lower d B) ++ fr_loop (upper d B)). induction l as [|a l IH]; cbn; [lia|].
      destruct (point_eqb a (inb a)); cbn; lia. }
    rewrite app_length in L. unfold fr_loop in *. rewrite !loop_length in L.
    assert (W0 := W 0%nat ltac:(lia)). assert (W1 := W 1%nat ltac:(lia)). assert (W2 := W 2%nat ltac:(lia)).
    apply Nat2Z.inj_le in L. rewrite Nat2Z.inj_add, !Nat2Z.inj_mul in L. eapply Z.le_trans; [exact L|].
    destruct B as [[[a0 a1] a2] [[b0 b1] b2]].
    unfold pair_slots. destruct d as [|[|[|]]]; [| | |lia]; boxes; rewrite !Z2Nat.id by lia; nia.
  - destruct C as (Hd & -> & -> & C). eapply IH; [apply wide_grow, W|exact C].
Qed.

Theorem C36_malloc : forall g inb, size_ok g ->
  Forall2 (fun b (dp : nat * (face_range * face_range)) =>
             Z.of_nat (Datatypes.length b) <= pair_slots (fst (snd dp)))
    (outer_batches g inb) (all_pairs g).
Proof.
  intros g inb S. rewrite batches_eq.
  pose proof (chain_slots inb (all_pairs g) (B_int g) (B_int_wide g S) (all_pairs_chain g)) as F.
  induction F; cbn; constructor; assumption.
Qed.

(** The points a batch reads are grid points, and none of them is written by the same batch: they are
    interior points, points of earlier batches, or inner boundary points. *)
Theorem C36_no_race : forall g inb pre b post o k, size_ok g -> enough g inb ->
  outer_batches g inb = pre ++ b :: post -> In o b -> 1 <= k <= 3 ->
  let q := shift (op_p o) (op_face o) k in
  in_grid g q /\ ~ In q (map op_p b) /\
  (interior g q \/ In q (map op_p (concat pre)) \/ inb q <> q).
Proof.
  intros g inb pre b post o k S En E Ho Hk q.
  pose proof (enough_dirs g inb En) as Dir.
  assert (G : forall l B pre, inside (B_int g) B -> wide 0 B -> chain B l ->
    (forall p, in_box (final B l) p -> in_box (B_grid g) p) ->
    map (batch inb) l = pre ++ b :: post ->
    in_grid g q /\ ~ In q (map op_p b) /\
    (in_box B q \/ In q (map op_p (concat pre)) \/ inb q <> q)).
  { clear E pre. induction l as [|[d [lo hi]] l IH]; intros B pre Hi W C HF E;
      [destruct pre; discriminate|]. destruct C as (Hd & -> & -> & C).
    change (final B ((d, (lower d B, upper d B)) :: l)) with (final (grow d B) l) in *.
    assert (HF' : forall p, in_box (grow d B) p -> in_box (B_grid g) p)
      by (intros; apply HF, in_box_final; assumption).
    assert (Hw : ax d (bmin B) <= ax d (bmax B)) by (pose proof (W d Hd); lia).
    destruct pre as [|b0 pre]; cbn [map app] in E; injection E as E1 E2.
    - subst b. assert (Sq : in_box B q) by (eapply batch_stencil; eauto).
      split; [apply in_B_grid, HF', in_box_grow, Sq|]. split; [|left; exact Sq].
      intro Cq. apply in_map_iff in Cq. destruct Cq as (o' & Eo & Ho').
      apply batch_in_grow in Ho'; [|assumption|assumption]. rewrite Eo in Ho'. tauto.
    - destruct (IH (grow d B) pre (inside_grow _ _ _ Hi) (wide_grow 0 d B W) C HF E2) as (Q1 & Q2 & Q3).
      split; [exact Q1|]. split; [exact Q2|].
      destruct Q3 as [Q3|[Q3|Q3]]; [|right; left; cbn [concat]; rewrite map_app; apply in_app_iff; right; exact Q3|right; right; exact Q3].
      apply grow_split in Q3; [|assumption|assumption].
      destruct Q3 as [Q3|Q3]; [left; exact Q3|right].
      destruct (point_eqb q (inb q)) eqn:Eq; [apply point_eqb_eq in Eq|apply point_eqb_neq in Eq; right; congruence].
      left. cbn [concat]. rewrite map_app. apply in_app_iff. left. rewrite <- E1. apply in_batch. auto. }
  apply (G (all_pairs g) (B_int g) pre); [apply inside_refl|apply B_int_wide, S|apply all_pairs_chain| |exact E].
  rewrite (all_pairs_final g S). auto.
Qed.

(** What the outer fill leaves behind, for every schedule [bs] of the parallel loops: at each outer point
    the value is the quadratic extrapolation of the final values at the three next points inwards; no
    other location changes. *)
Theorem C36_fill : forall g inb ngf bs m, size_ok g -> enough g inb ->
  Forall2 (@Permutation _) (map (batch_tasks ngf) (outer_batches g inb)) bs ->
  let m' := run_batches g bs m in
  (forall o gf, In o (concat (outer_batches g inb)) -> 0 <= gf < ngf ->
     let v k := m' (IDX4pt g gf (IDX3 g (shift (op_p o) (op_face o) k))) in
     m' (IDX4pt g gf (IDX3 g (op_p o))) = (qz 3 * v 1%Z - qz 3 * v 2%Z + v 3%Z)%Qc) /\
  (forall i, (forall gf p, 0 <= gf < ngf -> in_grid g p -> ~ interior g p -> inb p = p ->
                i <> IDX4pt g gf (IDX3 g p)) -> m' i = m i).
Proof.
  intros g inb ngf bs m S En P m'. rewrite batches_eq in *.
  destruct (chain_run g inb ngf (B_int g) (B_grid g) (fun p H => H) (enough_dirs g inb En)
              (all_pairs g) (B_int g) bs m (all_pairs_chain g) (inside_refl _) (B_int_wide g S)) as [R1 R2].
  - rewrite (all_pairs_final g S). auto.
  - exact P.
  - split.
    + intros o gf Ho Hg v. subst v. cbv beta. specialize (R1 o gf Ho Hg). fold m' in R1.
      unfold adr at 1 in R1. rewrite R1. unfold ext3, adr. ring.
    + intros i H. apply R2. intros gf p Hg Hp Hn He E. rewrite (all_pairs_final g S) in Hp.
      apply (H gf p Hg Hp Hn He). symmetry. exact E.
Qed.

(** Every schedule gives the same memory. *)
Theorem C36_schedule : forall g inb ngf bs bs' m, size_ok g -> enough g inb ->
  Forall2 (@Permutation _) (map (batch_tasks ngf) (outer_batches g inb)) bs ->
  Forall2 (@Permutation _) (map (batch_tasks ngf) (outer_batches g inb)) bs' ->
  forall i, run_batches g bs m i = run_batches g bs' m i.
Proof.
  intros g inb ngf bs bs' m S En P P' i.
  assert (Dec : (exists gf p, (0 <= gf < ngf) /\ in_grid g p /\ ~ interior g p /\ inb p = p /\ i = adr g gf p) \/
    (forall gf p, 0 <= gf < ngf -> in_grid g p -> ~ interior g p -> inb p = p -> i <> IDX4pt g gf (IDX3 g p))).
  { destruct (in_dec Z.eq_dec i (map (ow g) (batch_tasks ngf (concat (outer_batches g inb))))) as [H|H].
    - left. apply in_map_iff in H. destruct H as ([o gf] & <- & H). apply in_batch_tasks in H.
      destruct H as [Ho Hg]. exists gf, (op_p o). apply (in_map op_p) in Ho.
      apply (C36_cover g inb S) in Ho. unfold ow. cbn [fst snd]. tauto.
    - right. intros gf p Hg Hp Hn He E. apply H. 
      assert (Ho : In p (map op_p (concat (outer_batches g inb)))) by (apply (C36_cover g inb S); tauto).
      apply in_map_iff in Ho. destruct Ho as (o & Eo & Ho). apply in_map_iff. exists (o, gf).
      split; [unfold ow; cbn [fst snd]; rewrite Eo, E; reflexivity|apply in_batch_tasks; tauto]. }
  destruct (C36_fill g inb ngf bs m S En P) as [R1 R2].
  destruct (C36_fill g inb ngf bs' m S En P') as [R1' R2'].
  destruct Dec as [(gf & p & Hg & Hp & Hn & He & ->)|Dec]; [|rewrite R2, R2' by exact Dec; reflexivity].
  rewrite batches_eq in *.
  apply (chain_unique g inb ngf (B_int g) (B_grid g) (enough_dirs g inb En) (all_pairs g) (B_int g)).
  - apply all_pairs_chain.
  - apply inside_refl.
  - apply B_int_wide, S.
  - rewrite (all_pairs_final g S). auto.
  - intros o gf' Ho Hg'. unfold adr. rewrite (R1 o gf' Ho Hg'). unfold ext3, adr. ring.
  - intros o gf' Ho Hg'. unfold adr. rewrite (R1' o gf' Ho Hg'). unfold ext3, adr. ring.
  - intros gf' p' Hg' Hp' D. rewrite (all_pairs_final g S) in Hp'. unfold adr. rewrite R2, R2'; [reflexivity| |];
      intros gf'' p'' _ Hp'' Hn'' He'' E; (apply adr_inj in E; [|exact Hp'|exact Hp'']); destruct E as [_ E];
      rewrite <- E in *; destruct D as [D|D]; contradiction.
  - exact Hg.
  - rewrite (all_pairs_final g S). exact Hp.
Qed.

(** All addresses read and written lie in the gridfunction array. *)
Theorem C36_in_bounds : forall g inb ngf o gf k, size_ok g -> enough g inb ->
  In o (concat (outer_batches g inb)) -> 0 <= gf < ngf -> 0 <= k <= 3 ->
  0 <= IDX4pt g gf (IDX3 g (shift (op_p o) (op_face o) k)) < gN0 g * gN1 g * gN2 g * ngf.
Proof.
  intros g inb ngf o gf k S En Ho Hg Hk. apply adr_range; [|exact Hg].
  destruct (Z.eq_dec k 0) as [->|Hk0].
  - rewrite shift_0. apply (in_map op_p) in Ho. apply (C36_cover g inb S) in Ho. tauto.
  - apply in_concat in Ho. destruct Ho as (b & Hb & Ho). apply in_split in Hb. destruct Hb as (pre & post & E).
    apply (C36_no_race g inb pre b post o k S En E Ho). lia.
Qed.

(** Data sampled from a polynomial of degree at most two in each coordinate, on any uniform grid. *)
Definition sample (c : nat -> nat -> nat -> Qc) (org stp : nat -> Qc) (p : point) : Qc :=
  let X d := (org d + stp d * qz (ax d p))%Qc in
  qsum 3 (fun i => qsum 3 (fun j => qsum 3 (fun k => c i j k * X 0%nat ^ i * X 1%nat ^ j * X 2%nat ^ k)))%Qc.

Lemma sample_ext : forall c org stp face p, (face < 6)%nat ->
  (qz 3 * sample c org stp (shift p (facex face) 1) - qz 3 * sample c org stp (shift p (facex face) 2)
   + sample c org stp (shift p (facex face) 3))%Qc = sample c org stp p.
Proof.
  intros c org stp face [[a b] e] Hf. unfold sample.
  assert (Q3 : qz 3 = (1 + 1 + 1)%Qc) by (rewrite <- qz_1, <- !qz_add; reflexivity).
  assert (Q2 : qz 2 = (1 + 1)%Qc) by (rewrite <- qz_1, <- !qz_add; reflexivity).
  assert (Qm3 : qz (-3) = (- (1 + 1 + 1))%Qc) by (rewrite <- qz_1, <- !qz_add, <- qz_opp; reflexivity).
  assert (Qm2 : qz (-2) = (- (1 + 1))%Qc) by (rewrite <- qz_1, <- !qz_add, <- qz_opp; reflexivity).
  assert (Qm1 : qz (-1) = (- (1))%Qc) by (rewrite <- qz_1, <- qz_opp; reflexivity).
  cbn [qsum Qcpower].
  destruct face as [|[|[|[|[|[|]]]]]]; [| | | | | |lia]; cbn [facex]; unfold shift, ax, x0, x1, x2;
    cbn [fst snd]; rewrite ?Z.mul_1_l; change (1 * -1) with (-1); change (2 * -1) with (-2); change (3 * -1) with (-3);
    change (1 * 1) with 1; change (2 * 1) with 2; change (3 * 1) with 3;
    rewrite ?Z.mul_0_r, ?Z.add_0_r, !qz_add, ?Q3, ?Q2, ?Qm3, ?Qm2, ?Qm1, ?qz_1;
    ring.
Qed.

Theorem C36_exact : forall g inb ngf bs m c org stp gf, size_ok g -> enough g inb ->
  Forall2 (@Permutation _) (map (batch_tasks ngf) (outer_batches g inb)) bs ->
  0 <= gf < ngf ->
  (forall p, in_grid g p -> interior g p \/ inb p <> p ->
     m (IDX4pt g gf (IDX3 g p)) = sample c org stp p) ->
  forall p, in_grid g p -> run_batches g bs m (IDX4pt g gf (IDX3 g p)) = sample c org stp p.
Proof.
  intros g inb ngf bs m c org stp gf S En P Hg H p Hp.
  destruct (C36_fill g inb ngf bs m S En P) as [R1 R2].
  (* a memory holding the polynomial for this gridfunction, to compare with *)
  pose (mref := fun i : Z =>
          match find (fun q => Z.eqb (IDX4pt g gf (IDX3 g q)) i) (loop_points 0 (gN0 g) 0 (gN1 g) 0 (gN2 g)) with
          | Some q => sample c org stp q
          | None => run_batches g bs m i
          end).
  assert (Ref : forall q, in_grid g q -> mref (adr g gf q) = sample c org stp q).
  { intros q Hq. unfold mref.
    destruct (find _ _) as [r|] eqn:F.
    - apply find_some in F. destruct F as [F1 F2]. apply Z.eqb_eq in F2. apply in_loop in F1.
      apply adr_inj in F2; [|exact F1|exact Hq]. destruct F2 as [_ ->]. reflexivity.
    - exfalso. assert (In q (loop_points 0 (gN0 g) 0 (gN1 g) 0 (gN2 g))) by (apply in_loop; exact Hq).
      pose proof (find_none _ _ F q H0) as C. cbv beta in C. unfold adr in C. rewrite Z.eqb_refl in C. discriminate. }
  assert (Oth : forall gf' q, gf' <> gf -> in_grid g q -> mref (adr g gf' q) = run_batches g bs m (adr g gf' q)).
  { intros gf' q Hne Hq. unfold mref. destruct (find _ _) as [r|] eqn:F; [|reflexivity].
    apply find_some in F. destruct F as [F1 F2]. apply Z.eqb_eq in F2. apply in_loop in F1.
    apply adr_inj in F2; [|exact F1|exact Hq]. destruct F2 as [F2 _]. congruence. }
  rewrite <- (Ref p Hp). rewrite batches_eq in *. 
  apply (chain_unique g inb ngf (B_int g) (B_grid g) (enough_dirs g inb En) (all_pairs g) (B_int g)).
  - apply all_pairs_chain.
  - apply inside_refl.
  - apply B_int_wide, S.
  - rewrite (all_pairs_final g S). auto.
  - intros o gf' Ho Hg'. unfold adr. rewrite (R1 o gf' Ho Hg'). unfold ext3, adr. ring.
  - intros o gf' Ho Hg'. 
    assert (Hgp : in_grid g (op_p o)).
    { apply (in_map op_p) in Ho. rewrite <- batches_eq in Ho. apply (C36_cover g inb S) in Ho. tauto. }
    assert (Hst : forall k, 1 <= k <= 3 -> in_grid g (shift (op_p o) (op_face o) k)).
    { intros k Hk. apply in_concat in Ho. destruct Ho as (b & Hb & Ho). apply in_split in Hb.
      destruct Hb as (pre & post & E). rewrite <- batches_eq in E.
      exact (proj1 (C36_no_race g inb pre b post o k S En E Ho Hk)). }
    destruct (Z.eq_dec gf' gf) as [->|Hne].
    + rewrite Ref by exact Hgp. unfold ext3. rewrite !Ref by (apply Hst; lia).
      assert (Hf : exists face, (face < 6)%nat /\ op_face o = facex face).
      { apply in_concat in Ho. destruct Ho as (b & Hb & Ho). apply in_map_iff in Hb.
        destruct Hb as ([d [lo hi]] & <- & Hd).
        assert (Hd3 : (d < 3)%nat).
        { clear - Hd. pose proof (all_pairs_chain g) as C. generalize dependent (B_int g).
          induction (all_pairs g) as [|[d' [lo' hi']] l IH]; intros B C; [destruct Hd|].
          destruct C as (H1 & _ & _ & C). destruct Hd as [E|Hd]; [injection E as -> _ _; exact H1|].
          eapply IH; eauto. }
        unfold batch in Ho. apply in_app_iff in Ho.
        destruct Ho as [Ho|Ho]; apply in_map_iff in Ho; destruct Ho as (q & <- & _); cbn [op_face];
          eexists; (split; [|reflexivity]); lia. }
      destruct Hf as (face & Hf & ->). rewrite <- (sample_ext c org stp face (op_p o) Hf) at 1. ring.
    + rewrite Oth by assumption. unfold ext3. rewrite !Oth by (assumption || (apply Hst; lia)).
      unfold adr at 1. rewrite (R1 o gf' Ho Hg'). unfold adr. ring.
  - intros gf' p' Hg' Hp' D. rewrite (all_pairs_final g S) in Hp'. 
    destruct (Z.eq_dec gf' gf) as [->|Hne]; [|rewrite Oth by assumption; reflexivity].
    rewrite (Ref p' Hp'). unfold adr. rewrite R2; [apply H; [exact Hp'|exact D]|].
    intros gf'' p'' _ Hp'' Hn'' He'' E. apply adr_inj in E; [|exact Hp'|exact Hp'']. destruct E as [_ E].
    rewrite <- E in *; destruct D as [D|D]; contradiction.
  - exact Hg.
  - rewrite (all_pairs_final g S). exact Hp.
Qed.

(** With only two interior points across, a batch reads its own points: the two sides of x0 are in one
    parallel loop, and the order of the assignments matters. *)
Theorem C36_thin_grid_refuted : exists g inb b ts m i,
  size_ok g /\ In b (outer_batches g inb) /\ Permutation (batch_tasks 1 b) ts /\
  run_batch g ts m i <> run_batch g (batch_tasks 1 b) m i.
Proof.
  set (g := MkG 4 3 3 1). set (inb := fun p : point => p).
  set (b := nth 0 (outer_batches g inb) []).
  set (m := fun i : Z => if i =? IDX3 g (1, 1, 1) then 1%Qc else 0%Qc).
  exists g, inb, b, (rev (batch_tasks 1 b)), m, (IDX3 g (0, 1, 1)).
  split; [repeat split; cbn; lia|]. split; [vm_compute; tauto|].
  split; [apply Permutation_rev|]. intro H. apply (f_equal this) in H. vm_compute in H. discriminate.
Qed.

(** Examples *)
Example C36_ex_grid : let g := MkG 10 9 11 3 in
  size_ok g /\ enough g (fun p => p) /\
  Datatypes.length (concat (outer_batches g (fun p => p))) = (10 * 9 * 11 - 4 * 3 * 5)%nat.
Proof.
  cbv zeta. split; [repeat split; cbn; lia|]. split.
  - intros d Hd. left. destruct d as [|[|[|]]]; [| | |lia]; cbn; lia.
  - vm_compute. reflexivity.
Qed.

(** An azimuthal direction with two points, whose ghost points are all inner: still covered. *)
Definition ex_phi (p : point) : point :=
  if (x2 p <? 1) then (x0 p, x1 p, x2 p + 2) else if (2 <? x2 p) then (x0 p, x1 p, x2 p - 2) else p.
Example C36_ex_thin_phi : let g := MkG 5 5 4 1 in size_ok g /\ enough g ex_phi.
Proof.
  cbv zeta. split; [repeat split; cbn; lia|]. intros d Hd. destruct d as [|[|[|]]]; [left; cbn; lia|left; cbn; lia| |lia].
  right. intros [[a b] e] _ Hn E. unfold ex_phi, ax, x0, x1, x2, gsz in *. cbn [fst snd gN2 gNG] in *.
  destruct (e <? 1) eqn:E1; [injection E as E; lia|]. destruct (2 <? e) eqn:E2; [injection E as E; lia|].
  apply Z.ltb_ge in E1, E2. lia.
Qed.

Example C36_ex_value : let g := MkG 5 5 5 1 in
  let m := fun i : Z => let x := i mod 5 in qz (x * x + 1) in
  run_batches g (map (batch_tasks 1) (outer_batches g (fun p => p)))
    (fun i => if is_interior g (i mod 5, (i / 5) mod 5, i / 25) then m i else qz 77) (IDX3 g (4, 2, 2)) = qz 17.
Proof. apply Qc_is_canon. vm_compute. reflexivity. Qed.

(** ** C37: the inner points *)

(** Any schedule: each target gets parity times the old value of its source, nothing else changes. *)
Theorem C37_copies : forall g gf_parity ngf a ts m, table_ok g a ->
  Permutation (inner_tasks ngf a) ts ->
  (forall gf ip, In ip a -> 0 <= gf < ngf ->
     run_inner g gf_parity ts m (IDX4pt g gf (in_dst ip)) =
     (qz (in_parity ip (gf_parity gf)) * m (IDX4pt g gf (in_src ip)))%Qc) /\
  (forall i, (forall gf ip, In ip a -> 0 <= gf < ngf -> IDX4pt g gf (in_dst ip) <> i) ->
     run_inner g gf_parity ts m i = m i).
Proof. exact inner_run. Qed.

Theorem C37_schedule : forall g gf_parity ngf a ts m, table_ok g a ->
  Permutation (inner_tasks ngf a) ts ->
  forall i, run_inner g gf_parity ts m i = run_inner g gf_parity (inner_tasks ngf a) m i.
Proof. intros g gf_parity ngf a ts m Ok P. eapply inner_same; eauto. Qed.

Theorem C37_idempotent : forall g gf_parity ngf a m, table_ok g a ->
  let ts := inner_tasks ngf a in
  forall i, run_inner g gf_parity ts (run_inner g gf_parity ts m) i = run_inner g gf_parity ts m i.
Proof.
  intros g par ngf a m Ok ts i.
  destruct (inner_run g par ngf a ts m Ok (Permutation_refl _)) as [A1 A2].
  destruct (inner_run g par ngf a ts (run_inner g par ts m) Ok (Permutation_refl _)) as [B1 B2].
  destruct (in_dec Z.eq_dec i (map (iw g) (inner_tasks ngf a))) as [H|H].
  - apply in_map_iff in H. destruct H as ([gf ip] & <- & H). apply in_inner_tasks in H.
    unfold iw. cbn [fst snd]. rewrite B1, A1 by tauto. rewrite A2; [reflexivity|].
    intros gf' ip' Hi' Hg' E. destruct Ok as (_ & R & D).
    apply idx4_inj in E; [|apply R; assumption|apply R; tauto]. destruct E as [_ E].
    apply (D ip ip'); [tauto|exact Hi'|auto].
  - apply B2. intros gf ip Hi Hg C. apply H. apply in_map_iff. exists (gf, ip). split; [exact C|].
    apply in_inner_tasks. tauto.
Qed.

(** The table that bcstruct_set_up builds lists each inner boundary point once with its image, and is of
    the kind above whenever images lie in the grid and are not inner boundary points themselves. *)
Theorem C37_table : forall g inb par,
  map (fun ip => (in_dst ip, in_src ip)) (inner_bc_array g inb par)
    = map (fun p => (IDX3 g p, IDX3 g (inb p))) (inner_points g inb) /\
  NoDup (inner_points g inb) /\
  (forall p, In p (inner_points g inb) <-> in_grid g p /\ ~ interior g p /\ inb p <> p) /\
  ((forall p, in_grid g p -> ~ interior g p -> in_grid g (inb p)) ->
   (forall p, in_grid g p -> ~ interior g p -> inb p <> p -> interior g (inb p) \/ inb (inb p) = inb p) ->
   table_ok g (inner_bc_array g inb par)).
Proof.
  intros g inb par. split; [|split; [|split]].
  - unfold inner_bc_array. rewrite map_map. reflexivity.
  - apply filter_NoDup, NoDup_loop.
  - apply in_inner_points.
  - intros A B. apply set_up_table; assumption.
Qed.

(** The whole of apply_bcs_outerextrap_and_inner: interior values stay; every inner boundary point holds
    parity times the final value of its image; every pure outer point whose three inward neighbours are
    not inner points holds the extrapolation of their final values. *)
Theorem C37_whole : forall g ngf gf_parity inb par m, size_ok g -> enough g inb ->
  (forall p, in_grid g p -> ~ interior g p -> in_grid g (inb p)) ->
  (forall p, in_grid g p -> ~ interior g p -> inb p <> p -> interior g (inb p) \/ inb (inb p) = inb p) ->
  let m' := apply_bcs_outerextrap_and_inner g ngf gf_parity inb par m in
  let at_ (mm : mem) gf p := mm (IDX4pt g gf (IDX3 g p)) in
  forall gf p, 0 <= gf < ngf -> in_grid g p ->
  (interior g p -> at_ m' gf p = at_ m gf p) /\
  (~ interior g p -> inb p <> p -> at_ m' gf p = (qz (par p (gf_parity gf)) * at_ m' gf (inb p))%Qc) /\
  (forall o, In o (concat (outer_batches g inb)) -> op_p o = p ->
     (forall k, 1 <= k <= 3 -> let q := shift p (op_face o) k in interior g q \/ inb q = q) ->
     let v k := at_ m' gf (shift p (op_face o) k) in
     at_ m' gf p = (qz 3 * v 1%Z - qz 3 * v 2%Z + v 3%Z)%Qc).
Proof.
  intros g ngf gf_parity inb par m S En HG HS m' at_ gf p Hg Hp.
  pose proof (set_up_table g inb par HG HS) as Ok.
  assert (FR : forall l : list (list otask), Forall2 (@Permutation _) l l)
    by (induction l; constructor; auto).
  destruct (C36_fill g inb ngf (map (batch_tasks ngf) (outer_batches g inb)) m S En (FR _)) as [R1 R2].
  unfold apply_bcs_outerextrap_and_inner in m'.
  set (m1 := run_batches g (map (batch_tasks ngf) (outer_batches g inb)) m) in *.
  destruct (inner_run g gf_parity ngf (inner_bc_array g inb par) _ m1 Ok (Permutation_refl _)) as [I1 I2].
  fold m' in I1, I2.
  (* a grid point that is not an inner point keeps its value in the second step *)
  assert (Keep : forall q, in_grid g q -> interior g q \/ inb q = q -> at_ m' gf q = at_ m1 gf q).
  { intros q Hq Hi. unfold at_. apply I2. intros gf' ip Hip _ E. apply in_map_iff in Hip.
    destruct Hip as (q' & <- & Hq'). apply in_inner_points in Hq'. cbn [in_dst] in E.
    apply adr_inj in E; [|tauto|exact Hq]. destruct E as [_ E]. subst q'. tauto. }
  split; [|split].
  - intros Hi. rewrite Keep by (auto; tauto). unfold at_. apply R2.
    intros gf' p' _ Hp' Hn' _ E. apply adr_inj in E; [|exact Hp|exact Hp']. destruct E as [_ E]. congruence.
  - intros Hn Hne. rewrite (Keep (inb p)).
    + unfold at_. pose (ip := MkInner (IDX3 g p) (IDX3 g (inb p)) (par p)).
      apply (I1 gf ip); [|exact Hg]. unfold inner_bc_array. apply in_map_iff. exists p.
      split; [reflexivity|apply in_inner_points; tauto].
    + apply HG; assumption.
    + apply HS; assumption.
  - intros o Ho Eo Hst v. subst v. cbv beta.
    assert (Hpo : inb p = p).
    { apply (in_map op_p) in Ho. apply (C36_cover g inb S) in Ho. rewrite Eo in Ho. tauto. }
    assert (Hgk : forall k, 1 <= k <= 3 -> in_grid g (shift p (op_face o) k)).
    { intros k Hk. rewrite <- Eo. apply in_concat in Ho. destruct Ho as (b & Hb & Ho). apply in_split in Hb.
      destruct Hb as (pre & post & E). exact (proj1 (C36_no_race g inb pre b post o k S En E Ho Hk)). }
    rewrite (Keep p Hp) by (right; exact Hpo).
    assert (Kk : forall k, 1 <= k <= 3 -> at_ m' gf (shift p (op_face o) k) = at_ m1 gf (shift p (op_face o) k))
      by (intros k Hk; apply Keep; [exact (Hgk k Hk)|exact (Hst k Hk)]).
    rewrite !Kk by lia.
    unfold at_. rewrite <- Eo. apply (R1 o gf Ho Hg).
Qed.

(** Without the condition on the sources the order matters. *)
Theorem C37_chained_sources_refuted : exists g gf_parity a ts m i,
  Permutation (inner_tasks 1 a) ts /\
  run_inner g gf_parity ts m i <> run_inner g gf_parity (inner_tasks 1 a) m i.
Proof.
  exists (MkG 3 1 1 0), (fun _ => 0%nat),
    [MkInner 0 1 (fun _ => 1); MkInner 1 2 (fun _ => 1)],
    (rev (inner_tasks 1 [MkInner 0 1 (fun _ => 1); MkInner 1 2 (fun _ => 1)])),
    (fun i => qz i), 0.
  split; [apply Permutation_rev|]. intro H. apply (f_equal this) in H. vm_compute in H. discriminate.
Qed.

(** A table from a grid with a reflecting lower x0 side: hypotheses met, and an odd field changes sign. *)
Definition ex_refl (p : point) : point := if x0 p <? 2 then (3 - x0 p, x1 p, x2 p) else p.
Example C37_ex : let g := MkG 8 8 8 2 in
  size_ok g /\ enough g ex_refl /\
  (forall p, in_grid g p -> ~ interior g p -> in_grid g (ex_refl p)) /\
  (forall p, in_grid g p -> ~ interior g p -> ex_refl p <> p ->
     interior g (ex_refl p) \/ ex_refl (ex_refl p) = ex_refl p) /\
  inner_bc_array g ex_refl (fun _ _ => -1) <> [] /\
  run_inner g (fun _ => 0%nat) (inner_tasks 1 (inner_bc_array g ex_refl (fun _ _ => -1))) (fun i => qz i)
    (IDX3 g (1, 3, 3)) = qz (- IDX3 g (2, 3, 3)).
Proof.
  cbv zeta.
  assert (X : forall p, x0 (ex_refl p) = (if x0 p <? 2 then 3 - x0 p else x0 p) /\ x1 (ex_refl p) = x1 p /\ x2 (ex_refl p) = x2 p)
    by (intros p; unfold ex_refl; destruct (x0 p <? 2); repeat split; reflexivity).
  split; [repeat split; cbn; lia|]. split; [|split; [|split; [|split]]].
  - intros d Hd. left. destruct d as [|[|[|]]]; [| | |lia]; cbn; lia.
  - intros p. unfold in_grid, interior. cbn [gN0 gN1 gN2 gNG]. destruct (X p) as (-> & -> & ->).
    destruct (x0 p <? 2) eqn:E; [apply Z.ltb_lt in E|apply Z.ltb_ge in E]; lia.
  - intros p Hp _ Hne. right. unfold ex_refl at 1. destruct (X p) as (-> & _ & _).
    unfold ex_refl in Hne. destruct (x0 p <? 2) eqn:E; [|congruence]. apply Z.ltb_lt in E.
    unfold in_grid in Hp. replace (3 - x0 p <? 2) with false by (symmetry; apply Z.ltb_ge; lia). reflexivity.
  - vm_compute. discriminate.
  - apply Qc_is_canon. vm_compute. reflexivity.
Qed.

Print Assumptions C36_cover.
Print Assumptions C36_malloc.
Print Assumptions C36_no_race.
Print Assumptions C36_fill.
Print Assumptions C36_schedule.
Print Assumptions C36_in_bounds.
Print Assumptions C36_exact.
Print Assumptions C36_thin_grid_refuted.
Print Assumptions C37_copies.
Print Assumptions C37_schedule.
Print Assumptions C37_idempotent.
Print Assumptions C37_table.
Print Assumptions C37_whole.
Print Assumptions C37_chained_sources_refuted.
