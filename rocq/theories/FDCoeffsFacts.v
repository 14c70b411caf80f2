(** Specification and proofs for the finite-difference coefficients (model: FDCoeffs.v). *)
From Coq Require Import String Ascii List ZArith Bool Lia QArith Qcanon.
From Verif Require Import PyBase PyBaseFacts QcLib FDMatrix FDMatrixFacts FDCoeffs.
Import ListNotations.
Open Scope list_scope.
Open Scope Qc_scope.

(** ** Specification *)

(** Apply a stencil to grid data [f] at the origin. *)
Definition apply_stencil (r : fd_result) (f : idx3 -> Qc) : Qc :=
  fold_right Qcplus 0 (map (fun ct => fst ct * f (snd ct)) (combine (fst r) (snd r))).

(** The offset with [v] in direction [dirn] and 0 elsewhere. *)
Definition axis (dirn : nat) (v : Z) : idx3 :=
  match dirn with 0%nat => (v, 0, 0)%Z | 1%nat => (0, v, 0)%Z | _ => (0, 0, v)%Z end.

(** Formal derivative of a coefficient list. *)
Fixpoint pderiv_from (k : nat) (p : list Qc) : list Qc :=
  match p with [] => [] | a :: p' => qn k * a :: pderiv_from (S k) p' end.
Definition pderiv (p : list Qc) : list Qc := pderiv_from 1 (tl p).

(** Pascal's triangle. *)
Fixpoint binom (n k : nat) : nat :=
  match n, k with
  | _, O => 1
  | O, S _ => 0
  | S n', S k' => (binom n' k' + binom n' k)%nat
  end.

(** ** List sums *)
Definition lsum (l : list Qc) : Qc := fold_right Qcplus 0 l.

Lemma lsum_app : forall a b, lsum (a ++ b) = lsum a + lsum b.
Proof. unfold lsum; induction a; intros; cbn [app fold_right]; [ring|]. rewrite IHa; ring. Qed.

Lemma lsum_seq : forall n f, lsum (map f (seq 0 n)) = qsum n f.
Proof.
  induction n; intros f; [reflexivity|]. rewrite seq_S, map_app, lsum_app, IHn.
  cbn. unfold lsum; cbn. ring.
Qed.

Lemma lsum_filter : forall (A : Type) (g : A -> bool) (f : A -> Qc) l,
  (forall a, In a l -> g a = false -> f a = 0) ->
  lsum (map f (filter g l)) = lsum (map f l).
Proof.
  intros A g f l; induction l as [|a l IH]; intros H; [reflexivity|].
  cbn [filter map]. destruct (g a) eqn:E; unfold lsum in *; cbn [map fold_right];
    rewrite IH by (intros; apply H; cbn; auto); auto.
  rewrite (H a) by (cbn; auto). ring.
Qed.

Lemma combine_map_map : forall (A B C : Type) (f : A -> B) (g : A -> C) l,
  combine (map f l) (map g l) = map (fun a => (f a, g a)) l.
Proof. intros; induction l; cbn; congruence. Qed.

Lemma apply_map : forall (A : Type) (c : A -> Qc) (pos : A -> idx3) l f,
  apply_stencil (map c l, map pos l) f = lsum (map (fun a => c a * f (pos a)) l).
Proof.
  intros. unfold apply_stencil. cbn [fst snd]. rewrite combine_map_map, map_map. reflexivity.
Qed.

(** ** Derivatives at the origin *)
Lemma peval_0 : forall p, peval p 0 = nth 0 p 0.
Proof. destruct p; cbn; ring. Qed.

Lemma pderiv_0 : forall p, peval (pderiv p) 0 = nth 1 p 0.
Proof.
  intros p; rewrite peval_0. unfold pderiv. destruct p as [|a [|b p]]; cbn; auto.
  rewrite qn_1; ring.
Qed.

Lemma pderiv2_0 : forall p, peval (pderiv (pderiv p)) 0 = qn 2 * nth 2 p 0.
Proof.
  intros p; rewrite peval_0. unfold pderiv.
  destruct p as [|a [|b [|c p]]]; cbn [tl pderiv_from nth]; try ring.
  rewrite qn_1. ring.
Qed.

(** ** The cache *)
Definition cache_ok (d : matrix_dict) : Prop :=
  forall k m, mdict_get k d = Some m -> setup_FD_matrix_inverse_lowlevel (fst k) (snd k) = Ok m.

Lemma mkey_eqb_eq : forall a b, mkey_eqb a b = true <-> a = b.
Proof.
  intros [a1 a2] [b1 b2]; unfold mkey_eqb; cbn. rewrite andb_true_iff, Nat.eqb_eq, Z.eqb_eq.
  split; [intros [-> ->]; auto|intros H; inversion H; auto].
Qed.

Lemma mdict_get_app : forall k (d : matrix_dict) k' m,
  mdict_get k (d ++ [(k', m)]) =
  match mdict_get k d with Some x => Some x | None => if mkey_eqb k k' then Some m else None end.
Proof.
  intros k d k' m; induction d as [|[k2 m2] d IH]; cbn; auto.
  destruct (mkey_eqb k k2); auto.
Qed.

Lemma setup_cached : forall w s d, cache_ok d ->
  cache_ok (fst (setup_FD_matrix_inverse w s d)) /\
  snd (setup_FD_matrix_inverse w s d) = setup_FD_matrix_inverse_lowlevel w s.
Proof.
  intros w s d H; unfold setup_FD_matrix_inverse.
  destruct (mdict_get (w, s) d) as [m|] eqn:E; cbn.
  - split; auto. symmetry. exact (H _ _ E).
  - destruct (setup_FD_matrix_inverse_lowlevel w s) as [m|e] eqn:L; cbn; auto.
    split; auto. intros k m' Hk. rewrite mdict_get_app in Hk.
    destruct (mdict_get k d) as [m2|] eqn:G.
    + inversion Hk; subst. now apply H.
    + destruct (mkey_eqb k (w, s)) eqn:K; [|discriminate]. apply mkey_eqb_eq in K. subst.
      cbn. congruence.
Qed.

Lemma cache_ok_nil : cache_ok [].
Proof. intros k m H; discriminate. Qed.

(** The cache after a history of requests. *)
Definition cache_run (d : matrix_dict) (l : list (string * nat)) : matrix_dict :=
  fold_left (fun d q => fst (compute_fdcoeffs_fdstencl (fst q) (snd q) d)) l d.

Lemma compute_cache : forall ds fo d, cache_ok d ->
  cache_ok (fst (compute_fdcoeffs_fdstencl ds fo d)) /\
  snd (compute_fdcoeffs_fdstencl ds fo d) = snd (compute_fdcoeffs_fdstencl ds fo []).
Proof.
  intros ds fo d H. unfold compute_fdcoeffs_fdstencl.
  set (w := S (fd_order_eff ds fo)). set (s := fd_shift ds (fd_order_eff ds fo)).
  destruct (setup_cached w s d H) as [H1 H2].
  destruct (setup_cached w s [] cache_ok_nil) as [H3 H4].
  destruct (setup_FD_matrix_inverse w s d) as [d1 r1].
  destruct (setup_FD_matrix_inverse w s []) as [d2 r2]. cbn in *. subst r1 r2.
  destruct (setup_FD_matrix_inverse_lowlevel w s); auto.
Qed.

Lemma cache_run_ok : forall l d, cache_ok d -> cache_ok (cache_run d l).
Proof.
  induction l as [|q l IH]; intros d H; cbn; auto. apply IH. now apply compute_cache.
Qed.

(** ** Moments of one column of the inverse *)
Definition moments (w : nat) (x : nat -> Qc) (row : nat) (c : nat -> Qc) : Prop :=
  forall i, (i < w)%nat -> qsum w (fun j => c j * (x j) ^ i) = qn (factorial row) * qdelta i row.

Lemma column_moments : forall w s Minv row, (row < w)%nat ->
  is_right_inverse w (fd_M w s) Minv ->
  moments w (fd_node w s) row (fun j => qn (factorial row) * Minv j row).
Proof.
  intros w s Minv row Hr H i Hi. specialize (H i row Hi Hr). unfold mmul in H.
  rewrite <- H, <- qsum_scale. apply qsum_ext. intros j Hj. rewrite fd_M_pow. ring.
Qed.

Lemma moments_poly : forall w x row c p, (row < w)%nat -> moments w x row c ->
  (List.length p <= w)%nat ->
  qsum w (fun j => c j * peval p (x j)) = qn (factorial row) * nth row p 0.
Proof.
  intros w x row c p Hr H Hp.
  rewrite (qsum_ext w _ (fun j => qsum w (fun i => nth i p 0 * (c j * x j ^ i)))).
  2:{ intros j Hj. rewrite (peval_nth p (x j) w Hp). rewrite <- qsum_scale.
      apply qsum_ext. intros; ring. }
  rewrite qsum_swap.
  rewrite (qsum_ext w _ (fun i => qdelta i row * (qn (factorial row) * nth i p 0))).
  2:{ intros i Hi. rewrite qsum_scale, H by auto. ring. }
  now rewrite qsum_delta.
Qed.

Lemma moments_unique : forall w s row c c',
  moments w (fd_node w s) row c -> moments w (fd_node w s) row c' ->
  forall j, (j < w)%nat -> c j = c' j.
Proof.
  intros w s row c c' H H' j Hj.
  destruct (fd_inverse_correct w s) as (_ & Minv & _ & _ & L).
  assert (E : forall d, moments w (fd_node w s) row d ->
            d j = qsum w (fun i => Minv j i * (qn (factorial row) * qdelta i row))).
  { intros d Hd. rewrite <- (qsum_delta_l w j d) by auto.
    rewrite (qsum_ext w _ (fun k => qsum w (fun i => Minv j i * (fd_M w s i k * d k)))).
    2:{ intros k Hk. rewrite <- (L j k Hj Hk). unfold mmul. rewrite <- qsum_scale_r.
        apply qsum_ext. intros; ring. }
    rewrite qsum_swap. apply qsum_ext. intros i Hi.
    rewrite qsum_scale. f_equal. rewrite <- (Hd i Hi).
    apply qsum_ext. intros k Hk. rewrite fd_M_pow. ring. }
  rewrite (E c H), (E c' H'). reflexivity.
Qed.

(** Nodes are the grid offsets when the stencil width is odd. *)
Lemma node_posn : forall k s i, fd_node (S (2 * k)) s i = qz (gridpt_posn (S (2 * k)) s i).
Proof.
  intros. unfold fd_node, gridpt_posn, qn.
  replace (Nat.div (S (2 * k) - 1) 2) with k.
  2:{ replace (S (2 * k) - 1)%nat with (k * 2)%nat by lia. now rewrite Nat.div_mul. }
  replace (Z.of_nat (S (2 * k)) - 1)%Z with (Z.of_nat k * 2)%Z by lia.
  rewrite qz_add, qz_sub, qz_mul. field. discriminate.
Qed.

(** ** The loops *)
Lemma idx3_set_axis : forall dirn v, (dirn < 3)%nat -> idx3_set (0, 0, 0)%Z dirn v = Some (axis dirn v).
Proof. intros [|[|[|d]]] v H; try reflexivity; lia. Qed.

Lemma axis_0 : forall dirn, axis dirn 0 = (0, 0, 0)%Z.
Proof. intros [|[|d]]; reflexivity. Qed.

Section Loop.
Variables (ds : string) (w row : nat) (shift : Z) (Minv : matrix) (dirn : nat).
Hypothesis Hdir : int_of_char (char_from_end ds 0) = Ok dirn.
Hypothesis Hd3 : (dirn < 3)%nat.

Definition cf (i : nat) : Qc := qn (factorial row) * Minv i row.
Definition nz (i : nat) : bool := negb (qeqb (cf i) 0).
Definition pos (i : nat) : idx3 := axis dirn (gridpt_posn w shift i).

Lemma loop_idx : forall i,
  (if Z.eqb (gridpt_posn w shift i) 0 then Ok (0, 0, 0)%Z
   else match int_of_char (char_from_end ds 0) with
        | Err e => Err e
        | Ok dirn => match idx3_set (0, 0, 0)%Z dirn (gridpt_posn w shift i) with
                     | Some t' => Ok t' | None => Err IndexError end
        end) = Ok (pos i).
Proof.
  intros i. unfold pos. destruct (Z.eqb_spec (gridpt_posn w shift i) 0) as [E|E].
  - rewrite E, axis_0. reflexivity.
  - rewrite Hdir, idx3_set_axis; auto.
Qed.

Lemma fd_loop_plain : forall t l acc, is_KO t = false ->
  fd_loop t ds w row shift Minv l acc =
  Ok ((fst acc ++ map cf (filter nz l))%list, (snd acc ++ map pos (filter nz l))%list).
Proof.
  intros t l; induction l as [|i l IH]; intros [a b] Ht.
  - cbn. now rewrite !app_nil_r.
  - cbn [fd_loop fst snd]. rewrite Ht. cbv zeta. rewrite loop_idx.
    unfold nz at 1 2; cbn [filter]. fold (cf i).
    destruct (qeqb (cf i) 0); cbn [negb].
    + now rewrite IH.
    + rewrite IH by auto. cbn [fst snd map]. rewrite <- !app_assoc. reflexivity.
Qed.

Lemma list_scale_at_end : forall a c f, list_scale_at (List.length a) f (a ++ [c]) = Some (a ++ [c * f])%list.
Proof.
  intros. unfold list_scale_at. rewrite nth_error_app2, Nat.sub_diag by lia. cbn [nth_error].
  rewrite firstn_app, Nat.sub_diag, firstn_all. cbn [firstn]. rewrite app_nil_r.
  rewrite skipn_all2; [reflexivity|]. rewrite app_length; cbn; lia.
Qed.

Lemma fd_loop_KO : forall f m k acc, ko_factor w row = Ok f ->
  (forall i, (k <= i < k + m)%nat -> cf i <> 0) -> List.length (fst acc) = k ->
  fd_loop KreissOligerDeriv ds w row shift Minv (seq k m) acc =
  Ok ((fst acc ++ map (fun i => cf i * f) (seq k m))%list, (snd acc ++ map pos (seq k m))%list).
Proof.
  intros f m; induction m as [|m IH]; intros k [a b] Hf Hnz Hlen.
  - cbn. now rewrite !app_nil_r.
  - cbn [seq fd_loop fst snd is_KO] in *. cbv zeta. rewrite loop_idx, Hf. fold (cf k).
    assert (E : qeqb (cf k) 0 = false) by (apply qeqb_neq, Hnz; lia). rewrite E.
    rewrite <- Hlen, list_scale_at_end, Hlen.
    rewrite IH; auto.
    + cbn [fst snd map]. rewrite <- !app_assoc. reflexivity.
    + intros i Hi; apply Hnz; lia.
    + cbn. rewrite app_length; cbn; lia.
Qed.
End Loop.

Section Mixed.
Variables (ds : string) (w : nat) (Minv : matrix) (d1 d2 : nat).
Hypothesis Hd1 : int_of_char (char_from_end ds 0) = Ok d1.
Hypothesis Hd2 : int_of_char (char_from_end ds 1) = Ok d2.
Hypothesis H31 : (d1 < 3)%nat.
Hypothesis H32 : (d2 < 3)%nat.

Definition mixed_idx (p1 p2 : Z) : idx3 :=
  match idx3_set (axis d1 p1) d2 p2 with Some t => t | None => (0, 0, 0)%Z end.

Definition mcf (ij : nat * nat) : Qc := cf 1 Minv (fst ij) * cf 1 Minv (snd ij).
Definition mnz (ij : nat * nat) : bool := negb (qeqb (mcf ij) 0).
Definition mpos (ij : nat * nat) : idx3 :=
  mixed_idx (gridpt_posn w 0 (fst ij)) (gridpt_posn w 0 (snd ij)).

Lemma fd_mixed_loop_eq : forall l acc,
  fd_mixed_loop ds w 1%nat Minv l acc =
  Ok ((fst acc ++ map mcf (filter mnz l))%list, (snd acc ++ map mpos (filter mnz l))%list).
Proof.
  intros l; induction l as [|[i j] l IH]; intros [a b].
  - cbn. now rewrite !app_nil_r.
  - cbn [fd_mixed_loop fst snd]. cbv zeta.
    change (qn (factorial 1) * Minv i 1%nat * (qn (factorial 1) * Minv j 1%nat)) with (mcf (i, j)).
    unfold mnz at 1 2; cbn [filter].
    destruct (qeqb (mcf (i, j)) 0); cbn [negb].
    + now rewrite IH.
    + rewrite Hd1, Hd2, idx3_set_axis by auto.
      assert (E : exists t, idx3_set (axis d1 (gridpt_posn w 0 i)) d2 (gridpt_posn w 0 j) = Some t).
      { destruct (axis d1 (gridpt_posn w 0 i)) as [[u v] y].
        destruct d2 as [|[|[|d]]]; cbn; eauto; lia. }
      destruct E as [t Et]. rewrite Et.
      assert (Em : mpos (i, j) = t) by (unfold mpos, mixed_idx; cbn [fst snd]; now rewrite Et).
      rewrite IH. cbn [fst snd map]. rewrite Em, <- !app_assoc. reflexivity.
Qed.
End Mixed.

(** ** Assembling compute_fdcoeffs_fdstencl *)
Lemma compute_eq : forall ds fo, exists Minv,
  let w := S (fd_order_eff ds fo) in
  let s := fd_shift ds (fd_order_eff ds fo) in
  setup_FD_matrix_inverse_lowlevel w s = Ok Minv /\
  is_right_inverse w (fd_M w s) Minv /\
  snd (compute_fdcoeffs_fdstencl ds fo []) =
    match fd_type_row ds w with
    | Err e => Err e
    | Ok (t, row) =>
        if Nat.leb w row then Err IndexError
        else match t with
             | MixedSecondDeriv =>
                 fd_mixed_loop ds w row Minv (list_prod (seq 0 w) (seq 0 w)) ([], [])
             | _ => fd_loop t ds w row s Minv (seq 0 w) ([], [])
             end
    end.
Proof.
  intros ds fo.
  set (w := S (fd_order_eff ds fo)). set (s := fd_shift ds (fd_order_eff ds fo)).
  destruct (fd_inverse_correct w s) as (_ & Minv & E & R & _).
  exists Minv. cbv zeta. repeat split; auto.
  unfold compute_fdcoeffs_fdstencl. fold w s. cbv zeta.
  destruct (setup_cached w s [] cache_ok_nil) as [_ H].
  destruct (setup_FD_matrix_inverse w s []) as [d r]. cbn in H. rewrite H, E. reflexivity.
Qed.

(** Result of a first or second (unmixed) derivative. *)
Theorem compute_plain : forall ds fo t row dirn,
  fd_order_eff ds fo = fo ->
  fd_type_row ds (S fo) = Ok (t, row) -> (t = FirstDeriv \/ t = SecondDeriv) -> (row <= fo)%nat ->
  int_of_char (char_from_end ds 0) = Ok dirn -> (dirn < 3)%nat ->
  exists c, moments (S fo) (fd_node (S fo) (fd_shift ds fo)) row c /\
    snd (compute_fdcoeffs_fdstencl ds fo []) =
      Ok (map c (filter (fun i => negb (qeqb (c i) 0)) (seq 0 (S fo))),
          map (fun i => axis dirn (gridpt_posn (S fo) (fd_shift ds fo) i))
              (filter (fun i => negb (qeqb (c i) 0)) (seq 0 (S fo)))).
Proof.
  intros ds fo t row dirn He Ht Hk Hr Hd H3.
  destruct (compute_eq ds fo) as (Minv & _ & R & E). rewrite He in *. cbv zeta in *.
  exists (cf row Minv). split.
  - apply column_moments; auto. lia.
  - rewrite E, Ht. destruct (Nat.leb_spec (S fo) row); [lia|].
    destruct Hk as [->| ->]; rewrite (fd_loop_plain ds _ _ _ _ dirn Hd H3) by reflexivity; reflexivity.
Qed.

Lemma apply_plain : forall w s dirn c f,
  apply_stencil (map c (filter (fun i => negb (qeqb (c i) 0)) (seq 0 w)),
                 map (fun i => axis dirn (gridpt_posn w s i))
                     (filter (fun i => negb (qeqb (c i) 0)) (seq 0 w))) f
  = qsum w (fun i => c i * f (axis dirn (gridpt_posn w s i))).
Proof.
  intros. rewrite apply_map, lsum_filter, lsum_seq; auto.
  intros i _ H. apply negb_false_iff, qeqb_eq in H. rewrite H; ring.
Qed.
