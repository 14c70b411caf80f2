(** Proofs about the generated time step of MoL.v: it is the Runge-Kutta step of the table. *)
From Coq Require Import String Ascii List Bool Arith Lia Field.
From Verif Require Import PyBase PyBaseFacts FDReadMem MoL.
Import ListNotations.

Lemma nth_firstn_lt : forall (A : Type) (d : A) x m l, (x < m)%nat -> nth x (firstn m l) d = nth x l d.
Proof.
  induction x as [|x IH]; intros [|m] [|z l] X; cbn; auto; try lia. apply IH. lia.
Qed.

Section RK.
Variable K : Type.
Variables (kO kI : K) (kadd kmul ksub : K -> K -> K) (kopp kinv : K -> K) (kdiv : K -> K -> K) (keqb : K -> K -> bool).
Hypothesis Fth : field_theory kO kI kadd kmul ksub kopp kdiv kinv eq.
Hypothesis keqb_eq : forall a b, keqb a b = true <-> a = b.
Add Field Kfield : Fth.
Variable P : Type.
Variable writes : P -> bool.
Notation arr := (P -> K).
Variable rhs : K -> arr -> arr.
Variable post : arr -> arr.
Hypothesis rhs_ext : forall t u v, (forall p, u p = v p) -> forall p, rhs t u p = rhs t v p.
Hypothesis post_dep : forall u v, (forall p, writes p = true -> u p = v p) -> forall p, post u p = post v p.

Infix "+" := kadd. Infix "*" := kmul. Infix "-" := ksub.
Notation "0" := kO. Notation "1" := kI.

(** ** Specification: an explicit Runge-Kutta method with stage rows (c_i, a_i1 ... a_i(i-1)) and weights b. *)
Fixpoint dot (cs : list K) (ks : list arr) (p : P) : K :=
  match cs, ks with c :: cs', k :: ks' => c * k p + dot cs' ks' p | _, _ => 0 end.
Definition comb (dt : K) (y : arr) (cs : list K) (ks : list arr) : arr := fun p => y p + dt * dot cs ks p.
(** k_i = f(t + c_i dt, post(y + dt sum_j a_ij k_j)); the first stage uses y itself *)
Fixpoint rk_stages (t dt : K) (y : arr) (rows : list (K * list K)) (ks : list arr) : list arr :=
  match rows with
  | [] => ks
  | (c, a) :: r =>
      let u := match ks with [] => y | _ => post (comb dt y a ks) end in
      rk_stages t dt y r (ks ++ [rhs (t + c * dt) u])%list
  end.
Definition rk_step (t dt : K) (rows : list (K * list K)) (b : list K) (y : arr) : arr :=
  post (comb dt y b (rk_stages t dt y rows [])).

(** Well-formed explicit table: row i has i coefficients, one weight per stage. *)
Definition wf (rows : list (K * list K)) (b : list K) : Prop :=
  rows <> [] /\ (forall i, (i < length rows)%nat -> length (snd (nth i rows (0, []))) = i) /\ length b = length rows.
Definition mk_table (rows : list (K * list K)) (b : list K) : table K :=
  (map (fun '(c, a) => (CNum K c, a)) rows ++ [(CTag K "", b)])%list.

(** ** Sums *)
Fixpoint ksum (l : list nat) (f : nat -> K) : K := match l with [] => 0 | x :: r => f x + ksum r f end.
Lemma ksum_ext : forall l f g, (forall x, In x l -> f x = g x) -> ksum l f = ksum l g.
Proof.
  induction l as [|x l IH]; intros f g H; [reflexivity|]. cbn. rewrite (H x) by now left. f_equal.
  apply IH. intros y I. apply H. now right.
Qed.
Lemma ksum_app : forall l m f, ksum (l ++ m) f = ksum l f + ksum m f.
Proof. induction l as [|x l IH]; intros m f; cbn; [ring|]. rewrite IH. ring. Qed.
Lemma ksum_zero : forall l f, (forall x, In x l -> f x = 0) -> ksum l f = 0.
Proof.
  induction l as [|x l IH]; intros f H; [reflexivity|]. cbn. rewrite (H x) by now left.
  rewrite IH by (intros y I; apply H; now right). ring.
Qed.
Lemma ksum_seq_shift : forall n a f, ksum (seq (S a) n) f = ksum (seq a n) (fun m => f (S m)).
Proof. induction n as [|n IH]; intros a f; [reflexivity|]. cbn. f_equal. apply IH. Qed.
Definition zarr : arr := fun _ => 0.
Lemma dot_ksum : forall cs ks p, (length cs <= length ks)%nat ->
  dot cs ks p = ksum (seq 0 (length cs)) (fun m => nth m cs 0 * nth m ks zarr p).
Proof.
  induction cs as [|c cs IH]; intros ks p L; [reflexivity|]. destruct ks as [|k ks]; [cbn in L; lia|].
  cbn [dot length seq ksum nth]. f_equal. rewrite ksum_seq_shift. apply IH. cbn in L. lia.
Qed.

(** ** Stages *)
Lemma rk_stages_len : forall t dt y rows ks, length (rk_stages t dt y rows ks) = (length ks + length rows)%nat.
Proof.
  induction rows as [|[c a] rows IH]; intros ks; cbn [rk_stages length]; [lia|]. rewrite IH, app_length. cbn. lia.
Qed.
Lemma rk_stages_prefix : forall t dt y rows ks, firstn (length ks) (rk_stages t dt y rows ks) = ks.
Proof.
  induction rows as [|[c a] rows IH]; intros ks; cbn [rk_stages]; [apply firstn_all|].
  set (x := rhs _ _). specialize (IH (ks ++ [x])%list). rewrite app_length in IH. cbn in IH.
  apply (f_equal (firstn (length ks))) in IH. rewrite firstn_firstn in IH.
  replace (Nat.min (length ks) (length ks + 1)) with (length ks) in IH by lia.
  rewrite IH. rewrite firstn_app, firstn_all. replace (length ks - length ks)%nat with O by lia. cbn. apply app_nil_r.
Qed.
Definition stage_input (dt : K) (y : arr) (a : list K) (i : nat) (S : list arr) : arr :=
  match i with O => y | _ => post (comb dt y a (firstn i S)) end.
Lemma rk_stages_nth : forall t dt y rows ks i, (i < length rows)%nat ->
  let S := rk_stages t dt y rows ks in
  nth (length ks + i) S zarr
  = rhs (t + fst (nth i rows (0, [])) * dt) (stage_input dt y (snd (nth i rows (0, []))) (length ks + i) S).
Proof.
  induction rows as [|[c a] rows IH]; intros ks i L; cbv zeta; [cbn in L; lia|]. cbn [rk_stages].
  set (x := rhs (t + c * dt) _). destruct i as [|i].
  - cbn [nth fst snd]. rewrite Nat.add_0_r.
    assert (F : firstn (length ks) (rk_stages t dt y rows (ks ++ [x])) = ks).
    { pose proof (rk_stages_prefix t dt y rows (ks ++ [x])) as F. rewrite app_length in F. cbn in F.
      apply (f_equal (firstn (length ks))) in F. rewrite firstn_firstn in F.
      replace (Nat.min (length ks) (length ks + 1)) with (length ks) in F by lia. rewrite F.
      rewrite firstn_app, firstn_all. replace (length ks - length ks)%nat with O by lia. cbn. apply app_nil_r. }
    assert (G : nth (length ks) (rk_stages t dt y rows (ks ++ [x])) zarr = x).
    { pose proof (rk_stages_prefix t dt y rows (ks ++ [x])) as H. rewrite app_length in H. cbn in H.
      apply (f_equal (fun l => nth (length ks) l zarr)) in H.
      rewrite nth_middle in H. rewrite <- H at 2.
      symmetry. apply nth_firstn_lt. lia. }
    rewrite G. unfold stage_input. rewrite F. unfold x. destruct ks; reflexivity.
  - cbn [nth]. specialize (IH (ks ++ [x])%list i ltac:(cbn in L; lia)). cbv zeta in IH. rewrite app_length in IH. cbn in IH.
    replace (length ks + S i)%nat with (length ks + 1 + i)%nat by lia. exact IH.
Qed.

(** ** Program text *)
Lemma nth_table_row : forall rows b i, (i < length rows)%nat ->
  nth i (mk_table rows b) (CTag K "", []) = (CNum K (fst (nth i rows (0, []))), snd (nth i rows (0, []))).
Proof.
  intros rows b i L. unfold mk_table. rewrite app_nth1 by (rewrite map_length; exact L).
  set (f := fun '(c, a) => (CNum K c, a)).
  rewrite (nth_indep _ _ (f (0, []))) by (rewrite map_length; exact L).
  rewrite (map_nth f). unfold f. now destruct (nth i rows (0, [])).
Qed.
Lemma nth_table_last : forall rows b, nth (length rows) (mk_table rows b) (CTag K "", []) = (CTag K "", b).
Proof. intros. unfold mk_table. rewrite app_nth2; rewrite map_length; [|lia]. now rewrite Nat.sub_diag. Qed.
Lemma table_len : forall rows b, length (mk_table rows b) = S (length rows).
Proof. intros. unfold mk_table. rewrite app_length, map_length. cbn. lia. Qed.
Lemma coef_row : forall rows b i m, (i < length rows)%nat -> coef K 0 (mk_table rows b) i (m + 1) = nth m (snd (nth i rows (0, []))) 0.
Proof. intros. unfold coef. rewrite nth_table_row by assumption. cbn [snd]. f_equal. lia. Qed.
Lemma coef_last : forall rows b m, coef K 0 (mk_table rows b) (length rows) (m + 1) = nth m b 0.
Proof. intros. unfold coef. rewrite nth_table_last. cbn [snd]. f_equal. lia. Qed.

Lemma sequence_map : forall (f : nat -> py (substep K)) g l, (forall i, In i l -> f i = Ok (g i)) ->
  sequence K (map f l) = Ok (map g l).
Proof.
  induction l as [|i l IH]; intros H; [reflexivity|]. cbn [map sequence]. rewrite (H i) by now left. cbn [py_bind].
  rewrite IH by (intros j I; apply H; now right). reflexivity.
Qed.

Notation run_step := (run_step K kadd kmul ksub kinv P writes rhs post).
Notation run_substep := (run_substep K kadd kmul ksub kinv P writes rhs post).
Notation eval := (eval K kadd kmul ksub kinv).
Notation upd := (upd K P).

Lemma run_step_S : forall t dt f m st,
  run_step t dt (map f (seq 0 (S m))) st = run_substep t dt (run_step t dt (map f (seq 0 m)) st) (f m).
Proof. intros. unfold MoL.run_step. rewrite seq_S, map_app, fold_left_app. reflexivity. Qed.
Lemma upd_same : forall st n a p, upd st n a n p = a p.
Proof. intros. unfold MoL.upd. now rewrite String.eqb_refl. Qed.
Lemma upd_other : forall st n a m p, m <> n -> upd st n a m p = st m p.
Proof. intros. unfold MoL.upd. destruct (String.eqb_spec m n); congruence. Qed.

(** One substep with a single update and post-processing of the updated array. *)
Lemma substep_one : forall t dt st c i o lhs e,
  lhs <> o ->
  let st' := run_substep t dt st (MkSub K c i o [(lhs, e)] [lhs]) in
  let st1 := run_rhs K P writes rhs (t + c * dt) st i o in
  (forall p, st' lhs p = post (fun p => eval dt (fun s => st1 s p) e) p) /\
  (forall n p, n <> lhs -> st' n p = st1 n p).
Proof.
  intros t dt st c i o lhs e N st' st1. subst st' st1. unfold MoL.run_substep. cbn [ss_time ss_in ss_out ss_upd ss_post].
  unfold run_updates, run_post. cbn [fold_left]. split.
  - intros p. rewrite upd_same. apply post_dep. intros q _. apply upd_same.
  - intros n p M. rewrite !upd_other by exact M. reflexivity.
Qed.

(** *** Non-diagonal tables *)
Lemma general_rhs_eval : forall dt env B s l e0,
  eval dt env (fold_left (fun e m =>
      let a := coef K 0 B (s + 1) (m + 1) in
      if negb (keqb a 0) then
        if negb (keqb a 1) then EAdd K e (EMul K (EMul K (EDt K) (ESym K (k_gfs (m + 1)))) (ENum K a))
        else EAdd K e (EMul K (EDt K) (ESym K (k_gfs (m + 1))))
      else e) l e0)
  = eval dt env e0 + dt * ksum l (fun m => coef K 0 B (s + 1) (m + 1) * env (k_gfs (m + 1))).
Proof.
  induction l as [|m l IH]; intros e0; cbn [fold_left ksum]; [ring|]. rewrite IH. cbv zeta.
  destruct (keqb (coef K 0 B (s + 1) (m + 1)) 0) eqn:Z; cbn [negb].
  - apply keqb_eq in Z. rewrite Z. ring.
  - destruct (keqb (coef K 0 B (s + 1) (m + 1)) 1) eqn:O; cbn [negb MoL.eval].
    + apply keqb_eq in O. rewrite O. ring.
    + ring.
Qed.
Lemma general_eval : forall dt env B s,
  eval dt env (general_rhs K 0 1 keqb B s)
  = env y_n + dt * ksum (seq 0 (s + 1)) (fun m => coef K 0 B (s + 1) (m + 1) * env (k_gfs (m + 1))).
Proof. intros. unfold general_rhs. rewrite general_rhs_eval. reflexivity. Qed.

Lemma k_gfs_inj : forall i j, k_gfs i = k_gfs j -> i = j.
Proof. intros i j H. unfold k_gfs in H. apply sapp_inj_l, sapp_inj_r, str_of_nat_inj in H. exact H. Qed.
Lemma k_gfs_fresh : forall i, k_gfs i <> y_n /\ k_gfs i <> next_y.
Proof. intros i. unfold k_gfs, y_n, next_y. split; intros H; cbn in H; discriminate. Qed.

Section Step.
Variables (t dt : K) (rows : list (K * list K)) (b : list K).
Hypothesis WF : wf rows b.
Notation n := (length rows).
Notation B := (mk_table rows b).
Variable st0 : string -> arr.
Notation y := (st0 y_n).
Notation Sg := (rk_stages t dt y rows []).
Notation row i := (snd (nth i rows (0, []))).
Notation ci i := (fst (nth i rows (0, []))).

Lemma n_pos : (0 < n)%nat.
Proof. destruct WF as [N _]. destruct rows; [congruence|cbn; lia]. Qed.
Lemma Sg_len : length Sg = n.
Proof. now rewrite rk_stages_len. Qed.
Lemma Sg_nth : forall i, (i < n)%nat -> nth i Sg zarr = rhs (t + ci i * dt) (stage_input dt y (row i) i Sg).
Proof. intros i L. apply (rk_stages_nth t dt y rows [] i L). Qed.
(** rows have as many coefficients as earlier stages, so the truncation of the stage list does not matter *)
Lemma dot_firstn : forall cs m p, (length cs <= m)%nat -> (m <= n)%nat -> dot cs (firstn m Sg) p = dot cs Sg p.
Proof.
  intros cs m p L M. rewrite !dot_ksum; [|rewrite Sg_len; lia|rewrite firstn_length, Sg_len; lia].
  apply ksum_ext. intros x I. apply in_seq in I. f_equal.
  rewrite nth_firstn_lt by lia. reflexivity.
Qed.
Lemma row_len : forall i, (i < n)%nat -> length (row i) = i.
Proof. apply WF. Qed.
Lemma b_len : length b = n.
Proof. apply WF. Qed.

(** coefficients of row s+1 or of the weights *)
Definition next_row (s : nat) : list K := if Nat.eqb s (n - 1) then b else row (S s).
Lemma next_row_len : forall s, (s < n)%nat -> length (next_row s) = S s.
Proof.
  intros s L. unfold next_row. destruct (Nat.eqb_spec s (n - 1)) as [E|E].
  - rewrite b_len. lia.
  - apply row_len. lia.
Qed.
Lemma coef_next : forall s m, (s < n)%nat -> coef K 0 B (s + 1) (m + 1) = nth m (next_row s) 0.
Proof.
  intros s m L. unfold next_row. destruct (Nat.eqb_spec s (n - 1)) as [E|E].
  - replace (s + 1)%nat with n by lia. apply coef_last.
  - replace (s + 1)%nat with (S s) by lia. apply coef_row. lia.
Qed.

Definition gprog (s : nat) : substep K :=
  let lhs := if Nat.eqb s (n - 1) then y_n else next_y in
  MkSub K (ci s) (if Nat.eqb s 0 then y_n else next_y) (k_gfs (s + 1)) [(lhs, general_rhs K 0 1 keqb B s)] [lhs].
Lemma gen_general_ok : sequence K (gen_general K 0 1 keqb B) = Ok (map gprog (seq 0 n)).
Proof.
  unfold gen_general. rewrite table_len. cbn [Nat.sub]. rewrite Nat.sub_0_r. apply sequence_map.
  intros i I. apply in_seq in I. unfold head. rewrite nth_table_row by lia. reflexivity.
Qed.

Definition ginv (m : nat) (st : string -> arr) : Prop :=
  (forall p, st y_n p = y p) /\
  (forall j p, (j < m)%nat -> writes p = true -> st (k_gfs (j + 1)) p = nth j Sg zarr p) /\
  (m <> 0%nat -> forall p, st next_y p = post (comb dt y (row m) Sg) p).

(** the input of substep [s] is the input of stage [s] *)
Lemma input_ok : forall m st, (m < n)%nat -> ginv m st ->
  forall p, st (if Nat.eqb m 0 then y_n else next_y) p = stage_input dt y (row m) m Sg p.
Proof.
  intros m st L [A [_ C]] p. destruct m as [|m]; cbn [Nat.eqb stage_input]; [apply A|].
  rewrite C by lia. apply post_dep. intros q _. unfold comb. rewrite dot_firstn; [reflexivity| |lia].
  rewrite row_len; lia.
Qed.
Lemma after_rhs : forall m st, (m < n)%nat -> ginv m st ->
  let st1 := run_rhs K P writes rhs (t + ci m * dt) st (if Nat.eqb m 0 then y_n else next_y) (k_gfs (m + 1)) in
  (forall p, st1 y_n p = y p) /\
  (forall j p, (j < S m)%nat -> writes p = true -> st1 (k_gfs (j + 1)) p = nth j Sg zarr p).
Proof.
  intros m st L I st1. destruct I as [A [Bj C]]. subst st1. unfold run_rhs. split.
  - intros p. rewrite upd_other; [apply A|]. intros E. symmetry in E. now apply (k_gfs_fresh (m + 1)) in E.
  - intros j p J W. destruct (Nat.eq_dec j m) as [->|N].
    + rewrite upd_same, W, Sg_nth by exact L. apply rhs_ext. apply input_ok; [exact L|]. split; [exact A|split; assumption].
    + rewrite upd_other; [apply Bj; [lia|exact W]|]. intros E. apply k_gfs_inj in E. lia.
Qed.
Lemma gen_value : forall m st, (m < n)%nat -> ginv m st ->
  let st1 := run_rhs K P writes rhs (t + ci m * dt) st (if Nat.eqb m 0 then y_n else next_y) (k_gfs (m + 1)) in
  forall p, writes p = true -> eval dt (fun s => st1 s p) (general_rhs K 0 1 keqb B m) = comb dt y (next_row m) Sg p.
Proof.
  intros m st L I st1 p W. destruct (after_rhs m st L I) as [A1 A2]. rewrite general_eval. unfold comb. f_equal; [apply A1|].
  f_equal. rewrite dot_ksum by (rewrite next_row_len, Sg_len by exact L; lia). rewrite next_row_len by exact L.
  replace (m + 1)%nat with (S m) by lia. apply ksum_ext. intros x X. apply in_seq in X.
  replace (S m) with (m + 1)%nat by lia. rewrite coef_next by exact L. f_equal. apply A2; [lia|exact W].
Qed.
Lemma ginv_step : forall m st, (S m < n)%nat -> ginv m st -> ginv (S m) (run_substep t dt st (gprog m)).
Proof.
  intros m st L I. unfold gprog. destruct (Nat.eqb_spec m (n - 1)) as [E|E]; [lia|].
  destruct (k_gfs_fresh (m + 1)) as [F1 F2].
  destruct (substep_one t dt st (ci m) (if Nat.eqb m 0 then y_n else next_y) (k_gfs (m + 1)) next_y
              (general_rhs K 0 1 keqb B m) (fun E => F2 (eq_sym E))) as [U V].
  destruct (after_rhs m st ltac:(lia) I) as [A1 A2]. split; [|split].
  - intros p. rewrite V by discriminate. apply A1.
  - intros j p J W. rewrite V by apply (k_gfs_fresh (j + 1)). now apply A2.
  - intros _ p. rewrite U. apply post_dep. intros q W. rewrite (gen_value m st ltac:(lia) I q W).
    unfold next_row. destruct (Nat.eqb_spec m (n - 1)); [lia|]. reflexivity.
Qed.
Lemma ginv_all : forall m, (m < n)%nat -> ginv m (run_step t dt (map gprog (seq 0 m)) st0).
Proof.
  induction m as [|m IH]; intros L.
  - split; [reflexivity|split; [intros; lia|congruence]].
  - rewrite run_step_S. apply ginv_step; [exact L|apply IH; lia].
Qed.
Lemma general_step : forall p, run_step t dt (map gprog (seq 0 n)) st0 y_n p = rk_step t dt rows b y p.
Proof.
  intros p. pose proof n_pos. destruct n as [|m] eqn:N; [lia|]. rewrite run_step_S. rewrite <- N in *.
  pose proof (ginv_all m ltac:(lia)) as I. set (st := run_step t dt (map gprog (seq 0 m)) st0) in *.
  unfold gprog. destruct (Nat.eqb_spec m (n - 1)) as [E|E]; [|lia].
  destruct (k_gfs_fresh (m + 1)) as [F1 F2].
  destruct (substep_one t dt st (ci m) (if Nat.eqb m 0 then y_n else next_y) (k_gfs (m + 1)) y_n
              (general_rhs K 0 1 keqb B m) (fun E => F1 (eq_sym E))) as [U V].
  rewrite U. unfold rk_step. apply post_dep. intros q W. rewrite (gen_value m st ltac:(lia) I q W).
  unfold next_row. destruct (Nat.eqb_spec m (n - 1)); [|lia]. reflexivity.
Qed.

(** *** Diagonal tables with k_odd and k_even *)
Section Diag.
Hypothesis HD : is_diagonal K 0 keqb B = true.
Hypothesis Hn : (2 <= n)%nat.
Hypothesis Ha : forall s, (1 <= s)%nat -> (s < n - 1)%nat -> nth s (row (S s)) 0 <> 0.
Hypothesis Hb : nth (n - 1) b 0 <> 0.

Lemma diag_zero : forall i m, (i < n)%nat -> (S m < i)%nat -> nth m (row i) 0 = 0.
Proof.
  intros i m L M. unfold is_diagonal in HD. rewrite forallb_forall in HD. rewrite table_len in HD.
  assert (I : In i (seq 0 (S n - 1))) by (apply in_seq; lia). pose proof (HD i I) as H.
  rewrite forallb_forall in H. assert (J : In (m + 1)%nat (seq 1 (i - 1))) by (apply in_seq; lia).
  pose proof (H _ J) as G. apply keqb_eq in G. rewrite coef_row in G by exact L. exact G.
Qed.
Lemma dot_diag : forall i p, (S i < n)%nat -> dot (row (S i)) Sg p = nth i (row (S i)) 0 * nth i Sg zarr p.
Proof.
  intros i p L. rewrite dot_ksum by (rewrite row_len, Sg_len; lia). rewrite row_len by lia.
  rewrite seq_S, ksum_app, ksum_zero; [cbn; ring|]. intros x X. apply in_seq in X. rewrite diag_zero by lia. ring.
Qed.
Definition dout (s : nat) : string := if Nat.even s then k_odd else k_even.
Definition dinp (s : nat) : string := if Nat.eqb s 0 then y_n else if Nat.even s then k_even else k_odd.
Lemma dinp_S : forall s, dinp (S s) = dout s.
Proof. intros s. unfold dinp, dout. cbn [Nat.eqb]. rewrite Nat.even_succ, <- Nat.negb_even. now destruct (Nat.even s). Qed.
Lemma dout_fresh : forall s, dout s <> y_n /\ dout s <> running.
Proof. intros s. unfold dout. destruct (Nat.even s); split; discriminate. Qed.
Lemma dinp_out : forall s, dinp s <> dout s.
Proof. intros s. unfold dinp, dout. destruct (Nat.eqb s 0), (Nat.even s); discriminate. Qed.
Definition dprog (s : nat) : substep K :=
  MkSub K (ci s) (dinp s) (dout s) (diag_updates K 0 1 keqb B n s (dout s)) [if Nat.eqb s (n - 1) then y_n else dout s].
Lemma gen_diag_ok : sequence K (gen_diag K 0 1 keqb B) = Ok (map dprog (seq 0 n)).
Proof.
  unfold gen_diag. rewrite table_len. cbn [Nat.sub]. rewrite Nat.sub_0_r. apply sequence_map.
  intros i I. apply in_seq in I. unfold head. rewrite nth_table_row by lia. reflexivity.
Qed.
Definition part (m : nat) (p : P) : K := ksum (seq 0 m) (fun j => nth j b 0 * nth j Sg zarr p).
Lemma part_S : forall m p, part (S m) p = part m p + nth m b 0 * nth m Sg zarr p.
Proof. intros. unfold part. rewrite seq_S, ksum_app. cbn. ring. Qed.
Definition dinv (m : nat) (st : string -> arr) : Prop :=
  (forall p, st y_n p = y p) /\
  (m <> 0%nat -> (forall p, writes p = true -> st running p = dt * part m p) /\
                 (forall p, st (dinp m) p = post (comb dt y (row m) Sg) p)).
Lemma d_after_rhs : forall m st, (m < n)%nat -> dinv m st ->
  let st1 := run_rhs K P writes rhs (t + ci m * dt) st (dinp m) (dout m) in
  (forall p, st1 y_n p = y p) /\ (forall p, st1 running p = st running p) /\
  (forall p, writes p = true -> st1 (dout m) p = nth m Sg zarr p).
Proof.
  intros m st L [A C] st1. subst st1. unfold run_rhs. destruct (dout_fresh m) as [F1 F2]. split; [|split].
  - intros p. rewrite upd_other by congruence. apply A.
  - intros p. now rewrite upd_other by congruence.
  - intros p W. rewrite upd_same, W, Sg_nth by exact L. apply rhs_ext. intros q. destruct m as [|m].
    + cbn. apply A.
    + destruct C as [_ C]; [lia|]. rewrite C. cbn [stage_input]. apply post_dep. intros r _. unfold comb.
      rewrite dot_firstn; [reflexivity| |lia]. rewrite row_len; lia.
Qed.
Notation term e o c := (if negb (keqb c 1) then EAdd K e (EMul K (EMul K (ESym K o) (EDt K)) (ENum K c))
                        else EAdd K e (EMul K (ESym K o) (EDt K))).
Lemma eval_term : forall env e o c, eval dt env (term e o c) = eval dt env e + dt * (c * env o).
Proof.
  intros. destruct (keqb c 1) eqn:O; cbn [negb MoL.eval]; [apply keqb_eq in O; subst c; ring|ring].
Qed.
Lemma dinv_step : forall m st, (S m < n)%nat -> dinv m st -> dinv (S m) (run_substep t dt st (dprog m)).
Proof.
  intros m st L I. destruct (d_after_rhs m st ltac:(lia) I) as [A1 [A2 A3]]. destruct (dout_fresh m) as [F1 F2].
  destruct I as [_ C]. unfold dinv. rewrite dinp_S. unfold dprog, MoL.run_substep.
  cbn [ss_time ss_in ss_out ss_upd ss_post].
  set (st1 := run_rhs K P writes rhs (t + ci m * dt) st (dinp m) (dout m)) in *.
  destruct (Nat.eqb_spec m (n - 1)) as [E|E]; [lia|]. unfold run_post. cbn [fold_left].
  assert (G : let st2 := run_updates K kadd kmul ksub kinv P dt st1 (diag_updates K 0 1 keqb B n m (dout m)) in
    (forall p, st2 y_n p = y p) /\ (forall p, writes p = true -> st2 running p = dt * part (S m) p) /\
    (forall p, writes p = true -> st2 (dout m) p = comb dt y (row (S m)) Sg p)).
  { cbv zeta. unfold diag_updates. destruct (Nat.eqb_spec m (n - 1)) as [E'|_]; [lia|]. cbn [negb].
    replace (coef K 0 B (m + 1) (m + 1)) with (nth m (row (S m)) 0)
      by (replace (m + 1)%nat with (S m) at 1 by lia; symmetry; apply coef_row; lia).
    rewrite coef_last. unfold comb. unfold run_updates.
    destruct (Nat.eqb_spec m 0) as [->|M].
    - cbn [fold_left]. split; [|split]; intros p; try intros W.
      + rewrite !upd_other by (congruence || discriminate). apply A1.
      + rewrite upd_other by congruence. rewrite upd_same. cbn [MoL.eval]. rewrite A3 by exact W.
        unfold part. cbn. ring.
      + rewrite upd_same. cbn [MoL.eval]. rewrite A1, A3, dot_diag by (exact W || lia). ring.
    - destruct (keqb (nth m (row (S m)) 0) 0) eqn:Z.
      { exfalso. apply keqb_eq in Z. apply (Ha m); [lia|lia|exact Z]. }
      destruct C as [C1 _]; [exact M|]. cbn [negb].
      destruct (keqb (nth m b 0) 0) eqn:ZB; cbn [negb List.app fold_left]; (split; [|split]); intros p; try intros W.
      + rewrite !upd_other by (congruence || discriminate). apply A1.
      + rewrite upd_other by congruence. rewrite A2, C1, part_S by exact W. apply keqb_eq in ZB. rewrite ZB. ring.
      + rewrite upd_same, eval_term. cbn [MoL.eval]. rewrite A1, A3, dot_diag by (exact W || lia). reflexivity.
      + rewrite !upd_other by (congruence || discriminate). apply A1.
      + rewrite upd_other by congruence. rewrite upd_same, eval_term. cbn [MoL.eval].
        rewrite A2, A3, C1, part_S by exact W. ring.
      + rewrite upd_same, eval_term. cbn [MoL.eval]. rewrite A1, A3, dot_diag by (exact W || lia). reflexivity. }
  cbv zeta in G. destruct G as [G1 [G2 G3]]. split; [|intros _; split].
  - intros p. rewrite upd_other by congruence. apply G1.
  - intros p W. rewrite upd_other by congruence. now apply G2.
  - intros p. rewrite upd_same. apply post_dep. exact G3.
Qed.
Lemma dinv_all : forall m, (m < n)%nat -> dinv m (run_step t dt (map dprog (seq 0 m)) st0).
Proof.
  induction m as [|m IH]; intros L.
  - split; [reflexivity|congruence].
  - rewrite run_step_S. apply dinv_step; [exact L|apply IH; lia].
Qed.
Lemma diag_step : forall p, run_step t dt (map dprog (seq 0 n)) st0 y_n p = rk_step t dt rows b y p.
Proof.
  intros p. pose proof n_pos. destruct n as [|m] eqn:N; [lia|]. rewrite run_step_S. rewrite <- N in *.
  pose proof (dinv_all m ltac:(lia)) as I. set (st := run_step t dt (map dprog (seq 0 m)) st0) in *.
  destruct (d_after_rhs m st ltac:(lia) I) as [A1 [A2 A3]]. destruct (dout_fresh m) as [F1 F2]. destruct I as [_ C].
  destruct C as [C1 _]; [lia|].
  unfold dprog, MoL.run_substep. cbn [ss_time ss_in ss_out ss_upd ss_post].
  set (st1 := run_rhs K P writes rhs (t + ci m * dt) st (dinp m) (dout m)) in *.
  destruct (Nat.eqb_spec m (n - 1)) as [E|E]; [|lia]. unfold run_post. cbn [fold_left]. rewrite upd_same.
  unfold rk_step. apply post_dep. intros q W. unfold diag_updates.
  destruct (Nat.eqb_spec m (n - 1)) as [_|]; [|lia]. cbn [negb]. rewrite coef_last.
  destruct (keqb (nth m b 0) 0) eqn:Z.
  { exfalso. apply keqb_eq in Z. apply Hb. now rewrite <- E. }
  cbn [negb]. unfold run_updates. cbn [fold_left]. rewrite upd_same, eval_term. cbn [MoL.eval].
  rewrite A1, A2, A3, C1 by exact W. unfold comb. rewrite dot_ksum by (rewrite b_len, Sg_len; lia).
  rewrite b_len. assert (D : part n q = part (S m) q) by (f_equal; lia). unfold part at 1 in D. rewrite D, part_S. ring.
Qed.
End Diag.
End Step.

(** *** Diagonal RK3 with two arrays *)
Definition rk3prog (c0 c1 c2 a21 a32 b1 b2 b3 : K) : list (substep K) :=
  [ MkSub K c0 y_n rk3_a [(rk3_a, EAdd K (EMul K (EMul K (ENum K a21) (ESym K rk3_a)) (EDt K)) (ESym K y_n))] [rk3_a];
    MkSub K c1 rk3_a rk3_b
      [(rk3_a, EAdd K (EAdd K (EDiv K (EMul K (ENum K b1) (ESub K (ESym K rk3_a) (ESym K y_n))) (ENum K a21)) (ESym K y_n))
                      (EMul K (EMul K (ENum K b2) (ESym K rk3_b)) (EDt K)));
       (rk3_b, EAdd K (EMul K (EMul K (ENum K a32) (ESym K rk3_b)) (EDt K)) (ESym K y_n))] [rk3_b; rk3_a];
    MkSub K c2 rk3_b y_n
      [(y_n, EAdd K (ESym K rk3_a) (EMul K (EMul K (ENum K b3) (ESym K y_n)) (EDt K)))] [y_n] ].
Lemma rk3_step : forall t dt c0 c1 c2 a21 a32 b1 b2 b3 st0,
  (forall u p, writes p = true -> post u p = u p) -> a21 <> 0 ->
  forall p, run_step t dt (rk3prog c0 c1 c2 a21 a32 b1 b2 b3) st0 y_n p
          = rk_step t dt [(c0, []); (c1, [a21]); (c2, [0; a32])] [b1; b2; b3] (st0 y_n) p.
Proof.
  intros t dt c0 c1 c2 a21 a32 b1 b2 b3 st0 PI NZ p.
  set (y := st0 y_n). set (k1 := rhs (t + c0 * dt) y).
  set (u1 := post (comb dt y [a21] [k1])). set (k2 := rhs (t + c1 * dt) u1).
  set (u2 := post (comb dt y [0; a32] [k1; k2])). set (k3 := rhs (t + c2 * dt) u2).
  assert (SP : rk_step t dt [(c0, []); (c1, [a21]); (c2, [0; a32])] [b1; b2; b3] y p = post (comb dt y [b1; b2; b3] [k1; k2; k3]) p)
    by reflexivity.
  rewrite SP. clear SP. unfold MoL.run_step, rk3prog. cbn [fold_left].
  (* first substep *)
  set (st1 := run_substep t dt st0 _).
  assert (Y1 : forall q, st1 y_n q = y q) by reflexivity.
  assert (A1 : forall q, st1 rk3_a q = u1 q).
  { intros q. unfold st1, u1, MoL.run_substep, run_post, run_updates. cbn [ss_time ss_in ss_out ss_upd ss_post fold_left].
    rewrite upd_same. apply post_dep. intros r W. rewrite upd_same. cbn [MoL.eval]. unfold run_rhs at 1. rewrite upd_same, W.
    unfold run_rhs. rewrite upd_other by discriminate. unfold comb, dot, k1. fold y. ring. }
  clearbody st1.
  (* second substep *)
  set (st2 := run_substep t dt st1 _).
  assert (R2 : forall q, writes q = true -> rhs (t + c1 * dt) (st1 rk3_a) q = k2 q)
    by (intros q W; unfold k2; now apply rhs_ext).
  assert (Y2 : forall q, st2 y_n q = y q) by (intros q; rewrite <- Y1; reflexivity).
  assert (B2 : forall q, st2 rk3_b q = u2 q).
  { intros q. unfold st2, u2, MoL.run_substep, run_post, run_updates. cbn [ss_time ss_in ss_out ss_upd ss_post fold_left].
    rewrite upd_other by discriminate. rewrite upd_same. apply post_dep. intros r W. rewrite upd_same. cbn [MoL.eval].
    unfold run_rhs at 1. rewrite upd_same, W, R2 by exact W. unfold run_rhs. rewrite upd_other by discriminate. rewrite Y1.
    unfold comb, dot. ring. }
  assert (A2 : forall q, writes q = true -> st2 rk3_a q = y q + dt * (b1 * k1 q + b2 * k2 q)).
  { intros q W. unfold st2, MoL.run_substep, run_post, run_updates. cbn [ss_time ss_in ss_out ss_upd ss_post fold_left].
    rewrite upd_same, PI by exact W. rewrite upd_other by discriminate. rewrite upd_other by discriminate. rewrite upd_same.
    cbn [MoL.eval]. unfold run_rhs. rewrite upd_same, W, R2 by exact W. rewrite !upd_other by discriminate. rewrite A1, Y1.
    unfold u1. rewrite PI by exact W. unfold comb, dot. field. exact NZ. }
  clearbody st2.
  (* third substep *)
  unfold MoL.run_substep, run_post, run_updates. cbn [ss_time ss_in ss_out ss_upd ss_post fold_left].
  rewrite upd_same. apply post_dep. intros r W. rewrite upd_same. cbn [MoL.eval]. unfold run_rhs at 2. rewrite upd_same, W.
  unfold run_rhs. rewrite upd_other by discriminate. rewrite A2 by exact W. unfold comb, dot.
  rewrite (rhs_ext _ (st2 rk3_b) u2) by exact B2. fold k3. ring.
Qed.

(** *** Euler *)
Lemma euler_step : forall t dt c st0 p,
  run_step t dt [MkSub K c y_n running [(y_n, EAdd K (ESym K y_n) (EMul K (ESym K running) (EDt K)))] [y_n]] st0 y_n p
  = rk_step t dt [(c, [])] [1] (st0 y_n) p.
Proof.
  intros. unfold MoL.run_step. cbn [fold_left].
  unfold MoL.run_substep, run_post, run_updates. cbn [ss_time ss_in ss_out ss_upd ss_post fold_left].
  rewrite upd_same. unfold rk_step. apply post_dep. intros r W. rewrite upd_same. cbn [MoL.eval]. unfold run_rhs.
  rewrite upd_same, W. rewrite upd_other by discriminate. unfold comb. cbn. ring.
Qed.
End RK.
