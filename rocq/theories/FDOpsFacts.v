(** Exactness, symmetry and shape of every finite-difference operator (model: FDCoeffs.v). *)
From Coq Require Import String Ascii List Arith ZArith Bool Lia QArith Qcanon.
From Verif Require Import PyBase PyBaseFacts QcLib FDMatrix FDMatrixFacts FDCoeffs FDCoeffsFacts.
Import ListNotations.
Open Scope list_scope.
Open Scope Qc_scope.

(** ** Specification *)

(** A derivative operator name followed by its direction digit. *)
Definition deriv_string (op : string) (dirn : nat) : string := (op ++ str_of_nat dirn)%string.

(** A second-derivative name followed by its two direction digits. *)
Definition deriv_string2 (op : string) (d1 d2 : nat) : string :=
  (op ++ str_of_nat d1 ++ str_of_nat d2)%string.

Definition first_ops : list string := ["dD"; "dupD"; "ddnD"; "dfullupD"; "dfulldnD"]%string.

(** Documented stencil shift of each first-derivative operator at order [2k]. *)
Definition op_shift (op : string) (k : nat) : Z :=
  if String.eqb op "dupD" then 1
  else if String.eqb op "ddnD" then -1
  else if String.eqb op "dfullupD" then Z.of_nat k
  else if String.eqb op "dfulldnD" then - Z.of_nat k
  else 0.

(** The result of a request made after an arbitrary history of earlier requests. *)
Definition fd_request (hist : list (string * nat)) (ds : string) (fo : nat) : py fd_result :=
  snd (compute_fdcoeffs_fdstencl ds fo (cache_run [] hist)).

Definition mirror (t : idx3) : idx3 := let '(a, b, c) := t in (- a, - b, - c)%Z.

(** The component of an offset. *)
Definition comp (dirn : nat) (t : idx3) : Z :=
  let '(a, b, c) := t in match dirn with 0%nat => a | 1%nat => b | _ => c end.

(** [(-1)^z] for an integer [z]. *)
Definition zsign (z : Z) : Qc := if Z.even z then 1 else -(1).

Lemma fd_request_nil : forall h ds fo, fd_request h ds fo = snd (compute_fdcoeffs_fdstencl ds fo []).
Proof. intros. unfold fd_request. apply compute_cache, cache_run_ok, cache_ok_nil. Qed.

(** ** First derivatives *)
Ltac dirn_cases dirn H :=
  destruct dirn as [|[|[|dirn]]]; [| | |exfalso; lia].

Lemma first_facts : forall op dirn k, In op first_ops -> (dirn < 3)%nat ->
  let ds := deriv_string op dirn in
  fd_order_eff ds (2 * k) = (2 * k)%nat /\
  fd_shift ds (2 * k) = op_shift op k /\
  (forall w, fd_type_row ds w = Ok (FirstDeriv, 1%nat)) /\
  int_of_char (char_from_end ds 0) = Ok dirn.
Proof.
  intros op dirn k Hop Hd ds.
  assert (Hk : Nat.div (2 * k) 2 = k) by (rewrite Nat.mul_comm; now apply Nat.div_mul).
  unfold first_ops in Hop; cbn in Hop.
  repeat destruct Hop as [Hop|Hop]; try contradiction; subst op; subst ds;
    dirn_cases dirn Hd;
    repeat split; unfold fd_shift; cbn -[Nat.mul Nat.div]; rewrite ?Hk; reflexivity.
Qed.

(** Shape of the result of a first derivative. *)
Definition nzb (c : nat -> Qc) (i : nat) : bool := negb (qeqb (c i) 0).
Definition shape (w : nat) (s : Z) (dirn : nat) (c : nat -> Qc) : fd_result :=
  (map c (filter (nzb c) (seq 0 w)),
   map (fun i => axis dirn (gridpt_posn w s i)) (filter (nzb c) (seq 0 w))).

Theorem first_shape : forall h op dirn k, In op first_ops -> (dirn < 3)%nat -> (1 <= k)%nat ->
  exists c, moments (S (2 * k)) (fd_node (S (2 * k)) (op_shift op k)) 1 c /\
    fd_request h (deriv_string op dirn) (2 * k) = Ok (shape (S (2 * k)) (op_shift op k) dirn c).
Proof.
  intros h op dirn k Hop Hd Hk. rewrite fd_request_nil.
  destruct (first_facts op dirn k Hop Hd) as (H1 & H2 & H3 & H4).
  destruct (compute_plain (deriv_string op dirn) (2 * k) FirstDeriv 1 dirn) as (c & M & E); auto.
  - lia.
  - rewrite H2 in *. exists c; auto.
Qed.

Lemma dDD_facts : forall dirn k, (dirn < 3)%nat ->
  let ds := deriv_string2 "dDD" dirn dirn in
  fd_order_eff ds (2 * k) = (2 * k)%nat /\
  fd_shift ds (2 * k) = 0%Z /\
  (forall w, fd_type_row ds w = Ok (SecondDeriv, 2%nat)) /\
  int_of_char (char_from_end ds 0) = Ok dirn.
Proof.
  intros dirn k Hd ds; subst ds; dirn_cases dirn Hd; repeat split.
Qed.

Theorem second_shape : forall h dirn k, (dirn < 3)%nat -> (1 <= k)%nat ->
  exists c, moments (S (2 * k)) (fd_node (S (2 * k)) 0) 2 c /\
    fd_request h (deriv_string2 "dDD" dirn dirn) (2 * k) = Ok (shape (S (2 * k)) 0 dirn c).
Proof.
  intros h dirn k Hd Hk. rewrite fd_request_nil.
  destruct (dDD_facts dirn k Hd) as (H1 & H2 & H3 & H4).
  destruct (compute_plain (deriv_string2 "dDD" dirn dirn) (2 * k) SecondDeriv 2 dirn) as (c & M & E); auto.
  - lia.
  - rewrite H2 in *. exists c; auto.
Qed.

Lemma apply_shape : forall w s dirn c f,
  apply_stencil (shape w s dirn c) f = qsum w (fun i => c i * f (axis dirn (gridpt_posn w s i))).
Proof. intros. apply apply_plain. Qed.

Lemma shape_exact : forall k s dirn row c f p, (row < S (2 * k))%nat ->
  moments (S (2 * k)) (fd_node (S (2 * k)) s) row c ->
  (forall v, f (axis dirn v) = peval p (qz v)) -> (List.length p <= S (2 * k))%nat ->
  apply_stencil (shape (S (2 * k)) s dirn c) f = qn (factorial row) * nth row p 0.
Proof.
  intros. rewrite apply_shape. rewrite <- (moments_poly _ _ _ _ p H H0 H2).
  apply qsum_ext. intros j Hj. rewrite H1, node_posn. reflexivity.
Qed.

Theorem first_exact : forall h op dirn k f p, In op first_ops -> (dirn < 3)%nat -> (1 <= k)%nat ->
  (forall v, f (axis dirn v) = peval p (qz v)) -> (List.length p <= 2 * k + 1)%nat ->
  exists r, fd_request h (deriv_string op dirn) (2 * k) = Ok r /\
            apply_stencil r f = peval (pderiv p) 0.
Proof.
  intros h op dirn k f p Hop Hd Hk Hf Hp.
  destruct (first_shape h op dirn k Hop Hd Hk) as (c & M & E).
  exists (shape (S (2 * k)) (op_shift op k) dirn c). split; auto.
  rewrite (shape_exact _ _ _ 1%nat c f p); auto; try lia.
  rewrite pderiv_0. cbn [factorial Nat.mul Nat.add]. rewrite qn_1. ring.
Qed.

Theorem second_exact : forall h dirn k f p, (dirn < 3)%nat -> (1 <= k)%nat ->
  (forall v, f (axis dirn v) = peval p (qz v)) -> (List.length p <= 2 * k + 1)%nat ->
  exists r, fd_request h (deriv_string2 "dDD" dirn dirn) (2 * k) = Ok r /\
            apply_stencil r f = peval (pderiv (pderiv p)) 0.
Proof.
  intros h dirn k f p Hd Hk Hf Hp.
  destruct (second_shape h dirn k Hd Hk) as (c & M & E).
  exists (shape (S (2 * k)) 0 dirn c). split; auto.
  rewrite (shape_exact _ _ _ 2%nat c f p); auto; try lia.
  rewrite pderiv2_0. reflexivity.
Qed.

(** ** Mirror symmetry *)
Lemma node_mirror : forall k s j, (j <= 2 * k)%nat ->
  fd_node (S (2 * k)) (- s) j = - fd_node (S (2 * k)) s (2 * k - j).
Proof.
  intros. rewrite !node_posn, <- qz_opp. f_equal. unfold gridpt_posn.
  replace (Nat.div (S (2 * k) - 1) 2) with k.
  2:{ replace (S (2 * k) - 1)%nat with (k * 2)%nat by lia. now rewrite Nat.div_mul. }
  lia.
Qed.

Lemma pow_opp : forall (x : Qc) n, (- x) ^ n = (-(1)) ^ n * x ^ n.
Proof. intros. rewrite <- Qcpow_mul. replace (-(1) * x) with (- x) by ring. reflexivity. Qed.

Lemma m1_pow_sq : forall n, (-(1)) ^ n * (-(1)) ^ n = 1.
Proof.
  intros. rewrite <- Qcpow_mul. replace (-(1) * -(1)) with 1 by ring.
  induction n; [reflexivity|]. rewrite Qcpow_S, IHn. ring.
Qed.

Lemma moments_mirror : forall k s row c c', (row < S (2 * k))%nat ->
  moments (S (2 * k)) (fd_node (S (2 * k)) s) row c ->
  moments (S (2 * k)) (fd_node (S (2 * k)) (- s)) row c' ->
  forall j, (j <= 2 * k)%nat -> c' j = (-(1)) ^ row * c (2 * k - j)%nat.
Proof.
  intros k s row c c' Hr H H' j Hj.
  apply (moments_unique (S (2 * k)) (- s) row c' (fun j => (-(1)) ^ row * c (2 * k - j)%nat)); auto; [|lia].
  intros i Hi. rewrite qsum_rev.
  rewrite (qsum_ext _ _ (fun j => ((-(1)) ^ row * (-(1)) ^ i) * (c j * fd_node (S (2 * k)) s j ^ i))).
  2:{ intros m Hm. rewrite node_mirror by lia. rewrite (pow_opp (fd_node _ _ _)).
      replace (2 * k - (S (2 * k) - 1 - m))%nat with m by lia. ring. }
  rewrite qsum_scale, H by auto. unfold qdelta.
  destruct (Nat.eqb_spec i row) as [->|]; [rewrite m1_pow_sq; ring|ring].
Qed.

Lemma rev_seq : forall n, rev (seq 0 n) = map (fun i => (n - 1 - i)%nat) (seq 0 n).
Proof.
  induction n; [reflexivity|]. rewrite seq_S at 1. rewrite rev_app_distr. cbn [rev app].
  rewrite IHn. cbn [seq map]. f_equal; [lia|].
  rewrite <- seq_shift, map_map. apply map_ext_in. intros a Ha. apply in_seq in Ha. lia.
Qed.

Lemma rev_filter : forall (A : Type) (g : A -> bool) l, rev (filter g l) = filter g (rev l).
Proof.
  intros A g l; induction l; [reflexivity|]. cbn [filter rev]. rewrite filter_app. cbn [filter].
  destruct (g a); cbn [rev]; rewrite IHl; auto. now rewrite app_nil_r.
Qed.

Lemma filter_map_comm : forall (A B : Type) (g : B -> bool) (f : A -> B) l,
  filter g (map f l) = map f (filter (fun a => g (f a)) l).
Proof.
  intros; induction l; [reflexivity|]. cbn [map filter].
  destruct (g (f a)); cbn [map]; congruence.
Qed.

Lemma mirror_axis : forall d v, mirror (axis d v) = axis d (- v).
Proof. intros [|[|d]] v; reflexivity. Qed.

Lemma nzb_scale : forall e x, e <> 0 -> qeqb (e * x) 0 = qeqb x 0.
Proof.
  intros e x He. destruct (qeqb x 0) eqn:E.
  - apply qeqb_eq in E. subst. apply qeqb_eq. ring.
  - apply qeqb_neq in E. apply qeqb_neq. apply Qc_mul_nonzero; auto.
Qed.

Lemma m1_pow_nz : forall n, (-(1)) ^ n <> 0.
Proof. intros n; apply Qcpow_nonzero. discriminate. Qed.

Theorem shape_mirror : forall k s row dirn c c', (row < S (2 * k))%nat ->
  moments (S (2 * k)) (fd_node (S (2 * k)) s) row c ->
  moments (S (2 * k)) (fd_node (S (2 * k)) (- s)) row c' ->
  shape (S (2 * k)) (- s) dirn c' =
  (map (fun x => (-(1)) ^ row * x) (rev (fst (shape (S (2 * k)) s dirn c))),
   map mirror (rev (snd (shape (S (2 * k)) s dirn c)))).
Proof.
  intros k s row dirn c c' Hr H H'.
  pose proof (moments_mirror k s row c c' Hr H H') as E.
  unfold shape; cbn [fst snd].
  rewrite <- !map_rev, !rev_filter, rev_seq, !filter_map_comm, !map_map.
  assert (F : filter (nzb c') (seq 0 (S (2 * k))) =
              filter (fun i => nzb c (S (2 * k) - 1 - i)) (seq 0 (S (2 * k)))).
  { apply filter_ext_in. intros j Hj. apply in_seq in Hj. unfold nzb.
    rewrite E by lia. rewrite nzb_scale by apply m1_pow_nz.
    replace (S (2 * k) - 1 - j)%nat with (2 * k - j)%nat by lia. reflexivity. }
  rewrite F. f_equal.
  - apply map_ext_in. intros j Hj. apply filter_In in Hj. destruct Hj as [Hj _].
    apply in_seq in Hj. rewrite E by lia. do 2 f_equal. lia.
  - apply map_ext_in. intros j Hj. apply filter_In in Hj. destruct Hj as [Hj _].
    apply in_seq in Hj. rewrite mirror_axis. f_equal. unfold gridpt_posn.
    replace (Nat.div (S (2 * k) - 1) 2) with k; [lia|].
    replace (S (2 * k) - 1)%nat with (k * 2)%nat by lia. now rewrite Nat.div_mul.
Qed.

Theorem first_mirror : forall h h' up dn dirn k,
  In (up, dn) [("dupD", "ddnD"); ("dfullupD", "dfulldnD"); ("dD", "dD")]%string ->
  (dirn < 3)%nat -> (1 <= k)%nat ->
  exists cs ts, fd_request h (deriv_string up dirn) (2 * k) = Ok (cs, ts) /\
    fd_request h' (deriv_string dn dirn) (2 * k) = Ok (map Qcopp (rev cs), map mirror (rev ts)).
Proof.
  intros h h' up dn dirn k Hp Hd Hk.
  assert (Hu : In up first_ops /\ In dn first_ops).
  { cbn in Hp. repeat destruct Hp as [Hp|Hp]; try contradiction; injection Hp as <- <-; cbn; tauto. }
  destruct Hu as [Hu Hn].
  assert (Hs : op_shift dn k = (- op_shift up k)%Z).
  { cbn in Hp. repeat destruct Hp as [Hp|Hp]; try contradiction; injection Hp as <- <-; cbn; lia. }
  destruct (first_shape h up dirn k Hu Hd Hk) as (c & M & E).
  destruct (first_shape h' dn dirn k Hn Hd Hk) as (c' & M' & E').
  rewrite Hs in *.
  exists (fst (shape (S (2 * k)) (op_shift up k) dirn c)), (snd (shape (S (2 * k)) (op_shift up k) dirn c)).
  split; [rewrite E; reflexivity|].
  rewrite E', (shape_mirror k (op_shift up k) 1 dirn c c') by (auto; lia).
  do 2 f_equal; try (apply map_ext; intros; rewrite Qcpow_S, Qcpow_0; ring).
Qed.

Theorem second_mirror : forall h dirn k, (dirn < 3)%nat -> (1 <= k)%nat ->
  exists cs ts, fd_request h (deriv_string2 "dDD" dirn dirn) (2 * k) = Ok (cs, ts) /\
    rev cs = cs /\ map mirror (rev ts) = ts.
Proof.
  intros h dirn k Hd Hk.
  destruct (second_shape h dirn k Hd Hk) as (c & M & E).
  pose proof (shape_mirror k 0 2 dirn c c ltac:(lia) M M) as S. change (- 0)%Z with 0%Z in S.
  exists (fst (shape (Datatypes.S (2 * k)) 0 dirn c)), (snd (shape (Datatypes.S (2 * k)) 0 dirn c)).
  split; [rewrite E; reflexivity|].
  assert (A := f_equal fst S). assert (B := f_equal snd S). cbn [fst snd] in A, B.
  split; [|symmetry; exact B].
  rewrite A at 2. rewrite <- map_id at 1. apply map_ext. intros a.
  rewrite !Qcpow_S, Qcpow_0. ring.
Qed.

(** ** Support of the stencils *)
Lemma axis_inj : forall d u v, axis d u = axis d v -> u = v.
Proof. intros [|[|d]] u v H; inversion H; auto. Qed.

Lemma posn_centre : forall k s i, gridpt_posn (S (2 * k)) s i = (Z.of_nat i - Z.of_nat k + s)%Z.
Proof.
  intros. unfold gridpt_posn. replace (Nat.div (S (2 * k) - 1) 2) with k; [lia|].
  replace (S (2 * k) - 1)%nat with (k * 2)%nat by lia. now rewrite Nat.div_mul.
Qed.

Definition good_support (dirn : nat) (lo hi : Z) (cs : list Qc) (ts : list idx3) : Prop :=
  List.length cs = List.length ts /\ NoDup ts /\ (forall c, In c cs -> c <> 0) /\
  (forall t, In t ts -> exists v, t = axis dirn v /\ (lo <= v <= hi)%Z).

Lemma NoDup_map_inj_in : forall (A B : Type) (f : A -> B) l,
  (forall a b, In a l -> In b l -> f a = f b -> a = b) -> NoDup l -> NoDup (map f l).
Proof.
  intros A B f l Hf H; induction H as [|a l Ha Hl IH]; cbn; constructor.
  - rewrite in_map_iff. intros (b & E & Hb). apply Ha.
    rewrite <- (Hf b a); cbn; auto.
  - apply IH. intros; apply Hf; cbn; auto.
Qed.

Lemma shape_support : forall k s dirn c,
  good_support dirn (- Z.of_nat k + s) (Z.of_nat k + s)
    (fst (shape (S (2 * k)) s dirn c)) (snd (shape (S (2 * k)) s dirn c)).
Proof.
  intros k s dirn c. unfold shape; cbn [fst snd]. repeat split.
  - now rewrite !map_length.
  - apply NoDup_map_inj_in; [|apply NoDup_filter, seq_NoDup].
    intros a b _ _ H. apply axis_inj in H. rewrite !posn_centre in H. lia.
  - intros x Hx. apply in_map_iff in Hx. destruct Hx as (i & <- & Hi).
    apply filter_In in Hi. destruct Hi as [_ Hi]. unfold nzb in Hi.
    apply negb_true_iff, qeqb_neq in Hi. exact Hi.
  - intros t Ht. apply in_map_iff in Ht. destruct Ht as (i & <- & Hi).
    apply filter_In in Hi. destruct Hi as [Hi _]. apply in_seq in Hi.
    eexists; split; [reflexivity|]. rewrite posn_centre. lia.
Qed.

Theorem first_support : forall h op dirn k, In op first_ops -> (dirn < 3)%nat -> (1 <= k)%nat ->
  exists cs ts, fd_request h (deriv_string op dirn) (2 * k) = Ok (cs, ts) /\
    good_support dirn (- Z.of_nat k + op_shift op k) (Z.of_nat k + op_shift op k) cs ts.
Proof.
  intros h op dirn k Hop Hd Hk.
  destruct (first_shape h op dirn k Hop Hd Hk) as (c & M & E).
  do 2 eexists; split; [rewrite E; unfold shape; reflexivity|]. exact (shape_support k _ dirn c).
Qed.

Theorem second_support : forall h dirn k, (dirn < 3)%nat -> (1 <= k)%nat ->
  exists cs ts, fd_request h (deriv_string2 "dDD" dirn dirn) (2 * k) = Ok (cs, ts) /\
    good_support dirn (- Z.of_nat k) (Z.of_nat k) cs ts.
Proof.
  intros h dirn k Hd Hk.
  destruct (second_shape h dirn k Hd Hk) as (c & M & E).
  do 2 eexists; split; [rewrite E; unfold shape; reflexivity|].
  pose proof (shape_support k 0 dirn c) as S. rewrite !Z.add_0_r in S. exact S.
Qed.

(** ** Kreiss-Oliger dissipation *)
Lemma binom_0 : forall n, binom n 0 = 1%nat. Proof. destruct n; reflexivity. Qed.
Lemma binom_gt : forall n k, (n < k)%nat -> binom n k = 0%nat.
Proof.
  induction n; intros [|k] H; try lia; cbn; auto. rewrite !IHn by lia. reflexivity.
Qed.
Lemma binom_pos : forall n k, (k <= n)%nat -> (0 < binom n k)%nat.
Proof.
  induction n; intros [|k] H; cbn; try lia. specialize (IHn k). lia.
Qed.

Lemma binom_fact : forall n a b, n = (a + b)%nat ->
  (binom n a * (factorial a * factorial b) = factorial n)%nat.
Proof.
  induction n; intros a b H.
  - assert (a = 0 /\ b = 0)%nat as [-> ->] by lia. reflexivity.
  - destruct a as [|a].
    + cbn [Nat.add] in H. subst b. rewrite binom_0. change (factorial 0) with 1%nat. lia.
    + destruct b as [|b].
      * assert (a = n) by lia. subst a. cbn [binom].
        rewrite (binom_gt n (S n)) by lia. specialize (IHn n 0%nat ltac:(lia)).
        cbn [factorial] in *. nia.
      * cbn [binom]. pose proof (IHn a (S b) ltac:(lia)) as I1.
        pose proof (IHn (S a) b ltac:(lia)) as I2.
        assert (E1 : factorial (S a) = (S a * factorial a)%nat) by reflexivity.
        assert (E2 : factorial (S b) = (S b * factorial b)%nat) by reflexivity.
        assert (E3 : factorial (S n) = (S n * factorial n)%nat) by reflexivity.
        rewrite E3.
        transitivity (S a * (binom n a * (factorial a * factorial (S b))) +
                      S b * (binom n (S a) * (factorial (S a) * factorial b)))%nat.
        { rewrite E1, E2. ring. }
        rewrite I1, I2. replace n with (a + S b)%nat by lia. lia.
Qed.

Lemma factorial_pos : forall n, (0 < factorial n)%nat.
Proof. induction n; cbn [factorial]; nia. Qed.

Lemma qlprod_asc : forall j n, (n <= j)%nat ->
  qlprod (map (fun m => qn j - qn m) (seq (j - n) n)) = qn (factorial n).
Proof.
  intros j; induction n; intros H; [cbn; now rewrite qn_1|].
  cbn [seq map]. unfold qlprod in *. cbn [fold_right].
  replace (S (j - S n)) with (j - n)%nat by lia. rewrite IHn by lia.
  cbn [factorial]. rewrite qn_mul. f_equal.
  replace j with ((j - S n) + S n)%nat at 1 by lia. rewrite qn_add. ring.
Qed.

Lemma qlprod_desc : forall j n,
  qlprod (map (fun m => qn j - qn m) (seq (S j) n)) = (-(1)) ^ n * qn (factorial n).
Proof.
  intros j; induction n; [cbn; rewrite qn_1; ring|].
  rewrite seq_S, map_app, qlprod_app, IHn. cbn [map]. unfold qlprod; cbn [fold_right].
  cbn [factorial]. rewrite qn_mul, Qcpow_S.
  replace (S j + n)%nat with (j + S n)%nat by lia. rewrite qn_add. ring.
Qed.

Definition others (w j : nat) : list nat := (seq 0 j ++ seq (S j) (w - 1 - j))%list.

Lemma in_others : forall w j m, (j < w)%nat -> (In m (others w j) <-> ((m < w)%nat /\ m <> j)).
Proof. intros. unfold others. rewrite in_app_iff, !in_seq. lia. Qed.

Lemma node_diff : forall w s i j, fd_node w s i - fd_node w s j = qn i - qn j.
Proof. intros. unfold fd_node. ring. Qed.

(** Top-derivative weights are reciprocal node products. *)
Lemma top_moments : forall n s c j, (j <= n)%nat ->
  moments (S n) (fd_node (S n) s) n c ->
  c j * (qn (factorial j) * ((-(1)) ^ (n - j) * qn (factorial (n - j)))) = qn (factorial n).
Proof.
  intros n s c j Hj M.
  set (P := pprod (map (fd_node (S n) s) (others (S n) j))).
  assert (LP : List.length P = S n).
  { unfold P. rewrite pprod_length, map_length. unfold others.
    rewrite app_length, !seq_length. lia. }
  pose proof (moments_poly (S n) (fd_node (S n) s) n c P ltac:(lia) M ltac:(lia)) as E.
  assert (Mon : nth n P 0 = 1).
  { pose proof (pprod_monic (map (fd_node (S n) s) (others (S n) j))) as Q. fold P in Q.
    rewrite map_length in Q. replace (List.length (others (S n) j)) with n in Q; auto.
    unfold others. rewrite app_length, !seq_length. lia. }
  rewrite Mon in E. rewrite (qsum_single _ j) in E; [|lia|].
  2:{ intros i Hi Hij. unfold P. rewrite peval_pprod, map_map, qlprod_zero; [ring|].
      apply in_map_iff. exists i. split; [ring|]. apply in_others; lia. }
  rewrite Qcmult_1_r in E. rewrite <- E. f_equal.
  unfold P. rewrite peval_pprod, map_map.
  rewrite (map_ext _ (fun m => qn j - qn m)) by (intros; apply node_diff).
  unfold others. rewrite map_app, qlprod_app.
  replace (S n - 1 - j)%nat with (n - j)%nat by lia. rewrite qlprod_desc.
  pose proof (qlprod_asc j j (le_n j)) as A. rewrite Nat.sub_diag in A. rewrite A. reflexivity.
Qed.

Lemma top_closed : forall n s c j, (j <= n)%nat -> moments (S n) (fd_node (S n) s) n c ->
  c j = (-(1)) ^ (n - j) * qn (binom n j).
Proof.
  intros n s c j Hj M. pose proof (top_moments n s c j Hj M) as E.
  pose proof (binom_fact n j (n - j) ltac:(lia)) as B.
  set (K := qn (factorial j) * ((-(1)) ^ (n - j) * qn (factorial (n - j)))) in *.
  assert (HK : K <> 0).
  { unfold K. repeat apply Qc_mul_nonzero; try apply m1_pow_nz;
      apply qn_nonzero; pose proof (factorial_pos j); pose proof (factorial_pos (n - j)); lia. }
  apply (Qc_mul_cancel _ _ K HK). rewrite E, <- B, !qn_mul. unfold K.
  transitivity (((-(1)) ^ (n - j) * (-(1)) ^ (n - j)) *
                (qn (binom n j) * (qn (factorial j) * qn (factorial (n - j))))); [|ring].
  rewrite m1_pow_sq. ring.
Qed.

Lemma KO_facts : forall dirn fo, (dirn < 3)%nat ->
  let ds := deriv_string "dKOD" dirn in
  fd_order_eff ds fo = (fo + 2)%nat /\ (forall n, fd_shift ds n = 0%Z) /\
  (forall w, fd_type_row ds w = Ok (KreissOligerDeriv, (w - 1)%nat)) /\
  int_of_char (char_from_end ds 0) = Ok dirn.
Proof.
  intros dirn fo Hd ds; subst ds; dirn_cases dirn Hd; repeat split.
Qed.

(** The stencil the documentation promises: all offsets from -(k+1) to k+1 along the direction. *)
Definition ko_coeff (k j : nat) : Qc :=
  (-(1)) ^ (k + j) * qn (binom (2 * k + 2) j) / (qn 2) ^ (2 * k + 2).

Lemma ko_factor_even : forall k, ko_factor (S (2 * k + 2)) (2 * k + 2)
  = Ok ((-(1)) ^ (k + 2) / (qn 2) ^ (2 * k + 2)).
Proof.
  intros k. unfold ko_factor. replace (S (2 * k + 2) + 1)%nat with (2 * (k + 2))%nat by lia.
  rewrite Nat.even_mul. cbn [Nat.even orb].
  replace (Nat.div (2 * (k + 2)) 2) with (k + 2)%nat.
  2:{ rewrite Nat.mul_comm. now rewrite Nat.div_mul. }
  change (qz (-1)) with (-(1)). reflexivity.
Qed.

Lemma qn2_pow_nz : forall n, (qn 2) ^ n <> 0.
Proof. intros. apply Qcpow_nonzero. apply qn_nonzero. lia. Qed.

Lemma Qcpow_add : forall (x : Qc) a b, x ^ (a + b) = x ^ a * x ^ b.
Proof.
  intros x a b; induction a; [cbn [Nat.add]; rewrite Qcpow_0; ring|].
  cbn [Nat.add]. rewrite !Qcpow_S, IHa. ring.
Qed.

Theorem KO_closed : forall h dirn k, (dirn < 3)%nat ->
  fd_request h (deriv_string "dKOD" dirn) (2 * k) =
  Ok (map (ko_coeff k) (seq 0 (2 * k + 3)),
      map (fun j => axis dirn (Z.of_nat j - Z.of_nat (k + 1))) (seq 0 (2 * k + 3))).
Proof.
  intros h dirn k Hd. rewrite fd_request_nil.
  destruct (KO_facts dirn (2 * k) Hd) as (H1 & H2 & H3 & H4).
  set (ds := deriv_string "dKOD" dirn) in *.
  destruct (compute_eq ds (2 * k)) as (Minv & _ & R & E). cbv zeta in *.
  rewrite H1, H2, H3 in *. set (n := (2 * k + 2)%nat) in *.
  replace (S n - 1)%nat with n in E by lia.
  destruct (Nat.leb_spec (S n) n); [lia|].
  pose proof (column_moments (S n) 0 Minv n ltac:(lia) R) as M.
  assert (C : forall j, (j <= n)%nat -> cf n Minv j = (-(1)) ^ (n - j) * qn (binom n j)).
  { intros j Hj. exact (top_closed n 0 (cf n Minv) j Hj M). }
  rewrite E. rewrite (fd_loop_KO ds (S n) n 0 Minv dirn H4 Hd _ (S n) 0 ([], []) (ko_factor_even k)).
  3: reflexivity.
  2:{ intros i Hi. rewrite C by lia. apply Qc_mul_nonzero; [apply m1_pow_nz|].
      apply qn_nonzero. pose proof (binom_pos n i). lia. }
  cbn [fst snd app]. replace (2 * k + 3)%nat with (S n) by lia. do 2 f_equal.
  - apply map_ext_in. intros j Hj. apply in_seq in Hj. rewrite C by lia. unfold ko_coeff.
    fold n. unfold Qcdiv. 
    transitivity (((-(1)) ^ (n - j) * (-(1)) ^ (k + 2)) * (qn (binom n j) * / qn 2 ^ n)); [ring|].
    transitivity ((-(1)) ^ (k + j) * (qn (binom n j) * / qn 2 ^ n)); [f_equal|ring].
    rewrite <- Qcpow_add.
    assert (Q : forall a b c, (a + b = c + c)%nat -> (-(1)) ^ a = (-(1)) ^ b).
    { intros a b c Habc. apply (Qc_mul_cancel _ _ ((-(1)) ^ b)); [apply m1_pow_nz|].
      rewrite <- Qcpow_add, m1_pow_sq, Habc, Qcpow_add, m1_pow_sq. reflexivity. }
    apply (Q _ _ (2 * k + 2)%nat). lia.
  - apply map_ext. intros j. unfold pos. f_equal.
    replace (S n) with (S (2 * (k + 1))) by lia. rewrite posn_centre. lia.
Qed.

Lemma qz_posn_node : forall k j, (j <= 2 * k + 2)%nat ->
  qz (Z.of_nat j - Z.of_nat (k + 1)) = fd_node (S (2 * (k + 1))) 0 j.
Proof. intros. rewrite node_posn, posn_centre. f_equal. lia. Qed.

Theorem KO_annihilates : forall h dirn k f p, (dirn < 3)%nat ->
  (forall v, f (axis dirn v) = peval p (qz v)) -> (List.length p <= 2 * k + 2)%nat ->
  exists r, fd_request h (deriv_string "dKOD" dirn) (2 * k) = Ok r /\ apply_stencil r f = 0.
Proof.
  intros h dirn k f p Hd Hf Hp. eexists; split; [apply KO_closed; auto|].
  set (n := (2 * k + 2)%nat) in *.
  rewrite apply_map. replace (2 * k + 3)%nat with (S n) by lia. rewrite lsum_seq.
  destruct (fd_inverse_correct (S n) 0) as (_ & Minv & _ & R & _).
  pose proof (column_moments (S n) 0 Minv n ltac:(lia) R) as M.
  pose proof (moments_poly (S n) _ n _ p ltac:(lia) M ltac:(lia)) as Z.
  rewrite (nth_overflow p) in Z by lia.
  rewrite (qsum_ext _ _ (fun j => ((-(1)) ^ k / qn 2 ^ n) *
       (qn (factorial n) * Minv j n * peval p (fd_node (S n) 0 j)))).
  { rewrite qsum_scale, Z. ring. }
  intros j Hj. rewrite Hf, qz_posn_node by lia. replace (S (2 * (k + 1))) with (S n) by lia.
  pose proof (top_closed n 0 _ j ltac:(lia) M) as C. cbv beta in C. rewrite C.
  unfold ko_coeff. fold n. unfold Qcdiv.
  assert (Q : (-(1)) ^ (n - j) = (-(1)) ^ j).
  { apply (Qc_mul_cancel _ _ ((-(1)) ^ j)); [apply m1_pow_nz|].
    rewrite <- Qcpow_add, m1_pow_sq. replace (n - j + j)%nat with ((k + 1) + (k + 1))%nat by lia.
    rewrite Qcpow_add, m1_pow_sq. reflexivity. }
  rewrite Q, Qcpow_add. ring.
Qed.

(** Row sums of Pascal's triangle. *)
Lemma binom_sum : forall n, qsum (S n) (fun j => qn (binom n j)) = qn 2 ^ n.
Proof.
  induction n; [cbn; rewrite qn_1; ring|].
  rewrite qsum_shift.
  rewrite (qsum_ext _ _ (fun j => qn (binom n j) + qn (binom n (S j)))).
  2:{ intros; cbn [binom]; apply qn_add. }
  rewrite qsum_add, IHn.
  assert (E : qsum (S n) (fun j => qn (binom n (S j))) = qn 2 ^ n - 1).
  { pose proof (qsum_shift (S n) (fun j => qn (binom n j))) as H.
    assert (H2 : qsum (S (S n)) (fun j => qn (binom n j)) = qn 2 ^ n).
    { change (qsum (S (S n)) (fun j => qn (binom n j))) with
        (qsum (S n) (fun j => qn (binom n j)) + qn (binom n (S n))).
      rewrite IHn, binom_gt by lia. rewrite qn_0. ring. }
    rewrite H2 in H. rewrite H, binom_0, qn_1. ring. }
  rewrite E, binom_0, Qcpow_S. replace (qn 2) with (1 + 1) at 3 by (apply Qc_is_canon; reflexivity).
  rewrite qn_1. ring.
Qed.

Lemma zsign_nat : forall n, zsign (Z.of_nat n) = (-(1)) ^ n.
Proof.
  unfold zsign. induction n as [|n IH]; [reflexivity|].
  rewrite Qcpow_S, <- IH, Nat2Z.inj_succ, Z.even_succ, <- Z.negb_even.
  destruct (Z.even (Z.of_nat n)); cbn [negb]; ring.
Qed.

Lemma zsign_sub : forall a b, zsign (a - b) = zsign a * zsign b.
Proof.
  intros a b; unfold zsign. rewrite Z.even_sub.
  destruct (Z.even a), (Z.even b); cbn [Bool.eqb]; ring.
Qed.

(** The highest-frequency grid mode is damped at unit rate. *)
Theorem KO_damps : forall h dirn k f, (dirn < 3)%nat ->
  (forall v, f (axis dirn v) = zsign v) ->
  exists r, fd_request h (deriv_string "dKOD" dirn) (2 * k) = Ok r /\ apply_stencil r f = -(1).
Proof.
  intros h dirn k f Hd Hf. eexists; split; [apply KO_closed; auto|].
  rewrite apply_map. set (n := (2 * k + 2)%nat). replace (2 * k + 3)%nat with (S n) by lia.
  rewrite lsum_seq.
  rewrite (qsum_ext _ _ (fun j => (-(1) / qn 2 ^ n) * qn (binom n j))).
  { rewrite qsum_scale, binom_sum. field. apply qn2_pow_nz. }
  intros j _. rewrite Hf, zsign_sub, !zsign_nat. unfold ko_coeff. fold n.
  rewrite !Qcpow_add, Qcpow_S, Qcpow_0. unfold Qcdiv.
  transitivity (((-(1)) ^ k * (-(1)) ^ k) * ((-(1)) ^ j * (-(1)) ^ j) * (-(1) * / qn 2 ^ n * qn (binom n j))).
  { ring. }
  rewrite !m1_pow_sq. ring.
Qed.

(** ** Mixed second derivatives *)
Lemma mixed_facts : forall d1 d2 k, (d1 < 3)%nat -> (d2 < 3)%nat -> d1 <> d2 ->
  let ds := deriv_string2 "dDD" d1 d2 in
  fd_order_eff ds (2 * k) = (2 * k)%nat /\
    fd_shift ds (2 * k) = 0%Z /\
    (forall w, fd_type_row ds w = Ok (MixedSecondDeriv, 1%nat)) /\
    int_of_char (char_from_end ds 0) = Ok d2 /\ int_of_char (char_from_end ds 1) = Ok d1.
Proof.
  intros d1 d2 k H1 H2 Hn ds; subst ds; dirn_cases d1 H1; dirn_cases d2 H2;
    try congruence; repeat split.
Qed.

(** Shift of grid data. *)
Definition tadd (a b : idx3) : idx3 :=
  let '(x, y, z) := a in let '(u, v, w) := b in (x + u, y + v, z + w)%Z.

Lemma mixed_idx_tadd : forall d1 d2 u v, (d1 < 3)%nat -> (d2 < 3)%nat -> d1 <> d2 ->
  mixed_idx d2 d1 u v = tadd (axis d1 v) (axis d2 u).
Proof.
  intros d1 d2 u v H1 H2 Hn. dirn_cases d1 H1; dirn_cases d2 H2; try congruence;
    unfold mixed_idx; cbn [axis idx3_set tadd]; repeat f_equal; lia.
Qed.

Lemma lsum_list_prod : forall (f : nat * nat -> Qc) n m,
  lsum (map f (list_prod (seq 0 n) (seq 0 m))) = qsum n (fun i => qsum m (fun j => f (i, j))).
Proof.
  intros f n m. rewrite <- lsum_seq. generalize (seq 0 n) as l.
  induction l as [|a l IH]; [reflexivity|]. cbn [list_prod map].
  rewrite map_app, lsum_app, map_map, IH, lsum_seq. reflexivity.
Qed.

Theorem mixed_shape : forall h d1 d2 k, (d1 < 3)%nat -> (d2 < 3)%nat -> d1 <> d2 -> (1 <= k)%nat ->
  exists Minv, moments (S (2 * k)) (fd_node (S (2 * k)) 0) 1 (cf 1 Minv) /\
    fd_request h (deriv_string2 "dDD" d1 d2) (2 * k) =
    Ok (map (mcf Minv) (filter (mnz Minv) (list_prod (seq 0 (S (2 * k))) (seq 0 (S (2 * k))))),
        map (mpos (S (2 * k)) d2 d1)
          (filter (mnz Minv) (list_prod (seq 0 (S (2 * k))) (seq 0 (S (2 * k)))))) /\
    (forall dirn, (dirn < 3)%nat -> fd_request h (deriv_string "dD" dirn) (2 * k) =
       Ok (shape (S (2 * k)) 0 dirn (cf 1 Minv))).
Proof.
  intros h d1 d2 k H1 H2 Hn Hk.
  destruct (mixed_facts d1 d2 k H1 H2 Hn) as (F1 & F2 & F3 & F4 & F5).
  destruct (compute_eq (deriv_string2 "dDD" d1 d2) (2 * k)) as (Minv & S1 & R & E). cbv zeta in *.
  rewrite F1, F2, F3 in *. exists Minv. split; [|split].
  - apply column_moments; auto. lia.
  - rewrite fd_request_nil, E. destruct (Nat.leb_spec (S (2 * k)) 1); [lia|].
    rewrite (fd_mixed_loop_eq _ _ _ d2 d1 F4 F5 H2 H1). reflexivity.
  - intros dirn Hd. rewrite fd_request_nil.
    destruct (first_facts "dD" dirn k ltac:(cbn; auto) Hd) as (G1 & G2 & G3 & G4).
    destruct (compute_eq (deriv_string "dD" dirn) (2 * k)) as (Minv' & S2 & _ & E'). cbv zeta in *.
    rewrite G1, G2, G3 in *. change (op_shift "dD" k) with 0%Z in *.
    rewrite S1 in S2. injection S2 as <-.
    rewrite E'. destruct (Nat.leb_spec (S (2 * k)) 1); [lia|].
    rewrite (fd_loop_plain _ _ _ _ _ dirn G4 Hd) by reflexivity. reflexivity.
Qed.

Lemma mixed_apply : forall k d1 d2 Minv f, (d1 < 3)%nat -> (d2 < 3)%nat -> d1 <> d2 ->
  apply_stencil
   (map (mcf Minv) (filter (mnz Minv) (list_prod (seq 0 (S (2 * k))) (seq 0 (S (2 * k))))),
    map (mpos (S (2 * k)) d2 d1) (filter (mnz Minv) (list_prod (seq 0 (S (2 * k))) (seq 0 (S (2 * k)))))) f
  = qsum (S (2 * k)) (fun i => qsum (S (2 * k)) (fun j =>
      cf 1 Minv i * cf 1 Minv j *
      f (tadd (axis d1 (gridpt_posn (S (2 * k)) 0 j)) (axis d2 (gridpt_posn (S (2 * k)) 0 i))))).
Proof.
  intros k d1 d2 Minv f H1 H2 Hn.
  rewrite apply_map, lsum_filter, lsum_list_prod.
  - apply qsum_ext; intros i _; apply qsum_ext; intros j _. unfold mcf, mpos; cbn [fst snd].
    now rewrite mixed_idx_tadd.
  - intros a _ H. apply negb_false_iff, qeqb_eq in H. rewrite H. ring.
Qed.

(** The mixed stencil is the composition of the two first-derivative stencils. *)
Theorem mixed_composition : forall h d1 d2 k f, (d1 < 3)%nat -> (d2 < 3)%nat -> d1 <> d2 -> (1 <= k)%nat ->
  exists r r1 r2, fd_request h (deriv_string2 "dDD" d1 d2) (2 * k) = Ok r /\
    fd_request h (deriv_string "dD" d1) (2 * k) = Ok r1 /\
    fd_request h (deriv_string "dD" d2) (2 * k) = Ok r2 /\
    apply_stencil r f = apply_stencil r1 (fun t => apply_stencil r2 (fun u => f (tadd t u))).
Proof.
  intros h d1 d2 k f H1 H2 Hn Hk.
  destruct (mixed_shape h d1 d2 k H1 H2 Hn Hk) as (Minv & M & E & E1).
  do 3 eexists. split; [exact E|]. split; [apply E1; auto|]. split; [apply E1; auto|].
  rewrite mixed_apply by auto. rewrite apply_shape, qsum_swap.
  apply qsum_ext. intros j _. rewrite apply_shape, <- qsum_scale.
  apply qsum_ext. intros i _. ring.
Qed.

(** Bivariate polynomials: a list of coefficient lists, outer variable along the first direction. *)
Definition peval2 (p : list (list Qc)) (x y : Qc) : Qc := peval (map (fun q => peval q y) p) x.

Theorem mixed_exact : forall h d1 d2 k f p, (d1 < 3)%nat -> (d2 < 3)%nat -> d1 <> d2 -> (1 <= k)%nat ->
  (forall u v, f (tadd (axis d1 u) (axis d2 v)) = peval2 p (qz u) (qz v)) ->
  (List.length p <= 2 * k + 1)%nat -> (forall q, In q p -> (List.length q <= 2 * k + 1)%nat) ->
  exists r, fd_request h (deriv_string2 "dDD" d1 d2) (2 * k) = Ok r /\
    apply_stencil r f = peval (pderiv (map (fun q => peval (pderiv q) 0) p)) 0.
Proof.
  intros h d1 d2 k f p H1 H2 Hn Hk Hf Hp Hq.
  destruct (mixed_shape h d1 d2 k H1 H2 Hn Hk) as (Minv & M & E & _).
  eexists; split; [exact E|]. rewrite mixed_apply by auto.
  set (w := S (2 * k)) in *. set (c := cf 1 Minv) in *. set (x := fd_node w 0) in *.
  rewrite (qsum_ext w _ (fun i => c i * (peval (map (fun q => peval q (x i)) p) 0
                                    - peval (map (fun q => peval q (x i)) p) 0
                                    + nth 1 (map (fun q => peval q (x i)) p) 0))).
  2:{ intros i Hi. rewrite (qsum_ext w _ (fun j => c i * (c j * peval (map (fun q => peval q (x i)) p) (x j)))).
      2:{ intros j Hj. rewrite Hf. unfold peval2, x, w. rewrite !node_posn. ring. }
      rewrite qsum_scale. rewrite (moments_poly w x 1 c) by (auto; rewrite ?map_length; lia).
      cbn [factorial Nat.mul Nat.add]. rewrite qn_1. ring. }
  rewrite pderiv_0.
  assert (N : forall g : list Qc -> Qc, g [] = 0 -> nth 1 (map g p) 0 = g (nth 1 p [])).
  { intros g Hg. rewrite <- Hg at 1. apply map_nth. }
  rewrite N by reflexivity.
  rewrite (qsum_ext w _ (fun i => c i * peval (nth 1 p []) (x i))).
  2:{ intros i _. rewrite N by reflexivity. ring. }
  assert (L1 : (List.length (nth 1 p []) <= w)%nat).
  { destruct (Nat.lt_ge_cases 1 (List.length p)) as [L|L].
    - pose proof (Hq _ (nth_In p [] L)). unfold w. lia.
    - rewrite (nth_overflow p) by lia. cbn [List.length]. lia. }
  rewrite (moments_poly w x 1 c) by (auto; unfold w; lia).
  rewrite pderiv_0. cbn [factorial Nat.mul Nat.add]. rewrite qn_1. ring.
Qed.

Lemma NoDup_app_intro : forall (A : Type) (l1 l3 : list A), NoDup l1 -> NoDup l3 ->
  (forall y, In y l1 -> ~ In y l3) -> NoDup (l1 ++ l3).
Proof.
  intros A l1 l3 N1 N3 Di; induction N1 as [|y l1 Hy Nl IH2]; cbn; auto. constructor.
  - rewrite in_app_iff. intros [I|I]; [auto|]. apply (Di y); cbn; auto.
  - apply IH2. intros; apply Di; cbn; auto.
Qed.

Lemma NoDup_list_prod : forall (A B : Type) (l : list A) (l2 : list B),
  NoDup l -> NoDup l2 -> NoDup (list_prod l l2).
Proof.
  intros A B l l2 ND ND2. induction ND as [|a l Ha Hl IH]; cbn [list_prod]; [constructor|].
  apply NoDup_app_intro; auto.
  - apply NoDup_map_inj_in; auto. intros u v _ _ HH; inversion HH; auto.
  - intros [u v] Hu Hv. apply in_map_iff in Hu. destruct Hu as (y & Ey & _). inversion Ey; subst.
    apply in_prod_iff in Hv. tauto.
Qed.

Theorem mixed_support : forall h d1 d2 k, (d1 < 3)%nat -> (d2 < 3)%nat -> d1 <> d2 -> (1 <= k)%nat ->
  exists cs ts, fd_request h (deriv_string2 "dDD" d1 d2) (2 * k) = Ok (cs, ts) /\
    List.length cs = List.length ts /\ NoDup ts /\ (forall c, In c cs -> c <> 0) /\
    (forall t, In t ts -> exists u v, t = tadd (axis d1 u) (axis d2 v) /\
    (- Z.of_nat k <= u <= Z.of_nat k)%Z /\ (- Z.of_nat k <= v <= Z.of_nat k)%Z).
Proof.
  intros h d1 d2 k H1 H2 Hn Hk.
  destruct (mixed_shape h d1 d2 k H1 H2 Hn Hk) as (Minv & M & E & _).
  do 2 eexists; split; [exact E|]. repeat split.
  - now rewrite !map_length.
  - apply NoDup_map_inj_in.
    + intros [a b] [a' b'] _ _ H. unfold mpos in H; cbn [fst snd] in H.
      rewrite !mixed_idx_tadd in H by auto. rewrite !posn_centre in H.
      assert (a = a' /\ b = b') as [-> ->]; [|reflexivity].
      dirn_cases d1 H1; dirn_cases d2 H2; try congruence; cbn [axis tadd] in H; injection H; lia.
    + apply NoDup_filter, NoDup_list_prod; apply seq_NoDup.
  - intros c Hc. apply in_map_iff in Hc. destruct Hc as (i & <- & Hi).
    apply filter_In in Hi. destruct Hi as [_ Hi]. now apply negb_true_iff, qeqb_neq in Hi.
  - intros t Ht. apply in_map_iff in Ht. destruct Ht as ([i j] & <- & Hi).
    apply filter_In in Hi. destruct Hi as [Hi _]. apply in_prod_iff in Hi.
    destruct Hi as [Hi Hj]. apply in_seq in Hi, Hj.
    unfold mpos; cbn [fst snd]. rewrite mixed_idx_tadd by auto.
    do 2 eexists; split; [reflexivity|]. rewrite !posn_centre. lia.
Qed.
