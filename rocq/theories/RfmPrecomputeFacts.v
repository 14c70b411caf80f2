(** Lemmas about the precomputed reference-metric arrays. *)
From Coq Require Import String Ascii List ZArith Bool Lia Permutation Sorted.
From Verif Require Import PyBase PyBaseFacts PyList PyListFacts GridFacts RegistryFacts CFunction SimdLoop RfmPrecompute.
Import ListNotations.
Open Scope string_scope.
Open Scope list_scope.

Section Facts.
Variables (E : Type) (deps : E -> nat -> bool).
Notation item := (item E).
Notation out := (out E).

Definition of_xx (it : item) : bool := py_in "_of_xx" (it_name E it).
(** the direction and subscript an expression gets *)
Definition shape (f : nat -> bool) : option (nat * subscript) :=
  match f 0, f 1, f 2 with
  | true, false, false => Some (0, Sub1 0)
  | false, true, false => Some (1, Sub1 1)
  | false, false, true => Some (2, Sub1 2)
  | true, true, _ => Some (0, Sub2)
  | _, _, _ => None
  end.
Definition sh (it : item) : option (nat * subscript) := shape (deps (it_expr E it)).
Definition sub_of (it : item) : subscript := match sh it with Some (_, s) => s | None => Sub2 end.
Definition dir_of (it : item) : nat := match sh it with Some (d, _) => d | None => 3 end.
Definition used (it : item) : list nat := filter (deps (it_expr E it)) [0; 1; 2].

Lemma step_shape : forall it o,
  step E deps it o =
  if of_xx it then
    match sh it with
    | Some (d, s) => Ok (add_fill E it d s (MkOut E (o_members E o ++ [it_name E it])
                      (o_malloc E o ++ [(it_name E it, used it)]) (o_free E o ++ [it_name E it]) (o_fill E o) (o_read E o)))
    | None => Err RuntimeError
    end
  else Ok o.
Proof.
  intros it o. unfold step, of_xx, sh, used, shape. destruct (py_in "_of_xx" (it_name E it)); [|reflexivity].
  set (f := deps (it_expr E it)). cbv zeta. cbn [fold_left existsb].
  change ((0 + 1) mod 3) with 1. change ((0 + 2) mod 3) with 2. change ((1 + 1) mod 3) with 2.
  change ((1 + 2) mod 3) with 0. change ((2 + 1) mod 3) with 0. change ((2 + 2) mod 3) with 1.
  destruct (f 0) eqn:F0, (f 1) eqn:F1, (f 2) eqn:F2; cbn [andb negb orb]; reflexivity.
Qed.

Lemma steps_ok : forall l o o', steps E deps l o = Ok o' ->
  (forall it, In it l -> of_xx it = true -> sh it <> None) /\
  o_members E o' = o_members E o ++ map (it_name E) (filter of_xx l) /\
  o_malloc E o' = o_malloc E o ++ map (fun it => (it_name E it, used it)) (filter of_xx l) /\
  o_free E o' = o_free E o ++ map (it_name E) (filter of_xx l) /\
  o_fill E o' = o_fill E o ++ map (fun it => (it, sub_of it)) (filter of_xx l) /\
  (forall k, o_read E o' k = o_read E o k ++
     map (fun it => (it_name E it, sub_of it)) (filter (fun it => Nat.eqb (dir_of it) k) (filter of_xx l))).
Proof.
  induction l as [|it l IH]; intros o o' H.
  - cbn in H. injection H as <-. cbn. rewrite !app_nil_r. repeat split; auto. intros; now rewrite app_nil_r.
  - cbn [steps] in H. rewrite step_shape in H. cbn [filter]. destruct (of_xx it) eqn:O.
    + destruct (sh it) as [[d s]|] eqn:S; [|discriminate H]. cbn [py_bind] in H. apply IH in H as (A & B & C & D & F & G).
      assert (SD : sub_of it = s /\ dir_of it = d) by (unfold sub_of, dir_of; rewrite S; auto). destruct SD as [S1 S2].
      unfold add_fill in B, C, D, F, G. cbn in B, C, D, F, G.
      split; [|split; [|split; [|split; [|split]]]].
      * intros x [<-|X] Q; [congruence|auto].
      * rewrite B, <- app_assoc. reflexivity.
      * rewrite C, <- app_assoc. reflexivity.
      * rewrite D, <- app_assoc. reflexivity.
      * rewrite F, <- app_assoc. cbn [map]. rewrite S1. reflexivity.
      * intros k. rewrite G. cbn [filter map]. rewrite S2, (Nat.eqb_sym k d). destruct (Nat.eqb d k); [|reflexivity].
        cbn [map]. rewrite <- app_assoc, S1. reflexivity.
    + cbn [py_bind] in H. apply IH in H as (A & B). split; [|exact B]. intros x [<-|X] Q; [congruence|auto].
Qed.
Lemma steps_err : forall l o e, steps E deps l o = Err e ->
  e = RuntimeError /\ exists it, In it l /\ of_xx it = true /\ sh it = None.
Proof.
  induction l as [|it l IH]; intros o e H; [discriminate H|].
  cbn [steps] in H. rewrite step_shape in H. destruct (of_xx it) eqn:O.
  - destruct (sh it) as [[d s]|] eqn:S.
    + cbn [py_bind] in H. apply IH in H as (A & x & X & Y). split; auto. exists x. split; [now right|auto].
    + cbn [py_bind] in H. injection H as <-. split; auto. exists it. split; [now left|auto].
  - cbn [py_bind] in H. apply IH in H as (A & x & X & Y). split; auto. exists x. split; [now right|auto].
Qed.

Definition order (l : list item) : list item := py_sorted (fun a b => String.leb (it_key E a) (it_key E b)) l.
Definition kept (l : list item) : list item := filter of_xx (order l).
Lemma order_perm : forall l, Permutation l (order l).
Proof.
  intros l. apply py_sorted_spec.
  - intros a b. apply string_leb_tot.
  - intros a b c. apply string_leb_trans.
Qed.
Lemma in_kept : forall l it, In it (kept l) <-> In it l /\ of_xx it = true.
Proof.
  intros l it. unfold kept. rewrite filter_In. split; intros [A B]; split; auto.
  - eapply Permutation_in; [apply Permutation_sym, order_perm|exact A].
  - eapply Permutation_in; [apply order_perm|exact A].
Qed.
Lemma kept_perm : forall l, Permutation (filter of_xx l) (kept l).
Proof.
  intros l. unfold kept. generalize (order l), (order_perm l). intros l' P. induction P; cbn.
  - constructor.
  - destruct (of_xx x); auto.
  - destruct (of_xx x), (of_xx y); auto; constructor.
  - etransitivity; eauto.
Qed.

(** ** Filling *)
Section Heap.
Variables (X V : Type) (size : nat -> Z) (xx : nat -> Z -> X) (eval : E -> (nat -> option X) -> option V).
Notation heap := (dict (Z * (Z -> option V))).
Definition puts (n : string) (l : list (Z * option V)) (h : option heap) : option heap :=
  fold_left (fun h p => assign V n (fst p) (snd p) h) l h.
Lemma puts_none : forall n l, puts n l None = None.
Proof. induction l as [|p l IH]; [reflexivity|exact IH]. Qed.
Lemma puts_app : forall n l l' h, puts n (l ++ l') h = puts n l' (puts n l h).
Proof. intros. apply fold_left_app. Qed.
Lemma puts_bad : forall n l h, In None (map snd l) -> puts n l h = None.
Proof.
  intros n l. induction l as [|[i v] l IH]; intros h I; [destruct I|].
  change (puts n ((i, v) :: l) h) with (puts n l (assign V n i v h)). destruct I as [Q|I]; [|auto].
  cbn in Q. subst v. replace (assign V n i None h) with (@None heap); [apply puts_none|].
  unfold assign. destruct h as [h|]; [destruct (dget n h) as [[]|]|]; reflexivity.
Qed.
(** assignments of the values of one function inside the array all succeed *)
Lemma puts_ok : forall n f l h len c, dget n h = Some (len, c) ->
  (forall i v, In (i, v) l -> (0 <= i < len)%Z /\ v = Some (f i)) ->
  exists h' c', puts n l (Some h) = Some h' /\ dget n h' = Some (len, c') /\
    (forall j, In j (map fst l) -> c' j = Some (f j)) /\ (forall j, ~ In j (map fst l) -> c' j = c j) /\
    (forall m, m <> n -> dget m h' = dget m h) /\ dkeys h' = dkeys h.
Proof.
  intros n f l. induction l as [|[i v] l IH]; intros h len c G Q.
  - exists h, c. repeat split; auto. intros j [].
  - change (puts n ((i, v) :: l) (Some h)) with (puts n l (assign V n i v (Some h))).
    destruct (Q i v (or_introl eq_refl)) as [B ->]. unfold assign. rewrite G.
    replace ((0 <=? i)%Z && (i <? len)%Z) with true by (symmetry; apply andb_true_intro; split; [apply Z.leb_le|apply Z.ltb_lt]; lia).
    destruct (IH (dset n (len, fun j => if (j =? i)%Z then Some (f i) else c j) h) len _ (dget_dset_same _ _ _)) as
      (h' & c' & P1 & P2 & P3 & P4 & P5 & P6).
    { intros i' v' I. apply Q. now right. }
    exists h', c'. split; [exact P1|]. split; [exact P2|]. split; [|split; [|split]].
    + intros j [<-|I]; [|auto]. destruct (in_dec Z.eq_dec i (map fst l)) as [I|I]; [auto|].
      rewrite P4 by exact I. cbn. now rewrite Z.eqb_refl.
    + intros j N. rewrite P4 by (intros I; apply N; now right).
      cbn. destruct (Z.eqb_spec j i) as [->|_]; [exfalso; apply N; now left|reflexivity].
    + intros m Hm. rewrite P5 by exact Hm. now apply dget_dset_other.
    + rewrite P6. eapply dkeys_dset_old; eauto.
Qed.

Definition fill_list (it : item) (s : subscript) : list (Z * option V) :=
  match s with
  | Sub1 d => map (fun i => (i, eval (it_expr E it) (only X xx [(d, i)]))) (zrange (Z.to_nat (size d)))
  | Sub2 => flat_map (fun i1 => map (fun i0 => ((i0 + size 0%nat * i1)%Z, eval (it_expr E it) (only X xx [(0, i0); (1, i1)])))
                (zrange (Z.to_nat (size 0)))) (zrange (Z.to_nat (size 1)))
  end.
Lemma do_fill_puts : forall h it s, do_fill E X V size xx eval h (it, s) = puts (it_name E it) (fill_list it s) h.
Proof.
  intros h it [d|]; cbn [do_fill fill_list]; unfold puts.
  - revert h. induction (zrange (Z.to_nat (size d))) as [|i l IH]; intros h; cbn; auto.
  - revert h. induction (zrange (Z.to_nat (size 1))) as [|i1 l IH]; intros h; [reflexivity|].
    cbn [fold_left flat_map]. rewrite fold_left_app, IH. f_equal. clear.
    revert h. induction (zrange (Z.to_nat (size 0))) as [|i l IH]; intros h; cbn; auto.
Qed.
Lemma zrange_in : forall n i, In i (zrange n) <-> (0 <= i < Z.of_nat n)%Z.
Proof.
  intros n i. unfold zrange. rewrite in_map_iff. split.
  - intros (k & <- & K). apply in_seq in K. lia.
  - intros B. exists (Z.to_nat i). split; [lia|]. apply in_seq. lia.
Qed.

(** the value an expression takes at a grid point *)
Definition at_point (it : item) (i : nat -> Z) : option V := eval (it_expr E it) (fun k => Some (xx k (i k))).
Hypothesis eval_ext : forall e f g, (forall k, k < 3 -> deps e k = true -> f k = g k) -> eval e f = eval e g.
Hypothesis eval_some : forall e f, (forall k, k < 3 -> deps e k = true -> f k <> None) -> eval e f <> None.
Hypothesis eval_none : forall e f k, k < 3 -> deps e k = true -> f k = None -> eval e f = None.
Hypothesis size_pos : forall k, k < 3 -> (0 < size k)%Z.

Definition inside (i : nat -> Z) : Prop := forall k, k < 3 -> (0 <= i k < size k)%Z.
Definition all3 (it : item) : bool := deps (it_expr E it) 0 && deps (it_expr E it) 1 && deps (it_expr E it) 2.
Definition total (it : item) : Z := fold_left Z.mul (map size (used it)) 1%Z.

(** the cell a subscript addresses, back to a grid point *)
Definition back (s : subscript) (j : Z) : nat -> Z :=
  match s with
  | Sub1 d => fun k => if Nat.eqb k d then j else 0%Z
  | Sub2 => fun k => match k with 0 => (j mod size 0%nat)%Z | 1 => (j / size 0%nat)%Z | _ => 0%Z end
  end.

(** for an expression of one variable, or of xx0 and xx1 only *)
Lemma fill_good : forall it, sh it <> None -> all3 it = false ->
  (forall j, (0 <= j < total it)%Z -> In j (map fst (fill_list it (sub_of it)))) /\
  (forall j v, In (j, v) (fill_list it (sub_of it)) ->
     (0 <= j < total it)%Z /\ v = at_point it (back (sub_of it) j) /\ v <> None).
Proof.
  intros it S A. unfold sh, shape in S. unfold all3 in A. unfold total, used, sub_of, sh, shape.
  pose proof (size_pos 0 ltac:(lia)) as P0. pose proof (size_pos 1 ltac:(lia)) as P1. pose proof (size_pos 2 ltac:(lia)) as P2.
  assert (ONE : forall d, d < 3 -> (forall k, k < 3 -> deps (it_expr E it) k = true -> k = d) ->
    (forall j, (0 <= j < 1 * size d)%Z -> In j (map fst (fill_list it (Sub1 d)))) /\
    (forall j v, In (j, v) (fill_list it (Sub1 d)) -> (0 <= j < 1 * size d)%Z /\ v = at_point it (back (Sub1 d) j) /\ v <> None)).
  { intros d D K. pose proof (size_pos d D) as PD. split.
    - intros j B. cbn [fill_list]. rewrite map_map. cbn [fst]. rewrite map_id. apply zrange_in. lia.
    - intros j v I. cbn [fill_list] in I. apply in_map_iff in I as (i & Q & I). apply pair_equal_spec in Q as [-> <-].
      apply zrange_in in I. split; [lia|]. split.
      + unfold at_point. apply eval_ext. intros k KL KD. rewrite (K k KL KD). unfold only, back. cbn [find fst snd].
        now rewrite !Nat.eqb_refl.
      + apply eval_some. intros k KL KD. rewrite (K k KL KD). unfold only. cbn [find fst]. rewrite Nat.eqb_refl. discriminate. }
  assert (K3 : forall k, k < 3 -> k = 0 \/ k = 1 \/ k = 2) by lia.
  destruct (deps (it_expr E it) 0) eqn:F0, (deps (it_expr E it) 1) eqn:F1, (deps (it_expr E it) 2) eqn:F2;
    try discriminate A; try (exfalso; apply S; reflexivity); cbn [filter]; rewrite ?F0, ?F1, ?F2; cbn [map fold_left];
    try (apply ONE; [lia|intros k KL KD; destruct (K3 k KL) as [Ek|[Ek|Ek]]; subst k; congruence]).
  split.
  - intros j B. cbn [fill_list]. rewrite in_map_iff. exists (j, eval (it_expr E it) (only X xx [(0, (j mod size 0%nat)%Z); (1, (j / size 0%nat)%Z)])).
    split; [reflexivity|]. apply in_flat_map. exists (j / size 0%nat)%Z. split.
    + apply zrange_in. split; [apply Z.div_pos; lia|]. rewrite Z2Nat.id by lia. apply Z.div_lt_upper_bound; lia.
    + apply in_map_iff. exists (j mod size 0%nat)%Z. split.
      * f_equal. pose proof (Z.div_mod j (size 0%nat) ltac:(lia)). lia.
      * apply zrange_in. rewrite Z2Nat.id by lia. apply Z.mod_pos_bound. lia.
  - intros j v I. cbn [fill_list] in I. apply in_flat_map in I as (i1 & I1 & I). apply in_map_iff in I as (i0 & Q & I0).
    apply pair_equal_spec in Q as [<- <-]. apply zrange_in in I0, I1. rewrite Z2Nat.id in I0, I1 by lia.
    assert (M : ((i0 + size 0%nat * i1) mod size 0%nat = i0)%Z)
      by (rewrite Z.mul_comm, Z.mod_add by lia; apply Z.mod_small; lia).
    assert (D : ((i0 + size 0%nat * i1) / size 0%nat = i1)%Z)
      by (rewrite Z.mul_comm, Z.div_add by lia; rewrite Z.div_small; lia).
    split; [nia|]. split.
    + unfold at_point. apply eval_ext. intros k KL KD. destruct (K3 k KL) as [Ek|[Ek|Ek]]; subst k; [| |congruence].
      * unfold back. rewrite M. reflexivity.
      * unfold back. rewrite D. reflexivity.
    + apply eval_some. intros k KL KD. destruct (K3 k KL) as [Ek|[Ek|Ek]]; subst k; [discriminate|discriminate|congruence].
Qed.
(** an expression of all three variables uses xx2, which the loop does not declare *)
Lemma fill_bad : forall it, all3 it = true -> In None (map snd (fill_list it (sub_of it))).
Proof.
  intros it A. unfold all3 in A. apply andb_true_iff in A as [A F2]. apply andb_true_iff in A as [F0 F1].
  unfold sub_of, sh, shape. rewrite F0, F1. cbn [fill_list].
  apply in_map_iff. exists ((0 + size 0%nat * 0)%Z, eval (it_expr E it) (only X xx [(0, 0%Z); (1, 0%Z)])). split.
  - cbn [snd]. apply eval_none with (k := 2); auto.
  - pose proof (size_pos 0 ltac:(lia)). pose proof (size_pos 1 ltac:(lia)).
    apply in_flat_map. exists 0%Z. split; [apply zrange_in; lia|]. apply in_map_iff. exists 0%Z. split; [reflexivity|].
    apply zrange_in; lia.
Qed.

(** ** Allocation *)
Lemma mallocs : forall l h, NoDup (dkeys h ++ map (it_name E) l) ->
  fold_left (do_malloc V size) (map (fun it => (it_name E it, used it)) l) h =
  h ++ map (fun it => (it_name E it, (total it, fun _ => @None V))) l.
Proof.
  induction l as [|it l IH]; intros h N; [now rewrite app_nil_r|]. cbn [map fold_left].
  assert (F : dget (it_name E it) h = None).
  { apply dget_None_keys. cbn [map] in N. intros I. apply NoDup_remove_2 in N. apply N, in_or_app. now left. }
  unfold do_malloc at 2. cbn [fst snd]. rewrite dkeys_dset_new by exact F. fold (total it).
  rewrite IH.
  - rewrite <- app_assoc. reflexivity.
  - unfold dkeys in *. rewrite map_app, <- app_assoc. exact N.
Qed.
Lemma dget_app_l : forall A k (d e : dict A) v, dget k d = Some v -> dget k (d ++ e) = Some v.
Proof.
  intros A k d. induction d as [|[k' v'] d IH]; intros e v H; [discriminate H|]. cbn in *.
  destruct (String.eqb k k'); auto.
Qed.

Lemma fills : forall l h, NoDup (map (it_name E) l) ->
  (forall it, In it l -> sh it <> None /\ all3 it = false) ->
  (forall it, In it l -> exists c, dget (it_name E it) h = Some (total it, c)) ->
  exists h', fold_left (do_fill E X V size xx eval) (map (fun it => (it, sub_of it)) l) (Some h) = Some h' /\
    dkeys h' = dkeys h /\ (forall m, ~ In m (map (it_name E) l) -> dget m h' = dget m h) /\
    (forall it, In it l -> exists c, dget (it_name E it) h' = Some (total it, c) /\
        forall j, (0 <= j < total it)%Z -> c j = at_point it (back (sub_of it) j) /\ c j <> None).
Proof.
  induction l as [|it l IH]; intros h N S G.
  - exists h. repeat split; auto. intros it [].
  - cbn [map fold_left]. rewrite do_fill_puts. cbn [map] in N. inversion N as [|? ? N1 N2]; subst.
    destruct (S it (or_introl eq_refl)) as [S1 S2]. destruct (fill_good it S1 S2) as [G1 G2].
    destruct (G it (or_introl eq_refl)) as [c Gc].
    (* a total function agreeing with the values *)
    assert (WV : exists f : Z -> V, forall i v, In (i, v) (fill_list it (sub_of it)) -> v = Some (f i)).
    { destruct (fill_list it (sub_of it)) as [|[i0 v0] r] eqn:FL.
      - exfalso. apply (G1 0%Z).
        clear - size_pos. split; [lia|]. unfold total, used. cbn [filter].
        pose proof (size_pos 0 ltac:(lia)). pose proof (size_pos 1 ltac:(lia)). pose proof (size_pos 2 ltac:(lia)).
        destruct (deps _ 0), (deps _ 1), (deps _ 2); cbn [map fold_left]; nia.
      - destruct (G2 i0 v0 (or_introl eq_refl)) as (_ & _ & V0). destruct v0 as [v0|]; [|congruence].
        exists (fun i => match at_point it (back (sub_of it) i) with Some v => v | None => v0 end).
        intros i v I. destruct (G2 i v I) as (_ & Q & NV). rewrite <- Q. destruct v; congruence. }
    destruct WV as [f WV].
    destruct (puts_ok (it_name E it) f (fill_list it (sub_of it)) h (total it) c Gc) as (h1 & c1 & P1 & P2 & P3 & P4 & P5 & P6).
    { intros i v I. split; [now apply (G2 i v)|now apply WV]. }
    rewrite P1. destruct (IH h1 N2) as (h' & Q1 & Q2 & Q3 & Q4).
    + intros x I. apply S. now right.
    + intros x I. destruct (G x (or_intror I)) as [cx Gx]. exists cx. rewrite P5; [exact Gx|].
      intros Q. apply N1. rewrite <- Q. now apply in_map.
    + exists h'. split; [exact Q1|]. split; [congruence|]. split.
      * intros m Nm. cbn [map] in Nm. rewrite Q3 by (intros I; apply Nm; now right). apply P5. intros ->. apply Nm. now left.
      * intros x [<-|I]; [|now apply Q4]. exists c1. split.
        -- rewrite Q3 by exact N1. exact P2.
        -- intros j B. pose proof (G1 j B) as J. rewrite (P3 j J). apply in_map_iff in J as ([j' v] & Q & J). cbn in Q. subst j'.
           rewrite <- (WV j v J). destruct (G2 j v J) as (_ & Qv & Nv). auto.
Qed.
Lemma fills_none : forall l, fold_left (do_fill E X V size xx eval) (map (fun it => (it, sub_of it)) l) None = None.
Proof. induction l as [|it l IH]; [reflexivity|]. cbn [map fold_left]. rewrite do_fill_puts, puts_none. exact IH. Qed.
Lemma fills_bad : forall l h it, In it l -> all3 it = true ->
  fold_left (do_fill E X V size xx eval) (map (fun it => (it, sub_of it)) l) h = None.
Proof.
  induction l as [|x l IH]; [intros h it []|]. intros h it [->|I] A; cbn [map fold_left]; rewrite do_fill_puts.
  - rewrite puts_bad by now apply fill_bad. apply fills_none.
  - eapply IH; eauto.
Qed.

(** the cell read at a point is the one that belongs to the point *)
Lemma sub_value_ok : forall it i, sh it <> None -> all3 it = false -> inside i ->
  (0 <= sub_value size (sub_of it) i < total it)%Z /\
  at_point it (back (sub_of it) (sub_value size (sub_of it) i)) = at_point it i.
Proof.
  intros it i S A I. unfold sh, shape in S. unfold all3 in A. unfold total, used, sub_of, sh, shape.
  pose proof (I 0 ltac:(lia)) as I0. pose proof (I 1 ltac:(lia)) as I1. pose proof (I 2 ltac:(lia)) as I2.
  assert (K3 : forall k, k < 3 -> k = 0 \/ k = 1 \/ k = 2) by lia.
  destruct (deps (it_expr E it) 0) eqn:F0, (deps (it_expr E it) 1) eqn:F1, (deps (it_expr E it) 2) eqn:F2;
    try discriminate A; try (exfalso; apply S; reflexivity); cbn [filter]; rewrite ?F0, ?F1, ?F2; cbn [map fold_left sub_value];
    (split; [nia|]); unfold at_point; apply eval_ext; intros k KL KD; destruct (K3 k KL) as [Ek|[Ek|Ek]]; subst k; try congruence;
    try reflexivity; unfold back.
  - rewrite Z.mul_comm, Z.mod_add by lia. rewrite Z.mod_small by lia. reflexivity.
  - rewrite Z.mul_comm, Z.div_add by lia. rewrite Z.div_small by lia. reflexivity.
Qed.

(** ** Freeing *)
Lemma dget_filter_other : forall (d : heap) n m, m <> n ->
  dget m (filter (fun p => negb (String.eqb (fst p) n)) d) = dget m d.
Proof.
  induction d as [|[k v] d IH]; intros n m H; [reflexivity|]. cbn.
  destruct (String.eqb_spec k n) as [->|Q]; cbn.
  - rewrite IH by exact H. destruct (String.eqb_spec m n); [contradiction|reflexivity].
  - destruct (String.eqb m k); auto.
Qed.
Lemma frees : forall ks (h : heap), NoDup ks -> (forall k, In k (dkeys h) -> In k ks) -> (forall k, In k ks -> In k (dkeys h)) ->
  fold_left (do_free V) ks (Some h) = Some [].
Proof.
  induction ks as [|k ks IH]; intros h N A B.
  - cbn. destruct h as [|[k v] h]; [reflexivity|]. destruct (A k (or_introl eq_refl)).
  - cbn [fold_left do_free]. inversion N as [|? ? N1 N2]; subst.
    destruct (dget k h) eqn:G; [|exfalso; apply dget_None_keys in G; apply G, B; now left].
    apply IH; auto.
    + intros x X0. unfold dkeys in X0. apply in_map_iff in X0 as ([x' v] & Q & X0). cbn in Q. subst x'.
      apply filter_In in X0 as [X0 F]. cbn in F. destruct (String.eqb_spec x k) as [->|Hx]; [discriminate F|].
      destruct (A x) as [->|]; [apply in_map_iff; exists (x, v); auto|contradiction|auto].
    + intros x X0. unfold dkeys. destruct (in_map_iff fst h x) as [M _].
      destruct (M (B x (or_intror X0))) as ([x' v] & Q & I). cbn in Q. subst x'.
      apply in_map_iff. exists (x, v). split; auto. apply filter_In. split; auto. cbn.
      destruct (String.eqb_spec x k) as [->|]; [contradiction|reflexivity].
Qed.
End Heap.
End Facts.
