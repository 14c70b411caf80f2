(** Headline theorems for ValidateExpr.v (C77). *)
From Coq Require Import String List Arith Bool Reals Lra Lia Permutation.
From Verif Require Import PyBase PyBaseFacts PyList PyListFacts GridFacts RegistryFacts PropRegistry ValidateExpr.
Import ListNotations.
Local Open Scope R_scope.
Local Open Scope string_scope.

(** ** What is meant *)
(** distance of two numbers *)
Definition modulus (a b : R) : R := sqrt (a * a + b * b).
(** [close t x y s]: one of the numbers is nan, or x and y are within t times the size of s of each other *)
Definition within (t : R) (x y s : num) : Prop :=
  match x, y, s with Cx a b, Cx c d, Cx p q => modulus (a - c) (b - d) <= modulus p q * t | _, _, _ => True end.
Definition mean (x y : num) : num := match x, y with Cx a b, Cx c d => Cx ((a + c) / 2) ((b + d) / 2) | _, _ => NaN end.
Definition contains (sub s : string) : Prop := exists a b, s = a ++ sub ++ b.

Section Exprs.
Variable expr : Type.
Variable is_zero : expr -> bool.
Variable ev : nat -> nat -> expr -> num.
Notation tval := (tval expr).
Notation process := (process_dictionary_of_expressions expr is_zero ev).
Notation assert_equal := (assert_equal expr is_zero ev).
Notation conv := (conv expr is_zero ev).

(** the entries of nested lists, from left to right *)
Inductive leaves : list tval -> list tval -> Prop :=
| lv_nil : leaves [] []
| lv_list : forall l r a b, leaves l a -> leaves r b -> leaves (TList expr l :: r) (a ++ b)%list
| lv_leaf : forall x r b, (forall l, x <> TList expr l) -> leaves r b -> leaves (x :: r) (x :: b).
(** expression [e] of dictionary [d] goes under the name [k] *)
Inductive source (d : dict tval) : string -> expr -> Prop :=
| src_expr : forall k e, In (k, TExpr expr e) d -> ~ contains "funcform" k -> source d k e
| src_list : forall lhs l fl i e, In (lhs, TList expr l) d -> ~ contains "funcform" lhs -> leaves l fl ->
    nth_error fl i = Some (TExpr expr e) -> source d (lhs ++ "_" ++ str_of_nat i) e.

(** ** Strings and flattening *)
Lemma prefix_spec : forall a s, prefix a s = true <-> exists b, s = a ++ b.
Proof.
  induction a as [| c a IH]; intros s.
  - split; [intros _; now exists s | intros _; now destruct s].
  - destruct s as [| c' s]; cbn [prefix append]. 1: split; [discriminate | intros (b & E); discriminate].
    destruct (Ascii.ascii_dec c c') as [-> | N].
    + rewrite IH. split; intros (b & E); exists b; [now rewrite E | now injection E].
    + split; [discriminate |]. intros (b & E). congruence.
Qed.
Lemma py_in_spec : forall sub s, py_in sub s = true <-> contains sub s.
Proof.
  intros sub. induction s as [| c s IH]; cbn [py_in].
  - rewrite orb_false_r, prefix_spec. unfold contains. split.
    + intros (b & E). exists "", b. exact E.
    + intros (a & b & E). destruct a; [| discriminate]. now exists b.
  - rewrite orb_true_iff, prefix_spec, IH. unfold contains. split.
    + intros [(b & E) | (a & b & E)]; [exists "", b; exact E | exists (String c a), b; now rewrite E].
    + intros (a & b & E). destruct a as [| c' a]; [left; now exists b |]. right. exists a, b. cbn [append] in E. congruence.
Qed.
Lemma py_in_false : forall sub s, py_in sub s = false <-> ~ contains sub s.
Proof. intros. rewrite <- py_in_spec. destruct (py_in sub s); split; congruence. Qed.

Lemma flatten_cons : forall x l, flatten_tensor expr (x :: l) = (flatten1 expr x ++ flatten_tensor expr l)%list.
Proof. reflexivity. Qed.
Lemma leaves_flatten : forall l a, leaves l a -> a = flatten_tensor expr l.
Proof.
  intros l a H. induction H as [| l r a b _ -> _ -> | x r b N _ ->]; [reflexivity | |].
  - rewrite flatten_cons. reflexivity.
  - rewrite flatten_cons. destruct x as [e | l |]; [reflexivity | now destruct (N l) | reflexivity].
Qed.
Fixpoint flatten_leaves1 (x : tval) : match x with TList _ l => leaves l (flatten_tensor expr l) | _ => True end :=
  match x with
  | TList _ l => (fix go (l : list tval) : leaves l (flatten_tensor expr l) :=
      match l with
      | [] => lv_nil
      | y :: r => match y return match y with TList _ l => leaves l (flatten_tensor expr l) | _ => True end -> leaves (y :: r) (flatten_tensor expr (y :: r)) with
                  | TList _ l => fun H => lv_list l r _ _ H (go r)
                  | TExpr _ e => fun _ => lv_leaf (TExpr expr e) r _ (fun l E => ltac:(discriminate E)) (go r)
                  | TOther _ => fun _ => lv_leaf (TOther expr) r _ (fun l E => ltac:(discriminate E)) (go r)
                  end (flatten_leaves1 y)
      end) l
  | _ => I
  end.
Lemma flatten_leaves : forall l, leaves l (flatten_tensor expr l).
Proof. intros l. exact (flatten_leaves1 (TList expr l)). Qed.

(** ** The dictionary of values *)
(** the values in the order in which they are stored *)
Fixpoint writes_list (lhs : string) (n : nat) (l : list tval) : list (string * expr) :=
  match l with
  | [] => []
  | TExpr _ e :: r => (lhs ++ "_" ++ str_of_nat n, e) :: writes_list lhs (S n) r
  | _ :: r => writes_list lhs (S n) r
  end.
Definition writes_item (it : string * tval) : list (string * expr) :=
  if py_in "funcform" (fst it) then [] else
  match snd it with TExpr _ e => [(fst it, e)] | TList _ l => writes_list (fst it) 0 (flatten_tensor expr l) | TOther _ => [] end.
Definition store (acc : dict num) (w : string * expr) : dict num := dset (fst w) (conv (snd w)) acc.

Lemma process_list_writes : forall lhs l n acc, process_list expr is_zero ev lhs n l acc = fold_left store (writes_list lhs n l) acc.
Proof. intros lhs l. induction l as [| x l IH]; intros n acc; [reflexivity |]. destruct x; cbn [process_list writes_list fold_left]; apply IH. Qed.
Lemma process_item_writes : forall acc it, process_item expr is_zero ev acc it = fold_left store (writes_item it) acc.
Proof.
  intros acc [lhs rhs]. unfold process_item, writes_item. cbn [fst snd]. destruct (py_in "funcform" lhs); [reflexivity |].
  destruct rhs as [e | l |]; [reflexivity | apply process_list_writes | reflexivity].
Qed.
Definition items (d : dict tval) := py_sorted (fun a b : string * tval => String.leb (fst a) (fst b)) d.
Lemma process_writes : forall d, process d = fold_left store (flat_map writes_item (items d)) [].
Proof.
  intros d. unfold process_dictionary_of_expressions. fold (items d). generalize (@nil (string * num)).
  induction (items d) as [| x r IH]; intros acc; [reflexivity |]. cbn [fold_left flat_map]. now rewrite fold_left_app, IH, process_item_writes.
Qed.

Lemma writes_list_spec : forall lhs l n k e, In (k, e) (writes_list lhs n l) <->
  exists i, nth_error l i = Some (TExpr expr e) /\ k = lhs ++ "_" ++ str_of_nat (n + i).
Proof.
  intros lhs l. induction l as [| x l IH]; intros n k e.
  - cbn [writes_list In]. split; [tauto |]. intros (i & E & _). destruct i; discriminate.
  - assert (T : (exists i, nth_error l i = Some (TExpr expr e) /\ k = lhs ++ "_" ++ str_of_nat (S n + i)) <->
              exists i, nth_error (x :: l) (S i) = Some (TExpr expr e) /\ k = lhs ++ "_" ++ str_of_nat (n + S i)).
    { split; intros (i & E & K); exists i; split; auto; now replace (n + S i)%nat with (S n + i)%nat in * by lia. }
    destruct x as [e' | l' |]; cbn [writes_list In]; rewrite IH, T; clear T.
    + split.
      * intros [E | (i & E & K)]; [exists 0%nat; rewrite Nat.add_0_r; split; [cbn; congruence | congruence] | now exists (S i)].
      * intros ([| i] & E & K); [left; rewrite Nat.add_0_r in K; cbn in E; congruence | right; now exists i].
    + split; [intros (i & E & K); now exists (S i) | intros ([| i] & E & K); [discriminate | now exists i]].
    + split; [intros (i & E & K); now exists (S i) | intros ([| i] & E & K); [discriminate | now exists i]].
Qed.
Lemma In_items : forall d x, In x (items d) <-> In x d.
Proof.
  intros d x. apply In_py_sorted; [intros a b; apply String.leb_total | intros a b c; apply string_leb_trans].
Qed.
Lemma writes_source : forall d k e, In (k, e) (flat_map writes_item (items d)) <-> source d k e.
Proof.
  intros d k e. rewrite in_flat_map. split.
  - intros ([lhs rhs] & I & W). apply (proj1 (In_items _ _)) in I. unfold writes_item in W. cbn [fst snd] in W.
    destruct (py_in "funcform" lhs) eqn:F; [destruct W |]. apply py_in_false in F. destruct rhs as [e' | l |]; [| | destruct W].
    + destruct W as [W | []]. injection W as <- <-. now apply src_expr.
    + apply writes_list_spec in W as (i & N & ->). apply (src_list d lhs l (flatten_tensor expr l) i e); auto using flatten_leaves.
  - intros S. destruct S as [k e I F | lhs l fl i e I F L N].
    + exists (k, TExpr expr e). split; [now apply (proj2 (In_items _ _)) |]. unfold writes_item. cbn [fst snd]. apply py_in_false in F. rewrite F. now left.
    + exists (lhs, TList expr l). split; [now apply (proj2 (In_items _ _)) |]. unfold writes_item. cbn [fst snd]. apply py_in_false in F. rewrite F.
      apply writes_list_spec. apply leaves_flatten in L. subst fl. now exists i.
Qed.

Lemma store_get : forall ws acc k v, dget k (fold_left store ws acc) = Some v ->
  (exists e, In (k, e) ws /\ v = conv e) \/ dget k acc = Some v.
Proof.
  induction ws as [| [k' e'] ws IH]; intros acc k v H; [now right |]. cbn [fold_left] in H. apply IH in H as [(e & I & ->) | H].
  - left. exists e. split; [now right | reflexivity].
  - unfold store in H. cbn [fst snd] in H. rewrite dget_dset in H. destruct (String.eqb_spec k k') as [-> | N]; [| now right].
    left. exists e'. split; [now left | congruence].
Qed.
Lemma store_keep : forall ws acc k v, dget k acc = Some v -> exists v', dget k (fold_left store ws acc) = Some v'.
Proof.
  induction ws as [| [k' e'] ws IH]; intros acc k v H; [now exists v |]. cbn [fold_left].
  destruct (String.eqb_spec k k') as [-> | N].
  - apply (IH _ k' (conv e')). apply dget_dset_same.
  - apply (IH _ k v). unfold store. cbn [fst snd]. rewrite dget_dset_other; auto.
Qed.
Lemma store_has : forall ws acc k e, In (k, e) ws -> exists v, dget k (fold_left store ws acc) = Some v.
Proof.
  induction ws as [| [k' e'] ws IH]; intros acc k e H; [destruct H |]. cbn [fold_left]. destruct H as [H | H]; [| eauto].
  apply (store_keep _ _ k (conv e)). unfold store. cbn [fst snd]. replace k' with k by congruence. replace e' with e by congruence. apply dget_dset_same.
Qed.

(** every value stored is that of an expression of the dictionary under its name; every expression has a value under its name,
    its own unless another expression has the same name *)
Theorem C77_values : forall d,
  (forall k v, dget k (process d) = Some v -> exists e, source d k e /\ v = conv e) /\
  (forall k e, source d k e -> exists v, dget k (process d) = Some v) /\
  (forall k e, source d k e -> (forall e', source d k e' -> e' = e) -> dget k (process d) = Some (conv e)).
Proof.
  intros d.
  assert (A : forall k v, dget k (process d) = Some v -> exists e, source d k e /\ v = conv e).
  { intros k v H. rewrite process_writes in H. apply store_get in H as [(e & I & ->) | H]; [| discriminate]. exists e. split; [now apply writes_source | reflexivity]. }
  assert (B : forall k e, source d k e -> exists v, dget k (process d) = Some v).
  { intros k e S. apply writes_source in S. rewrite process_writes. eauto using store_has. }
  split; [exact A |]. split; [exact B |].
  intros k e S U. destruct (B k e S) as (v & G). destruct (A k v G) as (e' & S' & ->). now rewrite (U e' S') in G.
Qed.

(** ** Comparisons *)
Lemma gt_scaled_spec : forall t x y s, gt_scaled (fabs (nsub x y)) (fabs s) t = false <-> within t x y s.
Proof.
  intros t x y s. destruct x as [a b |], y as [c d |], s as [p q |]; cbn [nsub fabs gt_scaled within]; try tauto.
  fold (modulus (a - c) (b - d)). fold (modulus p q). destruct (Rlt_dec (modulus p q * t) (modulus (a - c) (b - d))) as [L | L]; split; intros H; try lra; congruence.
Qed.
Lemma modulus_pos : forall a b, 0 <= modulus a b.
Proof. intros. apply sqrt_pos. Qed.
Lemma tol_pos : forall n, 0 < tolerance n.
Proof. intros n. unfold tolerance. apply Rinv_0_lt_compat, pow_lt. lra. Qed.
Lemma within_refl : forall n x, within (tolerance n) x x x.
Proof.
  intros n [a b |]; [| exact I]. cbn [within]. replace (modulus (a - a) (b - b)) with 0.
  - apply Rmult_le_pos; [apply modulus_pos | apply Rlt_le, tol_pos].
  - unfold modulus. replace ((a - a) * (a - a) + (b - b) * (b - b)) with 0 by ring. symmetry. apply sqrt_0.
Qed.
Lemma modulus_triangle : forall a b c d, modulus a b <= modulus (a - c) (b - d) + modulus c d.
Proof.
  intros a b c d. pose proof (triangle a b 0 0 c d) as T. unfold dist_euc, Rsqr in T. unfold modulus.
  replace ((a - 0) * (a - 0) + (b - 0) * (b - 0)) with (a * a + b * b) in T by ring.
  replace ((c - 0) * (c - 0) + (d - 0) * (d - 0)) with (c * c + d * d) in T by ring. exact T.
Qed.
Lemma is_num0_spec : forall x, is_num0 x = true <-> x = Cx 0 0.
Proof.
  intros [a b |]; cbn [is_num0]; [| split; discriminate]. destruct (Req_EM_T a 0) as [-> | N]; [| split; [discriminate | congruence]].
  destruct (Req_EM_T b 0) as [-> | N]; split; intros H; try reflexivity; try discriminate; congruence.
Qed.
Lemma lt_num_spec : forall a b t, lt_num (fabs (Cx a b)) t = true <-> modulus a b < t.
Proof. intros a b t. cbn [fabs lt_num]. fold (modulus a b). destruct (Rlt_dec (modulus a b) t); split; intros H; tauto || congruence. Qed.

(** ** check_zero *)
(** [ev dps d e] is within 10^(-4 dps / 5) of the value [tv d e] of the expression *)
Definition accurate (tv : nat -> expr -> R * R) (dps d : nat) (e : expr) : Prop :=
  exists a b, ev dps d e = Cx a b /\ modulus (a - fst (tv d e)) (b - snd (tv d e)) < tolerance dps.

Theorem C77_zero : forall (tv : nat -> expr -> R * R), (forall d e, is_zero e = true -> tv d e = (0, 0)) ->
  forall d1 d2 e, accurate tv 30 d1 e -> accurate tv 60 d2 e ->
  (tv d1 e = (0, 0) -> tv d2 e = (0, 0) -> check_zero expr is_zero ev d1 d2 e = true) /\
  (check_zero expr is_zero ev d1 d2 e = true -> modulus (fst (tv d1 e)) (snd (tv d1 e)) < 2 / 10 ^ 24).
Proof.
  intros tv Z d1 d2 e (a1 & b1 & E1 & A1) (a2 & b2 & E2 & A2). unfold check_zero, convert_one_expression_to_mpfmpc.
  change precision with 30%nat. change (2 * 30)%nat with 60%nat. rewrite E1, E2.
  change (2 / 10 ^ 24) with (2 * tolerance 30). pose proof (tol_pos 30) as T30. split.
  - intros V1 V2. rewrite V1 in A1. rewrite V2 in A2. cbn [fst snd] in A1, A2. rewrite !Rminus_0_r in A1, A2.
    destruct (is_zero e); [now apply is_num0_spec |]. rewrite (proj2 (lt_num_spec a1 b1 _) A1), (proj2 (lt_num_spec a2 b2 _) A2), andb_true_r.
    destruct (is_num0 (Cx a1 b1)) eqn:N; cbn [negb]; [exact N | now apply is_num0_spec].
  - destruct (is_zero e) eqn:IZ.
    + intros _. rewrite (Z d1 e IZ). cbn [fst snd]. unfold modulus. replace (0 * 0 + 0 * 0) with 0 by ring. rewrite sqrt_0. lra.
    + intros H. assert (S : modulus a1 b1 < tolerance 30).
      { destruct (is_num0 (Cx a1 b1)) eqn:N.
        - apply is_num0_spec in N. assert (Q : a1 = 0 /\ b1 = 0) by (split; congruence). destruct Q as (-> & ->).
          unfold modulus. replace (0 * 0 + 0 * 0) with 0 by ring. now rewrite sqrt_0.
        - cbn [negb andb] in H. destruct (lt_num (fabs (Cx a1 b1)) (tolerance 30)) eqn:L; [now apply lt_num_spec in L | congruence]. }
      pose proof (modulus_triangle (fst (tv d1 e)) (snd (tv d1 e)) a1 b1) as T.
      replace (modulus (fst (tv d1 e) - a1) (snd (tv d1 e) - b1)) with (modulus (a1 - fst (tv d1 e)) (b1 - snd (tv d1 e))) in T; [lra |].
      unfold modulus. f_equal. ring.
Qed.

(** ** assert_equal *)
(** the same kinds of entries in the same places *)
Inductive same_shape : tval -> tval -> Prop :=
| ss_expr : forall e1 e2, same_shape (TExpr expr e1) (TExpr expr e2)
| ss_other : same_shape (TOther expr) (TOther expr)
| ss_list : forall l1 l2 f1 f2, leaves l1 f1 -> leaves l2 f2 ->
    Forall2 (fun x y => (exists e, x = TExpr expr e) <-> (exists e, y = TExpr expr e)) f1 f2 -> same_shape (TList expr l1) (TList expr l2).

Lemma dkeys_dset_ext : forall k (v w : num) d d', dkeys d = dkeys d' -> dkeys (dset k v d) = dkeys (dset k w d').
Proof.
  intros k v w. unfold dkeys. induction d as [| [k1 v1] d IH]; intros [| [k2 v2] d'] E; try discriminate E; [reflexivity |].
  cbn [map fst] in E. assert (E1 : k1 = k2) by congruence. assert (E2 : map fst d = map fst d') by congruence. subst k2.
  cbn [dset]. destruct (String.eqb k k1); cbn [map fst]; [now rewrite E2 | now rewrite (IH d' E2)].
Qed.
Lemma store_keys : forall ws ws' acc acc', map fst ws = map fst ws' -> dkeys acc = dkeys acc' ->
  dkeys (fold_left store ws acc) = dkeys (fold_left store ws' acc').
Proof.
  induction ws as [| [k e] ws IH]; intros [| [k' e'] ws'] acc acc' E A; try discriminate E; [exact A |].
  cbn [map fst] in E. assert (E1 : k = k') by congruence. assert (E2 : map fst ws = map fst ws') by congruence. subst k'.
  cbn [fold_left]. apply IH; [exact E2 |]. now apply dkeys_dset_ext.
Qed.
Lemma writes_list_keys : forall lhs f1 f2, Forall2 (fun x y => (exists e, x = TExpr expr e) <-> (exists e, y = TExpr expr e)) f1 f2 ->
  forall n, map fst (writes_list lhs n f1) = map fst (writes_list lhs n f2).
Proof.
  intros lhs f1 f2 H. induction H as [| x y f1 f2 XY _ IH]; intros n; [reflexivity |].
  destruct x as [e | l |], y as [e' | l' |]; cbn [writes_list map fst]; try apply IH; try (now rewrite IH).
  all: exfalso; (destruct (proj1 XY (ex_intro _ _ eq_refl)) as (? & Q); discriminate) || (destruct (proj2 XY (ex_intro _ _ eq_refl)) as (? & Q); discriminate).
Qed.
Lemma writes_item_keys : forall k x y, same_shape x y -> map fst (writes_item (k, x)) = map fst (writes_item (k, y)).
Proof.
  intros k x y S. unfold writes_item. cbn [fst snd]. destruct (py_in "funcform" k); [reflexivity |].
  destruct S as [e1 e2 | | l1 l2 f1 f2 L1 L2 F]; [reflexivity | reflexivity |].
  rewrite <- (leaves_flatten _ _ L1), <- (leaves_flatten _ _ L2). now apply writes_list_keys.
Qed.
Lemma items_keys : forall d, map fst (items d) = py_sorted String.leb (dkeys d).
Proof. intros d. apply (py_sorted_map (string * tval) string fst String.leb d). Qed.
Lemma process_keys : forall d1 d2, NoDup (dkeys d1) -> NoDup (dkeys d2) ->
  (forall k, match dget k d1, dget k d2 with Some x, Some y => same_shape x y | None, None => True | _, _ => False end) ->
  dkeys (process d1) = dkeys (process d2).
Proof.
  intros d1 d2 N1 N2 S. rewrite !process_writes. apply store_keys; [| reflexivity].
  assert (P : Permutation (dkeys d1) (dkeys d2)).
  { apply NoDup_Permutation; auto. intros k. specialize (S k).
    destruct (dget k d1) eqn:E1, (dget k d2) eqn:E2; try tauto.
    - apply dget_In in E1, E2. split; intros _; unfold dkeys; apply in_map_iff; [exists (k, t0) | exists (k, t)]; auto.
    - apply dget_None_keys in E1, E2. tauto. }
  assert (K : map fst (items d1) = map fst (items d2)) by (rewrite !items_keys; now apply py_sorted_perm).
  assert (I1 : forall k x, In (k, x) (items d1) -> dget k d1 = Some x) by (intros k x H; apply In_dget; auto; now apply In_items).
  assert (I2 : forall k x, In (k, x) (items d2) -> dget k d2 = Some x) by (intros k x H; apply In_dget; auto; now apply In_items).
  revert K I1 I2. generalize (items d1) (items d2). induction l as [| [k x] l IH]; intros [| [k' y] l'] K I1 I2; try discriminate K; [reflexivity |].
  cbn [map fst] in K. assert (E1 : k = k') by congruence. assert (E2 : map fst l = map fst l') by congruence. subst k'.
  cbn [flat_map]. rewrite !map_app. apply f_equal2.
  - apply writes_item_keys. specialize (S k). rewrite (I1 k x), (I2 k y) in S by now left. exact S.
  - apply IH; auto; intros; [apply I1 | apply I2]; now right.
Qed.
Lemma process_nodup : forall d, NoDup (dkeys (process d)).
Proof.
  intros d. rewrite process_writes. assert (G : forall ws acc, NoDup (dkeys acc) -> NoDup (dkeys (fold_left store ws acc))).
  { induction ws as [| w ws IH]; intros acc H; [exact H |]. cbn [fold_left]. apply IH. now apply NoDup_dset. }
  apply G. constructor.
Qed.

(** entries are compared by position *)
Lemma assert_equal_spec : forall d1 d2, assert_equal d1 d2 = Ok tt <->
  (forall i k1 x k2 y, nth_error (process d1) i = Some (k1, x) -> nth_error (process d2) i = Some (k2, y) -> within (/ 10 ^ 24) x y (mean x y)).
Proof.
  intros d1 d2. unfold ValidateExpr.assert_equal. generalize (process d1) (process d2). intros r1 r2.
  assert (G : existsb (fun ab => differ (snd (fst ab)) (snd (snd ab))) (combine r1 r2) = false <->
    forall i k1 x k2 y, nth_error r1 i = Some (k1, x) -> nth_error r2 i = Some (k2, y) -> within (/ 10 ^ 24) x y (mean x y)).
  { revert r2. induction r1 as [| [k x] r1 IH]; intros r2.
    - split; [intros _ i k1 x k2 y H; destruct i; discriminate | reflexivity].
    - destruct r2 as [| [k' y] r2].
      + split; [intros _ i k1 x1 k2 y1 _ H; destruct i; discriminate | reflexivity].
      + cbn [combine existsb fst snd]. rewrite orb_false_iff, IH. unfold differ.
        assert (NM : navg x y = mean x y) by reflexivity. rewrite NM, gt_scaled_spec. change (tolerance precision) with (/ 10 ^ 24). split.
        * intros (H & T) [| i] k1 x1 k2 y1 A B; [| eapply T; eauto]. cbn [nth_error] in A, B. congruence.
        * intros H. split; [exact (H 0%nat k x k' y eq_refl eq_refl) | intros i; exact (H (S i))]. }
  rewrite <- G. destruct (existsb _ _); split; congruence.
Qed.

Theorem C77_assert_equal : forall d1 d2, NoDup (dkeys d1) -> NoDup (dkeys d2) ->
  (forall k, match dget k d1, dget k d2 with Some x, Some y => same_shape x y | None, None => True | _, _ => False end) ->
  (assert_equal d1 d2 = Ok tt <->
   forall k x y, dget k (process d1) = Some x -> dget k (process d2) = Some y -> within (/ 10 ^ 24) x y (mean x y)) /\
  (assert_equal d1 d2 = Ok tt \/ assert_equal d1 d2 = Err AssertionError).
Proof.
  intros d1 d2 N1 N2 S. split.
  2: { unfold ValidateExpr.assert_equal. destruct (existsb _ _); auto. }
  rewrite assert_equal_spec. pose proof (process_keys d1 d2 N1 N2 S) as K. pose proof (process_nodup d1) as P1. pose proof (process_nodup d2) as P2.
  revert K P1 P2. generalize (process d1) (process d2). intros r1 r2 K P1 P2.
  assert (KE : forall i k1 x k2 y, nth_error r1 i = Some (k1, x) -> nth_error r2 i = Some (k2, y) -> k1 = k2).
  { intros i k1 x k2 y A B. apply (map_nth_error fst) in A, B. unfold dkeys in K. rewrite K in A. cbn [fst] in A, B. congruence. }
  split.
  - intros H k x y A B. apply dget_In, In_nth_error in A as (i & A).
    destruct (nth_error r2 i) as [[k2 y'] |] eqn:B'.
    + pose proof (KE _ _ _ _ _ A B') as E. subst k2. assert (y' = y).
      { apply nth_error_In in B'. apply (In_dget k y' r2 P2) in B'. congruence. } subst y'. exact (H _ _ _ _ _ A B').
    + exfalso. apply nth_error_None in B'. assert (L : length r1 = length r2) by (rewrite <- (map_length fst r1), <- (map_length fst r2); unfold dkeys in K; now rewrite K).
      assert (i < length r1)%nat by (apply nth_error_Some; congruence). lia.
  - intros H i k1 x k2 y A B. pose proof (KE _ _ _ _ _ A B) as E. subst k2.
    apply (H k1); [apply In_dget; auto; eapply nth_error_In; eauto | apply In_dget; auto; eapply nth_error_In; eauto].
Qed.

(** ** Trusted files *)
Lemma compare_keys_spec : forall r t, compare_keys r t = Ok tt <-> forall k v, In (k, v) t -> exists x, dget k r = Some x /\ within (/ 10 ^ 24) x v v.
Proof.
  intros r t. induction t as [| [k v] t IH]; cbn [compare_keys]; [split; [intros _ k v [] | reflexivity] |].
  destruct (dget k r) as [x |] eqn:G.
  - unfold mismatch. pose proof (gt_scaled_spec (tolerance precision) x v v) as GS. change (tolerance precision) with (/ 10 ^ 24) in *.
    destruct (gt_scaled (fabs (nsub x v)) (fabs v) (/ 10 ^ 24)).
    + split; [discriminate |]. intros H. exfalso. destruct (H k v) as (x' & G' & W); [now left |]. assert (x' = x) by congruence. subst x'.
      apply GS in W. discriminate.
    + rewrite IH. split.
      * intros H k' v' [E | I]; [| now apply H]. replace k' with k by congruence. replace v' with v by congruence. exists x. split; [exact G | now apply GS].
      * intros H k' v' I. apply H. now right.
  - split; [discriminate |]. intros H. destruct (H k v) as (x & G' & _); [now left | congruence].
Qed.
Theorem C77_trusted : forall r t, NoDup (dkeys r) -> NoDup (dkeys t) ->
  (compare_against_trusted r t = Ok tt <->
   (forall k, dget k t = None <-> dget k r = None) /\
   (forall k x v, dget k r = Some x -> dget k t = Some v -> within (/ 10 ^ 24) x v v)).
Proof.
  intros r t NR NT. unfold compare_against_trusted. split.
  - destruct (Nat.eqb_spec (length t) (length r)) as [L | L]; [| discriminate]. rewrite compare_keys_spec. intros H.
    assert (I : incl (dkeys t) (dkeys r)).
    { intros k K. apply in_map_iff in K as ([k' v] & E & K). cbn [fst] in E. subst k'. destruct (H k v K) as (x & G & _).
      apply dget_In in G. apply in_map_iff. exists (k, x). auto. }
    assert (J : incl (dkeys r) (dkeys t)) by (apply NoDup_length_incl; auto; unfold dkeys; rewrite !map_length; lia).
    split.
    + intros k. rewrite !dget_None_keys. split; intros N Q; apply N; auto.
    + intros k x v A B. apply dget_In in B. destruct (H k v B) as (x' & A' & W). now replace x with x' by congruence.
  - intros (K & W). assert (P : Permutation (dkeys t) (dkeys r)).
    { apply NoDup_Permutation; auto. intros k. specialize (K k). rewrite !dget_None_keys in K.
      destruct (in_dec string_dec k (dkeys t)), (in_dec string_dec k (dkeys r)); tauto. }
    apply Permutation_length in P. unfold dkeys in P. rewrite !map_length in P. rewrite P, Nat.eqb_refl. apply compare_keys_spec.
    intros k v I. apply (In_dget k v t NT) in I. destruct (dget k r) as [x |] eqn:G; [exists x; split; eauto |]. apply K in G. congruence.
Qed.

(** A run that finds no file stores what a later run is compared with: the later run passes if the dictionary is unchanged, and whenever it
    passes, the two dictionaries have the same names and expressions of the same name have the same value. *)
Theorem C77_regression : forall d0, exists file, compare_or_generate None (process d0) = Ok file /\
  compare_or_generate (Some file) (process d0) = Ok file /\
  forall d, compare_or_generate (Some file) (process d) = Ok file ->
    (forall k, (exists e, source d k e) <-> (exists e, source d0 k e)) /\
    (forall k e e0, source d k e -> source d0 k e0 ->
      (forall e', source d k e' -> e' = e) -> (forall e', source d0 k e' -> e' = e0) -> within (/ 10 ^ 24) (conv e) (conv e0) (conv e0)).
Proof.
  intros d0. exists (process d0). split; [reflexivity |]. cbn [compare_or_generate]. split.
  - assert (C : compare_against_trusted (process d0) (process d0) = Ok tt).
    { apply C77_trusted; auto using process_nodup. split; [tauto |]. intros k x v A B. replace v with x by congruence. apply (within_refl 30). }
    now rewrite C.
  - intros d H. destruct (compare_against_trusted (process d) (process d0)) as [[] | x] eqn:C; [| discriminate H].
    apply C77_trusted in C as (K & W); auto using process_nodup.
    destruct (C77_values d) as (A1 & B1 & U1). destruct (C77_values d0) as (A0 & B0 & U0). split.
    + intros k. split; intros (e & S).
      * destruct (B1 k e S) as (v & G). destruct (dget k (process d0)) as [v0 |] eqn:G0; [destruct (A0 k v0 G0) as (e0 & S0 & _); eauto |].
        apply K in G0. congruence.
      * destruct (B0 k e S) as (v & G). destruct (dget k (process d)) as [v1 |] eqn:G1; [destruct (A1 k v1 G1) as (e1 & S1 & _); eauto |].
        apply K in G1. congruence.
    + intros k e e0 S S0 Q Q0. exact (W k _ _ (U1 k e S Q) (U0 k e0 S0 Q0)).
Qed.
End Exprs.

(** ** What passes that should not.  In the witnesses expressions are numbers that evaluate to themselves. *)
Definition ev_id (_ _ : nat) (e : num) : num := e.
Definition N (a : R) : tval num := TExpr num (Cx a 0).
Notation proc := (process_dictionary_of_expressions num is_num0 ev_id).
Notation aeq := (assert_equal num is_num0 ev_id).

(** dictionaries with other names, with fewer expressions, or without any expression count as equal *)
Theorem C77_assert_equal_names_refuted : ~ (forall d1 d2, aeq d1 d2 = Ok tt -> dkeys (proc d1) = dkeys (proc d2)).
Proof.
  intros H. specialize (H [("a", N 1); ("b", N 2)] []). enough (E : aeq [("a", N 1); ("b", N 2)] [] = Ok tt) by (specialize (H E); discriminate H).
  apply assert_equal_spec. intros i k1 x k2 y _ B. destruct i; discriminate B.
Qed.
Theorem C77_assert_equal_other_names_refuted : forall x, aeq [("a", N x)] [("b", N x)] = Ok tt /\ aeq [("a", N x); ("b", N 1)] [("c", N x)] = Ok tt.
Proof.
  intros x. assert (R : forall n, within (/ 10 ^ 24) n n (mean n n)).
  { intros [a b |]; [| exact I]. cbn [mean]. replace ((a + a) / 2) with a by field. replace ((b + b) / 2) with b by field. apply (within_refl 30). }
  split; apply assert_equal_spec; intros [| [| i]] k1 x1 k2 y1 A B; try (destruct i; discriminate); try discriminate;
  cbn in A, B; apply (f_equal (option_map snd)) in A, B; cbn [option_map snd] in A, B;
  replace y1 with x1 by congruence; apply R.
Qed.
(** an expression without a value equals everything *)
Theorem C77_nan_refuted : ~ (forall e1 e2 : num, assert_equal_expr num is_num0 ev_id e1 e2 = Ok tt -> conv num is_num0 ev_id e1 = conv num is_num0 ev_id e2) /\
  ~ (forall d d0, compare_against_trusted (proc d) (proc d0) = Ok tt -> forall k x, dget k (proc d0) = Some x -> x = Cx 1 0 -> dget k (proc d) <> Some NaN).
Proof.
  assert (P : proc [("a", TExpr num NaN)] = [("a", NaN)]).
  { cbn. unfold conv, convert_one_expression_to_mpfmpc. cbn. reflexivity. }
  assert (Q : dget "a" (proc [("a", N 1)]) = Some (Cx 1 0)).
  { destruct (C77_values num is_num0 ev_id [("a", N 1)]) as (_ & _ & U). rewrite (U "a" (Cx 1 0)).
    - unfold conv, convert_one_expression_to_mpfmpc, ev_id. assert (Z : is_num0 (Cx 1 0) = false).
      { destruct (is_num0 (Cx 1 0)) eqn:Z; [| reflexivity]. apply is_num0_spec in Z. exfalso. assert (1 = 0) by congruence. lra. }
      rewrite Z. cbn [negb andb]. replace (lt_num (fabs (Cx 1 0)) (tolerance precision)) with false; [reflexivity |].
      symmetry. apply not_true_iff_false. rewrite lt_num_spec. unfold modulus. replace (1 * 1 + 0 * 0) with 1 by ring. rewrite sqrt_1.
      change (tolerance precision) with (/ 10 ^ 24). apply Rle_not_lt. rewrite <- Rinv_1. apply Rinv_le_contravar; [lra |]. apply pow_R1_Rle. lra.
    - constructor; [now left |]. intros F. apply py_in_spec in F. discriminate F.
    - intros e' S. inversion S as [k e I F | lhs l fl i e I F L E]; subst; destruct I as [I | []]; [unfold N in I; congruence | discriminate I]. }
  split.
  - intros H. specialize (H NaN (Cx 0 0)). assert (E : assert_equal_expr num is_num0 ev_id NaN (Cx 0 0) = Ok tt).
    { apply assert_equal_spec. intros i k1 x k2 y A B. destruct i as [| i]; [| destruct i; discriminate]. cbn in A.
      apply (f_equal (option_map snd)) in A. cbn [option_map snd] in A. now replace x with NaN by (vm_compute in A; congruence). }
    specialize (H E). unfold conv, convert_one_expression_to_mpfmpc in H. cbn in H. destruct (Req_EM_T 0 0); [| lra]. discriminate H.
  - intros H. apply (H [("a", TExpr num NaN)] [("a", N 1)]) with (k := "a") (x := Cx 1 0); [| exact Q | reflexivity | now rewrite P].
    rewrite P. unfold compare_against_trusted. change (length (proc [("a", N 1)])) with 1%nat. cbn [length Nat.eqb].
    apply compare_keys_spec. intros k v I. exists NaN. split; [| exact Logic.I].
    destruct I as [I | []]. apply (f_equal fst) in I. cbn [fst] in I. now subst k.
Qed.
(** a list under "a" and an expression under "a_0" share a name: the list entry is never compared *)
Theorem C77_collision_refuted : forall x x' y,
  proc [("a", TList num [N x]); ("a_0", N y)] = proc [("a", TList num [N x']); ("a_0", N y)] /\
  length (proc [("a", TList num [N x]); ("a_0", N y)]) = 1%nat.
Proof. intros x x' y. split; reflexivity. Qed.
(** an expression that evaluates, without error, to 10^-50 is zero for check_zero *)
Theorem C77_tiny_refuted : ~ (forall e : num, check_zero num is_num0 ev_id 0 0 e = true -> e = Cx 0 0).
Proof.
  intros H. assert (T : 0 < / 10 ^ 50) by (apply Rinv_0_lt_compat, pow_lt; lra). specialize (H (Cx (/ 10 ^ 50) 0)).
  assert (M : modulus (/ 10 ^ 50) 0 = / 10 ^ 50). { unfold modulus. replace (_ + 0 * 0) with (Rsqr (/ 10 ^ 50)) by (unfold Rsqr; ring). apply sqrt_Rsqr. lra. }
  enough (E : check_zero num is_num0 ev_id 0 0 (Cx (/ 10 ^ 50) 0) = true). { specialize (H E). assert (/ 10 ^ 50 = 0) by congruence. lra. }
  unfold check_zero, convert_one_expression_to_mpfmpc, ev_id. destruct (is_num0 (Cx (/ 10 ^ 50) 0)) eqn:Z.
  - apply is_num0_spec in Z. assert (/ 10 ^ 50 = 0) by congruence. lra.
  - assert (L : forall n, (n < 50)%nat -> modulus (/ 10 ^ 50) 0 < / 10 ^ n).
    { intros n Hn. rewrite M. apply Rinv_lt_contravar; [apply Rmult_lt_0_compat; apply pow_lt; lra |]. apply Rlt_pow; [lra | exact Hn]. }
    rewrite (proj2 (lt_num_spec _ _ (tolerance precision)) (L 24%nat ltac:(lia))), (proj2 (lt_num_spec _ _ (tolerance (2 * precision))) (L 48%nat ltac:(lia))).
    cbn [negb andb]. now apply is_num0_spec.
Qed.

(** ** Examples *)
(** a dictionary with a nested list, something that is no expression, and an entry that is left out *)
Example ex_C77_values : forall x y z w, map fst (proc [("g", TList num [TList num [N x; N y]; TList num [TOther num; N z]]); ("b", N w); ("f_funcform", N w)])
  = ["b"; "g_0"; "g_1"; "g_3"].
Proof. reflexivity. Qed.
(** the hypotheses of C77_assert_equal hold for these two, which differ in the value of one entry *)
Example ex_C77_assert_equal : (forall k, match dget k [("a", TList num [N 1; N 2]); ("b", N 3)], dget k [("b", N 3); ("a", TList num [N 1; N 4])] with
    Some x, Some y => same_shape num x y | None, None => True | _, _ => False end) /\
  aeq [("b", N 3); ("a", TList num [N 1; N 4])] [("a", TList num [N 1; N 2]); ("b", N 3)] = Err AssertionError.
Proof.
  assert (S : forall k, match dget k [("a", TList num [N 1; N 2]); ("b", N 3)], dget k [("b", N 3); ("a", TList num [N 1; N 4])] with
    Some x, Some y => same_shape num x y | None, None => True | _, _ => False end).
  { intros k. cbn [dget]. destruct (String.eqb_spec k "a") as [-> | NA]; cbn.
    - apply (ss_list num _ _ [N 1; N 2] [N 1; N 4]); [apply (flatten_leaves num [N 1; N 2]) | apply (flatten_leaves num [N 1; N 4]) |].
      repeat constructor; intros (e & E); eexists; reflexivity.
    - destruct (String.eqb k "b"); [constructor | exact I]. }
  split; [exact S |].
  destruct (aeq [("b", N 3); ("a", TList num [N 1; N 4])] [("a", TList num [N 1; N 2]); ("b", N 3)]) as [[] | x] eqn:A.
  2: { unfold assert_equal in A. destruct (existsb _ _) in A; congruence. }
  exfalso. rewrite assert_equal_spec in A.
  assert (V : forall a, 1 <= a -> conv num is_num0 ev_id (Cx a 0) = Cx a 0).
  { intros a Ha. unfold conv, convert_one_expression_to_mpfmpc, ev_id. destruct (is_num0 (Cx a 0)) eqn:Z.
    - apply is_num0_spec in Z. exfalso. assert (a = 0) by congruence. lra.
    - cbn [negb andb]. replace (lt_num (fabs (Cx a 0)) (tolerance precision)) with false; [reflexivity |].
      symmetry. apply not_true_iff_false. rewrite lt_num_spec. unfold modulus. replace (a * a + 0 * 0) with (Rsqr a) by (unfold Rsqr; ring). rewrite sqrt_Rsqr by lra.
      change (tolerance precision) with (/ 10 ^ 24). apply Rle_not_lt. apply Rle_trans with 1; [| exact Ha]. rewrite <- Rinv_1. apply Rinv_le_contravar; [lra |]. apply pow_R1_Rle. lra. }
  assert (W : within (/ 10 ^ 24) (Cx 4 0) (Cx 2 0) (mean (Cx 4 0) (Cx 2 0))).
  { apply (A 1%nat "a_1" _ "a_1" _); [rewrite <- (V 4) by lra | rewrite <- (V 2) by lra]; reflexivity. }
  cbn [mean within] in W. unfold modulus in W.
  replace ((4 - 2) * (4 - 2) + (0 - 0) * (0 - 0)) with (Rsqr 2) in W by (unfold Rsqr; ring).
  replace ((4 + 2) / 2 * ((4 + 2) / 2) + (0 + 0) / 2 * ((0 + 0) / 2)) with (Rsqr 3) in W by (unfold Rsqr; field).
  rewrite !sqrt_Rsqr in W by lra. assert (/ 10 ^ 24 <= / 10 ^ 1) by (apply Rinv_le_contravar; [apply pow_lt; lra | apply Rle_pow; [lra | lia]]). lra.
Qed.
(** an evaluation with an error of 10^-26: 0 is recognized, 1 is not *)
Example ex_C77_zero : let ev := fun (dps d : nat) (e : R) => Cx (e + / 10 ^ (5 * dps / 6 + 1)) 0 in
  (forall e, accurate R ev (fun _ e => (e, 0)) 30 0 e /\ accurate R ev (fun _ e => (e, 0)) 60 0 e) /\
  check_zero R (fun _ => false) ev 0 0 0 = true /\ check_zero R (fun _ => false) ev 0 0 1 = false.
Proof.
  intros ev. assert (A : forall e n m, (m < 5 * n / 6 + 1)%nat -> modulus (e + / 10 ^ (5 * n / 6 + 1) - e) (0 - 0) < / 10 ^ m).
  { intros e n m H. unfold modulus. replace (_ + (0 - 0) * (0 - 0)) with (Rsqr (/ 10 ^ (5 * n / 6 + 1))) by (unfold Rsqr; ring).
    rewrite sqrt_Rsqr by (apply Rlt_le, Rinv_0_lt_compat, pow_lt; lra). apply Rinv_lt_contravar; [apply Rmult_lt_0_compat; apply pow_lt; lra |]. apply Rlt_pow; [lra | exact H]. }
  assert (B : forall e, accurate R ev (fun _ e => (e, 0)) 30 0 e /\ accurate R ev (fun _ e => (e, 0)) 60 0 e).
  { intros e. split; eexists; eexists; (split; [reflexivity |]); [apply (A e 30%nat 24%nat) | apply (A e 60%nat 48%nat)]; cbn; lia. }
  split; [exact B |].
  assert (C : forall e, check_zero R (fun _ => false) ev 0 0 e = true -> modulus e 0 < 2 / 10 ^ 24).
  { intros e H. destruct (C77_zero R (fun _ => false) ev (fun _ e => (e, 0)) ltac:(discriminate) 0 0 e (proj1 (B e)) (proj2 (B e))) as (_ & S). exact (S H). }
  split.
  - destruct (C77_zero R (fun _ => false) ev (fun _ e => (e, 0)) ltac:(discriminate) 0 0 0 (proj1 (B 0)) (proj2 (B 0))) as (Z & _). apply Z; reflexivity.
  - apply not_true_iff_false. intros H. apply C in H. unfold modulus in H. replace (1 * 1 + 0 * 0) with 1 in H by ring. rewrite sqrt_1 in H.
    assert (/ 10 ^ 24 <= / 10 ^ 1) by (apply Rinv_le_contravar; [apply pow_lt; lra | apply Rle_pow; [lra | lia]]). unfold Rdiv in H. lra.
Qed.
(** a trusted file that is missed by a changed value, a missing name and an additional name *)
Example ex_C77_trusted : let t := [("a", Cx 1 0); ("b", NaN)] in
  compare_against_trusted [("b", Cx 5 0); ("a", Cx 1 0)] t = Ok tt /\ compare_against_trusted [("a", Cx 2 0); ("b", NaN)] t = Err ValueError /\
  compare_against_trusted [("a", Cx 1 0)] t = Err ValueError /\ compare_against_trusted [("a", Cx 1 0); ("c", NaN)] t = Err KeyError.
Proof.
  intros t. assert (W : mismatch (Cx 1 0) (Cx 1 0) = false) by (apply gt_scaled_spec; apply (within_refl 30)).
  assert (M : mismatch (Cx 2 0) (Cx 1 0) = true).
  { apply not_false_iff_true. unfold mismatch. rewrite gt_scaled_spec. cbn [within]. unfold modulus.
    replace ((2 - 1) * (2 - 1) + (0 - 0) * (0 - 0)) with 1 by ring. replace (1 * 1 + 0 * 0) with 1 by ring. rewrite sqrt_1.
    change (tolerance precision) with (/ 10 ^ 24). assert (/ 10 ^ 24 <= / 10 ^ 1) by (apply Rinv_le_contravar; [apply pow_lt; lra | apply Rle_pow; [lra | lia]]). lra. }
  unfold compare_against_trusted, t. cbn [length Nat.eqb compare_keys dget String.eqb Ascii.eqb Bool.eqb]. rewrite W, M. repeat split; reflexivity.
Qed.
(** the regression theorem is about something: these have one name each per expression *)
Example ex_C77_regression : forall x, source num [("b", N x); ("g", TList num [N x])] "g_0" (Cx x 0) /\
  (forall e, source num [("b", N x); ("g", TList num [N x])] "b" e -> e = Cx x 0).
Proof.
  intros x. split.
  - apply (src_list num _ "g" [N x] [N x] 0); [cbn; auto | intros F; apply py_in_spec in F; discriminate F | apply (flatten_leaves num [N x]) | reflexivity].
  - intros e S. inversion S as [k e' I F | lhs l fl i e' I F L E K]; subst.
    + destruct I as [I | [I | []]]; [unfold N in I; congruence | discriminate I].
    + destruct I as [I | [I | []]]; [discriminate I |]. assert (lhs = "g") by congruence. subst lhs. discriminate K.
Qed.

Print Assumptions C77_values.
Print Assumptions C77_zero.
Print Assumptions C77_assert_equal.
Print Assumptions C77_trusted.
Print Assumptions C77_regression.
Print Assumptions C77_assert_equal_names_refuted.
Print Assumptions C77_nan_refuted.
Print Assumptions C77_collision_refuted.
Print Assumptions C77_tiny_refuted.
