(** C34: Adams-Bashforth weights. *)
From Coq Require Import String List Bool Arith ZArith Lia QArith Qcanon Field.
From Verif Require Import PyBase QcLib MoL Butcher FDCoeffsFacts.
Import ListNotations.
Open Scope Qc_scope.

Lemma peval_padd : forall p q x, peval (padd p q) x = peval p x + peval q x.
Proof.
  induction p as [|a p IH]; intros [|b q] x; cbn [padd peval]; try ring. rewrite IH. ring.
Qed.
Lemma peval_pscale : forall c p x, peval (pscale c p) x = c * peval p x.
Proof. induction p as [|a p IH]; intros x; cbn; [ring|]. unfold pscale in IH. rewrite IH. ring. Qed.
Lemma padd_length : forall p q, List.length (padd p q) = Nat.max (List.length p) (List.length q).
Proof. induction p as [|a p IH]; intros [|b q]; cbn; auto. Qed.
Lemma pscale_length : forall c p, List.length (pscale c p) = List.length p.
Proof. intros. apply map_length. Qed.
Lemma pint_padd : forall p q k, pint01 k (padd p q) = pint01 k p + pint01 k q.
Proof.
  assert (Z : Q2Qc 0 = 0) by reflexivity.
  induction p as [|a p IH]; intros [|b q] k; cbn [padd pint01]; rewrite ?Z; try ring. rewrite IH. unfold Qcdiv. ring.
Qed.
Lemma pint_pscale : forall c p k, pint01 k (pscale c p) = c * pint01 k p.
Proof.
  induction p as [|a p IH]; intros k; cbn [pscale map pint01]; [change (Q2Qc 0) with 0; ring|].
  unfold pscale in IH. rewrite IH. unfold Qcdiv. ring.
Qed.

(** ** A polynomial with more roots than its degree is zero *)
Lemma deflate : forall p a, exists q, List.length q = pred (List.length p) /\
  forall x, peval p x - peval p a = (x - a) * peval q x.
Proof.
  induction p as [|c p IH]; intros a; [exists []; split; [reflexivity|intros; cbn; ring]|].
  destruct (IH a) as [q [L H]]. exists (padd p (pscale a q)). split.
  - rewrite padd_length, pscale_length, L. cbn. lia.
  - intros x. cbn [peval]. rewrite peval_padd, peval_pscale.
    replace (c + x * peval p x - (c + a * peval p a)) with ((x - a) * peval p x + a * (peval p x - peval p a)) by ring.
    rewrite H. ring.
Qed.
Lemma roots_zero : forall xs p, NoDup xs -> (List.length p <= List.length xs)%nat ->
  (forall x, In x xs -> peval p x = 0) -> forall x, peval p x = 0.
Proof.
  induction xs as [|a xs IH]; intros p N L R x.
  - destruct p; [reflexivity|cbn in L; lia].
  - apply NoDup_cons_iff in N as [N1 N2]. destruct (deflate p a) as [q [Lq H]].
    assert (RA : peval p a = 0) by (apply R; now left).
    assert (Q : forall z, peval q z = 0).
    { apply IH; [exact N2|cbn in L; lia|]. intros z Iz. specialize (H z). rewrite RA, (R z) in H by now right.
      assert (E : (z - a) * peval q z = 0) by (rewrite <- H; ring).
      apply Qc_integral in E as [E|E]; [|exact E]. exfalso. apply N1.
      replace a with z; [exact Iz|]. replace z with ((z - a) + a) by ring. rewrite E. ring. }
    specialize (H x). rewrite RA, Q in H. replace (peval p x) with (peval p x - 0) by ring. rewrite H. ring.
Qed.
Lemma qn_list_NoDup : forall a n, NoDup (map qn (seq a n)).
Proof.
  intros a n. generalize (seq_NoDup n a). generalize (seq a n). induction l as [|x l IH]; intros N; [constructor|].
  apply NoDup_cons_iff in N as [N1 N2]. cbn. constructor; [|now apply IH]. intros I. apply in_map_iff in I.
  destruct I as [y [E I]]. apply qn_inj in E. now subst.
Qed.
Lemma zero_coeffs : forall p, (forall x, peval p x = 0) -> Forall (fun c => c = 0) p.
Proof.
  induction p as [|c p IH]; intros H; [constructor|].
  assert (C : c = 0) by (rewrite <- (H 0); cbn; ring).
  constructor; [exact C|]. apply IH.
  apply (roots_zero (map qn (seq 1 (List.length p)))); [apply qn_list_NoDup|now rewrite map_length, seq_length|].
  intros x I. apply in_map_iff in I. destruct I as [k [<- I]]. apply in_seq in I. specialize (H (qn k)). cbn in H. subst c.
  assert (E : qn k * peval p (qn k) = 0) by (rewrite <- H; ring). apply Qc_integral in E as [E|E]; [|exact E].
  exfalso. apply (qn_nonzero k); [lia|exact E].
Qed.
Lemma pint_zero : forall p k, Forall (fun c => c = 0) p -> pint01 k p = 0.
Proof. intros p k H. revert k. induction H as [|c p -> H IH]; intros k; [reflexivity|]. cbn [pint01]. rewrite IH. unfold Qcdiv. ring. Qed.

(** ** The Lagrange basis *)
Fixpoint lprod (l : list Qc) : Qc := match l with [] => 1 | a :: r => a * lprod r end.
Lemma lprod_app : forall l m, lprod (l ++ m) = lprod l * lprod m.
Proof. induction l as [|a l IH]; intros m; cbn; [ring|]. rewrite IH. ring. Qed.
Lemma lprod_zero : forall l, In 0 l -> lprod l = 0.
Proof. induction l as [|a l IH]; intros I; [contradiction|]. cbn. destruct I as [->|I]; [ring|]. rewrite IH by exact I. ring. Qed.
Lemma peval_ab : forall l x, peval (fold_right pmul_x_plus [Q2Qc 1] l) x = lprod (map (fun i => x + qn i) l).
Proof.
  induction l as [|i l IH]; intros x; cbn [fold_right map lprod].
  - cbn. change (Q2Qc 1) with 1. ring.
  - unfold pmul_x_plus at 1. rewrite peval_padd, peval_pscale. cbn [peval]. rewrite IH. change (Q2Qc 0) with 0. ring.
Qed.
Lemma ab_length : forall l, List.length (fold_right pmul_x_plus [Q2Qc 1] l) = S (List.length l).
Proof.
  induction l as [|i l IH]; [reflexivity|]. cbn [fold_right]. unfold pmul_x_plus at 1. rewrite padd_length, pscale_length.
  cbn [List.length]. rewrite IH. lia.
Qed.
Lemma filter_id : forall (f : nat -> bool) l, forallb f l = true -> filter f l = l.
Proof. induction l as [|x l IH]; cbn; intros H; [reflexivity|]. apply andb_true_iff in H as [H1 H2]. rewrite H1. f_equal. auto. Qed.
Lemma filter_split : forall n j, (j < n)%nat ->
  filter (fun i => negb (Nat.eqb i j)) (seq 0 n) = (seq 0 j ++ seq (S j) (n - j - 1))%list.
Proof.
  intros n j L. replace n with (j + S (n - j - 1))%nat at 1 by lia. rewrite seq_app, filter_app. f_equal.
  - rewrite <- (app_nil_r (seq 0 j)) at 2. rewrite app_nil_r. apply filter_id. apply forallb_forall. intros i I.
    apply in_seq in I. apply negb_true_iff, Nat.eqb_neq. lia.
  - cbn [Nat.add seq filter]. rewrite Nat.eqb_refl. cbn [negb]. apply filter_id. apply forallb_forall. intros i I.
    apply in_seq in I. apply negb_true_iff, Nat.eqb_neq. lia.
Qed.
Lemma prod_below : forall j m, (m <= j)%nat -> lprod (map (fun i => - qn j + qn i) (seq (j - m) m)) = (- (1)) ^ m * qn (fact m).
Proof.
  intros j. induction m as [|m IH]; intros L; [cbn; rewrite qn_1; ring|].
  cbn [seq map lprod]. replace (S (j - S m))%nat with (j - m)%nat by lia. rewrite IH by lia.
  replace (fact (S m)) with (S m * fact m)%nat by reflexivity. rewrite qn_mul, Qcpow_S.
  assert (E : - qn j + qn (j - S m) = - (1) * qn (S m)).
  { replace j with (j - S m + S m)%nat at 1 by lia. rewrite qn_add. ring. }
  rewrite E. ring.
Qed.
Lemma prod_above : forall j m, lprod (map (fun i => - qn j + qn i) (seq (S j) m)) = qn (fact m).
Proof.
  intros j. induction m as [|m IH]; [reflexivity|]. rewrite seq_S, map_app, lprod_app, IH. cbn [map lprod].
  replace (fact (S m)) with (S m * fact m)%nat by reflexivity. rewrite qn_mul.
  assert (E : - qn j + qn (S j + m) = qn (S m)) by (replace (S j + m)%nat with (j + S m)%nat by lia; rewrite qn_add; ring).
  rewrite E. ring.
Qed.
Definition wgt (n j : nat) : Qc := (- Q2Qc 1) ^ j / (qn (fact j) * qn (fact (n - j - 1))).
Lemma basis : forall n j k, (j < n)%nat -> (k < n)%nat ->
  wgt n j * peval (ab_poly n j) (- qn k) = if Nat.eqb k j then 1 else 0.
Proof.
  intros n j k J L. unfold ab_poly. rewrite peval_ab. destruct (Nat.eqb_spec k j) as [->|N].
  - rewrite filter_split by exact J. rewrite map_app, lprod_app, prod_above.
    pose proof (prod_below j j (le_n j)) as E. rewrite Nat.sub_diag in E. rewrite E. unfold wgt. change (Q2Qc 1) with 1.
    assert (F : forall m, qn (fact m) <> 0) by (intros m; apply qn_nonzero, fact_neq_0).
    assert (S : (- (1)) ^ j * (- (1)) ^ j = 1).
    { rewrite <- Qcpow_mul. replace (- (1) * - (1)) with 1 by ring. clear. induction j; [reflexivity|]. rewrite Qcpow_S, IHj. ring. }
    transitivity ((- (1)) ^ j * (- (1)) ^ j); [|exact S]. field. split; apply F.
  - rewrite lprod_zero; [ring|]. apply in_map_iff. exists k. split; [ring|]. apply filter_In. split; [apply in_seq; lia|].
    apply negb_true_iff, Nat.eqb_neq. exact N.
Qed.

(** ** Exactness *)
Definition interp (n : nat) (v : nat -> Qc) (l : list nat) : list Qc :=
  fold_right (fun j acc => padd (pscale (v j * wgt n j) (ab_poly n j)) acc) [] l.
Lemma interp_length : forall n v l, (forall j, In j l -> (j < n)%nat) -> (List.length (interp n v l) <= n)%nat.
Proof.
  induction l as [|j l IH]; intros H; [cbn; lia|]. cbn [interp fold_right]. rewrite padd_length, pscale_length.
  apply Nat.max_lub; [|apply IH; intros; apply H; now right]. unfold ab_poly. rewrite ab_length.
  rewrite filter_split by (apply H; now left). rewrite app_length, !seq_length. specialize (H j (or_introl eq_refl)). lia.
Qed.
Fixpoint lsum' (l : list nat) (f : nat -> Qc) : Qc := match l with [] => 0 | j :: r => f j + lsum' r f end.
Lemma lsum'_ext : forall l f g, (forall j, In j l -> f j = g j) -> lsum' l f = lsum' l g.
Proof. induction l as [|j l IH]; intros f g H; [reflexivity|]. cbn. rewrite (H j) by now left. f_equal. apply IH. intros; apply H; now right. Qed.
Lemma lsum'_qsum : forall n f, lsum' (seq 0 n) f = qsum n f.
Proof.
  assert (A : forall l m f, lsum' (l ++ m) f = lsum' l f + lsum' m f).
  { induction l as [|j l IH]; intros m f; cbn; [ring|]. rewrite IH. ring. }
  induction n as [|n IH]; intros f; [reflexivity|]. rewrite seq_S, A, IH. cbn. ring.
Qed.
Lemma interp_eval : forall n v l x, peval (interp n v l) x = lsum' l (fun j => v j * (wgt n j * peval (ab_poly n j) x)).
Proof.
  induction l as [|j l IH]; intros x; [reflexivity|]. cbn [interp fold_right lsum']. rewrite peval_padd, peval_pscale. fold (interp n v l).
  rewrite IH. ring.
Qed.
Lemma interp_int : forall n v l, pint01 0 (interp n v l) = lsum' l (fun j => v j * ab_coef n j).
Proof.
  induction l as [|j l IH]; [reflexivity|]. cbn [interp fold_right lsum']. rewrite pint_padd, pint_pscale. fold (interp n v l).
  rewrite IH. unfold ab_coef. fold (wgt n j). ring.
Qed.
Lemma delta_sum : forall v k l, NoDup l -> In k l -> lsum' l (fun j => v j * (if Nat.eqb k j then 1 else 0)) = v k.
Proof.
  induction l as [|j l IH]; intros N I; [contradiction|]. apply NoDup_cons_iff in N as [N1 N2]. cbn.
  destruct (Nat.eqb_spec k j) as [->|K].
  - rewrite (lsum'_ext l _ (fun _ => 0)).
    + assert (Z : lsum' l (fun _ => 0) = 0) by (clear; induction l; [reflexivity|cbn; rewrite IHl; ring]). rewrite Z. ring.
    + intros i Ii. destruct (Nat.eqb_spec j i) as [<-|]; [contradiction|ring].
  - destruct I as [->|I]; [congruence|]. rewrite IH by assumption. ring.
Qed.
Lemma ab_exact : forall n p, (List.length p <= n)%nat -> qsum n (fun j => ab_coef n j * peval p (- qn j)) = pint01 0 p.
Proof.
  intros n p L. set (v := fun j => peval p (- qn j)). set (q := interp n v (seq 0 n)).
  set (d := padd p (pscale (- (1)) q)).
  assert (D : Forall (fun c => c = 0) d).
  { apply zero_coeffs. apply (roots_zero (map (fun k => - qn k) (seq 0 n))).
    - generalize (seq_NoDup n 0). generalize (seq 0 n). induction l as [|x l IH]; intros N; [constructor|].
      apply NoDup_cons_iff in N as [N1 N2]. cbn. constructor; [|now apply IH]. intros I. apply in_map_iff in I.
      destruct I as [y [E I]]. assert (qn y = qn x) by (replace (qn y) with (- (- qn y)) by ring; rewrite E; ring).
      apply qn_inj in H. now subst.
    - rewrite map_length, seq_length. unfold d. rewrite padd_length, pscale_length. apply Nat.max_lub; [exact L|].
      apply interp_length. intros j J. apply in_seq in J. lia.
    - intros x I. apply in_map_iff in I. destruct I as [k [<- I]]. unfold d. rewrite peval_padd, peval_pscale.
      unfold q. rewrite interp_eval. rewrite (lsum'_ext _ _ (fun j => v j * (if Nat.eqb k j then 1 else 0))).
      + rewrite delta_sum by (apply seq_NoDup || exact I). unfold v. ring.
      + intros j J. apply in_seq in J, I. rewrite basis by lia. reflexivity. }
  apply (pint_zero d 0) in D. unfold d in D. rewrite pint_padd, pint_pscale in D. unfold q in D. rewrite interp_int, lsum'_qsum in D.
  assert (E : pint01 0 p = qsum n (fun j => v j * ab_coef n j)).
  { replace (pint01 0 p) with (pint01 0 p + - (1) * qsum n (fun j => v j * ab_coef n j) + qsum n (fun j => v j * ab_coef n j)) by ring.
    rewrite D. ring. }
  rewrite E. apply qsum_ext. intros. unfold v. ring.
Qed.

(** ** The generated matrix *)
Lemma set_nth_length : forall A i (x : A) l, List.length (set_nth i x l) = List.length l.
Proof.
  intros A i x l. unfold set_nth. rewrite app_length, firstn_length. pose proof (skipn_length i l) as S.
  destruct (skipn i l) as [|a t]; cbn in *; lia.
Qed.
Lemma set_nth_nth : forall A i k (x d : A) l, (i < List.length l)%nat -> nth k (set_nth i x l) d = if Nat.eqb k i then x else nth k l d.
Proof.
  intros A. induction i as [|i IH]; intros k x d [|a l] L; cbn in L; try lia.
  - destruct k; reflexivity.
  - change (set_nth (S i) x (a :: l)) with (a :: set_nth i x l). destruct k as [|k]; [reflexivity|]. cbn [nth Nat.eqb]. apply IH. lia.
Qed.
Definition norm (n : nat) (m : list (list Qc)) : list (list Qc) :=
  if Nat.ltb (List.length m) n then (m ++ [repeat (Q2Qc 0) n])%list else m.
Lemma norm_id : forall n m, (n <= List.length m)%nat -> norm n m = m.
Proof. intros n m L. unfold norm. destruct (Nat.ltb_spec (List.length m) n); [lia|reflexivity]. Qed.
Lemma store_norm : forall n m j, (n <= S (List.length m))%nat -> ab_store n m j = ab_store n (norm n m) j.
Proof.
  intros n m j L. unfold ab_store. fold (norm n m). fold (norm n (norm n m)). rewrite (norm_id n (norm n m)); [reflexivity|].
  unfold norm. destruct (Nat.ltb_spec (List.length m) n); [rewrite app_length; cbn; lia|lia].
Qed.
Lemma store_full : forall n m j, (1 <= n)%nat -> (n <= List.length m)%nat -> List.length (nth (n - 1) m []) = n -> (j < n)%nat ->
  ab_store n m j = set_nth (n - 1) (set_nth j (ab_coef n j) (nth (n - 1) m [])) m.
Proof.
  intros n m j N L R J. unfold ab_store. fold (norm n m). rewrite norm_id by exact L. rewrite R.
  destruct (Nat.ltb_spec n (j + 1)); [lia|reflexivity].
Qed.
Lemma inner : forall n c a m, (1 <= n)%nat -> (a + c = n)%nat -> (n <= List.length m)%nat -> List.length (nth (n - 1) m []) = n ->
  (forall i, (i < a)%nat -> nth i (nth (n - 1) m []) 0 = ab_coef n i) ->
  let m' := fold_left (ab_store n) (seq a c) m in
  List.length m' = List.length m /\ (forall k, k <> (n - 1)%nat -> nth k m' [] = nth k m []) /\
  List.length (nth (n - 1) m' []) = n /\ (forall i, (i < n)%nat -> nth i (nth (n - 1) m' []) 0 = ab_coef n i).
Proof.
  intros n. induction c as [|c IH]; intros a m N E L R H; cbn [seq fold_left].
  - replace a with n in H by lia. auto.
  - rewrite store_full by lia. set (row := set_nth a (ab_coef n a) (nth (n - 1) m [])). set (m1 := set_nth (n - 1) row m).
    assert (X : nth (n - 1) m1 [] = row) by (unfold m1; rewrite set_nth_nth by lia; now rewrite Nat.eqb_refl).
    assert (Y : List.length row = n) by (unfold row; now rewrite set_nth_length).
    assert (Lm : List.length m1 = List.length m) by apply set_nth_length.
    destruct (IH (S a) m1) as [I1 [I2 [I3 I4]]]; [exact N|lia|lia|now rewrite X| |].
    + intros i Hi. rewrite X. unfold row. rewrite set_nth_nth by lia. destruct (Nat.eqb_spec i a) as [->|]; [reflexivity|]. apply H. lia.
    + split; [now rewrite I1|split; [|split; assumption]]. intros k K. rewrite I2 by exact K. unfold m1. rewrite set_nth_nth by lia.
      destruct (Nat.eqb_spec k (n - 1)); [contradiction|reflexivity].
Qed.
Lemma row_eq : forall n row, List.length row = n -> (forall i, (i < n)%nat -> nth i row 0 = ab_coef n i) -> row = map (ab_coef n) (seq 0 n).
Proof.
  intros n row L H. apply (nth_ext _ _ 0 0); [now rewrite map_length, seq_length|]. intros i I. rewrite H by lia.
  rewrite (nth_indep _ _ (ab_coef n 0)) by (rewrite map_length, seq_length; lia). rewrite (map_nth (ab_coef n)), seq_nth by lia. reflexivity.
Qed.
Lemma outer : forall N, let m := fold_left (fun m n => fold_left (ab_store n) (seq 0 n) m) (seq 1 N)
                                   [[Q2Qc 0; Q2Qc 0]; [Q2Qc 0; Q2Qc 0]] in
  List.length m = Nat.max 2 N /\
  (forall n, (2 <= n <= N)%nat -> nth (n - 1) m [] = map (ab_coef n) (seq 0 n)) /\
  ((N < 2)%nat -> nth 1 m [] = [Q2Qc 0; Q2Qc 0]).
Proof.
  induction N as [|N IH]; cbv zeta in *.
  - cbn. split; [reflexivity|split; [intros; lia|reflexivity]].
  - rewrite seq_S, fold_left_app. cbn [fold_left]. set (m := fold_left _ (seq 1 N) _) in *. destruct IH as [L [R Z]].
    replace (1 + N)%nat with (S N) by lia. destruct N as [|N].
    + unfold m. cbn [fold_left seq Nat.add]. split; [reflexivity|split; [intros; lia|intros _; reflexivity]].
    + assert (En : exists n, n = S (S N)) by now eexists. destruct En as [n En]. rewrite <- En in *.
      assert (F : fold_left (ab_store n) (seq 0 n) m = fold_left (ab_store n) (seq 0 n) (norm n m)).
      { replace (seq 0 n) with (0%nat :: seq 1 (S N)) by now rewrite En. cbn [fold_left]. rewrite store_norm by lia. reflexivity. }
      rewrite F.
      assert (A : (n <= List.length (norm n m))%nat /\ List.length (norm n m) = Nat.max 2 n /\
                  List.length (nth (n - 1) (norm n m) []) = n /\
                  forall k, (k < n - 1)%nat -> nth k (norm n m) [] = nth k m []).
      { unfold norm. destruct (Nat.ltb_spec (List.length m) n) as [B|B].
        - rewrite app_length. cbn [List.length]. split; [lia|split; [lia|split]].
          + rewrite app_nth2 by lia. replace (n - 1 - List.length m)%nat with O by lia. cbn [nth]. apply repeat_length.
          + intros k K. apply app_nth1. lia.
        - assert (N = O) by lia. subst N n. cbn [Nat.sub]. rewrite Z by lia. split; [lia|split; [lia|split; [reflexivity|intros; reflexivity]]]. }
      destruct A as [A1 [A2 [A3 A4]]].
      destruct (inner n n 0 (norm n m)) as [I1 [I2 [I3 I4]]]; [lia|lia|exact A1|exact A3|intros; lia|].
      split; [now rewrite I1|split; [|lia]]. intros k K. destruct (Nat.eq_dec k n) as [->|D].
      * now apply row_eq.
      * rewrite I2 by lia. rewrite A4 by lia. apply R. lia.
Qed.
Lemma ab_coef_1 : ab_coef 1 0 = 1.
Proof. apply Qc_is_canon. reflexivity. Qed.
(** The rows of the generated matrix are the computed coefficients. *)
Theorem C34_rows : forall order n, (1 <= n <= order)%nat -> nth (n - 1) (ab_table order) [] = map (ab_coef n) (seq 0 n).
Proof.
  intros order n H. unfold ab_table. destruct (outer order) as [L [R _]]. set (m := fold_left _ _ _) in *.
  rewrite set_nth_nth by lia. destruct (Nat.eqb_spec (n - 1) 0) as [E|E].
  - replace n with 1%nat by lia. cbn [map seq]. rewrite ab_coef_1. reflexivity.
  - apply R. lia.
Qed.

Lemma pint_deriv : forall p k, pint01 k (pderiv_from (S k) p) = peval p 1.
Proof.
  induction p as [|a p IH]; intros k; cbn [pderiv_from pint01 peval]; [reflexivity|]. rewrite IH.
  assert (N : qn (S k) <> 0) by (apply qn_nonzero; lia). field. exact N.
Qed.
Lemma pderiv_from_length : forall p k, List.length (pderiv_from k p) = List.length p.
Proof. induction p as [|a p IH]; intros k; cbn; [reflexivity|]. now rewrite IH. Qed.
(** Row n integrates polynomials of degree below n exactly over the next step: with f = F', and values of f at the
    present time 0 and the n-1 previous ones -1, ..., -(n-1), sum_j b_j f(-j) = F(1) - F(0). *)
Theorem C34_exact : forall order n F, (1 <= n <= order)%nat -> (List.length F <= S n)%nat ->
  qsum n (fun j => nth j (nth (n - 1) (ab_table order) []) 0 * peval (pderiv F) (- qn j)) = peval F 1 - peval F 0.
Proof.
  intros order n F H L. rewrite C34_rows by exact H.
  rewrite (qsum_ext n _ (fun j => ab_coef n j * peval (pderiv F) (- qn j))).
  - rewrite ab_exact by (unfold pderiv; rewrite pderiv_from_length; destruct F; cbn in *; lia).
    unfold pderiv. destruct F as [|c F]; cbn [tl].
    + cbn. ring.
    + rewrite pint_deriv. cbn [peval]. ring.
  - intros j J. f_equal. rewrite (nth_indep _ _ (ab_coef n 0)) by (rewrite map_length, seq_length; lia).
    rewrite (map_nth (ab_coef n)), seq_nth by lia. reflexivity.
Qed.
(** Nothing else is in the matrix for orders from 2 on; for order 1 a second row of zeros remains. *)
Theorem C34_size : forall order, (2 <= order)%nat -> List.length (ab_table order) = order.
Proof. intros order H. unfold ab_table. rewrite set_nth_length. destruct (outer order) as [L _]. lia. Qed.
Theorem C34_order1_refuted : ab_table 1 = [[1]; [0; 0]].
Proof. reflexivity. Qed.
(** Concrete: the four-step weights 55/24, -59/24, 37/24, -9/24. *)
Example C34_ex : map (fun c => this c) (nth 3 (ab_table 4) []) = [(55 # 24)%Q; (-59 # 24)%Q; (37 # 24)%Q; (-3 # 8)%Q].
Proof. vm_compute. reflexivity. Qed.

Print Assumptions C34_rows.
Print Assumptions C34_exact.
Print Assumptions C34_size.
