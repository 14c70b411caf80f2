(** Finite sums and products over canonical rationals, and polynomials as coefficient lists. *)
From Coq Require Import List ZArith Bool Lia QArith Qcanon.
Import ListNotations.
Open Scope Qc_scope.

(** ** Definitions *)
Definition qz (z : Z) : Qc := Q2Qc (inject_Z z).
Definition qn (n : nat) : Qc := qz (Z.of_nat n).

(** Sum of f 0 .. f (n-1). *)
Fixpoint qsum (n : nat) (f : nat -> Qc) : Qc :=
  match n with O => 0 | S m => qsum m f + f m end.

Fixpoint qprod (n : nat) (f : nat -> Qc) : Qc :=
  match n with O => 1 | S m => qprod m f * f m end.

Definition qdelta (i j : nat) : Qc := if Nat.eqb i j then 1 else 0.

(** Polynomials: [a0; a1; ...] denotes a0 + a1 x + ... *)
Fixpoint peval (p : list Qc) (x : Qc) : Qc :=
  match p with [] => 0 | a :: p' => a + x * peval p' x end.

Definition qeqb (a b : Qc) : bool := if Qc_eq_dec a b then true else false.

(** ** Arithmetic facts *)
Lemma qeqb_eq : forall a b, qeqb a b = true <-> a = b.
Proof. intros; unfold qeqb; destruct (Qc_eq_dec a b); split; congruence. Qed.
Lemma qeqb_neq : forall a b, qeqb a b = false <-> a <> b.
Proof. intros; unfold qeqb; destruct (Qc_eq_dec a b); split; congruence. Qed.

Lemma Q2Qc_inj_eq : forall a b : Q, (a == b)%Q -> Q2Qc a = Q2Qc b.
Proof. intros a b H. apply Qc_is_canon. cbn [this Q2Qc]. now rewrite !Qred_correct. Qed.

Lemma qz_add : forall a b, qz (a + b) = qz a + qz b.
Proof.
  intros; unfold qz. apply Qc_is_canon. cbn [this Q2Qc Qcplus Qcmult Qcopp].
  rewrite !Qred_correct. rewrite inject_Z_plus. reflexivity.
Qed.

Lemma qz_mul : forall a b, qz (a * b) = qz a * qz b.
Proof.
  intros; unfold qz. apply Qc_is_canon. cbn [this Q2Qc Qcplus Qcmult Qcopp].
  rewrite !Qred_correct. rewrite inject_Z_mult. reflexivity.
Qed.

Lemma qz_opp : forall a, qz (- a) = - qz a.
Proof.
  intros; unfold qz. apply Qc_is_canon. cbn [this Q2Qc Qcplus Qcmult Qcopp].
  rewrite !Qred_correct. rewrite inject_Z_opp. reflexivity.
Qed.

Lemma qz_sub : forall a b, qz (a - b) = qz a - qz b.
Proof. intros; unfold Z.sub. rewrite qz_add, qz_opp. reflexivity. Qed.

Lemma qz_0 : qz 0 = 0. Proof. apply Qc_is_canon; reflexivity. Qed.
Lemma qz_1 : qz 1 = 1. Proof. apply Qc_is_canon; reflexivity. Qed.

Lemma qz_inj : forall a b, qz a = qz b -> a = b.
Proof.
  intros a b H. unfold qz in H.
  assert (Hq : (inject_Z a == inject_Z b)%Q).
  { rewrite <- (Qred_correct (inject_Z a)), <- (Qred_correct (inject_Z b)).
    change (Qred (inject_Z a)) with (this (Q2Qc (inject_Z a))).
    change (Qred (inject_Z b)) with (this (Q2Qc (inject_Z b))). now rewrite H. }
  unfold Qeq, inject_Z in Hq; cbn in Hq. lia.
Qed.

Lemma qn_inj : forall a b, qn a = qn b -> a = b.
Proof. intros a b H. apply qz_inj in H. lia. Qed.

Lemma qn_S : forall n, qn (S n) = qn n + 1.
Proof. intros; unfold qn. rewrite Nat2Z.inj_succ, <- Z.add_1_r, qz_add, qz_1. reflexivity. Qed.
Lemma qn_0 : qn 0 = 0. Proof. exact qz_0. Qed.
Lemma qn_1 : qn 1 = 1. Proof. exact qz_1. Qed.
Lemma qn_add : forall a b, qn (a + b) = qn a + qn b.
Proof. intros; unfold qn. now rewrite Nat2Z.inj_add, qz_add. Qed.
Lemma qn_mul : forall a b, qn (a * b) = qn a * qn b.
Proof. intros; unfold qn. now rewrite Nat2Z.inj_mul, qz_mul. Qed.
Lemma qn_nonzero : forall n, n <> O -> qn n <> 0.
Proof. intros n H E. rewrite <- qn_0 in E. apply qn_inj in E. auto. Qed.

Lemma Qc_integral : forall a b : Qc, a * b = 0 -> a = 0 \/ b = 0.
Proof. apply Qcmult_integral. Qed.

Lemma Qc_mul_nonzero : forall a b : Qc, a <> 0 -> b <> 0 -> a * b <> 0.
Proof. intros a b Ha Hb H. apply Qc_integral in H as [|]; auto. Qed.

Lemma Qc_mul_cancel : forall a b c : Qc, c <> 0 -> a * c = b * c -> a = b.
Proof.
  intros a b c Hc H.
  assert (E : (a - b) * c = 0) by (replace ((a - b) * c) with (a * c - b * c) by ring; rewrite H; ring).
  apply Qc_integral in E as [E|E]; [|contradiction].
  replace a with ((a - b) + b) by ring. rewrite E. ring.
Qed.

Lemma Qc_sub_nonzero : forall a b : Qc, a <> b -> a - b <> 0.
Proof.
  intros a b H E. apply H. replace a with ((a - b) + b) by ring. rewrite E; ring.
Qed.

Lemma Qcpow_S : forall (a : Qc) n, a ^ (S n) = a * a ^ n.
Proof. reflexivity. Qed.

Lemma Qcpow_0 : forall (a : Qc), a ^ 0 = 1.
Proof. reflexivity. Qed.

Lemma Qc_0_pow : forall n, n <> O -> 0 ^ n = 0.
Proof. intros [|n] H; [congruence|]. rewrite Qcpow_S. ring. Qed.

Lemma Qcpow_nonzero : forall (a : Qc) n, a <> 0 -> a ^ n <> 0.
Proof.
  intros a n H; induction n.
  - intro E; discriminate.
  - rewrite Qcpow_S. now apply Qc_mul_nonzero.
Qed.

Lemma Qcpow_mul : forall (a b : Qc) n, (a * b) ^ n = a ^ n * b ^ n.
Proof. intros a b n; induction n; [reflexivity|]. rewrite !Qcpow_S, IHn. ring. Qed.

(** ** Sums *)
Lemma qsum_ext : forall n f g, (forall i, (i < n)%nat -> f i = g i) -> qsum n f = qsum n g.
Proof.
  induction n; intros f g H; cbn; auto. rewrite (IHn f g), (H n) by (intros; auto with arith).
  reflexivity.
Qed.

Lemma qsum_zero : forall n, qsum n (fun _ => 0) = 0.
Proof. induction n; cbn; auto. rewrite IHn; ring. Qed.

Lemma qsum_zero' : forall n f, (forall i, (i < n)%nat -> f i = 0) -> qsum n f = 0.
Proof. intros n f H. rewrite (qsum_ext n f (fun _ => 0)); auto using qsum_zero. Qed.

Lemma qsum_add : forall n f g, qsum n (fun i => f i + g i) = qsum n f + qsum n g.
Proof. induction n; intros; cbn; [ring|]. rewrite IHn; ring. Qed.

Lemma qsum_sub : forall n f g, qsum n (fun i => f i - g i) = qsum n f - qsum n g.
Proof. induction n; intros; cbn; [ring|]. rewrite IHn; ring. Qed.

Lemma qsum_scale : forall n c f, qsum n (fun i => c * f i) = c * qsum n f.
Proof. induction n; intros; cbn; [ring|]. rewrite IHn; ring. Qed.

Lemma qsum_scale_r : forall n c f, qsum n (fun i => f i * c) = qsum n f * c.
Proof. induction n; intros; cbn; [ring|]. rewrite IHn; ring. Qed.

Lemma qsum_swap : forall n m f,
  qsum n (fun i => qsum m (fun j => f i j)) = qsum m (fun j => qsum n (fun i => f i j)).
Proof.
  induction n; intros m f; cbn.
  - now rewrite qsum_zero.
  - rewrite IHn, <- qsum_add. reflexivity.
Qed.

Lemma qsum_delta : forall n k f, (k < n)%nat -> qsum n (fun i => qdelta i k * f i) = f k.
Proof.
  induction n; intros k f H; [lia|]. cbn. destruct (Nat.eq_dec k n).
  - subst. rewrite qsum_zero'.
    + unfold qdelta; rewrite Nat.eqb_refl; ring.
    + intros i Hi. unfold qdelta. replace (Nat.eqb i n) with false by (symmetry; apply Nat.eqb_neq; lia). ring.
  - rewrite IHn by lia. unfold qdelta.
    replace (Nat.eqb n k) with false by (symmetry; apply Nat.eqb_neq; lia). ring.
Qed.

Lemma qsum_delta_l : forall n k f, (k < n)%nat -> qsum n (fun i => qdelta k i * f i) = f k.
Proof.
  intros. rewrite <- (qsum_delta n k f) by auto. apply qsum_ext. intros; unfold qdelta.
  now rewrite Nat.eqb_sym.
Qed.

Lemma qsum_single : forall n k f, (k < n)%nat -> (forall i, (i < n)%nat -> i <> k -> f i = 0) ->
  qsum n f = f k.
Proof.
  intros n k f Hk H. rewrite <- (qsum_delta n k f) by auto. apply qsum_ext.
  intros i Hi. unfold qdelta. destruct (Nat.eqb_spec i k); [subst; ring|].
  rewrite H by auto; ring.
Qed.

Lemma qsum_app : forall n m f, qsum (n + m) f = qsum n f + qsum m (fun i => f (n + i)%nat).
Proof.
  intros n m f; induction m; cbn.
  - rewrite Nat.add_0_r; ring.
  - rewrite Nat.add_succ_r; cbn. rewrite IHm; ring.
Qed.

Lemma qsum_shift : forall n f, qsum (S n) f = f O + qsum n (fun i => f (S i)).
Proof. intros. change (S n) with (1 + n)%nat. rewrite (qsum_app 1 n f). cbn. ring. Qed.

Lemma qsum_rev : forall n f, qsum n f = qsum n (fun i => f (n - 1 - i)%nat).
Proof.
  induction n; intros f; auto.
  rewrite qsum_shift. cbn [qsum]. rewrite IHn.
  replace (S n - 1 - n)%nat with 0%nat by lia. rewrite Qcplus_comm. f_equal.
  apply qsum_ext. intros i Hi. f_equal. lia.
Qed.

(** ** Products *)
Lemma qprod_ext : forall n f g, (forall i, (i < n)%nat -> f i = g i) -> qprod n f = qprod n g.
Proof.
  induction n; intros f g H; cbn; auto. rewrite (IHn f g), (H n) by (intros; auto with arith).
  reflexivity.
Qed.

Lemma qprod_mul : forall n f g, qprod n (fun i => f i * g i) = qprod n f * qprod n g.
Proof. induction n; intros; cbn; [ring|]. rewrite IHn; ring. Qed.

Lemma qprod_one : forall n, qprod n (fun _ => 1) = 1.
Proof. induction n; cbn; auto. rewrite IHn; ring. Qed.

Lemma qprod_nonzero : forall n f, (forall i, (i < n)%nat -> f i <> 0) -> qprod n f <> 0.
Proof.
  induction n; intros f H; cbn; [intro; discriminate|].
  apply Qc_mul_nonzero; auto.
Qed.

Lemma qprod_zero : forall n f k, (k < n)%nat -> f k = 0 -> qprod n f = 0.
Proof.
  induction n; intros f k Hk H; [lia|]. cbn. destruct (Nat.eq_dec k n).
  - subst; rewrite H; ring.
  - rewrite (IHn f k) by (auto; lia). ring.
Qed.

Lemma qprod_app : forall n m f, qprod (n + m) f = qprod n f * qprod m (fun i => f (n + i)%nat).
Proof.
  intros n m f; induction m; cbn.
  - rewrite Nat.add_0_r; ring.
  - rewrite Nat.add_succ_r; cbn. rewrite IHm; ring.
Qed.

Lemma qprod_shift : forall n f, qprod (S n) f = f O * qprod n (fun i => f (S i)).
Proof. intros. change (S n) with (1 + n)%nat. rewrite (qprod_app 1 n f). cbn. ring. Qed.

(** ** Polynomials *)
Lemma peval_nth : forall p x n, (List.length p <= n)%nat ->
  peval p x = qsum n (fun i => nth i p 0 * x ^ i).
Proof.
  induction p as [|a p IH]; intros x n H; cbn [peval].
  - rewrite qsum_zero'; auto. intros i _. destruct i; cbn; ring.
  - destruct n; cbn in H; [lia|]. rewrite qsum_shift. cbn [nth]. rewrite Qcpow_0.
    rewrite (IH x n) by lia. rewrite <- qsum_scale. rewrite Qcmult_1_r. f_equal.
    apply qsum_ext. intros. rewrite Qcpow_S. ring.
Qed.

(** Multiplication by (x - a). *)

Fixpoint padd (p q : list Qc) : list Qc :=
  match p, q with
  | [], _ => q
  | _, [] => p
  | a :: p', b :: q' => (a + b) :: padd p' q'
  end.
Definition pmul_lin (a : Qc) (p : list Qc) : list Qc := padd (0 :: p) (map (fun c => - a * c) p).
Fixpoint pprod (l : list Qc) : list Qc :=
  match l with [] => [1] | a :: l' => pmul_lin a (pprod l') end.

Lemma peval_padd : forall p q x, peval (padd p q) x = peval p x + peval q x.
Proof.
  induction p as [|a p IH]; intros [|b q] x; cbn; try ring.
  rewrite IH; ring.
Qed.

Lemma peval_map_scale : forall c p x, peval (map (fun a => c * a) p) x = c * peval p x.
Proof. intros c p x; induction p; cbn; [ring|]. rewrite IHp; ring. Qed.

Lemma peval_pmul_lin : forall a p x, peval (pmul_lin a p) x = (x - a) * peval p x.
Proof.
  intros; unfold pmul_lin. rewrite peval_padd, peval_map_scale. cbn. ring.
Qed.

Lemma padd_length : forall p q, List.length (padd p q) = Nat.max (List.length p) (List.length q).
Proof. induction p; intros [|b q]; cbn; auto. Qed.

Lemma pmul_lin_length : forall a p, List.length (pmul_lin a p) = S (List.length p).
Proof. intros. unfold pmul_lin. rewrite padd_length, map_length. cbn [List.length]. lia. Qed.

Lemma pprod_length : forall l, List.length (pprod l) = S (List.length l).
Proof. induction l; cbn [pprod List.length]; auto. rewrite pmul_lin_length. auto. Qed.

Lemma nth_padd : forall p q i, nth i (padd p q) 0 = nth i p 0 + nth i q 0.
Proof.
  induction p as [|a p IH]; intros [|b q] [|i]; cbn; try ring. apply IH.
Qed.

Lemma nth_map_scale : forall c p i, nth i (map (fun a => c * a) p) 0 = c * nth i p 0.
Proof. intros c p; induction p; intros [|i]; cbn; try ring. apply IHp. Qed.

(** The product is monic. *)
Lemma pprod_monic : forall l, nth (List.length l) (pprod l) 0 = 1.
Proof.
  induction l as [|a l IH]; cbn [List.length pprod]; auto.
  unfold pmul_lin. rewrite nth_padd, nth_map_scale. cbn [nth].
  rewrite IH. rewrite (nth_overflow (pprod l)) by (rewrite pprod_length; apply Nat.le_refl). ring.
Qed.

Definition qlprod (l : list Qc) : Qc := fold_right Qcmult 1 l.

Lemma peval_pprod : forall l x, peval (pprod l) x = qlprod (map (fun a => x - a) l).
Proof.
  induction l as [|a l IH]; intros x; [cbn; ring|]. cbn [pprod map].
  rewrite peval_pmul_lin, IH. reflexivity.
Qed.

Lemma qlprod_nonzero : forall l, (forall a, In a l -> a <> 0) -> qlprod l <> 0.
Proof.
  induction l; cbn; intros H; [intro; discriminate|].
  apply Qc_mul_nonzero; auto.
Qed.

Lemma qlprod_zero : forall l, In 0 l -> qlprod l = 0.
Proof.
  induction l as [|a l IH]; intros []; unfold qlprod in *; cbn [fold_right]; [subst; ring|].
  rewrite IH; auto; ring.
Qed.

Lemma qlprod_app : forall a b, qlprod (a ++ b) = qlprod a * qlprod b.
Proof.
  unfold qlprod; induction a; intros; cbn [app fold_right]; [ring|]. rewrite IHa; ring.
Qed.
