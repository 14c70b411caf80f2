(** The ladder relations of the sums of SpinHarmonics.v. *)
From Coq Require Import List ZArith Bool Arith Lia Reals Lra Psatz.
From Verif Require Import PyBase SpinHarmonics.
Import ListNotations.
Local Open Scope R_scope.

(** ** Binomial coefficients *)
Lemma INR_S : forall k, INR (S k) <> 0.
Proof. intro. apply not_0_INR. discriminate. Qed.
Lemma bin_next : forall x k, INR (S k) * bin x (S k) = bin x k * (x - INR k).
Proof. intros x k. cbn [bin]. field. apply INR_S. Qed.
Lemma bin_absorb : forall x k, INR (S k) * bin x (S k) = x * bin (x - 1) k.
Proof.
  intros x k. induction k as [|k IH].
  - cbn. field.
  - rewrite bin_next. pose proof (INR_S k) as H. apply Rmult_eq_reg_l with (INR (S k)); [| exact H].
    transitivity ((INR (S k) * bin x (S k)) * (x - INR (S k))); [ring |]. rewrite IH. transitivity (x * (INR (S k) * bin (x - 1) (S k))); [| ring].
    rewrite bin_next. rewrite S_INR. ring.
Qed.
Lemma bin_down : forall x k, bin x k * (x - INR k) = x * bin (x - 1) k.
Proof. intros. rewrite <- bin_next. apply bin_absorb. Qed.
Lemma bin_pascal : forall x k, bin (x + 1) (S k) = bin x k + bin x (S k).
Proof.
  intros x k. apply Rmult_eq_reg_l with (INR (S k)); [| apply INR_S]. rewrite bin_absorb. replace (x + 1 - 1) with x by ring.
  rewrite Rmult_plus_distr_l, bin_next, S_INR. ring.
Qed.
Lemma bin_zero : forall n k, (n < k)%nat -> bin (INR n) k = 0.
Proof.
  intros n k H. induction k as [|k IH]; [lia |]. cbn [bin]. destruct (Nat.eq_dec n k) as [->|N].
  - replace (INR k - INR k) with 0 by ring. unfold Rdiv. ring.
  - rewrite IH by lia. unfold Rdiv. ring.
Qed.
(** with an integer below: 0 for negative numbers *)
Definition binz (x : R) (k : Z) : R := if (k <? 0)%Z then 0 else bin x (Z.to_nat k).
Lemma binz_nat : forall x k, binz x (Z.of_nat k) = bin x k.
Proof. intros. unfold binz. destruct (Z.ltb_spec (Z.of_nat k) 0); [lia |]. now rewrite Nat2Z.id. Qed.
Lemma binz_neg : forall x k, (k < 0)%Z -> binz x k = 0.
Proof. intros x k H. unfold binz. now rewrite (proj2 (Z.ltb_lt k 0) H). Qed.
Lemma binz_pascal : forall x k, binz (x + 1) (k + 1) = binz x k + binz x (k + 1).
Proof.
  intros x k. destruct (Z.lt_ge_cases k 0) as [N|N].
  - destruct (Z.eq_dec k (-1)) as [->|M]; [cbn; ring |]. rewrite !binz_neg by lia. ring.
  - replace k with (Z.of_nat (Z.to_nat k)) by lia. replace (Z.of_nat (Z.to_nat k) + 1)%Z with (Z.of_nat (S (Z.to_nat k))) by lia. rewrite !binz_nat. apply bin_pascal.
Qed.
Lemma binz_down : forall x k, binz x k * (x - IZR k) = x * binz (x - 1) k.
Proof.
  intros x k. destruct (Z.lt_ge_cases k 0) as [N|N]; [rewrite !binz_neg by lia; ring |].
  replace k with (Z.of_nat (Z.to_nat k)) by lia. rewrite !binz_nat, <- INR_IZR_INZ. apply bin_down.
Qed.
Lemma binz_absorb : forall x k, IZR (k + 1) * binz x (k + 1) = x * binz (x - 1) k.
Proof.
  intros x k. destruct (Z.lt_ge_cases k 0) as [N|N].
  - destruct (Z.eq_dec k (-1)) as [->|M]; [cbn; ring | rewrite !binz_neg by lia; ring].
  - replace k with (Z.of_nat (Z.to_nat k)) by lia. replace (Z.of_nat (Z.to_nat k) + 1)%Z with (Z.of_nat (S (Z.to_nat k))) by lia.
    rewrite !binz_nat, <- INR_IZR_INZ. apply bin_absorb.
Qed.
Lemma binz_zero : forall n k, (Z.of_nat n < k)%Z -> binz (INR n) k = 0.
Proof.
  intros n k H. replace k with (Z.of_nat (Z.to_nat k)) by lia. rewrite binz_nat. apply bin_zero. lia.
Qed.

(** ** Sums *)
Lemma sum_ext : forall f g n, (forall r, (r <= n)%nat -> f r = g r) -> sum_f_R0 f n = sum_f_R0 g n.
Proof. intros f g n H. induction n as [|n IH]; cbn; [apply H; lia | rewrite IH, H by (intros; try apply H; lia); reflexivity]. Qed.
Lemma sum_minus : forall f g n, sum_f_R0 (fun r => f r - g r) n = sum_f_R0 f n - sum_f_R0 g n.
Proof. intros f g n. induction n as [|n IH]; cbn; [reflexivity | rewrite IH; ring]. Qed.
Lemma sum_scal : forall c f n, sum_f_R0 (fun r => c * f r) n = c * sum_f_R0 f n.
Proof. intros c f n. induction n as [|n IH]; cbn; [reflexivity | rewrite IH; ring]. Qed.
Lemma sum_first : forall f n, sum_f_R0 f (S n) = f 0%nat + sum_f_R0 (fun r => f (S r)) n.
Proof. intros f n. induction n as [|n IH]; [reflexivity |]. change (sum_f_R0 f (S (S n))) with (sum_f_R0 f (S n) + f (S (S n))). rewrite IH. cbn [sum_f_R0]. ring. Qed.
Lemma shift_down : forall f g n, g 0%nat = 0 -> f (S n) = 0 -> sum_f_R0 (fun r => f r - g r) (S n) = sum_f_R0 (fun r => f r - g (S r)) n.
Proof. intros f g n G F. rewrite !sum_minus. rewrite (sum_first g), G. cbn [sum_f_R0]. rewrite F. ring. Qed.
Lemma shift_up : forall f g h n, g (S n) = 0 -> h 0%nat = - g 0%nat -> (forall r, (r <= n)%nat -> h (S r) = f r - g (S r)) ->
  sum_f_R0 (fun r => f r - g r) n = sum_f_R0 h (S n).
Proof.
  intros f g h n G H0 H. rewrite (sum_first h), H0, (sum_ext _ _ n H), !sum_minus.
  assert (E : sum_f_R0 g n = g 0%nat + sum_f_R0 (fun r => g (S r)) n) by (rewrite <- sum_first; cbn [sum_f_R0]; rewrite G; ring).
  rewrite E. ring.
Qed.
Lemma d_sum : forall (f : nat -> R -> R) (g : nat -> R) x n, (forall r, (r <= n)%nat -> derivable_pt_lim (f r) x (g r)) ->
  derivable_pt_lim (fun t => sum_f_R0 (fun r => f r t) n) x (sum_f_R0 g n).
Proof.
  intros f g x n H. induction n as [|n IH]; cbn [sum_f_R0]; [apply H; lia |].
  apply (derivable_pt_lim_plus (fun t => sum_f_R0 (fun r => f r t) n) (f (S n))); [apply IH; intros; apply H; lia | apply H; lia].
Qed.

(** ** The sum of Goldberg's formula *)
Definition hc (t : R) : R := cos (t / 2).
Definition hs (t : R) : R := sin (t / 2).
(** sum over r of (-1)^(a-r) C(a, r) C(b, r+d) c^(2r+d) s^(a+b-2r-d) *)
Definition ecoef (a b : nat) (d : Z) (r : nat) : R := (-1) ^ (a - r) * bin (INR a) r * binz (INR b) (Z.of_nat r + d).
Definition eang (a b : nat) (d : Z) (r : nat) (t : R) : R :=
  Rpower (hc t) (2 * INR r + IZR d) * Rpower (hs t) (INR a + INR b - 2 * INR r - IZR d).
Definition E (a b : nat) (d : Z) (t : R) : R := sum_f_R0 (fun r => ecoef a b d r * eang a b d r t) a.

Lemma half_pos : forall t, 0 < t < PI -> 0 < hc t /\ 0 < hs t.
Proof. intros t [A B]. unfold hc, hs. split; [apply cos_gt_0 | apply sin_gt_0]; lra. Qed.
Lemma half_one : forall t, hc t * hc t + hs t * hs t = 1.
Proof. intro t. pose proof (sin2_cos2 (t / 2)) as H. unfold Rsqr in H. unfold hc, hs. lra. Qed.
Lemma sin_half : forall t, sin t = 2 * hs t * hc t.
Proof. intro t. replace t with (2 * (t / 2)) at 1 by field. apply sin_2a. Qed.
Lemma cos_half : forall t, cos t = hc t * hc t - hs t * hs t.
Proof. intro t. replace t with (2 * (t / 2)) at 1 by field. apply cos_2a. Qed.
Lemma d_hc : forall t, derivable_pt_lim hc t (- (hs t) / 2).
Proof.
  intro t. unfold hc, hs. replace (- sin (t / 2) / 2) with (- sin (t / 2) * (1 / 2)) by field.
  apply (derivable_pt_lim_comp (fun u => u / 2) cos t); [| apply derivable_pt_lim_cos].
  replace (1 / 2) with (1 * / 2 + t * 0) by field. apply (derivable_pt_lim_mult id (fun _ => / 2)); [apply derivable_pt_lim_id | apply derivable_pt_lim_const].
Qed.
Lemma d_hs : forall t, derivable_pt_lim hs t (hc t / 2).
Proof.
  intro t. unfold hc, hs. replace (cos (t / 2) / 2) with (cos (t / 2) * (1 / 2)) by field.
  apply (derivable_pt_lim_comp (fun u => u / 2) sin t); [| apply derivable_pt_lim_sin].
  replace (1 / 2) with (1 * / 2 + t * 0) by field. apply (derivable_pt_lim_mult id (fun _ => / 2)); [apply derivable_pt_lim_id | apply derivable_pt_lim_const].
Qed.
Lemma Rpower_up : forall x y, 0 < x -> Rpower x (y + 1) = Rpower x y * x.
Proof. intros x y H. now rewrite Rpower_plus, Rpower_1. Qed.
Lemma d_prod : forall p q t, 0 < t < PI ->
  derivable_pt_lim (fun u => Rpower (hc u) p * Rpower (hs u) q) t
    (/ 2 * Rpower (hc t) (p - 1) * Rpower (hs t) (q - 1) * (q * (hc t * hc t) - p * (hs t * hs t))).
Proof.
  intros p q t H. destruct (half_pos t H) as [C S].
  pose proof (derivable_pt_lim_comp hc (fun x => Rpower x p) t _ _ (d_hc t) (derivable_pt_lim_power (hc t) p C)) as D1.
  pose proof (derivable_pt_lim_comp hs (fun x => Rpower x q) t _ _ (d_hs t) (derivable_pt_lim_power (hs t) q S)) as D2.
  pose proof (derivable_pt_lim_mult _ _ t _ _ D1 D2) as D. unfold comp in D.
  match type of D with derivable_pt_lim _ _ ?v => replace v with (/ 2 * Rpower (hc t) (p - 1) * Rpower (hs t) (q - 1) * (q * (hc t * hc t) - p * (hs t * hs t))) in D; [exact D |] end.
  replace (Rpower (hc t) p) with (Rpower (hc t) (p - 1) * hc t) by (rewrite <- Rpower_up by exact C; f_equal; ring).
  replace (Rpower (hs t) q) with (Rpower (hs t) (q - 1) * hs t) by (rewrite <- Rpower_up by exact S; f_equal; ring).
  field.
Qed.
(** the derivative of the sum *)
Definition eder (a b : nat) (d : Z) (r : nat) (t : R) : R :=
  let p := 2 * INR r + IZR d in let q := INR a + INR b - 2 * INR r - IZR d in
  / 2 * Rpower (hc t) (p - 1) * Rpower (hs t) (q - 1) * (q * (hc t * hc t) - p * (hs t * hs t)).
Definition dE (a b : nat) (d : Z) (t : R) : R := sum_f_R0 (fun r => ecoef a b d r * eder a b d r t) a.
Lemma d_E : forall a b d t, 0 < t < PI -> derivable_pt_lim (E a b d) t (dE a b d t).
Proof.
  intros a b d t H. unfold E, dE. apply (d_sum (fun r u => ecoef a b d r * eang a b d r u)). intros r _.
  apply (derivable_pt_lim_scal (eang a b d r)). apply (d_prod _ _ t H).
Qed.

(** the connection term: w = (m + s cos)/sin with a = l - s, b = l + s, d = s - m *)
Definition wt (s m t : R) : R := (m + s * cos t) / sin t.
Lemma neg1 : forall n, (-1) ^ S n = - (-1) ^ n.
Proof. intro n. cbn. ring. Qed.
Section Ladder.
Variables (a b : nat) (d : Z) (t s m : R).
Hypothesis T : 0 < t < PI.
Hypothesis Hs : INR b - INR a = 2 * s.
Hypothesis Hm : IZR d = s - m.
Let C := proj1 (half_pos t T).
Let S' := proj2 (half_pos t T).
(** c^(2r+d+1) s^(a+b-2r-d-1) *)
Let X (r : R) : R := Rpower (hc t) (2 * r + IZR d + 1) * Rpower (hs t) (INR a + INR b - 2 * r - IZR d - 1).
Let W (r : R) : R := Rpower (hc t) (2 * r + IZR d - 1) * Rpower (hs t) (INR a + INR b - 2 * r - IZR d - 1).
Lemma X_W : forall r, X r = W r * (hc t * hc t).
Proof.
  intro r. unfold X, W. replace (2 * r + IZR d + 1) with (2 * r + IZR d - 1 + 1 + 1) by ring. rewrite !Rpower_up by exact C. ring.
Qed.
Lemma Xm_W : forall r, X (r - 1) = W r * (hs t * hs t).
Proof.
  intro r. unfold X, W. replace (2 * (r - 1) + IZR d + 1) with (2 * r + IZR d - 1) by ring.
  replace (INR a + INR b - 2 * (r - 1) - IZR d - 1) with (INR a + INR b - 2 * r - IZR d - 1 + 1 + 1) by ring. rewrite !Rpower_up by exact S'. ring.
Qed.
Lemma ang_W : forall r, eang a b d r t = W (INR r) * (hc t * hs t).
Proof.
  intro r. unfold eang, W. replace (2 * INR r + IZR d) with (2 * INR r + IZR d - 1 + 1) at 1 by ring.
  replace (INR a + INR b - 2 * INR r - IZR d) with (INR a + INR b - 2 * INR r - IZR d - 1 + 1) at 1 by ring. rewrite !Rpower_up by (exact C || exact S'). ring.
Qed.
Lemma der_W : forall r, eder a b d r t = / 2 * W (INR r) * ((INR a + INR b - 2 * INR r - IZR d) * (hc t * hc t) - (2 * INR r + IZR d) * (hs t * hs t)).
Proof. intro r. unfold eder, W. ring. Qed.
Lemma w_half : wt s m t = (m * (hc t * hc t + hs t * hs t) + s * (hc t * hc t - hs t * hs t)) / (2 * hs t * hc t).
Proof. unfold wt. rewrite sin_half, cos_half, half_one, Rmult_1_r. reflexivity. Qed.
Lemma up_term : forall r, eder a b d r t - wt s m t * eang a b d r t = (INR a - INR r) * X (INR r) - INR r * X (INR r - 1).
Proof.
  intro r. rewrite der_W, ang_W, X_W, Xm_W, w_half. replace m with (s - IZR d) by lra. replace s with ((INR b - INR a) / 2) by lra. field. split; apply Rgt_not_eq; [exact C | exact S'].
Qed.
Lemma down_term : forall r, eder a b d r t + wt s m t * eang a b d r t = (INR b - (INR r + IZR d)) * X (INR r) - (INR r + IZR d) * X (INR r - 1).
Proof.
  intro r. rewrite der_W, ang_W, X_W, Xm_W, w_half. replace m with (s - IZR d) by lra. replace s with ((INR b - INR a) / 2) by lra. field. split; apply Rgt_not_eq; [exact C | exact S'].
Qed.
Lemma raise : dE a b d t - wt s m t * E a b d t = - INR a * match a with O => 0 | S a' => E a' (S b) (d + 1) t end.
Proof.
  transitivity (sum_f_R0 (fun r => ecoef a b d r * (INR a - INR r) * X (INR r) - ecoef a b d r * INR r * X (INR r - 1)) a).
  { unfold dE, E. rewrite <- sum_scal, <- sum_minus. apply sum_ext. intros r _. transitivity (ecoef a b d r * (eder a b d r t - wt s m t * eang a b d r t)); [ring |]. rewrite up_term. ring. }
  assert (Ea : a = 0%nat \/ exists n, a = S n) by (destruct a; [now left | right; eexists; reflexivity]). destruct Ea as [Ea | (n & Ea)]; [rewrite Ea; cbn; ring |].
  replace (match a with O => 0 | S a' => E a' (S b) (d + 1) t end) with (E n (S b) (d + 1) t) by (rewrite Ea; reflexivity).
  transitivity (sum_f_R0 (fun r => ecoef a b d r * (INR a - INR r) * X (INR r) - ecoef a b d r * INR r * X (INR r - 1)) (S n)); [now rewrite <- Ea |].
  rewrite (shift_down (fun r => ecoef a b d r * (INR a - INR r) * X (INR r)) (fun r => ecoef a b d r * INR r * X (INR r - 1))).
  2: cbn [INR]; ring. 2: rewrite Ea; ring.
  unfold E. rewrite <- sum_scal. apply sum_ext. intros r Hr.
  replace (INR (S r) - 1) with (INR r) by (rewrite S_INR; ring).
  transitivity ((ecoef a b d r * (INR a - INR r) - ecoef a b d (S r) * INR (S r)) * X (INR r)); [ring |].
  replace (eang n (S b) (d + 1) r t) with (X (INR r)).
  2: { unfold eang, X. rewrite plus_IZR, (S_INR b), Ea, (S_INR n). f_equal; f_equal; ring. }
  rewrite <- Rmult_assoc. f_equal. unfold ecoef. rewrite Ea. replace (S n - r)%nat with (S (n - r)) by lia. replace (S n - S r)%nat with (n - r)%nat by lia. rewrite neg1.
  pose proof (bin_down (INR (S n)) r) as B1. pose proof (bin_absorb (INR (S n)) r) as B2. replace (INR (S n) - 1) with (INR n) in B1, B2 by (rewrite S_INR; ring).
  replace (Z.of_nat (S r) + d)%Z with (Z.of_nat r + d + 1)%Z by lia. replace (Z.of_nat r + (d + 1))%Z with (Z.of_nat r + d + 1)%Z by lia.
  pose proof (binz_pascal (INR b) (Z.of_nat r + d)) as P. rewrite <- S_INR in P. rewrite P.
  transitivity (- (-1) ^ (n - r) * (bin (INR (S n)) r * (INR (S n) - INR r)) * binz (INR b) (Z.of_nat r + d) - (-1) ^ (n - r) * (INR (S r) * bin (INR (S n)) (S r)) * binz (INR b) (Z.of_nat r + d + 1)); [ring |].
  rewrite B1, B2. ring.
Qed.
Lemma lower : dE a b d t + wt s m t * E a b d t = INR b * match b with O => 0 | S b' => E (S a) b' (d - 1) t end.
Proof.
  transitivity (sum_f_R0 (fun r => ecoef a b d r * (INR b - (INR r + IZR d)) * X (INR r) - ecoef a b d r * (INR r + IZR d) * X (INR r - 1)) a).
  { unfold dE, E. rewrite <- sum_scal, <- sum_plus. apply sum_ext. intros r _. transitivity (ecoef a b d r * (eder a b d r t + wt s m t * eang a b d r t)); [ring |]. rewrite down_term. ring. }
  set (h := fun r => (-1) ^ (S a - r) * bin (INR (S a)) r * (INR b * binz (INR b - 1) (Z.of_nat r + d - 1)) * X (INR r - 1)).
  transitivity (sum_f_R0 h (S a)).
  - apply (shift_up (fun r => ecoef a b d r * (INR b - (INR r + IZR d)) * X (INR r)) (fun r => ecoef a b d r * (INR r + IZR d) * X (INR r - 1)) h a).
    + unfold ecoef. rewrite bin_zero by lia. ring.
    + unfold h, ecoef. rewrite !Nat.sub_0_r, neg1. cbn [bin Z.of_nat INR]. rewrite !Z.add_0_l.
      pose proof (binz_absorb (INR b) (d - 1)) as B. replace (d - 1 + 1)%Z with d in B by lia. rewrite <- B. ring.
    + intros r Hr. unfold h, ecoef. replace (INR (S r) - 1) with (INR r) by (rewrite S_INR; ring).
      replace (S a - S r)%nat with (a - r)%nat by lia. replace (Z.of_nat (S r) + d - 1)%Z with (Z.of_nat r + d)%Z by lia.
      rewrite (S_INR a), bin_pascal.
      pose proof (binz_down (INR b) (Z.of_nat r + d)) as B1. pose proof (binz_absorb (INR b) (Z.of_nat r + d)) as B2.
      replace (Z.of_nat (S r) + d)%Z with (Z.of_nat r + d + 1)%Z by lia.
      replace (INR (S r) + IZR d) with (IZR (Z.of_nat r + d + 1)) by (rewrite !plus_IZR, <- INR_IZR_INZ, S_INR; ring).
      rewrite plus_IZR, <- INR_IZR_INZ in B1.
      destruct (Nat.eq_dec r a) as [->|N].
      * rewrite Nat.sub_diag. rewrite (bin_zero a (S a)) by lia. rewrite <- B1. ring.
      * replace (a - r)%nat with (S (a - S r)) by lia. rewrite neg1.
        transitivity ((- (-1) ^ (a - S r) * bin (INR a) r * (binz (INR b) (Z.of_nat r + d) * (INR b - (INR r + IZR d)))
          - (-1) ^ (a - S r) * bin (INR a) (S r) * (IZR (Z.of_nat r + d + 1) * binz (INR b) (Z.of_nat r + d + 1))) * X (INR r)); [| ring].
        rewrite B1, B2. ring.
  - assert (Eb : b = 0%nat \/ exists n, b = S n) by (destruct b; [now left | right; eexists; reflexivity]). destruct Eb as [Eb | (n & Eb)].
    { rewrite Eb at 1. cbn [INR]. rewrite (sum_ext _ (fun _ => 0)); [rewrite sum_cte; ring | intros; unfold h; rewrite Eb; cbn [INR]; ring]. }
    replace (match b with O => 0 | S b' => E (S a) b' (d - 1) t end) with (E (S a) n (d - 1) t) by (rewrite Eb; reflexivity). unfold E. rewrite <- sum_scal. apply sum_ext. intros r Hr. unfold h, ecoef.
    replace (eang (S a) n (d - 1) r t) with (X (INR r - 1)).
    2: { unfold eang, X. rewrite minus_IZR, (S_INR a), Eb, (S_INR n). f_equal; f_equal; ring. }
    replace (INR b - 1) with (INR n) by (rewrite Eb, S_INR; ring). replace (Z.of_nat r + (d - 1))%Z with (Z.of_nat r + d - 1)%Z by lia. ring.
Qed.
End Ladder.
