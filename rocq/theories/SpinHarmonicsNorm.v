(** Normalised sums: ladder, integrals, orthogonality. *)
From Coq Require Import List ZArith Bool Arith Lia Reals Lra Psatz.
From Verif Require Import PyBase SpinHarmonics SpinHarmonicsFacts.
Import ListNotations.
Local Open Scope R_scope.

(** ** The polynomial in cos (t/2) and sin (t/2) *)
Definition Pn (a b : nat) (d : Z) (t : R) : R :=
  sum_f_R0 (fun r => ecoef a b d r * (hc t ^ Z.to_nat (2 * Z.of_nat r + d) * hs t ^ Z.to_nat (Z.of_nat a + Z.of_nat b - 2 * Z.of_nat r - d))) a.
Lemma Rpower_z : forall x z, 0 < x -> (0 <= z)%Z -> Rpower x (IZR z) = x ^ Z.to_nat z.
Proof. intros x z P H. rewrite <- Rpower_pow by exact P. f_equal. rewrite INR_IZR_INZ. f_equal. lia. Qed.
Lemma ecoef_range : forall a b d r, (r <= a)%nat -> ecoef a b d r <> 0 -> (0 <= Z.of_nat r + d <= Z.of_nat b)%Z.
Proof.
  intros a b d r Hr N. destruct (Z.lt_ge_cases (Z.of_nat r + d) 0) as [A|A]; [exfalso; apply N; unfold ecoef; rewrite binz_neg by lia; ring |].
  destruct (Z.lt_ge_cases (Z.of_nat b) (Z.of_nat r + d)) as [B|B]; [exfalso; apply N; unfold ecoef; rewrite binz_zero by lia; ring | lia].
Qed.
Lemma Pn_E : forall a b d t, 0 < t < PI -> E a b d t = Pn a b d t.
Proof.
  intros a b d t T. destruct (half_pos t T) as [C S]. unfold E, Pn. apply sum_ext. intros r Hr.
  destruct (Req_dec (ecoef a b d r) 0) as [->|N]; [ring |]. apply ecoef_range in N; [| exact Hr]. f_equal. unfold eang. f_equal.
  - rewrite <- Rpower_z by (assumption || lia). f_equal. rewrite plus_IZR, mult_IZR, <- INR_IZR_INZ. reflexivity.
  - rewrite <- Rpower_z by (assumption || lia). f_equal. rewrite !minus_IZR, plus_IZR, mult_IZR, <- !INR_IZR_INZ. reflexivity.
Qed.
Lemma c_hc : continuity hc.
Proof. intro t. apply derivable_continuous_pt. exists (- (hs t) / 2). apply d_hc. Qed.
Lemma c_hs : continuity hs.
Proof. intro t. apply derivable_continuous_pt. exists (hc t / 2). apply d_hs. Qed.
Lemma c_pow : forall f n, continuity f -> continuity (fun t => f t ^ n).
Proof.
  intros f n H. induction n as [|n IH].
  - apply (continuity_const (fun _ => 1)). intros x y. reflexivity.
  - exact (continuity_mult f (fun t => f t ^ n) H IH).
Qed.
Lemma c_scal : forall c f, continuity f -> continuity (fun t => c * f t).
Proof. intros c f H. exact (continuity_scal f c H). Qed.
Lemma c_sum : forall (f : nat -> R -> R) n, (forall r, continuity (f r)) -> continuity (fun t => sum_f_R0 (fun r => f r t) n).
Proof. intros f n H. induction n as [|n IH]; [apply H |]. exact (continuity_plus (fun t => sum_f_R0 (fun r => f r t) n) (f (S n)) IH (H (S n))). Qed.
Lemma c_Pn : forall a b d, continuity (Pn a b d).
Proof.
  intros a b d. apply (c_sum (fun r t => ecoef a b d r * (hc t ^ Z.to_nat (2 * Z.of_nat r + d) * hs t ^ Z.to_nat (Z.of_nat a + Z.of_nat b - 2 * Z.of_nat r - d)))). intro r.
  apply c_scal. apply (continuity_mult (fun t => hc t ^ _) (fun t => hs t ^ _)); apply c_pow; [apply c_hc | apply c_hs].
Qed.
Lemma d_local : forall f g t x, (forall u, 0 < u < PI -> f u = g u) -> 0 < t < PI -> derivable_pt_lim f t x -> derivable_pt_lim g t x.
Proof.
  intros f g t x H T D eps He. destruct (D eps He) as [del Hd]. assert (M : 0 < Rmin del (Rmin t (PI - t))) by (repeat apply Rmin_glb_lt; [apply cond_pos | lra | lra]).
  exists (mkposreal _ M). intros h Hh Hlt. cbn in Hlt. rewrite <- (H t T), <- (H (t + h)).
  - apply Hd; [exact Hh | eapply Rlt_le_trans; [exact Hlt | apply Rmin_l]].
  - pose proof (Rmin_r del (Rmin t (PI - t))) as M1. pose proof (Rmin_l t (PI - t)) as M2. pose proof (Rmin_r t (PI - t)) as M3.
    unfold Rabs in Hlt. destruct (Rcase_abs h); lra.
Qed.

(** ** Normalisation *)
Definition Nm (Q : R) (a b : nat) : R := sqrt (Q / (INR (fact a) * INR (fact b))).
Definition A (Q : R) (a b : nat) (d : Z) (t : R) : R := Nm Q a b * E a b d t.
Definition dA (Q : R) (a b : nat) (d : Z) (t : R) : R := Nm Q a b * dE a b d t.
Definition kap (a b : nat) : R := sqrt (INR a * INR (S b)).
Definition Aplus (Q : R) (a b : nat) (d : Z) (t : R) : R := match a with O => 0 | S a' => A Q a' (S b) (d + 1) t end.
Definition dAplus (Q : R) (a b : nat) (d : Z) (t : R) : R := match a with O => 0 | S a' => dA Q a' (S b) (d + 1) t end.
Lemma d_A : forall Q a b d t, 0 < t < PI -> derivable_pt_lim (A Q a b d) t (dA Q a b d t).
Proof. intros. apply (derivable_pt_lim_scal (E a b d)). now apply d_E. Qed.
Lemma d_Aplus : forall Q a b d t, 0 < t < PI -> derivable_pt_lim (Aplus Q a b d) t (dAplus Q a b d t).
Proof. intros Q [|a] b d t T; [exact (derivable_pt_lim_const 0 t) | exact (d_A Q a (S b) (d + 1) t T)]. Qed.
Lemma fact_pos : forall n, 0 < INR (fact n).
Proof. intro n. apply INR_fact_lt_0. Qed.
Lemma INR_pos : forall n, 0 < INR (S n).
Proof. intro. apply lt_0_INR. lia. Qed.
Lemma fact_S : forall n, INR (fact (S n)) = INR (S n) * INR (fact n).
Proof. intro n. rewrite <- mult_INR. reflexivity. Qed.
Lemma sqrt_eq : forall x y, 0 <= x -> 0 <= y -> x * x = y * y -> x = y.
Proof. intros x y X Y H. nra. Qed.
Lemma Nm_sq : forall Q a b, 0 <= Q -> Nm Q a b * Nm Q a b = Q / (INR (fact a) * INR (fact b)) /\ 0 <= Nm Q a b.
Proof.
  intros Q a b H. split; [apply sqrt_def | apply sqrt_pos]. pose proof (fact_pos a). pose proof (fact_pos b). apply Rmult_le_pos; [exact H |]. left. apply Rinv_0_lt_compat. now apply Rmult_lt_0_compat.
Qed.
Lemma kap_sq : forall a b, kap a b * kap a b = INR a * INR (S b) /\ 0 <= kap a b.
Proof. intros. split; [apply sqrt_def | apply sqrt_pos]. apply Rmult_le_pos; apply pos_INR. Qed.
Lemma Nm_up : forall Q a b, 0 <= Q -> Nm Q (S a) b * INR (S a) = kap (S a) b * Nm Q a (S b).
Proof.
  intros Q a b H. pose proof (INR_pos a) as Pa. pose proof (INR_pos b) as Pb. pose proof (fact_pos a). pose proof (fact_pos b).
  destruct (Nm_sq Q (S a) b H) as [E1 L1]. destruct (Nm_sq Q a (S b) H) as [E2 L2]. destruct (kap_sq (S a) b) as [E3 L3].
  apply sqrt_eq; [apply Rmult_le_pos; lra | apply Rmult_le_pos; lra |].
  transitivity ((Nm Q (S a) b * Nm Q (S a) b) * (INR (S a) * INR (S a))); [ring |].
  transitivity ((kap (S a) b * kap (S a) b) * (Nm Q a (S b) * Nm Q a (S b))); [| ring]. rewrite E1, E2, E3, !fact_S. field. repeat split; lra.
Qed.
Lemma Nm_down : forall Q a b, 0 <= Q -> Nm Q a (S b) * INR (S b) = kap (S a) b * Nm Q (S a) b.
Proof.
  intros Q a b H. pose proof (INR_pos a) as Pa. pose proof (INR_pos b) as Pb. pose proof (fact_pos a). pose proof (fact_pos b).
  destruct (Nm_sq Q (S a) b H) as [E1 L1]. destruct (Nm_sq Q a (S b) H) as [E2 L2]. destruct (kap_sq (S a) b) as [E3 L3].
  apply sqrt_eq; [apply Rmult_le_pos; lra | apply Rmult_le_pos; lra |].
  transitivity ((Nm Q a (S b) * Nm Q a (S b)) * (INR (S b) * INR (S b))); [ring |].
  transitivity ((kap (S a) b * kap (S a) b) * (Nm Q (S a) b * Nm Q (S a) b)); [| ring]. rewrite E1, E2, E3, !fact_S. field. repeat split; lra.
Qed.
Lemma kap_0 : forall b, kap 0 b = 0.
Proof. intro b. unfold kap. cbn [INR]. rewrite Rmult_0_l. apply sqrt_0. Qed.
Section Step.
Variables (Q : R) (a b : nat) (d : Z) (t s m : R).
Hypothesis HQ : 0 <= Q.
Hypothesis T : 0 < t < PI.
Hypothesis Hs : INR b - INR a = 2 * s.
Hypothesis Hm : IZR d = s - m.
Lemma upA : dA Q a b d t - wt s m t * A Q a b d t = - kap a b * Aplus Q a b d t.
Proof.
  unfold dA, A. transitivity (Nm Q a b * (dE a b d t - wt s m t * E a b d t)); [ring |]. rewrite (raise a b d t s m T Hs Hm). unfold Aplus.
  destruct a as [|a']; [cbn [INR]; ring |]. unfold A. transitivity (- (Nm Q (S a') b * INR (S a')) * E a' (S b) (d + 1) t); [ring |]. rewrite Nm_up by exact HQ. ring.
Qed.
Lemma downA : dAplus Q a b d t + wt (s + 1) m t * Aplus Q a b d t = kap a b * A Q a b d t.
Proof.
  unfold Aplus, dAplus. destruct a as [|a'] eqn:Ea; [rewrite kap_0; ring |].
  unfold dA, A. transitivity (Nm Q a' (S b) * (dE a' (S b) (d + 1) t + wt (s + 1) m t * E a' (S b) (d + 1) t)); [ring |].
  rewrite (lower a' (S b) (d + 1) t (s + 1) m T).
  - replace (d + 1 - 1)%Z with d by lia. transitivity ((Nm Q a' (S b) * INR (S b)) * E (S a') b d t); [ring |]. rewrite Nm_down by exact HQ. ring.
  - rewrite !S_INR in *. lra.
  - rewrite plus_IZR. lra.
Qed.
End Step.
Lemma wt_next : forall s m t, wt (s + 1) m t = wt s m t + cos t / sin t.
Proof. intros. unfold wt, Rdiv. ring. Qed.
(** A_s B_+ sin for two values of l *)
Lemma d_cross : forall Q Q' a b a' b' d t s m, 0 <= Q -> 0 <= Q' -> 0 < t < PI -> INR b - INR a = 2 * s -> INR b' - INR a' = 2 * s -> IZR d = s - m ->
  derivable_pt_lim (fun u => A Q a b d u * Aplus Q' a' b' d u * sin u) t
    ((kap a' b' * A Q a b d t * A Q' a' b' d t - kap a b * Aplus Q a b d t * Aplus Q' a' b' d t) * sin t).
Proof.
  intros Q Q' a b a' b' d t s m HQ HQ' T Hs Hs' Hm.
  pose proof (derivable_pt_lim_mult _ _ t _ _ (derivable_pt_lim_mult _ _ t _ _ (d_A Q a b d t T) (d_Aplus Q' a' b' d t T)) (derivable_pt_lim_sin t)) as D.
  unfold mult_fct in D. match type of D with derivable_pt_lim _ _ ?v => match goal with |- derivable_pt_lim _ _ ?x => replace x with v; [exact D |] end end.
  pose proof (upA Q a b d t s m HQ T Hs Hm) as U. pose proof (downA Q' a' b' d t s m HQ' T Hs' Hm) as V. rewrite wt_next in V.
  assert (S0 : sin t <> 0) by (apply Rgt_not_eq; apply sin_gt_0; lra).
  assert (U' : dA Q a b d t = wt s m t * A Q a b d t - kap a b * Aplus Q a b d t) by lra.
  assert (V' : dAplus Q' a' b' d t = kap a' b' * A Q' a' b' d t - (wt s m t + cos t / sin t) * Aplus Q' a' b' d t) by lra.
  rewrite U', V'. field. exact S0.
Qed.
(** the polynomials *)
Definition AP (Q : R) (a b : nat) (d : Z) (t : R) : R := Nm Q a b * Pn a b d t.
Definition APplus (Q : R) (a b : nat) (d : Z) (t : R) : R := match a with O => 0 | S a' => AP Q a' (S b) (d + 1) t end.
Lemma AP_A : forall Q a b d t, 0 < t < PI -> A Q a b d t = AP Q a b d t.
Proof. intros. unfold A, AP. now rewrite Pn_E. Qed.
Lemma APplus_A : forall Q a b d t, 0 < t < PI -> Aplus Q a b d t = APplus Q a b d t.
Proof. intros Q [|a] b d t T; [reflexivity | exact (AP_A Q a (S b) (d + 1) t T)]. Qed.
Lemma c_AP : forall Q a b d, continuity (AP Q a b d).
Proof. intros. apply c_scal. apply c_Pn. Qed.
Lemma c_APplus : forall Q a b d, continuity (APplus Q a b d).
Proof. intros Q [|a] b d; [apply (continuity_const (fun _ => 0)); intros x y; reflexivity | apply (c_AP Q a (S b) (d + 1))]. Qed.
Definition cross (Q Q' : R) (a b a' b' : nat) (d : Z) (t : R) : R := AP Q a b d t * APplus Q' a' b' d t * sin t.
Lemma c_cross : forall Q Q' a b a' b' d, continuity (cross Q Q' a b a' b' d).
Proof.
  intros. apply (continuity_mult (fun t => AP Q a b d t * APplus Q' a' b' d t) sin); [apply (continuity_mult (AP Q a b d) (APplus Q' a' b' d)); [apply c_AP | apply c_APplus] | exact continuity_sin].
Qed.
Lemma cross_ends : forall Q Q' a b a' b' d, cross Q Q' a b a' b' d PI - cross Q Q' a b a' b' d 0 = 0.
Proof. intros. unfold cross. rewrite sin_PI, sin_0. ring. Qed.
Lemma d_cross' : forall Q Q' a b a' b' d t s m, 0 <= Q -> 0 <= Q' -> 0 < t < PI -> INR b - INR a = 2 * s -> INR b' - INR a' = 2 * s -> IZR d = s - m ->
  derivable_pt_lim (cross Q Q' a b a' b' d) t ((kap a' b' * A Q a b d t * A Q' a' b' d t - kap a b * Aplus Q a b d t * Aplus Q' a' b' d t) * sin t).
Proof.
  intros Q Q' a b a' b' d t s m HQ HQ' T Hs Hs' Hm. apply (d_local (fun u => A Q a b d u * Aplus Q' a' b' d u * sin u)); [| exact T | now apply d_cross with (s := s) (m := m)].
  intros u Hu. unfold cross. now rewrite AP_A, APplus_A.
Qed.

(** [f] has the integral [x] over (0, pi) *)
Definition integral (f : R -> R) (x : R) : Prop :=
  exists F, continuity F /\ (forall t, 0 < t < PI -> derivable_pt_lim F t (f t)) /\ F PI - F 0 = x.
Lemma int_ext : forall f g x y, (forall t, 0 < t < PI -> f t = g t) -> x = y -> integral f x -> integral g y.
Proof. intros f g x y H <- (F & C & D & X). exists F. split; [exact C | split; [| exact X]]. intros t T. rewrite <- (H t T). now apply D. Qed.
Lemma int_scal : forall c f x, integral f x -> integral (fun t => c * f t) (c * x).
Proof.
  intros c f x (F & C & D & X). exists (fun t => c * F t). split; [now apply c_scal | split; [| rewrite <- X; ring]].
  intros t T. apply (derivable_pt_lim_scal F). now apply D.
Qed.
Lemma int_plus : forall f g x y, integral f x -> integral g y -> integral (fun t => f t + g t) (x + y).
Proof.
  intros f g x y (F & C & D & X) (G & C' & D' & X'). exists (fun t => F t + G t). split; [exact (continuity_plus F G C C') | split; [| rewrite <- X, <- X'; ring]].
  intros t T. apply (derivable_pt_lim_plus F G); auto.
Qed.
Lemma int_cross : forall Q Q' a b a' b' d s m, 0 <= Q -> 0 <= Q' -> INR b - INR a = 2 * s -> INR b' - INR a' = 2 * s -> IZR d = s - m ->
  integral (fun t => (kap a' b' * A Q a b d t * A Q' a' b' d t - kap a b * Aplus Q a b d t * Aplus Q' a' b' d t) * sin t) 0.
Proof.
  intros Q Q' a b a' b' d s m HQ HQ' Hs Hs' Hm. exists (cross Q Q' a b a' b' d). split; [apply c_cross | split; [| apply cross_ends]].
  intros t T. now apply d_cross' with (s := s) (m := m).
Qed.
(** the integral of cos^(2p+1) sin^(2q+1) of t/2 *)
Lemma c_fct : forall x, continuity (fun _ => x).
Proof. intro x. apply continuity_const. intros u v. reflexivity. Qed.
Lemma d_powf : forall f g t n, derivable_pt_lim f t g -> derivable_pt_lim (fun u => f u ^ S n) t (INR (S n) * f t ^ n * g).
Proof.
  intros f g t n D. pose proof (derivable_pt_lim_comp f (fun x => x ^ S n) t _ _ D (derivable_pt_lim_pow (f t) (S n))) as H. cbn [pred] in H. exact H.
Qed.
Lemma beta : forall p q, integral (fun t => hc t ^ (2 * p + 1) * hs t ^ (2 * q + 1)) (INR (fact p) * INR (fact q) / INR (fact (p + q + 1))).
Proof.
  induction p as [|p IH]; intro q.
  - exists (fun t => / INR (S q) * hs t ^ S (2 * q + 1)). split; [apply c_scal; apply c_pow; apply c_hs | split].
    + intros t T. pose proof (derivable_pt_lim_scal (fun u => hs u ^ S (2 * q + 1)) (/ INR (S q)) t _ (d_powf hs _ t (2 * q + 1) (d_hs t))) as D.
      unfold mult_real_fct in D. match type of D with derivable_pt_lim _ _ ?v => match goal with |- derivable_pt_lim _ _ ?x => replace x with v; [exact D |] end end.
      rewrite !S_INR, plus_INR, mult_INR. cbn [INR]. replace (2 * 0 + 1)%nat with 1%nat by lia. pose proof (pos_INR q). field. lra.
    + replace (0 + q + 1)%nat with (S q) by lia. rewrite fact_S. unfold hs. replace (PI / 2) with (PI / 2) by reflexivity. rewrite sin_PI2, pow1. replace (0 / 2) with 0 by field. rewrite sin_0, pow_ne_zero by discriminate.
      pose proof (fact_pos q). pose proof (INR_pos q). change (INR (fact 0)) with 1. field. split; lra.
  - destruct (IH (S q)) as (F & C & D & X). pose proof (INR_pos q) as Pq.
    exists (fun t => / INR (S q) * (hs t ^ S (2 * q + 1) * hc t ^ S (2 * p + 1)) + INR (S p) / INR (S q) * F t). split; [| split].
    + apply (continuity_plus (fun t => / INR (S q) * (hs t ^ S (2 * q + 1) * hc t ^ S (2 * p + 1))) (fun t => INR (S p) / INR (S q) * F t)); [| now apply c_scal].
      apply c_scal. apply (continuity_mult (fun t => hs t ^ S (2 * q + 1)) (fun t => hc t ^ S (2 * p + 1))); apply c_pow; [apply c_hs | apply c_hc].
    + intros t T.
      pose proof (derivable_pt_lim_plus _ _ t _ _
        (derivable_pt_lim_scal (fun u => hs u ^ S (2 * q + 1) * hc u ^ S (2 * p + 1)) (/ INR (S q)) t _
          (derivable_pt_lim_mult _ _ t _ _ (d_powf hs _ t (2 * q + 1) (d_hs t)) (d_powf hc _ t (2 * p + 1) (d_hc t))))
        (derivable_pt_lim_scal F (INR (S p) / INR (S q)) t _ (D t T))) as D'.
      unfold mult_real_fct, plus_fct in D'. match type of D' with derivable_pt_lim _ _ ?v => match goal with |- derivable_pt_lim _ _ ?x => replace x with v; [exact D' |] end end.
      replace (2 * S q + 1)%nat with (S (S (2 * q + 1))) by lia. replace (2 * S p + 1)%nat with (S (S (2 * p + 1))) by lia.
      rewrite !(S_INR (2 * q + 1)), !(S_INR (2 * p + 1)), !plus_INR, !mult_INR. rewrite (S_INR q), (S_INR p). cbn [pow INR]. pose proof (pos_INR q). field. lra.
    + unfold hs, hc. rewrite sin_PI2, cos_PI2. replace (0 / 2) with 0 by field. rewrite sin_0. rewrite !(pow_ne_zero (S _)) by discriminate.
      transitivity (INR (S p) / INR (S q) * (F PI - F 0)); [field; lra |]. rewrite X. rewrite (fact_S q), (fact_S p). replace (p + S q + 1)%nat with (S p + q + 1)%nat by lia.
      pose proof (fact_pos (S p + q + 1)). field. split; lra.
Qed.
Lemma bin_fact : forall n k, (k <= n)%nat -> bin (INR n) k = INR (fact n) / (INR (fact k) * INR (fact (n - k))).
Proof.
  intros n k. induction k as [|k IH]; intro H.
  - cbn [bin]. rewrite Nat.sub_0_r. change (INR (fact 0)) with 1. pose proof (fact_pos n). field. lra.
  - cbn [bin]. rewrite IH by lia. replace (INR n - INR k) with (INR (n - k)) by (apply minus_INR; lia). replace (n - k)%nat with (S (n - S k)) by lia.
    rewrite (fact_S k), (fact_S (n - S k)). pose proof (fact_pos k). pose proof (fact_pos (n - S k)). pose proof (INR_pos k). pose proof (INR_pos (n - S k)). field. repeat split; lra.
Qed.
(** (l+m)! (l-m)! (2l+1) / (4 pi) with n = 2l and k = l - m *)
Definition Qn (n k : nat) : R := INR (fact (n - k)) * INR (fact k) * (INR n + 1) / (4 * PI).
Lemma Qn_pos : forall n k, 0 <= Qn n k.
Proof.
  intros n k. unfold Qn. pose proof (fact_pos (n - k)). pose proof (fact_pos k). pose proof (pos_INR n). pose proof PI_RGT_0.
  apply Rmult_le_pos; [| left; apply Rinv_0_lt_compat; lra]. apply Rmult_le_pos; [apply Rmult_le_pos |]; lra.
Qed.
Lemma normal : forall a b k, (k <= a + b)%nat -> integral (fun t => A (Qn (a + b) k) a b (Z.of_nat k - Z.of_nat a) t ^ 2 * sin t) (/ (2 * PI)).
Proof.
  pose proof PI_RGT_0 as PP. induction a as [|a IH]; intros b k H.
  - cbn [Nat.add] in *. replace (Z.of_nat k - Z.of_nat 0)%Z with (Z.of_nat k) by lia.
    refine (int_ext _ _ _ _ _ _ (int_scal (2 * Qn b k / INR (fact b) * (bin (INR b) k * bin (INR b) k)) _ _ (beta k (b - k)))).
    + intros t T. destruct (half_pos t T) as [C S]. rewrite AP_A by exact T. unfold AP, Pn. cbn [sum_f_R0]. unfold ecoef. rewrite !Z.add_0_l, binz_nat. cbn [Nat.sub pow bin].
      replace (Z.to_nat (2 * Z.of_nat 0 + Z.of_nat k)) with k by lia. replace (Z.to_nat (Z.of_nat 0 + Z.of_nat b - 2 * Z.of_nat 0 - Z.of_nat k)) with (b - k)%nat by lia.
      destruct (Nm_sq (Qn b k) 0 b (Qn_pos b k)) as [E _]. change (INR (fact 0)) with 1 in E. rewrite Rmult_1_l in E.
      transitivity (2 * (Nm (Qn b k) 0 b * Nm (Qn b k) 0 b) * (bin (INR b) k * bin (INR b) k) * (hc t ^ (2 * k + 1) * hs t ^ (2 * (b - k) + 1))); [rewrite E; field; apply Rgt_not_eq; apply fact_pos |].
      rewrite sin_half, !pow_add, !pow_mult. replace ((hc t ^ 2) ^ k) with (hc t ^ k * hc t ^ k) by (rewrite <- Rpow_mult_distr; f_equal; ring).
      replace ((hs t ^ 2) ^ (b - k)) with (hs t ^ (b - k) * hs t ^ (b - k)) by (rewrite <- Rpow_mult_distr; f_equal; ring). replace (Z.to_nat (Z.of_nat k)) with k by lia. replace (Z.to_nat (Z.of_nat b - 2 * Z.of_nat 0 - Z.of_nat k)) with (b - k)%nat by lia. ring.
    + rewrite bin_fact by exact H. unfold Qn. replace (k + (b - k) + 1)%nat with (S b) by lia. rewrite fact_S, S_INR.
      pose proof (fact_pos b). pose proof (fact_pos k). pose proof (fact_pos (b - k)). pose proof (pos_INR b). field. repeat split; lra.
  - set (Q := Qn (S a + b) k). set (d := (Z.of_nat k - Z.of_nat (S a))%Z). assert (HQ : 0 <= Q) by apply Qn_pos.
    specialize (IH (S b) k ltac:(lia)). replace (a + S b)%nat with (S a + b)%nat in IH by lia. fold Q in IH. replace (Z.of_nat k - Z.of_nat a)%Z with (d + 1)%Z in IH by (unfold d; lia).
    assert (K : kap (S a) b <> 0). { unfold kap. apply Rgt_not_eq. apply sqrt_lt_R0. apply Rmult_lt_0_compat; apply INR_pos. }
    pose (s := (INR b - INR (S a)) / 2). pose (m := s - IZR d).
    pose proof (int_cross Q Q (S a) b (S a) b d s m HQ HQ ltac:(unfold s; field) ltac:(unfold s; field) ltac:(unfold m; ring)) as I.
    refine (int_ext _ _ _ _ _ _ (int_plus _ _ _ _ (int_scal (/ kap (S a) b) _ _ I) IH)); [| ring].
    intros t T. cbn [Aplus]. field. exact K.
Qed.
Lemma orthogonal : forall Q Q' a b a' b' d s m, 0 <= Q -> 0 <= Q' -> INR b - INR a = 2 * s -> INR b' - INR a' = 2 * s -> IZR d = s - m ->
  INR a * INR (S b) <> INR a' * INR (S b') -> integral (fun t => A Q a b d t * A Q' a' b' d t * sin t) 0.
Proof.
  intros Q Q' a b a' b' d s m HQ HQ' Hs Hs' Hm N. destruct (kap_sq a b) as [K _]. destruct (kap_sq a' b') as [K' _].
  pose proof (int_cross Q Q' a b a' b' d s m HQ HQ' Hs Hs' Hm) as I. pose proof (int_cross Q' Q a' b' a b d s m HQ' HQ Hs' Hs Hm) as I'.
  refine (int_ext _ _ _ _ _ _ (int_scal (/ (kap a' b' * kap a' b' - kap a b * kap a b)) _ _ (int_plus _ _ _ _ (int_scal (kap a' b') _ _ I) (int_scal (- kap a b) _ _ I')))); [| ring].
  intros t T. cbn beta. field. rewrite K, K'. lra.
Qed.

(** ** The ladder in m *)
Definition wm (s m t : R) : R := (m * cos t + s) / sin t.
Lemma sum_move : forall f F n, F 0%nat = 0 -> f n = 0 -> (forall r, (r < n)%nat -> F (S r) = f r) -> sum_f_R0 f n = sum_f_R0 F n.
Proof.
  intros f F [|n] H0 H1 H; [cbn; now rewrite H0, H1 |]. rewrite (sum_first F), H0. cbn [sum_f_R0]. rewrite H1, (sum_ext (fun r => F (S r)) f n); [ring |]. intros r Hr. apply H. lia.
Qed.
Lemma raise_m : forall a b d t s m, 0 < t < PI -> INR b - INR a = 2 * s -> IZR d = s - m ->
  dE a b d t - wm s m t * E a b d t = - (INR b - IZR d + 1) * E a b (d - 1) t.
Proof.
  intros a b d t s m T Hs Hm. destruct (half_pos t T) as [C S0].
  pose (F := fun r => - ((-1) ^ (a - r) * (INR r * bin (INR a) r) * binz (INR b) (Z.of_nat r + d - 1)) * eang a b (d - 1) r t).
  transitivity (sum_f_R0 (fun r => F r - ecoef a b d r * (INR r + IZR d) * eang a b (d - 1) r t) a).
  - rewrite sum_minus. rewrite <- (sum_move (fun r => ecoef a b d r * (INR a - INR r) * eang a b (d - 1) (S r) t) F a).
    + unfold dE, E. rewrite <- sum_scal, <- !sum_minus. apply sum_ext. intros r _. transitivity (ecoef a b d r * (eder a b d r t - wm s m t * eang a b d r t)); [ring |].
      rewrite (der_W a b d t), (ang_W a b d t T). replace (eang a b (d - 1) (S r) t) with (Rpower (hc t) (2 * INR r + IZR d - 1) * Rpower (hs t) (INR a + INR b - 2 * INR r - IZR d - 1) * (hc t * hc t)).
      2: { unfold eang. rewrite S_INR, minus_IZR. replace (2 * (INR r + 1) + (IZR d - 1)) with (2 * INR r + IZR d - 1 + 1 + 1) by ring. rewrite !Rpower_up by exact C. replace (INR a + INR b - 2 * (INR r + 1) - (IZR d - 1)) with (INR a + INR b - 2 * INR r - IZR d - 1) by ring. ring. }
      replace (eang a b (d - 1) r t) with (Rpower (hc t) (2 * INR r + IZR d - 1) * Rpower (hs t) (INR a + INR b - 2 * INR r - IZR d - 1) * (hs t * hs t)).
      2: { unfold eang. rewrite minus_IZR. replace (INR a + INR b - 2 * INR r - (IZR d - 1)) with (INR a + INR b - 2 * INR r - IZR d - 1 + 1 + 1) by ring. rewrite !Rpower_up by exact S0. replace (2 * INR r + (IZR d - 1)) with (2 * INR r + IZR d - 1) by ring. ring. }
      replace (wm s m t) with ((m * (hc t * hc t - hs t * hs t) + s * (hc t * hc t + hs t * hs t)) / (2 * hs t * hc t)) by (unfold wm; rewrite sin_half, cos_half, half_one, Rmult_1_r; reflexivity).
      replace m with (s - IZR d) by lra. replace s with ((INR b - INR a) / 2) by lra. field. split; lra.
    + unfold F. cbn [INR]. ring.
    + ring.
    + intros r Hr. unfold F, ecoef. pose proof (bin_next (INR a) r) as B. rewrite B. replace (a - r)%nat with (S (a - S r)) by lia. rewrite neg1.
      replace (Z.of_nat (S r) + d - 1)%Z with (Z.of_nat r + d)%Z by lia. ring.
  - unfold E. rewrite <- sum_scal. apply sum_ext. intros r _. unfold F, ecoef. replace (Z.of_nat r + (d - 1))%Z with (Z.of_nat r + d - 1)%Z by lia.
    pose proof (binz_absorb (INR b) (Z.of_nat r + d - 1)) as B1. pose proof (binz_down (INR b) (Z.of_nat r + d - 1)) as B2. rewrite <- B2 in B1.
    replace (Z.of_nat r + d - 1 + 1)%Z with (Z.of_nat r + d)%Z in B1 by lia. rewrite !minus_IZR, !plus_IZR, <- INR_IZR_INZ in B1.
    transitivity (- ((-1) ^ (a - r) * bin (INR a) r * eang a b (d - 1) r t) * (INR r * binz (INR b) (Z.of_nat r + d - 1) + (INR r + IZR d) * binz (INR b) (Z.of_nat r + d))); [ring |].
    rewrite B1. ring.
Qed.
Lemma Nm_m : forall n k a b, (S k <= n)%nat -> Nm (Qn n (S k)) a b * INR (n - k) = sqrt (INR (S k) * INR (n - k)) * Nm (Qn n k) a b.
Proof.
  intros n k a b H. destruct (Nm_sq (Qn n (S k)) a b (Qn_pos _ _)) as [E1 L1]. destruct (Nm_sq (Qn n k) a b (Qn_pos _ _)) as [E2 L2].
  pose proof (INR_pos k) as Pk. pose proof (pos_INR (n - k)) as Pn'. assert (E3 : sqrt (INR (S k) * INR (n - k)) * sqrt (INR (S k) * INR (n - k)) = INR (S k) * INR (n - k)) by (apply sqrt_def; apply Rmult_le_pos; lra).
  pose proof (sqrt_pos (INR (S k) * INR (n - k))) as L3.
  apply sqrt_eq; [apply Rmult_le_pos; lra | apply Rmult_le_pos; lra |].
  transitivity ((Nm (Qn n (S k)) a b * Nm (Qn n (S k)) a b) * (INR (n - k) * INR (n - k))); [ring |].
  transitivity ((sqrt (INR (S k) * INR (n - k)) * sqrt (INR (S k) * INR (n - k))) * (Nm (Qn n k) a b * Nm (Qn n k) a b)); [| ring]. rewrite E1, E2, E3. unfold Qn.
  replace (n - k)%nat with (S (n - S k)) by lia. rewrite (fact_S k), (fact_S (n - S k)). pose proof (fact_pos a). pose proof (fact_pos b). pose proof PI_RGT_0. field. repeat split; lra.
Qed.
Lemma E_out : forall a b d t, (d < - Z.of_nat a)%Z -> E a b d t = 0.
Proof.
  intros a b d t H. unfold E. rewrite (sum_ext _ (fun _ => 0)); [rewrite sum_cte; ring |]. intros r Hr. unfold ecoef. rewrite binz_neg by lia. ring.
Qed.
