(** The Ricci tensor of the connection of a metric, through its difference from a flat connection. *)
From Coq Require Import String List Arith Bool Lia Reals Lra.
From Verif Require Import PyBase Inverter InverterFacts GRMetric BSSN BSSNFacts BSSNRicci.
Import ListNotations.
Local Open Scope R_scope.

Definition b3 (P : nat -> nat -> nat -> Prop) : Prop := forall i j k, (i < 3)%nat -> (j < 3)%nat -> (k < 3)%nat -> P i j k.
Lemma s3_pick_r : forall a h f j, two_sided3 a h -> (j < 3)%nat -> s3 (fun n => s3 (fun k => a j k * h k n) * f n) = f j.
Proof.
  intros a h f j T Hj. rewrite s3_eq. rewrite !(fun n Hn => proj1 (two_sided_r a h T j n Hj Hn)) by lia.
  destruct j as [|[|[|j]]]; try lia; cbn [Nat.eqb]; ring.
Qed.
Lemma s3_pick_l : forall a h f j, two_sided3 a h -> (j < 3)%nat -> s3 (fun n => s3 (fun k => h j k * a k n) * f n) = f j.
Proof.
  intros a h f j T Hj. rewrite s3_eq. rewrite !(fun n Hn => proj2 (two_sided_r a h T j n Hj Hn)) by lia.
  destruct j as [|[|[|j]]]; try lia; cbn [Nat.eqb]; ring.
Qed.

Section Conn.
Variables (g u : nat -> nat -> R) (H : nat -> nat -> nat -> R) (dH : nat -> nat -> nat -> nat -> R)
  (P : nat -> nat -> nat -> R) (dP : nat -> nat -> nat -> nat -> R).
Hypothesis T : two_sided3 g u.
Hypothesis GS : sym3 g.
Hypothesis US : sym3 u.
Hypothesis HS : forall i j k, (i < 3)%nat -> (j < 3)%nat -> (k < 3)%nat -> H i j k = H i k j.
Hypothesis FL : forall i k l p, (i < 3)%nat -> (k < 3)%nat -> (l < 3)%nat -> (p < 3)%nat ->
    dH i k l p + s3 (fun n => H i n p * H n k l) = dH i k p l + s3 (fun n => H i n l * H n k p).
(** the derivative of the metric, of its inverse, and the connection's difference from [H] with its derivative *)
Definition gd_of (i j l : nat) : R := P i j l + s3 (fun n => H n i l * g n j) + s3 (fun n => H n j l * g i n).
Definition du_of (i j l : nat) : R := - s3 (fun a => s3 (fun b => u i a * u j b * gd_of a b l)).
Definition L_of (i j k : nat) : R := 1 / 2 * (P i j k + P i k j - P j k i).
Definition dL_of (i j k l : nat) : R := 1 / 2 * (dP i j k l + dP i k j l - dP j k i l).
Definition D_of (i j k : nat) : R := s3 (fun n => u i n * L_of n j k).
Definition dD_of (i j k l : nat) : R := s3 (fun n => du_of i n l * L_of n j k + u i n * dL_of n j k l).
Definition Q_of (i j l k : nat) : R :=
  dP i j l k - s3 (fun n => H n l k * P i j n) - s3 (fun n => H n i k * P n j l) - s3 (fun n => H n j k * P i n l).

Lemma du_cov : forall i j l, (i < 3)%nat -> (j < 3)%nat -> (l < 3)%nat ->
  du_of i j l = - s3 (fun a => s3 (fun b => u i a * u j b * P a b l)) - s3 (fun a => H j a l * u i a) - s3 (fun a => H i a l * u a j).
Proof using T GS US.
  intros i j l Hi Hj Hl. unfold du_of, gd_of.
  transitivity (- s3 (fun a => s3 (fun b => u i a * u j b * P a b l))
    - s3 (fun n => s3 (fun b => u j b * g b n) * s3 (fun a => H n a l * u i a))
    - s3 (fun n => s3 (fun a => u i a * g a n) * s3 (fun b => H n b l * u j b))).
  - rewrite !s3_eq. rewrite (GS 1%nat 0%nat), (GS 2%nat 0%nat), (GS 2%nat 1%nat) by lia. ring.
  - rewrite (s3_pick_l g u (fun n => s3 (fun a => H n a l * u i a)) j T Hj).
    rewrite (s3_pick_l g u (fun n => s3 (fun b => H n b l * u j b)) i T Hi).
    f_equal. apply s3_ext. intros a Ha. now rewrite (US j a Hj Ha).
Qed.
Lemma L_cov : forall n j k l, (n < 3)%nat -> (j < 3)%nat -> (k < 3)%nat -> (l < 3)%nat ->
  dL_of n j k l = Qe Q_of n j k l + s3 (fun a => H a n l * L_of a j k) + s3 (fun a => H a j l * L_of n a k) + s3 (fun a => H a k l * L_of n j a).
Proof. intros n j k l Hn Hj Hk Hl. unfold dL_of, Qe, Q_of, L_of. rewrite !s3_eq. field. Qed.
Lemma D_cov : forall i j k l, (i < 3)%nat -> (j < 3)%nat -> (k < 3)%nat -> (l < 3)%nat ->
  dD_of i j k l = s3 (fun n => u i n * Qe Q_of n j k l) - s3 (fun a => s3 (fun b => u i a * P a b l * D_of b j k))
    - s3 (fun n => H i n l * D_of n j k) + s3 (fun n => H n j l * D_of i n k) + s3 (fun n => H n k l * D_of i j n).
Proof using T GS US.
  intros i j k l Hi Hj Hk Hl. unfold dD_of.
  rewrite (s3_ext _ (fun n => (- s3 (fun a => s3 (fun b => u i a * u n b * P a b l)) - s3 (fun a => H n a l * u i a) - s3 (fun a => H i a l * u a n)) * L_of n j k
    + u i n * (Qe Q_of n j k l + s3 (fun a => H a n l * L_of a j k) + s3 (fun a => H a j l * L_of n a k) + s3 (fun a => H a k l * L_of n j a)))).
  - unfold D_of. generalize (Qe Q_of) L_of. intros qe lo. rewrite !s3_eq. rewrite (US 1%nat 0%nat), (US 2%nat 0%nat), (US 2%nat 1%nat) by lia. ring.
  - intros n Hn. now rewrite (du_cov i n l Hi Hn Hl), (L_cov n j k l Hn Hj Hk Hl).
Qed.
Hypothesis PS : forall i j k, (i < 3)%nat -> (j < 3)%nat -> (k < 3)%nat -> P i j k = P j i k.
Lemma L_P : forall i j k, (i < 3)%nat -> (j < 3)%nat -> (k < 3)%nat -> L_of i j k + L_of j i k = P i j k.
Proof using PS. intros i j k Hi Hj Hk. unfold L_of. rewrite (PS j i k), (PS j k i), (PS i k j) by assumption. field. Qed.
Lemma LS_of : forall i j k, (i < 3)%nat -> (j < 3)%nat -> (k < 3)%nat -> L_of i j k = L_of i k j.
Proof using PS. intros i j k Hi Hj Hk. unfold L_of. rewrite (PS k j i) by assumption. field. Qed.
Hypothesis QS : forall i j k l, (i < 3)%nat -> (j < 3)%nat -> (k < 3)%nat -> (l < 3)%nat -> Q_of i j k l = Q_of j i k l /\ Q_of i j k l = Q_of i j l k.
Let Ee' := Ee u L_of Q_of.
Lemma E_cov : forall i j k l, (i < 3)%nat -> (j < 3)%nat -> (k < 3)%nat -> (l < 3)%nat ->
  dD_of i j k l = Ee' i j k l - s3 (fun n => H i n l * D_of n j k) + s3 (fun n => H n j l * D_of i n k) + s3 (fun n => H n k l * D_of i j n).
Proof using T GS US PS.
  intros i j k l Hi Hj Hk Hl. rewrite (D_cov i j k l Hi Hj Hk Hl). unfold Ee', Ee.
  rewrite (s3_ext (fun a => s3 (fun b => u i a * P a b l * D_of b j k)) (fun a => s3 (fun b => u i a * Pe L_of a b l * De u L_of b j k))); [reflexivity|].
  intros a Ha. apply s3_ext. intros b Hb. unfold Pe. rewrite (L_P a b l Ha Hb Hl). reflexivity.
Qed.
(** the Ricci tensor of [H + D] *)
Lemma ricci_split : forall i j, (i < 3)%nat -> (j < 3)%nat ->
  ricci (fun i j k => H i j k + D_of i j k) (fun i j k l => dH i j k l + dD_of i j k l) i j =
  s3 (fun k => Ee' k i j k) - s3 (fun k => Ee' k i k j) + quad u L_of i j.
Proof using T GS US PS HS FL.
  intros i j Hi Hj. unfold ricci.
  rewrite (s3_ext (fun k => dH k i j k + dD_of k i j k) (fun k => dH k i k j + s3 (fun n => H k n j * H n i k) - s3 (fun n => H k n k * H n i j)
     + (Ee' k i j k - s3 (fun n => H k n k * D_of n i j) + s3 (fun n => H n i k * D_of k n j) + s3 (fun n => H n k j * D_of k i n)))).
  - rewrite (s3_ext (fun k => dH k i k j + dD_of k i k j) (fun k => dH k i k j
     + (Ee' k i k j - s3 (fun n => H k n j * D_of n i k) + s3 (fun n => H n i j * D_of k n k) + s3 (fun n => H n k j * D_of k i n)))).
    + unfold quad. change (De u L_of) with D_of. generalize Ee' D_of. intros. rewrite !s3_eq. ring.
    + intros k Hk. now rewrite (E_cov k i k j Hk Hi Hk Hj).
  - intros k Hk. rewrite (E_cov k i j k Hk Hi Hj Hk). pose proof (FL k i j k Hk Hi Hj Hk) as F.
    rewrite (s3_ext (fun n => H n j k * D_of k i n) (fun n => H n k j * D_of k i n)) by (intros n Hn; now rewrite (HS n j k Hn Hj Hk)).
    generalize dependent (dH k i j k). generalize (Ee' k i j k). intros. lra.
Qed.
(** the derivative of Lambda^k = u^{ab} D^k_ab *)
Definition lam_of (k : nat) : R := s3 (fun a => s3 (fun b => u a b * D_of k a b)).
Definition dlam_of (k l : nat) : R := s3 (fun a => s3 (fun b => du_of a b l * D_of k a b + u a b * dD_of k a b l)).
Lemma lam_cov : forall k l, (k < 3)%nat -> (l < 3)%nat ->
  dlam_of k l + s3 (fun n => H k n l * lam_of n) =
  s3 (fun a => s3 (fun b => u a b * Ee' k a b l - s3 (fun c => s3 (fun d => u a c * u b d * P c d l)) * D_of k a b)).
Proof using T GS US PS.
  intros k l Hk Hl. unfold dlam_of, lam_of.
  rewrite (s3_ext (fun a => s3 (fun b => du_of a b l * D_of k a b + u a b * dD_of k a b l))
    (fun a => s3 (fun b => (- s3 (fun c => s3 (fun d => u a c * u b d * P c d l)) - s3 (fun c => H b c l * u a c) - s3 (fun c => H a c l * u c b)) * D_of k a b
       + u a b * (Ee' k a b l - s3 (fun n => H k n l * D_of n a b) + s3 (fun n => H n a l * D_of k n b) + s3 (fun n => H n b l * D_of k a n))))).
  - generalize (fun a b => s3 (fun c => s3 (fun d => u a c * u b d * P c d l))). intros X.
    generalize Ee' D_of. intros e d. rewrite !s3_eq. ring.
  - intros a Ha. apply s3_ext. intros b Hb. now rewrite (du_cov a b l Ha Hb Hl), (E_cov k a b l Hk Ha Hb Hl).
Qed.
Lemma D_low : forall i j k, (i < 3)%nat -> s3 (fun n => g i n * D_of n j k) = L_of i j k.
Proof using T.
  intros i j k Hi. unfold D_of. rewrite <- (s3_pick_r g u (fun n => L_of n j k) i T Hi) at 1. generalize L_of. intros. rewrite !s3_eq. ring.
Qed.
Lemma lam_low : forall i j, (i < 3)%nat -> (j < 3)%nat ->
  s3 (fun k => g k i * (dlam_of k j + s3 (fun n => H k n j * lam_of n))) = Fe u L_of Q_of i j.
Proof using T GS US PS.
  intros i j Hi Hj.
  rewrite (s3_ext _ (fun k => g i k * s3 (fun a => s3 (fun b => u a b * Ee' k a b j - s3 (fun c => s3 (fun d => u a c * u b d * P c d j)) * D_of k a b))))
    by (intros k Hk; now rewrite (lam_cov k j Hk Hj), (GS k i Hk Hi)).
  transitivity (s3 (fun a => s3 (fun b => u a b * s3 (fun k => g i k * Ee' k a b j) - s3 (fun c => s3 (fun d => u a c * u b d * P c d j)) * s3 (fun k => g i k * D_of k a b)))).
  - generalize (fun a b => s3 (fun c => s3 (fun d => u a c * u b d * P c d j))). intros X. generalize Ee' D_of. intros e d. rewrite !s3_eq. ring.
  - unfold Fe. apply s3_ext. intros a Ha. apply s3_ext. intros b Hb. rewrite (D_low i a b Hi).
    rewrite (s3_ext (fun c => s3 (fun d => u a c * u b d * P c d j)) (fun c => s3 (fun d => u a c * u b d * Pe L_of c d j)))
      by (intros c Hc; apply s3_ext; intros d Hd; unfold Pe; now rewrite (L_P c d j Hc Hd Hj)).
    f_equal. f_equal. unfold Ee', Ee.
    transitivity (s3 (fun n => s3 (fun k => g i k * u k n) * (Qe Q_of n a b j - s3 (fun c => Pe L_of n c j * De u L_of c a b)))).
    + generalize (Qe Q_of) (Pe L_of) (De u L_of). intros. rewrite !s3_eq. ring.
    + exact (s3_pick_r g u (fun n => Qe Q_of n a b j - s3 (fun c => Pe L_of n c j * De u L_of c a b)) i T Hi).
Qed.
(** the connection of the metric differs from [H] by [D] *)
Lemma conn_split : forall gd, (forall i j l, (i < 3)%nat -> (j < 3)%nat -> (l < 3)%nat -> gd i j l = gd_of i j l) ->
  forall i k l, (i < 3)%nat -> (k < 3)%nat -> (l < 3)%nat ->
  s3 (fun n => 1 / 2 * u i n * (gd n k l + gd n l k - gd k l n)) = H i k l + D_of i k l.
Proof using T GS HS.
  intros gd E i k l Hi Hk Hl.
  rewrite (s3_ext _ (fun n => u i n * (s3 (fun a => g n a * H a k l)) + u i n * L_of n k l)).
  - rewrite s3_plus. f_equal. rewrite <- (s3_pick_l g u (fun a => H a k l) i T Hi). rewrite !s3_eq. ring.
  - intros n Hn. rewrite !E by assumption. unfold gd_of, L_of.
    rewrite (s3_ext (fun a => H a n l * g a k) (fun a => H a l n * g k a)) by (intros a Ha; rewrite (HS a n l), (GS a k) by assumption; reflexivity).
    rewrite (s3_ext (fun a => H a l k * g n a) (fun a => H a k l * g n a)) by (intros a Ha; rewrite (HS a l k) by assumption; reflexivity).
    rewrite (s3_ext (fun a => H a n k * g a l) (fun a => H a k n * g a l)) by (intros a Ha; rewrite (HS a n k) by assumption; reflexivity).
    rewrite (s3_ext (fun a => g n a * H a k l) (fun a => H a k l * g n a)) by (intros a Ha; ring).
    field.
Qed.
(** the formula *)
Lemma ricci_formula : forall i j, (i < 3)%nat -> (j < 3)%nat ->
  ricci (fun i j k => H i j k + D_of i j k) (fun i j k l => dH i j k l + dD_of i j k l) i j =
  s3 (fun k => s3 (fun l => - (1 / 2) * u k l * Q_of i j l k))
  + s3 (fun k => 1 / 2 * (g k i * (dlam_of k j + s3 (fun n => H k n j * lam_of n)) + g k j * (dlam_of k i + s3 (fun n => H k n i * lam_of n))))
  + s3 (fun k => 1 / 2 * lam_of k * (L_of i j k + L_of j i k))
  + s3 (fun k => s3 (fun l => s3 (fun n => u k l * (D_of n k i * L_of j n l + D_of n k j * L_of i n l + D_of n i k * L_of n j l)))).
Proof using T GS US PS QS HS FL.
  intros i j Hi Hj. rewrite (ricci_split i j Hi Hj).
  pose proof (ricci_Q u Q_of US QS i j Hi Hj) as RQ. pose proof (ricci_L u L_of US LS_of i j Hi Hj) as RL.
  pose proof (lam_low i j Hi Hj) as L1. pose proof (lam_low j i Hj Hi) as L2.
  rewrite (s3_ext (fun k => 1 / 2 * (g k i * (dlam_of k j + s3 (fun n => H k n j * lam_of n)) + g k j * (dlam_of k i + s3 (fun n => H k n i * lam_of n))))
    (fun k => 1 / 2 * (g k i * (dlam_of k j + s3 (fun n => H k n j * lam_of n))) + 1 / 2 * (g k j * (dlam_of k i + s3 (fun n => H k n i * lam_of n)))))
    by (intros k Hk; ring).
  rewrite s3_plus.
  assert (SC : forall c f, s3 (fun k => c * f k) = c * s3 f) by (intros; rewrite !s3_eq; ring).
  rewrite !SC, L1, L2. change D_of with (De u L_of). change lam_of with (fun k => s3 (fun a => s3 (fun b => u a b * De u L_of k a b))). cbn beta.
  assert (X1 : s3 (fun k => Ee' k i j k) = s3 (fun k => s3 (fun n => u k n * Qe Q_of n i j k)) - s3 (fun k => s3 (fun a => s3 (fun b => u k a * Pe L_of a b k * De u L_of b i j)))).
  { unfold Ee', Ee. generalize (Qe Q_of) (Pe L_of) (De u L_of). intros. rewrite !s3_eq. ring. }
  assert (X2 : s3 (fun k => Ee' k i k j) = s3 (fun k => s3 (fun n => u k n * Qe Q_of n i k j)) - s3 (fun k => s3 (fun a => s3 (fun b => u k a * Pe L_of a b j * De u L_of b i k)))).
  { unfold Ee', Ee. generalize (Qe Q_of) (Pe L_of) (De u L_of). intros. rewrite !s3_eq. ring. }
  assert (X3 : forall i j, Fe u L_of Q_of i j = s3 (fun a => s3 (fun b => u a b * Qe Q_of i a b j))
     + s3 (fun a => s3 (fun b => u a b * (- s3 (fun c => Pe L_of i c j * De u L_of c a b)) - s3 (fun c => s3 (fun d => u a c * u b d * Pe L_of c d j)) * L_of i a b))).
  { intros a b. unfold Fe. generalize (fun a b' => s3 (fun c => s3 (fun d => u a c * u b' d * Pe L_of c d b))). intros X.
    generalize (Qe Q_of) (Pe L_of) (De u L_of). intros. rewrite !s3_eq. ring. }
  rewrite X1, X2, !X3. clear X1 X2 X3 L1 L2.
  lra.
Qed.
End Conn.
