(** C71: LorentzBoost is the Lorentz boost of special relativity. *)
From Coq Require Import List Arith Bool Reals Lra Lia Psatz.
From Verif Require Import PyBase GRMetric T4munu LorentzBoost.
Local Open Scope R_scope.

(** The Minkowski metric, and pairings written with explicit sums. *)
Definition eta (mu nu : nat) : R := if (mu =? nu)%nat then (if (mu =? 0)%nat then -1 else 1) else 0.
Definition delta4 (mu nu : nat) : R := if (mu =? nu)%nat then 1 else 0.
Definition sum4 (f : nat -> R) : R := f 0%nat + f 1%nat + f 2%nat + f 3%nat.
Definition speed2 (v : nat -> R) : R := v 0%nat * v 0%nat + v 1%nat * v 1%nat + v 2%nat * v 2%nat.

Lemma s4_sum : forall f, s4 f = sum4 f.
Proof. intros f. unfold s4, acc, sum4. cbn. ring. Qed.
Lemma v2_speed2 : forall v, vBoost2 v = speed2 v.
Proof. intros v. unfold vBoost2, acc, speed2. cbn. ring. Qed.
Lemma v2_opp : forall v, vBoost2 (fun i => - v i) = vBoost2 v.
Proof. intros v. rewrite !v2_speed2. unfold speed2. ring. Qed.
Lemma gamma_opp : forall v, gamma_lorentz (fun i => - v i) = gamma_lorentz v.
Proof. intros v. unfold gamma_lorentz. now rewrite v2_opp. Qed.

(** the boost in terms of gamma and the inverse of the speed squared *)
Lemma boost_some : forall v, 0 < speed2 v < 1 ->
  LorentzBoost v = Some (MkBoost (Lorentz_entries v) (Lorentz_entries (fun i => - v i))).
Proof.
  intros v [H1 H2]. rewrite <- v2_speed2 in H1, H2. unfold LorentzBoost, compute_LorentzMatrix.
  rewrite v2_opp. destruct (Rlt_dec 0 (vBoost2 v)); [| contradiction]. destruct (Rlt_dec (vBoost2 v) 1); [reflexivity | contradiction].
Qed.
Lemma boost_inv : forall v b, LorentzBoost v = Some b ->
  0 < speed2 v < 1 /\ b = MkBoost (Lorentz_entries v) (Lorentz_entries (fun i => - v i)).
Proof.
  intros v b. unfold LorentzBoost, compute_LorentzMatrix. rewrite v2_opp, v2_speed2.
  destruct (Rlt_dec 0 (speed2 v)); [| discriminate]. destruct (Rlt_dec (speed2 v) 1); [| discriminate].
  intros H. split; [lra | congruence].
Qed.

Lemma gamma_pos : forall v, 0 < speed2 v < 1 -> 0 < gamma_lorentz v.
Proof.
  intros v H. unfold gamma_lorentz. rewrite v2_speed2. apply Rdiv_lt_0_compat; [lra |]. apply sqrt_lt_R0. lra.
Qed.
Lemma gamma_sq : forall v, 0 < speed2 v < 1 -> gamma_lorentz v * gamma_lorentz v * (1 - speed2 v) = 1.
Proof.
  intros v H. unfold gamma_lorentz. rewrite v2_speed2.
  assert (P : 0 < sqrt (1 - speed2 v)) by (apply sqrt_lt_R0; lra).
  pose proof (sqrt_sqrt (1 - speed2 v) ltac:(lra)) as S. rewrite <- S at 3. field. lra.
Qed.

(** The product of the two matrices, in both orders, and the metric. *)
Ltac entries := unfold Lorentz_entries, sym01, Lorentz_upper, delta4, eta, sum4;
  cbn [Nat.eqb Nat.ltb Nat.leb].

(** the same with a uniform closed form: L = delta + terms *)
Definition closed (g w : R) (v : nat -> R) (mu nu : nat) : R :=
  match mu, nu with
  | O, O => g
  | O, S i => - g * v i
  | S i, O => - g * v i
  | S i, S j => (g - 1) * w * v i * v j + delta4 i j
  end.
Lemma closed_ok : forall v mu nu, Lorentz_entries v mu nu = closed (gamma_lorentz v) (/ speed2 v) v mu nu.
Proof.
  intros v mu nu. unfold Lorentz_entries, sym01. rewrite <- v2_speed2.
  destruct mu as [| i]; destruct nu as [| j]; try reflexivity.
  change (S j <? S i)%nat with (j <? i)%nat. unfold Lorentz_upper, closed, delta4, Rdiv.
  destruct (Nat.ltb_spec j i) as [H | H].
  - assert (A : (j <=? i)%nat = true) by (apply Nat.leb_le; lia). rewrite A, Nat.eqb_sym. ring.
  - assert (A : (i <=? j)%nat = true) by (apply Nat.leb_le; lia). rewrite A. ring.
Qed.
Lemma closed_opp : forall v mu nu,
  Lorentz_entries (fun i => - v i) mu nu = closed (gamma_lorentz v) (/ speed2 v) (fun i => - v i) mu nu.
Proof.
  intros v mu nu. rewrite closed_ok, gamma_opp.
  replace (speed2 (fun i => - v i)) with (speed2 v) by (unfold speed2; ring). reflexivity.
Qed.

Ltac idx n := destruct n as [| [| [| [| n]]]]; [| | | | lia].

Section Alg.
Variables (g w : R) (v : nat -> R).
Hypothesis W : w * speed2 v = 1.
Hypothesis G : g * g * (1 - speed2 v) = 1.
Lemma G1 : g * g * speed2 v = g * g - 1. Proof. lra. Qed.
Lemma closed_inv : forall mu nu, (mu < 4)%nat -> (nu < 4)%nat ->
  sum4 (fun a => closed g w (fun i => - v i) mu a * closed g w v a nu) = delta4 mu nu.
Proof.
  intros mu nu Hm Hn. destruct mu as [| i]; destruct nu as [| j]; unfold sum4; cbn [closed].
  - unfold delta4. cbn. replace 1 with (g * g * (1 - speed2 v)) by exact G. unfold speed2. ring.
  - transitivity (- g * v j + g * ((g - 1) * (w * speed2 v) * v j + sum4 (fun a => match a with O => 0 | S a => v a * delta4 a j end)) - (g * g - g) * v j).
    + assert (E : w * speed2 v = 1) by exact W. rewrite E.
      transitivity (- g * g * v j + g * ((g - 1) * (w * speed2 v) * v j + sum4 (fun a => match a with O => 0 | S a => v a * delta4 a j end))).
      * unfold sum4, speed2. ring.
      * rewrite E. ring.
    + rewrite W. unfold sum4, delta4. assert (Hj : (j < 3)%nat) by lia.
      destruct j as [| [| [| j]]]; [| | | lia]; cbn; ring.
  - assert (Hi : (i < 3)%nat) by lia. transitivity (g * g * v i - g * ((g - 1) * (w * speed2 v) * v i + v i)).
    + unfold speed2, delta4. destruct i as [| [| [| i]]]; [| | | lia]; cbn; ring.
    + rewrite W. unfold delta4. cbn. ring.
  - assert (Hi : (i < 3)%nat) by lia. assert (Hj : (j < 3)%nat) by lia.
    transitivity (v i * v j * (- (g * g) + (g - 1) * (g - 1) * w * (w * speed2 v) + 2 * (g - 1) * w) + delta4 i j).
    + unfold speed2, delta4. destruct i as [| [| [| i]]]; [| | | lia]; (destruct j as [| [| [| j]]]; [| | | lia]); cbn; ring.
    + rewrite W. assert (Z : - (g * g) + (g - 1) * (g - 1) * w * 1 + 2 * (g - 1) * w = 0).
      { transitivity (- (g * g) + (g * g - 1) * w); [ring |]. rewrite <- G1.
        transitivity (- (g * g) + g * g * (w * speed2 v)); [ring | rewrite W; ring]. }
      rewrite Z. change (delta4 (S i) (S j)) with (delta4 i j). ring.
Qed.
Lemma closed_metric : forall mu nu, (mu < 4)%nat -> (nu < 4)%nat ->
  sum4 (fun a => eta a a * closed g w v a mu * closed g w v a nu) = eta mu nu.
Proof.
  intros mu nu Hm Hn. rewrite <- (Rmult_1_l (eta mu nu)).
  transitivity (sum4 (fun a => (if (mu =? 0)%nat then -1 else 1) * (closed g w (fun i => - v i) mu a * closed g w v a nu))).
  - destruct mu as [| i]; destruct nu as [| j]; unfold sum4, eta; cbn [closed Nat.eqb]; rewrite ?(fun a b => Rmult_comm (v a) (v b)); unfold delta4; 
    try (assert (Hi : (i < 3)%nat) by lia; destruct i as [| [| [| i]]]; [| | | lia]); cbn; ring.
  - transitivity ((if (mu =? 0)%nat then -1 else 1) * sum4 (fun a => closed g w (fun i => - v i) mu a * closed g w v a nu)).
    + unfold sum4. ring.
    + rewrite closed_inv by assumption. unfold delta4, eta. destruct (mu =? nu)%nat; ring.
Qed.
End Alg.

Lemma data : forall v, 0 < speed2 v < 1 -> / speed2 v * speed2 v = 1 /\
  gamma_lorentz v * gamma_lorentz v * (1 - speed2 v) = 1.
Proof. intros v H. split; [apply Rinv_l; lra | exact (gamma_sq v H)]. Qed.

Lemma sum4_ext : forall f h, (forall a, (a < 4)%nat -> f a = h a) -> sum4 f = sum4 h.
Proof. intros f h H. unfold sum4. rewrite !H by lia. reflexivity. Qed.
Lemma sum4_scal : forall c f, sum4 (fun a => c * f a) = c * sum4 f.
Proof. intros. unfold sum4. ring. Qed.
Lemma sum4_scal_r : forall c f, sum4 (fun a => f a * c) = sum4 f * c.
Proof. intros. unfold sum4. ring. Qed.
Lemma sum4_swap : forall f, sum4 (fun a => sum4 (fun b => f a b)) = sum4 (fun b => sum4 (fun a => f a b)).
Proof. intros. unfold sum4. ring. Qed.
Lemma sum4_delta : forall f mu, (mu < 4)%nat -> sum4 (fun a => delta4 mu a * f a) = f mu.
Proof. intros f mu H. idx mu; unfold sum4, delta4; cbn [Nat.eqb]; ring. Qed.

Lemma inv_left : forall v mu nu, 0 < speed2 v < 1 -> (mu < 4)%nat -> (nu < 4)%nat ->
  sum4 (fun a => Lorentz_entries (fun i => - v i) mu a * Lorentz_entries v a nu) = delta4 mu nu.
Proof.
  intros v mu nu H Hm Hn. destruct (data v H) as [W G].
  rewrite <- (closed_inv _ _ v W G mu nu Hm Hn). apply sum4_ext. intros a _. now rewrite closed_opp, closed_ok.
Qed.
Lemma inv_right : forall v mu nu, 0 < speed2 v < 1 -> (mu < 4)%nat -> (nu < 4)%nat ->
  sum4 (fun a => Lorentz_entries v mu a * Lorentz_entries (fun i => - v i) a nu) = delta4 mu nu.
Proof.
  intros v mu nu H Hm Hn.
  assert (H' : 0 < speed2 (fun i => - v i) < 1).
  { replace (speed2 (fun i => - v i)) with (speed2 v) by (unfold speed2; ring). exact H. }
  rewrite <- (inv_left _ mu nu H' Hm Hn). apply sum4_ext. intros a _. f_equal.
  rewrite closed_opp, closed_ok. rewrite gamma_opp.
  replace (speed2 (fun i => - v i)) with (speed2 v) by (unfold speed2; ring).
  destruct mu, a; cbn [closed]; ring.
Qed.

(** ** The matrices exist exactly for the speeds strictly between 0 and the speed of light. *)
Theorem C71_defined : forall v, LorentzBoost v <> None <-> 0 < speed2 v < 1.
Proof.
  intros v. split.
  - intros H. destruct (LorentzBoost v) as [b |] eqn:E; [exact (proj1 (boost_inv v b E)) | congruence].
  - intros H. rewrite (boost_some v H). discriminate.
Qed.
(** A boost with velocity 0 is the identity in special relativity; here it has no value. *)
Theorem C71_identity_refuted : exists v, speed2 v = 0 /\ LorentzBoost v = None.
Proof.
  exists (fun _ => 0). assert (E : speed2 (fun _ => 0) = 0) by (unfold speed2; ring). split; [exact E |].
  destruct (LorentzBoost (fun _ => 0)) as [b |] eqn:B; [| reflexivity].
  apply boost_inv in B. destruct B as [B _]. rewrite E in B. lra.
Qed.

(** ** The matrix is symmetric, is a Lorentz matrix, and does not reverse time. *)
Theorem C71_lorentz : forall v b, LorentzBoost v = Some b ->
  (forall mu nu, (mu < 4)%nat -> (nu < 4)%nat ->
     sum4 (fun a => sum4 (fun c => eta a c * LorentzMatrix b a mu * LorentzMatrix b c nu)) = eta mu nu)
  /\ (forall mu nu, LorentzMatrix b mu nu = LorentzMatrix b nu mu)
  /\ 1 <= LorentzMatrix b 0%nat 0%nat.
Proof.
  intros v b B. destruct (boost_inv v b B) as [H ->]. cbn [LorentzMatrix]. destruct (data v H) as [W G]. split; [| split].
  - intros mu nu Hm Hn. rewrite <- (closed_metric _ _ v W G mu nu Hm Hn).
    unfold sum4. rewrite !closed_ok. unfold eta at 2 3 4 5 7 8 9 10 12 13 14 15. cbn [Nat.eqb]. ring.
  - intros mu nu. rewrite !closed_ok. destruct mu, nu; cbn [closed]; try ring.
    unfold delta4. rewrite Nat.eqb_sym. ring.
  - rewrite closed_ok. cbn [closed]. pose proof (gamma_pos v H). nra.
Qed.

(** ** The inverse boost undoes the boost, on either side. *)
Lemma apply_id : forall M N V mu, (mu < 4)%nat ->
  (forall nu, (nu < 4)%nat -> sum4 (fun a => M mu a * N a nu) = delta4 mu nu) ->
  sum4 (fun a => M mu a * sum4 (fun c => N a c * V c)) = V mu.
Proof.
  intros M N V mu Hm H. transitivity (sum4 (fun c => sum4 (fun a => M mu a * N a c) * V c)).
  - unfold sum4. ring.
  - rewrite <- (sum4_delta V mu Hm). apply sum4_ext. intros c Hc. now rewrite H.
Qed.
Theorem C71_roundtrip : forall v b V mu, LorentzBoost v = Some b -> (mu < 4)%nat ->
  inverse_boost_vectorU b (boost_vectorU b V) mu = V mu /\ boost_vectorU b (inverse_boost_vectorU b V) mu = V mu.
Proof.
  intros v b V mu B Hm. destruct (boost_inv v b B) as [H ->]. unfold inverse_boost_vectorU, boost_vectorU.
  cbn [LorentzMatrix InverseLorentzMatrix]. rewrite !s4_sum. split.
  - rewrite <- (apply_id (Lorentz_entries (fun i => - v i)) (Lorentz_entries v) V mu Hm).
    + apply sum4_ext. intros a _. now rewrite s4_sum.
    + intros nu Hn. exact (inv_left v mu nu H Hm Hn).
  - rewrite <- (apply_id (Lorentz_entries v) (Lorentz_entries (fun i => - v i)) V mu Hm).
    + apply sum4_ext. intros a _. now rewrite s4_sum.
    + intros nu Hn. exact (inv_right v mu nu H Hm Hn).
Qed.

(** ** The boost leads to the rest frame of an observer that moves with velocity v, in this direction. *)
Theorem C71_rest_frame : forall v b mu, LorentzBoost v = Some b -> (mu < 4)%nat ->
  let g := / sqrt (1 - speed2 v) in
  boost_vectorU b (fun nu => match nu with O => g | S i => g * v i end) mu = delta4 mu 0%nat.
Proof.
  intros v b mu B Hm g. destruct (boost_inv v b B) as [H ->]. destruct (data v H) as [W G].
  assert (Eg : g = gamma_lorentz v) by (unfold g, gamma_lorentz; rewrite v2_speed2; unfold Rdiv; ring).
  unfold boost_vectorU. rewrite s4_sum. cbn [LorentzMatrix]. rewrite Eg. clear g Eg.
  unfold sum4. rewrite !closed_ok. revert W G. generalize (gamma_lorentz v) as g. generalize (/ speed2 v) as w. intros w g W G.
  destruct mu as [| i]; cbn [closed].
  - transitivity (g * g * (1 - speed2 v)); [unfold speed2; ring | rewrite G; reflexivity].
  - transitivity (- g * g * v i + g * ((g - 1) * (w * speed2 v) * v i + v i)).
    + unfold speed2, delta4. assert (Hi : (i < 3)%nat) by lia. destruct i as [| [| [| i]]]; [| | | lia]; cbn; ring.
    + rewrite W. unfold delta4. cbn. ring.
Qed.
(** A boost along x is the textbook one, and directions across it are untouched. *)
Theorem C71_along_x : forall u b V, LorentzBoost (fun i => match i with O => u | _ => 0 end) = Some b ->
  let g := / sqrt (1 - u * u) in
  boost_vectorU b V 0%nat = g * (V 0%nat - u * V 1%nat) /\ boost_vectorU b V 1%nat = g * (V 1%nat - u * V 0%nat)
  /\ boost_vectorU b V 2%nat = V 2%nat /\ boost_vectorU b V 3%nat = V 3%nat.
Proof.
  intros u b V B g. destruct (boost_inv _ b B) as [H ->]. set (v := fun i : nat => match i with O => u | _ => 0 end) in *.
  assert (S : speed2 v = u * u) by (unfold speed2, v; ring).
  assert (Eg : gamma_lorentz v = g) by (unfold g, gamma_lorentz; rewrite v2_speed2, S; unfold Rdiv; ring).
  unfold boost_vectorU. rewrite !s4_sum. cbn [LorentzMatrix]. unfold sum4. rewrite !closed_ok, Eg, S. clearbody g.
  cbn [closed]. unfold v, delta4. cbn [Nat.eqb]. assert (u <> 0) by (intros Z; rewrite S, Z in H; lra).
  repeat split; field; assumption.
Qed.

(** ** Lower indices: the pairing of boosted tensors with boosted vectors is that of the tensors with the vectors. *)
Section Contract.
Variables L M : nat -> nat -> R.
Hypothesis I : forall mu nu, (mu < 4)%nat -> (nu < 4)%nat -> sum4 (fun a => M mu a * L a nu) = delta4 mu nu.
Lemma contract1 : forall X U, sum4 (fun m => sum4 (fun n => M n m * X n) * sum4 (fun r => L m r * U r)) = sum4 (fun n => X n * U n).
Proof.
  intros X U. transitivity (sum4 (fun n => X n * sum4 (fun m => M n m * sum4 (fun r => L m r * U r)))).
  - transitivity (sum4 (fun m => sum4 (fun n => X n * (M n m * sum4 (fun r => L m r * U r))))).
    + apply sum4_ext. intros m _. rewrite <- sum4_scal_r. apply sum4_ext. intros n _. ring.
    + rewrite sum4_swap. apply sum4_ext. intros n _. now rewrite sum4_scal.
  - apply sum4_ext. intros n Hn. f_equal. apply apply_id; [exact Hn |]. intros nu Hnu. now apply I.
Qed.
End Contract.

Definition pair1 (D U : nat -> R) : R := sum4 (fun a => D a * U a).
Definition pair2 (D : nat -> nat -> R) (U1 U2 : nat -> R) : R := sum4 (fun a => pair1 (D a) U2 * U1 a).
Definition pair3 (D : nat -> nat -> nat -> R) (U1 U2 U3 : nat -> R) : R := sum4 (fun a => pair2 (D a) U2 U3 * U1 a).
Definition pair4 (D : nat -> nat -> nat -> nat -> R) (U1 U2 U3 U4 : nat -> R) : R := sum4 (fun a => pair3 (D a) U2 U3 U4 * U1 a).

Section Lower.
Variable b : boost.
Hypothesis I : forall mu nu, (mu < 4)%nat -> (nu < 4)%nat ->
  sum4 (fun a => InverseLorentzMatrix b mu a * LorentzMatrix b a nu) = delta4 mu nu.
Let M := InverseLorentzMatrix b.
Lemma pair1_boost : forall D U, pair1 (boost_vectorD b D) (boost_vectorU b U) = pair1 D U.
Proof.
  intros D U. unfold pair1. rewrite <- (contract1 (LorentzMatrix b) M I D U). apply sum4_ext. intros m _.
  unfold boost_vectorD, boost_vectorU. now rewrite !s4_sum.
Qed.
(** the components of a boosted tensor are boosted in the remaining indices and then summed over the first one *)
Lemma DD_split : forall D m1 m2, boost_tensorDD b D m1 m2 = sum4 (fun n => M n m1 * boost_vectorD b (D n) m2).
Proof.
  intros D m1 m2. unfold boost_tensorDD, boost_vectorD. rewrite s4_sum. apply sum4_ext. intros n _. rewrite !s4_sum.
  rewrite <- sum4_scal. apply sum4_ext. intros c _. unfold M. ring.
Qed.
Lemma DDD_split : forall D m1 m2 m3, boost_tensorDDD b D m1 m2 m3 = sum4 (fun n => M n m1 * boost_tensorDD b (D n) m2 m3).
Proof.
  intros D m1 m2 m3. unfold boost_tensorDDD, boost_tensorDD. rewrite s4_sum. apply sum4_ext. intros n _. rewrite !s4_sum.
  rewrite <- sum4_scal. apply sum4_ext. intros c _. rewrite ?s4_sum. rewrite <- sum4_scal. apply sum4_ext. intros d _. unfold M. ring.
Qed.
Lemma DDDD_split : forall D m1 m2 m3 m4,
  boost_tensorDDDD b D m1 m2 m3 m4 = sum4 (fun n => M n m1 * boost_tensorDDD b (D n) m2 m3 m4).
Proof.
  intros D m1 m2 m3 m4. unfold boost_tensorDDDD, boost_tensorDDD. rewrite s4_sum. apply sum4_ext. intros n _. rewrite !s4_sum.
  rewrite <- sum4_scal. apply sum4_ext. intros c _. rewrite ?s4_sum. rewrite <- sum4_scal. apply sum4_ext. intros d _.
  rewrite ?s4_sum. rewrite <- sum4_scal. apply sum4_ext. intros e _. unfold M. ring.
Qed.
Lemma pair1_lin : forall (F : nat -> nat -> R) k U, pair1 (fun m => sum4 (fun n => k n * F n m)) U = sum4 (fun n => k n * pair1 (F n) U).
Proof. intros. unfold pair1, sum4. ring. Qed.
Lemma pair1_ext : forall D D' U, (forall m, D m = D' m) -> pair1 D U = pair1 D' U.
Proof. intros D D' U H. unfold pair1. apply sum4_ext. intros a _. now rewrite H. Qed.
Lemma pair2_ext : forall D D' U V, (forall m n, D m n = D' m n) -> pair2 D U V = pair2 D' U V.
Proof. intros D D' U V H. unfold pair2. apply sum4_ext. intros a _. f_equal. apply pair1_ext. intros. apply H. Qed.
Lemma pair3_ext : forall D D' U V W, (forall m n p, D m n p = D' m n p) -> pair3 D U V W = pair3 D' U V W.
Proof. intros D D' U V W H. unfold pair3. apply sum4_ext. intros a _. f_equal. apply pair2_ext. intros. apply H. Qed.
Lemma pair2_lin : forall (F : nat -> nat -> nat -> R) k U V,
  pair2 (fun m p => sum4 (fun n => k n * F n m p)) U V = sum4 (fun n => k n * pair2 (F n) U V).
Proof.
  intros F k U V. unfold pair2. transitivity (sum4 (fun a => sum4 (fun n => k n * pair1 (F n a) V) * U a)).
  - apply sum4_ext. intros a _. f_equal. apply (pair1_lin (fun n => F n a)).
  - unfold sum4. ring.
Qed.
Lemma pair3_lin : forall (F : nat -> nat -> nat -> nat -> R) k U V W,
  pair3 (fun m p q => sum4 (fun n => k n * F n m p q)) U V W = sum4 (fun n => k n * pair3 (F n) U V W).
Proof.
  intros F k U V W. unfold pair3. transitivity (sum4 (fun a => sum4 (fun n => k n * pair2 (F n a) V W) * U a)).
  - apply sum4_ext. intros a _. f_equal. apply (pair2_lin (fun n => F n a)).
  - unfold sum4. ring.
Qed.
Lemma outer : forall X U, sum4 (fun m => sum4 (fun n => M n m * X n) * boost_vectorU b U m) = sum4 (fun n => X n * U n).
Proof.
  intros X U. rewrite <- (contract1 (LorentzMatrix b) M I X U). apply sum4_ext. intros m _. unfold boost_vectorU. now rewrite s4_sum.
Qed.
Lemma pair2_boost : forall D U V, pair2 (boost_tensorDD b D) (boost_vectorU b U) (boost_vectorU b V) = pair2 D U V.
Proof.
  intros D U V. unfold pair2. rewrite <- (outer (fun n => pair1 (D n) V) U). apply sum4_ext. intros m _. f_equal.
  rewrite (pair1_ext _ _ _ (DD_split D m)), pair1_lin. apply sum4_ext. intros n _. now rewrite pair1_boost.
Qed.
Lemma pair3_boost : forall D U V W,
  pair3 (boost_tensorDDD b D) (boost_vectorU b U) (boost_vectorU b V) (boost_vectorU b W) = pair3 D U V W.
Proof.
  intros D U V W. unfold pair3. rewrite <- (outer (fun n => pair2 (D n) V W) U). apply sum4_ext. intros m _. f_equal.
  rewrite (pair2_ext _ _ _ _ (DDD_split D m)), pair2_lin. apply sum4_ext. intros n _. now rewrite pair2_boost.
Qed.
Lemma pair4_boost : forall D U V W Z,
  pair4 (boost_tensorDDDD b D) (boost_vectorU b U) (boost_vectorU b V) (boost_vectorU b W) (boost_vectorU b Z) = pair4 D U V W Z.
Proof.
  intros D U V W Z. unfold pair4. rewrite <- (outer (fun n => pair3 (D n) V W Z) U). apply sum4_ext. intros m _. f_equal.
  rewrite (pair3_ext _ _ _ _ _ (DDDD_split D m)), pair3_lin. apply sum4_ext. intros n _. now rewrite pair3_boost.
Qed.
End Lower.

Theorem C71_pairings : forall v b, LorentzBoost v = Some b ->
  (forall D U, pair1 (boost_vectorD b D) (boost_vectorU b U) = pair1 D U)
  /\ (forall D U V, pair2 (boost_tensorDD b D) (boost_vectorU b U) (boost_vectorU b V) = pair2 D U V)
  /\ (forall D U V W, pair3 (boost_tensorDDD b D) (boost_vectorU b U) (boost_vectorU b V) (boost_vectorU b W) = pair3 D U V W)
  /\ (forall D U V W Z, pair4 (boost_tensorDDDD b D) (boost_vectorU b U) (boost_vectorU b V) (boost_vectorU b W)
                          (boost_vectorU b Z) = pair4 D U V W Z).
Proof.
  intros v b B. destruct (boost_inv v b B) as [H ->].
  assert (I : forall mu nu, (mu < 4)%nat -> (nu < 4)%nat ->
    sum4 (fun a => InverseLorentzMatrix (MkBoost (Lorentz_entries v) (Lorentz_entries (fun i => - v i))) mu a
                   * LorentzMatrix (MkBoost (Lorentz_entries v) (Lorentz_entries (fun i => - v i))) a nu) = delta4 mu nu).
  { intros mu nu Hm Hn. exact (inv_left v mu nu H Hm Hn). }
  split; [| split; [| split]]; intros.
  - now apply pair1_boost.
  - now apply pair2_boost.
  - now apply pair3_boost.
  - now apply pair4_boost.
Qed.

(** ** Examples *)
Definition vx : nat -> R := fun i => match i with O => 3 / 5 | _ => 0 end.
Example ex_C71_defined : LorentzBoost vx <> None.
Proof. apply C71_defined. unfold speed2, vx. lra. Qed.
Example ex_C71_values : exists b, LorentzBoost vx = Some b /\ LorentzMatrix b 0%nat 0%nat = 5 / 4
  /\ LorentzMatrix b 0%nat 1%nat = - (3 / 4) /\ LorentzMatrix b 1%nat 1%nat = 5 / 4 /\ LorentzMatrix b 2%nat 2%nat = 1.
Proof.
  assert (S : speed2 vx = 9 / 25) by (unfold speed2, vx; field).
  eexists. split; [apply boost_some; lra |]. cbn [LorentzMatrix].
  assert (Q : sqrt (1 - speed2 vx) = 4 / 5).
  { rewrite S. replace (1 - 9 / 25) with (4 / 5 * (4 / 5)) by field. apply sqrt_square. lra. }
  assert (G : gamma_lorentz vx = 5 / 4) by (unfold gamma_lorentz; rewrite v2_speed2, Q; field).
  rewrite !closed_ok, G, S. cbn [closed]. unfold vx, delta4. cbn [Nat.eqb]. repeat split; field.
Qed.
Example ex_C71_oblique : LorentzBoost (fun i => INR i / 4) <> None.
Proof. apply C71_defined. unfold speed2. cbn. lra. Qed.

Print Assumptions C71_defined.
Print Assumptions C71_identity_refuted.
Print Assumptions C71_lorentz.
Print Assumptions C71_roundtrip.
Print Assumptions C71_rest_frame.
Print Assumptions C71_along_x.
Print Assumptions C71_pairings.
