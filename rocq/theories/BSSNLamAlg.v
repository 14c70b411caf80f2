(** Algebra of the evolution of the contracted connection: what a change of the metric along a vector field, and a change by a tensor,
    do to the connection. *)
From Coq Require Import String List Arith Bool Lia Reals Lra.
From Verif Require Import PyBase Inverter InverterFacts RefMetricFlat BSSN BSSNFacts BSSNConn BSSNRicciFacts BSSNEvolAlg.
Import ListNotations.
Local Open Scope R_scope.

Section Alg.
Variables (g u A : nat -> nat -> R) (gd ud Ad : nat -> nat -> nat -> R) (gdd : nat -> nat -> nat -> nat -> R) (be ad td : nat -> R) (bd : nat -> nat -> R) (bdd : nat -> nat -> nat -> R) (al th : R).
Hypothesis TS : two_sided3 g u.
Hypothesis SG : sym3 g.
Hypothesis SU : sym3 u.
Hypothesis SA : sym3 A.
Hypothesis GDS : forall i j l, (i < 3)%nat -> (j < 3)%nat -> (l < 3)%nat -> gd i j l = gd j i l.
Hypothesis GDD : forall i j k l, (i < 3)%nat -> (j < 3)%nat -> (k < 3)%nat -> (l < 3)%nat -> gdd i j k l = gdd i j l k.
Hypothesis BDD : forall i k l, (i < 3)%nat -> (k < 3)%nat -> (l < 3)%nat -> bdd i k l = bdd i l k.
Hypothesis UD : forall i j l, (i < 3)%nat -> (j < 3)%nat -> (l < 3)%nat -> ud i j l = - s3 (fun a => s3 (fun c => u i a * u j c * gd a c l)).
(** Half the sum of derivatives of a connection with its first index lowered *)
Definition low (x : nat -> nat -> nat -> R) (l j k : nat) : R := 1 / 2 * (x l j k + x l k j - x j k l).
Definition lowd (l j k n : nat) : R := 1 / 2 * (gdd l j k n + gdd l k j n - gdd j k l n).
Definition G (i j k : nat) : R := s3 (fun l => u i l * low gd l j k).
Definition Gd (i j k n : nat) : R := s3 (fun l => ud i l n * low gd l j k + u i l * lowd l j k n).
(** What a change [W] of the metric, with derivatives [Wd], does to the inverse and the connection *)
Definition dU (W : nat -> nat -> R) (i j : nat) : R := - s3 (fun a => s3 (fun c => u i a * u j c * W a c)).
Definition dG (W : nat -> nat -> R) (Wd : nat -> nat -> nat -> R) (i j k : nat) : R := s3 (fun l => dU W i l * low gd l j k + u i l * low Wd l j k).

(** ** Along a vector field *)
Definition LW (i j : nat) : R := s3 (fun k => be k * gd i j k + bd k i * g k j + bd k j * g i k).
Definition LWd (i j l : nat) : R := s3 (fun k => bd k l * gd i j k + be k * gdd i j k l + bdd k i l * g k j + bd k i * gd k j l + bdd k j l * g i k + bd k j * gd i k l).
Lemma lie_low : forall l j k, (l < 3)%nat -> (j < 3)%nat -> (k < 3)%nat ->
  low LWd l j k = s3 (fun n => be n * lowd l j k n + bd n l * low gd n j k + bd n j * low gd l n k + bd n k * low gd l j n + g l n * bdd n j k).
Proof using GDS GDD BDD SG.
  intros l j k Hl Hj Hk. unfold low, LWd, lowd.
  match goal with |- 1 / 2 * (s3 ?a + s3 ?b - s3 ?c) = s3 ?d => transitivity (s3 (fun n => 1 / 2 * (a n + b n - c n))); [rewrite !s3_eq; ring|apply s3_ext; intros n Hn; cbn beta] end.
  rewrite (GDD l j n k), (GDD l k n j), (GDD j k n l), (BDD n l k), (BDD n l j), (BDD n k j), (SG n j), (SG n k), ?(SG n l), ?(GDS n j l), ?(GDS n k l), ?(GDS n l k), ?(GDS n l j), ?(GDS n k j), ?(GDS n j k) by lia. field.
Qed.
Lemma lie_inv : forall i l, (i < 3)%nat -> (l < 3)%nat ->
  dU LW i l = s3 (fun n => be n * ud i l n - u n l * bd i n - u i n * bd l n).
Proof using TS SG SU UD.
  intros i l Hi Hl. unfold dU, LW.
  transitivity (s3 (fun n => be n * - s3 (fun a => s3 (fun c => u i a * u l c * gd a c n))) - s3 (fun a => u i a * s3 (fun n => s3 (fun c => u l c * g c n) * bd n a))
     - s3 (fun c => u l c * s3 (fun n => s3 (fun a => u i a * g a n) * bd n c))).
  { rewrite !s3_eq. rewrite (SG 1%nat 0%nat), (SG 2%nat 0%nat), (SG 2%nat 1%nat) by lia. ring. }
  rewrite (s3_ext (fun n => be n * - _) (fun n => be n * ud i l n)) by (intros n Hn; now rewrite UD).
  rewrite (s3_ext (fun a => u i a * _) (fun a => u i a * bd l a)) by (intros a Ha; f_equal; now apply (s3_pick_l g u (fun n => bd n a))).
  rewrite (s3_ext (fun c => u l c * _) (fun c => u l c * bd i c)) by (intros a Ha; f_equal; now apply (s3_pick_l g u (fun n => bd n a))).
  rewrite !s3_eq. rewrite (SU 0%nat l), (SU 1%nat l), (SU 2%nat l) by lia. ring.
Qed.
Lemma lie_conn : forall i j k, (i < 3)%nat -> (j < 3)%nat -> (k < 3)%nat ->
  dG LW LWd i j k = s3 (fun n => be n * Gd i j k n - bd i n * G n j k + bd n j * G i n k + bd n k * G i j n) + bdd i j k.
Proof using TS SG SU UD GDS GDD BDD.
  intros i j k Hi Hj Hk. unfold dG.
  rewrite (s3_ext _ (fun l => s3 (fun n => be n * ud i l n - u n l * bd i n - u i n * bd l n) * low gd l j k
     + u i l * s3 (fun n => be n * lowd l j k n + bd n l * low gd n j k + bd n j * low gd l n k + bd n k * low gd l j n + g l n * bdd n j k)))
    by (intros l Hl; rewrite lie_inv, lie_low by assumption; reflexivity).
  transitivity (s3 (fun n => be n * Gd i j k n - bd i n * G n j k + bd n j * G i n k + bd n k * G i j n) + s3 (fun n => s3 (fun l => u i l * g l n) * bdd n j k)).
  { unfold Gd, G. generalize (low gd) lowd. intros. rewrite !s3_eq. ring. }
  f_equal. now apply (s3_pick_l g u (fun n => bdd n j k)).
Qed.
(** The contraction with a second connection [H] taken away *)
Variables (H : nat -> nat -> nat -> R) (Hd : nat -> nat -> nat -> nat -> R).
Definition Dc (i : nat) : R := s3 (fun j => s3 (fun k => u j k * (G i j k - H i j k))).
Definition Dcd (i n : nat) : R := s3 (fun j => s3 (fun k => ud j k n * (G i j k - H i j k) + u j k * (Gd i j k n - Hd i j k n))).
Definition dDc (W : nat -> nat -> R) (Wd : nat -> nat -> nat -> R) (i : nat) : R :=
  s3 (fun j => s3 (fun k => dU W j k * (G i j k - H i j k) + u j k * dG W Wd i j k)).
Definition LH (i j k : nat) : R := s3 (fun n => be n * Hd i j k n - bd i n * H n j k + bd n j * H i n k + bd n k * H i j n) + bdd i j k.
Lemma lie_contr : forall i, (i < 3)%nat ->
  dDc LW LWd i = s3 (fun n => be n * Dcd i n - bd i n * Dc n) + s3 (fun j => s3 (fun k => u j k * LH i j k)).
Proof using TS SG SU UD GDS GDD BDD.
  intros i Hi. unfold dDc.
  rewrite (s3_ext _ (fun j => s3 (fun k => s3 (fun n => be n * ud j k n - u n k * bd j n - u j n * bd k n) * (G i j k - H i j k)
     + u j k * (s3 (fun n => be n * Gd i j k n - bd i n * G n j k + bd n j * G i n k + bd n k * G i j n) + bdd i j k))))
    by (intros j Hj; apply s3_ext; intros k Hk; rewrite lie_inv, lie_conn by assumption; reflexivity).
  unfold Dcd, Dc, LH. generalize G Gd. intros. rewrite !s3_eq. ring.
Qed.
(** For a flat [H] the last term is the second covariant derivative, with the terms the code has *)
Lemma lie_flat : forall i j k, (i < 3)%nat -> (j < 3)%nat -> (k < 3)%nat ->
  (forall i j k, (i < 3)%nat -> (j < 3)%nat -> (k < 3)%nat -> H i j k = H i k j) ->
  (forall i j k l, (i < 3)%nat -> (j < 3)%nat -> (k < 3)%nat -> (l < 3)%nat -> Hd i j k l = Hd i k j l) ->
  (forall i k l p, (i < 3)%nat -> (k < 3)%nat -> (l < 3)%nat -> (p < 3)%nat ->
    Hd i k l p + s3 (fun n => H i n p * H n k l) = Hd i k p l + s3 (fun n => H i n l * H n k p)) ->
  LH i j k = bdd i k j + s3 (fun n => Hd i n k j * be n + H i n k * bd n j + H i n j * bd n k - H n k j * bd i n)
    + s3 (fun n => s3 (fun d => (H i d j * H d n k - H d k j * H i n d) * be n)).
Proof using BDD.
  intros i j k Hi Hj Hk HS HdS FL. unfold LH. rewrite (BDD i j k Hi Hj Hk).
  rewrite (s3_ext _ (fun n => be n * (Hd i n k j + s3 (fun d => H i d j * H d n k) - s3 (fun d => H i n d * H d k j)) - bd i n * H n k j + bd n j * H i n k + bd n k * H i n j)).
  { generalize (Hd i). intros. rewrite !s3_eq. ring. }
  intros n Hn. rewrite (HS n j k), (HS i j n) by assumption. f_equal. f_equal. f_equal. f_equal.
  rewrite (HdS i n k j), (HdS i j k n) by assumption. pose proof (FL i k n j Hi Hk Hn Hj) as F.
  rewrite (s3_ext (fun d => H i d j * H d n k) (fun d => H i d j * H d k n)) by (intros d Hd'; now rewrite (HS d n k)).
  rewrite (s3_ext (fun d => H i n d * H d k j) (fun d => H i d n * H d k j)) by (intros d Hd'; now rewrite (HS i n d)). lra.
Qed.

(** ** By a tensor *)
Definition cov (S : nat -> nat -> R) (Sd : nat -> nat -> nat -> R) (a c l : nat) : R := Sd a c l - s3 (fun n => G n l a * S n c) - s3 (fun n => G n l c * S a n).
Lemma G_sym : forall i j k, (i < 3)%nat -> (j < 3)%nat -> (k < 3)%nat -> G i j k = G i k j.
Proof using GDS. intros i j k Hi Hj Hk. unfold G, low. apply s3_ext. intros n Hn. rewrite (GDS j k n) by assumption. ring. Qed.
Lemma G_low : forall a j k, (a < 3)%nat -> s3 (fun i => g a i * G i j k) = low gd a j k.
Proof using TS.
  intros a j k Ha. unfold G. rewrite <- (s3_pick_r g u (fun n => low gd n j k) a TS Ha). generalize (low gd). intros. rewrite !s3_eq. ring.
Qed.
Lemma G_compat : forall i j l, (i < 3)%nat -> (j < 3)%nat -> (l < 3)%nat -> gd i j l = s3 (fun n => G n l i * g n j) + s3 (fun n => G n l j * g i n).
Proof using TS SG GDS.
  intros i j l Hi Hj Hl.
  transitivity (s3 (fun n => g j n * G n l i) + s3 (fun n => g i n * G n l j)).
  - rewrite !G_low by assumption. unfold low. rewrite (GDS j i l), (GDS l i j), (GDS l j i) by assumption. field.
  - f_equal; apply s3_ext; intros n Hn; [rewrite (SG j n Hj Hn)|]; ring.
Qed.
Lemma cov_g : forall i j l, (i < 3)%nat -> (j < 3)%nat -> (l < 3)%nat -> cov g gd i j l = 0.
Proof using TS SG GDS. intros i j l Hi Hj Hl. unfold cov. rewrite (G_compat i j l) by assumption. ring. Qed.
Lemma tens_conn : forall S Sd, sym3 S -> forall i j k, (i < 3)%nat -> (j < 3)%nat -> (k < 3)%nat ->
  dG S Sd i j k = s3 (fun l => u i l * low (cov S Sd) l j k).
Proof using SU GDS.
  intros S Sd SS i j k Hi Hj Hk. unfold dG.
  transitivity (s3 (fun l => u i l * (low Sd l j k - s3 (fun c => S l c * G c j k)))).
  { unfold dU. rewrite (s3_ext (fun l => u i l * (_ - _)) (fun l => u i l * (low Sd l j k - s3 (fun c => S l c * s3 (fun n => u c n * low gd n j k))))) by reflexivity.
    generalize (low gd) (low Sd). intros. rewrite !s3_eq. rewrite (SU 1%nat 0%nat), (SU 2%nat 0%nat), (SU 2%nat 1%nat) by lia. ring. }
  apply s3_ext. intros l Hl. f_equal. unfold low at 2, cov.
  rewrite (s3_ext (fun n => G n k j * S l n) (fun n => S l n * G n j k)) by (intros n Hn; rewrite (G_sym n k j) by assumption; ring).
  rewrite (s3_ext (fun n => G n j k * S l n) (fun n => S l n * G n j k)) by (intros n Hn; ring).
  rewrite (s3_ext (fun n => G n l k * S j n) (fun n => G n k l * S n j)) by (intros n Hn; rewrite (G_sym n l k), (SS j n) by assumption; ring).
  rewrite (s3_ext (fun n => G n l j * S n k) (fun n => G n j l * S n k)) by (intros n Hn; rewrite (G_sym n l j) by assumption; ring).
  unfold low. field.
Qed.
Definition Sx (a c : nat) : R := - (2 / 3) * g a c * th - 2 * al * A a c.
Definition Sxd (a c l : nat) : R := - (2 / 3) * (gd a c l * th + g a c * td l) - 2 * (ad l * A a c + al * Ad a c l).
Definition AU (i j : nat) : R := s3 (fun k => s3 (fun l => u i k * u j l * A k l)).
Lemma cov_Sx : forall a c l, (a < 3)%nat -> (c < 3)%nat -> (l < 3)%nat ->
  cov Sx Sxd a c l = - (2 / 3) * g a c * td l - 2 * ad l * A a c - 2 * al * cov A Ad a c l.
Proof using TS SG GDS.
  intros a c l Ha Hc Hl. pose proof (cov_g a c l Ha Hc Hl) as Z. unfold cov in *. unfold Sx, Sxd. revert Z. generalize G. intros G0 Z.
  rewrite !s3_eq in *. replace (gd a c l) with (G0 0%nat l a * g 0%nat c + G0 1%nat l a * g 1%nat c + G0 2%nat l a * g 2%nat c + (G0 0%nat l c * g a 0%nat + G0 1%nat l c * g a 1%nat + G0 2%nat l c * g a 2%nat)) by lra. ring.
Qed.
Hypothesis TR0 : s3 (fun j => s3 (fun k => u j k * A j k)) = 0.
Hypothesis TR : forall l, (l < 3)%nat -> s3 (fun j => s3 (fun k => ud j k l * A j k + u j k * Ad j k l)) = 0.
Lemma cov_trace : forall l, (l < 3)%nat -> s3 (fun j => s3 (fun k => u j k * cov A Ad j k l)) = 0.
Proof using TS SG SU SA GDS UD TR.
  intros l Hl. rewrite <- (TR l Hl). rewrite (s3_ext (fun j => s3 (fun k => ud j k l * A j k + _)) (fun j => s3 (fun k => - s3 (fun a => s3 (fun c => u j a * u k c * (s3 (fun n => G n l a * g n c) + s3 (fun n => G n l c * g a n)))) * A j k + u j k * Ad j k l))).
  2:{ intros j Hj. apply s3_ext. intros k Hk. rewrite UD by assumption. apply (f_equal (fun x => - x * A j k + u j k * Ad j k l)). apply s3_ext. intros a Ha. apply s3_ext. intros c Hc. rewrite G_compat by assumption. reflexivity. }
  (** u g = delta *)
  rewrite (s3_ext (fun j => s3 (fun k => - _ * A j k + u j k * Ad j k l)) (fun j => s3 (fun k => - (s3 (fun a => u j a * G k l a) + s3 (fun c => u k c * G j l c)) * A j k + u j k * Ad j k l))).
  2:{ intros j Hj. apply s3_ext. intros k Hk. apply (f_equal (fun x => - x * A j k + u j k * Ad j k l)).
      transitivity (s3 (fun a => u j a * s3 (fun n => s3 (fun c => u k c * g c n) * G n l a)) + s3 (fun c => u k c * s3 (fun n => s3 (fun a => u j a * g a n) * G n l c))).
      - generalize G. intros. rewrite !s3_eq. rewrite (SG 1%nat 0%nat), (SG 2%nat 0%nat), (SG 2%nat 1%nat) by lia. ring.
      - f_equal; apply s3_ext; intros a Ha; f_equal; [exact (s3_pick_l g u (fun n => G n l a) k TS Hk)|exact (s3_pick_l g u (fun n => G n l a) j TS Hj)]. }
  unfold cov. generalize G. intros. rewrite !s3_eq.
  rewrite (SU 1%nat 0%nat), (SU 2%nat 0%nat), (SU 2%nat 1%nat), (SA 1%nat 0%nat), (SA 2%nat 0%nat), (SA 2%nat 1%nat) by lia. ring.
Qed.
Lemma tens_contr : forall i, (i < 3)%nat ->
  dDc Sx Sxd i = 2 / 3 * Dc i * th + s3 (fun n => 1 / 3 * u i n * td n) - 2 * s3 (fun j => AU i j * ad j)
    - 2 * al * s3 (fun j => s3 (fun k => s3 (fun l => u i k * u j l * cov A Ad k l j))) + s3 (fun j => s3 (fun k => 2 * al * AU j k * (G i j k - H i j k))).
Proof using TS SG SU SA GDS UD TR0 TR.
  intros i Hi.
  assert (SS : sym3 Sx) by (intros a c Ha Hc; unfold Sx; now rewrite (SG a c Ha Hc), (SA a c Ha Hc)).
  assert (DU : forall j k, (j < 3)%nat -> (k < 3)%nat -> dU Sx j k = 2 / 3 * th * u j k + 2 * al * AU j k).
  { intros j k Hj Hk. unfold dU, Sx, AU. rewrite (SU j k Hj Hk). rewrite <- (s3_pick_l g u (fun n => u k n) j TS Hj).
    rewrite !s3_eq. ring. }
  unfold dDc. rewrite (s3_ext _ (fun j => s3 (fun k => (2 / 3 * th * u j k + 2 * al * AU j k) * (G i j k - H i j k) + u j k * s3 (fun l => u i l * low (cov Sx Sxd) l j k))))
    by (intros j Hj; apply s3_ext; intros k Hk; rewrite DU, (tens_conn _ _ SS) by assumption; reflexivity).
  assert (X : s3 (fun j => s3 (fun k => u j k * s3 (fun l => u i l * low (cov Sx Sxd) l j k))) =
    s3 (fun n => 1 / 3 * u i n * td n) - 2 * s3 (fun j => AU i j * ad j) - 2 * al * s3 (fun j => s3 (fun k => s3 (fun l => u i k * u j l * cov A Ad k l j)))).
  { transitivity (s3 (fun j => s3 (fun k => s3 (fun l => u i k * u j l * cov Sx Sxd k l j))) - 1 / 2 * s3 (fun l => u i l * s3 (fun j => s3 (fun k => u j k * cov Sx Sxd j k l)))).
    { unfold low. generalize (cov Sx Sxd). intros C. rewrite !s3_eq. rewrite (SU 1%nat 0%nat), (SU 2%nat 0%nat), (SU 2%nat 1%nat) by lia. field. }
    rewrite (s3_ext (fun l => u i l * _) (fun l => u i l * (- 2 * td l))).
    2:{ intros l Hl. f_equal. rewrite (s3_ext _ (fun j => s3 (fun k => u j k * (- (2 / 3) * g j k * td l - 2 * ad l * A j k - 2 * al * cov A Ad j k l)))) by (intros j Hj; apply s3_ext; intros k Hk; now rewrite cov_Sx).
        transitivity (- (2 / 3) * td l * s3 (fun j => s3 (fun k => u j k * g j k)) - 2 * ad l * s3 (fun j => s3 (fun k => u j k * A j k)) - 2 * al * s3 (fun j => s3 (fun k => u j k * cov A Ad j k l))).
        - generalize (cov A Ad). intros. rewrite !s3_eq. ring.
        - rewrite (trace_id g u TS SG), TR0, cov_trace by assumption. field. }
    rewrite (s3_ext (fun j => s3 (fun k => s3 (fun l => u i k * u j l * cov Sx Sxd k l j))) (fun j => s3 (fun k => s3 (fun l => u i k * u j l * (- (2 / 3) * g k l * td j - 2 * ad j * A k l - 2 * al * cov A Ad k l j)))))
      by (intros j Hj; apply s3_ext; intros k Hk; apply s3_ext; intros l Hl; now rewrite cov_Sx).
    transitivity (- (2 / 3) * s3 (fun j => td j * s3 (fun l => s3 (fun k => u i k * g k l) * u j l)) - 2 * s3 (fun j => AU i j * ad j)
       - 2 * al * s3 (fun j => s3 (fun k => s3 (fun l => u i k * u j l * cov A Ad k l j))) + s3 (fun l => u i l * td l)).
    { unfold AU. generalize (cov A Ad). intros. rewrite !s3_eq. field. }
    rewrite (s3_ext (fun j => td j * _) (fun j => td j * u i j)) by (intros j Hj; rewrite (s3_pick_l g u (fun l => u j l) i TS Hi), (SU j i Hj Hi); reflexivity).
    generalize (cov A Ad) AU. intros. rewrite !s3_eq. field. }
  transitivity (s3 (fun j => s3 (fun k => (2 / 3 * th * u j k + 2 * al * AU j k) * (G i j k - H i j k))) + s3 (fun j => s3 (fun k => u j k * s3 (fun l => u i l * low (cov Sx Sxd) l j k)))).
  { generalize (cov Sx Sxd) G AU. intros. rewrite !s3_eq. ring. }
  rewrite X. unfold Dc. generalize (cov A Ad) G AU. intros. rewrite !s3_eq. ring.
Qed.
(** ** Both, in the terms of the code *)
Lemma contr_ext : forall W Wd, (forall a c, (a < 3)%nat -> (c < 3)%nat -> W a c = LW a c + Sx a c) ->
  (forall a c l, (a < 3)%nat -> (c < 3)%nat -> (l < 3)%nat -> Wd a c l = LWd a c l + Sxd a c l) ->
  forall i, dDc W Wd i = dDc LW LWd i + dDc Sx Sxd i.
Proof using.
  intros W Wd E Ed i. unfold dDc.
  assert (U1 : forall j k, dU W j k = dU LW j k + dU Sx j k).
  { intros j k. unfold dU. rewrite (s3_ext (fun a => s3 (fun c => u j a * u k c * W a c)) (fun a => s3 (fun c => u j a * u k c * (LW a c + Sx a c)))) by (intros a Ha; apply s3_ext; intros c Hc; now rewrite E).
    generalize LW Sx. intros. rewrite !s3_eq. ring. }
  transitivity (s3 (fun j => s3 (fun k => (dU LW j k + dU Sx j k) * (G i j k - H i j k) + u j k * (dG LW LWd i j k + dG Sx Sxd i j k)))).
  - apply s3_ext. intros j Hj. apply s3_ext. intros k Hk. rewrite U1. f_equal. f_equal. unfold dG. rewrite <- s3_plus. apply s3_ext. intros l Hl. rewrite U1. unfold low at 2 4 6. rewrite !Ed by assumption. ring.
  - generalize (dU LW) (dU Sx) G (dG LW LWd) (dG Sx Sxd). intros. rewrite !s3_eq. ring.
Qed.
Lemma lam_total : forall W Wd (p Kd : nat -> R), (forall a c, (a < 3)%nat -> (c < 3)%nat -> W a c = LW a c + Sx a c) ->
  (forall a c l, (a < 3)%nat -> (c < 3)%nat -> (l < 3)%nat -> Wd a c l = LWd a c l + Sxd a c l) ->
  (forall i j k, (i < 3)%nat -> (j < 3)%nat -> (k < 3)%nat -> H i j k = H i k j) ->
  (forall i j k l, (i < 3)%nat -> (j < 3)%nat -> (k < 3)%nat -> (l < 3)%nat -> Hd i j k l = Hd i k j l) ->
  (forall i k l p, (i < 3)%nat -> (k < 3)%nat -> (l < 3)%nat -> (p < 3)%nat ->
    Hd i k l p + s3 (fun n => H i n p * H n k l) = Hd i k p l + s3 (fun n => H i n l * H n k p)) ->
  forall i, (i < 3)%nat -> dDc W Wd i =
  s3 (fun k => be k * Dcd i k - bd i k * Dc k)
  + s3 (fun j => s3 (fun k => u j k * (bdd i k j + s3 (fun n => Hd i n k j * be n + H i n k * bd n j + H i n j * bd n k - H n k j * bd i n)
      + s3 (fun n => s3 (fun d => (H i d j * H d n k - H d k j * H i n d) * be n)))))
  + 2 / 3 * Dc i * th + s3 (fun n => 1 / 3 * u i n * td n) + s3 (fun j => - 2 * AU i j * (ad j - 6 * al * p j))
  + s3 (fun j => s3 (fun k => 2 * al * AU j k * (G i j k - H i j k))) + s3 (fun j => - (4 / 3) * al * u i j * Kd j)
  - 2 * al * (s3 (fun j => 6 * AU i j * p j) + s3 (fun j => - (2 / 3) * u i j * Kd j) + s3 (fun j => s3 (fun k => s3 (fun l => u i k * u j l * cov A Ad k l j)))).
Proof using TS SG SU SA GDS GDD BDD UD TR0 TR.
  intros W Wd p Kd EW EWd HS HdS FL i Hi. rewrite (contr_ext W Wd EW EWd), lie_contr, tens_contr by assumption.
  rewrite (s3_ext (fun j => s3 (fun k => u j k * LH i j k)) (fun j => s3 (fun k => u j k * (bdd i k j + s3 (fun n => Hd i n k j * be n + H i n k * bd n j + H i n j * bd n k - H n k j * bd i n)
      + s3 (fun n => s3 (fun d => (H i d j * H d n k - H d k j * H i n d) * be n))))))
    by (intros j Hj; apply s3_ext; intros k Hk; now rewrite lie_flat).
  set (x1 := s3 (fun n => be n * Dcd i n - bd i n * Dc n)). set (x2 := s3 (fun j => s3 (fun k => u j k * (bdd i k j + _ + _)))).
  set (x3 := s3 (fun j => s3 (fun k => s3 (fun l => _)))). set (x4 := s3 (fun j => s3 (fun k => 2 * al * AU j k * (G i j k - H i j k)))).
  clearbody x1 x2 x3 x4. generalize AU Dc. intros. rewrite !s3_eq. field.
Qed.
End Alg.
