(** C80: psi_4 of psi4.py. *)
From Coq Require Import String List ZArith Bool Arith Lia Reals Lra.
From Verif Require Import PyBase Inverter InverterFacts RefMetricReal BSSN BSSNFacts BSSNCalc Psi4 PropPsi4Tetrad.
Import ListNotations.
Local Open Scope R_scope.

(** ** The contraction *)
(** an algebraic curvature tensor: the symmetries of the Riemann tensor *)
Definition riemann_like (Rm : nat -> nat -> nat -> nat -> R) : Prop :=
  forall a b c d, Rm b a c d = - Rm a b c d /\ Rm a b d c = - Rm a b c d /\ Rm c d a b = Rm a b c d.
Definition sum4 (f : nat -> R) : R := f 0%nat + f 1%nat + f 2%nat + f 3%nat.
(** Rm_abcd n^a mbar^b n^c mbar^d with mbar = mre - i mim: real and imaginary part *)
Definition weyl_re (Rm : nat -> nat -> nat -> nat -> R) (n mre mim : nat -> R) : R :=
  sum4 (fun a => sum4 (fun b => sum4 (fun c => sum4 (fun d => Rm a b c d * n a * n c * (mre b * mre d - mim b * mim d))))).
Definition weyl_im (Rm : nat -> nat -> nat -> nat -> R) (n mre mim : nat -> R) : R :=
  sum4 (fun a => sum4 (fun b => sum4 (fun c => sum4 (fun d => Rm a b c d * n a * n c * (- mre b * mim d - mim b * mre d))))).
Definition canon (A : nat -> nat -> nat -> nat -> R) (B : nat -> nat -> nat -> R) (C : nat -> nat -> R) (a b c d : nat) : R :=
  match a, b, c, d with
  | S i, S j, S k, S l => A i j k l
  | O, S j, S k, S l => B j k l | S j, O, S k, S l => - B j k l | S k, S l, O, S j => B j k l | S k, S l, S j, O => - B j k l
  | O, S j, O, S l => C j l | S j, O, O, S l => - C j l | O, S j, S l, O => - C j l | S j, O, S l, O => C j l
  | _, _, _, _ => 0
  end.
Lemma canon_eq : forall Rm, riemann_like Rm -> forall a b c d,
  Rm a b c d = canon (fun i j k l => Rm (S i) (S j) (S k) (S l)) (fun j k l => Rm 0%nat (S j) (S k) (S l)) (fun j l => Rm 0%nat (S j) 0%nat (S l)) a b c d.
Proof.
  intros Rm H a b c d.
  assert (Z1 : forall a c d, Rm a a c d = 0) by (intros a' c' d'; destruct (H a' a' c' d') as (E & _); lra).
  assert (Z2 : forall a b c, Rm a b c c = 0) by (intros a' b' c'; destruct (H a' b' c' c') as (_ & E & _); lra).
  destruct a as [|a], b as [|b], c as [|c], d as [|d]; cbn [canon]; rewrite ?Z1, ?Z2; try reflexivity.
  - apply H.
  - apply H.
  - rewrite (proj1 (H 0%nat (S a) (S c) 0%nat)), (proj1 (proj2 (H 0%nat (S a) 0%nat (S c)))). ring.
  - apply H.
  - rewrite (proj2 (proj2 (H 0%nat (S d) (S a) (S b)))). reflexivity.
  - rewrite (proj1 (proj2 (H (S a) (S b) 0%nat (S c)))), (proj2 (proj2 (H 0%nat (S c) (S a) (S b)))). reflexivity.
Qed.

Lemma weyl_canon : forall Rm n mre mim, riemann_like Rm ->
  weyl_re Rm n mre mim = weyl_re (canon (fun i j k l => Rm (S i) (S j) (S k) (S l)) (fun j k l => Rm 0%nat (S j) (S k) (S l)) (fun j l => Rm 0%nat (S j) 0%nat (S l))) n mre mim /\
  weyl_im Rm n mre mim = weyl_im (canon (fun i j k l => Rm (S i) (S j) (S k) (S l)) (fun j k l => Rm 0%nat (S j) (S k) (S l)) (fun j l => Rm 0%nat (S j) 0%nat (S l))) n mre mim.
Proof.
  intros Rm n mre mim H. assert (E : forall f g, (forall a, f a = g a) -> sum4 f = sum4 g) by (intros f g E; unfold sum4; now rewrite !E).
  unfold weyl_re, weyl_im. split; repeat (apply E; intro); now rewrite (canon_eq Rm H) at 1.
Qed.
Definition tp_re (n mre mim : nat -> R) (a b c d : nat) : R := n a * mre b * n c * mre d - n a * mim b * n c * mim d.
Definition tp_im (n mre mim : nat -> R) (a b c d : nat) : R := - n a * mre b * n c * mim d - n a * mim b * n c * mre d.
Definition split_sum (A : nat -> nat -> nat -> nat -> R) (B : nat -> nat -> nat -> R) (C : nat -> nat -> R) (tp : nat -> nat -> nat -> nat -> R) : R :=
  s3 (fun i => s3 (fun j => s3 (fun k => s3 (fun l => A i j k l * tp (S i) (S j) (S k) (S l)))))
  + s3 (fun j => s3 (fun k => s3 (fun l => 2 * B j k l * (tp 0%nat (S j) (S k) (S l) - tp (S j) 0%nat (S k) (S l)))))
  + s3 (fun j => s3 (fun l => C j l * (tp 0%nat (S j) 0%nat (S l) - tp (S j) 0%nat 0%nat (S l) - tp 0%nat (S j) (S l) 0%nat + tp (S j) 0%nat (S l) 0%nat))).
Lemma split_weyl : forall A B C n mre mim, split_sum A B C (tp_re n mre mim) = weyl_re (canon A B C) n mre mim /\ split_sum A B C (tp_im n mre mim) = weyl_im (canon A B C) n mre mim.
Proof.
  intros. unfold split_sum, weyl_re, weyl_im, sum4, tp_re, tp_im. rewrite !s3_eq. cbn [canon]. split; ring.
Qed.

Section Psi4.
Variables (g u K : nat -> nat -> R) (A4 : nat -> nat -> nat -> nat -> R) (G dK : nat -> nat -> nat -> R).
Hypothesis SK : sym3 K.
Hypothesis SU : sym3 u.
Let R3 := RDDDD g A4 G.
Variable Rm : nat -> nat -> nat -> nat -> R.
Hypothesis RS : riemann_like Rm.
(** the equation of Gauss *)
Hypothesis gauss : forall i j k l, (i < 3)%nat -> (j < 3)%nat -> (k < 3)%nat -> (l < 3)%nat ->
  Rm (S i) (S j) (S k) (S l) = R3 i j k l + K i k * K j l - K i l * K j k.
(** and of Codazzi: D_k K_jl - D_l K_jk *)
Hypothesis codazzi : forall j k l, (j < 3)%nat -> (k < 3)%nat -> (l < 3)%nat ->
  let D := fun i j k => KDDdD dK i j k - s3 (fun p => GammaUDD G p i k * K p j) - s3 (fun p => GammaUDD G p j k * K i p) in
  Rm 0%nat (S j) (S k) (S l) = D j l k - D j k l.
(** no matter: the Ricci tensor vanishes *)
Hypothesis vacuum : forall j l, (j < 3)%nat -> (l < 3)%nat -> - Rm 0%nat (S j) 0%nat (S l) + s3 (fun i => s3 (fun k => u i k * Rm (S i) (S j) (S k) (S l))) = 0.
Lemma t1 : forall i j k l, (i < 3)%nat -> (j < 3)%nat -> (k < 3)%nat -> (l < 3)%nat -> rank4term1DDDD g K A4 G i j k l = Rm (S i) (S j) (S k) (S l).
Proof. intros i j k l Hi Hj Hk Hl. rewrite gauss by assumption. unfold rank4term1DDDD. fold R3. rewrite (SK l j), (SK k j) by assumption. ring. Qed.
Lemma G_sym : forall i j k, GammaUDD G i j k = GammaUDD G i k j.
Proof. intros. unfold GammaUDD. now rewrite Nat.min_comm, Nat.max_comm. Qed.
Lemma t2 : forall j k l, (j < 3)%nat -> (k < 3)%nat -> (l < 3)%nat -> rank3term2DDD K G dK j k l = 4 * Rm 0%nat (S j) (S k) (S l).
Proof.
  intros j k l Hj Hk Hl. rewrite codazzi by assumption. unfold rank3term2DDD. rewrite !s3_eq. rewrite !(G_sym _ l k), !(SK 0%nat), !(SK 1%nat), !(SK 2%nat) by (assumption || lia). field.
Qed.
Lemma t3 : forall j l, (j < 3)%nat -> (l < 3)%nat -> rank2term3DD g u K A4 G j l = 4 * Rm 0%nat (S j) 0%nat (S l).
Proof.
  intros j l Hj Hl. replace (Rm 0%nat (S j) 0%nat (S l)) with (s3 (fun i => s3 (fun k => u i k * Rm (S i) (S j) (S k) (S l)))) by (pose proof (vacuum j l Hj Hl); lra).
  unfold rank2term3DD, RDD, trK, KUD. rewrite !s3_eq. rewrite !gauss by (assumption || lia). fold R3. 
  rewrite (SU 1%nat 0%nat), (SU 2%nat 0%nat), (SU 2%nat 1%nat) by lia. ring.
Qed.
Variables (n mre mim : nat -> R).
Lemma psi4_canon : forall tp, psi4_of g u K A4 G dK tp = 
  s3 (fun i => s3 (fun j => s3 (fun k => s3 (fun l => Rm (S i) (S j) (S k) (S l) * tp (S i) (S j) (S k) (S l)))))
  + s3 (fun j => s3 (fun k => s3 (fun l => 2 * Rm 0%nat (S j) (S k) (S l) * (tp 0%nat (S j) (S k) (S l) - tp (S j) 0%nat (S k) (S l)))))
  + s3 (fun j => s3 (fun l => Rm 0%nat (S j) 0%nat (S l) * (tp 0%nat (S j) 0%nat (S l) - tp (S j) 0%nat 0%nat (S l) - tp 0%nat (S j) (S l) 0%nat + tp (S j) 0%nat (S l) 0%nat))).
Proof.
  intro tp. unfold psi4_of, psi4_piece1, psi4_piece2, psi4_piece3. f_equal; [f_equal |].
  - apply s3_ext; intros i Hi. apply s3_ext; intros j Hj. apply s3_ext; intros k Hk. apply s3_ext; intros l Hl. rewrite t1 by assumption. now rewrite !Nat.add_1_r.
  - apply s3_ext; intros j Hj. apply s3_ext; intros k Hk. apply s3_ext; intros l Hl. rewrite t2 by assumption. rewrite !Nat.add_1_r. field.
  - apply s3_ext; intros j Hj. apply s3_ext; intros l Hl. rewrite t3 by assumption. rewrite !Nat.add_1_r. field.
Qed.
Lemma psi4_weyl : psi4_re g u K A4 G dK n mre mim = weyl_re Rm n mre mim /\ psi4_im g u K A4 G dK n mre mim = weyl_im Rm n mre mim.
Proof.
  unfold psi4_re, psi4_im. rewrite !psi4_canon. rewrite (proj1 (weyl_canon Rm n mre mim RS)), (proj2 (weyl_canon Rm n mre mim RS)).
  exact (split_weyl _ _ _ n mre mim).
Qed.
End Psi4.

(** ** The Riemann tensor *)
(** R_ijkl = gamma_ia (d_k Gamma^a_jl - d_l Gamma^a_jk + Gamma^a_pk Gamma^p_jl - Gamma^a_pl Gamma^p_jk), with [dG a j k l] for d_l Gamma^a_jk *)
Definition riem (g : nat -> nat -> R) (G : nat -> nat -> nat -> R) (dG : nat -> nat -> nat -> nat -> R) (i j k l : nat) : R :=
  s3 (fun a => g i a * (dG a j l k - dG a j k l + s3 (fun p => G a p k * G p j l - G a p l * G p j k))).
Section Riemann.
Variables (g : nat -> nat -> R) (G dg : nat -> nat -> nat -> R) (dG A4 : nat -> nat -> nat -> nat -> R).
Hypothesis SG : sym3 g.
Hypothesis GS : forall a j k, (a < 3)%nat -> (j < 3)%nat -> (k < 3)%nat -> G a j k = G a k j.
Hypothesis dGS : forall a j k l, (a < 3)%nat -> (j < 3)%nat -> (k < 3)%nat -> (l < 3)%nat -> dG a j k l = dG a k j l.
Hypothesis D1 : forall i j k, (i < 3)%nat -> (j < 3)%nat -> (k < 3)%nat -> dg i j k = s3 (fun n => g n j * G n i k + g i n * G n j k).
Hypothesis D2 : forall i j k l, (i < 3)%nat -> (j < 3)%nat -> (k < 3)%nat -> (l < 3)%nat ->
  A4 i j k l = s3 (fun n => dg n j l * G n i k + g n j * dG n i k l + dg i n l * G n j k + g i n * dG n j k l).
Hypothesis A4S : forall i j k l, (i < 3)%nat -> (j < 3)%nat -> (k < 3)%nat -> (l < 3)%nat -> A4 i j k l = A4 i j l k.
Lemma D1' : forall i j k, (i < 3)%nat -> (j < 3)%nat -> (k < 3)%nat -> dg i j k = s3 (fun n => g n j * G n i k + g n i * G n j k).
Proof. intros i j k Hi Hj Hk. rewrite D1 by assumption. apply s3_ext. intros n Hn. now rewrite (SG i n) by assumption. Qed.
Lemma D2' : forall i j k l, (i < 3)%nat -> (j < 3)%nat -> (k < 3)%nat -> (l < 3)%nat ->
  A4 i j k l = s3 (fun n => s3 (fun p => g p j * G p n l + g p n * G p j l) * G n i k + g n j * dG n i k l + s3 (fun p => g p n * G p i l + g p i * G p n l) * G n j k + g n i * dG n j k l).
Proof.
  intros i j k l Hi Hj Hk Hl. rewrite D2 by assumption. apply s3_ext. intros n Hn. now rewrite !D1', (SG i n) by assumption.
Qed.
Ltac swap3 H x y := rewrite ?(H 0%nat x y), ?(H 1%nat x y), ?(H 2%nat x y) by (assumption || lia).
Lemma A4T : forall i j k l, (i < 3)%nat -> (j < 3)%nat -> (k < 3)%nat -> (l < 3)%nat -> A4 i j k l = A4 j i k l.
Proof.
  intros i j k l Hi Hj Hk Hl. rewrite !D2' by assumption. rewrite !s3_eq.
  rewrite ?(SG 1%nat 0%nat), ?(SG 2%nat 0%nat), ?(SG 2%nat 1%nat) by lia. ring.
Qed.
Lemma riem_alg : forall i k l m, (i < 3)%nat -> (k < 3)%nat -> (l < 3)%nat -> (m < 3)%nat -> RDDDD g A4 G i k l m = riem g G dG i k l m.
Proof.
  assert (S4 : forall i j k l, (i < 3)%nat -> (j < 3)%nat -> (k < 3)%nat -> (l < 3)%nat -> gammaDDdDD A4 i j k l = A4 i j k l).
  { intros i j k l Hi Hj Hk Hl. unfold gammaDDdDD.
    destruct (Nat.le_ge_cases i j) as [L|L]; [rewrite (Nat.min_l i j), (Nat.max_r i j) by lia | rewrite (Nat.min_r i j), (Nat.max_l i j) by lia; rewrite (A4T j i) by lia];
    (destruct (Nat.le_ge_cases k l) as [L'|L']; [rewrite (Nat.min_l k l), (Nat.max_r k l) by lia | rewrite (Nat.min_r k l), (Nat.max_l k l) by lia; rewrite (A4S _ _ l k) by lia]); reflexivity. }
  assert (SGm : forall a j k, (a < 3)%nat -> (j < 3)%nat -> (k < 3)%nat -> GammaUDD G a j k = G a j k).
  { intros a j k Ha Hj Hk. unfold GammaUDD. destruct (Nat.le_ge_cases j k) as [L|L]; [now rewrite Nat.min_l, Nat.max_r by lia | rewrite Nat.min_r, Nat.max_l by lia; now apply GS]. }
  intros i k l m Hi Hk Hl Hm. unfold RDDDD. rewrite !S4 by assumption.
  transitivity (1 / 2 * (A4 i m k l + A4 k l i m - A4 i l k m - A4 k m i l + (A4 i k m l - A4 i k l m)) + s3 (fun n => s3 (fun p => g n p * (GammaUDD G n k l * GammaUDD G p i m - GammaUDD G n k m * GammaUDD G p i l)))).
  { rewrite (A4S i k m l) by assumption. ring. }
  transitivity (s3 (fun a => g a i * (dG a k m l - dG a k l m + s3 (fun p => G a p l * G p k m - G a p m * G p k l)))).
  2: { apply s3_ext. intros a Ha. now rewrite (SG a i) by assumption. }
  rewrite !D2' by assumption. rewrite !s3_eq. rewrite !SGm by (assumption || lia).
  rewrite ?(SG 1%nat 0%nat), ?(SG 2%nat 0%nat), ?(SG 2%nat 1%nat) by lia.
  swap3 GS k i; swap3 GS l i; swap3 GS m i; swap3 GS l k; swap3 GS m k; swap3 GS m l.
  swap3 dGS k i; swap3 dGS l i; swap3 dGS m i; swap3 dGS l k; swap3 dGS m k; swap3 dGS m l.
  field.
Qed.
End Riemann.

(** [gf], [dgf], [Gf]: the metric, its derivatives and its Christoffel symbols around the point [v]; [A4], [dG]: the derivatives of [dgf] and [Gf] there *)
Definition slice_at (v : env) (gf uf : env -> nat -> nat -> R) (dgf Gf : env -> nat -> nat -> nat -> R) (A4 dG : nat -> nat -> nat -> nat -> R) : Prop :=
  near v (fun w => sym3 (gf w) /\ two_sided3 (gf w) (uf w) /\ (forall i j k, (i < 3)%nat -> (j < 3)%nat -> (k < 3)%nat -> dgf w i j k = dgf w j i k) /\
    forall a j k, (a < 3)%nat -> (j < 3)%nat -> (k < 3)%nat -> Gf w a j k = s3 (fun b => 1 / 2 * uf w a b * (dgf w b j k + dgf w b k j - dgf w j k b))) /\
  (forall i j k, (i < 3)%nat -> (j < 3)%nat -> (k < 3)%nat -> d_at (fun w => gf w i j) k v (dgf v i j k)) /\
  (forall i j k l, (i < 3)%nat -> (j < 3)%nat -> (k < 3)%nat -> (l < 3)%nat -> d_at (fun w => dgf w i j k) l v (A4 i j k l) /\ A4 i j k l = A4 i j l k) /\
  (forall a j k l, (a < 3)%nat -> (j < 3)%nat -> (k < 3)%nat -> (l < 3)%nat -> d_at (fun w => Gf w a j k) l v (dG a j k l)).

Lemma compat : forall (g u : nat -> nat -> R) (dg G : nat -> nat -> nat -> R), sym3 g -> two_sided3 g u ->
  (forall i j k, (i < 3)%nat -> (j < 3)%nat -> (k < 3)%nat -> dg i j k = dg j i k) ->
  (forall a j k, (a < 3)%nat -> (j < 3)%nat -> (k < 3)%nat -> G a j k = s3 (fun b => 1 / 2 * u a b * (dg b j k + dg b k j - dg j k b))) ->
  forall i j k, (i < 3)%nat -> (j < 3)%nat -> (k < 3)%nat -> dg i j k = s3 (fun n => g n j * G n i k + g i n * G n j k).
Proof.
  intros g u dg G SG HU SD HG.
  assert (low : forall j i k, (i < 3)%nat -> (j < 3)%nat -> (k < 3)%nat -> s3 (fun n => g j n * G n i k) = 1 / 2 * (dg j i k + dg j k i - dg i k j)).
  { intros j i k Hi Hj Hk. pose (X := fun b => 1 / 2 * (dg b i k + dg b k i - dg i k b)).
    transitivity (s3 (fun b => s3 (fun n => g j n * u n b) * X b)).
    - rewrite !s3_eq, !HG by (assumption || lia). rewrite !s3_eq. unfold X. ring.
    - rewrite s3_eq. rewrite !(fun b Hb => proj1 (two_sided_r g u HU j b Hj Hb)) by lia. unfold X. cases3 j; cbn [Nat.eqb]; ring. }
  intros i j k Hi Hj Hk. transitivity (s3 (fun n => g j n * G n i k) + s3 (fun n => g i n * G n j k)).
  - rewrite !low by assumption. rewrite (SD j i k), (SD i k j), (SD j k i) by assumption. rewrite (SD k i j), (SD k j i) by assumption. 
    rewrite (SD j k i), (SD i k j) by assumption. field.
  - rewrite !s3_eq. rewrite !(SG j) by (assumption || lia). ring.
Qed.

Lemma slice_facts : forall v gf uf dgf Gf A4 dG, slice_at v gf uf dgf Gf A4 dG ->
  (forall a j k, (a < 3)%nat -> (j < 3)%nat -> (k < 3)%nat -> Gf v a j k = Gf v a k j) /\
  forall i k l m, (i < 3)%nat -> (k < 3)%nat -> (l < 3)%nat -> (m < 3)%nat -> RDDDD (gf v) A4 (Gf v) i k l m = riem (gf v) (Gf v) dG i k l m.
Proof.
  intros v gf uf dgf Gf A4 dG (N & Hg & HA & HdG).
  assert (NS : near v (fun w => forall a j k, (a < 3)%nat -> (j < 3)%nat -> (k < 3)%nat -> Gf w a j k = Gf w a k j)).
  { apply (near_imp _ _ _ N). intros w (SG & HU & SD & HG) a j k Ha Hj Hk. rewrite !HG by assumption. apply s3_ext. intros b Hb. rewrite (SD j k b) by assumption. ring. }
  assert (NC : near v (fun w => forall i j k, (i < 3)%nat -> (j < 3)%nat -> (k < 3)%nat -> dgf w i j k = s3 (fun n => gf w n j * Gf w n i k + gf w i n * Gf w n j k))).
  { apply (near_imp _ _ _ N). intros w (SG & HU & SD & HG). now apply compat with (u := uf w). }
  split; [exact (near_here _ _ NS)|]. apply riem_alg with (dg := dgf v).
  - exact (proj1 (near_here _ _ N)).
  - exact (near_here _ _ NS).
  - intros a j k l Ha Hj Hk Hl. apply (d_unique (fun w => Gf w a j k) l v); [now apply HdG|].
    apply (d_ext (fun w => Gf w a k j) _ l v (dG a k j l)); auto. apply (near_imp _ _ _ NS). intros w E. now apply E.
  - exact (near_here _ _ NC).
  - intros i j k l Hi Hj Hk Hl. apply (d_unique (fun w => dgf w i j k) l v); [now apply HA|].
    eapply (d_ext (fun w => s3 (fun n => gf w n j * Gf w n i k + gf w i n * Gf w n j k))); [assumption| |reflexivity|].
    + apply (near_imp _ _ _ NC). intros w E. symmetry. now apply E.
    + apply (d_eq _ _ l v (s3 (fun n => (dgf v n j l * Gf v n i k + gf v n j * dG n i k l) + (dgf v i n l * Gf v n j k + gf v i n * dG n j k l)))
        _ (fun w => eq_refl)); [apply s3_ext; intros n Hn; ring|].
      apply (d_s3 (fun w n => gf w n j * Gf w n i k + gf w i n * Gf w n j k)). intros n Hn. apply d_plus; apply d_mult; auto.
  - intros i j k l Hi Hj Hk Hl. now apply HA.
Qed.

Lemma inverse_sym : forall g u, sym3 g -> two_sided3 g u -> sym3 u.
Proof.
  intros g u S H i j Hi Hj.
  assert (L : s3 (fun l => s3 (fun k => u i k * g k l) * u j l) = u j i).
  { rewrite s3_eq. rewrite !(fun k Hk => proj2 (two_sided_r g u H i k Hi Hk)) by lia. cases3 i; cbn [Nat.eqb]; ring. }
  assert (Q : s3 (fun k => u i k * s3 (fun l => u j l * g l k)) = u i j).
  { rewrite s3_eq. rewrite !(fun k Hk => proj2 (two_sided_r g u H j k Hj Hk)) by lia. cases3 j; cbn [Nat.eqb]; ring. }
  rewrite <- L, <- Q. rewrite !s3_eq. rewrite (S 1%nat 0%nat), (S 2%nat 0%nat), (S 2%nat 1%nat) by lia. ring.
Qed.

(** C80, the curvature: the expression of psi4.py from the second derivatives of the metric and the Christoffel symbols is the Riemann tensor of the metric *)
Theorem C80_riemann : forall v gf uf dgf Gf A4 dG, slice_at v gf uf dgf Gf A4 dG ->
  forall i k l m, (i < 3)%nat -> (k < 3)%nat -> (l < 3)%nat -> (m < 3)%nat -> RDDDD (gf v) A4 (Gf v) i k l m = riem (gf v) (Gf v) dG i k l m.
Proof. intros v gf uf dgf Gf A4 dG H. exact (proj2 (slice_facts _ _ _ _ _ _ _ H)). Qed.

(** C80, psi4: with the curvature of spacetime given by the equations of Gauss and Codazzi and no matter, the real and the imaginary part that psi4.py builds are
    those of R_abcd n^a mbar^b n^c mbar^d *)
Theorem C80_psi4 : forall v gf uf dgf Gf A4 dG K dK Rm n mre mim, slice_at v gf uf dgf Gf A4 dG ->
  sym3 K -> (forall i j k, (i < 3)%nat -> (j < 3)%nat -> (k < 3)%nat -> dK i j k = dK j i k) -> riemann_like Rm ->
  (forall i j k l, (i < 3)%nat -> (j < 3)%nat -> (k < 3)%nat -> (l < 3)%nat ->
    Rm (S i) (S j) (S k) (S l) = riem (gf v) (Gf v) dG i j k l + K i k * K j l - K i l * K j k) ->
  (forall j k l, (j < 3)%nat -> (k < 3)%nat -> (l < 3)%nat ->
    let D := fun i j k => dK i j k - s3 (fun p => Gf v p i k * K p j) - s3 (fun p => Gf v p j k * K i p) in
    Rm 0%nat (S j) (S k) (S l) = D j l k - D j k l) ->
  (forall j l, (j < 3)%nat -> (l < 3)%nat -> - Rm 0%nat (S j) 0%nat (S l) + s3 (fun i => s3 (fun k => uf v i k * Rm (S i) (S j) (S k) (S l))) = 0) ->
  psi4_re (gf v) (uf v) K A4 (Gf v) dK n mre mim = weyl_re Rm n mre mim /\ psi4_im (gf v) (uf v) K A4 (Gf v) dK n mre mim = weyl_im Rm n mre mim.
Proof.
  intros v gf uf dgf Gf A4 dG K dK Rm n mre mim HS SK SdK HR HGa HCo HV. destruct (slice_facts _ _ _ _ _ _ _ HS) as [GS HRi].
  destruct HS as (N & _). apply near_here in N. destruct N as (SG & HU & _ & _).
  assert (SGm : forall a j k, (a < 3)%nat -> (j < 3)%nat -> (k < 3)%nat -> GammaUDD (Gf v) a j k = Gf v a j k).
  { intros a j k Ha Hj Hk. unfold GammaUDD. destruct (Nat.le_ge_cases j k) as [L|L]; [now rewrite Nat.min_l, Nat.max_r by lia | rewrite Nat.min_r, Nat.max_l by lia; now apply GS]. }
  assert (SKm : forall a j k, (a < 3)%nat -> (j < 3)%nat -> (k < 3)%nat -> KDDdD dK a j k = dK a j k).
  { intros a j k Ha Hj Hk. unfold KDDdD. destruct (Nat.le_ge_cases a j) as [L|L]; [now rewrite Nat.min_l, Nat.max_r by lia | rewrite Nat.min_r, Nat.max_l by lia; now apply SdK]. }
  apply psi4_weyl; auto.
  - exact (inverse_sym _ _ SG HU).
  - intros i j k l Hi Hj Hk Hl. rewrite HRi by assumption. now apply HGa.
  - intros j k l Hj Hk Hl D. rewrite HCo by assumption. unfold D. rewrite !SKm by assumption. rewrite !s3_eq. rewrite !SGm by (assumption || lia). reflexivity.
Qed.

(** ** The dependence on the tetrad *)
Lemma psi4_ext : forall g u K A4 G dK f h, (forall a b c d, f a b c d = h a b c d) -> psi4_of g u K A4 G dK f = psi4_of g u K A4 G dK h.
Proof.
  intros g u K A4 G dK f h E. unfold psi4_of, psi4_piece1, psi4_piece2, psi4_piece3. f_equal; [f_equal |]; repeat (apply s3_ext; intros ? _); now rewrite !E.
Qed.
Lemma psi4_lin : forall g u K A4 G dK a b f h,
  psi4_of g u K A4 G dK (fun p q r s => a * f p q r s + b * h p q r s) = a * psi4_of g u K A4 G dK f + b * psi4_of g u K A4 G dK h.
Proof.
  intros g u K A4 G dK a b f h. unfold psi4_of, psi4_piece1, psi4_piece2, psi4_piece3.
  generalize (rank4term1DDDD g K A4 G) (rank3term2DDD K G dK) (rank2term3DD g u K A4 G). intros X Y Z. rewrite !s3_eq. field.
Qed.
(** C80, the spin weight: turning m by the phase chi turns psi4 by - 2 chi and keeps its modulus; scaling n by lambda scales psi4 by lambda^2 *)
Theorem C80_spin : forall g u K A4 G dK n mre mim chi lambda,
  let re := psi4_re g u K A4 G dK n mre mim in let im := psi4_im g u K A4 G dK n mre mim in
  let mre' := fun a => cos chi * mre a - sin chi * mim a in let mim' := fun a => sin chi * mre a + cos chi * mim a in
  let n' := fun a => lambda * n a in
  let re' := psi4_re g u K A4 G dK n' mre' mim' in let im' := psi4_im g u K A4 G dK n' mre' mim' in
  re' = lambda ^ 2 * (cos (2 * chi) * re + sin (2 * chi) * im) /\ im' = lambda ^ 2 * (cos (2 * chi) * im - sin (2 * chi) * re) /\
  re' ^ 2 + im' ^ 2 = lambda ^ 4 * (re ^ 2 + im ^ 2).
Proof.
  intros g u K A4 G dK n mre mim chi lambda re im mre' mim' n' re' im'.
  assert (E1 : re' = lambda ^ 2 * (cos (2 * chi) * re + sin (2 * chi) * im)).
  { transitivity ((lambda ^ 2 * cos (2 * chi)) * re + (lambda ^ 2 * sin (2 * chi)) * im); [| ring]. unfold re', re, im, psi4_re, psi4_im. rewrite <- psi4_lin. apply psi4_ext.
    intros a b c d. unfold tetrad_product__Real_psi4, tetrad_product__Imag_psi4, n', mre', mim'. rewrite cos_2a, sin_2a. ring. }
  assert (E2 : im' = lambda ^ 2 * (cos (2 * chi) * im - sin (2 * chi) * re)).
  { transitivity ((lambda ^ 2 * cos (2 * chi)) * im + (- (lambda ^ 2 * sin (2 * chi))) * re); [| ring]. unfold im', re, im, psi4_re, psi4_im. rewrite <- psi4_lin. apply psi4_ext.
    intros a b c d. unfold tetrad_product__Real_psi4, tetrad_product__Imag_psi4, n', mre', mim'. rewrite cos_2a, sin_2a. ring. }
  split; [exact E1 | split; [exact E2 |]]. rewrite E1, E2. pose proof (sin2_cos2 (2 * chi)) as P. unfold Rsqr in P.
  transitivity (lambda ^ 4 * ((sin (2 * chi) * sin (2 * chi) + cos (2 * chi) * cos (2 * chi)) * (re ^ 2 + im ^ 2))); [ring | rewrite P; ring].
Qed.

(** ** The arrays between the two C functions *)
Section Link.
Local Open Scope string_scope.
Local Open Scope nat_scope.
(** what the arrays hold once every entry is written in turn: the expression written last *)
Definition stored (l : list (string * string * dexpr)) (slot : string) : option dexpr :=
  fold_left (fun r e => if String.eqb (snd (fst e)) slot then Some (snd e) else r) l None.
(** and what the variable holds once every variable is read back in turn *)
Definition read_back (l : list (string * string * dexpr)) (name : string) : option dexpr :=
  fold_left (fun r e => if String.eqb (fst (fst e)) name then stored l (snd (fst e)) else r) l None.
(** the names of the independent components, as declarerank3 and declarerank4 give them *)
Definition d3 (n : nat) : string := match n with 0 => "0" | 1 => "1" | _ => "2" end.
(** C80, the arrays: every component that the expression of psi4 reads holds, after the round through the arrays, its own expression; and every slot is
    inside of the arrays of psi4_C_codegen_library.py, of 81, 27 and 27 numbers *)
Theorem C80_arrays :
  (forall i j k l, i < 3 -> j < 3 -> k < 3 -> l < 3 -> i <= j -> k <= l ->
     read_back metric_derivs ("gammaDDdDD" ++ d3 i ++ d3 j ++ d3 k ++ d3 l) = Some (E_gammaDDdDD i j k l)) /\
  (forall i j k, i < 3 -> j < 3 -> k < 3 -> j <= k -> read_back metric_derivs ("GammaUDD" ++ d3 i ++ d3 j ++ d3 k) = Some (E_GammaUDD i j k)) /\
  (forall i j k, i < 3 -> j < 3 -> k < 3 -> i <= j -> read_back metric_derivs ("KDDdD" ++ d3 i ++ d3 j ++ d3 k) = Some (E_KDDdD i j k)) /\
  (forall name slot e, In (name, slot, e) metric_derivs ->
     (exists m, m < 81 /\ slot = "arr_gammaDDdDD[" ++ str_of_nat m ++ "]") \/ (exists m, m < 27 /\ slot = "arr_GammaUDD[" ++ str_of_nat m ++ "]") \/
     (exists m, m < 27 /\ slot = "arr_KDDdD[" ++ str_of_nat m ++ "]")).
Proof.
  split; [| split; [| split]].
  - intros i j k l Hi Hj Hk Hl Hij Hkl. cases3 i; cases3 j; try lia; cases3 k; cases3 l; try lia; vm_compute; reflexivity.
  - intros i j k Hi Hj Hk Hjk. cases3 i; cases3 j; cases3 k; try lia; vm_compute; reflexivity.
  - intros i j k Hi Hj Hk Hjk. cases3 i; cases3 j; cases3 k; try lia; vm_compute; reflexivity.
  - assert (RF : forall a b, In b (rfrom a) -> b < 3) by (intros a b H; apply filter_In in H; destruct H as [H _]; cbn in H; intuition lia).
    assert (R3' : forall b, In b r3 -> b < 3) by (intros b H; cbn in H; intuition lia).
    intros name slot e H. unfold metric_derivs in H. apply in_app_or in H. destruct H as [H | H]; [| apply in_app_or in H; destruct H as [H | H]].
    + apply in_flat_map in H. destruct H as (i & Hi & H). apply in_flat_map in H. destruct H as (j & Hj & H). apply in_flat_map in H. destruct H as (k & Hk & H).
      apply in_map_iff in H. destruct H as (l & E & Hl). injection E as _ E _. left. exists (l + 3 * (k + 3 * (j + 3 * i))). split; [| now rewrite <- E].
      apply RF in Hj, Hl. apply R3' in Hi, Hk. lia.
    + apply in_flat_map in H. destruct H as (i & Hi & H). apply in_flat_map in H. destruct H as (j & Hj & H).
      apply in_map_iff in H. destruct H as (l & E & Hl). injection E as _ E _. right; left. exists (l + 3 * (j + 3 * i)). split; [| now rewrite <- E].
      apply RF in Hl. apply R3' in Hi, Hj. lia.
    + apply in_flat_map in H. destruct H as (i & Hi & H). apply in_flat_map in H. destruct H as (j & Hj & H).
      apply in_map_iff in H. destruct H as (l & E & Hl). injection E as _ E _. right; right. exists (l + 3 * (j + 3 * i)). split; [| now rewrite <- E].
      apply RF in Hj. apply R3' in Hi, Hl. lia.
Qed.
End Link.

(** ** Cases *)
(** the metric dx^2 + x^4 dy^2 + dz^2 at x = 1: R_xyxy = - 2 *)
Definition ex_env : env := MkEnv (fun _ => 0) (fun _ => 1) (fun _ => 0) (fun _ _ => 0).
Definition ex_g (w : env) (i j : nat) : R := match i, j with 0%nat, 0%nat => 1 | 1%nat, 1%nat => exx w 0%nat ^ 4 | 2%nat, 2%nat => 1 | _, _ => 0 end.
Definition ex_u (w : env) (i j : nat) : R := match i, j with 0%nat, 0%nat => 1 | 1%nat, 1%nat => / exx w 0%nat ^ 4 | 2%nat, 2%nat => 1 | _, _ => 0 end.
Definition ex_dg (w : env) (i j k : nat) : R := match i, j, k with 1%nat, 1%nat, 0%nat => 4 * exx w 0%nat ^ 3 | _, _, _ => 0 end.
Definition ex_G (w : env) (a j k : nat) : R :=
  match a, j, k with 0%nat, 1%nat, 1%nat => - (2 * exx w 0%nat ^ 3) | 1%nat, 0%nat, 1%nat => 2 * / exx w 0%nat | 1%nat, 1%nat, 0%nat => 2 * / exx w 0%nat | _, _, _ => 0 end.
Definition ex_A4 (i j k l : nat) : R := match i, j, k, l with 1%nat, 1%nat, 0%nat, 0%nat => 12 | _, _, _, _ => 0 end.
Definition ex_dG (a j k l : nat) : R :=
  match a, j, k, l with 0%nat, 1%nat, 1%nat, 0%nat => - 6 | 1%nat, 0%nat, 1%nat, 0%nat => - 2 | 1%nat, 1%nat, 0%nat, 0%nat => - 2 | _, _, _, _ => 0 end.
Lemma d_x0 : forall l v, (l < 3)%nat -> d_at (fun w => exx w 0%nat) l v (if Nat.eqb l 0 then 1 else 0).
Proof.
  intros l v Hl. unfold d_at. cases3 l; cbn [Nat.eqb upd exx]; [exact (derivable_pt_lim_id _) | exact (derivable_pt_lim_const _ _) | exact (derivable_pt_lim_const _ _)].
Qed.
Lemma ex_slice : slice_at ex_env ex_g ex_u ex_dg ex_G ex_A4 ex_dG.
Proof.
  assert (X : exx ex_env 0%nat = 1) by reflexivity.
  assert (N : near ex_env (fun w => 0 < exx w 0%nat)).
  { exists (1 / 2). split; [lra |]. intros l t Hl Ht. cbn [exx ex_env] in Ht. cbn [exx upd ex_env]. destruct (Nat.eqb 0 l); [| lra]. unfold Rabs in Ht. destruct (Rcase_abs (t - 1)); lra. }
  split; [| split; [| split]].
  - apply (near_imp _ _ _ N). intros w Hw. assert (P4 : exx w 0%nat ^ 4 <> 0) by (apply pow_nonzero; lra). split; [| split; [| split]].
    + intros i j Hi Hj. cases3 i; cases3 j; reflexivity.
    + intros i j Hi Hj. rewrite !(matmul3 R 0 1 Rplus Rmult Rminus Rdiv Ropp Rinv Rfield). unfold delta. split; cases3 i; cases3 j; cbn [ex_g ex_u Nat.eqb]; field; try exact P4; lra.
    + intros i j k Hi Hj Hk. cases3 i; cases3 j; cases3 k; reflexivity.
    + intros a j k Ha Hj Hk. rewrite s3_eq. cases3 a; cases3 j; cases3 k; cbn [ex_u ex_dg ex_G]; field; lra.
  - intros i j k Hi Hj Hk. pose proof (d_x0 k ex_env Hk) as D.
    cases3 i; cases3 j; try exact (d_const _ _ _); unfold ex_g, ex_dg.
    apply (fun E H => d_eq (fun w => (exx w 0%nat * exx w 0%nat) * (exx w 0%nat * exx w 0%nat)) _ _ _ _ _ E eq_refl H); [intro; ring |].
    eapply d_eq; [intros w; reflexivity | | apply d_mult; apply d_mult; exact D]. cbn beta. rewrite X. cases3 k; cbn [Nat.eqb]; ring.
  - intros i j k l Hi Hj Hk Hl. split; [| cases3 i; cases3 j; cases3 k; cases3 l; reflexivity]. pose proof (d_x0 l ex_env Hl) as D.
    cases3 i; cases3 j; cases3 k; try exact (d_const _ _ _); unfold ex_dg, ex_A4.
    apply (fun E H => d_eq (fun w => 4 * (exx w 0%nat * (exx w 0%nat * exx w 0%nat))) _ _ _ _ _ E eq_refl H); [intro; ring |].
    eapply d_eq; [intros w; reflexivity | | apply d_scal; apply d_mult; [exact D | apply d_mult; exact D]]. cbn beta. rewrite X. cases3 l; cbn [Nat.eqb]; ring.
  - intros a j k l Ha Hj Hk Hl. pose proof (d_x0 l ex_env Hl) as D.
    cases3 a; cases3 j; cases3 k; try exact (d_const _ _ _); unfold ex_G, ex_dG.
    + apply (fun E H => d_eq (fun w => - (2 * (exx w 0%nat * (exx w 0%nat * exx w 0%nat)))) _ _ _ _ _ E eq_refl H); [intro; ring |].
      eapply d_eq; [intros w; reflexivity | | apply d_opp; apply d_scal; apply d_mult; [exact D | apply d_mult; exact D]]. cbn beta. rewrite X. cases3 l; cbn [Nat.eqb]; ring.
    + eapply d_eq; [intros w; reflexivity | | apply d_scal; apply d_inv; [rewrite X; lra | exact D]]. cbn beta. rewrite X. cases3 l; cbn [Nat.eqb]; field.
    + eapply d_eq; [intros w; reflexivity | | apply d_scal; apply d_inv; [rewrite X; lra | exact D]]. cbn beta. rewrite X. cases3 l; cbn [Nat.eqb]; field.
Qed.
Example C80_riemann_example : slice_at ex_env ex_g ex_u ex_dg ex_G ex_A4 ex_dG /\ RDDDD (ex_g ex_env) ex_A4 (ex_G ex_env) 0 1 0 1 = - 2 /\
  riem (ex_g ex_env) (ex_G ex_env) ex_dG 0 1 0 1 = - 2.
Proof.
  split; [exact ex_slice |]. rewrite <- (C80_riemann _ _ _ _ _ _ _ ex_slice 0 1 0 1) by lia.
  assert (E : RDDDD (ex_g ex_env) ex_A4 (ex_G ex_env) 0 1 0 1 = - 2); [| split; exact E].
  unfold RDDDD. rewrite !s3_eq. unfold GammaUDD, gammaDDdDD. cbn [Nat.min Nat.max ex_A4 ex_g ex_G ex_env exx]. field.
Qed.

(** Kasner's vacuum spacetime at t = 1, with the exponents 2/3, -1/3, 2/3 *)
Definition kp (i : nat) : R := match i with 0%nat => 2 / 3 | 1%nat => - (1 / 3) | 2%nat => 2 / 3 | _ => 0 end.
Definition ka_g (_ : env) (i j : nat) : R := if Nat.eqb i j then 1 else 0.
Definition ka_K (i j : nat) : R := if Nat.eqb i j then - kp i else 0.
Definition z3 (_ _ _ : nat) : R := 0.
Definition z4 (_ _ _ _ : nat) : R := 0.
Definition ka_Rm : nat -> nat -> nat -> nat -> R :=
  canon (fun i j k l => ka_K i k * ka_K j l - ka_K i l * ka_K j k) z3 (fun j l => - ka_K j l - s3 (fun i => ka_K j i * ka_K i l)).
Definition ka_n (a : nat) : R := match a with 0%nat => / sqrt 2 | 1%nat => - / sqrt 2 | _ => 0 end.
Definition ka_re (a : nat) : R := match a with 2%nat => / sqrt 2 | _ => 0 end.
Definition ka_im (a : nat) : R := match a with 3%nat => / sqrt 2 | _ => 0 end.
Lemma ka_sym : forall i j, ka_K i j = ka_K j i.
Proof. intros i j. unfold ka_K. rewrite Nat.eqb_sym. destruct (Nat.eqb_spec j i); subst; reflexivity. Qed.
Lemma ka_slice : slice_at ex_env ka_g ka_g (fun _ => z3) (fun _ => z3) z4 z4.
Proof.
  split; [| split; [| split]].
  - exists 1. split; [lra |]. intros l t _ _. split; [| split; [| split]].
    + intros i j _ _. unfold ka_g. now rewrite Nat.eqb_sym.
    + intros i j Hi Hj. rewrite !(matmul3 R 0 1 Rplus Rmult Rminus Rdiv Ropp Rinv Rfield). unfold delta, ka_g. split; cases3 i; cases3 j; cbn [Nat.eqb]; ring.
    + reflexivity.
    + intros. rewrite s3_eq. unfold z3. ring.
  - intros. exact (d_const _ _ _).
  - intros. split; [exact (d_const _ _ _) | reflexivity].
  - intros. exact (d_const _ _ _).
Qed.
Lemma ka_curv : riemann_like ka_Rm.
Proof.
  intros a b c d. unfold ka_Rm. destruct a, b, c, d; cbn [canon]; unfold z3; rewrite ?s3_eq; (split; [| split]); try ring; try (rewrite !(ka_sym c), !(ka_sym d); ring);
    rewrite ?(ka_sym b c), ?(ka_sym b d), ?(ka_sym a c), ?(ka_sym a d), ?(ka_sym 0%nat a), ?(ka_sym 1%nat a), ?(ka_sym 2%nat a), ?(ka_sym 0%nat b), ?(ka_sym 1%nat b), ?(ka_sym 2%nat b),
      ?(ka_sym 0%nat c), ?(ka_sym 1%nat c), ?(ka_sym 2%nat c), ?(ka_sym 0%nat d), ?(ka_sym 1%nat d), ?(ka_sym 2%nat d), ?(ka_sym c b), ?(ka_sym d b), ?(ka_sym c a), ?(ka_sym d a); ring.
Qed.
Example C80_psi4_example : psi4_re (ka_g ex_env) (ka_g ex_env) ka_K z4 z3 z3 ka_n ka_re ka_im = - (1 / 3) /\
  psi4_im (ka_g ex_env) (ka_g ex_env) ka_K z4 z3 z3 ka_n ka_re ka_im = 0.
Proof.
  destruct (C80_psi4 ex_env ka_g ka_g (fun _ => z3) (fun _ => z3) z4 z4 ka_K z3 ka_Rm ka_n ka_re ka_im ka_slice) as [E1 E2].
  - intros i j _ _. apply ka_sym.
  - reflexivity.
  - exact ka_curv.
  - intros i j k l _ _ _ _. unfold ka_Rm, riem, z3, z4. cbn [canon]. rewrite !s3_eq. ring.
  - intros j k l _ _ _. unfold ka_Rm, z3. cbn [canon]. rewrite !s3_eq. ring.
  - intros j l Hj Hl. unfold ka_Rm. cbn [canon]. rewrite !s3_eq. unfold ka_K, ka_g. cases3 j; cases3 l; cbn [Nat.eqb kp]; field.
  - cbn beta in *. rewrite E1, E2. assert (P : 0 < sqrt 2) by (apply sqrt_lt_R0; lra). assert (Q : / sqrt 2 * / sqrt 2 = 1 / 2).
    { rewrite <- Rinv_mult. rewrite sqrt_def by lra. field. }
    assert (Q4 : / sqrt 2 * / sqrt 2 * / sqrt 2 * / sqrt 2 = 1 / 4) by (transitivity ((/ sqrt 2 * / sqrt 2) * (/ sqrt 2 * / sqrt 2)); [ring | rewrite Q; field]).
    unfold weyl_re, weyl_im, sum4, ka_Rm, z3. cbn [canon ka_n ka_re ka_im]. rewrite !s3_eq. unfold ka_K. cbn [Nat.eqb kp]. generalize dependent (/ sqrt 2). intros q Q Q4. split.
    + transitivity (- (4 / 3) * (q * q * q * q)); [field | rewrite Q4; field].
    + ring.
Qed.
Example C80_spin_example : psi4_im (ka_g ex_env) (ka_g ex_env) ka_K z4 z3 z3 ka_n (fun a => cos (PI / 4) * ka_re a - sin (PI / 4) * ka_im a) (fun a => sin (PI / 4) * ka_re a + cos (PI / 4) * ka_im a) = 1 / 3.
Proof.
  pose proof (C80_spin (ka_g ex_env) (ka_g ex_env) ka_K z4 z3 z3 ka_n ka_re ka_im (PI / 4) 1) as (_ & E & _). destruct C80_psi4_example as [E1 E2].
  rewrite E1, E2 in E. replace (2 * (PI / 4)) with (PI / 2) in E by field. rewrite cos_PI2, sin_PI2 in E.
  transitivity (psi4_im (ka_g ex_env) (ka_g ex_env) ka_K z4 z3 z3 (fun a => 1 * ka_n a) (fun a => cos (PI / 4) * ka_re a - sin (PI / 4) * ka_im a) (fun a => sin (PI / 4) * ka_re a + cos (PI / 4) * ka_im a)).
  - unfold psi4_im. apply psi4_ext. intros. unfold tetrad_product__Imag_psi4. ring.
  - rewrite E. field.
Qed.
Example C80_arrays_example : read_back metric_derivs "gammaDDdDD0212" = Some (E_gammaDDdDD 0 2 1 2) /\ List.length metric_derivs = 72%nat /\
  In ("KDDdD120"%string, "arr_KDDdD[15]"%string, E_KDDdD 1 2 0) metric_derivs.
Proof. split; [vm_compute; reflexivity | split; [vm_compute; reflexivity |]]. vm_compute. repeat (try (left; reflexivity); right). Qed.

Print Assumptions C80_riemann.
Print Assumptions C80_psi4.
Print Assumptions C80_spin.
Print Assumptions C80_arrays.
