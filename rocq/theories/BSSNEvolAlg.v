(** Algebra of the BSSN right-hand sides: contractions, the conformal connection, and its Ricci tensor. *)
From Coq Require Import String List Arith Bool Lia Reals Lra.
From Verif Require Import PyBase Inverter InverterFacts GRMetric BSSN BSSNFacts BSSNConn BSSNRicci BSSNRicciFacts.
Import ListNotations.
Local Open Scope R_scope.

Lemma s3_scale_r : forall f c, s3 (fun i => f i * c) = s3 f * c.
Proof. intros. rewrite !s3_eq. ring. Qed.
Lemma trace_id : forall g u, two_sided3 g u -> sym3 g -> s3 (fun i => s3 (fun j => u i j * g i j)) = 3.
Proof.
  intros g u T S. rewrite (s3_ext _ (fun i => 1)); [rewrite s3_eq; ring|].
  intros i Hi. rewrite (s3_ext _ (fun j => u i j * g j i)) by (intros j Hj; now rewrite (S i j Hi Hj)).
  rewrite (proj2 (two_sided_r g u T i i Hi Hi)). now rewrite Nat.eqb_refl.
Qed.
Lemma trace_move : forall g u (M : nat -> nat -> R), two_sided3 g u -> sym3 g -> sym3 u ->
  s3 (fun i => s3 (fun j => u i j * s3 (fun k => M k i * g k j))) = s3 (fun k => M k k) /\
  s3 (fun i => s3 (fun j => u i j * s3 (fun k => M k j * g i k))) = s3 (fun k => M k k).
Proof.
  intros g u M T S SU.
  assert (P : forall f j, (j < 3)%nat -> s3 (fun n => s3 (fun k => u j k * g k n) * f n) = f j) by (intros f j Hj; exact (s3_pick_l g u f j T Hj)).
  split.
  - transitivity (s3 (fun i => s3 (fun k => s3 (fun j => u i j * g j k) * M k i))).
    + rewrite !s3_eq. rewrite (S 1%nat 0%nat), (S 2%nat 0%nat), (S 2%nat 1%nat) by lia. ring.
    + apply s3_ext. intros i Hi. exact (P (fun k => M k i) i Hi).
  - transitivity (s3 (fun j => s3 (fun k => s3 (fun i => u j i * g i k) * M k j))).
    + rewrite !s3_eq. rewrite (SU 1%nat 0%nat), (SU 2%nat 0%nat), (SU 2%nat 1%nat) by lia. ring.
    + apply s3_ext. intros j Hj. exact (P (fun k => M k j) j Hj).
Qed.

(** *** The conformal connection *)
Definition dl (i j : nat) : R := if Nat.eqb i j then 1 else 0.
Section Conf.
Variables (g : nat -> nat -> R) (f : nat -> R) (F : nat -> nat -> R) (p : nat -> R) (Phi : nat -> nat -> R).
Hypothesis GS : sym3 g.
(** [f] is the gradient [p] with the index raised, [F] the second covariant derivative [Phi] with the first index raised *)
Hypothesis PF : forall i, (i < 3)%nat -> p i = s3 (fun k => g i k * f k).
Hypothesis PhiF : forall i l, (i < 3)%nat -> (l < 3)%nat -> Phi i l = s3 (fun k => g i k * F k l).
Hypothesis PhiS : sym3 Phi.
Definition Ce (k i j : nat) : R := 2 * (dl k i * p j + dl k j * p i - g i j * f k).
Definition DCe (k i j l : nat) : R := 2 * (dl k i * Phi j l + dl k j * Phi i l - g i j * F k l).
Lemma conf_lin : forall i j, (i < 3)%nat -> (j < 3)%nat ->
  s3 (fun k => DCe k i j k) - s3 (fun k => DCe k i k j) = - 2 * Phi i j - 2 * g i j * s3 (fun k => F k k).
Proof using GS PhiF PhiS.
  intros i j Hi Hj. unfold DCe.
  assert (X : s3 (fun k => g i k * F k j) = Phi i j) by now rewrite PhiF.
  transitivity (2 * (Phi j i + Phi i j - g i j * s3 (fun k => F k k)) - 2 * (Phi i j + 3 * Phi i j - s3 (fun k => g i k * F k j))).
  - rewrite !s3_eq. unfold dl. destruct i as [|[|[|i]]], j as [|[|[|j]]]; try lia; cbn [Nat.eqb]; ring.
  - rewrite X, (PhiS j i Hj Hi). ring.
Qed.
Lemma conf_quad : forall i j, (i < 3)%nat -> (j < 3)%nat ->
  s3 (fun k => s3 (fun n => Ce k n k * Ce n i j - Ce k n j * Ce n i k)) = 4 * p i * p j - 4 * g i j * s3 (fun k => p k * f k).
Proof using GS PF.
  intros i j Hi Hj. unfold Ce. rewrite !s3_eq. rewrite !PF by lia. rewrite !s3_eq. unfold dl.
  destruct i as [|[|[|i]]], j as [|[|[|j]]]; try lia; cbn [Nat.eqb];
    rewrite ?(GS 1%nat 0%nat), ?(GS 2%nat 0%nat), ?(GS 2%nat 1%nat) by lia; ring.
Qed.
(** the derivative of [Ce] *)
Variables (G : nat -> nat -> nat -> R) (gd : nat -> nat -> nat -> R) (fd : nat -> nat -> R) (pd : nat -> nat -> R).
Hypothesis Ggd : forall i j l, (i < 3)%nat -> (j < 3)%nat -> (l < 3)%nat -> gd i j l = s3 (fun n => G n i l * g n j) + s3 (fun n => G n j l * g i n).
Hypothesis Gfd : forall k l, (k < 3)%nat -> (l < 3)%nat -> fd k l = F k l - s3 (fun n => G k n l * f n).
Hypothesis Gpd : forall i l, (i < 3)%nat -> (l < 3)%nat -> pd i l = Phi i l + s3 (fun n => G n i l * p n).
Definition dCe (k i j l : nat) : R := 2 * (dl k i * pd j l + dl k j * pd i l - (gd i j l * f k + g i j * fd k l)).
Lemma dCe_cov : forall k i j l, (k < 3)%nat -> (i < 3)%nat -> (j < 3)%nat -> (l < 3)%nat ->
  dCe k i j l = DCe k i j l - s3 (fun n => G k n l * Ce n i j) + s3 (fun n => G n i l * Ce k n j) + s3 (fun n => G n j l * Ce k i n).
Proof using Ggd Gfd Gpd.
  intros k i j l Hk Hi Hj Hl. unfold dCe, DCe, Ce. rewrite (Gpd j l Hj Hl), (Gpd i l Hi Hl), (Ggd i j l Hi Hj Hl), (Gfd k l Hk Hl).
  rewrite !s3_eq. unfold dl. destruct k as [|[|[|k]]], i as [|[|[|i]]], j as [|[|[|j]]]; try lia; cbn [Nat.eqb]; ring.
Qed.
Hypothesis GSY : forall i j k, (i < 3)%nat -> (j < 3)%nat -> (k < 3)%nat -> G i j k = G i k j.
Lemma conf_ricci : forall dG i j, (i < 3)%nat -> (j < 3)%nat ->
  ricci (fun k i j => G k i j + Ce k i j) (fun k i j l => dG k i j l + dCe k i j l) i j =
  ricci G dG i j - 2 * Phi i j - 2 * g i j * s3 (fun k => F k k) + 4 * p i * p j - 4 * g i j * s3 (fun k => p k * f k).
Proof using GS PF PhiF PhiS Ggd Gfd Gpd GSY.
  intros dG i j Hi Hj. pose proof (conf_lin i j Hi Hj) as CL. pose proof (conf_quad i j Hi Hj) as CQ. unfold ricci.
  rewrite (s3_ext (fun k => dG k i j k + dCe k i j k) (fun k => dG k i j k + (DCe k i j k - s3 (fun n => G k n k * Ce n i j) + s3 (fun n => G n i k * Ce k n j) + s3 (fun n => G n k j * Ce k i n)))).
  - rewrite (s3_ext (fun k => dG k i k j + dCe k i k j) (fun k => dG k i k j + (DCe k i k j - s3 (fun n => G k n j * Ce n i k) + s3 (fun n => G n i j * Ce k n k) + s3 (fun n => G n k j * Ce k i n)))).
    + transitivity (s3 (fun k => dG k i j k) - s3 (fun k => dG k i k j) + s3 (fun k => s3 (fun n => G k n k * G n i j - G k n j * G n i k))
        + (s3 (fun k => DCe k i j k) - s3 (fun k => DCe k i k j)) + s3 (fun k => s3 (fun n => Ce k n k * Ce n i j - Ce k n j * Ce n i k))).
      * generalize DCe Ce. intros. rewrite !s3_eq. ring.
      * rewrite CL, CQ. ring.
    + intros k Hk. now rewrite (dCe_cov k i k j Hk Hi Hk Hj).
  - intros k Hk. rewrite (dCe_cov k i j k Hk Hi Hj Hk).
    rewrite (s3_ext (fun n => G n j k * Ce k i n) (fun n => G n k j * Ce k i n)) by (intros n Hn; now rewrite (GSY n j k Hn Hj Hk)). reflexivity.
Qed.
End Conf.
(** the connection of [e g], with [e_,k = 4 e p_k] *)
Lemma conf_conn : forall g u gd p (e : R), e <> 0 -> two_sided3 g u -> sym3 g ->
  forall i j k, (i < 3)%nat -> (j < 3)%nat -> (k < 3)%nat ->
  let g' := fun i j k => 4 * e * p k * g i j + e * gd i j k in
  s3 (fun l => 1 / 2 * (u i l / e) * (g' l j k + g' l k j - g' j k l)) =
  s3 (fun l => 1 / 2 * u i l * (gd l j k + gd l k j - gd j k l)) + Ce g (fun k => s3 (fun n => u k n * p n)) p i j k.
Proof.
  intros g u gd p e E T S i j k Hi Hj Hk g'. unfold g', Ce.
  pose proof (proj2 (two_sided_r g u T i j Hi Hj)) as D1. pose proof (proj2 (two_sided_r g u T i k Hi Hk)) as D2. unfold dl. rewrite <- D1, <- D2.
  rewrite !s3_eq. field. exact E.
Qed.

(** *** Contractions of the right-hand sides *)
Lemma trace_rhs : forall g u (gu : nat -> nat -> nat -> R) (be : nat -> R) (bd : nat -> nat -> R) (al trA db : R) (A : nat -> nat -> R),
  two_sided3 g u -> sym3 g -> sym3 u -> trA = s3 (fun i => s3 (fun j => u i j * A i j)) ->
  db = s3 (fun k => bd k k) + 1 / 2 * s3 (fun k => be k * s3 (fun a => s3 (fun b => u a b * gu a b k))) ->
  s3 (fun i => s3 (fun j => u i j * (s3 (fun k => be k * gu i j k + bd k i * g k j + bd k j * g i k) + 2 / 3 * g i j * (al * trA - db) + - 2 * al * A i j))) = 0.
Proof.
  intros g u gu be bd al trA db A T S SU ET ED. destruct (trace_move g u bd T S SU) as [M1 M2]. pose proof (trace_id g u T S) as TI.
  transitivity (s3 (fun k => be k * s3 (fun a => s3 (fun b => u a b * gu a b k))) + s3 (fun i => s3 (fun j => u i j * s3 (fun k => bd k i * g k j)))
    + s3 (fun i => s3 (fun j => u i j * s3 (fun k => bd k j * g i k))) + 2 / 3 * s3 (fun i => s3 (fun j => u i j * g i j)) * (al * trA - db)
    - 2 * al * s3 (fun i => s3 (fun j => u i j * A i j))).
  - rewrite !s3_eq. ring.
  - rewrite M1, M2, TI, <- ET, ED. field.
Qed.
Lemma trace_A : forall g u (gu Au : nat -> nat -> nat -> R) (be : nat -> R) (bd : nat -> nat -> R) (al trA db em K : R) (A C S : nat -> nat -> R),
  two_sided3 g u -> sym3 g -> sym3 u -> sym3 A -> trA = s3 (fun i => s3 (fun j => u i j * A i j)) -> trA = 0 ->
  (forall k, (k < 3)%nat -> s3 (fun i => s3 (fun j => u i j * Au i j k)) = s3 (fun i => s3 (fun j => s3 (fun a => s3 (fun b => u i a * u j b * A a b)) * gu i j k))) ->
  s3 (fun i => s3 (fun j => u i j * S i j)) = 0 ->
  let AUD := fun i j => s3 (fun k => u i k * A k j) in
  let AUU := fun i j => s3 (fun a => s3 (fun b => u i a * u j b * A a b)) in
  s3 (fun i => s3 (fun j => u i j * (s3 (fun k => be k * Au i j k + bd k i * A k j + bd k j * A i k) + (- (2 / 3) * A i j * db + al * A i j * K)
       + s3 (fun k => - 2 * al * A i k * AUD k j) + em * (C i j - 1 / 3 * g i j * s3 (fun i => s3 (fun j => u i j * C i j))) + S i j)))
  = s3 (fun i => s3 (fun j => AUU i j * (s3 (fun k => be k * gu i j k + bd k i * g k j + bd k j * g i k) + 2 / 3 * g i j * (al * trA - db) + - 2 * al * A i j))).
Proof.
  intros g u gu Au be bd al trA db em K A C S T Sg SU SA ET E0 DT S0 AUD AUU. pose proof (trace_id g u T Sg) as TI.
  assert (LO : forall i k, (i < 3)%nat -> (k < 3)%nat -> s3 (fun j => AUU i j * g k j) = AUD i k).
  { intros i k Hi Hk. unfold AUU, AUD.
    transitivity (s3 (fun b => s3 (fun j => g k j * u j b) * s3 (fun a => u i a * A a b))); [|exact (s3_pick_r g u (fun b => s3 (fun a => u i a * A a b)) k T Hk)].
    rewrite !s3_eq. ring. }
  assert (LO' : forall j k, (j < 3)%nat -> (k < 3)%nat -> s3 (fun i => AUU i j * g i k) = AUD j k).
  { intros j k Hj Hk. rewrite <- (LO j k Hj Hk). apply s3_ext. intros i Hi. rewrite (Sg i k Hi Hk). f_equal. unfold AUU.
    rewrite s3_swap. apply s3_ext. intros a Ha. apply s3_ext. intros b Hb. rewrite (SA b a Hb Ha). ring. }
  assert (TG : s3 (fun i => s3 (fun j => AUU i j * g i j)) = 0).
  { rewrite (s3_ext _ (fun i => AUD i i)) by (intros i Hi; exact (LO i i Hi Hi)). rewrite <- E0, ET. unfold AUD. apply s3_ext. intros i Hi. apply s3_ext. intros k Hk.
    now rewrite (SA k i Hk Hi). }
  assert (QQ : s3 (fun i => s3 (fun j => u i j * s3 (fun k => A i k * AUD k j))) = s3 (fun i => s3 (fun j => AUU i j * A i j))).
  { unfold AUD, AUU. rewrite !s3_eq. rewrite (SA 1%nat 0%nat), (SA 2%nat 0%nat), (SA 2%nat 1%nat) by lia.
    rewrite (SU 1%nat 0%nat), (SU 2%nat 0%nat), (SU 2%nat 1%nat) by lia. ring. }
  transitivity (s3 (fun k => be k * s3 (fun i => s3 (fun j => u i j * Au i j k))) + s3 (fun k => s3 (fun i => bd k i * AUD i k))
    + s3 (fun k => s3 (fun j => bd k j * AUD j k)) + (- (2 / 3) * db + al * K) * trA
    + - 2 * al * s3 (fun i => s3 (fun j => u i j * s3 (fun k => A i k * AUD k j)))
    + em * (s3 (fun i => s3 (fun j => u i j * C i j)) - 1 / 3 * s3 (fun i => s3 (fun j => u i j * g i j)) * s3 (fun i => s3 (fun j => u i j * C i j)))
    + s3 (fun i => s3 (fun j => u i j * S i j))).
  - assert (TC : forall tc x y z, s3 (fun i => s3 (fun j => u i j * (x i j + y i j + z i j + em * (C i j - 1 / 3 * g i j * tc) + S i j))) =
       s3 (fun i => s3 (fun j => u i j * x i j)) + s3 (fun i => s3 (fun j => u i j * y i j)) + s3 (fun i => s3 (fun j => u i j * z i j))
       + em * (s3 (fun i => s3 (fun j => u i j * C i j)) - 1 / 3 * s3 (fun i => s3 (fun j => u i j * g i j)) * tc)
       + s3 (fun i => s3 (fun j => u i j * S i j))) by (intros; rewrite !s3_eq; ring).
    rewrite (TC (s3 (fun i => s3 (fun j => u i j * C i j))) (fun i j => s3 (fun k => be k * Au i j k + bd k i * A k j + bd k j * A i k))
      (fun i j => - (2 / 3) * A i j * db + al * A i j * K) (fun i j => s3 (fun k => - 2 * al * A i k * AUD k j))). clear TC.
    f_equal. f_equal. f_equal; [|generalize AUD; intros; rewrite !s3_eq; ring].
    rewrite ET. unfold AUD. rewrite !s3_eq. rewrite (SA 1%nat 0%nat), (SA 2%nat 0%nat), (SA 2%nat 1%nat) by lia.
    rewrite (SU 1%nat 0%nat), (SU 2%nat 0%nat), (SU 2%nat 1%nat) by lia. ring.
  - transitivity (s3 (fun k => be k * s3 (fun i => s3 (fun j => AUU i j * gu i j k))) + s3 (fun k => s3 (fun i => bd k i * s3 (fun j => AUU i j * g k j)))
      + s3 (fun k => s3 (fun j => bd k j * s3 (fun i => AUU i j * g i k))) + 2 / 3 * s3 (fun i => s3 (fun j => AUU i j * g i j)) * (al * trA - db)
      - 2 * al * s3 (fun i => s3 (fun j => AUU i j * A i j))); [|generalize AUU; intros; rewrite !s3_eq; ring].
    rewrite QQ, TI, TG, E0, S0.
    rewrite (s3_ext (fun k => be k * s3 (fun i => s3 (fun j => u i j * Au i j k))) (fun k => be k * s3 (fun i => s3 (fun j => AUU i j * gu i j k))))
      by (intros k Hk; now rewrite (DT k Hk)).
    rewrite (s3_ext (fun k => s3 (fun i => bd k i * s3 (fun j => AUU i j * g k j))) (fun k => s3 (fun i => bd k i * AUD i k)))
      by (intros k Hk; apply s3_ext; intros i Hi; now rewrite (LO i k Hi Hk)).
    rewrite (s3_ext (fun k => s3 (fun j => bd k j * s3 (fun i => AUU i j * g i k))) (fun k => s3 (fun j => bd k j * AUD j k)))
      by (intros k Hk; apply s3_ext; intros j Hj; now rewrite (LO' j k Hj Hk)).
    field.
Qed.

(** *** The ADM equations *)
Lemma adm_metric : forall (e fr al K db tr bf Lg g A : R) (gr := Lg + 2 / 3 * g * (al * tr - db) + - 2 * al * A),
  tr = 0 -> fr = 1 / 6 * (db - al * K) + bf ->
  4 * e * fr * g + e * gr = - 2 * al * (e * A + 1 / 3 * (e * g) * K) + (4 * e * bf * g + e * Lg).
Proof. intros e fr al K db tr bf Lg g A gr -> ->. unfold gr. field. Qed.
Lemma adm_K : forall (e em fr al K db tr bf bK Lg LA g A AA a2 pi pj Phi tPhi n c ai aj Da tDa Rb rho : R)
  (gr := Lg + 2 / 3 * g * (al * tr - db) + - 2 * al * A)
  (C := - 2 * al * Phi + 4 * al * pi * pj + 2 * ai * pj + 2 * aj * pi - Da + al * Rb)
  (tC := - 2 * al * tPhi + 4 * al * n + 4 * c - tDa + al * rho)
  (Ar := LA + (- (2 / 3) * A * db + al * A * K) + - 2 * al * AA + em * (C - 1 / 3 * g * tC))
  (Kr := 1 / 3 * al * K * K + bK - em * (tDa + 2 * c) + al * a2)
  (Rp := Rb - 2 * Phi - 2 * g * tPhi + 4 * pi * pj - 4 * g * n)
  (H := em * (rho - 8 * tPhi - 8 * n) + K * K - (a2 + 1 / 3 * K * K)),
  tr = 0 -> e * em = 1 -> fr = 1 / 6 * (db - al * K) + bf ->
  4 * e * fr * A + e * Ar + 1 / 3 * ((4 * e * fr * g + e * gr) * K + e * g * Kr) =
  - (Da - 2 * (pj * ai + pi * aj - g * c)) + al * (Rp + K * (e * A + 1 / 3 * (e * g) * K) - 2 * (e * AA + 2 / 3 * e * K * A + 1 / 9 * e * g * K * K))
  + (4 * e * bf * A + e * LA + 1 / 3 * ((4 * e * bf * g + e * Lg) * K + e * g * bK)) - 1 / 3 * al * (e * g) * H.
Proof.
  intros. subst gr C tC Ar Kr Rp H. subst tr fr.
  transitivity (4 * e * (1 / 6 * (db - al * K) + bf) * A + e * (LA + (- (2 / 3) * A * db + al * A * K) + - 2 * al * AA)
    + (e * em) * ((- 2 * al * Phi + 4 * al * pi * pj + 2 * ai * pj + 2 * aj * pi - Da + al * Rb) - 1 / 3 * g * (- 2 * al * tPhi + 4 * al * n + 4 * c - tDa + al * rho))
    + 1 / 3 * ((4 * e * (1 / 6 * (db - al * K) + bf) * g + e * (Lg + 2 / 3 * g * (al * 0 - db) + - 2 * al * A)) * K
    + e * g * (1 / 3 * al * K * K + bK + al * a2) - (e * em) * g * (tDa + 2 * c))); [ring|].
  transitivity (- (Da - 2 * (pj * ai + pi * aj - g * c)) + al * (Rb - 2 * Phi - 2 * g * tPhi + 4 * pi * pj - 4 * g * n + K * (e * A + 1 / 3 * (e * g) * K) - 2 * (e * AA + 2 / 3 * e * K * A + 1 / 9 * e * g * K * K))
  + (4 * e * bf * A + e * LA + 1 / 3 * ((4 * e * bf * g + e * Lg) * K + e * g * bK)) - 1 / 3 * al * g * ((e * em) * (rho - 8 * tPhi - 8 * n) + e * (K * K - (a2 + 1 / 3 * K * K)))); [|ring].
  rewrite H1. field.
Qed.

(** *** Contractions with the physical inverse metric [u i j * em], [e * em = 1] *)
Lemma hess_alg : forall (g : nat -> nat -> R) (f p al : nat -> R) (G : nat -> nat -> nat -> R) (x : R) i j, (i < 3)%nat -> (j < 3)%nat ->
  x - s3 (fun k => (G k i j + Ce g f p k i j) * al k) = (x + s3 (fun k => - G k i j * al k)) - 2 * (p j * al i + p i * al j - g i j * s3 (fun k => f k * al k)).
Proof.
  intros g f p al G x i j Hi Hj. unfold Ce. rewrite !s3_eq. unfold dl. destruct i as [|[|[|i]]], j as [|[|[|j]]]; try lia; cbn [Nat.eqb]; ring.
Qed.
Section Up.
Variables (g u A : nat -> nat -> R) (e em K : R).
Hypothesis TS : two_sided3 g u.
Hypothesis SG : sym3 g.
Hypothesis SU : sym3 u.
Hypothesis SA : sym3 A.
Hypothesis EM : e * em = 1.
Hypothesis T0 : s3 (fun i => s3 (fun j => u i j * A i j)) = 0.
Let KD := fun i j => e * A i j + 1 / 3 * (e * g i j) * K.
Lemma up_trK : s3 (fun i => s3 (fun j => u i j * em * KD i j)) = K.
Proof using TS SG EM T0.
  transitivity ((e * em) * (s3 (fun i => s3 (fun j => u i j * A i j)) + 1 / 3 * s3 (fun i => s3 (fun j => u i j * g i j)) * K)).
  - unfold KD. rewrite !s3_eq. ring.
  - rewrite EM, T0, (trace_id g u TS SG). field.
Qed.
(** K^i_j *)
Lemma up_KUD : forall i j, (i < 3)%nat -> (j < 3)%nat -> s3 (fun k => u i k * em * KD k j) = s3 (fun k => u i k * A k j) + 1 / 3 * dl i j * K.
Proof using TS EM.
  intros i j Hi Hj. transitivity ((e * em) * (s3 (fun k => u i k * A k j) + 1 / 3 * s3 (fun k => u i k * g k j) * K)).
  - unfold KD. rewrite !s3_eq. ring.
  - rewrite EM, (proj2 (two_sided_r g u TS i j Hi Hj)). unfold dl. ring.
Qed.
Lemma up_KK : forall i j, (i < 3)%nat -> (j < 3)%nat ->
  s3 (fun k => s3 (fun l => KD i k * (u k l * em) * KD l j)) =
  e * s3 (fun k => A i k * s3 (fun l => u k l * A l j)) + 2 / 3 * e * K * A i j + 1 / 9 * e * g i j * K * K.
Proof using TS EM.
  intros i j Hi Hj.
  transitivity (s3 (fun k => KD i k * s3 (fun l => u k l * em * KD l j))); [unfold KD; rewrite !s3_eq; ring|].
  rewrite (s3_ext _ (fun k => KD i k * (s3 (fun l => u k l * A l j) + 1 / 3 * dl k j * K))) by (intros k Hk; now rewrite (up_KUD k j Hk Hj)).
  pose proof (s3_pick_r g u (fun k => A k j) i TS Hi) as P. cbn beta in P.
  transitivity (e * s3 (fun k => A i k * s3 (fun l => u k l * A l j)) + 1 / 3 * e * K * s3 (fun n => s3 (fun k => g i k * u k n) * A n j) + 1 / 3 * e * K * s3 (fun k => A i k * dl k j)
    + 1 / 9 * e * K * K * s3 (fun k => g i k * dl k j)).
  - unfold KD. rewrite !s3_eq. field.
  - rewrite P. assert (D : forall f : nat -> R, s3 (fun k => f k * dl k j) = f j) by (intros f; rewrite s3_eq; unfold dl; destruct j as [|[|[|j]]]; try lia; cbn [Nat.eqb]; ring).
    rewrite !D. field.
Qed.
Lemma up_K2 : s3 (fun i => s3 (fun j => s3 (fun k => s3 (fun l => (u i k * em) * (u j l * em) * KD i j * KD k l)))) =
  s3 (fun i => s3 (fun j => A i j * s3 (fun k => s3 (fun l => u i k * u j l * A k l)))) + 1 / 3 * K * K.
Proof using TS SG SU SA EM T0.
  transitivity (s3 (fun i => s3 (fun l => s3 (fun k => u i k * em * KD k l) * s3 (fun j => u l j * em * KD j i)))).
  - assert (SK : sym3 KD) by (intros a c Ha Hc; unfold KD; now rewrite (SG a c Ha Hc), (SA a c Ha Hc)).
    generalize dependent KD. intros KK SK. rewrite !s3_eq.
    rewrite (SK 1%nat 0%nat), (SK 2%nat 0%nat), (SK 2%nat 1%nat) by lia. rewrite (SU 1%nat 0%nat), (SU 2%nat 0%nat), (SU 2%nat 1%nat) by lia. ring.
  - rewrite (s3_ext _ (fun i => s3 (fun l => (s3 (fun k => u i k * A k l) + 1 / 3 * dl i l * K) * (s3 (fun j => u l j * A j i) + 1 / 3 * dl l i * K))))
      by (intros i Hi; apply s3_ext; intros l Hl; now rewrite (up_KUD i l Hi Hl), (up_KUD l i Hl Hi)).
    transitivity (s3 (fun i => s3 (fun l => s3 (fun k => u i k * A k l) * s3 (fun j => u l j * A j i))) + 2 / 3 * K * s3 (fun i => s3 (fun j => u i j * A i j)) + 1 / 3 * K * K).
    + generalize SA. clear. intros SA. rewrite !s3_eq. unfold dl. cbn [Nat.eqb]. rewrite (SA 1%nat 0%nat), (SA 2%nat 0%nat), (SA 2%nat 1%nat) by lia. field.
    + rewrite T0. transitivity (s3 (fun i => s3 (fun l => s3 (fun k => u i k * A k l) * s3 (fun j => u l j * A j i))) + 1 / 3 * K * K); [ring|]. f_equal.
      rewrite !s3_eq. rewrite (SA 1%nat 0%nat), (SA 2%nat 0%nat), (SA 2%nat 1%nat) by lia. rewrite (SU 1%nat 0%nat), (SU 2%nat 0%nat), (SU 2%nat 1%nat) by lia. ring.
Qed.
Lemma up_ric : forall (Rb Phi : nat -> nat -> R) (p : nat -> R) (t n : R), t = s3 (fun i => s3 (fun j => u i j * Phi i j)) -> n = s3 (fun i => s3 (fun j => u i j * p i * p j)) ->
  s3 (fun i => s3 (fun j => u i j * em * (Rb i j - 2 * Phi i j - 2 * g i j * t + 4 * p i * p j - 4 * g i j * n))) =
  em * (s3 (fun i => s3 (fun j => u i j * Rb i j)) - 8 * t - 8 * n).
Proof using TS SG.
  intros Rb Phi p t n Et En. transitivity (em * (s3 (fun i => s3 (fun j => u i j * Rb i j)) - 2 * s3 (fun i => s3 (fun j => u i j * Phi i j))
    - 2 * t * s3 (fun i => s3 (fun j => u i j * g i j)) + 4 * s3 (fun i => s3 (fun j => u i j * p i * p j)) - 4 * n * s3 (fun i => s3 (fun j => u i j * g i j)))).
  - rewrite !s3_eq. ring.
  - rewrite <- Et, <- En, (trace_id g u TS SG). ring.
Qed.
Lemma up_curly : forall (al : R) (Phi Da Rb : nat -> nat -> R) (p ad : nat -> R),
  s3 (fun i => s3 (fun j => u i j * (- 2 * al * Phi i j + 4 * al * p i * p j + 2 * ad i * p j + 2 * ad j * p i - Da i j + al * Rb i j))) =
  - 2 * al * s3 (fun i => s3 (fun j => u i j * Phi i j)) + 4 * al * s3 (fun i => s3 (fun j => u i j * p i * p j)) + 4 * s3 (fun k => s3 (fun n => u k n * p n) * ad k)
  - s3 (fun i => s3 (fun j => u i j * Da i j)) + al * s3 (fun i => s3 (fun j => u i j * Rb i j)).
Proof using SU.
  intros. rewrite !s3_eq. rewrite (SU 1%nat 0%nat), (SU 2%nat 0%nat), (SU 2%nat 1%nat) by lia. ring.
Qed.
Lemma up_trKrhs : forall (al bK : R) (Da AU : nat -> nat -> R) (p ad : nat -> R),
  1 / 3 * al * K * K + bK + s3 (fun i => s3 (fun j => - em * u i j * (Da i j + 2 * ad j * p i))) + s3 (fun i => s3 (fun j => al * A i j * AU i j)) + 0 =
  1 / 3 * al * K * K + bK - em * (s3 (fun i => s3 (fun j => u i j * Da i j)) + 2 * s3 (fun k => s3 (fun n => u k n * p n) * ad k)) + al * s3 (fun i => s3 (fun j => A i j * AU i j)).
Proof using SU.
  intros. rewrite !s3_eq. rewrite (SU 1%nat 0%nat), (SU 2%nat 0%nat), (SU 2%nat 1%nat) by lia. ring.
Qed.
End Up.
