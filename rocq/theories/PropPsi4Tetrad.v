(** C79: the tetrad of psi4_tetrads.py. *)
From Coq Require Import String List ZArith Bool Arith Lia Reals Lra.
From Verif Require Import PyBase Inverter InverterFacts BSSN BSSNFacts Psi4.
Import ListNotations.
Local Open Scope R_scope.

Ltac cases3 i := destruct i as [| [| [| i]]]; [| | | lia].
(** ** What is meant *)
Definition inner (g : nat -> nat -> R) (u w : nat -> R) : R := s3 (fun a => s3 (fun b => g a b * u a * w b)).
Definition pos_def (g : nat -> nat -> R) : Prop := forall u, (exists a, (a < 3)%nat /\ u a <> 0) -> 0 < inner g u u.
(** the components of the vector product of u and w with lower index, in terms of the three-metric's volume element *)
Definition cross (u w : nat -> R) (a : nat) : R :=
  match a with 0%nat => u 1%nat * w 2%nat - u 2%nat * w 1%nat | 1%nat => u 2%nat * w 0%nat - u 0%nat * w 2%nat | _ => u 0%nat * w 1%nat - u 1%nat * w 0%nat end.

Lemma inner_eq : forall g u w, inner g u w = g 0%nat 0%nat * u 0%nat * w 0%nat + g 0%nat 1%nat * u 0%nat * w 1%nat + g 0%nat 2%nat * u 0%nat * w 2%nat
  + (g 1%nat 0%nat * u 1%nat * w 0%nat + g 1%nat 1%nat * u 1%nat * w 1%nat + g 1%nat 2%nat * u 1%nat * w 2%nat)
  + (g 2%nat 0%nat * u 2%nat * w 0%nat + g 2%nat 1%nat * u 2%nat * w 1%nat + g 2%nat 2%nat * u 2%nat * w 2%nat).
Proof. intros. unfold inner. rewrite !s3_eq. ring. Qed.
Lemma inner_sym : forall g u w, sym3 g -> inner g u w = inner g w u.
Proof. intros g u w S. rewrite !inner_eq. rewrite (S 1%nat 0%nat), (S 2%nat 0%nat), (S 2%nat 1%nat) by lia. ring. Qed.
Lemma inner_ext : forall g u u' w w', (forall a, (a < 3)%nat -> u a = u' a) -> (forall a, (a < 3)%nat -> w a = w' a) -> inner g u w = inner g u' w'.
Proof. intros. rewrite !inner_eq. rewrite !H, !H0 by lia. reflexivity. Qed.
Lemma inner_lin : forall g (u x y : nat -> R) c e, inner g u (fun a => c * x a + e * y a) = c * inner g u x + e * inner g u y.
Proof. intros. rewrite !inner_eq. ring. Qed.
Lemma inner_div : forall g u x c, inner g u (fun a => x a / c) = inner g u x / c.
Proof. intros. rewrite !inner_eq. unfold Rdiv. ring. Qed.
Lemma inner_divl : forall g u x c, inner g (fun a => x a / c) u = inner g x u / c.
Proof. intros. rewrite !inner_eq. unfold Rdiv. ring. Qed.
Lemma nonzero3 : forall u : nat -> R, ~ (forall a, (a < 3)%nat -> u a = 0) -> exists a, (a < 3)%nat /\ u a <> 0.
Proof.
  intros u N. destruct (Req_dec (u 0%nat) 0) as [E0|]; [| exists 0%nat; split; [lia | assumption]].
  destruct (Req_dec (u 1%nat) 0) as [E1|]; [| exists 1%nat; split; [lia | assumption]].
  destruct (Req_dec (u 2%nat) 0) as [E2|]; [| exists 2%nat; split; [lia | assumption]]. exfalso. apply N. intros a Ha. cases3 a; assumption.
Qed.

Section Tet.
Variables (x : nat -> R) (J : nat -> nat -> R) (g u : nat -> nat -> R) (dt : R).
(** the metric is positive definite, with inverse and determinant; the Jacobian is invertible; the point is off the z axis *)
Definition tetrad_ok : Prop :=
  sym3 g /\ pos_def g /\ two_sided3 g u /\ dt = det3 g /\ 0 < dt /\
  (exists J', forall i j, (i < 3)%nat -> (j < 3)%nat -> s3 (fun k => J' i k * J k j) = if Nat.eqb i j then 1 else 0) /\
  (x 0%nat <> 0 \/ x 1%nat <> 0).
Hypothesis OK : tetrad_ok.
Let v1 := v1U x J. Let v2 := v2U x J. Let v3 := v3U x J u dt.
Let e1 := e1U x J g u dt. Let e2 := e2U x J g u dt. Let e3 := e3U x J g u dt.
Let e2o := e2U_orth x J g u dt. Let e3o := e3U_orth x J g u dt.

Lemma om : forall i j a b c, omega g i j a b c = inner g (v_vectorDU a b c i) (v_vectorDU a b c j).
Proof. intros. unfold omega. rewrite inner_eq, !s3_eq. ring. Qed.
Lemma indep : forall c e, (forall a, (a < 3)%nat -> c * v1 a + e * v2 a = 0) -> c = 0 /\ e = 0.
Proof.
  intros c e H. destruct OK as (_ & _ & _ & _ & _ & (J' & HJ) & NX).
  assert (W : forall i, (i < 3)%nat -> c * v1UCart x i + e * v2UCart x i = 0).
  { intros i Hi. transitivity (s3 (fun k => J' i k * (c * v1 k + e * v2 k))).
    - transitivity (s3 (fun j => s3 (fun k => J' i k * J k j) * (c * v1UCart x j + e * v2UCart x j))).
      + rewrite s3_eq. rewrite !HJ by lia. cases3 i; cbn [Nat.eqb]; ring.
      + unfold v1, v2, v1U, v2U. rewrite !s3_eq. ring.
    - rewrite s3_eq. rewrite !H by lia. ring. }
  pose proof (W 0%nat ltac:(lia)) as W0. pose proof (W 1%nat ltac:(lia)) as W1. cbn in W0, W1. unfold v2UCart in *.
  assert (P : 0 < x 0%nat * x 0%nat + x 1%nat * x 1%nat) by (destruct NX as [N | N]; apply Rsqr_pos_lt in N; unfold Rsqr in N; nra).
  split; apply (Rmult_eq_reg_r (x 0%nat * x 0%nat + x 1%nat * x 1%nat)); try lra.
  - transitivity (x 0%nat * (c * x 0%nat + e * x 1%nat) - x 1%nat * (c * - x 1%nat + e * x 0%nat)); [ring | rewrite W0, W1; ring].
  - transitivity (x 1%nat * (c * x 0%nat + e * x 1%nat) + x 0%nat * (c * - x 1%nat + e * x 0%nat)); [ring | rewrite W0, W1; ring].
Qed.
Lemma n1 : 0 < inner g v1 v1.
Proof. apply OK. apply nonzero3. intro H. destruct (indep 1 0) as [C _]; [intros a Ha; rewrite H by assumption; ring | lra]. Qed.
Lemma e1_eq : forall a, e1 a = v1 a / sqrt (inner g v1 v1).
Proof. intro a. unfold e1, e1U. rewrite om. reflexivity. Qed.
Lemma sq : forall y, 0 < y -> 0 < sqrt y /\ sqrt y * sqrt y = y.
Proof. intros y H. split; [now apply sqrt_lt_R0 | apply sqrt_sqrt; lra]. Qed.
Lemma e11 : inner g e1 e1 = 1.
Proof.
  rewrite (inner_ext g e1 (fun a => v1 a / sqrt (inner g v1 v1)) e1 (fun a => v1 a / sqrt (inner g v1 v1))) by (intros; apply e1_eq).
  rewrite inner_div, inner_divl. destruct (sq _ n1) as [P Q]. rewrite <- Q at 1. field. lra.
Qed.
Lemma e2o_eq : forall a, e2o a = v2 a - inner g e1 v2 * e1 a.
Proof. intro a. unfold e2o, e2U_orth. rewrite om. reflexivity. Qed.
Lemma e12o : inner g e1 e2o = 0.
Proof.
  rewrite (inner_ext g e1 e1 e2o (fun a => 1 * v2 a + - inner g e1 v2 * e1 a)) by (intros; (reflexivity || (rewrite e2o_eq; ring))).
  rewrite inner_lin, e11. ring.
Qed.
Lemma n2 : 0 < inner g e2o e2o.
Proof.
  apply OK. apply nonzero3. intro H. destruct (indep (- inner g e1 v2 / sqrt (inner g v1 v1)) 1) as [_ C]; [| lra].
  intros a Ha. rewrite <- (H a Ha), e2o_eq, e1_eq. unfold Rdiv. ring.
Qed.
Lemma e2_eq : forall a, e2 a = e2o a / sqrt (inner g e2o e2o).
Proof. intro a. unfold e2, e2U. rewrite om. reflexivity. Qed.
Lemma e12 : inner g e1 e2 = 0.
Proof. rewrite (inner_ext g e1 e1 e2 (fun a => e2o a / sqrt (inner g e2o e2o))) by (intros; (reflexivity || apply e2_eq)). rewrite inner_div, e12o. unfold Rdiv. ring. Qed.
Lemma e22 : inner g e2 e2 = 1.
Proof.
  rewrite (inner_ext g e2 (fun a => e2o a / sqrt (inner g e2o e2o)) e2 (fun a => e2o a / sqrt (inner g e2o e2o))) by (intros; apply e2_eq).
  rewrite inner_div, inner_divl. destruct (sq _ n2) as [P Q]. rewrite <- Q at 1. field. lra.
Qed.
Lemma eps_cross : forall a (p q : nat -> R), (a < 3)%nat -> s3 (fun b => s3 (fun c => eps3 a b c * p b * q c)) = cross p q a.
Proof. intros a p q Ha. rewrite !s3_eq. unfold eps3, LeviCivitaSymbol_dim3_rank3. cases3 a; cbn [fnat cross]; field. Qed.
Lemma v3_eq : forall a, v3 a = sqrt dt * s3 (fun d => u a d * cross v1 v2 d).
Proof.
  intro a. unfold v3, v3U. fold v1 v2. transitivity (sqrt dt * s3 (fun d => u a d * s3 (fun b => s3 (fun c => eps3 d b c * v1 b * v2 c)))).
  - rewrite !s3_eq. ring.
  - f_equal. rewrite !(s3_eq (fun d => _ * _)). rewrite !eps_cross by lia. reflexivity.
Qed.
Lemma v3_low : forall a, (a < 3)%nat -> s3 (fun b => g a b * v3 b) = sqrt dt * cross v1 v2 a.
Proof.
  intros a Ha. destruct OK as (_ & _ & TS & _).
  transitivity (sqrt dt * s3 (fun d => s3 (fun b => g a b * u b d) * cross v1 v2 d)).
  - rewrite (s3_eq (fun b => g a b * v3 b)), !v3_eq, !s3_eq. ring.
  - f_equal. rewrite s3_eq. rewrite !(fun k Hk => proj1 (two_sided_r g u TS a k Ha Hk)) by lia. cases3 a; cbn [Nat.eqb]; ring.
Qed.
Lemma inner_v3 : forall w, inner g w v3 = sqrt dt * (w 0%nat * cross v1 v2 0 + w 1%nat * cross v1 v2 1 + w 2%nat * cross v1 v2 2).
Proof.
  intro w. transitivity (s3 (fun a => w a * s3 (fun b => g a b * v3 b))); [unfold inner; rewrite !s3_eq; ring |].
  rewrite s3_eq, !v3_low by lia. ring.
Qed.
Lemma e13o : inner g e1 v3 = 0.
Proof. rewrite inner_v3, !e1_eq. cbn [cross]. unfold Rdiv. ring. Qed.
Lemma e23o : inner g e2 v3 = 0.
Proof. rewrite inner_v3, !e2_eq, !e2o_eq, !e1_eq. cbn [cross]. unfold Rdiv. ring. Qed.
Lemma e3o_eq : forall a, e3o a = v3 a.
Proof.
  intro a. unfold e3o, e3U_orth. rewrite !om. change (v3 a - inner g e1 v3 * e1 a - inner g e2 v3 * e2 a = v3 a). rewrite e13o, e23o. ring.
Qed.
Lemma cross_nz : ~ (forall a, (a < 3)%nat -> cross v1 v2 a = 0).
Proof.
  intro H. pose proof (H 0%nat ltac:(lia)) as H0. pose proof (H 1%nat ltac:(lia)) as H1. pose proof (H 2%nat ltac:(lia)) as H2. cbn [cross] in *.
  assert (Z : forall b, (b < 3)%nat -> v1 b = 0).
  { intros b Hb. destruct (indep (v2 b) (- v1 b)) as [_ C]; [| lra]. intros a Ha. cases3 a; cases3 b; lra. }
  destruct (indep 1 0) as [C _]; [intros a Ha; rewrite Z by assumption; ring | lra].
Qed.
Lemma n3 : 0 < inner g v3 v3.
Proof.
  apply OK. apply nonzero3. intro H. apply cross_nz. intros a Ha. pose proof (v3_low a Ha) as L. rewrite s3_eq in L. rewrite !H in L by lia.
  assert (P : 0 < sqrt dt) by (apply sqrt_lt_R0; apply OK). apply (Rmult_eq_reg_l (sqrt dt)); lra.
Qed.
Lemma e3_eq : forall a, e3 a = v3 a / sqrt (inner g v3 v3).
Proof.
  intro a. unfold e3, e3U. rewrite om. change (e3o a / sqrt (inner g e3o e3o) = v3 a / sqrt (inner g v3 v3)). rewrite e3o_eq. do 2 f_equal. apply inner_ext; intros; apply e3o_eq.
Qed.
Lemma e13 : inner g e1 e3 = 0.
Proof. rewrite (inner_ext g e1 e1 e3 (fun a => v3 a / sqrt (inner g v3 v3))) by (intros; (reflexivity || apply e3_eq)). rewrite inner_div, e13o. unfold Rdiv. ring. Qed.
Lemma e23 : inner g e2 e3 = 0.
Proof. rewrite (inner_ext g e2 e2 e3 (fun a => v3 a / sqrt (inner g v3 v3))) by (intros; (reflexivity || apply e3_eq)). rewrite inner_div, e23o. unfold Rdiv. ring. Qed.
Lemma e33 : inner g e3 e3 = 1.
Proof.
  rewrite (inner_ext g e3 (fun a => v3 a / sqrt (inner g v3 v3)) e3 (fun a => v3 a / sqrt (inner g v3 v3))) by (intros; apply e3_eq).
  rewrite inner_div, inner_divl. destruct (sq _ n3) as [P Q]. rewrite <- Q at 1. field. lra.
Qed.
End Tet.

Definition tri (p q w : nat -> R) : R := p 0%nat * cross q w 0 + p 1%nat * cross q w 1 + p 2%nat * cross q w 2.
Definition pick3 (p q w : nat -> R) (i : nat) : nat -> R := match i with 0%nat => p | 1%nat => q | _ => w end.
Lemma gram : forall g p q w, sym3 g -> det3 (fun i j => inner g (pick3 p q w i) (pick3 p q w j)) = tri p q w ^ 2 * det3 g.
Proof.
  intros g p q w S. unfold leibniz. cbn -[inner pow]. unfold tri, cross, pick3. rewrite !inner_eq. rewrite (S 1%nat 0%nat), (S 2%nat 0%nat), (S 2%nat 1%nat) by lia. ring.
Qed.
(** The triad: e1, e2, e3 are orthonormal in the three-metric; e1 points along the rotation about the z axis, the position vector is in
    the plane of e1 and e2, on the side of e2, and e3 is the vector product of e1 and e2. *)
Theorem C79_triad : forall x J g u dt, tetrad_ok x J g u dt ->
  let e := fun i => pick3 (e1U x J g u dt) (e2U x J g u dt) (e3U x J g u dt) i in
  (forall i j, (i < 3)%nat -> (j < 3)%nat -> inner g (e i) (e j) = if Nat.eqb i j then 1 else 0) /\
  (exists c, 0 < c /\ forall a, (a < 3)%nat -> s3 (fun j => J a j * match j with 0%nat => - x 1%nat | 1%nat => x 0%nat | _ => 0 end) = c * e 0%nat a) /\
  (exists b c, 0 < c /\ forall a, (a < 3)%nat -> s3 (fun j => J a j * x j) = b * e 0%nat a + c * e 1%nat a) /\
  forall a, (a < 3)%nat -> s3 (fun b => g a b * e 2%nat b) = sqrt (det3 g) * cross (e 0%nat) (e 1%nat) a.
Proof.
  intros x J g u dt OK e. unfold e, pick3.
  pose proof (e11 x J g u dt OK) as E11. pose proof (e12 x J g u dt OK) as E12. pose proof (e22 x J g u dt OK) as E22.
  pose proof (e13 x J g u dt OK) as E13. pose proof (e23 x J g u dt OK) as E23. pose proof (e33 x J g u dt OK) as E33.
  destruct (sq _ (n1 x J g u dt OK)) as [P1 Q1]. destruct (sq _ (n2 x J g u dt OK)) as [P2 Q2]. destruct (sq _ (n3 x J g u dt OK)) as [P3 Q3].
  assert (SG : sym3 g) by apply OK. 
  assert (O : forall i j, (i < 3)%nat -> (j < 3)%nat -> inner g (e i) (e j) = if Nat.eqb i j then 1 else 0).
  { intros i j Hi Hj. unfold e, pick3. cases3 i; cases3 j; cbn [Nat.eqb]; try assumption; rewrite inner_sym by exact SG; assumption. }
  split; [exact O |]. split; [| split].
  - exists (sqrt (inner g (v1U x J) (v1U x J))). split; [exact P1 |]. intros a Ha. rewrite e1_eq. change (v1U x J a = sqrt (inner g (v1U x J) (v1U x J)) * (v1U x J a / sqrt (inner g (v1U x J) (v1U x J)))). field. lra.
  - exists (inner g (e1U x J g u dt) (v2U x J)), (sqrt (inner g (e2U_orth x J g u dt) (e2U_orth x J g u dt))). split; [exact P2 |]. intros a Ha. rewrite e2_eq, e2o_eq.
    change (v2U x J a = inner g (e1U x J g u dt) (v2U x J) * e1U x J g u dt a + sqrt (inner g (e2U_orth x J g u dt) (e2U_orth x J g u dt)) * ((v2U x J a - inner g (e1U x J g u dt) (v2U x J) * e1U x J g u dt a) / sqrt (inner g (e2U_orth x J g u dt) (e2U_orth x J g u dt)))).
    field. lra.
  - set (N1 := sqrt (inner g (v1U x J) (v1U x J))) in *. set (N2 := sqrt (inner g (e2U_orth x J g u dt) (e2U_orth x J g u dt))) in *.
    set (N3 := sqrt (inner g (v3U x J u dt) (v3U x J u dt))) in *.
    assert (DT : dt = det3 g) by apply OK. assert (DP : 0 < dt) by apply OK. destruct (sq _ DP) as [PD QD]. rewrite <- DT in *.
    assert (V1 : forall a, v1U x J a = N1 * e1U x J g u dt a) by (intro a; rewrite e1_eq; fold N1; field; lra).
    assert (V2 : forall a, v2U x J a = inner g (e1U x J g u dt) (v2U x J) * e1U x J g u dt a + N2 * e2U x J g u dt a)
      by (intro a; rewrite e2_eq, e2o_eq; fold N2; field; lra).
    assert (K : forall a, (a < 3)%nat -> s3 (fun b => g a b * e3U x J g u dt b) = N1 * N2 / N3 * (sqrt dt * cross (e1U x J g u dt) (e2U x J g u dt) a)).
    { intros a Ha. transitivity (s3 (fun b => g a b * v3U x J u dt b) / N3).
      - rewrite !s3_eq, !e3_eq by assumption. fold N3. field. lra.
      - rewrite (v3_low x J g u dt OK a Ha). replace (cross (v1U x J) (v2U x J) a) with (N1 * N2 * cross (e1U x J g u dt) (e2U x J g u dt) a); [field; lra |].
        cases3 a; cbn [cross]; rewrite !V1, !V2; ring. }
    assert (T : N1 * N2 / N3 * sqrt dt * tri (e3U x J g u dt) (e1U x J g u dt) (e2U x J g u dt) = 1).
    { rewrite <- E33. transitivity (s3 (fun a => e3U x J g u dt a * s3 (fun b => g a b * e3U x J g u dt b))).
      - rewrite (s3_eq (fun a => _ * s3 _)), !K by lia. unfold tri. ring.
      - unfold inner. rewrite !s3_eq. ring. }
    pose proof (gram g (e3U x J g u dt) (e1U x J g u dt) (e2U x J g u dt) SG) as GR. rewrite <- DT in GR.
    rewrite (det3_ext _ (fun i j => if Nat.eqb i j then 1 else 0)) in GR
      by (intros i j Hi Hj; cases3 i; cases3 j; cbn [pick3 Nat.eqb]; first [exact E33 | exact E11 | exact E22 | exact E12 | exact E13 | exact E23 | rewrite inner_sym by exact SG; assumption]).
    assert (GI : det3 (fun i j => if Nat.eqb i j then 1 else 0) = 1) by (unfold leibniz; cbn; ring). rewrite GI in GR.
    set (t := tri (e3U x J g u dt) (e1U x J g u dt) (e2U x J g u dt)) in *. set (k := N1 * N2 / N3) in *.
    assert (KP : 0 < k) by (apply Rdiv_lt_0_compat; [apply Rmult_lt_0_compat |]; assumption).
    assert (K2 : k * k = 1). { transitivity (k * k * (t ^ 2 * dt)); [rewrite <- GR; ring |]. rewrite <- QD. transitivity ((k * sqrt dt * t) * (k * sqrt dt * t)); [ring | rewrite T; ring]. }
    assert (K1 : k = 1) by nra. intros a Ha. rewrite K by assumption. rewrite K1. ring.
Qed.

(** ** The null tetrad *)
(** the line element -alpha^2 dt^2 + gamma_ij (dx^i + beta^i dt)(dx^j + beta^j dt) *)
Definition metric4 (al : R) (be : nat -> R) (g : nat -> nat -> R) (mu nu : nat) : R :=
  match mu, nu with
  | O, O => - al ^ 2 + s3 (fun i => s3 (fun j => g i j * be i * be j))
  | O, S j => s3 (fun i => g i j * be i)
  | S i, O => s3 (fun j => g i j * be j)
  | S i, S j => g i j
  end.
Definition sum4 (f : nat -> R) : R := f 0%nat + f 1%nat + f 2%nat + f 3%nat.
Definition inner4 (G : nat -> nat -> R) (p q : nat -> R) : R := sum4 (fun mu => sum4 (fun nu => G mu nu * p mu * q nu)).
(** l, n real and m = mre + i mim: l.n = -1 and m.mbar = 1 are the only products that do not vanish *)
Definition null_tetrad (G : nat -> nat -> R) (l n mre mim : nat -> R) : Prop :=
  inner4 G l l = 0 /\ inner4 G n n = 0 /\ inner4 G l n = -1 /\
  inner4 G mre mre - inner4 G mim mim = 0 /\ inner4 G mre mim = 0 /\ inner4 G mre mre + inner4 G mim mim = 1 /\
  inner4 G l mre = 0 /\ inner4 G l mim = 0 /\ inner4 G n mre = 0 /\ inner4 G n mim = 0.
(** the products of c (N + sg E), where N = (1/alpha, -beta/alpha) and E is spatial *)
Definition nv (al : R) (be : nat -> R) (mu : nat) : R := match mu with 0%nat => 1 / al | S i => - be i / al end.
Definition sp (e : nat -> R) (mu : nat) : R := match mu with 0%nat => 0 | S a => e a end.
Lemma i4_lin : forall G (p q p' q' : nat -> R) a b c d, inner4 G (fun mu => a * p mu + b * q mu) (fun mu => c * p' mu + d * q' mu) =
  a * c * inner4 G p p' + a * d * inner4 G p q' + b * c * inner4 G q p' + b * d * inner4 G q q'.
Proof. intros. unfold inner4, sum4. ring. Qed.
Lemma i4_nn : forall al be g, al <> 0 -> inner4 (metric4 al be g) (nv al be) (nv al be) = -1.
Proof. intros. unfold inner4, sum4, metric4, nv. rewrite !s3_eq. field. assumption. Qed.
Lemma i4_ns : forall al be g e, al <> 0 -> inner4 (metric4 al be g) (nv al be) (sp e) = 0 /\ inner4 (metric4 al be g) (sp e) (nv al be) = 0.
Proof. intros. unfold inner4, sum4, metric4, nv, sp. rewrite !s3_eq. split; field; assumption. Qed.
Lemma i4_ss : forall al be g e f, inner4 (metric4 al be g) (sp e) (sp f) = inner g e f.
Proof. intros. unfold inner4, sum4, metric4, sp. rewrite !s3_eq, inner_eq. ring. Qed.
Lemma i4_ext : forall G p p' q q', (forall mu, p mu = p' mu) -> (forall mu, q mu = q' mu) -> inner4 G p q = inner4 G p' q'.
Proof. intros. unfold inner4, sum4. rewrite !H, !H0. reflexivity. Qed.
Lemma null_of : forall al be g e1 e2 e3 s l n mre mim, al <> 0 -> s * s = 1 / 2 ->
  (forall i j, (i < 3)%nat -> (j < 3)%nat -> inner g (pick3 e1 e2 e3 i) (pick3 e1 e2 e3 j) = if Nat.eqb i j then 1 else 0) ->
  (forall mu, l mu = s * nv al be mu + s * sp e2 mu) -> (forall mu, n mu = s * nv al be mu + - s * sp e2 mu) ->
  (forall mu, mre mu = 0 * nv al be mu + s * sp e3 mu) -> (forall mu, mim mu = 0 * nv al be mu + s * sp e1 mu) ->
  null_tetrad (metric4 al be g) l n mre mim.
Proof.
  intros al be g e1 e2 e3 s l n mre mim A S O HL HN HR HI.
  pose proof (O 0%nat 0%nat) as O00. pose proof (O 1%nat 1%nat) as O11. pose proof (O 2%nat 2%nat) as O22. pose proof (O 0%nat 1%nat) as O01. pose proof (O 0%nat 2%nat) as O02. pose proof (O 1%nat 2%nat) as O12.
  pose proof (O 1%nat 0%nat) as O10. pose proof (O 2%nat 0%nat) as O20. pose proof (O 2%nat 1%nat) as O21.
  cbn [pick3 Nat.eqb] in *. unfold null_tetrad. repeat split.
  all: match goal with |- context [inner4 ?G ?a ?b] =>
    repeat (rewrite (i4_ext G l _ l _ HL HL) || rewrite (i4_ext G n _ n _ HN HN) || rewrite (i4_ext G l _ n _ HL HN) || rewrite (i4_ext G mre _ mre _ HR HR) || rewrite (i4_ext G mim _ mim _ HI HI)
      || rewrite (i4_ext G mre _ mim _ HR HI) || rewrite (i4_ext G l _ mre _ HL HR) || rewrite (i4_ext G l _ mim _ HL HI) || rewrite (i4_ext G n _ mre _ HN HR) || rewrite (i4_ext G n _ mim _ HN HI)) end.
  all: rewrite !i4_lin, !i4_nn, !i4_ss by assumption; rewrite ?(proj1 (i4_ns _ _ _ _ A)), ?(proj2 (i4_ns _ _ _ _ A)); rewrite ?O00, ?O11, ?O22, ?O01, ?O02, ?O12, ?O10, ?O20, ?O21 by lia; nra.
Qed.
(** With the unit normal built from the metric, the tetrad is null in the coordinate basis *)
Theorem C79_null_coordinate : forall x J g u dt al be s, tetrad_ok x J g u dt -> al <> 0 -> s * s = 1 / 2 ->
  null_tetrad (metric4 al be g) (l4U x J g u dt true al be s) (n4U x J g u dt true al be s) (mre4U x J g u dt s) (mim4U x J g u dt s).
Proof.
  intros x J g u dt al be s OK A S. apply (null_of al be g (e1U x J g u dt) (e2U x J g u dt) (e3U x J g u dt) s); auto.
  - apply (C79_triad x J g u dt OK).
  - intros [|mu]; unfold l4U, u4U, r4U, nv, sp; ring.
  - intros [|mu]; unfold n4U, u4U, r4U, nv, sp; ring.
  - intros [|mu]; unfold mre4U, theta4U, nv, sp; ring.
  - intros [|mu]; unfold mim4U, phi4U, nv, sp; ring.
Qed.
(** By default the components refer to the basis of the unit normal and the coordinate vectors, whatever the lapse and shift: they are
    null for -1 + gamma, and turn into the coordinate components on replacing the time component times (1, 0, 0, 0) by that times the normal *)
Theorem C79_null_normal : forall x J g u dt al be s, tetrad_ok x J g u dt -> s * s = 1 / 2 ->
  null_tetrad (metric4 1 (fun _ => 0) g) (l4U x J g u dt false al be s) (n4U x J g u dt false al be s) (mre4U x J g u dt s) (mim4U x J g u dt s) /\
  (al <> 0 -> forall mu, (mu < 4)%nat ->
    l4U x J g u dt true al be s mu = l4U x J g u dt false al be s 0%nat * nv al be mu + sp (fun a => l4U x J g u dt false al be s (S a)) mu /\
    n4U x J g u dt true al be s mu = n4U x J g u dt false al be s 0%nat * nv al be mu + sp (fun a => n4U x J g u dt false al be s (S a)) mu).
Proof.
  intros x J g u dt al be s OK S. split.
  - apply (null_of 1 (fun _ => 0) g (e1U x J g u dt) (e2U x J g u dt) (e3U x J g u dt) s); auto; try lra.
    + apply (C79_triad x J g u dt OK).
    + intros [|mu]; unfold l4U, u4U, r4U, nv, sp; field.
    + intros [|mu]; unfold n4U, u4U, r4U, nv, sp; field.
    + intros [|mu]; unfold mre4U, theta4U, nv, sp; ring.
    + intros [|mu]; unfold mim4U, phi4U, nv, sp; ring.
  - intros A mu _. destruct mu; unfold l4U, n4U, u4U, r4U, nv, sp; split; field; assumption.
Qed.
(** Read as coordinate components they are null only for a lapse of 1 *)
Theorem C79_default_lapse : forall x J g u dt al s, tetrad_ok x J g u dt -> s * s = 1 / 2 ->
  inner4 (metric4 al (fun _ => 0) g) (l4U x J g u dt false al (fun _ => 0) s) (l4U x J g u dt false al (fun _ => 0) s) = (1 - al ^ 2) / 2.
Proof.
  intros x J g u dt al s OK S. pose proof (proj1 (C79_triad x J g u dt OK) 1%nat 1%nat ltac:(lia) ltac:(lia)) as E. cbn [pick3 Nat.eqb] in E. rewrite inner_eq in E.
  transitivity (s * s * (- al ^ 2 + 1)); [| rewrite S; field]. rewrite <- E. unfold inner4, sum4, metric4, l4U, u4U, r4U. rewrite !s3_eq. ring.
Qed.
Theorem C79_refused : forall t, t <> "quasiKinnersley"%string -> tetrad_supported t = Err ValueError.
Proof. intros t N. unfold tetrad_supported. now destruct (String.eqb_spec t "quasiKinnersley"). Qed.

(** the point (0, 2, 1) in Cartesian coordinates with gamma = diag(4, 1, 1): e1 = (-1/2, 0, 0) *)
Definition ex_g (i j : nat) : R := if Nat.eqb i j then match i with 0%nat => 4 | _ => 1 end else 0.
Definition ex_u (i j : nat) : R := if Nat.eqb i j then match i with 0%nat => 1 / 4 | _ => 1 end else 0.
Definition ex_J (i j : nat) : R := if Nat.eqb i j then 1 else 0.
Definition ex_x (i : nat) : R := match i with 0%nat => 0 | 1%nat => 2 | _ => 1 end.
Example C79_example : tetrad_ok ex_x ex_J ex_g ex_u 4 /\ e1U ex_x ex_J ex_g ex_u 4 0%nat = - (1 / 2).
Proof.
  split.
  - split; [| split; [| split; [| split; [| split; [lra | split]]]]].
    + intros i j Hi Hj. unfold ex_g. cases3 i; cases3 j; reflexivity.
    + intros w (a & Ha & N). rewrite inner_eq. unfold ex_g. cbn [Nat.eqb]. apply Rsqr_pos_lt in N. unfold Rsqr in N. cases3 a; nra.
    + intros i j Hi Hj. split; cases3 i; cases3 j; cbn; lra.
    + unfold leibniz. cbn. lra.
    + exists ex_J. intros i j Hi Hj. rewrite s3_eq. unfold ex_J. cases3 i; cases3 j; cbn [Nat.eqb]; ring.
    + right. cbn. lra.
  - rewrite e1_eq. assert (V : forall a, (a < 3)%nat -> v1U ex_x ex_J a = match a with 0%nat => -2 | _ => 0 end).
    { intros a Ha. unfold v1U, v1UCart, ex_J, ex_x. rewrite s3_eq. cases3 a; cbn [Nat.eqb]; ring. }
    rewrite (inner_ext ex_g (v1U ex_x ex_J) (fun a => match a with 0%nat => -2 | _ => 0 end) (v1U ex_x ex_J) (fun a => match a with 0%nat => -2 | _ => 0 end)) by exact V.
    rewrite V by lia. rewrite inner_eq. unfold ex_g. cbn [Nat.eqb].
    match goal with |- _ / sqrt ?e = _ => replace e with (4 * 4) by ring end. rewrite sqrt_square by lra. field.
Qed.

Print Assumptions C79_triad.
Print Assumptions C79_null_coordinate.
Print Assumptions C79_null_normal.
Print Assumptions C79_default_lapse.
Print Assumptions C79_refused.
