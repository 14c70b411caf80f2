(** C78: the UIUC initial data of InitialData_Spherical.py for a rotating black hole. *)
From Coq Require Import String List ZArith Bool Arith Lia Reals Lra.
From Verif Require Import PyBase RefMetric RefMetricReal RefMetricCalc RefMetricFacts Inverter InverterFacts GRMetric BSSN BSSNFacts BSSNCalc BSSNRicci InitialData PropInitialData.
Import ListNotations.
Local Open Scope R_scope.

(** the lapse sqrt(Delta Sigma / A) and shift -2 M a R / A along ph of the Kerr spacetime in Boyer-Lindquist coordinates *)
Definition U_alpha : ex := Sqrt (Div (Mul U_DEL U_SIG) U_AA).
Definition U_betaph : ex := Opp (Div (Mul (Mul (Mul (Num 2) M_) U_a) U_rBL) U_AA).
Definition U_beta (i : nat) : ex := set1 2 U_betaph zero1 i.
(** outside the horizon, where r_BL > r_+ *)
Definition U_dom (v : env) : Prop := 0 < ep v "M"%string /\ -1 < ep v "chi"%string < 1 /\ eval v U_rp / 4 < exx v 0%nat.
Definition rootv (v : env) : R := sqrt (ep v "M"%string ^ 2 - (ep v "M"%string * ep v "chi"%string) ^ 2).
Lemma U_root : forall v, U_dom v -> 0 < rootv v /\ rootv v * rootv v = ep v "M"%string ^ 2 - (ep v "M"%string * ep v "chi"%string) ^ 2 /\
  0 < ep v "M"%string ^ 2 - (ep v "M"%string * ep v "chi"%string) ^ 2 /\ eval v U_rp = ep v "M"%string + rootv v.
Proof.
  intros v (M0 & (C1 & C2) & RP). assert (P : 0 < ep v "M"%string ^ 2 - (ep v "M"%string * ep v "chi"%string) ^ 2).
  { replace (_ - _) with (ep v "M"%string * ep v "M"%string * ((1 - ep v "chi"%string) * (1 + ep v "chi"%string))) by ring. repeat apply Rmult_lt_0_compat; lra. }
  split; [now apply sqrt_lt_R0 |]. split; [apply sqrt_sqrt; lra |]. split; [exact P | reflexivity].
Qed.
Lemma U_pos : forall v, U_dom v ->
  let r := exx v 0%nat in let M := ep v "M"%string in let a := M * ep v "chi"%string in let Rb := eval v U_rBL in let q := rootv v in
  0 < r /\ r - (M + q) / 4 > 0 /\ Rb - (M + q) = (r - (M + q) / 4) ^ 2 / r /\ 0 < Rb - (M - q) /\ 0 < Rb /\
  eval v U_DEL = (r - (M + q) / 4) ^ 2 / r * (Rb - (M - q)) /\ 0 < eval v U_DEL /\ 0 < eval v U_SIG /\ 0 < eval v U_AA.
Proof.
  intros v D. destruct (U_root v D) as (Q0 & Q2 & P & ER). destruct D as (M0 & (C1 & C2) & RP). rewrite ER in RP. intros r M a Rb q.
  fold r M q in RP, Q0, Q2, P, M0. assert (R0 : 0 < r) by lra.
  assert (E1 : Rb - (M + q) = (r - (M + q) / 4) ^ 2 / r). { change (r * (1 + (M + q) / (4 * r)) ^ 2 - (M + q) = (r - (M + q) / 4) ^ 2 / r). field. lra. }
  assert (S1 : 0 < (r - (M + q) / 4) ^ 2 / r) by (apply Rdiv_lt_0_compat; [apply pow_lt |]; lra).
  assert (B1 : 0 < Rb - (M - q)) by lra. assert (B2 : 0 < Rb) by lra.
  assert (DE : eval v U_DEL = (Rb - (M + q)) * (Rb - (M - q))).
  { transitivity (Rb ^ 2 - 2 * M * Rb + a ^ 2); [reflexivity |]. fold a in Q2. replace (a ^ 2) with (M ^ 2 - q * q) by lra. ring. }
  assert (DP : 0 < eval v U_DEL) by (rewrite DE, E1; now apply Rmult_lt_0_compat).
  assert (SP : 0 < eval v U_SIG). { change (0 < Rb ^ 2 + a ^ 2 * cos (exx v 1%nat) ^ 2). nra. }
  repeat split; auto; try lra.
  - rewrite DE, E1. reflexivity.
  - change (0 < (Rb ^ 2 + a ^ 2) ^ 2 - eval v U_DEL * a ^ 2 * sin (exx v 1%nat) ^ 2).
    assert (EL : eval v U_DEL <= Rb ^ 2 + a ^ 2). { change (Rb ^ 2 - 2 * M * Rb + a ^ 2 <= Rb ^ 2 + a ^ 2). nra. }
    assert (0 < Rb ^ 2) by (apply pow_lt; lra). pose proof (pow2_ge_0 a). pose proof (sin2_cos2 (exx v 1%nat)) as SC. unfold Rsqr in SC.
    assert (S2 : 0 <= sin (exx v 1%nat) ^ 2 <= 1) by (split; nra).
    assert (T1 : eval v U_DEL * a ^ 2 <= (Rb ^ 2 + a ^ 2) * a ^ 2) by (apply Rmult_le_compat_r; assumption).
    assert (T2 : eval v U_DEL * a ^ 2 * sin (exx v 1%nat) ^ 2 <= eval v U_DEL * a ^ 2 * 1) by (apply Rmult_le_compat_l; [apply Rmult_le_pos; lra | lra]).
    nra.
Qed.
Lemma U_wd : forall v, U_dom v -> (forall i j, (i < 3)%nat -> (j < 3)%nat -> wd v (d_gammaDD UIUCBlackHole i j)) /\ (forall i, (i < 3)%nat -> wd v (U_beta i)).
Proof.
  intros v D. destruct (U_root v D) as (_ & _ & P & _). destruct (U_pos v D) as (R0 & _ & _ & B1 & B2 & _ & _ & SP & AP).
  assert (WQ : wd v U_rp /\ wd v U_rm). { cbv - [Rlt Rplus Rmult Rdiv Rminus IZR ep exx pow not]. repeat split; auto; exact P. }
  assert (WB : wd v U_rBL). { cbv - [eval Rlt Rplus Rmult Rdiv Rminus IZR ep exx pow not sin cos sqrt]; cbn [eval]. repeat split; auto; lra. }
  assert (WS : wd v U_SIG). { unfold U_SIG. repeat first [exact WB | apply wd_smul | apply wd_spow | apply wd_sadd | exact I]. }
  assert (WA : wd v U_AA). { unfold U_AA, U_DEL. repeat first [exact WB | apply wd_smul | apply wd_spow | apply wd_sadd | apply wd_ssub | exact I]. }
  split.
  - intros i j Hi Hj. cases3 i; cases3 j; cbn [d_gammaDD UIUCBlackHole set2 Nat.eqb andb zero2]; try exact I.
    + apply wd_sdiv; [apply wd_smul; [exact WS |] | |].
      * apply wd_spow, wd_sadd; [exact I |]. apply wd_sdiv; [apply WQ | exact I | cbn; lra].
      * apply wd_smul; [exact I | apply wd_ssub; [exact WB | apply WQ]].
      * change (exx v 0%nat ^ 3 * (eval v U_rBL - (ep v "M"%string - rootv v)) <> 0). apply Rgt_not_eq, Rmult_lt_0_compat; [now apply pow_lt | exact B1].
    + exact WS.
    + apply wd_smul; [apply wd_sdiv; auto; lra | exact I].
  - intros i Hi. cases3 i; unfold U_beta; cbn [set1 Nat.eqb zero1]; try exact I. unfold U_betaph. cbn [wd]. repeat split; auto; try exact I; try (now apply Rgt_not_eq); change (4 * exx v 0%nat <> 0); lra.
Qed.
(** with dR = d r_BL / d r *)
Lemma U_dbeta : forall v, U_dom v ->
  let r := exx v 0%nat in let M := ep v "M"%string in let a := M * ep v "chi"%string in let Rb := eval v U_rBL in
  let s := sin (exx v 1%nat) in let A := eval v U_AA in let dR := 1 - (M + rootv v) ^ 2 / (16 * r ^ 2) in
  eval v (diff 0 U_betaph) = - (2 * M * a) * dR * (A - Rb * (4 * Rb * (Rb ^ 2 + a ^ 2) - (2 * Rb - 2 * M) * a ^ 2 * s ^ 2)) / A ^ 2 /\
  eval v (diff 1 U_betaph) = - (2 * M * a) * Rb * (2 * eval v U_DEL * a ^ 2 * s * cos (exx v 1%nat)) / A ^ 2.
Proof.
  intros v D r M a Rb s A dR. destruct (U_root v D) as (Q0 & Q2 & P & ER). destruct (U_pos v D) as (R0 & _ & _ & B1 & B2 & _ & _ & SP & AP). fold r in R0. fold A in AP.
  assert (EA : A = (Rb ^ 2 + a ^ 2) ^ 2 - (Rb ^ 2 - 2 * M * Rb + a ^ 2) * a ^ 2 * s ^ 2) by reflexivity.
  assert (ED : eval v U_DEL = Rb ^ 2 - 2 * M * Rb + a ^ 2) by reflexivity.
  assert (EB : eval v (diff 0 U_rBL) = dR).
  { unfold dR. norm_ex. fold M r. change (sqrt (M ^ 2 - (M * ep v "chi"%string) ^ 2)) with (rootv v). field. lra. }
  rewrite ED, EA. rewrite EA in AP. split.
  - norm_ex. fold M r s. change (sqrt (M ^ 2 - (M * ep v "chi"%string) ^ 2)) with (rootv v). fold a.
    change (r * (1 + (M + rootv v) / (4 * r)) ^ 2) with Rb.
    assert (EE : (1 + (M + rootv v) / (4 * r)) ^ 2 + r * (2 * (1 + (M + rootv v) / (4 * r)) * (- ((M + rootv v) * 4) / (4 * r * (4 * r)))) = dR) by (unfold dR; field; lra).
    rewrite EE. rewrite <- EA in *. clear EE EA. clearbody A Rb dR a s M. field. lra.
  - norm_ex. fold M r s. change (sqrt (M ^ 2 - (M * ep v "chi"%string) ^ 2)) with (rootv v). fold a.
    change (r * (1 + (M + rootv v) / (4 * r)) ^ 2) with Rb. rewrite <- EA in *. clear EA. clearbody A Rb dR a s M. field. lra.
Qed.
Lemma U_sqrts : forall v, U_dom v ->
  let r := exx v 0%nat in let M := ep v "M"%string in let Rb := eval v U_rBL in let q := rootv v in
  let S := eval v U_SIG in let A := eval v U_AA in
  exists p w, 0 < p /\ 0 < w /\ p * p = r * (Rb - (M - q)) /\ w * w = A * S /\
    eval v U_alpha = (r - (M + q) / 4) * p * S / (r * w) /\ sqrt (r * (Rb - (M - q))) = p /\ sqrt ((Rb - (M - q)) / r) = p / r /\ sqrt (A * S) = w.
Proof.
  intros v D r M Rb q S A. destruct (U_pos v D) as (R0 & RH & _ & B1 & B2 & DE & DP & SP & AP). fold r M Rb q S A in R0, RH, B1, B2, DE, SP, AP.
  assert (X1 : 0 < r * (Rb - (M - q))) by now apply Rmult_lt_0_compat. assert (X2 : 0 < A * S) by now apply Rmult_lt_0_compat.
  exists (sqrt (r * (Rb - (M - q)))), (sqrt (A * S)). pose proof (sqrt_lt_R0 _ X1) as P0. pose proof (sqrt_lt_R0 _ X2) as W0.
  pose proof (sqrt_sqrt _ (Rlt_le _ _ X1)) as P2. pose proof (sqrt_sqrt _ (Rlt_le _ _ X2)) as W2.
  set (p := sqrt (r * (Rb - (M - q)))) in *. set (w := sqrt (A * S)) in *. repeat split; auto.
  - change (sqrt (eval v U_DEL * S / A) = (r - (M + q) / 4) * p * S / (r * w)). apply sqrt_lem_1.
    + apply Rlt_le, Rdiv_lt_0_compat; [apply Rmult_lt_0_compat |]; assumption.
    + apply Rlt_le, Rdiv_lt_0_compat; repeat apply Rmult_lt_0_compat; lra.
    + rewrite DE. replace ((r - (M + q) / 4) * p * S / (r * w) * ((r - (M + q) / 4) * p * S / (r * w))) with ((r - (M + q) / 4) ^ 2 * (p * p) * S ^ 2 / (r ^ 2 * (w * w))) by (field; lra).
      rewrite P2, W2. field. lra.
  - apply sqrt_lem_1.
    + apply Rlt_le, Rdiv_lt_0_compat; assumption.
    + apply Rlt_le, Rdiv_lt_0_compat; assumption.
    + replace (p / r * (p / r)) with (p * p / (r * r)) by (field; lra). rewrite P2. field. lra.
Qed.

(** UIUCBlackHole is the Kerr spacetime at an instant: with Kerr's lapse and shift the data do not evolve ... *)
Theorem C78_uiuc_stationary : forall v, U_dom v ->
  stationary v (d_gammaDD UIUCBlackHole) (d_KDD UIUCBlackHole) (fun w => eval w U_alpha) (fun i w => eval w (U_beta i)).
Proof.
  intros v D. destruct (U_wd v D) as (WG & WB). apply stat_of; auto. clear WG WB.
  destruct (U_sqrts v D) as (p & w & P0 & W0 & P2 & W2 & EAL & S1 & S2 & S3). destruct (U_dbeta v D) as (D0 & D1).
  destruct (U_pos v D) as (R0 & RH & _ & B1 & B2 & DE & DP & SP & AP).
  assert (Z2 : eval v (diff 2 U_betaph) = 0). { norm_ex. unfold Rdiv. ring. }
  assert (ES : eval v U_SIG = eval v U_rBL ^ 2 + (ep v "M"%string * ep v "chi"%string) ^ 2 * cos (exx v 1%nat) ^ 2) by reflexivity.
  assert (EA : eval v U_AA = (eval v U_rBL ^ 2 + (ep v "M"%string * ep v "chi"%string) ^ 2) ^ 2 - eval v U_DEL * (ep v "M"%string * ep v "chi"%string) ^ 2 * sin (exx v 1%nat) ^ 2) by reflexivity.
  assert (EDL : eval v U_DEL = eval v U_rBL ^ 2 - 2 * ep v "M"%string * eval v U_rBL + (ep v "M"%string * ep v "chi"%string) ^ 2) by reflexivity.
  assert (K02 : eval v U_Krph = ep v "M"%string * (ep v "M"%string * ep v "chi"%string) * sin (exx v 1%nat) ^ 2 / (eval v U_SIG * w)
    * (3 * eval v U_rBL ^ 4 + 2 * (ep v "M"%string * ep v "chi"%string) ^ 2 * eval v U_rBL ^ 2 - (ep v "M"%string * ep v "chi"%string) ^ 4 - (ep v "M"%string * ep v "chi"%string) ^ 2 * (eval v U_rBL ^ 2 - (ep v "M"%string * ep v "chi"%string) ^ 2) * sin (exx v 1%nat) ^ 2)
    * (1 + (ep v "M"%string + rootv v) / (4 * exx v 0%nat)) / p).
  { rewrite <- S1, <- S3. reflexivity. }
  assert (K12 : eval v U_Kthph = - (2 * (ep v "M"%string * ep v "chi"%string) ^ 3 * ep v "M"%string * eval v U_rBL * cos (exx v 1%nat) * sin (exx v 1%nat) ^ 3 / (eval v U_SIG * w))
    * (exx v 0%nat - (ep v "M"%string + rootv v) / 4) * (p / exx v 0%nat)).
  { rewrite <- S2, <- S3. reflexivity. }
  assert (G22 : eval v (d_gammaDD UIUCBlackHole 2 2) = eval v U_AA / eval v U_SIG * sin (exx v 1%nat) ^ 2) by reflexivity.
  assert (ZG : forall i j, (i < 3)%nat -> (j < 3)%nat -> eval v (diff 2 (d_gammaDD UIUCBlackHole i j)) = 0).
  { intros i j Hi Hj. cases3 i; cases3 j; norm_ex; try (unfold Rdiv; ring). }
  clear S1 S2 S3.
  assert (C02 : 2 * eval v U_alpha * eval v U_Krph = eval v U_AA / eval v U_SIG * sin (exx v 1%nat) ^ 2 * eval v (diff 0 U_betaph)).
  { rewrite EAL, K02, D0. clear - R0 RH B2 SP AP P0 W0 W2 EA EDL. rewrite EDL in EA.
    set (A := eval v U_AA) in *. set (S := eval v U_SIG) in *. set (Rb := eval v U_rBL) in *. set (M := ep v "M"%string) in *. set (a := M * ep v "chi"%string) in *.
    set (r := exx v 0%nat) in *. set (s := sin (exx v 1%nat)) in *. set (q := rootv v) in *. clearbody A S Rb a r s q. clearbody M.
    transitivity (2 * M * a * s ^ 2 * (r - (M + q) / 4) / r * (1 + (M + q) / (4 * r)) *
      (3 * Rb ^ 4 + 2 * a ^ 2 * Rb ^ 2 - a ^ 4 - a ^ 2 * (Rb ^ 2 - a ^ 2) * s ^ 2) / (w * w)); [field; lra |]. rewrite W2.
    assert (EN : - (A - Rb * (4 * Rb * (Rb ^ 2 + a ^ 2) - (2 * Rb - 2 * M) * a ^ 2 * s ^ 2)) = 3 * Rb ^ 4 + 2 * a ^ 2 * Rb ^ 2 - a ^ 4 - a ^ 2 * (Rb ^ 2 - a ^ 2) * s ^ 2) by (rewrite EA; ring).
    rewrite <- EN. clear EN EA W2 EDL. field. lra. }
  assert (C12 : 2 * eval v U_alpha * eval v U_Kthph = eval v U_AA / eval v U_SIG * sin (exx v 1%nat) ^ 2 * eval v (diff 1 U_betaph)).
  { rewrite EAL, K12, D1, DE. clear - R0 RH B2 SP AP P0 W0 W2 P2.
    set (A := eval v U_AA) in *. set (S := eval v U_SIG) in *. set (Rb := eval v U_rBL) in *. set (M := ep v "M"%string) in *. set (a := M * ep v "chi"%string) in *.
    set (r := exx v 0%nat) in *. set (s := sin (exx v 1%nat)) in *. set (q := rootv v) in *. clearbody A S Rb a r s q. clearbody M.
    transitivity (- (4 * a ^ 3 * M * Rb * cos (exx v 1%nat) * s ^ 3 * (r - (M + q) / 4) ^ 2) * (p * p) / (r * r) / (w * w)); [field; lra |]. rewrite W2, P2. field. lra. }
  intros i j Hi Hj. rewrite s3_eq. rewrite !ZG by assumption.
  cases3 i; cases3 j; unfold U_beta; cbn [set1 Nat.eqb zero1 diff];
    rewrite ?G22, ?Z2; change (eval v (d_KDD UIUCBlackHole 0 2)) with (eval v U_Krph); change (eval v (d_KDD UIUCBlackHole 2 0)) with (eval v U_Krph);
    change (eval v (d_KDD UIUCBlackHole 1 2)) with (eval v U_Kthph); change (eval v (d_KDD UIUCBlackHole 2 1)) with (eval v U_Kthph);
    rewrite ?C02, ?C12; cbn [d_gammaDD d_KDD UIUCBlackHole set2 Nat.eqb andb zero2 eval]; change (eval v (zero1 0)) with 0; change (eval v (zero1 1)) with 0; ring.
Qed.

(** ... and the line element is Kerr's in Boyer-Lindquist coordinates, pulled back under r -> r_BL = r (1 + r_+ / (4 r))^2 *)
Definition boyer_lindquist (M a Rb th : R) (mu nu : nat) : R :=
  let S := Rb ^ 2 + a ^ 2 * cos th ^ 2 in
  match mu, nu with
  | O, O => - (1 - 2 * M * Rb / S)
  | O, 3%nat | 3%nat, O => - (2 * M * a * Rb * sin th ^ 2 / S)
  | 1%nat, 1%nat => S / (Rb ^ 2 - 2 * M * Rb + a ^ 2)
  | 2%nat, 2%nat => S
  | 3%nat, 3%nat => (Rb ^ 2 + a ^ 2 + 2 * M * a ^ 2 * Rb * sin th ^ 2 / S) * sin th ^ 2
  | _, _ => 0
  end.
Theorem C78_uiuc_kerr : forall v, U_dom v ->
  let M := ep v "M"%string in let a := M * ep v "chi"%string in
  exists dR, d_at (fun w => eval w U_rBL) 0 v dR /\ forall mu nu, (mu < 4)%nat -> (nu < 4)%nat ->
    g4 (eval v U_alpha) (fun i => eval v (U_beta i)) (fun i j => eval v (d_gammaDD UIUCBlackHole i j)) mu nu =
    (if Nat.eqb mu 1 then dR else 1) * (if Nat.eqb nu 1 then dR else 1) * boyer_lindquist M a (eval v U_rBL) (exx v 1%nat) mu nu.
Proof.
  intros v D M a. destruct (U_root v D) as (Q0 & Q2 & P & ER). destruct (U_pos v D) as (R0 & RH & E1 & B1 & B2 & DE & DP & SP & AP).
  exists (1 - (M + rootv v) ^ 2 / (16 * exx v 0%nat ^ 2)). split.
  { assert (WB : wd v U_rBL). { cbv - [eval Rlt Rplus Rmult Rdiv Rminus IZR ep exx pow not sin cos sqrt]; cbn [eval]. repeat split; auto; lra. }
    assert (EB : eval v (diff 0 U_rBL) = 1 - (M + rootv v) ^ 2 / (16 * exx v 0%nat ^ 2)).
    { norm_ex. fold M. change (sqrt (M ^ 2 - (M * ep v "chi"%string) ^ 2)) with (rootv v). field. lra. }
    rewrite <- EB. now apply diff_correct. }
  destruct (U_sqrts v D) as (p & w & P0 & W0 & P2 & W2 & EAL & _).
  assert (ES : eval v U_SIG = eval v U_rBL ^ 2 + a ^ 2 * cos (exx v 1%nat) ^ 2) by reflexivity.
  assert (EA : eval v U_AA = (eval v U_rBL ^ 2 + a ^ 2) ^ 2 - eval v U_DEL * a ^ 2 * sin (exx v 1%nat) ^ 2) by reflexivity.
  assert (EDL : eval v U_DEL = eval v U_rBL ^ 2 - 2 * M * eval v U_rBL + a ^ 2) by reflexivity.
  assert (EAL2 : eval v U_alpha ^ 2 = eval v U_DEL * eval v U_SIG / eval v U_AA).
  { change (sqrt (eval v U_DEL * eval v U_SIG / eval v U_AA) ^ 2 = eval v U_DEL * eval v U_SIG / eval v U_AA).
    rewrite <- Rsqr_pow2. apply Rsqr_sqrt, Rlt_le, Rdiv_lt_0_compat; [apply Rmult_lt_0_compat |]; assumption. }
  assert (G22 : eval v (d_gammaDD UIUCBlackHole 2 2) = eval v U_AA / eval v U_SIG * sin (exx v 1%nat) ^ 2) by reflexivity.
  assert (G00 : eval v (d_gammaDD UIUCBlackHole 0 0) = eval v U_SIG * (exx v 0%nat + (M + rootv v) / 4) ^ 2 / (exx v 0%nat ^ 3 * (eval v U_rBL - (M - rootv v)))) by reflexivity.
  assert (EBE : eval v U_betaph = - (2 * M * a * eval v U_rBL / eval v U_AA)) by reflexivity.
  pose proof (sin2_cos2 (exx v 1%nat)) as SC. unfold Rsqr in SC.
  assert (S2 : sin (exx v 1%nat) * sin (exx v 1%nat) = 1 - cos (exx v 1%nat) * cos (exx v 1%nat)) by lra.
  (* A = (R^2 + a^2) Sigma + 2 M a^2 R sin^2 *)
  assert (EA' : eval v U_AA = (eval v U_rBL ^ 2 + a ^ 2) * eval v U_SIG + 2 * M * a ^ 2 * eval v U_rBL * sin (exx v 1%nat) ^ 2) by (rewrite EA, EDL, ES; ring [S2]).
  (* Delta Sigma^2 = A (Sigma - 2 M R) + 4 M^2 a^2 R^2 sin^2 *)
  assert (KEY : eval v U_DEL * eval v U_SIG ^ 2 = eval v U_AA * (eval v U_SIG - 2 * M * eval v U_rBL) + 4 * M ^ 2 * a ^ 2 * eval v U_rBL ^ 2 * sin (exx v 1%nat) ^ 2)
    by (rewrite EA', EDL, ES; ring [S2]).
  assert (T00 : - eval v U_alpha ^ 2 + eval v U_AA / eval v U_SIG * sin (exx v 1%nat) ^ 2 * eval v U_betaph * eval v U_betaph = - (1 - 2 * M * eval v U_rBL / eval v U_SIG)).
  { rewrite EAL2, EBE. transitivity (- (eval v U_DEL * eval v U_SIG ^ 2) / (eval v U_AA * eval v U_SIG) + 4 * M ^ 2 * a ^ 2 * eval v U_rBL ^ 2 * sin (exx v 1%nat) ^ 2 / (eval v U_AA * eval v U_SIG)); [field; lra |].
    rewrite KEY. field. lra. }
  assert (T03 : eval v U_AA / eval v U_SIG * sin (exx v 1%nat) ^ 2 * eval v U_betaph = - (2 * M * a * eval v U_rBL * sin (exx v 1%nat) ^ 2 / eval v U_SIG)) by (rewrite EBE; field; lra).
  assert (T33 : eval v U_AA / eval v U_SIG * sin (exx v 1%nat) ^ 2 = (eval v U_rBL ^ 2 + a ^ 2 + 2 * M * a ^ 2 * eval v U_rBL * sin (exx v 1%nat) ^ 2 / eval v U_SIG) * sin (exx v 1%nat) ^ 2)
    by (rewrite EA'; field; lra).
  assert (T11 : eval v U_SIG * (exx v 0%nat + (M + rootv v) / 4) ^ 2 / (exx v 0%nat ^ 3 * (eval v U_rBL - (M - rootv v)))
     = (1 - (M + rootv v) ^ 2 / (16 * exx v 0%nat ^ 2)) * (1 - (M + rootv v) ^ 2 / (16 * exx v 0%nat ^ 2)) * (eval v U_SIG / eval v U_DEL)).
  { rewrite DE. fold M in B1, RH |- *. field. repeat split; lra. }
  intros mu nu Hmu Hnu. destruct mu as [| [| [| [| mu]]]]; [| | | | lia]; destruct nu as [| [| [| [| nu]]]]; try lia; cbn [Nat.eqb]; unfold g4, boyer_lindquist;
    rewrite ?s3_eq; rewrite <- ?ES, <- ?EDL; unfold U_beta; cbn [set1 Nat.eqb zero1]; rewrite ?G22, ?G00, ?T11;
    cbn [d_gammaDD UIUCBlackHole set2 Nat.eqb andb zero2 eval]; change (eval v (zero1 0)) with 0; change (eval v (zero1 1)) with 0; try ring; try lra.
Qed.

(** M = 5 and chi = 3/5: a = 3, r_+ = 9; at r = 9 on the equator r_BL = 225/16 *)
Definition U_at : env := MkEnv (fun s => if String.eqb s "chi" then 3 / 5 else 5) (fun k => match k with 0%nat => 9 | 1%nat => PI / 2 | _ => 0 end) (fun _ => 0) (fun _ _ => 0).
Example C78_uiuc_example : U_dom U_at /\ eval U_at U_rp = 9 /\ eval U_at U_rBL = 225 / 16.
Proof.
  assert (Q : sqrt (5 ^ 2 - (5 * (3 / 5)) ^ 2) = 4) by (replace (5 ^ 2 - (5 * (3 / 5)) ^ 2) with (4 * 4) by field; apply sqrt_square; lra).
  assert (E : eval U_at U_rp = 9). { change (5 + sqrt (5 ^ 2 - (5 * (3 / 5)) ^ 2) = 9). rewrite Q. lra. }
  split; [| split; [exact E |]].
  - unfold U_dom. rewrite E. cbn. lra.
  - change (9 * (1 + eval U_at U_rp / (4 * 9)) ^ 2 = 225 / 16). rewrite E. lra.
Qed.

Print Assumptions C78_uiuc_stationary.
Print Assumptions C78_uiuc_kerr.
