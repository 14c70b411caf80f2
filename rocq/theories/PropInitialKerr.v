(** C78: the initial data of InitialData_Spherical.py for a rotating black hole. *)
From Coq Require Import String List ZArith Bool Arith Lia Reals Lra.
From Verif Require Import PyBase RefMetric RefMetricReal RefMetricCalc RefMetricFacts Inverter InverterFacts GRMetric BSSN BSSNFacts BSSNCalc BSSNRicci InitialData PropInitialData.
Import ListNotations.
Local Open Scope R_scope.

(** ** OffsetKerrSchild *)
Definition K_dom (v : env) : Prop := 0 < ep v "M"%string /\ 0 < exx v 0%nat + ep v "r0"%string.
Ltac kdom v := 
  let H := fresh in
  assert (H : 0 < (exx v 0%nat + ep v "r0"%string) * (exx v 0%nat + ep v "r0"%string) + ep v "a"%string * ep v "a"%string * cos (exx v 1%nat) ^ 2) by nra;
  assert (0 < 1 + 2 * ep v "M"%string * (exx v 0%nat + ep v "r0"%string) / ((exx v 0%nat + ep v "r0"%string) * (exx v 0%nat + ep v "r0"%string) + ep v "a"%string * ep v "a"%string * cos (exx v 1%nat) ^ 2))
    by (apply Rplus_lt_0_compat; [lra |]; apply Rdiv_lt_0_compat; [nra | exact H]).
Lemma K_g : forall v, K_dom v -> (forall i j, (i < 3)%nat -> (j < 3)%nat -> wd v (d_gammaDD OffsetKerrSchild i j)) /\
  forall i, (i < 3)%nat -> wd v (set1 0 K_betar zero1 i).
Proof.
  intros v (M0 & R0). kdom v. split.
  - intros i j Hi Hj. cases3 i; cases3 j; cbv - [eval Rlt Rplus Rmult Rdiv Rminus IZR ep exx pow not sin cos sqrt]; cbn [eval]; repeat split; auto; lra.
  - intros i Hi. cases3 i; cbv - [eval Rlt Rplus Rmult Rdiv Rminus IZR ep exx pow not sin cos sqrt]; cbn [eval]; repeat split; auto; try lra.
    all: apply Rgt_not_eq, sqrt_lt_R0; assumption.
Qed.

Theorem C78_kerr_schild_stationary : forall v, K_dom v ->
  stationary v (d_gammaDD OffsetKerrSchild) (d_KDD OffsetKerrSchild) (fun w => eval w K_alpha) (fun i w => eval w (set1 0 K_betar zero1 i)).
Proof.
  intros v D. destruct (K_g v D) as (WG & WB). apply stat_of; auto. destruct D as (M0 & R0). kdom v. clear WG WB.
  intros i j Hi Hj. rewrite s3_eq.
  assert (C2 : cos (2 * exx v 1%nat) = 2 * cos (exx v 1%nat) ^ 2 - 1) by (rewrite cos_2a_cos; ring).
  assert (C4 : cos (4 * exx v 1%nat) = 2 * (2 * cos (exx v 1%nat) ^ 2 - 1) ^ 2 - 1).
  { replace (4 * exx v 1%nat) with (2 * (2 * exx v 1%nat)) by ring. rewrite cos_2a_cos, C2. ring. }
  pose proof (sin2_cos2 (exx v 1%nat)) as SC. unfold Rsqr in SC.
  assert (S2 : sin (exx v 1%nat) * sin (exx v 1%nat) = 1 - cos (exx v 1%nat) * cos (exx v 1%nat)) by lra. clear SC.
  assert (SQ : sqrt (2 * ep v "M"%string * (exx v 0%nat + ep v "r0"%string) / (ep v "a"%string * ep v "a"%string * cos (exx v 1%nat) ^ 2 + (exx v 0%nat + ep v "r0"%string) * (exx v 0%nat + ep v "r0"%string)) + 1)
     = sqrt (1 + 2 * ep v "M"%string * (exx v 0%nat + ep v "r0"%string) / ((exx v 0%nat + ep v "r0"%string) * (exx v 0%nat + ep v "r0"%string) + ep v "a"%string * ep v "a"%string * cos (exx v 1%nat) ^ 2)))
    by (f_equal; rewrite (Rplus_comm (ep v "a"%string * _ * _)); ring).
  pose proof (sqrt_lt_R0 _ H0) as Q0. pose proof (sqrt_sqrt _ (Rlt_le _ _ H0)) as Q2.
  set (rho := (exx v 0%nat + ep v "r0"%string) * (exx v 0%nat + ep v "r0"%string) + ep v "a"%string * ep v "a"%string * cos (exx v 1%nat) ^ 2) in *.
  assert (EM : ep v "M"%string = (sqrt (1 + 2 * ep v "M"%string * (exx v 0%nat + ep v "r0"%string) / rho) * sqrt (1 + 2 * ep v "M"%string * (exx v 0%nat + ep v "r0"%string) / rho) - 1) * rho / (2 * (exx v 0%nat + ep v "r0"%string)))
    by (rewrite Q2; field; lra).
  assert (EA : ep v "a"%string * ep v "a"%string * (2 * cos (exx v 1%nat) ^ 2 - 1) + ep v "a"%string * ep v "a"%string + 2 * (exx v 0%nat + ep v "r0"%string) * (exx v 0%nat + ep v "r0"%string) = 2 * rho)
    by (unfold rho; ring).
  cases3 i; cases3 j; norm_ex; try ring; rewrite ?C2, ?C4, ?SQ, ?EA; fold rho; set (q := sqrt (1 + 2 * ep v "M"%string * (exx v 0%nat + ep v "r0"%string) / rho)) in *; clearbody q.
  all: clear SQ H0 Q2 C2 C4; generalize dependent (ep v "M"%string); intros M M0 EM.
  all: subst M; assert (RN : rho <> 0) by lra; assert (KN : exx v 0%nat + ep v "r0"%string <> 0) by lra; assert (QN : q <> 0) by lra.
  all: assert (ER : rho = (exx v 0%nat + ep v "r0"%string) * (exx v 0%nat + ep v "r0"%string) + ep v "a"%string * ep v "a"%string * cos (exx v 1%nat) ^ 2) by reflexivity; clearbody rho.
  all: clear M0 R0 H Q0 EA; generalize dependent (exx v 0%nat + ep v "r0"%string); intros rk KN ER.
  all: generalize dependent (sin (exx v 1%nat)); generalize dependent (cos (exx v 1%nat)); generalize dependent (ep v "a"%string); intros a c ER s S2.
  all: assert (EK : rk * rk = rho - a * a * c * c) by (rewrite ER; ring); clear ER.
  all: assert (BN : 2 * rho + 4 * ((q * q - 1) * rho / (2 * rk)) * rk <> 0) by
    (replace (2 * rho + 4 * ((q * q - 1) * rho / (2 * rk)) * rk) with (2 * rho * (q * q)) by (field; assumption); repeat apply Rmult_integral_contrapositive_currified; lra).
  all: replace (2 * rho + 4 * ((q * q - 1) * rho / (2 * rk)) * rk) with (2 * rho * (q * q)) by (field; assumption).
  all: field_simplify_eq; [ring [S2 EK] | repeat split; assumption].
Qed.

(** The line element is Kerr's in Kerr-Schild form: the pull-back, under the map from (r, th, ph) to the Cartesian coordinates
    x + i y = (r + r0 + i a) e^(i ph) sin(th), z = (r + r0) cos(th), of eta + 2 M R^3 / (R^4 + a^2 z^2) L L with R = r + r0 and
    L = (1, (R x + a y) / (R^2 + a^2), (R y - a x) / (R^2 + a^2), z / R). *)
Definition ksX (a : nat) : ex :=
  let R := Add (XX 0) (Par "r0") in let A := Par "a" in
  match a with
  | 0%nat => Mul (Sub (Mul R (Cos (XX 2))) (Mul A (Sin (XX 2)))) (Sin (XX 1))
  | 1%nat => Mul (Add (Mul R (Sin (XX 2))) (Mul A (Cos (XX 2)))) (Sin (XX 1))
  | _ => Mul R (Cos (XX 1))
  end.
Definition kerr_schild (M a rk : R) (X : nat -> R) (mu nu : nat) : R :=
  let L := fun mu : nat => match mu with 0%nat => 1 | 1%nat => (rk * X 0%nat + a * X 1%nat) / (rk ^ 2 + a ^ 2) | 2%nat => (rk * X 1%nat - a * X 0%nat) / (rk ^ 2 + a ^ 2) | _ => X 2%nat / rk end in
  (if Nat.eqb mu nu then if Nat.eqb mu 0 then -1 else 1 else 0) + 2 * M * rk ^ 3 / (rk ^ 4 + a ^ 2 * X 2%nat ^ 2) * L mu * L nu.
Definition sum4 (f : nat -> R) : R := f 0%nat + f 1%nat + f 2%nat + f 3%nat.
Theorem C78_kerr_schild : forall v, K_dom v ->
  let M := ep v "M"%string in let a := ep v "a"%string in let rk := exx v 0%nat + ep v "r0"%string in let X := fun b => eval v (ksX b) in
  (X 0%nat ^ 2 + X 1%nat ^ 2) / (rk ^ 2 + a ^ 2) + X 2%nat ^ 2 / rk ^ 2 = 1 /\
  exists dX, (forall b k, (b < 3)%nat -> (k < 3)%nat -> d_at (fun w => eval w (ksX b)) k v (dX b k)) /\
  let J := fun mu nu => match mu, nu with O, O => 1 | S b, S k => dX b k | _, _ => 0 end in
  forall mu nu, (mu < 4)%nat -> (nu < 4)%nat ->
    g4 (eval v K_alpha) (fun i => eval v (set1 0 K_betar zero1 i)) (fun i j => eval v (d_gammaDD OffsetKerrSchild i j)) mu nu
    = sum4 (fun A => sum4 (fun B => kerr_schild M a rk X A B * J A mu * J B nu)).
Proof.
  intros v (M0 & R0) M a rk X. kdom v.
  assert (PP : 0 < rk ^ 2 + a ^ 2) by (unfold rk, a; nra).
  pose proof (sin2_cos2 (exx v 1%nat)) as SC. pose proof (sin2_cos2 (exx v 2%nat)) as SP. unfold Rsqr in SC, SP.
  assert (C2 : cos (exx v 1%nat) * cos (exx v 1%nat) = 1 - sin (exx v 1%nat) * sin (exx v 1%nat)) by lra.
  assert (CP : cos (exx v 2%nat) * cos (exx v 2%nat) = 1 - sin (exx v 2%nat) * sin (exx v 2%nat)) by lra. clear SC SP.
  assert (L0 : (rk * X 0%nat + a * X 1%nat) / (rk ^ 2 + a ^ 2) = cos (exx v 2%nat) * sin (exx v 1%nat)).
  { unfold X. cbn [ksX eval]. fold rk. fold a. field. lra. }
  assert (L1 : (rk * X 1%nat - a * X 0%nat) / (rk ^ 2 + a ^ 2) = sin (exx v 2%nat) * sin (exx v 1%nat)).
  { unfold X. cbn [ksX eval]. fold rk. fold a. field. lra. }
  assert (L2 : X 2%nat / rk = cos (exx v 1%nat)). { unfold X. cbn [ksX eval]. fold rk. field. unfold rk. lra. }
  split.
  { unfold X. cbn [ksX eval]. fold rk. fold a. apply Rmult_eq_reg_r with ((rk ^ 2 + a ^ 2) * rk ^ 2); [| apply Rmult_integral_contrapositive_currified; [lra | apply pow_nonzero; unfold rk; lra]].
    field_simplify_eq; [ring [C2 CP] | split; [unfold rk |]; lra]. }
  exists (fun b k => eval v (diff k (ksX b))). split.
  { intros b k Hb Hk. apply diff_correct. cases3 b; cbn [ksX wd]; tauto. }
  assert (HH : 2 * M * rk ^ 3 / (rk ^ 4 + a ^ 2 * X 2%nat ^ 2) = 2 * M * rk / (rk * rk + a * a * cos (exx v 1%nat) ^ 2)).
  { unfold X. cbn [ksX eval]. fold rk. field. fold rk a in H. assert (RK : rk <> 0) by (unfold rk; lra). split; [apply Rgt_not_eq; exact H |]. replace (rk ^ 4 + (a * (rk * cos (exx v 1%nat))) ^ 2) with (rk ^ 2 * (rk * rk + a * a * cos (exx v 1%nat) ^ 2)) by ring.
    apply Rmult_integral_contrapositive_currified; [now apply pow_nonzero | apply Rgt_not_eq; exact H]. }
  pose proof (sqrt_lt_R0 _ H0) as Q0. pose proof (sqrt_sqrt _ (Rlt_le _ _ H0)) as Q2.
  intros J mu nu Hm Hn. unfold sum4, kerr_schild. rewrite L0, L1, L2, HH. cbn [Nat.eqb]. clear L0 L1 L2 HH. subst J. cbv beta iota.
  fold M a rk in H, H0, Q0, Q2.
  destruct mu as [| [| [| [| mu]]]]; try lia; destruct nu as [| [| [| [| nu]]]]; try lia; unfold g4; rewrite ?s3_eq; norm_ex; fold M a rk; try ring.
  all: set (q := sqrt (1 + 2 * M * rk / (rk * rk + a * a * cos (exx v 1%nat) ^ 2))) in *; clearbody q; clear H0.
  all: set (rho := rk * rk + a * a * cos (exx v 1%nat) ^ 2) in *; assert (EM : M = (q * q - 1) * rho / (2 * rk)) by (rewrite Q2; field; unfold rk; split; lra).
  all: assert (EK : rk * rk = rho - a * a * (1 - sin (exx v 1%nat) * sin (exx v 1%nat))) by (unfold rho; ring [C2]).
  all: assert (RN : rk <> 0) by (unfold rk; lra); clearbody M rho rk a; clear Q2 X M0 R0; subst M.
  all: field_simplify_eq; [ring [C2 CP EK] | repeat split; lra].
Qed.

(** M = 1, a = 1/2, r0 = 1, at r = 1 on the equator: rho^2 = 4, 1 + 2 M r / rho^2 = 2 *)
Definition K_at : env := MkEnv (fun s => if String.eqb s "a" then 1 / 2 else 1) (fun k => match k with 0%nat => 1 | 1%nat => PI / 2 | _ => 0 end) (fun _ => 0) (fun _ _ => 0).
Example C78_kerr_schild_example : K_dom K_at /\ eval K_at K_rho2 = 4 /\ eval K_at (d_gammaDD OffsetKerrSchild 0 0) = 2 /\ eval K_at (d_gammaDD OffsetKerrSchild 0 2) = -1.
Proof. unfold K_dom. cbn. rewrite cos_PI2, sin_PI2. repeat split; lra. Qed.

Print Assumptions C78_kerr_schild_stationary.
Print Assumptions C78_kerr_schild.
