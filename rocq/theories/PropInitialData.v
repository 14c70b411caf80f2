(** C78: the initial data of InitialData_Cartesian.py and InitialData_Spherical.py. *)
From Coq Require Import String List ZArith Bool Arith Lia Reals Lra.
From Verif Require Import PyBase RefMetric RefMetricReal RefMetricCalc RefMetricFacts Inverter InverterFacts GRMetric BSSN BSSNFacts BSSNCalc BSSNRicci InitialData.
Import ListNotations.
Local Open Scope R_scope.

(** ** What is meant *)
(** 2 alpha K_ij = L_beta gamma_ij: with this lapse and shift the metric does not change in time *)
Definition stationary (v : env) (g K : nat -> nat -> ex) (al : env -> R) (be : nat -> env -> R) : Prop :=
  exists dg db, (forall i j k, (i < 3)%nat -> (j < 3)%nat -> (k < 3)%nat -> d_at (fun w => eval w (g i j)) k v (dg i j k)) /\
  (forall i k, (i < 3)%nat -> (k < 3)%nat -> d_at (be i) k v (db i k)) /\
  forall i j, (i < 3)%nat -> (j < 3)%nat ->
    2 * al v * eval v (K i j) = s3 (fun k => be k v * dg i j k + eval v (g k j) * db k i + eval v (g i k) * db k j).
(** G is the Levi-Civita connection of g on [dom] *)
Definition levi_civita (dom : env -> Prop) (g : nat -> nat -> ex) (G : nat -> nat -> nat -> env -> R) : Prop :=
  forall w, dom w -> forall i j k, (i < 3)%nat -> (j < 3)%nat -> (k < 3)%nat -> G i j k w = G i k j w /\
    d_at (fun w => eval w (g i j)) k w (s3 (fun n => eval w (g n j) * G n i k w + eval w (g i n) * G n j k w)).
(** D_k K_ij *)
Definition cov (G : nat -> nat -> nat -> R) (K : nat -> nat -> R) (dK : nat -> nat -> nat -> R) (i j k : nat) : R :=
  dK i j k - s3 (fun n => G n i k * K n j) - s3 (fun n => G n j k * K i n).
(** the Hamiltonian and momentum constraints without matter hold on [dom] *)
Definition vacuum_data (dom : env -> Prop) (g K : nat -> nat -> ex) : Prop :=
  exists G, levi_civita dom g G /\ forall v, dom v -> exists u dG dK,
    (forall i j, (i < 3)%nat -> (j < 3)%nat -> s3 (fun k => u i k * eval v (g k j)) = if Nat.eqb i j then 1 else 0) /\
    (forall i j k l, (i < 3)%nat -> (j < 3)%nat -> (k < 3)%nat -> (l < 3)%nat -> d_at (G i j k) l v (dG i j k l)) /\
    (forall i j k, (i < 3)%nat -> (j < 3)%nat -> (k < 3)%nat -> d_at (fun w => eval w (K i j)) k v (dK i j k)) /\
    let Kv := fun i j => eval v (K i j) in let Gv := fun i j k => G i j k v in
    let trK := s3 (fun i => s3 (fun j => u i j * Kv i j)) in
    s3 (fun i => s3 (fun j => u i j * ricci Gv dG i j)) + trK ^ 2
      - s3 (fun i => s3 (fun j => s3 (fun k => s3 (fun l => u i k * u j l * Kv i j * Kv k l)))) = 0 /\
    forall i, (i < 3)%nat -> s3 (fun j => s3 (fun k => u j k * (cov Gv Kv dK k i j - cov Gv Kv dK j k i))) = 0.
(** the line element -alpha^2 dt^2 + gamma_ij (dx^i + beta^i dt)(dx^j + beta^j dt) in components *)
Definition g4 (al : R) (be : nat -> R) (g : nat -> nat -> R) (mu nu : nat) : R :=
  match mu, nu with
  | O, O => - al ^ 2 + s3 (fun i => s3 (fun j => g i j * be i * be j))
  | O, S j => s3 (fun i => g i j * be i)
  | S i, O => s3 (fun j => g i j * be j)
  | S i, S j => g i j
  end.

Ltac cases3 i := destruct i as [| [| [| i]]]; [| | | lia].
Ltac norm_ex := repeat match goal with |- context [eval ?v ?e] => progress (let n := eval vm_compute in e in change e with n) end; cbn [eval].

(** ** StaticTrumpet *)
Definition T_dom (v : env) : Prop := 0 < exx v 0%nat /\ 0 < exx v 0%nat + ep v "M"%string /\ sin (exx v 1%nat) <> 0.
Lemma T_g : forall v, T_dom v -> forall i j, (i < 3)%nat -> (j < 3)%nat -> wd v (d_gammaDD StaticTrumpet i j) /\ wd v (d_KDD StaticTrumpet i j).
Proof.
  intros v (R0 & RM & S) i j Hi Hj. assert (P : 0 < 1 + ep v "M"%string / exx v 0%nat).
  { replace (1 + ep v "M"%string / exx v 0%nat) with ((exx v 0%nat + ep v "M"%string) / exx v 0%nat) by (field; lra). apply Rdiv_lt_0_compat; lra. }
  assert (P2 : exx v 0%nat ^ 2 <> 0) by (apply pow_nonzero; lra).
  cases3 i; cases3 j; cbv - [eval Rlt Rplus Rmult Rdiv Rminus IZR ep exx pow not sin cos sqrt]; cbn [eval]; repeat split; try lra; auto.
Qed.
Lemma stat_of : forall v g K al be, (forall i j, (i < 3)%nat -> (j < 3)%nat -> wd v (g i j)) -> (forall i, (i < 3)%nat -> wd v (be i)) ->
  (forall i j, (i < 3)%nat -> (j < 3)%nat -> 2 * eval v al * eval v (K i j)
     = s3 (fun k => eval v (be k) * eval v (diff k (g i j)) + eval v (g k j) * eval v (diff i (be k)) + eval v (g i k) * eval v (diff j (be k)))) ->
  stationary v g K (fun w => eval w al) (fun i w => eval w (be i)).
Proof.
  intros v g K al be WG WB E. exists (fun i j k => eval v (diff k (g i j))), (fun i k => eval v (diff k (be i))). repeat split.
  - intros i j k Hi Hj Hk. apply diff_correct. auto.
  - intros i k Hi Hk. apply diff_correct. auto.
  - exact E.
Qed.
Theorem C78_trumpet_stationary : forall v, T_dom v ->
  stationary v (d_gammaDD StaticTrumpet) (d_KDD StaticTrumpet) (fun w => eval w T_alpha) (fun i w => eval w (set1 0 T_betar zero1 i)).
Proof.
  intros v D. pose proof (T_g v D) as W. destruct D as (R0 & RM & S). apply stat_of.
  - intros i j Hi Hj. now apply W.
  - intros i Hi. assert ((exx v 0%nat + ep v "M"%string) ^ 2 <> 0) by (apply pow_nonzero; lra).
    cases3 i; cbv - [eval Rlt Rplus Rmult Rdiv Rminus IZR ep exx pow not sin cos sqrt]; cbn [eval]; repeat split; try lra; auto.
  - assert (P : 0 < 1 + ep v "M"%string / exx v 0%nat).
    { replace (1 + ep v "M"%string / exx v 0%nat) with ((exx v 0%nat + ep v "M"%string) / exx v 0%nat) by (field; lra). apply Rdiv_lt_0_compat; lra. }
    pose proof (sqrt_lt_R0 _ P) as Q0. pose proof (sqrt_sqrt _ (Rlt_le _ _ P)) as Q2.
    intros i j Hi Hj. cases3 i; cases3 j; rewrite s3_eq; norm_ex; try ring.
    all: set (q := sqrt (1 + ep v "M"%string / exx v 0%nat)) in *; clearbody q; generalize dependent (ep v "M"%string); intros M RM P Q2;
      assert (EM : M = exx v 0%nat * (q * q - 1)) by (rewrite Q2; field; lra); subst M; field; repeat split; nra.
Qed.

(** In the areal radius R = r + M and the time T with dT = dt - h dr, the line element is Schwarzschild's,
    -(1 - 2M/R) dT^2 + dR^2 / (1 - 2M/R) + R^2 (dth^2 + sin(th)^2 dph^2) *)
Theorem C78_trumpet_schwarzschild : exists h : R -> R -> R, forall v, T_dom v ->
  let M := ep v "M"%string in let r := exx v 0%nat in let Ra := r + M in let f := 1 - 2 * M / Ra in let H := h M r in f <> 0 ->
  let schw := fun mu nu => match mu, nu with
    | 0%nat, 0%nat => - f | 0%nat, 1%nat => f * H | 1%nat, 0%nat => f * H | 1%nat, 1%nat => / f - f * H ^ 2 | 2%nat, 2%nat => Ra ^ 2 | 3%nat, 3%nat => Ra ^ 2 * sin (exx v 1%nat) ^ 2 | _, _ => 0 end in
  forall mu nu, (mu < 4)%nat -> (nu < 4)%nat ->
    g4 (eval v T_alpha) (fun i => eval v (set1 0 T_betar zero1 i)) (fun i j => eval v (d_gammaDD StaticTrumpet i j)) mu nu = schw mu nu.
Proof.
  exists (fun M r => M / (r - M) * ((r + M) / r)). intros v (R0 & RM & S) M r Ra f H F schw mu nu Hm Hn.
  assert (P : 0 < 1 + M / r). { replace (1 + M / r) with ((r + M) / r) by (field; unfold r; lra). apply Rdiv_lt_0_compat; unfold r, M; lra. }
  assert (RNM : r - M <> 0). { intros Q. apply F. unfold f, Ra. replace r with M by lra. unfold r, M in *. field. lra. }
  pose proof (sqrt_sqrt _ (Rlt_le _ _ P)) as Q2. assert (Q4 : sqrt (1 + M / r) ^ 4 = (1 + M / r) ^ 2) by (rewrite <- Q2 at 2; ring).
  destruct mu as [| [| [| [| mu]]]]; try lia; destruct nu as [| [| [| [| nu]]]]; try lia; unfold g4, schw; rewrite ?s3_eq; norm_ex; fold r; fold M; rewrite ?Q4; try ring.
  all: unfold f, H, Ra; field; repeat split; unfold r, M in *; lra.
Qed.

(** ** The constraints *)
Definition T_conn (i j k : nat) : ex :=
  let R := Add (XX 0) (Par "M") in
  match i, j, k with
  | 0, 0, 0 => Div (Opp (Par "M")) (Mul (XX 0) R)
  | 0, 1, 1 => Div (Opp (Pow (XX 0) 2)) R
  | 0, 2, 2 => Mul (Div (Opp (Pow (XX 0) 2)) R) (Pow (Sin (XX 1)) 2)
  | 1, 0, 1 | 1, 1, 0 | 2, 0, 2 | 2, 2, 0 => Div (Num 1) R
  | 1, 2, 2 => Opp (Mul (Sin (XX 1)) (Cos (XX 1)))
  | 2, 1, 2 | 2, 2, 1 => Div (Cos (XX 1)) (Sin (XX 1))
  | _, _, _ => Num 0
  end%nat.
Lemma T_gamma_val : forall v, T_dom v -> forall i j, (i < 3)%nat -> (j < 3)%nat -> eval v (d_gammaDD StaticTrumpet i j) =
  let r := exx v 0%nat in let R := r + ep v "M"%string in
  match i, j with 0%nat, 0%nat => R ^ 2 / r ^ 2 | 1%nat, 1%nat => R ^ 2 | 2%nat, 2%nat => R ^ 2 * sin (exx v 1%nat) ^ 2 | _, _ => 0 end.
Proof.
  intros v (R0 & RM & S) i j Hi Hj. cbn zeta. set (r := exx v 0%nat) in *. set (M := ep v "M"%string) in *.
  assert (P : 0 < 1 + M / r). { replace (1 + M / r) with ((r + M) / r) by (field; lra). apply Rdiv_lt_0_compat; lra. }
  pose proof (sqrt_sqrt _ (Rlt_le _ _ P)) as Q2. assert (Q4 : sqrt (1 + M / r) ^ 4 = (1 + M / r) ^ 2) by (rewrite <- Q2 at 2; ring).
  cases3 i; cases3 j; norm_ex; fold r; fold M; rewrite ?Q4; try reflexivity; field; lra.
Qed.
Theorem C78_trumpet_vacuum : vacuum_data T_dom (d_gammaDD StaticTrumpet) (d_KDD StaticTrumpet).
Proof.
  exists (fun i j k w => eval w (T_conn i j k)). split.
  - intros w D i j k Hi Hj Hk. pose proof (T_g w D) as W. pose proof (T_gamma_val w D) as V. pose proof D as (R0 & RM & S). split.
    + cases3 i; cases3 j; cases3 k; reflexivity.
    + replace (s3 _) with (eval w (diff k (d_gammaDD StaticTrumpet i j))); [apply diff_correct; now apply W |].
      rewrite s3_eq. rewrite !V by lia. clear V W.
      assert (P : 0 < 1 + ep w "M"%string / exx w 0%nat).
      { replace (1 + ep w "M"%string / exx w 0%nat) with ((exx w 0%nat + ep w "M"%string) / exx w 0%nat) by (field; lra). apply Rdiv_lt_0_compat; lra. }
      assert (Q0 := sqrt_lt_R0 _ P). assert (Q2 := sqrt_sqrt _ (Rlt_le _ _ P)).
      cases3 i; cases3 j; cases3 k; norm_ex; try ring.
      all: set (q := sqrt (1 + ep w "M"%string / exx w 0%nat)) in *; clearbody q; generalize dependent (ep w "M"%string); intros M RM P Q2;
        assert (EM : M = exx w 0%nat * (q * q - 1)) by (rewrite Q2; field; lra); subst M; field; repeat split; nra.
  - intros v D. exists (fun i j => if Nat.eqb i j then / eval v (d_gammaDD StaticTrumpet i i) else 0),
      (fun i j k l => eval v (diff l (T_conn i j k))), (fun i j k => eval v (diff k (d_KDD StaticTrumpet i j))).
    pose proof (T_g v D) as W. pose proof (T_gamma_val v D) as V. pose proof D as (R0 & RM & S).
    assert (N2 : exx v 0%nat ^ 2 <> 0) by (apply pow_nonzero; lra).
    repeat split.
    + intros i j Hi Hj. rewrite s3_eq. rewrite !V by lia. cases3 i; cases3 j; cbn [Nat.eqb]; try ring; field; repeat split; lra.
    + intros i j k l Hi Hj Hk Hl. apply diff_correct.
      cases3 i; cases3 j; cases3 k; cbn [T_conn wd eval]; repeat split; try lra; repeat apply Rmult_integral_contrapositive_currified; lra.
    + intros i j k Hi Hj Hk. apply diff_correct. now apply W.
    + unfold ricci. rewrite !s3_eq. cbn [Nat.eqb]. rewrite !V by lia. norm_ex. clear V W.
      pose proof (sin2_cos2 (exx v 1%nat)) as SC. unfold Rsqr in SC. assert (C2 : cos (exx v 1%nat) * cos (exx v 1%nat) = 1 - sin (exx v 1%nat) * sin (exx v 1%nat)) by lra.
      field_simplify_eq; [ring [C2] | repeat split; lra].
    + intros i Hi. unfold cov. rewrite !s3_eq. cbn [Nat.eqb]. rewrite !V by lia. clear V W.
      cases3 i; norm_ex; try ring; field; repeat split; lra.
Qed.

(** a point of the trumpet of mass 1: the lapse is 1/2 there and K_rr is -1 *)
Definition T_at : env := MkEnv (fun _ => 1) (fun k => match k with 0%nat => 1 | 1%nat => PI / 2 | _ => 0 end) (fun _ => 0) (fun _ _ => 0).
Example C78_trumpet_example : T_dom T_at /\ eval T_at T_alpha = 1 / 2 /\ eval T_at T_betar = 1 / 4 /\ eval T_at (d_KDD StaticTrumpet 0 0) = -1.
Proof. unfold T_dom. cbn. rewrite sin_PI2. repeat split; lra. Qed.

Print Assumptions C78_trumpet_stationary.
Print Assumptions C78_trumpet_schwarzschild.
Print Assumptions C78_trumpet_vacuum.
