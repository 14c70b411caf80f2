(** The projections of T^{mu nu} and the source terms computed from them. *)
From Coq Require Import String List Arith Bool Lia Reals Lra.
From Verif Require Import PyBase Inverter InverterFacts GRMetric GRMetricFacts BSSN BSSNFacts BSSNRicciFacts BSSNConstraints T4munu.
Import ListNotations.
Local Open Scope R_scope.

(** The stress-energy tensor of an observer with lapse [al] and shift [be]: energy density [E], momentum density [J^i] and stress [P^ij],
    T^{mu nu} = E n^mu n^nu + n^mu J^nu + J^mu n^nu + P^{mu nu} with n^mu = (1, - beta^i) / alpha. *)
Definition unit_normal (al : R) (be : nat -> R) (mu : nat) : R := match mu with 0%nat => 1 / al | Datatypes.S i => - be i / al end.
Definition spatial (v : nat -> R) (mu : nat) : R := match mu with 0%nat => 0 | Datatypes.S i => v i end.
Definition spatial2 (P : nat -> nat -> R) (mu nu : nat) : R := match mu, nu with Datatypes.S i, Datatypes.S j => P i j | _, _ => 0 end.
Definition stress_energy (al : R) (be : nat -> R) (E : R) (J : nat -> R) (P : nat -> nat -> R) (mu nu : nat) : R :=
  E * unit_normal al be mu * unit_normal al be nu + unit_normal al be mu * spatial J nu + spatial J mu * unit_normal al be nu + spatial2 P mu nu.
Definition lower1 (g : nat -> nat -> R) (J : nat -> R) (i : nat) : R := s3 (fun k => g i k * J k).
Definition lower2 (g P : nat -> nat -> R) (i j : nat) : R := s3 (fun k => s3 (fun l => g i k * g j l * P k l)).
Definition trace (g P : nat -> nat -> R) : R := s3 (fun k => s3 (fun l => g k l * P k l)).

Lemma s4_eq : forall f, s4 f = f 0%nat + f 1%nat + f 2%nat + f 3%nat.
Proof. intros. unfold s4, acc. cbn [seq fold_left]. ring. Qed.
Lemma s4_ext : forall f g, (forall i, (i < 4)%nat -> f i = g i) -> s4 f = s4 g.
Proof. intros f g H. rewrite !s4_eq, !H by lia. reflexivity. Qed.

Section P.
Variables (g : nat -> nat -> R) (be : nat -> R) (al : R).
Hypothesis AL : al <> 0.
(** gamma_{i mu} n^mu = 0, gamma_{i mu} J^mu = J_i, n_mu n^mu = -1, n_mu J^mu = 0 *)
Lemma g4_val : forall i mu, gamma4DD g be al (i + 1) mu = match mu with 0%nat => s3 (fun j => g i j * be j) | Datatypes.S k => g i k end.
Proof. intros i [|k]; rewrite Nat.add_1_r; unfold gamma4DD; cbn [ADM_to_g4DD n4D]; [unfold lower; change (acc R 0 Rplus 3) with s3|]; ring. Qed.
Lemma g4_n : forall i, s4 (fun mu => gamma4DD g be al (i + 1) mu * unit_normal al be mu) = 0.
Proof using AL. intros. rewrite s4_eq, !g4_val, s3_eq. cbn [unit_normal]. field. exact AL. Qed.
Lemma g4_J : forall i J, s4 (fun mu => gamma4DD g be al (i + 1) mu * spatial J mu) = lower1 g J i.
Proof. intros. unfold lower1. rewrite s4_eq, !g4_val, !s3_eq. cbn [spatial]. ring. Qed.
Lemma n_n : s4 (fun mu => n4D al mu * unit_normal al be mu) = - 1.
Proof using AL. rewrite s4_eq. cbn [n4D unit_normal]. field. exact AL. Qed.
Lemma n_J : forall J, s4 (fun mu => n4D al mu * spatial J mu) = 0.
Proof. intros. rewrite s4_eq. cbn [n4D spatial]. ring. Qed.
Lemma s4_outer : forall (a b x y z w : nat -> R) (E : R) (Q : nat -> nat -> R),
  s4 (fun mu => s4 (fun nu => a mu * b nu * (E * x mu * y nu + x mu * w nu + z mu * y nu + Q mu nu))) =
  E * s4 (fun mu => a mu * x mu) * s4 (fun nu => b nu * y nu) + s4 (fun mu => a mu * x mu) * s4 (fun nu => b nu * w nu)
  + s4 (fun mu => a mu * z mu) * s4 (fun nu => b nu * y nu) + s4 (fun mu => s4 (fun nu => a mu * b nu * Q mu nu)).
Proof. intros. rewrite !s4_eq. ring. Qed.
Lemma rho_val : forall E J P, rho al (stress_energy al be E J P) = E.
Proof using AL.
  intros. unfold rho, stress_energy. rewrite s4_outer, n_n, !n_J.
  assert (Z : s4 (fun mu => s4 (fun nu => n4D al mu * n4D al nu * spatial2 P mu nu)) = 0) by (rewrite !s4_eq; cbn [n4D spatial2]; ring).
  rewrite Z. ring.
Qed.
Lemma SD_val : forall E J P i, SD g be al (stress_energy al be E J P) i = lower1 g J i.
Proof using AL.
  intros. unfold SD, stress_energy.
  transitivity (- s4 (fun mu => s4 (fun nu => gamma4DD g be al (i + 1) mu * n4D al nu *
     (E * unit_normal al be mu * unit_normal al be nu + unit_normal al be mu * spatial J nu + spatial J mu * unit_normal al be nu + spatial2 P mu nu))));
    [rewrite !s4_eq; ring|].
  rewrite s4_outer, g4_n, g4_J, n_n, n_J.
  assert (Z : s4 (fun mu => s4 (fun nu => gamma4DD g be al (i + 1) mu * n4D al nu * spatial2 P mu nu)) = 0) by (rewrite !s4_eq; cbn [n4D spatial2]; ring).
  rewrite Z. ring.
Qed.
Lemma SDD_val : forall E J P i j, SDD g be al (stress_energy al be E J P) i j = lower2 g P i j.
Proof using AL.
  intros. unfold SDD, stress_energy. rewrite s4_outer, !g4_n, !g4_J.
  assert (Z : s4 (fun mu => s4 (fun nu => gamma4DD g be al (i + 1) mu * gamma4DD g be al (j + 1) nu * spatial2 P mu nu)) = lower2 g P i j).
  { rewrite !s4_eq, !g4_val. unfold lower2. rewrite !s3_eq. cbn [spatial2]. ring. }
  rewrite Z. ring.
Qed.
(** every symmetric tensor is one *)
Lemma stress_of : forall T, symmetric R 4 T -> forall mu nu, (mu < 4)%nat -> (nu < 4)%nat ->
  T mu nu = stress_energy al be (al * al * T 0%nat 0%nat) (fun i => al * (T 0%nat (Datatypes.S i) + be i * T 0%nat 0%nat))
    (fun i j => T (Datatypes.S i) (Datatypes.S j) + be i * T 0%nat (Datatypes.S j) + be j * T 0%nat (Datatypes.S i) + be i * be j * T 0%nat 0%nat) mu nu.
Proof using AL.
  intros T ST mu nu Hm Hn. unfold stress_energy. destruct mu as [|i]; destruct nu as [|j]; cbn [unit_normal spatial spatial2].
  - field. exact AL.
  - field. exact AL.
  - rewrite (ST (Datatypes.S i) 0%nat Hm Hn). field. exact AL.
  - field. exact AL.
Qed.
Lemma src_ext : forall T T', (forall mu nu, (mu < 4)%nat -> (nu < 4)%nat -> T mu nu = T' mu nu) ->
  rho al T = rho al T' /\ (forall i, SD g be al T i = SD g be al T' i) /\ forall i j, SDD g be al T i j = SDD g be al T' i j.
Proof.
  intros T T' H. unfold rho, SD, SDD. repeat split; intros; apply s4_ext; intros mu Hm; apply s4_ext; intros nu Hn; now rewrite (H mu nu Hm Hn).
Qed.
End P.

Section Q.
Variables (g u : nat -> nat -> R).
Hypotheses (TS : two_sided3 g u) (SG : sym3 g) (SU : sym3 u).
(** raising undoes lowering *)
Lemma raise1 : forall J i, (i < 3)%nat -> lower1 u (lower1 g J) i = J i.
Proof using TS. intros J i Hi. rewrite <- (s3_pick_l g u J i TS Hi). unfold lower1. rewrite !s3_eq. ring. Qed.
Lemma raise2 : forall P i j, (i < 3)%nat -> (j < 3)%nat -> lower2 u (lower2 g P) i j = P i j.
Proof using TS.
  intros P i j Hi Hj. rewrite <- (s3_pick_l g u (fun a => P a j) i TS Hi).
  rewrite (s3_ext (fun n => s3 (fun k => u i k * g k n) * P n j) (fun n => s3 (fun k => u i k * g k n) * s3 (fun m => s3 (fun l => u j l * g l m) * P n m)))
    by (intros n Hn; now rewrite (s3_pick_l g u (fun a => P n a) j TS Hj)).
  unfold lower2. rewrite !s3_eq. ring.
Qed.
Lemma trace_up : forall P, s3 (fun i => s3 (fun j => u i j * lower2 g P i j)) = trace g P.
Proof using TS SG SU.
  intros P. unfold trace. transitivity (s3 (fun l => s3 (fun k => g k l * P k l))); [|apply s3_swap].
  transitivity (s3 (fun l => s3 (fun j => s3 (fun i => u j i * s3 (fun k => g i k * P k l)) * g j l))).
  - unfold lower2. rewrite !s3_eq. rewrite (SU 1%nat 0%nat), (SU 2%nat 0%nat), (SU 2%nat 1%nat) by lia. ring.
  - apply s3_ext. intros l Hl. apply s3_ext. intros j Hj. rewrite (Rmult_comm (g j l)). f_equal. exact (raise1 (fun k => P k l) j Hj).
Qed.
End Q.
