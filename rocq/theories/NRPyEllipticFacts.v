(** Facts about the puncture source terms. *)
From Coq Require Import String List ZArith Bool Arith Lia Reals Lra.
From Verif Require Import PyBase Inverter RefMetric RefMetricReal RefMetricCalc RefMetricFacts WaveEquation NRPyElliptic.
Import ListNotations.
Local Open Scope R_scope.

Ltac unfold_ex n := let m := eval vm_compute in n in change n with m.
(** ** One puncture *)
Section One.
Variables (n : nat) (v : env).
Notation X i := (eval v (xU n i)).
Definition radius : R := sqrt (X 0%nat ^ 2 + X 1%nat ^ 2 + X 2%nat ^ 2).
Hypothesis N : (n < 2)%nat.
Hypothesis off : 0 < X 0%nat ^ 2 + X 1%nat ^ 2 + X 2%nat ^ 2.
Notation V i := (VU_cart_single_puncture (xU n) (PU n) (SU n) i).
Notation r := radius.
Notation P i := (eval v (PU n i)).
Notation S i := (eval v (SU n i)).
Lemma r_pos : 0 < r. Proof using off. now apply sqrt_lt_R0. Qed.
Lemma r_sq : X 2%nat * X 2%nat = r * r - X 0%nat * X 0%nat - X 1%nat * X 1%nat.
Proof using off. unfold radius. rewrite sqrt_sqrt by lra. ring. Qed.

Lemma V_wd : forall i, (i < 3)%nat -> wd v (V i).
Proof using off N.
  intros i Hi. pose proof r_pos as RP. pose proof off as O. unfold radius in RP. pose proof (pow_lt _ 3 RP) as RP3.
  destruct n as [|[|m]]; [| |lia]; destruct i as [|[|[|i]]]; try lia;
    match goal with |- wd _ ?e => unfold_ex e end; cbn [wd eval xU xxCart zPunc ssub sadd] in *; repeat split; lra.
Qed.
Lemma psi_wd : wd v (psi_single (bare_mass n) (xU n)).
Proof using off N.
  pose proof r_pos as RP. pose proof off as O. unfold radius in RP.
  destruct n as [|[|m]]; [| |lia]; match goal with |- wd _ ?e => unfold_ex e end; cbn [wd eval xU xxCart zPunc ssub sadd] in *; repeat split; lra.
Qed.
Ltac prep := pose proof r_pos as RP; pose proof r_sq as RS; unfold radius in *.
Ltac finish RP RS := cbn [eval xU xxCart zPunc ssub sadd] in *; set (rr := sqrt _) in *; clearbody rr;
    match type of RS with _ * ?z = _ => set (zz := z) in *; clearbody zz end.
Lemma psi_harmonic : sum3 (fun a => eval v (diff a (diff a (psi_single (bare_mass n) (xU n))))) = 0.
Proof using off N.
  prep. unfold sum3. destruct n as [|[|m]]; [| |lia];
  repeat match goal with |- context [diff ?a (diff ?a ?e)] => unfold_ex (diff a (diff a e)) end;
  finish RP RS; (field_simplify_eq; [ring [RS]|lra]).
Qed.
Lemma V_first : forall i j, (i < 3)%nat -> (j < 3)%nat -> eval v (diff j (V i)) =
  7 / 4 * P i * X j / r ^ 3 - 1 / 4 * (P j * X i + sum3 (fun k => X k * P k) * delta i j) / r ^ 3 + 3 / 4 * sum3 (fun k => X k * P k) * X i * X j / r ^ 5
  + sum3 (fun k => IZR (levi i j k) * S k) / r ^ 3 - 3 * sum3 (fun a => sum3 (fun b => IZR (levi i a b) * X a * S b)) * X j / r ^ 5.
Proof using off N.
  intros i j Hi Hj. prep. unfold sum3, delta.
  destruct n as [|[|m]]; [| |lia]; destruct i as [|[|[|i]]]; try lia; destruct j as [|[|[|j]]]; try lia;
  match goal with |- eval _ (diff ?a ?e) = _ => unfold_ex (diff a e) end;
  cbn [levi Z.of_nat]; unfold levi; cbn [Nat.eqb PU SU eval];
  finish RP RS; cbn; field_simplify_eq; try lra; ring [RS].
Qed.
(** the vector Laplacian of the Bowen-York vector vanishes *)
Lemma V_second : forall i, (i < 3)%nat ->
  sum3 (fun j => eval v (diff j (diff j (V i))) + 1 / 3 * eval v (diff i (diff j (V j)))) = 0.
Proof using off N.
  intros i Hi. prep. unfold sum3.
  destruct n as [|[|m]]; [| |lia]; destruct i as [|[|[|i]]]; try lia;
  repeat match goal with |- context [diff ?a (diff ?b ?e)] => unfold_ex (diff a (diff b e)) end;
  finish RP RS; field_simplify_eq; try lra; ring [RS].
Qed.
End One.
