(** C60: conversions between the 4-metric and lapse, shift and 3-metric (model: GRMetric.v). *)
From Coq Require Import List Arith Bool Lia Field Ring Reals Lra.
From Verif Require Import PyBase Inverter InverterFacts GRMetric GRMetricFacts.
Import ListNotations.

Section Headline.
Variables (F : Type) (fO fI : F) (fadd fmul fsub fdiv : F -> F -> F) (fopp finv : F -> F) (feqb : F -> F -> bool) (fsqrt : F -> F).
Hypothesis Fth : field_theory fO fI fadd fmul fsub fopp fdiv finv (@eq F).
Hypothesis feqb_eq : forall x y, feqb x y = true <-> x = y.
Add Field Fh : Fth.
Local Notation "x + y" := (fadd x y).
Local Notation "x * y" := (fmul x y).
Local Notation "x - y" := (fsub x y).
Local Notation "x / y" := (fdiv x y).
Local Notation "- x" := (fopp x).
Local Notation two_sided := (two_sided_inverse F fO fI fadd fmul).
Local Notation det := (leibniz F fO fI fadd fmul fopp).
Local Notation g4 := (ADM_to_g4DD F fO fadd fmul fopp).
Local Notation up := (ADM_to_g4UU F fO fI fadd fmul fsub fdiv fopp feqb).
Local Notation back := (g4DD_to_ADM F fO fI fadd fmul fsub fdiv fopp feqb fsqrt).

(** The line element: g_{mu nu} t^mu t^nu = - alpha^2 t0^2 + gamma_ij (t_i + beta^i t0) (t_j + beta^j t0). *)
Theorem C60_line_element : forall gam beta alpha t,
  symmetric F 3 gam ->
  fsum F fO fadd (map (fun mu => fsum F fO fadd (map (fun nu => g4 gam beta alpha mu nu * t mu * t nu) [0; 1; 2; 3])) [0; 1; 2; 3]) =
  - (alpha * alpha * (t 0 * t 0)) +
  fsum F fO fadd (map (fun i => fsum F fO fadd (map (fun j =>
     gam i j * (t (S i) + beta i * t 0) * (t (S j) + beta j * t 0)) [0; 1; 2])) [0; 1; 2]).
Proof.
  intros gam beta alpha t Hs.
  assert (S10 : gam 1 0 = gam 0 1) by (apply Hs; lia). assert (S20 : gam 2 0 = gam 0 2) by (apply Hs; lia).
  assert (S21 : gam 2 1 = gam 1 2) by (apply Hs; lia).
  unfold fsum. cbn [map fold_right ADM_to_g4DD]. unfold beta2, lower.
  rewrite !(acc3 F fO fI fadd fmul fsub fdiv fopp finv Fth). rewrite S10, S20, S21. ring.
Qed.

(** The inverse is accepted exactly when gamma is not singular *)
Theorem C60_accepts : forall gam beta alpha,
  symmetric F 3 gam ->
  (det 3 gam <> fO -> exists h, up gam beta alpha None = Ok h) /\
  (det 3 gam = fO -> up gam beta alpha None = Err NonInvertibleMatrixError).
Proof.
  intros gam beta alpha Hs. split; intros H; unfold ADM_to_g4UU.
  - destruct (inv3_accepts F fO fI fadd fmul fsub fdiv fopp finv feqb Fth feqb_eq gam Hs H) as [h [d ->]]. cbn [py_bind fst]. eauto.
  - rewrite (inv3_rejects F fO fI fadd fmul fsub fdiv fopp finv feqb Fth feqb_eq gam Hs H). reflexivity.
Qed.

(** ... and is the inverse of the 4-metric *)
Theorem C60_inverse : forall gam beta alpha h,
  symmetric F 3 gam -> alpha <> fO -> up gam beta alpha None = Ok h ->
  two_sided 4 (g4 gam beta alpha) h.
Proof.
  intros gam beta alpha h Hs Ha H. unfold ADM_to_g4UU in H.
  destruct (symm_matrix_inverter3x3 _ _ _ _ _ _ _ _ _ gam) as [[h3 d]|e] eqn:E; [|discriminate].
  cbn [py_bind fst] in H. injection H as <-.
  destruct (inv3_ok F fO fI fadd fmul fsub fdiv fopp finv feqb Fth feqb_eq gam h3 d Hs E) as [_ [_ Hh]].
  exact (g4_inverse F fO fI fadd fmul fsub fdiv fopp finv Fth gam h3 beta alpha Hs Hh Ha).
Qed.

(** with an inverse 3-metric handed in *)
Theorem C60_inverse_given : forall gam gamUU beta alpha,
  symmetric F 3 gam -> alpha <> fO -> two_sided 3 gam gamUU ->
  exists h, up gam beta alpha (Some gamUU) = Ok h /\ two_sided 4 (g4 gam beta alpha) h.
Proof.
  intros gam gamUU beta alpha Hs Ha H. eexists. split; [reflexivity|].
  exact (g4_inverse F fO fI fadd fmul fsub fdiv fopp finv Fth gam gamUU beta alpha Hs H Ha).
Qed.

Theorem C60_determinant : forall gam beta alpha,
  symmetric F 3 gam -> det 4 (g4 gam beta alpha) = - (alpha * alpha) * det 3 gam.
Proof. exact (g4_det F fO fI fadd fmul fsub fdiv fopp finv Fth). Qed.

(** g4DD_to_ADM returns the 3-metric it was given *)
Theorem C60_metric_back : forall gam beta alpha,
  symmetric F 3 gam ->
  (det 3 gam = fO -> back (g4 gam beta alpha) = Err NonInvertibleMatrixError) /\
  (det 3 gam <> fO -> exists gam' alpha' beta', back (g4 gam beta alpha) = Ok (gam', alpha', beta') /\
     forall i j, i < 3 -> j < 3 -> gam' i j = gam i j).
Proof.
  intros gam beta alpha Hs.
  assert (E : (fun i j => g4 gam beta alpha (S i) (S j)) = gam) by reflexivity.
  split; intros H; unfold g4DD_to_ADM; rewrite E.
  - rewrite (inv3_rejects F fO fI fadd fmul fsub fdiv fopp finv feqb Fth feqb_eq gam Hs H). reflexivity.
  - destruct (inv3_accepts F fO fI fadd fmul fsub fdiv fopp finv feqb Fth feqb_eq gam Hs H) as [h [d ->]]. cbn [py_bind fst].
    eexists _, _, _. split; [reflexivity|]. auto.
Qed.

(** the shift it returns, lowered, is the row (g00, g01, g02) *)
Theorem C60_shift_back : forall g gam' alpha' beta',
  symmetric F 4 g -> back g = Ok (gam', alpha', beta') ->
  (forall i, i < 3 -> fsum F fO fadd (map (fun j => g (S i) (S j) * beta' j) [0; 1; 2]) = g 0 i) /\
  alpha' = fsqrt (fsum F fO fadd (map (fun k => beta' k * g 0 k) [0; 1; 2]) - g 0 0).
Proof.
  intros g gam' alpha' beta' Hs H.
  destruct (back_ok F fO fI fadd fmul fsub fdiv fopp finv feqb fsqrt Fth feqb_eq g gam' alpha' beta' Hs H) as [H1 [H2 H3]].
  split.
  - intros i Hi. rewrite <- (H2 i Hi). unfold fsum. cbn [map fold_right]. rewrite <- !H1 by lia. ring.
  - rewrite H3. f_equal. unfold fsum. cbn [map fold_right]. ring.
Qed.

(** so the shift is recovered exactly when each component g0i equals the next *)
Theorem C60_shift_exact : forall gam beta alpha gam' alpha' beta',
  symmetric F 3 gam -> back (g4 gam beta alpha) = Ok (gam', alpha', beta') ->
  ((forall i, i < 3 -> beta' i = beta i) <-> (forall i, i < 3 -> g4 gam beta alpha 0 i = g4 gam beta alpha 0 (S i))).
Proof.
  intros gam beta alpha gam' alpha' beta' Hs H.
  destruct (C60_shift_back _ gam' alpha' beta' (sym4 F fO fadd fmul fopp gam beta alpha Hs) H) as [H2 _].
  assert (L : forall i, i < 3 -> g4 gam beta alpha 0 (S i) = fsum F fO fadd (map (fun j => gam i j * beta j) [0; 1; 2])).
  { intros i _. cbn [ADM_to_g4DD]. unfold lower. rewrite (acc3 F fO fI fadd fmul fsub fdiv fopp finv Fth).
    unfold fsum. cbn [map fold_right]. ring. }
  split; intros E.
  - intros i Hi. rewrite <- (H2 i Hi), (L i Hi). cbn [ADM_to_g4DD map]. rewrite !E by lia. reflexivity.
  - assert (E' : forall i, i < 3 -> fsum F fO fadd (map (fun j => gam i j * beta' j) [0; 1; 2]) =
                            fsum F fO fadd (map (fun j => gam i j * beta j) [0; 1; 2])).
    { intros i Hi. rewrite <- (L i Hi), <- (E i Hi), <- (H2 i Hi). reflexivity. }
    clear H2 L E. unfold g4DD_to_ADM in H. cbn [ADM_to_g4DD] in H.
    destruct (symm_matrix_inverter3x3 F fO fI fadd fmul fsub fdiv fopp feqb gam) as [[h d]|e] eqn:E;
      [|discriminate H]. clear H.
    destruct (inv3_ok F fO fI fadd fmul fsub fdiv fopp finv feqb Fth feqb_eq gam h d Hs E) as [_ [_ Hh]].
    unfold fsum in E'. cbn [map fold_right] in E'.
    assert (U : forall x i, i < 3 -> h i 0 * (gam 0 0 * x 0 + (gam 0 1 * x 1 + (gam 0 2 * x 2 + fO))) +
              (h i 1 * (gam 1 0 * x 0 + (gam 1 1 * x 1 + (gam 1 2 * x 2 + fO))) +
               h i 2 * (gam 2 0 * x 0 + (gam 2 1 * x 1 + (gam 2 2 * x 2 + fO)))) = x i).
    { intros x i Hi.
      transitivity (matmul F fO fadd fmul 3 h gam i 0 * x 0 + matmul F fO fadd fmul 3 h gam i 1 * x 1
                    + matmul F fO fadd fmul 3 h gam i 2 * x 2).
      - rewrite !(matmul3 F fO fI fadd fmul fsub fdiv fopp finv Fth). ring.
      - rewrite (proj2 (Hh i 0 Hi ltac:(lia))), (proj2 (Hh i 1 Hi ltac:(lia))), (proj2 (Hh i 2 Hi ltac:(lia))).
        unfold delta. destruct i as [|[|[|i]]]; [| | |lia]; cbn [Nat.eqb]; ring. }
    intros i Hi. rewrite <- (U beta' i Hi), <- (U beta i Hi). rewrite !E' by lia. reflexivity.
Qed.

(** The round trip of lapse and shift is false: a vanishing shift never comes back. *)
Theorem C60_round_trip_refuted : forall gam beta alpha gam' alpha' beta',
  symmetric F 3 gam -> alpha <> fO -> (forall i, i < 3 -> beta i = fO) ->
  back (g4 gam beta alpha) = Ok (gam', alpha', beta') ->
  ~ (forall i, i < 3 -> beta' i = beta i).
Proof.
  intros gam beta alpha gam' alpha' beta' Hs Ha Hb H E.
  pose proof (proj1 (C60_shift_exact gam beta alpha gam' alpha' beta' Hs H) E 0 ltac:(lia)) as E0.
  cbn [ADM_to_g4DD] in E0. unfold beta2, lower in E0. rewrite !(acc3 F fO fI fadd fmul fsub fdiv fopp finv Fth) in E0.
  rewrite !Hb in E0 by lia. apply Ha.
  assert (Z : alpha * alpha = fO).
  { transitivity (- (- (alpha * alpha) + (fO * (gam 0 0 * fO + gam 0 1 * fO + gam 0 2 * fO)
       + fO * (gam 1 0 * fO + gam 1 1 * fO + gam 1 2 * fO) + fO * (gam 2 0 * fO + gam 2 1 * fO + gam 2 2 * fO)))); [ring|].
    rewrite E0. ring. }
  assert (D : forall x, x = fO -> x / alpha = fO) by (intros x ->; field; exact Ha).
  transitivity (alpha * alpha / alpha); [field; exact Ha|]. exact (D _ Z).
Qed.
End Headline.

(** *** Concrete cases *)
Definition reqb (x y : R) : bool := if Req_EM_T x y then true else false.
Lemma reqb_eq : forall x y, reqb x y = true <-> x = y.
Proof. intros. unfold reqb. destruct (Req_EM_T x y); split; intros; congruence. Qed.
Local Open Scope R_scope.
Definition ex_gam (i j : nat) : R :=
  match i, j with 0, 0 => 4 | 1, 1 => 2 | 2, 2 => 1 | 0, 1 => 1 | 1, 0 => 1 | _, _ => 0 end.
Definition ex_beta (i : nat) : R := match i with 0 => 1 | 1 => -1 | _ => 3 end.
Local Notation g4R := (ADM_to_g4DD R 0 Rplus Rmult Ropp).
Local Notation upR := (ADM_to_g4UU R 0 1 Rplus Rmult Rminus Rdiv Ropp reqb).
Local Notation backR := (g4DD_to_ADM R 0 1 Rplus Rmult Rminus Rdiv Ropp reqb sqrt).
Lemma ex_sym : symmetric R 3 ex_gam.
Proof. intros [|[|[|i]]] [|[|[|j]]] Hi Hj; try lia; reflexivity. Qed.
Lemma ex_det : leibniz R 0 1 Rplus Rmult Ropp 3 ex_gam = 7.
Proof. unfold leibniz. cbn. ring. Qed.
Example ex_C60_line_element : g4R ex_gam ex_beta 2 0%nat 0%nat = 9 /\ g4R ex_gam ex_beta 2 0%nat 2%nat = -1 /\ g4R ex_gam ex_beta 2 2%nat 2%nat = 2.
Proof. cbn. unfold beta2, lower, acc. cbn. repeat split; lra. Qed.
Example ex_C60_accepts : exists h, upR ex_gam ex_beta 2 None = Ok h /\ two_sided_inverse R 0 1 Rplus Rmult 4 (g4R ex_gam ex_beta 2) h.
Proof.
  destruct (proj1 (C60_accepts R 0 1 Rplus Rmult Rminus Rdiv Ropp Rinv reqb Rfield reqb_eq ex_gam ex_beta 2 ex_sym)) as [h Hh];
    [rewrite ex_det; lra|].
  exists h. split; [exact Hh|]. apply (C60_inverse R 0 1 Rplus Rmult Rminus Rdiv Ropp Rinv reqb Rfield reqb_eq ex_gam ex_beta 2 h ex_sym); [lra|exact Hh].
Qed.
Example ex_C60_accepts_singular : upR (fun _ _ => 1) ex_beta 2 None = Err NonInvertibleMatrixError.
Proof.
  apply (proj2 (C60_accepts R 0 1 Rplus Rmult Rminus Rdiv Ropp Rinv reqb Rfield reqb_eq (fun _ _ => 1) ex_beta 2 ltac:(intros i j _ _; reflexivity))).
  unfold leibniz. cbn. ring.
Qed.
Example ex_C60_inverse_given : exists h,
  upR (fun i j => if Nat.eqb i j then 4 else 0) ex_beta 2 (Some (fun i j => if Nat.eqb i j then / 4 else 0)) = Ok h /\ h 1%nat 1%nat = 0.
Proof. eexists. split; [reflexivity|]. cbn. lra. Qed.
Example ex_C60_determinant : leibniz R 0 1 Rplus Rmult Ropp 4 (g4R ex_gam ex_beta 2) = -28.
Proof. rewrite (C60_determinant R 0 1 Rplus Rmult Rminus Rdiv Ropp Rinv Rfield ex_gam ex_beta 2 ex_sym), ex_det. ring. Qed.
(** flat space with zero shift and lapse 1 comes back with shift (-1, 0, 0) and lapse sqrt 2 *)
Definition flat (i j : nat) : R := if Nat.eqb i j then 1 else 0.
Example ex_C60_back : exists gam' alpha' beta', backR (g4R flat (fun _ => 0) 1) = Ok (gam', alpha', beta') /\
  beta' 0%nat = -1 /\ beta' 1%nat = 0 /\ beta' 2%nat = 0 /\ alpha' = sqrt 2.
Proof.
  assert (Hs : symmetric R 3 flat) by (intros [|[|[|i]]] [|[|[|j]]] Hi Hj; try lia; reflexivity).
  destruct (proj2 (C60_metric_back R 0 1 Rplus Rmult Rminus Rdiv Ropp Rinv reqb sqrt Rfield reqb_eq flat (fun _ => 0) 1 Hs)) as [g' [a' [b' [H _]]]].
  { unfold leibniz. cbn. lra. }
  exists g', a', b'. split; [exact H|].
  destruct (C60_shift_back R 0 1 Rplus Rmult Rminus Rdiv Ropp Rinv reqb sqrt Rfield reqb_eq _ g' a' b' (sym4 R 0 Rplus Rmult Ropp flat (fun _ => 0) 1 Hs) H)
    as [H1 H2].
  pose proof (H1 0%nat ltac:(lia)) as E0. pose proof (H1 1%nat ltac:(lia)) as E1. pose proof (H1 2%nat ltac:(lia)) as E2.
  unfold fsum in E0, E1, E2. cbn in E0, E1, E2. unfold flat, beta2, lower, acc in E0, E1, E2. cbn in E0, E1, E2.
  assert (B0 : b' 0%nat = -1) by lra. assert (B1 : b' 1%nat = 0) by lra. assert (B2 : b' 2%nat = 0) by lra.
  repeat split; auto. rewrite H2. f_equal. unfold fsum. cbn. unfold beta2, lower, acc. cbn. rewrite B0, B1, B2. lra.
Qed.
(** a metric whose shift does come back *)
Definition level_beta (i : nat) : R := match i with 0 => 1 | 1 => 1 | _ => 1 end.
Example ex_C60_shift_exact : forall gam' alpha' beta', backR (g4R flat level_beta (sqrt 2)) = Ok (gam', alpha', beta') ->
  forall i, (i < 3)%nat -> beta' i = level_beta i.
Proof.
  intros g' a' b' H.
  assert (Hs : symmetric R 3 flat) by (intros [|[|[|i]]] [|[|[|j]]] Hi Hj; try lia; reflexivity).
  apply (proj2 (C60_shift_exact R 0 1 Rplus Rmult Rminus Rdiv Ropp Rinv reqb sqrt Rfield reqb_eq flat level_beta (sqrt 2) g' a' b' Hs H)).
  assert (S2 : sqrt 2 * sqrt 2 = 2) by (apply sqrt_sqrt; lra).
  intros [|[|[|i]]] Hi; [| | |lia]; cbn; unfold beta2, lower, acc; cbn; try rewrite S2; lra.
Qed.

Print Assumptions C60_line_element.
Print Assumptions C60_accepts.
Print Assumptions C60_inverse.
Print Assumptions C60_inverse_given.
Print Assumptions C60_determinant.
Print Assumptions C60_metric_back.
Print Assumptions C60_shift_back.
Print Assumptions C60_shift_exact.
Print Assumptions C60_round_trip_refuted.
