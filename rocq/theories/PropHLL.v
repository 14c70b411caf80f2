(** C74: the characteristic speeds are those of sound waves, and the HLL flux is a consistent, conservative upwind flux. *)
From Coq Require Import List Arith Bool Reals Lra Lia Psatz.
From Verif Require Import PyBase Inverter InverterFacts GRMetric GRMetricFacts BSSN BSSNFacts T4munu GRHD PropPiecewise.
Local Open Scope R_scope.

(** ** Vocabulary: forms written with explicit sums *)
Definition form3 (g : nat -> nat -> R) (v w : nat -> R) : R :=
  g 0%nat 0%nat * v 0%nat * w 0%nat + g 0%nat 1%nat * v 0%nat * w 1%nat + g 0%nat 2%nat * v 0%nat * w 2%nat
  + g 1%nat 0%nat * v 1%nat * w 0%nat + g 1%nat 1%nat * v 1%nat * w 1%nat + g 1%nat 2%nat * v 1%nat * w 2%nat
  + g 2%nat 0%nat * v 2%nat * w 0%nat + g 2%nat 1%nat * v 2%nat * w 1%nat + g 2%nat 2%nat * v 2%nat * w 2%nat.
(** a positive definite symmetric spatial metric *)
Definition posdef (g : nat -> nat -> R) : Prop :=
  (forall i j, g i j = g j i) /\ forall v, (exists i, (i < 3)%nat /\ v i <> 0) -> 0 < form3 g v v.
(** a four-velocity: length -1 for the line element -alpha^2 dt^2 + gamma_ij (dx^i + beta^i dt) (dx^j + beta^j dt) *)
Definition unit_velocity (g : nat -> nat -> R) (beta : nat -> R) (alpha : R) (u : nat -> R) : Prop :=
  - alpha * alpha * u 0%nat * u 0%nat
  + form3 g (fun i => u (S i) + beta i * u 0%nat) (fun i => u (S i) + beta i * u 0%nat) = -1.
(** the inverse 4-metric and the velocity on the covector -c dt + dx^d, whose level sets move with speed c along x^d *)
Definition freq (u : nat -> R) (d : nat) (c : R) : R := u (S d) - c * u 0%nat.
Definition gkk (g4UU : nat -> nat -> R) (d : nat) (c : R) : R :=
  g4UU (S d) (S d) - 2 * c * g4UU (S d) 0%nat + c * c * g4UU 0%nat 0%nat.
(** dispersion relation of sound: frequency squared, in the rest frame of the fluid, is cs2 times the wave number squared *)
Definition sound_wave (g4UU : nat -> nat -> R) (u : nat -> R) (d : nat) (cs2 c : R) : Prop :=
  freq u d c ^ 2 = cs2 * (gkk g4UU d c + freq u d c ^ 2).

(** ** Positive definite metrics *)
Section Pos.
Variable g : nat -> nat -> R.
Hypothesis PD : posdef g.
Lemma pd_22 : 0 < g 2%nat 2%nat.
Proof.
  destruct PD as [_ H]. pose proof (H (fun i => match i with 2%nat => 1 | _ => 0 end) ltac:(exists 2%nat; split; [lia | lra])) as P.
  unfold form3 in P. cbn in P. lra.
Qed.
Lemma pd_minor : 0 < g 1%nat 1%nat * g 2%nat 2%nat - g 1%nat 2%nat * g 1%nat 2%nat.
Proof.
  pose proof pd_22 as P2. destruct PD as [S H].
  pose proof (H (fun i => match i with 1%nat => g 2%nat 2%nat | 2%nat => - g 1%nat 2%nat | _ => 0 end)
    ltac:(exists 1%nat; split; [lia | cbn; lra])) as P.
  unfold form3 in P. cbn in P. rewrite (S 2%nat 1%nat) in P.
  assert (E : 0 < g 2%nat 2%nat * (g 1%nat 1%nat * g 2%nat 2%nat - g 1%nat 2%nat * g 1%nat 2%nat)) by lra.
  apply (Rmult_lt_reg_l (g 2%nat 2%nat)); lra.
Qed.
Lemma pd_det : 0 < det3 g.
Proof.
  pose proof pd_minor as M. destruct PD as [S H].
  set (c0 := g 1%nat 1%nat * g 2%nat 2%nat - g 1%nat 2%nat * g 1%nat 2%nat) in *.
  pose proof (H (fun i => match i with 0%nat => c0 | 1%nat => g 0%nat 2%nat * g 1%nat 2%nat - g 0%nat 1%nat * g 2%nat 2%nat
    | _ => g 0%nat 1%nat * g 1%nat 2%nat - g 0%nat 2%nat * g 1%nat 1%nat end) ltac:(exists 0%nat; split; [lia | cbn; lra])) as P.
  assert (E : 0 < c0 * det3 g).
  { refine (Rlt_le_trans _ _ _ P (Req_le _ _ _)). unfold form3, det3, c0. cbn. rewrite (S 1%nat 0%nat), (S 2%nat 0%nat), (S 2%nat 1%nat). ring. }
  apply (Rmult_lt_reg_l c0); lra.
Qed.
Lemma pd_sym3 : sym3 g. Proof. destruct PD as [S _]. intros i j _ _. apply S. Qed.
End Pos.

Lemma form3_cs : forall g h d w, posdef g -> two_sided3 g h -> (d < 3)%nat ->
  0 < h d d /\ w d * w d <= h d d * form3 g w w.
Proof.
  intros g h d w PD T Hd. pose proof PD as [S H].
  set (e := fun k : nat => h k d).
  assert (Col : forall i, (i < 3)%nat -> g i 0%nat * e 0%nat + g i 1%nat * e 1%nat + g i 2%nat * e 2%nat = if (i =? d)%nat then 1 else 0).
  { intros i Hi. pose proof (proj1 (two_sided_r g h T i d Hi Hd)) as E. rewrite s3_eq in E. exact E. }
  assert (Fe : forall v, form3 g v e = v d).
  { intros v. transitivity (v 0%nat * (g 0%nat 0%nat * e 0%nat + g 0%nat 1%nat * e 1%nat + g 0%nat 2%nat * e 2%nat)
      + v 1%nat * (g 1%nat 0%nat * e 0%nat + g 1%nat 1%nat * e 1%nat + g 1%nat 2%nat * e 2%nat)
      + v 2%nat * (g 2%nat 0%nat * e 0%nat + g 2%nat 1%nat * e 1%nat + g 2%nat 2%nat * e 2%nat)); [unfold form3; ring |].
    rewrite !Col by lia. destruct d as [| [| [| d]]]; [| | | lia]; cbn [Nat.eqb]; ring. }
  assert (Pe : 0 < h d d).
  { change (h d d) with (e d). rewrite <- (Fe e). apply H.
    destruct (Req_EM_T (e 0%nat) 0) as [Z0 |]; [| exists 0%nat; split; [lia | assumption]].
    destruct (Req_EM_T (e 1%nat) 0) as [Z1 |]; [| exists 1%nat; split; [lia | assumption]].
    destruct (Req_EM_T (e 2%nat) 0) as [Z2 |]; [| exists 2%nat; split; [lia | assumption]].
    exfalso. pose proof (Col d Hd) as C. rewrite Z0, Z1, Z2, Nat.eqb_refl in C. lra. }
  split; [exact Pe |].
  set (t := w d / h d d).
  assert (NN : 0 <= form3 g (fun i => w i - t * e i) (fun i => w i - t * e i)).
  { destruct (Req_EM_T (w 0%nat - t * e 0%nat) 0) as [Z0 | N]; [| apply Rlt_le, H; exists 0%nat; split; [lia | exact N]].
    destruct (Req_EM_T (w 1%nat - t * e 1%nat) 0) as [Z1 | N]; [| apply Rlt_le, H; exists 1%nat; split; [lia | exact N]].
    destruct (Req_EM_T (w 2%nat - t * e 2%nat) 0) as [Z2 | N]; [| apply Rlt_le, H; exists 2%nat; split; [lia | exact N]].
    unfold form3. rewrite Z0, Z1, Z2. lra. }
  assert (E : form3 g (fun i => w i - t * e i) (fun i => w i - t * e i) = form3 g w w - 2 * t * form3 g w e + t * t * form3 g e e).
  { unfold form3. rewrite (S 1%nat 0%nat), (S 2%nat 0%nat), (S 2%nat 1%nat). ring. }
  rewrite E, !Fe in NN. change (e d) with (h d d) in NN.
  assert (Q : form3 g w w - 2 * t * w d + t * t * h d d = form3 g w w - w d * w d / h d d) by (unfold t; field; lra).
  rewrite Q in NN. apply (Rmult_le_compat_l (h d d)) in NN; [| lra].
  replace (h d d * (form3 g w w - w d * w d / h d d)) with (h d d * form3 g w w - w d * w d) in NN by (field; lra). lra.
Qed.

(** ** The quadratic equation of one interface *)
Section Roots.
Variables a b c : R.
Hypothesis A : 0 < a.
Hypothesis D : 0 <= b * b - 4 * a * c.
Let s := sqrt (b * b - 4 * a * c).
Let lo := (- b - s) / (2 * a).
Let hi := (- b + s) / (2 * a).
Lemma roots_factor : forall x, a * x * x + b * x + c = a * (x - lo) * (x - hi).
Proof.
  intros x. pose proof (sqrt_sqrt _ D) as Q. fold s in Q.
  assert (E : a * (x - lo) * (x - hi) = a * x * x + b * x + (b * b - s * s) / (4 * a)) by (unfold lo, hi; field; lra).
  rewrite E, Q. field. lra.
Qed.
Lemma roots_order : lo <= hi.
Proof.
  unfold lo, hi. pose proof (sqrt_pos (b * b - 4 * a * c)) as P. fold s in P. unfold Rdiv.
  apply Rmult_le_compat_r; [apply Rlt_le, Rinv_0_lt_compat; lra | lra].
Qed.
End Roots.

(** The two speeds of one interface. *)
Section Speeds.
Variables (g h : nat -> nat -> R) (beta : nat -> R) (alpha : R) (u : nat -> R) (cs2 : R) (d : nat).
Hypothesis PD : posdef g.
Hypothesis T : two_sided3 g h.
Hypothesis AL : 0 < alpha.
Hypothesis NU : unit_velocity g beta alpha u.
Hypothesis CS : 0 <= cs2 <= 1.
Hypothesis Hd : (d < 3)%nat.
Let g4 := g4UU_of R 1 Rmult Rminus Rdiv Ropp h beta alpha.
Let u0 := u 0%nat.
Let G := h d d.
Let B := beta d.
Let V := u (S d) / u0.
Let p := (1 - cs2) * u0 * u0.
Let q := cs2 / (alpha * alpha).
Lemma u0_nz : u0 <> 0.
Proof.
  intros Z. unfold unit_velocity in NU. fold u0 in NU. rewrite Z in NU. destruct PD as [_ H].
  destruct (Req_EM_T (u 1%nat) 0) as [Z0 | N]; [| pose proof (H (fun i => u (S i) + beta i * 0) ltac:(exists 0%nat; split; [lia | rewrite Rmult_0_r, Rplus_0_r; exact N])); lra].
  destruct (Req_EM_T (u 2%nat) 0) as [Z1 | N]; [| pose proof (H (fun i => u (S i) + beta i * 0) ltac:(exists 1%nat; split; [lia | rewrite Rmult_0_r, Rplus_0_r; exact N])); lra].
  destruct (Req_EM_T (u 3%nat) 0) as [Z2 | N]; [| pose proof (H (fun i => u (S i) + beta i * 0) ltac:(exists 2%nat; split; [lia | rewrite Rmult_0_r, Rplus_0_r; exact N])); lra].
  unfold form3 in NU. rewrite Z0, Z1, Z2 in NU. lra.
Qed.
Lemma G_pos : 0 < G.
Proof. exact (proj1 (form3_cs g h d u PD T Hd)). Qed.
(** the fluid moves slower than light *)
Lemma subluminal : (V + B) * (V + B) < alpha * alpha * G.
Proof.
  pose proof u0_nz as U. pose proof G_pos as GP.
  destruct (form3_cs g h d (fun i => u (S i) + beta i * u 0%nat) PD T Hd) as [_ C]. fold G u0 in C.
  unfold unit_velocity in NU. fold u0 in NU. fold B in C.
  assert (N : form3 g (fun i => u (S i) + beta i * u0) (fun i => u (S i) + beta i * u0) = alpha * alpha * (u0 * u0) - 1) by lra.
  rewrite N in C. assert (E : u (S d) + B * u0 = u0 * (V + B)) by (unfold V; field; exact U). rewrite E in C.
  assert (P : 0 < u0 * u0) by nra. apply (Rmult_lt_reg_l (u0 * u0)); [exact P |]. nra.
Qed.
Lemma pq_pos : 0 <= p /\ 0 <= q /\ 0 < p + q.
Proof.
  pose proof u0_nz as U. assert (P : 0 < u0 * u0) by nra. assert (A2 : 0 < / (alpha * alpha)) by (apply Rinv_0_lt_compat; nra).
  assert (P1 : 0 <= p) by (unfold p; nra). assert (Q1 : 0 <= q) by (unfold q, Rdiv; nra).
  split; [exact P1 | split; [exact Q1 |]]. destruct (Rlt_dec 0 cs2) as [L | L].
  - assert (0 < q) by (unfold q, Rdiv; nra). lra.
  - assert (Z : cs2 = 0) by lra. assert (0 < p) by (unfold p; rewrite Z; nra). lra.
Qed.
Lemma qa_val : quad_a g4 u cs2 = p + q.
Proof. unfold quad_a, g4. cbn [g4UU_of]. unfold p, q, u0. field. lra. Qed.
Lemma qb_val : quad_b d g4 u cs2 = 2 * (q * B - p * V).
Proof.
  pose proof u0_nz as U. unfold quad_b, g4. rewrite Nat.add_1_r. cbn [g4UU_of]. unfold p, q, V, B. fold u0. field. split; first [exact U | lra].
Qed.
Lemma qc_val : quad_c d g4 u cs2 = p * V * V + q * B * B - q * alpha * alpha * G.
Proof.
  pose proof u0_nz as U. unfold quad_c, g4. rewrite Nat.add_1_r. cbn [g4UU_of]. unfold p, q, V, B, G. fold u0. field. split; first [exact U | lra].
Qed.
Lemma disc_val : quad_b d g4 u cs2 * quad_b d g4 u cs2 - 4 * quad_a g4 u cs2 * quad_c d g4 u cs2
  = 4 * q * (p * (alpha * alpha * G - (V + B) * (V + B)) + q * (alpha * alpha * G)).
Proof. rewrite qa_val, qb_val, qc_val. ring. Qed.
Lemma disc_nn : 0 <= quad_b d g4 u cs2 * quad_b d g4 u cs2 - 4 * quad_a g4 u cs2 * quad_c d g4 u cs2.
Proof.
  rewrite disc_val. pose proof subluminal as S. destruct pq_pos as (P & Q & _). pose proof G_pos as GP.
  assert (0 <= p * (alpha * alpha * G - (V + B) * (V + B))) by (apply Rmult_le_pos; lra).
  assert (0 <= q * (alpha * alpha * G)) by (apply Rmult_le_pos; [lra | apply Rmult_le_pos; [nra | lra]]). apply Rmult_le_pos; lra.
Qed.
Lemma disc_pos : 0 < cs2 -> 0 < quad_b d g4 u cs2 * quad_b d g4 u cs2 - 4 * quad_a g4 u cs2 * quad_c d g4 u cs2.
Proof.
  intros C. rewrite disc_val. pose proof subluminal as S. destruct pq_pos as (P & Q & _). pose proof G_pos as GP.
  assert (A2 : 0 < / (alpha * alpha)) by (apply Rinv_0_lt_compat; nra). assert (Q' : 0 < q) by (unfold q, Rdiv; nra).
  assert (0 <= p * (alpha * alpha * G - (V + B) * (V + B))) by (apply Rmult_le_pos; lra).
  assert (0 < q * (alpha * alpha * G)) by (apply Rmult_lt_0_compat; [lra | apply Rmult_lt_0_compat; [nra | lra]]). apply Rmult_lt_0_compat; lra.
Qed.
Let lo := (- quad_b d g4 u cs2 - sqrt (quad_b d g4 u cs2 * quad_b d g4 u cs2 - 4 * quad_a g4 u cs2 * quad_c d g4 u cs2)) / (2 * quad_a g4 u cs2).
Let hi := (- quad_b d g4 u cs2 + sqrt (quad_b d g4 u cs2 * quad_b d g4 u cs2 - 4 * quad_a g4 u cs2 * quad_c d g4 u cs2)) / (2 * quad_a g4 u cs2).
Lemma qa_pos : 0 < quad_a g4 u cs2.
Proof. rewrite qa_val. apply pq_pos. Qed.
Lemma cp_cm_val : find_cp_cm d g4 u cs2 = (lo, hi).
Proof.
  pose proof qa_pos as A. pose proof disc_nn as D. pose proof (roots_order _ (quad_b d g4 u cs2) (quad_c d g4 u cs2) A) as O. 
  unfold find_cp_cm. cbv zeta. rewrite !(proj1 (C73_minimum _ _)), !(proj2 (C73_minimum _ _)). cbn [aval].
  rewrite (Rmax_right 0) by exact D.
  set (s := sqrt (quad_b d g4 u cs2 * quad_b d g4 u cs2 - 4 * quad_a g4 u cs2 * quad_c d g4 u cs2)) in *.
  assert (E1 : 1 / 2 * (- quad_b d g4 u cs2 / quad_a g4 u cs2 + s / quad_a g4 u cs2) = hi) by (unfold hi; field; lra).
  assert (E2 : 1 / 2 * - (quad_b d g4 u cs2 / quad_a g4 u cs2 + s / quad_a g4 u cs2) = lo) by (unfold lo; field; lra).
  rewrite E1, E2.
  assert (L : lo <= hi) by exact O. rewrite Rmin_right, Rmax_left by exact L. reflexivity.
Qed.
Lemma quad_sound : forall x, quad_a g4 u cs2 * x * x + quad_b d g4 u cs2 * x + quad_c d g4 u cs2
  = (1 - cs2) * freq u d x ^ 2 - cs2 * gkk g4 d x.
Proof. intros x. unfold quad_a, quad_b, quad_c, freq, gkk. rewrite Nat.add_1_r. ring. Qed.
Lemma quad_factor : forall x, quad_a g4 u cs2 * x * x + quad_b d g4 u cs2 * x + quad_c d g4 u cs2 = quad_a g4 u cs2 * (x - lo) * (x - hi).
Proof. intros x. exact (roots_factor _ _ _ qa_pos disc_nn x). Qed.
Lemma sound_iff : forall x, sound_wave g4 u d cs2 x <-> x = lo \/ x = hi.
Proof.
  intros x. pose proof (quad_sound x) as S. pose proof (quad_factor x) as F. pose proof qa_pos as A. unfold sound_wave. split.
  - intros E. assert (Z : quad_a g4 u cs2 * (x - lo) * (x - hi) = 0) by (rewrite <- F, S; lra).
    apply Rmult_integral in Z. destruct Z as [Z | Z]; [| right; lra]. apply Rmult_integral in Z. destruct Z; [lra | left; lra].
  - intros E. assert (Z : quad_a g4 u cs2 * (x - lo) * (x - hi) = 0) by (destruct E as [-> | ->]; ring).
    rewrite <- F, S in Z. lra.
Qed.
Lemma order : lo <= hi. Proof. exact (roots_order _ _ _ qa_pos). Qed.
Lemma order_strict : 0 < cs2 -> lo < hi.
Proof.
  intros C. pose proof (sqrt_lt_R0 _ (disc_pos C)) as P. pose proof qa_pos as A. unfold lo, hi, Rdiv.
  apply Rmult_lt_compat_r; [apply Rinv_0_lt_compat; lra | lra].
Qed.
Lemma gkk_val : forall x, gkk g4 d x = G - (x + B) * (x + B) / (alpha * alpha).
Proof. intros x. unfold gkk, g4. cbn [g4UU_of]. unfold G, B. field. lra. Qed.
(** the fluid velocity lies between the speeds *)
Lemma between : lo <= V <= hi.
Proof.
  pose proof (quad_factor V) as F. rewrite (quad_sound V), gkk_val in F. pose proof qa_pos as A. pose proof order as O.
  assert (Z : freq u d V = 0) by (unfold freq, V; fold u0; field; exact u0_nz). rewrite Z in F.
  pose proof subluminal as S. assert (A2 : 0 < / (alpha * alpha)) by (apply Rinv_0_lt_compat; nra).
  assert (K : 0 < G - (V + B) * (V + B) / (alpha * alpha)).
  { apply (Rmult_lt_reg_l (alpha * alpha)); [nra |]. rewrite Rmult_0_r.
    replace (alpha * alpha * (G - (V + B) * (V + B) / (alpha * alpha))) with (alpha * alpha * G - (V + B) * (V + B)) by (field; lra). lra. }
  assert (N : (V - lo) * (V - hi) <= 0).
  { apply (Rmult_le_reg_l (quad_a g4 u cs2)); [exact A |]. rewrite <- Rmult_assoc, <- F, Rmult_0_r. nra. }
  split.
  - destruct (Rle_dec lo V) as [L | L]; [exact L | exfalso; nra].
  - destruct (Rle_dec V hi) as [L | L]; [exact L | exfalso; nra].
Qed.
(** sound does not outrun light *)
Lemma causal : - B - alpha * sqrt G <= lo /\ hi <= - B + alpha * sqrt G.
Proof.
  pose proof between as BT. pose proof qa_pos as A. pose proof G_pos as GP. pose proof subluminal as S.
  pose proof (sqrt_sqrt G ltac:(lra)) as Q. pose proof (sqrt_lt_R0 G GP) as SP. set (s := sqrt G) in *.
  assert (W : - (alpha * s) < V + B < alpha * s).
  { assert (E : alpha * alpha * G = (alpha * s) * (alpha * s)) by (rewrite <- Q; ring). rewrite E in S.
    assert (0 < alpha * s) by nra. split; nra. }
  assert (K : forall x, (x + B) * (x + B) = alpha * alpha * G -> 0 <= (x - lo) * (x - hi)).
  { intros x E. pose proof (quad_factor x) as F. rewrite (quad_sound x), gkk_val, E in F.
    assert (Z : G - alpha * alpha * G / (alpha * alpha) = 0) by (field; lra). rewrite Z in F.
    apply (Rmult_le_reg_l (quad_a g4 u cs2)); [exact A |]. rewrite <- Rmult_assoc, <- F, Rmult_0_r.
    pose proof (pow2_ge_0 (freq u d x)). nra. }
  pose proof (K (- B - alpha * s) ltac:(rewrite <- Q; ring)) as K1. pose proof (K (- B + alpha * s) ltac:(rewrite <- Q; ring)) as K2.
  split.
  - destruct (Rle_dec (- B - alpha * s) lo) as [L | L]; [exact L | exfalso]. nra.
  - destruct (Rle_dec hi (- B + alpha * s)) as [L | L]; [exact L | exfalso]. nra.
Qed.
End Speeds.

Lemma up_ok : forall g beta alpha, posdef g ->
  exists h, two_sided3 g h /\ ADM_to_g4UU_R g beta alpha None = Ok (g4UU_of R 1 Rmult Rminus Rdiv Ropp h beta alpha).
Proof.
  intros g beta alpha PD. pose proof (pd_sym3 g PD) as S. pose proof (pd_det g PD) as D.
  destruct (inv3_total g S ltac:(lra)) as [h E]. exists h. split; [exact (proj2 (proj2 (inv3_spec g h _ S E))) |].
  unfold ADM_to_g4UU_R, ADM_to_g4UU. change (symm_matrix_inverter3x3 R 0 1 Rplus Rmult Rminus Rdiv Ropp reqb g) with (inv3 g).
  rewrite E. reflexivity.
Qed.

(** ** The speeds of one interface: exactly the speeds of sound waves, in order, around the fluid velocity and within the
    light cone.  The square root is never taken of the replacement value 0 for a negative number. *)
Theorem C74_sound_speeds : forall g beta alpha u cs2 d, posdef g -> 0 < alpha -> unit_velocity g beta alpha u ->
  0 <= cs2 <= 1 -> (d < 3)%nat ->
  exists g4 cminus cplus, ADM_to_g4UU_R g beta alpha None = Ok g4 /\ find_cp_cm d g4 u cs2 = (cminus, cplus)
  /\ (forall c, sound_wave g4 u d cs2 c <-> c = cminus \/ c = cplus)
  /\ cminus <= u (S d) / u 0%nat <= cplus
  /\ (0 < cs2 -> cminus < cplus)
  /\ (exists guu, two_sided3 g guu /\ - beta d - alpha * sqrt (guu d d) <= cminus /\ cplus <= - beta d + alpha * sqrt (guu d d))
  /\ 0 <= quad_b d g4 u cs2 ^ 2 - 4 * quad_a g4 u cs2 * quad_c d g4 u cs2.
Proof.
  intros g beta alpha u cs2 d PD AL NU CS Hd. destruct (up_ok g beta alpha PD) as (h & T & E).
  do 3 eexists. split; [exact E |]. split; [exact (cp_cm_val g h beta alpha u cs2 d PD T AL NU CS Hd) |].
  split; [exact (sound_iff g h beta alpha u cs2 d PD T AL NU CS Hd) |].
  split; [exact (between g h beta alpha u cs2 d PD T AL NU CS Hd) |].
  split; [exact (order_strict g h beta alpha u cs2 d PD T AL NU CS Hd) |].
  split; [exists h; split; [exact T | exact (causal g h beta alpha u cs2 d PD T AL NU CS Hd)] |].
  replace (quad_b d (g4UU_of R 1 Rmult Rminus Rdiv Ropp h beta alpha) u cs2 ^ 2) with
    (quad_b d (g4UU_of R 1 Rmult Rminus Rdiv Ropp h beta alpha) u cs2 * quad_b d (g4UU_of R 1 Rmult Rminus Rdiv Ropp h beta alpha) u cs2) by ring.
  exact (disc_nn g h beta alpha u cs2 d PD T AL NU CS Hd).
Qed.

(** ** The speeds of the two sides together *)
Lemma cmax_cmin_val : forall d g beta alpha ur ul cr cl, posdef g ->
  exists g4, ADM_to_g4UU_R g beta alpha None = Ok g4 /\
  find_cmax_cmin d g beta alpha ur ul cr cl =
  Ok (- Rmin 0 (Rmin (fst (find_cp_cm d g4 ul cl)) (fst (find_cp_cm d g4 ur cr))),
      Rmax 0 (Rmax (snd (find_cp_cm d g4 ul cl)) (snd (find_cp_cm d g4 ur cr)))).
Proof.
  intros d g beta alpha ur ul cr cl PD. destruct (up_ok g beta alpha PD) as (h & _ & E).
  exists (g4UU_of R 1 Rmult Rminus Rdiv Ropp h beta alpha). split; [exact E |].
  unfold find_cmax_cmin. rewrite E. cbn [py_bind]. cbv zeta.
  rewrite !(proj1 (C73_minimum _ _)), !(proj2 (C73_minimum _ _)). reflexivity.
Qed.
Theorem C74_signal_speeds : forall d g beta alpha ur ul cr cl, posdef g -> 0 < alpha ->
  unit_velocity g beta alpha ur -> unit_velocity g beta alpha ul -> 0 <= cr <= 1 -> 0 <= cl <= 1 -> (d < 3)%nat ->
  exists g4 cmin cmax, ADM_to_g4UU_R g beta alpha None = Ok g4 /\ find_cmax_cmin d g beta alpha ur ul cr cl = Ok (cmin, cmax)
  /\ 0 <= cmin /\ 0 <= cmax
  /\ (forall c, sound_wave g4 ur d cr c \/ sound_wave g4 ul d cl c -> - cmin <= c <= cmax)
  /\ (0 < cmax -> sound_wave g4 ur d cr cmax \/ sound_wave g4 ul d cl cmax)
  /\ (0 < cmin -> sound_wave g4 ur d cr (- cmin) \/ sound_wave g4 ul d cl (- cmin))
  /\ (0 < cr \/ 0 < cl -> 0 < cmax + cmin).
Proof.
  intros d g beta alpha ur ul cr cl PD AL Nr Nl Cr Cl Hd.
  destruct (cmax_cmin_val d g beta alpha ur ul cr cl PD) as (g4 & E & V).
  destruct (C74_sound_speeds g beta alpha ur cr d PD AL Nr Cr Hd) as (gr & mr & pr & Er & Fr & Sr & Br & Or & _).
  destruct (C74_sound_speeds g beta alpha ul cl d PD AL Nl Cl Hd) as (gl & ml & pl & El & Fl & Sl & Bl & Ol & _).
  assert (gr = g4) by congruence. assert (gl = g4) by congruence. subst gr gl. rewrite Fr, Fl in V. cbn [fst snd] in V.
  exists g4. do 2 eexists. split; [exact E |]. split; [exact V |]. clear V E Er El Fr Fl.
  pose proof (Rmin_l 0 (Rmin ml mr)) as L1. pose proof (Rmin_r 0 (Rmin ml mr)) as L2. pose proof (Rmin_l ml mr) as L3. pose proof (Rmin_r ml mr) as L4.
  pose proof (Rmax_l 0 (Rmax pl pr)) as M1. pose proof (Rmax_r 0 (Rmax pl pr)) as M2. pose proof (Rmax_l pl pr) as M3. pose proof (Rmax_r pl pr) as M4.
  split; [lra |]. split; [lra |]. split; [| split; [| split]].
  - intros c [H | H]; [apply Sr in H | apply Sl in H]; destruct H as [-> | ->]; split; lra.
  - intros P. destruct (Rle_dec 0 (Rmax pl pr)) as [L | L]; [rewrite Rmax_right in P |- * by exact L | rewrite Rmax_left in P by lra; lra].
    destruct (Rle_dec pl pr) as [Q | Q]; [rewrite Rmax_right by exact Q; left; apply Sr; now right | rewrite Rmax_left by lra; right; apply Sl; now right].
  - intros P. destruct (Rle_dec 0 (Rmin ml mr)) as [L | L]; [rewrite Rmin_left in P by exact L; lra | rewrite Rmin_right by lra].
    rewrite Ropp_involutive.
    destruct (Rle_dec ml mr) as [Q | Q]; [rewrite Rmin_left by exact Q; right; apply Sl; now left | rewrite Rmin_right by lra; left; apply Sr; now left].
  - intros [P | P]; [specialize (Or P) | specialize (Ol P)]; lra.
Qed.

(** ** The solver: consistent, upwind, and conservative.  The middle state ms of the two-wave solution is the same for
    every conserved quantity, and the flux satisfies the jump condition across both waves. *)
Theorem C74_solver : forall cmax cmin, 0 <= cmax -> 0 <= cmin -> cmax + cmin <> 0 ->
  (forall F U, HLL_solver cmax cmin F F U U = F)
  /\ (cmin = 0 -> forall Fr Fl Ur Ul, HLL_solver cmax cmin Fr Fl Ur Ul = Fl)
  /\ (cmax = 0 -> forall Fr Fl Ur Ul, HLL_solver cmax cmin Fr Fl Ur Ul = Fr)
  /\ (forall Fr Fl Ur Ul, exists ms, HLL_solver cmax cmin Fr Fl Ur Ul - Fl = - cmin * (ms - Ul)
                                  /\ Fr - HLL_solver cmax cmin Fr Fl Ur Ul = cmax * (Ur - ms))
  /\ (forall Fr Fl Ur Ul F, (exists ms, F - Fl = - cmin * (ms - Ul) /\ Fr - F = cmax * (Ur - ms)) ->
        F = HLL_solver cmax cmin Fr Fl Ur Ul).
Proof.
  intros cmax cmin P Q N. unfold HLL_solver. split; [| split; [| split; [| split]]].
  - intros F U. field. exact N.
  - intros -> Fr Fl Ur Ul. field. lra.
  - intros -> Fr Fl Ur Ul. field. lra.
  - intros Fr Fl Ur Ul. exists ((cmax * Ur + cmin * Ul + Fl - Fr) / (cmax + cmin)). split; field; exact N.
  - intros Fr Fl Ur Ul F (ms & E1 & E2). apply (Rmult_eq_reg_r (cmax + cmin)); [| exact N].
    unfold Rdiv. rewrite Rmult_assoc, Rinv_l, Rmult_1_r by exact N.
    assert (A : cmax * (F - Fl) = cmax * (- cmin * (ms - Ul))) by congruence.
    assert (B : cmin * (Fr - F) = cmin * (cmax * (Ur - ms))) by congruence. lra.
Qed.

(** ** Equal states on both sides have the physical fluxes, in every component. *)
Theorem C74_consistency : forall d x cs2, posdef (h_gammaDD x) -> 0 < h_alpha x ->
  unit_velocity (h_gammaDD x) (h_betaU x) (h_alpha x) (h_u4U x) -> 0 < cs2 <= 1 -> (d < 3)%nat ->
  exists T4UU fluxD, compute_T4UU x = Ok T4UU /\
  calculate_HLL_fluxes d x x cs2 cs2 = Ok (rho_star_fluxU x d, Ye_star_fluxU x d, tau_tilde_fluxU x T4UU d, fluxD)
  /\ forall i, fluxD i = S_tilde_fluxUD x (T4UD_of x T4UU) d i.
Proof.
  intros d x cs2 PD AL NU CS Hd.
  destruct (C74_signal_speeds d (h_gammaDD x) (h_betaU x) (h_alpha x) (h_u4U x) (h_u4U x) cs2 cs2 PD AL NU NU
    ltac:(lra) ltac:(lra) Hd) as (g4 & cmin & cmax & E & C & P1 & P2 & _ & _ & _ & N).
  specialize (N ltac:(lra)). destruct (C74_solver cmax cmin P2 P1 ltac:(lra)) as [K _].
  exists (T4UU_of x g4). eexists. split; [unfold compute_T4UU; rewrite E; reflexivity |].
  unfold calculate_HLL_fluxes, Tmunu_and_contractions, compute_T4UU. rewrite E. cbn [py_bind].
  rewrite C. cbn [py_bind fst snd F_rho_star U_rho_star F_Ye_star U_Ye_star F_tau_tilde U_tau_tilde F_S_tildeD U_S_tildeD].
  rewrite !K. split; [reflexivity |]. intros i. cbv beta. apply K.
Qed.

(** ** With a vanishing sound speed the divisor cmax + cmin can be 0: dust at rest in flat space. *)
Definition flat : nat -> nat -> R := fun i j => if (i =? j)%nat then 1 else 0.
Definition at_rest : nat -> R := fun mu => match mu with O => 1 | _ => 0 end.
Lemma flat_pd : posdef flat.
Proof.
  split.
  - intros i j. unfold flat. now rewrite Nat.eqb_sym.
  - intros v (i & Hi & N). unfold form3, flat. cbn [Nat.eqb].
    destruct i as [| [| [| i]]]; [| | | lia].
    + assert (0 < v 0%nat * v 0%nat) by nra. nra.
    + assert (0 < v 1%nat * v 1%nat) by nra. nra.
    + assert (0 < v 2%nat * v 2%nat) by nra. nra.
Qed.
Lemma rest_unit : unit_velocity flat (fun _ => 0) 1 at_rest.
Proof. unfold unit_velocity, form3, flat, at_rest. cbn [Nat.eqb]. ring. Qed.
Theorem C74_divisor_refuted : exists d g beta alpha ur ul cr cl cmin cmax, posdef g /\ 0 < alpha
  /\ unit_velocity g beta alpha ur /\ unit_velocity g beta alpha ul /\ 0 <= cr <= 1 /\ 0 <= cl <= 1
  /\ find_cmax_cmin d g beta alpha ur ul cr cl = Ok (cmin, cmax) /\ cmax + cmin = 0.
Proof.
  destruct (C74_signal_speeds 0 flat (fun _ => 0) 1 at_rest at_rest 0 0 flat_pd ltac:(lra) rest_unit rest_unit ltac:(lra) ltac:(lra) ltac:(lia))
    as (g4 & cmin & cmax & _ & C & P1 & P2 & _ & S1 & S2 & _).
  exists 0%nat, flat, (fun _ => 0), 1, at_rest, at_rest, 0, 0, cmin, cmax.
  split; [exact flat_pd |]. split; [lra |]. split; [exact rest_unit |]. split; [exact rest_unit |].
  split; [lra |]. split; [lra |]. split; [exact C |].
  assert (W : forall c, sound_wave g4 at_rest 0 0 c -> c = 0).
  { intros c H. unfold sound_wave, freq, at_rest in H. nra. }
  assert (Z1 : cmax = 0) by (destruct (Rlt_dec 0 cmax) as [L | L]; [destruct (S1 L) as [H | H]; exact (W _ H) | lra]).
  assert (Z2 : cmin = 0) by (destruct (Rlt_dec 0 cmin) as [L | L]; [destruct (S2 L) as [H | H]; pose proof (W _ H); lra | lra]).
  lra.
Qed.

(** ** Examples: a fluid at rest in flat space with sound speed 1/2 *)
Example ex_C74_speeds : find_cmax_cmin 1 flat (fun _ => 0) 1 at_rest at_rest (1 / 4) (1 / 4) = Ok (1 / 2, 1 / 2).
Proof.
  destruct (C74_signal_speeds 1 flat (fun _ => 0) 1 at_rest at_rest (1 / 4) (1 / 4) flat_pd ltac:(lra) rest_unit rest_unit ltac:(lra) ltac:(lra) ltac:(lia))
    as (g4 & cmin & cmax & E & C & P1 & P2 & A & S1 & S2 & N). rewrite C.
  assert (K : forall c, sound_wave g4 at_rest 1 (1 / 4) c <-> c * c = 1 / 4).
  { intros c. destruct (up_ok flat (fun _ => 0) 1 flat_pd) as (h & T & E'). assert (G : g4 = g4UU_of R 1 Rmult Rminus Rdiv Ropp h (fun _ => 0) 1) by congruence.
    pose proof (proj1 (two_sided_r _ _ T 1%nat 1%nat ltac:(lia) ltac:(lia))) as D. rewrite s3_eq in D. unfold flat in D. cbn [Nat.eqb] in D.
    assert (H1 : h 1%nat 1%nat = 1) by lra.
    unfold sound_wave, freq, gkk, at_rest. rewrite G. cbn [g4UU_of]. rewrite H1.
    replace (1 - 0 * 0 / (1 * 1) - 2 * c * (0 / (1 * 1)) + c * c * (-1 / (1 * 1))) with (1 - c * c) by field. split; intros H; nra. }
  pose proof (A (1 / 2) ltac:(left; apply K; field)) as A1. pose proof (A (- (1 / 2)) ltac:(left; apply K; field)) as A2.
  assert (Y1 : cmax * cmax = 1 / 4) by (destruct (S1 ltac:(lra)) as [H | H]; apply K in H; exact H).
  assert (Y2 : cmin * cmin = 1 / 4) by (destruct (S2 ltac:(lra)) as [H | H]; apply K in H; lra).
  assert (cmax = 1 / 2) by nra. assert (cmin = 1 / 2) by nra. congruence.
Qed.
Example ex_C74_solver : HLL_solver 1 3 2 4 5 6 = (3 * 2 + 1 * 4 + 3) / 4.
Proof. unfold HLL_solver. field. Qed.
Example ex_C74_consistency : exists x, posdef (h_gammaDD x) /\ unit_velocity (h_gammaDD x) (h_betaU x) (h_alpha x) (h_u4U x)
  /\ rho_star_fluxU x 0 = 0 /\ rho_star x = 2.
Proof.
  exists (MkHydro 1 (fun _ => 0) flat 1 flat (fun _ => 0) (fun _ _ => 0) 1 flat (fun _ _ _ => 0) (fun _ => 0) (fun _ _ _ => 0)
    (fun _ => 1) 2 1 1 0 at_rest (fun _ => 0)).
  split; [exact flat_pd |]. split; [exact rest_unit |]. unfold rho_star_fluxU, rho_star, at_rest. cbn. split; ring.
Qed.

Print Assumptions C74_sound_speeds.
Print Assumptions C74_signal_speeds.
Print Assumptions C74_solver.
Print Assumptions C74_consistency.
Print Assumptions C74_divisor_refuted.
