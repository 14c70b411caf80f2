(** C72: rotate turns vectors and matrices by the given angle about the given axis. *)
From Coq Require Import List Arith Bool Reals Lra Lia Psatz.
From Verif Require Import PyBase TensorRotation.
Import ListNotations.
Local Open Scope R_scope.

(** The rotation matrix of Euler and Rodrigues for the axis k, which need not be a unit vector:
    cos(t) 1 + sin(t) [n]x + (1 - cos(t)) n n^T with n = k/|k|. *)
Definition comp (x y z : R) (i : nat) : R := match i with O => x | 1%nat => y | _ => z end.
Definition cross (x y z : R) (i j : nat) : R :=
  match i, j with
  | 0%nat, 1%nat => - z | 0%nat, 2%nat => y
  | 1%nat, 0%nat => z | 1%nat, 2%nat => - x
  | 2%nat, 0%nat => - y | 2%nat, 1%nat => x
  | _, _ => 0
  end.
Definition Rot (x y z t : R) (i j : nat) : R :=
  let n := sqrt (x * x + y * y + z * z) in
  cos t * (if (i =? j)%nat then 1 else 0) + sin t * (cross x y z i j / n)
  + (1 - cos t) * (comp x y z i / n) * (comp x y z j / n).
Definition sum3 (f : nat -> R) : R := f 0%nat + f 1%nat + f 2%nat.
Definition at2 (rows : list (list R)) (i j : nat) : R := nth j (nth i rows []) 0.
Definition row3 (f : nat -> R) : list R := [f 0%nat; f 1%nat; f 2%nat].
Definition turned (x y z t : R) (v : nat -> R) (i : nat) : R := sum3 (fun a => Rot x y z t i a * v a).
Definition turned2 (x y z t : R) (M : nat -> nat -> R) (i j : nat) : R :=
  sum3 (fun a => sum3 (fun b => Rot x y z t i a * Rot x y z t j b * M a b)).

(** the same matrix from a unit axis and the half angle *)
Definition RotH (u : nat -> R) (C S : R) (i j : nat) : R :=
  (C * C - S * S) * (if (i =? j)%nat then 1 else 0) + 2 * S * C * cross (u 0%nat) (u 1%nat) (u 2%nat) i j + 2 * S * S * u i * u j.

Section Unit.
Variables (u : nat -> R) (C S : R).
Hypothesis U : u 0%nat * u 0%nat + u 1%nat * u 1%nat + u 2%nat * u 2%nat = 1.
Hypothesis CS : C * C + S * S = 1.
Let q := Q4 C (u 0%nat * S) (u 1%nat * S) (u 2%nat * S).
Lemma turn_parts : forall a b c,
  parts (qmul (qmul q (Q4 0 a b c)) (conj q)) = row3 (fun i => sum3 (fun k => RotH u C S i k * comp a b c k)).
Proof.
  intros a b c. unfold parts, row3, qmul, conj, q, sum3, RotH. cbn [qa qb qc qd comp cross Nat.eqb].
  f_equal; [| f_equal; [| f_equal]]; apply Rminus_diag_uniq.
  - transitivity (a * S * S * (1 - (u 0%nat * u 0%nat + u 1%nat * u 1%nat + u 2%nat * u 2%nat))); [ring | rewrite U; ring].
  - transitivity (b * S * S * (1 - (u 0%nat * u 0%nat + u 1%nat * u 1%nat + u 2%nat * u 2%nat))); [ring | rewrite U; ring].
  - transitivity (c * S * S * (1 - (u 0%nat * u 0%nat + u 1%nat * u 1%nat + u 2%nat * u 2%nat))); [ring | rewrite U; ring].
Qed.
Lemma turn_parts' : forall a b c,
  parts (qmul q (qmul (Q4 0 a b c) (conj q))) = row3 (fun i => sum3 (fun k => RotH u C S i k * comp a b c k)).
Proof.
  intros a b c. rewrite <- turn_parts. unfold parts, qmul. cbn [qa qb qc qd]. f_equal; [ring | f_equal; [ring | f_equal; ring]].
Qed.

Lemma turn_matrix : forall rows, rotate_matrix q rows =
  [row3 (fun j => sum3 (fun a => sum3 (fun b => RotH u C S 0 a * RotH u C S j b * at2 rows a b)));
   row3 (fun j => sum3 (fun a => sum3 (fun b => RotH u C S 1 a * RotH u C S j b * at2 rows a b)));
   row3 (fun j => sum3 (fun a => sum3 (fun b => RotH u C S 2 a * RotH u C S j b * at2 rows a b)))].
Proof.
  intros rows. unfold rotate_matrix.
  assert (K : map parts (mul_left q (mul_right (columns rows) (conj q)))
    = [row3 (fun i => sum3 (fun k => RotH u C S i k * at2 rows k 0)); row3 (fun i => sum3 (fun k => RotH u C S i k * at2 rows k 1));
       row3 (fun i => sum3 (fun k => RotH u C S i k * at2 rows k 2))]).
  { unfold mul_left, mul_right, columns, entry, at2. cbn [map seq]. rewrite !turn_parts'. reflexivity. }
  rewrite K. unfold of_columns, mul_left, mul_right, row_quats, entry. cbn [map seq nth row3]. rewrite !turn_parts'.
  unfold row3, sum3. cbn [comp]. generalize (RotH u C S). generalize (at2 rows). clear. intros m r.
  repeat (f_equal; try ring).
Qed.

Lemma RotH_orth : forall i j, (i < 3)%nat -> (j < 3)%nat ->
  sum3 (fun a => RotH u C S i a * RotH u C S j a) = if (i =? j)%nat then 1 else 0.
Proof.
  intros i j Hi Hj. assert (Hu : u 2%nat * u 2%nat = 1 - u 0%nat * u 0%nat - u 1%nat * u 1%nat) by lra.
  assert (Hs : S * S = 1 - C * C) by lra.
  unfold sum3, RotH.
  destruct i as [| [| [| i]]]; [| | | lia]; (destruct j as [| [| [| j]]]; [| | | lia]); cbn [cross Nat.eqb]; ring [Hu Hs].
Qed.
Lemma RotH_orth' : forall i j, (i < 3)%nat -> (j < 3)%nat ->
  sum3 (fun a => RotH u C S a i * RotH u C S a j) = if (i =? j)%nat then 1 else 0.
Proof.
  intros i j Hi Hj. assert (Hu : u 2%nat * u 2%nat = 1 - u 0%nat * u 0%nat - u 1%nat * u 1%nat) by lra.
  assert (Hs : S * S = 1 - C * C) by lra.
  unfold sum3, RotH.
  destruct i as [| [| [| i]]]; [| | | lia]; (destruct j as [| [| [| j]]]; [| | | lia]); cbn [cross Nat.eqb]; ring [Hu Hs].
Qed.
Lemma RotH_det : let r := RotH u C S in
  r 0%nat 0%nat * (r 1%nat 1%nat * r 2%nat 2%nat - r 1%nat 2%nat * r 2%nat 1%nat)
  - r 0%nat 1%nat * (r 1%nat 0%nat * r 2%nat 2%nat - r 1%nat 2%nat * r 2%nat 0%nat)
  + r 0%nat 2%nat * (r 1%nat 0%nat * r 2%nat 1%nat - r 1%nat 1%nat * r 2%nat 0%nat) = 1.
Proof.
  assert (Hu : u 2%nat * u 2%nat = 1 - u 0%nat * u 0%nat - u 1%nat * u 1%nat) by lra.
  assert (Hs : S * S = 1 - C * C) by lra. cbv zeta. unfold RotH. cbn [cross Nat.eqb]. ring [Hu Hs].
Qed.
Lemma RotH_axis : forall i, (i < 3)%nat -> sum3 (fun a => RotH u C S i a * u a) = u i.
Proof.
  intros i Hi. assert (Hu : u 2%nat * u 2%nat = 1 - u 0%nat * u 0%nat - u 1%nat * u 1%nat) by lra.
  assert (Hs : S * S = 1 - C * C) by lra. unfold sum3, RotH.
  destruct i as [| [| [| i]]]; [| | | lia]; cbn [cross Nat.eqb]; ring [Hu Hs].
Qed.
End Unit.

(** the unit axis *)
Definition uaxis (x y z : R) (i : nat) : R := comp x y z i / sqrt (x * x + y * y + z * z).
Lemma norm_pos : forall x y z, x * x + y * y + z * z <> 0 -> 0 < sqrt (x * x + y * y + z * z).
Proof. intros x y z H. apply sqrt_lt_R0. nra. Qed.
Lemma uaxis_unit : forall x y z, x * x + y * y + z * z <> 0 ->
  uaxis x y z 0 * uaxis x y z 0 + uaxis x y z 1 * uaxis x y z 1 + uaxis x y z 2 * uaxis x y z 2 = 1.
Proof.
  intros x y z H. pose proof (norm_pos x y z H) as P. unfold uaxis. cbn [comp].
  pose proof (sqrt_sqrt (x * x + y * y + z * z) ltac:(nra)) as Q. set (n := sqrt (x * x + y * y + z * z)) in *.
  transitivity ((x * x + y * y + z * z) / (n * n)); [field; lra | rewrite <- Q; field; lra].
Qed.
Lemma half_one : forall t, cos (t * / 2) * cos (t * / 2) + sin (t * / 2) * sin (t * / 2) = 1.
Proof. intros t. pose proof (sin2_cos2 (t * / 2)) as H. unfold Rsqr in H. lra. Qed.
Lemma Rot_half : forall x y z t i j, Rot x y z t i j = RotH (uaxis x y z) (cos (t * / 2)) (sin (t * / 2)) i j.
Proof.
  intros x y z t i j. unfold Rot, RotH, uaxis.
  assert (Ec : cos t = cos (t * / 2) * cos (t * / 2) - sin (t * / 2) * sin (t * / 2)).
  { rewrite <- cos_2a. f_equal. field. }
  assert (Es : sin t = 2 * sin (t * / 2) * cos (t * / 2)).
  { rewrite <- sin_2a. f_equal. field. }
  assert (E1 : 1 - cos t = 2 * sin (t * / 2) * sin (t * / 2)) by (pose proof (half_one t); lra).
  rewrite E1, Ec, Es. cbv zeta. generalize (sqrt (x * x + y * y + z * z)). intros n.
  assert (Ex : cross x y z i j / n = cross (comp x y z 0 / n) (comp x y z 1 / n) (comp x y z 2 / n) i j).
  { cbn [comp]. destruct i as [| [| [| i]]], j as [| [| [| j]]]; cbn [cross]; unfold Rdiv; ring. }
  rewrite Ex. ring.
Qed.
Lemma quat_ok : forall x y z t, from_axis_angle x y z t
  = Q4 (cos (t * / 2)) (uaxis x y z 0 * sin (t * / 2)) (uaxis x y z 1 * sin (t * / 2)) (uaxis x y z 2 * sin (t * / 2)).
Proof.
  intros. unfold from_axis_angle, uaxis. replace (x ^ 2 + y ^ 2 + z ^ 2) with (x * x + y * y + z * z) by ring. reflexivity.
Qed.
Lemma nonzero_dec : forall (A : Type) x y z (a b : A), x * x + y * y + z * z <> 0 ->
  (if (if Req_EM_T (x ^ 2 + y ^ 2 + z ^ 2) 0 then true else false) then a else b) = b.
Proof. intros A x y z a b H. destruct (Req_EM_T (x ^ 2 + y ^ 2 + z ^ 2) 0) as [E |]; [exfalso; apply H; lra | reflexivity]. Qed.

(** ** The results are those of the rotation matrix. *)
Theorem C72_vector : forall x y z t a b c, x * x + y * y + z * z <> 0 ->
  rotate (Vec [a; b; c]) [x; y; z] t = Ok (Val (Vec (row3 (turned x y z t (comp a b c))))).
Proof.
  intros x y z t a b c H. unfold rotate. rewrite (nonzero_dec _ x y z _ _ H). unfold rotate_vector. rewrite quat_ok.
  rewrite (turn_parts _ _ _ (uaxis_unit x y z H)). unfold turned, sum3, row3. rewrite !Rot_half. reflexivity.
Qed.
Theorem C72_matrix : forall x y z t r0 r1 r2, x * x + y * y + z * z <> 0 ->
  length r0 = 3%nat -> length r1 = 3%nat -> length r2 = 3%nat ->
  let M := at2 [r0; r1; r2] in
  rotate (Mat [r0; r1; r2]) [x; y; z] t
  = Ok (Val (Mat [row3 (turned2 x y z t M 0); row3 (turned2 x y z t M 1); row3 (turned2 x y z t M 2)])).
Proof.
  intros x y z t r0 r1 r2 H H0 H1 H2 M. unfold rotate. cbn [forallb length Nat.eqb andb]. unfold is_row3. rewrite H0, H1, H2.
  cbn [Nat.eqb andb]. rewrite (nonzero_dec _ x y z _ _ H), quat_ok.
  rewrite (turn_matrix _ _ _ (uaxis_unit x y z H)). unfold turned2, sum3, row3. rewrite !Rot_half. reflexivity.
Qed.

(** ** That matrix is the rotation about the axis by the angle: it is orthogonal with determinant 1, leaves the axis
    alone, and turns a vector at right angles to the axis by the angle, counterclockwise seen from the tip of the axis. *)
Theorem C72_rotation : forall x y z t, x * x + y * y + z * z <> 0 ->
  let r := Rot x y z t in
  (forall i j, (i < 3)%nat -> (j < 3)%nat -> sum3 (fun a => r a i * r a j) = if (i =? j)%nat then 1 else 0)
  /\ r 0%nat 0%nat * (r 1%nat 1%nat * r 2%nat 2%nat - r 1%nat 2%nat * r 2%nat 1%nat)
     - r 0%nat 1%nat * (r 1%nat 0%nat * r 2%nat 2%nat - r 1%nat 2%nat * r 2%nat 0%nat)
     + r 0%nat 2%nat * (r 1%nat 0%nat * r 2%nat 1%nat - r 1%nat 1%nat * r 2%nat 0%nat) = 1
  /\ (forall i, (i < 3)%nat -> turned x y z t (comp x y z) i = comp x y z i)
  /\ (forall v, sum3 (fun i => comp x y z i * v i) = 0 ->
      sum3 (fun i => v i * turned x y z t v i) = cos t * sum3 (fun i => v i * v i)
      /\ (let w := turned x y z t v in
          x * (v 1%nat * w 2%nat - v 2%nat * w 1%nat) + y * (v 2%nat * w 0%nat - v 0%nat * w 2%nat)
          + z * (v 0%nat * w 1%nat - v 1%nat * w 0%nat)
          = sin t * sqrt (x * x + y * y + z * z) * sum3 (fun i => v i * v i))).
Proof.
  intros x y z t H r. pose proof (uaxis_unit x y z H) as U. pose proof (half_one t) as CS. split; [| split; [| split]].
  - intros i j Hi Hj. rewrite <- (RotH_orth' _ _ _ U CS i j Hi Hj). unfold sum3, r. rewrite !Rot_half. reflexivity.
  - pose proof (RotH_det _ _ _ U CS) as D. unfold r. rewrite !Rot_half. exact D.
  - intros i Hi. pose proof (RotH_axis _ _ _ U CS i Hi) as A. pose proof (norm_pos x y z H) as P.
    unfold turned, sum3. rewrite !Rot_half. revert A. unfold sum3, uaxis at 2 4 6 7.
    set (n := sqrt (x * x + y * y + z * z)) in *. generalize (RotH (uaxis x y z) (cos (t * / 2)) (sin (t * / 2)) i). intros f A.
    apply (Rmult_eq_reg_r (/ n)); [| apply Rinv_neq_0_compat; lra]. rewrite <- (Rmult_comm (/ n) (comp x y z i)).
    transitivity (comp x y z i / n); [rewrite <- A; unfold Rdiv; ring | unfold Rdiv; ring].
  - intros v O. pose proof (norm_pos x y z H) as P. pose proof (sqrt_sqrt (x * x + y * y + z * z) ltac:(nra)) as Q.
    unfold sum3 in O. cbn [comp] in O. unfold turned, sum3, Rot. cbn [comp cross Nat.eqb]. cbv zeta.
    set (n := sqrt (x * x + y * y + z * z)) in *. set (d := x * v 0%nat + y * v 1%nat + z * v 2%nat) in *. split.
    + transitivity (cos t * (v 0%nat * v 0%nat + v 1%nat * v 1%nat + v 2%nat * v 2%nat) + (1 - cos t) * d * d / (n * n));
        [unfold d; field; lra | rewrite O; field; lra].
    + transitivity (sin t / n * ((n * n) * (v 0%nat * v 0%nat + v 1%nat * v 1%nat + v 2%nat * v 2%nat) - d * d));
        [rewrite Q; unfold d; field; lra | rewrite O; field; lra].
Qed.

(** ** What a rotation preserves, on the results of the code. *)
Definition vec_of (o : py outcome) : option (nat -> R) :=
  match o with Ok (Val (Vec l)) => Some (fun i => nth i l 0) | _ => None end.
Definition mat_of (o : py outcome) : option (nat -> nat -> R) :=
  match o with Ok (Val (Mat l)) => Some (at2 l) | _ => None end.
Definition dot (u v : nat -> R) : R := sum3 (fun i => u i * v i).
Definition bil (M : nat -> nat -> R) (u v : nat -> R) : R := sum3 (fun i => sum3 (fun j => M i j * u i * v j)).

Lemma sum3_ext : forall f h, (forall a, (a < 3)%nat -> f a = h a) -> sum3 f = sum3 h.
Proof. intros f h H. unfold sum3. rewrite !H by lia. reflexivity. Qed.
Lemma orth_sum : forall (r : nat -> nat -> R),
  (forall i j, (i < 3)%nat -> (j < 3)%nat -> sum3 (fun a => r a i * r a j) = if (i =? j)%nat then 1 else 0) ->
  forall (F : nat -> nat -> R), sum3 (fun a => sum3 (fun b => F a b * sum3 (fun i => r i a * r i b))) = sum3 (fun a => F a a).
Proof.
  intros r H F. transitivity (sum3 (fun a => sum3 (fun b => F a b * (if (a =? b)%nat then 1 else 0)))).
  - apply sum3_ext. intros a Ha. apply sum3_ext. intros b Hb. now rewrite H.
  - unfold sum3. cbn [Nat.eqb]. ring.
Qed.
Lemma orth_move : forall r : nat -> nat -> R,
  (forall i j, (i < 3)%nat -> (j < 3)%nat -> sum3 (fun a => r a i * r a j) = if (i =? j)%nat then 1 else 0) ->
  forall (X V : nat -> R), sum3 (fun i => sum3 (fun a => r i a * X a) * sum3 (fun a => r i a * V a)) = sum3 (fun a => X a * V a).
Proof.
  intros r H X V.
  transitivity (sum3 (fun a => sum3 (fun b => X a * V b * sum3 (fun i => r i a * r i b)))); [unfold sum3; ring |].
  now rewrite (orth_sum r H (fun a b => X a * V b)).
Qed.
Theorem C72_invariants : forall x y z t a b c d e f r0 r1 r2 u v M,
  x * x + y * y + z * z <> 0 -> length r0 = 3%nat -> length r1 = 3%nat -> length r2 = 3%nat ->
  vec_of (rotate (Vec [a; b; c]) [x; y; z] t) = Some u -> vec_of (rotate (Vec [d; e; f]) [x; y; z] t) = Some v ->
  mat_of (rotate (Mat [r0; r1; r2]) [x; y; z] t) = Some M ->
  let N := at2 [r0; r1; r2] in
  dot u v = a * d + b * e + c * f
  /\ bil M u v = bil N (comp a b c) (comp d e f)
  /\ sum3 (fun i => M i i) = sum3 (fun i => N i i)
  /\ ((forall i j, N i j = N j i) -> forall i j, (i < 3)%nat -> (j < 3)%nat -> M i j = M j i).
Proof.
  intros x y z t a b c d e f r0 r1 r2 u v M H H0 H1 H2 Hu Hv HM N.
  rewrite (C72_vector x y z t a b c H) in Hu. rewrite (C72_vector x y z t d e f H) in Hv.
  rewrite (C72_matrix x y z t r0 r1 r2 H H0 H1 H2) in HM. fold N in HM. clearbody N.
  cbn [vec_of mat_of] in Hu, Hv, HM.
  destruct (C72_rotation x y z t H) as [O _]. set (r := Rot x y z t) in *.
  assert (Eu : forall i, (i < 3)%nat -> u i = turned x y z t (comp a b c) i).
  { intros i Hi. assert (G : u = fun i => nth i (row3 (turned x y z t (comp a b c))) 0) by congruence. rewrite G.
    destruct i as [| [| [| i]]]; [reflexivity.. | lia]. }
  assert (Ev : forall i, (i < 3)%nat -> v i = turned x y z t (comp d e f) i).
  { intros i Hi. assert (G : v = fun i => nth i (row3 (turned x y z t (comp d e f))) 0) by congruence. rewrite G.
    destruct i as [| [| [| i]]]; [reflexivity.. | lia]. }
  assert (EM : forall i j, (i < 3)%nat -> (j < 3)%nat -> M i j = turned2 x y z t N i j).
  { intros i j Hi Hj.
    assert (G : M = at2 [row3 (turned2 x y z t N 0); row3 (turned2 x y z t N 1); row3 (turned2 x y z t N 2)]) by congruence.
    rewrite G. unfold at2. destruct i as [| [| [| i]]]; [| | | lia]; (destruct j as [| [| [| j]]]; [reflexivity.. | lia]). }
  clear Hu Hv HM. split; [| split; [| split]].
  - unfold dot, sum3 at 1. rewrite !Eu, !Ev by lia.
    transitivity (sum3 (fun a0 => comp a b c a0 * comp d e f a0)); [| unfold sum3; cbn [comp]; ring].
    rewrite <- (orth_move r O). reflexivity.
  - unfold bil. transitivity (sum3 (fun i => sum3 (fun a0 => r i a0 * sum3 (fun b0 => N a0 b0 * comp d e f b0)) * sum3 (fun a0 => r i a0 * comp a b c a0))).
    + transitivity (sum3 (fun i => sum3 (fun j => turned2 x y z t N i j * turned x y z t (comp d e f) j) * turned x y z t (comp a b c) i)).
      * unfold sum3. rewrite !Eu, !Ev, !EM by lia. ring.
      * assert (X : forall i, sum3 (fun j => turned2 x y z t N i j * turned x y z t (comp d e f) j)
                             = sum3 (fun a0 => r i a0 * sum3 (fun b0 => N a0 b0 * comp d e f b0))).
        { intros i. transitivity (sum3 (fun a0 => r i a0 * sum3 (fun j => sum3 (fun b0 => r j b0 * N a0 b0) * sum3 (fun b0 => r j b0 * comp d e f b0)))).
          - unfold turned2, turned. fold r. unfold sum3. ring.
          - unfold sum3 at 1. rewrite !(orth_move r O). reflexivity. }
        unfold sum3 at 1. rewrite !X. reflexivity.
    + rewrite (orth_move r O). unfold sum3. ring.
  - unfold sum3 at 1. rewrite !EM by lia. unfold turned2. fold r.
    transitivity (sum3 (fun a0 => sum3 (fun b0 => N a0 b0 * sum3 (fun i => r i a0 * r i b0)))); [unfold sum3; ring |].
    now rewrite (orth_sum r O N).
  - intros S i j Hi Hj. rewrite !EM by lia. unfold turned2. fold r. unfold sum3.
    rewrite (S 1%nat 0%nat), (S 2%nat 0%nat), (S 2%nat 1%nat). ring.
Qed.

(** ** Rotations about one axis add up; rotating by the opposite angle undoes a rotation. *)
Theorem C72_compose : forall x y z t1 t2 v i, x * x + y * y + z * z <> 0 -> (i < 3)%nat ->
  turned x y z t2 (turned x y z t1 v) i = turned x y z (t1 + t2) v i
  /\ turned x y z (- t1) (turned x y z t1 v) i = v i.
Proof.
  assert (K : forall x y z t1 t2 v i, x * x + y * y + z * z <> 0 -> (i < 3)%nat ->
    turned x y z t2 (turned x y z t1 v) i = turned x y z (t1 + t2) v i).
  { intros x y z t1 t2 v i H Hi. pose proof (uaxis_unit x y z H) as U. unfold uaxis in U. cbn [comp] in U.
    unfold turned, sum3, Rot. cbv zeta. rewrite cos_plus, sin_plus. unfold comp, cross.
    set (n := sqrt (x * x + y * y + z * z)) in *. set (p := x / n) in *. set (q := y / n) in *. set (s := z / n) in *.
    assert (Ex : forall w, - w / n = - (w / n)) by (intros; unfold Rdiv; ring). assert (Ez : 0 / n = 0) by (unfold Rdiv; ring).
    assert (Hs : s * s = 1 - p * p - q * q) by lra.
    destruct i as [| [| [| i]]]; [| | | lia]; cbn [Nat.eqb]; rewrite ?Ex, ?Ez; fold p q s; ring [Hs]. }
  intros x y z t1 t2 v i H Hi. split; [now apply K |]. rewrite (K x y z t1 (- t1) v i H Hi).
  replace (t1 + - t1) with 0 by ring. unfold turned, sum3, Rot. rewrite cos_0, sin_0.
  destruct i as [| [| [| i]]]; [| | | lia]; cbn [Nat.eqb]; ring.
Qed.

(** ** Which calls raise, and which have no value. *)
Theorem C72_errors : forall t axis angle,
  (exists o, rotate t axis angle = Ok o) <->
  length axis = 3%nat /\ match t with Vec l => length l = 3%nat | Mat rows => length rows = 3%nat /\ Forall (fun r => length r = 3%nat) rows end.
Proof.
  intros t axis angle. split.
  - intros [o E]. unfold rotate in E. destruct axis as [| x [| y [| z [| w axis]]]]; try discriminate. split; [reflexivity |].
    destruct t as [l | rows].
    + destruct l as [| a [| b [| c [| d l]]]]; try discriminate. reflexivity.
    + destruct rows as [| r rows]; [discriminate |].
      destruct ((length (r :: rows) =? 3)%nat && forallb is_row3 (r :: rows)) eqn:B; [| discriminate].
      apply andb_prop in B. destruct B as [B1 B2]. apply Nat.eqb_eq in B1. split; [exact B1 |].
      rewrite forallb_forall in B2. apply Forall_forall. intros l Hl. apply Nat.eqb_eq. exact (B2 l Hl).
  - intros [A B]. destruct axis as [| x [| y [| z [| w axis]]]]; try discriminate. unfold rotate. destruct t as [l | rows].
    + destruct l as [| a [| b [| c [| d l]]]]; try discriminate. eexists. reflexivity.
    + destruct B as [B1 B2]. destruct rows as [| r rows]; [discriminate |].
      assert (F : forallb is_row3 (r :: rows) = true).
      { apply forallb_forall. intros l Hl. rewrite Forall_forall in B2. apply Nat.eqb_eq. exact (B2 l Hl). }
      rewrite B1, F. cbn [Nat.eqb andb]. eexists. reflexivity.
Qed.
(** A refusal is an IndexError for an empty tensor with an axis of three components, and a ValueError otherwise. *)
Theorem C72_exceptions : forall t axis angle e, rotate t axis angle = Err e ->
  e = if (length axis =? 3)%nat && (match t with Vec l => length l | Mat rows => length rows end =? 0)%nat then IndexError else ValueError.
Proof.
  intros t axis angle e E. unfold rotate in E. destruct axis as [| x [| y [| z [| w axis]]]]; try (injection E as <-; reflexivity). cbn [length Nat.eqb andb].
  destruct t as [[| a [| b [| c [| d l]]]] | [| r rows]]; try discriminate; try (injection E as <-; reflexivity).
  destruct ((length (r :: rows) =? 3)%nat && forallb is_row3 (r :: rows)); [discriminate | injection E as <-; reflexivity].
Qed.
Example ex_C72_exceptions : rotate (Vec []) [0; 0; 1] 1 = Err IndexError /\ rotate (Vec [1; 2]) [0; 0; 1] 1 = Err ValueError /\ rotate (Vec []) [1] 1 = Err ValueError.
Proof. repeat split. Qed.
(** rotating by the angle 0 is the identity in mathematics for every axis; with a zero axis there is no value *)
Theorem C72_zero_axis_refuted : exists v axis, rotate (Vec v) axis 0 = Ok nan.
Proof.
  exists [1; 0; 0], [0; 0; 0]. unfold rotate. destruct (Req_EM_T (0 ^ 2 + 0 ^ 2 + 0 ^ 2) 0) as [| N]; [reflexivity | exfalso; apply N; ring].
Qed.

(** ** Examples *)
Example ex_C72_quarter : rotate (Vec [1; 0; 0]) [0; 0; 2] (PI / 2) = Ok (Val (Vec [0; 1; 0])).
Proof.
  rewrite C72_vector by lra. unfold turned, sum3, row3, Rot. cbv zeta. rewrite cos_PI2, sin_PI2.
  replace (0 * 0 + 0 * 0 + 2 * 2) with (2 * 2) by ring. rewrite sqrt_square by lra. cbn [comp cross Nat.eqb].
  do 3 f_equal. f_equal; [field | f_equal; [field | f_equal; field]].
Qed.
Example ex_C72_matrix : exists M, mat_of (rotate (Mat [[1; 2; 0]; [2; 1; 0]; [0; 0; 3]]) [1; 1; 1] 1) = Some M.
Proof. eexists. rewrite C72_matrix by (reflexivity || lra). reflexivity. Qed.
Example ex_C72_error : rotate (Vec [1; 2]) [0; 0; 1] 1 = Err ValueError /\ rotate (Mat [[1]]) [0; 0; 1] 1 = Err ValueError.
Proof. split; reflexivity. Qed.

Print Assumptions C72_vector.
Print Assumptions C72_matrix.
Print Assumptions C72_rotation.
Print Assumptions C72_invariants.
Print Assumptions C72_compose.
Print Assumptions C72_errors.
Print Assumptions C72_exceptions.
Print Assumptions C72_zero_axis_refuted.
