(** C82: a solution of the TOV equations of TOV_equations.py is a static star: with the metric
    - exp(nu) dt^2 + dr^2 / (1 - 2 M / r) + r^2 (dtheta^2 + sin(theta)^2 dphi^2) and a perfect fluid at rest it solves Einstein's equations, and the
    fourth equation is the one of the isotropic radius. *)
From Coq Require Import List Arith Bool Lia Reals Lra.
From Verif Require Import TOVEquations.
Local Open Scope R_scope.

(** ** Geometry in four coordinates *)
Definition point := nat -> R.
Definition upd4 (a : nat) (u : R) (x : point) : point := fun b => if (b =? a)%nat then u else x b.
(** the partial derivative of [f] in the direction [a] at [x] is [d] *)
Definition partial (f : point -> R) (a : nat) (x : point) (d : R) : Prop := derivable_pt_lim (fun u => f (upd4 a u x)) (x a) d.
Definition s4 (f : nat -> R) : R := f 0%nat + f 1%nat + f 2%nat + f 3%nat.
Definition delta (a b : nat) : R := if (a =? b)%nat then 1 else 0.
(** [G] is the Levi-Civita connection of [g] on the set [D] *)
Definition connection_of (D : point -> Prop) (g : point -> nat -> nat -> R) (G : point -> nat -> nat -> nat -> R) : Prop :=
  exists dg : point -> nat -> nat -> nat -> R, forall y, D y ->
    (forall a b c, (a < 4)%nat -> (b < 4)%nat -> (c < 4)%nat -> partial (fun z => g z a b) c y (dg y a b c)) /\
    (forall a b c, (a < 4)%nat -> (b < 4)%nat -> (c < 4)%nat -> 2 * s4 (fun d => g y a d * G y d b c) = dg y a c b + dg y a b c - dg y b c a).
(** the Ricci tensor of a connection with the derivatives [dG] *)
Definition Ricci (G : nat -> nat -> nat -> R) (dG : nat -> nat -> nat -> nat -> R) (b c : nat) : R :=
  s4 (fun a => dG a b c a - dG a b a c + s4 (fun d => G a a d * G d b c - G a c d * G d b a)).
(** Einstein's equations for the metric [g] and the energy-momentum tensor [T] (lower indices) at [x] *)
Definition einstein_at (D : point -> Prop) (g : point -> nat -> nat -> R) (T : nat -> nat -> R) (x : point) : Prop :=
  exists (G : point -> nat -> nat -> nat -> R) (dG : nat -> nat -> nat -> nat -> R) (gi : nat -> nat -> R),
    connection_of D g G /\
    (forall a b c d, (a < 4)%nat -> (b < 4)%nat -> (c < 4)%nat -> (d < 4)%nat -> partial (fun z => G z a b c) d x (dG a b c d)) /\
    (forall a b, (a < 4)%nat -> (b < 4)%nat -> s4 (fun c => g x a c * gi c b) = delta a b) /\
    (forall a b, (a < 4)%nat -> (b < 4)%nat ->
       Ricci (G x) dG a b - / 2 * g x a b * s4 (fun c => s4 (fun d => gi c d * Ricci (G x) dG c d)) = 8 * PI * T a b).

(** ** The star *)
Definition star_metric (nu M : R -> R) (x : point) (a b : nat) : R :=
  let r := x 1%nat in
  match a, b with
  | 0%nat, 0%nat => - exp (nu r)
  | 1%nat, 1%nat => / (1 - 2 * M r / r)
  | 2%nat, 2%nat => r * r
  | 3%nat, 3%nat => r * r * (sin (x 2%nat) * sin (x 2%nat))
  | _, _ => 0
  end.
(** (rho + P) u_a u_b + P g_ab with the four-velocity u_a = (- exp(nu/2), 0, 0, 0) of a fluid at rest *)
Definition fluid_at_rest (rho P nu : R) (g : nat -> nat -> R) (a b : nat) : R :=
  let u c := if (c =? 0)%nat then - exp (nu / 2) else 0 in (rho + P) * u a * u b + P * g a b.
(** the equations of the code between the radii r1 and r2 *)
Definition tov_solution (rho P nu M : R -> R) (r1 r2 : R) : Prop := forall r, r1 < r < r2 ->
  derivable_pt_lim P r (dP_dr r (rho r) (P r) (M r)) /\ derivable_pt_lim nu r (dnu_dr r (P r) (M r)) /\ derivable_pt_lim M r (dM_dr r (rho r)).

Lemma der_val : forall f x y z, y = z -> derivable_pt_lim f x y -> derivable_pt_lim f x z.
Proof. now intros f x y z <-. Qed.
Lemma der_ext : forall f g x y, (forall u, f u = g u) -> derivable_pt_lim f x y -> derivable_pt_lim g x y.
Proof. intros f g x y H D eps He. destruct (D eps He) as [del Hd]. exists del. intros h H0 H1. rewrite <- !H. now apply Hd. Qed.
Lemma der_near : forall f g x y r1 r2, r1 < x < r2 -> (forall u, r1 < u < r2 -> f u = g u) -> derivable_pt_lim f x y -> derivable_pt_lim g x y.
Proof.
  intros f g x y r1 r2 X H D eps He. destruct (D eps He) as [del Hd]. assert (Mp : 0 < Rmin del (Rmin (x - r1) (r2 - x))) by (repeat apply Rmin_glb_lt; [apply cond_pos | lra | lra]).
  exists (mkposreal _ Mp). intros h H0 H1. cbn in H1. pose proof (Rmin_l del (Rmin (x - r1) (r2 - x))). pose proof (Rmin_r del (Rmin (x - r1) (r2 - x))).
  pose proof (Rmin_l (x - r1) (r2 - x)). pose proof (Rmin_r (x - r1) (r2 - x)). rewrite <- (H x X), <- (H (x + h)).
  - apply Hd; [exact H0 | lra].
  - unfold Rabs in H1. destruct (Rcase_abs h); lra.
Qed.
Lemma der_inv : forall f x y, f x <> 0 -> derivable_pt_lim f x y -> derivable_pt_lim (fun u => / f u) x (- y / (f x * f x)).
Proof.
  intros f x y H D. pose proof (derivable_pt_lim_div (fct_cte 1) f x 0 y (derivable_pt_lim_const 1 x) D H) as Q.
  apply (der_ext (div_fct (fct_cte 1) f)); [intro u; unfold div_fct, fct_cte, Rdiv; ring |]. eapply der_val; [| exact Q]. unfold fct_cte, Rsqr. field. exact H.
Qed.
Lemma der_mult : forall f g x a b, derivable_pt_lim f x a -> derivable_pt_lim g x b -> derivable_pt_lim (fun u => f u * g u) x (a * g x + f x * b).
Proof. intros. now apply (derivable_pt_lim_mult f g). Qed.
Lemma der_plus : forall f g x a b, derivable_pt_lim f x a -> derivable_pt_lim g x b -> derivable_pt_lim (fun u => f u + g u) x (a + b).
Proof. intros. now apply (derivable_pt_lim_plus f g). Qed.
Lemma der_minus : forall f g x a b, derivable_pt_lim f x a -> derivable_pt_lim g x b -> derivable_pt_lim (fun u => f u - g u) x (a - b).
Proof. intros. now apply (derivable_pt_lim_minus f g). Qed.
Lemma der_div : forall f g x a b, g x <> 0 -> derivable_pt_lim f x a -> derivable_pt_lim g x b -> derivable_pt_lim (fun u => f u / g u) x (a / g x - f x * b / (g x * g x)).
Proof.
  intros f g x a b H A B. pose proof (der_mult f (fun u => / g u) x _ _ A (der_inv g x b H B)) as D. eapply der_val; [| exact D]. cbn beta. field. exact H.
Qed.
Lemma der_c : forall c x, derivable_pt_lim (fun _ => c) x 0.
Proof. intros. apply (derivable_pt_lim_const c). Qed.
Lemma der_id : forall x, derivable_pt_lim (fun u => u) x 1.
Proof. intro. apply derivable_pt_lim_id. Qed.
Lemma der_scal : forall c f x a, derivable_pt_lim f x a -> derivable_pt_lim (fun u => c * f u) x (c * a).
Proof. intros. now apply (derivable_pt_lim_scal f). Qed.
Lemma der_opp : forall f x a, derivable_pt_lim f x a -> derivable_pt_lim (fun u => - f u) x (- a).
Proof. intros. now apply (derivable_pt_lim_opp f). Qed.
Lemma der_exp : forall f x a, derivable_pt_lim f x a -> derivable_pt_lim (fun u => exp (f u)) x (exp (f x) * a).
Proof. intros f x a D. apply (derivable_pt_lim_comp f exp); [exact D | apply derivable_pt_lim_exp]. Qed.

Section Star.
Variables (rho P nu M : R -> R) (r1 r2 : R).
Hypothesis r1_pos : 0 <= r1.
Hypothesis sol : tov_solution rho P nu M r1 r2.
Hypothesis outside_horizon : forall r, r1 < r < r2 -> 2 * M r < r.
(** 1 - 2M/r and its derivative, nu' *)
Let F (r : R) : R := 1 - 2 * M r / r.
Let F1 (r : R) : R := - (2 * dM_dr r (rho r) / r - 2 * M r / (r * r)).
Let N (r : R) : R := dnu_dr r (P r) (M r).
Lemma F_pos : forall r, r1 < r < r2 -> 0 < F r.
Proof.
  intros r H. specialize (outside_horizon r H). unfold F. assert (0 < r) by lra. apply Rmult_lt_reg_l with r; [assumption |]. rewrite Rmult_0_r. replace (r * (1 - 2 * M r / r)) with (r - 2 * M r) by (field; lra). lra.
Qed.
Lemma d_F : forall r, r1 < r < r2 -> derivable_pt_lim F r (F1 r).
Proof.
  intros r H. destruct (sol r H) as (_ & _ & DM). unfold F. pose proof (der_minus _ _ r _ _ (der_c 1 r) (der_div (fun u => 2 * M u) (fun u => u) r _ _ ltac:(lra) (der_scal 2 M r _ DM) (der_id r))) as D.
  eapply der_val; [| exact D]. cbn beta. unfold F1. field. lra.
Qed.
(** the connection: products of a function of r and one of theta *)
Definition kind (a b c : nat) : nat :=
  match a, b, c with
  | 0, 0, 1 | 0, 1, 0 => 1 | 1, 0, 0 => 2 | 1, 1, 1 => 3 | 1, 2, 2 => 4 | 1, 3, 3 => 5
  | 2, 1, 2 | 2, 2, 1 | 3, 1, 3 | 3, 3, 1 => 6 | 2, 3, 3 => 7 | 3, 2, 3 | 3, 3, 2 => 8 | _, _, _ => 0
  end%nat.
Definition Ar (k : nat) (r : R) : R :=
  match k with
  | 1%nat => N r / 2 | 2%nat => F r * exp (nu r) * (N r / 2) | 3%nat => - (F1 r / (2 * F r)) | 4%nat => - (r * F r) | 5%nat => - (r * F r) | 6%nat => / r | 7%nat => 1 | 8%nat => 1 | _ => 0
  end.
Definition Bt (k : nat) (t : R) : R :=
  match k with 5%nat => sin t * sin t | 7%nat => - (sin t * cos t) | 8%nat => cos t / sin t | _ => 1 end.
Definition Gam (x : point) (a b c : nat) : R := Ar (kind a b c) (x 1%nat) * Bt (kind a b c) (x 2%nat).
Definition dBt (k : nat) (t : R) : R :=
  match k with 5%nat => 2 * (sin t * cos t) | 7%nat => - (cos t * cos t - sin t * sin t) | 8%nat => - (/ (sin t * sin t)) | _ => 0 end.
Lemma d_Bt : forall k t, sin t <> 0 -> derivable_pt_lim (Bt k) t (dBt k t).
Proof.
  intros k t S. destruct k as [|[|[|[|[|[|[|[|[|k]]]]]]]]]; cbv [Bt dBt]; try apply der_c.
  - eapply der_val; [| exact (der_mult sin sin t _ _ (derivable_pt_lim_sin t) (derivable_pt_lim_sin t))]. cbn beta. ring.
  - eapply der_val; [| exact (der_opp _ t _ (der_mult sin cos t _ _ (derivable_pt_lim_sin t) (derivable_pt_lim_cos t)))]. cbn beta. ring.
  - eapply der_val; [| exact (der_div cos sin t _ _ S (derivable_pt_lim_cos t) (derivable_pt_lim_sin t))].
    pose proof (sin2_cos2 t) as E. unfold Rsqr in E. transitivity (- (sin t * sin t + cos t * cos t) / (sin t * sin t)); [field; exact S | rewrite E; field; exact S].
Qed.
(** the metric and its derivatives *)
Definition dg (x : point) (a b c : nat) : R :=
  let r := x 1%nat in let t := x 2%nat in
  match a, b, c with
  | 0%nat, 0%nat, 1%nat => - (exp (nu r) * N r)
  | 1%nat, 1%nat, 1%nat => - (F1 r) / (F r * F r)
  | 2%nat, 2%nat, 1%nat => 2 * r
  | 3%nat, 3%nat, 1%nat => 2 * r * (sin t * sin t)
  | 3%nat, 3%nat, 2%nat => r * r * (2 * (sin t * cos t))
  | _, _, _ => 0
  end.
Let D (x : point) : Prop := r1 < x 1%nat < r2 /\ sin (x 2%nat) <> 0.
Lemma d_metric : forall x a b c, D x -> (a < 4)%nat -> (b < 4)%nat -> (c < 4)%nat -> partial (fun z => star_metric nu M z a b) c x (dg x a b c).
Proof.
  intros x a b c [X S] Ha Hb Hc. unfold partial. destruct (sol _ X) as (DP & Dn & DM). pose proof (d_F _ X) as DF. pose proof (F_pos _ X) as FP. unfold N in *.
  destruct a as [|[|[|[|a]]]]; try lia; destruct b as [|[|[|[|b]]]]; try lia; try (apply der_c); destruct c as [|[|[|[|c]]]]; try lia; unfold upd4; cbn [star_metric dg Nat.eqb]; try apply der_c.
  - apply der_opp. apply der_exp. exact Dn.
  - apply (der_inv F (x 1%nat)); [lra | exact DF].
  - eapply der_val; [| exact (der_mult _ _ _ _ _ (der_id (x 1%nat)) (der_id (x 1%nat)))]. cbn beta. ring.
  - eapply der_val; [| exact (der_mult _ _ _ _ _ (der_mult _ _ _ _ _ (der_id (x 1%nat)) (der_id (x 1%nat))) (der_c (sin (x 2%nat) * sin (x 2%nat)) (x 1%nat)))]. cbn beta. ring.
  - apply der_scal. eapply der_val; [| exact (der_mult sin sin _ _ _ (derivable_pt_lim_sin (x 2%nat)) (derivable_pt_lim_sin (x 2%nat)))]. cbn beta. ring.
Qed.
Lemma connection : connection_of D (star_metric nu M) Gam.
Proof.
  exists dg. intros y Y. split; [intros; now apply d_metric |]. destruct Y as [Y S]. pose proof (F_pos _ Y) as FP. assert (Rp : y 1%nat <> 0) by lra. pose proof (exp_pos (nu (y 1%nat))) as Ep.
  intros a b c Ha Hb Hc. unfold s4, Gam, star_metric. fold (F (y 1%nat)).
  destruct a as [|[|[|[|a]]]]; try lia; destruct b as [|[|[|[|b]]]]; try lia; destruct c as [|[|[|[|c]]]]; try lia; cbn [kind Ar Bt dg]; try ring; field; repeat split; lra.
Qed.

(** the second derivatives *)
Variable x : point.
Variable drho : R.
Hypothesis X : D x.
Hypothesis rho_diff : derivable_pt_lim rho (x 1%nat) drho.
Let r := x 1%nat.
Let t := x 2%nat.
Let dM := dM_dr r (rho r).
Let dP := dP_dr r (rho r) (P r) (M r).
Let U := 2 * M r / r + 8 * PI * r * r * P r.
Let dU := 2 * dM / r - 2 * M r / (r * r) + 16 * PI * r * P r + 8 * PI * r * r * dP.
Let N1 := dU / (r * F r) - U * (F r + r * F1 r) / (r * F r * (r * F r)).
Let F2 := - (2 * (8 * PI * r * rho r + 4 * PI * r * r * drho) / r - 2 * dM / (r * r) - 2 * dM / (r * r) + 4 * M r / (r * r * r)).
Lemma rp : r <> 0.
Proof. destruct X as [Y _]. unfold r. lra. Qed.
Lemma d_N : derivable_pt_lim N r N1.
Proof.
  destruct X as [Y S]. fold r in Y. destruct (sol _ Y) as (DP & Dn & DM). pose proof (d_F _ Y) as DF. pose proof (F_pos _ Y) as FP. pose proof rp as R0. unfold N, dnu_dr.
  pose proof (der_plus _ _ r _ _ (der_div (fun u => 2 * M u) (fun u => u) r _ _ R0 (der_scal 2 M r _ DM) (der_id r))
    (der_mult (fun u => 8 * PI * u * u) P r _ _ (der_mult (fun u => 8 * PI * u) (fun u => u) r _ _ (der_scal (8 * PI) (fun u => u) r _ (der_id r)) (der_id r)) DP)) as D1.
  pose proof (der_div _ (fun u => u * F u) r _ _ ltac:(apply Rmult_integral_contrapositive; split; lra) D1 (der_mult (fun u => u) F r _ _ (der_id r) DF)) as D2.
  eapply der_val; [| exact D2]. cbn beta. unfold N1, dU, U, dM, dP. field. split; [exact R0 | lra].
Qed.
Lemma d_F1 : derivable_pt_lim F1 r F2.
Proof.
  destruct X as [Y S]. fold r in Y. destruct (sol _ Y) as (DP & Dn & DM). pose proof rp as R0. unfold F1, dM_dr.
  pose proof (der_mult (fun u => 4 * PI * u * u) rho r _ _ (der_mult (fun u => 4 * PI * u) (fun u => u) r _ _ (der_scal (4 * PI) (fun u => u) r _ (der_id r)) (der_id r)) rho_diff) as D1.
  pose proof (der_opp _ r _ (der_minus _ _ r _ _ (der_div _ (fun u => u) r _ _ R0 (der_scal 2 _ r _ D1) (der_id r))
    (der_div (fun u => 2 * M u) (fun u => u * u) r _ _ ltac:(apply Rmult_integral_contrapositive; split; exact R0) (der_scal 2 M r _ DM) (der_mult _ _ r _ _ (der_id r) (der_id r))))) as D2.
  eapply der_val; [| exact D2]. cbn beta. unfold F2, dM, dM_dr. field. exact R0.
Qed.
Definition dAr (k : nat) : R :=
  match k with
  | 1%nat => N1 / 2
  | 2%nat => (F1 r * exp (nu r) + F r * (exp (nu r) * N r)) * (N r / 2) + F r * exp (nu r) * (N1 / 2)
  | 3%nat => - (F2 / (2 * F r) - F1 r * F1 r / (2 * (F r * F r)))
  | 4%nat => - (F r + r * F1 r) | 5%nat => - (F r + r * F1 r) | 6%nat => - (/ (r * r)) | _ => 0
  end.
Lemma d_Ar : forall k, derivable_pt_lim (Ar k) r (dAr k).
Proof.
  pose proof d_N as DN. pose proof d_F1 as DF1. destruct X as [Y S]. fold r in Y. destruct (sol _ Y) as (DP & Dn & DM). pose proof (d_F _ Y) as DF. pose proof (F_pos _ Y) as FP. pose proof rp as R0. fold (N r) in Dn.
  assert (DN2 : derivable_pt_lim (fun u => N u / 2) r (N1 / 2)).
  { eapply der_val; [| exact (der_div N (fun _ => 2) r _ _ ltac:(lra) DN (der_c 2 r))]. cbn beta. field. }
  intro k. destruct k as [|[|[|[|[|[|[|[|[|k]]]]]]]]]; cbv [Ar dAr]; try apply der_c.
  - exact DN2.
  - exact (der_mult (fun u => F u * exp (nu u)) (fun u => N u / 2) r _ _ (der_mult F (fun u => exp (nu u)) r _ _ DF (der_exp nu r _ Dn)) DN2).
  - apply der_opp. eapply der_val; [| exact (der_div F1 (fun u => 2 * F u) r _ _ ltac:(lra) DF1 (der_scal 2 F r _ DF))]. cbn beta. field. lra.
  - apply der_opp. eapply der_val; [| exact (der_mult (fun u => u) F r _ _ (der_id r) DF)]. cbn beta. ring.
  - apply der_opp. eapply der_val; [| exact (der_mult (fun u => u) F r _ _ (der_id r) DF)]. cbn beta. ring.
  - eapply der_val; [| exact (der_inv (fun u => u) r _ R0 (der_id r))]. cbn beta. field. exact R0.
Qed.
Definition dGam (a b c d : nat) : R :=
  match d with 1%nat => dAr (kind a b c) * Bt (kind a b c) t | 2%nat => Ar (kind a b c) r * dBt (kind a b c) t | _ => 0 end.
Lemma d_Gam : forall a b c d, (d < 4)%nat -> partial (fun z => Gam z a b c) d x (dGam a b c d).
Proof.
  intros a b c d Hd. unfold partial, Gam, upd4. destruct X as [Y S]. destruct d as [|[|[|[|d]]]]; try lia; cbn [Nat.eqb dGam]; try apply der_c.
  - eapply der_val; [| exact (der_mult (Ar (kind a b c)) (fun _ => Bt (kind a b c) (x 2%nat)) (x 1%nat) _ _ (d_Ar (kind a b c)) (der_c _ _))]. cbn beta. fold t. ring.
  - apply der_scal. now apply d_Bt.
Qed.
Definition gi (a b : nat) : R :=
  match a, b with 0%nat, 0%nat => - / exp (nu r) | 1%nat, 1%nat => F r | 2%nat, 2%nat => / (r * r) | 3%nat, 3%nat => / (r * r * (sin t * sin t)) | _, _ => 0 end.
Lemma gi_inv : forall a b, (a < 4)%nat -> (b < 4)%nat -> s4 (fun c => star_metric nu M x a c * gi c b) = delta a b.
Proof.
  intros a b Ha Hb. destruct X as [Y S]. fold r in Y. fold t in S. pose proof (F_pos _ Y) as FP. pose proof rp as R0. pose proof (exp_pos (nu r)). unfold s4, star_metric, delta. fold r. fold t. fold (F r).
  destruct a as [|[|[|[|a]]]]; try lia; destruct b as [|[|[|[|b]]]]; try lia; cbn [gi Nat.eqb]; try ring; field; repeat split; lra.
Qed.
(** the Ricci tensor *)
Definition Ric (a b : nat) : R :=
  match a, b with
  | 0%nat, 0%nat => exp (nu r) * (F r * (N1 / 2 + N r * N r / 4 + N r / r) + F1 r * N r / 4)
  | 1%nat, 1%nat => - (N1 / 2) - N r * N r / 4 - F1 r * N r / (4 * F r) - F1 r / (r * F r)
  | 2%nat, 2%nat => 1 - F r - r * F1 r / 2 - r * F r * N r / 2
  | 3%nat, 3%nat => sin t * sin t * (1 - F r - r * F1 r / 2 - r * F r * N r / 2)
  | _, _ => 0
  end.
Lemma ricci_star : forall a b, (a < 4)%nat -> (b < 4)%nat -> Ricci (Gam x) dGam a b = Ric a b.
Proof.
  intros a b Ha Hb. destruct X as [Y S]. fold r in Y. fold t in S. pose proof (F_pos _ Y) as FP. pose proof rp as R0. pose proof (sin2_cos2 t) as E. unfold Rsqr in E.
  assert (C : cos t * cos t = 1 - sin t * sin t) by lra. unfold Ricci, s4, Gam, dGam. fold r. fold t.
  destruct a as [|[|[|[|a]]]]; try lia; destruct b as [|[|[|[|b]]]]; try lia; cbn [kind Ar Bt dAr dBt Ric]; try ring;
    generalize dependent (cos t); generalize dependent (sin t); intros s S c E C; try (field; repeat split; lra);
    apply Rminus_diag_uniq; field_simplify_eq; [| repeat split; lra]; try (ring [C]).
Qed.
Lemma exp_half : forall y, exp (y / 2) * exp (y / 2) = exp y.
Proof. intro y. rewrite <- exp_plus. f_equal. field. Qed.
Lemma star_einstein : einstein_at D (star_metric nu M) (fluid_at_rest (rho r) (P r) (nu r) (star_metric nu M x)) x.
Proof.
  exists Gam, dGam, gi. split; [apply connection |]. split; [intros; now apply d_Gam |]. split; [intros; now apply gi_inv |].
  intros a b Ha Hb. rewrite (ricci_star a b Ha Hb).
  replace (s4 (fun c => s4 (fun d => gi c d * Ricci (Gam x) dGam c d))) with (s4 (fun c => s4 (fun d => gi c d * Ric c d))) by (unfold s4; rewrite !ricci_star by lia; reflexivity).
  destruct X as [Y S]. fold r in Y. fold t in S. pose proof (outside_horizon _ Y) as OH. pose proof rp as R0. pose proof (exp_pos (nu r)) as Ep.
  unfold fluid_at_rest, s4, star_metric. fold r. fold t.
  assert (NF : r - 2 * M r <> 0) by lra.
  destruct a as [|[|[|[|a]]]]; try lia; destruct b as [|[|[|[|b]]]]; try lia; cbn [gi Ric Nat.eqb]; try ring.
  - replace ((rho r + P r) * - exp (nu r / 2) * - exp (nu r / 2)) with ((rho r + P r) * exp (nu r)) by (rewrite <- exp_half; ring).
    unfold N1, dU, U, N, dnu_dr, F1, F, dP, dM, dM_dr, dP_dr. field. repeat split; lra.
  - unfold N1, dU, U, N, dnu_dr, F1, F, dP, dM, dM_dr, dP_dr. field. repeat split; lra.
  - unfold N1, dU, U, N, dnu_dr, F1, F, dP, dM, dM_dr, dP_dr. field. repeat split; lra.
  - unfold N1, dU, U, N, dnu_dr, F1, F, dP, dM, dM_dr, dP_dr. field. repeat split; lra.
Qed.
End Star.

(** ** C82 *)
(** Einstein's equations with the perfect fluid (rho, P) at rest, everywhere off the axis. *)
Theorem C82_einstein : forall rho P nu M r1 r2 x drho, 0 <= r1 -> tov_solution rho P nu M r1 r2 -> (forall r, r1 < r < r2 -> 2 * M r < r) ->
  r1 < x 1%nat < r2 -> sin (x 2%nat) <> 0 -> derivable_pt_lim rho (x 1%nat) drho ->
  einstein_at (fun y => r1 < y 1%nat < r2 /\ sin (y 2%nat) <> 0) (star_metric nu M)
    (fluid_at_rest (rho (x 1%nat)) (P (x 1%nat)) (nu (x 1%nat)) (star_metric nu M x)) x.
Proof. intros rho P nu M r1 r2 x drho H0 H1 H2 H3 H4 H5. exact (star_einstein rho P nu M r1 r2 H0 H1 H2 x drho (conj H3 H4) H5). Qed.
(** The pressure gradient is the force of the lapse: dP = - (rho + P) / 2 dnu. *)
Theorem C82_hydrostatic : forall r rho P M, r <> 0 -> r - 2 * M <> 0 -> dP_dr r rho P M = - (rho + P) * (dnu_dr r P M / 2).
Proof. intros r rho P M H H'. unfold dP_dr, dnu_dr. field. split; assumption. Qed.
(** The isotropic radius: for a solution r_iso of the fourth equation, and for every multiple of it, the spatial metric is conformally flat,
    (r / r_iso)^2 (dr_iso^2 + r_iso^2 dOmega^2) = dr^2 / (1 - 2 M / r) + r^2 dOmega^2. *)
Theorem C82_isotropic : forall (r_iso : R -> R) M r c, 0 < r -> 2 * M < r -> r_iso r <> 0 -> c <> 0 -> derivable_pt_lim r_iso r (dr_iso_dr r (r_iso r) M) ->
  exists d, derivable_pt_lim (fun u => c * r_iso u) r d /\
    (r / (c * r_iso r)) ^ 2 * d ^ 2 = / (1 - 2 * M / r) /\ (r / (c * r_iso r)) ^ 2 * (c * r_iso r) ^ 2 = r ^ 2.
Proof.
  intros r_iso M r c Hr HM Hi Hc D. exists (c * dr_iso_dr r (r_iso r) M). split; [now apply der_scal |].
  assert (Fp : 0 < 1 - 2 * M / r). { apply Rmult_lt_reg_l with r; [exact Hr |]. rewrite Rmult_0_r. replace (r * (1 - 2 * M / r)) with (r - 2 * M) by (field; lra). lra. }
  pose proof (sqrt_lt_R0 _ Fp) as Sp. pose proof (sqrt_sqrt (1 - 2 * M / r) ltac:(lra)) as SS. split; [| field; now split].
  unfold dr_iso_dr. set (q := sqrt (1 - 2 * M / r)) in *. rewrite <- SS. field. repeat split; lra.
Qed.
(** Outside a star (rho = P = 0) the solution is Schwarzschild's: nu = ln(1 - 2M/r) and r_iso = (r - M + sqrt(r^2 - 2 M r)) / 2. *)
Theorem C82_exterior : forall m r, 0 < r -> 2 * m < r -> 
  derivable_pt_lim (fun _ => 0) r (dP_dr r 0 0 m) /\ derivable_pt_lim (fun u => ln (1 - 2 * m / u)) r (dnu_dr r 0 m) /\
  derivable_pt_lim (fun _ => m) r (dM_dr r 0) /\
  derivable_pt_lim (fun u => (u - m + sqrt (u * u - 2 * m * u)) / 2) r (dr_iso_dr r ((r - m + sqrt (r * r - 2 * m * r)) / 2) m).
Proof.
  intros m r Hr Hm. assert (Fp : 0 < 1 - 2 * m / r). { apply Rmult_lt_reg_l with r; [exact Hr |]. rewrite Rmult_0_r. replace (r * (1 - 2 * m / r)) with (r - 2 * m) by (field; lra). lra. }
  split; [| split; [| split]].
  - eapply der_val; [| apply der_c]. unfold dP_dr. field. split; lra.
  - pose proof (der_minus _ _ r _ _ (der_c 1 r) (der_div (fun _ => 2 * m) (fun u => u) r _ _ ltac:(lra) (der_c (2 * m) r) (der_id r))) as D1.
    pose proof (derivable_pt_lim_comp _ ln r _ _ D1 (derivable_pt_lim_ln _ Fp)) as D2. eapply der_val; [| exact D2]. cbn beta. unfold dnu_dr. field. repeat split; lra.
  - eapply der_val; [| apply der_c]. unfold dM_dr. ring.
  - assert (Wp : 0 < r * r - 2 * m * r) by nra. pose proof (sqrt_lt_R0 _ Wp) as Sp. pose proof (sqrt_sqrt (r * r - 2 * m * r) ltac:(lra)) as SS.
    pose proof (der_minus _ _ r _ _ (der_mult _ _ r _ _ (der_id r) (der_id r)) (der_scal (2 * m) _ r _ (der_id r))) as D1.
    pose proof (derivable_pt_lim_comp _ sqrt r _ _ D1 (derivable_pt_lim_sqrt _ Wp)) as D2.
    pose proof (der_div _ (fun _ => 2) r _ _ ltac:(lra) (der_plus _ _ r _ _ (der_minus _ _ r _ _ (der_id r) (der_c m r)) D2) (der_c 2 r)) as D3.
    eapply der_val; [| exact D3]. cbn beta. unfold dr_iso_dr. set (q := sqrt (r * r - 2 * m * r)) in *.
    assert (Q : sqrt (1 - 2 * m / r) = q / r).
    { apply sqrt_lem_1; [lra | apply Rlt_le; now apply Rdiv_lt_0_compat |]. replace (q / r * (q / r)) with (q * q / (r * r)) by (field; lra). rewrite SS. field. lra. }
    rewrite Q. field. split; lra.
Qed.

(** ** Examples *)
(** the interior of a star of constant density: u = sqrt(1 - k r^2), k = 8 pi rho / 3, and u1 its value at the surface *)
Definition uni_u (rho0 r : R) : R := sqrt (1 - 8 * PI * rho0 / 3 * (r * r)).
Definition uni_P (rho0 u1 r : R) : R := rho0 * ((uni_u rho0 r - u1) / (3 * u1 - uni_u rho0 r)).
Definition uni_nu (u1 rho0 r : R) : R := 2 * ln ((3 * u1 - uni_u rho0 r) / 2).
Definition uni_M (rho0 r : R) : R := 4 * PI * rho0 / 3 * (r * r * r).
Lemma uni_solution : forall rho0 u1 r2, 0 < rho0 -> 1 < 3 * u1 -> 8 * PI * rho0 / 3 * (r2 * r2) < 1 -> tov_solution (fun _ => rho0) (uni_P rho0 u1) (uni_nu u1 rho0) (uni_M rho0) 0 r2.
Proof.
  intros rho0 u1 r2 H0 H1 H2 r [Ra Rb]. pose proof PI_RGT_0 as PP. set (k := 8 * PI * rho0 / 3) in *. assert (Kp : 0 < k) by (unfold k; apply Rmult_lt_0_compat; [nra | lra]).
  assert (W : 0 < 1 - k * (r * r)). { assert (r * r < r2 * r2) by nra. nra. }
  pose proof (sqrt_lt_R0 _ W) as Up. pose proof (sqrt_sqrt (1 - k * (r * r)) ltac:(lra)) as UU.
  assert (U1 : sqrt (1 - k * (r * r)) <= 1). { rewrite <- sqrt_1 at 2. apply sqrt_le_1_alt. nra. }
  assert (Du : derivable_pt_lim (uni_u rho0) r (- (k * r) / uni_u rho0 r)).
  { pose proof (der_minus _ _ r _ _ (der_c 1 r) (der_scal k _ r _ (der_mult _ _ r _ _ (der_id r) (der_id r)))) as D1.
    pose proof (derivable_pt_lim_comp _ sqrt r _ _ D1 (derivable_pt_lim_sqrt _ W)) as D2. eapply der_val; [| exact D2]. cbn beta. unfold uni_u. fold k. field. lra. }
  assert (EM : 2 * uni_M rho0 r / r = k * (r * r)) by (unfold uni_M, k; field; lra). assert (EP : 8 * PI = 3 * k / rho0) by (unfold k; field; lra).
  unfold uni_u in Du. fold k in Du. set (u := sqrt (1 - k * (r * r))) in *.
  assert (Eu : uni_u rho0 r = u) by reflexivity. assert (Kr : k * (r * r) = 1 - u * u) by lra.
  split; [| split].
  - unfold uni_P at 1. pose proof (der_scal rho0 _ r _ (der_div (fun v => uni_u rho0 v - u1) (fun v => 3 * u1 - uni_u rho0 v) r _ _ ltac:(cbn beta; rewrite Eu; lra) (der_minus (uni_u rho0) _ r _ _ Du (der_c u1 r)) (der_minus _ (uni_u rho0) r _ _ (der_c (3 * u1) r) Du))) as D1.
    eapply der_val; [| exact D1]. cbn beta. rewrite Eu. unfold dP_dr, uni_P. rewrite EM, EP, Eu, Kr. replace (1 - (1 - u * u)) with (u * u) by ring.
    replace (3 * k / rho0 * r * r) with (3 * (k * (r * r)) / rho0) by (field; lra). rewrite Kr.
    apply Rmult_eq_reg_l with r; [| lra]. transitivity (rho0 * (- (k * (r * r)) / u / (3 * u1 - u) + (u - u1) * (- (k * (r * r)) / u) / ((3 * u1 - u) * (3 * u1 - u)))); [field; repeat split; lra |].
    rewrite Kr. field. repeat split; lra.
  - unfold uni_nu at 1. assert (Lp : 0 < (3 * u1 - uni_u rho0 r) / 2) by (rewrite Eu; lra).
    pose proof (der_div (fun v => 3 * u1 - uni_u rho0 v) (fun _ => 2) r _ _ ltac:(lra) (der_minus _ (uni_u rho0) r _ _ (der_c (3 * u1) r) Du) (der_c 2 r)) as D1.
    pose proof (der_scal 2 _ r _ (derivable_pt_lim_comp _ ln r _ _ D1 (derivable_pt_lim_ln _ Lp))) as D2. eapply der_val; [| exact D2]. cbn beta. rewrite Eu. unfold dnu_dr, uni_P. rewrite EM, EP, Eu, Kr.
    replace (1 - (1 - u * u)) with (u * u) by ring. replace (3 * k / rho0 * r * r) with (3 * (k * (r * r)) / rho0) by (field; lra). rewrite Kr.
    apply Rmult_eq_reg_l with r; [| lra]. transitivity (2 * (k * (r * r)) / (u * (3 * u1 - u))); [field; repeat split; lra |]. rewrite Kr. field. repeat split; lra.
  - unfold uni_M. pose proof (der_scal (4 * PI * rho0 / 3) _ r _ (der_mult _ _ r _ _ (der_mult _ _ r _ _ (der_id r) (der_id r)) (der_id r))) as D1. eapply der_val; [| exact D1]. cbn beta. unfold dM_dr. field.
Qed.
Example C82_uniform_star : forall x, 0 < x 1%nat < 1 / 2 -> sin (x 2%nat) <> 0 ->
  einstein_at (fun y => 0 < y 1%nat < 1 / 2 /\ sin (y 2%nat) <> 0) (star_metric (uni_nu (1 / 2) (3 / (8 * PI))) (uni_M (3 / (8 * PI))))
    (fluid_at_rest (3 / (8 * PI)) (uni_P (3 / (8 * PI)) (1 / 2) (x 1%nat)) (uni_nu (1 / 2) (3 / (8 * PI)) (x 1%nat)) (star_metric (uni_nu (1 / 2) (3 / (8 * PI))) (uni_M (3 / (8 * PI))) x)) x.
Proof.
  intros x Hx Hs. pose proof PI_RGT_0 as PP. apply (C82_einstein (fun _ => 3 / (8 * PI)) (uni_P (3 / (8 * PI)) (1 / 2)) _ _ 0 (1 / 2) x 0); try assumption; [lra | | | apply der_c].
  - apply uni_solution; [apply Rdiv_lt_0_compat; lra | lra |]. replace (8 * PI * (3 / (8 * PI)) / 3) with 1 by (field; lra). lra.
  - intros r Hr. unfold uni_M. replace (4 * PI * (3 / (8 * PI)) / 3) with (1 / 2) by (field; lra). nra.
Qed.
Example C82_isotropic_at : exists d, derivable_pt_lim (fun u => 7 * ((u - 1 + sqrt (u * u - 2 * 1 * u)) / 2)) 4 d /\
  (4 / (7 * ((4 - 1 + sqrt (4 * 4 - 2 * 1 * 4)) / 2))) ^ 2 * d ^ 2 = / (1 - 2 * 1 / 4).
Proof.
  destruct (C82_exterior 1 4 ltac:(lra) ltac:(lra)) as (_ & _ & _ & D). pose proof (sqrt_pos (4 * 4 - 2 * 1 * 4)) as Sp.
  destruct (C82_isotropic (fun u => (u - 1 + sqrt (u * u - 2 * 1 * u)) / 2) 1 4 7 ltac:(lra) ltac:(lra) ltac:(lra) ltac:(lra) D) as (d & Dd & E & _). now exists d.
Qed.
Print Assumptions C82_einstein.
Print Assumptions C82_hydrostatic.
Print Assumptions C82_isotropic.
Print Assumptions C82_exterior.
