(** Values of reference-metric expressions over the real numbers, and correctness of symbolic differentiation. *)
From Coq Require Import String List ZArith Bool Arith Lia Reals Lra.
From Verif Require Import PyBase RefMetric.
Import ListNotations.
Open Scope R_scope.

(** atan2(y, x) on all arguments, as in C (0 at the origin) *)
Definition atan2 (y x : R) : R :=
  if Rlt_dec 0 x then atan (y / x)
  else if Rlt_dec x 0 then (if Rle_dec 0 y then atan (y / x) + PI else atan (y / x) - PI)
  else if Rlt_dec 0 y then PI / 2 else if Rlt_dec y 0 then - (PI / 2) else 0.
Definition sgn (x : R) : R := if Rlt_dec 0 x then 1 else if Rlt_dec x 0 then -1 else 0.

(** values of the CodeParameters, of xx[k], of Cartx..z, and of the derivatives of the generic functions *)
Record env : Type := MkEnv { ep : string -> R; exx : nat -> R; ec : nat -> R; efn : nat -> nat -> R }.
Fixpoint eval (v : env) (e : ex) : R :=
  match e with
  | Num z => IZR z | Par s => ep v s | XX k => exx v k | Cart k => ec v k
  | Add a b => eval v a + eval v b | Sub a b => eval v a - eval v b | Mul a b => eval v a * eval v b
  | Div a b => eval v a / eval v b | Opp a => - eval v a | Pow a n => eval v a ^ n
  | Sqrt a => sqrt (eval v a) | Exp a => exp (eval v a) | Sin a => sin (eval v a) | Cos a => cos (eval v a)
  | Sinh a => sinh (eval v a) | Cosh a => cosh (eval v a) | Asinh a => arcsinh (eval v a) | Acos a => acos (eval v a)
  | Atan2 y x => atan2 (eval v y) (eval v x) | Sign a => sgn (eval v a) | Fn f n => efn v f n
  end.
Definition upd (k : nat) (t : R) (v : env) : env := MkEnv (ep v) (fun j => if Nat.eqb j k then t else exx v j) (ec v) (efn v).

(** Where an expression is differentiable. *)
Fixpoint wd (v : env) (e : ex) : Prop :=
  match e with
  | Num _ | Par _ | XX _ | Cart _ => True
  | Add a b | Sub a b | Mul a b => wd v a /\ wd v b
  | Div a b => wd v a /\ wd v b /\ eval v b <> 0
  | Opp a | Pow a _ | Exp a | Sin a | Cos a | Sinh a | Cosh a | Asinh a => wd v a
  | Sqrt a => wd v a /\ 0 < eval v a
  | Acos a => wd v a /\ -1 < eval v a < 1
  | Atan2 y x => wd v y /\ wd v x /\ (0 < eval v x \/ eval v y <> 0)
  | Sign a => wd v a /\ eval v a <> 0
  | Fn _ _ => False
  end.

(** ** The simplifying constructors do not change values *)
Lemma eval_sadd : forall v a b, eval v (sadd a b) = eval v a + eval v b.
Proof. intros v a b. destruct a as [[| |]| | | | | | | | | | | | | | | | | | | |], b as [[| |]| | | | | | | | | | | | | | | | | | | |]; cbn; lra. Qed.
Lemma eval_ssub : forall v a b, eval v (ssub a b) = eval v a - eval v b.
Proof. intros v a b. destruct a as [[| |]| | | | | | | | | | | | | | | | | | | |], b as [[| |]| | | | | | | | | | | | | | | | | | | |]; cbn; lra. Qed.
Lemma eval_sopp : forall v a, eval v (sopp a) = - eval v a.
Proof. intros v a. destruct a as [[| |]| | | | | | | | | | | | | | | | | | | |]; cbn; lra. Qed.
Lemma smul_cases : forall a b, smul a b = Mul a b \/ (a = Num 0 /\ smul a b = Num 0) \/ (b = Num 0 /\ smul a b = Num 0) \/
  (a = Num 1 /\ smul a b = b) \/ (b = Num 1 /\ smul a b = a).
Proof.
  intros a b. destruct a as [[|p|p]| | | | | | | | | | | | | | | | | | | |]; auto; try (destruct p as [p|p|]; auto 6);
  destruct b as [[|q|q]| | | | | | | | | | | | | | | | | | | |]; auto 6; try (destruct q as [q|q|]; auto 6).
Qed.
Lemma eval_smul : forall v a b, eval v (smul a b) = eval v a * eval v b.
Proof.
  intros v a b. destruct (smul_cases a b) as [->|[[-> ->]|[[-> ->]|[[-> ->]|[-> ->]]]]]; cbn; lra.
Qed.
Lemma sdiv_cases : forall a b, sdiv a b = Div a b \/ (a = Num 0 /\ sdiv a b = Num 0) \/ (b = Num 1 /\ sdiv a b = a).
Proof.
  intros a b. destruct a as [[|p|p]| | | | | | | | | | | | | | | | | | | |]; auto;
  destruct b as [[|q|q]| | | | | | | | | | | | | | | | | | | |]; auto; destruct q as [q|q|]; auto.
Qed.
Lemma eval_sdiv : forall v a b, eval v (sdiv a b) = eval v a / eval v b.
Proof.
  intros v a b. destruct (sdiv_cases a b) as [->|[[-> ->]|[-> ->]]]; cbn; unfold Rdiv; [reflexivity|lra|].
  rewrite Rinv_1. lra.
Qed.
Lemma eval_spow : forall v a n, eval v (spow a n) = eval v a ^ n.
Proof.
  intros v a n. destruct n as [|[|n]]; [reflexivity|cbn; lra|].
  destruct a as [[|p|p]| | | | | | | | | | | | | | | | | | | |]; try reflexivity.
  - cbn. lra.
  - destruct p as [p|p|]; try reflexivity. change (1 = 1 ^ S (S n)). now rewrite pow1.
Qed.
Ltac ev := repeat first [rewrite eval_sadd|rewrite eval_ssub|rewrite eval_smul|rewrite eval_sdiv|rewrite eval_sopp|rewrite eval_spow].

Lemma eval_ext : forall v w e, (forall s, ep v s = ep w s) -> (forall k, exx v k = exx w k) -> (forall k, ec v k = ec w k) ->
  (forall f n, efn v f n = efn w f n) -> eval v e = eval w e.
Proof. intros v w e A B C D. induction e; cbn; congruence. Qed.
Lemma eval_upd_same : forall k v e, eval (upd k (exx v k) v) e = eval v e.
Proof. intros. apply eval_ext; auto. intros j. cbn. destruct (Nat.eqb_spec j k) as [->|]; auto. Qed.

(** ** Limits *)
Lemma lim_eq : forall f x l l', derivable_pt_lim f x l -> l = l' -> derivable_pt_lim f x l'.
Proof. intros; subst; auto. Qed.
Lemma lim_ext : forall f g x l, (forall t, f t = g t) -> derivable_pt_lim f x l -> derivable_pt_lim g x l.
Proof.
  intros f g x l E H eps He. destruct (H eps He) as [d Hd]. exists d. intros h h0 hd. rewrite <- !E. now apply Hd.
Qed.
(** equality near the point is enough *)
Lemma lim_local : forall f g x l d, 0 < d -> (forall t, Rabs (t - x) < d -> f t = g t) ->
  derivable_pt_lim f x l -> derivable_pt_lim g x l.
Proof.
  intros f g x l d D E H eps He. destruct (H eps He) as [d' Hd].
  assert (M : 0 < Rmin d d') by (apply Rmin_glb_lt; [exact D|apply (cond_pos d')]).
  exists (mkposreal _ M). intros h h0 hd. cbn in hd.
  rewrite <- !E.
  - apply Hd; auto. eapply Rlt_le_trans; [exact hd|apply Rmin_r].
  - rewrite Rminus_diag_eq by reflexivity. now rewrite Rabs_R0.
  - replace (x + h - x) with h by ring. eapply Rlt_le_trans; [exact hd|apply Rmin_l].
Qed.
Lemma lim_comp : forall f g x l1 l2, derivable_pt_lim f x l1 -> derivable_pt_lim g (f x) l2 ->
  derivable_pt_lim (fun t => g (f t)) x (l1 * l2).
Proof.
  intros f g x l1 l2 A B. eapply lim_eq; [|apply Rmult_comm]. change (fun t => g (f t)) with (comp g f). now apply derivable_pt_lim_comp.
Qed.
Lemma lim_add : forall f g x a b, derivable_pt_lim f x a -> derivable_pt_lim g x b -> derivable_pt_lim (fun t => f t + g t) x (a + b).
Proof. intros. change (fun t => f t + g t) with (plus_fct f g). now apply derivable_pt_lim_plus. Qed.
Lemma lim_sub : forall f g x a b, derivable_pt_lim f x a -> derivable_pt_lim g x b -> derivable_pt_lim (fun t => f t - g t) x (a - b).
Proof. intros. change (fun t => f t - g t) with (minus_fct f g). now apply derivable_pt_lim_minus. Qed.
Lemma lim_mul : forall f g x a b, derivable_pt_lim f x a -> derivable_pt_lim g x b ->
  derivable_pt_lim (fun t => f t * g t) x (a * g x + f x * b).
Proof. intros. change (fun t => f t * g t) with (mult_fct f g). now apply derivable_pt_lim_mult. Qed.
Lemma lim_div : forall f g x a b, derivable_pt_lim f x a -> derivable_pt_lim g x b -> g x <> 0 ->
  derivable_pt_lim (fun t => f t / g t) x ((a * g x - f x * b) / (g x * g x)).
Proof.
  intros f g x a b A B N. change (fun t => f t / g t) with (div_fct f g). eapply lim_eq.
  - apply derivable_pt_lim_div; eauto.
  - unfold Rsqr. field. exact N.
Qed.
Lemma lim_opp : forall f x a, derivable_pt_lim f x a -> derivable_pt_lim (fun t => - f t) x (- a).
Proof. intros. change (fun t => - f t) with (opp_fct f). now apply derivable_pt_lim_opp. Qed.

(** the three charts of atan2 *)
Lemma atan2_right : forall y x, 0 < x -> atan2 y x = atan (y / x).
Proof. intros y x H. unfold atan2. destruct (Rlt_dec 0 x); [reflexivity|contradiction]. Qed.
Lemma atan_inv : forall x, 0 < x -> atan (/ x) = PI / 2 - atan x.
Proof.
  intros x H. pose proof (atan_bound x) as B.
  assert (P : 0 < atan x) by (rewrite <- atan_0; now apply atan_increasing).
  rewrite <- (tan_atan x) at 1. rewrite <- (atan_tan (PI / 2 - atan x)).
  - f_equal. unfold tan. rewrite sin_shift, cos_shift. field.
    split; [apply Rgt_not_eq, sin_gt_0; lra|apply Rgt_not_eq, cos_gt_0; lra].
  - lra.
Qed.
Lemma atan2_upper : forall y x, 0 < y -> atan2 y x = PI / 2 - atan (x / y).
Proof.
  intros y x H. unfold atan2. destruct (Rlt_dec 0 x) as [P|P]; [|destruct (Rlt_dec x 0) as [N|N]].
  - replace (y / x) with (/ (x / y)) by (field; lra). apply atan_inv. apply Rdiv_lt_0_compat; lra.
  - destruct (Rle_dec 0 y); [|lra].
    replace (y / x) with (- (/ (- x / y))) by (field; lra). rewrite atan_opp, atan_inv by (apply Rdiv_lt_0_compat; lra).
    replace (- x / y) with (- (x / y)) by (field; lra). rewrite atan_opp. lra.
  - replace x with 0 by lra. destruct (Rlt_dec 0 y); [|lra]. unfold Rdiv. rewrite Rmult_0_l, atan_0. lra.
Qed.
Lemma atan2_lower : forall y x, y < 0 -> atan2 y x = - (PI / 2) - atan (x / y).
Proof.
  intros y x H. unfold atan2. destruct (Rlt_dec 0 x) as [P|P]; [|destruct (Rlt_dec x 0) as [N|N]].
  - replace (y / x) with (- (/ (x / - y))) by (field; lra). rewrite atan_opp, atan_inv by (apply Rdiv_lt_0_compat; lra).
    replace (x / - y) with (- (x / y)) by (field; lra). rewrite atan_opp. lra.
  - destruct (Rle_dec 0 y); [lra|].
    replace (y / x) with (/ (x / y)) by (field; lra). rewrite atan_inv; [lra|].
    replace (x / y) with (- x / - y) by (field; lra). apply Rdiv_lt_0_compat; lra.
  - replace x with 0 by lra. destruct (Rlt_dec 0 y); [lra|]. destruct (Rlt_dec y 0); [|lra].
    unfold Rdiv. rewrite Rmult_0_l, atan_0. lra.
Qed.
(** polar angle of a point given by its polar coordinates *)
Lemma atan2_polar : forall r ph, 0 < r -> - PI < ph < PI -> atan2 (r * sin ph) (r * cos ph) = ph.
Proof.
  intros r ph H B. pose proof PI_RGT_0 as PP.
  destruct (Rlt_dec (- (PI / 2)) ph) as [A1|A1]; [destruct (Rlt_dec ph (PI / 2)) as [A2|A2]|].
  - assert (C : 0 < cos ph) by (apply cos_gt_0; lra).
    rewrite atan2_right by (apply Rmult_lt_0_compat; auto). replace (r * sin ph / (r * cos ph)) with (tan ph)
      by (unfold tan; field; lra). apply atan_tan. lra.
  - assert (C : 0 < sin ph) by (apply sin_gt_0; lra).
    rewrite atan2_upper by (apply Rmult_lt_0_compat; auto).
    replace (r * cos ph / (r * sin ph)) with (tan (PI / 2 - ph)).
    + rewrite atan_tan; lra.
    + unfold tan. rewrite sin_shift, cos_shift. field. lra.
  - assert (C : sin ph < 0) by (apply sin_lt_0_var; lra).
    rewrite atan2_lower by (apply Ropp_lt_cancel; rewrite Ropp_0, <- Ropp_mult_distr_r_reverse; apply Rmult_lt_0_compat; lra).
    replace (r * cos ph / (r * sin ph)) with (tan (- (PI / 2) - ph)).
    + rewrite atan_tan; lra.
    + replace (- (PI / 2) - ph) with (- (PI / 2 + ph)) by ring. rewrite tan_neg. unfold tan.
      rewrite (Rplus_comm (PI / 2)). rewrite sin_plus, cos_plus, sin_PI2, cos_PI2. field. lra.
Qed.
Lemma continuous_near : forall f x l, derivable_pt_lim f x l -> forall e, 0 < e -> exists d, 0 < d /\
  forall t, Rabs (t - x) < d -> Rabs (f t - f x) < e.
Proof.
  intros f x l H e E. assert (C : continuity_pt f x) by (apply derivable_continuous_pt; now exists l).
  destruct (C e E) as (d & D & P). exists d. split; [exact D|]. intros t T. destruct (Req_dec t x) as [->|N].
  - rewrite Rminus_diag_eq by reflexivity. now rewrite Rabs_R0.
  - apply P. split; [split; [exact I|auto]|exact T].
Qed.
Lemma pos_near : forall f x l, derivable_pt_lim f x l -> 0 < f x -> exists d, 0 < d /\ forall t, Rabs (t - x) < d -> 0 < f t.
Proof.
  intros f x l H P. destruct (continuous_near f x l H (f x) P) as (d & D & Q). exists d. split; [exact D|].
  intros t T. specialize (Q t T). apply Rabs_def2 in Q. lra.
Qed.
Lemma lim_atan2 : forall fy fx t y' x', derivable_pt_lim fy t y' -> derivable_pt_lim fx t x' -> 0 < fx t \/ fy t <> 0 ->
  derivable_pt_lim (fun s => atan2 (fy s) (fx s)) t ((fx t * y' - fy t * x') / (fx t ^ 2 + fy t ^ 2)).
Proof.
  intros fy fx t y' x' Hy Hx D.
  assert (ATAN : forall f a, derivable_pt_lim f t a -> derivable_pt_lim (fun s => atan (f s)) t (a / (1 + f t ^ 2))).
  { intros f a Hf. eapply lim_eq; [eapply lim_comp; [exact Hf|apply derivable_pt_lim_atan]|]. unfold Rsqr. field.
    nra. }
  assert (NZ : fx t ^ 2 + fy t ^ 2 <> 0).
  { pose proof (pow2_ge_0 (fx t)). pose proof (pow2_ge_0 (fy t)). destruct D as [D|D].
    - assert (0 < fx t ^ 2) by (now apply pow_lt). lra.
    - assert (0 < fy t ^ 2) by (rewrite <- Rsqr_pow2; now apply Rlt_0_sqr). lra. }
  destruct (Rlt_dec 0 (fx t)) as [P|P].
  - destruct (pos_near fx t x' Hx P) as (d & D0 & Q).
    apply lim_local with (f := fun s => atan (fy s / fx s)) (d := d); [exact D0| |].
    + intros s S. symmetry. apply atan2_right. auto.
    + eapply lim_eq; [apply ATAN; apply lim_div; eauto; lra|]. cbv beta. field. repeat split; try lra; try exact NZ; rewrite Rplus_comm; exact NZ.
  - assert (N : fy t <> 0) by (destruct D; [contradiction|assumption]).
    destruct (Rlt_dec 0 (fy t)) as [Y|Y].
    + destruct (pos_near fy t y' Hy Y) as (d & D0 & Q).
      apply lim_local with (f := fun s => PI / 2 - atan (fx s / fy s)) (d := d); [exact D0| |].
      * intros s S. symmetry. apply atan2_upper. auto.
      * eapply lim_eq; [apply lim_sub; [apply derivable_pt_lim_const|apply ATAN; apply lim_div; eauto]|]. cbv beta. field. repeat split; try lra; try exact NZ; rewrite Rplus_comm; exact NZ.
    + assert (Y' : 0 < - fy t) by lra.
      destruct (pos_near (fun s => - fy s) t (- y') (lim_opp _ _ _ Hy) Y') as (d & D0 & Q).
      apply lim_local with (f := fun s => - (PI / 2) - atan (fx s / fy s)) (d := d); [exact D0| |].
      * intros s S. symmetry. apply atan2_lower. specialize (Q s S). lra.
      * eapply lim_eq; [apply lim_sub; [apply derivable_pt_lim_const|apply ATAN; apply lim_div; eauto]|]. cbv beta. field. repeat split; try lra; try exact NZ; rewrite Rplus_comm; exact NZ.
Qed.

Lemma lim_acos : forall x, -1 < x < 1 -> derivable_pt_lim acos x (-1 / sqrt (1 - x²)).
Proof. intros x B. apply (derive_pt_eq_1 acos x _ (derivable_pt_acos x B)). apply derive_pt_acos. Qed.

(** ** Differentiation *)
(** Wherever an expression is differentiable, its symbolic derivative is its derivative. *)
Theorem diff_correct : forall e k v, wd v e ->
  derivable_pt_lim (fun t => eval (upd k t v) e) (exx v k) (eval v (diff k e)).
Proof.
  induction e; intros q v W; cbn [eval wd diff] in *; ev.
  - apply derivable_pt_lim_const.
  - apply derivable_pt_lim_const.
  - cbn. destruct (Nat.eqb k q); [apply derivable_pt_lim_id|apply derivable_pt_lim_const].
  - apply derivable_pt_lim_const.
  - apply lim_add; [apply IHe1|apply IHe2]; tauto.
  - apply lim_sub; [apply IHe1|apply IHe2]; tauto.
  - eapply lim_eq; [apply lim_mul; [apply IHe1|apply IHe2]; tauto|]. cbv beta. rewrite !eval_upd_same. ring.
  - destruct W as (W1 & W2 & N). eapply lim_eq; [apply lim_div; [apply IHe1; auto|apply IHe2; auto|cbv beta; rewrite eval_upd_same; auto]|].
    cbv beta. rewrite !eval_upd_same. reflexivity.
  - apply lim_opp. now apply IHe.
  - eapply lim_eq; [apply (lim_comp (fun t => eval (upd q t v) e) (fun y => y ^ n)); [apply IHe; auto|apply derivable_pt_lim_pow]|].
    cbv beta. rewrite !eval_upd_same. cbn [eval]. rewrite <- INR_IZR_INZ. replace (n - 1)%nat with (pred n) by lia. ring.
  - destruct W as [W P]. eapply lim_eq; [apply lim_comp; [apply IHe; auto|apply derivable_pt_lim_sqrt; cbv beta; rewrite eval_upd_same; auto]|].
    cbv beta. rewrite !eval_upd_same. cbn [eval]. unfold Rdiv. reflexivity.
  - eapply lim_eq; [apply lim_comp; [apply IHe; auto|apply derivable_pt_lim_exp]|]. cbv beta. now rewrite !eval_upd_same.
  - eapply lim_eq; [apply lim_comp; [apply IHe; auto|apply derivable_pt_lim_sin]|]. cbv beta. now rewrite !eval_upd_same.
  - eapply lim_eq; [apply lim_comp; [apply IHe; auto|apply derivable_pt_lim_cos]|]. cbv beta. rewrite !eval_upd_same. cbn [eval]. ring.
  - eapply lim_eq; [apply lim_comp; [apply IHe; auto|apply derivable_pt_lim_sinh]|]. cbv beta. now rewrite !eval_upd_same.
  - eapply lim_eq; [apply lim_comp; [apply IHe; auto|apply derivable_pt_lim_cosh]|]. cbv beta. now rewrite !eval_upd_same.
  - eapply lim_eq; [apply lim_comp; [apply IHe; auto|apply derivable_pt_lim_arcsinh]|]. cbv beta. rewrite !eval_upd_same.
    cbn [eval]. unfold Rdiv. reflexivity.
  - destruct W as [W P]. eapply lim_eq; [apply lim_comp; [apply IHe; auto|apply lim_acos; cbv beta; rewrite eval_upd_same; auto]|].
    cbv beta. rewrite !eval_upd_same. cbn [eval]. unfold Rsqr. replace (eval v e ^ 2) with (eval v e * eval v e) by ring. unfold Rdiv. ring.
  - destruct W as (W1 & W2 & D). eapply lim_eq; [apply lim_atan2; [apply IHe1; auto|apply IHe2; auto|cbv beta; rewrite !eval_upd_same; auto]|].
    cbv beta. rewrite !eval_upd_same. reflexivity.
  - destruct W as [W N]. specialize (IHe q v W). cbn [eval].
    set (f := fun t => eval (upd q t v) e) in *. assert (FN : f (exx v q) <> 0) by (unfold f; now rewrite eval_upd_same).
    destruct (Rlt_dec 0 (f (exx v q))) as [P|P].
    + destruct (pos_near f _ _ IHe P) as (d & D & Q).
      apply lim_local with (f := fun _ => 1) (d := d); [exact D| |apply derivable_pt_lim_const].
      intros t T. specialize (Q t T). unfold f in Q. unfold sgn. destruct (Rlt_dec 0 (eval (upd q t v) e)); [reflexivity|contradiction].
    + assert (P' : 0 < - f (exx v q)) by lra.
      destruct (pos_near (fun s => - f s) _ _ (lim_opp _ _ _ IHe) P') as (d & D & Q).
      apply lim_local with (f := fun _ => -1) (d := d); [exact D| |apply derivable_pt_lim_const].
      intros t T. specialize (Q t T). unfold f in Q. unfold sgn. destruct (Rlt_dec 0 (eval (upd q t v) e)); [lra|].
      destruct (Rlt_dec (eval (upd q t v) e) 0); [reflexivity|lra].
  - destruct W.
Qed.

(** ** Expressions that do not contain xx[k] *)
Fixpoint free_of (k : nat) (e : ex) : bool :=
  match e with
  | Num _ | Par _ | Cart _ => true
  | XX j => negb (Nat.eqb j k)
  | Add a b | Sub a b | Mul a b | Div a b | Atan2 a b => free_of k a && free_of k b
  | Opp a | Pow a _ | Sqrt a | Exp a | Sin a | Cos a | Sinh a | Cosh a | Asinh a | Acos a | Sign a => free_of k a
  | Fn f _ => negb (Nat.eqb (var_of f) k)
  end.
Lemma smul_0_r : forall a, smul a (Num 0) = Num 0.
Proof. intros a. destruct a as [[|p|p]| | | | | | | | | | | | | | | | | | | |]; try reflexivity. destruct p; reflexivity. Qed.
Lemma diff_free : forall e k, free_of k e = true -> diff k e = Num 0.
Proof.
  induction e; intros q F; cbn [free_of diff] in *; try reflexivity;
    repeat match goal with H : _ && _ = true |- _ => apply andb_true_iff in H as [? ?] end;
    repeat match goal with IH : forall k, _ -> diff k ?e = _, H : free_of ?q ?e = true |- _ => rewrite (IH q H); clear IH end;
    try reflexivity; try (rewrite ?smul_0_r; reflexivity);
    match goal with |- (if ?b then _ else _) = _ => destruct b; [discriminate F|reflexivity] end.
Qed.
