(** C81: the spin-weighted spherical harmonics of spin_weighted_spherical_harmonics.py are the standard ones (ladder operators, value at spin
    l, orthonormality); the C function for spin weight -2 stores the one asked for, but not outside -l <= m <= l. *)
From Coq Require Import List ZArith Bool Arith Lia Reals Lra Psatz.
From Verif Require Import PyBase SpinHarmonics SpinHarmonicsFacts SpinHarmonicsNorm.
Import ListNotations.
Local Open Scope R_scope.

(** ** The code's value in terms of the sums *)
Definition val (o : option (R * R)) : R * R := match o with Some z => z | None => (0, 0) end.
Definition re (o : option (R * R)) : R := fst (val o).
Definition im (o : option (R * R)) : R := snd (val o).
Definition La (s l : Z) : nat := Z.to_nat (l - s).
Definition Lb (s l : Z) : nat := Z.to_nat (l + s).
Definition amp (s l m : Z) (t : R) : R := powerRZ (-1) m * A (Qn (Z.to_nat (2 * l)) (Z.to_nat (l - m))) (La s l) (Lb s l) (s - m) t.
Lemma fold_pair : forall (f g : nat -> R) n,
  fold_left (fun a r => (fst a + f r, snd a + g r)) (seq 0 (S n)) (0, 0) = (sum_f_R0 f n, sum_f_R0 g n).
Proof.
  intros f g n. induction n as [|n IH]; [cbn; f_equal; ring |]. rewrite seq_S, fold_left_app, IH. reflexivity.
Qed.
Lemma fold_left_map_Z : forall (h : R * R -> Z -> R * R) l z, fold_left h (map Z.of_nat l) z = fold_left (fun a r => h a (Z.of_nat r)) l z.
Proof. intros h l. induction l as [|x l IH]; intro z; [reflexivity | cbn; apply IH]. Qed.
Lemma INR_to_nat : forall z, (0 <= z)%Z -> INR (Z.to_nat z) = IZR z.
Proof. intros z H. rewrite INR_IZR_INZ. f_equal. lia. Qed.
Lemma angle : forall g s l m r t, 0 < t < PI -> powerRZ (sin (t / 2)) (2 * l) * term_angle g s m t r = Rpower (hc t) (IZR (2 * r + s - m)) * Rpower (hs t) (IZR (2 * l - (2 * r + s - m))).
Proof.
  intros g s l m r t T. destruct (half_pos t T) as [C S]. fold (hs t). set (p := (2 * r + s - m)%Z).
  assert (Ta : tan (t / 2) = hs t / hc t) by reflexivity. assert (Tp : 0 < hs t / hc t) by (apply Rdiv_lt_0_compat; assumption).
  assert (K : / powerRZ (tan (t / 2)) p = Rpower (hc t) (IZR p) / Rpower (hs t) (IZR p)).
  { rewrite Ta, powerRZ_Rpower by exact Tp. assert (M : Rpower (hs t / hc t) (IZR p) * Rpower (hc t) (IZR p) = Rpower (hs t) (IZR p)).
    { rewrite Rpower_mult_distr by assumption. f_equal. field. lra. }
    assert (0 < Rpower (hs t / hc t) (IZR p)) by apply exp_pos. assert (0 < Rpower (hc t) (IZR p)) by apply exp_pos. rewrite <- M. field. split; lra. }
  assert (W : term_angle g s m t r = Rpower (hc t) (IZR p) / Rpower (hs t) (IZR p)).
  { unfold term_angle. fold p. destruct g; [| exact K]. rewrite <- K. unfold cot. fold (hc t) (hs t). rewrite Ta. rewrite !powerRZ_Rpower by (try apply Rdiv_lt_0_compat; assumption).
    assert (M : Rpower (hc t / hs t) (IZR p) * Rpower (hs t / hc t) (IZR p) = 1).
    { rewrite Rpower_mult_distr by (apply Rdiv_lt_0_compat; assumption). replace (hc t / hs t * (hs t / hc t)) with 1 by (field; lra). unfold Rpower. now rewrite ln_1, Rmult_0_r, exp_0. }
    assert (0 < Rpower (hs t / hc t) (IZR p)) by apply exp_pos. apply Rmult_eq_reg_r with (Rpower (hs t / hc t) (IZR p)); [| lra]. rewrite M. field. lra. }
  rewrite W, powerRZ_Rpower by exact S. rewrite minus_IZR. unfold Rminus. rewrite Rpower_plus, Rpower_Ropp. unfold Rdiv. ring.
Qed.
Lemma coef : forall s l m r, (Z.abs s <= l)%Z -> (r <= La s l)%nat -> term_coef s l m (Z.of_nat r) = ecoef (La s l) (Lb s l) (s - m) r.
Proof.
  intros s l m r H Hr. unfold term_coef, ecoef, binomial, La, Lb in *. destruct (Z.ltb_spec (Z.of_nat r) 0); [lia |]. rewrite Nat2Z.id, !INR_to_nat by lia.
  unfold binz. replace (Z.of_nat r + (s - m))%Z with (Z.of_nat r + s - m)%Z by lia.
  replace (powerRZ (-1) (l - Z.of_nat r - s)) with ((-1) ^ (Z.to_nat (l - s) - r)); [destruct (_ <? 0)%Z; ring |].
  rewrite pow_powerRZ. f_equal. lia.
Qed.
Lemma Y_amp : forall g s l m t ph, (Z.abs s <= l)%Z -> (Z.abs m <= l)%Z -> 0 < t < PI ->
  Y g s l m t ph = Some (amp s l m t * cos (IZR m * ph), amp s l m t * sin (IZR m * ph)).
Proof.
  intros g s l m t ph Hs Hm T. unfold Y, prefactor, factorial.
  destruct (Z.ltb_spec (l + m) 0); [lia |]. destruct (Z.ltb_spec (l - m) 0); [lia |]. destruct (Z.ltb_spec (l + s) 0); [lia |]. destruct (Z.ltb_spec (l - s) 0); [lia |].
  set (p := sqrt _). assert (P : p = Nm (Qn (Z.to_nat (2 * l)) (Z.to_nat (l - m))) (La s l) (Lb s l)).
  { unfold p, Nm, Qn, La, Lb. f_equal. rewrite INR_to_nat by lia. replace (Z.to_nat (2 * l) - Z.to_nat (l - m))%nat with (Z.to_nat (l + m)) by lia. rewrite mult_IZR.
    pose proof (fact_pos (Z.to_nat (l + s))). pose proof (fact_pos (Z.to_nat (l - s))). pose proof PI_RGT_0. field. repeat split; lra. }
  assert (S : forall w, powerRZ (sin (t / 2)) (2 * l) * sum_f_R0 (fun r => term_coef s l m (Z.of_nat r) * w * term_angle g s m t (Z.of_nat r)) (La s l) = E (La s l) (Lb s l) (s - m) t * w).
  { intro w. rewrite <- sum_scal. unfold E. rewrite Rmult_comm, <- sum_scal. apply sum_ext. intros r Hr. rewrite <- (coef s l m r Hs Hr).
    transitivity (term_coef s l m (Z.of_nat r) * w * (powerRZ (sin (t / 2)) (2 * l) * term_angle g s m t (Z.of_nat r))); [ring |]. rewrite angle by exact T.
    assert (X : Rpower (hc t) (IZR (2 * Z.of_nat r + s - m)) * Rpower (hs t) (IZR (2 * l - (2 * Z.of_nat r + s - m))) = eang (La s l) (Lb s l) (s - m) r t).
    { unfold eang, La, Lb. rewrite !INR_to_nat by lia. rewrite !INR_IZR_INZ. rewrite <- !mult_IZR, <- !plus_IZR, <- !minus_IZR. f_equal; f_equal; f_equal; lia. }
    rewrite X. ring. }
  unfold Sum. replace (Z.to_nat (l - s + 1)) with (Datatypes.S (La s l)) by (unfold La; lia). rewrite fold_left_map_Z. unfold term. cbn [fst snd].
  rewrite (fold_pair (fun r => term_coef s l m (Z.of_nat r) * cos (IZR m * ph) * term_angle g s m t (Z.of_nat r)) (fun r => term_coef s l m (Z.of_nat r) * sin (IZR m * ph) * term_angle g s m t (Z.of_nat r))).
  cbn [fst snd]. rewrite !Rmult_assoc, !S. rewrite P. unfold amp, A. f_equal. f_equal; ring.
Qed.
Lemma Y_over : forall g s l m t ph, (Z.abs m <= l)%Z -> (l < Z.abs s)%Z -> re (Y g s l m t ph) = 0 /\ im (Y g s l m t ph) = 0.
Proof.
  intros g s l m t ph Hm Hs. unfold re, im, Y, prefactor, factorial. destruct (Z.ltb_spec (l + m) 0); [lia |]. destruct (Z.ltb_spec (l - m) 0); [lia |].
  destruct (Z.ltb_spec (l + s) 0); [cbn [val fst snd]; rewrite sqrt_0; split; ring |]. destruct (Z.ltb_spec (l - s) 0); [| lia]. cbn [val fst snd]. rewrite sqrt_0. split; ring.
Qed.
Definition damp (s l m : Z) (t : R) : R := powerRZ (-1) m * dA (Qn (Z.to_nat (2 * l)) (Z.to_nat (l - m))) (La s l) (Lb s l) (s - m) t.
Lemma d_amp : forall s l m t, 0 < t < PI -> derivable_pt_lim (amp s l m) t (damp s l m t).
Proof. intros. apply (derivable_pt_lim_scal (A _ _ _ _)). now apply d_A. Qed.
Lemma d_re : forall g s l m t ph, (Z.abs s <= l)%Z -> (Z.abs m <= l)%Z -> 0 < t < PI -> derivable_pt_lim (fun u => re (Y g s l m u ph)) t (damp s l m t * cos (IZR m * ph)).
Proof.
  intros g s l m t ph Hs Hm T. apply (d_local (fun u => amp s l m u * cos (IZR m * ph))); [intros u Hu; now rewrite Y_amp | exact T |].
  replace (damp s l m t * cos (IZR m * ph)) with (damp s l m t * cos (IZR m * ph) + amp s l m t * 0) by ring.
  apply (derivable_pt_lim_mult (amp s l m) (fun _ => cos (IZR m * ph))); [now apply d_amp | apply derivable_pt_lim_const].
Qed.
Lemma d_im : forall g s l m t ph, (Z.abs s <= l)%Z -> (Z.abs m <= l)%Z -> 0 < t < PI -> derivable_pt_lim (fun u => im (Y g s l m u ph)) t (damp s l m t * sin (IZR m * ph)).
Proof.
  intros g s l m t ph Hs Hm T. apply (d_local (fun u => amp s l m u * sin (IZR m * ph))); [intros u Hu; now rewrite Y_amp | exact T |].
  replace (damp s l m t * sin (IZR m * ph)) with (damp s l m t * sin (IZR m * ph) + amp s l m t * 0) by ring.
  apply (derivable_pt_lim_mult (amp s l m) (fun _ => sin (IZR m * ph))); [now apply d_amp | apply derivable_pt_lim_const].
Qed.
Lemma d_lin : forall m ph, derivable_pt_lim (fun p => m * p) ph m.
Proof. intros. pose proof (derivable_pt_lim_scal id m ph 1 (derivable_pt_lim_id ph)) as D. unfold mult_real_fct, id in D. now rewrite Rmult_1_r in D. Qed.
Lemma d_cosm : forall m c ph, derivable_pt_lim (fun p => c * cos (m * p)) ph (- (m * (c * sin (m * ph)))).
Proof.
  intros m c ph. replace (- (m * (c * sin (m * ph)))) with (c * (- sin (m * ph) * m)) by ring. apply (derivable_pt_lim_scal (fun p => cos (m * p))).
  apply (derivable_pt_lim_comp (fun p => m * p) cos); [apply d_lin | apply derivable_pt_lim_cos].
Qed.
Lemma d_sinm : forall m c ph, derivable_pt_lim (fun p => c * sin (m * p)) ph (m * (c * cos (m * ph))).
Proof.
  intros m c ph. replace (m * (c * cos (m * ph))) with (c * (cos (m * ph) * m)) by ring. apply (derivable_pt_lim_scal (fun p => sin (m * p))).
  apply (derivable_pt_lim_comp (fun p => m * p) sin); [apply d_lin | apply derivable_pt_lim_sin].
Qed.
Lemma d_fun : forall f g x y, (forall u, f u = g u) -> derivable_pt_lim f x y -> derivable_pt_lim g x y.
Proof. intros f g x y H D eps He. destruct (D eps He) as [del Hd]. exists del. intros h H0 H1. rewrite <- !H. now apply Hd. Qed.

(** ** Statements: the derivatives of a complex field of the two angles *)
Definition field_derivs (f : R -> R -> option (R * R)) (t ph : R) (dt dp : R * R) : Prop :=
  derivable_pt_lim (fun u => re (f u ph)) t (fst dt) /\ derivable_pt_lim (fun u => im (f u ph)) t (snd dt) /\
  derivable_pt_lim (fun p => re (f t p)) ph (fst dp) /\ derivable_pt_lim (fun p => im (f t p)) ph (snd dp).
Lemma derivs : forall g s l m t ph, (Z.abs s <= l)%Z -> (Z.abs m <= l)%Z -> 0 < t < PI ->
  field_derivs (Y g s l m) t ph (damp s l m t * cos (IZR m * ph), damp s l m t * sin (IZR m * ph))
    (- (IZR m * (amp s l m t * sin (IZR m * ph))), IZR m * (amp s l m t * cos (IZR m * ph))).
Proof.
  intros g s l m t ph Hs Hm T. unfold field_derivs. cbn [fst snd]. split; [now apply d_re | split; [now apply d_im | split]].
  - apply (d_fun (fun p => amp s l m t * cos (IZR m * p))); [intro u; now rewrite Y_amp | apply d_cosm].
  - apply (d_fun (fun p => amp s l m t * sin (IZR m * p))); [intro u; now rewrite Y_amp | apply d_sinm].
Qed.
Lemma powm1 : forall z, powerRZ (-1) (z + 1) = - powerRZ (-1) z.
Proof. intro z. rewrite powerRZ_add by lra. rewrite powerRZ_1. ring. Qed.
Section AmpLadder.
Variables (s l m : Z) (t : R).
Hypothesis Hs : (Z.abs s <= l)%Z.
Hypothesis Hm : (Z.abs m <= l)%Z.
Hypothesis T : 0 < t < PI.
Lemma La_Lb : INR (Lb s l) - INR (La s l) = 2 * IZR s.
Proof. unfold La, Lb. rewrite !INR_to_nat by lia. rewrite plus_IZR, minus_IZR. ring. Qed.
Definition raised : R := if (s <? l)%Z then amp (s + 1) l m t else 0.
Lemma amp_up : damp s l m t - wt (IZR s) (IZR m) t * amp s l m t = - sqrt (IZR ((l - s) * (l + s + 1))) * raised.
Proof.
  unfold damp, amp. set (Q := Qn _ _). transitivity (powerRZ (-1) m * (dA Q (La s l) (Lb s l) (s - m) t - wt (IZR s) (IZR m) t * A Q (La s l) (Lb s l) (s - m) t)); [ring |].
  rewrite (upA Q _ _ _ t (IZR s) (IZR m)); [| apply Qn_pos | exact T | apply La_Lb | apply minus_IZR].
  assert (K : kap (La s l) (Lb s l) = sqrt (IZR ((l - s) * (l + s + 1)))).
  { unfold kap, La, Lb. f_equal. rewrite S_INR, !INR_to_nat by lia. rewrite mult_IZR, (plus_IZR (l + s)). reflexivity. }
  rewrite K. unfold raised, Aplus. destruct (Z.ltb_spec s l) as [B|B].
  - replace (La s l) with (S (La (s + 1) l)) by (unfold La; lia). replace (S (Lb s l)) with (Lb (s + 1) l) by (unfold Lb; lia).
    unfold amp. fold Q. replace (s + 1 - m)%Z with (s - m + 1)%Z by lia. ring.
  - replace (La s l) with 0%nat by (unfold La; lia). ring.
Qed.
Definition lowered : R := if (- l <? s)%Z then amp (s - 1) l m t else 0.
Lemma amp_down : damp s l m t + wt (IZR s) (IZR m) t * amp s l m t = sqrt (IZR ((l + s) * (l - s + 1))) * lowered.
Proof.
  unfold damp, amp. set (Q := Qn _ _). assert (HQ : 0 <= Q) by apply Qn_pos. unfold lowered. destruct (Z.ltb_spec (- l) s) as [B|B].
  - pose proof (downA Q (La (s - 1) l) (Lb (s - 1) l) (s - m - 1) t (IZR (s - 1)) (IZR m) HQ T) as D. unfold Aplus, dAplus in D.
    replace (La (s - 1) l) with (S (La s l)) in D by (unfold La; lia). replace (S (Lb (s - 1) l)) with (Lb s l) in D by (unfold Lb; lia).
    replace (s - m - 1 + 1)%Z with (s - m)%Z in D by lia. replace (IZR (s - 1) + 1) with (IZR s) in D by (rewrite minus_IZR; ring).
    transitivity (powerRZ (-1) m * (dA Q (La s l) (Lb s l) (s - m) t + wt (IZR s) (IZR m) t * A Q (La s l) (Lb s l) (s - m) t)); [ring |]. rewrite D.
    + assert (K : kap (S (La s l)) (Lb (s - 1) l) = sqrt (IZR ((l + s) * (l - s + 1)))).
      { unfold kap, La, Lb. f_equal. rewrite !S_INR, !INR_to_nat by lia. rewrite mult_IZR, !plus_IZR, !minus_IZR. ring. }
      rewrite K. unfold amp. fold Q. replace (La (s - 1) l) with (S (La s l)) by (unfold La; lia). replace (s - 1 - m)%Z with (s - m - 1)%Z by lia. ring.
    + unfold La, Lb. rewrite S_INR, !INR_to_nat by lia. rewrite plus_IZR, !minus_IZR. ring.
    + rewrite !minus_IZR. ring.
  - unfold dA, A. transitivity (powerRZ (-1) m * (Nm Q (La s l) (Lb s l) * (dE (La s l) (Lb s l) (s - m) t + wt (IZR s) (IZR m) t * E (La s l) (Lb s l) (s - m) t))); [ring |].
    rewrite (lower (La s l) (Lb s l) (s - m) t (IZR s) (IZR m) T La_Lb (minus_IZR s m)). replace (Lb s l) with 0%nat by (unfold Lb; lia). ring.
Qed.
Definition raised_m : R := if (m <? l)%Z then amp s l (m + 1) t else 0.
Lemma amp_up_m : damp s l m t - wm (IZR s) (IZR m) t * amp s l m t = sqrt (IZR ((l - m) * (l + m + 1))) * raised_m.
Proof.
  unfold damp, amp, dA, A. set (a := La s l). set (b := Lb s l). set (n := Z.to_nat (2 * l)).
  transitivity (powerRZ (-1) m * (Nm (Qn n (Z.to_nat (l - m))) a b * (dE a b (s - m) t - wm (IZR s) (IZR m) t * E a b (s - m) t))); [ring |].
  rewrite (raise_m a b (s - m) t (IZR s) (IZR m) T La_Lb (minus_IZR s m)). unfold raised_m. destruct (Z.ltb_spec m l) as [B|B].
  - set (k := Z.to_nat (l - (m + 1))). replace (Z.to_nat (l - m)) with (S k) by (unfold k; lia).
    pose proof (Nm_m n k a b ltac:(unfold n, k; lia)) as N.
    replace (INR b - IZR (s - m) + 1) with (INR (n - k)).
    2: { replace (n - k)%nat with (Z.to_nat (l + m + 1)) by (unfold n, k; lia). unfold b, Lb. rewrite !INR_to_nat by lia. rewrite !plus_IZR, minus_IZR. ring. }
    replace (IZR ((l - m) * (l + m + 1))) with (INR (S k) * INR (n - k)).
    2: { rewrite mult_IZR. f_equal; [replace (S k) with (Z.to_nat (l - m)) by (unfold k; lia) | replace (n - k)%nat with (Z.to_nat (l + m + 1)) by (unfold n, k; lia)]; apply INR_to_nat; lia. }
    unfold amp, A. fold a b n k. replace (s - (m + 1))%Z with (s - m - 1)%Z by lia. rewrite powm1.
    transitivity (- powerRZ (-1) m * (Nm (Qn n (S k)) a b * INR (n - k)) * E a b (s - m - 1) t); [ring |]. rewrite N. ring.
  - rewrite E_out by (unfold a, La; lia). ring.
Qed.
End AmpLadder.

(** ** C81 *)
(** The raising operator of the spin weight, eth = - (d_theta + i / sin(theta) d_phi - s cot(theta)), takes sYlm to sqrt((l-s)(l+s+1)) times the
    harmonic of spin s + 1. *)
Theorem C81_raise : forall g s l m t ph, (Z.abs s <= l)%Z -> (Z.abs m <= l)%Z -> 0 < t < PI ->
  exists dt dp, field_derivs (Y g s l m) t ph dt dp /\
    - (fst dt - snd dp / sin t - IZR s * cot t * re (Y g s l m t ph)) = sqrt (IZR ((l - s) * (l + s + 1))) * re (Y g (s + 1) l m t ph) /\
    - (snd dt + fst dp / sin t - IZR s * cot t * im (Y g s l m t ph)) = sqrt (IZR ((l - s) * (l + s + 1))) * im (Y g (s + 1) l m t ph).
Proof.
  intros g s l m t ph Hs Hm T. eexists. eexists. split; [now apply derivs |]. cbn [fst snd].
  assert (S0 : sin t <> 0) by (apply Rgt_not_eq; apply sin_gt_0; lra).
  pose proof (amp_up s l m t Hs Hm T) as U. set (K := sqrt (IZR ((l - s) * (l + s + 1)))) in *.
  assert (V : re (Y g (s + 1) l m t ph) = raised s l m t * cos (IZR m * ph) /\ im (Y g (s + 1) l m t ph) = raised s l m t * sin (IZR m * ph)).
  { unfold raised. destruct (Z.ltb_spec s l) as [B|B]; [rewrite Y_amp by (lia || assumption); now split |]. destruct (Y_over g (s + 1) l m t ph Hm) as [-> ->]; [lia | split; ring]. }
  destruct V as [-> ->]. rewrite Y_amp by assumption. unfold re, im, cot. cbn [val fst snd].
  assert (W : K * raised s l m t = - (damp s l m t - (IZR m + IZR s * cos t) / sin t * amp s l m t)) by (unfold wt in U; lra).
  split; rewrite <- (Rmult_assoc K), W; field; exact S0.
Qed.
(** The lowering operator, - (d_theta - i / sin(theta) d_phi + s cot(theta)), takes it to - sqrt((l+s)(l-s+1)) times that of spin s - 1. *)
Theorem C81_lower : forall g s l m t ph, (Z.abs s <= l)%Z -> (Z.abs m <= l)%Z -> 0 < t < PI ->
  exists dt dp, field_derivs (Y g s l m) t ph dt dp /\
    - (fst dt + snd dp / sin t + IZR s * cot t * re (Y g s l m t ph)) = - sqrt (IZR ((l + s) * (l - s + 1))) * re (Y g (s - 1) l m t ph) /\
    - (snd dt - fst dp / sin t + IZR s * cot t * im (Y g s l m t ph)) = - sqrt (IZR ((l + s) * (l - s + 1))) * im (Y g (s - 1) l m t ph).
Proof.
  intros g s l m t ph Hs Hm T. eexists. eexists. split; [now apply derivs |]. cbn [fst snd].
  assert (S0 : sin t <> 0) by (apply Rgt_not_eq; apply sin_gt_0; lra).
  pose proof (amp_down s l m t Hs Hm T) as U. set (K := sqrt (IZR ((l + s) * (l - s + 1)))) in *.
  assert (V : re (Y g (s - 1) l m t ph) = lowered s l m t * cos (IZR m * ph) /\ im (Y g (s - 1) l m t ph) = lowered s l m t * sin (IZR m * ph)).
  { unfold lowered. destruct (Z.ltb_spec (- l) s) as [B|B]; [rewrite Y_amp by (lia || assumption); now split |]. destruct (Y_over g (s - 1) l m t ph Hm) as [-> ->]; [lia | split; ring]. }
  destruct V as [-> ->]. rewrite Y_amp by assumption. unfold re, im, cot. cbn [val fst snd].
  assert (W : - K * lowered s l m t = - (damp s l m t + (IZR m + IZR s * cos t) / sin t * amp s l m t)) by (unfold wt in U; lra).
  split; rewrite <- (Rmult_assoc (- K)), W; field; exact S0.
Qed.
(** The raising operator of m, exp(i phi) (d_theta + i cot(theta) d_phi - s / sin(theta)), takes it to sqrt((l-m)(l+m+1)) times that of m + 1. *)
Theorem C81_raise_m : forall g s l m t ph, (Z.abs s <= l)%Z -> (Z.abs m <= l)%Z -> 0 < t < PI ->
  exists dt dp, field_derivs (Y g s l m) t ph dt dp /\
    let x := fst dt - cot t * snd dp - IZR s / sin t * re (Y g s l m t ph) in
    let y := snd dt + cot t * fst dp - IZR s / sin t * im (Y g s l m t ph) in
    cos ph * x - sin ph * y = sqrt (IZR ((l - m) * (l + m + 1))) * re (Y g s l (m + 1) t ph) /\
    cos ph * y + sin ph * x = sqrt (IZR ((l - m) * (l + m + 1))) * im (Y g s l (m + 1) t ph).
Proof.
  intros g s l m t ph Hs Hm T. eexists. eexists. split; [now apply derivs |]. cbn [fst snd]. cbv zeta.
  assert (S0 : sin t <> 0) by (apply Rgt_not_eq; apply sin_gt_0; lra).
  pose proof (amp_up_m s l m t Hs Hm T) as U. set (K := sqrt (IZR ((l - m) * (l + m + 1)))) in *.
  assert (V : K * re (Y g s l (m + 1) t ph) = K * raised_m s l m t * cos (IZR (m + 1) * ph) /\ K * im (Y g s l (m + 1) t ph) = K * raised_m s l m t * sin (IZR (m + 1) * ph)).
  { unfold raised_m. destruct (Z.ltb_spec m l) as [B|B]; [rewrite Y_amp by (lia || assumption); unfold re, im; cbn [val fst snd]; split; ring |].
    assert (Z0 : K = 0) by (unfold K; replace (l - m)%Z with 0%Z by lia; rewrite Z.mul_0_l; apply sqrt_0). rewrite Z0. split; ring. }
  destruct V as [-> ->]. rewrite <- U. rewrite Y_amp by assumption. unfold re, im, cot, wm. cbn [val fst snd].
  replace (IZR (m + 1) * ph) with (IZR m * ph + ph) by (rewrite plus_IZR; ring). rewrite cos_plus, sin_plus. split; field; exact S0.
Qed.
(** At spin l the harmonic is (-1)^m sqrt((2l+1)/(4 pi) C(2l, l-m)) cos(theta/2)^(l-m) sin(theta/2)^(l+m) exp(i m phi).  With [C81_lower] this fixes all
    the others. *)
Lemma Pn_top : forall b k t, (k <= b)%nat -> Pn 0 b (Z.of_nat k) t = bin (INR b) k * (hc t ^ k * hs t ^ (b - k)).
Proof.
  intros b k t H. unfold Pn. cbn [sum_f_R0]. unfold ecoef. rewrite !Z.add_0_l, binz_nat. cbn [Nat.sub pow bin Z.of_nat].
  replace (Z.to_nat (Z.of_nat k)) with k by lia. replace (Z.to_nat (Z.of_nat b - 2 * 0 - Z.of_nat k)) with (b - k)%nat by lia. ring.
Qed.
Theorem C81_top : forall g l m t ph, (Z.abs m <= l)%Z -> 0 < t < PI ->
  let x := powerRZ (-1) m * sqrt ((2 * IZR l + 1) / (4 * PI) * (INR (fact (Z.to_nat (2 * l))) / (INR (fact (Z.to_nat (l - m))) * INR (fact (Z.to_nat (l + m))))))
    * cos (t / 2) ^ Z.to_nat (l - m) * sin (t / 2) ^ Z.to_nat (l + m) in
  Y g l l m t ph = Some (x * cos (IZR m * ph), x * sin (IZR m * ph)).
Proof.
  intros g l m t ph Hm T x. rewrite Y_amp by lia || assumption. replace (amp l l m t) with x; [reflexivity |]. unfold x, amp. rewrite AP_A by exact T. unfold AP, La, Lb.
  replace (Z.to_nat (l - l)) with 0%nat by lia. set (k := Z.to_nat (l - m)). set (b := Z.to_nat (2 * l)). replace (Z.to_nat (l + l)) with b by (unfold b; lia). replace (l - m)%Z with (Z.of_nat k) by (unfold k; lia).
  rewrite Pn_top by (unfold k, b; lia). replace (Z.to_nat (l + m)) with (b - k)%nat by (unfold b, k; lia). fold (hc t) (hs t).
  assert (R0 : sqrt ((2 * IZR l + 1) / (4 * PI) * (INR (fact b) / (INR (fact k) * INR (fact (b - k))))) = Nm (Qn b k) 0 b * bin (INR b) k).
  { pose proof (fact_pos k) as F1. pose proof (fact_pos (b - k)) as F2. pose proof (fact_pos b) as F3. pose proof PI_RGT_0 as PP.
    assert (Bp : 0 <= bin (INR b) k). { rewrite bin_fact by (unfold k, b; lia). apply Rmult_le_pos; [lra |]. left. apply Rinv_0_lt_compat. now apply Rmult_lt_0_compat. }
    destruct (Nm_sq (Qn b k) 0 b (Qn_pos b k)) as [N1 N2]. apply sqrt_lem_1.
    - apply Rmult_le_pos; [apply Rmult_le_pos; [| left; apply Rinv_0_lt_compat; lra] |].
      + assert (0 <= IZR l) by (apply (IZR_le 0); lia). lra.
      + rewrite <- bin_fact by (unfold k, b; lia). exact Bp.
    - now apply Rmult_le_pos.
    - transitivity (Nm (Qn b k) 0 b * Nm (Qn b k) 0 b * (bin (INR b) k * bin (INR b) k)); [ring |]. rewrite N1, bin_fact by (unfold k, b; lia). unfold Qn.
      replace (2 * IZR l + 1) with (INR b + 1) by (unfold b; rewrite INR_to_nat by lia; rewrite mult_IZR; reflexivity). change (INR (fact 0)) with 1. field. repeat split; lra. }
  rewrite R0. ring.
Qed.
(** The harmonics of one spin weight are orthonormal on the sphere.  For equal m the product with the conjugate does not depend on phi, and 2 pi times
    its integral over theta with the weight sin(theta) is 1 or 0. *)
Theorem C81_orthonormal : forall g s l l' m ph, (Z.abs s <= l)%Z -> (Z.abs s <= l')%Z -> (Z.abs m <= l)%Z -> (Z.abs m <= l')%Z ->
  let f t := 2 * PI * (re (Y g s l m t ph) * re (Y g s l' m t ph) + im (Y g s l m t ph) * im (Y g s l' m t ph)) * sin t in
  exists F, continuity F /\ (forall t, 0 < t < PI -> derivable_pt_lim F t (f t)) /\ F PI - F 0 = if (l =? l')%Z then 1 else 0.
Proof.
  intros g s l l' m ph Hs Hs' Hm Hm' f. pose proof PI_RGT_0 as PP. change (integral f (if (l =? l')%Z then 1 else 0)).
  assert (EqF : forall t, 0 < t < PI -> 2 * PI * (A (Qn (Z.to_nat (2 * l)) (Z.to_nat (l - m))) (La s l) (Lb s l) (s - m) t * A (Qn (Z.to_nat (2 * l')) (Z.to_nat (l' - m))) (La s l') (Lb s l') (s - m) t * sin t) = f t).
  { intros t T. unfold f. rewrite !Y_amp by assumption. unfold re, im. cbn [val fst snd]. pose proof (sin2_cos2 (IZR m * ph)) as SC. unfold Rsqr in SC.
    assert (W : powerRZ (-1) m * powerRZ (-1) m = 1). { rewrite <- powerRZ_mult. replace (-1 * -1) with 1 by ring. apply powerRZ_R1. }
    unfold amp. set (X := A _ _ _ _ _). set (X' := A _ _ _ _ _). transitivity (2 * PI * (X * X' * sin t) * 1 * 1); [ring |]. rewrite <- SC at 1. rewrite <- W at 1. ring. }
  destruct (Z.eqb_spec l l') as [<-|N].
  - assert (I : integral (fun t => A (Qn (Z.to_nat (2 * l)) (Z.to_nat (l - m))) (La s l) (Lb s l) (s - m) t ^ 2 * sin t) (/ (2 * PI))).
    { pose proof (normal (La s l) (Lb s l) (Z.to_nat (l - m))) as I. replace (La s l + Lb s l)%nat with (Z.to_nat (2 * l)) in I by (unfold La, Lb; lia).
      replace (Z.of_nat (Z.to_nat (l - m)) - Z.of_nat (La s l))%Z with (s - m)%Z in I by (unfold La; lia). apply I. lia. }
    refine (int_ext _ _ _ _ _ _ (int_scal (2 * PI) _ _ I)); [| field; lra]. intros t T. rewrite <- EqF by exact T. ring.
  - refine (int_ext _ _ _ _ EqF _ (int_scal (2 * PI) _ _ (orthogonal _ _ _ _ _ _ _ (IZR s) (IZR m) (Qn_pos _ _) (Qn_pos _ _) (La_Lb s l m Hs Hm) (La_Lb s l' m Hs' Hm') (minus_IZR s m) _))); [ring |].
    unfold La, Lb. rewrite !S_INR, !INR_to_nat by lia. rewrite !plus_IZR, !minus_IZR. intro X. apply N. apply eq_IZR.
    assert (L : 0 <= IZR l) by (apply (IZR_le 0); lia). assert (L' : 0 <= IZR l') by (apply (IZR_le 0); lia). nra.
Qed.
(** For different m the integral over phi of the product with the conjugate, real and imaginary part, is 0 at each theta. *)
Theorem C81_orthogonal_m : forall g s l l' m m' t, (Z.abs s <= l)%Z -> (Z.abs s <= l')%Z -> (Z.abs m <= l)%Z -> (Z.abs m' <= l')%Z -> m <> m' -> 0 < t < PI ->
  exists F G,
    (forall ph, derivable_pt_lim F ph (re (Y g s l m t ph) * re (Y g s l' m' t ph) + im (Y g s l m t ph) * im (Y g s l' m' t ph))) /\ F (2 * PI) - F 0 = 0 /\
    (forall ph, derivable_pt_lim G ph (im (Y g s l m t ph) * re (Y g s l' m' t ph) - re (Y g s l m t ph) * im (Y g s l' m' t ph))) /\ G (2 * PI) - G 0 = 0.
Proof.
  intros g s l l' m m' t Hs Hs' Hm Hm' N T. pose (k := (m - m')%Z). assert (K : IZR k <> 0) by (apply not_0_IZR; unfold k; lia).
  pose (x := amp s l m t * amp s l' m' t). exists (fun p => x / IZR k * sin (IZR k * p)), (fun p => - (x / IZR k) * cos (IZR k * p)).
  assert (Ek : forall p, IZR k * p = IZR m * p - IZR m' * p) by (intro p; unfold k; rewrite minus_IZR; ring).
  assert (Sk : sin (IZR k * PI) = 0) by (apply sin_eq_0_1; exists k; reflexivity).
  cbn beta. replace (IZR k * (2 * PI)) with (2 * (IZR k * PI)) by ring. rewrite sin_2a, cos_2a_sin, Sk, !Rmult_0_r, sin_0, cos_0.
  repeat split; try ring; intro ph; rewrite !Y_amp by assumption; unfold re, im; cbn [val fst snd].
  - pose proof (d_sinm (IZR k) (x / IZR k) ph) as D. match type of D with derivable_pt_lim _ _ ?v => match goal with |- derivable_pt_lim _ _ ?w => replace w with v; [exact D |] end end. rewrite (Ek ph), cos_minus. unfold x. field. exact K.
  - pose proof (d_cosm (IZR k) (- (x / IZR k)) ph) as D. match type of D with derivable_pt_lim _ _ ?v => match goal with |- derivable_pt_lim _ _ ?w => replace w with v; [exact D |] end end. rewrite (Ek ph), sin_minus. unfold x. field. exact K.
Qed.

(** ** The C function *)
Lemma inner_spec : forall l m, existsb (Z.eqb m) (inner_cases l) = (Z.abs m <=? Z.of_nat l)%Z.
Proof.
  intros l m. apply Bool.eq_true_iff_eq. rewrite existsb_exists, Z.leb_le. unfold inner_cases. split.
  - intros (x & Hx & E). apply in_map_iff in Hx. destruct Hx as (i & <- & Hi). apply in_seq in Hi. apply Z.eqb_eq in E. lia.
  - intro H. exists m. split; [| apply Z.eqb_refl]. apply in_map_iff. exists (Z.to_nat (m + Z.of_nat l)). split; [lia | apply in_seq; lia].
Qed.
Lemma run_spec : forall n k m, run_from (map (fun l => (l, inner_cases l)) (seq k n)) m =
  if (Z.abs m <? Z.of_nat (k + n))%Z then (if (n =? 0)%nat then None else Some (Nat.max k (Z.abs_nat m), m)) else None.
Proof.
  induction n as [|n IH]; intros k m; [cbn; now destruct (_ <? _)%Z |]. cbn [seq map run_from]. rewrite inner_spec, IH.
  destruct (Z.leb_spec (Z.abs m) (Z.of_nat k)); destruct (Z.ltb_spec (Z.abs m) (Z.of_nat (k + S n))); destruct (Z.ltb_spec (Z.abs m) (Z.of_nat (S k + n))); cbn [Nat.eqb]; try lia; try reflexivity.
  - f_equal. f_equal. lia.
  - destruct (Nat.eqb_spec n 0) as [E0|E0]; [exfalso; lia |]. f_equal. f_equal. lia.
Qed.
Lemma switch_spec : forall n k l m, switch (map (fun l => (l, inner_cases l)) (seq k n)) l m =
  if ((Z.of_nat k <=? l) && (l <? Z.of_nat (k + n)) && (Z.abs m <? Z.of_nat (k + n)))%Z then Some (Nat.max (Z.to_nat l) (Z.abs_nat m), m) else None.
Proof.
  induction n as [|n IH]; intros k l m.
  - cbn [seq map switch]. destruct (Z.leb_spec (Z.of_nat k) l); destruct (Z.ltb_spec l (Z.of_nat (k + 0))); cbn [andb]; try reflexivity. lia.
  - cbn [seq map switch]. destruct (Z.eqb_spec l (Z.of_nat k)) as [->|N].
    + change ((k, inner_cases k) :: map (fun l => (l, inner_cases l)) (seq (S k) n)) with (map (fun l => (l, inner_cases l)) (seq k (S n))). rewrite run_spec. cbn [Nat.eqb].
      rewrite Z.leb_refl. destruct (Z.ltb_spec (Z.of_nat k) (Z.of_nat (k + S n))); [| lia]. cbn [andb]. now rewrite Nat2Z.id.
    + rewrite IH. replace (S k + n)%nat with (k + S n)%nat by lia.
      destruct (Z.leb_spec (Z.of_nat (S k)) l); destruct (Z.leb_spec (Z.of_nat k) l); try lia; reflexivity.
Qed.
Lemma dispatch : forall max l m, switch (outer_cases max) l m =
  if ((0 <=? l) && (l <=? Z.of_nat max) && (Z.abs m <=? Z.of_nat max))%Z then Some (Nat.max (Z.to_nat l) (Z.abs_nat m), m) else None.
Proof.
  intros max l m. unfold outer_cases. rewrite switch_spec. cbn [Nat.add Z.of_nat].
  replace (l <? Z.of_nat (max + 1))%Z with (l <=? Z.of_nat max)%Z by (apply Bool.eq_true_iff_eq; rewrite Z.leb_le, Z.ltb_lt; lia).
  replace (Z.abs m <? Z.of_nat (max + 1))%Z with (Z.abs m <=? Z.of_nat max)%Z by (apply Bool.eq_true_iff_eq; rewrite Z.leb_le, Z.ltb_lt; lia). reflexivity.
Qed.
(** Within the documented bounds 0 <= l <= max, -l <= m <= l the C function stores the harmonic of spin weight -2 asked for (0 for l = 0 and 1). *)
Theorem C81_dispatch : forall max l m th ph, (0 <= l <= Z.of_nat max)%Z -> (Z.abs m <= l)%Z ->
  spin_weight_minus2_sph_harmonics max l m th ph = Y false (-2) l m th ph /\ Y false (-2) l m th ph <> None /\
  ((l < 2)%Z -> Y false (-2) l m th ph = Some (0, 0)).
Proof.
  intros max l m th ph Hl Hm. split; [| split].
  - unfold spin_weight_minus2_sph_harmonics. rewrite dispatch. destruct (Z.leb_spec 0 l); [| lia]. destruct (Z.leb_spec l (Z.of_nat max)); [| lia]. destruct (Z.leb_spec (Z.abs m) (Z.of_nat max)); [| lia].
    cbn [andb]. f_equal. lia.
  - unfold Y, prefactor, factorial. destruct (Z.ltb_spec (l + m) 0); [lia |]. destruct (Z.ltb_spec (l - m) 0); [lia |]. discriminate.
  - intro L. destruct (Y_over false (-2) l m th ph Hm) as [A1 A2]; [lia |]. unfold re, im in *.
    unfold Y, prefactor, factorial in *. destruct (Z.ltb_spec (l + m) 0); [lia |]. destruct (Z.ltb_spec (l - m) 0); [lia |]. cbn [val fst snd] in *. now rewrite A1, A2.
Qed.
(** Outside: the error exit is taken exactly if l < 0, l > max or |m| > max; for l < |m| <= max the harmonic of degree |m| is stored. *)
Theorem C81_outside : forall max l m th ph, ((l < 0)%Z \/ (Z.of_nat max < l)%Z \/ (Z.of_nat max < Z.abs m)%Z -> spin_weight_minus2_sph_harmonics max l m th ph = None) /\
  ((0 <= l < Z.abs m)%Z -> (Z.abs m <= Z.of_nat max)%Z -> spin_weight_minus2_sph_harmonics max l m th ph = Y false (-2) (Z.abs m) m th ph).
Proof.
  intros max l m th ph. unfold spin_weight_minus2_sph_harmonics. rewrite dispatch. split.
  - intro H. destruct (Z.leb_spec 0 l); destruct (Z.leb_spec l (Z.of_nat max)); destruct (Z.leb_spec (Z.abs m) (Z.of_nat max)); cbn [andb]; try reflexivity; lia.
  - intros H H'. destruct (Z.leb_spec 0 l); [| lia]. destruct (Z.leb_spec l (Z.of_nat max)); [| lia]. destruct (Z.leb_spec (Z.abs m) (Z.of_nat max)); [| lia].
    cbn [andb]. f_equal. lia.
Qed.
(** The message of the error exit, "only m=[-l,+l] is defined", is therefore not what the code does. *)
Theorem C81_bounds_refuted : ~ (forall max l m th ph, (0 <= l <= Z.of_nat max)%Z -> ~ (Z.abs m <= l)%Z -> spin_weight_minus2_sph_harmonics max l m th ph = None).
Proof.
  intro H. specialize (H 3%nat 2%Z 3%Z 1 0 ltac:(lia) ltac:(lia)). rewrite (proj2 (C81_outside 3 2 3 1 0)) in H by lia. change (Z.abs 3) with 3%Z in H.
  pose proof PI2_3_2. rewrite Y_amp in H; [discriminate | lia | lia | lra].
Qed.

(** ** Examples *)
Example C81_values : Y false 0 0 0 (PI / 3) 1 = Some (sqrt (1 / (4 * PI)), 0).
Proof.
  pose proof PI_RGT_0 as PP. pose proof (C81_top false 0 0 (PI / 3) 1 ltac:(lia) ltac:(lra)) as H. cbv zeta in H. rewrite H. rewrite Rmult_0_l, cos_0, sin_0. cbn.
  f_equal. f_equal; [| ring]. replace ((2 * 0 + 1) / (4 * PI) * (1 / (1 * 1))) with (1 / (4 * PI)) by (field; lra). ring.
Qed.
Example C81_raise_at : exists dt dp, field_derivs (Y false (-2) 2 1) 1 1 dt dp /\
  - (fst dt - snd dp / sin 1 - -2 * cot 1 * re (Y false (-2) 2 1 1 1)) = sqrt 4 * re (Y false (-1) 2 1 1 1).
Proof.
  pose proof PI2_3_2. destruct (C81_raise false (-2) 2 1 1 1 ltac:(lia) ltac:(lia) ltac:(lra)) as (dt & dp & D & A1 & _). exists dt, dp. split; [exact D | exact A1].
Qed.
Example C81_lower_at : exists dt dp, field_derivs (Y true 2 3 (-1)) 1 2 dt dp /\
  - (fst dt + snd dp / sin 1 + 2 * cot 1 * re (Y true 2 3 (-1) 1 2)) = - sqrt 10 * re (Y true 1 3 (-1) 1 2).
Proof.
  pose proof PI2_3_2. destruct (C81_lower true 2 3 (-1) 1 2 ltac:(lia) ltac:(lia) ltac:(lra)) as (dt & dp & D & A1 & _). exists dt, dp. split; [exact D | exact A1].
Qed.
Example C81_raise_m_at : exists dt dp, field_derivs (Y false (-2) 2 0) 1 2 dt dp /\
  let x := fst dt - cot 1 * snd dp - -2 / sin 1 * re (Y false (-2) 2 0 1 2) in
  let y := snd dt + cot 1 * fst dp - -2 / sin 1 * im (Y false (-2) 2 0 1 2) in
  cos 2 * x - sin 2 * y = sqrt 6 * re (Y false (-2) 2 1 1 2).
Proof.
  pose proof PI2_3_2. destruct (C81_raise_m false (-2) 2 0 1 2 ltac:(lia) ltac:(lia) ltac:(lra)) as (dt & dp & D & A1 & _). exists dt, dp. split; [exact D | exact A1].
Qed.
Example C81_orthogonal_m_at : exists F,
  (forall ph, derivable_pt_lim F ph (re (Y false (-2) 2 2 1 ph) * re (Y false (-2) 3 1 1 ph) + im (Y false (-2) 2 2 1 ph) * im (Y false (-2) 3 1 1 ph))) /\ F (2 * PI) - F 0 = 0.
Proof.
  pose proof PI2_3_2. destruct (C81_orthogonal_m false (-2) 2 3 2 1 1 ltac:(lia) ltac:(lia) ltac:(lia) ltac:(lia) ltac:(lia) ltac:(lra)) as (F & G & A1 & A2 & _). now exists F.
Qed.
Example C81_unit : exists F, continuity F /\ (forall t, 0 < t < PI -> derivable_pt_lim F t (2 * PI * (re (Y false (-2) 4 3 t 0) * re (Y false (-2) 4 3 t 0) + im (Y false (-2) 4 3 t 0) * im (Y false (-2) 4 3 t 0)) * sin t)) /\ F PI - F 0 = 1.
Proof. exact (C81_orthonormal false (-2) 4 4 3 0 ltac:(lia) ltac:(lia) ltac:(lia) ltac:(lia)). Qed.
Example C81_orthogonal_at : exists F, continuity F /\ (forall t, 0 < t < PI -> derivable_pt_lim F t (2 * PI * (re (Y false (-2) 4 2 t 0) * re (Y false (-2) 2 2 t 0) + im (Y false (-2) 4 2 t 0) * im (Y false (-2) 2 2 t 0)) * sin t)) /\ F PI - F 0 = 0.
Proof. exact (C81_orthonormal false (-2) 4 2 2 0 ltac:(lia) ltac:(lia) ltac:(lia) ltac:(lia)). Qed.
Example C81_case : spin_weight_minus2_sph_harmonics 8 5 (-4) 1 1 = Y false (-2) 5 (-4) 1 1 /\ spin_weight_minus2_sph_harmonics 8 9 0 1 1 = None /\
  spin_weight_minus2_sph_harmonics 8 2 3 1 1 = Y false (-2) 3 3 1 1.
Proof.
  split; [apply (proj1 (C81_dispatch 8 5 (-4) 1 1 ltac:(lia) ltac:(lia))) | split].
  - apply (proj1 (C81_outside 8 9 0 1 1)). right. left. lia.
  - apply (proj2 (C81_outside 8 2 3 1 1)); lia.
Qed.
Print Assumptions C81_raise.
Print Assumptions C81_lower.
Print Assumptions C81_raise_m.
Print Assumptions C81_top.
Print Assumptions C81_orthonormal.
Print Assumptions C81_orthogonal_m.
Print Assumptions C81_dispatch.
Print Assumptions C81_outside.
Print Assumptions C81_bounds_refuted.
