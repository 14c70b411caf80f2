(** C75: the GRHD equations are the conservation of baryon number and of energy and momentum. *)
From Coq Require Import List Arith Bool Reals Lra Lia Psatz FunctionalExtensionality.
From Verif Require Import PyBase Inverter InverterFacts GRMetric GRMetricFacts BSSN BSSNFacts BSSNPhys T4munu GRHD PropPiecewise PropHLL.
Local Open Scope R_scope.

(** ** Partial derivatives of functions of (t, x, y, z) *)
Definition pt : Type := nat -> R.
Definition move (mu : nat) (s : R) (w : pt) : pt := fun n => if (n =? mu)%nat then s else w n.
Definition pd (f : pt -> R) (mu : nat) (w : pt) (x : R) : Prop := derivable_pt_lim (fun s => f (move mu s w)) (w mu) x.
Lemma move_id : forall mu w, move mu (w mu) w = w.
Proof. intros mu w. apply functional_extensionality. intros n. unfold move. destruct (Nat.eqb_spec n mu); congruence. Qed.
Lemma pd_eq : forall f g mu w x y, (forall w, f w = g w) -> x = y -> pd f mu w x -> pd g mu w y.
Proof. intros f g mu w x y E <- H. replace g with f; [exact H | apply functional_extensionality; exact E]. Qed.
Lemma pd_unique : forall f mu w x y, pd f mu w x -> pd f mu w y -> x = y.
Proof. intros f mu w x y H1 H2. exact (uniqueness_limite _ _ _ _ H1 H2). Qed.
Lemma pd_plus : forall f g mu w x y, pd f mu w x -> pd g mu w y -> pd (fun w => f w + g w) mu w (x + y).
Proof. intros. now apply (derivable_pt_lim_plus (fun s => f (move mu s w)) (fun s => g (move mu s w))). Qed.
Lemma pd_minus : forall f g mu w x y, pd f mu w x -> pd g mu w y -> pd (fun w => f w - g w) mu w (x - y).
Proof. intros. now apply (derivable_pt_lim_minus (fun s => f (move mu s w)) (fun s => g (move mu s w))). Qed.
Lemma pd_opp : forall f mu w x, pd f mu w x -> pd (fun w => - f w) mu w (- x).
Proof. intros. now apply (derivable_pt_lim_opp (fun s => f (move mu s w))). Qed.
Lemma pd_mult : forall f g mu w x y, pd f mu w x -> pd g mu w y -> pd (fun w => f w * g w) mu w (x * g w + f w * y).
Proof.
  intros f g mu w x y H1 H2. pose proof (derivable_pt_lim_mult (fun s => f (move mu s w)) (fun s => g (move mu s w)) _ _ _ H1 H2) as P.
  cbv beta in P. rewrite move_id in P. exact P.
Qed.
Lemma pd_div : forall f g mu w x y, g w <> 0 -> pd f mu w x -> pd g mu w y -> pd (fun w => f w / g w) mu w ((x * g w - y * f w) / (g w * g w)).
Proof.
  intros f g mu w x y N H1 H2.
  pose proof (derivable_pt_lim_div (fun s => f (move mu s w)) (fun s => g (move mu s w)) _ _ _ H1 H2) as P.
  cbv beta in P. rewrite move_id in P. exact (P N).
Qed.
Lemma pd_s3 : forall (f : nat -> pt -> R) mu w (x : nat -> R), (forall k, (k < 3)%nat -> pd (f k) mu w (x k)) -> pd (fun w => s3 (fun k => f k w)) mu w (s3 x).
Proof.
  intros f mu w x H. refine (pd_eq (fun w => f 0%nat w + f 1%nat w + f 2%nat w) _ mu w _ _ _ _ (pd_plus _ _ _ _ _ _ (pd_plus _ _ _ _ _ _ (H 0%nat _) (H 1%nat _)) (H 2%nat _)));
    try lia; intros; now rewrite s3_eq.
Qed.

(** ** Algebra of the source terms *)
Section Alg.
Variables (al : R) (be : nat -> R) (ga : nat -> nat -> R) (T : nat -> nat -> R).
Hypothesis Sg : forall i j, (i < 3)%nat -> (j < 3)%nat -> ga i j = ga j i.
Hypothesis ST : forall i j, (i < 4)%nat -> (j < 4)%nat -> T i j = T j i.
Definition bl (j : nat) : R := s3 (fun k => ga j k * be k).
Definition TDv (mu j : nat) : R := T mu 0%nat * bl j + s3 (fun k => T mu (S k) * ga k j).
Definition Qv (j k : nat) : R := T 0%nat 0%nat * be j * be k + 2 * T 0%nat (S j) * be k + T (S j) (S k).
(** the terms of the reference connection cancel *)
Lemma hat_cancel : forall C : nat -> nat -> R,
  s3 (fun j => s3 (fun k => TDv 0 j * C j k * be k))
  - s3 (fun j => s3 (fun k => 1 / 2 * s3 (fun l => C l j * ga l k + C l k * ga j l) * Qv j k))
  + s3 (fun j => s3 (fun l => C l j * TDv (S j) l)) = 0.
Proof.
  intros C. unfold TDv, Qv, bl. rewrite !s3_eq.
  rewrite (Sg 1%nat 0%nat), (Sg 2%nat 0%nat), (Sg 2%nat 1%nat) by lia.
  rewrite (ST 1%nat 0%nat), (ST 2%nat 0%nat), (ST 3%nat 0%nat), (ST 2%nat 1%nat), (ST 3%nat 1%nat), (ST 3%nat 2%nat) by lia. field.
Qed.
(** derivative of the metric in one direction, from those of lapse, shift and spatial metric *)
Variables (ald : R) (bed : nat -> R) (gad : nat -> nat -> R).
Hypothesis Sgd : forall i j, (i < 3)%nat -> (j < 3)%nat -> gad i j = gad j i.
Definition bld (j : nat) : R := s3 (fun k => gad j k * be k + ga j k * bed k).
Definition dg4 (mu nu : nat) : R :=
  match mu, nu with
  | O, O => - (ald * al + al * ald) + s3 (fun k => bed k * bl k + be k * bld k)
  | S m, O => bld m
  | O, S n => bld n
  | S m, S n => gad m n
  end.
Lemma plain_source :
  - (T 0%nat 0%nat * al * ald) + s3 (fun j => TDv 0 j * bed j) + s3 (fun j => s3 (fun k => 1 / 2 * gad j k * Qv j k))
  = 1 / 2 * s4 (fun mu => s4 (fun nu => T mu nu * dg4 mu nu)).
Proof.
  unfold TDv, Qv, dg4, bld, bl, s4, acc. cbn [fold_left seq]. rewrite !s3_eq.
  rewrite (Sg 1%nat 0%nat), (Sg 2%nat 0%nat), (Sg 2%nat 1%nat) by lia. rewrite (Sgd 1%nat 0%nat), (Sgd 2%nat 0%nat), (Sgd 2%nat 1%nat) by lia.
  rewrite (ST 1%nat 0%nat), (ST 2%nat 0%nat), (ST 3%nat 0%nat), (ST 2%nat 1%nat), (ST 3%nat 1%nat), (ST 3%nat 2%nat) by lia. field.
Qed.
End Alg.

(** the time components of the connection of the 4-metric *)
Section Conn.
Variables (al : R) (be : nat -> R) (ga : nat -> nat -> R).
Variables (ald : nat -> R) (bed : nat -> nat -> R) (gad : nat -> nat -> nat -> R).   (* last argument: direction, 0 is time *)
Hypothesis AL : al <> 0.
Hypothesis Sg : forall i j, (i < 3)%nat -> (j < 3)%nat -> ga i j = ga j i.
Hypothesis Sgd : forall i j mu, (i < 3)%nat -> (j < 3)%nat -> gad i j mu = gad j i mu.
Definition dgv (mu nu la : nat) : R := dg4 al be ga (ald la) (fun k => bed k la) (fun i j => gad i j la) mu nu.
(** g^{0 sigma} *)
Definition up0 (si : nat) : R := match si with O => -1 / (al * al) | S n => be n / (al * al) end.
(** Christoffel symbol with upper index 0 of a metric with derivatives [dg] and [gup0] = g^{0 sigma} *)
Definition chr0 (gup0 : nat -> R) (dg : nat -> nat -> nat -> R) (mu nu : nat) : R :=
  s4 (fun si => 1 / 2 * gup0 si * (dg si nu mu + dg si mu nu - dg mu nu si)).
(** extrinsic curvature: 2 alpha K_ij = - d_t gamma_ij + Lie_beta gamma_ij *)
Definition Kv (i j : nat) : R :=
  1 / (2 * al) * (- gad i j 0%nat + s3 (fun k => be k * gad i j (S k) + ga k j * bed k (S i) + ga i k * bed k (S j))).
Lemma chr0_space : forall i j, (i < 3)%nat -> (j < 3)%nat -> chr0 up0 dgv (S i) (S j) = - Kv i j / al.
Proof.
  intros i j Hi Hj. unfold chr0, Kv, s4, acc, dgv, up0. cbn [fold_left seq dg4]. unfold bld, bl. rewrite !s3_eq.
  destruct i as [| [| [| i]]]; [| | | lia]; (destruct j as [| [| [| j]]]; [| | | lia]);
  rewrite ?(Sg 1%nat 0%nat), ?(Sg 2%nat 0%nat), ?(Sg 2%nat 1%nat) by lia;
  rewrite ?(fun m => Sgd 1%nat 0%nat m ltac:(lia) ltac:(lia)), ?(fun m => Sgd 2%nat 0%nat m ltac:(lia) ltac:(lia)), ?(fun m => Sgd 2%nat 1%nat m ltac:(lia) ltac:(lia));
  field; exact AL.
Qed.
Lemma chr0_mixed : forall i, (i < 3)%nat -> chr0 up0 dgv 0 (S i) = (ald (S i) - s3 (fun j => be j * Kv i j)) / al.
Proof.
  intros i Hi. unfold chr0, Kv, s4, acc, dgv, up0. cbn [fold_left seq dg4]. unfold bld, bl. rewrite !s3_eq.
  destruct i as [| [| [| i]]]; [| | | lia];
  rewrite ?(Sg 1%nat 0%nat), ?(Sg 2%nat 0%nat), ?(Sg 2%nat 1%nat) by lia;
  rewrite ?(fun m => Sgd 1%nat 0%nat m ltac:(lia) ltac:(lia)), ?(fun m => Sgd 2%nat 0%nat m ltac:(lia) ltac:(lia)), ?(fun m => Sgd 2%nat 1%nat m ltac:(lia) ltac:(lia));
  field; exact AL.
Qed.
Lemma chr0_time : chr0 up0 dgv 0 0 = (ald 0%nat + s3 (fun i => be i * ald (S i)) - s3 (fun i => s3 (fun j => be i * be j * Kv i j))) / al.
Proof.
  unfold chr0, Kv, s4, acc, dgv, up0. cbn [fold_left seq dg4]. unfold bld, bl. rewrite !s3_eq.
  rewrite ?(Sg 1%nat 0%nat), ?(Sg 2%nat 0%nat), ?(Sg 2%nat 1%nat) by lia;
  rewrite ?(fun m => Sgd 1%nat 0%nat m ltac:(lia) ltac:(lia)), ?(fun m => Sgd 2%nat 0%nat m ltac:(lia) ltac:(lia)), ?(fun m => Sgd 2%nat 1%nat m ltac:(lia) ltac:(lia)).
  field. exact AL.
Qed.
Lemma chr0_sym : forall mu nu, (mu < 4)%nat -> (nu < 4)%nat -> chr0 up0 dgv mu nu = chr0 up0 dgv nu mu.
Proof.
  intros mu nu Hm Hn. unfold chr0, s4, acc. cbn [fold_left seq].
  assert (S : forall s, dgv mu nu s = dgv nu mu s).
  { intros s. unfold dgv, dg4. destruct mu, nu; try reflexivity. apply Sgd; lia. }
  rewrite !S. ring.
Qed.
Lemma Kv_sym : forall i j, (i < 3)%nat -> (j < 3)%nat -> Kv i j = Kv j i.
Proof.
  intros i j Hi Hj. unfold Kv. rewrite (Sgd i j 0%nat Hi Hj). rewrite !s3_eq.
  rewrite !(fun m => Sgd i j m Hi Hj). rewrite !(fun k Hk => Sg k j Hk Hj), !(fun k Hk => Sg i k Hi Hk) by lia. ring.
Qed.
Lemma energy_alg : forall T : nat -> nat -> R, (forall i j, (i < 4)%nat -> (j < 4)%nat -> T i j = T j i) ->
  ald 0%nat * T 0%nat 0%nat + s3 (fun i => ald (S i) * T (S i) 0%nat)
  - (s3 (fun i => s3 (fun j => Qv be T i j * Kv i j)) + s3 (fun i => - (T 0%nat 0%nat * be i + T 0%nat (S i)) * ald (S i)))
  = al * s4 (fun mu => s4 (fun nu => chr0 up0 dgv mu nu * T mu nu)).
Proof.
  intros T ST. unfold s4 at 1, acc. cbn [fold_left seq]. unfold s4, acc. cbn [fold_left seq].
  rewrite (chr0_sym 1 0), (chr0_sym 2 0), (chr0_sym 3 0) by lia.
  rewrite chr0_time, !chr0_mixed, !chr0_space by lia. unfold Qv. rewrite !s3_eq.
  rewrite (Kv_sym 1 0), (Kv_sym 2 0), (Kv_sym 2 1) by lia.
  rewrite (ST 1%nat 0%nat), (ST 2%nat 0%nat), (ST 3%nat 0%nat), (ST 2%nat 1%nat), (ST 3%nat 1%nat), (ST 3%nat 2%nat) by lia.
  generalize (Kv 0 0) (Kv 0 1) (Kv 0 2) (Kv 1 1) (Kv 1 2) (Kv 2 2). intros. field. exact AL.
Qed.
End Conn.

(** ** Fluid flows on a spacetime *)
(** [X w] holds the quantities of the code at the event w, [T w] the stress-energy tensor it computes from them, and [sh] the
    square root of the determinant of the reference metric.  The derivatives in [X] are those of the functions. *)
Record flow (X : pt -> grhd) (T : pt -> nat -> nat -> R) (sh : pt -> R) (w : pt) : Prop := MkFlow {
  f_T : forall w, compute_T4UU (X w) = Ok (T w);
  f_gammabar : forall w i j, (i < 3)%nat -> (j < 3)%nat -> h_gammabarDD (X w) i j = h_gammabarDD (X w) j i;
  f_gamma : forall w i j, h_gammaDD (X w) i j = h_gammabarDD (X w) i j / h_exp_m4phi (X w);
  f_exp : h_exp_m4phi (X w) <> 0;
  f_alpha : forall w, h_alpha (X w) <> 0;
  f_e6phi : forall w, h_e6phi (X w) <> 0;
  f_VU : forall w, h_u4U (X w) = u4U_of (h_u4U (X w) 0%nat) (h_VU (X w));
  f_dalpha : forall i, (i < 3)%nat -> pd (fun w => h_alpha (X w)) (S i) w (h_alpha_dD (X w) i);
  f_dbeta : forall j i, (j < 3)%nat -> (i < 3)%nat -> pd (fun w => h_betaU (X w) j) (S i) w (h_betaU_dD (X w) j i);
  f_dgammabar : forall j k i, (j < 3)%nat -> (k < 3)%nat -> (i < 3)%nat ->
    pd (fun w => h_gammabarDD (X w) j k) (S i) w (h_gammabarDD_dD (X w) j k i);
  f_dphi : forall i, (i < 3)%nat -> pd (fun w => h_exp_m4phi (X w)) (S i) w (-4 * h_phi_dD (X w) i * h_exp_m4phi (X w));
  f_Gammahat : forall l i j, (l < 3)%nat -> (i < 3)%nat -> (j < 3)%nat -> h_GammahatUDD (X w) l i j = h_GammahatUDD (X w) l j i;
  f_sh : forall w, sh w <> 0;
  f_dsh_t : pd sh 0 w 0;
  f_dsh : forall j, (j < 3)%nat -> pd sh (S j) w (sh w * s3 (fun l => h_GammahatUDD (X w) l l j)) }.

(** the square root of minus the determinant of the 4-metric *)
Definition sqrtg (X : pt -> grhd) (sh : pt -> R) (w : pt) : R := h_alpha (X w) * h_e6phi (X w) * sh w.
Definition g4_of (x : grhd) : nat -> nat -> R := ADM_to_g4DD_R (h_gammaDD x) (h_betaU x) (h_alpha x).

Lemma g4UU_get : forall x T, compute_T4UU x = Ok T -> (forall i j, (i < 3)%nat -> (j < 3)%nat -> h_gammaDD x i j = h_gammaDD x j i) ->
  exists h, two_sided3 (h_gammaDD x) h /\ sym3 h /\ T = T4UU_of x (g4UU_of R 1 Rmult Rminus Rdiv Ropp h (h_betaU x) (h_alpha x)).
Proof.
  intros x T E S. unfold compute_T4UU, ADM_to_g4UU_R, ADM_to_g4UU in E.
  change (symm_matrix_inverter3x3 R 0 1 Rplus Rmult Rminus Rdiv Ropp reqb (h_gammaDD x)) with (inv3 (h_gammaDD x)) in E.
  destruct (inv3 (h_gammaDD x)) as [[h d] | e] eqn:I; [| discriminate]. cbn [py_bind fst] in E. exists h.
  split; [exact (proj2 (proj2 (inv3_spec _ _ _ S I))) |]. split; [exact (inv3_sym _ _ _ I) | congruence].
Qed.
Lemma T4UU_sym : forall x T, compute_T4UU x = Ok T -> (forall i j, (i < 3)%nat -> (j < 3)%nat -> h_gammaDD x i j = h_gammaDD x j i) ->
  forall i j, (i < 4)%nat -> (j < 4)%nat -> T i j = T j i.
Proof.
  intros x T E S i j Hi Hj. destruct (g4UU_get x T E S) as (h & _ & Sh & ->). unfold T4UU_of.
  assert (G : g4UU_of R 1 Rmult Rminus Rdiv Ropp h (h_betaU x) (h_alpha x) i j = g4UU_of R 1 Rmult Rminus Rdiv Ropp h (h_betaU x) (h_alpha x) j i).
  { destruct i as [| i], j as [| j]; cbn [g4UU_of]; try reflexivity. rewrite (Sh i j) by lia. unfold Rdiv. ring. }
  rewrite G. ring.
Qed.
Lemma g4_entries : forall x mu nu, g4_of x mu nu =
  match mu, nu with
  | O, O => - (h_alpha x * h_alpha x) + s3 (fun k => h_betaU x k * bl (h_betaU x) (h_gammaDD x) k)
  | S m, O => bl (h_betaU x) (h_gammaDD x) m
  | O, S n => bl (h_betaU x) (h_gammaDD x) n
  | S m, S n => h_gammaDD x m n
  end.
Proof. intros x mu nu. destruct mu, nu; reflexivity. Qed.
Lemma TD_entries : forall x T mu i, T4UD_of x T mu (i + 1)%nat = TDv (h_betaU x) (h_gammaDD x) T mu i.
Proof.
  intros x T mu i. unfold T4UD_of. fold (g4_of x). unfold s4, acc. cbn [fold_left seq]. rewrite Nat.add_1_r, !g4_entries.
  unfold TDv. rewrite (s3_eq (fun k => T mu (S k) * h_gammaDD x k i)). ring.
Qed.

Section Flow.
Variables (X : pt -> grhd) (T : pt -> nat -> nat -> R) (sh : pt -> R) (w : pt).
Hypothesis Fl : flow X T sh w.
Let x := X w.
Lemma ga_sym : forall w i j, (i < 3)%nat -> (j < 3)%nat -> h_gammaDD (X w) i j = h_gammaDD (X w) j i.
Proof. intros w' i j Hi Hj. rewrite !(f_gamma _ _ _ _ Fl). now rewrite (f_gammabar _ _ _ _ Fl w' i j Hi Hj). Qed.
Lemma T_sym : forall i j, (i < 4)%nat -> (j < 4)%nat -> T w i j = T w j i.
Proof. apply (T4UU_sym (X w)); [exact (f_T _ _ _ _ Fl w) | apply ga_sym]. Qed.
(** spatial derivatives of the spatial metric *)
Definition gdv (j k i : nat) : R := / h_exp_m4phi x * (4 * h_gammabarDD x j k * h_phi_dD x i + h_gammabarDD_dD x j k i).
Lemma dgamma : forall j k i, (j < 3)%nat -> (k < 3)%nat -> (i < 3)%nat -> pd (fun w => h_gammaDD (X w) j k) (S i) w (gdv j k i).
Proof.
  intros j k i Hj Hk Hi.
  refine (pd_eq (fun w => h_gammabarDD (X w) j k / h_exp_m4phi (X w)) _ _ _ _ _ _ _
    (pd_div _ _ _ _ _ _ (f_exp _ _ _ _ Fl) (f_dgammabar _ _ _ _ Fl j k i Hj Hk Hi) (f_dphi _ _ _ _ Fl i Hi))).
  - intros w'. now rewrite (f_gamma _ _ _ _ Fl).
  - unfold gdv, x. field. exact (f_exp _ _ _ _ Fl).
Qed.
Lemma gdv_sym : forall j k i, (j < 3)%nat -> (k < 3)%nat -> (i < 3)%nat -> gdv j k i = gdv k j i.
Proof.
  intros j k i Hj Hk Hi. apply (pd_unique (fun w => h_gammaDD (X w) j k) (S i) w); [now apply dgamma |].
  apply (pd_eq (fun w => h_gammaDD (X w) k j) _ _ _ (gdv k j i)); [intros; now apply ga_sym | reflexivity | now apply dgamma].
Qed.
(** derivatives of the 4-metric in the direction [la] from those of lapse, shift and metric *)
Lemma dmetric : forall la ald bed gad, pd (fun w => h_alpha (X w)) la w ald ->
  (forall k, (k < 3)%nat -> pd (fun w => h_betaU (X w) k) la w (bed k)) ->
  (forall j k, (j < 3)%nat -> (k < 3)%nat -> pd (fun w => h_gammaDD (X w) j k) la w (gad j k)) ->
  forall mu nu, (mu < 4)%nat -> (nu < 4)%nat -> pd (fun w => g4_of (X w) mu nu) la w (dg4 (h_alpha x) (h_betaU x) (h_gammaDD x) ald bed gad mu nu).
Proof.
  intros la ald bed gad Ha Hb Hg.
  assert (L : forall j, (j < 3)%nat -> pd (fun w => bl (h_betaU (X w)) (h_gammaDD (X w)) j) la w (bld (h_betaU x) (h_gammaDD x) bed gad j)).
  { intros j Hj. apply (pd_s3 (fun k w => h_gammaDD (X w) j k * h_betaU (X w) k) la w (fun k => gad j k * h_betaU x k + h_gammaDD x j k * bed k)).
    intros k Hk. apply pd_mult; [now apply Hg | now apply Hb]. }
  intros mu nu Hm Hn. destruct mu as [| m], nu as [| n].
  - apply (pd_eq (fun w => - (h_alpha (X w) * h_alpha (X w)) + s3 (fun k => h_betaU (X w) k * bl (h_betaU (X w)) (h_gammaDD (X w)) k)) _ _ _
      (- (ald * h_alpha x + h_alpha x * ald) + s3 (fun k => bed k * bl (h_betaU x) (h_gammaDD x) k + h_betaU x k * bld (h_betaU x) (h_gammaDD x) bed gad k)));
      [intros; now rewrite g4_entries | reflexivity |].
    apply pd_plus; [apply pd_opp, pd_mult; exact Ha |].
    apply (pd_s3 (fun k w => h_betaU (X w) k * bl (h_betaU (X w)) (h_gammaDD (X w)) k) la w).
    intros k Hk. apply (pd_mult (fun w => h_betaU (X w) k)); [now apply Hb | now apply L].
  - apply (pd_eq (fun w => bl (h_betaU (X w)) (h_gammaDD (X w)) n) _ _ _ (bld (h_betaU x) (h_gammaDD x) bed gad n)); [intros; now rewrite g4_entries | reflexivity | apply L; lia].
  - apply (pd_eq (fun w => bl (h_betaU (X w)) (h_gammaDD (X w)) m) _ _ _ (bld (h_betaU x) (h_gammaDD x) bed gad m)); [intros; now rewrite g4_entries | reflexivity | apply L; lia].
  - apply (pd_eq (fun w => h_gammaDD (X w) m n) _ _ _ (gad m n)); [intros; now rewrite g4_entries | reflexivity | apply Hg; lia].
Qed.
(** the derivatives of a density from those of the undensitized current *)
Lemma density : forall (D : pt -> R) mu ds d G, pd sh mu w ds -> pd D mu w d -> pd (fun w => sh w * D w) mu w G -> G = ds * D w + sh w * d.
Proof. intros D mu ds d G H1 H2 H3. exact (pd_unique _ _ _ _ _ H3 (pd_mult sh D mu w ds d H1 H2)). Qed.

(** ** Momentum *)
Lemma momentum : forall i dS (dF G : nat -> R) (dg : nat -> nat -> R), (i < 3)%nat ->
  pd (fun w => S_tildeD (X w) (T4UD_of (X w) (T w)) i) 0 w dS ->
  (forall j, (j < 3)%nat -> pd (fun w => S_tilde_fluxUD (X w) (T4UD_of (X w) (T w)) j i) (S j) w (dF j)) ->
  (forall mu, (mu < 4)%nat -> pd (fun w => sqrtg X sh w * T4UD_of (X w) (T w) mu (S i)) mu w (G mu)) ->
  (forall mu nu, (mu < 4)%nat -> (nu < 4)%nat -> pd (fun w => g4_of (X w) mu nu) (S i) w (dg mu nu)) ->
  dS + s3 dF + S_tilde_connection_termsD x (T4UD_of x (T w)) i - S_tilde_source_termD x (T w) (T4UD_of x (T w)) i
  = h_alpha x * h_e6phi x * (s4 G / sqrtg X sh w - 1 / 2 * s4 (fun mu => s4 (fun nu => T w mu nu * dg mu nu))).
Proof.
  intros i dS dF G dg Hi HS HF HG Hdg.
  assert (Edg : forall mu nu, (mu < 4)%nat -> (nu < 4)%nat -> dg mu nu
    = dg4 (h_alpha x) (h_betaU x) (h_gammaDD x) (h_alpha_dD x i) (fun k => h_betaU_dD x k i) (fun j k => gdv j k i) mu nu).
  { intros mu nu Hm Hn. apply (pd_unique _ _ _ _ _ (Hdg mu nu Hm Hn)). apply dmetric; try assumption.
    - now apply (f_dalpha _ _ _ _ Fl).
    - intros k Hk. now apply (f_dbeta _ _ _ _ Fl).
    - intros j k Hj Hk. now apply dgamma. }
  assert (EG0 : G 0%nat = sh w * dS).
  { transitivity (0 * S_tildeD x (T4UD_of x (T w)) i + sh w * dS); [| ring].
    apply (density (fun w => S_tildeD (X w) (T4UD_of (X w) (T w)) i) 0 0 dS); [exact (f_dsh_t _ _ _ _ Fl) | exact HS |].
    refine (pd_eq _ _ _ _ _ _ _ eq_refl (HG 0%nat ltac:(lia))). intros w'. unfold sqrtg, S_tildeD. rewrite Nat.add_1_r. ring. }
  assert (EGj : forall j, (j < 3)%nat -> G (S j) = sh w * s3 (fun l => h_GammahatUDD x l l j) * S_tilde_fluxUD x (T4UD_of x (T w)) j i + sh w * dF j).
  { intros j Hj. apply (density (fun w => S_tilde_fluxUD (X w) (T4UD_of (X w) (T w)) j i) (S j)); [now apply (f_dsh _ _ _ _ Fl) | now apply HF |].
    refine (pd_eq _ _ _ _ _ _ _ eq_refl (HG (S j) ltac:(lia))). intros w'. unfold sqrtg, S_tilde_fluxUD. rewrite !Nat.add_1_r. ring. }
  assert (EQ : s4 (fun mu => s4 (fun nu => T w mu nu * dg mu nu)) = s4 (fun mu => s4 (fun nu => T w mu nu *
     dg4 (h_alpha x) (h_betaU x) (h_gammaDD x) (h_alpha_dD x i) (fun k => h_betaU_dD x k i) (fun j k => gdv j k i) mu nu))).
  { unfold s4, acc. cbn [fold_left seq]. rewrite !Edg by lia. reflexivity. }
  rewrite EQ. rewrite <- (plain_source (h_alpha x) (h_betaU x) (h_gammaDD x) (T w) (ga_sym w) T_sym (h_alpha_dD x i) (fun k => h_betaU_dD x k i) (fun j k => gdv j k i)
    (fun j k Hj Hk => gdv_sym j k i Hj Hk Hi)).
  assert (ES : s4 G = sh w * (dS + s3 dF + s3 (fun j => s3 (fun l => h_GammahatUDD x l l j) * S_tilde_fluxUD x (T4UD_of x (T w)) j i))).
  { unfold s4, acc. cbn [fold_left seq]. rewrite EG0, !EGj by lia. rewrite !(s3_eq (fun j => s3 _ * _)), (s3_eq dF). ring. }
  rewrite ES. pose proof (f_sh _ _ _ _ Fl w) as Ns. pose proof (f_alpha _ _ _ _ Fl w) as Na. pose proof (f_e6phi _ _ _ _ Fl w) as Ne.
  assert (Q : sh w * (dS + s3 dF + s3 (fun j => s3 (fun l => h_GammahatUDD x l l j) * S_tilde_fluxUD x (T4UD_of x (T w)) j i)) / sqrtg X sh w
    = (dS + s3 dF + s3 (fun j => s3 (fun l => h_GammahatUDD x l l j) * S_tilde_fluxUD x (T4UD_of x (T w)) j i)) / (h_alpha x * h_e6phi x)).
  { unfold sqrtg. fold x in Na, Ne |- *. field. auto. }
  rewrite Q. set (F := S_tilde_fluxUD x (T4UD_of x (T w))).
  pose proof (hat_cancel (h_betaU x) (h_gammaDD x) (T w) (ga_sym w) T_sym (fun l j => h_GammahatUDD x l i j)) as HC. cbv beta in HC.
  (* the pieces of the code in terms of the values *)
  assert (EF : forall j l, F j l = h_alpha x * h_e6phi x * TDv (h_betaU x) (h_gammaDD x) (T w) (S j) l).
  { intros j l. unfold F, S_tilde_fluxUD. now rewrite TD_entries, Nat.add_1_r. }
  assert (E2 : second_termD x (T4UD_of x (T w)) i = s3 (fun j => TDv (h_betaU x) (h_gammaDD x) (T w) 0 j * h_betaU_dD x j i)
     + s3 (fun j => s3 (fun k => TDv (h_betaU x) (h_gammaDD x) (T w) 0 j * h_GammahatUDD x j i k * h_betaU x k))).
  { unfold second_termD. rewrite <- s3_plus. apply s3_ext. intros j _. rewrite !TD_entries. reflexivity. }
  assert (E3 : third_termD x (T w) i = s3 (fun j => s3 (fun k => 1 / 2 * gdv j k i * Qv (h_betaU x) (T w) j k))
     - s3 (fun j => s3 (fun k => 1 / 2 * s3 (fun l => h_GammahatUDD x l i j * h_gammaDD x l k + h_GammahatUDD x l i k * h_gammaDD x j l) * Qv (h_betaU x) (T w) j k))).
  { assert (Z : forall f g : nat -> R, s3 f - s3 g = s3 (fun j => f j - g j)) by (intros; rewrite !s3_eq; ring).
    unfold third_termD. rewrite Z. apply s3_ext. intros j _. rewrite Z. apply s3_ext. intros k _. rewrite !Nat.add_1_r.
    unfold covhatdD_gammaDD. fold (gdv j k i).
    assert (L : s3 (fun l => / h_exp_m4phi x * (h_GammahatUDD x l i j * h_gammabarDD x l k + h_GammahatUDD x l i k * h_gammabarDD x j l))
      = s3 (fun l => h_GammahatUDD x l i j * h_gammaDD x l k + h_GammahatUDD x l i k * h_gammaDD x j l)).
    { apply s3_ext. intros l _. unfold x. rewrite !(f_gamma _ _ _ _ Fl). unfold Rdiv. ring. }
    rewrite L. unfold Qv. ring. }
  assert (EC : S_tilde_connection_termsD x (T4UD_of x (T w)) i = s3 (fun j => s3 (fun l => h_GammahatUDD x l l j) * F j i)
     - h_alpha x * h_e6phi x * s3 (fun j => s3 (fun l => h_GammahatUDD x l i j * TDv (h_betaU x) (h_gammaDD x) (T w) (S j) l))).
  { unfold S_tilde_connection_termsD. fold F.
    assert (Z : forall f g : nat -> nat -> R, s3 (fun j => s3 (fun l => f j l - g j l)) = s3 (fun j => s3 (fun l => f j l)) - s3 (fun j => s3 (fun l => g j l))) by (intros; rewrite !s3_eq; ring).
    rewrite Z. f_equal.
    - rewrite s3_swap. apply s3_ext. intros j _. rewrite !s3_eq. ring.
    - rewrite <- s3_scale. apply s3_ext. intros j Hj. rewrite <- s3_scale. apply s3_ext. intros l Hl.
      rewrite EF. unfold x. rewrite (f_Gammahat _ _ _ _ Fl l j i Hl Hj Hi). ring. }
  rewrite EC. unfold S_tilde_source_termD. rewrite E2, E3. unfold first_termD.
  set (A := h_alpha x * h_e6phi x). assert (NA : A <> 0) by (unfold A; fold x in Na, Ne; now apply Rmult_integral_contrapositive_currified).
  revert HC. fold A.
  generalize (s3 (fun j => s3 (fun k => TDv (h_betaU x) (h_gammaDD x) (T w) 0 j * h_GammahatUDD x j i k * h_betaU x k))) as c1.
  generalize (s3 (fun j => s3 (fun k => 1 / 2 * s3 (fun l => h_GammahatUDD x l i j * h_gammaDD x l k + h_GammahatUDD x l i k * h_gammaDD x j l) * Qv (h_betaU x) (T w) j k))) as c2.
  generalize (s3 (fun j => s3 (fun l => h_GammahatUDD x l i j * TDv (h_betaU x) (h_gammaDD x) (T w) (S j) l))) as c3.
  generalize (s3 (fun j => s3 (fun l => h_GammahatUDD x l l j) * F j i)) as c4.
  generalize (s3 (fun j => s3 (fun k => 1 / 2 * gdv j k i * Qv (h_betaU x) (T w) j k))) as c5.
  generalize (s3 (fun j => TDv (h_betaU x) (h_gammaDD x) (T w) 0 j * h_betaU_dD x j i)) as c6. generalize (s3 dF) as f.
  clearbody A. clear - NA. intros f c6 c5 c4 c3 c2 c1 HC. assert (E : c2 = c1 + c3) by lra. rewrite E. field. exact NA.
Qed.

(** ** Currents *)
Lemma divergence : forall (J : nat -> pt -> R) d0 (dF G : nat -> R),
  pd (fun w => h_alpha (X w) * h_e6phi (X w) * J 0%nat w) 0 w d0 ->
  (forall j, (j < 3)%nat -> pd (fun w => h_alpha (X w) * h_e6phi (X w) * J (S j) w) (S j) w (dF j)) ->
  (forall mu, (mu < 4)%nat -> pd (fun w => sqrtg X sh w * J mu w) mu w (G mu)) ->
  d0 + s3 dF + connection_term x (fun j => h_alpha x * h_e6phi x * J (S j) w) = h_alpha x * h_e6phi x * (s4 G / sqrtg X sh w).
Proof.
  intros J d0 dF G H0 HF HG.
  assert (EG0 : G 0%nat = sh w * d0).
  { transitivity (0 * (h_alpha x * h_e6phi x * J 0%nat w) + sh w * d0); [| ring].
    apply (density (fun w => h_alpha (X w) * h_e6phi (X w) * J 0%nat w) 0); [exact (f_dsh_t _ _ _ _ Fl) | exact H0 |].
    refine (pd_eq _ _ _ _ _ _ _ eq_refl (HG 0%nat ltac:(lia))). intros w'. unfold sqrtg. ring. }
  assert (EGj : forall j, (j < 3)%nat -> G (S j) = sh w * s3 (fun l => h_GammahatUDD x l l j) * (h_alpha x * h_e6phi x * J (S j) w) + sh w * dF j).
  { intros j Hj. apply (density (fun w => h_alpha (X w) * h_e6phi (X w) * J (S j) w) (S j)); [now apply (f_dsh _ _ _ _ Fl) | now apply HF |].
    refine (pd_eq _ _ _ _ _ _ _ eq_refl (HG (S j) ltac:(lia))). intros w'. unfold sqrtg. ring. }
  unfold s4, acc. cbn [fold_left seq]. rewrite EG0, !EGj by lia. unfold connection_term, sqrtg. fold x. rewrite !s3_eq.
  pose proof (f_sh _ _ _ _ Fl w) as Ns. pose proof (f_alpha _ _ _ _ Fl w) as Na. pose proof (f_e6phi _ _ _ _ Fl w) as Ne. fold x in Na, Ne.
  field. auto.
Qed.
Lemma Jflux : forall w j, h_u4U (X w) 0%nat * h_VU (X w) j = h_u4U (X w) (S j).
Proof. intros w' j. pose proof (f_equal (fun u => u (S j)) (f_VU _ _ _ _ Fl w')) as E. cbn [u4U_of] in E. rewrite E. ring. Qed.
Lemma conn_ext : forall F1 F2, (forall j, (j < 3)%nat -> F1 j = F2 j) -> connection_term x F1 = connection_term x F2.
Proof. intros F1 F2 H. unfold connection_term. apply s3_ext. intros i _. apply s3_ext. intros j Hj. now rewrite H. Qed.

Lemma continuity : forall d0 (dF G : nat -> R),
  pd (fun w => rho_star (X w)) 0 w d0 -> (forall j, (j < 3)%nat -> pd (fun w => rho_star_fluxU (X w) j) (S j) w (dF j)) ->
  (forall mu, (mu < 4)%nat -> pd (fun w => sqrtg X sh w * (h_rho_b (X w) * h_u4U (X w) mu)) mu w (G mu)) ->
  d0 + s3 dF + rho_star_connection_term x = h_alpha x * h_e6phi x * (s4 G / sqrtg X sh w).
Proof.
  intros d0 dF G H0 HF HG. rewrite <- (divergence (fun mu w => h_rho_b (X w) * h_u4U (X w) mu) d0 dF G); [| | | exact HG].
  - unfold rho_star_connection_term. f_equal. apply conn_ext. intros j _. unfold rho_star_fluxU, rho_star, x. rewrite <- (Jflux w j). ring.
  - refine (pd_eq _ _ _ _ _ _ _ eq_refl H0). intros w'. unfold rho_star. ring.
  - intros j Hj. refine (pd_eq _ _ _ _ _ _ _ eq_refl (HF j Hj)). intros w'. unfold rho_star_fluxU, rho_star. rewrite <- (Jflux w' j). ring.
Qed.
Lemma continuity_Ye : forall d0 (dF G : nat -> R),
  pd (fun w => Ye_star (X w)) 0 w d0 -> (forall j, (j < 3)%nat -> pd (fun w => Ye_star_fluxU (X w) j) (S j) w (dF j)) ->
  (forall mu, (mu < 4)%nat -> pd (fun w => sqrtg X sh w * (h_Ye (X w) * h_rho_b (X w) * h_u4U (X w) mu)) mu w (G mu)) ->
  d0 + s3 dF + Ye_star_connection_term x = h_alpha x * h_e6phi x * (s4 G / sqrtg X sh w).
Proof.
  intros d0 dF G H0 HF HG. rewrite <- (divergence (fun mu w => h_Ye (X w) * h_rho_b (X w) * h_u4U (X w) mu) d0 dF G); [| | | exact HG].
  - unfold Ye_star_connection_term. f_equal. apply conn_ext. intros j _. unfold Ye_star_fluxU, Ye_star, x. rewrite <- (Jflux w j). ring.
  - refine (pd_eq _ _ _ _ _ _ _ eq_refl H0). intros w'. unfold Ye_star. ring.
  - intros j Hj. refine (pd_eq _ _ _ _ _ _ _ eq_refl (HF j Hj)). intros w'. unfold Ye_star_fluxU, Ye_star. rewrite <- (Jflux w' j). ring.
Qed.

(** ** Energy *)
Lemma energy : forall (gU : nat -> nat -> R) d0 (dF N G : nat -> R) (dg : nat -> nat -> nat -> R) at_ (bt : nat -> R) (gt : nat -> nat -> R) (gs : nat -> nat -> nat -> R),
  ADM_to_g4UU_R (h_gammaDD x) (h_betaU x) (h_alpha x) None = Ok gU ->
  pd (fun w => h_alpha (X w)) 0 w at_ -> (forall k, (k < 3)%nat -> pd (fun w => h_betaU (X w) k) 0 w (bt k)) ->
  (forall i j, (i < 3)%nat -> (j < 3)%nat -> pd (fun w => h_gammaDD (X w) i j) 0 w (gt i j)) ->
  (forall i j k, (i < 3)%nat -> (j < 3)%nat -> (k < 3)%nat -> pd (fun w => h_gammaDD (X w) i j) (S k) w (gs i j k)) ->
  (forall i j, (i < 3)%nat -> (j < 3)%nat -> 2 * h_alpha x * h_KDD x i j = - gt i j
     + s3 (fun k => h_betaU x k * gs i j k + h_gammaDD x k j * h_betaU_dD x k i + h_gammaDD x i k * h_betaU_dD x k j)) ->
  (forall mu nu la, (mu < 4)%nat -> (nu < 4)%nat -> (la < 4)%nat -> pd (fun w => g4_of (X w) mu nu) la w (dg mu nu la)) ->
  pd (fun w => tau_tilde (X w) (T w)) 0 w d0 -> (forall j, (j < 3)%nat -> pd (fun w => tau_tilde_fluxU (X w) (T w) j) (S j) w (dF j)) ->
  (forall mu, (mu < 4)%nat -> pd (fun w => sqrtg X sh w * (h_rho_b (X w) * h_u4U (X w) mu)) mu w (N mu)) ->
  (forall mu, (mu < 4)%nat -> pd (fun w => sqrtg X sh w * T w mu 0%nat) mu w (G mu)) ->
  d0 + s3 dF + tau_connection_term x (T w) - tau_source_term x (T w)
  = h_alpha x * h_e6phi x * (h_alpha x * (s4 G / sqrtg X sh w + s4 (fun mu => s4 (fun nu => chr0 (gU 0%nat) dg mu nu * T w mu nu))) - s4 N / sqrtg X sh w).
Proof.
  intros gU d0 dF N G dg at_ bt gt gs EU Hat Hbt Hgt Hgs HK Hdg H0 HF HN HG.
  pose proof (f_sh _ _ _ _ Fl w) as Ns. pose proof (f_alpha _ _ _ _ Fl w) as Na. pose proof (f_e6phi _ _ _ _ Fl w) as Ne. fold x in Na, Ne.
  set (ald := fun la => match la with O => at_ | S i => h_alpha_dD x i end).
  set (bed := fun k la => match la with O => bt k | S i => h_betaU_dD x k i end).
  set (gad := fun i j la => match la with O => gt i j | S k => gs i j k end).
  assert (Ha : forall la, (la < 4)%nat -> pd (fun w => h_alpha (X w)) la w (ald la)).
  { intros [| i] H; [exact Hat | apply (f_dalpha _ _ _ _ Fl); lia]. }
  assert (Hb : forall la k, (la < 4)%nat -> (k < 3)%nat -> pd (fun w => h_betaU (X w) k) la w (bed k la)).
  { intros [| i] k H Hk; [now apply Hbt | apply (f_dbeta _ _ _ _ Fl); lia]. }
  assert (Hg : forall la i j, (la < 4)%nat -> (i < 3)%nat -> (j < 3)%nat -> pd (fun w => h_gammaDD (X w) i j) la w (gad i j la)).
  { intros [| k] i j H Hi Hj; [now apply Hgt | apply Hgs; lia]. }
  assert (Sgad : forall i j la, (i < 3)%nat -> (j < 3)%nat -> (la < 4)%nat -> gad i j la = gad j i la).
  { intros i j la Hi Hj Hl. apply (pd_unique (fun w => h_gammaDD (X w) i j) la w); [now apply Hg |].
    apply (pd_eq (fun w => h_gammaDD (X w) j i) _ _ _ (gad j i la)); [intros; now apply ga_sym | reflexivity | now apply Hg]. }
  (* beyond the range of indices that occur, make the functions symmetric *)
  set (gad' := fun i j la => if (la <? 4)%nat then gad i j la else 0).
  assert (Sgad' : forall i j la, (i < 3)%nat -> (j < 3)%nat -> gad' i j la = gad' j i la).
  { intros i j la Hi Hj. unfold gad'. destruct (Nat.ltb_spec la 4); [now apply Sgad | reflexivity]. }
  assert (EK : forall i j, (i < 3)%nat -> (j < 3)%nat -> h_KDD x i j = Kv (h_alpha x) (h_betaU x) (h_gammaDD x) bed gad' i j).
  { intros i j Hi Hj. pose proof (HK i j Hi Hj) as Q. rewrite s3_eq in Q. unfold Kv. rewrite s3_eq.
    change (gad' i j 0%nat) with (gt i j). change (gad' i j 1%nat) with (gs i j 0%nat). change (gad' i j 2%nat) with (gs i j 1%nat). change (gad' i j 3%nat) with (gs i j 2%nat).
    cbn [bed]. apply (Rmult_eq_reg_l (2 * h_alpha x)); [| lra]. rewrite Q. field. exact Na. }
  assert (Edg : forall mu nu la, (mu < 4)%nat -> (nu < 4)%nat -> (la < 4)%nat -> dg mu nu la = dgv (h_alpha x) (h_betaU x) (h_gammaDD x) ald bed gad' mu nu la).
  { intros mu nu la Hm Hn Hl. apply (pd_unique _ _ _ _ _ (Hdg mu nu la Hm Hn Hl)). unfold dgv. apply dmetric; try assumption.
    - now apply Ha.
    - intros k Hk. now apply Hb.
    - intros j k Hj Hk. unfold gad'. rewrite (proj2 (Nat.ltb_lt la 4) Hl). now apply Hg. }
  assert (EU0 : forall si, (si < 4)%nat -> gU 0%nat si = up0 (h_alpha x) (h_betaU x) si).
  { intros si Hs. unfold ADM_to_g4UU_R, ADM_to_g4UU in EU.
    change (symm_matrix_inverter3x3 R 0 1 Rplus Rmult Rminus Rdiv Ropp reqb (h_gammaDD x)) with (inv3 (h_gammaDD x)) in EU.
    destruct (inv3 (h_gammaDD x)) as [[h d] | e]; [| discriminate]. cbn [py_bind fst] in EU.
    assert (E : gU = g4UU_of R 1 Rmult Rminus Rdiv Ropp h (h_betaU x) (h_alpha x)) by congruence. rewrite E.
    destruct si as [| n]; cbn [g4UU_of up0]; field; exact Na. }
  assert (EC : forall mu nu, (mu < 4)%nat -> (nu < 4)%nat -> chr0 (gU 0%nat) dg mu nu
     = chr0 (up0 (h_alpha x) (h_betaU x)) (dgv (h_alpha x) (h_betaU x) (h_gammaDD x) ald bed gad') mu nu).
  { intros mu nu Hm Hn. unfold chr0, s4, acc. cbn [fold_left seq]. rewrite !EU0, !Edg by lia. reflexivity. }
  pose proof (energy_alg (h_alpha x) (h_betaU x) (h_gammaDD x) ald bed gad' Na (ga_sym w) Sgad' (T w) T_sym) as EA.
  assert (EQ : s4 (fun mu => s4 (fun nu => chr0 (gU 0%nat) dg mu nu * T w mu nu))
    = s4 (fun mu => s4 (fun nu => chr0 (up0 (h_alpha x) (h_betaU x)) (dgv (h_alpha x) (h_betaU x) (h_gammaDD x) ald bed gad') mu nu * T w mu nu))).
  { unfold s4, acc. cbn [fold_left seq]. rewrite !EC by lia. reflexivity. }
  rewrite EQ. rewrite Rmult_plus_distr_l, <- EA. clear EQ EA EC.
  (* the divergence *)
  set (J := fun mu w => h_alpha (X w) * T w mu 0%nat - h_rho_b (X w) * h_u4U (X w) mu).
  assert (HJ : forall mu, (mu < 4)%nat -> pd (fun w => sqrtg X sh w * J mu w) mu w (ald mu * (sqrtg X sh w * T w mu 0%nat) + h_alpha x * G mu - N mu)).
  { intros mu Hm. refine (pd_eq (fun w => h_alpha (X w) * (sqrtg X sh w * T w mu 0%nat) - sqrtg X sh w * (h_rho_b (X w) * h_u4U (X w) mu)) _ _ _ _ _ _ eq_refl _).
    - intros w'. unfold J. ring.
    - apply pd_minus; [apply (pd_mult (fun w => h_alpha (X w)) (fun w => sqrtg X sh w * T w mu 0%nat)); [now apply Ha | now apply HG] | now apply HN]. }
  assert (ST : forall w', T w' 0%nat 1%nat = T w' 1%nat 0%nat /\ T w' 0%nat 2%nat = T w' 2%nat 0%nat /\ T w' 0%nat 3%nat = T w' 3%nat 0%nat).
  { intros w'. repeat split; apply (T4UU_sym (X w') (T w') (f_T _ _ _ _ Fl w') (ga_sym w')); lia. }
  assert (ETj : forall w' j, (j < 3)%nat -> T w' 0%nat (S j) = T w' (S j) 0%nat).
  { intros w' j Hj. destruct (ST w') as (A1 & A2 & A3). destruct j as [| [| [| j]]]; [exact A1 | exact A2 | exact A3 | lia]. }
  assert (FJ : forall w' j, (j < 3)%nat -> tau_tilde_fluxU (X w') (T w') j = h_alpha (X w') * h_e6phi (X w') * J (S j) w').
  { intros w' j Hj. unfold tau_tilde_fluxU, rho_star, J. rewrite Nat.add_1_r, (ETj w' j Hj), <- (Jflux w' j). ring. }
  pose proof (divergence J d0 dF _ ltac:(refine (pd_eq _ _ _ _ _ _ _ eq_refl H0); intros w'; unfold tau_tilde, rho_star, J; ring)
    ltac:(intros j Hj; refine (pd_eq _ _ _ _ _ _ _ eq_refl (HF j Hj)); intros w'; now apply FJ) HJ) as D.
  assert (CE : tau_connection_term x (T w) = connection_term x (fun j => h_alpha x * h_e6phi x * J (S j) w)).
  { unfold tau_connection_term. apply conn_ext. intros j Hj. now apply FJ. }
  rewrite CE, D.
  assert (ES : tau_source_term x (T w) = h_alpha x * h_e6phi x * (s3 (fun i => s3 (fun j => Qv (h_betaU x) (T w) i j * Kv (h_alpha x) (h_betaU x) (h_gammaDD x) bed gad' i j))
     + s3 (fun i => - (T w 0%nat 0%nat * h_betaU x i + T w 0%nat (S i)) * ald (S i)))).
  { unfold tau_source_term. rewrite Rmult_comm. apply Rmult_eq_compat_l. apply f_equal2.
    - apply s3_ext. intros i Hi. apply s3_ext. intros j Hj. rewrite (EK i j Hi Hj), !Nat.add_1_r. reflexivity.
    - apply s3_ext. intros i _. rewrite Nat.add_1_r. reflexivity. }
  rewrite ES.
  generalize (s3 (fun i => s3 (fun j => Qv (h_betaU x) (T w) i j * Kv (h_alpha x) (h_betaU x) (h_gammaDD x) bed gad' i j))
     + s3 (fun i => - (T w 0%nat 0%nat * h_betaU x i + T w 0%nat (S i)) * ald (S i))). intros src.
  assert (NG : sqrtg X sh w <> 0).
  { unfold sqrtg. fold x. apply Rmult_integral_contrapositive_currified; [now apply Rmult_integral_contrapositive_currified | exact Ns]. }
  unfold s4, acc. cbn [fold_left seq]. rewrite s3_eq. clear D. clear - NG. field. exact NG.
Qed.
End Flow.

(** ** The properties *)
(** The partial derivatives of the functions the class computes, plus the terms it adds for the reference metric, minus the
    source terms it computes, are the covariant divergences:
    - of T^mu_i: d_mu (sqrt(-g) T^mu_i) / sqrt(-g) - 1/2 T^{mu nu} d_i g_{mu nu}, *)
Theorem C75_momentum : forall X T sh w i dS (dF G : nat -> R) (dg : nat -> nat -> R), flow X T sh w -> (i < 3)%nat ->
  pd (fun w => S_tildeD (X w) (T4UD_of (X w) (T w)) i) 0 w dS ->
  (forall j, (j < 3)%nat -> pd (fun w => S_tilde_fluxUD (X w) (T4UD_of (X w) (T w)) j i) (S j) w (dF j)) ->
  (forall mu, (mu < 4)%nat -> pd (fun w => sqrtg X sh w * T4UD_of (X w) (T w) mu (S i)) mu w (G mu)) ->
  (forall mu nu, (mu < 4)%nat -> (nu < 4)%nat -> pd (fun w => g4_of (X w) mu nu) (S i) w (dg mu nu)) ->
  dS + s3 dF + S_tilde_connection_termsD (X w) (T4UD_of (X w) (T w)) i - S_tilde_source_termD (X w) (T w) (T4UD_of (X w) (T w)) i
  = h_alpha (X w) * h_e6phi (X w) * (s4 G / sqrtg X sh w - 1 / 2 * s4 (fun mu => s4 (fun nu => T w mu nu * dg mu nu))).
Proof. intros. now apply (momentum X T sh w). Qed.
(** - of the currents rho u^mu and Ye rho u^mu, *)
Theorem C75_continuity : forall X T sh w, flow X T sh w ->
  (forall d0 (dF G : nat -> R),
    pd (fun w => rho_star (X w)) 0 w d0 -> (forall j, (j < 3)%nat -> pd (fun w => rho_star_fluxU (X w) j) (S j) w (dF j)) ->
    (forall mu, (mu < 4)%nat -> pd (fun w => sqrtg X sh w * (h_rho_b (X w) * h_u4U (X w) mu)) mu w (G mu)) ->
    d0 + s3 dF + rho_star_connection_term (X w) = h_alpha (X w) * h_e6phi (X w) * (s4 G / sqrtg X sh w)) /\
  (forall d0 (dF G : nat -> R),
    pd (fun w => Ye_star (X w)) 0 w d0 -> (forall j, (j < 3)%nat -> pd (fun w => Ye_star_fluxU (X w) j) (S j) w (dF j)) ->
    (forall mu, (mu < 4)%nat -> pd (fun w => sqrtg X sh w * (h_Ye (X w) * h_rho_b (X w) * h_u4U (X w) mu)) mu w (G mu)) ->
    d0 + s3 dF + Ye_star_connection_term (X w) = h_alpha (X w) * h_e6phi (X w) * (s4 G / sqrtg X sh w)).
Proof. intros X T sh w Fl. split; [exact (continuity X T sh w Fl) | exact (continuity_Ye X T sh w Fl)]. Qed.
(** - of alpha T^{mu 0} minus the current, in a metric whose time derivative is given by the extrinsic curvature KDD. *)
Theorem C75_energy : forall X T sh w (gU : nat -> nat -> R) d0 (dF N G : nat -> R) (dg : nat -> nat -> nat -> R) at_ (bt : nat -> R)
    (gt : nat -> nat -> R) (gs : nat -> nat -> nat -> R), flow X T sh w ->
  let x := X w in
  ADM_to_g4UU_R (h_gammaDD x) (h_betaU x) (h_alpha x) None = Ok gU ->
  pd (fun w => h_alpha (X w)) 0 w at_ -> (forall k, (k < 3)%nat -> pd (fun w => h_betaU (X w) k) 0 w (bt k)) ->
  (forall i j, (i < 3)%nat -> (j < 3)%nat -> pd (fun w => h_gammaDD (X w) i j) 0 w (gt i j)) ->
  (forall i j k, (i < 3)%nat -> (j < 3)%nat -> (k < 3)%nat -> pd (fun w => h_gammaDD (X w) i j) (S k) w (gs i j k)) ->
  (forall i j, (i < 3)%nat -> (j < 3)%nat -> 2 * h_alpha x * h_KDD x i j = - gt i j
     + s3 (fun k => h_betaU x k * gs i j k + h_gammaDD x k j * h_betaU_dD x k i + h_gammaDD x i k * h_betaU_dD x k j)) ->
  (forall mu nu la, (mu < 4)%nat -> (nu < 4)%nat -> (la < 4)%nat -> pd (fun w => g4_of (X w) mu nu) la w (dg mu nu la)) ->
  pd (fun w => tau_tilde (X w) (T w)) 0 w d0 -> (forall j, (j < 3)%nat -> pd (fun w => tau_tilde_fluxU (X w) (T w) j) (S j) w (dF j)) ->
  (forall mu, (mu < 4)%nat -> pd (fun w => sqrtg X sh w * (h_rho_b (X w) * h_u4U (X w) mu)) mu w (N mu)) ->
  (forall mu, (mu < 4)%nat -> pd (fun w => sqrtg X sh w * T w mu 0%nat) mu w (G mu)) ->
  d0 + s3 dF + tau_connection_term x (T w) - tau_source_term x (T w)
  = h_alpha x * h_e6phi x * (h_alpha x * (s4 G / sqrtg X sh w + s4 (fun mu => s4 (fun nu => chr0 (gU 0%nat) dg mu nu * T w mu nu))) - s4 N / sqrtg X sh w).
Proof. intros. now apply (energy X T sh w) with (at_ := at_) (bt := bt) (gt := gt) (gs := gs). Qed.

(** The stress-energy tensor is that of a perfect fluid with enthalpy density rho h and pressure P. *)
Definition lower (x : grhd) (u : nat -> R) (nu : nat) : R := s4 (fun si => u si * g4_of x si nu).
Theorem C75_fluid : forall x T, compute_T4UU x = Ok T -> sym3 (h_gammaDD x) -> h_alpha x <> 0 ->
  (forall mu nu, (mu < 4)%nat -> (nu < 4)%nat -> T4UD_of x T mu nu
     = h_rho_b x * h_h x * h_u4U x mu * lower x (h_u4U x) nu + (if (mu =? nu)%nat then h_P x else 0)) /\
  (s4 (fun nu => h_u4U x nu * lower x (h_u4U x) nu) = -1 ->
     (forall mu, (mu < 4)%nat -> s4 (fun nu => T4UD_of x T mu nu * h_u4U x nu) = - (h_rho_b x * h_h x - h_P x) * h_u4U x mu) /\
     s4 (fun mu => T4UD_of x T mu mu) = 3 * h_P x - (h_rho_b x * h_h x - h_P x)).
Proof.
  intros x T E S A. destruct (g4UU_get x T E S) as (h & TS & Sh & ->).
  pose proof (g4_inverse R 0 1 Rplus Rmult Rminus Rdiv Ropp Rinv Rfield (h_gammaDD x) h (h_betaU x) (h_alpha x) S TS A) as I.
  assert (F : forall mu nu, (mu < 4)%nat -> (nu < 4)%nat -> T4UD_of x (T4UU_of x (g4UU_of R 1 Rmult Rminus Rdiv Ropp h (h_betaU x) (h_alpha x))) mu nu
     = h_rho_b x * h_h x * h_u4U x mu * lower x (h_u4U x) nu + (if (mu =? nu)%nat then h_P x else 0)).
  { intros mu nu Hm Hn. destruct (I mu nu Hm Hn) as (_ & I2).
    unfold T4UD_of, T4UU_of, lower. fold (g4_of x). unfold g4_of, ADM_to_g4DD_R.
    set (gU := g4UU_of R 1 Rmult Rminus Rdiv Ropp h (h_betaU x) (h_alpha x)) in *.
    set (gD := ADM_to_g4DD R 0 Rplus Rmult Ropp (h_gammaDD x) (h_betaU x) (h_alpha x)) in *.
    unfold s4, acc. cbn [fold_left seq].
    assert (J : gU mu 0%nat * gD 0%nat nu + gU mu 1%nat * gD 1%nat nu + gU mu 2%nat * gD 2%nat nu + gU mu 3%nat * gD 3%nat nu = if (mu =? nu)%nat then 1 else 0).
    { rewrite (matmul4 R 0 1 Rplus Rmult Rminus Rdiv Ropp Rinv Rfield) in I2. exact I2. }
    transitivity (h_rho_b x * h_h x * h_u4U x mu * (h_u4U x 0%nat * gD 0%nat nu + h_u4U x 1%nat * gD 1%nat nu + h_u4U x 2%nat * gD 2%nat nu + h_u4U x 3%nat * gD 3%nat nu)
      + h_P x * (gU mu 0%nat * gD 0%nat nu + gU mu 1%nat * gD 1%nat nu + gU mu 2%nat * gD 2%nat nu + gU mu 3%nat * gD 3%nat nu)); [ring |].
    rewrite J. destruct (mu =? nu)%nat; ring. }
  split; [exact F |]. intros U. unfold s4, acc in U. cbn [fold_left seq] in U.
  split.
  - intros mu Hm. unfold s4, acc. cbn [fold_left seq]. rewrite !F by lia.
    transitivity (h_rho_b x * h_h x * h_u4U x mu * (0 + h_u4U x 0%nat * lower x (h_u4U x) 0%nat + h_u4U x 1%nat * lower x (h_u4U x) 1%nat
        + h_u4U x 2%nat * lower x (h_u4U x) 2%nat + h_u4U x 3%nat * lower x (h_u4U x) 3%nat) + h_P x * h_u4U x mu); [| rewrite U; ring].
    destruct mu as [| [| [| [| mu]]]]; [| | | | lia]; cbn [Nat.eqb]; ring.
  - unfold s4, acc. cbn [fold_left seq]. rewrite !F by lia. cbn [Nat.eqb].
    transitivity (h_rho_b x * h_h x * (0 + h_u4U x 0%nat * lower x (h_u4U x) 0%nat + h_u4U x 1%nat * lower x (h_u4U x) 1%nat
        + h_u4U x 2%nat * lower x (h_u4U x) 2%nat + h_u4U x 3%nat * lower x (h_u4U x) 3%nat) + 4 * h_P x); [ring | rewrite U; ring].
Qed.

(** The conserved quantities and fluxes in terms of the Lorentz factor W = alpha u^0, and the rescaled ones in terms of the others. *)
Theorem C75_conserved : forall x T, compute_T4UU x = Ok T -> sym3 (h_gammaDD x) -> h_alpha x <> 0 ->
  let W := h_alpha x * h_u4U x 0%nat in
  rho_star x = h_e6phi x * h_rho_b x * W /\
  Ye_star x = h_Ye x * rho_star x /\
  (forall i, (i < 3)%nat -> S_tildeD x (T4UD_of x T) i = h_e6phi x * (h_rho_b x * h_h x) * W * lower x (h_u4U x) (S i)) /\
  tau_tilde x T = h_e6phi x * (h_rho_b x * h_h x * W ^ 2 - h_P x - h_rho_b x * W) /\
  ((forall j, (j < 3)%nat -> h_ReU x j <> 0) -> forall j, (j < 3)%nat ->
     rescaled_rho_star_fluxU x j * h_ReU x j = rho_star_fluxU x j /\ rescaled_Ye_star_fluxU x j * h_ReU x j = Ye_star_fluxU x j /\
     rescaled_tau_tilde_fluxU x T j * h_ReU x j = tau_tilde_fluxU x T j /\
     rescaledS_tildeD x (T4UD_of x T) j = S_tildeD x (T4UD_of x T) j * h_ReU x j /\
     forall i, (i < 3)%nat -> rescaled_S_tilde_fluxUD x (T4UD_of x T) j i * h_ReU x j = S_tilde_fluxUD x (T4UD_of x T) j i * h_ReU x i).
Proof.
  intros x T E S A W. destruct (C75_fluid x T E S A) as (F & _). destruct (g4UU_get x T E S) as (h & TS & Sh & ET).
  split; [unfold rho_star, W; ring |]. split; [unfold Ye_star, rho_star; ring |]. split; [| split].
  - intros i Hi. unfold S_tildeD. rewrite Nat.add_1_r, (F 0%nat (Datatypes.S i)) by lia. cbn [Nat.eqb]. unfold W. ring.
  - unfold tau_tilde, rho_star. rewrite ET. unfold T4UU_of. cbn [g4UU_of]. unfold W. field. exact A.
  - intros NR j Hj. specialize (NR j Hj).
    unfold rescaled_rho_star_fluxU, rescaled_Ye_star_fluxU, rescaled_tau_tilde_fluxU, tau_tilde_fluxU, rescaledS_tildeD, S_tildeD,
      rescaled_S_tilde_fluxUD, S_tilde_fluxUD. rewrite !Nat.add_1_r. cbn [rescaledT4UU rescaledT4UD].
    split; [field; exact NR |]. split; [field; exact NR |]. split; [field; exact NR |]. split; [ring |].
    intros i Hi. rewrite !Nat.add_1_r. cbn [rescaledT4UD]. field. exact NR.
Qed.
Lemma det3_eq : forall a, det3 a = a 0%nat 0%nat * (a 1%nat 1%nat * a 2%nat 2%nat - a 1%nat 2%nat * a 2%nat 1%nat)
  - a 0%nat 1%nat * (a 1%nat 0%nat * a 2%nat 2%nat - a 1%nat 2%nat * a 2%nat 0%nat) + a 0%nat 2%nat * (a 1%nat 0%nat * a 2%nat 1%nat - a 1%nat 1%nat * a 2%nat 0%nat).
Proof. intros a. unfold leibniz. cbn. ring. Qed.
(** e6phi is the square root of the determinant of the metric when that of the conformal metric is 1 relative to the reference one. *)
Theorem C75_volume : forall em (gb gh g : nat -> nat -> R), 0 < em -> (forall i j, g i j = gb i j / em) -> det3 gb = det3 gh ->
  0 < e6phi_of em /\ e6phi_of em * e6phi_of em * det3 gh = det3 g.
Proof.
  intros em gb gh g P E D. assert (Q : e6phi_of em = / (em * sqrt em)).
  { unfold e6phi_of. replace (1 / 2) with (/ 2) by lra. rewrite Rpower_sqrt by exact P. pose proof (sqrt_lt_R0 em P) as S.
    replace (-3) with (- INR 3) by (simpl; lra). rewrite Rpower_Ropp, Rpower_pow by exact S. f_equal.
    pose proof (sqrt_sqrt em (Rlt_le _ _ P)) as SS. transitivity (sqrt em * sqrt em * sqrt em); [ring | rewrite SS; reflexivity]. }
  pose proof (sqrt_lt_R0 em P) as S. pose proof (sqrt_sqrt em (Rlt_le _ _ P)) as SS. split.
  - rewrite Q. apply Rinv_0_lt_compat. now apply Rmult_lt_0_compat.
  - rewrite Q, <- D. rewrite !det3_eq, !E. set (s := sqrt em) in *. rewrite <- SS. field. lra.
Qed.

(** A fluid at rest in hydrostatic equilibrium under the lapse exp x: P = exp (-2 x), rho = P, h = 2, so that dP/dx = - rho h. *)
Definition ex_X (w : pt) : grhd :=
  MkHydro (exp (w 1%nat)) (fun _ => 0) flat 1 (fun _ _ => 0) (fun i => if (i =? 0)%nat then exp (w 1%nat) else 0) (fun _ _ => 0) 1 flat (fun _ _ _ => 0) (fun _ => 0)
    (fun _ _ _ => 0) (fun _ => 1) (exp (- 2 * w 1%nat)) (exp (- 2 * w 1%nat)) 2 (1 / 10) (u4U_of (exp (- w 1%nat)) (fun _ => 0)) (fun _ => 0).
Definition ex_h : nat -> nat -> R := match inv3 flat with Ok (h, _) => h | Err _ => flat end.
Definition ex_T (w : pt) : nat -> nat -> R := T4UU_of (ex_X w) (g4UU_of R 1 Rmult Rminus Rdiv Ropp ex_h (fun _ => 0) (exp (w 1%nat))).
Lemma ex_h_one : inv3 flat = Ok (ex_h, det3 flat) /\ ex_h 0%nat 0%nat = 1 /\ ex_h 0%nat 1%nat = 0 /\ ex_h 0%nat 2%nat = 0.
Proof.
  destruct (inv3_total flat (pd_sym3 flat flat_pd) ltac:(pose proof (pd_det flat flat_pd); lra)) as [h E].
  assert (H : ex_h = h) by (unfold ex_h; rewrite E; reflexivity). rewrite H. split; [exact E |].
  pose proof (proj2 (proj2 (inv3_spec flat h _ (pd_sym3 flat flat_pd) E))) as T.
  pose proof (proj1 (two_sided_r _ _ T 0%nat 0%nat ltac:(lia) ltac:(lia))) as D0. pose proof (proj1 (two_sided_r _ _ T 0%nat 1%nat ltac:(lia) ltac:(lia))) as D1.
  pose proof (proj1 (two_sided_r _ _ T 0%nat 2%nat ltac:(lia) ltac:(lia))) as D2.
  rewrite s3_eq in D0, D1, D2. unfold flat in D0, D1, D2. cbn [Nat.eqb] in D0, D1, D2. repeat split; lra.
Qed.
Lemma pd_const : forall c mu w, pd (fun _ => c) mu w 0.
Proof. intros c mu w. exact (derivable_pt_lim_const c (w mu)). Qed.
Lemma pd_exp_x : forall k w, pd (fun w => exp (k * w 1%nat)) 1 w (k * exp (k * w 1%nat)).
Proof.
  intros k w. unfold pd, move. cbn [Nat.eqb].
  replace (k * exp (k * w 1%nat)) with (exp (k * w 1%nat) * (k * 1)) by ring.
  apply (derivable_pt_lim_comp (fun s => k * s) exp); [| apply derivable_pt_lim_exp].
  apply (derivable_pt_lim_scal id). apply derivable_pt_lim_id.
Qed.
Example ex_C75_flow : forall w, flow ex_X ex_T (fun _ => 1) w.
Proof.
  intros w. constructor.
  - intros w'. unfold compute_T4UU, ADM_to_g4UU_R, ADM_to_g4UU. cbn [ex_X h_gammaDD h_betaU h_alpha].
    change (symm_matrix_inverter3x3 R 0 1 Rplus Rmult Rminus Rdiv Ropp reqb flat) with (inv3 flat). rewrite (proj1 ex_h_one). reflexivity.
  - intros w' i j Hi Hj. exact (pd_sym3 flat flat_pd i j Hi Hj).
  - intros w' i j. cbn. field.
  - cbn. lra.
  - intros w'. cbn. pose proof (exp_pos (w' 1%nat)). lra.
  - intros w'. cbn. lra.
  - intros w'. reflexivity.
  - intros i Hi. cbn [ex_X h_alpha h_alpha_dD].
    destruct i as [| i]; cbn [Nat.eqb].
    + apply (pd_eq (fun w => exp (1 * w 1%nat)) _ _ _ (1 * exp (1 * w 1%nat))); [intros; now rewrite Rmult_1_l | now rewrite !Rmult_1_l | apply pd_exp_x].
    + unfold pd, move. exact (derivable_pt_lim_const (exp (w 1%nat)) (w (S (S i)))).
  - intros j i _ _. exact (pd_const 0 (S i) w).
  - intros j k i _ _ _. exact (pd_const (flat j k) (S i) w).
  - intros i _. cbn. apply (pd_eq (fun _ => 1) _ _ _ 0); [reflexivity | ring | apply pd_const].
  - reflexivity.
  - intros w'. lra.
  - apply pd_const.
  - intros j _. apply (pd_eq (fun _ => 1) _ _ _ 0); [reflexivity | rewrite s3_eq; cbn; ring | apply pd_const].
Qed.
(** the momentum flux is exp (-x), and its divergence is the source term *)
Example ex_C75_equilibrium : forall w,
  pd (fun w => S_tilde_fluxUD (ex_X w) (T4UD_of (ex_X w) (ex_T w)) 0 0) 1 w (- exp (- w 1%nat)) /\
  S_tilde_connection_termsD (ex_X w) (T4UD_of (ex_X w) (ex_T w)) 0 = 0 /\
  S_tilde_source_termD (ex_X w) (ex_T w) (T4UD_of (ex_X w) (ex_T w)) 0 = - exp (- w 1%nat).
Proof.
  intros w. destruct ex_h_one as (_ & H0 & H1 & H2).
  assert (EP : forall z, exp z * exp (-2 * z) = exp (-1 * z)) by (intros z; rewrite <- exp_plus; f_equal; ring).
  split; [| split].
  - apply (pd_eq (fun w => exp (-1 * w 1%nat)) _ _ _ (-1 * exp (-1 * w 1%nat))); [| f_equal; replace (-1 * w 1%nat) with (- w 1%nat) by ring; ring | apply pd_exp_x].
    intros w'. unfold S_tilde_fluxUD. rewrite TD_entries. unfold TDv, ex_T, T4UU_of. cbn [Nat.add g4UU_of ex_X h_alpha h_e6phi h_rho_b h_h h_u4U h_P h_betaU h_gammaDD u4U_of].
    unfold bl. rewrite !s3_eq. unfold flat. cbn [Nat.eqb]. rewrite H0, H1, H2, <- (EP (w' 1%nat)). field. pose proof (exp_pos (w' 1%nat)). lra.
  - unfold S_tilde_connection_termsD. cbn [ex_X h_GammahatUDD]. rewrite !s3_eq. ring.
  - unfold S_tilde_source_termD, first_termD, second_termD, third_termD, covhatdD_gammaDD, ex_T, T4UU_of.
    cbn [Nat.add Nat.eqb g4UU_of ex_X h_alpha h_alpha_dD h_e6phi h_rho_b h_h h_u4U h_P h_betaU h_gammaDD h_betaU_dD h_GammahatUDD h_gammabarDD h_gammabarDD_dD h_phi_dD h_exp_m4phi u4U_of].
    rewrite !s3_eq.
    replace (exp (-2 * w 1%nat)) with (exp (- w 1%nat) * exp (- w 1%nat)) by (rewrite <- exp_plus; f_equal; ring).
    pose proof (exp_pos (w 1%nat)) as P. rewrite exp_Ropp. field. lra.
Qed.
(** in this example T^x_x = P, S_i = 0 and tau = exp (-2 x) (2 - 1) - rho, so that the fluid and the conserved quantities are not trivial *)
Example ex_C75_values : forall w, sym3 (h_gammaDD (ex_X w)) /\ h_alpha (ex_X w) <> 0 /\ compute_T4UU (ex_X w) = Ok (ex_T w) /\
  rho_star (ex_X w) = exp (-2 * w 1%nat) /\ T4UD_of (ex_X w) (ex_T w) 1%nat 1%nat = exp (-2 * w 1%nat) /\ tau_tilde (ex_X w) (ex_T w) = 0.
Proof.
  intros w. pose proof (ex_C75_flow w) as Fl. pose proof (exp_pos (w 1%nat)) as P.
  assert (S : sym3 (h_gammaDD (ex_X w))) by exact (pd_sym3 flat flat_pd). assert (A : h_alpha (ex_X w) <> 0) by (cbn; lra).
  pose proof (f_T _ _ _ _ Fl w) as E. split; [exact S |]. split; [exact A |]. split; [exact E |].
  destruct (C75_conserved (ex_X w) (ex_T w) E S A) as (C1 & _ & _ & C4 & _). destruct (C75_fluid (ex_X w) (ex_T w) E S A) as (F & _).
  assert (U : exp (w 1%nat) * exp (- w 1%nat) = 1) by (rewrite exp_Ropp; field; lra).
  split; [rewrite C1; cbn [ex_X h_alpha h_e6phi h_rho_b h_u4U u4U_of]; rewrite U; ring |]. split.
  - rewrite (F 1%nat 1%nat) by lia. cbn. ring.
  - rewrite C4. cbn [ex_X h_alpha h_e6phi h_rho_b h_u4U u4U_of h_h h_P]. rewrite U. ring.
Qed.
Example ex_C75_volume : e6phi_of 4 = 1 / 8.
Proof.
  destruct (C75_volume 4 flat flat (fun i j => flat i j / 4) ltac:(lra) ltac:(reflexivity) eq_refl) as (P & E).
  rewrite !det3_eq in E. unfold flat in E. cbn [Nat.eqb] in E. assert (Q : e6phi_of 4 * e6phi_of 4 = 1 / 64) by lra. nra.
Qed.

Print Assumptions C75_momentum.
Print Assumptions C75_continuity.
Print Assumptions C75_energy.
Print Assumptions C75_fluid.
Print Assumptions C75_conserved.
Print Assumptions C75_volume.
