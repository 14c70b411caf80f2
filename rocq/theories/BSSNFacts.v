(** Proofs about ADM_to_BSSN and BSSN_to_ADM (model: BSSN.v). *)
From Coq Require Import String List Arith Bool Lia Reals Lra.
From Verif Require Import PyBase Inverter InverterFacts GRMetric GRMetricFacts BSSN.
Import ListNotations.
Local Open Scope R_scope.

Notation det3 := (leibniz R 0 1 Rplus Rmult Ropp 3).
Notation two_sided3 := (two_sided_inverse R 0 1 Rplus Rmult 3).
Notation sym3 := (symmetric R 3).

Lemma reqb_eq : forall x y, reqb x y = true <-> x = y.
Proof. intros. unfold reqb. destruct (Req_EM_T x y); split; intros; congruence. Qed.
Lemma s3_eq : forall f, s3 f = f 0%nat + f 1%nat + f 2%nat.
Proof. exact (acc3 R 0 1 Rplus Rmult Rminus Rdiv Ropp Rinv Rfield). Qed.
Lemma s3_ext : forall f g, (forall i, (i < 3)%nat -> f i = g i) -> s3 f = s3 g.
Proof. intros f g H. rewrite !s3_eq, !H by lia. reflexivity. Qed.
Lemma s3_scale : forall c f, s3 (fun i => c * f i) = c * s3 f.
Proof. intros. rewrite !s3_eq. ring. Qed.
Lemma s3_plus : forall f g, s3 (fun i => f i + g i) = s3 f + s3 g.
Proof. intros. rewrite !s3_eq. ring. Qed.
Lemma s3_swap : forall f, s3 (fun i => s3 (fun j => f i j)) = s3 (fun j => s3 (fun i => f i j)).
Proof. intros. rewrite !s3_eq. ring. Qed.

Lemma inv3_spec : forall a h d, sym3 a -> inv3 a = Ok (h, d) -> d = det3 a /\ d <> 0 /\ two_sided3 a h.
Proof. exact (inv3_ok R 0 1 Rplus Rmult Rminus Rdiv Ropp Rinv reqb Rfield reqb_eq). Qed.
Lemma inv3_total : forall a, sym3 a -> det3 a <> 0 -> exists h, inv3 a = Ok (h, det3 a).
Proof.
  intros a Hs Hn. destruct (inv3_accepts R 0 1 Rplus Rmult Rminus Rdiv Ropp Rinv reqb Rfield reqb_eq a Hs Hn) as [h [d E]].
  change (inv3 a = Ok (h, d)) in E. destruct (inv3_spec a h d Hs E) as [<- _]. eauto.
Qed.
Lemma inv3_singular : forall a, sym3 a -> det3 a = 0 -> inv3 a = Err NonInvertibleMatrixError.
Proof. exact (inv3_rejects R 0 1 Rplus Rmult Rminus Rdiv Ropp Rinv reqb Rfield reqb_eq). Qed.

Lemma two_sided_r : forall a h, two_sided3 a h -> forall i j, (i < 3)%nat -> (j < 3)%nat ->
  s3 (fun k => a i k * h k j) = (if Nat.eqb i j then 1 else 0) /\ s3 (fun k => h i k * a k j) = (if Nat.eqb i j then 1 else 0).
Proof.
  intros a h H i j Hi Hj. destruct (H i j Hi Hj) as [H1 H2].
  rewrite (matmul3 R 0 1 Rplus Rmult Rminus Rdiv Ropp Rinv Rfield) in H1, H2. rewrite !s3_eq. split; assumption.
Qed.
(** inverses are unique *)
Lemma inverse_unique : forall a a' h h', two_sided3 a h -> two_sided3 a' h' -> (forall i j, (i < 3)%nat -> (j < 3)%nat -> a i j = a' i j) ->
  forall i j, (i < 3)%nat -> (j < 3)%nat -> h i j = h' i j.
Proof.
  intros a a' h h' H H' E i j Hi Hj.
  assert (L : s3 (fun l => s3 (fun k => h i k * a k l) * h' l j) = h' i j).
  { rewrite s3_eq. rewrite !(fun k Hk => proj2 (two_sided_r a h H i k Hi Hk)) by lia.
    destruct i as [|[|[|i]]]; [| | |lia]; cbn [Nat.eqb]; ring. }
  assert (Rr : s3 (fun k => h i k * s3 (fun l => a k l * h' l j)) = h i j).
  { rewrite (s3_ext _ (fun k => h i k * (if Nat.eqb k j then 1 else 0))).
    - rewrite s3_eq. destruct j as [|[|[|j]]]; [| | |lia]; cbn [Nat.eqb]; ring.
    - intros k Hk. f_equal. rewrite <- (proj1 (two_sided_r a' h' H' k j Hk Hj)). apply s3_ext. intros l Hl. now rewrite E. }
  rewrite <- L, <- Rr. rewrite !s3_eq. ring.
Qed.

Lemma det3_scale : forall c a, det3 (fun i j => c * a i j) = c * c * c * det3 a.
Proof. intros. unfold leibniz. cbn. ring. Qed.
Lemma det3_ext : forall a a', (forall i j, (i < 3)%nat -> (j < 3)%nat -> a i j = a' i j) -> det3 a = det3 a'.
Proof. intros a a' H. unfold leibniz. cbn. rewrite !H by lia. reflexivity. Qed.
Lemma inverse_scale : forall c a h, c <> 0 -> two_sided3 a h -> two_sided3 (fun i j => c * a i j) (fun i j => h i j / c).
Proof.
  intros c a h Hc H i j Hi Hj. destruct (H i j Hi Hj) as [H1 H2]. rewrite <- H1 at 1. rewrite <- H2.
  rewrite !(matmul3 R 0 1 Rplus Rmult Rminus Rdiv Ropp Rinv Rfield). split; field; exact Hc.
Qed.

(** *** cube roots *)
Lemma Rpower_pos : forall x y, 0 < Rpower x y.
Proof. intros. unfold Rpower. apply exp_pos. Qed.
Lemma cube_root : forall x, 0 < x -> Rpower x (1 / 3) * Rpower x (1 / 3) * Rpower x (1 / 3) = x.
Proof.
  intros x H. rewrite <- !Rpower_plus. replace (1 / 3 + 1 / 3 + 1 / 3) with 1 by lra. apply Rpower_1. exact H.
Qed.
Lemma cube_inj : forall x y, 0 < x -> 0 < y -> x * x * x = y * y * y -> x = y.
Proof.
  intros x y Hx Hy E. destruct (Rtotal_order x y) as [L|[L|L]]; [|exact L|]; exfalso.
  - assert (x * x < y * y) by (apply Rmult_le_0_lt_compat; lra). assert (x * x * x < y * y * y); [|lra].
    apply Rmult_le_0_lt_compat; try lra. apply Rmult_le_pos; lra.
  - assert (y * y < x * x) by (apply Rmult_le_0_lt_compat; lra). assert (y * y * y < x * x * x); [|lra].
    apply Rmult_le_0_lt_compat; try lra. apply Rmult_le_pos; lra.
Qed.

Definition cf_names : list string := ["phi"; "chi"; "W"]%string.
(** e^(4 phi) of the conformal factor that ADM_to_BSSN computes *)
Lemma exp4phi_val : forall nm g gb, In nm cf_names -> 0 < g -> 0 < gb ->
  exists cf p, cf_of nm g gb = Ok cf /\ exp4phi_of nm cf = Ok p /\ 0 < p /\ p * p * p = g / gb /\ (nm <> "phi"%string -> 0 < cf).
Proof.
  intros nm g gb I Hg Hgb. assert (Hq : 0 < g / gb) by (apply Rdiv_lt_0_compat; assumption).
  assert (C : forall x, Rpower x (- (1 / 3)) = / Rpower x (1 / 3)) by (intros; apply Rpower_Ropp).
  assert (C6 : forall x, 0 < x -> Rpower x (- (1 / 6)) * Rpower x (- (1 / 6)) = / Rpower x (1 / 3)).
  { intros x Hx. rewrite <- Rpower_plus, <- Rpower_Ropp. f_equal. lra. }
  pose proof (Rpower_pos (g / gb) (1 / 3)) as P3. pose proof (cube_root (g / gb) Hq) as CR.
  destruct I as [<-|[<-|[<-|[]]]]; unfold cf_of, exp4phi_of; cbn [String.eqb Ascii.eqb Bool.eqb].
  - do 2 eexists. split; [reflexivity|]. split; [reflexivity|]. split; [apply exp_pos|]. split; [|congruence].
    rewrite <- !exp_plus. transitivity (exp (ln (g / gb))); [f_equal; lra|apply exp_ln; exact Hq].
  - do 2 eexists. split; [reflexivity|]. split; [reflexivity|]. rewrite C.
    replace (1 / / Rpower (g / gb) (1 / 3)) with (Rpower (g / gb) (1 / 3)) by (field; lra).
    split; [exact P3|]. split; [exact CR|]. intros _. apply Rinv_0_lt_compat. exact P3.
  - do 2 eexists. split; [reflexivity|]. split; [reflexivity|]. rewrite (C6 _ Hq).
    replace (1 / / Rpower (g / gb) (1 / 3)) with (Rpower (g / gb) (1 / 3)) by (field; lra).
    split; [exact P3|]. split; [exact CR|]. intros _. apply Rpower_pos.
Qed.
(** and back *)
Lemma cf_val : forall nm cf p g gb, In nm cf_names -> exp4phi_of nm cf = Ok p -> (nm <> "phi"%string -> 0 < cf) -> 0 < g -> 0 < gb ->
  p * p * p = g / gb -> 0 < p /\ cf_of nm g gb = Ok cf.
Proof.
  intros nm cf p g gb I E Hc Hg Hgb Hp. assert (Hq : 0 < g / gb) by (apply Rdiv_lt_0_compat; assumption).
  destruct (exp4phi_val nm g gb I Hg Hgb) as (cf' & p' & E1 & E2 & Pp & E3 & Pc).
  assert (P : 0 < p).
  { destruct I as [<-|[<-|[<-|[]]]]; unfold exp4phi_of in E; cbn [String.eqb Ascii.eqb Bool.eqb] in E.
    - replace p with (exp (4 * cf)) by congruence. apply exp_pos.
    - replace p with (1 / cf) by congruence. apply Rdiv_lt_0_compat; [lra|]. apply Hc. discriminate.
    - replace p with (1 / (cf * cf)) by congruence. apply Rdiv_lt_0_compat; [lra|]. apply Rmult_lt_0_compat; apply Hc; discriminate. }
  assert (PP : p = p') by (apply cube_inj; auto; congruence).
  split; [exact P|]. rewrite E1. f_equal.
  destruct I as [<-|[<-|[<-|[]]]]; unfold exp4phi_of in E, E2; cbn [String.eqb Ascii.eqb Bool.eqb] in E, E2.
  - assert (X : exp (4 * cf') = exp (4 * cf)) by congruence. apply exp_inv in X. lra.
  - assert (X : 1 / cf' = 1 / cf) by congruence. specialize (Hc ltac:(discriminate)). specialize (Pc ltac:(discriminate)).
    transitivity (1 / (1 / cf')); [field; lra|]. rewrite X. field. lra.
  - assert (X : 1 / (cf' * cf') = 1 / (cf * cf)) by congruence.
    specialize (Hc ltac:(discriminate)). specialize (Pc ltac:(discriminate)).
    assert (Y : cf' * cf' = cf * cf).
    { transitivity (1 / (1 / (cf' * cf'))); [field; lra|]. rewrite X. field. lra. }
    apply Rsqr_inj; try lra. unfold Rsqr. exact Y.
Qed.
Lemma cf_bad : forall nm, ~ In nm cf_names -> forall g gb cf b p,
  cf_of nm g gb = Err ValueError /\ exp4phi_of nm cf = Err ValueError /\ phi_part nm b = Err ValueError /\ phi_derivs nm b p = Err ValueError.
Proof.
  intros nm H g gb cf b p. unfold cf_of, exp4phi_of, phi_part, phi_derivs.
  assert (E : forall s, In s cf_names -> String.eqb nm s = false).
  { intros s Hs. apply String.eqb_neq. intros ->. contradiction. }
  rewrite !E by (unfold cf_names; cbn; auto). auto.
Qed.
Lemma phi_part_ok : forall nm b, In nm cf_names -> exists ph, phi_part nm b = Ok ph.
Proof. intros nm b [<-|[<-|[<-|[]]]]; eexists; reflexivity. Qed.
Lemma phi_derivs_ok : forall nm b p, In nm cf_names -> exists ph, phi_derivs nm b p = Ok ph.
Proof. intros nm b p [<-|[<-|[<-|[]]]]; eexists; reflexivity. Qed.

(** *** ADM_to_BSSN *)
Lemma to_bssn : forall nm m g K be B, In nm cf_names -> sym3 g -> 0 < det3 g -> 0 < h_det m ->
  exists o p h, ADM_to_BSSN nm m g K be B = Ok o /\ exp4phi_of nm (o_cf o) = Ok p /\ 0 < p /\ p * p * p = det3 g / h_det m /\
    inv3 g = Ok (h, det3 g) /\
    (forall i j, g i j = p * o_gammabarDD o i j) /\
    (forall i j, o_hDD o i j = (o_gammabarDD o i j - h_g m i j) / h_ReDD m i j) /\
    o_trK o = s3 (fun i => s3 (fun j => h i j * K i j)) /\
    (forall i j, K i j = p * o_AbarDD o i j + 1 / 3 * g i j * o_trK o) /\
    (forall i j, o_aDD o i j = o_AbarDD o i j / h_ReDD m i j) /\
    (forall i, o_vetU o i = be i / h_ReU m i) /\ (forall i, o_betU o i = B i / h_ReU m i) /\
    (nm <> "phi"%string -> 0 < o_cf o).
Proof.
  intros nm m g K be B I Hs Hd Hm.
  destruct (inv3_total g Hs ltac:(lra)) as [h Eh]. unfold ADM_to_BSSN. rewrite Eh. cbn [py_bind fst snd].
  set (q := Rpower (h_det m / det3 g) (1 / 3)).
  assert (Hq : 0 < h_det m / det3 g) by (apply Rdiv_lt_0_compat; assumption).
  pose proof (Rpower_pos (h_det m / det3 g) (1 / 3)) as Pq. fold q in Pq.
  pose proof (cube_root _ Hq) as Cq. fold q in Cq.
  assert (Db : det3 (fun i j => q * g i j) = h_det m).
  { rewrite det3_scale, Cq. field. lra. }
  assert (Sb : sym3 (fun i j => q * g i j)) by (intros i j Hi Hj; now rewrite (Hs i j Hi Hj)).
  destruct (inv3_total _ Sb ltac:(rewrite Db; lra)) as [hb Eb]. rewrite Eb, Db. cbn [py_bind fst snd].
  destruct (exp4phi_val nm (det3 g) (h_det m) I Hd Hm) as (cf & p & E1 & E2 & Pp & E3 & Pc).
  rewrite E1. cbn [py_bind]. do 3 eexists. split; [reflexivity|]. cbn [o_gammabarDD o_hDD o_cf o_trK o_AbarDD o_aDD o_vetU o_betU].
  assert (PQ : p * q = 1).
  { assert (X : (p * q) * (p * q) * (p * q) = 1 * 1 * 1).
    { replace ((p * q) * (p * q) * (p * q)) with ((p * p * p) * (q * q * q)) by ring. rewrite E3, Cq. field. lra. }
    apply cube_inj in X; try lra. apply Rmult_lt_0_compat; assumption. }
  split; [exact E2|]. split; [exact Pp|]. split; [exact E3|]. split; [exact eq_refl|].
  split; [intros; transitivity ((p * q) * g i j); [rewrite PQ|]; ring|].
  split; [reflexivity|]. split; [reflexivity|].
  split.
  { intros i j. set (t := s3 _).
    transitivity ((p * q) * (K i j - 1 / 3 * g i j * t) + 1 / 3 * g i j * t); [rewrite PQ; ring|ring]. }
  repeat split; auto.
Qed.

Lemma trace_zero : forall g h gb hb K A p t, p <> 0 ->
  two_sided3 g h -> two_sided3 gb hb -> (forall i j, (i < 3)%nat -> (j < 3)%nat -> g i j = p * gb i j) -> sym3 g ->
  t = s3 (fun i => s3 (fun j => h i j * K i j)) ->
  (forall i j, K i j = p * A i j + 1 / 3 * g i j * t) ->
  s3 (fun i => s3 (fun j => hb i j * A i j)) = 0.
Proof.
  intros g h gb hb K A p t Hp Hh Hb G Hs T HK.
  assert (HU : forall i j, (i < 3)%nat -> (j < 3)%nat -> hb i j = p * h i j).
  { intros i j Hi Hj.
    pose proof (inverse_scale (/ p) g h ltac:(apply Rinv_neq_0_compat; exact Hp) Hh) as HS.
    rewrite (inverse_unique gb _ hb _ Hb HS) by (auto; intros; rewrite G by assumption; field; exact Hp).
    field. exact Hp. }
  assert (TR : s3 (fun i => s3 (fun j => h i j * g i j)) = 3).
  { rewrite (s3_ext _ (fun i => s3 (fun j => h i j * g j i))).
    - rewrite s3_eq. rewrite !(fun i H H' => proj2 (two_sided_r g h Hh i i H H')) by lia. cbn [Nat.eqb]. ring.
    - intros i Hi. apply s3_ext. intros j Hj. now rewrite (Hs i j Hi Hj). }
  transitivity (s3 (fun i => s3 (fun j => h i j * (K i j - 1 / 3 * g i j * t)))).
  - apply s3_ext. intros i Hi. apply s3_ext. intros j Hj. rewrite (HU i j Hi Hj), HK. ring.
  - transitivity (s3 (fun i => s3 (fun j => h i j * K i j)) - 1 / 3 * t * s3 (fun i => s3 (fun j => h i j * g i j))).
    + rewrite !s3_eq. ring.
    + rewrite TR, <- T. lra.
Qed.

(** *** BSSN_to_ADM *)
Definition sym_vars (m : refm) (b : vars) : Prop :=
  sym3 (h_g m) /\ sym3 (h_ReDD m) /\ sym3 (v_h b) /\ sym3 (v_a b).
Lemma gammabar_sym : forall m b, sym_vars m b -> sym3 (gammabarDD m b) /\ sym3 (AbarDD m b).
Proof.
  intros m b (H1 & H2 & H3 & H4). split; intros i j Hi Hj; unfold gammabarDD, AbarDD;
    rewrite ?(H1 i j Hi Hj), ?(H2 i j Hi Hj), ?(H3 i j Hi Hj), ?(H4 i j Hi Hj); reflexivity.
Qed.
Lemma to_adm : forall nm m b p, In nm cf_names -> sym_vars m b -> exp4phi_of nm (v_cf b) = Ok p -> p <> 0 -> det3 (gammabarDD m b) <> 0 ->
  exists a h ph, BSSN_to_ADM nm true m b = Ok a /\ inv3 (a_gammaDD a) = Ok (h, a_detgamma a) /\ phi_derivs nm b p = Ok ph /\
    a_gammaUU a = h /\ a_betaU a = betaU m b /\
    (forall i j, a_gammaDD a i j = p * gammabarDD m b i j) /\
    (forall i j, a_KDD a i j = p * AbarDD m b i j + 1 / 3 * a_gammaDD a i j * v_trK b) /\
    (forall i j k, a_gammaDDdD a i j k = 4 * p * fst ph k * gammabarDD m b i j + p * gammabarDD_dD m b i j k) /\
    (forall i j k l, a_gammaDDdDD a i j k l = (16 * p * fst ph k * fst ph l + 4 * p * snd ph k l) * gammabarDD m b i j
       + 4 * p * fst ph k * gammabarDD_dD m b i j l + 4 * p * fst ph l * gammabarDD_dD m b i j k + p * gammabarDD_dDD m b i j k l) /\
    (forall i j k, a_KDDdD a i j k = 4 * p * fst ph k * AbarDD m b i j + p * AbarDD_dD m b i j k
       + 1 / 3 * (a_gammaDDdD a i j k * v_trK b + a_gammaDD a i j * v_trK_dD b k)) /\
    (forall i j k, a_GammaUDD a i j k =
       s3 (fun l => 1 / 2 * h i l * (a_gammaDDdD a l j k + a_gammaDDdD a l k j - a_gammaDDdD a j k l))).
Proof.
  intros nm m b p I Hs E Hp Hd. destruct (gammabar_sym m b Hs) as [Sg SA].
  destruct (inv3_total _ Sg Hd) as [hb Eb]. unfold BSSN_to_ADM, bssn_quantities. rewrite Eb. cbn [py_bind fst snd negb].
  destruct (phi_part_ok nm b I) as [pp ->]. cbn [py_bind]. rewrite E. cbn [py_bind].
  destruct (phi_derivs_ok nm b p I) as [ph Ep]. rewrite Ep. cbn [py_bind].
  assert (S : sym3 (fun i j => p * gammabarDD m b i j)) by (intros i j Hi Hj; now rewrite (Sg i j Hi Hj)).
  assert (D : det3 (fun i j => p * gammabarDD m b i j) <> 0).
  { rewrite det3_scale. repeat apply Rmult_integral_contrapositive_currified; assumption. }
  destruct (inv3_total _ S D) as [h Eh]. rewrite Eh. cbn [py_bind fst snd].
  exists (MkAdm (betaU m b) (fun i j => p * gammabarDD m b i j)
    (fun i j k => 4 * p * fst ph k * gammabarDD m b i j + p * gammabarDD_dD m b i j k)
    (fun i j k l => (16 * p * fst ph k * fst ph l + 4 * p * snd ph k l) * gammabarDD m b i j
      + 4 * p * fst ph k * gammabarDD_dD m b i j l + 4 * p * fst ph l * gammabarDD_dD m b i j k + p * gammabarDD_dDD m b i j k l)
    h (det3 (fun i j => p * gammabarDD m b i j))
    (fun i j k => s3 (fun l => 1 / 2 * h i l * ((4 * p * fst ph k * gammabarDD m b l j + p * gammabarDD_dD m b l j k)
       + (4 * p * fst ph j * gammabarDD m b l k + p * gammabarDD_dD m b l k j) - (4 * p * fst ph l * gammabarDD m b j k + p * gammabarDD_dD m b j k l))))
    (fun i j => p * AbarDD m b i j + 1 / 3 * (p * gammabarDD m b i j) * v_trK b)
    (fun i j k => 4 * p * fst ph k * AbarDD m b i j + p * AbarDD_dD m b i j k
       + 1 / 3 * ((4 * p * fst ph k * gammabarDD m b i j + p * gammabarDD_dD m b i j k) * v_trK b + p * gammabarDD m b i j * v_trK_dD b k))), h, ph.
  cbn [a_betaU a_gammaDD a_gammaDDdD a_gammaDDdDD a_gammaUU a_detgamma a_GammaUDD a_KDD a_KDDdD].
  split; [reflexivity|]. split; [exact Eh|]. split; [reflexivity|]. repeat split.
Qed.
