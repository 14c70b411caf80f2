(** The precomputed form: substitution, remaining symbols, values of the symbols, the dictionary of reference metrics. *)
From Coq Require Import String Ascii List ZArith Bool Arith Lia Reals Lra.
From Verif Require Import PyBase PyBaseFacts PyList PyListFacts Inverter RefMetric RefMetricReal RefMetricCalc RefMetricFacts RefMetricPre
  RefMetricPreFacts RefMetricPreKinds.
Import ListNotations.
Open Scope list_scope.

(** ** Substitution *)
Lemma eval_subs : forall v s x e, eval v x = ep v s -> eval v (subs s x e) = eval v e.
Proof.
  intros v s x e H. induction e; cbn [subs];
    rewrite ?eval_sadd, ?eval_ssub, ?eval_sopp, ?eval_smul, ?eval_sdiv, ?eval_spow; cbn [eval]; rewrite ?IHe, ?IHe1, ?IHe2; try reflexivity.
  destruct (String.eqb s0 s) eqn:E; [|reflexivity]. apply String.eqb_eq in E. now subst.
Qed.
Lemma eval_subs_all : forall v l e, (forall p, In p l -> eval v (fst (snd p)) = ep v (fst p)) -> eval v (subs_all l e) = eval v e.
Proof.
  intros v l. unfold subs_all. induction l as [|p l IH]; intros e H; [reflexivity|]. cbn [fold_left].
  rewrite IH by (intros q Q; apply H; now right). apply eval_subs. apply H. now left.
Qed.
Lemma in_sadd : forall t a b, In t (symbols (sadd a b)) -> In t (symbols a) \/ In t (symbols b).
Proof. intros t a b. ecases a; ecases b; cbn [sadd symbols app]; intros H; repeat (rewrite ?in_app_iff in *; cbn [symbols In] in *); tauto. Qed.
Lemma in_ssub : forall t a b, In t (symbols (ssub a b)) -> In t (symbols a) \/ In t (symbols b).
Proof. intros t a b. ecases a; ecases b; cbn [ssub symbols app]; intros H; repeat (rewrite ?in_app_iff in *; cbn [symbols In] in *); tauto. Qed.
Lemma in_sopp : forall t a, In t (symbols (sopp a)) -> In t (symbols a).
Proof. intros t a. ecases a; cbn [sopp symbols]; tauto. Qed.
Lemma in_smul : forall t a b, In t (symbols (smul a b)) -> In t (symbols a) \/ In t (symbols b).
Proof.
  intros t a b. destruct (smul_cases a b) as [->|[[-> ->]|[[-> ->]|[[-> ->]|[-> ->]]]]]; cbn [symbols]; rewrite ?in_app_iff; cbn [In]; tauto.
Qed.
Lemma in_sdiv : forall t a b, In t (symbols (sdiv a b)) -> In t (symbols a) \/ In t (symbols b).
Proof. intros t a b. destruct (sdiv_cases a b) as [->|[[-> ->]|[-> ->]]]; cbn [symbols]; rewrite ?in_app_iff; cbn [In]; tauto. Qed.
Lemma in_spow : forall t a n, In t (symbols (spow a n)) -> In t (symbols a).
Proof.
  intros t a [|[|n]]; cbn [spow]; [intros []|auto|].
  destruct a as [[|q|q]| | | | | | | | | | | | | | | | | | | |]; auto. destruct q; auto.
Qed.
Definition no_xx (e : ex) : bool := match e with XX _ => false | _ => true end.
Lemma xx_leaves : forall e, xx_free e = leaves no_xx e.
Proof. intros e. induction e; cbn [xx_free leaves no_xx]; rewrite ?IHe1, ?IHe2; auto. Qed.
Lemma leaves_subs : forall p s x e, leaves p x = true -> leaves p e = true -> leaves p (subs s x e) = true.
Proof.
  intros p s x e X. induction e; cbn [subs leaves]; intros H; auto;
    try (apply andb_true_iff in H as [H1 H2]; specialize (IHe1 H1); specialize (IHe2 H2));
    auto using lv_add, lv_sub, lv_mul, lv_div, lv_opp, lv_pow.
  - destruct (String.eqb s0 s); assumption.
  - now rewrite IHe1, IHe2.
Qed.
Lemma in_subs : forall s x e t, xx_free e = true -> In t (symbols (subs s x e)) -> (In t (symbols e) /\ t <> s) \/ In t (symbols x).
Proof.
  intros s x e t. induction e; cbn [subs xx_free]; intros F H; try discriminate; try (apply andb_true_iff in F as [F1 F2]);
    try (apply in_sadd in H); try (apply in_ssub in H); try (apply in_smul in H); try (apply in_sdiv in H); try (apply in_sopp in H);
    try (apply in_spow in H); cbn [symbols] in *; rewrite ?in_app_iff in *; try tauto.
  destruct (String.eqb s0 s) eqn:E; [tauto|]. cbn [symbols] in H. destruct H as [<-|[]]. left. split; [now left|].
  now apply String.eqb_neq.
Qed.
Lemma in_subs_all : forall l e t, xx_free e = true -> (forall p, In p l -> xx_free (fst (snd p)) = true) -> In t (symbols (subs_all l e)) ->
  (In t (symbols e) /\ forall p, In p l -> fst p <> t) \/ exists p, In p l /\ In t (symbols (fst (snd p))).
Proof.
  unfold subs_all. intros l. induction l as [|p l IH]; intros e t F FL H; cbn [fold_left] in H.
  - left. split; [exact H|]. intros ? [].
  - assert (FP : xx_free (fst (snd p)) = true) by (apply FL; now left).
    destruct (IH (subs (fst p) (fst (snd p)) e) t ltac:(rewrite xx_leaves; apply leaves_subs; rewrite <- xx_leaves; assumption) ltac:(intros q Q; apply FL; now right) H) as [[I J]|(q & Q & I)].
    + destruct (in_subs _ _ _ _ F I) as [[A B]|A].
      * left. split; [exact A|]. intros q [<-|Q]; [congruence|now apply J].
      * right. exists p. split; [now left|exact A].
    + right. exists q. split; [now right|exact I].
Qed.

(** ** Parameters of the systems *)
Definition param_names : list string :=
  ["AMPLXYZ"; "SINHWXYZ"; "AMPL"; "SINHW"; "r_slope"; "bScale"; "AMAX"; "SINHWAA"; "AMPLRHO"; "SINHWRHO"; "AMPLZ"; "SINHWZ"; "rho_slope";
   "z_slope"]%string.
Definition par_leaf (e : ex) : bool := match e with Par s => existsb (String.eqb s) param_names | XX _ => true | _ => false end.
Lemma existsb_name : forall s l, existsb (String.eqb s) l = true -> In s l.
Proof. intros s l H. apply existsb_exists in H as (x & I & E). apply String.eqb_eq in E. now subst. Qed.
Lemma sinhv2_pars : forall n x A w s, leaves par_leaf x = true -> leaves par_leaf A = true -> leaves par_leaf w = true -> leaves par_leaf s = true ->
  leaves par_leaf (sinhv2 n x A w s) = true.
Proof. intros n x A w s H1 H2 H3 H4. unfold sinhv2. cbn [leaves]. now rewrite H1, H2, H3, H4. Qed.
Lemma base_pars : forall k f, used k f = true -> leaves par_leaf (base (coord_of k) f) = true.
Proof.
  intros k f U. destruct k; cbn [used] in U; try discriminate;
    destruct f as [|[|[|[|[|f]]]]]; try discriminate; try reflexivity;
    cbn [coord_of].
  apply (leaves_diff par_leaf par_leaf 2); [auto|auto|]. now apply sinhv2_pars.
Qed.
Lemma D_pars : forall k f n, used k f = true -> leaves par_leaf (D (coord_of k) f n) = true.
Proof.
  intros k f n U. induction n as [|n IH]; [now apply base_pars|]. change (leaves par_leaf (diff (var_of f) (D (coord_of k) f n)) = true).
  apply (leaves_diff par_leaf par_leaf); auto.
Qed.
Lemma pars_symbols : forall e t, leaves par_leaf e = true -> xx_free e = true -> In t (symbols e) -> In t param_names.
Proof.
  intros e t. induction e; cbn [leaves xx_free symbols par_leaf]; intros H F I; try discriminate; try contradiction; try tauto;
    try (apply andb_true_iff in H as [? ?]; apply andb_true_iff in F as [? ?]; apply in_app_or in I; tauto).
  destruct I as [<-|[]]. now apply existsb_name.
Qed.
Lemma pars_eval : forall e v w, leaves par_leaf e = true -> (forall s, In s param_names -> ep v s = ep w s) -> (forall k, exx v k = exx w k) ->
  eval v e = eval w e.
Proof.
  intros e v w H P X. induction e; cbn [leaves par_leaf] in H; cbn [eval]; try discriminate; auto;
    try (apply andb_true_iff in H as [? ?]); try (now rewrite ?IHe, ?IHe1, ?IHe2 by assumption).
  apply P. now apply existsb_name.
Qed.
Lemma eval_symbols : forall e v w, (forall s, In s (symbols e) -> ep v s = ep w s) -> (forall k, exx v k = exx w k) -> (forall k, ec v k = ec w k) ->
  (forall f n, efn v f n = efn w f n) -> eval v e = eval w e.
Proof.
  intros e v w H X C F. induction e; cbn [symbols] in H; cbn [eval]; auto;
    try (rewrite IHe1, IHe2 by (intros; apply H; apply in_or_app; tauto)); try (rewrite IHe by exact H); try reflexivity.
  apply H. now left.
Qed.
Lemma repl_eval : forall P DD e v w, leaves (fn_only P) e = true ->
  (forall f n, P f n = true -> In (fname f n) (symbols (make_replacements e)) -> ep w (fname f n) = eval v (DD f n)) ->
  eval w (make_replacements e) = eval v (inst DD e).
Proof.
  intros P DD e v w. induction e; cbn [leaves make_replacements symbols inst eval fn_only]; intros H Q; try discriminate; auto;
    try (apply andb_true_iff in H as [? ?]; rewrite IHe1, IHe2; auto; intros; apply Q; auto; apply in_or_app; auto);
    try (now rewrite IHe).
  apply Q; [exact H|now left].
Qed.
Lemma repl_xx_free : forall P e, leaves (fn_only P) e = true -> xx_free (make_replacements e) = true.
Proof.
  intros P e. induction e; cbn [leaves make_replacements xx_free fn_only]; intros H; try discriminate; auto;
    apply andb_true_iff in H as [? ?]; now rewrite IHe1, IHe2.
Qed.
Lemma params_unregistered : forall s, In s param_names -> ~ In s registered_symbols.
Proof.
  intros s H J. cbn in H. repeat (destruct H as [<-|H]; [cbn in J; repeat (destruct J as [J|J]; [discriminate|]); contradiction|]). contradiction.
Qed.

(** ** The precomputed metric *)
Section Pre.
Variables (cs : string) (r0 r : rfm) (vars : list string) (p : prefm) (k : kind).
Hypotheses (EC : r_coord r = coord_of k) (S1 : r_scale r = scale_ff (coord_of k)) (S0 : r_scale r0 = scale (coord_of k))
  (G1 : inverse3s (ghatDD (r_scale r)) = Ok (ghatUU r, detgammahat r))
  (G0 : inverse3s (ghatDD (r_scale r0)) = Ok (ghatUU r0, detgammahat r0))
  (HV : forall s, In s vars <-> In s (freevars r)) (HP : precomputed vars r = Ok p).
Lemma free_named : forall s, In s (freevars r) -> exists f n, allow k 2 f n = true /\ s = fname f n.
Proof using S1 G1.
  intros s I. apply (proj1 (freevars_spec r s)) in I. destruct I as (q & _ & I). revert I. apply repl_symbols. now apply hat_only.
Qed.
Lemma pre_vals : freevar_vals (coord_of k) vars = Ok (p_vals p) /\ p_hat p = (fun q => subs_all (p_vals p) (make_replacements (hat r q))).
Proof using HP EC.
  unfold precomputed in HP. rewrite EC in HP. apply bind_ok in HP as (l & L & H). apply ok_inj in H. subst p. split; [exact L|reflexivity].
Qed.
Lemma vals_named : forall s i e, In (s, (i, e)) (p_vals p) -> exists f n, allow k 2 f n = true /\ s = fname f n /\ e = D (coord_of k) f n /\
  i = if xx_free e then e else Par s.
Proof using S1 G1 HP EC HV.
  intros s i e I. destruct pre_vals as [L _]. destruct (vals_spec _ _ _ L) as [M V]. destruct (V s i e I) as [A B].
  assert (J : In s (freevars r)). { apply HV. rewrite <- M. apply in_map_iff. exists (s, (i, e)). auto. }
  destruct (free_named s J) as (f & n & AL & ->). rewrite (name_value _ f n (allow_range k f n AL)) in A. apply ok_inj in A.
  exists f, n. auto.
Qed.
Lemma vals_total : forall f n, allow k 2 f n = true -> In (fname f n) (freevars r) ->
  exists i, In (fname f n, (i, D (coord_of k) f n)) (p_vals p).
Proof using HP EC HV.
  intros f n AL I. destruct pre_vals as [L _]. destruct (vals_spec _ _ _ L) as [M V]. apply HV in I. rewrite <- M in I.
  apply in_map_iff in I as ((s & i & e) & E & I). cbn [fst] in E. subst s. destruct (V _ _ _ I) as [A _].
  rewrite (name_value _ f n (allow_range k f n AL)) in A. apply ok_inj in A. subst e. now exists i.
Qed.
Lemma vals_functional : forall s i e i' e', In (s, (i, e)) (p_vals p) -> In (s, (i', e')) (p_vals p) -> e = e' /\ i = i'.
Proof using HP EC.
  intros s i e i' e' I J. destruct pre_vals as [L _]. destruct (vals_spec _ _ _ L) as [_ V].
  destruct (V _ _ _ I) as [A B], (V _ _ _ J) as [A' B']. rewrite A in A'. apply ok_inj in A'. subst e'. now subst.
Qed.
Lemma used_of : forall f n, allow k 2 f n = true -> used k f = true.
Proof. intros f n A. unfold allow in A. now apply andb_true_iff in A. Qed.
Lemma vals_indep_free : forall q, In q (p_vals p) -> xx_free (fst (snd q)) = true.
Proof using S1 G1 HP EC HV.
  intros (s & i & e) I. destruct (vals_named s i e I) as (f & n & _ & _ & _ & ->). cbn [fst snd]. destruct (xx_free e) eqn:E; auto.
Qed.
Lemma hat_symbols : forall q t, In q all_quants -> In t (symbols (p_hat p q)) ->
  (exists i e, In (t, (i, e)) (p_vals p) /\ xx_free e = false) \/ In t param_names.
Proof using S1 G1 HP EC HV.
  intros q t Q I. destruct pre_vals as [_ H]. rewrite H in I. cbv beta in I. pose proof (hat_only k r S1 G1 q) as O.
  destruct (in_subs_all _ _ _ (repl_xx_free _ _ O) vals_indep_free I) as [[J N]|((s & i & e) & J & T)].
  - exfalso. destruct (repl_symbols _ _ _ O J) as (f & n & AL & ->).
    destruct (vals_total f n AL) as (i & K); [apply freevars_spec; exists q; auto|]. now apply (N _ K).
  - destruct (vals_named s i e J) as (f & n & AL & -> & -> & ->). cbn [fst snd] in T. destruct (xx_free (D (coord_of k) f n)) eqn:F.
    + right. apply (pars_symbols (D (coord_of k) f n)); auto. apply D_pars. exact (used_of f n AL).
    + left. destruct T as [<-|[]]. now exists (Par (fname f n)), (D (coord_of k) f n).
Qed.
(** the symbols with their values put in *)
Definition full (v : env) (p' : string -> R) (s : string) : R :=
  match find (fun q => String.eqb (fst q) s && xx_free (snd (snd q))) (p_vals p) with Some q => eval v (snd (snd q)) | None => p' s end.
Lemma full_free : forall v p' s i e, In (s, (i, e)) (p_vals p) -> xx_free e = true -> full v p' s = eval v e.
Proof using HP EC.
  intros v p' s i e I F. unfold full. destruct (find _ _) as [[s' [i' e']]|] eqn:Q.
  - apply find_some in Q as [J T]. cbn [fst snd] in T. apply andb_true_iff in T as [T _]. apply String.eqb_eq in T. subst s'.
    destruct (vals_functional _ _ _ _ _ I J) as [-> _]. reflexivity.
  - exfalso. pose proof (find_none _ _ Q _ I) as N. cbn [fst snd] in N. rewrite String.eqb_refl, F in N. discriminate.
Qed.
Lemma full_other : forall v p' s, (forall i e, In (s, (i, e)) (p_vals p) -> xx_free e = false) -> full v p' s = p' s.
Proof.
  intros v p' s H. unfold full. destruct (find _ _) as [[s' [i' e']]|] eqn:Q; [|reflexivity].
  apply find_some in Q as [J T]. cbn [fst snd] in T. apply andb_true_iff in T as [T F]. apply String.eqb_eq in T. subst s'.
  rewrite (H _ _ J) in F. discriminate.
Qed.
Lemma values : forall v p' q, (forall s, In s param_names -> p' s = ep v s) ->
  (forall s i e, In (s, (i, e)) (p_vals p) -> xx_free e = false -> p' s = eval v e) -> In q all_quants ->
  eval (MkEnv p' (exx v) (ec v) (efn v)) (p_hat p q) = eval v (hat r0 q).
Proof using EC S1 S0 G1 G0 HV HP.
  intros v p' q A B Q. pose proof (hat_only k r S1 G1 q) as O. destruct pre_vals as [_ H].
  assert (UN : forall s i e, In (s, (i, e)) (p_vals p) -> ~ In s param_names).
  { intros s i e I J. destruct (vals_named s i e I) as (f & n & AL & -> & _). apply (params_unregistered _ J).
    apply name_registered. exact (allow_range k f n AL). }
  set (w := MkEnv (full v p') (exx v) (ec v) (efn v)).
  transitivity (eval w (p_hat p q)).
  { apply eval_symbols; auto. intros t I. cbn [ep w]. symmetry. apply full_other. intros i e J.
    destruct (hat_symbols q t Q I) as [(i' & e' & K & F)|K]; [|exfalso; exact (UN _ _ _ J K)].
    destruct (vals_functional _ _ _ _ _ J K) as [-> _]. exact F. }
  rewrite H. cbv beta. rewrite eval_subs_all.
  - rewrite (repl_eval _ (D (coord_of k)) (hat r q) v w O).
    + apply sim_eval. apply (hat_rel k r0 r S1 S0 G1 G0 q (all_range q Q)).
    + intros f n AL I. destruct (vals_total f n AL) as (i & K); [apply freevars_spec; exists q; auto|]. cbn [ep w].
      destruct (xx_free (D (coord_of k) f n)) eqn:F; [now apply (full_free _ _ _ i)|].
      rewrite full_other; [now apply (B _ i)|]. intros i' e' J. destruct (vals_functional _ _ _ _ _ J K) as [-> _]. exact F.
  - intros (s & i & e) I. destruct (vals_named s i e I) as (f & n & AL & E1 & E2 & E3). cbn [fst snd ep w].
    destruct (xx_free e) eqn:F.
    + rewrite (full_free v p' s i e I F), E3, E2. apply pars_eval; [apply D_pars; exact (used_of f n AL)| |reflexivity].
      intros t T. cbn [ep w]. rewrite full_other; [now apply A|]. intros i' e' J. exfalso. exact (UN _ _ _ J T).
    + rewrite E3. reflexivity.
Qed.
End Pre.

(** ** Regularity of the values *)
Section Wd.
Variables (mn mx ct : nat -> ex) (a r z : ex) (v : env).
Lemma sph_wd : forall f, match f with 0 | 1 => true | _ => false end = true -> wd v (scale (spherical_of mn mx ct r) 1%nat) ->
  wd v (base (spherical_of mn mx ct r) f).
Proof. intros f U W. destruct f as [|[|f]]; try discriminate; [exact W|exact I]. Qed.
Lemma cyl_wd : forall f, match f with 0 | 3 => true | _ => false end = true -> wd v (scale (cylindrical_of mn mx ct r z) 1%nat) ->
  wd v (scale (cylindrical_of mn mx ct r z) 2%nat) -> wd v (base (cylindrical_of mn mx ct r z) f).
Proof. intros f U W W'. destruct f as [|[|[|[|f]]]]; try discriminate; [exact W|exact W']. Qed.
Lemma prol_wd : forall f, match f with 0 | 1 | 2 | 4 => true | _ => false end = true -> wd v (scale (prolate_of z a) 0%nat) ->
  wd v (scale (prolate_of z a) 2%nat) -> wd v (base (prolate_of z a) f).
Proof.
  intros f U W W'. destruct f as [|[|[|[|[|f]]]]]; try discriminate.
  - exact (proj1 W').
  - exact I.
  - exact (proj1 (proj2 W)).
  - cbn. tauto.
Qed.
End Wd.
Lemma base_wd : forall k f v, used k f = true -> regular (coord_of k) v -> wd v (base (coord_of k) f).
Proof.
  intros k f v U R. pose proof (reg_wds _ _ R 0%nat ltac:(lia)) as W0. pose proof (reg_wds _ _ R 1%nat ltac:(lia)) as W1.
  pose proof (reg_wds _ _ R 2%nat ltac:(lia)) as W2. clear R.
  destruct k; cbn [used] in U; try discriminate; cbn [coord_of] in *; try (now apply sph_wd); try (now apply prol_wd); try (now apply cyl_wd).
  - destruct f as [|[|[|[|f]]]]; try discriminate; [exact W0|exact W1|exact W2].
  - destruct f as [|[|f]]; try discriminate; [exact W1|exact I].
  - destruct f as [|[|f]]; try discriminate; [exact W1|exact I].
Qed.
Lemma D_wd : forall k f n v, used k f = true -> regular (coord_of k) v -> wd v (D (coord_of k) f n).
Proof.
  intros k f n v U R. induction n as [|n IH]; [now apply base_wd|]. change (wd v (diff (var_of f) (D (coord_of k) f n))). now apply wd_diff.
Qed.
Lemma xx_depends : forall k f n, used k f = true -> xx_free (D (coord_of k) f n) = false -> free_of (var_of f) (D (coord_of k) f n) = false.
Proof.
  intros k f n U F. destruct (free_of (var_of f) (D (coord_of k) f n)) eqn:E; [|reflexivity]. exfalso.
  assert (A : forall j, free_of j (D (coord_of k) f n) = true).
  { intros j. destruct (Nat.eq_dec j (var_of f)) as [->|N]; [exact E|now apply D_is_free]. }
  pose proof (D_pars k f n U) as P. revert A F P. clear. generalize (D (coord_of k) f n). intros e. 
  induction e; cbn [free_of xx_free leaves par_leaf]; intros A F P; try discriminate; auto;
    try (apply andb_true_iff in P as [P1 P2]; apply andb_false_iff in F as [F|F];
      [apply IHe1|apply IHe2]; auto; intros j; specialize (A j); apply andb_true_iff in A; tauto).
  specialize (A k0). now rewrite Nat.eqb_refl in A.
Qed.

(** ** Names and the dictionary *)
Open Scope string_scope.
Fixpoint lastc (s : string) : ascii := match s with EmptyString => zero | String c EmptyString => c | String _ r => lastc r end.
Lemma lastc_app : forall a c t, lastc (a ++ String c t) = lastc (String c t).
Proof. induction a as [|x a IH]; intros c t; [reflexivity|]. cbn [append]. specialize (IH c t). destruct a; cbn [append lastc] in *; auto. Qed.
Lemma lastc_cons : forall c s, s <> "" -> lastc (String c s) = lastc s.
Proof. intros c s N. destruct s; [contradiction|reflexivity]. Qed.
Lemma sub_all : forall s, substring 0 (String.length s) s = s.
Proof. induction s as [|c s IH]; [reflexivity|]. cbn. now rewrite IH. Qed.
Lemma sub_last : forall n m s, (n + m = String.length s)%nat -> (0 < m)%nat -> lastc (substring n m s) = lastc s.
Proof.
  induction n as [|n IH]; intros m s E P; [cbn in E; subst m; now rewrite sub_all|].
  destruct s as [|c s]; [cbn in E; lia|]. cbn in E. cbn [substring]. rewrite IH by lia. symmetry. apply lastc_cons. intros ->. cbn in E. lia.
Qed.
Lemma ends_last : forall t s, t <> "" -> ends_with t s = true -> lastc s = lastc t.
Proof.
  intros t s N H. apply andb_true_iff in H as [L E]. apply Nat.leb_le in L. apply String.eqb_eq in E. rewrite E at 1.
  symmetry. apply sub_last; [lia|]. destruct t; [contradiction|cbn; lia].
Qed.
Lemma after_last : forall s u, after_v2n s = Some u -> u <> "" -> lastc s = lastc u.
Proof.
  induction s as [|c s IH]; intros u H N; [discriminate|].
  change (after_v2n (String c s)) with (if prefix "v2n" (String c s) then Some (substring 3 (String.length (String c s) - 3) (String c s)) else after_v2n s) in H.
  destruct (prefix "v2n" (String c s)) eqn:P.
  - assert (U : u = substring 3 (String.length (String c s) - 3) (String c s)) by congruence. rewrite U in *. clear H U. symmetry. apply sub_last.
    + apply prefix_spec in P as [t ->]. cbn. lia.
    + destruct (String.length (String c s) - 3)%nat eqn:E; [|lia]. exfalso. apply N.
      apply prefix_spec in P as [t T]. rewrite T in *. destruct t; [reflexivity|cbn in E; lia].
  - rewrite <- (IH u H N). apply lastc_cons. intros ->. discriminate.
Qed.
Lemma digits_last : forall s acc n, s <> "" -> digits_from s acc = Some n -> is_digit (lastc s) = true.
Proof.
  induction s as [|c s IH]; intros acc n N H; [contradiction|]. cbn [digits_from] in H. destruct (is_digit c) eqn:E; [|discriminate].
  destruct s as [|c' s]; [exact E|]. rewrite lastc_cons by discriminate. eapply IH; [discriminate|exact H].
Qed.
Lemma power_last : forall s n, sinhv2_power s = Ok n -> is_digit (lastc s) = true.
Proof.
  intros s n H. unfold sinhv2_power in H. destruct (after_v2n s) as [u|] eqn:A; [|discriminate].
  destruct (prefix "Sinh" s); [|discriminate]. destruct (isdigit_int u) as [d|] eqn:I; [|discriminate].
  assert (N : u <> "") by (intros ->; discriminate). rewrite (after_last s u A N).
  unfold isdigit_int in I. destruct u as [|c u]; [contradiction|]. exact (digits_last _ _ _ N I).
Qed.
Lemma named_no_suffix : forall c k, ~ named (c ++ suffix) k.
Proof.
  intros c k N. assert (L : lastc (c ++ suffix) = "e"%char) by (unfold suffix; apply (lastc_app c)).
  destruct k; cbn [named] in N; try (rewrite N in L; discriminate L).
  - destruct N as (_ & E & _). apply ends_last in E; [|discriminate]. rewrite L in E. discriminate.
  - destruct N as (_ & _ & _ & E). apply power_last in E. rewrite L in E. discriminate.
  - destruct N as (_ & _ & _ & _ & _ & E). apply power_last in E. rewrite L in E. discriminate.
Qed.
Lemma prefix_suffix : forall x s, x <> "" -> prefix suffix (x ++ s) = true -> prefix suffix s = true -> prefix suffix x = true.
Proof.
  intros x s N H S. apply prefix_spec in S as [t ->]. unfold suffix in *.
  do 15 (destruct x as [|? x]; [exfalso; first [contradiction | (cbn in H; repeat match type of H with (if ?b then _ else _) = true =>
      destruct b; try discriminate end; congruence)]|
    cbn [append prefix] in H |- *; match type of H with (if ?b then _ else _) = true => destruct b; [|discriminate H] end]).
  now destruct x.
Qed.
Lemma not_in_tail : forall c a1 a2, py_in suffix c = false -> c = a1 ++ a2 -> prefix suffix a2 = false.
Proof.
  intros c a1 a2 H ->. destruct (prefix suffix a2) eqn:E; [|reflexivity]. apply prefix_spec in E as [t ->].
  assert (X : py_in suffix (a1 ++ suffix ++ t) = true) by (apply py_in_spec; eauto). congruence.
Qed.
Lemma split_suffix : forall c s, py_in suffix c = false -> py_split suffix (c ++ suffix ++ s) = c :: py_split suffix s.
Proof.
  intros c s H. unfold py_split. rewrite split_aux_at; [reflexivity|discriminate|].
  intros a1 a2 E N. destruct (prefix suffix (a2 ++ suffix ++ s)) eqn:P; [|reflexivity].
  rewrite <- (not_in_tail c a1 a2 H E). symmetry. apply (prefix_suffix a2 (suffix ++ s)); auto. apply prefix_app.
Qed.
Lemma replace_none : forall c, py_in suffix c = false -> py_replace suffix "" c = c.
Proof. intros c H. unfold py_replace, py_split. now rewrite split_aux_none. Qed.
Lemma replace_suffix : forall c, py_in suffix c = false -> py_replace suffix "" (c ++ suffix) = c.
Proof.
  intros c H. unfold py_replace. pose proof (split_suffix c "" H) as E. rewrite sapp_nil_r in E. rewrite E.
  change (c ++ "" ++ "" = c). apply sapp_nil_r.
Qed.
Lemma replace_twice : forall c, py_in suffix c = false -> py_replace suffix "" (c ++ suffix ++ suffix) = c.
Proof.
  intros c H. unfold py_replace. rewrite (split_suffix c suffix H). change (c ++ "" ++ "" ++ "" ++ "" = c). apply sapp_nil_r.
Qed.
Section Lookups.
Notation look := (getitem rfm reference_metric).
Definition lookups (d : dict rfm) (ls : list string) : dict rfm := fold_left (fun d c => fst (look d c)) ls d.
Definition inv (d : dict rfm) : Prop := forall x r, dget x d = Some r ->
  reference_metric x false = Ok r \/ exists c, x = c ++ suffix /\ reference_metric c true = Ok r.
Lemma look_inv : forall d c, inv d -> inv (fst (look d c)).
Proof.
  intros d c I. unfold getitem. destruct (dmem c d); [exact I|]. set (c0 := py_replace suffix "" c).
  destruct (reference_metric c0 false) as [r|e] eqn:A; [|exact I].
  assert (I1 : inv (dset c0 r d)).
  { intros x y H. destruct (string_dec x c0) as [->|N].
    - rewrite dget_dset_same in H. injection H as <-. now left.
    - rewrite dget_dset_other in H by exact N. now apply I. }
  destruct (reference_metric c0 true) as [r2|e] eqn:B; cbn [fst]; [|exact I1].
  intros x y H. destruct (string_dec x (c0 ++ suffix)) as [->|N].
  - rewrite dget_dset_same in H. injection H as <-. right. now exists c0.
  - rewrite dget_dset_other in H by exact N. now apply I1.
Qed.
Lemma lookups_inv : forall ls d, inv d -> inv (lookups d ls).
Proof. unfold lookups. induction ls as [|c ls IH]; intros d I; [exact I|]. cbn [fold_left]. apply IH. now apply look_inv. Qed.
Lemma no_suffix_ok : forall c b r, reference_metric (c ++ suffix) b <> Ok r.
Proof. intros c b r H. destruct (rm_kinds _ _ _ H) as (k & _ & N & _). exact (named_no_suffix c k N). Qed.
Lemma app_inj_r : forall a b s, a ++ s = b ++ s -> a = b.
Proof.
  intros a b s. revert b. induction a as [|x a IH]; intros b H.
  - destruct b as [|y b]; [reflexivity|]. apply (f_equal String.length) in H. cbn in H. rewrite slength_app in H. lia.
  - destruct b as [|y b].
    + apply (f_equal String.length) in H. cbn in H. rewrite slength_app in H. lia.
    + cbn in H. injection H as -> H. f_equal. now apply IH.
Qed.
Lemma suffix_neq : forall c, c <> c ++ suffix.
Proof. intros c H. apply (f_equal String.length) in H. rewrite slength_app in H. cbn in H. lia. Qed.
Lemma table : forall ls c r0 r1, py_in suffix c = false -> reference_metric c false = Ok r0 -> reference_metric c true = Ok r1 ->
  snd (look (lookups [] ls) c) = Ok r0 /\ snd (look (lookups [] ls) (c ++ suffix)) = Ok r1.
Proof.
  intros ls c r0 r1 N A B. assert (I : inv (lookups [] ls)) by (apply lookups_inv; intros x r H; discriminate H).
  generalize dependent (lookups [] ls). intros d I. unfold getitem. split.
  - destruct (dmem c d) eqn:M; cbn [snd].
    + apply dmem_true in M as (r & M). rewrite M. destruct (I c r M) as [H|(c' & -> & H)]; [congruence|].
      exfalso. assert (X : py_in suffix (c' ++ suffix) = true) by (apply py_in_spec; exists c', ""; now rewrite sapp_nil_r). congruence.
    + rewrite (replace_none c N), A, B. cbn [snd]. rewrite dget_dset_other by apply suffix_neq. now rewrite dget_dset_same.
  - destruct (dmem (c ++ suffix) d) eqn:M; cbn [snd].
    + apply dmem_true in M as (r & M). rewrite M. destruct (I _ r M) as [H|(c' & E & H)]; [exfalso; exact (no_suffix_ok _ _ _ H)|].
      apply app_inj_r in E. subst c'. congruence.
    + rewrite (replace_suffix c N), A, B. cbn [snd]. now rewrite dget_dset_same.
Qed.
End Lookups.
