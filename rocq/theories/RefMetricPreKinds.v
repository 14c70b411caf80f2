(** The precomputed form for each coordinate system: which symbols occur, what they stand for, and the values. *)
From Coq Require Import String Ascii List ZArith Bool Arith Lia Reals Lra Permutation.
From Verif Require Import PyBase PyBaseFacts PyList PyListFacts Inverter RefMetric RefMetricReal RefMetricCalc RefMetricFacts RefMetricPre
  RefMetricPreFacts.
Import ListNotations.
Open Scope list_scope.

(** ** Predicates on the leaves of an expression *)
Fixpoint leaves (p : ex -> bool) (e : ex) : bool :=
  match e with
  | Num _ => true
  | Par _ | XX _ | Cart _ | Fn _ _ => p e
  | Add a b | Sub a b | Mul a b | Div a b | Atan2 a b => leaves p a && leaves p b
  | Opp a | Pow a _ | Sqrt a | Exp a | Sin a | Cos a | Sinh a | Cosh a | Asinh a | Acos a | Sign a => leaves p a
  end.
Lemma lv_add : forall p a b, leaves p a = true -> leaves p b = true -> leaves p (sadd a b) = true.
Proof. intros p a b A B. ecases a; ecases b; cbn in *; try reflexivity; try assumption; try (rewrite ?A, ?B; reflexivity). Qed.
Lemma lv_sub : forall p a b, leaves p a = true -> leaves p b = true -> leaves p (ssub a b) = true.
Proof. intros p a b A B. ecases a; ecases b; cbn in *; try reflexivity; try assumption; try (rewrite ?A, ?B; reflexivity). Qed.
Lemma lv_opp : forall p a, leaves p a = true -> leaves p (sopp a) = true.
Proof. intros p a A. ecases a; exact A. Qed.
Lemma lv_mul : forall p a b, leaves p a = true -> leaves p b = true -> leaves p (smul a b) = true.
Proof. intros p a b A B. destruct (smul_cases a b) as [->|[[-> ->]|[[-> ->]|[[-> ->]|[-> ->]]]]]; cbn; auto. now rewrite A, B. Qed.
Lemma lv_div : forall p a b, leaves p a = true -> leaves p b = true -> leaves p (sdiv a b) = true.
Proof. intros p a b A B. destruct (sdiv_cases a b) as [->|[[-> ->]|[-> ->]]]; cbn; auto. now rewrite A, B. Qed.
Lemma lv_pow : forall p a n, leaves p a = true -> leaves p (spow a n) = true.
Proof.
  intros p a [|[|n]] A; cbn [spow]; auto.
  destruct a as [[|q|q]| | | | | | | | | | | | | | | | | | | |]; auto. destruct q; auto.
Qed.
Lemma leaves_mono : forall p p' e, (forall x, p x = true -> p' x = true) -> leaves p e = true -> leaves p' e = true.
Proof.
  intros p p' e M. induction e; cbn [leaves]; intros H; auto;
    try (apply andb_true_iff in H as [H1 H2]; rewrite IHe1, IHe2 by assumption; reflexivity).
Qed.
Lemma leaves_diff : forall p p' k e, (forall x, p x = true -> p' x = true) -> (forall f n, p (Fn f n) = true -> p' (Fn f (S n)) = true) ->
  leaves p e = true -> leaves p' (diff k e) = true.
Proof.
  intros p p' k e M N H. pose proof (leaves_mono p p' e M H) as H'. revert H H'.
  induction e; cbn [leaves diff]; intros H H'; try reflexivity;
    try (apply andb_true_iff in H as [H1 H2]; apply andb_true_iff in H' as [H1' H2']; specialize (IHe1 H1 H1'); specialize (IHe2 H2 H2'));
    try (specialize (IHe H H'));
    try (now repeat first [assumption | reflexivity | apply lv_add | apply lv_sub | apply lv_div | apply lv_opp | apply lv_mul | apply lv_pow
      | (cbn [leaves]; rewrite ?H', ?H1', ?H2'; reflexivity)]).
  - destruct (Nat.eqb k0 k); reflexivity.
  - destruct (Nat.eqb (var_of f) k); [|reflexivity]. cbn [leaves]. now apply N.
Qed.

(** ** The generic functions of each system *)
Definition used (k : kind) (f : nat) : bool :=
  match k with
  | KCart => false
  | KSinhCart => match f with 0 | 1 | 3 => true | _ => false end
  | KUWedge | KLWedge | KSph | KSinhSph | KHoley | KRing | KSphV2 _ => match f with 0 | 1 => true | _ => false end
  | KSymTP | KSinhSymTP => match f with 0 | 1 | 2 | 4 => true | _ => false end
  | KCyl | KSinhCyl | KCylV2 _ => match f with 0 | 3 => true | _ => false end
  end.
Definition ord0 (f : nat) : nat := match f with 0 => 1 | _ => 0 end.
Definition allow (k : kind) (d : nat) (f n : nat) : bool := used k f && Nat.leb n (ord0 f + d).
Definition fn_only (P : nat -> nat -> bool) (e : ex) : bool := match e with Fn f n => P f n | _ => false end.
Definition D (m : coord) (f n : nat) : ex := Nat.iter n (diff (var_of f)) (base m f).

Lemma ff_only : forall k i, leaves (fn_only (allow k 0)) (scale_ff (coord_of k) i) = true.
Proof. intros k i. destruct k; destruct i as [|[|i]]; reflexivity. Qed.
Section Families.
Variables (mn mx ct : nat -> ex) (a r z : ex).
Lemma sph_inst : forall i, inst (D (spherical_of mn mx ct r)) (scale_ff (spherical_of mn mx ct r) i) = scale (spherical_of mn mx ct r) i.
Proof. intros i. destruct i as [|[|i]]; reflexivity. Qed.
Lemma prol_inst : forall i, inst (D (prolate_of z a)) (scale_ff (prolate_of z a) i) = scale (prolate_of z a) i.
Proof. intros i. destruct i as [|[|i]]; reflexivity. Qed.
Lemma cyl_inst : forall i, inst (D (cylindrical_of mn mx ct r z)) (scale_ff (cylindrical_of mn mx ct r z) i) = scale (cylindrical_of mn mx ct r z) i.
Proof. intros i. destruct i as [|[|i]]; reflexivity. Qed.
Ltac sym f j := destruct f as [|[|[|[|[|f]]]]]; cbn [var_of]; intros N; try reflexivity; destruct j as [|[|[|j]]]; try contradiction; try reflexivity.
Lemma sph_free : forall f j, (forall j, j <> 0%nat -> free_of j r = true) -> j <> var_of f -> free_of j (base (spherical_of mn mx ct r) f) = true.
Proof. intros f j F. destruct f as [|f]; [exact (F j)|]. sym f j. Qed.
Lemma cyl_free : forall f j, (forall j, j <> 0%nat -> free_of j r = true) -> (forall j, j <> 2%nat -> free_of j z = true) -> j <> var_of f ->
  free_of j (base (cylindrical_of mn mx ct r z) f) = true.
Proof.
  intros f j F G. destruct f as [|[|[|[|f]]]]; cbn [var_of]; intros N; [exact (F j N)|reflexivity|reflexivity| |].
  - apply (free_diff j 2 z). exact (G j N).
  - destruct f as [|f]; reflexivity.
Qed.
Lemma prol_free : forall f j, (forall j, j <> 0%nat -> free_of j a = true) -> j <> var_of f -> free_of j (base (prolate_of z a) f) = true.
Proof.
  intros f j F. destruct f as [|[|[|[|[|f]]]]]; cbn [var_of]; intros N; try reflexivity.
  - exact (F j N).
  - destruct j as [|[|[|j]]]; try contradiction; reflexivity.
  - change (free_of j a && true = true). now rewrite (F j N).
  - destruct j as [|[|[|j]]]; try contradiction; reflexivity.
Qed.
End Families.
Lemma wedge_inst : forall cs i, cs = "UWedgeHSinhSph"%string \/ cs = "LWedgeHSinhSph"%string ->
  inst (D (spherical_wedge_like cs)) (scale_ff (spherical_wedge_like cs) i) = scale (spherical_wedge_like cs) i.
Proof. intros cs i [->| ->]; destruct i as [|[|i]]; reflexivity. Qed.
Lemma scale_inst : forall k i, (i < 3)%nat -> inst (D (coord_of k)) (scale_ff (coord_of k) i) = scale (coord_of k) i.
Proof.
  intros k i L. destruct k; cbn [coord_of]; try apply sph_inst; try apply prol_inst; try apply cyl_inst; try (apply wedge_inst; tauto);
    destruct i as [|[|[|i]]]; try reflexivity; exfalso; clear - L; lia.
Qed.
Ltac free1 := let j := fresh "j" in let N := fresh "N" in intros j N; destruct j as [|[|[|j]]]; try contradiction; reflexivity.
Lemma base_free : forall k f j, j <> var_of f -> free_of j (base (coord_of k) f) = true.
Proof.
  intros k f j N. destruct k; cbn [coord_of]; try (apply sph_free; [free1|exact N]); try (apply prol_free; [free1|exact N]);
    try (apply cyl_free; [free1|free1|exact N]).
  - reflexivity.
  - destruct f as [|[|[|[|[|f]]]]]; cbn [var_of] in N; try reflexivity; destruct j as [|[|[|j]]]; try contradiction; reflexivity.
  - destruct f as [|[|[|[|[|f]]]]]; cbn [var_of] in N; try reflexivity; destruct j as [|[|[|j]]]; try contradiction; reflexivity.
  - destruct f as [|[|[|[|[|f]]]]]; cbn [var_of] in N; try reflexivity; destruct j as [|[|[|j]]]; try contradiction; reflexivity.
Qed.
Lemma D_next : forall m f n, sim (diff (var_of f) (D m f n)) (D m f (S n)).
Proof. intros. apply s_refl. Qed.
Lemma D_is_free : forall k f n j, j <> var_of f -> free_of j (D (coord_of k) f n) = true.
Proof. intros k f n j N. induction n as [|n IH]; [now apply base_free|]. cbn. now apply free_diff. Qed.
Lemma D_free : forall k f n j, j <> var_of f -> sim (diff j (D (coord_of k) f n)) (Num 0).
Proof. intros. apply free_sim. now apply D_is_free. Qed.

(** ** Hatted quantities of the two variants *)
Lemma inv3s_def : forall a g d, inverse3s a = Ok (g, d) ->
  d = symm3_det ex (Num 1) sadd smul ssub sopp a /\ g = symm3_inv ex (Num 0) sadd smul ssub sdiv sopp a d.
Proof.
  intros a g d. unfold inverse3s, symm_matrix_inverter3x3. generalize (symm3_det ex (Num 1) sadd smul ssub sopp a). intros e. cbn zeta.
  destruct (ex_eqb _ _); [discriminate|]. intros Q. apply ok_inj in Q. apply pair_equal_spec in Q as [<- <-]. auto.
Qed.
Lemma rm_both : forall cs r0 r, reference_metric cs false = Ok r0 -> reference_metric cs true = Ok r ->
  exists k, r_coord r = coord_of k /\ r_coord r0 = coord_of k /\ named cs k /\ kind_even k /\
    r_scale r = scale_ff (coord_of k) /\ r_scale r0 = scale (coord_of k) /\
    inverse3s (ghatDD (r_scale r)) = Ok (ghatUU r, detgammahat r) /\ inverse3s (ghatDD (r_scale r0)) = Ok (ghatUU r0, detgammahat r0).
Proof.
  intros cs r0 r H0 H. destruct (rm_kinds cs false r0 H0) as (k0 & E0 & N0 & V0 & _ & _ & _ & _ & S0 & G0).
  destruct (rm_kinds cs true r H) as (k & E & N & V & _ & _ & _ & _ & S & G).
  assert (C : r_coord r = r_coord r0).
  { unfold reference_metric in H, H0.
    apply bind_ok in H as (m & EM & H). apply bind_ok in H as (a & _ & H). apply bind_ok in H as (b & _ & H).
    apply bind_ok in H as (c & _ & H). apply ok_inj in H.
    apply bind_ok in H0 as (m0 & EM0 & H0). apply bind_ok in H0 as (a0 & _ & H0). apply bind_ok in H0 as (b0 & _ & H0).
    apply bind_ok in H0 as (c0 & _ & H0). apply ok_inj in H0. rewrite EM in EM0. apply ok_inj in EM0.
    rewrite <- H, <- H0. cbn [r_coord]. exact EM0. }
  exists k. rewrite <- C, E in S0. rewrite E in S. rewrite C in E. rewrite C. repeat split; assumption.
Qed.

Definition in_range (q : quant) : Prop :=
  match q with
  | QDet | QDetD _ | QDetDD _ _ => True
  | QReU i | QReD i | QReUdD i _ | QReUdDD i _ _ | QReDdD i _ | QReDdDD i _ _ => (i < 3)%nat
  | QReDD i j | QReDDdD i j _ | QReDDdDD i j _ _ | QgDD i j | QgUU i j | QgDDdD i j _ | QgDDdDD i j _ _ => (i < 3)%nat /\ (j < 3)%nat
  | QGamma i j k | QGammadD i j k _ => (i < 3)%nat /\ (j < 3)%nat /\ (k < 3)%nat
  end.
Lemma all_range : forall q, In q all_quants -> in_range q.
Proof.
  intros q I. assert (F : Forall in_range all_quants).
  { repeat (apply Forall_cons; [cbn; lia|]). apply Forall_nil. }
  rewrite Forall_forall in F. now apply F.
Qed.
Section Hat.
Variables (k : kind) (r0 r : rfm).
Hypotheses (S1 : r_scale r = scale_ff (coord_of k)) (S0 : r_scale r0 = scale (coord_of k))
  (G1 : inverse3s (ghatDD (r_scale r)) = Ok (ghatUU r, detgammahat r))
  (G0 : inverse3s (ghatDD (r_scale r0)) = Ok (ghatUU r0, detgammahat r0)).
Notation rl := (rel (D (coord_of k))).
Lemma rl_scale : forall i, (i < 3)%nat -> rl (r_scale r i) (r_scale r0 i).
Proof using S1 S0. intros i L. unfold rel. rewrite S1, S0, scale_inst by exact L. apply s_refl. Qed.
Lemma rl_num : forall z, rl (Num z) (Num z). Proof. intros. apply s_refl. Qed.
Lemma rl_diff : forall j e e', rl e e' -> rl (diff j e) (diff j e').
Proof. apply r_diff; [apply D_next|apply D_free]. Qed.
Lemma rl_ghat : forall i j, (i < 3)%nat -> rl (ghatDD (r_scale r) i j) (ghatDD (r_scale r0) i j).
Proof using S1 S0. intros i j L. unfold ghatDD. destruct (Nat.eqb i j); [now apply r_pow, rl_scale|apply rl_num]. Qed.
Ltac go := repeat first [(apply rl_ghat; lia) | apply rl_num | apply r_add | apply r_sub | apply r_mul | apply r_div | apply r_opp | apply r_pow].
Lemma rl_det : rl (detgammahat r) (detgammahat r0).
Proof using S1 S0 G1 G0.
  destruct (inv3s_def _ _ _ G1) as [-> _]. destruct (inv3s_def _ _ _ G0) as [-> _]. unfold symm3_det. go.
Qed.
Lemma rl_uu : forall i j, rl (ghatUU r i j) (ghatUU r0 i j).
Proof using S1 S0 G1 G0.
  intros i j. destruct (inv3s_def _ _ _ G1) as [_ ->]. destruct (inv3s_def _ _ _ G0) as [_ ->].
  unfold symm3_inv.
  destruct i as [|[|[|i]]], j as [|[|[|j]]]; repeat first [apply rl_det | progress go].
Qed.
Lemma hat_rel : forall q, in_range q -> rl (hat r q) (hat r0 q).
Proof using S1 S0 G1 G0.
  intros q L. destruct q; cbn [hat]; cbn [in_range] in L;
    unfold GammahatUDDdD, GammahatUDD, ghatDDdDD, ghatDDdD, ReDDdDD, ReDDdD, ReDdDD, ReDdD, ReUdDD, ReUdD, detgammahatdDD, detgammahatdD,
      ReU, ReD, ReDD; cbn [fold_left];
    repeat first [apply rl_diff | apply rl_det | apply rl_uu | (apply rl_scale; lia) | progress go | (unfold frac, rel; cbn [inst]; apply s_refl)].
Qed.
(** occurring symbols *)
Notation lv d := (leaves (fn_only (allow k d))).
Lemma fn_mono : forall d x, fn_only (allow k d) x = true -> fn_only (allow k (S d)) x = true.
Proof.
  intros d x. destruct x; cbn [fn_only]; auto. unfold allow. intros H. apply andb_true_iff in H as [-> H]. cbn [andb]. apply Nat.leb_le in H. apply Nat.leb_le. lia.
Qed.
Lemma lv_S : forall d e, lv d e = true -> lv (S d) e = true.
Proof. intros d e. apply leaves_mono, fn_mono. Qed.
Lemma lv_d : forall d j e, lv d e = true -> lv (S d) (diff j e) = true.
Proof.
  intros d j e. apply leaves_diff; [apply fn_mono|].
  intros f n. cbn [fn_only]. unfold allow. intros H. apply andb_true_iff in H as [-> H]. cbn [andb]. apply Nat.leb_le in H. apply Nat.leb_le. lia.
Qed.
Lemma lv_scale : forall i, lv 0%nat (r_scale r i) = true.
Proof using S1. intros i. rewrite S1. apply ff_only. Qed.
Lemma lv_ghat : forall i j, lv 0%nat (ghatDD (r_scale r) i j) = true.
Proof using S1. intros i j. unfold ghatDD. destruct (Nat.eqb i j); [apply lv_pow, lv_scale|reflexivity]. Qed.
Ltac gl := repeat first [apply lv_ghat | apply lv_add | apply lv_sub | apply lv_mul | apply lv_div | apply lv_opp | apply lv_pow | reflexivity].
Lemma lv_det : lv 0%nat (detgammahat r) = true.
Proof using S1 G1. destruct (inv3s_def _ _ _ G1) as [-> _]. unfold symm3_det. gl. Qed.
Lemma lv_uu : forall i j, lv 0%nat (ghatUU r i j) = true.
Proof using S1 G1.
  intros i j. destruct (inv3s_def _ _ _ G1) as [_ ->]. unfold symm3_inv.
  destruct i as [|[|[|i]]], j as [|[|[|j]]]; repeat first [apply lv_det | progress gl].
Qed.
Lemma lv_gamma : forall i j l, lv 1%nat (GammahatUDD r i j l) = true.
Proof using S1 G1.
  intros i j l. unfold GammahatUDD, ghatDDdD. cbn [fold_left].
  repeat first [apply lv_add | apply lv_sub | apply lv_mul | (apply lv_d, lv_ghat) | (apply lv_S, lv_uu) | reflexivity].
Qed.
Lemma hat_only : forall q, lv 2%nat (hat r q) = true.
Proof using S1 G1.
  intros q. destruct q; cbn [hat];
    unfold GammahatUDDdD, ghatDDdDD, ghatDDdD, ReDDdDD, ReDDdD, ReDdDD, ReDdD, ReUdDD, ReUdD, detgammahatdDD, detgammahatdD;
    first [apply lv_S, lv_gamma | apply lv_d, lv_gamma | apply lv_d, lv_d | apply lv_S, lv_d | apply lv_S, lv_S];
    try apply lv_det; try apply lv_uu; try apply lv_ghat; unfold ReU, ReD, ReDD;
    repeat first [apply lv_scale | apply lv_mul | apply lv_div | reflexivity].
Qed.
End Hat.

(** ** Names *)
Lemma allow_range : forall k f n, allow k 2 f n = true -> (f < 5)%nat /\ (n <= ord0 f + 2)%nat.
Proof.
  intros k f n H. unfold allow in H. apply andb_true_iff in H as [U H]. apply Nat.leb_le in H. split; [|exact H].
  destruct k; cbn in U; destruct f as [|[|[|[|[|f]]]]]; try lia; discriminate.
Qed.
Ltac enum f n H := destruct H as [?H1 ?H2]; destruct f as [|[|[|[|[|f]]]]]; [| | | | |exfalso; lia]; cbn [ord0] in *;
  destruct n as [|[|[|[|n]]]]; try (exfalso; lia).
Lemma name_registered : forall f n, (f < 5)%nat /\ (n <= ord0 f + 2)%nat -> In (fname f n) registered_symbols.
Proof. intros f n H. enum f n H; cbn; tauto. Qed.
Lemma name_value : forall m f n, (f < 5)%nat /\ (n <= ord0 f + 2)%nat -> freevar_val m (fname f n) = Ok (D m f n).
Proof. intros m f n H. enum f n H; reflexivity. Qed.
Lemma repl_symbols : forall P e s, leaves (fn_only P) e = true -> In s (symbols (make_replacements e)) ->
  exists f n, P f n = true /\ s = fname f n.
Proof.
  intros P e s. induction e; cbn [leaves make_replacements symbols fn_only]; intros H I; try discriminate; try contradiction;
    try (apply andb_true_iff in H as [H1 H2]; apply in_app_or in I as [I|I]); auto.
  destruct I as [<-|[]]. exists f, n. auto.
Qed.
Lemma freevars_spec : forall r s, In s (freevars r) <-> exists q, In q all_quants /\ In s (symbols (make_replacements (hat r q))).
Proof.
  intros r s. unfold freevars. destruct (superfast_uniq_spec String.eqb String.eqb_eq
    (flat_map (fun q => symbols (make_replacements (hat r q))) all_quants)) as (_ & M & _). rewrite M. apply in_flat_map.
Qed.
Lemma vals_ok : forall m vars, (forall s, In s vars -> exists e, freevar_val m s = Ok e) -> exists l, freevar_vals m vars = Ok l.
Proof.
  intros m vars H. induction vars as [|s vars IH]; [now exists []|].
  destruct (H s (or_introl eq_refl)) as (e & E). destruct IH as (l & L); [intros t I; apply H; now right|].
  exists ((s, (if xx_free e then e else Par s, e)) :: l). cbn [freevar_vals]. rewrite E. cbn [py_bind]. rewrite L. reflexivity.
Qed.
Lemma vals_spec : forall m vars l, freevar_vals m vars = Ok l ->
  map fst l = vars /\ forall s i e, In (s, (i, e)) l -> freevar_val m s = Ok e /\ i = if xx_free e then e else Par s.
Proof.
  intros m vars. induction vars as [|s vars IH]; intros l H; cbn [freevar_vals] in H.
  - apply ok_inj in H. subst l. split; [reflexivity|intros ? ? ? []].
  - apply bind_ok in H as (e & E & H). apply bind_ok in H as (l' & L & H). apply ok_inj in H. subst l.
    destruct (IH l' L) as [M V]. split; [cbn; now rewrite M|].
    intros t i e' [Q|I]; [|now apply V]. apply pair_equal_spec in Q as [<- Q]. apply pair_equal_spec in Q as [<- <-]. auto.
Qed.
