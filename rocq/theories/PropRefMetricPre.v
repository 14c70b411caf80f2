(** C59: the precomputed form of the reference metric (enable_rfm_precompute=True) against the direct one, and the dictionary of
    reference metrics.  [p_vals p] lists, for every free symbol of the hatted quantities, (symbol, (what replaces it, its value));
    [p_hat p q] is the quantity q after the replacement.  [vars] is any listing of the free symbols: SymPy's sets have no order. *)
From Coq Require Import String List ZArith Bool Arith Lia Reals Lra Permutation.
From Verif Require Import PyBase PyBaseFacts PyList Inverter RefMetric RefMetricReal RefMetricCalc RefMetricFacts RefMetricAccept RefMetricPre
  RefMetricPreFacts RefMetricPreKinds RefMetricPreVals RfmPrecompute RfmPrecomputeFacts PropRfmPrecompute.
Import ListNotations.
Open Scope R_scope.
Open Scope list_scope.

Definition listing (vars : list string) (r : rfm) : Prop := forall s, In s vars <-> In s (freevars r).

(** ** Acceptance *)
(** The precomputed form exists for exactly the systems the direct one exists for, and no listing of the symbols makes it fail. *)
Theorem C59_accepts : forall cs,
  ((exists p, precomputed_metric cs = Ok p) <-> (exists r, reference_metric cs false = Ok r)) /\
  (forall r vars, reference_metric cs true = Ok r -> listing vars r -> exists p, precomputed vars r = Ok p).
Proof.
  intros cs.
  assert (X : forall r vars, reference_metric cs true = Ok r -> listing vars r -> exists p, precomputed vars r = Ok p).
  { intros r vars H L. destruct (rm_kinds cs true r H) as (k & E & _ & _ & _ & _ & _ & _ & S & G). rewrite E in S.
    destruct (vals_ok (r_coord r) vars) as (l & V).
    - intros s I. apply L in I. destruct (free_named r k S G s I) as (f & n & AL & ->).
      exists (D (r_coord r) f n). apply name_value. exact (allow_range k f n AL).
    - unfold precomputed. rewrite V. cbn [py_bind]. eauto. }
  split; [|exact X]. split.
  - intros (p & H). unfold precomputed_metric in H. apply bind_ok in H as (r & H & _).
    apply (proj2 (accepts cs false)). apply (proj1 (accepts cs true)). now exists r.
  - intros H. apply (proj1 (accepts cs false)) in H. apply (proj2 (accepts cs true)) in H as (r & H).
    destruct (X r (freevars r) H (fun s => iff_refl _)) as (p & P). exists p. unfold precomputed_metric. rewrite H. exact P.
Qed.
Example C59_ex_accepts : (exists p, precomputed_metric "SinhSphericalv2n4" = Ok p) /\ ~ exists p, precomputed_metric "SinhSphericalv2n3" = Ok p.
Proof.
  split.
  - apply (proj1 (C59_accepts _)). apply accepts. exists (KSphV2 4). repeat split; reflexivity.
  - intros H. apply (proj1 (C59_accepts _)) in H as (r & H). discriminate H.
Qed.

(** ** Values *)
(** Wherever each array holds the value of its symbol and all other parameters are as before, every hatted quantity has the value it
    has in the direct form. *)
Theorem C59_values : forall cs r0 r vars p v p', reference_metric cs false = Ok r0 -> reference_metric cs true = Ok r -> listing vars r ->
  precomputed vars r = Ok p ->
  (forall s, ~ In s registered_symbols -> p' s = ep v s) ->
  (forall s i e, In (s, (i, e)) (p_vals p) -> xx_free e = false -> p' s = eval v e) ->
  forall q, In q all_quants -> eval (MkEnv p' (exx v) (ec v) (efn v)) (p_hat p q) = eval v (hat r0 q).
Proof.
  intros cs r0 r vars p v p' H0 H L HP A B q Q. destruct (rm_both cs r0 r H0 H) as (k & E & _ & _ & _ & S1 & S0 & G1 & G0).
  apply (values r0 r vars p k E S1 S0 G1 G0 L HP); auto. intros s I. apply A. now apply params_unregistered.
Qed.
(** What is left in the precomputed quantities: numbers, parameters of the system, and symbols of arrays that depend on a coordinate. *)
Theorem C59_symbols : forall cs r vars p q, reference_metric cs true = Ok r -> listing vars r -> precomputed vars r = Ok p -> In q all_quants ->
  leaves (fun e => match e with Par _ => true | _ => false end) (p_hat p q) = true /\
  forall s, In s (symbols (p_hat p q)) -> (exists i e, In (s, (i, e)) (p_vals p) /\ xx_free e = false) \/ In s param_names.
Proof.
  intros cs r vars p q H L HP Q. destruct (rm_kinds cs true r H) as (k & E & _ & _ & _ & _ & _ & _ & S1 & G1). rewrite E in S1.
  split; [|intros s; now apply (hat_symbols r vars p k E S1 G1 L HP)].
  destruct (pre_vals r vars p k E HP) as [_ HH]. rewrite HH. cbv beta.
  assert (V : forall x, In x (p_vals p) -> leaves (fun e => match e with Par _ => true | _ => false end) (fst (snd x)) = true).
  { intros (s & i & e) I. destruct (vals_named r vars p k E S1 G1 L HP s i e I) as (f & n & AL & -> & -> & ->). cbn [fst snd].
    destruct (xx_free (D (coord_of k) f n)) eqn:F; [|reflexivity]. rewrite xx_leaves in F.
    pose proof (D_pars k f n (used_of k f n AL)) as P. revert F P. generalize (D (coord_of k) f n). intros e.
    induction e; cbn [leaves no_xx par_leaf]; intros F P; try discriminate; auto;
      apply andb_true_iff in F as [? ?]; apply andb_true_iff in P as [? ?]; now rewrite IHe1, IHe2. }
  pose proof (hat_only k r S1 G1 q) as O. revert V.
  assert (M : leaves (fun e => match e with Par _ => true | _ => false end) (make_replacements (hat r q)) = true).
  { revert O. generalize (hat r q). intros e. induction e; cbn [leaves make_replacements fn_only]; intros O; try discriminate; auto;
      apply andb_true_iff in O as [? ?]; now rewrite IHe1, IHe2. }
  revert M. generalize (make_replacements (hat r q)). unfold subs_all. generalize (p_vals p) as l. clear.
  induction l as [|x l IH]; intros e M V; [exact M|]. cbn [fold_left]. apply IH.
  - apply leaves_subs; [apply V; now left|exact M].
  - intros y Y. apply V. now right.
Qed.
(** Every free symbol is one of the symbols registered as CodeParameters. *)
Theorem C59_registered : forall cs r, reference_metric cs true = Ok r -> incl (freevars r) registered_symbols.
Proof.
  intros cs r H s I. destruct (rm_kinds cs true r H) as (k & E & _ & _ & _ & _ & _ & _ & S & G). rewrite E in S.
  destruct (free_named r k S G s I) as (f & n & AL & ->). apply name_registered. exact (allow_range k f n AL).
Qed.
(** Each value depends on the one coordinate in its name; the value of a symbol with n+1 derivatives is the real derivative, in that
    coordinate, of the value of the symbol with n; a symbol is kept exactly when its value contains a coordinate. *)
Theorem C59_derivatives : forall cs r vars p s i e, reference_metric cs true = Ok r -> listing vars r -> precomputed vars r = Ok p ->
  In (s, (i, e)) (p_vals p) ->
  exists f n d, s = fname f n /\ (d < 3)%nat /\ py_in ("_of_xx" ++ nth d ["0"; "1"; "2"] "")%string s = true /\
    i = (if xx_free e then e else Par s) /\
    (forall j t v, j <> d -> eval (upd j t v) e = eval v e) /\
    match n with
    | O => e = base (r_coord r) f
    | S m => exists e', freevar_val (r_coord r) (fname f m) = Ok e' /\
        forall v, good (ep v) -> RefMetricFacts.inside (r_coord r) v -> derivable_pt_lim (fun t => eval (upd d t v) e') (exx v d) (eval v e)
    end.
Proof.
  intros cs r vars p s i e H L HP I. destruct (rm_kinds cs true r H) as (k & E & _ & EV & _ & _ & _ & _ & S1 & G1). rewrite E in S1.
  destruct (vals_named r vars p k E S1 G1 L HP s i e I) as (f & n & AL & -> & -> & HI).
  pose proof (allow_range k f n AL) as RG. exists f, n, (var_of f). split; [reflexivity|]. split; [|split; [|split; [|split]]].
  - destruct RG as [R1 _]. destruct f as [|[|[|[|[|f]]]]]; cbn; lia.
  - revert RG. clear. intros [R1 R2]. destruct f as [|[|[|[|[|f]]]]]; try lia; cbn [ord0] in R2;
      destruct n as [|[|[|[|n]]]]; try lia; reflexivity.
  - exact HI.
  - intros j t v N. apply eval_free. now apply D_is_free.
  - destruct n as [|m]; [now rewrite E|]. exists (D (coord_of k) f m). split.
    + rewrite E. apply name_value. destruct RG. split; [assumption|lia].
    + intros v G IN. rewrite E in IN. change (D (coord_of k) f (S m)) with (diff (var_of f) (D (coord_of k) f m)). apply diff_correct.
      apply D_wd; [exact (used_of k f (S m) AL)|now apply kind_regular].
Qed.

Definition spherical_vals : list (string * (ex * ex)) :=
  [("f0_of_xx0__D0", (Num 1, Num 1)); ("f0_of_xx0", (Par "f0_of_xx0", X0)); ("f1_of_xx1", (Par "f1_of_xx1", Sin X1));
   ("f0_of_xx0__DD00", (Num 0, Num 0)); ("f0_of_xx0__DDD000", (Num 0, Num 0)); ("f1_of_xx1__D1", (Par "f1_of_xx1__D1", Cos X1));
   ("f1_of_xx1__DD11", (Par "f1_of_xx1__DD11", Opp (Sin X1)))]%string.
Lemma spherical_computed :
  match precomputed_metric "Spherical" with
  | Ok p => (p_vals p, p_hat p (QReU 2)) = (spherical_vals, Div (Num 1) (Mul (Par "f0_of_xx0") (Par "f1_of_xx1")))
  | Err _ => False
  end.
Proof. vm_compute. reflexivity. Qed.
Lemma spherical_pre : exists r0 r p, reference_metric "Spherical" false = Ok r0 /\ reference_metric "Spherical" true = Ok r /\
  precomputed (freevars r) r = Ok p /\ p_vals p = spherical_vals /\
  p_hat p (QReU 2) = Div (Num 1) (Mul (Par "f0_of_xx0") (Par "f1_of_xx1")).
Proof.
  pose proof spherical_computed as S. destruct (precomputed_metric "Spherical") as [p|e] eqn:P; [|contradiction].
  apply pair_equal_spec in S as [S1 S2]. unfold precomputed_metric in P. apply bind_ok in P as (r & H & HP).
  destruct (proj2 (accepts "Spherical" false)) as (r0 & H0); [exists KSph; reflexivity|].
  exists r0, r, p. auto.
Qed.
(** Spherical coordinates: 1/(f0 f1) at r = 2, theta = 1 is 1/(r sin theta), when the arrays hold r and sin theta. *)
Example C59_ex_values : exists r0 p v, reference_metric "Spherical" false = Ok r0 /\
  p_hat p (QReU 2) = Div (Num 1) (Mul (Par "f0_of_xx0") (Par "f1_of_xx1")) /\ exx v 0%nat = 2 /\ exx v 1%nat = 1 /\
  eval (MkEnv (fun s => if String.eqb s "f0_of_xx0" then 2 else if String.eqb s "f1_of_xx1" then sin 1 else if String.eqb s "f1_of_xx1__D1"
                        then cos 1 else if String.eqb s "f1_of_xx1__DD11" then - sin 1 else 0) (exx v) (ec v) (efn v)) (p_hat p (QReU 2))
  = eval v (hat r0 (QReU 2)).
Proof.
  destruct spherical_pre as (r0 & r & p & H0 & H & HP & HV & HH).
  exists r0, p, (MkEnv (fun _ => 0) (fun k => if Nat.eqb k 0 then 2 else 1) (fun _ => 0) (fun _ _ => 0)).
  split; [exact H0|]. split; [exact HH|]. split; [reflexivity|]. split; [reflexivity|].
  apply (C59_values "Spherical" r0 r (freevars r) p
    (MkEnv (fun _ => 0) (fun k => if Nat.eqb k 0 then 2 else 1) (fun _ => 0) (fun _ _ => 0)) _ H0 H (fun s => iff_refl _) HP).
  - intros s N. cbn [ep]. repeat match goal with |- context [String.eqb s ?t] => destruct (String.eqb_spec s t) as [->|]; [exfalso; apply N; cbn; tauto|] end.
    reflexivity.
  - intros s i e I F. rewrite HV in I. cbn [In] in I.
    repeat (destruct I as [I|I]; [apply pair_equal_spec in I as [<- I]; apply pair_equal_spec in I as [<- <-]; try discriminate F; reflexivity|]).
    destruct I.
  - change (QReU 2) with (nth 295 all_quants QDet). apply nth_In. apply Nat.ltb_lt. reflexivity.
Qed.
Example C59_ex_symbols : exists r p, reference_metric "Spherical" true = Ok r /\ precomputed (freevars r) r = Ok p /\
  symbols (p_hat p (QReU 2)) = ["f0_of_xx0"; "f1_of_xx1"]%string /\ In "f0_of_xx0__DD00"%string (freevars r).
Proof.
  destruct spherical_pre as (r0 & r & p & H0 & H & HP & HV & HH). exists r, p. rewrite HH. repeat split; auto.
  destruct (vals_spec (r_coord r) (freevars r) (p_vals p)) as [M _].
  - unfold precomputed in HP. apply bind_ok in HP as (l & A & B). apply ok_inj in B. subst p. exact A.
  - rewrite <- M, HV. cbn. tauto.
Qed.
(** f1__D1 = cos(xx1) is the derivative of f1 = sin(xx1). *)
Example C59_ex_derivatives : exists r p e', reference_metric "Spherical" true = Ok r /\ precomputed (freevars r) r = Ok p /\
  In ("f1_of_xx1__D1", (Par "f1_of_xx1__D1", Cos X1))%string (p_vals p) /\ fname 1 1 = "f1_of_xx1__D1"%string /\
  freevar_val (r_coord r) (fname 1 0) = Ok e' /\ e' = Sin X1.
Proof.
  destruct spherical_pre as (r0 & r & p & H0 & H & HP & HV & HH). exists r, p, (Sin X1). repeat split; auto.
  - rewrite HV. cbn. tauto.
  - destruct (rm_kinds _ _ _ H) as (k & E & N & _). rewrite E. assert (k = KSph) as ->; [|reflexivity].
    destruct k; cbn [named] in N; try discriminate N; try reflexivity; repeat match goal with X : _ /\ _ |- _ => destruct X end; discriminate.
Qed.

(** ** With the arrays of rfm_precompute (C57) *)
(** [str]: SymPy's str; [key]: the sort key.  No RuntimeError: the arrays are the symbols whose value contains a coordinate, and each is
    allocated along that one coordinate. *)
Definition items (str : ex -> string) (key : string * (ex * ex) -> string) (l : list (string * (ex * ex))) : list (item ex) :=
  map (fun q => MkItem ex (str (fst (snd q))) (snd (snd q)) (key q)) l.
Definition depends (e : ex) (k : nat) : bool := negb (free_of k e).
Theorem C59_arrays : forall cs r vars p str key, reference_metric cs true = Ok r -> listing vars r -> precomputed vars r = Ok p ->
  (forall s, str (Par s) = s) ->
  (forall s i e, In (s, (i, e)) (p_vals p) -> xx_free e = true -> py_in "_of_xx" (str e) = false) ->
  exists o, precompute ex depends (items str key (p_vals p)) = Ok o /\
    Permutation (o_members ex o) (map fst (filter (fun q => negb (xx_free (snd (snd q)))) (p_vals p))) /\
    forall s dims, In (s, dims) (o_malloc ex o) ->
      exists d, (d < 3)%nat /\ dims = [d] /\ py_in ("_of_xx" ++ nth d ["0"; "1"; "2"] "")%string s = true.
Proof.
  intros cs r vars p str key H L HP ST SF. destruct (rm_kinds cs true r H) as (k & E & _ & _ & _ & _ & _ & _ & S1 & G1). rewrite E in S1.
  pose proof (vals_named r vars p k E S1 G1 L HP) as VN.
  assert (RG : forall f n, allow k 2 f n = true -> py_in "_of_xx" (fname f n) = true /\ (var_of f < 3)%nat /\
    py_in ("_of_xx" ++ nth (var_of f) ["0"; "1"; "2"] "")%string (fname f n) = true).
  { intros f n AL. destruct (allow_range k f n AL) as [R1 R2].
    destruct f as [|[|[|[|[|f]]]]]; try (exfalso; lia); cbn [ord0] in R2; destruct n as [|[|[|[|n]]]]; try (exfalso; lia);
      (split; [reflexivity|split; [cbn; lia|reflexivity]]). }
  assert (DP : forall f n, allow k 2 f n = true -> xx_free (D (coord_of k) f n) = false ->
    forall j, depends (D (coord_of k) f n) j = true <-> j = var_of f).
  { intros f n AL F j. unfold depends. rewrite negb_true_iff. split.
    - intros Q. destruct (Nat.eq_dec j (var_of f)) as [->|N]; [reflexivity|]. rewrite (D_is_free k f n j N) in Q. discriminate.
    - intros ->. apply xx_depends; [exact (used_of k f n AL)|exact F]. }
  assert (IT : forall it, In it (items str key (p_vals p)) -> is_array ex it -> exists f n, allow k 2 f n = true /\ it_name ex it = fname f n /\
    it_expr ex it = D (coord_of k) f n /\ xx_free (D (coord_of k) f n) = false).
  { intros it I A. apply in_map_iff in I as ((s & i & e) & <- & I). cbn [fst snd it_name it_expr] in *.
    destruct (VN s i e I) as (f & n & AL & -> & -> & ->). exists f, n. apply (proj2 (is_array_of_xx ex _)) in A.
    unfold of_xx in A. cbn [it_name fst snd] in A.
    destruct (xx_free (D (coord_of k) f n)) eqn:F; [rewrite (SF _ _ _ I F) in A; discriminate|]. auto. }
  assert (OK : exists o, precompute ex depends (items str key (p_vals p)) = Ok o).
  { apply (proj1 (C57_outcome ex depends _)). intros it I A. destruct (IT it I A) as (f & n & AL & _ & -> & F). left.
    exists (var_of f). split; [apply (RG f n AL)|]. intros j _. now apply DP. }
  destruct OK as (o & OK). exists o. split; [exact OK|]. destruct (C57_same_arrays ex depends _ o OK) as (_ & _ & PM & ML). split.
  - eapply Permutation_trans; [exact PM|]. apply Permutation_refl'.
    clear OK PM ML IT. unfold items.
    assert (X : forall l, incl l (p_vals p) -> map (it_name ex) (filter (of_xx ex) (map (fun q => MkItem ex (str (fst (snd q))) (snd (snd q)) (key q)) l))
      = map fst (filter (fun q => negb (xx_free (snd (snd q)))) l)).
    { induction l as [|[s [i e]] l IH]; intros IN; [reflexivity|]. cbn [map filter fst snd].
      pose proof (IN _ (or_introl eq_refl)) as I. specialize (IH (fun y Y => IN y (or_intror Y))).
      destruct (VN s i e I) as (f & n & AL & Es & Ee & Ei). unfold of_xx at 1. cbn [it_name fst snd].
      destruct (xx_free e) eqn:F; cbn [negb].
      - rewrite Ei, (SF s i e I F). exact IH.
      - rewrite Ei, ST, Es. rewrite (proj1 (RG f n AL)). cbn [map it_name fst]. f_equal. exact IH. }
    apply X. apply incl_refl.
  - intros s dims I. destruct (ML s dims I) as (it & J & A & NM & ->). destruct (IT it J A) as (f & n & AL & NM2 & EX & F).
    destruct (RG f n AL) as (_ & B & C). exists (var_of f). split; [exact B|]. split; [|rewrite <- NM, NM2; exact C].
    rewrite EX. pose proof (DP f n AL F) as Q. cbn [filter].
    assert (QQ : forall j, depends (D (coord_of k) f n) j = Nat.eqb j (var_of f)).
    { intros j. destruct (Nat.eqb_spec j (var_of f)) as [->|N]; [now apply Q|].
      destruct (depends (D (coord_of k) f n) j) eqn:X; [|reflexivity]. exfalso. apply N. now apply Q. }
    rewrite !QQ. destruct (var_of f) as [|[|[|w]]]; try reflexivity. exfalso. lia.
Qed.
Example C59_ex_arrays : exists r p o, reference_metric "Spherical" true = Ok r /\ precomputed (freevars r) r = Ok p /\
  precompute ex depends (items (fun e => match e with Par s => s | _ => "" end) fst (p_vals p)) = Ok o /\
  o_malloc ex o = [("f0_of_xx0", [0%nat]); ("f1_of_xx1", [1%nat]); ("f1_of_xx1__D1", [1%nat]); ("f1_of_xx1__DD11", [1%nat])]%string.
Proof.
  destruct spherical_pre as (r0 & r & p & H0 & H & HP & HV & HH). exists r, p. rewrite HV. eexists. split; [exact H|]. split; [exact HP|]. split; [vm_compute; reflexivity|reflexivity].
Qed.

(** ** The dictionary of reference metrics *)
(** After any earlier lookups, successful or not, reference_metric[c] is the direct form and reference_metric[c + "_rfm_precompute"] the
    precomputed form of c. *)
Theorem C59_table : forall ls c r0 r1, py_in "_rfm_precompute" c = false ->
  reference_metric c false = Ok r0 -> reference_metric c true = Ok r1 ->
  let d := fold_left (fun d s => fst (getitem rfm reference_metric d s)) ls [] in
  snd (getitem rfm reference_metric d c) = Ok r0 /\ snd (getitem rfm reference_metric d (c ++ "_rfm_precompute")%string) = Ok r1.
Proof. exact table. Qed.
(** An accepted name that contains "_rfm_precompute" itself cannot be looked up, nor can the suffix be given twice. *)
Theorem C59_table_suffix_refuted :
  (exists r, reference_metric "my_rfm_precomputeSinhSpherical" false = Ok r) /\
  snd (getitem rfm reference_metric [] "my_rfm_precomputeSinhSpherical") = Err KeyError /\
  forall c r0 r1, py_in "_rfm_precompute" c = false -> reference_metric c false = Ok r0 -> reference_metric c true = Ok r1 ->
    snd (getitem rfm reference_metric [] (c ++ "_rfm_precompute" ++ "_rfm_precompute")%string) = Err KeyError.
Proof.
  assert (A : forall pre, exists r, reference_metric "my_rfm_precomputeSinhSpherical" pre = Ok r).
  { intros pre. apply accepts. exists KSinhSph. repeat split; reflexivity. }
  assert (B : forall pre, exists r, reference_metric "mySinhSpherical" pre = Ok r).
  { intros pre. apply accepts. exists KSinhSph. repeat split; reflexivity. }
  split; [apply A|]. split.
  - destruct (B false) as (r & E). destruct (B true) as (r' & E'). unfold getitem. cbn [dmem].
    change (py_replace suffix "" "my_rfm_precomputeSinhSpherical") with "mySinhSpherical"%string. rewrite E, E'. reflexivity.
  - intros c r0 r1 N E0 E1. unfold getitem. cbn [dmem].
    change (c ++ "_rfm_precompute" ++ "_rfm_precompute")%string with (c ++ suffix ++ suffix)%string. rewrite (replace_twice c N), E0, E1. cbn [snd].
    rewrite dget_dset_other; [rewrite dget_dset_other; [reflexivity|]|].
    + intros Q. apply (f_equal String.length) in Q. rewrite !slength_app in Q. cbn in Q. lia.
    + intros Q. apply (f_equal String.length) in Q. rewrite !slength_app in Q. cbn in Q. lia.
Qed.
Example C59_ex_table : exists r0 r1, reference_metric "SinhCylindricalv2n2" false = Ok r0 /\ reference_metric "SinhCylindricalv2n2" true = Ok r1 /\
  snd (getitem rfm reference_metric (fold_left (fun d s => fst (getitem rfm reference_metric d s))
         ["Spherical"; "bogus"; "SinhCylindricalv2n2_rfm_precompute"; "SymTP_rfm_precompute_rfm_precompute"]%string [])
       "SinhCylindricalv2n2_rfm_precompute") = Ok r1.
Proof.
  assert (B : forall pre, exists r, reference_metric "SinhCylindricalv2n2" pre = Ok r).
  { intros pre. apply accepts. exists (KCylV2 2). repeat split; reflexivity. }
  destruct (B false) as (r0 & E0). destruct (B true) as (r1 & E1). exists r0, r1. split; [exact E0|]. split; [exact E1|].
  apply (C59_table _ "SinhCylindricalv2n2" r0 r1 eq_refl E0 E1).
Qed.

Print Assumptions C59_accepts.
Print Assumptions C59_values.
Print Assumptions C59_symbols.
Print Assumptions C59_registered.
Print Assumptions C59_derivatives.
Print Assumptions C59_arrays.
Print Assumptions C59_table.
Print Assumptions C59_table_suffix_refuted.
