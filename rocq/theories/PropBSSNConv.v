(** C61: ADM_to_BSSN.py and BSSN_to_ADM.py are inverse to each other (model: BSSN.v). *)
From Coq Require Import String List Arith Bool Lia Reals Lra.
From Verif Require Import PyBase Inverter InverterFacts GRMetric BSSN BSSNFacts.
Import ListNotations.
Local Open Scope R_scope.

(** The conformal metric has the determinant of the reference metric and is a positive multiple e^(-4 phi) of the metric, with
    e^(4 phi) as BSSN_to_ADM reads the conformal factor; Abar is trace-free, and K_ij splits into it and the trace. *)
Theorem C61_conformal : forall nm m gam K be B, In nm ["phi"; "chi"; "W"]%string -> sym3 gam -> 0 < det3 gam -> 0 < h_det m ->
  exists o p, ADM_to_BSSN nm m gam K be B = Ok o /\ exp4phi_of nm (o_cf o) = Ok p /\ 0 < p /\
    det3 (o_gammabarDD o) = h_det m /\
    (forall i j, (i < 3)%nat -> (j < 3)%nat -> gam i j = p * o_gammabarDD o i j) /\
    (forall u, two_sided3 (o_gammabarDD o) u -> s3 (fun i => s3 (fun j => u i j * o_AbarDD o i j)) = 0) /\
    (forall u, two_sided3 gam u -> o_trK o = s3 (fun i => s3 (fun j => u i j * K i j))) /\
    (forall i j, (i < 3)%nat -> (j < 3)%nat -> K i j = p * o_AbarDD o i j + 1 / 3 * gam i j * o_trK o).
Proof.
  intros nm m gam K be B I Hs Hd Hm.
  destruct (to_bssn nm m gam K be B I Hs Hd Hm) as (o & p & h & E & Ep & Pp & P3 & Eh & G & _ & T & HK & _).
  exists o, p. destruct (inv3_spec _ _ _ Hs Eh) as (_ & _ & TS).
  split; [exact E|]. split; [exact Ep|]. split; [exact Pp|]. split; [|split; [auto|split; [|split; [|auto]]]].
  - assert (D : det3 gam = p * p * p * det3 (o_gammabarDD o)).
    { rewrite <- det3_scale. apply det3_ext. intros. apply G. }
    rewrite P3 in D. apply (Rmult_eq_reg_l (det3 gam / h_det m)).
    + rewrite <- D. field. lra.
    + apply Rgt_not_eq, Rdiv_lt_0_compat; assumption.
  - intros u Hu. apply (trace_zero gam h (o_gammabarDD o) u K (o_AbarDD o) p (o_trK o)); auto. lra.
  - intros u Hu. rewrite T. apply s3_ext. intros i Hi. apply s3_ext. intros j Hj.
    now rewrite (inverse_unique gam gam h u TS Hu (fun _ _ _ _ => eq_refl) i j Hi Hj).
Qed.

(** ADM -> BSSN -> ADM is the identity on the metric, the extrinsic curvature, the shift and B^i. *)
Theorem C61_there_and_back : forall nm m gam K be B o b, In nm ["phi"; "chi"; "W"]%string ->
  sym3 gam -> sym3 K -> 0 < det3 gam -> 0 < h_det m -> sym3 (h_g m) -> sym3 (h_ReDD m) ->
  (forall i j, (i < 3)%nat -> (j < 3)%nat -> h_ReDD m i j <> 0) -> (forall i, (i < 3)%nat -> h_ReU m i <> 0) ->
  ADM_to_BSSN nm m gam K be B = Ok o ->
  v_h b = o_hDD o -> v_a b = o_aDD o -> v_cf b = o_cf o -> v_trK b = o_trK o -> v_vet b = o_vetU o -> v_bet b = o_betU o ->
  exists a, BSSN_to_ADM nm true m b = Ok a /\
    (forall i j, (i < 3)%nat -> (j < 3)%nat -> a_gammaDD a i j = gam i j /\ a_KDD a i j = K i j) /\
    (forall i, (i < 3)%nat -> a_betaU a i = be i /\ BU m b i = B i).
Proof.
  intros nm m gam K be B o b I Hs HsK Hd Hm Sg SR NR NU E Eh Ea Ec Et Ev Eb.
  destruct (to_bssn nm m gam K be B I Hs Hd Hm) as (o' & p & h & E' & Ep & Pp & P3 & Ei & G & HH & T & HK & AA & VV & BB & _).
  assert (o' = o) by congruence. subst o'. clear E'.
  assert (GB : forall i j, (i < 3)%nat -> (j < 3)%nat -> gammabarDD m b i j = o_gammabarDD o i j).
  { intros i j Hi Hj. unfold gammabarDD. rewrite Eh, HH. field. auto. }
  assert (AB : forall i j, (i < 3)%nat -> (j < 3)%nat -> AbarDD m b i j = o_AbarDD o i j).
  { intros i j Hi Hj. unfold AbarDD. rewrite Ea, AA. field. auto. }
  assert (Sgb : sym3 (o_gammabarDD o)).
  { intros i j Hi Hj. apply (Rmult_eq_reg_l p); [|lra]. rewrite <- !G. auto. }
  assert (SA : sym3 (o_AbarDD o)).
  { intros i j Hi Hj. apply (Rmult_eq_reg_l p); [|lra]. pose proof (HK i j). pose proof (HK j i).
    pose proof (Hs i j Hi Hj) as X. pose proof (HsK i j Hi Hj) as Y. rewrite Y, X in H. lra. }
  assert (SV : sym_vars m b).
  { split; [exact Sg|]. split; [exact SR|]. split; intros i j Hi Hj.
    - rewrite Eh, !HH. now rewrite (Sgb i j Hi Hj), (Sg i j Hi Hj), (SR i j Hi Hj).
    - rewrite Ea, !AA. now rewrite (SA i j Hi Hj), (SR i j Hi Hj). }
  destruct (to_adm nm m b p I SV) as (a & ha & ph & EA & _ & _ & _ & AB' & AG & AK & _).
  - now rewrite Ec.
  - lra.
  - rewrite (det3_ext _ _ GB). intros Z.
    assert (D : det3 gam = p * p * p * det3 (o_gammabarDD o)).
    { rewrite <- det3_scale. apply det3_ext. intros. apply G. }
    rewrite Z in D. lra.
  - exists a. split; [exact EA|]. split.
    + intros i j Hi Hj. rewrite AK, AG, (GB i j Hi Hj), (AB i j Hi Hj), Et, <- G. split; [reflexivity|]. symmetry. apply HK.
    + intros i Hi. rewrite AB'. unfold betaU, BU. rewrite Ev, Eb, VV, BB. split; field; auto.
Qed.

(** BSSN -> ADM -> BSSN is the identity on variables that satisfy the two algebraic constraints. *)
Theorem C61_back_and_there : forall nm m b, In nm ["phi"; "chi"; "W"]%string ->
  sym3 (h_g m) -> sym3 (h_ReDD m) -> sym3 (v_h b) -> sym3 (v_a b) ->
  (forall i j, (i < 3)%nat -> (j < 3)%nat -> h_ReDD m i j <> 0) -> (forall i, (i < 3)%nat -> h_ReU m i <> 0) ->
  (nm <> "phi"%string -> 0 < v_cf b) -> 0 < h_det m ->
  det3 (gammabarDD m b) = h_det m ->
  (forall u, two_sided3 (gammabarDD m b) u -> s3 (fun i => s3 (fun j => u i j * AbarDD m b i j)) = 0) ->
  exists a o, BSSN_to_ADM nm true m b = Ok a /\ ADM_to_BSSN nm m (a_gammaDD a) (a_KDD a) (a_betaU a) (BU m b) = Ok o /\
    o_cf o = v_cf b /\ o_trK o = v_trK b /\
    (forall i j, (i < 3)%nat -> (j < 3)%nat -> o_hDD o i j = v_h b i j /\ o_aDD o i j = v_a b i j) /\
    (forall i, (i < 3)%nat -> o_vetU o i = v_vet b i /\ o_betU o i = v_bet b i).
Proof.
  intros nm m b I Sg SR Sh Sa NR NU Hc Hm Hdet Htr.
  assert (SV : sym_vars m b) by (repeat split; assumption). destruct (gammabar_sym m b SV) as [SG SAb].
  assert (XP : exists p, exp4phi_of nm (v_cf b) = Ok p /\ 0 < p).
  { destruct I as [<-|[<-|[<-|[]]]]; eexists; (split; [reflexivity|]).
    - apply exp_pos.
    - apply Rdiv_lt_0_compat; [lra|]. apply Hc. discriminate.
    - apply Rdiv_lt_0_compat; [lra|]. apply Rmult_lt_0_compat; apply Hc; discriminate. }
  destruct XP as (p & Ep & Pp).
  destruct (to_adm nm m b p I SV Ep ltac:(lra) ltac:(lra)) as (a & ha & ph & EA & Eia & _ & _ & AB & AG & AK & _).
  assert (SGa : sym3 (a_gammaDD a)) by (intros i j Hi Hj; rewrite !AG; now rewrite (SG i j Hi Hj)).
  assert (Da : det3 (a_gammaDD a) = p * p * p * h_det m).
  { rewrite <- Hdet, <- det3_scale. apply det3_ext. intros. apply AG. }
  assert (Pa : 0 < det3 (a_gammaDD a)) by (rewrite Da; repeat apply Rmult_lt_0_compat; assumption).
  destruct (to_bssn nm m (a_gammaDD a) (a_KDD a) (a_betaU a) (BU m b) I SGa Pa Hm)
    as (o & p' & h & E & Ep' & Pp' & P3 & Ei & G & HH & T & HK & AA & VV & BB & Pc).
  exists a, o. split; [exact EA|]. split; [exact E|].
  assert (PP : p' = p).
  { apply cube_inj; auto. rewrite P3, Da. field. lra. }
  assert (CF : o_cf o = v_cf b).
  { destruct (cf_val nm (v_cf b) p (det3 (a_gammaDD a)) (h_det m) I Ep Hc Pa Hm) as [_ C1]; [rewrite Da; field; lra|].
    destruct (cf_val nm (o_cf o) p' (det3 (a_gammaDD a)) (h_det m) I Ep' Pc Pa Hm P3) as [_ C2]. congruence. }
  subst p'.
  assert (GB : forall i j, o_gammabarDD o i j = gammabarDD m b i j).
  { intros i j. apply (Rmult_eq_reg_l p); [|lra]. rewrite <- G. apply AG. }
  destruct (inv3_spec _ _ _ SGa Ei) as (_ & _ & TS).
  assert (TK : o_trK o = v_trK b).
  { rewrite T.
    assert (HU : two_sided3 (gammabarDD m b) (fun i j => h i j / (/ p))).
    { pose proof (inverse_scale (/ p) _ _ ltac:(apply Rinv_neq_0_compat; lra) TS) as X.
      intros i j Hi Hj. specialize (X i j Hi Hj).
      rewrite !(matmul3 R 0 1 Rplus Rmult Rminus Rdiv Ropp Rinv Rfield) in X |- *. rewrite !AG in X.
      assert (Y : forall x, / p * (p * x) = x) by (intros; field; lra). rewrite !Y in X. exact X. }
    specialize (Htr _ HU).
    assert (TR : s3 (fun i => s3 (fun j => h i j * a_gammaDD a i j)) = 3).
    { rewrite (s3_ext _ (fun i => s3 (fun j => h i j * a_gammaDD a j i))).
      - rewrite s3_eq. rewrite !(fun i H H' => proj2 (two_sided_r _ _ TS i i H H')) by lia. cbn [Nat.eqb]. ring.
      - intros i Hi. apply s3_ext. intros j Hj. now rewrite (SGa i j Hi Hj). }
    transitivity (s3 (fun i => s3 (fun j => h i j / / p * AbarDD m b i j)) + 1 / 3 * v_trK b * s3 (fun i => s3 (fun j => h i j * a_gammaDD a i j))).
    - rewrite !s3_eq. rewrite !AK. field. lra.
    - rewrite Htr, TR. lra. }
  split; [exact CF|]. split; [exact TK|]. split.
  - intros i j Hi Hj. rewrite HH, AA, GB. split.
    + unfold gammabarDD. field. auto.
    + assert (X : o_AbarDD o i j = AbarDD m b i j).
      { apply (Rmult_eq_reg_l p); [|lra]. pose proof (HK i j). pose proof (AK i j). rewrite TK in H. lra. }
      rewrite X. unfold AbarDD. field. auto.
  - intros i Hi. rewrite VV, BB, AB. unfold betaU, BU. split; field; auto.
Qed.

(** Names other than phi, chi, W are refused, singular metrics as well. *)
Theorem C61_errors : forall nm m gam K be B b, sym3 gam -> 0 < h_det m -> sym3 (h_g m) -> sym3 (h_ReDD m) -> sym3 (v_h b) -> sym3 (v_a b) ->
  (det3 gam = 0 -> ADM_to_BSSN nm m gam K be B = Err NonInvertibleMatrixError) /\
  (0 < det3 gam -> ~ In nm ["phi"; "chi"; "W"]%string -> ADM_to_BSSN nm m gam K be B = Err ValueError) /\
  (det3 (gammabarDD m b) = 0 -> BSSN_to_ADM nm true m b = Err NonInvertibleMatrixError) /\
  (det3 (gammabarDD m b) <> 0 -> ~ In nm ["phi"; "chi"; "W"]%string -> BSSN_to_ADM nm true m b = Err ValueError) /\
  (det3 (gammabarDD m b) <> 0 -> BSSN_to_ADM nm false m b = Err ValueError).
Proof.
  intros nm m gam K be B b Hs Hm Sg SR Sh Sa.
  destruct (gammabar_sym m b ltac:(repeat split; assumption)) as [SG _]. repeat split.
  - intros H. unfold ADM_to_BSSN. now rewrite (inv3_singular gam Hs H).
  - intros H N. unfold ADM_to_BSSN. destruct (inv3_total gam Hs ltac:(lra)) as [h ->]. cbn [py_bind fst snd].
    set (q := Rpower (h_det m / det3 gam) (1 / 3)).
    assert (Sb : sym3 (fun i j => q * gam i j)) by (intros i j Hi Hj; now rewrite (Hs i j Hi Hj)).
    destruct (inv3_total _ Sb) as [hb ->].
    + rewrite det3_scale. pose proof (Rpower_pos (h_det m / det3 gam) (1 / 3)) as Pq. fold q in Pq.
      repeat apply Rmult_integral_contrapositive_currified; lra.
    + cbn [py_bind fst snd]. now rewrite (proj1 (cf_bad nm N _ _ 0 b 0)).
  - intros H. unfold BSSN_to_ADM, bssn_quantities. now rewrite (inv3_singular _ SG H).
  - intros H N. unfold BSSN_to_ADM, bssn_quantities. destruct (inv3_total _ SG H) as [h ->]. cbn [py_bind negb].
    now rewrite (proj1 (proj2 (proj2 (cf_bad nm N 0 0 0 b 0)))).
  - intros H. unfold BSSN_to_ADM, bssn_quantities. destruct (inv3_total _ SG H) as [h ->]. reflexivity.
Qed.

(** *** Concrete cases: spherical coordinates at r = 2, theta = pi/2, a metric with an off-diagonal term *)
Definition ex_scale (i : nat) : R := match i with 0 => 1 | _ => 2 end.
Definition ex_refm : refm :=
  MkRefm 16 (fun _ => 0) (fun _ _ => 0) (fun i j => if Nat.eqb i j then ex_scale i * ex_scale i else 0) (fun _ _ _ => 0) (fun _ _ _ _ => 0)
    (fun i j => ex_scale i * ex_scale j) (fun _ _ _ => 0) (fun _ _ _ _ => 0) (fun i => 1 / ex_scale i) (fun _ _ => 0) (fun _ _ _ => 0)
    (fun _ _ _ => 0) (fun _ _ _ _ => 0).
Definition ex_gam (i j : nat) : R :=
  match i, j with 0, 0 => 8 | 1, 1 => 32 | 2, 2 => 32 | 0, 1 => 4 | 1, 0 => 4 | _, _ => 0 end.
Definition ex_K (i j : nat) : R := match i, j with 0, 0 => 1 | 1, 2 => 3 | 2, 1 => 3 | _, _ => 0 end.
Lemma ex_gam_det : det3 ex_gam = 7680.
Proof. unfold leibniz. cbn. ring. Qed.
Lemma ex_gam_sym : sym3 ex_gam. Proof. intros [|[|[|i]]] [|[|[|j]]] Hi Hj; try lia; reflexivity. Qed.
Lemma ex_K_sym : sym3 ex_K. Proof. intros [|[|[|i]]] [|[|[|j]]] Hi Hj; try lia; reflexivity. Qed.
Lemma ex_g_sym : sym3 (h_g ex_refm). Proof. intros [|[|[|i]]] [|[|[|j]]] Hi Hj; try lia; cbn; ring. Qed.
Lemma ex_Re_sym : sym3 (h_ReDD ex_refm). Proof. intros i j _ _; cbn; ring. Qed.
Example ex_C61_conformal : exists o p, ADM_to_BSSN "W" ex_refm ex_gam ex_K (fun _ => 1) (fun _ => 0) = Ok o /\
  exp4phi_of "W" (o_cf o) = Ok p /\ det3 (o_gammabarDD o) = 16.
Proof.
  destruct (C61_conformal "W"%string ex_refm ex_gam ex_K (fun _ => 1) (fun _ => 0)) as (o & p & E & Ep & _ & D & _);
    [cbn; auto|exact ex_gam_sym|rewrite ex_gam_det; lra|cbn; lra|]. exists o, p. auto.
Qed.
Example ex_C61_there_and_back : exists o,
  ADM_to_BSSN "chi" ex_refm ex_gam ex_K (fun _ => 1) (fun _ => 0) = Ok o /\
  forall b, v_h b = o_hDD o -> v_a b = o_aDD o -> v_cf b = o_cf o -> v_trK b = o_trK o -> v_vet b = o_vetU o -> v_bet b = o_betU o ->
  exists a, BSSN_to_ADM "chi" true ex_refm b = Ok a /\ a_gammaDD a 0%nat 1%nat = 4 /\ a_KDD a 1%nat 2%nat = 3.
Proof.
  assert (Hd : 0 < det3 ex_gam) by (rewrite ex_gam_det; lra). assert (Hm : 0 < h_det ex_refm) by (cbn; lra).
  destruct (C61_conformal "chi"%string ex_refm ex_gam ex_K (fun _ => 1) (fun _ => 0) ltac:(cbn; auto) ex_gam_sym Hd Hm) as (o & p & E & _).
  exists o. split; [exact E|]. intros b H1 H2 H3 H4 H5 H6.
  destruct (C61_there_and_back "chi"%string ex_refm ex_gam ex_K (fun _ => 1) (fun _ => 0) o b) as (a & EA & HA & _);
    auto using ex_gam_sym, ex_K_sym, ex_g_sym, ex_Re_sym; [cbn; auto| | |].
  - intros i j _ _. cbn. unfold ex_scale. destruct i, j; lra.
  - intros i _. cbn. unfold ex_scale. destruct i; lra.
  - exists a. split; [exact EA|]. split; [now rewrite (proj1 (HA 0%nat 1%nat ltac:(lia) ltac:(lia)))
                                        |now rewrite (proj2 (HA 1%nat 2%nat ltac:(lia) ltac:(lia)))].
Qed.
(** BSSN variables of the flat metric, with a trace-free a_ij *)
Definition ex_vars : vars :=
  MkVars (fun _ _ => 0) (fun i j => match i, j with 0, 0 => 1 | 1, 1 => -1 | 0, 2 => 5 | 2, 0 => 5 | _, _ => 0 end) (fun _ => 0) (fun i => INR i) (fun _ => 7) 3 (1 / 2) 1
    (fun _ _ _ => 0) (fun _ _ _ => 0) (fun _ _ _ _ => 0) (fun _ _ _ => 0) (fun _ _ _ => 0) (fun _ _ => 0) (fun _ _ => 0)
    (fun _ _ => 0) (fun _ _ => 0) (fun _ _ _ => 0) (fun _ => 0) (fun _ => 0) (fun _ _ => 0) (fun _ => 0) (fun _ => 0) (fun _ => 0) (fun _ _ => 0).
Example ex_C61_back_and_there : exists a o, BSSN_to_ADM "W" true ex_refm ex_vars = Ok a /\
  ADM_to_BSSN "W" ex_refm (a_gammaDD a) (a_KDD a) (a_betaU a) (BU ex_refm ex_vars) = Ok o /\
  o_cf o = 1 / 2 /\ o_trK o = 3 /\ o_aDD o 2%nat 0%nat = 5 /\ o_vetU o 2%nat = 2.
Proof.
  assert (GD : forall i j, gammabarDD ex_refm ex_vars i j = if Nat.eqb i j then ex_scale i * ex_scale i else 0) by (intros; unfold gammabarDD; cbn; ring).
  destruct (C61_back_and_there "W"%string ex_refm ex_vars) as (a & o & E1 & E2 & C & T & HA & V).
  - cbn; auto.
  - exact ex_g_sym.
  - exact ex_Re_sym.
  - intros i j _ _. reflexivity.
  - intros [|[|[|i]]] [|[|[|j]]] Hi Hj; try lia; reflexivity.
  - intros i j _ _. cbn. unfold ex_scale. destruct i, j; lra.
  - intros i _. cbn. unfold ex_scale. destruct i; lra.
  - intros _. cbn. lra.
  - cbn. lra.
  - unfold leibniz. cbn. rewrite !GD. cbn. ring.
  - intros u Hu. pose proof (fun i j Hi Hj => proj1 (two_sided_r _ _ Hu i j Hi Hj)) as X.
    pose proof (X 0%nat 0%nat ltac:(lia) ltac:(lia)) as X00. pose proof (X 1%nat 1%nat ltac:(lia) ltac:(lia)) as X11.
    pose proof (X 0%nat 2%nat ltac:(lia) ltac:(lia)) as X02. pose proof (X 2%nat 0%nat ltac:(lia) ltac:(lia)) as X20.
    rewrite s3_eq in X00, X11, X02, X20. rewrite !GD in X00, X11, X02, X20. cbn in X00, X11, X02, X20.
    rewrite !s3_eq. unfold AbarDD. cbn. lra.
  - exists a, o. split; [exact E1|]. split; [exact E2|]. split; [exact C|]. split; [exact T|]. split.
    + rewrite (proj2 (HA 2%nat 0%nat ltac:(lia) ltac:(lia))). reflexivity.
    + rewrite (proj1 (V 2%nat ltac:(lia))). cbn. lra.
Qed.
Example ex_C61_errors : ADM_to_BSSN "phi" ex_refm (fun _ _ => 1) ex_K (fun _ => 1) (fun _ => 0) = Err NonInvertibleMatrixError /\
  ADM_to_BSSN "Phi" ex_refm ex_gam ex_K (fun _ => 1) (fun _ => 0) = Err ValueError.
Proof.
  destruct (C61_errors "phi"%string ex_refm (fun _ _ => 1) ex_K (fun _ => 1) (fun _ => 0) ex_vars) as (H1 & _);
    auto using ex_g_sym, ex_Re_sym; try (intros i j _ _; reflexivity); [cbn; lra| |].
  { intros [|[|[|i]]] [|[|[|j]]] Hi Hj; try lia; reflexivity. }
  destruct (C61_errors "Phi"%string ex_refm ex_gam ex_K (fun _ => 1) (fun _ => 0) ex_vars) as (_ & H2 & _);
    auto using ex_g_sym, ex_Re_sym, ex_gam_sym; try (intros i j _ _; reflexivity); [cbn; lra| |].
  { intros [|[|[|i]]] [|[|[|j]]] Hi Hj; try lia; reflexivity. }
  split; [apply H1; unfold leibniz; cbn; ring|apply H2; [rewrite ex_gam_det; lra|]].
  intros [X|[X|[X|[]]]]; discriminate.
Qed.

Print Assumptions C61_conformal.
Print Assumptions C61_there_and_back.
Print Assumptions C61_back_and_there.
Print Assumptions C61_errors.
