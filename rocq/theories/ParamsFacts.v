(** Specification and proofs for the parameter registries (model: Params.v). *)
From Coq Require Import String Ascii List ZArith Bool Lia.
From Verif Require Import PyBase PyBaseFacts Params.
Import ListNotations.
Open Scope string_scope.

(** ** C01: specification *)
Definition valid_call (p : nrpy_param) : Prop := In (np_type p) [TBool; TInt; TFloat; TStr].

(** [p] is the first call of [calls] that has an allowed type and the name [n]. *)
Definition first_valid_call (calls : list nrpy_param) (n : string) (p : nrpy_param) : Prop :=
  exists l1 l2, calls = (l1 ++ p :: l2)%list /\ valid_call p /\ np_name p = n /\
    (forall q, In q l1 -> valid_call q -> np_name q <> n).

Lemma allowed_valid : forall p, py_type_allowed (np_type p) = true <-> valid_call p.
Proof.
  intros p; unfold valid_call; destruct (np_type p); cbn; split; intros; auto 6; try discriminate.
  intuition discriminate.
Qed.

Lemma register_param_get : forall p d n,
  dget n (fst (register_param p d)) =
  match dget n d with
  | Some q => Some q
  | None => if py_type_allowed (np_type p) && String.eqb n (np_name p) then Some p else None
  end.
Proof.
  intros p d n; unfold register_param, NRPyParameter_init.
  destruct (py_type_allowed (np_type p)); cbn.
  - destruct (dmem (np_name p) d) eqn:E; cbn.
    + destruct (dget n d) eqn:G; auto. destruct (String.eqb_spec n (np_name p)); auto.
      subst; apply dmem_true in E as [v E]; congruence.
    + rewrite dget_dset. apply dmem_false in E. destruct (String.eqb_spec n (np_name p)).
      * subst. now rewrite E.
      * destruct (dget n d); auto.
  - destruct (dget n d); auto.
Qed.

Lemma C01_find : forall calls d n,
  dget n (param_run d (map OpReg calls)) =
  match dget n d with
  | Some q => Some q
  | None => find (fun p => py_type_allowed (np_type p) && String.eqb n (np_name p)) calls
  end.
Proof.
  intros calls; induction calls as [|p calls IH]; intros d n; cbn.
  - destruct (dget n d); auto.
  - change (fold_left param_step (map OpReg calls) (fst (register_param p d)))
      with (param_run (fst (register_param p d)) (map OpReg calls)).
    rewrite IH, register_param_get. destruct (dget n d); auto.
    destruct (py_type_allowed (np_type p) && String.eqb n (np_name p)); auto.
Qed.

Lemma find_first : forall (A : Type) (f : A -> bool) l x,
  find f l = Some x <-> exists l1 l2, l = (l1 ++ x :: l2)%list /\ f x = true /\
                                      forall y, In y l1 -> f y = false.
Proof.
  intros A f l x; split.
  - induction l as [|a l IH]; cbn; [discriminate|].
    destruct (f a) eqn:E; intros H.
    + inversion H; subst. exists [], l; cbn; repeat split; auto. intros y [].
    + destruct (IH H) as (l1 & l2 & -> & H1 & H2). exists (a :: l1), l2; cbn.
      repeat split; auto. intros y [->|]; auto.
  - intros (l1 & l2 & -> & H1 & H2). induction l1 as [|a l1 IH]; cbn.
    + now rewrite H1.
    + rewrite (H2 a) by (cbn; auto). apply IH. intros; apply H2; cbn; auto.
Qed.

Lemma C01_first : forall calls n p,
  dget n (param_run [] (map OpReg calls)) = Some p <-> first_valid_call calls n p.
Proof.
  intros; rewrite C01_find; cbn. rewrite find_first. unfold first_valid_call.
  split; intros (l1 & l2 & H1 & H2); exists l1, l2.
  - destruct H2 as [H2 H3]. apply andb_true_iff in H2 as [H4 H5].
    apply String.eqb_eq in H5. apply allowed_valid in H4. repeat split; auto.
    intros q Hq Hv. apply H3 in Hq. apply andb_false_iff in Hq.
    apply allowed_valid in Hv. rewrite Hv in Hq. destruct Hq as [|Hq]; [discriminate|].
    apply String.eqb_neq in Hq. auto.
  - destruct H2 as (H2 & H3 & H4). split; auto. split.
    + apply andb_true_iff; split; [now apply allowed_valid|].
      apply String.eqb_eq; auto.
    + intros y Hy. apply andb_false_iff.
      destruct (py_type_allowed (np_type y)) eqn:E; auto. right.
      apply String.eqb_neq. intro. apply allowed_valid in E. apply (H4 y Hy E); auto.
Qed.

Lemma C01_raise : forall p d,
  (snd (register_param p d) = Err ValueError <-> ~ valid_call p) /\
  (snd (register_param p d) <> Ok tt -> fst (register_param p d) = d).
Proof.
  intros p d; unfold register_param, NRPyParameter_init. rewrite <- allowed_valid.
  destruct (py_type_allowed (np_type p)); cbn.
  - destruct (dmem (np_name p) d); cbn; split; try congruence;
      (split; [discriminate|intros H; exfalso; apply H; auto]).
  - split; [split; [intros _; discriminate|auto]|auto].
Qed.

(** ** C02: every history refines an independent cell per name *)

(** What one operation does to the cell of name [n], on its own. *)
Definition cell_step (n : string) (c : option pyval) (o : param_op) : option pyval :=
  match o with
  | OpReg p =>
      match c with
      | Some v => Some v
      | None => if String.eqb (np_name p) n && py_type_allowed (np_type p)
                then Some (np_value p) else None
      end
  | OpSet m v => match c with Some _ => Some (if String.eqb m n then v else
                                             match c with Some w => w | None => v end)
                            | None => None end
  end.

Lemma C02_step_refine : forall n d o,
  option_map np_value (dget n (param_step d o)) = cell_step n (option_map np_value (dget n d)) o.
Proof.
  intros n d [p|m v]; cbn [param_step cell_step].
  - rewrite register_param_get. destruct (dget n d); cbn; auto.
    rewrite andb_comm, String.eqb_sym.
    destruct (String.eqb (np_name p) n && py_type_allowed (np_type p)); auto.
  - unfold set_parval_from_str. destruct (dget m d) as [p|] eqn:E; cbn.
    + rewrite dget_dset. destruct (String.eqb_spec n m).
      * subst. rewrite E; cbn. rewrite String.eqb_refl. reflexivity.
      * destruct (dget n d); cbn; auto. destruct (String.eqb_spec m n); congruence.
    + destruct (dget n d) as [q|] eqn:G; cbn; auto.
      destruct (String.eqb_spec m n); auto. subst; congruence.
Qed.

Lemma C02_run_refine : forall ops d n,
  option_map np_value (dget n (param_run d ops)) =
  fold_left (cell_step n) ops (option_map np_value (dget n d)).
Proof.
  induction ops as [|o ops IH]; intros d n; cbn; auto.
  change (fold_left param_step ops (param_step d o)) with (param_run (param_step d o) ops).
  rewrite IH, C02_step_refine. reflexivity.
Qed.

Lemma actual_name_plain : forall s, py_in "::" s = false -> actual_param_name s = s.
Proof.
  intros s H; unfold actual_param_name, py_split.
  rewrite split_aux_none by auto. reflexivity.
Qed.

Lemma prefix_colon_no_colon : forall a s, a <> "" -> no_char ":" a -> prefix "::" (a ++ s) = false.
Proof.
  intros [|c a] s Hn H; [congruence|]. cbn [append prefix].
  destruct (ascii_dec ":" c); auto. subst. exfalso; apply H; cbn; auto.
Qed.

Lemma split_prefixed : forall m n, no_char ":" m ->
  py_split "::" (m ++ "::" ++ n) = m :: py_split "::" n.
Proof.
  intros m n Hm; unfold py_split.
  rewrite split_aux_at; [reflexivity|discriminate|].
  intros a1 a2 E Hn. apply prefix_colon_no_colon; auto.
  intro Hin. apply Hm. rewrite E, str_to_list_app, in_app_iff; auto.
Qed.

Lemma split_nonempty : forall sep s k acc, split_aux sep s k acc <> [].
Proof.
  intros sep s; induction s as [|c s IH]; intros k acc; cbn [split_aux]; [discriminate|].
  destruct k; auto. destruct (prefix sep (String c s)); auto. discriminate.
Qed.

Lemma actual_name_prefixed : forall m n, no_char ":" m ->
  actual_param_name (m ++ "::" ++ n) = actual_param_name n.
Proof.
  intros m n Hm; unfold actual_param_name. rewrite split_prefixed by auto.
  cbn [last]. destruct (py_split "::" n) eqn:E; auto.
  exfalso; eapply split_nonempty; exact E.
Qed.

Lemma C02_get_set : forall n v d d', py_in "::" n = false ->
  set_parval_from_str n v d = (d', Ok tt) ->
  parval_from_str n d' = Ok v /\
  (forall m, actual_param_name m <> n -> parval_from_str m d' = parval_from_str m d).
Proof.
  intros n v d d' Hn H; unfold set_parval_from_str in H; unfold parval_from_str.
  destruct (dget n d) as [p|] eqn:E; inversion H; subst.
  split.
  - rewrite (actual_name_plain _ Hn), dget_dset_same. reflexivity.
  - intros m Hm. rewrite dget_dset_other by auto. reflexivity.
Qed.

Lemma C02_get_error : forall n d, py_in "::" n = false ->
  (parval_from_str n d = Err ValueError <-> ~ In n (dkeys d)) /\
  (forall v, set_parval_from_str n v d = (d, Err ValueError) <-> ~ In n (dkeys d)).
Proof.
  intros n d Hn; unfold parval_from_str, set_parval_from_str.
  rewrite (actual_name_plain _ Hn). pose proof (dget_None_keys n d) as K.
  destruct (dget n d) eqn:E; split.
  - split; [discriminate|]. intros H; apply K in H; discriminate.
  - intros v; split; [discriminate|]. intros H; apply K in H; discriminate.
  - split; auto. intros _; now apply K.
  - intros v; split; auto. intros _; now apply K.
Qed.

(** ** C03 *)
Definition array_type (t : string) : Prop :=
  ((exists r, t = "REAL" ++ r) \/ (exists r, t = "int" ++ r)) /\
  (exists a b, t = a ++ "[" ++ b) /\ (exists a b, t = a ++ "]" ++ b).

Record cp_wf (c : code_param) : Prop := {
  wf_parfile : cp_parfile c = true -> cp_default c <> VStr "unset";
  wf_define : cp_type c = "#define" -> cp_parfile c = false /\ cp_set_h c = false;
  wf_array : array_type (cp_type c) -> cp_commondata c = true /\ cp_set_h c = false;
  wf_assump : cp_assumption c = "Real" \/ cp_assumption c = "RealPositive" }.

Lemma is_array_type_spec : forall t, is_array_type t = true <-> array_type t.
Proof.
  intros t; unfold is_array_type, array_type.
  rewrite !andb_true_iff, orb_true_iff, !prefix_spec, !py_in_spec. tauto.
Qed.

Lemma pyval_is_str_spec : forall v s, pyval_is_str v s = true <-> v = VStr s.
Proof.
  intros [t| | | |] s; cbn; split; intros H; try discriminate.
  - apply String.eqb_eq in H; congruence.
  - inversion H; apply String.eqb_refl.
Qed.

Lemma make_wf : forall c c', CodeParameter_make c = Ok c' -> cp_wf c' /\ cp_name c' = cp_name c
  /\ cp_add_glb c' = cp_add_glb c.
Proof.
  intros c c' H; unfold CodeParameter_make in H.
  destruct (is_array_type (cp_type c) && negb (cp_commondata c && negb (cp_set_h c))) eqn:A;
    [discriminate|].
  set (c1 := if String.eqb (cp_type c) "#define" then _ else c) in *.
  destruct (cp_parfile c1 && pyval_is_str (cp_default c1) "unset") eqn:P; [discriminate|].
  assert (Ha : cp_assumption c1 = "Real" \/ cp_assumption c1 = "RealPositive").
  { destruct (String.eqb_spec (cp_assumption c1) "Real"); auto.
    destruct (String.eqb_spec (cp_assumption c1) "RealPositive"); auto. discriminate. }
  assert (Hc : c' = c1).
  { destruct (String.eqb (cp_assumption c1) "Real"); [congruence|].
    destruct (String.eqb (cp_assumption c1) "RealPositive"); congruence. }
  subst c'. split; [constructor|split].
  - intros Hp Hd. apply andb_false_iff in P. rewrite Hp in P.
    destruct P as [P|P]; [discriminate|]. rewrite Hd in P. discriminate.
  - intros Ht. unfold c1 in *. destruct (String.eqb_spec (cp_type c) "#define"); cbn in *; auto.
    congruence.
  - intros Ht. assert (Ht' : array_type (cp_type c)).
    { unfold c1 in Ht. destruct (String.eqb (cp_type c) "#define"); auto. }
    apply is_array_type_spec in Ht'. rewrite Ht' in A. cbn in A.
    apply negb_false_iff, andb_true_iff in A as [A1 A2]. apply negb_true_iff in A2.
    unfold c1. destruct (String.eqb (cp_type c) "#define"); cbn; auto.
  - auto.
  - unfold c1. destruct (String.eqb (cp_type c) "#define"); auto.
  - unfold c1. destruct (String.eqb (cp_type c) "#define"); auto.
Qed.

Definition reg_wf (d : cparams_dict) : Prop :=
  forall n c, In (n, c) d -> cp_wf c /\ cp_name c = n.

Lemma init_wf : forall c d, reg_wf d -> reg_wf (fst (CodeParameter_init c d)).
Proof.
  intros c d H; unfold CodeParameter_init.
  destruct (CodeParameter_make c) as [c'|e] eqn:E; cbn; auto.
  destruct (make_wf _ _ E) as (W & N & G).
  destruct (cp_add_glb c'); auto. destruct (dmem (cp_name c') d); auto.
  intros n x Hin. apply In_dset in Hin as [Hin|Hin]; auto. inversion Hin; subst; auto.
Qed.

Lemma bulk_loop_wf : forall b l d acc, reg_wf d -> reg_wf (fst (bulk_loop b l d acc)).
Proof.
  intros b l; induction l as [|[n [v desc]] l IH]; intros d acc H; cbn; auto.
  pose proof (init_wf (bulk_cp b n v desc) _ H) as Hw.
  destruct (CodeParameter_init (bulk_cp b n v desc) d) as [d1 [c'|e]] eqn:E; cbn in *; auto.
  apply IH. unfold CodeParameter_init in E.
  destruct (CodeParameter_make (bulk_cp b n v desc)) as [c2|e2] eqn:M; [|discriminate].
  destruct (make_wf _ _ M) as (W & N & G). inversion E; subst; clear E.
  destruct (bk_add_glb b); auto.
  intros m x Hin. apply In_dset in Hin as [Hin|Hin]; auto.
  inversion Hin; subst. split; auto.
Qed.

Lemma bulk_wf : forall b names dv ds d,
  reg_wf d -> reg_wf (fst (register_CodeParameters b names dv ds d)).
Proof.
  intros b [ns|] dv ds d H; cbn [register_CodeParameters]; auto.
  destruct (Nat.ltb (List.length ns) 1); auto.
  destruct dv as [v|l]; [|destruct (Nat.eqb (List.length l) (List.length ns)); auto];
    (destruct ds as [s|dl|]; cbn; auto;
     [destruct (String.eqb s ""); auto | destruct (Nat.eqb (List.length dl) (List.length ns)); auto];
     now apply bulk_loop_wf).
Qed.

Lemma single_wf : forall n c d, reg_wf d -> reg_wf (fst (register_CodeParameter n c d)).
Proof.
  intros [n|] c d H; cbn; auto.
  pose proof (init_wf (c n) _ H). destruct (CodeParameter_init (c n) d) as [d' [x|e]]; auto.
Qed.

Lemma adjust_wf : forall n v d, v <> VStr "unset" -> reg_wf d ->
  reg_wf (fst (adjust_CodeParam_default n v d)).
Proof.
  intros n v d Hv H; unfold adjust_CodeParam_default.
  destruct (dget n d) as [c|] eqn:E; cbn; auto.
  apply dget_In, H in E as [[W1 W2 W3 W4] N].
  intros m x Hin. apply In_dset in Hin as [Hin|Hin]; auto. inversion Hin; subst; cbn.
  split; auto. constructor; cbn; auto.
Qed.

Definition safe_cop (o : cparam_op) : Prop :=
  match o with OpCAdjust _ v => v <> VStr "unset" | _ => True end.

Lemma C03_step : forall d o, safe_cop o -> reg_wf d -> reg_wf (cparam_step d o).
Proof.
  intros d [n c|b n dv ds|n v] Hs H; cbn.
  - now apply single_wf.
  - now apply bulk_wf.
  - now apply adjust_wf.
Qed.

Lemma C03_run : forall ops d, Forall safe_cop ops -> reg_wf d -> reg_wf (cparam_run d ops).
Proof.
  induction ops as [|o ops IH]; intros d Hs H; cbn; auto.
  inversion Hs; subst. apply IH; auto. now apply C03_step.
Qed.

(** ** C04: bulk registration against one-by-one registration *)

(** One-by-one registration with the public single-name function, stopping at the first raise. *)
Fixpoint one_by_one (b : bulk_common) (l : list (string * (pyval * string))) (d : cparams_dict)
  (acc : list (string * bool)) : cparams_dict * py (list (string * bool)) :=
  match l with
  | [] => (d, Ok acc)
  | (n, (v, desc)) :: r =>
      match register_CodeParameter (Some n) (fun m => bulk_cp b m v desc) d with
      | (d', Ok s) => one_by_one b r d' (acc ++ [s])
      | (d', Err e) => (d', Err e)
      end
  end.

Lemma C04_loop : forall b l d acc,
  NoDup (map fst l) -> (forall n, In n (map fst l) -> dget n d = None) ->
  bulk_loop b l d acc = one_by_one b l d acc.
Proof.
  intros b l; induction l as [|[n [v desc]] l IH]; intros d acc Hn Hf; cbn; auto.
  inversion Hn; subst.
  unfold CodeParameter_init.
  destruct (CodeParameter_make (bulk_cp b n v desc)) as [c'|e] eqn:M; auto.
  destruct (make_wf _ _ M) as (_ & N & G). cbn in N, G.
  rewrite N, G. destruct (bk_add_glb b) eqn:B.
  - assert (E : dmem n d = false) by (apply dmem_false, Hf; cbn; auto).
    rewrite E. rewrite dset_dset_same.
    apply IH; auto. intros m Hm. rewrite dget_dset.
    destruct (String.eqb_spec m n); [subst; contradiction|]. apply Hf; cbn; auto.
  - apply IH; auto. intros m Hm; apply Hf; cbn; auto.
Qed.

(** A successful bulk call stores, for every name, a parameter built from the last occurrence of
    that name: later ones win. *)
Lemma C04_last_wins : forall b l d acc d' r, bk_add_glb b = true ->
  bulk_loop b l d acc = (d', Ok r) ->
  (forall l1 n v desc l2, l = (l1 ++ (n, (v, desc)) :: l2)%list -> ~ In n (map fst l2) ->
     exists c, CodeParameter_make (bulk_cp b n v desc) = Ok c /\ dget n d' = Some c) /\
  (forall m, ~ In m (map fst l) -> dget m d' = dget m d).
Proof.
  intros b l; induction l as [|[n [v desc]] l IH]; intros d acc d' r Hb H; cbn in H.
  - inversion H; subst. split; auto. intros l1 n v desc l2 E. destruct l1; discriminate.
  - unfold CodeParameter_init in H.
    destruct (CodeParameter_make (bulk_cp b n v desc)) as [c'|e] eqn:M; [|discriminate].
    rewrite Hb in H.
    destruct (make_wf _ _ M) as (_ & N & G). cbn in N, G. rewrite G, Hb, N in H.
    apply IH in H as [H1 H2]; auto. split.
    + intros l1 n0 v0 desc0 l2 E Hni. destruct l1 as [|x l1]; cbn in E; inversion E; subst.
      * exists c'; split; auto. rewrite H2 by auto. apply dget_dset_same.
      * eapply H1; eauto.
    + intros m Hm. cbn in Hm. rewrite H2 by tauto. rewrite dget_dset.
      destruct (String.eqb_spec m n); [subst; tauto|].
      destruct (dmem n d); auto. rewrite dget_dset_other; auto.
Qed.
