(** Specification vocabulary and proofs for Kernel.v. *)
From Coq Require Import String Ascii List Arith ZArith Bool Lia Permutation Sorted QArith Qcanon.
From Verif Require Import PyBase PyBaseFacts PyList PyListFacts QcLib FDMatrix FDCoeffs FDCoeffsFacts FDOpsFacts
  Grid GridFacts FDRead FDReadFacts FDReadMem Kernel.
Import ListNotations.
Open Scope list_scope.
Open Scope nat_scope.

(** ** Running declarations *)
Section Run.
Variables (F : string -> Qc -> Qc) (mem : string -> pt -> Qc).

Definition extends (e1 e2 : string -> option Qc) : Prop := forall x v, e1 x = Some v -> e2 x = Some v.

Lemma keval_mono : forall e1 e2 e v, extends e1 e2 -> keval F e1 e = Some v -> keval F e2 e = Some v.
Proof.
  intros e1 e2 e; induction e as [q|s|a IHa b IHb|a IHa b IHb|f a IHa]; intros v H E; cbn [keval] in *; auto.
  - destruct (keval F e1 a) as [x|]; [|discriminate]. destruct (keval F e1 b) as [y|]; [|discriminate].
    rewrite (IHa x), (IHb y); auto.
  - destruct (keval F e1 a) as [x|]; [|discriminate]. destruct (keval F e1 b) as [y|]; [|discriminate].
    rewrite (IHa x), (IHb y); auto.
  - destruct (keval F e1 a) as [x|]; [|discriminate]. rewrite (IHa x); auto.
Qed.

Lemma keval_ext : forall e1 e2 e, (forall x, In x (kvars e) -> e1 x = e2 x) -> keval F e1 e = keval F e2 e.
Proof.
  intros e1 e2 e; induction e as [q|s|a IHa b IHb|a IHa b IHb|f a IHa]; intros H; cbn [keval kvars] in *; auto.
  - apply H; cbn; auto.
  - rewrite IHa, IHb; auto; intros; apply H, in_or_app; auto.
  - rewrite IHa, IHb; auto; intros; apply H, in_or_app; auto.
  - rewrite IHa; auto.
Qed.

Lemma keval_defined : forall env e v x, keval F env e = Some v -> In x (kvars e) -> exists w, env x = Some w.
Proof.
  intros env e; induction e as [q|s|a IHa b IHb|a IHa b IHb|f a IHa]; intros v x E H; cbn [keval kvars] in *.
  - destruct H.
  - destruct H as [<-|[]]. eauto.
  - destruct (keval F env a) eqn:A; [|discriminate]. destruct (keval F env b) eqn:B; [|discriminate].
    apply in_app_or in H. destruct H; eauto.
  - destruct (keval F env a) eqn:A; [|discriminate]. destruct (keval F env b) eqn:B; [|discriminate].
    apply in_app_or in H. destruct H; eauto.
  - destruct (keval F env a) eqn:A; [|discriminate]. eauto.
Qed.

Lemma keval_total : forall env e, (forall x, In x (kvars e) -> env x <> None) -> exists v, keval F env e = Some v.
Proof.
  intros env e; induction e as [q|s|a IHa b IHb|a IHa b IHb|f a IHa]; intros H; cbn [keval kvars] in *.
  - eauto.
  - destruct (env s) eqn:E; [eauto|]. exfalso. apply (H s); cbn; auto.
  - destruct IHa as [x ->]; [intros; apply H, in_or_app; auto|].
    destruct IHb as [y ->]; [intros; apply H, in_or_app; auto|]. eauto.
  - destruct IHa as [x ->]; [intros; apply H, in_or_app; auto|].
    destruct IHb as [y ->]; [intros; apply H, in_or_app; auto|]. eauto.
  - destruct IHa as [x ->]; auto. eauto.
Qed.

Lemma keval_rename : forall env f e, keval F env (krename f e) = keval F (fun s => env (f s)) e.
Proof.
  intros env f e; induction e as [q|s|a IHa b IHb|a IHa b IHb|g a IHa]; cbn [keval krename]; auto.
  - now rewrite IHa, IHb.
  - now rewrite IHa, IHb.
  - now rewrite IHa.
Qed.

Lemma bind_args_mono : forall e1 e2 ps args d, extends e1 e2 -> bind_args e1 ps args = Some d ->
  bind_args e2 ps args = Some d.
Proof.
  intros e1 e2 ps; induction ps as [|p ps IH]; intros [|a args] d H E; cbn [bind_args] in *; try discriminate; auto.
  destruct (e1 a) as [v|] eqn:A; [|discriminate]. destruct (bind_args e1 ps args) as [d'|] eqn:B; [|discriminate].
  rewrite (H _ _ A), (IH _ _ H B). auto.
Qed.

Lemma bind_args_map : forall env f ps, (forall p, In p ps -> env (f p) <> None) ->
  exists d, bind_args env ps (map f ps) = Some d /\ forall p, In p ps -> dget p d = env (f p).
Proof.
  intros env f ps; induction ps as [|p ps IH]; intros H; cbn [bind_args map].
  - exists []. split; auto. intros p [].
  - destruct IH as (d & E & G); [intros; apply H; cbn; auto|].
    destruct (env (f p)) as [v|] eqn:A; [|exfalso; apply (H p); cbn; auto]. rewrite E.
    exists ((p, v) :: d). split; auto. intros q Hq. cbn [dget]. destruct (String.eqb_spec q p) as [->|N].
    + auto.
    + destruct Hq as [Hq|Hq]; [congruence|]. auto.
Qed.

Notation look env := (fun s => dget s env).

Lemma rhs_mono : forall env1 env2 r v, extends (look env1) (look env2) ->
  rhs_value F mem env1 r = Some v -> rhs_value F mem env2 r = Some v.
Proof.
  intros env1 env2 [gf p|e|x|ps args body] v H E; cbn [rhs_value] in *; auto.
  - eapply keval_mono; eauto.
  - destruct (dget x env1) as [w|] eqn:W; cbn in E; [|discriminate]. rewrite (H _ _ W). auto.
  - destruct (bind_args (look env1) ps args) as [d|] eqn:B; [|discriminate].
    rewrite (bind_args_mono _ _ _ _ _ H B). auto.
Qed.

Lemma extends_dset : forall env x v, dget x env = None -> extends (look env) (look (dset x v env)).
Proof. intros env x v H y w E. cbn beta in *. rewrite dget_dset. destruct (String.eqb_spec y x); congruence. Qed.

(** Every declaration holds in the final environment. *)
Lemma run_decls_sound : forall l env env', run_decls F mem env l = Some env' ->
  extends (look env) (look env') /\
  forall x r, In (x, r) l -> exists v, dget x env' = Some v /\ rhs_value F mem env' r = Some v.
Proof.
  induction l as [|[x r] l IH]; intros env env' H; cbn [run_decls] in H.
  - inversion H; subst. split; [intros ? ?; auto|intros x r []].
  - destruct (run_decl F mem env (x, r)) as [env1|] eqn:D; [|discriminate]. unfold run_decl in D. cbn [fst snd] in D.
    destruct (dmem x env) eqn:M; [discriminate|]. destruct (rhs_value F mem env r) as [v|] eqn:R; [|discriminate].
    inversion D; subst env1. destruct (IH _ _ H) as [E1 E2].
    assert (X : dget x env = None) by (unfold dmem in M; destruct (dget x env); congruence).
    assert (E0 : extends (look env) (look env')).
    { intros y w Y. apply E1. apply (extends_dset env x v X); auto. }
    split; auto. intros y r' [Q|Q].
    + inversion Q; subst. exists v. split.
      * apply E1. cbn beta. rewrite dget_dset, String.eqb_refl. auto.
      * eapply rhs_mono; [|exact R]. exact E0.
    + apply E2; auto.
Qed.

(** The names a right-hand side uses. *)
Definition rhs_vars (r : krhs) : list string :=
  match r with
  | RRead _ _ => []
  | RExp e => kvars e
  | RUpwind x => [x]
  | RCall _ args _ => args
  end.
Definition call_ok (r : krhs) : Prop :=
  match r with RCall ps args body => (exists f, args = map f ps) /\ forall x, In x (kvars body) -> In x ps | _ => True end.

Lemma rhs_total : forall env r, call_ok r -> (forall x, In x (rhs_vars r) -> dget x env <> None) ->
  exists v, rhs_value F mem env r = Some v.
Proof.
  intros env [gf p|e|x|ps args body] C H; cbn [rhs_value rhs_vars call_ok] in *.
  - eauto.
  - apply keval_total. auto.
  - destruct (dget x env) eqn:E; [cbn; eauto|]. exfalso. apply (H x); cbn; auto.
  - destruct C as [(f & ->) C]. destruct (bind_args_map (look env) f ps) as (d & -> & G).
    + intros p Hp. apply H. apply in_map_iff. eauto.
    + apply keval_total. intros x Hx. rewrite G by auto. apply H, in_map_iff. exists x. auto.
Qed.

(** Distinct fresh names, each right-hand side using only names that are already there. *)
Lemma run_decls_total : forall l env,
  NoDup (map fst l) -> (forall x, In x (map fst l) -> dget x env = None) ->
  (forall r, In r (map snd l) -> call_ok r) ->
  (forall l1 x r l2 y, l = l1 ++ (x, r) :: l2 -> In y (rhs_vars r) -> dget y env <> None \/ In y (map fst l1)) ->
  exists env', run_decls F mem env l = Some env'.
Proof.
  induction l as [|[x r] l IH]; intros env N Fr C U; cbn [run_decls].
  - eauto.
  - cbn [map fst snd] in *. inversion N as [|? ? Nx N']; subst.
    assert (X : dget x env = None) by (apply Fr; cbn; auto).
    unfold run_decl. cbn [fst snd]. unfold dmem. rewrite X.
    destruct (rhs_total env r) as [v R].
    { apply C; cbn; auto. }
    { intros y Hy. destruct (U [] x r l y eq_refl Hy) as [Q|[]]. auto. }
    rewrite R. apply IH; auto.
    + intros y Hy. rewrite dget_dset. destruct (String.eqb_spec y x) as [->|]; [contradiction|]. apply Fr; cbn; auto.
    + intros; apply C; cbn; auto.
    + intros l1 x' r' l2 y E Hy. destruct (U ((x, r) :: l1) x' r' l2 y) as [Q|Q]; auto.
      * cbn. now rewrite E.
      * left. rewrite dget_dset. destruct (String.eqb_spec y x); [discriminate|auto].
      * cbn in Q. destruct Q as [->|Q]; auto. left. rewrite dget_dset, String.eqb_refl. discriminate.
Qed.

(** ** Outputs *)
Lemma run_outs_value : forall l env env', run_outs F env l = Some env' -> NoDup (map fst l) ->
  (forall x e, In x (map fst l) -> In e (map snd l) -> ~ In x (kvars e)) ->
  (forall y, ~ In y (map fst l) -> dget y env' = dget y env) /\
  forall x e, In (x, e) l -> dget x env' = keval F (look env) e /\ dget x env' <> None.
Proof.
  induction l as [|[x e] l IH]; intros env env' H N D; cbn [run_outs] in H.
  - inversion H; subst. split; auto. intros x e [].
  - destruct (keval F (look env) e) as [v|] eqn:V; [|discriminate]. cbn [map fst snd] in *.
    inversion N as [|? ? Nx N']; subst. destruct (IH _ _ H N') as [I1 I2]; [intros; apply D; cbn; auto|].
    split.
    + intros y Hy. rewrite I1 by (intros Q; apply Hy; cbn; auto). rewrite dget_dset.
      destruct (String.eqb_spec y x); [subst; exfalso; apply Hy; cbn; auto|auto].
    + intros y e' [Q|Q].
      * inversion Q; subst. rewrite I1 by auto. rewrite dget_dset, String.eqb_refl, V. split; [auto|discriminate].
      * destruct (I2 y e' Q) as [A B]. split; auto. rewrite A. apply keval_ext. intros z Hz.
        rewrite dget_dset. destruct (String.eqb_spec z x) as [->|]; auto. exfalso.
        apply (D x e'); auto; [cbn; auto|right; apply in_map_iff; exists (y, e'); auto].
Qed.

Lemma dupdate_get : forall (e d : dict Qc) x, NoDup (map fst e) ->
  dget x (dupdate d e) = match dget x e with Some v => Some v | None => dget x d end.
Proof.
  intros e; induction e as [|[k v] e IH]; intros d x N; cbn [dupdate fold_left dget]; auto.
  inversion N; subst. unfold dupdate in IH. rewrite IH by auto. cbn [fst snd]. rewrite dget_dset.
  destruct (String.eqb_spec x k) as [->|]; auto.
  destruct (dget k e) eqn:E; auto. exfalso. apply H1. apply dget_In in E. apply in_map_iff. exists (k, q). auto.
Qed.

Lemma out_values_spec : forall l env d, out_values F env l = Some d ->
  map fst d = map fst l /\ forall x e, In (x, e) l -> exists v, keval F (look env) e = Some v /\ In (x, v) d.
Proof.
  induction l as [|[x e] l IH]; intros env d H; cbn [out_values] in H.
  - inversion H; subst. split; auto. intros ? ? [].
  - destruct (keval F (look env) e) as [v|] eqn:V; [|discriminate].
    destruct (out_values F env l) as [d'|] eqn:O; [|discriminate]. inversion H; subst.
    destruct (IH _ _ O) as [I1 I2]. split; [cbn; now rewrite I1|]. intros y e' [Q|Q].
    + inversion Q; subst. exists v. cbn; auto.
    + destruct (I2 _ _ Q) as (w & W & Hw). exists w. cbn; auto.
Qed.

Lemma out_values_total : forall l env, (forall x e, In (x, e) l -> exists v, keval F (look env) e = Some v) ->
  exists d, out_values F env l = Some d.
Proof.
  induction l as [|[x e] l IH]; intros env H; cbn [out_values]; [eauto|].
  destruct (H x e) as [v ->]; [cbn; auto|]. destruct (IH env) as [d ->]; [intros; eapply H; cbn; eauto|]. eauto.
Qed.

Lemma run_outs_total : forall l env, (forall x e, In (x, e) l -> exists v, keval F (look env) e = Some v) ->
  exists env', run_outs F env l = Some env'.
Proof.
  induction l as [|[x e] l IH]; intros env H; cbn [run_outs]; [eauto|].
  destruct (H x e) as [v V]; [cbn; auto|]. rewrite V. apply IH. intros y e' Q.
  destruct (H y e') as [w W]; [cbn; auto|]. apply keval_total. intros z Hz. rewrite dget_dset.
  destruct (String.eqb z x); [discriminate|]. destruct (keval_defined _ _ _ _ W Hz) as [u U]. cbn beta in U. congruence.
Qed.
End Run.

(** ** The derivative symbols of the specification *)
(** First derivative, Kreiss-Oliger, upwinded, downwinded, second derivative. *)
Inductive dsym : Type := D1 (d : nat) | KO (d : nat) | Up (d : nat) | Dn (d : nat) | D2 (d1 d2 : nat).

Definition letters (s : dsym) : string :=
  match s with D1 _ | D2 _ _ => "d" | KO _ => "dKO" | Up _ => "dup" | Dn _ => "ddn" end.
Definition dirs_text (s : dsym) : string :=
  match s with D1 d | KO d | Up d | Dn d => str_of_nat d | D2 a b => (str_of_nat a ++ str_of_nat b)%string end.
Definition op_text (s : dsym) : string :=
  match s with
  | D1 d => deriv_string "dD" d | KO d => deriv_string "dKOD" d
  | Up d => deriv_string "dupD" d | Dn d => deriv_string "ddnD" d
  | D2 a b => deriv_string2 "dDD" a b
  end.
Definition valid (s : dsym) : Prop :=
  match s with D1 d | KO d | Up d | Dn d => d < 3 | D2 a b => a < 3 /\ b < 3 end.
Definition scale (inv : nat -> Qc) (s : dsym) : Qc :=
  match s with D1 d | KO d | Up d | Dn d => inv d | D2 a b => (inv a * inv b)%Qc end.

Lemma valid_cases : forall s (P : dsym -> Prop), valid s ->
  (forall d, d < 3 -> P (D1 d) /\ P (KO d) /\ P (Up d) /\ P (Dn d)) ->
  (forall a b, a < 3 -> b < 3 -> P (D2 a b)) -> P s.
Proof. intros [d|d|d|d|a b] P V H1 H2; cbn in V; try (apply H1; auto); apply H2; tauto. Qed.

Ltac three d := destruct d as [|[|[|d]]]; [| | |exfalso; lia].
Ltac finite s V :=
  destruct s as [d|d|d|d|a b]; cbn [valid] in V;
  [three d|three d|three d|three d|destruct V as [V1 V2]; three a; three b].

Lemma op_text_letters : forall s, valid s ->
  op_text s = (letters s ++ Ds (String.length (dirs_text s)) ++ dirs_text s)%string.
Proof. intros s V. finite s V; reflexivity. Qed.
Lemma letters_ok : forall s, In (letters s) op_letters.
Proof. intros [d|d|d|d|a b]; cbn; auto. Qed.
Lemma dirs_digits : forall s, all_digits (dirs_text s).
Proof.
  intros [d|d|d|d|a b]; cbn [dirs_text]; try apply str_of_nat_digits.
  intros c Hc. rewrite str_to_list_app in Hc. apply in_app_or in Hc. destruct Hc as [Hc|Hc]; revert Hc; apply str_of_nat_digits.
Qed.
Lemma dirs_nonempty : forall s, valid s -> dirs_text s <> ""%string.
Proof. intros s V. finite s V; discriminate. Qed.

(** A gridfunction component name with its parts, and its derivative symbol. *)
Record comp_name := MkComp { c_base : string; c_ud : string; c_idx : string }.
Definition comp_ok (c : comp_name) : Prop :=
  all_UD (c_ud c) /\ all_digits (c_idx c) /\ String.length (c_idx c) = String.length (c_ud c) /\ no_UD (c_base c) /\
  py_in "_dupD" (c_base c ++ c_ud c) = false /\ py_in "_ddnD" (c_base c ++ c_ud c) = false.
Definition comp_text (c : comp_name) : string := (c_base c ++ c_ud c ++ c_idx c)%string.
Definition symbol (c : comp_name) (s : dsym) : string :=
  deriv_symbol (c_base c) (c_ud c) (letters s) (c_idx c) (dirs_text s).

Lemma symbol_parse : forall c s, comp_ok c -> valid s ->
  parse_deriv_var (symbol c s) = Ok (comp_text c, op_text s).
Proof.
  intros c s (H1 & H2 & H3 & H4 & _) V. unfold symbol. rewrite parse_good; auto using letters_ok, dirs_digits.
  rewrite op_text_letters by auto. reflexivity.
Qed.

Lemma symbol_partner : forall c d, comp_ok c -> d < 3 ->
  py_in "_dupD" (symbol c (Up d)) = true /\
  py_replace "_dupD" "_ddnD" (symbol c (Up d)) = symbol c (Dn d).
Proof.
  intros c d (H1 & H2 & H3 & H4 & H5 & H6) V. unfold symbol. cbn [letters dirs_text].
  apply downwind_partner; auto using str_of_nat_digits. apply (dirs_nonempty (Up d)). exact V.
Qed.

(** ** Stencils *)
Lemma request_nil : forall ds o, fd_request [] ds o = snd (compute_fdcoeffs_fdstencl ds o []).
Proof. reflexivity. Qed.

Definition good_result (r : fd_result) : Prop := List.length (fst r) = List.length (snd r) /\ snd r <> [].

Lemma nonempty_from : forall (r : fd_result) f, apply_stencil r f <> 0%Qc -> snd r <> [].
Proof.
  intros [cs ts] f H E. cbn in E. subst. apply H. unfold apply_stencil. cbn [fst snd]. destruct cs; reflexivity.
Qed.

Lemma one_neq_zero : (1 <> 0)%Qc.
Proof. intros H. discriminate (f_equal this H). Qed.

Lemma first_result : forall op d k, In op ["dD"; "dupD"; "ddnD"]%string -> d < 3 -> 1 <= k ->
  exists r, fd_request [] (deriv_string op d) (2 * k) = Ok r /\ good_result r.
Proof.
  intros op d k Hop Hd Hk.
  assert (Hop' : In op first_ops) by (cbn in *; intuition).
  destruct (first_support [] op d k Hop' Hd Hk) as (cs & ts & E & L & _).
  exists (cs, ts). split; auto. split; auto.
  destruct (first_exact [] op d k (fun t => qz (comp d t)) [0; 1]%Qc Hop' Hd Hk) as (r & E2 & A).
  - intros v. replace (comp d (axis d v)) with v by (three d; reflexivity). cbn [peval]. ring.
  - cbn. lia.
  - rewrite E in E2. inversion E2; subst. apply (nonempty_from _ (fun t => qz (comp d t))). rewrite A.
    cbn. intros Q. apply one_neq_zero. rewrite <- Q. unfold qn. cbn. rewrite qz_1. ring.
Qed.

Lemma res_good : forall s k, valid s -> 1 <= k ->
  exists r, fd_request [] (op_text s) (2 * k) = Ok r /\ good_result r.
Proof.
  intros s k V Hk. destruct s as [d|d|d|d|a b]; cbn [op_text valid] in *.
  - apply first_result; cbn; auto.
  - rewrite KO_closed by auto. eexists. split; [reflexivity|]. split; cbn [fst snd].
    + now rewrite !map_length.
    + destruct k; cbn; discriminate.
  - apply first_result; cbn; auto.
  - apply first_result; cbn; auto.
  - destruct V as [Ha Hb]. destruct (Nat.eq_dec a b) as [<-|N].
    + destruct (second_support [] a k Ha Hk) as (cs & ts & E & L & _).
      exists (cs, ts). split; [exact E|]. split; [exact L|].
      destruct (second_exact [] a k (fun t => (qz (comp a t) * qz (comp a t))%Qc) [0; 0; 1]%Qc Ha Hk) as (r & E2 & A).
      * intros v. replace (comp a (axis a v)) with v by (three a; reflexivity). cbn [peval]. ring.
      * cbn. lia.
      * rewrite E in E2. inversion E2; subst. eapply nonempty_from. rewrite A.
        cbn. unfold qn. cbn. rewrite qz_1. intros Q.
        assert (Q' : qz 2 = qz 0). { rewrite qz_0. rewrite <- Q. ring. }
        apply qz_inj in Q'. discriminate.
    + destruct (mixed_support [] a b k Ha Hb N Hk) as (cs & ts & E & L & _).
      exists (cs, ts). split; [exact E|]. split; [exact L|].
      destruct (mixed_exact [] a b k (fun t => (qz (comp a t) * qz (comp b t))%Qc) [[]; [0; 1]]%Qc Ha Hb N Hk)
        as (r & E2 & A).
      * intros u v.
        replace (comp a (tadd (axis a u) (axis b v))) with u by (three a; three b; try lia; cbn; lia).
        replace (comp b (tadd (axis a u) (axis b v))) with v by (three a; three b; try lia; cbn; lia).
        unfold peval2. cbn [map peval]. ring.
      * cbn. lia.
      * cbn. intros q [<-|[<-|[]]]; cbn; lia.
      * rewrite E in E2. inversion E2; subst. eapply nonempty_from. rewrite A. cbn. unfold qn. cbn. rewrite qz_1.
        intros Q. apply one_neq_zero. rewrite <- Q. unfold peval2. cbn. ring.
Qed.

(** ** Names *)
Lemma py_in_boundary : forall sub a t, no_char "_" sub ->
  py_in (String "_" sub) (a ++ String "_" t) = py_in (String "_" sub) a || py_in (String "_" sub) (String "_" t).
Proof.
  intros sub a t N.
  destruct (py_in (String "_" sub) (a ++ String "_" t)) eqn:E.
  - symmetry. apply orb_true_iff. apply py_in_spec in E. destruct E as (x & y & E).
    destruct (app_cut _ _ _ _ E) as [(u & -> & E2)|(u & Hu & E1 & E2)].
    + right. apply py_in_spec. exists u, y. auto.
    + destruct (app_cut _ _ _ _ E2) as [(w & E3 & E4)|(w & Hw & E3 & E4)].
      * left. apply py_in_spec. exists x, w. rewrite E1, E3. auto.
      * exfalso. destruct u as [|c u]; [congruence|]. inversion E3; subst. destruct w as [|c w]; [congruence|].
        inversion E4; subst. apply N. rewrite str_to_list_app, in_app_iff. right. cbn; auto.
  - symmetry. apply orb_false_iff. split.
    + destruct (py_in (String "_" sub) a) eqn:A; auto. rewrite py_in_app_l in E; auto.
    + destruct (py_in (String "_" sub) (String "_" t)) eqn:A; auto. rewrite py_in_app_r in E; auto.
Qed.

Definition is_updown (s : dsym) : bool := match s with Up _ | Dn _ => true | _ => false end.
Definition lhs_name (c : comp_name) (s : dsym) : string :=
  if is_updown s then ("UpwindAlgInput" ++ symbol c s)%string else symbol c s.

Lemma digits_no_underscore : forall s, all_digits s -> no_char "_" s.
Proof. intros s H Q. apply H in Q. discriminate. Qed.

Lemma symbol_updown : forall c s, comp_ok c -> valid s ->
  py_in "_dupD" (symbol c s) || py_in "_ddnD" (symbol c s) = is_updown s.
Proof.
  intros c s (H1 & H2 & H3 & H4 & H5 & H6) V. unfold symbol, deriv_symbol.
  assert (T : forall a b x : string, (a ++ b ++ x = (a ++ b) ++ x)%string) by (intros; now rewrite sapp_assoc).
  rewrite T. cbn [append].
  rewrite !py_in_boundary by (now apply no_char_lit).
  rewrite H5, H6. cbn [orb].
  assert (G : forall lit sub, no_char "_" lit ->
     prefix sub lit = true -> py_in (String "_" sub) (String "_" (lit ++ c_idx c ++ dirs_text s)) = true).
  { intros lit sub _ P. apply py_in_spec. apply prefix_spec in P. destruct P as (z & ->). exists ""%string, (z ++ c_idx c ++ dirs_text s)%string.
    cbn [append]. rewrite !sapp_assoc. reflexivity. }
  assert (R : no_char "_" (c_idx c ++ dirs_text s)).
  { intros Q. rewrite str_to_list_app, in_app_iff in Q. destruct Q as [Q|Q].
    - now apply digits_no_underscore in Q.
    - revert Q. apply digits_no_underscore, dirs_digits. }
  assert (B : forall lit sub, no_char "_" lit -> (forall x, prefix sub (lit ++ x) = false) ->
     py_in (String "_" sub) (String "_" (lit ++ c_idx c ++ dirs_text s)) = false).
  { intros lit sub Nl P. cbn [py_in prefix]. rewrite P. destruct (ascii_dec "_" "_") as [_|n]; [|congruence].
    cbn [orb]. apply (py_in_no_char "_"); [cbn; auto|]. apply no_char_app; auto. }
  rewrite <- !(sapp_assoc (letters s)).
  assert (L : exists lit, (letters s ++ Ds (String.length (dirs_text s)))%string = lit /\ no_char "_" lit /\
     if is_updown s then (lit = "dupD"%string \/ lit = "ddnD"%string) else
       (forall x, prefix "dupD" (lit ++ x) = false) /\ (forall x, prefix "ddnD" (lit ++ x) = false)).
  { eexists. split; [reflexivity|].
    finite s V; (split; [now apply no_char_lit|cbn; auto]). }
  destruct L as (lit & -> & Nl & L). destruct (is_updown s).
  - destruct L as [->| ->].
    + rewrite (G "dupD"%string "dupD"%string) by (auto; reflexivity). reflexivity.
    + rewrite (G "ddnD"%string "ddnD"%string) by (auto; reflexivity). apply orb_true_r.
  - destruct L as [L1 L2]. rewrite !B by auto. reflexivity.
Qed.

Lemma call_name_symbol : forall c s, comp_ok c -> valid s -> call_name (symbol c s) = lhs_name c s.
Proof. intros c s C V. unfold call_name, lhs_name. rewrite symbol_updown by auto. reflexivity. Qed.

Lemma symbol_deriv_like : forall c s, valid s -> deriv_like (symbol c s) = true.
Proof.
  intros c s V. unfold deriv_like. apply existsb_exists.
  exists (String "_" (letters s ++ "D"))%string. split.
  - destruct s; cbn; auto.
  - apply py_in_spec. unfold symbol, deriv_symbol.
    assert (D : exists n, String.length (dirs_text s) = S n) by (finite s V; eexists; reflexivity).
    destruct D as (n & ->). exists (c_base c ++ c_ud c)%string, (Ds n ++ c_idx c ++ dirs_text s)%string.
    cbn [Ds]. rewrite !sapp_assoc. cbn [append]. rewrite !sapp_assoc. reflexivity.
Qed.

(** Temporaries *)
Lemma part_chars : forall k o c, In c (str_to_list (part k o)) ->
  In c (str_to_list k) \/ In c ["_"; "p"; "m"]%char \/ is_digit c = true.
Proof.
  intros k o c H. destruct o as [|n|n]; cbn [part] in H; [destruct H| |];
    rewrite !str_to_list_app, !in_app_iff in H; cbn [str_to_list In] in H;
    (destruct H as [[<-|[]]|[H|[[<-|[]]|H]]];
      [right; left; cbn; auto|left; auto|right; left; cbn; auto|right; right; revert H; apply str_of_nat_digits]).
Qed.

Lemma tail_chars : forall p c, In c (str_to_list (tail_text p)) ->
  In c ["_"; "p"; "m"; "i"]%char \/ is_digit c = true.
Proof.
  intros [[a b] d] c H. unfold tail_text in H. rewrite !str_to_list_app, !in_app_iff in H.
  destruct H as [H|[H|H]]; apply part_chars in H; cbn [In str_to_list] in H; cbn [In];
    (destruct H as [[<-|[<-|[]]]|[[H|[H|[H|[]]]]|H]]; auto 6).
Qed.

Lemma temp_name_tail : forall b p, temp_name b p = (b ++ tail_text p)%string.
Proof. intros b [[x y] z]. reflexivity. Qed.

Lemma rename_temp : forall b p, py_replace "FDPROTO" b (temp_name "FDPROTO" p) = temp_name b p.
Proof.
  intros b p. rewrite !temp_name_tail.
  change ("FDPROTO" ++ tail_text p)%string with ("" ++ String "F" "DPROTO" ++ tail_text p)%string.
  rewrite replace_once; [reflexivity|now apply no_char_lit|reflexivity|].
  apply (py_in_no_char "F"); [cbn; auto|]. intros Q. apply tail_chars in Q. cbn in Q.
  destruct Q as [[Q|[Q|[Q|[Q|[]]]]]|Q]; discriminate.
Qed.
Lemma rename_proto_temp : forall b p, rename_proto b (temp_name "FDPROTO" p) = temp_name b p.
Proof.
  intros b p. unfold rename_proto. rewrite rename_temp.
  rewrite temp_name_tail. rewrite py_in_app_l; reflexivity.
Qed.
Lemma temp_not_const : forall p, py_in "FDPart1_" (temp_name "FDPROTO" p) = false.
Proof.
  intros p. rewrite temp_name_tail. apply (py_in_no_char "a"); [cbn; auto 6|]. apply no_char_app; [now apply no_char_lit|].
  intros Q. apply tail_chars in Q. cbn in Q. destruct Q as [[Q|[Q|[Q|[Q|[]]]]]|Q]; discriminate.
Qed.

(** ** Prototype expressions *)
Definition inv_name (d : nat) : string := ("invdxx" ++ str_of_nat d)%string.
Definition scale_expr (s : dsym) : kexpr :=
  match s with D1 d | KO d | Up d | Dn d => KVar (inv_name d) | D2 a b => KMul (KVar (inv_name a)) (KVar (inv_name b)) end.
Definition scale_dirs (s : dsym) : list nat :=
  match s with D1 d | KO d | Up d | Dn d => [d] | D2 a b => [a; b] end.
Definition fsum (acc : kexpr) (l : list (Qc * pt)) : kexpr :=
  fold_left (fun a cp => KAdd a (KMul (KNum (fst cp)) (KVar (temp_name "FDPROTO" (snd cp))))) l acc.
Definition proto_expr (s : dsym) (r : fd_result) : kexpr :=
  KMul (fsum (KNum 0) (combine (fst r) (snd r))) (scale_expr s).
Definition proto_name (s : dsym) : string :=
  if is_updown s then ("UpwindAlgInput" ++ "FDPROTO_" ++ op_text s)%string else ("FDPROTO_" ++ op_text s)%string.

Lemma fd_sum_ok : forall cs pts acc, List.length cs <= List.length pts ->
  fd_sum acc cs pts = Ok (fsum acc (combine cs pts)).
Proof.
  induction cs as [|c cs IH]; intros [|p pts] acc H; cbn [fd_sum combine fsum fold_left]; auto; [cbn in H; lia|].
  rewrite temp_name_ok by discriminate. cbn in H. rewrite IH by lia. reflexivity.
Qed.

Lemma fd_scale_ok : forall s e, valid s -> fd_scale (op_text s) e = Ok (KMul e (scale_expr s)).
Proof. intros s e V. finite s V; reflexivity. Qed.

Lemma proto_one_ok : forall s r, valid s -> good_result r ->
  proto_one ("FDPROTO_" ++ op_text s) r = Ok (op_text s, proto_name s, proto_expr s r).
Proof.
  intros s r V [L _]. unfold proto_one.
  assert (P : proto_op ("FDPROTO_" ++ op_text s) = Ok (op_text s)) by (finite s V; reflexivity).
  rewrite P. cbn [py_bind]. rewrite fd_sum_ok by (apply Nat.eq_le_incl; exact L). cbn [py_bind]. rewrite fd_scale_ok by auto. cbn [py_bind].
  assert (Q : proto_lhs ("FDPROTO_" ++ op_text s) = proto_name s) by (clear P; finite s V; reflexivity).
  rewrite Q. reflexivity.
Qed.

Lemma lhs_replace : forall c s, valid s ->
  py_replace ("FDPROTO_" ++ op_text s) (symbol c s) (proto_name s) = lhs_name c s.
Proof.
  intros c s V. unfold proto_name, lhs_name.
  assert (N : no_char "F" ("DPROTO_" ++ op_text s)) by (finite s V; now apply no_char_lit).
  assert (U : py_in ("FDPROTO_" ++ op_text s) "UpwindAlgInput" = false) by (clear N; finite s V; reflexivity).
  change ("FDPROTO_" ++ op_text s)%string with (String "F" ("DPROTO_" ++ op_text s))%string in *.
  destruct (is_updown s).
  - rewrite <- (sapp_nil_r (String "F" ("DPROTO_" ++ op_text s))) at 2.
    rewrite replace_once by auto. now rewrite sapp_nil_r.
  - rewrite <- (sapp_nil_r (String "F" ("DPROTO_" ++ op_text s))) at 2.
    change (String "F" ("DPROTO_" ++ op_text s) ++ "")%string
      with ("" ++ (String "F" ("DPROTO_" ++ op_text s) ++ ""))%string.
    rewrite replace_once by auto. cbn [append]. now rewrite sapp_nil_r.
Qed.

Lemma fsum_vars : forall l acc x, In x (kvars (fsum acc l)) <->
  In x (kvars acc) \/ exists c p, In (c, p) l /\ x = temp_name "FDPROTO" p.
Proof.
  induction l as [|[c p] l IH]; intros acc x; cbn [fsum fold_left].
  - split; auto. intros [H|(c & p & [] & _)]; auto.
  - unfold fsum in IH. rewrite IH. cbn [kvars fst snd]. rewrite in_app_iff. cbn [app In]. split.
    + intros [[H|[H|[]]]|(c' & p' & H & E)]; auto; right; [exists c, p|exists c', p']; auto.
    + intros [H|(c' & p' & [H|H] & E)]; auto.
      * inversion H; subst. auto.
      * right. exists c', p'. auto.
Qed.

Lemma proto_vars : forall s r x, In x (kvars (proto_expr s r)) ->
  (exists p, In p (snd r) /\ x = temp_name "FDPROTO" p) \/ exists d, In d (scale_dirs s) /\ x = inv_name d.
Proof.
  intros s r x H. cbn [proto_expr kvars] in H. apply in_app_or in H. destruct H as [H|H].
  - apply fsum_vars in H. destruct H as [[]|(c & p & H & ->)]. left. exists p. split; auto. eapply in_combine_r; eauto.
  - right. destruct s; cbn in H |- *; intuition (subst; eauto).
Qed.

Lemma keval_fsum : forall F env (m : pt -> Qc) l acc a,
  (forall c p, In (c, p) l -> env (temp_name "FDPROTO" p) = Some (m p)) -> keval F env acc = Some a ->
  keval F env (fsum acc l) = Some (a + fold_right Qcplus 0 (map (fun ct => fst ct * m (snd ct)) l))%Qc.
Proof.
  intros F env m l; induction l as [|[c p] l IH]; intros acc a H A; cbn [fsum fold_left map fold_right].
  - rewrite A. f_equal. ring.
  - unfold fsum in IH. rewrite (IH _ (a + c * m p)%Qc).
    + f_equal. cbn [fst snd]. ring.
    + intros c' p' Q. apply (H c' p'). cbn; auto.
    + cbn [keval fst snd]. rewrite A. rewrite (H c p) by (cbn; auto). reflexivity.
Qed.

Lemma keval_proto : forall F env (m : pt -> Qc) inv s r,
  (forall p, In p (snd r) -> env (temp_name "FDPROTO" p) = Some (m p)) ->
  (forall d, In d (scale_dirs s) -> env (inv_name d) = Some (inv d)) ->
  keval F env (proto_expr s r) = Some (apply_stencil r m * scale inv s)%Qc.
Proof.
  intros F env m inv s r H1 H2. unfold proto_expr. cbn [keval].
  rewrite (keval_fsum F env m _ (KNum 0) 0%Qc).
  - assert (S : keval F env (scale_expr s) = Some (scale inv s)).
    { destruct s; cbn [scale_expr keval scale]; rewrite !H2 by (cbn; auto); reflexivity. }
    rewrite S. f_equal. rewrite Qcplus_0_l. reflexivity.
  - intros c p H. apply H1. eapply in_combine_r; eauto.
  - reflexivity.
Qed.
