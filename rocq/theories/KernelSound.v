(** Correctness of the generated kernels: proofs for PropKernel.v. *)
From Coq Require Import String Ascii List Arith ZArith Bool Lia Permutation Sorted QArith Qcanon.
From Verif Require Import PyBase PyBaseFacts PyList PyListFacts QcLib FDMatrix FDCoeffs FDCoeffsFacts FDOpsFacts
  Grid GridFacts FDRead FDReadFacts FDReadMem Kernel KernelFacts KernelGen.
Import ListNotations.
Open Scope list_scope.
Open Scope nat_scope.

Notation look env := (fun s => dget s env).

(** ** Specification *)
(** Gridfunctions are registered under their own, non-empty names. *)
Definition registry_ok (reg : registry) : Prop :=
  reg <> [] /\ NoDup (dkeys reg) /\ forall n gf, dget n reg = Some gf -> g_name gf = n /\ n <> ""%string.

(** Every derivative symbol in the expressions is a first, second, Kreiss-Oliger or upwinded derivative
    of a component of a registered gridfunction. *)
Definition derivs_ok (reg : registry) (cpars free : list string) : Prop :=
  forall v, needs_fd reg cpars free v -> exists c s, comp_ok c /\ valid s /\ (forall d, s <> Dn d) /\
    v = symbol c s /\ In (comp_text c) (dkeys reg).

(** The finite-difference value of a derivative of the gridfunction [g] at the current point. *)
Definition deriv_value (k : nat) (mem : string -> pt -> Qc) (inv : nat -> Qc) (g : string) (s : dsym) : Qc :=
  (apply_stencil (Rop k (op_text s)) (mem g) * scale inv s)%Qc.

(** The value of a symbol before any derivative is looked at: gridfunctions at the current point,
    everything else as given. *)
Definition base_env (reg : registry) (mem : string -> pt -> Qc) (env0 : dict Qc) (v : string) : option Qc :=
  if dmem v reg then Some (mem v (0, 0, 0)%Z) else dget v env0.

(** The upwinded derivative: the dupD stencil where the control vector component is positive, the ddnD
    stencil otherwise; without a control vector always the latter. *)
Definition upwind_value (F : string -> Qc -> Qc) (k : nat) (reg : registry) (ctrl : option (list kexpr))
  (mem : string -> pt -> Qc) (env0 : dict Qc) (inv : nat -> Qc) (g : string) (d : nat) : Qc :=
  let positive :=
    match ctrl with
    | None => false
    | Some cl => match keval F (base_env reg mem env0) (nth d cl (KNum 0)) with
                 | Some x => if Qclt_le_dec 0 x then true else false
                 | None => false
                 end
    end in
  if positive then deriv_value k mem inv g (Up d) else deriv_value k mem inv g (Dn d).

(** What a symbol of the expressions stands for. *)
Inductive means (F : string -> Qc -> Qc) (k : nat) (reg : registry) (cpars : list string)
  (ctrl : option (list kexpr)) (mem : string -> pt -> Qc) (env0 : dict Qc) (inv : nat -> Qc) : string -> Qc -> Prop :=
| means_gf : forall v, In v (dkeys reg) -> means F k reg cpars ctrl mem env0 inv v (mem v (0, 0, 0)%Z)
| means_given : forall v q, ~ In v (dkeys reg) -> In v cpars \/ ~ derivative_name v -> dget v env0 = Some q ->
    means F k reg cpars ctrl mem env0 inv v q
| means_deriv : forall c s, ~ In (symbol c s) (dkeys reg) -> ~ In (symbol c s) cpars -> comp_ok c -> valid s ->
    is_updown s = false -> means F k reg cpars ctrl mem env0 inv (symbol c s) (deriv_value k mem inv (comp_text c) s)
| means_upwind : forall c d, ~ In (symbol c (Up d)) (dkeys reg) -> ~ In (symbol c (Up d)) cpars -> comp_ok c -> d < 3 ->
    means F k reg cpars ctrl mem env0 inv (symbol c (Up d))
      (upwind_value F k reg ctrl mem env0 inv (comp_text c) d).

(** The control vector can be evaluated: each of its symbols is a gridfunction that also occurs in the
    expressions, or given. *)
Definition ctrl_available (reg : registry) (free : list string) (ctrl : option (list kexpr)) (env0 : dict Qc) : Prop :=
  forall cl d v, ctrl = Some cl -> d < 3 -> In v (kvars (nth d cl (KNum 0))) ->
    (In v (dkeys reg) /\ In v free) \/ (~ In v (dkeys reg) /\ dget v env0 <> None).

(** Every other symbol of the expressions is given. *)
Definition given_ok (reg : registry) (cpars free : list string) (env0 : dict Qc) : Prop :=
  forall v, In v free -> ~ In v (dkeys reg) -> In v cpars \/ ~ derivative_name v -> dget v env0 <> None.

(** ** Symbols *)
Lemma op_text_inj : forall s s', valid s -> valid s' -> op_text s = op_text s' -> s = s'.
Proof.
  intros s s' V V' H. finite s V;
    (destruct s' as [d'|d'|d'|d'|a' b']; cbn [valid] in V';
     [three d'|three d'|three d'|three d'|destruct V' as [V1' V2']; three a'; three b']);
    (reflexivity || discriminate H).
Qed.

Lemma symbol_inj : forall c s c' s', comp_ok c -> valid s -> comp_ok c' -> valid s' ->
  symbol c s = symbol c' s' -> comp_text c = comp_text c' /\ s = s'.
Proof.
  intros c s c' s' C V C' V' E. pose proof (symbol_parse c s C V) as P. rewrite E in P.
  rewrite (symbol_parse c' s' C' V') in P. inversion P. split; auto. apply op_text_inj; auto.
Qed.

Lemma lhs_name_symbol : forall c c' s, symbol c s = symbol c' s -> lhs_name c s = lhs_name c' s.
Proof. intros c c' s E. unfold lhs_name. now rewrite E. Qed.

Lemma Forall_pull : forall (A B : Type) (f : A -> B) (P : A -> Prop) l,
  (forall v, In v l -> exists x, P x /\ v = f x) -> exists l', l = map f l' /\ Forall P l'.
Proof.
  intros A B f P l; induction l as [|v l IH]; intros H.
  - exists []. split; auto.
  - destruct IH as (l' & -> & F); [intros; apply H; cbn; auto|]. destruct (H v) as (x & Px & ->); [cbn; auto|].
    exists (x :: l'). split; auto.
Qed.

Lemma vars_list : forall order reg cpars free, (forall l, Permutation l (order l)) -> no_clash reg cpars free ->
  derivs_ok reg cpars free ->
  exists l, extract_deriv_vars order reg cpars free true = Ok (map sy l) /\
    Forall cs_ok l /\ (forall x, In x l -> In (cbase x) (dkeys reg)) /\
    (forall c s, comp_ok c -> valid s -> needs_fd reg cpars free (symbol c s) ->
       exists x, In x l /\ sy x = symbol c s /\ cbase x = comp_text c /\ snd x = s) /\
    (forall x d, In x l -> snd x = Up d -> exists y, In y l /\ sy y = symbol (fst x) (Dn d) /\
       cbase y = cbase x /\ snd y = Dn d).
Proof.
  intros order reg cpars free Ho Hc Hd.
  destruct (extract_spec order reg cpars free true Ho Hc) as (vars & E & M & _).
  destruct (Forall_pull _ _ sy (fun x => cs_ok x /\ In (cbase x) (dkeys reg)) vars) as (l & -> & Fl).
  { intros v Hv. apply M in Hv. destruct Hv as [Hv|(_ & u & Hu & Hp & ->)].
    - destruct (Hd v Hv) as (c & s & C & V & _ & -> & I). exists (c, s). split; [split; [split|]|]; auto.
    - destruct (Hd u Hu) as (c & s & C & V & ND & -> & I).
      assert (S : exists d, s = Up d).
      { pose proof (symbol_updown c s C V) as U. rewrite Hp in U. cbn in U. destruct s as [d|d|d|d|a b]; try discriminate; eauto.
        exfalso. apply (ND d). auto. }
      destruct S as (d & ->). exists (c, Dn d). split; [split; [split|]|]; auto.
      apply (symbol_partner c d C V). }
  assert (Fl' : forall x, In x l -> cs_ok x /\ In (cbase x) (dkeys reg)) by (now apply Forall_forall).
  assert (G : forall c s, comp_ok c -> valid s -> In (symbol c s) (map sy l) ->
       exists x, In x l /\ sy x = symbol c s /\ cbase x = comp_text c /\ snd x = s).
  { intros c s C V Q. apply in_map_iff in Q. destruct Q as (x & Ex & Hx). exists x. split; auto. split; auto.
    destruct (Fl' x Hx) as [[C' V'] _]. destruct (symbol_inj _ _ _ _ C' V' C V Ex). auto. }
  exists l. split; auto. split; [apply Forall_forall; intros x Hx; apply (Fl' x Hx)|]. split; [intros x Hx; apply (Fl' x Hx)|].
  split.
  - intros c s C V N. apply G; auto. apply M. auto.
  - intros x d Hx Ex. destruct (Fl' x Hx) as [[C V] I]. rewrite Ex in V.
    destruct (G (fst x) (Dn d) C V) as (y & Hy & A & B & D).
    + apply M. right. split; auto.
      assert (Q : In (sy x) (map sy l)) by now apply in_map. unfold sy in Q. rewrite Ex in Q. apply M in Q.
      destruct Q as [Q|(_ & u & Hu & Hp & Q)].
      * exists (symbol (fst x) (Up d)). destruct (symbol_partner (fst x) d C V). auto.
      * exfalso. destruct (Hd u Hu) as (c & s & C' & V' & ND & -> & _).
        assert (S : exists d, s = Up d).
        { pose proof (symbol_updown c s C' V') as U. rewrite Hp in U. cbn in U. destruct s as [e|e|e|e|a b]; try discriminate; eauto.
          exfalso. apply (ND e). auto. }
        destruct S as (e & ->). rewrite (proj2 (symbol_partner c e C' V')) in Q.
        destruct (symbol_inj _ _ _ _ C V C' (V' : valid (Dn e)) Q) as [_ Q2]. discriminate.
    + exists y. auto.
Qed.

(** ** The generated kernel, all at once *)
Definition opts_ok (infra : string) (o : codegen_opts) (fdf0 : dict kexpr) : Prop :=
  style_ok (o_mem_alloc_style o) /\ (o_simd o = true -> In infra ["BHaH"; "CarpetX"; "ETLegacy"]%string) /\
  ctrl_long (o_ctrl o) /\ (o_enable_fd_codegen o = true \/ fdf0 = []).

Lemma codegen_shape : forall order reg cpars infra o exprs outs fdf0 k,
  (forall l, Permutation l (order l)) -> registry_ok reg -> no_clash reg cpars (flat_map kvars exprs) ->
  derivs_ok reg cpars (flat_map kvars exprs) -> 1 <= k -> o_fd_order o = 2 * k -> opts_ok infra o fdf0 ->
  List.length outs = List.length exprs ->
  exists l reads fdf', 
    c_codegen_gf order reg cpars infra o exprs outs fdf0 =
      Ok (MkKernel (step1 k l (o_ctrl o) (o_fd_functions o) reads ++ step2 l (o_ctrl o)) (combine outs exprs) (o_simd o), fdf') /\
    Forall cs_ok l /\
    (forall c s, comp_ok c -> valid s -> needs_fd reg cpars (flat_map kvars exprs) (symbol c s) ->
       exists x, In x l /\ sy x = symbol c s /\ cbase x = comp_text c /\ snd x = s) /\
    (forall x d, In x l -> snd x = Up d -> exists y, In y l /\ sy y = symbol (fst x) (Dn d) /\
       cbase y = cbase x /\ snd y = Dn d) /\
    (forall v, In v (dkeys reg) -> In v (flat_map kvars exprs) -> exists r, In r reads /\ read_stmt r = (v, RRead v (0, 0, 0)%Z)) /\
    (forall x p, In x l -> In p (snd (Rop k (cop x))) ->
       exists r, In r reads /\ read_stmt r = (temp_name (cbase x) p, RRead (cbase x) p)) /\
    (l <> [] -> reads <> []).
Proof.
  intros order reg cpars infra o exprs outs fdf0 k Ho (R1 & R2 & R3) Hc Hd Hk Hf (O1 & O2 & O3 & O4) Hl.
  set (free := flat_map kvars exprs) in *.
  destruct (vars_list order reg cpars free Ho Hc Hd) as (l & E & Fl & B & G & P).
  assert (Gn : forall n gf, dget n reg = Some gf -> g_name gf <> ""%string).
  { intros n gf Hn. destruct (R3 n gf Hn) as [-> Q]. auto. }
  destruct (reads_spec reg cpars infra (map cbase l) (map (fun x => snd (Rop k (cop x))) l) free
              (o_mem_alloc_style o) (o_simd o) R1 R2 Gn O1 O2 Hc) as (reads & ER & M & N & V & _ & _).
  { now rewrite !map_length. }
  assert (Vr : forall r, In r reads -> read_stmt r = (temp_name (r_gf r) (r_pt r), RRead (r_gf r) (r_pt r))).
  { intros r Hr. destruct (V r Hr) as (gf & D & Q). unfold read_stmt. destruct (R3 _ _ D) as [Q2 _].
    f_equal. rewrite Q. cbn [the_read r_var r_gf r_pt]. now rewrite Q2. }
  assert (Pt : forall x p, In x l -> In p (snd (Rop k (cop x))) ->
       exists r, In r reads /\ read_stmt r = (temp_name (cbase x) p, RRead (cbase x) p)).
  { intros x p Hx Hp. destruct (proj2 (M (cbase x) p)) as (r & Hr & E1 & E2).
    - split; [apply B; auto|]. left. apply In_nth_error in Hx. destruct Hx as (m & Hm).
      exists m, (snd (Rop k (cop x))). split; [now apply map_nth_error|]. split; auto.
      now apply (map_nth_error (fun x => snd (Rop k (cop x)))).
    - exists r. split; auto. rewrite Vr by auto. now rewrite E1, E2. }
  destruct (fd_codegen_ok k l exprs outs reads (o_ctrl o) (o_fd_functions o) (o_simd o) _ Hk Fl O3 eq_refl) as (fdf' & EK).
  exists l, reads, fdf'. split; [|split; [exact Fl|split; [exact G|split; [exact P|split; [|split; [exact Pt|]]]]]].
  - unfold c_codegen_gf. replace (if o_enable_fd_codegen o then [] else fdf0) with (@nil (string * kexpr))
      by (destruct O4 as [-> | ->]; auto; destruct (o_enable_fd_codegen o); auto).
    rewrite Hl, Nat.eqb_refl. cbn [negb]. fold free. rewrite E. cbn [py_bind]. rewrite extract_ok by auto. cbn [py_bind].
    rewrite Hf. rewrite op_dict_ok.
    + cbn [py_bind]. rewrite stencils_ok.
      * cbn [py_bind]. rewrite map_map.
        match goal with |- py_bind ?m _ = _ => replace m with (Ok (A := list read) reads) by (symmetry; exact ER) end.
        cbn [py_bind]. exact EK.
      * intros o' Ho'. apply (superfast_uniq_spec String.eqb String.eqb_eq). auto.
    + auto.
    + apply Forall_forall. intros o' Ho'. apply (proj1 (proj1 (proj2 (superfast_uniq_spec String.eqb String.eqb_eq _)) _)) in Ho'.
      apply in_map_iff in Ho'. destruct Ho' as (x & <- & Hx). rewrite Forall_forall in Fl. exists (snd x). split; auto.
      apply Fl; auto.
  - intros v Hv Hf'. destruct (proj2 (M v (0, 0, 0)%Z)) as (r & Hr & E1 & E2).
    + split; auto.
    + exists r. split; auto. rewrite Vr by auto. rewrite E1, E2. f_equal. unfold temp_name. cbn [part].
      now rewrite sapp_nil_r.
  - intros Nl. destruct l as [|x l']; [congruence|]. inversion Fl as [|? ? [Cx Vx] _]; subst.
    destruct (Rop_ok k (cop x) Hk) as [_ [_ Ne]]; [exists (snd x); auto|].
    destruct (snd (Rop k (cop x))) as [|p0 ps] eqn:S; [congruence|].
    destruct (Pt x p0) as (r & Hr & _); [cbn; auto|rewrite S; cbn; auto|]. intros ->. destruct Hr.
Qed.

(** ** Soundness *)
Section Sound.
Variables (F : string -> Qc -> Qc) (mem : string -> pt -> Qc) (inv : nat -> Qc) (k : nat)
  (reg : registry) (cpars : list string) (ctrl : option (list kexpr)) (fdfun : bool) (free : list string)
  (l : list (comp_name * dsym)) (reads : list read) (env0 env1 : dict Qc).
Hypothesis Hl : Forall cs_ok l.
Hypothesis Hpartner : forall x d, In x l -> snd x = Up d -> exists y, In y l /\ sy y = symbol (fst x) (Dn d) /\
   cbase y = cbase x /\ snd y = Dn d.
Hypothesis Hfree : forall v, In v (dkeys reg) -> In v free -> exists r, In r reads /\ read_stmt r = (v, RRead v (0, 0, 0)%Z).
Hypothesis Hpts : forall x p, In x l -> In p (snd (Rop k (cop x))) ->
   exists r, In r reads /\ read_stmt r = (temp_name (cbase x) p, RRead (cbase x) p).
Hypothesis Hne : l <> [] -> reads <> [].
Hypothesis Hinv : forall d, d < 3 -> dget (inv_name d) env0 = Some (inv d).
Hypothesis Hrun : run_decls F mem env0 (step1 k l ctrl fdfun reads ++ step2 l ctrl) = Some env1.

Notation decls := (step1 k l ctrl fdfun reads ++ step2 l ctrl).

Lemma by_name_total : forall (A : Type) (x y : string * A), by_name x y = true \/ by_name y x = true.
Proof. intros. apply string_leb_tot. Qed.
Lemma by_name_trans : forall (A : Type) (x y z : string * A), by_name x y = true -> by_name y z = true -> by_name x z = true.
Proof. intros A x y z. unfold by_name. apply string_leb_trans. Qed.

Lemma In_reads : forall r, In r reads -> In (read_stmt r) decls.
Proof.
  intros r Hr. apply in_or_app. left. unfold step1. destruct reads as [|r0 rs]; [destruct Hr|].
  destruct fdfun; apply in_or_app; left; now apply in_map.
Qed.

Lemma In_entry : forall x, In x l ->
  if fdfun then In (call_entry k x) decls else In (as_rhs (deriv_entry k x)) decls.
Proof.
  intros x Hx. assert (R : reads <> []) by (apply Hne; intros ->; destruct Hx).
  unfold step1. destruct reads as [|r0 rs]; [congruence|]. destruct fdfun.
  - apply in_or_app; left. apply in_or_app; right. apply in_or_app; left.
    apply (In_py_sorted by_name (by_name_total _) (by_name_trans _)). now apply in_map.
  - apply in_or_app; left. apply in_or_app; right. apply in_map.
    apply (In_py_sorted by_name (by_name_total _) (by_name_trans _)). apply in_or_app; left. now apply in_map.
Qed.

Lemma In_ctrl : forall cl d, ctrl = Some cl -> In d (used_dirs ctrl l) -> In (as_rhs (ctrl_entry cl d)) decls.
Proof.
  intros cl d Hc Hd. assert (R : reads <> []).
  { apply Hne. intros E. rewrite Hc in Hd. apply In_used_dirs in Hd. destruct Hd as (x & Hx & _). rewrite E in Hx. destruct Hx. }
  unfold step1. rewrite Hc in *. destruct reads as [|r0 rs]; [congruence|]. destruct fdfun.
  - apply in_or_app; left. apply in_or_app; right. apply in_or_app; right. apply in_map. now apply in_map.
  - apply in_or_app; left. apply in_or_app; right. apply in_map.
    apply (In_py_sorted by_name (by_name_total _) (by_name_trans _)). apply in_or_app; right. now apply in_map.
Qed.

Lemma ext01 : extends (look env0) (look env1).
Proof. apply (run_decls_sound F mem _ _ _ Hrun). Qed.
Lemma holds : forall x r, In (x, r) decls -> exists v, dget x env1 = Some v /\ rhs_value F mem env1 r = Some v.
Proof. apply (run_decls_sound F mem _ _ _ Hrun). Qed.

Lemma read_value : forall r n g p, In r reads -> read_stmt r = (n, RRead g p) -> dget n env1 = Some (mem g p).
Proof.
  intros r n g p Hr E. pose proof (In_reads r Hr) as Q. rewrite E in Q. destruct (holds _ _ Q) as (v & V & R).
  cbn in R. congruence.
Qed.

Lemma fd_params_spec : forall e x, (forall y, In y (kvars e) -> py_in "FDPart1_" y = false) ->
  In x (kvars e) -> In x (fd_params e).
Proof.
  intros e x H Hx. unfold fd_params. apply (In_py_sorted String.leb string_leb_tot string_leb_trans).
  apply filter_In. split; [|now rewrite H].
  now apply (superfast_uniq_spec String.eqb String.eqb_eq).
Qed.
Lemma fd_params_sub : forall e x, In x (fd_params e) -> In x (kvars e).
Proof.
  intros e x H. unfold fd_params in H. apply (proj1 (In_py_sorted String.leb string_leb_tot string_leb_trans _ _)) in H.
  apply filter_In in H. destruct H as [H _]. now apply (proj1 (proj1 (proj2 (superfast_uniq_spec String.eqb String.eqb_eq _)) _)) in H.
Qed.

Lemma scale_dirs_valid : forall s d, valid s -> In d (scale_dirs s) -> d < 3.
Proof. intros s d V H. destruct s; cbn in *; intuition (subst; auto). Qed.
Lemma rename_inv : forall b d, d < 3 -> rename_proto b (inv_name d) = inv_name d /\ py_replace "FDPROTO" b (inv_name d) = inv_name d
  /\ py_in "FDPart1_" (inv_name d) = false.
Proof. intros b d H. three d; (split; [reflexivity|split; reflexivity]). Qed.

Lemma proto_const : forall s r y, valid s -> In y (kvars (proto_expr s r)) -> py_in "FDPart1_" y = false.
Proof.
  intros s r y V H. apply proto_vars in H. destruct H as [(p & _ & ->)|(d & Hd & ->)].
  - apply temp_not_const.
  - apply (rename_inv ""). eapply scale_dirs_valid; eauto.
Qed.

(** The finite-difference statements. *)
Lemma deriv_stmt_value : forall x, In x l ->
  dget (lhs_name (fst x) (snd x)) env1 = Some (deriv_value k mem inv (cbase x) (snd x)).
Proof.
  intros x Hx. pose proof (proj1 (Forall_forall _ _) Hl x Hx) as [C V].
  assert (T : forall p, In p (snd (Rop k (cop x))) -> dget (temp_name (cbase x) p) env1 = Some (mem (cbase x) p)).
  { intros p Hp. destruct (Hpts x p Hx Hp) as (r & Hr & E). eapply read_value; eauto. }
  assert (I : forall d, In d (scale_dirs (snd x)) -> dget (inv_name d) env1 = Some (inv d)).
  { intros d Hd. apply ext01. apply Hinv. eapply scale_dirs_valid; eauto. }
  pose proof (In_entry x Hx) as Q. pose proof holds as HD. clear Hpts. destruct fdfun.
  - unfold call_entry in Q. destruct (HD _ _ Q) as (v & Vv & R). rewrite Vv. rewrite <- R. cbn [rhs_value].
    set (e := proto_expr (snd x) (Rop k (cop x))) in *.
    destruct (bind_args_map (look env1) (py_replace "FDPROTO" (cbase x)) (fd_params e)) as (dd & -> & G).
    + intros y Hy. apply fd_params_sub in Hy. apply proto_vars in Hy. destruct Hy as [(p & Hp & ->)|(d & Hd & ->)].
      * rewrite rename_temp, T by auto. discriminate.
      * destruct (rename_inv (cbase x) d) as (_ & -> & _); [eapply scale_dirs_valid; eauto|]. rewrite I by auto. discriminate.
    + rewrite (keval_ext F (look dd) (fun y => dget (py_replace "FDPROTO" (cbase x) y) env1)).
      * unfold e. apply keval_proto.
        -- intros p Hp. rewrite rename_temp. auto.
        -- intros d Hd. destruct (rename_inv (cbase x) d) as (_ & -> & _); [eapply scale_dirs_valid; eauto|]. auto.
      * intros y Hy. apply G. apply fd_params_spec; auto. intros z Hz. eapply proto_const; eauto.
  - unfold as_rhs, deriv_entry in Q. cbn [fst snd] in Q. destruct (HD _ _ Q) as (v & Vv & R). rewrite Vv. rewrite <- R.
    cbn [rhs_value]. rewrite keval_rename. apply keval_proto.
    + intros p Hp. rewrite rename_proto_temp. auto.
    + intros d Hd. destruct (rename_inv (cbase x) d) as (-> & _ & _); [eapply scale_dirs_valid; eauto|]. auto.
Qed.

Hypothesis Hctrl : ctrl_available reg free ctrl env0.

Lemma gf_value : forall v, In v (dkeys reg) -> In v free -> dget v env1 = Some (mem v (0, 0, 0)%Z).
Proof. intros v H1 H2. destruct (Hfree v H1 H2) as (r & Hr & E). eapply read_value; eauto. Qed.

Lemma dmem_keys : forall v, dmem v reg = true <-> In v (dkeys reg).
Proof.
  intros v. unfold dmem. destruct (dget v reg) eqn:E.
  - split; auto. intros _. apply dget_In in E. unfold dkeys. apply in_map_iff. exists (v, g). auto.
  - apply dget_None_keys in E. split; [discriminate|contradiction].
Qed.

Lemma base_value : forall v, (In v (dkeys reg) /\ In v free) \/ (~ In v (dkeys reg) /\ dget v env0 <> None) ->
  dget v env1 = base_env reg mem env0 v /\ dget v env1 <> None.
Proof.
  intros v [[H1 H2]|[H1 H2]]; unfold base_env.
  - rewrite (proj2 (dmem_keys v) H1). rewrite gf_value by auto. split; [auto|discriminate].
  - destruct (dmem v reg) eqn:E; [apply dmem_keys in E; contradiction|].
    destruct (dget v env0) as [q|] eqn:Q; [|congruence]. rewrite (ext01 _ _ Q). split; [auto|discriminate].
Qed.

Lemma up_stmt_value : forall x d, In x l -> snd x = Up d ->
  dget (sy x) env1 = Some (upwind_value F k reg ctrl mem env0 inv (cbase x) d).
Proof.
  intros x d Hx Ex. pose proof (proj1 (Forall_forall _ _) Hl x Hx) as [C V]. rewrite Ex in V.
  destruct (Hpartner x d Hx Ex) as (y & Hy & Sy & By & Ey).
  pose proof (deriv_stmt_value x Hx) as U. rewrite Ex in U.
  pose proof (deriv_stmt_value y Hy) as D. rewrite By in D. rewrite Ey in D.
  unfold sy in Sy. rewrite Ey in Sy. rewrite (lhs_name_symbol _ _ _ Sy) in D.
  assert (Q : In (as_rhs (sy x, up_expr (used_dirs ctrl l) (fst x) d)) decls).
  { apply in_or_app. right. unfold step2. apply in_or_app. right. apply in_map. unfold up_entries.
    apply in_flat_map. exists x. split; auto. rewrite Ex. cbn; auto. }
  destruct (holds _ _ Q) as (v & Vv & R). change (dget (sy x) env1 = Some v) in Vv. rewrite Vv. rewrite <- R.
  cbn [snd rhs_value up_expr keval]. rewrite U, D. unfold upwind_value.
  set (vu := deriv_value k mem inv (cbase x) (Up d)). set (vd := deriv_value k mem inv (cbase x) (Dn d)).
  assert (Ec : ctrl = None \/ exists cl, ctrl = Some cl) by (destruct ctrl; eauto).
  destruct Ec as [Ec|(cl & Ec)].
  - rewrite Ec. cbn [used_dirs existsb keval]. f_equal. change (qz (-1)) with (- qz 1)%Qc. ring.
  - assert (Hd : In d (used_dirs ctrl l)) by (rewrite Ec; apply In_used_dirs; eauto).
    replace (existsb (Nat.eqb d) (used_dirs ctrl l)) with true.
    2:{ symmetry. apply existsb_exists. exists d. split; auto. apply Nat.eqb_refl. }
    cbn [keval].
    assert (Q2 : In (up_name d, RUpwind (ctrl_name d)) decls).
    { apply in_or_app. right. unfold step2. apply in_or_app. left.
      apply (in_map (fun d => (up_name d, RUpwind (ctrl_name d)))). auto. }
    destruct (holds _ _ Q2) as (w & Vw & Rw). rewrite Vw. cbn [rhs_value] in Rw.
    pose proof (In_ctrl cl d Ec Hd) as Q3.
    destruct (holds _ _ Q3) as (z & Vz & Rz). change (dget (ctrl_name d) env1 = Some z) in Vz.
    cbn [snd ctrl_entry rhs_value] in Rz.
    rewrite Vz in Rw. cbn [option_map] in Rw. inversion Rw; subst w.
    rewrite (keval_ext F (look env1) (base_env reg mem env0)) in Rz.
    2:{ intros u Hu. apply base_value. eapply Hctrl; eauto. }
    rewrite Ec, Rz. unfold upwind_alg. change (qz (-1)) with (- qz 1)%Qc. rewrite qz_1.
    destruct (Qclt_le_dec 0 z); f_equal; ring.
Qed.

Lemma symbol_value : no_clash reg cpars free -> derivs_ok reg cpars free -> given_ok reg cpars free env0 ->
  (forall c s, comp_ok c -> valid s -> needs_fd reg cpars free (symbol c s) ->
     exists x, In x l /\ sy x = symbol c s /\ cbase x = comp_text c /\ snd x = s) ->
  forall v, In v free -> exists q, dget v env1 = Some q /\ means F k reg cpars ctrl mem env0 inv v q.
Proof.
  intros Hc Hd Hg G v Hv. destruct (dmem v reg) eqn:Hr.
  - apply dmem_keys in Hr. exists (mem v (0, 0, 0)%Z). split; [now apply gf_value|now constructor].
  - assert (Nr : ~ In v (dkeys reg)) by (intros Q; apply dmem_keys in Q; congruence).
    assert (Dec : (In v cpars \/ ~ derivative_name v) \/ (~ In v cpars /\ derivative_name v)).
    { destruct (in_dec string_dec v cpars); auto. rewrite <- deriv_like_spec. destruct (deriv_like v); auto. }
    destruct Dec as [Q|[Q1 Q2]].
    + destruct (dget v env0) as [q|] eqn:E; [|exfalso; revert E; now apply Hg].
      exists q. split; [now apply ext01|now constructor].
    + assert (Nd : needs_fd reg cpars free v).
      { split; auto. split; auto. unfold dmem in Hr. destruct (dget v reg); congruence. }
      destruct (Hd v Nd) as (c & s & C & V & ND & -> & I). destruct (G c s C V Nd) as (x & Hx & Sx & Bx & Ex).
      destruct (is_updown s) eqn:U.
      * destruct s as [d|d|d|d|a b]; try discriminate; [|exfalso; apply (ND d); auto].
        exists (upwind_value F k reg ctrl mem env0 inv (comp_text c) d).
        split; [|now constructor]. rewrite <- Bx, <- Sx. now apply up_stmt_value.
      * exists (deriv_value k mem inv (comp_text c) s). split; [|now constructor].
        pose proof (deriv_stmt_value x Hx) as D. rewrite Ex, Bx in D. unfold lhs_name in D. rewrite U in D.
        unfold sy in Sx. rewrite Ex in Sx. now rewrite Sx in D.
Qed.
End Sound.

(** ** The kernel runs *)
Lemma block_total : forall F mem b env, NoDup (map fst b) -> (forall x, In x (map fst b) -> dget x env = None) ->
  (forall r, In r (map snd b) -> call_ok r) ->
  (forall x r y, In (x, r) b -> In y (rhs_vars r) -> dget y env <> None) ->
  exists env', run_decls F mem env b = Some env' /\
    forall y, dget y env' <> None <-> dget y env <> None \/ In y (map fst b).
Proof.
  intros F mem b; induction b as [|[x r] b IH]; intros env N Fr C U; cbn [run_decls].
  - exists env. split; auto. intros y. cbn. tauto.
  - cbn [map fst snd] in *. inversion N as [|? ? Nx N']; subst. unfold run_decl. cbn [fst snd].
    assert (X : dget x env = None) by (apply Fr; cbn; auto). unfold dmem. rewrite X.
    destruct (rhs_total F mem env r) as [v ->]; [apply C; cbn; auto|intros y Hy; eapply U; cbn; eauto|].
    destruct (IH (dset x v env)) as (env' & E & M); auto.
    + intros y Hy. rewrite dget_dset. destruct (String.eqb_spec y x) as [->|]; [contradiction|]. apply Fr; cbn; auto.
    + intros r' Hr. apply C; cbn; auto.
    + intros y r' z Hy Hz. rewrite dget_dset. destruct (String.eqb z x); [discriminate|]. eapply U; cbn; eauto.
    + exists env'. split; auto. intros y. rewrite M, dget_dset.
      destruct (String.eqb_spec y x) as [->|Ne].
      * split; intros Q; [right; left; reflexivity|left; discriminate].
      * split; intros Q; [destruct Q as [Q|Q]; [left; exact Q|right; right; exact Q]|]. destruct Q as [Q|[Q|Q]]; auto.
Qed.

Lemma NoDup_app_remove_l : forall (A : Type) (a b : list A), NoDup (a ++ b) -> NoDup b.
Proof. intros A a b; induction a as [|x a IH]; cbn; auto. intros H; inversion H; auto. Qed.
Lemma NoDup_app_remove_r : forall (A : Type) (a b : list A), NoDup (a ++ b) -> NoDup a.
Proof.
  intros A a b; induction a as [|x a IH]; cbn; intros H; constructor; inversion H; auto.
  intros Q. apply H2. apply in_or_app; auto.
Qed.

Lemma run_decls_app : forall F mem a b env env1, run_decls F mem env a = Some env1 ->
  run_decls F mem env (a ++ b) = run_decls F mem env1 b.
Proof.
  intros F mem a; induction a as [|s a IH]; intros b env env1 H; cbn [run_decls app] in *; [congruence|].
  destruct (run_decl F mem env s); [|discriminate]. auto.
Qed.

Lemma block_next : forall F mem a b env env1, run_decls F mem env a = Some env1 ->
  (forall y, dget y env1 <> None <-> dget y env <> None \/ In y (map fst a)) ->
  NoDup (map fst (a ++ b)) -> (forall x, In x (map fst (a ++ b)) -> dget x env = None) ->
  (forall r, In r (map snd b) -> call_ok r) ->
  (forall x r y, In (x, r) b -> In y (rhs_vars r) -> dget y env <> None \/ In y (map fst a)) ->
  exists env2, run_decls F mem env (a ++ b) = Some env2 /\
    forall y, dget y env2 <> None <-> dget y env <> None \/ In y (map fst (a ++ b)).
Proof.
  intros F mem a b env env1 R M N Fr C U. rewrite map_app in N, Fr.
  destruct (block_total F mem b env1) as (env2 & R2 & M2).
  - eapply NoDup_app_remove_l; eauto.
  - intros x Hx. destruct (dget x env1) eqn:E; auto. exfalso.
    assert (Q : dget x env1 <> None) by congruence. apply M in Q. destruct Q as [Q|Q].
    + apply Q. apply Fr. apply in_or_app; auto.
    + clear -N Hx Q. induction (map fst a) as [|z zs IH]; [destruct Q|]. cbn in N. inversion N; subst.
      destruct Q as [->|Q]; auto. apply H1. apply in_or_app; auto.
  - auto.
  - intros x r y Hx Hy. apply M. eauto.
  - exists env2. rewrite (run_decls_app _ _ _ _ _ _ R). split; auto. intros y. rewrite M2, M, map_app, in_app_iff. tauto.
Qed.

Section Total.
Variables (F : string -> Qc -> Qc) (mem : string -> pt -> Qc) (k : nat)
  (reg : registry) (ctrl : option (list kexpr)) (fdfun : bool) (free : list string)
  (l : list (comp_name * dsym)) (reads : list read) (env0 : dict Qc).
Hypothesis Hl : Forall cs_ok l.
Hypothesis Hpartner : forall x d, In x l -> snd x = Up d -> exists y, In y l /\ sy y = symbol (fst x) (Dn d) /\
   cbase y = cbase x /\ snd y = Dn d.
Hypothesis Hfree : forall v, In v (dkeys reg) -> In v free -> exists r, In r reads /\ read_stmt r = (v, RRead v (0, 0, 0)%Z).
Hypothesis Hpts : forall x p, In x l -> In p (snd (Rop k (cop x))) ->
   exists r, In r reads /\ read_stmt r = (temp_name (cbase x) p, RRead (cbase x) p).
Hypothesis Hne : l <> [] -> reads <> [].
Hypothesis Hinv : forall d, d < 3 -> dget (inv_name d) env0 <> None.
Hypothesis Hctrl : ctrl_available reg free ctrl env0.

Notation decls := (step1 k l ctrl fdfun reads ++ step2 l ctrl).

(** What the first block may refer to. *)
Notation early y := (dget y%string env0 <> None \/ In y%string (map fst (map read_stmt reads))).

Lemma early_read : forall r n g p, In r reads -> read_stmt r = (n, RRead g p) -> early n.
Proof. intros r n g p Hr E. right. apply in_map_iff. exists (read_stmt r). split; [now rewrite E|now apply in_map]. Qed.

Lemma proto_early : forall x y, In x l -> In y (kvars (proto_expr (snd x) (Rop k (cop x)))) ->
  early (rename_proto (cbase x) y) /\ early (py_replace "FDPROTO" (cbase x) y).
Proof.
  intros x y Hx Hy. pose proof (proj1 (Forall_forall _ _) Hl x Hx) as [C V].
  apply proto_vars in Hy. destruct Hy as [(p & Hp & ->)|(d & Hd & ->)].
  - rewrite rename_temp, rename_proto_temp. destruct (Hpts x p Hx Hp) as (r & Hr & E).
    split; eapply early_read; eauto.
  - destruct (rename_inv (cbase x) d) as (-> & -> & _); [eapply scale_dirs_valid; eauto|].
    split; left; apply Hinv; eapply scale_dirs_valid; eauto.
Qed.

Lemma kvars_rename : forall f e, kvars (krename f e) = map f (kvars e).
Proof. intros f e; induction e; cbn [krename kvars]; auto; now rewrite map_app; f_equal. Qed.

Lemma ctrl_early : forall cl d y, ctrl = Some cl -> In d (used_dirs ctrl l) -> In y (kvars (nth d cl (KNum 0))) -> early y.
Proof.
  intros cl d y Ec Hd Hy. destruct (Hctrl cl d y Ec) as [[H1 H2]|[_ H]]; auto.
  - eapply used_dirs_bound; eauto.
  - destruct (Hfree y H1 H2) as (r & Hr & E). eapply early_read; eauto.
Qed.

(** The block after the reads. *)
Definition block2 : list (string * krhs) :=
  let cexprs := map (ctrl_entry (match ctrl with Some cl => cl | None => [] end)) (used_dirs ctrl l) in
  if fdfun then py_sorted by_name (map (call_entry k) l) ++ map as_rhs cexprs
  else map as_rhs (py_sorted by_name (map (deriv_entry k) l ++ cexprs)).

Lemma step1_eq : step1 k l ctrl fdfun reads = map read_stmt reads ++ block2.
Proof.
  unfold step1, block2. destruct reads as [|r rs].
  - assert (E : l = []) by (destruct l; auto; exfalso; apply Hne; [discriminate|auto]).
    rewrite E. assert (Q : used_dirs ctrl [] = []) by (destruct ctrl; reflexivity). rewrite Q. now destruct fdfun.
  - destruct fdfun; reflexivity.
Qed.

Lemma ctrl_entry_block2 : forall d y r, In d (used_dirs ctrl l) ->
  as_rhs (ctrl_entry (match ctrl with Some cl => cl | None => [] end) d) = (y, r) ->
  call_ok r /\ forall z, In z (rhs_vars r) -> early z.
Proof.
  intros d y r Hd E. inversion E; subst. cbn [call_ok rhs_vars]. split; auto. intros z Hz.
  assert (Ec : ctrl = None \/ exists cl, ctrl = Some cl) by (destruct ctrl; eauto).
  destruct Ec as [Ec|(cl & Ec)]; [rewrite Ec in Hd; destruct Hd|]. rewrite Ec in Hz. eapply ctrl_early; eauto.
Qed.

Lemma block2_ok : forall y r, In (y, r) block2 -> call_ok r /\ forall z, In z (rhs_vars r) -> early z.
Proof.
  intros y r H. unfold block2 in H. destruct fdfun.
  - apply in_app_or in H. destruct H as [H|H].
    + apply (proj1 (In_py_sorted by_name (by_name_total _) (by_name_trans _) _ _)), in_map_iff in H.
      destruct H as (x & E & Hx). unfold call_entry in E. inversion E; subst. cbn [call_ok rhs_vars].
      pose proof (proj1 (Forall_forall _ _) Hl x Hx) as [C V]. split.
      * split; [eauto|]. intros z Hz. apply fd_params_spec; auto. intros w Hw. eapply proto_const; eauto.
      * intros z Hz. apply in_map_iff in Hz. destruct Hz as (w & <- & Hw). apply fd_params_sub in Hw.
        now apply proto_early.
    + rewrite map_map in H. apply in_map_iff in H. destruct H as (d & E & Hd). eapply ctrl_entry_block2; eauto.
  - apply in_map_iff in H. destruct H as (p & E & H).
    apply (proj1 (In_py_sorted by_name (by_name_total _) (by_name_trans _) _ _)), in_app_or in H. destruct H as [H|H].
    + apply in_map_iff in H. destruct H as (x & <- & Hx). unfold as_rhs, deriv_entry in E. cbn [fst snd] in E.
      apply pair_equal_spec in E. destruct E as [_ <-]. cbn [call_ok rhs_vars]. split; auto. intros z Hz. rewrite kvars_rename in Hz. apply in_map_iff in Hz.
      destruct Hz as (w & <- & Hw). now apply proto_early.
    + apply in_map_iff in H. destruct H as (d & <- & Hd). eapply ctrl_entry_block2; eauto.
Qed.

Lemma ctrl_declared : forall d, In d (used_dirs ctrl l) -> In (ctrl_name d) (map fst block2).
Proof.
  intros d Hd. unfold block2. destruct fdfun; rewrite ?map_app.
  - apply in_or_app. right. rewrite !map_map. apply in_map_iff. exists d. auto.
  - rewrite map_map. apply in_map_iff. exists (ctrl_entry (match ctrl with Some cl => cl | None => [] end) d). split; auto.
    apply (In_py_sorted by_name (by_name_total _) (by_name_trans _)). apply in_or_app. right. now apply in_map.
Qed.
Lemma lhs_declared : forall x, In x l -> In (lhs_name (fst x) (snd x)) (map fst block2).
Proof.
  intros x Hx. unfold block2. destruct fdfun.
  - rewrite map_app. apply in_or_app. left. apply in_map_iff. exists (call_entry k x). split; auto.
    apply (In_py_sorted by_name (by_name_total _) (by_name_trans _)). now apply in_map.
  - rewrite map_map. apply in_map_iff. exists (deriv_entry k x). split; auto.
    apply (In_py_sorted by_name (by_name_total _) (by_name_trans _)). apply in_or_app. left. now apply in_map.
Qed.

Lemma decls_total : NoDup (map fst decls) -> (forall x, In x (map fst decls) -> dget x env0 = None) ->
  exists env1, run_decls F mem env0 decls = Some env1.
Proof.
  intros N Fr. rewrite step1_eq in *. unfold step2 in *. cbv zeta in *.
  set (b3 := map (fun d => (up_name d, RUpwind (ctrl_name d))) (used_dirs ctrl l)) in *.
  set (b4 := map as_rhs (up_entries (used_dirs ctrl l) l)) in *.
  set (b1 := map read_stmt reads) in *.
  replace ((b1 ++ block2) ++ b3 ++ b4) with (((b1 ++ block2) ++ b3) ++ b4) in * by (now rewrite app_assoc).
  assert (N3 : NoDup (map fst ((b1 ++ block2) ++ b3))) by (rewrite map_app in N; eapply NoDup_app_remove_r; eauto).
  assert (N2 : NoDup (map fst (b1 ++ block2))) by (rewrite map_app in N3; eapply NoDup_app_remove_r; eauto).
  assert (N1 : NoDup (map fst b1)) by (rewrite map_app in N2; eapply NoDup_app_remove_r; eauto).
  assert (F3 : forall x, In x (map fst ((b1 ++ block2) ++ b3)) -> dget x env0 = None).
  { intros x Hx. apply Fr. rewrite map_app. apply in_or_app; auto. }
  assert (F2 : forall x, In x (map fst (b1 ++ block2)) -> dget x env0 = None).
  { intros x Hx. apply F3. rewrite map_app. apply in_or_app; auto. }
  assert (F1 : forall x, In x (map fst b1) -> dget x env0 = None).
  { intros x Hx. apply F2. rewrite map_app. apply in_or_app; auto. }
  assert (R1 : forall x r, In (x, r) b1 -> exists g p, r = RRead g p).
  { intros x r Hx. unfold b1 in Hx. apply in_map_iff in Hx. destruct Hx as (rd & E & _). inversion E. eauto. }
  destruct (block_total F mem b1 env0) as (e1 & E1 & M1); auto.
  { intros r Hr. apply in_map_iff in Hr. destruct Hr as ((x & r') & <- & Hx). destruct (R1 _ _ Hx) as (g & p & ->). exact I. }
  { intros x r y Hx. destruct (R1 _ _ Hx) as (g & p & ->). intros []. }
  destruct (block_next F mem b1 block2 env0 e1) as (e2 & E2 & M2); auto.
  { intros r Hr. apply in_map_iff in Hr. destruct Hr as ((x & r') & <- & Hx). apply (block2_ok _ _ Hx). }
  { intros x r y Hx Hy. apply (block2_ok _ _ Hx); auto. }
  destruct (block_next F mem (b1 ++ block2) b3 env0 e2) as (e3 & E3 & M3); auto.
  { intros r Hr. apply in_map_iff in Hr. destruct Hr as ((x & r') & <- & Hx). unfold b3 in Hx.
    apply in_map_iff in Hx. destruct Hx as (d & E & _). inversion E. exact I. }
  { intros x r y Hx Hy. unfold b3 in Hx. apply in_map_iff in Hx. destruct Hx as (d & E & Hd). inversion E; subst.
    destruct Hy as [<-|[]]. right. rewrite map_app. apply in_or_app. right. now apply ctrl_declared. }
  destruct (block_next F mem ((b1 ++ block2) ++ b3) b4 env0 e3) as (e4 & E4 & _); auto.
  { intros r Hr. apply in_map_iff in Hr. destruct Hr as ((x & r') & <- & Hx). unfold b4 in Hx.
    apply in_map_iff in Hx. destruct Hx as (d & E & _). inversion E. exact I. }
  { intros x r y Hx Hy. unfold b4 in Hx. apply in_map_iff in Hx. destruct Hx as (q & E & Hq). inversion E; subst.
    unfold up_entries in Hq. apply in_flat_map in Hq. destruct Hq as (z & Hz & Hq).
    destruct (snd z) as [d|d|d|d|a b] eqn:Ez; try (destruct Hq; fail). destruct Hq as [<-|[]].
    destruct (Hpartner z d Hz Ez) as (w & Hw & Sw & _ & Ew).
    pose proof (lhs_declared z Hz) as L1. pose proof (lhs_declared w Hw) as L2. rewrite Ez in L1. rewrite Ew in L2.
    unfold sy in Sw. rewrite Ew in Sw. rewrite (lhs_name_symbol _ _ _ Sw) in L2.
    right. rewrite map_app. cbn [snd rhs_vars up_expr kvars] in Hy.
    assert (Hy' : y = lhs_name (fst z) (Up d) \/ y = lhs_name (fst z) (Dn d) \/
                  (y = up_name d /\ In d (used_dirs ctrl l))).
    { destruct (existsb (Nat.eqb d) (used_dirs ctrl l)) eqn:Ee; cbn in Hy; [|intuition].
      apply existsb_exists in Ee. destruct Ee as (d' & Hd' & Q). apply Nat.eqb_eq in Q. subst d'. intuition. }
    destruct Hy' as [->|[->|[-> Hd]]].
    - apply in_or_app. left. rewrite map_app. apply in_or_app. auto.
    - apply in_or_app. left. rewrite map_app. apply in_or_app. auto.
    - apply in_or_app. right. unfold b3. rewrite map_map. apply in_map_iff. exists d. auto. }
  eauto.
Qed.
End Total.
