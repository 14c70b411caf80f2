(** C41: the kernels generated for expressions with finite-differenced and upwinded derivatives.
    Specification vocabulary (KernelSound.v): [means] says what a symbol of the input expressions stands
    for (a gridfunction at the current point; a given parameter; a stencil applied to the gridfunction,
    times inverse grid spacings; the upwinded choice [upwind_value] between the dupD and ddnD stencils);
    [registry_ok], [derivs_ok], [opts_ok], [given_ok] and [ctrl_available] are the conditions on the
    input. *)
From Coq Require Import String Ascii List Arith ZArith Bool Lia Permutation Sorted QArith Qcanon.
From Verif Require Import PyBase PyBaseFacts PyList PyListFacts QcLib FDMatrix FDCoeffs FDCoeffsFacts FDOpsFacts
  Grid GridFacts FDRead FDReadFacts FDReadMem Kernel KernelFacts KernelGen KernelSound PropFD.
Import ListNotations.
Open Scope list_scope.
Open Scope nat_scope.

(** Everything the input has to satisfy for generation to succeed. *)
Definition input_ok (order : list string -> list string) (reg : registry) (cpars : list string) (infra : string)
  (o : codegen_opts) (exprs : list kexpr) (outs : list string) (fdf0 : dict kexpr) (k : nat) : Prop :=
  (forall l, Permutation l (order l)) /\ registry_ok reg /\ no_clash reg cpars (flat_map kvars exprs) /\
  derivs_ok reg cpars (flat_map kvars exprs) /\ 1 <= k /\ o_fd_order o = 2 * k /\ opts_ok infra o fdf0 /\
  List.length outs = List.length exprs.

(** The kernel is run with values of the inverse grid spacings and of every parameter. *)
Definition values_ok (reg : registry) (cpars : list string) (o : codegen_opts) (exprs : list kexpr)
  (env0 : dict Qc) (inv : nat -> Qc) : Prop :=
  (forall d, d < 3 -> dget (inv_name d) env0 = Some (inv d)) /\
  given_ok reg cpars (flat_map kvars exprs) env0 /\
  ctrl_available reg (flat_map kvars exprs) (o_ctrl o) env0.

(** Without SIMD the outputs are assigned one after the other. *)
Definition outs_ok (o : codegen_opts) (exprs : list kexpr) (outs : list string) : Prop :=
  NoDup outs /\ (o_simd o = false -> forall x e, In x outs -> In e exprs -> ~ In x (kvars e)).

(** Generation succeeds. *)
Theorem C41_generates : forall order reg cpars infra o exprs outs fdf0 k,
  input_ok order reg cpars infra o exprs outs fdf0 k ->
  exists K fdf', c_codegen_gf order reg cpars infra o exprs outs fdf0 = Ok (K, fdf').
Proof.
  intros order reg cpars infra o exprs outs fdf0 k (H1 & H2 & H3 & H4 & H5 & H6 & H7 & H8).
  destruct (codegen_shape order reg cpars infra o exprs outs fdf0 k H1 H2 H3 H4 H5 H6 H7 H8) as (l & reads & fdf' & E & _). eauto.
Qed.

Lemma combine_keys : forall (A B : Type) (a : list A) (b : list B), List.length a = List.length b ->
  map fst (combine a b) = a /\ map snd (combine a b) = b.
Proof.
  intros A B a; induction a as [|x a IH]; intros [|y b] H; try discriminate; auto.
  cbn in *. destruct (IH b) as [-> ->]; auto.
Qed.
Lemma combine_nth_error : forall (A B : Type) (a : list A) (b : list B) n x y, nth_error a n = Some x ->
  nth_error b n = Some y -> In (x, y) (combine a b).
Proof.
  intros A B a; induction a as [|z a IH]; intros b n x y Ha Hb; destruct n; try discriminate; destruct b; try discriminate; cbn in *.
  - left. congruence.
  - right. eauto.
Qed.

(** Whenever the generated code compiles and runs, every output is the value of its expression. *)
Theorem C41_kernel_value : forall F order reg cpars infra o exprs outs fdf0 k K fdf' mem env0 inv env',
  input_ok order reg cpars infra o exprs outs fdf0 k -> values_ok reg cpars o exprs env0 inv -> outs_ok o exprs outs ->
  c_codegen_gf order reg cpars infra o exprs outs fdf0 = Ok (K, fdf') -> run_kernel F mem K env0 = Some env' ->
  exists rho : string -> Qc,
    (forall v, In v (flat_map kvars exprs) -> means F k reg cpars (o_ctrl o) mem env0 inv v (rho v)) /\
    forall n x e, nth_error outs n = Some x -> nth_error exprs n = Some e ->
      dget x env' = keval F (fun v => Some (rho v)) e /\ dget x env' <> None.
Proof.
  intros F order reg cpars infra o exprs outs fdf0 k K fdf' mem env0 inv env'
    (H1 & H2 & H3 & H4 & H5 & H6 & H7 & H8) (V1 & V2 & V3) (O1 & O2) E R.
  destruct (codegen_shape order reg cpars infra o exprs outs fdf0 k H1 H2 H3 H4 H5 H6 H7 H8)
    as (l & reads & fdf'' & E' & Fl & G & P & Rd & Pts & Ne).
  rewrite E' in E. injection E as <- <-. unfold run_kernel in R. cbn [k_decls k_outs k_simd] in R.
  destruct (run_decls F mem env0 _) as [env1|] eqn:Run; [|discriminate].
  assert (SV : forall v, In v (flat_map kvars exprs) ->
    exists q, dget v env1 = Some q /\ means F k reg cpars (o_ctrl o) mem env0 inv v q).
  { eapply symbol_value; eauto. }
  exists (fun v => match dget v env1 with Some q => q | None => 0%Qc end). split.
  - intros v Hv. destruct (SV v Hv) as (q & -> & M). exact M.
  - intros n x e Hx He.
    assert (Ie : In e exprs) by (eapply nth_error_In; eauto).
    assert (Ev : keval F (look env1) e =
      keval F (fun v => Some (match dget v env1 with Some q => q | None => 0%Qc end)) e).
    { apply keval_ext. intros v Hv. destruct (SV v) as (q & -> & _); auto. apply in_flat_map. eauto. }
    pose proof (combine_nth_error _ _ _ _ _ _ _ Hx He) as C. destruct (combine_keys _ _ outs exprs H8) as [C1 C2].
    rewrite <- Ev. destruct (o_simd o) eqn:S.
    + destruct (out_values F env1 (combine outs exprs)) as [d|] eqn:Od; cbn in R; [|discriminate]. injection R as <-.
      destruct (out_values_spec F _ _ _ Od) as [D1 D2]. destruct (D2 _ _ C) as (q & Eq & Iq).
      rewrite C1 in D1. rewrite dupdate_get by (rewrite D1; auto).
      rewrite (In_dget x q d) by (auto; unfold dkeys; rewrite D1; auto). rewrite Eq. split; [auto|discriminate].
    + destruct (run_outs_value F _ _ _ R) as [_ Q].
      * rewrite C1. auto.
      * rewrite C1, C2. auto.
      * apply Q. auto.
Qed.

(** It does compile and run, so that in particular every gridfunction is read before it is used,
    provided no two of its names coincide. *)
Theorem C41_kernel_runs : forall F order reg cpars infra o exprs outs fdf0 k K fdf' mem env0 inv,
  input_ok order reg cpars infra o exprs outs fdf0 k -> values_ok reg cpars o exprs env0 inv ->
  c_codegen_gf order reg cpars infra o exprs outs fdf0 = Ok (K, fdf') ->
  NoDup (map fst (k_decls K)) -> (forall x, In x (map fst (k_decls K)) -> dget x env0 = None) ->
  exists env', run_kernel F mem K env0 = Some env'.
Proof.
  intros F order reg cpars infra o exprs outs fdf0 k K fdf' mem env0 inv
    (H1 & H2 & H3 & H4 & H5 & H6 & H7 & H8) (V1 & V2 & V3) E N Fr.
  destruct (codegen_shape order reg cpars infra o exprs outs fdf0 k H1 H2 H3 H4 H5 H6 H7 H8)
    as (l & reads & fdf'' & E' & Fl & G & P & Rd & Pts & Ne).
  rewrite E' in E. injection E as <- <-. cbn [k_decls] in N, Fr. unfold run_kernel. cbn [k_decls k_outs k_simd].
  destruct (decls_total F mem k reg (o_ctrl o) (o_fd_functions o) (flat_map kvars exprs) l reads env0 Fl P Rd Pts Ne)
    as (env1 & Run); auto.
  { intros d Hd. rewrite V1 by auto. discriminate. }
  rewrite Run.
  assert (SV : forall v, In v (flat_map kvars exprs) -> dget v env1 <> None).
  { intros v Hv. assert (X : exists q, dget v env1 = Some q /\ means F k reg cpars (o_ctrl o) mem env0 inv v q)
      by (eapply symbol_value; eauto). destruct X as (q & -> & _). discriminate. }
  assert (T : forall x e, In (x, e) (combine outs exprs) -> exists q, keval F (look env1) e = Some q).
  { intros x e He. apply in_combine_r in He. apply keval_total. intros v Hv. apply SV. apply in_flat_map. eauto. }
  destruct (o_simd o).
  - destruct (out_values_total F _ _ T) as [d ->]. cbn. eauto.
  - apply run_outs_total. auto.
Qed.

(** With polynomial data the values of the derivative symbols are the exact derivatives: [h] is the
    grid spacing, [p] the coefficients of the gridfunction along direction [d]. *)
Fixpoint pscale (c h : Qc) (p : list Qc) : list Qc :=
  match p with [] => [] | a :: r => (a * c)%Qc :: pscale (c * h)%Qc h r end.
Lemma pscale_eval : forall p c h x, peval (pscale c h p) x = (c * peval p (x * h))%Qc.
Proof. induction p as [|a p IH]; intros c h x; cbn [pscale peval]; [ring|]. rewrite IH. ring. Qed.
Lemma pscale_length : forall p c h, List.length (pscale c h p) = List.length p.
Proof. induction p; intros; cbn; auto. Qed.

Theorem C41_polynomial_data : forall k (mem : string -> pt -> Qc) inv g d h p, d < 3 -> 1 <= k ->
  (forall v, mem g (axis d v) = peval p (qz v * h)%Qc) -> List.length p <= 2 * k + 1 -> (inv d * h = 1)%Qc ->
  deriv_value k mem inv g (D1 d) = nth 1 p 0%Qc /\
  deriv_value k mem inv g (Up d) = nth 1 p 0%Qc /\
  deriv_value k mem inv g (Dn d) = nth 1 p 0%Qc /\
  deriv_value k mem inv g (D2 d d) = (qn 2 * nth 2 p 0)%Qc /\
  deriv_value k mem inv g (KO d) = 0%Qc.
Proof.
  intros k mem inv g d h p Hd Hk Hm Hl Hi.
  assert (Hq : forall v, mem g (axis d v) = peval (pscale 1 h p) (qz v)).
  { intros v. rewrite pscale_eval, Hm. ring. }
  assert (L : List.length (pscale 1 h p) <= 2 * k + 1) by (now rewrite pscale_length).
  assert (D : forall op, In op ["dD"; "dupD"; "ddnD"; "dfullupD"; "dfulldnD"]%string ->
    apply_stencil (Rop k (deriv_string op d)) (mem g) = (nth 1 p 0 * h)%Qc).
  { intros op Hop. destruct (C10_first_derivatives_exact [] op d k (mem g) _ Hop Hd Hk Hq L) as (r & E & A).
    unfold Rop. rewrite E, A. destruct p as [|a [|b p]]; cbn [pscale pderiv tl pderiv_from peval nth]; rewrite ?qn_1; ring. }
  assert (I : forall x, (x * h * inv d = x)%Qc).
  { intros x. rewrite <- Qcmult_assoc. rewrite (Qcmult_comm h). rewrite Hi. ring. }
  unfold deriv_value. cbn [op_text scale]. rewrite !D by (cbn; tauto). rewrite I.
  split; [auto|split; [auto|split; [auto|split]]].
  - destruct (C10_second_derivatives_exact [] d k (mem g) _ Hd Hk Hq L) as (r & E & A).
    unfold Rop. rewrite E, A. transitivity (qn 2 * nth 2 p 0 * (inv d * h) * (inv d * h))%Qc; [|rewrite Hi; ring].
    destruct p as [|a [|b [|c p]]]; cbn [pscale pderiv tl pderiv_from peval nth]; rewrite ?qn_1; ring.
  - destruct (C12_KO_annihilates [] d k (mem g) _ Hd Hq) as (r & E & A); [rewrite pscale_length; lia|].
    unfold Rop. rewrite E, A. ring.
Qed.

(** ** Example *)
Definition kreg : registry := fst (register_gridfunctions "BHaH" ["uu"; "vv"]%string 3 kw_default []).
Definition kopts (fdf simd : bool) (c : option (list kexpr)) : codegen_opts := MkOpts true fdf simd 2 "210" c.
Definition vvec : list kexpr := [KVar "vv"; KVar "vv"; KVar "vv"].
(** vv * uu_dupD0 + eta * uu_dDD11, upwinded along vv *)
Definition kexpr1 : kexpr :=
  KAdd (KMul (KVar "vv") (KVar "uu_dupD0")) (KMul (KVar "eta") (KVar "uu_dDD11")).
Definition kenv : dict Qc := [("invdxx0", qz 10); ("invdxx1", qz 10); ("invdxx2", qz 10); ("eta", qz 3)]%string.
Definition knames (r : py (kernel * dict kexpr)) : list string := match r with Ok (K, _) => map fst (k_decls K) | Err _ => [] end.

Lemma comp_ok_uu : comp_ok {| c_base := "uu"; c_ud := ""; c_idx := "" |}.
Proof.
  unfold comp_ok. cbn [c_base c_ud c_idx].
  split; [intros c []|]. split; [intros c []|]. split; [reflexivity|]. split; [|split; reflexivity].
  intros c Hc. cbn in Hc. destruct Hc as [<-|[<-|[]]]; reflexivity.
Qed.

Example C41_ex : forall fdf simd : bool,
  let o := kopts fdf simd (Some vvec) in
  input_ok (fun l => l) kreg ["eta"]%string "BHaH" o [kexpr1] ["rhs"]%string [] 1 /\
  values_ok kreg ["eta"]%string o [kexpr1] kenv (fun _ => qz 10) /\ outs_ok o [kexpr1] ["rhs"]%string /\
  knames (c_codegen_gf (fun l => l) kreg ["eta"]%string "BHaH" o [kexpr1] ["rhs"]%string []) =
   ["uu_i1m1"; "uu_i0m2"; "uu_i0m1"; "uu"; "uu_i0p1"; "uu_i0p2"; "uu_i1p1"; "vv";
    "UpwindAlgInputuu_ddnD0"; "UpwindAlgInputuu_dupD0"]%string ++
   (if fdf then ["uu_dDD11"; "UpwindControlVectorU0"] else ["UpwindControlVectorU0"; "uu_dDD11"])%string ++
   ["Upwind0"; "uu_dupD0"]%string /\
  NoDup (knames (c_codegen_gf (fun l => l) kreg ["eta"]%string "BHaH" o [kexpr1] ["rhs"]%string [])).
Proof.
  intros fdf simd o.
  assert (N : knames (c_codegen_gf (fun l => l) kreg ["eta"]%string "BHaH" o [kexpr1] ["rhs"]%string []) =
   ["uu_i1m1"; "uu_i0m2"; "uu_i0m1"; "uu"; "uu_i0p1"; "uu_i0p2"; "uu_i1p1"; "vv";
    "UpwindAlgInputuu_ddnD0"; "UpwindAlgInputuu_dupD0"]%string ++
   (if fdf then ["uu_dDD11"; "UpwindControlVectorU0"] else ["UpwindControlVectorU0"; "uu_dDD11"])%string ++
   ["Upwind0"; "uu_dupD0"]%string) by (destruct fdf, simd; vm_compute; reflexivity).
  rewrite N. clear N.
  split; [|split; [|split; [|split; [reflexivity|]]]].
  - split; [intros; apply Permutation_refl|]. split.
    { split; [vm_compute; discriminate|]. split.
      - change (dkeys kreg) with ["uu"; "vv"]%string. repeat constructor; cbn; intuition discriminate.
      - intros n gf H. assert (Q : In n ["uu"; "vv"]%string).
        { change ["uu"; "vv"]%string with (dkeys kreg). apply dget_In in H. apply in_map_iff. exists (n, gf). auto. }
        destruct Q as [<-|[<-|[]]]; vm_compute in H; inversion H; subst; split; try reflexivity; discriminate. }
    split.
    { intros v Hv Hm Hc. destruct Hc as [<-|[]]. vm_compute in Hm. discriminate. }
    split.
    { intros v (Hv & H1 & H2 & H3). cbn in Hv.
      destruct Hv as [<-|[<-|[<-|[<-|[]]]]]; try (vm_compute in H1; discriminate H1).
      - exists {| c_base := "uu"; c_ud := ""; c_idx := "" |}, (Up 0). split; [apply comp_ok_uu|].
        split; [cbn; lia|]. split; [discriminate|]. split; [reflexivity|]. left; reflexivity.
      - exfalso. apply H2. cbn; auto.
      - exists {| c_base := "uu"; c_ud := ""; c_idx := "" |}, (D2 1 1). split; [apply comp_ok_uu|].
        split; [cbn; lia|]. split; [discriminate|]. split; [reflexivity|]. left; reflexivity. }
    split; [lia|]. split; [reflexivity|]. split; [|reflexivity].
    split; [left; reflexivity|]. split; [cbn; auto|]. split; [cbn; lia|left; reflexivity].
  - split; [intros d Hd; do 3 (destruct d as [|d]; [reflexivity|]); lia|]. split.
    + intros v Hv Nr Hc. cbn in Hv. destruct Hv as [<-|[<-|[<-|[<-|[]]]]].
      * exfalso. apply Nr. right; left; reflexivity.
      * destruct Hc as [[Hc|[]]|Hc]; [discriminate Hc|]. exfalso. apply Hc, deriv_like_spec. reflexivity.
      * discriminate.
      * destruct Hc as [[Hc|[]]|Hc]; [discriminate Hc|]. exfalso. apply Hc, deriv_like_spec. reflexivity.
    + intros cl d v Hc Hd Hv. cbn in Hc. inversion Hc; subst cl. left.
      do 3 (destruct d as [|d]; [cbn in Hv; destruct Hv as [<-|[]]; split; [right; left; reflexivity|left; reflexivity]|]). lia.
  - split; [repeat constructor; intros []|]. intros _ x e [<-|[]] [<-|[]]. cbn. intuition discriminate.
  - destruct fdf; cbn [app]; repeat constructor; cbn; intuition discriminate.
Qed.

Definition krun (F : string -> Qc -> Qc) (mem : string -> pt -> Qc) (r : py (kernel * dict kexpr)) (env : dict Qc) :=
  match r with Ok (K, _) => run_kernel F mem K env | Err _ => None end.
Definition kinv (a b c : Qc) : dict Qc := [("invdxx0", a); ("invdxx1", b); ("invdxx2", c)]%string.
(** The kernel run on uu = |x| (5 behind), vv = the value [c] everywhere: both upwind directions. *)
Definition kval (c : Z) (fdf simd : bool) : option Q :=
  let mem g p := let '(x, y, z) := p in
    if String.eqb g "uu" then (if (x <? 0)%Z then qz 5 else qz (x + y * y)) else qz c in
  match krun (fun _ x => x) mem
    (c_codegen_gf (fun l => l) kreg ["eta"]%string "BHaH" (kopts fdf simd (Some vvec)) [kexpr1] ["rhs"]%string []) kenv with
  | Some env => option_map this (dget "rhs"%string env)
  | None => None
  end.
(** 2 * (10 * 1) + 3 * (100 * 2), and -2 * (10 * (-15/2)) + 3 * (100 * 2) *)
Example C41_ex_run : forall fdf simd, kval 2 fdf simd = Some 620%Q /\ kval (-2) fdf simd = Some 750%Q.
Proof. intros [|] [|]; vm_compute; split; reflexivity. Qed.

(** x^2 - 3x with spacing 1/4, second order. *)
Example C41_ex_polynomial :
  let mem (g : string) (p : pt) := let '(x, _, _) := p in
    peval [0; - qz 3; 1]%Qc (qz x * Q2Qc (1 # 4))%Qc in
  deriv_value 1 mem (fun _ => qz 4) "uu" (Up 0) = (- qz 3)%Qc /\
  deriv_value 1 mem (fun _ => qz 4) "uu" (D2 0 0) = (qn 2 * 1)%Qc.
Proof.
  intros mem.
  destruct (C41_polynomial_data 1 mem (fun _ => qz 4) "uu" 0 (Q2Qc (1 # 4)) [0; - qz 3; 1]%Qc) as (_ & U & _ & D & _); auto.
  apply Qc_is_canon. vm_compute. reflexivity.
Qed.

(** ** Refuted *)
Definition kgen o exprs outs := c_codegen_gf (fun l => l) kreg [] "BHaH" o exprs outs [].

(** The control vector is a registered gridfunction, but nothing reads it: the kernel refers to an
    undeclared variable, whatever the data. *)
Theorem C41_control_vector_read_refuted : forall fdf simd F mem a b c,
  let o := kopts fdf simd (Some vvec) in
  (exists K f, kgen o [KVar "uu_dupD0"] ["rhs"]%string = Ok (K, f)) /\
  krun F mem (kgen o [KVar "uu_dupD0"] ["rhs"]%string) (kinv a b c) = None.
Proof.
  intros fdf simd F mem a b c o. split.
  - destruct (kgen o [KVar "uu_dupD0"] ["rhs"]%string) as [[K f]|e] eqn:E; [eauto|].
    exfalso. revert E. unfold o. destruct fdf, simd; vm_compute; discriminate.
  - unfold o. destruct fdf, simd; vm_compute; reflexivity.
Qed.

(** Without a control vector the upwinded derivative is silently the downwinded one. *)
Definition kmem : string -> pt -> Qc := fun g p => let '(x, y, z) := p in if (x <? 0)%Z then qz 5 else qz x.
Theorem C41_no_control_vector_refuted :
  let got := match krun (fun _ x => x) kmem (kgen (kopts false false None) [KVar "uu_dupD0"] ["rhs"]%string) (kinv 1 1 1) with
             | Some env => option_map this (dget "rhs"%string env) | None => None end in
  got = Some (this (deriv_value 1 kmem (fun _ => 1%Qc) "uu" (Dn 0))) /\
  got <> Some (this (deriv_value 1 kmem (fun _ => 1%Qc) "uu" (Up 0))).
Proof. vm_compute. split; [reflexivity|discriminate]. Qed.

(** A downwinded derivative written in an expression is never declared ... *)
Theorem C41_explicit_downwind_refuted : forall fdf simd F mem a b c ctrl,
  ctrl = None \/ ctrl = Some vvec ->
  let o := kopts fdf simd ctrl in
  (exists K f, kgen o [KVar "uu_ddnD0"] ["rhs"]%string = Ok (K, f)) /\
  krun F mem (kgen o [KVar "uu_ddnD0"] ["rhs"]%string) (kinv a b c) = None.
Proof.
  intros fdf simd F mem a b c ctrl Hc o. split.
  - destruct (kgen o [KVar "uu_ddnD0"] ["rhs"]%string) as [[K f]|e] eqn:E; [eauto|].
    exfalso. revert E. unfold o. destruct Hc as [-> | ->], fdf, simd; vm_compute; discriminate.
  - unfold o. destruct Hc as [-> | ->], fdf, simd; vm_compute; reflexivity.
Qed.
(** ... and together with the upwinded one it is declared twice. *)
Theorem C41_both_winds_refuted : forall fdf simd F mem a b c,
  let o := kopts fdf simd (Some vvec) in
  let e := [KAdd (KVar "vv") (KAdd (KVar "uu_dupD0") (KVar "uu_ddnD0"))] in
  (exists K f, kgen o e ["rhs"]%string = Ok (K, f)) /\ krun F mem (kgen o e ["rhs"]%string) (kinv a b c) = None.
Proof.
  intros fdf simd F mem a b c o e. split.
  - destruct (kgen o e ["rhs"]%string) as [[K f]|x] eqn:E; [eauto|].
    exfalso. revert E. unfold o, e. destruct fdf, simd; vm_compute; discriminate.
  - unfold o, e. destruct fdf, simd; vm_compute; reflexivity.
Qed.

(** The table of finite-difference functions is only cleared when enable_fd_codegen is set: after a
    finite-difference kernel, reading gridfunctions without it raises an exception ... *)
Definition kfdf (exprs : list kexpr) : dict kexpr :=
  match kgen (kopts true false None) exprs ["a"]%string with Ok (_, f) => f | Err _ => [] end.
Theorem C41_stale_functions_raise_refuted :
  c_codegen_gf (fun l => l) kreg [] "BHaH" (MkOpts false false false 2 "210" None) [KVar "uu"] ["a"]%string
    (kfdf [KVar "uu_dD0"]) = Err IndexError.
Proof. vm_compute. reflexivity. Qed.
(** ... or computes the derivative in the wrong direction. *)
Theorem C41_stale_functions_wrong_refuted :
  let r := c_codegen_gf (fun l => l) kreg [] "BHaH" (MkOpts false true false 2 "210" None)
             [KVar "uu_dD0"; KVar "uu_dD1"] ["a"; "b"]%string (kfdf [KVar "uu_dD1"]) in
  let got x := match krun (fun _ x => x) kmem r (kinv 1 1 1) with
             | Some env => option_map this (dget x env) | None => None end in
  got "b"%string = Some (this (deriv_value 1 kmem (fun _ => 1%Qc) "uu" (D1 0))) /\
  got "b"%string <> Some (this (deriv_value 1 kmem (fun _ => 1%Qc) "uu" (D1 1))).
Proof. vm_compute. split; [reflexivity|discriminate]. Qed.

Print Assumptions C41_generates.
Print Assumptions C41_kernel_value.
Print Assumptions C41_kernel_runs.
Print Assumptions C41_polynomial_data.
Print Assumptions C41_control_vector_read_refuted.
