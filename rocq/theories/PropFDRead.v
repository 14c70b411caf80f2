(** Headline theorems for derivative symbols and memory reads (C17, C18, C45).
    Specification vocabulary (FDReadFacts.v, FDReadMem.v): [deriv_symbol p ud op i j] is the symbol
    p ++ ud ++ "_" ++ op ++ "D"*|j| ++ i ++ j; [stencil_point bases stencils k p]: some derivative of [k]
    has [p] in its stencil; [derivative_name v]: the text of [v] has an underscore followed by d, dKO, dup
    or ddn and D; [address]: position in the C array; [temp_name], [signed]: the expected
    texts. *)
From Coq Require Import String Ascii List Arith ZArith Bool Lia Permutation Sorted.
From Verif Require Import PyBase PyBaseFacts PyList PyListFacts Grid GridFacts FDRead FDReadFacts FDReadMem.
Import ListNotations.
Open Scope list_scope.
Open Scope nat_scope.

(** C17.  The symbol of a derivative of a gridfunction whose base name has no letter U or D. *)
Theorem C17_parse_recovers : forall p ud op i j,
  all_UD ud -> In op op_letters -> all_digits i -> all_digits j -> String.length i = String.length ud -> no_UD p ->
  parse_deriv_var (deriv_symbol p ud op i j) =
    Ok ((p ++ ud ++ i)%string, (op ++ Ds (String.length j) ++ j)%string).
Proof. exact parse_good. Qed.

(** Any other base name is rejected, never mis-parsed. *)
Theorem C17_parse_rejects : forall p ud op i j,
  all_UD ud -> In op op_letters -> all_digits i -> all_digits j -> String.length i = String.length ud -> ~ no_UD p ->
  parse_deriv_var (deriv_symbol p ud op i j) = Err TypeError.
Proof. exact parse_bad. Qed.

(** Two accepted symbols with the same (gridfunction, operator) pair are the same symbol. *)
Theorem C17_no_confusion : forall p ud op i j p' ud' op' i' j' r,
  all_UD ud -> In op op_letters -> all_digits i -> all_digits j -> String.length i = String.length ud ->
  all_UD ud' -> In op' op_letters -> all_digits i' -> all_digits j' -> String.length i' = String.length ud' ->
  parse_deriv_var (deriv_symbol p ud op i j) = Ok r ->
  parse_deriv_var (deriv_symbol p' ud' op' i' j') = Ok r ->
  p = p' /\ ud = ud' /\ op = op' /\ i = i' /\ j = j'.
Proof.
  intros p ud op i j p' ud' op' i' j' r U O I J L U' O' I' J' L' H H'.
  assert (D : forall q, no_UD q \/ ~ no_UD q).
  { intros q. destruct (existsb is_UD (str_to_list q)) eqn:E.
    - right. intros N. apply existsb_exists in E. destruct E as (c & H1 & H2). rewrite (N c H1) in H2. discriminate.
    - left. intros c Hc. destruct (is_UD c) eqn:F; auto. rewrite <- E. symmetry. apply existsb_exists. eauto. }
  destruct (D p) as [Np|Np]; [|rewrite (parse_bad _ _ _ _ _ U O I J L Np) in H; discriminate].
  destruct (D p') as [Np'|Np']; [|rewrite (parse_bad _ _ _ _ _ U' O' I' J' L' Np') in H'; discriminate].
  rewrite (parse_good _ _ _ _ _ U O I J L Np) in H. rewrite (parse_good _ _ _ _ _ U' O' I' J' L' Np') in H'.
  rewrite <- H' in H. injection H as H1 H2.
  apply base_unique in H1; auto. apply op_unique in H2; auto. tauto.
Qed.

(** Lists of symbols: position by position. *)
Theorem C17_lists : forall l bs os, extract_bases_ops l = Ok (bs, os) <->
  map (fun v => Ok v) (combine bs os) = map parse_deriv_var l /\ List.length bs = List.length os.
Proof.
  induction l as [|v r IH]; intros bs os; cbn [extract_bases_ops map].
  - split.
    + intros H; inversion H; subst; auto.
    + intros [H L]. destruct bs, os; cbn in *; try discriminate; auto.
  - destruct (parse_deriv_var v) as [[b o]|e] eqn:E.
    + split.
      * destruct (extract_bases_ops r) as [[bs' os']|e] eqn:R; [|discriminate]. intros H; inversion H; subst.
        destruct (IH bs' os') as [IH1 _]. destruct (IH1 eq_refl) as [H1 H2]. cbn. rewrite H1. auto.
      * intros [H L]. destruct bs as [|b0 bs], os as [|o0 os]; cbn in H; try discriminate.
        injection H as H1 H2 H3. subst. cbn in L. assert (Q : extract_bases_ops r = Ok (bs, os)) by (apply IH; split; auto).
        rewrite Q. reflexivity.
    + split; [discriminate|]. intros [H L]. destruct bs, os; cbn in H; discriminate.
Qed.

Example C17_ex :
  deriv_symbol "h" "DD" "dup" "01" "2" = "hDD_dupD012"%string /\
  parse_deriv_var "hDD_dupD012" = Ok ("hDD01", "dupD2")%string /\
  parse_deriv_var "my_gf_dDD11" = Ok ("my_gf", "dDD11")%string /\
  parse_deriv_var "betU_dKOD12" = Ok ("betU1", "dKOD2")%string /\
  extract_bases_ops ["hDD_dDD0112"; "vetU_dD21"]%string = Ok (["hDD01"; "vetU2"], ["dDD12"; "dD1"])%string.
Proof. vm_compute. auto 10. Qed.

(** Refuted for base names that contain U or D themselves: registered without complaint, but their
    derivatives cannot be used. *)
Theorem C17_base_with_UD_refuted :
  fst (register_gridfunctions "BHaH" ["Density"]%string 3 kw_default []) <> [] /\
  parse_deriv_var (deriv_symbol "Density" "" "d" "" "0") = Err TypeError.
Proof. split; [vm_compute; discriminate|reflexivity]. Qed.

(** C45.  The symbols for which finite differences are generated. *)
Theorem C45_extracted_symbols : forall order reg cpars free upw,
  (forall l, Permutation l (order l)) -> no_clash reg cpars free ->
  exists l, extract_deriv_vars order reg cpars free upw = Ok l /\
    (forall v, In v l <-> needs_fd reg cpars free v \/
       (upw = true /\ exists u, needs_fd reg cpars free u /\ py_in "_dupD" u = true /\
          v = py_replace "_dupD" "_ddnD" u)) /\
    (upw = false -> NoDup l).
Proof. exact extract_spec. Qed.

Theorem C45_downwind_partner : forall p ud i j, py_in "_dupD" (p ++ ud) = false -> j <> ""%string ->
  all_digits i -> all_digits j ->
  py_in "_dupD" (deriv_symbol p ud "dup" i j) = true /\
  py_replace "_dupD" "_ddnD" (deriv_symbol p ud "dup" i j) = deriv_symbol p ud "ddn" i j.
Proof. exact downwind_partner. Qed.

(** In particular every derivative symbol of an unregistered name is extracted. *)
Theorem C45_derivatives_extracted : forall order reg cpars free upw l p ud op i j,
  (forall l, Permutation l (order l)) -> no_clash reg cpars free ->
  extract_deriv_vars order reg cpars free upw = Ok l ->
  In op ["d"; "dKO"; "dup"; "ddn"]%string -> j <> ""%string ->
  let v := deriv_symbol p ud op i j in
  In v free -> dget v reg = None -> ~ In v cpars -> In v l.
Proof.
  intros order reg cpars free upw l p ud op i j Ho Hc E Hop Hj v Hv Hr Hp.
  destruct (C45_extracted_symbols order reg cpars free upw Ho Hc) as (l' & E' & M & _).
  rewrite E' in E. injection E as <-. apply M. left. split; [|split; [|split]]; auto.
  destruct j as [|d j]; [congruence|]. exists (p ++ ud)%string, op, (Ds (String.length j) ++ i ++ String d j)%string.
  split; [exact Hop|]. unfold v, deriv_symbol. cbn [String.length Ds]. rewrite !sapp_assoc. reflexivity.
Qed.

Definition ex_reg : registry :=
  fst (register_gridfunctions "BHaH" ["uu"; "vv"]%string 3 kw_default []).
Example C45_ex :
  no_clash ex_reg ["eta"]%string ["uu"; "uu_dupD0"; "eta"; "vv_dDD01"; "uu_dupD0"]%string /\
  extract_deriv_vars (fun l => l) ex_reg ["eta"]%string ["uu"; "uu_dupD0"; "eta"; "vv_dDD01"; "uu_dupD0"]%string true
  = Ok ["uu_dupD0"; "vv_dDD01"; "uu_ddnD0"]%string.
Proof.
  split; [|vm_compute; reflexivity]. intros v Hv Hm Hc. destruct Hc as [<-|[]]. vm_compute in Hm. discriminate.
Qed.
Example C45_ex_ko :
  deriv_symbol "vv" "U" "dKO" "0" "2" = "vvU_dKOD02"%string /\
  extract_deriv_vars (fun l => l) ex_reg [] ["vvU_dKOD02"; "uu"]%string false = Ok ["vvU_dKOD02"]%string.
Proof. split; vm_compute; reflexivity. Qed.

(** Refuted: with upwinding, an expression that also contains the downwind derivative gets it twice. *)
Theorem C45_upwind_duplicates_refuted : exists free l, NoDup free /\
  extract_deriv_vars (fun l => l) ex_reg [] free true = Ok l /\ ~ NoDup l.
Proof.
  exists ["uu_dupD0"; "uu_ddnD0"]%string, ["uu_dupD0"; "uu_ddnD0"; "uu_ddnD0"]%string.
  split; [repeat constructor; cbn; intuition discriminate|]. split; [vm_compute; reflexivity|].
  intros H. apply (NoDup_remove_2 ["uu_dupD0"]%string) in H. apply H. cbn; auto.
Qed.

(** C18.  Reads: exactly the needed (gridfunction, point) pairs, once each, grouped by gridfunction,
    each with the expected declaration. *)
Theorem C18_reads_exact : forall reg cpars infra bases stencils free style simd,
  reg <> [] -> NoDup (dkeys reg) -> (forall k gf, dget k reg = Some gf -> g_name gf <> ""%string) ->
  style_ok style -> (simd = true -> In infra ["BHaH"; "CarpetX"; "ETLegacy"]%string) ->
  no_clash reg cpars free -> List.length bases <= List.length stencils ->
  exists l, read_gfs_list reg cpars infra bases stencils free style simd = Ok l /\
    (forall k p, (exists r, In r l /\ r_gf r = k /\ r_pt r = p) <->
       In k (dkeys reg) /\ (stencil_point bases stencils k p \/ (p = (0, 0, 0)%Z /\ In k free))) /\
    NoDup (map (fun r => (r_gf r, r_pt r)) l) /\
    (forall r, In r l -> exists gf, dget (r_gf r) reg = Some gf /\
       r_var r = temp_name (g_name gf) (r_pt r) /\ r_text r = read_onept gf (r_pt r) simd).
Proof.
  intros reg cpars infra bases stencils free style simd H1 H2 H3 H4 H5 H6 H7.
  destruct (reads_spec _ _ infra _ _ _ _ simd H1 H2 H3 H4 H5 H6 H7) as (l & E & M & N & V & _ & _).
  exists l. split; auto. split; [exact M|]. split; auto. intros r Hr. destruct (V r Hr) as (gf & D & Q).
  exists gf. split; auto. rewrite Q. auto.
Qed.

(** Memory order: within each gridfunction the addresses strictly increase on every grid that
    contains the points, provided all offsets are in [-50, 49]. *)
Theorem C18_reads_in_memory_order : forall reg cpars infra bases stencils free style simd l N0 N1 N2 i0 i1 i2,
  reg <> [] -> NoDup (dkeys reg) -> (forall k gf, dget k reg = Some gf -> g_name gf <> ""%string) ->
  style_ok style -> (simd = true -> In infra ["BHaH"; "CarpetX"; "ETLegacy"]%string) ->
  no_clash reg cpars free -> List.length bases <= List.length stencils ->
  read_gfs_list reg cpars infra bases stencils free style simd = Ok l ->
  (forall r, In r l -> in_window (r_pt r) /\ on_grid N0 N1 N2 i0 i1 i2 (r_pt r)) ->
  StronglySorted (fun r1 r2 => String.leb (r_gf r1) (r_gf r2) = true) l /\
  forall k, StronglySorted (fun r1 r2 =>
      (address style N0 N1 N2 i0 i1 i2 (r_pt r1) < address style N0 N1 N2 i0 i1 i2 (r_pt r2))%Z)
    (filter (fun r => String.eqb (r_gf r) k) l).
Proof.
  intros reg cpars infra bases stencils free style simd l N0 N1 N2 i0 i1 i2 H1 H2 H3 H4 H5 H6 H7 E W.
  destruct (reads_spec _ _ infra _ _ _ _ simd H1 H2 H3 H4 H5 H6 H7) as (l' & E' & _ & N & _ & S1 & S2).
  rewrite E in E'. inversion E'; subst l'. split; auto. intros k. specialize (S2 k).
  assert (W' : forall r, In r (filter (fun r => String.eqb (r_gf r) k) l) ->
     r_gf r = k /\ in_window (r_pt r) /\ on_grid N0 N1 N2 i0 i1 i2 (r_pt r)).
  { intros r Hr. apply filter_In in Hr. destruct Hr as [Hr Hk]. apply String.eqb_eq in Hk. auto. }
  assert (N' : NoDup (map (fun r => (r_gf r, r_pt r)) (filter (fun r => String.eqb (r_gf r) k) l))).
  { clear -N. induction l as [|x l IH]; cbn; [constructor|]. inversion N; subst.
    destruct (String.eqb (r_gf x) k); cbn; auto. constructor; auto. intros Q. apply H1.
    apply in_map_iff in Q. destruct Q as (y & Ey & Hy). apply filter_In in Hy. apply in_map_iff. exists y. tauto. }
  induction S2 as [|x m S IH F]; [constructor|]. cbn in N'. inversion N'; subst. constructor.
  - apply IH; auto. intros r Hr. apply W'. cbn; auto.
  - rewrite Forall_forall in *. intros y Hy. destruct (W' x (or_introl eq_refl)) as (Gx & Wx & Ox).
    destruct (W' y (or_intror Hy)) as (Gy & Wy & Oy). apply key_address; auto.
    intros Q. apply H8. apply in_map_iff. exists y. split; auto. rewrite Q. congruence.
Qed.

(** Variable names tell (gridfunction, point) apart when no name continues another with "_i". *)
Theorem C18_names_injective : forall names a b p q, no_offset_like names -> In a names -> In b names ->
  a <> ""%string -> b <> ""%string ->
  fd_temp_variable_name a p = fd_temp_variable_name b q -> a = b /\ p = q.
Proof.
  intros names a b p q Hn Ha Hb Na Nb E. rewrite !temp_name_ok in E by auto. inversion E as [E'].
  eapply temp_name_inj; eauto.
Qed.

(** The accesses: every axis carries exactly its own signed offset. *)
Theorem C18_access_text : forall gf a b c, 
  let idx := (signed "i0" a ++ ", " ++ signed "i1" b ++ ", " ++ signed "i2" c)%string in
  (g_infra gf = "BHaH"%string -> forall arr, g_array gf = Some arr ->
     read_onept gf (a, b, c) false = (arr ++ "[IDX4(" ++ py_upper (g_name gf) ++ "GF, " ++ idx ++ ")]")%string) /\
  (g_infra gf = "ETLegacy"%string ->
     read_onept gf (a, b, c) false = (g_name gf ++ "GF[CCTK_GFINDEX3D(cctkGH, " ++ idx ++ ")]")%string) /\
  (g_infra gf = "CarpetX"%string ->
     read_onept gf (a, b, c) false = (g_name gf ++ "GF(p.I" ++ signed_carpetx "0" a ++
        signed_carpetx "1" b ++ signed_carpetx "2" c ++ ")")%string) /\
  read_onept gf (a, b, c) true = ("ReadSIMD(&" ++ read_onept gf (a, b, c) false ++ ")")%string.
Proof.
  intros gf a b c idx. unfold read_onept.
  rewrite !offset_index_signed by now apply no_char_lit.
  rewrite !offset_carpetx_signed by now apply no_char_lit.
  split; [|split; [|split]].
  - intros -> arr ->. reflexivity.
  - intros ->. reflexivity.
  - intros ->. reflexivity.
  - reflexivity.
Qed.

Definition ex_bases : list string := ["uu"; "vv"; "uu"]%string.
Definition ex_stencils : list (list pt) :=
  [[(-1, 0, 0); (1, 0, 0)]; [(0, -1, 0); (0, 0, 0); (0, 1, 0)]; [(0, 0, -1); (0, 0, 1)]]%Z.
Example C18_ex :
  match read_gfs_list ex_reg [] "BHaH" ex_bases ex_stencils ["uu"; "x"]%string "210" false with
  | Ok l => map (fun r => (r_var r, r_text r)) l =
     [("uu_i2m1", "in_gfs[IDX4(UUGF, i0, i1, i2-1)]"); ("uu_i0m1", "in_gfs[IDX4(UUGF, i0-1, i1, i2)]");
      ("uu", "in_gfs[IDX4(UUGF, i0, i1, i2)]"); ("uu_i0p1", "in_gfs[IDX4(UUGF, i0+1, i1, i2)]");
      ("uu_i2p1", "in_gfs[IDX4(UUGF, i0, i1, i2+1)]"); ("vv_i1m1", "in_gfs[IDX4(VVGF, i0, i1-1, i2)]");
      ("vv", "in_gfs[IDX4(VVGF, i0, i1, i2)]"); ("vv_i1p1", "in_gfs[IDX4(VVGF, i0, i1+1, i2)]")]%string /\
     (forall r, In r l -> in_window (r_pt r) /\ on_grid 8 8 8 4 4 4 (r_pt r))
  | Err _ => False
  end /\ NoDup (dkeys ex_reg) /\ no_clash ex_reg [] ["uu"; "x"]%string /\ no_offset_like (dkeys ex_reg).
Proof.
  split.
  - match goal with |- match ?x with _ => _ end => let v := eval vm_compute in x in change x with v end.
    cbn [map r_var r_text]. split; [reflexivity|]. intros r Hr. cbn in Hr.
    repeat (destruct Hr as [Hr|Hr]; [subst r; cbn; lia|]). destruct Hr.
  - split; [|split].
    + vm_compute. repeat constructor; cbn; intuition discriminate.
    + intros v _ _ [].
    + intros a b Ha Hb. vm_compute in Ha, Hb. destruct Ha as [<-|[<-|[]]]; destruct Hb as [<-|[<-|[]]]; reflexivity.
Qed.

(** Refuted: component 1 of a tensor called "a_i0p" is named like the point (1,0,0) of "a". *)
Theorem C18_name_clash_refuted : exists reg r1 r2 l,
  reg = grun [OReg "BHaH" ["a"]%string 3 kw_default; ORank1 "" "BHaH" "a_i0p" 3 kw_default] /\
  read_gfs_list reg [] "BHaH" ["a"]%string [[(1, 0, 0)%Z]] ["a_i0p1"]%string "210" false = Ok l /\
  In r1 l /\ In r2 l /\ r_var r1 = r_var r2 /\ r_text r1 <> r_text r2.
Proof.
  do 4 eexists. split; [reflexivity|]. split; [vm_compute; reflexivity|].
  split; [left; reflexivity|]. split; [right; left; reflexivity|]. split; [reflexivity|discriminate].
Qed.

(** Refuted: an offset of 51 is outside the window of the sort key and is read out of order. *)
Theorem C18_order_refuted : exists l r1 r2,
  read_gfs_list ex_reg [] "BHaH" ["uu"]%string [[(51, 0, 0); (-50, 1, 0)]%Z] [] "210" false = Ok l /\
  l = [r1; r2] /\
  on_grid 200 200 200 60 60 60 (r_pt r1) /\ on_grid 200 200 200 60 60 60 (r_pt r2) /\
  (address "210" 200 200 200 60 60 60 (r_pt r2) < address "210" 200 200 200 60 60 60 (r_pt r1))%Z.
Proof.
  do 3 eexists. split; [vm_compute; reflexivity|]. split; [reflexivity|]. cbn. lia.
Qed.

Print Assumptions C17_parse_recovers.
Print Assumptions C17_parse_rejects.
Print Assumptions C17_no_confusion.
Print Assumptions C17_lists.
Print Assumptions C45_extracted_symbols.
Print Assumptions C45_derivatives_extracted.
Print Assumptions C45_downwind_partner.
Print Assumptions C18_reads_exact.
Print Assumptions C18_reads_in_memory_order.
Print Assumptions C18_names_injective.
Print Assumptions C18_access_text.
