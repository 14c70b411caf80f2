(** The shape of the kernel that is generated for well-formed derivative symbols (Kernel.v). *)
From Coq Require Import String Ascii List Arith ZArith Bool Lia Permutation Sorted QArith Qcanon.
From Verif Require Import PyBase PyBaseFacts PyList PyListFacts QcLib FDMatrix FDCoeffs FDCoeffsFacts FDOpsFacts
  Grid GridFacts FDRead FDReadFacts FDReadMem Kernel KernelFacts.
Import ListNotations.
Open Scope list_scope.
Open Scope nat_scope.

(** ** Lists of symbols *)
Definition cs_ok (x : comp_name * dsym) : Prop := comp_ok (fst x) /\ valid (snd x).
Definition sy (x : comp_name * dsym) : string := symbol (fst x) (snd x).
Definition cbase (x : comp_name * dsym) : string := comp_text (fst x).
Definition cop (x : comp_name * dsym) : string := op_text (snd x).

Lemma extract_ok : forall l, Forall cs_ok l -> extract_bases_ops (map sy l) = Ok (map cbase l, map cop l).
Proof.
  induction l as [|[c s] l IH]; intros H; cbn [map extract_bases_ops]; auto.
  inversion H as [|? ? [H1 H2] H3]; subst. unfold sy at 1. cbn [fst snd] in *.
  rewrite symbol_parse by auto. rewrite (IH H3). reflexivity.
Qed.

Definition Rop (k : nat) (o : string) : fd_result :=
  match fd_request [] o (2 * k) with Ok r => r | Err _ => ([], []) end.
Definition is_op (o : string) : Prop := exists s, valid s /\ o = op_text s.

Lemma Rop_ok : forall k o, 1 <= k -> is_op o ->
  snd (compute_fdcoeffs_fdstencl o (2 * k) []) = Ok (Rop k o) /\ good_result (Rop k o).
Proof.
  intros k o Hk (s & V & ->). destruct (res_good s k V Hk) as (r & E & G).
  unfold Rop. rewrite E. rewrite <- request_nil. auto.
Qed.

Lemma op_dict_ok : forall k ops, 1 <= k -> Forall is_op ops ->
  op_dict (2 * k) ops = Ok (map (fun o => (o, Rop k o)) ops).
Proof.
  intros k ops Hk; induction ops as [|o ops IH]; intros H; cbn [op_dict map]; auto.
  inversion H; subst. destruct (Rop_ok k o Hk) as [E _]; auto. rewrite E, IH by auto. reflexivity.
Qed.

Lemma dget_map_key : forall (A : Type) (f : string -> A) l o, In o l -> dget o (map (fun x => (x, f x)) l) = Some (f o).
Proof.
  intros A f l; induction l as [|x l IH]; intros o H; [destruct H|]. cbn [map dget].
  destruct (String.eqb_spec o x) as [->|N]; auto. apply IH. destruct H; [congruence|auto].
Qed.

Lemma stencils_ok : forall k ops l, (forall o, In o l -> In o ops) ->
  stencils_of (map (fun o => (o, Rop k o)) ops) l = Ok (map (fun o => snd (Rop k o)) l).
Proof.
  intros k ops l; induction l as [|o l IH]; intros H; cbn [stencils_of map]; auto.
  rewrite (dget_map_key _ (Rop k)) by (apply H; cbn; auto). rewrite IH by (intros; apply H; cbn; auto). reflexivity.
Qed.

(** ** Prototypes *)
Definition proto_of (k : nat) (o : string) : string * kexpr :=
  match proto_one ("FDPROTO_" ++ o) (Rop k o) with Ok (_, lhs, e) => (lhs, e) | Err _ => (""%string, KNum 0) end.

Lemma proto_of_ok : forall k s, 1 <= k -> valid s ->
  proto_of k (op_text s) = (proto_name s, proto_expr s (Rop k (op_text s))).
Proof.
  intros k s Hk V. unfold proto_of. rewrite proto_one_ok; auto. apply Rop_ok; auto. exists s; auto.
Qed.

Lemma dset_new : forall (A : Type) k (v : A) d, ~ In k (dkeys d) -> dset k v d = d ++ [(k, v)].
Proof.
  intros A k v d; induction d as [|[k' v'] d IH]; intros H; cbn [dset app]; auto.
  cbn in H. destruct (String.eqb_spec k k'); [subst; tauto|]. now rewrite IH by tauto.
Qed.

Lemma proto_loop_ok : forall k ops fdf, 1 <= k -> Forall is_op ops -> NoDup ops ->
  (forall o, In o ops -> ~ In o (dkeys fdf)) ->
  proto_loop (map (fun o => ("FDPROTO_" ++ o, Rop k o)%string) ops) fdf =
  Ok (map (proto_of k) ops, fdf ++ map (fun o => (o, snd (proto_of k o))) ops).
Proof.
  intros k ops; induction ops as [|o ops IH]; intros fdf Hk H N D; cbn [map proto_loop].
  - now rewrite app_nil_r.
  - inversion H as [|? ? H1 H2]; subst. inversion N; subst. destruct H1 as (s & V & ->).
    rewrite proto_one_ok; auto; [|apply Rop_ok; auto; exists s; auto]. cbn [py_bind].
    rewrite IH; auto.
    + cbn [py_bind]. rewrite !proto_of_ok by auto. cbn [snd].
      rewrite dset_new by (apply D; cbn; auto). rewrite <- app_assoc. reflexivity.
    + intros o Ho Q. assert (Q' : In o (dkeys fdf) \/ o = op_text s).
      { rewrite dset_new in Q by (apply D; cbn; auto). unfold dkeys in *. rewrite map_app, in_app_iff in Q.
        cbn in Q. intuition. }
      destruct Q' as [Q'| ->]; [|contradiction]. revert Q'. apply D. cbn; auto.
Qed.

Lemma fdf_realign_ok : forall d, fdf_realign (map snd d) d = Ok d.
Proof. induction d as [|[k e] d IH]; cbn [map snd fdf_realign]; auto. rewrite IH. reflexivity. Qed.

Lemma proto_FD_ok : forall k ops, 1 <= k -> Forall is_op ops -> NoDup ops ->
  proto_FD (map (fun o => ("FDPROTO_" ++ o, Rop k o)%string) ops) [] =
  Ok (map (proto_of k) ops, map (fun o => (o, snd (proto_of k o))) ops).
Proof.
  intros k ops Hk H N. unfold proto_FD. rewrite proto_loop_ok by auto. cbn [py_bind app].
  replace (map snd (map (proto_of k) ops)) with (map snd (map (fun o => (o, snd (proto_of k o))) ops))
    by (rewrite !map_map; reflexivity).
  rewrite fdf_realign_ok. reflexivity.
Qed.

(** ** Statements *)
Definition deriv_entry (k : nat) (x : comp_name * dsym) : string * kexpr :=
  (lhs_name (fst x) (snd x), krename (rename_proto (cbase x)) (proto_expr (snd x) (Rop k (cop x)))).
Definition call_entry (k : nat) (x : comp_name * dsym) : string * krhs :=
  let e := proto_expr (snd x) (Rop k (cop x)) in
  (lhs_name (fst x) (snd x), RCall (fd_params e) (map (py_replace "FDPROTO" (cbase x)) (fd_params e)) e).

Lemma combine_map : forall (A B : Type) (f : A -> B) l, combine l (map f l) = map (fun x => (x, f x)) l.
Proof. induction l; cbn; congruence. Qed.

Lemma deriv_exprs_ok : forall k ops l, 1 <= k -> Forall cs_ok l -> (forall x, In x l -> In (cop x) ops) ->
  deriv_exprs (combine ops (map (proto_of k) ops)) (map sy l) (map cbase l) (map cop l) = Ok (map (deriv_entry k) l).
Proof.
  intros k ops l Hk; induction l as [|x l IH]; intros H D; cbn [map deriv_exprs]; auto.
  inversion H as [|? ? [C V] H']; subst. rewrite combine_map in *.
  rewrite (dget_map_key _ (proto_of k)) by (apply D; cbn; auto).
  change (cop x) with (op_text (snd x)). rewrite proto_of_ok by auto. rewrite IH; auto; [|intros; apply D; cbn; auto].
  cbn [py_bind]. unfold deriv_entry at 2. rewrite <- lhs_replace by auto. reflexivity.
Qed.

Lemma fd_calls_ok : forall k ops l, 1 <= k -> Forall cs_ok l -> (forall x, In x l -> In (cop x) ops) ->
  fd_calls (map (fun o => (o, snd (proto_of k o))) ops) (map sy l) (map cbase l) (map cop l) =
  Ok (map (call_entry k) l).
Proof.
  intros k ops l Hk; induction l as [|x l IH]; intros H D; cbn [map fd_calls]; auto.
  inversion H as [|? ? [C V] H']; subst.
  rewrite (dget_map_key _ (fun o => snd (proto_of k o))) by (apply D; cbn; auto).
  change (cop x) with (op_text (snd x)). rewrite proto_of_ok by auto. cbn [snd]. rewrite IH; auto; [|intros; apply D; cbn; auto].
  cbn [py_bind]. unfold call_entry at 2. unfold sy at 1. rewrite call_name_symbol by auto. reflexivity.
Qed.

(** ** Upwinding *)
Definition up_dirs (l : list (comp_name * dsym)) : list nat :=
  flat_map (fun x => match snd x with Up d => [d] | _ => [] end) l.
Definition used_dirs (ctrl : option (list kexpr)) (l : list (comp_name * dsym)) : list nat :=
  match ctrl with None => [] | Some _ => py_sorted Nat.leb (superfast_uniq Nat.eqb (up_dirs l)) end.

Lemma up_digits_ok : forall l, Forall cs_ok l -> up_digits (map cop l) = Ok (up_dirs l).
Proof.
  induction l as [|[c s] l IH]; intros H; cbn [map up_digits up_dirs flat_map]; auto.
  inversion H as [|? ? [_ V] H']; subst. cbn [snd] in *. unfold cop at 1. cbn [snd].
  assert (P : py_in "dupD" (op_text s) = match s with Up _ => true | _ => false end).
  { clear -V. finite s V; reflexivity. }
  rewrite P. unfold up_dirs in IH. rewrite IH by auto. destruct s as [d|d|d|d|a b]; auto.
  cbn [valid] in V. unfold cop. cbn [snd op_text]. clear P. three d; reflexivity.
Qed.

Lemma upwind_directions_ok : forall ctrl l, Forall cs_ok l ->
  upwind_directions ctrl (map cop l) = Ok (used_dirs ctrl l).
Proof. intros [cl|] l H; cbn [upwind_directions used_dirs]; auto. rewrite up_digits_ok by auto. reflexivity. Qed.

Lemma In_used_dirs : forall cl l d, In d (used_dirs (Some cl) l) <-> exists x, In x l /\ snd x = Up d.
Proof.
  intros cl l d. cbn [used_dirs]. rewrite (In_py_sorted Nat.leb).
  - destruct (superfast_uniq_spec Nat.eqb Nat.eqb_eq (up_dirs l)) as (_ & M & _). rewrite M.
    unfold up_dirs. rewrite in_flat_map. split.
    + intros (x & Hx & Hd). exists x. split; auto. destruct (snd x); cbn in Hd; try tauto. destruct Hd as [->|[]]. auto.
    + intros (x & Hx & E). exists x. split; auto. rewrite E. cbn; auto.
  - intros x y. rewrite !Nat.leb_le. lia.
  - intros x y z. rewrite !Nat.leb_le. lia.
Qed.
Lemma NoDup_used_dirs : forall ctrl l, NoDup (used_dirs ctrl l).
Proof.
  intros [cl|] l; cbn [used_dirs]; [|constructor]. apply NoDup_py_sorted.
  - intros x y. rewrite !Nat.leb_le. lia.
  - intros x y z. rewrite !Nat.leb_le. lia.
  - apply (superfast_uniq_spec Nat.eqb Nat.eqb_eq).
Qed.
Lemma used_dirs_bound : forall ctrl l d, Forall cs_ok l -> In d (used_dirs ctrl l) -> d < 3.
Proof.
  intros [cl|] l d H Hd; [|destruct Hd]. apply In_used_dirs in Hd. destruct Hd as (x & Hx & E).
  rewrite Forall_forall in H. destruct (H x Hx) as [_ V]. rewrite E in V. exact V.
Qed.

Definition ctrl_entry (cl : list kexpr) (d : nat) : string * kexpr := (ctrl_name d, nth d cl (KNum 0)).
Lemma ctrl_exprs_ok : forall cl dirs, (forall d, In d dirs -> d < List.length cl) ->
  ctrl_exprs cl dirs = Ok (map (ctrl_entry cl) dirs).
Proof.
  intros cl dirs; induction dirs as [|d dirs IH]; intros H; cbn [ctrl_exprs map]; auto.
  rewrite (nth_error_nth' cl (KNum 0)) by (apply H; cbn; auto). rewrite IH by (intros; apply H; cbn; auto). reflexivity.
Qed.

Definition up_expr (dirs : list nat) (c : comp_name) (d : nat) : kexpr :=
  let U := if existsb (Nat.eqb d) dirs then KVar (up_name d) else KNum 0 in
  KAdd (KMul U (KAdd (KVar (lhs_name c (Up d))) (KMul (KNum (qz (-1))) (KVar (lhs_name c (Dn d))))))
       (KVar (lhs_name c (Dn d))).
Definition up_entries (dirs : list nat) (l : list (comp_name * dsym)) : list (string * kexpr) :=
  flat_map (fun x => match snd x with Up d => [(sy x, up_expr dirs (fst x) d)] | _ => [] end) l.

Lemma upwinded_ok : forall dirs l, Forall cs_ok l -> upwinded dirs (map sy l) (map cop l) = Ok (up_entries dirs l).
Proof.
  intros dirs l; induction l as [|[c s] l IH]; intros H; cbn [map upwinded up_entries flat_map]; auto.
  inversion H as [|? ? [C V] H']; subst. cbn [snd fst] in *. unfold cop at 1 2. cbn [snd].
  assert (P : Nat.eqb (String.length (op_text s)) 5 && py_in "dupD" (op_text s) = match s with Up _ => true | _ => false end).
  { clear -V. finite s V; reflexivity. }
  rewrite P. unfold up_entries in IH. rewrite IH by auto. destruct s as [d|d|d|d|a b]; auto.
  cbn [valid] in V. unfold cop. cbn [snd op_text].
  assert (Q : int_of_char (char_from_end (deriv_string "dupD" d) 0) = Ok d) by (clear -V; three d; reflexivity).
  rewrite Q. cbn [py_bind]. rewrite (proj2 (Nat.ltb_lt d 3) V). cbn [app].
  change (sy (c, Up d)) with (symbol c (Up d)). rewrite (proj2 (symbol_partner c d C V)). reflexivity.
Qed.

(** ** The kernel *)
Definition step1 (k : nat) (l : list (comp_name * dsym)) (ctrl : option (list kexpr)) (fd_functions : bool)
  (reads : list read) : list (string * krhs) :=
  let dirs := used_dirs ctrl l in
  let cexprs := map (ctrl_entry (match ctrl with Some cl => cl | None => [] end)) dirs in
  match reads with
  | [] => []
  | _ => if fd_functions
         then map read_stmt reads ++ py_sorted by_name (map (call_entry k) l) ++ map as_rhs cexprs
         else map read_stmt reads ++ map as_rhs (py_sorted by_name (map (deriv_entry k) l ++ cexprs))
  end.
Definition step2 (l : list (comp_name * dsym)) (ctrl : option (list kexpr)) : list (string * krhs) :=
  let dirs := used_dirs ctrl l in
  map (fun d => (up_name d, RUpwind (ctrl_name d))) dirs ++ map as_rhs (up_entries dirs l).

Definition ctrl_long (ctrl : option (list kexpr)) : Prop :=
  match ctrl with Some cl => 3 <= List.length cl | None => True end.

Lemma sorted_ops_map : forall k ops, exists ops', Permutation ops ops' /\
  sorted_ops (map (fun o => (o, Rop k o)) ops) = map (fun o => (o, Rop k o)) ops'.
Proof.
  intros k ops. unfold sorted_ops.
  destruct (py_sorted_spec op_leb) with (l := map (fun o => (o, Rop k o)) ops) as [P _].
  - intros x y. apply string_leb_tot.
  - intros x y z. unfold op_leb. apply string_leb_trans.
  - destruct (Permutation_map_inv _ _ (Permutation_sym P)) as (ops' & E & P'). exists ops'. split; auto.
Qed.

Lemma fd_codegen_ok : forall k l exprs outs reads ctrl fdfun simd ops,
  1 <= k -> Forall cs_ok l -> ctrl_long ctrl -> ops = superfast_uniq String.eqb (map cop l) ->
  exists fdf', fd_codegen exprs outs (map sy l) (map cbase l) (map cop l) (map (fun o => (o, Rop k o)) ops)
     reads ctrl fdfun simd [] =
   Ok (MkKernel (step1 k l ctrl fdfun reads ++ step2 l ctrl) (combine outs exprs) simd, fdf').
Proof.
  intros k l exprs outs reads ctrl fdfun simd ops Hk H C ->.
  destruct (superfast_uniq_spec String.eqb String.eqb_eq (map cop l)) as (N & M & _).
  set (ops := superfast_uniq String.eqb (map cop l)) in *.
  destruct (sorted_ops_map k ops) as (ops' & P & E).
  assert (N' : NoDup ops') by (eapply Permutation_NoDup; eauto).
  assert (I : forall x, In x l -> In (cop x) ops').
  { intros x Hx. apply (Permutation_in _ P). apply M. now apply in_map. }
  assert (O : Forall is_op ops').
  { apply Forall_forall. intros o Ho. apply (Permutation_in _ (Permutation_sym P)), M, in_map_iff in Ho.
    destruct Ho as (x & <- & Hx). rewrite Forall_forall in H. exists (snd x). split; auto. apply H; auto. }
  unfold fd_codegen. rewrite E. rewrite !map_map. cbn [fst snd].
  rewrite proto_FD_ok by auto. cbn [py_bind].
  rewrite map_id. rewrite deriv_exprs_ok by auto. cbn [py_bind].
  rewrite upwind_directions_ok by auto. cbn [py_bind].
  rewrite ctrl_exprs_ok.
  2:{ intros d Hd. destruct ctrl as [cl|]; [|destruct Hd]. cbn in C. apply used_dirs_bound in Hd; auto. lia. }
  cbn [py_bind].
  assert (S1 : forall A (f : _ -> py A),
    py_bind (match reads with
             | [] => Ok []
             | _ => if fdfun
                    then py_bind (fd_calls (map (fun o => (o, snd (proto_of k o))) ops') (map sy l) (map cbase l) (map cop l))
                      (fun calls => Ok (map read_stmt reads ++ py_sorted by_name calls ++
                         map as_rhs (map (ctrl_entry (match ctrl with Some l0 => l0 | None => [] end)) (used_dirs ctrl l))))
                    else Ok (map read_stmt reads ++ map as_rhs (py_sorted by_name (map (deriv_entry k) l ++
                         map (ctrl_entry (match ctrl with Some l0 => l0 | None => [] end)) (used_dirs ctrl l))))
             end) f = f (step1 k l ctrl fdfun reads)).
  { intros A f. unfold step1. destruct reads as [|r0 rs]; auto. destruct fdfun; auto.
    rewrite fd_calls_ok by auto. reflexivity. }
  rewrite S1.
  rewrite (proj2 (forallb_forall (fun d => Nat.ltb d 3) (used_dirs ctrl l))).
  2:{ intros d Hd. apply Nat.ltb_lt. eapply used_dirs_bound; eauto. }
  rewrite upwinded_ok by auto. cbn [py_bind]. eexists. reflexivity.
Qed.
