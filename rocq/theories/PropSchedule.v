(** C86: schedule.ccl and make.code.defn. *)
From Coq Require Import String Ascii List Bool Arith Lia Permutation Sorted.
From Verif Require Import PyBase PyBaseFacts PyList PyListFacts CFunction Schedule GridFacts.
Import ListNotations.
Open Scope string_scope.
Open Scope list_scope.

(** ** What the file should hold, without flags or counters *)
(** The scheduled entries of a thorn: those of its functions in the order [fs], then the extra ones; (function, bin, entry) *)
Definition wanted (thorn : string) (fs : list (string * cfun)) (extras : list (string * string)) : list (string * string * string) :=
  flat_map (fun it => if String.eqb (f_thorn (snd it)) thorn then map (fun be => (fst it, fst be, snd be)) (f_bins (snd it)) else []) fs
  ++ map (fun be => ("", fst be, snd be)) extras.
Definition in_bin (b : string) (w : string * string * string) : bool := String.eqb (py_upper (snd (fst w))) (py_upper b).
Definition text_of (w : string * string * string) : piece := Entry (py_replace "FUNC_NAME" (fst (fst w)) (snd w)).
(** The bins that have entries, with them *)
Definition groups (bins : list string) (ws : list (string * string * string)) : list (string * list (string * string * string)) :=
  filter (fun g => negb (match snd g with [] => true | _ => false end)) (map (fun b => (b, filter (in_bin b) ws)) bins).
Fixpoint numbered (step : nat) (gs : list (string * list (string * string * string))) : list piece :=
  match gs with [] => [] | (b, ws) :: r => (Header step b :: map text_of ws) ++ numbered (S step) r end.
Definition others (bins : list string) (ws : list (string * string * string)) : list (string * string * string) :=
  filter (fun w => negb (existsb (fun b => in_bin b w) bins)) ws.
Definition entries (ps : list piece) : list string := flat_map (fun p => match p with Entry t => [t] | _ => [] end) ps.

(** The text of a piece and the beginning of the file *)
Definition line_of : string := "##################################################".
Definition text (p : piece) : string :=
  match p with
  | Header n b => String.concat nl [""; line_of; ("# Step " ++ dec n ++ ": Schedule functions in the " ++ b ++ " scheduling bin.")%string; ""]
  | Remaining n => String.concat nl [""; line_of; ("# Step " ++ dec n ++ ": Schedule functions in the remaining scheduling bins.")%string; ""]
  | Entry t => t
  end.
Definition beginning (STORAGE : string) : string := String.concat nl
  ["# This schedule.ccl file was automatically generated by NRPy+."; "#   You are advised against modifying it directly; instead";
   "#   modify the Python code that generates it."; ""; line_of; "# Step 0: Allocate memory for gridfunctions, using the STORAGE: keyword.";
   STORAGE; ""].
Lemma sapp_assoc : forall a b c : string, ((a ++ b) ++ c = a ++ b ++ c)%string.
Proof. intros a b c. induction a; cbn; congruence. Qed.
Lemma piece_text_text : forall p, piece_text p = text p.
Proof. intros [n b|n|t]; unfold piece_text, text, rule, line_of; cbn [String.concat]; rewrite ?sapp_assoc; reflexivity. Qed.
Lemma preamble_beginning : forall s, preamble s = beginning s.
Proof. intros s. unfold preamble, beginning, rule, line_of. cbn [String.concat]. rewrite ?sapp_assoc. reflexivity. Qed.

(** ** Facts about the loops *)
Definition triple (s : sccl) : string * string * string := (s_fun s, s_bin s, s_entry s).
Definition mark (done : list string) (w : string * string * string) : sccl :=
  mk_sccl (fst (fst w)) (snd (fst w)) (snd w) (existsb (fun b => in_bin b w) done).

Lemma entry_mark : forall done w, Entry (entry_text (mark done w)) = text_of w.
Proof. reflexivity. Qed.
Lemma mark_snoc : forall done b w, mark (done ++ [b]) w =
  mk_sccl (fst (fst w)) (snd (fst w)) (snd w) (existsb (fun b => in_bin b w) done || in_bin b w).
Proof. intros. unfold mark. rewrite existsb_app. cbn. now rewrite orb_false_r. Qed.

Lemma bin_pass_spec : forall done b ws header step, (forall b', In b' done -> py_upper b' <> py_upper b) ->
  bin_pass b (map (mark done) ws) header step =
  (map (mark (done ++ [b])) ws,
   (if header then step else match filter (in_bin b) ws with [] => step | _ => S step end),
   (if header then [] else match filter (in_bin b) ws with [] => [] | _ => [Header step b] end) ++ map text_of (filter (in_bin b) ws)).
Proof.
  intros done b ws. induction ws as [|w ws IH]; intros header step D.
  - cbn. now destruct header.
  - cbn [map bin_pass filter].
    assert (DUE : due b (mark done w) = in_bin b w).
    { unfold due. cbn. fold (in_bin b w). destruct (in_bin b w) eqn:E; auto. cbn.
      destruct (existsb (fun b0 => in_bin b0 w) done) eqn:X; auto. exfalso.
      apply existsb_exists in X. destruct X as (b' & I & Q). apply (D b' I).
      unfold in_bin in *. apply String.eqb_eq in Q, E. congruence. }
    rewrite DUE. destruct (in_bin b w) eqn:E.
    + rewrite IH by auto. rewrite mark_snoc, E, orb_true_r. cbn [map]. rewrite entry_mark. destruct header; reflexivity.
    + rewrite IH by auto. rewrite mark_snoc, E, orb_false_r. reflexivity.
Qed.

Lemma all_bins_spec : forall bins done ws step, NoDup (map py_upper (done ++ bins)) ->
  all_bins bins (map (mark done) ws) step =
  (map (mark (done ++ bins)) ws, step + length (groups bins ws), numbered step (groups bins ws)).
Proof.
  induction bins as [|b bins IH]; intros done ws step N.
  - cbn. now rewrite app_nil_r, Nat.add_0_r.
  - cbn [all_bins]. rewrite bin_pass_spec.
    2: { intros b' I Q. rewrite map_app in N. apply NoDup_remove_2 in N. apply N. apply in_or_app. left. rewrite <- Q. now apply in_map. }
    rewrite IH by (now rewrite <- app_assoc). rewrite <- app_assoc. cbn [app].
    unfold groups. cbn [map filter snd]. destruct (filter (in_bin b) ws) as [|w r] eqn:E; cbn [negb app map numbered length].
    + reflexivity.
    + f_equal. f_equal. lia.
Qed.

Lemma remaining_spec : forall bins ws step,
  remaining (map (mark bins) ws) step = flat_map (fun w => [Remaining step; text_of w]) (others bins ws).
Proof.
  intros bins ws step. unfold remaining, others. induction ws as [|w ws IH]; cbn [map flat_map filter]; auto.
  rewrite IH. unfold mark at 1. cbn [s_out]. destruct (existsb (fun b => in_bin b w) bins); reflexivity.
Qed.

(** The dictionary of the scheduled entries *)
Definition ask (k : string) (l : list (string * sccl)) : list sccl := map snd (filter (fun kx => String.eqb (fst kx) k) l).
Lemma add_spec : forall l d k,
  dget k (fold_left add_sccl l d) =
  match (match dget k d with Some x => x | None => [] end) ++ ask k l with
  | [] => dget k d
  | _ => Some ((match dget k d with Some x => x | None => [] end) ++ ask k l)
  end.
Proof.
  induction l as [|[k' x] l IH]; intros d k.
  - cbn. rewrite app_nil_r. destruct (dget k d) as [[|]|]; reflexivity.
  - cbn [fold_left]. rewrite IH. unfold add_sccl. rewrite dget_dset. unfold ask. cbn [filter fst].
    rewrite (String.eqb_sym k' k). destruct (String.eqb_spec k k') as [->|NE].
    + cbn [map snd]. destruct (dget k' d) as [y|]; cbn [app].
      * rewrite <- app_assoc. cbn [app]. destruct (y ++ x :: map snd (filter (fun kx => (fst kx =? k')%string) l)) eqn:Z; auto.
        destruct y; discriminate.
      * reflexivity.
    + reflexivity.
Qed.
Definition flat (l : list (string * cfun)) : list (string * sccl) :=
  flat_map (fun it => map (fun be => (f_thorn (snd it), mk_sccl (fst it) (fst be) (snd be) false)) (f_bins (snd it))) l.
Lemma collect_flat : forall d, collect d = fold_left add_sccl (flat (sorted_items d)) [].
Proof.
  intros d. unfold collect. generalize (sorted_items d) (@nil (string * list sccl)). induction l as [|it l IH]; intros acc; auto.
  cbn [fold_left]. unfold flat. cbn [flat_map]. rewrite fold_left_app. fold (flat l). rewrite IH. f_equal.
  generalize acc. induction (f_bins (snd it)) as [|be r IR]; intros a; cbn; auto.
Qed.
Lemma ask_flat : forall thorn l, ask thorn (flat l) = map (mark []) (wanted thorn l []).
Proof.
  intros thorn l. unfold wanted. cbn [map]. rewrite app_nil_r. induction l as [|it l IH]; auto.
  unfold flat, ask in *. cbn [flat_map]. rewrite filter_app, !map_app, IH. f_equal.
  destruct (String.eqb (f_thorn (snd it)) thorn) eqn:E.
  - induction (f_bins (snd it)) as [|be r IR]; auto. cbn. rewrite E. cbn. f_equal. exact IR.
  - induction (f_bins (snd it)) as [|be r IR]; auto. cbn. rewrite E. exact IR.
Qed.
Lemma collect_spec : forall d thorn, dget thorn (collect d) =
  match wanted thorn (sorted_items d) [] with [] => None | ws => Some (map (mark []) ws) end.
Proof.
  intros. rewrite collect_flat, add_spec, ask_flat. cbn [dget app]. destruct (wanted thorn (sorted_items d) []); reflexivity.
Qed.
Lemma extras_spec : forall thorn extras d l, dget thorn d = Some l ->
  exists d', add_extras thorn extras d = Ok d' /\ dget thorn d' = Some (l ++ map (fun be => mk_sccl "" (fst be) (snd be) false) extras).
Proof.
  intros thorn extras. induction extras as [|[b e] r IH]; intros d l H; cbn.
  - exists d. now rewrite app_nil_r.
  - rewrite H. destruct (IH (dset thorn (l ++ [mk_sccl "" b e false]) d) (l ++ [mk_sccl "" b e false])) as (d' & A & B).
    + apply dget_dset_same.
    + exists d'. split; auto. rewrite B, <- app_assoc. reflexivity.
Qed.
Lemma sorted_items_spec : forall d, Permutation d (sorted_items d) /\ StronglySorted (fun a b => String.leb (fst a) (fst b) = true) (sorted_items d).
Proof.
  intros d. apply (py_sorted_spec (fun a b : string * cfun => String.leb (fst a) (fst b))).
  - intros; apply String.leb_total.
  - intros x y z; apply string_leb_trans.
Qed.
Lemma wanted_extras : forall thorn fs extras, wanted thorn fs extras = wanted thorn fs [] ++ map (fun be => ("", fst be, snd be)) extras.
Proof. intros. unfold wanted. cbn [map]. now rewrite app_nil_r. Qed.
Lemma wanted_nil : forall thorn fs, wanted thorn fs [] <> [] <-> exists it, In it fs /\ f_thorn (snd it) = thorn /\ f_bins (snd it) <> [].
Proof.
  intros thorn fs. unfold wanted. cbn [map]. rewrite app_nil_r. induction fs as [|it fs IH]; cbn [flat_map].
  - split; [congruence|intros (it & [] & _)].
  - destruct (String.eqb_spec (f_thorn (snd it)) thorn) as [E|E].
    + destruct (f_bins (snd it)) as [|be r] eqn:B.
      * cbn [map app]. rewrite IH. split.
        -- intros (x & I & Q). exists x. cbn; auto.
        -- intros (x & [<-|I] & Q & Z); [congruence|]. now exists x.
      * split; [|discriminate]. intros _. exists it. cbn. rewrite B. repeat split; auto. discriminate.
    + cbn [app]. rewrite IH. split.
      * intros (x & I & Q). exists x. cbn; auto.
      * intros (x & [<-|I] & Q & Z); [congruence|]. now exists x.
Qed.

(** ** The schedule *)
(** C86_schedule.  For every registry and every list of extra entries: if a function of the thorn is scheduled, the file holds, in this order, the
    preamble, for each known bin that has entries its header, numbered from 1 without gaps, and its entries in the order of the function names with
    the extra ones last, and then each remaining entry under a header of its own.  Bins are compared without case; FUNC_NAME is replaced by the
    function the entry belongs to.  Nothing of another thorn is in it. *)
Theorem C86_schedule : forall bins d thorn STORAGE extras, NoDup (map py_upper bins) ->
  (exists it, In it d /\ f_thorn (snd it) = thorn /\ f_bins (snd it) <> []) ->
  exists fs, Permutation d fs /\ StronglySorted (fun a b => String.leb (fst a) (fst b) = true) fs /\
    let ws := wanted thorn fs extras in
    construct_schedule_ccl bins d thorn STORAGE extras =
    Ok (beginning STORAGE ++ String.concat "" (map text
          (numbered 1 (groups bins ws) ++ flat_map (fun w => [Remaining (1 + length (groups bins ws)); text_of w]) (others bins ws))))%string.
Proof.
  intros bins d thorn STORAGE extras N H. destruct (sorted_items_spec d) as [P S]. exists (sorted_items d). split; [auto|]. split; [auto|]. cbv zeta.
  assert (W : wanted thorn (sorted_items d) [] <> []).
  { apply wanted_nil. destruct H as (it & I & Q). exists it. split; auto. eapply Permutation_in; eauto. }
  pose proof (collect_spec d thorn) as C.
  destruct (wanted thorn (sorted_items d) []) as [|w0 r0] eqn:E; [congruence|]. rewrite <- E in C.
  unfold construct_schedule_ccl. destruct (extras_spec thorn extras (collect d) _ C) as (d' & A & B). rewrite A. cbn [py_bind]. rewrite B.
  replace (map (mark []) (wanted thorn (sorted_items d) []) ++ map (fun be => mk_sccl "" (fst be) (snd be) false) extras)
    with (map (mark []) (wanted thorn (sorted_items d) extras)).
  2: { rewrite wanted_extras, map_app. f_equal. rewrite map_map. reflexivity. }
  rewrite all_bins_spec by exact N. rewrite remaining_spec, preamble_beginning, (map_ext _ _ piece_text_text). reflexivity.
Qed.

(** C86_fails.  Without such a function the call ends with KeyError, with extra entries or without. *)
Theorem C86_fails : forall bins d thorn STORAGE extras,
  ~ (exists it, In it d /\ f_thorn (snd it) = thorn /\ f_bins (snd it) <> []) ->
  construct_schedule_ccl bins d thorn STORAGE extras = Err KeyError.
Proof.
  intros bins d thorn STORAGE extras H. destruct (sorted_items_spec d) as [P _].
  assert (W : wanted thorn (sorted_items d) [] = []).
  { destruct (wanted thorn (sorted_items d) []) eqn:E; auto. exfalso. apply H.
    destruct (proj1 (wanted_nil thorn (sorted_items d))) as (it & I & Q); [congruence|].
    exists it. split; auto. eapply Permutation_in; [apply Permutation_sym|]; eauto. }
  unfold construct_schedule_ccl. pose proof (collect_spec d thorn) as C. rewrite W in C.
  destruct extras as [|[b e] r]; cbn; now rewrite C.
Qed.

Lemma entries_app : forall a b, entries (a ++ b) = entries a ++ entries b.
Proof. intros. apply flat_map_app. Qed.
Lemma entries_texts : forall ws, entries (map text_of ws) = map (fun w => py_replace "FUNC_NAME" (fst (fst w)) (snd w)) ws.
Proof. induction ws; cbn; auto. f_equal. exact IHws. Qed.
Lemma entries_others : forall n ws, entries (flat_map (fun w => [Remaining n; text_of w]) ws) = map (fun w => py_replace "FUNC_NAME" (fst (fst w)) (snd w)) ws.
Proof. induction ws; cbn; auto. f_equal. exact IHws. Qed.
Lemma filter_split : forall A (f : A -> bool) l, Permutation l (filter f l ++ filter (fun x => negb (f x)) l).
Proof.
  intros A f l. induction l as [|x l IH]; cbn; auto. destruct (f x); cbn; [now constructor|].
  rewrite <- Permutation_middle. now constructor.
Qed.
Lemma numbered_entries : forall gs n, entries (numbered n gs) = flat_map (fun g => map (fun w => py_replace "FUNC_NAME" (fst (fst w)) (snd w)) (snd g)) gs.
Proof.
  induction gs as [|[b ws] gs IH]; intros n; auto. cbn [numbered flat_map snd]. rewrite entries_app, IH. f_equal. apply (entries_texts ws).
Qed.
Lemma groups_entries : forall B (f : string * string * string -> B) bins ws,
  flat_map (fun g => map f (snd g)) (groups bins ws) = flat_map (fun b => map f (filter (in_bin b) ws)) bins.
Proof.
  intros B f bins ws. unfold groups. induction bins as [|b bins IH]; auto. cbn [map filter flat_map snd].
  destruct (filter (in_bin b) ws) eqn:E; cbn [negb flat_map snd map app]; rewrite IH; reflexivity.
Qed.
Lemma bins_split : forall bins ws, NoDup (map py_upper bins) ->
  Permutation ws (flat_map (fun b => filter (in_bin b) ws) bins ++ others bins ws).
Proof.
  induction bins as [|b bins IH]; intros ws N.
  - cbn. unfold others. cbn. induction ws; cbn; auto.
  - inversion N as [|? ? NI N']; subst. cbn [flat_map].
    transitivity (filter (in_bin b) ws ++ filter (fun w => negb (in_bin b w)) ws); [apply filter_split|].
    rewrite <- app_assoc. apply Permutation_app_head.
    rewrite (IH (filter (fun w => negb (in_bin b w)) ws) N') at 1.
    assert (FF : forall (f g : string * string * string -> bool) l, filter f (filter g l) = filter (fun x => g x && f x) l).
    { intros f g l. induction l as [|x l IL]; cbn; auto. destruct (g x); cbn; [destruct (f x); now rewrite IL|auto]. }
    apply Permutation_app.
    + clear IH N. assert (E : forall bs, (forall b', In b' bs -> In b' bins) ->
        flat_map (fun b0 => filter (in_bin b0) (filter (fun w => negb (in_bin b w)) ws)) bs = flat_map (fun b0 => filter (in_bin b0) ws) bs).
      { induction bs as [|b' bs IB]; intros I; auto. cbn. rewrite IB by (intros; apply I; cbn; auto). f_equal.
        rewrite FF. apply filter_ext_in. intros w _. destruct (in_bin b' w) eqn:X; [|now rewrite andb_false_r].
        rewrite andb_true_r. destruct (in_bin b w) eqn:Y; auto. exfalso. apply NI. unfold in_bin in *. apply String.eqb_eq in X, Y.
        rewrite <- Y, X. apply in_map. apply I. cbn; auto. }
      rewrite E by auto. reflexivity.
    + unfold others. rewrite FF. apply Permutation_refl'. apply filter_ext. intros w. cbn. now rewrite negb_orb.
Qed.

(** C86_once.  Every entry of the thorn is in the file exactly as often as it was asked for: none is lost, none is doubled, whatever the bins. *)
Theorem C86_once : forall bins d thorn STORAGE extras out, NoDup (map py_upper bins) ->
  construct_schedule_ccl bins d thorn STORAGE extras = Ok out ->
  exists ps, out = (beginning STORAGE ++ String.concat "" (map text ps))%string /\
    Permutation (entries ps) (map (fun w => py_replace "FUNC_NAME" (fst (fst w)) (snd w)) (wanted thorn d extras)).
Proof.
  intros bins d thorn STORAGE extras out N H.
  assert (X : exists it, In it d /\ f_thorn (snd it) = thorn /\ f_bins (snd it) <> []).
  { destruct (wanted thorn d []) eqn:E; [|apply wanted_nil; congruence].
    rewrite C86_fails in H; [discriminate|]. intros Q. apply wanted_nil in Q. congruence. }
  destruct (C86_schedule bins d thorn STORAGE extras N X) as (fs & P & _ & Q). cbv zeta in Q. rewrite Q in H. injection H as <-.
  eexists. split; [reflexivity|]. rewrite entries_app, numbered_entries, groups_entries, entries_others.
  set (f := fun w : string * string * string => py_replace "FUNC_NAME" (fst (fst w)) (snd w)).
  assert (Y : flat_map (fun b => map f (filter (in_bin b) (wanted thorn fs extras))) bins = map f (flat_map (fun b => filter (in_bin b) (wanted thorn fs extras)) bins)).
  { clear. induction bins as [|b bins IH]; auto. cbn. now rewrite map_app, IH. }
  rewrite Y, <- map_app. apply Permutation_map. rewrite <- bins_split by exact N.
  unfold wanted. apply Permutation_app_tail. apply Permutation_flat_map. now apply Permutation_sym.
Qed.

(** C86_bins.  The two lists of bins of the repository meet the hypothesis, and they are in the order in which Cactus comes to the bins. *)
Definition phase (b : string) : nat :=
  match find (fun e => String.eqb (fst e) b)
    [("STARTUP", 0); ("Driver_BoundarySelect", 1); ("BASEGRID", 2); ("CCTK_INITIAL", 3); ("MoL_Register", 4); ("MoL_CalcRHS", 5); ("ODESolvers_RHS", 5);
     ("MoL_PostStep", 6); ("ODESolvers_PostStep", 6); ("MoL_PseudoEvolution", 7)] with
  | Some e => snd e
  | None => 8
  end.
Theorem C86_bins : NoDup (map py_upper bins_ETLegacy) /\ NoDup (map py_upper bins_CarpetX) /\
  StronglySorted (fun a b => phase a < phase b < 8) bins_ETLegacy /\ StronglySorted (fun a b => phase a < phase b < 8) bins_CarpetX.
Proof.
  split; [|split]; [vm_compute; repeat constructor; cbn; intuition discriminate..|].
  split; repeat constructor; vm_compute; repeat constructor.
Qed.

(** C86_headers_refuted.  The steps of a schedule are not numbered apart: two entries in bins that are not in the list are put under two headers with
    the same number. *)
Theorem C86_headers_refuted : ~ (forall d thorn STORAGE extras out, construct_schedule_ccl bins_ETLegacy d thorn STORAGE extras = Ok out ->
  forall a n b c, out = (a ++ ("# Step " ++ dec n ++ ":") ++ b ++ ("# Step " ++ dec n ++ ":") ++ c)%string -> False).
Proof.
  intros H.
  pose (d := [("f", mk_cfun "f" "T" "T" [("CCTK_ANALYSIS", "x;"); ("CCTK_PARAMCHECK", "y;")] "")]).
  specialize (H d "T" "" [] _ eq_refl
    ("# This schedule.ccl file was automatically generated by NRPy+." ++ nl ++ "#   You are advised against modifying it directly; instead" ++ nl
     ++ "#   modify the Python code that generates it." ++ nl ++ rule
     ++ "# Step 0: Allocate memory for gridfunctions, using the STORAGE: keyword." ++ nl ++ nl ++ rule)%string 1
    (" Schedule functions in the remaining scheduling bins." ++ nl ++ "x;" ++ rule)%string
    (" Schedule functions in the remaining scheduling bins." ++ nl ++ "y;")%string). apply H. vm_compute. reflexivity.
Qed.

(** ** The source files *)
(** C86_sources.  make.code.defn lists the functions whose subdirectory is the thorn, each once, in the order of their names, and exactly those files
    are written, each with the text of its function; every line but the last is continued. *)
Theorem C86_sources : forall suffix d thorn,
  exists fs, Permutation (filter (fun f => String.eqb (f_subdirectory f) thorn) (map snd d)) fs /\
    StronglySorted (fun a b => String.leb (f_name a) (f_name b) = true) fs /\
    snd (make_code_defn suffix d thorn) = map (fun f => ((f_name f ++ suffix)%string, f_full f)) fs /\
    fst (make_code_defn suffix d thorn) =
    ("# make.code.defn file for thorn " ++ thorn ++ nl ++ nl ++ "# Source files that need to be compiled:" ++ nl ++ "SRCS = " ++ backslash ++ nl
     ++ (match fs with [] => "" | _ => String.concat (" " ++ backslash ++ nl) (map (fun f => "       " ++ f_name f ++ suffix) fs) ++ nl end))%string.
Proof.
  intros suffix d thorn. exists (thorn_functions d thorn).
  destruct (py_sorted_spec (fun a b : cfun => String.leb (f_name a) (f_name b)) (fun a b => String.leb_total _ _)
     (fun a b c => string_leb_trans _ _ _) (filter (fun f => String.eqb (f_subdirectory f) thorn) (map snd d))) as [P S].
  split; [exact P|]. split; [exact S|]. split; [reflexivity|].
  unfold make_code_defn. cbn [fst]. do 7 f_equal.
  assert (AA : forall a b c : string, ((a ++ b) ++ c = a ++ b ++ c)%string).
  { intros a b c. induction a; cbn; congruence. }
  generalize (thorn_functions d thorn). induction l as [|f l IH]; auto. destruct l as [|g l].
  - cbn [src_lines map String.concat]. now rewrite !AA.
  - cbn [src_lines map String.concat] in *. rewrite IH. now rewrite !AA.
Qed.

Lemma slen_app : forall a b, String.length (a ++ b)%string = String.length a + String.length b.
Proof. induction a; intros; cbn; auto. Qed.
Lemma sapp_inj : forall s a b, (a ++ s = b ++ s)%string -> a = b.
Proof.
  intros s a. induction a as [|c a IH]; intros [|c' b] E; auto.
  - apply (f_equal String.length) in E. rewrite !slen_app in E. cbn in E. lia.
  - apply (f_equal String.length) in E. rewrite !slen_app in E. cbn in E. lia.
  - cbn in E. injection E as -> E. f_equal. now apply IH.
Qed.
Lemma NoDup_map_filter : forall A B (f : A -> B) p l, NoDup (map f l) -> NoDup (map f (filter p l)).
Proof.
  intros A B f p l. induction l as [|x l IH]; cbn; intros N; auto. inversion N as [|? ? NI N']; subst.
  destruct (p x); cbn; auto. constructor; auto. intros I. apply NI. apply in_map_iff in I. destruct I as (y & <- & I).
  apply filter_In in I. now apply in_map.
Qed.
(** C86_files.  In a registry where each function is stored under its own name (C31) no file is written twice. *)
Theorem C86_files : forall suffix d thorn, NoDup (dkeys d) -> (forall it, In it d -> f_name (snd it) = fst it) ->
  NoDup (map fst (snd (make_code_defn suffix d thorn))).
Proof.
  intros suffix d thorn N K. destruct (C86_sources suffix d thorn) as (fs & P & _ & F & _). rewrite F, map_map. cbn [fst].
  rewrite <- (map_map f_name (fun n => (n ++ suffix)%string)).
  apply FinFun.Injective_map_NoDup; [intros a b; apply sapp_inj|].
  eapply Permutation_NoDup; [apply Permutation_map; exact P|]. apply NoDup_map_filter. rewrite map_map.
  erewrite map_ext_in; [exact N|]. intros it I. now apply K.
Qed.

(** C86_compiled.  A thorn's scheduled functions are compiled into it when each function of the registry is registered with its thorn as its
    subdirectory. *)
Theorem C86_compiled : forall suffix d thorn, (forall it, In it d -> f_thorn (snd it) = f_subdirectory (snd it)) ->
  forall it, In it d -> f_thorn (snd it) = thorn -> In ((f_name (snd it) ++ suffix)%string, f_full (snd it)) (snd (make_code_defn suffix d thorn)).
Proof.
  intros suffix d thorn K it I T. destruct (C86_sources suffix d thorn) as (fs & P & _ & F & _). rewrite F.
  apply in_map_iff. exists (snd it). split; auto. eapply Permutation_in; [exact P|]. apply filter_In. split; [now apply in_map|].
  apply String.eqb_eq. rewrite <- K; auto.
Qed.
(** C86_compiled_refuted.  The schedule goes by ET_thorn_name and the list of sources by subdirectory, and nothing ties the two: a function registered
    with the default subdirectory is scheduled in a thorn that does not contain it. *)
Theorem C86_compiled_refuted : ~ (forall d thorn out, NoDup (dkeys d) -> (forall it, In it d -> f_name (snd it) = fst it) ->
  construct_schedule_ccl bins_ETLegacy d thorn "" [] = Ok out ->
  forall it, In it d -> f_thorn (snd it) = thorn -> f_bins (snd it) <> [] ->
  In ((f_name (snd it) ++ ".c")%string, f_full (snd it)) (snd (make_code_defn ".c" d thorn))).
Proof.
  intros H. pose (d := [("f", mk_cfun "f" "." "T" [("CCTK_INITIAL", "x;")] "")]).
  refine (H d "T" _ _ _ eq_refl ("f", mk_cfun "f" "." "T" [("CCTK_INITIAL", "x;")] "") _ eq_refl _).
  - repeat constructor. intros [].
  - intros it [<-|[]]. reflexivity.
  - now left.
  - discriminate.
Qed.
(** C86_empty_refuted.  The list of sources does not always end with an uncontinued line: for a thorn without functions SRCS is left continued. *)
Theorem C86_empty_refuted : ~ (forall d thorn, forall a, fst (make_code_defn ".c" d thorn) <> (a ++ backslash ++ nl)%string).
Proof.
  intros H. apply (H [] "T" ("# make.code.defn file for thorn T" ++ nl ++ nl ++ "# Source files that need to be compiled:" ++ nl ++ "SRCS = ")%string).
  reflexivity.
Qed.

(** ** Examples *)
Definition ex_reg : dict cfun :=
  [("rhs", mk_cfun "rhs" "T" "T" [("MoL_CalcRHS", "schedule FUNC_NAME;"); ("mol_poststep", "again FUNC_NAME;")] "R");
   ("init", mk_cfun "init" "T" "T" [("CCTK_INITIAL", "schedule FUNC_NAME;")] "I");
   ("other", mk_cfun "other" "U" "U" [("STARTUP", "schedule FUNC_NAME;")] "O");
   ("diag", mk_cfun "diag" "T" "T" [("CCTK_ANALYSIS", "schedule FUNC_NAME;")] "D");
   ("helper", mk_cfun "helper" "T" "T" [] "H")].
Example ex_C86_schedule : construct_schedule_ccl bins_ETLegacy ex_reg "T" "S" [("MoL_PostStep", "extra;")] =
  Ok (preamble "S" ++ String.concat "" (map piece_text
   [Header 1 "CCTK_INITIAL"; Entry "schedule init;"; Header 2 "MoL_CalcRHS"; Entry "schedule rhs;";
    Header 3 "MoL_PostStep"; Entry "again rhs;"; Entry "extra;"; Remaining 4; Entry "schedule diag;"]))%string.
Proof. vm_compute. reflexivity. Qed.
Example ex_C86_text : (piece_text (Header 12 "MoL_CalcRHS") = nl ++ "##################################################" ++ nl
  ++ "# Step 12: Schedule functions in the MoL_CalcRHS scheduling bin." ++ nl)%string.
Proof. reflexivity. Qed.
Example ex_C86_hypothesis : exists it, In it ex_reg /\ f_thorn (snd it) = "T" /\ f_bins (snd it) <> [].
Proof. exists (hd ("", mk_cfun "" "" "" [] "") ex_reg). cbn. repeat split; auto. discriminate. Qed.
Example ex_C86_once : exists out, construct_schedule_ccl bins_CarpetX ex_reg "T" "S" [("MoL_PostStep", "extra;")] = Ok out.
Proof. eexists. vm_compute. reflexivity. Qed.
Example ex_C86_fails : construct_schedule_ccl bins_CarpetX ex_reg "V" "S" [("STARTUP", "extra;")] = Err KeyError.
Proof. apply C86_fails. intros (it & I & T & _). repeat (destruct I as [<-|I]; [discriminate|]). destruct I. Qed.
Example ex_C86_sources : make_code_defn ".c" ex_reg "T" =
  (("# make.code.defn file for thorn T" ++ nl ++ nl ++ "# Source files that need to be compiled:" ++ nl ++ "SRCS = " ++ backslash ++ nl
    ++ "       diag.c " ++ backslash ++ nl ++ "       helper.c " ++ backslash ++ nl ++ "       init.c " ++ backslash ++ nl ++ "       rhs.c" ++ nl)%string,
   [("diag.c", "D"); ("helper.c", "H"); ("init.c", "I"); ("rhs.c", "R")]).
Proof. vm_compute. reflexivity. Qed.
Example ex_C86_files : NoDup (map fst (snd (make_code_defn ".cxx" ex_reg "T"))).
Proof.
  apply C86_files; [vm_compute; repeat constructor; cbn; intuition discriminate|].
  intros it I. repeat (destruct I as [<-|I]; [reflexivity|]). destruct I.
Qed.
Example ex_C86_compiled : In ("rhs.c", "R") (snd (make_code_defn ".c" ex_reg "T")).
Proof.
  apply (C86_compiled ".c" ex_reg "T") with (it := hd ("", mk_cfun "" "" "" [] "") ex_reg); cbn; auto.
  intros it I. repeat (destruct I as [<-|I]; [reflexivity|]). destruct I.
Qed.

Print Assumptions C86_schedule.
Print Assumptions C86_fails.
Print Assumptions C86_once.
Print Assumptions C86_bins.
Print Assumptions C86_headers_refuted.
Print Assumptions C86_sources.
Print Assumptions C86_files.
Print Assumptions C86_compiled.
Print Assumptions C86_compiled_refuted.
Print Assumptions C86_empty_refuted.
