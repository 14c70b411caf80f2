(** Headline theorems for the precomputed reference-metric arrays (C57). *)
From Coq Require Import String Ascii List ZArith Bool Lia Permutation Sorted.
From Verif Require Import PyBase PyBaseFacts PyList PyListFacts GridFacts RegistryFacts CFunction CFunctionFacts PropCFunction
  SimdLoop RfmPrecompute RfmPrecomputeFacts.
Import ListNotations.
Open Scope string_scope.
Open Scope list_scope.

Section C57.
Variables (E : Type) (deps : E -> nat -> bool) (ccode : E -> string).
Notation item := (item E).
Notation out := (out E).
Notation name := (it_name E).
Notation dep it k := (deps (it_expr E it) k).

(** The entries that become arrays: those whose name contains "_of_xx". *)
Definition is_array (it : item) : Prop := exists a b, name it = (a ++ "_of_xx" ++ b)%string.
Lemma is_array_of_xx : forall it, of_xx E it = true <-> is_array it.
Proof. intros it. apply py_in_spec. Qed.

(** ** Which entries are accepted *)
(** The constructor succeeds exactly when every array depends on exactly one coordinate or on both xx0 and xx1, and otherwise
    raises RuntimeError. *)
Theorem C57_outcome : forall l,
  ((exists o, precompute E deps l = Ok o) <->
   forall it, In it l -> is_array it ->
     (exists d, d < 3 /\ forall k, k < 3 -> (dep it k = true <-> k = d)) \/ (dep it 0 = true /\ dep it 1 = true)) /\
  (forall e, precompute E deps l = Err e -> e = RuntimeError).
Proof.
  intros l.
  assert (SHAPE : forall it, sh E deps it <> None <->
     ((exists d, d < 3 /\ forall k, k < 3 -> (dep it k = true <-> k = d)) \/ (dep it 0 = true /\ dep it 1 = true))).
  { intros it. unfold sh, shape. split.
    - destruct (dep it 0) eqn:F0, (dep it 1) eqn:F1, (dep it 2) eqn:F2; intros H; try congruence; auto; left;
        [exists 0|exists 1|exists 2]; (split; [lia|]); intros k K;
        assert (C : k = 0 \/ k = 1 \/ k = 2) by lia; destruct C as [C|[C|C]]; subst k; split; intros; congruence.
    - intros [(d & D & H)|[H0 H1]].
      + assert (C : d = 0 \/ d = 1 \/ d = 2) by lia.
        pose proof (H 0 ltac:(lia)) as H0. pose proof (H 1 ltac:(lia)) as H1. pose proof (H 2 ltac:(lia)) as H2.
        destruct (dep it 0), (dep it 1), (dep it 2), C as [C|[C|C]]; subst d; try discriminate; exfalso;
          try (discriminate (proj1 H0 eq_refl)); try (discriminate (proj1 H1 eq_refl)); try (discriminate (proj1 H2 eq_refl));
          try (discriminate (proj2 H0 eq_refl)); try (discriminate (proj2 H1 eq_refl)); try (discriminate (proj2 H2 eq_refl)).
      + rewrite H0, H1. discriminate. }
  split.
  - split.
    + intros [o H]. apply steps_ok in H as (A & _). intros it I R. apply SHAPE, A; [|now apply is_array_of_xx].
      eapply Permutation_in; [apply order_perm|exact I].
    + intros H. unfold precompute. destruct (steps E deps _ (out0 E)) as [o|e] eqn:S; [now exists o|].
      apply steps_err in S as (_ & it & I & O & N). exfalso. apply (proj2 (SHAPE it)); [|exact N].
      apply H; [|now apply is_array_of_xx]. eapply Permutation_in; [apply Permutation_sym, order_perm|exact I].
  - intros e H. unfold precompute in H. now apply steps_err in H.
Qed.

(** ** Allocation and freeing *)
(** Every array is declared, allocated and freed once, in the same order; nothing else is. *)
Theorem C57_same_arrays : forall l o, precompute E deps l = Ok o ->
  o_members E o = map fst (o_malloc E o) /\ o_free E o = o_members E o /\
  Permutation (o_members E o) (map name (filter (of_xx E) l)) /\
  (forall n dims, In (n, dims) (o_malloc E o) ->
     exists it, In it l /\ is_array it /\ name it = n /\ dims = filter (deps (it_expr E it)) [0; 1; 2]).
Proof.
  intros l o H. apply steps_ok in H as (_ & B & C & D & _). cbn [o_members o_malloc o_free out0 app] in B, C, D.
  rewrite B, C, D. split; [|split; [reflexivity|split]].
  - rewrite map_map. reflexivity.
  - apply Permutation_map. apply Permutation_sym, kept_perm.
  - intros n dims I. apply in_map_iff in I as (it & Q & I). apply pair_equal_spec in Q as [Q1 Q2].
    apply in_kept in I as [I O]. exists it. repeat split; auto. now apply is_array_of_xx.
Qed.

(** ** Reads *)
(** Over the three directions of a loop nest, every array is read once. *)
Theorem C57_read_once : forall l o, precompute E deps l = Ok o ->
  Permutation (map fst (o_read E o 0 ++ o_read E o 1 ++ o_read E o 2)) (map name (filter (of_xx E) l)).
Proof.
  intros l o H. pose proof (kept_perm E l) as KP. apply steps_ok in H as (A & _ & _ & _ & _ & G).
  rewrite !G. cbn [o_read out0 app]. rewrite !map_app, !map_map. cbn [fst].
  rewrite (Permutation_map name KP). unfold kept, order in *.
  assert (D : forall it, In it (filter (of_xx E) (py_sorted (fun a b => String.leb (it_key E a) (it_key E b)) l)) ->
              dir_of E deps it < 3).
  { intros it I. apply filter_In in I as [I O]. specialize (A it I O). unfold dir_of, sh, shape in *.
    destruct (dep it 0), (dep it 1), (dep it 2); try lia; congruence. }
  revert D. clear. generalize (filter (of_xx E) (py_sorted (fun a b => String.leb (it_key E a) (it_key E b)) l)).
  clear l. induction l as [|it l IH]; intros D; [constructor|].
  cbn [filter map]. pose proof (D it (or_introl eq_refl)) as Di. specialize (IH (fun x I => D x (or_intror I))).
  destruct (dir_of E deps it) as [|[|[|]]] eqn:Q; cbn [Nat.eqb map app]; [| | |lia].
  - now constructor.
  - rewrite <- Permutation_middle. now constructor.
  - rewrite app_assoc, <- Permutation_middle, <- app_assoc. now constructor.
Qed.
(** A read placed in direction d uses only loop indices that are declared there: i_d, or (in the innermost loop) i0 and i1. *)
Theorem C57_in_scope : forall l o d n s, precompute E deps l = Ok o -> In (n, s) (o_read E o d) ->
  (s = Sub1 d /\ d < 3) \/ (s = Sub2 /\ d = 0).
Proof.
  intros l o d n s H I. apply steps_ok in H as (A & _ & _ & _ & _ & G). rewrite G in I. cbn [o_read out0 app] in I.
  apply in_map_iff in I as (it & Q & I). apply pair_equal_spec in Q as [_ <-]. apply filter_In in I as [I D].
  apply Nat.eqb_eq in D. apply filter_In in I as [I O]. specialize (A it I O). subst d.
  unfold sub_of, dir_of, sh, shape in *.
  destruct (dep it 0), (dep it 1), (dep it 2); try congruence; auto; left; split; auto; lia.
Qed.

(** ** The texts *)
(** Every array is allocated with the sizes of its coordinates, defined and read with its own subscript, and the three reads (plain,
    SIMD with a broadcast, SIMD with a vector load) are declarations of the variable of the same name.  [T] contains [x] as a part. *)
Definition contains (T x : string) : Prop := exists a b, T = (a ++ x ++ b)%string.
Lemma contains_concat : forall A (f : A -> string) l x, In x l -> contains (String.concat "" (map f l)) (f x).
Proof.
  intros A f l x. induction l as [|y l IH]; [intros []|]. intros [<-|I].
  - exists ""%string. destruct l as [|z l]; cbn [map String.concat]; [exists ""%string; cbn; now rewrite sapp_nil_r|].
    exists (String.concat "" (f z :: map f l)). reflexivity.
  - destruct (IH I) as (a & b & Q). exists (f y ++ a)%string, b. destruct l as [|z l]; [destruct I|].
    change (String.concat "" (map f (y :: z :: l))) with (f y ++ "" ++ String.concat "" (map f (z :: l)))%string. cbn [append]. rewrite Q. now rewrite sapp_assoc.
Qed.
Lemma contains_part : forall T a x b, contains T (a ++ x ++ b) -> contains T x.
Proof. intros T a x b (u & w & ->). exists (u ++ a)%string, (b ++ w)%string. now rewrite !sapp_assoc. Qed.
Theorem C57_text : forall l o it, precompute E deps l = Ok o -> In it l -> is_array it ->
  exists d s sizes,
    ((dep it 0 = true /\ dep it 1 = false /\ dep it 2 = false /\ d = 0 /\ s = "[i0]" /\ sizes = "Nxx_plus_2NGHOSTS0") \/
     (dep it 0 = false /\ dep it 1 = true /\ dep it 2 = false /\ d = 1 /\ s = "[i1]" /\ sizes = "Nxx_plus_2NGHOSTS1") \/
     (dep it 0 = false /\ dep it 1 = false /\ dep it 2 = true /\ d = 2 /\ s = "[i2]" /\ sizes = "Nxx_plus_2NGHOSTS2") \/
     (dep it 0 = true /\ dep it 1 = true /\ d = 0 /\ s = "[i0 + Nxx_plus_2NGHOSTS0*i1]" /\
        sizes = "Nxx_plus_2NGHOSTS0*Nxx_plus_2NGHOSTS1" ++ (if dep it 2 then "*Nxx_plus_2NGHOSTS2" else "")))%string /\
    let n := name it in
    let r := reads E o in
    contains (malloc_body E o) ("rfmstruct->" ++ n ++ " = (REAL *)malloc(sizeof(REAL)*" ++ sizes ++ ");") /\
    contains (fill_body E ccode o) ("rfmstruct->" ++ n ++ s ++ " = " ++ ccode (it_expr E it) ++ ";") /\
    contains (free_body E o) ("free(rfmstruct->" ++ n ++ ");") /\
    contains (rd_plain r d) ("MAYBE_UNUSED const REAL " ++ n ++ " = rfmstruct->" ++ n ++ s ++ ";") /\
    contains (rd_outer r d) ("const double NOSIMD" ++ n ++ " = rfmstruct->" ++ n ++ s ++ "; MAYBE_UNUSED const REAL_SIMD_ARRAY " ++ n ++
                              " = ConstSIMD(NOSIMD" ++ n ++ ");") /\
    contains (rd_inner r d) ("MAYBE_UNUSED const REAL_SIMD_ARRAY " ++ n ++ " = ReadSIMD(&rfmstruct->" ++ n ++ s ++ ");").
Proof.
  intros l o it H I R. pose proof (proj2 (in_kept E l it) (conj I (proj2 (is_array_of_xx it) R))) as K.
  apply steps_ok in H as (A & _ & M & FR & F & G). cbn [o_malloc o_fill o_free o_read out0 app] in M, F, FR, G.
  fold (order E l) in *. fold (kept E l) in *.
  assert (SH : sh E deps it <> None).
  { apply A; [|now apply is_array_of_xx]. unfold kept in K. apply filter_In in K. apply K. }
  assert (KM : In (name it, used E deps it) (o_malloc E o)) by (rewrite M; apply in_map_iff; exists it; auto).
  assert (KF : In (it, sub_of E deps it) (o_fill E o)) by (rewrite F; apply in_map_iff; exists it; auto).
  assert (KR : In (name it, sub_of E deps it) (o_read E o (dir_of E deps it))).
  { rewrite G. apply in_map_iff. exists it. split; [reflexivity|]. apply filter_In. split; [exact K|apply Nat.eqb_refl]. }
  assert (KX : In (name it) (o_free E o)) by (rewrite FR; now apply in_map).
  exists (dir_of E deps it), (sub_text (sub_of E deps it)), (String.concat "*" (map size_name (used E deps it))).
  split.
  { unfold sub_of, dir_of, used. unfold sh, shape in *. cbn [filter].
    destruct (dep it 0), (dep it 1), (dep it 2); try congruence; cbn; auto 10 using conj. all: tauto. }
  cbv zeta. cbn [reads rd_plain rd_outer rd_inner].
  pose proof (contains_concat _ malloc_text _ _ KM) as C1. pose proof (contains_concat _ (fill_text E ccode) _ _ KF) as C2.
  pose proof (contains_concat _ free_text _ _ KX) as C3. pose proof (contains_concat _ read_text _ _ KR) as C4.
  pose proof (contains_concat _ outer_text _ _ KR) as C5. pose proof (contains_concat _ inner_text _ _ KR) as C6.
  assert (T : forall T x, contains T (x ++ nl) -> contains T x) by (intros T x C; apply (contains_part T "" x nl); exact C).
  split; [|split; [|split; [|split; [|split]]]].
  - apply T. unfold malloc_text in C1. cbn [fst snd] in C1. destruct (used E deps it) eqn:U; [|rewrite !sapp_assoc; cbn [append]; exact C1].
    exfalso. unfold used in U. unfold sh, shape in SH. cbn [filter] in U. destruct (dep it 0), (dep it 1), (dep it 2); congruence.
  - unfold fill_text in C2. unfold sub_of in *. destruct (sh E deps it) as [[d [k|]]|] eqn:S; [| |congruence].
    + apply (contains_part _ ("for(int i" ++ dirname k ++ "=0;i" ++ dirname k ++ "<Nxx_plus_2NGHOSTS" ++ dirname k ++ ";i" ++ dirname k ++ "++) {" ++ nl ++
      "  const REAL xx" ++ dirname k ++ " = xx[" ++ dirname k ++ "][i" ++ dirname k ++ "];" ++ nl ++ "  ") _ (nl ++ "}" ++ nl ++ nl)).
      unfold sub_text. repeat first [rewrite sapp_assoc|progress cbn [append]]. repeat first [rewrite sapp_assoc in C2|progress cbn [append] in C2]. exact C2.
    + eapply (contains_part _ (nl ++ "                for(int i1=0;i1<Nxx_plus_2NGHOSTS1;i1++) for(int i0=0;i0<Nxx_plus_2NGHOSTS0;i0++) {" ++ nl ++
      "                  const REAL xx0 = xx[0][i0];" ++ nl ++ "                  const REAL xx1 = xx[1][i1];" ++ nl ++ "                  ")).
      unfold sub_text. repeat first [rewrite sapp_assoc|progress cbn [append]]. repeat first [rewrite sapp_assoc in C2|progress cbn [append] in C2]. exact C2.
  - apply T. unfold free_text in C3. rewrite !sapp_assoc. cbn [append]. exact C3.
  - apply T. unfold read_text in C4. cbn [fst snd] in C4. rewrite !sapp_assoc. cbn [append]. exact C4.
  - apply T. unfold outer_text in C5. cbn [fst snd] in C5. rewrite !sapp_assoc. cbn [append]. exact C5.
  - apply T. unfold inner_text in C6. cbn [fst snd] in C6. rewrite !sapp_assoc. cbn [append]. exact C6.
Qed.

(** ** Values *)
Section Values.
Variables (X V : Type) (size : nat -> Z) (xx : nat -> Z -> X) (eval : E -> (nat -> option X) -> option V).
(** What evaluation is assumed to do: look only at the free symbols, and fail exactly when one of them is undeclared. *)
Hypothesis eval_ext : forall e f g, (forall k, k < 3 -> deps e k = true -> f k = g k) -> eval e f = eval e g.
Hypothesis eval_some : forall e f, (forall k, k < 3 -> deps e k = true -> f k <> None) -> eval e f <> None.
Hypothesis eval_none : forall e f k, k < 3 -> deps e k = true -> f k = None -> eval e f = None.
Hypothesis size_pos : forall k, k < 3 -> (0 < size k)%Z.
Notation value it i := (eval (it_expr E it) (fun k => Some (xx k (i k)))).
Notation setup := (setup E X V size xx eval).
Definition in_grid (i : nat -> Z) : Prop := forall k, k < 3 -> (0 <= i k < size k)%Z.

Lemma setup_ok : forall l o, NoDup (map name (filter (of_xx E) l)) ->
  (forall it, In it l -> is_array it -> ~ (dep it 0 = true /\ dep it 1 = true /\ dep it 2 = true)) ->
  precompute E deps l = Ok o ->
  exists h, setup o = Some h /\ (forall k, In k (dkeys h) <-> In k (o_members E o)) /\
    forall it, In it l -> is_array it -> sh E deps it <> None /\ all3 E deps it = false /\
      exists c, dget (name it) h = Some (total E deps size it, c) /\
        forall j, (0 <= j < total E deps size it)%Z ->
          c j = at_point E X V xx eval it (back size (sub_of E deps it) j) /\ c j <> None.
Proof using eval_ext eval_some size_pos.
  intros l o N T H. pose proof (kept_perm E l) as KP. pose proof (in_kept E l) as IK. apply steps_ok in H as (A & B & C & D & F & _).
  cbn [o_members o_malloc o_free o_fill out0 app] in B, C, D, F.
  assert (OK : forall it, In it l -> is_array it -> sh E deps it <> None /\ all3 E deps it = false).
  { intros it I R. split.
    - apply A; [|now apply is_array_of_xx]. eapply Permutation_in; [apply order_perm|exact I].
    - specialize (T it I R). unfold all3. destruct (dep it 0), (dep it 1), (dep it 2); try reflexivity. exfalso. now apply T. }
  assert (NK : NoDup (map name (kept E l))) by (eapply Permutation_NoDup; [apply Permutation_map, KP|exact N]).
  unfold setup. rewrite C, F. fold (order E l). fold (kept E l).
  pose proof (mallocs E deps V size (kept E l) [] NK) as M. unfold RfmPrecomputeFacts.used in *. rewrite M. cbn [app].
  edestruct (fills E deps X V size xx eval eval_ext eval_some size_pos (kept E l)
    (map (fun it => (name it, (total E deps size it, fun _ => @None V))) (kept E l))) as (h' & Q1 & Q2 & _ & Q4).
  - exact NK.
  - intros it I. apply IK in I as [I O]. apply OK; auto. now apply is_array_of_xx.
  - intros it I. eexists. apply In_dget.
    + unfold dkeys. rewrite map_map. exact NK.
    + apply in_map_iff. exists it. split; [reflexivity|exact I].
  - exists h'. split; [exact Q1|]. split.
    + intros k. rewrite Q2, B. unfold dkeys. rewrite map_map. reflexivity.
    + intros it I R. destruct (OK it I R) as [O1 O2]. split; auto. split; auto. apply Q4. apply IK. split; auto.
      now apply is_array_of_xx.
Qed.

Lemma read_sub : forall l o it d s, NoDup (map name (filter (of_xx E) l)) -> precompute E deps l = Ok o ->
  In it l -> is_array it -> In (name it, s) (o_read E o d) -> s = sub_of E deps it /\ d = dir_of E deps it.
Proof.
  intros l o it d s N H I R J. pose proof (kept_perm E l) as KP. pose proof (in_kept E l) as IK.
  apply steps_ok in H as (_ & _ & _ & _ & _ & G). rewrite G in J. cbn [o_read out0 app] in J.
  apply in_map_iff in J as (it' & Q & J). apply pair_equal_spec in Q as [Q <-]. apply filter_In in J as [J D].
  apply Nat.eqb_eq in D.
  assert (NK : NoDup (map name (kept E l))) by (eapply Permutation_NoDup; [apply Permutation_map, KP|exact N]).
  replace it with it'; [auto|]. change (filter (of_xx E) _) with (kept E l) in J.
  assert (IT : In it (kept E l)) by (apply IK; split; auto; now apply is_array_of_xx).
  revert NK Q J IT. clear. induction (kept E l) as [|x r IH]; intros NK Q J IT; [destruct J|].
  cbn [map] in NK. inversion NK as [|? ? N1 N2]; subst. destruct J as [->|J], IT as [->|IT]; auto.
  - exfalso. apply N1. rewrite Q. now apply in_map.
  - exfalso. apply N1. rewrite <- Q. now apply in_map.
Qed.

(** With distinct names and no array of all three coordinates, allocation and definition run without an out-of-bounds store
    or an undeclared variable; every cell of every array is set; and whatever subscript a loop reads an array with, at every
    grid point (ghost zones included) it finds the expression's value at that point. *)
Theorem C57_values : forall l o, NoDup (map name (filter (of_xx E) l)) ->
  (forall it, In it l -> is_array it -> ~ (dep it 0 = true /\ dep it 1 = true /\ dep it 2 = true)) ->
  precompute E deps l = Ok o ->
  exists h, setup o = Some h /\ forall it, In it l -> is_array it ->
    (exists c, dget (name it) h = Some (fold_left Z.mul (map size (filter (deps (it_expr E it)) [0; 1; 2])) 1%Z, c) /\
       forall j, (0 <= j < fold_left Z.mul (map size (filter (deps (it_expr E it)) [0; 1; 2]%nat)) 1)%Z -> c j <> None) /\
    forall d s i, In (name it, s) (o_read E o d) -> in_grid i ->
      fetch V h (name it) (sub_value size s i) = value it i /\ value it i <> None.
Proof using eval_ext eval_some size_pos.
  intros l o N T H. destruct (setup_ok l o N T H) as (h & S & _ & G). exists h. split; [exact S|].
  intros it I R. destruct (G it I R) as (S1 & S2 & c & C1 & C2). split.
  - exists c. split; [exact C1|]. intros j B. now apply (C2 j B).
  - intros d s i J B. destruct (read_sub l o it d s N H I R J) as [-> _].
    destruct (sub_value_ok E deps X V size xx eval eval_ext it i S1 S2 B) as [V1 V2].
    destruct (C2 _ V1) as [E1 E2]. unfold fetch. rewrite C1.
    replace ((0 <=? _)%Z && (_ <? _)%Z) with true by (symmetry; apply andb_true_intro; split; [apply Z.leb_le|apply Z.ltb_lt]; lia).
    rewrite E1, V2. split; [reflexivity|]. unfold at_point in *. rewrite <- V2, <- E1. exact E2.
Qed.

(** Vector loops.  The innermost loop reads w consecutive cells starting at the subscript: lane n holds the value at
    (i0 + n, i1, i2), as long as that point is on the grid.  The outer loops broadcast one cell, which is right for every i0. *)
Theorem C57_vector_inner : forall l o h it s i n, NoDup (map name (filter (of_xx E) l)) ->
  (forall it, In it l -> is_array it -> ~ (dep it 0 = true /\ dep it 1 = true /\ dep it 2 = true)) ->
  precompute E deps l = Ok o -> setup o = Some h -> In it l -> is_array it -> In (name it, s) (o_read E o 0) ->
  in_grid i -> (0 <= n)%Z -> (i 0%nat + n < size 0%nat)%Z ->
  fetch V h (name it) (sub_value size s i + n)%Z = value it (fun k => if Nat.eqb k 0 then (i 0%nat + n)%Z else i k).
Proof using eval_ext eval_some size_pos.
  intros l o h it s i n N T H S I R J B n0 nB.
  destruct (C57_values l o N T H) as (h' & S' & G). rewrite S in S'. injection S' as <-.
  destruct (G it I R) as [_ G2].
  assert (B' : in_grid (fun k => if Nat.eqb k 0 then (i 0%nat + n)%Z else i k)).
  { intros k K. pose proof (B k K). destruct (Nat.eqb_spec k 0) as [->|]; lia. }
  destruct (G2 0 s _ J B') as [G3 _]. rewrite <- G3. f_equal.
  destruct (C57_in_scope l o 0 (name it) s H J) as [[-> _]|[-> _]]; cbn [sub_value Nat.eqb]; lia.
Qed.
Theorem C57_vector_outer : forall l o h it d s i i0, NoDup (map name (filter (of_xx E) l)) ->
  (forall it, In it l -> is_array it -> ~ (dep it 0 = true /\ dep it 1 = true /\ dep it 2 = true)) ->
  precompute E deps l = Ok o -> setup o = Some h -> In it l -> is_array it -> In (name it, s) (o_read E o d) -> d <> 0 ->
  in_grid i ->
  fetch V h (name it) (sub_value size s i) = value it (fun k => if Nat.eqb k 0 then i0 else i k).
Proof using eval_ext eval_some size_pos.
  intros l o h it d s i i0 N T H S I R J D B.
  destruct (C57_values l o N T H) as (h' & S' & G). rewrite S in S'. injection S' as <-.
  destruct (G it I R) as [_ G2]. destruct (G2 d s i J B) as [G3 _]. rewrite G3.
  apply eval_ext. intros k K KD. destruct (Nat.eqb_spec k 0) as [->|]; [|reflexivity]. exfalso.
  destruct (read_sub l o it d s N H I R J) as [_ Q]. apply D. rewrite Q. unfold dir_of, sh, shape.
  pose proof (setup_ok l o N T H) as (hh & _ & _ & Z0). destruct (Z0 it I R) as (S1 & _). unfold sh, shape in S1.
  rewrite KD in *. destruct (dep it 1), (dep it 2); auto. congruence.
Qed.

(** rfm_precompute_free frees every array once and leaves nothing allocated. *)
Theorem C57_free : forall l o h, NoDup (map name (filter (of_xx E) l)) ->
  (forall it, In it l -> is_array it -> ~ (dep it 0 = true /\ dep it 1 = true /\ dep it 2 = true)) ->
  precompute E deps l = Ok o -> setup o = Some h -> fold_left (do_free V) (o_free E o) (Some h) = Some [].
Proof using eval_ext eval_some size_pos.
  intros l o h N T H S. destruct (setup_ok l o N T H) as (h' & S' & K & _). rewrite S in S'. injection S' as <-.
  destruct (C57_same_arrays l o H) as (_ & F & P & _). rewrite F. apply frees.
  - eapply Permutation_NoDup; [apply Permutation_sym, P|exact N].
  - intros k. apply K.
  - intros k. apply K.
Qed.

(** An array of all three coordinates is accepted, but the loop that defines it does not declare xx2: the generated code does
    not compile. *)
Theorem C57_three_refuted : forall l o it, precompute E deps l = Ok o -> In it l -> is_array it ->
  dep it 0 = true -> dep it 1 = true -> dep it 2 = true -> setup o = None.
Proof using eval_none size_pos.
  intros l o it H I R F0 F1 F2. pose proof (in_kept E l) as IK. apply steps_ok in H as (_ & _ & _ & _ & F & _).
  cbn [o_fill out0 app] in F. unfold setup. rewrite F. apply fills_bad with (it := it); auto.
  - apply (proj2 (IK it)). split; [exact I|now apply is_array_of_xx].
  - unfold all3. now rewrite F0, F1, F2.
Qed.
End Values.

(** ** Registration *)
Section Registration.
Variables (et : Type) (et0 : et) (infra : string) (clang : string -> string -> py string) (rm : string -> list item).
Notation register := (register_rfm_precompute E deps ccode et et0 infra clang rm).
Notation coords := (register_coords E deps ccode et et0 infra clang rm).
Notation reg := (dict (cfunction et)).

Definition has (d : reg) (c fn body : string) : Prop :=
  exists f, dget (qualified ("rfm_precompute_" ++ fn) c) d = Some f /\ a_body (c_args f) = (" " ++ body)%string /\
    a_params (c_args f) = ("const commondata_struct *restrict commondata, const params_struct *restrict params, rfm_struct *restrict rfmstruct" ++
      (if String.eqb fn "defines" then ", REAL *restrict xx[3]" else ""))%string.
Definition keeps (d d' : reg) : Prop := forall k v, dget k d = Some v -> dget k d' = Some v.
Lemma funcs_ok : forall c ms fs d acc d' acc', register_funcs et et0 infra clang c ms fs d acc = (d', Ok acc') ->
  keeps d d' /\ dkeys d' = dkeys d ++ map (fun p => qualified ("rfm_precompute_" ++ fst p) c) fs /\
  (NoDup (dkeys d) -> NoDup (dkeys d')) /\
  (forall fn body, In (fn, body) fs -> has d' c fn body) /\
  (forall x, In x acc' <-> In x acc \/ (fs <> [] /\ In x ms)).
Proof.
  intros c ms fs. induction fs as [|[fn body] r IH]; intros d acc d' acc' H.
  - cbn in H. injection H as <- <-. cbn [map]. rewrite app_nil_r. split; [intros k v G; exact G|]. split; [reflexivity|].
    split; [auto|]. split; [intros fn body []|]. intros x. split; [auto|]. intros [I|[I _]]; [exact I|congruence].
  - cbn [register_funcs] in H. destruct (register_CFunction _ _ _ _ _) as [d1 [u|e]] eqn:R; [|discriminate H].
    destruct (C31_step et infra clang d d1 _ _ R) as [(f & _ & N & Q & I)|(e & Q & _)]; [|discriminate Q].
    cbn [a_name a_coord rfm_args] in N, Q.
    assert (NG : dget (qualified ("rfm_precompute_" ++ fn) c) d = None) by now apply dget_None_keys.
    assert (D1 : d1 = dset (qualified ("rfm_precompute_" ++ fn) c) f d) by (rewrite dkeys_dset_new; auto).
    apply IH in H as (K & KK & ND & A & B). split; [|split; [|split; [|split]]].
    + intros k v G. apply K. rewrite D1. rewrite dget_dset_other; auto. intros ->. congruence.
    + rewrite KK, Q. unfold dkeys. rewrite map_app, <- app_assoc. reflexivity.
    + intros ND0. apply ND. rewrite D1. now apply NoDup_dset.
    + intros fn' body' [J|J]; [|now apply A]. apply pair_equal_spec in J as [<- <-]. exists f. split.
      * apply K. rewrite D1. apply dget_dset_same.
      * pose proof (init_params _ _ _ _ _ I) as IP. apply init_fields in I as (_ & _ & I & _). rewrite I, IP. unfold qualify.
        destruct (name_and_subdir _ _ _). split; reflexivity.
    + intros x. rewrite B, in_app_iff. split.
      * intros [[?|?]|[_ ?]]; auto; right; split; auto; discriminate.
      * intros [?|[_ ?]]; auto.
Qed.

Lemma coords_ok : forall cs d acc d' acc', coords cs d acc = (d', Ok acc') ->
  keeps d d' /\
  dkeys d' = dkeys d ++ flat_map (fun c => map (fun fn => qualified ("rfm_precompute_" ++ fn) c) ["malloc"; "defines"; "free"]) cs /\
  (NoDup (dkeys d) -> NoDup (dkeys d')) /\
  (forall c, In c cs -> exists o, precompute E deps (rm c) = Ok o /\ has d' c "malloc" (malloc_body E o) /\
      has d' c "defines" (fill_body E ccode o) /\ has d' c "free" (free_body E o)) /\
  (forall x, In x acc' <-> In x acc \/ exists c o, In c cs /\ precompute E deps (rm c) = Ok o /\ In x (map member_text (o_members E o))).
Proof.
  induction cs as [|c cs IH]; intros d acc d' acc' H.
  - cbn in H. injection H as <- <-. cbn [flat_map]. rewrite app_nil_r. split; [intros k v G; exact G|]. split; [reflexivity|].
    split; [auto|]. split; [intros c []|]. intros x. split; [auto|]. intros [I|(? & ? & [] & _)]; exact I.
  - cbn [register_coords] in H. destruct (precompute E deps (rm c)) as [o|e] eqn:P; [|discriminate H].
    destruct (register_funcs _ _ _ _ _ _ _ _ _) as [d1 [acc1|e]] eqn:R; [|discriminate H].
    apply funcs_ok in R as (K1 & KK1 & ND1 & A1 & B1). apply IH in H as (K & KK & ND & A & B).
    split; [|split; [|split; [|split]]].
    + intros k v G. now apply K, K1.
    + rewrite KK, KK1. cbn [flat_map]. rewrite <- app_assoc. reflexivity.
    + auto.
    + intros c' [<-|I]; [|now apply A]. exists o. split; [exact P|].
      assert (W : forall fn body, has d1 c fn body -> has d' c fn body) by (intros fn body (f & G & Q); exists f; split; auto).
      split; [|split]; apply W, A1; cbn; auto.
    + intros x. rewrite B, B1. split.
      * intros [[?|[_ ?]]|(c' & o' & I & Q)]; auto; right.
        -- exists c, o. split; [now left|auto].
        -- exists c', o'. split; [now right|exact Q].
      * intros [?|(c' & o' & [<-|I] & Q)]; auto.
        -- left. right. split; [discriminate|]. destruct Q as [Q1 Q2]. congruence.
        -- right. exists c', o'. auto.
Qed.

(** On success every coordinate system has its three functions registered under its own names, carrying its own allocation,
    definition and freeing code; those are the only new entries and none replaces an older one. *)
Theorem C57_registered : forall cs d d' t, register cs d = (d', Ok t) ->
  (forall k v, dget k d = Some v -> dget k d' = Some v) /\
  dkeys d' = dkeys d ++
    flat_map (fun c => map (fun fn => qualified ("rfm_precompute_" ++ fn) c) ["malloc"; "defines"; "free"]) cs /\
  (NoDup (dkeys d) -> NoDup (dkeys d')) /\
  (forall c, In c cs -> exists o fm fd ff, precompute E deps (rm c) = Ok o /\
     dget (qualified "rfm_precompute_malloc" c) d' = Some fm /\
       a_body (c_args fm) = (" " ++ String.concat "" (map malloc_text (o_malloc E o)))%string /\
       a_params (c_args fm) = "const commondata_struct *restrict commondata, const params_struct *restrict params, rfm_struct *restrict rfmstruct"%string /\
     dget (qualified "rfm_precompute_defines" c) d' = Some fd /\
       a_body (c_args fd) = (" " ++ String.concat "" (map (fill_text E ccode) (o_fill E o)))%string /\
       a_params (c_args fd) = "const commondata_struct *restrict commondata, const params_struct *restrict params, rfm_struct *restrict rfmstruct, REAL *restrict xx[3]"%string /\
     dget (qualified "rfm_precompute_free" c) d' = Some ff /\
       a_body (c_args ff) = (" " ++ String.concat "" (map free_text (o_free E o)))%string /\
       a_params (c_args ff) = "const commondata_struct *restrict commondata, const params_struct *restrict params, rfm_struct *restrict rfmstruct"%string).
Proof.
  intros cs d d' t H. unfold register_rfm_precompute in H. destruct (coords cs d []) as [d1 [acc|e]] eqn:C; [|discriminate H].
  apply pair_equal_spec in H as [<- _]. apply coords_ok in C as (K & KK & ND & A & _).
  split; [exact K|]. split; [exact KK|]. split; [exact ND|].
  intros c I. destruct (A c I) as (o & P & (fm & M1 & M2 & M3) & (fd & D1 & D2 & D3) & (ff & F1 & F2 & F3)).
  exists o, fm, fd, ff. repeat split; auto.
Qed.
Lemma NoDup_drop : forall A (a b : list A), NoDup (a ++ b) -> NoDup b.
Proof. intros A a b. induction a as [|x a IH]; intros H; [exact H|]. apply IH. now inversion H. Qed.
(** A list with a coordinate system twice never succeeds. *)
Theorem C57_twice : forall cs d, NoDup (dkeys d) -> ~ NoDup cs -> forall d' t, register cs d <> (d', Ok t).
Proof.
  intros cs d ND N d' t H. apply C57_registered in H as (_ & KK & ND' & _). specialize (ND' ND). rewrite KK in ND'.
  apply N. apply NoDup_drop in ND'. revert ND'. clear. induction cs as [|c cs IH]; intros H; constructor.
  - cbn [flat_map map app] in H. inversion H as [|? ? H1 _]; subst. intros I. apply H1. right. right.
    apply in_flat_map. exists c. split; [exact I|]. now left.
  - apply IH. cbn [flat_map] in H. apply NoDup_drop in H. exact H.
Qed.
(** The struct: its lines are sorted and distinct, and they are the declarations of the arrays of all the coordinate systems. *)
Theorem C57_struct : forall cs d d' t, register cs d = (d', Ok t) ->
  exists ls, t = ("typedef struct __rfmstruct__ {" ++ nl ++ String.concat nl ls ++ nl ++ "} rfm_struct;" ++ nl)%string /\
    NoDup ls /\ StronglySorted (fun a b => String.leb a b = true) ls /\
    forall x, In x ls <-> exists c it, In c cs /\ In it (rm c) /\ is_array it /\ x = ("REAL *restrict " ++ name it ++ ";")%string.
Proof.
  intros cs d d' t H. unfold register_rfm_precompute in H. destruct (coords cs d []) as [d1 [acc|e]] eqn:C; [|discriminate H].
  apply pair_equal_spec in H as [_ H]. injection H as <-. apply coords_ok in C as (_ & _ & _ & A & B).
  exists (py_sorted String.leb (superfast_uniq String.eqb acc)). split; [reflexivity|].
  pose proof (superfast_uniq_spec String.eqb String.eqb_eq acc) as U.
  destruct (py_sorted_spec String.leb string_leb_tot string_leb_trans (superfast_uniq String.eqb acc)) as [P S].
  split; [eapply Permutation_NoDup; [exact P|apply U]|]. split; [exact S|].
  intros x. assert (IN : In x (py_sorted String.leb (superfast_uniq String.eqb acc)) <-> In x acc).
  { rewrite (In_py_sorted String.leb string_leb_tot string_leb_trans). apply U. }
  rewrite IN, B. split.
  - intros [[]|(c & o & I & Q & J)]. apply in_map_iff in J as (n & <- & J).
    destruct (C57_same_arrays _ _ Q) as (_ & _ & PM & _). eapply Permutation_in in J; [|exact PM].
    apply in_map_iff in J as (it & <- & J). apply filter_In in J as [J O]. exists c, it. repeat split; auto.
    now apply is_array_of_xx.
  - intros (c & it & I & J & R & ->). right. destruct (A c I) as (o & Q & _). exists c, o. split; [exact I|]. split; [exact Q|].
    apply in_map_iff. exists (name it). split; [reflexivity|]. destruct (C57_same_arrays _ _ Q) as (_ & _ & PM & _).
    eapply Permutation_in; [apply Permutation_sym, PM|]. apply in_map. apply filter_In. split; [exact J|now apply is_array_of_xx].
Qed.
End Registration.
End C57.

(** ** A concrete case *)
(** Expressions carry their dependencies and a function of the three coordinates. *)
Record ex_expr : Type := MkX { x0 : bool; x1 : bool; x2 : bool; x_fun : Z -> Z -> Z -> Z; x_code : string }.
Definition ex_deps (e : ex_expr) (k : nat) : bool := match k with 0 => x0 e | 1 => x1 e | 2 => x2 e | _ => false end.
Definition ex_eval (e : ex_expr) (f : nat -> option Z) : option Z :=
  let g k := if ex_deps e k then f k else Some 0%Z in
  match g 0, g 1, g 2 with Some a, Some b, Some c => Some (x_fun e a b c) | _, _, _ => None end.
Lemma ex_ext : forall e f g, (forall k, k < 3 -> ex_deps e k = true -> f k = g k) -> ex_eval e f = ex_eval e g.
Proof.
  intros e f g H. unfold ex_eval.
  assert (G : forall k, k < 3 -> (if ex_deps e k then f k else Some 0%Z) = (if ex_deps e k then g k else Some 0%Z)).
  { intros k K. specialize (H k K). destruct (ex_deps e k); auto. }
  now rewrite (G 0), (G 1), (G 2) by lia.
Qed.
Lemma ex_some : forall e f, (forall k, k < 3 -> ex_deps e k = true -> f k <> None) -> ex_eval e f <> None.
Proof.
  intros e f H. unfold ex_eval. pose proof (H 0 ltac:(lia)) as H0. pose proof (H 1 ltac:(lia)) as H1.
  pose proof (H 2 ltac:(lia)) as H2.
  destruct (ex_deps e 0), (ex_deps e 1), (ex_deps e 2), (f 0), (f 1), (f 2); try discriminate; exfalso;
    first [exact (H0 eq_refl eq_refl)|exact (H1 eq_refl eq_refl)|exact (H2 eq_refl eq_refl)].
Qed.
Lemma ex_none : forall e f k, k < 3 -> ex_deps e k = true -> f k = None -> ex_eval e f = None.
Proof.
  intros e f k K D N. unfold ex_eval. assert (C : k = 0 \/ k = 1 \/ k = 2) by lia.
  destruct C as [C|[C|C]]; subst k; rewrite D, N.
  - reflexivity.
  - now destruct (if ex_deps e 0 then f 0 else _).
  - destruct (if ex_deps e 0 then f 0 else _); [|reflexivity]. now destruct (if ex_deps e 1 then f 1 else _).
Qed.
(** SinhSpherical-like entries in registration order, one of them not an array. *)
Definition ex_items : list (item ex_expr) :=
  [MkItem ex_expr "f1_of_xx1" (MkX false true false (fun _ b _ => 10 * b)%Z "sin(xx1)") "(f1_of_xx1, sin(xx1))";
   MkItem ex_expr "f0_of_xx0" (MkX true false false (fun a _ _ => a * a)%Z "xx0*xx0") "(f0_of_xx0, xx0**2)";
   MkItem ex_expr "AMPL" (MkX false false false (fun _ _ _ => 7)%Z "AMPL") "(AMPL, AMPL)";
   MkItem ex_expr "f4_of_xx0_xx1" (MkX true true false (fun a b _ => 100 * a + b)%Z "xx0+xx1") "(f4_of_xx0_xx1, xx0 + xx1)"].
Definition ex_size (k : nat) : Z := match k with 0 => 5%Z | 1 => 4%Z | _ => 3%Z end.
Definition ex_xx (k : nat) (i : Z) : Z := (i + Z.of_nat k)%Z.
Notation ex_pre := (precompute ex_expr ex_deps).

Example C57_ex_accepts :
  (forall it, In it ex_items -> is_array ex_expr it -> ~ (ex_deps (it_expr _ it) 0 = true /\ ex_deps (it_expr _ it) 1 = true /\ ex_deps (it_expr _ it) 2 = true)) /\
  NoDup (map (it_name ex_expr) (filter (of_xx ex_expr) ex_items)) /\
  match ex_pre ex_items with
  | Ok o =>
      o_members _ o = ["f0_of_xx0"; "f1_of_xx1"; "f4_of_xx0_xx1"] /\
      o_malloc _ o = [("f0_of_xx0", [0]); ("f1_of_xx1", [1]); ("f4_of_xx0_xx1", [0; 1])] /\
      o_read _ o 0 = [("f0_of_xx0", Sub1 0); ("f4_of_xx0_xx1", Sub2)] /\ o_read _ o 1 = [("f1_of_xx1", Sub1 1)] /\
      o_read _ o 2 = [] /\
      malloc_body _ o = ("rfmstruct->f0_of_xx0 = (REAL *)malloc(sizeof(REAL)*Nxx_plus_2NGHOSTS0);" ++ nl ++
        "rfmstruct->f1_of_xx1 = (REAL *)malloc(sizeof(REAL)*Nxx_plus_2NGHOSTS1);" ++ nl ++
        "rfmstruct->f4_of_xx0_xx1 = (REAL *)malloc(sizeof(REAL)*Nxx_plus_2NGHOSTS0*Nxx_plus_2NGHOSTS1);" ++ nl)%string /\
      rd_inner (reads _ o) 0 = ("MAYBE_UNUSED const REAL_SIMD_ARRAY f0_of_xx0 = ReadSIMD(&rfmstruct->f0_of_xx0[i0]);" ++ nl ++
        "MAYBE_UNUSED const REAL_SIMD_ARRAY f4_of_xx0_xx1 = ReadSIMD(&rfmstruct->f4_of_xx0_xx1[i0 + Nxx_plus_2NGHOSTS0*i1]);" ++ nl)%string /\
      rd_outer (reads _ o) 1 = ("const double NOSIMDf1_of_xx1 = rfmstruct->f1_of_xx1[i1]; MAYBE_UNUSED const REAL_SIMD_ARRAY f1_of_xx1 = ConstSIMD(NOSIMDf1_of_xx1);" ++ nl)%string
  | Err _ => False
  end.
Proof.
  split; [|split; [|vm_compute; auto 10]].
  - intros it I _ (A & B & C). cbn in I. destruct I as [<-|[<-|[<-|[<-|[]]]]]; discriminate.
  - vm_compute. repeat constructor; cbn; intuition congruence.
Qed.
Example C57_ex_text : exists o, ex_pre ex_items = Ok o /\
  contains (rd_plain (reads _ o) 0) "MAYBE_UNUSED const REAL f4_of_xx0_xx1 = rfmstruct->f4_of_xx0_xx1[i0 + Nxx_plus_2NGHOSTS0*i1];" /\
  contains (rd_inner (reads _ o) 0) "f0_of_xx0 = ReadSIMD(&rfmstruct->f0_of_xx0[i0]);" /\
  contains (free_body _ o) "free(rfmstruct->f0_of_xx0);".
Proof.
  eexists. split; [reflexivity|]. split; [exists ("MAYBE_UNUSED const REAL f0_of_xx0 = rfmstruct->f0_of_xx0[i0];" ++ nl)%string, nl; reflexivity|].
  split; [|exists ""%string; eexists; reflexivity].
  exists "MAYBE_UNUSED const REAL_SIMD_ARRAY "%string; eexists; reflexivity.
Qed.
(** The arrays are filled and read back: at point (2, 3, 1) the two-dimensional array holds 100*xx0 + xx1, lane 1 of a vector read
    holds the value at i0 = 3, and freeing leaves nothing. *)
Example C57_ex_values :
  match ex_pre ex_items with
  | Ok o =>
      match setup ex_expr Z Z ex_size ex_xx ex_eval o with
      | Some h =>
          fetch Z h "f4_of_xx0_xx1" (sub_value ex_size Sub2 (fun k => match k with 0 => 2%Z | 1 => 3%Z | _ => 1%Z end)) = Some 204%Z /\
          fetch Z h "f4_of_xx0_xx1" (sub_value ex_size Sub2 (fun k => match k with 0 => 2%Z | 1 => 3%Z | _ => 1%Z end) + 1) = Some 304%Z /\
          fetch Z h "f1_of_xx1" 3 = Some 40%Z /\ fetch Z h "f1_of_xx1" 4 = None /\
          fold_left (do_free Z) (o_free _ o) (Some h) = Some []
      | None => False
      end
  | Err _ => False
  end.
Proof. vm_compute. auto 10. Qed.
(** Three coordinates: accepted, not compilable; xx0 and xx2: refused. *)
Example C57_ex_three :
  (exists o, ex_pre [MkItem ex_expr "f5_of_xx0_xx1_xx2" (MkX true true true (fun a b c => a + b + c)%Z "xx0+xx1+xx2") "k"] = Ok o /\
     setup ex_expr Z Z ex_size ex_xx ex_eval o = None /\ o_malloc _ o = [("f5_of_xx0_xx1_xx2", [0; 1; 2])]) /\
  ex_pre [MkItem ex_expr "f6_of_xx0_xx2" (MkX true false true (fun a _ c => a + c)%Z "xx0+xx2") "k"] = Err RuntimeError /\
  ex_pre [MkItem ex_expr "f7_of_xx" (MkX false false false (fun _ _ _ => 1)%Z "1") "k"] = Err RuntimeError.
Proof. split; [eexists; split; [reflexivity|]; vm_compute; auto|]. vm_compute. auto. Qed.
(** Two coordinate systems sharing an array name: one member, six functions; the same system twice is refused. *)
Definition ex_rm (c : string) : list (item ex_expr) :=
  if String.eqb c "Cylindrical" then [MkItem ex_expr "f0_of_xx0" (MkX true false false (fun a _ _ => a)%Z "xx0") "(f0_of_xx0, xx0)"]
  else ex_items.
Notation ex_reg := (register_rfm_precompute ex_expr ex_deps x_code unit tt "BHaH" (fun t _ => Ok t) ex_rm).
Example C57_ex_register :
  (let '(d, r) := ex_reg ["Spherical"; "Cylindrical"] [] in
   r = Ok ("typedef struct __rfmstruct__ {" ++ nl ++ "REAL *restrict f0_of_xx0;" ++ nl ++ "REAL *restrict f1_of_xx1;" ++ nl ++
           "REAL *restrict f4_of_xx0_xx1;" ++ nl ++ "} rfm_struct;" ++ nl)%string /\
   dkeys d = ["rfm_precompute_malloc__rfm__Spherical"; "rfm_precompute_defines__rfm__Spherical";
              "rfm_precompute_free__rfm__Spherical"; "rfm_precompute_malloc__rfm__Cylindrical";
              "rfm_precompute_defines__rfm__Cylindrical"; "rfm_precompute_free__rfm__Cylindrical"] /\
   option_map (fun f => a_body (c_args f)) (dget "rfm_precompute_defines__rfm__Cylindrical" d) =
     Some (" for(int i0=0;i0<Nxx_plus_2NGHOSTS0;i0++) {" ++ nl ++ "  const REAL xx0 = xx[0][i0];" ++ nl ++
           "  rfmstruct->f0_of_xx0[i0] = xx0;" ++ nl ++ "}" ++ nl ++ nl)%string) /\
  snd (ex_reg ["Spherical"; "Spherical"] []) = Err ValueError.
Proof. vm_compute. auto. Qed.

Print Assumptions C57_outcome. Print Assumptions C57_same_arrays. Print Assumptions C57_read_once.
Print Assumptions C57_in_scope. Print Assumptions C57_values. Print Assumptions C57_vector_inner.
Print Assumptions C57_vector_outer. Print Assumptions C57_free. Print Assumptions C57_three_refuted.
Print Assumptions C57_registered. Print Assumptions C57_twice. Print Assumptions C57_struct. Print Assumptions C57_text.
