(** Meaning of the emitted C loop nests, and proofs about Loop.v. *)
From Coq Require Import String Ascii List Arith ZArith Bool Lia Permutation.
From Verif Require Import PyBase PyBaseFacts Functional FunctionalFacts Loop.
Import ListNotations.
Open Scope list_scope.
Open Scope nat_scope.

(** ** The C constructs the generator emits *)
Inductive cexpr : Type :=
| CText (s : string)              (* an expression written by the caller *)
| CVar (s : string)
| CMin (a b : cexpr)
| CPlus (a b : cexpr).
Record cfor : Type := MkFor { f_pragma : string; f_var : string; f_lo : cexpr; f_hi : cexpr; f_inc : string }.

(** Rendering as C text. *)
Fixpoint render_expr (e : cexpr) : string :=
  match e with
  | CText s => s
  | CVar s => s
  | CMin a b => ("MIN(" ++ render_expr a ++ ", " ++ render_expr b ++ ")")%string
  | CPlus a b => (render_expr a ++ " + " ++ render_expr b)%string
  end.
Definition render_head (f : cfor) : string :=
  ("for (int " ++ f_var f ++ " = " ++ render_expr (f_lo f) ++ "; " ++ f_var f ++ " < " ++ render_expr (f_hi f) ++ "; "
   ++ f_var f ++ (if String.eqb (f_inc f) "1" then "++" else " += " ++ f_inc f) ++ ")")%string.
Definition render_open (f : cfor) : string :=
  ((if String.eqb (f_pragma f) "" then "" else f_pragma f ++ nl) ++ render_head f ++ " {" ++ nl)%string.
Definition render_close (f : cfor) : string := ("} // END LOOP: " ++ render_head f ++ nl)%string.
Definition render_nest (fs : list cfor) (body : string) : string :=
  (String.concat "" (map render_open fs) ++ body ++ String.concat "" (rev (map render_close fs)))%string.

(** Meaning.  [m] gives the values of the caller's expressions; they do not mention loop indices. *)
Definition env : Type := list (string * Z).
Definition lookup (e : env) (v : string) : Z := match dget v e with Some z => z | None => 0%Z end.
Fixpoint eval (m : string -> Z) (e : env) (x : cexpr) : Z :=
  match x with
  | CText s => m s
  | CVar v => lookup e v
  | CMin a b => Z.min (eval m e a) (eval m e b)
  | CPlus a b => (eval m e a + eval m e b)%Z
  end.
(** for (i = lo; i < hi; i += inc): the values of i for which the body runs. *)
Fixpoint for_iter (fuel : nat) (i hi inc : Z) : list Z :=
  match fuel with
  | O => []
  | S n => if (i <? hi)%Z then i :: for_iter n (i + inc) hi inc else []
  end.
Definition for_values (lo hi inc : Z) : list Z := for_iter (Z.to_nat (hi - lo)) lo hi inc.
(** Environments in which the innermost body runs, in order. *)
Fixpoint exec (m : string -> Z) (fs : list cfor) (e : env) : list env :=
  match fs with
  | [] => [e]
  | f :: r => flat_map (fun v => exec m r ((f_var f, v) :: e))
                (for_values (eval m e (f_lo f)) (eval m e (f_hi f)) (m (f_inc f)))
  end.

(** ** Arithmetic of one loop *)
Lemma for_iter_fuel : forall n k lo hi inc, (0 < inc)%Z -> (hi - lo <= Z.of_nat n)%Z -> n <= k ->
  for_iter k lo hi inc = for_iter n lo hi inc.
Proof.
  induction n as [|n IH]; intros k lo hi inc Hi H Hk.
  - destruct k; cbn [for_iter]; auto. destruct (Z.ltb_spec lo hi); [lia|reflexivity].
  - destruct k as [|k]; [lia|]. cbn [for_iter]. destruct (Z.ltb_spec lo hi); auto. f_equal. apply IH; lia.
Qed.

(** The values are lo, lo+inc, ... below hi. *)
Lemma for_values_step : forall lo hi inc, (0 < inc)%Z ->
  for_values lo hi inc = if (lo <? hi)%Z then lo :: for_values (lo + inc) hi inc else [].
Proof.
  intros lo hi inc H. unfold for_values. destruct (Z.ltb_spec lo hi).
  - destruct (Z.to_nat (hi - lo)) as [|n] eqn:E; [lia|]. cbn [for_iter].
    destruct (Z.ltb_spec lo hi); [|lia]. f_equal. apply for_iter_fuel; lia.
  - replace (Z.to_nat (hi - lo)) with 0 by lia. reflexivity.
Qed.

Lemma for_values_ind : forall (P : Z -> list Z -> Prop) hi inc, (0 < inc)%Z ->
  (forall lo, (hi <= lo)%Z -> P lo []) ->
  (forall lo, (lo < hi)%Z -> P (lo + inc)%Z (for_values (lo + inc) hi inc) -> P lo (lo :: for_values (lo + inc) hi inc)) ->
  forall lo, P lo (for_values lo hi inc).
Proof.
  intros P hi inc Hi H0 H1.
  assert (G : forall n lo, (hi - lo <= Z.of_nat n)%Z -> P lo (for_values lo hi inc)).
  { induction n as [|n IH]; intros lo H; rewrite for_values_step by auto; destruct (Z.ltb_spec lo hi).
    - lia.
    - now apply H0.
    - apply H1; auto. apply IH. lia.
    - now apply H0. }
  intros lo. apply (G (Z.to_nat (hi - lo))). lia.
Qed.

Lemma in_for_values : forall lo hi inc i, (0 < inc)%Z ->
  In i (for_values lo hi inc) <-> (lo <= i < hi)%Z /\ ((i - lo) mod inc = 0)%Z.
Proof.
  intros lo hi inc i Hi. revert lo.
  apply (for_values_ind (fun lo l => In i l <-> (lo <= i < hi)%Z /\ ((i - lo) mod inc = 0)%Z)); auto.
  - intros lo H. split; [intros []|lia].
  - intros lo H IH. cbn [In]. rewrite IH. split.
    + intros [<-|[H1 H2]].
      * rewrite Z.sub_diag, Z.mod_0_l by lia. lia.
      * split; [lia|]. replace (i - lo)%Z with (i - (lo + inc) + 1 * inc)%Z by lia. now rewrite Z.mod_add by lia.
    + intros [H1 H2]. destruct (Z.eq_dec i lo) as [->|Ne]; [now left|]. right.
      assert (inc <= i - lo)%Z by (apply Z.divide_pos_le; [lia|]; now apply Z.mod_divide; lia).
      split; [lia|]. replace (i - lo)%Z with (i - (lo + inc) + 1 * inc)%Z in H2 by lia. now rewrite Z.mod_add in H2 by lia.
Qed.
Lemma for_values_sorted : forall lo hi inc, (0 < inc)%Z -> Sorted.StronglySorted Z.lt (for_values lo hi inc).
Proof.
  intros lo hi inc Hi. revert lo. apply (for_values_ind (fun _ l => Sorted.StronglySorted Z.lt l)); auto.
  - constructor.
  - intros lo H IH. constructor; auto. apply Forall_forall. intros x Hx. apply in_for_values in Hx; lia.
Qed.

(** Splitting a range at a point reached by the loop. *)
Lemma for_values_split : forall k lo hi inc, (0 < inc)%Z ->
  for_values lo hi inc =
  for_values lo (Z.min hi (lo + Z.of_nat k * inc)) inc ++ for_values (lo + Z.of_nat k * inc) hi inc.
Proof.
  induction k as [|k IH]; intros lo hi inc Hi.
  - rewrite Z.mul_0_l, Z.add_0_r. rewrite (for_values_step lo (Z.min hi lo)) by auto.
    destruct (Z.ltb_spec lo (Z.min hi lo)); [lia|reflexivity].
  - rewrite (for_values_step lo hi), (for_values_step lo (Z.min _ _)) by auto.
    destruct (Z.ltb_spec lo hi).
    + destruct (Z.ltb_spec lo (Z.min hi (lo + Z.of_nat (S k) * inc))); [|nia]. cbn [app]. f_equal.
      rewrite (IH (lo + inc)%Z) by auto.
      replace (lo + inc + Z.of_nat k * inc)%Z with (lo + Z.of_nat (S k) * inc)%Z by lia. reflexivity.
    + destruct (Z.ltb_spec lo (Z.min hi (lo + Z.of_nat (S k) * inc))); [lia|]. cbn [app].
      rewrite for_values_step by auto. destruct (Z.ltb_spec (lo + Z.of_nat (S k) * inc) hi); [nia|reflexivity].
Qed.

(** Tiling one dimension, tile a positive multiple of the increment. *)
Lemma tile_1d : forall k hi inc, (0 < inc)%Z -> (0 < Z.of_nat k)%Z -> forall lo,
  flat_map (fun t => for_values t (Z.min hi (t + Z.of_nat k * inc)) inc) (for_values lo hi (Z.of_nat k * inc)) =
  for_values lo hi inc.
Proof.
  intros k hi inc Hi Hk. assert (0 < Z.of_nat k * inc)%Z by nia.
  apply (for_values_ind (fun lo l => flat_map (fun t => for_values t (Z.min hi (t + Z.of_nat k * inc)) inc) l =
    for_values lo hi inc)); auto.
  - intros lo H0. rewrite for_values_step by auto. destruct (Z.ltb_spec lo hi); [lia|reflexivity].
  - intros lo H0 IH. cbn [flat_map]. rewrite IH. symmetry. now apply for_values_split.
Qed.

(** ** The nests the generator builds *)
Record dim : Type := MkDim { d_var : string; d_lo : string; d_hi : string; d_inc : string; d_pragma : string; d_tile : string }.

Definition plain_for (d : dim) : cfor := MkFor (d_pragma d) (d_var d) (CText (d_lo d)) (CText (d_hi d)) (d_inc d).
Definition tile_for (d : dim) : cfor := MkFor "" (d_var d ++ "B") (CText (d_lo d)) (CText (d_hi d)) (d_tile d).
Definition inner_for (d : dim) : cfor :=
  MkFor (d_pragma d) (d_var d) (CVar (d_var d ++ "B"))
    (CMin (CText (d_hi d)) (CPlus (CVar (d_var d ++ "B")) (CText (d_tile d)))) (d_inc d).
Definition plain_nest (ds : list dim) : list cfor := map plain_for ds.
Definition tiled_nest (ds : list dim) : list cfor := map tile_for ds ++ map inner_for ds.

(** *** Text *)
Lemma loop1D_plain : forall d, loop1D (d_var d) (d_lo d) (d_hi d) (d_inc d) (d_pragma d) =
  (render_open (plain_for d), render_close (plain_for d)).
Proof. reflexivity. Qed.
Lemma loop1D_tile : forall d, loop1D (d_var d ++ "B") (d_lo d) (d_hi d) (d_tile d) "" =
  (render_open (tile_for d), render_close (tile_for d)).
Proof. reflexivity. Qed.
Lemma loop1D_inner : forall d,
  loop1D (d_var d) (d_var d ++ "B") ("MIN(" ++ d_hi d ++ ", " ++ d_var d ++ "B + " ++ d_tile d ++ ")") (d_inc d) (d_pragma d)
  = (render_open (inner_for d), render_close (inner_for d)).
Proof.
  intros d. unfold loop1D, render_open, render_close, render_head, loop1D_header, inner_for.
  cbn [f_pragma f_var f_lo f_hi f_inc render_expr].
  rewrite (sapp_assoc (d_var d) "B" (" + " ++ d_tile d)%string). rewrite !sapp_assoc. reflexivity.
Qed.

Lemma nth_error_mid : forall (A B : Type) (f : A -> B) pre d post,
  nth_error (map f (pre ++ d :: post)) (length pre) = Some (f d).
Proof.
  intros. rewrite map_app, nth_error_app2 by (rewrite map_length; lia).
  rewrite map_length, Nat.sub_diag. reflexivity.
Qed.

Lemma list_insert_at : forall (A : Type) (a b : list A) x, list_insert (length a) x (a ++ b) = a ++ x :: b.
Proof. induction a as [|y a IH]; intros b x; cbn; [destruct b; reflexivity|]. now rewrite IH. Qed.

Lemma build_plain : forall idx post pre H F,
  loop_build (length pre) idx (map d_lo (pre ++ post)) (map d_hi (pre ++ post)) (map d_inc (pre ++ post))
    (map d_pragma (pre ++ post)) [] (map d_var post) H F =
  Ok (H ++ map (fun d => render_open (plain_for d)) post, F ++ map (fun d => render_close (plain_for d)) post).
Proof.
  intros idx post; induction post as [|d post IH]; intros pre H F.
  - cbn. now rewrite !app_nil_r.
  - cbn [map loop_build]. rewrite !nth_error_mid. rewrite loop1D_plain.
    specialize (IH (pre ++ [d]) (H ++ [render_open (plain_for d)]) (F ++ [render_close (plain_for d)])).
    rewrite app_length in IH. cbn [length] in IH. rewrite Nat.add_1_r in IH.
    rewrite <- !app_assoc in IH. cbn [app] in IH. exact IH.
Qed.

Lemma build_tiled : forall idx t0 ts post pre H2 F2, t0 :: ts = map d_tile (pre ++ post) ->
  loop_build (length pre) idx (map d_lo (pre ++ post)) (map d_hi (pre ++ post)) (map d_inc (pre ++ post))
    (map d_pragma (pre ++ post)) (t0 :: ts) (map d_var post)
    (map (fun d => render_open (tile_for d)) pre ++ H2) (map (fun d => render_close (tile_for d)) pre ++ F2) =
  Ok (map (fun d => render_open (tile_for d)) (pre ++ post) ++ H2 ++ map (fun d => render_open (inner_for d)) post,
      map (fun d => render_close (tile_for d)) (pre ++ post) ++ F2 ++ map (fun d => render_close (inner_for d)) post).
Proof.
  intros idx t0 ts post; induction post as [|d post IH]; intros pre H2 F2 E.
  - cbn. now rewrite !app_nil_r.
  - cbn [map loop_build]. rewrite !nth_error_mid. rewrite E, nth_error_mid, <- E.
    rewrite loop1D_tile, loop1D_inner.
    assert (L : forall f : dim -> string, length pre = length (map f pre)) by (intros; now rewrite map_length).
    rewrite (L (fun d => render_open (tile_for d))) at 2. rewrite list_insert_at.
    rewrite (L (fun d => render_close (tile_for d))) at 2. rewrite list_insert_at.
    specialize (IH (pre ++ [d]) (H2 ++ [render_open (inner_for d)]) (F2 ++ [render_close (inner_for d)])).
    rewrite app_length in IH. cbn [length] in IH. rewrite Nat.add_1_r in IH.
    rewrite <- !app_assoc in IH. cbn [app] in IH. specialize (IH E).
    rewrite (map_app _ pre [d]), (map_app _ pre [d]) in IH. cbn [map] in IH.
    rewrite <- !app_assoc in IH. cbn [app] in IH.
    rewrite <- !app_assoc. cbn [app]. exact IH.
Qed.

Lemma concat_app : forall a b, String.concat "" (a ++ b) = (String.concat "" a ++ String.concat "" b)%string.
Proof.
  assert (C : forall x l, String.concat "" (x :: l) = (x ++ String.concat "" l)%string).
  { intros x [|y l]; cbn [String.concat]; [now rewrite sapp_nil_r|reflexivity]. }
  induction a as [|x a IH]; intros b; auto. cbn [app]. rewrite !C, IH, sapp_assoc. reflexivity.
Qed.
Lemma concat_cons : forall x l, String.concat "" (x :: l) = (x ++ String.concat "" l)%string.
Proof. intros x l. change (x :: l) with ([x] ++ l). now rewrite concat_app. Qed.

(** Splitting into lines and putting a newline behind each gives the text followed by a newline. *)
Lemma split_lines_aux : forall s acc,
  String.concat "" (map (fun line => line ++ nl) (split_aux nl s 0 acc))%string = (acc ++ s ++ nl)%string.
Proof.
  induction s as [|c s IH]; intros acc; cbn [split_aux].
  - cbn [map String.concat]. reflexivity.
  - destruct (prefix nl (String c s)) eqn:P.
    + apply prefix_spec in P. destruct P as (t & P). unfold nl in P. cbn [String.append] in P. injection P as -> ->.
      change (String.length nl - 1) with 0. cbn [map]. rewrite concat_cons, IH. unfold nl. rewrite sapp_assoc. reflexivity.
    + rewrite IH. rewrite sapp_assoc. reflexivity.
Qed.
Lemma split_lines : forall s, String.concat "" (map (fun line => line ++ nl) (py_split nl s))%string = (s ++ nl)%string.
Proof. intros s. unfold py_split. now rewrite split_lines_aux. Qed.

Definition args_of (f : dim -> string) (ds : list dim) : strs := Many (map f ds).
Definition finish (nest : list cfor) (body : string) : loop_result :=
  if String.eqb body "" then
    LPair (String.concat "" (map render_open nest)) (String.concat "" (rev (map render_close nest)))
  else LText (render_nest nest (body ++ nl)).

Lemma loop_plain_text : forall ds body, 
  loop (args_of d_var ds) (args_of d_lo ds) (args_of d_hi ds) (args_of d_inc ds) (args_of d_pragma ds) body (One "")
  = Ok (finish (plain_nest ds) body).
Proof.
  intros ds body. unfold loop, args_of. cbn [to_list tile_list String.eqb]. rewrite !map_length, Nat.eqb_refl. cbn [andb].
  pose proof (build_plain (map d_var ds) ds [] [] []) as B. cbn [length app] in B. rewrite B.
  unfold finish, plain_nest, render_nest. rewrite !map_map, split_lines. destruct (String.eqb body ""); reflexivity.
Qed.

Lemma loop_tiled_text : forall ds body, ds <> [] ->
  loop (args_of d_var ds) (args_of d_lo ds) (args_of d_hi ds) (args_of d_inc ds) (args_of d_pragma ds) body (args_of d_tile ds)
  = Ok (finish (tiled_nest ds) body).
Proof.
  intros [|d0 ds] body H; [congruence|]. set (l := d0 :: ds).
  unfold loop, args_of. cbn [to_list tile_list String.eqb]. rewrite !map_length, Nat.eqb_refl. cbn [andb].
  pose proof (build_tiled (map d_var l) (d_tile d0) (map d_tile ds) l [] [] [] eq_refl) as B. cbn [length app map] in B.
  change (map d_tile l) with (d_tile d0 :: map d_tile ds). rewrite B.
  unfold finish, tiled_nest, render_nest. rewrite !map_app, !map_map, split_lines. destruct (String.eqb body ""); reflexivity.
Qed.

(** *** Execution *)
Definition bind_all (vs : list string) (t : list Z) (e : env) : env := rev (combine vs t) ++ e.

Definition range (m : string -> Z) (d : dim) : list Z := for_values (m (d_lo d)) (m (d_hi d)) (m (d_inc d)).

Lemma exec_plain : forall m ds e,
  exec m (plain_nest ds) e = map (fun t => bind_all (map d_var ds) t e) (cart (map (range m) ds)).
Proof.
  intros m ds; induction ds as [|d ds IH]; intros e; cbn [plain_nest map exec cart].
  - reflexivity.
  - cbn [plain_for f_lo f_hi f_inc f_var eval]. rewrite map_flat_map. unfold range at 1. apply flat_map_ext.
    intros v. fold (plain_nest ds). rewrite IH, map_map. apply map_ext. intros t.
    unfold bind_all. cbn [combine rev]. rewrite <- app_assoc. reflexivity.
Qed.

Lemma exec_app : forall m a b e, exec m (a ++ b) e = flat_map (exec m b) (exec m a e).
Proof.
  intros m a b; induction a as [|f a IH]; intros e; cbn [app exec flat_map].
  - now rewrite app_nil_r.
  - rewrite flat_map_flat_map. apply flat_map_ext. intros v. apply IH.
Qed.

Definition tile_range (m : string -> Z) (d : dim) : list Z := for_values (m (d_lo d)) (m (d_hi d)) (m (d_tile d)).
Lemma exec_tiles : forall m ds e,
  exec m (map tile_for ds) e =
  map (fun t => bind_all (map (fun d => d_var d ++ "B")%string ds) t e) (cart (map (tile_range m) ds)).
Proof.
  intros m ds; induction ds as [|d ds IH]; intros e; cbn [map exec cart].
  - reflexivity.
  - cbn [tile_for f_lo f_hi f_inc f_var eval]. rewrite map_flat_map. unfold tile_range at 1. apply flat_map_ext.
    intros v. rewrite IH, map_map. apply map_ext. intros t.
    unfold bind_all. cbn [combine rev]. rewrite <- app_assoc. reflexivity.
Qed.

Definition inner_range (m : string -> Z) (d : dim) (t : Z) : list Z :=
  for_values t (Z.min (m (d_hi d)) (t + m (d_tile d))) (m (d_inc d)).
Definition bname (d : dim) : string := (d_var d ++ "B")%string.

Lemma lookup_app : forall e1 e2 v, ~ In v (map fst e1) -> lookup (e1 ++ e2) v = lookup e2 v.
Proof.
  intros e1 e2 v H. unfold lookup. induction e1 as [|[k z] e1 IH]; cbn in *; auto.
  destruct (String.eqb_spec v k) as [->|]; [tauto|]. apply IH. tauto.
Qed.
Lemma lookup_cons_other : forall e k z v, v <> k -> lookup ((k, z) :: e) v = lookup e v.
Proof. intros e k z v H. unfold lookup. cbn. destruct (String.eqb_spec v k); [contradiction|reflexivity]. Qed.
Lemma lookup_cons_same : forall e k z, lookup ((k, z) :: e) k = z.
Proof. intros. unfold lookup. cbn. now rewrite String.eqb_refl. Qed.

Lemma exec_inner : forall m ds e, (forall d d', In d ds -> In d' ds -> bname d <> d_var d') ->
  exec m (map inner_for ds) e =
  map (fun t => bind_all (map d_var ds) t e) (cart (map (fun d => inner_range m d (lookup e (bname d))) ds)).
Proof.
  intros m ds; induction ds as [|d ds IH]; intros e H; cbn [map exec cart].
  - reflexivity.
  - cbn [inner_for f_lo f_hi f_inc f_var eval]. rewrite map_flat_map. unfold inner_range at 1. fold (bname d).
    apply flat_map_ext. intros v. rewrite IH by (intros; apply H; cbn; auto). rewrite map_map.
    replace (map (fun d0 => inner_range m d0 (lookup ((d_var d, v) :: e) (bname d0))) ds)
      with (map (fun d0 => inner_range m d0 (lookup e (bname d0))) ds).
    2:{ apply map_ext_in. intros d0 H0. rewrite lookup_cons_other; auto. apply H; cbn; auto. }
    apply map_ext. intros t. unfold bind_all. cbn [combine rev]. rewrite <- app_assoc. reflexivity.
Qed.

Lemma lookup_bind_all : forall vs t e, NoDup vs -> length t = length vs ->
  map (lookup (bind_all vs t e)) vs = t.
Proof.
  induction vs as [|v vs IH]; intros t e N L; destruct t as [|z t]; cbn in L; try lia; auto.
  inversion N; subst. unfold bind_all. cbn [combine rev map]. rewrite <- app_assoc. cbn [app]. f_equal.
  - rewrite lookup_app; [apply lookup_cons_same|]. rewrite map_rev, <- in_rev. intros Q.
    apply in_map_iff in Q. destruct Q as ([k y] & <- & Q). apply in_combine_l in Q. contradiction.
  - apply (IH t ((v, z) :: e)); auto.
Qed.

Lemma cart_tuple_length : forall (A : Type) (ls : list (list A)) t, In t (cart ls) -> length t = length ls.
Proof. intros A ls t H. apply in_cart in H. induction H; cbn; auto. Qed.

Lemma flat_map_perm_ext : forall (A B : Type) (f g : A -> list B) l,
  (forall x, In x l -> Permutation (f x) (g x)) -> Permutation (flat_map f l) (flat_map g l).
Proof.
  induction l as [|x l IH]; intros H; cbn; auto. apply Permutation_app; [apply H; cbn; auto|].
  apply IH. intros; apply H; cbn; auto.
Qed.
Lemma flat_map_swap : forall (A B C : Type) (f : A -> B -> list C) l1 l2,
  Permutation (flat_map (fun a => flat_map (f a) l2) l1) (flat_map (fun b => flat_map (fun a => f a b) l1) l2).
Proof.
  intros A B C f l1 l2; induction l1 as [|a l1 IH]; cbn.
  - induction l2; cbn; auto.
  - eapply Permutation_trans; [apply Permutation_app_head, IH|]. clear IH.
    induction l2 as [|b l2 IH2]; cbn; auto.
    rewrite <- app_assoc. apply Permutation_sym. rewrite <- app_assoc. apply Permutation_app_head.
    eapply Permutation_trans; [apply Permutation_app_head, Permutation_sym, IH2|].
    rewrite !app_assoc. apply Permutation_app_tail. apply Permutation_app_comm.
Qed.

(** Tiling every dimension at once permutes the product. *)
Lemma cart_tiles : forall (D : Type) (tiles : D -> list Z) (inner : D -> Z -> list Z) (ds : list D),
  Permutation
    (flat_map (fun T => cart (map (fun p => inner (fst p) (snd p)) (combine ds T))) (cart (map tiles ds)))
    (cart (map (fun d => flat_map (inner d) (tiles d)) ds)).
Proof.
  intros D tiles inner ds; induction ds as [|d ds IH]; cbn [map cart flat_map combine app].
  - auto.
  - rewrite flat_map_flat_map.
    eapply Permutation_trans.
    + apply flat_map_perm_ext. intros t _. rewrite flat_map_map. cbn [combine map cart fst snd].
      apply (flat_map_swap _ _ _ (fun T v => map (cons v) (cart (map (fun p => inner (fst p) (snd p)) (combine ds T))))).
    + rewrite flat_map_flat_map. apply flat_map_perm_ext. intros t _. apply flat_map_perm_ext. intros v _.
      rewrite <- map_flat_map. apply Permutation_map. exact IH.
Qed.

Lemma NoDup_app_parts : forall (A : Type) (a b : list A), NoDup (a ++ b) ->
  NoDup a /\ NoDup b /\ forall x, In x a -> In x b -> False.
Proof.
  induction a as [|x a IH]; intros b H; cbn in *.
  - split; [constructor|]. split; [assumption|]. intros x [].
  - inversion H as [|? ? H1 H2]; subst. destruct (IH b H2) as (Na & Nb & D). rewrite in_app_iff in H1.
    split; [constructor; tauto|]. split; auto. intros y [<-|Hy] Hb; [tauto|eauto].
Qed.
Lemma combine_map_self : forall (A B C : Type) (f : A -> B) (g : A * B -> C) l,
  map g (combine l (map f l)) = map (fun x => g (x, f x)) l.
Proof. induction l; cbn; congruence. Qed.

Definition tiles_fit (m : string -> Z) (d : dim) : Prop :=
  (0 < m (d_inc d))%Z /\ (0 < m (d_tile d))%Z /\ (m (d_inc d) | m (d_tile d))%Z.

Lemma exec_tiled : forall m ds, NoDup (map d_var ds ++ map bname ds) -> Forall (tiles_fit m) ds ->
  Permutation (map (fun e => map (lookup e) (map d_var ds)) (exec m (tiled_nest ds) []))
              (cart (map (range m) ds)).
Proof.
  intros m ds N F. unfold tiled_nest. rewrite exec_app, exec_tiles, flat_map_map.
  apply NoDup_app_parts in N. destruct N as (Nv & Nb & Dj0).
  assert (Dj : forall d d', In d ds -> In d' ds -> bname d <> d_var d').
  { intros d d' H H' E. apply (Dj0 (d_var d')); [now apply in_map|]. rewrite <- E. now apply in_map. }
  change (map (fun d => (d_var d ++ "B")%string) ds) with (map bname ds).
  eapply Permutation_trans; [|eapply Permutation_trans; [apply (cart_tiles dim (tile_range m) (inner_range m) ds)|]].
  - rewrite map_flat_map. apply flat_map_perm_ext. intros T HT. apply cart_tuple_length in HT. rewrite map_length in HT.
    rewrite exec_inner by auto. rewrite map_map.
    assert (E : map (lookup (bind_all (map bname ds) T [])) (map bname ds) = T)
      by (apply lookup_bind_all; auto; now rewrite map_length).
    rewrite map_map in E.
    replace (combine ds T) with (combine ds (map (fun x => lookup (bind_all (map bname ds) T []) (bname x)) ds)) by now rewrite E.
    rewrite combine_map_self. cbn [fst snd].
    set (C := cart _).
    assert (E2 : map (fun t => map (lookup (bind_all (map d_var ds) t (bind_all (map bname ds) T []))) (map d_var ds)) C
                = map (fun t => t) C).
    { apply map_ext_in. intros t Ht. apply lookup_bind_all; auto. subst C. apply cart_tuple_length in Ht.
      rewrite map_length in *. auto. }
    rewrite E2, map_id. auto.
  - rewrite (map_ext_in (fun d => flat_map (inner_range m d) (tile_range m d)) (range m)); [reflexivity|].
    intros d Hd. rewrite Forall_forall in F. destruct (F d Hd) as (Hi & Ht & k & Hk).
    unfold inner_range, tile_range, range.
    assert (0 < k)%Z by nia. rewrite Hk. rewrite <- (Z2Nat.id k) by lia. apply tile_1d; lia.
Qed.

Lemma exec_plain_values : forall m ds, NoDup (map d_var ds) ->
  map (fun e => map (lookup e) (map d_var ds)) (exec m (plain_nest ds) []) = cart (map (range m) ds).
Proof.
  intros m ds N. rewrite exec_plain, map_map.
  rewrite (map_ext_in _ (fun t => t)); [apply map_id|]. intros t Ht. apply lookup_bind_all; auto.
  apply cart_tuple_length in Ht. rewrite map_length in *. auto.
Qed.

(** *** Braces *)
Definition braces (s : string) : list ascii :=
  filter (fun c => Ascii.eqb c "{" || Ascii.eqb c "}") (str_to_list s).
Lemma braces_app : forall a b, braces (a ++ b) = braces a ++ braces b.
Proof. intros. unfold braces. now rewrite str_to_list_app, filter_app. Qed.
Definition brace_free (s : string) : Prop := braces s = [].
Definition dim_brace_free (d : dim) : Prop :=
  brace_free (d_var d) /\ brace_free (d_lo d) /\ brace_free (d_hi d) /\ brace_free (d_inc d) /\
  brace_free (d_pragma d) /\ brace_free (d_tile d).
Definition for_brace_free (f : cfor) : Prop :=
  brace_free (f_pragma f) /\ brace_free (f_var f) /\ brace_free (render_expr (f_lo f)) /\
  brace_free (render_expr (f_hi f)) /\ brace_free (f_inc f).

Lemma braces_head : forall f, for_brace_free f -> brace_free (render_head f).
Proof.
  intros f (Hp & Hv & Hl & Hh & Hi). unfold brace_free, render_head in *.
  destruct (String.eqb (f_inc f) "1"); repeat (rewrite braces_app || rewrite Hv || rewrite Hl || rewrite Hh || rewrite Hi);
    reflexivity.
Qed.
Lemma braces_open : forall f, for_brace_free f -> braces (render_open f) = ["{"%char].
Proof.
  intros f H. pose proof (braces_head f H) as Hd. destruct H as (Hp & _). unfold brace_free, render_open in *.
  destruct (String.eqb (f_pragma f) ""); repeat (rewrite braces_app || rewrite Hp || rewrite Hd); reflexivity.
Qed.
Lemma braces_close : forall f, for_brace_free f -> braces (render_close f) = ["}"%char].
Proof.
  intros f H. pose proof (braces_head f H) as Hd. unfold brace_free, render_close in *.
  rewrite !braces_app, Hd. reflexivity.
Qed.

Lemma plain_free : forall d, dim_brace_free d -> for_brace_free (plain_for d).
Proof. intros d (a & b & c & e & f & g). repeat split; assumption. Qed.
Lemma tile_free : forall d, dim_brace_free d -> for_brace_free (tile_for d).
Proof.
  intros d (a & b & c & e & f & g). unfold for_brace_free, brace_free in *. cbn [tile_for f_pragma f_var f_lo f_hi f_inc render_expr].
  rewrite braces_app, a. auto.
Qed.
Lemma inner_free : forall d, dim_brace_free d -> for_brace_free (inner_for d).
Proof.
  intros d (a & b & c & e & f & g). unfold for_brace_free, brace_free in *.
  cbn [inner_for f_pragma f_var f_lo f_hi f_inc render_expr].
  repeat (rewrite braces_app || rewrite a || rewrite b || rewrite c || rewrite e || rewrite f || rewrite g). auto.
Qed.

Lemma braces_concat_open : forall fs, Forall for_brace_free fs ->
  braces (String.concat "" (map render_open fs)) = repeat "{"%char (length fs).
Proof.
  induction fs as [|f fs IH]; intros H; [reflexivity|]. inversion H; subst. cbn [map].
  rewrite concat_cons, braces_app, braces_open, IH by auto. reflexivity.
Qed.
Lemma braces_concat_close : forall fs, Forall for_brace_free fs ->
  braces (String.concat "" (rev (map render_close fs))) = repeat "}"%char (length fs).
Proof.
  intros fs H. rewrite <- map_rev, <- (rev_length fs).
  assert (H' : Forall for_brace_free (rev fs)) by (apply Forall_rev; auto). revert H'. generalize (rev fs). clear.
  induction l as [|f fs IH]; intros H; [reflexivity|]. inversion H; subst. cbn [map].
  rewrite concat_cons, braces_app, braces_close, IH by auto. reflexivity.
Qed.
Lemma braces_nest : forall fs body, Forall for_brace_free fs ->
  braces (render_nest fs body) = repeat "{"%char (length fs) ++ braces body ++ repeat "}"%char (length fs).
Proof.
  intros fs body H. unfold render_nest. rewrite !braces_app, braces_concat_open, braces_concat_close by auto. reflexivity.
Qed.
