(** Headline theorems for the list helpers (C25) and the loop generator (C26). *)
From Coq Require Import String Ascii List Arith ZArith Bool Lia Permutation Sorted.
From Verif Require Import PyBase PyBaseFacts PyList PyListFacts Functional FunctionalFacts Loop LoopFacts.
Import ListNotations.
Open Scope list_scope.
Open Scope nat_scope.

(** C25 *)
Theorem C25_uniq : forall (A : Type) (eqb : A -> A -> bool), (forall x y, eqb x y = true <-> x = y) ->
  forall l, uniquify eqb l = superfast_uniq eqb l /\
    NoDup (uniquify eqb l) /\ (forall x, In x (uniquify eqb l) <-> In x l) /\
    (forall l1 x l2, uniquify eqb l = l1 ++ x :: l2 ->
       exists m1 m2, l = m1 ++ x :: m2 /\ ~ In x m1 /\ (forall y, In y l1 <-> In y m1)).
Proof.
  intros A eqb H l. rewrite (uniquify_superfast eqb H). split; auto. now apply superfast_uniq_spec.
Qed.

(** flatten removes exactly one level. *)
Theorem C25_flatten : forall (A : Type) (ls : list (list (val A))), flatten (map Node ls) = concat ls.
Proof. induction ls as [|l ls IH]; cbn; auto. unfold flatten in IH. now rewrite IH. Qed.
Theorem C25_flatten_mixed : forall (A : Type) (a b : list (val A)) x l,
  flatten (a ++ [Leaf x; Node l] ++ b) = flatten a ++ [Leaf x] ++ l ++ flatten b.
Proof.
  intros. unfold flatten. induction a as [|v a IH]; cbn in *; auto. rewrite IH, <- !app_assoc. reflexivity.
Qed.

(** repeat and pipe, with the interpreter's recursion limit. *)
Theorem C25_repeat : forall (A : Type) (f : A -> A) x (n : Z) depth,
  (0 <= n < Z.of_nat depth -> repeat_py depth f x n = Ok (Nat.iter (Z.to_nat n) f x))%Z /\
  (n < 0 \/ Z.of_nat depth <= n -> repeat_py depth f x n = Err RecursionError)%Z.
Proof.
  intros. split; intros H; [|now apply repeat_err].
  rewrite <- (Z2Nat.id n) at 1 by lia. apply repeat_ok. lia.
Qed.
Theorem C25_pipe : forall (A : Type) (fs : list (A -> A)) x depth, length fs < depth ->
  pipe depth x fs = Ok (fold_left (fun v g => g v) fs x).
Proof. intros. rewrite pipe_spec. destruct (Nat.ltb_spec (length fs) depth); [reflexivity|lia]. Qed.

Theorem C25_reduce : forall (A : Type) (f : A -> A -> A),
  (forall x l, reduce f (x :: l) = Ok (fold_left f l x)) /\ reduce f [] = Err StopIteration /\
  (forall l init, reduce_init f l init = fold_left f l init).
Proof.
  intros. split; [|split]; auto; intros; unfold reduce, reduce_init; now rewrite reduce_loop_fold.
Qed.

(** product of two or more lists of plain elements, or of one list with repeat >= 2. *)
Theorem C25_product : forall (A : Type) (ls : list (list A)), 2 <= length ls ->
  product (map leaves ls) None = Ok (map leaves (cart ls)) /\
  (forall t, In t (cart ls) <-> Forall2 (@In A) t ls) /\
  length (cart ls) = fold_right (fun l n => length l * n) 1 ls /\
  (forall R, Forall (StronglySorted R) ls -> StronglySorted (lex R) (cart ls)).
Proof.
  intros. split; [now apply product_spec|]. split; [intros; apply in_cart|]. split; [apply length_cart|].
  intros; now apply cart_sorted.
Qed.
Theorem C25_product_repeat : forall (A : Type) (l : list A) n, (1 < n)%Z ->
  product [leaves l] (Some n) = product (map leaves (repeat l (Z.to_nat n))) None.
Proof.
  intros. rewrite product_repeat_spec by auto. symmetry. apply product_spec. rewrite repeat_length. lia.
Qed.

Example C25_ex :
  uniquify Nat.eqb [3; 1; 3; 2; 1] = [3; 1; 2] /\
  flatten [Leaf 1; Node [Leaf 2; Node [Leaf 3]]] = [Leaf 1; Leaf 2; Node [Leaf 3]] /\
  repeat_py 1000 (fun x => 2 * x) 1 5%Z = Ok 32 /\
  pipe 1000 5 [fun x => x + 1; fun x => x * 2] = Ok 12 /\
  reduce Nat.sub [10; 3; 2] = Ok 5 /\
  product (map leaves [[1; 2]; [3]; [4; 5]]) None = Ok (map leaves [[1; 3; 4]; [1; 3; 5]; [2; 3; 4]; [2; 3; 5]]) /\
  Forall (StronglySorted lt) [[1; 2]; [3]; [4; 5]].
Proof. repeat split; try reflexivity. repeat constructor. Qed.

(** Refuted: a single list (without repeat, or with repeat = 1) raises instead of giving 1-tuples, no
    list at all raises instead of giving the empty tuple, and elements that are themselves sequences are
    spliced into the tuple. *)
Theorem C25_product_refuted :
  product [leaves [1; 2]] None = Err TypeError /\ product [leaves [1; 2]] (Some 1%Z) = Err TypeError /\
  product (@nil (list (val nat))) None = Err RuntimeError /\
  product [[Node [Leaf 1; Leaf 2]]; [Leaf 3]] None = Ok [[Leaf 1; Leaf 2; Leaf 3]].
Proof. repeat split; reflexivity. Qed.
(** Refuted: repeat is ignored when more than one iterable is given. *)
Theorem C25_product_repeat_ignored_refuted : forall (A : Type) (a b : list (val A)) n,
  product [a; b] (Some n) = product [a; b] None.
Proof. intros. unfold product. cbn [length Nat.eqb]. now rewrite andb_false_r. Qed.
(** Refuted: a negative count never returns. *)
Theorem C25_repeat_negative_refuted : forall depth, repeat_py depth S 0 (-1) = Err RecursionError.
Proof. intros. apply repeat_err. lia. Qed.

(** C26.  [ds] lists the dimensions, outermost first.  The text is the rendering of the nest ... *)
Theorem C26_text_plain : forall ds body,
  loop (args_of d_var ds) (args_of d_lo ds) (args_of d_hi ds) (args_of d_inc ds) (args_of d_pragma ds) body (One "")
  = Ok (finish (plain_nest ds) body).
Proof. exact loop_plain_text. Qed.
Theorem C26_text_tiled : forall ds body, ds <> [] ->
  loop (args_of d_var ds) (args_of d_lo ds) (args_of d_hi ds) (args_of d_inc ds) (args_of d_pragma ds) body (args_of d_tile ds)
  = Ok (finish (tiled_nest ds) body).
Proof. exact loop_tiled_text. Qed.

(** ... the untiled nest runs its body on the product of the ranges in lexicographic order ... *)
Theorem C26_plain_visits : forall m ds, NoDup (map d_var ds) ->
  map (fun e => map (lookup e) (map d_var ds)) (exec m (plain_nest ds) []) = cart (map (range m) ds).
Proof. exact exec_plain_values. Qed.
(** ... each range being lower, lower + inc, ... below upper, increasing ... *)
Theorem C26_range : forall m d, (0 < m (d_inc d))%Z ->
  (forall i, In i (range m d) <->
     (m (d_lo d) <= i < m (d_hi d))%Z /\ ((i - m (d_lo d)) mod m (d_inc d) = 0)%Z) /\
  StronglySorted Z.lt (range m d).
Proof. intros m d H. split; [intros i; now apply in_for_values|now apply for_values_sorted]. Qed.
(** ... and the tiled nest visits the same tuples, each equally often. *)
Theorem C26_tiled_visits : forall m ds, NoDup (map d_var ds ++ map bname ds) -> Forall (tiles_fit m) ds ->
  Permutation (map (fun e => map (lookup e) (map d_var ds)) (exec m (tiled_nest ds) []))
              (cart (map (range m) ds)).
Proof. exact exec_tiled. Qed.
(** The tuples visited are all different. *)
Theorem C26_visits_once : forall m ds, Forall (fun d => (0 < m (d_inc d))%Z) ds -> NoDup (cart (map (range m) ds)).
Proof.
  intros m ds H. assert (S : StronglySorted (lex Z.lt) (cart (map (range m) ds))).
  { apply cart_sorted. rewrite Forall_map. eapply Forall_impl; [|exact H]. intros d Hd. now apply for_values_sorted. }
  assert (Irr : forall t, ~ lex Z.lt t t).
  { induction t as [|x t IH]; intros L; inversion L; subst; [lia|auto]. }
  induction S as [|t l S IH F]; constructor; auto. intros Q. rewrite Forall_forall in F. apply (Irr t). auto.
Qed.

(** Braces: n opening ones before the body, n closing ones after it. *)
Theorem C26_braces : forall ds body, Forall dim_brace_free ds ->
  braces (render_nest (plain_nest ds) body) =
    repeat "{"%char (length ds) ++ braces body ++ repeat "}"%char (length ds) /\
  braces (render_nest (tiled_nest ds) body) =
    repeat "{"%char (2 * length ds) ++ braces body ++ repeat "}"%char (2 * length ds).
Proof.
  intros ds body H. split; rewrite braces_nest.
  - unfold plain_nest. now rewrite map_length.
  - unfold plain_nest. rewrite Forall_map. eapply Forall_impl; [|exact H]. exact plain_free.
  - unfold tiled_nest. rewrite app_length, !map_length. replace (length ds + length ds) with (2 * length ds) by lia. reflexivity.
  - unfold tiled_nest. apply Forall_app. split; rewrite Forall_map; (eapply Forall_impl; [|exact H]); [exact tile_free|exact inner_free].
Qed.

(** Mismatched argument lengths are rejected. *)
Theorem C26_lengths_checked : forall idx lo hi inc pr body tile r,
  loop (Many idx) (Many lo) (Many hi) (Many inc) (Many pr) body tile = Ok r ->
  length lo = length idx /\ length hi = length idx /\ length inc = length idx /\ length pr = length idx.
Proof.
  intros idx lo hi inc pr body tile r H. unfold loop in H. cbn [to_list] in H.
  destruct (Nat.eqb_spec (length lo) (length idx)); cbn [andb] in H; [|discriminate].
  destruct (Nat.eqb_spec (length hi) (length idx)); cbn [andb] in H; [|discriminate].
  destruct (Nat.eqb_spec (length inc) (length idx)); cbn [andb] in H; [|discriminate].
  destruct (Nat.eqb_spec (length pr) (length idx)); cbn [andb] in H; [|discriminate]. auto.
Qed.

Definition ex_dims : list dim :=
  [MkDim "j" "0" "Ny" "1" "#pragma omp parallel for" "2"; MkDim "i" "1" "Nx" "2" "" "4"]%string.
Definition ex_meaning (s : string) : Z :=
  if String.eqb s "Ny" then 3 else if String.eqb s "Nx" then 8 else if String.eqb s "1" then 1
  else if String.eqb s "2" then 2 else if String.eqb s "4" then 4 else 0.
Example C26_ex :
  Forall (tiles_fit ex_meaning) ex_dims /\ NoDup (map d_var ex_dims ++ map bname ex_dims) /\
  Forall dim_brace_free ex_dims /\
  cart (map (range ex_meaning) ex_dims) =
    [[0; 1]; [0; 3]; [0; 5]; [0; 7]; [1; 1]; [1; 3]; [1; 5]; [1; 7]; [2; 1]; [2; 3]; [2; 5]; [2; 7]]%Z /\
  map (fun e => map (lookup e) ["j"; "i"]%string) (exec ex_meaning (tiled_nest ex_dims) []) =
    [[0; 1]; [0; 3]; [1; 1]; [1; 3]; [0; 5]; [0; 7]; [1; 5]; [1; 7]; [2; 1]; [2; 3]; [2; 5]; [2; 7]]%Z.
Proof.
  split; [|split; [|split; [|split]]]; try (vm_compute; reflexivity).
  - constructor; [split; [vm_compute; reflexivity|split; [vm_compute; reflexivity|exists 2%Z; reflexivity]]|].
    constructor; [split; [vm_compute; reflexivity|split; [vm_compute; reflexivity|exists 2%Z; reflexivity]]|]. constructor.
  - vm_compute. repeat constructor; cbn; intuition discriminate.
  - repeat constructor.
Qed.
Example C26_text_ex :
  loop (One "i") (One "0") (One "N") (One "1") (One "") "// body" (One "16") = Ok (LText
    ("for (int iB = 0; iB < N; iB += 16) {" ++ nl ++ "for (int i = iB; i < MIN(N, iB + 16); i++) {" ++ nl ++
     "// body" ++ nl ++ "} // END LOOP: for (int i = iB; i < MIN(N, iB + 16); i++)" ++ nl ++
     "} // END LOOP: for (int iB = 0; iB < N; iB += 16)" ++ nl)%string).
Proof. reflexivity. Qed.

(** A tile size that is not a multiple of the increment changes the set of visited points: this
    hypothesis of C26_tiled_visits cannot be dropped. *)
Example C26_tile_not_multiple :
  let d := MkDim "i" "0" "Nx" "2" "" "3" in
  let m := fun s => if String.eqb s "Nx" then 6%Z else if String.eqb s "2" then 2%Z else if String.eqb s "3" then 3%Z else 0%Z in
  map (fun e => lookup e "i") (exec m (tiled_nest [d]) []) = [0; 2; 3; 5]%Z /\ range m d = [0; 2; 4]%Z.
Proof. vm_compute. auto. Qed.
(** Nor can the distinctness of i and iB: with index names "i" and "iB" the tile variable of "i" is
    hidden by the index "iB" and the visited points are wrong. *)
Example C26_index_named_like_tile :
  let ds := [MkDim "iB" "0" "2" "1" "" "2"; MkDim "i" "0" "2" "1" "" "2"]%string in
  let m := fun s => if String.eqb s "2" then 2%Z else if String.eqb s "1" then 1%Z else 0%Z in
  map (fun e => map (lookup e) ["iB"; "i"]%string) (exec m (tiled_nest ds) []) = [[0; 0]; [0; 1]; [1; 1]]%Z /\
  cart (map (range m) ds) = [[0; 0]; [0; 1]; [1; 0]; [1; 1]]%Z.
Proof. vm_compute. auto. Qed.

Print Assumptions C25_uniq.
Print Assumptions C25_flatten.
Print Assumptions C25_repeat.
Print Assumptions C25_pipe.
Print Assumptions C25_reduce.
Print Assumptions C25_product.
Print Assumptions C25_product_repeat.
Print Assumptions C26_text_plain.
Print Assumptions C26_text_tiled.
Print Assumptions C26_plain_visits.
Print Assumptions C26_range.
Print Assumptions C26_tiled_visits.
Print Assumptions C26_visits_once.
Print Assumptions C26_braces.
Print Assumptions C26_lengths_checked.
