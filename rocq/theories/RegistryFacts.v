(** Proofs for Registry.v. *)
From Coq Require Import String Ascii List Arith ZArith Bool Lia Permutation Sorted.
From Verif Require Import PyBase PyBaseFacts PyList PyListFacts Params GridFacts Registry.
Import ListNotations.
Open Scope list_scope.

(** ** Sorted permutations *)
Lemma sorted_perm_unique : forall (A : Type) (R : A -> A -> Prop),
  (forall x y, R x y -> R y x -> x = y) ->
  forall l1 l2, Permutation l1 l2 -> StronglySorted R l1 -> StronglySorted R l2 -> l1 = l2.
Proof.
  intros A R An. induction l1 as [|x l1 IH]; intros l2 P S1 S2.
  - now rewrite (Permutation_nil P).
  - destruct l2 as [|y l2]; [apply Permutation_sym, Permutation_nil in P; discriminate|].
    inversion S1 as [|? ? S1' F1]; inversion S2 as [|? ? S2' F2]; subst.
    assert (x = y) as ->.
    { assert (Hx : In x (y :: l2)) by (eapply Permutation_in; [exact P|cbn; auto]).
      assert (Hy : In y (x :: l1)) by (eapply Permutation_in; [apply Permutation_sym; exact P|cbn; auto]).
      destruct Hx as [<-|Hx]; auto. destruct Hy as [<-|Hy]; auto.
      rewrite Forall_forall in F1, F2. apply An; auto. }
    f_equal. apply IH; auto. now apply Permutation_cons_inv in P.
Qed.

Lemma string_leb_tot : forall x y, String.leb x y = true \/ String.leb y x = true.
Proof. apply String.leb_total. Qed.

Lemma py_sorted_perm : forall l1 l2, Permutation l1 l2 -> py_sorted String.leb l1 = py_sorted String.leb l2.
Proof.
  intros l1 l2 P.
  destruct (py_sorted_spec String.leb string_leb_tot string_leb_trans l1) as [P1 S1].
  destruct (py_sorted_spec String.leb string_leb_tot string_leb_trans l2) as [P2 S2].
  eapply sorted_perm_unique; [intros x y; apply String.leb_antisym| |exact S1|exact S2].
  now rewrite <- P1, <- P2.
Qed.

(** ** C40 *)
Definition reg_ok (d : dict (list gdata)) : Prop :=
  NoDup (dkeys d) /\
  Forall (fun kv => snd kv <> [] /\ NoDup (map gd_decl (snd kv)) /\
                    Forall (fun g => gd_module g = fst kv /\ py_in ";" (gd_decl g) = false) (snd kv)) d.

Lemma existsb_decl : forall decl l, existsb (fun gd => String.eqb (gd_decl gd) decl) l = true <-> In decl (map gd_decl l).
Proof.
  intros decl l. rewrite existsb_exists, in_map_iff. split; intros (g & A & B).
  - exists g. apply String.eqb_eq in B. auto.
  - exists g. rewrite A. split; auto. apply String.eqb_refl.
Qed.

Lemma NoDup_snoc : forall A (l : list A) x, NoDup l -> ~ In x l -> NoDup (l ++ [x]).
Proof.
  intros A l x N H. apply (Permutation_NoDup (l := x :: l)); [|constructor; auto].
  change (x :: l) with ([x] ++ l). apply Permutation_app_comm.
Qed.

Lemma register_in_ok : forall m decl desc d, reg_ok d -> reg_ok (fst (register_in m decl desc d)).
Proof.
  intros m decl desc d [N F]. unfold register_in, GridCommonData_init.
  destruct (dget m d) as [l|] eqn:G.
  - destruct (existsb _ l) eqn:E; [split; auto|]. destruct (py_in ";" decl) eqn:S; [split; auto|].
    cbn [fst]. split; [now apply NoDup_dset|].
    rewrite Forall_forall in *. intros kv Hk. apply In_dset in Hk as [->|Hk]; [|now apply F].
    apply dget_In in G. destruct (F _ G) as (_ & Nd & Fa). cbn [fst snd] in *. split; [now destruct l|].
    rewrite map_app. split.
    + cbn. apply NoDup_snoc; auto. intros H. apply existsb_decl in H. congruence.
    + rewrite Forall_app. split; auto.
  - destruct (py_in ";" decl) eqn:S; [split; auto|]. cbn [fst]. split; [now apply NoDup_dset|].
    rewrite Forall_forall in *. intros kv Hk. apply In_dset in Hk as [->|Hk]; [|now apply F].
    cbn. split; [discriminate|]. split; [repeat constructor; cbn; tauto|]. repeat constructor; auto.
Qed.

Definition ex_ok (e : extras) : Prop := reg_ok (or_empty (ex_common e)) /\ reg_ok (or_empty (ex_grid e)).
Lemma reg_step_ok : forall e c, ex_ok e -> ex_ok (reg_step e c).
Proof.
  intros e [[[m decl] desc] b] [C G]. unfold reg_step, register_griddata_commondata.
  destruct b.
  - destruct (register_in m decl desc (or_empty (ex_common e))) as [d r] eqn:E. cbn. split; auto.
    cbn. replace d with (fst (register_in m decl desc (or_empty (ex_common e)))) by now rewrite E.
    now apply register_in_ok.
  - destruct (register_in m decl desc (or_empty (ex_grid e))) as [d r] eqn:E. cbn. split; auto.
    cbn. replace d with (fst (register_in m decl desc (or_empty (ex_grid e)))) by now rewrite E.
    now apply register_in_ok.
Qed.
Lemma reg_run_ok : forall l e, ex_ok e -> ex_ok (reg_run e l).
Proof. induction l as [|c l IH]; intros e H; cbn; auto. apply IH. now apply reg_step_ok. Qed.

(** What module [k] of a struct holds. *)
Definition items (b : bool) (k : string) (e : extras) : list gdata :=
  match dget k (or_empty (if b then ex_common e else ex_grid e)) with Some l => l | None => [] end.

Lemma register_items : forall m decl desc b e,
  let r := register_griddata_commondata m decl desc b e in
  let bad := In decl (map gd_decl (items b m e)) \/ py_in ";" decl = true in
  (snd r = Err ValueError /\ bad /\ forall b' k, items b' k (fst r) = items b' k e) \/
  (snd r = Ok tt /\ ~ bad /\
   forall b' k, items b' k (fst r) = items b' k e ++ (if Bool.eqb b' b && String.eqb k m then [MkGD m decl desc] else [])).
Proof.
  intros m decl desc b e r bad. subst r bad. unfold register_griddata_commondata.
  assert (K : forall d, let r := register_in m decl desc d in
     let it := match dget m d with Some l => l | None => [] end in
     (snd r = Err ValueError /\ (In decl (map gd_decl it) \/ py_in ";" decl = true) /\ fst r = d) \/
     (snd r = Ok tt /\ ~ (In decl (map gd_decl it) \/ py_in ";" decl = true) /\ fst r = dset m (it ++ [MkGD m decl desc]) d)).
  { intros d. unfold register_in, GridCommonData_init. destruct (dget m d) as [l|]; cbn zeta.
    - destruct (existsb _ l) eqn:E.
      + left. apply existsb_decl in E. cbn. auto.
      + assert (~ In decl (map gd_decl l)) by (intro H; apply existsb_decl in H; congruence).
        destruct (py_in ";" decl) eqn:S; [left|right]; cbn; repeat split; auto. intros [?|?]; [auto|discriminate].
    - destruct (py_in ";" decl) eqn:S; [left|right]; cbn; repeat split; auto. intros [?|?]; [auto|discriminate]. }
  assert (D : forall k (d : dict (list gdata)) l, match dget k (dset m l d) with Some x => x | None => [] end =
            if String.eqb k m then l else match dget k d with Some x => x | None => [] end).
  { intros k d l. rewrite dget_dset. now destruct (String.eqb k m). }
  destruct b.
  - specialize (K (or_empty (ex_common e))). cbn zeta in K. unfold items.
    destruct (register_in m decl desc (or_empty (ex_common e))) as [d r]. cbn [fst snd] in *.
    destruct K as [(R & B & ->)|(R & B & ->)]; [left|right]; (split; [exact R|split; [exact B|]]); intros [|] k; cbn [ex_common ex_grid or_empty Bool.eqb andb]; auto; try now rewrite app_nil_r.
    rewrite D. destruct (String.eqb_spec k m) as [->|]; auto. now rewrite app_nil_r.
  - specialize (K (or_empty (ex_grid e))). cbn zeta in K. unfold items.
    destruct (register_in m decl desc (or_empty (ex_grid e))) as [d r]. cbn [fst snd] in *.
    destruct K as [(R & B & ->)|(R & B & ->)]; [left|right]; (split; [exact R|split; [exact B|]]); intros [|] k; cbn [ex_common ex_grid or_empty Bool.eqb andb]; auto; try now rewrite app_nil_r.
    rewrite D. destruct (String.eqb_spec k m) as [->|]; auto. now rewrite app_nil_r.
Qed.

Lemma reg_run_keeps : forall l e b k, exists l', items b k (reg_run e l) = items b k e ++ l'.
Proof.
  induction l as [|[[[m decl] desc] c] l IH]; intros e b k; cbn; [exists []; now rewrite app_nil_r|].
  destruct (IH (fst (register_griddata_commondata m decl desc c e)) b k) as [l' E]. unfold reg_run in E. rewrite E.
  destruct (register_items m decl desc c e) as [(_ & _ & H)|(_ & _ & H)]; cbn zeta in H; rewrite H.
  - now exists l'.
  - rewrite <- app_assoc. eauto.
Qed.

(** ** Lines and declarations *)
Lemma in_char : forall c s, py_in (String c "") s = false <-> ~ In c (list_ascii_of_string s).
Proof.
  intros c s. induction s as [|a s IH]; cbn [py_in list_ascii_of_string].
  - cbn. split; auto.
  - cbn [prefix]. destruct (ascii_dec c a) as [->|Ne].
    + replace (prefix "" s) with true by (now destruct s). cbn. split; [discriminate|]. intros H; exfalso; apply H; auto.
    + cbn [orb]. rewrite IH. cbn. split; intros H; [intros [?|?]; [congruence|auto]|auto].
Qed.

Lemma split1_free : forall c d r, ~ In c (list_ascii_of_string d) -> split1 c (d ++ String c r) = (d, Some r).
Proof.
  intros c d r. induction d as [|a d IH]; intros H; cbn [append split1].
  - now rewrite Ascii.eqb_refl.
  - destruct (Ascii.eqb_spec a c) as [->|Ne]; [exfalso; apply H; cbn; auto|].
    rewrite IH; auto. intros Q; apply H; cbn; auto.
Qed.

Lemma leb_cut : forall c d1 d2 r1 r2, ~ In c (list_ascii_of_string d1) -> ~ In c (list_ascii_of_string d2) ->
  String.leb (d1 ++ String c r1) (d2 ++ String c r2) = true -> String.leb (d1 ++ String c "") (d2 ++ String c "") = true.
Proof.
  intros c d1. induction d1 as [|a d1 IH]; intros d2 r1 r2 H1 H2; destruct d2 as [|b d2]; unfold String.leb in *; cbn [append String.compare].
  - destruct (Ascii.compare c c) eqn:E; auto.
  - intros L. destruct (Ascii.compare c b) eqn:E; auto.
    apply Ascii.compare_eq_iff in E. subst. exfalso; apply H2; cbn; auto.
  - intros L. destruct (Ascii.compare a c) eqn:E; auto.
    apply Ascii.compare_eq_iff in E. subst. exfalso; apply H1; cbn; auto.
  - intros L. destruct (Ascii.compare a b) eqn:E; auto.
    eapply (IH d2 r1 r2); auto; intros Q; [apply H1|apply H2]; cbn; auto.
Qed.

Definition decl_of (line : string) : string := fst (split1 ";" line).
Definition has_decl (line : string) : Prop :=
  exists d r, line = (d ++ String ";" r)%string /\ ~ In ";"%char (list_ascii_of_string d).
Lemma decl_of_spec : forall d r, ~ In ";"%char (list_ascii_of_string d) -> decl_of (d ++ String ";" r) = d.
Proof. intros. unfold decl_of. now rewrite split1_free. Qed.

Definition decl_le (a b : string) : Prop := String.leb (a ++ ";") (b ++ ";") = true.

Lemma sorted_decls : forall l, Forall has_decl l ->
  Permutation (map decl_of l) (map decl_of (py_sorted String.leb l)) /\
  StronglySorted decl_le (map decl_of (py_sorted String.leb l)).
Proof.
  intros l H. destruct (py_sorted_spec String.leb string_leb_tot string_leb_trans l) as [P S].
  split; [now apply Permutation_map|].
  assert (H' : Forall has_decl (py_sorted String.leb l)) by (rewrite <- P; exact H).
  clear P H. induction S as [|x s S IH F]; cbn; [constructor|].
  inversion H' as [|? ? Hx Hs]; subst. constructor; auto.
  rewrite Forall_forall in *. intros z Hz. apply in_map_iff in Hz as (y & <- & Hy).
  specialize (F y Hy). specialize (Hs y Hy). destruct Hx as (d1 & r1 & -> & D1). destruct Hs as (d2 & r2 & -> & D2).
  unfold decl_le. rewrite !decl_of_spec by auto. unfold lebP in F. eapply leb_cut; eauto.
Qed.

Lemma same_decls_same_order : forall l1 l2, Forall has_decl l1 -> Forall has_decl l2 ->
  Permutation (map decl_of l1) (map decl_of l2) ->
  map decl_of (py_sorted String.leb l1) = map decl_of (py_sorted String.leb l2).
Proof.
  intros l1 l2 H1 H2 P. destruct (sorted_decls l1 H1) as [P1 S1]. destruct (sorted_decls l2 H2) as [P2 S2].
  eapply sorted_perm_unique; [| |exact S1|exact S2].
  - intros x y A B. eapply sapp_inj_r. apply String.leb_antisym; eauto.
  - now rewrite <- P1, <- P2.
Qed.
