(** Specification and proofs for ExprTree.v. *)
From Coq Require Import List Arith Bool Lia Sorted.
From Verif Require Import PyBase ExprTree FunctionalFacts.
Import ListNotations.

Section Facts.
Context {A F : Type}.
Notation expr := (expr A F).
Notation node := (node A F).

(** Induction over nested trees. *)
Fixpoint node_ind2 (P : node -> Prop) (H : forall e fn ch, Forall P ch -> P (Node e fn ch)) (t : node) : P t :=
  match t with
  | Node e fn ch => H e fn ch ((fix go l : Forall P l :=
      match l with [] => Forall_nil _ | c :: r => Forall_cons _ (node_ind2 P H c) (go r) end) ch)
  end.
Fixpoint expr_ind2 (P : expr -> Prop) (Ha : forall a, P (Atom a)) (H : forall f l, Forall P l -> P (App f l)) (e : expr) : P e :=
  match e with
  | Atom a => Ha a
  | App f l => H f l ((fix go l : Forall P l :=
      match l with [] => Forall_nil _ | c :: r => Forall_cons _ (expr_ind2 P Ha H c) (go r) end) l)
  end.

(** ** Traversals *)
Definition pre_children := fix go (i : nat) (l : list node) : list path :=
  match l with [] => [] | c :: r => map (cons i) (preorder c) ++ go (S i) r end.
Definition post_children := fix go (i : nat) (l : list node) : list path :=
  match l with [] => [] | c :: r => map (cons i) (postorder c) ++ go (S i) r end.
Lemma preorder_eq : forall e fn ch, preorder (Node e fn ch : node) = [] :: pre_children 0 ch.
Proof. reflexivity. Qed.
Lemma postorder_eq : forall e fn ch, postorder (Node e fn ch : node) = post_children 0 ch ++ [[]].
Proof. reflexivity. Qed.

(** Node positions: the paths that lead somewhere. *)
Definition valid (t : node) (p : path) : Prop := get p t <> None.

Lemma in_children_gen : forall (trav : node -> list path) ch i p,
  In p ((fix go (i : nat) (l : list node) : list path :=
     match l with [] => [] | c :: r => map (cons i) (trav c) ++ go (S i) r end) i ch) <->
  exists j c q, p = (i + j) :: q /\ nth_error ch j = Some c /\ In q (trav c).
Proof.
  intros trav ch; induction ch as [|c ch IH]; intros i p.
  - split; [intros []|]. intros (j & c & q & _ & H & _). destruct j; discriminate.
  - rewrite in_app_iff, IH, in_map_iff. split.
    + intros [(q & <- & Hq)|(j & c' & q & -> & H & Hq)].
      * exists 0, c, q. rewrite Nat.add_0_r. auto.
      * exists (S j), c', q. rewrite Nat.add_succ_r. auto.
    + intros (j & c' & q & -> & H & Hq). destruct j as [|j]; cbn in H.
      * injection H as ->. left. exists q. rewrite Nat.add_0_r. auto.
      * right. exists j, c', q. rewrite Nat.add_succ_r. auto.
Qed.

Lemma valid_cons : forall e fn ch i q, valid (Node e fn ch) (i :: q) <-> exists c, nth_error ch i = Some c /\ valid c q.
Proof.
  intros. unfold valid. cbn. destruct (nth_error ch i) as [c|]; split.
  - intros H. exists c. auto.
  - intros (c' & E & H). injection E as ->. auto.
  - congruence.
  - intros (c' & E & _). discriminate.
Qed.

Lemma in_preorder : forall (t : node) p, In p (preorder t) <-> valid t p.
Proof.
  intros t; induction t as [e fn ch IH] using node_ind2; intros p. rewrite preorder_eq. cbn [In].
  unfold pre_children. rewrite in_children_gen. split.
  - intros [<-|(j & c & q & -> & H & Hq)]; [discriminate|]. apply valid_cons. exists c. split; auto.
    rewrite Forall_forall in IH. apply (IH c); auto. eapply nth_error_In; eauto.
  - destruct p as [|i q]; [now left|]. intros H. apply valid_cons in H. destruct H as (c & H & Hq). right.
    exists i, c, q. split; auto. split; auto. rewrite Forall_forall in IH. apply (IH c); auto. eapply nth_error_In; eauto.
Qed.
Lemma in_postorder : forall (t : node) p, In p (postorder t) <-> valid t p.
Proof.
  intros t; induction t as [e fn ch IH] using node_ind2; intros p. rewrite postorder_eq. rewrite in_app_iff. cbn [In].
  unfold post_children. rewrite in_children_gen. split.
  - intros [(j & c & q & -> & H & Hq)|[<-|[]]]; [|discriminate]. apply valid_cons. exists c. split; auto.
    rewrite Forall_forall in IH. apply (IH c); auto. eapply nth_error_In; eauto.
  - destruct p as [|i q]; [now right; left|]. intros H. apply valid_cons in H. destruct H as (c & H & Hq). left.
    exists i, c, q. split; auto. split; auto. rewrite Forall_forall in IH. apply (IH c); auto. eapply nth_error_In; eauto.
Qed.

(** The orders: both compare the first differing step; where one path extends the other, preorder puts
    the shorter first, postorder the longer. *)
Inductive pre_before : path -> path -> Prop :=
| pb_up : forall i p, pre_before [] (i :: p)
| pb_left : forall i j p q, i < j -> pre_before (i :: p) (j :: q)
| pb_same : forall i p q, pre_before p q -> pre_before (i :: p) (i :: q).
Inductive post_before : path -> path -> Prop :=
| qb_down : forall i p, post_before (i :: p) []
| qb_left : forall i j p q, i < j -> post_before (i :: p) (j :: q)
| qb_same : forall i p q, post_before p q -> post_before (i :: p) (i :: q).

Lemma children_sorted : forall (R : path -> path -> Prop) (trav : node -> list path) ch,
  (forall i j p q, i < j -> R (i :: p) (j :: q)) -> (forall i p q, R p q -> R (i :: p) (i :: q)) ->
  Forall (fun c => StronglySorted R (trav c)) ch -> forall i,
  StronglySorted R ((fix go (i : nat) (l : list node) : list path :=
     match l with [] => [] | c :: r => map (cons i) (trav c) ++ go (S i) r end) i ch).
Proof.
  intros R trav ch H1 H2 H; induction H as [|c ch Hc H IH]; intros i; [constructor|]. apply StronglySorted_app.
  - eapply StronglySorted_map; [|exact Hc]. auto.
  - apply IH.
  - intros p q Hp Hq. apply in_map_iff in Hp. destruct Hp as (p' & <- & _).
    apply in_children_gen in Hq. destruct Hq as (j & c' & q' & -> & _). apply H1. lia.
Qed.

Lemma preorder_sorted : forall t : node, StronglySorted pre_before (preorder t).
Proof.
  intros t; induction t as [e fn ch IH] using node_ind2. rewrite preorder_eq. constructor.
  - apply children_sorted; [intros; constructor; assumption|intros; constructor; assumption|exact IH].
  - apply Forall_forall. intros p Hp. apply in_children_gen in Hp. destruct Hp as (j & c & q & -> & _). constructor.
Qed.
Lemma postorder_sorted : forall t : node, StronglySorted post_before (postorder t).
Proof.
  intros t; induction t as [e fn ch IH] using node_ind2. rewrite postorder_eq. apply StronglySorted_app.
  - apply children_sorted; [intros; constructor; assumption|intros; constructor; assumption|exact IH].
  - repeat constructor.
  - intros p q Hp [<-|[]]. apply in_children_gen in Hp. destruct Hp as (j & c & q' & -> & _). constructor.
Qed.
Lemma pre_before_irrefl : forall p, ~ pre_before p p.
Proof. induction p as [|i p IH]; intros H; inversion H; subst; auto; lia. Qed.
Lemma post_before_irrefl : forall p, ~ post_before p p.
Proof. induction p as [|i p IH]; intros H; inversion H; subst; auto; lia. Qed.
Lemma sorted_nodup : forall (R : path -> path -> Prop) l, (forall p, ~ R p p) -> StronglySorted R l -> NoDup l.
Proof.
  intros R l Hi H. induction H as [|p l H IH Fp]; constructor; auto. intros Q. rewrite Forall_forall in Fp.
  apply (Hi p). auto.
Qed.
Lemma parent_before : forall p i, pre_before p (p ++ [i]) /\ post_before (p ++ [i]) p.
Proof. induction p as [|x p IH]; intros i; cbn; split; constructor; apply IH. Qed.

(** ** Reconstruction *)
(** What a (possibly edited) tree stands for: a childless node stands for its own expression; a node
    with children for its function applied to what the children stand for. *)
Fixpoint meaning (call : F -> list expr -> expr) (t : node) : py expr :=
  match t with
  | Node e _ ch =>
      match ch with
      | [] => Ok e
      | _ =>
          match (fix go l := match l with
                             | [] => Ok []
                             | c :: r => match meaning call c with
                                         | Err x => Err x
                                         | Ok v => match go r with Err x => Err x | Ok vs => Ok (v :: vs) end
                                         end
                             end) ch with
          | Err x => Err x
          | Ok vs => match func_of e with None => Err TypeError | Some f => Ok (call f vs) end
          end
      end
  end.
Fixpoint meanings (call : F -> list expr -> expr) (l : list node) : py (list expr) :=
  match l with
  | [] => Ok []
  | c :: r => match meaning call c with
              | Err x => Err x
              | Ok v => match meanings call r with Err x => Err x | Ok vs => Ok (v :: vs) end
              end
  end.
Lemma meaning_eq : forall (call : F -> list expr -> expr) e fn ch, meaning call (Node e fn ch) =
  match ch with
  | [] => Ok e
  | _ => match meanings call ch with
         | Err x => Err x
         | Ok vs => match func_of e with None => Err TypeError | Some f => Ok (call f vs) end
         end
  end.
Proof.
  intros call e fn ch. destruct ch as [|c ch]; [reflexivity|]. cbn [meaning meanings].
  destruct (meaning call c); [|reflexivity].
  match goal with |- match match ?x with _ => _ end with _ => _ end = match match ?y with _ => _ end with _ => _ end =>
    assert (E : x = y) by (clear; induction ch as [|d ch IH]; cbn; [reflexivity|]; destruct (meaning call d); [rewrite IH|]; reflexivity)
  end. rewrite E. reflexivity.
Qed.

Lemma nth_error_at : forall (T : Type) (d : list T) c r, nth_error (d ++ c :: r) (length d) = Some c.
Proof. intros. rewrite nth_error_app2, Nat.sub_diag by lia. reflexivity. Qed.
Lemma list_set_at : forall (T : Type) (d : list T) c c' r, list_set (length d) c' (d ++ c :: r) = d ++ c' :: r.
Proof. induction d as [|x d IH]; intros; cbn; auto. now rewrite IH. Qed.

Lemma step_child : forall (call : F -> list expr -> expr) e fn d (c : node) r q,
  reconstruct_step call (Node e fn (d ++ c :: r)) (length d :: q) =
  match reconstruct_step call c q with Ok c' => Ok (Node e fn (d ++ c' :: r)) | Err x => Err x end.
Proof.
  intros. unfold reconstruct_step. cbn [get node_children set_expr]. rewrite nth_error_at.
  destruct (get q c) as [[e' fn' ch']|]; [|reflexivity]. destruct ch' as [|c1 ch1]; [reflexivity|].
  destruct (func_of e'); [|reflexivity]. rewrite list_set_at. reflexivity.
Qed.
Lemma loop_child : forall (call : F -> list expr -> expr) ps e fn d (c : node) r,
  reconstruct_loop call (map (cons (length d)) ps) (Node e fn (d ++ c :: r)) =
  match reconstruct_loop call ps c with Ok c' => Ok (Node e fn (d ++ c' :: r)) | Err x => Err x end.
Proof.
  intros call ps; induction ps as [|p ps IH]; intros; cbn [map reconstruct_loop]; auto.
  rewrite step_child. destruct (reconstruct_step call c p); auto.
Qed.
Lemma loop_app : forall (call : F -> list expr -> expr) a b (t : node), reconstruct_loop call (a ++ b) t =
  match reconstruct_loop call a t with Ok t' => reconstruct_loop call b t' | Err x => Err x end.
Proof.
  intros call a b; induction a as [|p a IH]; intros t; cbn; auto. destruct (reconstruct_step call t p); auto.
Qed.

Lemma loop_children : forall (call : F -> list expr -> expr),
  forall ch : list node, Forall (fun c => match meaning call c with
     | Ok v => exists c', reconstruct_loop call (postorder c) c = Ok c' /\ node_expr c' = v
     | Err x => reconstruct_loop call (postorder c) c = Err x end) ch ->
  forall e fn d, match meanings call ch with
     | Ok vs => exists ch', reconstruct_loop call (post_children (length d) ch) (Node e fn (d ++ ch)) = Ok (Node e fn (d ++ ch')) /\
                 map node_expr ch' = vs
     | Err x => reconstruct_loop call (post_children (length d) ch) (Node e fn (d ++ ch)) = Err x end.
Proof.
  intros call ch H; induction H as [|c ch Hc H IH]; intros e fn d; cbn [meanings post_children].
  - exists []. auto.
  - rewrite loop_app, loop_child. destruct (meaning call c) as [v|x].
    + destruct Hc as (c' & Ec & Ev). rewrite Ec.
      specialize (IH e fn (d ++ [c'])). rewrite app_length, Nat.add_1_r, <- app_assoc in IH. cbn [app] in IH.
      destruct (meanings call ch) as [vs|x].
      * destruct IH as (ch' & E & Em). exists (c' :: ch'). rewrite <- app_assoc in E. cbn [app] in E.
        split; [exact E|]. cbn. congruence.
      * exact IH.
    + rewrite Hc. reflexivity.
Qed.

Lemma reconstruct_meaning : forall (call : F -> list expr -> expr) (t : node), match meaning call t with
  | Ok v => exists t', reconstruct_loop call (postorder t) t = Ok t' /\ node_expr t' = v
  | Err x => reconstruct_loop call (postorder t) t = Err x
  end.
Proof.
  intros call t; induction t as [e fn ch IH] using node_ind2.
  pose proof (loop_children call ch IH e fn []) as L. cbn [app length] in L.
  rewrite meaning_eq, postorder_eq. rewrite loop_app. destruct ch as [|c ch].
  - cbn. exists (Node e fn []). auto.
  - destruct (meanings call (c :: ch)) as [vs|x] eqn:M.
    + destruct L as (ch' & E & Em). rewrite E. cbn [reconstruct_loop]. unfold reconstruct_step. cbn [get].
      destruct ch' as [|c' ch'].
      { exfalso. cbn in Em. subst vs. cbn in M. destruct (meaning call c); [|discriminate].
        destruct (meanings call ch); discriminate. }
      destruct (func_of e); [|reflexivity]. eexists. split; [reflexivity|]. cbn [set_expr node_expr]. now rewrite Em.
    + rewrite L. reflexivity.
Qed.
Lemma reconstruct_spec : forall (call : F -> list expr -> expr) (t : node), reconstruct call t = meaning call t.
Proof.
  intros call t. unfold reconstruct. pose proof (reconstruct_meaning call t) as H.
  destruct (meaning call t).
  - destruct H as (t' & -> & ->). reflexivity.
  - now rewrite H.
Qed.

Lemma meaning_fresh : forall (e : expr) fn, meaning App (fresh fn e) = Ok e.
Proof.
  intros e; induction e as [a|f l IH] using expr_ind2; intros fn; [reflexivity|].
  cbn [fresh]. rewrite meaning_eq. destruct l as [|x l]; [reflexivity|].
  assert (M : forall m, Forall (fun e => forall fn, meaning App (fresh fn e) = Ok e) m ->
     meanings App (map (fresh (Some f)) m) = Ok m).
  { intros m Hm. induction Hm as [|y m Hy Hm IHm]; cbn; auto. rewrite Hy, IHm. reflexivity. }
  rewrite M by auto. reflexivity.
Qed.

(** Replacing the subexpression at a path. *)
Fixpoint subst (p : path) (s : expr) (e : expr) : expr :=
  match p with
  | [] => s
  | i :: q => match e with
              | Atom _ => e
              | App f l => App f (match nth_error l i with Some x => list_set i (subst q s x) l | None => l end)
              end
  end.
(** Replacing the node at a path by another node ([node.expr = ...; del node.children[:]; build]). *)
Fixpoint graft (p : path) (s : node) (t : node) : node :=
  match p with
  | [] => s
  | i :: q => match t with
              | Node e fn ch => Node e fn (match nth_error ch i with Some c => list_set i (graft q s c) ch | None => ch end)
              end
  end.

Lemma list_set_length : forall (T : Type) i (x : T) l, length (list_set i x l) = length l.
Proof. intros T i x l. revert i. induction l; intros [|i]; cbn; auto. Qed.

Lemma meanings_set : forall l i vs c' w, meanings App l = Ok vs -> meaning App c' = Ok w -> i < length l ->
  meanings App (list_set i c' l) = Ok (list_set i w vs).
Proof.
  induction l as [|y l IH]; intros i vs c' w Hm Hc Hi; cbn in Hi; [lia|].
  cbn in Hm. destruct (meaning App y) as [vy|] eqn:Ey; [|discriminate].
  destruct (meanings App l) as [vl|] eqn:El; [|discriminate]. injection Hm as <-.
  destruct i as [|i]; cbn.
  - rewrite Hc, El. reflexivity.
  - rewrite Ey. rewrite (IH i vl c' w); auto. lia.
Qed.
Lemma meanings_nth : forall l i vs c, meanings App l = Ok vs -> nth_error l i = Some c ->
  exists v, nth_error vs i = Some v /\ meaning App c = Ok v.
Proof.
  induction l as [|y l IH]; intros i vs c Hm Hn; [destruct i; discriminate|].
  cbn in Hm. destruct (meaning App y) as [vy|] eqn:Ey; [|discriminate].
  destruct (meanings App l) as [vl|] eqn:El; [|discriminate]. injection Hm as <-.
  destruct i as [|i]; cbn in *.
  - injection Hn as ->. eauto.
  - eauto.
Qed.
Lemma meanings_length : forall l vs, meanings App l = Ok vs -> length vs = length l.
Proof.
  induction l as [|y l IH]; intros vs Hm; cbn in Hm; [injection Hm as <-; auto|].
  destruct (meaning App y); [|discriminate]. destruct (meanings App l) eqn:E; [|discriminate]. injection Hm as <-.
  cbn. f_equal. now apply IH.
Qed.

Lemma meaning_graft : forall p t s v w, valid t p -> meaning App t = Ok v -> meaning App s = Ok w ->
  meaning App (graft p s t) = Ok (subst p w v).
Proof.
  induction p as [|i p IH]; intros t s v w Hp Hv Hs; cbn [graft subst]; auto.
  destruct t as [e fn ch]. apply valid_cons in Hp. destruct Hp as (c & Hc & Hp). rewrite Hc.
  rewrite meaning_eq in Hv. destruct ch as [|c0 ch]; [destruct i; discriminate|]. set (l := c0 :: ch) in *.
  destruct (meanings App l) as [vs|] eqn:M; [|discriminate]. destruct (func_of e) as [f|] eqn:Fe; [|discriminate].
  injection Hv as <-. destruct (meanings_nth _ _ _ _ M Hc) as (vc & Nv & Mc). rewrite Nv.
  pose proof (IH c s vc w Hp Mc Hs) as Hg. rewrite meaning_eq.
  assert (Hi : i < length l) by (apply nth_error_Some; congruence).
  destruct (list_set i (graft p s c) l) as [|c1 l1] eqn:L.
  - exfalso. pose proof (list_set_length _ i (graft p s c) l) as Q. rewrite L in Q. subst l. discriminate.
  - rewrite <- L. rewrite (meanings_set l i vs _ _ M Hg Hi), Fe. reflexivity.
Qed.
End Facts.
