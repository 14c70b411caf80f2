(** Proofs for cse_postprocess, continued: back-substitution, unused definitions, execution. *)
From Coq Require Import String List ZArith Bool QArith Qcanon Lia Permutation.
From Verif Require Import PyBase PyBaseFacts QcLib ExprTree ExprTreeFacts Simd SimdFacts Cse CseFacts.
Import ListNotations.
Open Scope list_scope.
Open Scope nat_scope.

Lemma split_at : forall A (l : list A) i x, nth_error l i = Some x ->
  exists a b, l = a ++ x :: b /\ length a = i.
Proof.
  intros A l; induction l as [|y l IH]; intros [|i] x H; cbn in H; try discriminate.
  - injection H as <-. exists [], l. auto.
  - destruct (IH i x H) as (a & b & -> & <-). exists (y :: a), b. auto.
Qed.
Lemma pop_mid : forall A (a b : list A) x, pop_at (length a) (a ++ x :: b) = a ++ b.
Proof. intros A a b x; induction a; cbn; congruence. Qed.
Lemma sub_after_mid : forall norm (a b : repls) s v s0 e0,
  sub_after norm (length a) s v (a ++ (s0, e0) :: b) =
  a ++ (s0, e0) :: map (fun p => (fst p, xrep norm s v (snd p))) b.
Proof.
  intros. unfold sub_after.
  replace (firstn (S (length a)) (a ++ (s0, e0) :: b)) with (a ++ [(s0, e0)]).
  - replace (skipn (S (length a)) (a ++ (s0, e0) :: b)) with b; [rewrite <- app_assoc; reflexivity|].
    clear. induction a as [|x a IH]; cbn; auto.
  - clear. induction a as [|x a IH]; cbn in *; [reflexivity|]. f_equal. exact IH.
Qed.

Section Facts.
Variables (V : Type) (cst flt : Qc -> V) (app : fname -> list V -> V).
Local Notation ev := (ev V cst flt app).
Local Notation sat := (sat V cst flt app).
Local Notation exec := (exec V cst flt app).
Variable norm : sexpr -> sexpr.
Hypothesis norm_value : forall rho e, ev rho (norm e) = ev rho e.
Hypothesis norm_symbols : forall e s, In s (symbols (norm e)) -> In s (symbols e).
Variable rho : string -> V.
Variable T : string -> Prop.
Local Notation good := (good V cst flt app rho T).

Lemma sat_app : forall a b, sat rho (a ++ b) <-> sat rho a /\ sat rho b.
Proof.
  intros a b. unfold CseFacts.sat. split.
  - intros H; split; intros; apply H, in_or_app; auto.
  - intros [H K] s e I. apply in_app_or in I. destruct I; auto.
Qed.
Lemma sat_cons : forall s e b, sat rho ((s, e) :: b) <-> rho s = ev rho e /\ sat rho b.
Proof.
  intros s e b. unfold CseFacts.sat. split.
  - intros H; split; intros; apply H; cbn; auto.
  - intros [H K] s' e' [E|I]; [injection E as <- <-; auto|auto].
Qed.

Lemma ordered_map : forall s v b, (forall t, In t (symbols v) -> ~ In t (names b)) -> ordered b ->
  ordered (map (fun p => (fst p, xrep norm s v (snd p))) b).
Proof.
  intros s v b; induction b as [|[s' e'] b IH]; cbn [map ordered fst snd]; intros Hv H; [exact Logic.I|].
  destruct H as [H1 H2]. split.
  - intros t Ht N. cbn [names map fst] in N.
    change (s' :: map fst (map (fun p => (fst p, xrep norm s v (snd p))) b)) with
      (s' :: names (map (fun p => (fst p, xrep norm s v (snd p))) b)) in N.
    rewrite names_map in N. apply (xrep_symbols norm norm_symbols) in Ht. destruct Ht as [[Ht _]|Ht].
    + exact (H1 t Ht N).
    + exact (Hv t Ht N).
  - apply IH; auto. intros t Ht N. apply (Hv t Ht). cbn; auto.
Qed.

Lemma back_sub_good : forall vals repl red i s v, good vals (repl, red) -> ordered repl ->
  nth_error repl i = Some (s, v) ->
  let st' := back_sub norm i s v (repl, red) in
  good vals st' /\ ordered (fst st') /\ S (length (fst st')) = length repl /\
  (forall s' e, In (s', e) (fst st') -> ~ In s (symbols e)) /\ (forall e, In e (snd st') -> ~ In s (symbols e)).
Proof.
  intros vals repl red i s v [G1 G2 G3 G4] O H. cbn [fst snd] in *.
  destruct (split_at _ _ _ _ H) as (a & b & -> & <-).
  unfold back_sub. cbn [fst snd]. rewrite sub_after_mid, pop_mid.
  set (b' := map (fun p => (fst p, xrep norm s v (snd p))) b).
  apply ordered_app in O. destruct O as (Oa & Ob & Oab). cbn [ordered] in Ob. destruct Ob as [Ov Ob].
  apply sat_app in G1. destruct G1 as [Sa Sb]. apply sat_cons in Sb. destruct Sb as [Sv Sb].
  assert (Nb' : names b' = names b) by apply names_map.
  assert (Vs : ~ In s (symbols v)) by (intros K; apply (Ov s K); cbn; auto).
  assert (A_s : forall s' e, In (s', e) a -> ~ In s (symbols e)).
  { intros s' e K1 K2. apply (Oab s' e s K1 K2). cbn; auto. }
  assert (B_s : forall s' e, In (s', e) b' -> ~ In s (symbols e)).
  { intros s' e K1 K2. apply in_map_iff in K1. destruct K1 as (p & E & _). injection E as <- <-.
    apply (xrep_symbols norm norm_symbols) in K2. tauto. }
  assert (R_s : forall e, In e (map (xrep norm s v) red) -> ~ In s (symbols e)).
  { intros e K1 K2. apply in_map_iff in K1. destruct K1 as (x & <- & _).
    apply (xrep_symbols norm norm_symbols) in K2. tauto. }
  rewrite names_app in G4. cbn [names map fst] in G4.
  split; [constructor; cbn [fst snd]|split; [|split; [|split]]].
  - apply sat_app. split; auto. apply sat_map; auto.
  - rewrite vals_map by auto. exact G2.
  - intros t Ht K. cbn [fst snd] in *. rewrite names_app, Nb'.
    assert (X : In t (names (a ++ (s, v) :: b)) /\ t <> s).
    { destruct K as [(s' & e & Hin & He)|(e & Hin & He)].
      - assert (t <> s).
        { intros ->. apply in_app_or in Hin. destruct Hin as [Hin|Hin]; [exact (A_s _ _ Hin He)|exact (B_s _ _ Hin He)]. }
        split; auto. apply in_app_or in Hin. destruct Hin as [Hin|Hin].
        + apply G3; auto. left. exists s', e. split; auto. apply in_or_app; auto.
        + apply in_map_iff in Hin. destruct Hin as (p & E & Hp). injection E as <- <-.
          apply (xrep_symbols norm norm_symbols) in He. destruct He as [[He _]|He].
          * apply G3; auto. left. exists (fst p), (snd p). split; auto. apply in_or_app. right. right.
            rewrite <- surjective_pairing. exact Hp.
          * apply G3; auto. left. exists s, v. split; auto. apply in_or_app. cbn; auto.
      - assert (t <> s) by (intros ->; exact (R_s _ Hin He)). split; auto.
        apply in_map_iff in Hin. destruct Hin as (x & <- & Hx).
        apply (xrep_symbols norm norm_symbols) in He. destruct He as [[He _]|He].
        + apply G3; auto. right. eauto.
        + apply G3; auto. left. exists s, v. split; auto. apply in_or_app. cbn; auto. }
    destruct X as [X D]. rewrite names_app in X. cbn [names map fst] in X. apply in_app_or in X.
    apply in_or_app. destruct X as [X|[X|X]]; auto. congruence.
  - rewrite names_app, Nb'. apply NoDup_remove in G4. exact (proj1 G4).
  - apply ordered_app. split; auto. split.
    + apply ordered_map; auto. intros t Ht N. apply (Ov t Ht). cbn; auto.
    + intros s' e t K Ht N. rewrite Nb' in N. apply (Oab s' e t K Ht). cbn; auto.
  - cbn [fst]. rewrite !app_length. cbn [length]. unfold b'. rewrite map_length. lia.
  - intros s' e K. cbn [fst] in K. apply in_app_or in K. destruct K as [K|K]; eauto.
  - exact R_s.
Qed.

Lemma uses_zero : forall i s st, (forall s' e, In (s', e) (fst st) -> ~ In s (symbols e)) ->
  (forall e, In e (snd st) -> ~ In s (symbols e)) -> uses i s st = 0.
Proof.
  intros i s [l r] H1 H2. unfold uses. cbn [fst snd] in *.
  assert (E1 : forall m, incl m l -> list_sum (map (fun p => count_sym s (snd p)) m) = 0).
  { induction m as [|[s' e] m IH]; intros K; [reflexivity|].
    change (count_sym s e + list_sum (map (fun p => count_sym s (snd p)) m) = 0).
    rewrite IH by (intros x Hx; apply K; cbn; auto). rewrite count_zero; auto. eapply H1. apply K. cbn; auto. }
  rewrite E1.
  - clear E1 H1. induction r as [|e r IH]; [reflexivity|]. cbn [count_reduced Nat.leb].
    rewrite count_zero by (apply H2; cbn; auto). cbn [Nat.add]. apply IH. intros; apply H2; cbn; auto.
  - intros x Hx. rewrite <- (firstn_skipn i l). apply in_or_app; auto.
Qed.

Lemma back_step_good : forall vals st i s v, good vals st -> ordered (fst st) -> nth_error (fst st) i = Some (s, v) ->
  exists i' st', back_step norm i s v st = Ok (i', st') /\ good vals st' /\ ordered (fst st') /\
    length (fst st') - i' < length (fst st) - i.
Proof.
  intros vals [repl red] i s v G O H. cbn [fst] in *.
  assert (Li : i < length repl) by (apply nth_error_Some; congruence).
  destruct (back_sub_good vals repl red i s v G O H) as (G' & O' & L' & U1 & U2).
  unfold back_step. destruct (neg_pair v) eqn:NP.
  - assert (U0 : uses (pred i) s (back_sub norm i s v (repl, red)) = 0) by (apply uses_zero; auto).
    rewrite U0. cbn [Nat.ltb Nat.leb andb].
    assert (E : (if small v then Ok (S (pred i), back_sub norm i s v (repl, red))
                 else Ok (S (pred i), back_sub norm i s v (repl, red))) = Ok (S (pred i), back_sub norm i s v (repl, red)))
      by (destruct (small v); reflexivity).
    rewrite E. do 2 eexists. split; [reflexivity|]. split; auto. split; auto.
    set (st' := back_sub norm i s v (repl, red)) in *. destruct i; cbn [pred]; lia.
  - destruct (small v).
    + destruct ((0 <? uses i s (repl, red)) && (uses i s (repl, red) <=? 2))%bool.
      * cbn [fst]. rewrite (proj2 (Nat.ltb_lt _ _) Li).
        do 2 eexists. split; [reflexivity|]. split; auto. split; auto.
        set (st' := back_sub norm i s v (repl, red)) in *. lia.
      * do 2 eexists. split; [reflexivity|]. cbn [fst]. repeat split; try apply G; auto. lia.
    + do 2 eexists. split; [reflexivity|]. cbn [fst]. repeat split; try apply G; auto. lia.
Qed.
Lemma back_loop_good : forall vals fuel i st, good vals st -> ordered (fst st) -> length (fst st) - i < fuel ->
  exists st', back_loop norm fuel i st = Ok st' /\ good vals st' /\ ordered (fst st').
Proof.
  intros vals fuel; induction fuel as [|n IH]; intros i st G O L; [lia|]. cbn [back_loop].
  destruct (nth_error (fst st) i) as [[s v]|] eqn:E; [|eauto].
  destruct (back_step_good vals st i s v G O E) as (i' & st' & -> & G' & O' & L'). cbn [py_bind].
  apply IH; auto. lia.
Qed.

(** ** Unused definitions *)
Lemma remove_unused_eq : forall l red,
  remove_unused l red = snd (fold_right (fun kv st => keep_used st kv) (flat_map symbols red, []) l).
Proof. intros. unfold remove_unused. rewrite <- fold_left_rev_right, rev_involutive. reflexivity. Qed.
Definition keeping (u0 : list string) (l : repls) : list string * repls :=
  fold_right (fun kv st => keep_used st kv) (u0, []) l.
Lemma keeping_cons : forall u0 s e l, keeping u0 ((s, e) :: l) =
  (let '(used, out) := keeping u0 l in
   if existsb (String.eqb s) used then (used ++ symbols e, (s, e) :: out) else (used, out)).
Proof. intros. cbn [keeping fold_right]. fold (keeping u0 l). destruct (keeping u0 l). reflexivity. Qed.
Lemma keeping_used : forall u0 l t, In t (fst (keeping u0 l)) <->
  In t u0 \/ exists s e, In (s, e) (snd (keeping u0 l)) /\ In t (symbols e).
Proof.
  intros u0 l t; induction l as [|[s e] l IH].
  - cbn. split; auto. intros [H|(? & ? & [] & _)]; auto.
  - rewrite keeping_cons. destruct (keeping u0 l) as [used out]. cbn [fst snd] in IH.
    destruct (existsb (String.eqb s) used); cbn [fst snd]; [|exact IH].
    rewrite in_app_iff, IH. split.
    + intros [[H|(s' & e' & H & K)]|H]; auto; right; [exists s', e'|exists s, e]; cbn; auto.
    + intros [H|(s' & e' & [E|H] & K)]; auto; [injection E as <- <-; auto|left; right; eauto].
Qed.
Lemma keeping_incl : forall u0 l, incl (snd (keeping u0 l)) l.
Proof.
  intros u0 l; induction l as [|[s e] l IH]; [intros x []|]. rewrite keeping_cons.
  destruct (keeping u0 l) as [used out]. cbn [snd] in IH. destruct (existsb (String.eqb s) used); cbn [snd].
  - intros x [<-|H]; cbn; auto.
  - intros x H; cbn; auto.
Qed.
Lemma names_incl : forall (a b : repls), incl a b -> incl (names a) (names b).
Proof. intros a b H x Hx. apply names_in in Hx. destruct Hx as (e & Hx). eapply in_names. apply H. exact Hx. Qed.
Lemma keeping_nodup : forall u0 l, NoDup (names l) -> NoDup (names (snd (keeping u0 l))).
Proof.
  intros u0 l; induction l as [|[s e] l IH]; [constructor|]. intros H. cbn [names map fst] in H.
  inversion H as [|? ? N ND]; subst. rewrite keeping_cons. assert (K := keeping_incl u0 l). specialize (IH ND).
  destruct (keeping u0 l) as [used out]. cbn [snd] in *. destruct (existsb (String.eqb s) used); cbn [snd]; auto.
  cbn [names map fst]. constructor; auto. intros X. apply N. exact (names_incl _ _ K _ X).
Qed.
Lemma keeping_ordered : forall u0 l, ordered l -> ordered (snd (keeping u0 l)).
Proof.
  intros u0 l; induction l as [|[s e] l IH]; [auto|]. intros [H1 H2].
  rewrite keeping_cons. assert (K := keeping_incl u0 l). specialize (IH H2).
  destruct (keeping u0 l) as [used out]. cbn [snd] in *. destruct (existsb (String.eqb s) used); cbn [snd]; auto.
  cbn [ordered]. split; auto. intros t Ht X. apply (H1 t Ht). cbn [names map fst In] in *.
  destruct X as [X|X]; auto. right. exact (names_incl _ _ K _ X).
Qed.
(** A definition that is used is kept. *)
Lemma keeping_needed : forall u0 l t, ordered l -> In t (names l) -> In t (fst (keeping u0 l)) ->
  In t (names (snd (keeping u0 l))).
Proof.
  intros u0 l t; induction l as [|[s e] l IH]; [intros _ []|]. intros [H1 H2] N U.
  rewrite keeping_cons in *. destruct (keeping u0 l) as [used out]. cbn [fst snd] in *.
  destruct (existsb (String.eqb s) used) eqn:E; cbn [fst snd] in *.
  - apply in_app_or in U. destruct U as [U|U]; [|exfalso; exact (H1 t U N)].
    cbn [names map fst In] in *. destruct N as [N|N]; auto.
  - cbn [names map fst In] in N. destruct N as [N|N]; auto. subst s.
    rewrite (proj2 (existsb_exists _ _)) in E; [discriminate|]. exists t. split; auto. apply String.eqb_refl.
Qed.
Lemma remove_unused_good : forall vals st, good vals st -> ordered (fst st) ->
  let l := remove_unused (fst st) (snd st) in good vals (l, snd st) /\ ordered l /\ incl l (fst st) /\
  (forall s e, In (s, e) l -> exists x, (In x (snd st) \/ In x (map snd l)) /\ In s (symbols x)).
Proof.
  intros vals [repl red] [G1 G2 G3 G4] O. cbn zeta. rewrite remove_unused_eq. cbn [fst snd] in *.
  fold (keeping (flat_map symbols red) repl). set (k := keeping (flat_map symbols red) repl).
  assert (I : incl (snd k) repl) by apply keeping_incl.
  split; [constructor; cbn [fst snd]|split; [|split]]; auto.
  - intros s e H. apply G1, I, H.
  - intros t Ht K. cbn [fst snd] in *. apply keeping_needed; auto.
    + apply G3; auto. destruct K as [(s & e & K1 & K2)|K]; [left|right; auto]. exists s, e. split; auto.
    + apply keeping_used. destruct K as [K|(e & K1 & K2)]; [right; auto|]. left. apply in_flat_map. eauto.
  - now apply keeping_nodup.
  - now apply keeping_ordered.
  - intros s e H.
    assert (U : In s (fst k)).
    { clear -H. unfold k in *. clear k. induction repl as [|[s' e'] l IH]; [destruct H|].
      rewrite keeping_cons in *. destruct (keeping (flat_map symbols red) l) as [used out]. cbn [fst snd] in *.
      destruct (existsb (String.eqb s') used) eqn:E; cbn [fst snd] in *; auto.
      destruct H as [X|H]; [injection X as -> ->|apply in_or_app; auto].
      apply existsb_exists in E. destruct E as (t & Ht & E). apply String.eqb_eq in E. subst t. apply in_or_app; auto. }
    apply keeping_used in U. destruct U as [U|(s' & e' & U1 & U2)].
    + apply in_flat_map in U. destruct U as (x & Hx & U). exists x; auto.
    + exists e'. split; auto. right. apply in_map_iff. exists (s', e'). auto.
Qed.

(** ** Execution *)
Lemma ordered_closed_defined : forall l A, ordered l ->
  (forall s e t, In (s, e) l -> In t (symbols e) -> A t \/ In t (names l)) -> defined_before_use A l.
Proof.
  intros l; induction l as [|[s e] l IH]; intros A O H; cbn [defined_before_use]; [exact Logic.I|].
  destruct O as [O1 O2]. split.
  - intros t Ht. destruct (H s e t (or_introl eq_refl) Ht) as [K|K]; auto. exfalso. exact (O1 t Ht K).
  - apply IH; auto. intros s' e' t Hin Ht. destruct (H s' e' t (or_intror Hin) Ht) as [K|K]; auto.
    cbn [names map fst In] in K. destruct K as [K|K]; auto.
Qed.
Lemma ev_ext : forall r1 r2 e, (forall t, In t (symbols e) -> r1 t = r2 t) -> ev r1 e = ev r2 e.
Proof.
  intros r1 r2 e; induction e as [[s|q|q]|f l IH] using expr_ind2; intros H; cbn [CseFacts.ev]; auto.
  - apply H. cbn; auto.
  - f_equal. apply map_ext_in. rewrite Forall_forall in IH. intros x Hx. apply IH; auto.
    intros t Ht. apply H. cbn [symbols]. apply in_flat_map; eauto.
Qed.
Lemma exec_agrees : forall l A st, defined_before_use A l -> sat rho l -> (forall t, A t -> st t = rho t) ->
  forall t, A t \/ In t (names l) -> exec l st t = rho t.
Proof.
  induction l as [|[s e] l IH]; intros A st D S H t Ht; cbn [CseFacts.exec fold_left fst snd].
  - destruct Ht as [Ht|[]]; auto.
  - destruct D as [D1 D2]. apply sat_cons in S. destruct S as [S1 S2].
    apply (IH (fun t => A t \/ t = s)); auto.
    + intros u Hu. unfold upd. destruct (String.eqb_spec u s) as [->|N].
      * rewrite S1. apply ev_ext. auto.
      * destruct Hu; [auto|contradiction].
    + cbn [names map fst In] in Ht. destruct Ht as [Ht|[Ht|Ht]]; auto.
Qed.
End Facts.

(** Executing ordered definitions solves them. *)
Lemma exec_other : forall V cst flt app l st t, ~ In t (names l) -> exec V cst flt app l st t = st t.
Proof.
  intros V cst flt app l; induction l as [|[s e] l IH]; intros st t H; [reflexivity|].
  change (exec V cst flt app l (upd V st s (ev V cst flt app st e)) t = st t).
  cbn [names map fst In] in H. rewrite IH by tauto. unfold upd. destruct (String.eqb_spec t s); [subst; tauto|reflexivity].
Qed.
Lemma exec_sat : forall V cst flt app l st, ordered l -> NoDup (names l) ->
  sat V cst flt app (exec V cst flt app l st) l.
Proof.
  intros V cst flt app l; induction l as [|[s e] l IH]; intros st O N; [intros ? ? []|].
  destruct O as [O1 O2]. cbn [names map fst] in N. inversion N as [|? ? N1 N2]; subst.
  change (exec V cst flt app ((s, e) :: l) st) with (exec V cst flt app l (upd V st s (ev V cst flt app st e))).
  apply sat_cons. split; [|auto].
  rewrite exec_other by exact N1. unfold upd at 1. rewrite String.eqb_refl.
  apply ev_ext. intros t Ht. specialize (O1 t Ht). cbn [names map fst In] in O1.
  rewrite exec_other by (intros K; apply O1; auto). unfold upd.
  destruct (String.eqb_spec t s); [subst; tauto|reflexivity].
Qed.

(** ** Acyclicity survives the removal of constants *)
Lemma const_step_acyclic : forall norm (norm_symbols : forall e s, In s (symbols (norm e)) -> In s (symbols e)) st kv,
  symbols (snd kv) = [] -> acyclic (fst st) -> NoDup (names (fst st)) ->
  acyclic (fst (const_step norm st kv)) /\ NoDup (names (fst (const_step norm st kv))).
Proof.
  intros norm NS [l r] [s v] C [rank R] N. cbn [fst snd const_step] in *. split.
  - exists rank. intros s' e t H Ht Hn. rewrite names_map in Hn. apply in_map_iff in H.
    destruct H as (p & E & Hp). injection E as <- <-. apply (xrep_symbols norm NS) in Ht. rewrite C in Ht.
    destruct Ht as [[Ht _]|[]]. apply filter_In in Hp. apply (R (fst p) (snd p) t); auto.
    + rewrite <- surjective_pairing. tauto.
    + apply names_in in Hn. destruct Hn as (e' & Hn). apply filter_In in Hn. eapply in_names. exact (proj1 Hn).
  - rewrite names_map. now apply NoDup_names_filter.
Qed.
Lemma const_loop_acyclic : forall norm (norm_symbols : forall e s, In s (symbols (norm e)) -> In s (symbols e)) fuel st st',
  const_loop norm fuel st = Ok st' -> acyclic (fst st) -> NoDup (names (fst st)) ->
  acyclic (fst st') /\ NoDup (names (fst st')).
Proof.
  intros norm NS fuel; induction fuel as [|n IH]; intros st st' H A N; cbn [const_loop] in H; [discriminate|].
  destruct (filter (fun p => is_const (snd p)) (fst st)) as [|c cs] eqn:E; [injection H as <-; auto|].
  assert (X : forall cs st, (forall c, In c cs -> symbols (snd c) = []) -> acyclic (fst st) -> NoDup (names (fst st)) ->
     acyclic (fst (fold_left (const_step norm) cs st)) /\ NoDup (names (fst (fold_left (const_step norm) cs st)))).
  { clear -NS. intros cs; induction cs as [|c cs IH]; intros st H A N; [auto|]. cbn [fold_left].
    destruct (const_step_acyclic norm NS st c (H c (or_introl eq_refl)) A N). apply IH; auto.
    intros; apply H; cbn; auto. }
  destruct (X (c :: cs) st) as [A' N']; auto.
  - intros k Hk. rewrite <- E in Hk. apply filter_In in Hk. apply is_const_spec. tauto.
  - eapply IH; eauto.
Qed.
