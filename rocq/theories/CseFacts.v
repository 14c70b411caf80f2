(** Specification and proofs for cse_postprocess (model: Cse.v). *)
From Coq Require Import String List ZArith Bool QArith Qcanon Lia Permutation.
From Verif Require Import PyBase PyBaseFacts QcLib ExprTree ExprTreeFacts Simd SimdFacts Cse.
Import ListNotations.
Open Scope list_scope.
Open Scope nat_scope.

(** ** Specification *)
(** Values in an arbitrary algebra. *)
Section Spec.
Variables (V : Type) (cst flt : Qc -> V) (app : fname -> list V -> V).
Fixpoint ev (rho : string -> V) (e : sexpr) : V :=
  match e with
  | Atom (Sym s) => rho s
  | Atom (Rat q) => cst q
  | Atom (Flt q) => flt q
  | App f l => app f (map (ev rho) l)
  end.
(** All definitions hold. *)
Definition sat (rho : string -> V) (l : repls) : Prop := forall s e, In (s, e) l -> rho s = ev rho e.
(** Executing the definitions in order. *)
Definition upd (st : string -> V) (s : string) (v : V) : string -> V := fun t => if String.eqb t s then v else st t.
Definition exec (l : repls) (st : string -> V) : string -> V :=
  fold_left (fun st kv => upd st (fst kv) (ev st (snd kv))) l st.
End Spec.

Definition names (l : repls) : list string := map fst l.
(** Every symbol of a definition is available (in [A]) or defined earlier. *)
Fixpoint defined_before_use (A : string -> Prop) (l : repls) : Prop :=
  match l with
  | [] => True
  | (s, e) :: r => (forall t, In t (symbols e) -> A t) /\ defined_before_use (fun t => A t \/ t = s) r
  end.
(** No definition mentions a symbol defined by itself or later. *)
Fixpoint ordered (l : repls) : Prop :=
  match l with
  | [] => True
  | (s, e) :: r => (forall t, In t (symbols e) -> ~ In t (names ((s, e) :: r))) /\ ordered r
  end.
Definition acyclic (l : repls) : Prop :=
  exists rank : string -> nat, forall s e t, In (s, e) l -> In t (symbols e) -> In t (names l) -> rank t < rank s.

(** ** Occurrences *)
Lemma occurs_spec : forall s e, occurs s e = true <-> In s (symbols e).
Proof.
  intros. unfold occurs. rewrite existsb_exists. split.
  - intros (x & Hx & E). apply String.eqb_eq in E. congruence.
  - intros H. exists s. split; auto. apply String.eqb_refl.
Qed.
Lemma count_zero : forall s e, ~ In s (symbols e) -> count_sym s e = 0.
Proof.
  intros s e; induction e as [[t|q|q]|f l IH] using expr_ind2; intros H; cbn [count_sym]; auto.
  - cbn in H. destruct (String.eqb_spec t s); [subst; tauto|reflexivity].
  - cbn [symbols] in H. induction IH as [|x l Hx Hl IHl]; [reflexivity|].
    change (list_sum (map (count_sym s) (x :: l))) with (count_sym s x + list_sum (map (count_sym s) l)).
    cbn [flat_map] in H. rewrite in_app_iff in H. rewrite Hx, IHl; auto.
Qed.
Lemma subst_symbols : forall s v e t, In t (symbols (subst_sym s v e)) ->
  (In t (symbols e) /\ t <> s) \/ (In t (symbols v) /\ In s (symbols e)).
Proof.
  intros s v e t; induction e as [[u|q|q]|f l IH] using expr_ind2; cbn [subst_sym]; intros H; [|destruct H|destruct H|].
  - destruct (String.eqb_spec u s) as [Eu|D]; [right; cbn; auto|]. left. destruct H as [<-|[]]. cbn; auto.
  - cbn [symbols] in *. rewrite in_flat_map in H. destruct H as (y & Hy & Ht). apply in_map_iff in Hy.
    destruct Hy as (x & <- & Hx). rewrite Forall_forall in IH. destruct (IH x Hx Ht) as [[A B]|[A B]].
    + left. split; auto. apply in_flat_map; eauto.
    + right. split; auto. apply in_flat_map; eauto.
Qed.

Lemma names_app : forall a b, names (a ++ b) = names a ++ names b.
Proof. intros; apply map_app. Qed.
Lemma in_names : forall s e (l : repls), In (s, e) l -> In s (names l).
Proof. intros s e l H. apply (in_map fst) in H. exact H. Qed.
Lemma names_in : forall s (l : repls), In s (names l) -> exists e, In (s, e) l.
Proof. intros s l H. apply in_map_iff in H. destruct H as ((a & b) & <- & H). exists b; exact H. Qed.

Lemma ordered_app : forall a b, ordered (a ++ b) <->
  ordered a /\ ordered b /\ (forall s e t, In (s, e) a -> In t (symbols e) -> ~ In t (names b)).
Proof.
  induction a as [|[s e] a IH]; intros b; cbn [app ordered].
  - split; [intros H; split; [exact Logic.I|]; split; auto; intros ? ? ? []|tauto].
  - rewrite IH. change (names ((s, e) :: a ++ b)) with (s :: names (a ++ b)).
    change (names ((s, e) :: a)) with (s :: names a). rewrite names_app. split.
    + intros (H & Ha & Hb & Hab). split; [split; auto|split; auto].
      * intros t Ht K. apply (H t Ht). cbn [In] in *. rewrite in_app_iff. tauto.
      * intros s' e' t [E|Hin] Ht K; [|eapply Hab; eauto]. injection E as <- <-. apply (H t Ht).
        cbn [In]. rewrite in_app_iff. tauto.
    + intros ((H & Ha) & Hb & Hab). split; [|split; auto; split; auto].
      * intros t Ht K. cbn [In] in K. rewrite in_app_iff in K. destruct K as [K|[K|K]].
        -- apply (H t Ht). cbn; auto.
        -- apply (H t Ht). cbn; auto.
        -- eapply Hab; cbn; eauto.
      * intros; eapply Hab; cbn; eauto.
Qed.

Lemma NoDup_names_filter : forall p (l : repls), NoDup (names l) -> NoDup (names (filter p l)).
Proof.
  intros p l; induction l as [|[s e] l IH]; cbn; intros H; [constructor|]. inversion H; subst.
  destruct (p (s, e)); cbn; auto. constructor; auto. intros K. apply H2.
  apply in_map_iff in K. destruct K as (x & E & Hx). apply filter_In in Hx. apply in_map_iff. exists x; tauto.
Qed.

Lemma xrep_symbols : forall norm (norm_symbols : forall e s, In s (symbols (norm e)) -> In s (symbols e)) s v e t,
  In t (symbols (xrep norm s v e)) -> (In t (symbols e) /\ t <> s) \/ In t (symbols v).
Proof.
  intros norm norm_symbols s v e t H. unfold xrep in H. destruct (occurs s e) eqn:E.
  - apply norm_symbols, subst_symbols in H. tauto.
  - left. split; auto. intros ->. apply occurs_spec in H. congruence.
Qed.

Section Facts.
Variables (V : Type) (cst flt : Qc -> V) (app : fname -> list V -> V).
Local Notation ev := (ev V cst flt app).
Local Notation sat := (sat V cst flt app).
Local Notation exec := (exec V cst flt app).
Variable norm : sexpr -> sexpr.
Hypothesis norm_value : forall rho e, ev rho (norm e) = ev rho e.
Hypothesis norm_symbols : forall e s, In s (symbols (norm e)) -> In s (symbols e).
Variable rho : string -> V.
(** The temporaries of the input. *)
Variable T : string -> Prop.

Lemma subst_value : forall s v e, rho s = ev rho v -> ev rho (subst_sym s v e) = ev rho e.
Proof.
  intros s v e Hs; induction e as [[t|q|q]|f l IH] using expr_ind2; cbn [subst_sym]; auto.
  - destruct (String.eqb_spec t s) as [->|]; auto.
  - cbn [CseFacts.ev]. f_equal. rewrite map_map. apply map_ext_in. rewrite Forall_forall in IH. auto.
Qed.
Lemma xrep_value : forall s v e, rho s = ev rho v -> ev rho (xrep norm s v e) = ev rho e.
Proof. intros s v e H. unfold xrep. destruct (occurs s e); auto. rewrite norm_value. now apply subst_value. Qed.
(** What every phase keeps: the definitions hold, the reduced expressions have their values, a temporary that is
    mentioned is defined, and no symbol is defined twice. *)
Definition closed (st : repls * list sexpr) : Prop :=
  forall t, T t -> ((exists s e, In (s, e) (fst st) /\ In t (symbols e)) \/ (exists e, In e (snd st) /\ In t (symbols e))) ->
  In t (names (fst st)).
Record good (vals : list V) (st : repls * list sexpr) : Prop := MkGood {
  g_sat : sat rho (fst st);
  g_vals : map (ev rho) (snd st) = vals;
  g_closed : closed st;
  g_nodup : NoDup (names (fst st)) }.

Lemma sat_map : forall s v l, rho s = ev rho v -> sat rho l ->
  sat rho (map (fun p => (fst p, xrep norm s v (snd p))) l).
Proof.
  intros s v l Hs H t e K. apply in_map_iff in K. destruct K as ((a & b) & E & K). injection E as <- <-.
  cbn [fst snd]. rewrite xrep_value by auto. now apply H.
Qed.
Lemma names_map : forall s v (l : repls), names (map (fun p => (fst p, xrep norm s v (snd p))) l) = names l.
Proof. intros. unfold names. rewrite map_map. reflexivity. Qed.
Lemma vals_map : forall s v l, rho s = ev rho v -> map (ev rho) (map (xrep norm s v) l) = map (ev rho) l.
Proof. intros. rewrite map_map. apply map_ext. intros; now apply xrep_value. Qed.

(** ** Constants *)
Lemma names_filter_neq : forall s t (l : repls), t <> s -> In t (names l) ->
  In t (names (filter (fun p => negb (String.eqb (fst p) s)) l)).
Proof.
  intros s t l D H. apply names_in in H. destruct H as (e & H). eapply in_names. apply filter_In. split; [exact H|].
  cbn. destruct (String.eqb_spec t s); [contradiction|reflexivity].
Qed.
Lemma const_step_good : forall vals st s v, good vals st -> symbols v = [] -> rho s = ev rho v ->
  good vals (const_step norm st (s, v)).
Proof.
  intros vals [repl red] s v [G1 G2 G3 G4] C Hs. cbn [fst snd] in *.
  constructor; cbn [const_step fst snd].
  - apply sat_map; auto. intros t e K. apply filter_In in K. apply G1; tauto.
  - rewrite vals_map by auto. exact G2.
  - intros t Ht H. cbn [fst snd] in *. rewrite names_map.
    assert (K : In t (names repl) /\ t <> s).
    { destruct H as [(s' & e & Hin & He)|(e & Hin & He)]; apply in_map_iff in Hin; destruct Hin as (p & E & Hp).
      - injection E as <- <-. apply (xrep_symbols norm norm_symbols) in He. rewrite C in He. destruct He as [[He D]|[]]. split; auto.
        apply filter_In in Hp. destruct Hp as [Hp _]. apply G3; auto. left. exists (fst p), (snd p). cbn [fst snd].
        rewrite <- surjective_pairing. auto.
      - subst e. apply (xrep_symbols norm norm_symbols) in He. rewrite C in He. destruct He as [[He D]|[]]. split; auto.
        apply G3; auto. right. eauto. }
    destruct K as [K D]. now apply names_filter_neq.
  - rewrite names_map. now apply NoDup_names_filter.
Qed.
Lemma const_steps_good : forall vals cs st, good vals st ->
  (forall s v, In (s, v) cs -> symbols v = [] /\ rho s = ev rho v) ->
  good vals (fold_left (const_step norm) cs st).
Proof.
  intros vals cs; induction cs as [|[s v] cs IH]; intros st G H; cbn [fold_left]; auto.
  apply IH; [|intros; apply H; cbn; auto]. destruct (H s v (or_introl eq_refl)). now apply const_step_good.
Qed.
Lemma is_const_spec : forall e, is_const e = true <-> symbols e = [].
Proof. intros e. unfold is_const. destruct (symbols e); split; congruence. Qed.
Lemma const_loop_good : forall vals fuel st st', good vals st -> const_loop norm fuel st = Ok st' -> good vals st'.
Proof.
  intros vals fuel; induction fuel as [|n IH]; intros st st' G H; cbn [const_loop] in H; [discriminate|].
  destruct (filter (fun p => is_const (snd p)) (fst st)) as [|c cs] eqn:E; [injection H as <-; auto|].
  eapply IH; [|exact H]. apply const_steps_good; auto. intros s v K. rewrite <- E in K. apply filter_In in K.
  destruct K as [K C]. apply is_const_spec in C. split; auto. now apply (g_sat _ _ G).
Qed.
End Facts.

Lemma filter_length_le : forall A (p : A -> bool) l, length (filter p l) <= length l.
Proof. intros A p l; induction l as [|x l IH]; cbn; [lia|]. destruct (p x); cbn; lia. Qed.
(** The constant loop finishes: every round removes a definition. *)
Lemma const_step_length : forall norm st kv, length (fst (const_step norm st kv)) <= length (fst st).
Proof. intros norm [l r] kv. cbn [const_step fst]. rewrite map_length. apply filter_length_le. Qed.
Lemma const_steps_length : forall norm cs st, length (fst (fold_left (const_step norm) cs st)) <= length (fst st).
Proof.
  intros norm cs; induction cs as [|c cs IH]; intros st; cbn [fold_left]; auto.
  etransitivity; [apply IH|apply const_step_length].
Qed.
Lemma filter_length_lt : forall A (p : A -> bool) l x, In x l -> p x = false -> length (filter p l) < length l.
Proof.
  intros A p l; induction l as [|y l IH]; intros x H E; [destruct H|]. cbn [filter].
  assert (K := filter_length_le _ p l). destruct H as [<-|H].
  - rewrite E. cbn [length]. lia.
  - specialize (IH x H E). destruct (p y); cbn [length]; lia.
Qed.
Lemma const_loop_terminates : forall norm fuel st, length (fst st) < fuel -> exists st', const_loop norm fuel st = Ok st'.
Proof.
  intros norm fuel; induction fuel as [|n IH]; intros st H; [lia|]. cbn [const_loop].
  destruct (filter (fun p => is_const (snd p)) (fst st)) as [|c cs] eqn:E; [eauto|].
  apply IH. cbn [fold_left]. eapply Nat.le_lt_trans; [apply const_steps_length|].
  assert (K : In c (fst st)) by (assert (X : In c (c :: cs)) by (cbn; auto); rewrite <- E in X; apply filter_In in X; tauto).
  destruct st as [l r]. cbn [const_step fst] in *. rewrite map_length.
  assert (L := filter_length_lt _ (fun p => negb (String.eqb (fst p) (fst c))) l c K). cbv beta in L. rewrite String.eqb_refl in L.
  specialize (L eq_refl). lia.
Qed.

(** ** The topological sort *)
Lemma dset_fresh : forall A k (v : A) d, ~ In k (dkeys d) -> dset k v d = d ++ [(k, v)].
Proof.
  intros A k v d; induction d as [|[k' v'] d IH]; cbn; intros H; [reflexivity|].
  destruct (String.eqb_spec k k') as [->|]; [tauto|]. rewrite IH by tauto. reflexivity.
Qed.
Lemma dset_all : forall (p : string * sexpr -> bool) l acc, NoDup (names acc ++ names l) ->
  fold_left (fun d kv => if p kv then d else dset (fst kv) (snd kv) d) l acc = acc ++ filter (fun kv => negb (p kv)) l.
Proof.
  intros p l; induction l as [|[s e] l IH]; intros acc H; cbn [fold_left filter]; [now rewrite app_nil_r|].
  destruct (p (s, e)) eqn:E; cbn [negb].
  - apply IH. apply NoDup_remove in H. tauto.
  - cbn [fst snd]. rewrite dset_fresh.
    + rewrite IH; [rewrite <- app_assoc; reflexivity|]. rewrite names_app. rewrite <- app_assoc. exact H.
    + intros K. apply NoDup_remove in H. destruct H as [_ H]. apply H. apply in_or_app. left. exact K.
Qed.
Lemma lookup_of_nodup : forall l, NoDup (names l) -> lookup_of l = l.
Proof.
  intros l H. unfold lookup_of. rewrite (dset_all (fun _ => false) l []) by exact H.
  cbn [app negb]. induction l as [|x l IH]; cbn; [reflexivity|]. f_equal. apply IH. now inversion H.
Qed.
Lemma dmem_names : forall s (l : repls), dmem s l = true <-> In s (names l).
Proof.
  intros s l. rewrite dmem_true. change (names l) with (dkeys l). split.
  - intros (v & H). eapply dget_Some_keys; eauto.
  - intros H. destruct (dget s l) eqn:E; [eauto|]. apply dget_None_keys in E. contradiction.
Qed.
Lemma ready_spec : forall (l : repls) e, ready l e = true <-> forall t, In t (symbols e) -> ~ In t (names l).
Proof.
  intros l e. unfold ready. rewrite negb_true_iff. split.
  - intros H t Ht K. assert (E : existsb (fun s => dmem s l) (symbols e) = true); [|congruence].
    apply existsb_exists. exists t. split; auto. apply dmem_names. exact K.
  - intros H. destruct (existsb (fun s => dmem s l) (symbols e)) eqn:E; auto.
    apply existsb_exists in E. destruct E as (t & Ht & K). apply dmem_names in K. exfalso. eapply H; eauto.
Qed.
Lemma filter_split_perm : forall A (p : A -> bool) l, Permutation l (filter p l ++ filter (fun x => negb (p x)) l).
Proof.
  intros A p l; induction l as [|x l IH]; cbn; [constructor|]. destruct (p x); cbn [negb].
  - constructor. exact IH.
  - apply Permutation_cons_app. exact IH.
Qed.
Lemma ordered_ready : forall (l b : repls), (forall s e t, In (s, e) b -> In t (symbols e) -> ~ In t (names l)) ->
  incl (names b) (names l) -> ordered b.
Proof.
  intros l b; induction b as [|[s e] b IH]; cbn [ordered]; intros H I; [exact Logic.I|]. split.
  - intros t Ht K. eapply H; cbn; eauto.
  - apply IH; [intros; eapply H; cbn; eauto|]. intros x Hx. apply I. cbn; auto.
Qed.
Lemma sort_loop_step : forall n (lookup out : repls), lookup <> [] -> NoDup (names lookup) ->
  sort_loop (S n) lookup out =
  (let nl := filter (fun kv => negb (ready lookup (snd kv))) lookup in
   if Nat.ltb (length nl) (length lookup) then sort_loop n nl (out ++ filter (fun kv => ready lookup (snd kv)) lookup)
   else Err AssertionError).
Proof.
  intros n lookup out NE ND. cbn [sort_loop]. rewrite (dset_all (fun kv => ready lookup (snd kv)) lookup []) by exact ND.
  destruct lookup; [contradiction|]. reflexivity.
Qed.
Lemma sort_loop_spec : forall n (lookup out r : repls), NoDup (names lookup) -> sort_loop n lookup out = Ok r ->
  exists l, r = out ++ l /\ Permutation l lookup /\ ordered l.
Proof.
  induction n as [|n IH]; intros lookup out r ND H; [discriminate|].
  assert (D : lookup = [] \/ lookup <> []) by (destruct lookup; [left|right]; congruence).
  destruct D as [->|NE].
  { cbn in H. injection H as <-. exists []. rewrite app_nil_r. repeat split; constructor. }
  rewrite sort_loop_step in H by auto. cbn zeta in H. destruct (Nat.ltb _ _); [|discriminate].
  apply IH in H; [|now apply NoDup_names_filter]. destruct H as (l & -> & P & O).
  exists (filter (fun kv => ready lookup (snd kv)) lookup ++ l).
  split; [now rewrite app_assoc|]. split.
  - rewrite P. symmetry. apply filter_split_perm.
  - assert (R : forall s e t, In (s, e) (filter (fun kv => ready lookup (snd kv)) lookup) -> In t (symbols e) ->
      ~ In t (names lookup)).
    { intros s e t K Ht. apply filter_In in K. destruct K as [_ K]. cbn [snd] in K. rewrite ready_spec in K. auto. }
    apply ordered_app. split; [|split; auto].
    + eapply ordered_ready; [exact R|]. intros x Hx. apply names_in in Hx. destruct Hx as (e & Hx).
      apply filter_In in Hx. eapply in_names. exact (proj1 Hx).
    + intros s e t K Ht N. eapply R; eauto. apply names_in in N. destruct N as (e' & N).
      apply (Permutation_in _ P) in N. apply filter_In in N. eapply in_names. exact (proj1 N).
Qed.
Lemma sort_repls_spec : forall l r, NoDup (names l) -> sort_repls l = Ok r -> Permutation r l /\ ordered r.
Proof.
  intros l r ND H. unfold sort_repls in H. rewrite lookup_of_nodup in H by auto.
  destruct (sort_loop (S (length l)) l []) as [out|] eqn:E; [|discriminate]. cbn [py_bind] in H.
  destruct (Nat.eqb _ _); [|discriminate]. injection H as <-.
  apply sort_loop_spec in E; auto. destruct E as (l' & -> & P & O). auto.
Qed.

(** Acyclic definitions are always sorted. *)
Lemma min_rank : forall (rank : string -> nat) (l : repls), l <> [] ->
  exists s e, In (s, e) l /\ forall s' e', In (s', e') l -> rank s <= rank s'.
Proof.
  intros rank l; induction l as [|[s e] l IH]; intros H; [contradiction|].
  destruct l as [|x l].
  - exists s, e. split; [cbn; auto|]. intros s' e' [E|[]]. injection E as <- <-. lia.
  - destruct IH as (s0 & e0 & H0 & M); [discriminate|].
    destruct (le_lt_dec (rank s) (rank s0)) as [L|L].
    + exists s, e. split; [cbn; auto|]. intros s' e' [E|K]; [injection E as <- <-; lia|].
      specialize (M s' e' K). lia.
    + exists s0, e0. split; [right; exact H0|]. intros s' e' [E|K]; [injection E as <- <-; lia|].
      eapply M; eauto.
Qed.
Lemma acyclic_incl : forall (a b : repls), acyclic b -> incl a b -> acyclic a.
Proof.
  intros a b [rank R] I. exists rank. intros s e t H Ht N. eapply R; eauto.
  apply names_in in N. destruct N as (e' & N). eapply in_names. apply I. exact N.
Qed.
Lemma sort_loop_total : forall n (lookup out : repls), NoDup (names lookup) -> acyclic lookup -> length lookup < n ->
  exists r, sort_loop n lookup out = Ok r.
Proof.
  induction n as [|n IH]; intros lookup out ND AC L; [lia|].
  assert (D : lookup = [] \/ lookup <> []) by (destruct lookup; [left|right]; congruence).
  destruct D as [->|NE]; [cbn; eauto|].
  rewrite sort_loop_step by auto. cbn zeta.
  assert (X : length (filter (fun kv => negb (ready lookup (snd kv))) lookup) < length lookup).
  { destruct AC as [rank R]. destruct (min_rank rank lookup NE) as (s & e & H & M).
    apply (filter_length_lt _ _ _ (s, e) H). apply negb_false_iff. cbn [snd]. apply ready_spec.
    intros t Ht N. specialize (R s e t H Ht N). apply names_in in N. destruct N as (e' & N). specialize (M t e' N). lia. }
  rewrite (proj2 (Nat.ltb_lt _ _) X). apply IH.
  - now apply NoDup_names_filter.
  - eapply acyclic_incl; eauto. intros x Hx. apply filter_In in Hx. tauto.
  - lia.
Qed.
Lemma sort_repls_total : forall l, NoDup (names l) -> acyclic l -> exists r, sort_repls l = Ok r.
Proof.
  intros l ND AC. unfold sort_repls. rewrite lookup_of_nodup by auto.
  destruct (sort_loop_total (S (length l)) l [] ND AC (Nat.lt_succ_diag_r _)) as (r & E). rewrite E. cbn [py_bind].
  apply sort_loop_spec in E; auto. destruct E as (l' & -> & P & _). cbn [List.app].
  rewrite (Permutation_length P), Nat.eqb_refl. eauto.
Qed.
(** ... and only acyclic definitions can be ordered. *)
Lemma ordered_acyclic : forall l, NoDup (names l) -> ordered l -> acyclic l.
Proof.
  intros l; induction l as [|[s e] l IH]; intros ND O.
  - exists (fun _ => 0). intros ? ? ? [].
  - cbn [names map fst] in ND. inversion ND as [|? ? Ns ND']; subst. destruct O as [O1 O2].
    destruct (IH ND' O2) as [rank R].
    exists (fun t => if String.eqb t s then 0 else S (rank t)). intros s' e' t H Ht N.
    cbn [In] in H. destruct H as [E|H].
    + injection E as <- <-. exfalso. eapply O1; eauto.
    + destruct (String.eqb_spec s' s) as [->|]; [exfalso; apply Ns; eapply in_names; eauto|].
      destruct (String.eqb_spec t s) as [->|]; [lia|]. cbn [names map fst In] in N.
      destruct N as [N|N]; [congruence|]. specialize (R s' e' t H Ht N). lia.
Qed.
