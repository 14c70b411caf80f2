(** Specification and proofs for cse_preprocess (model: Cse.v). *)
From Coq Require Import String List ZArith Bool QArith Qcanon Lia.
From Verif Require Import PyBase PyBaseFacts QcLib ExprTree ExprTreeFacts Simd SimdFacts Cse CseFacts CsePostFacts FDReadMem.
Import ListNotations.
Open Scope list_scope.
Open Scope nat_scope.

(** ** Specification *)
(** Exponents of a power of -1: an integer, or no number at all. *)
Definition int_exponent (ex : sexpr) (rest : list sexpr) : Prop :=
  match ex with
  | Atom (Rat q) => Qden (this q) = 1%positive /\ rest = []
  | Atom (Flt _) => False
  | _ => True
  end.
Definition int_powers (base : atom) (e : sexpr) : Prop :=
  forall ex r, subterm (App FPow (Atom base :: ex :: r)) e -> int_exponent ex r.
Definition fits {V} (cst : Qc -> V) (rho : string -> V) (d : dict Qc) : Prop := forall s q, In (s, q) d -> rho s = cst q.

(** ** Names *)
Definition nonneg (q : Qc) : Prop := (0 <= Qnum (this q))%Z.
Definition name_for (prefix : string) (q : Qc) : string :=
  if qeqb q minus_one then negone_name prefix else rat_name prefix q.

Lemma str_of_Z_nonneg : forall z, (0 <= z)%Z -> str_of_Z z = str_of_nat (Z.to_nat z).
Proof. intros [|p|p] H; cbn [str_of_Z Z.to_nat]; auto. now contradict H. Qed.
Lemma Qc_eq : forall a b : Qc, Qnum (this a) = Qnum (this b) -> Qden (this a) = Qden (this b) -> a = b.
Proof.
  intros a b Hn Hd. apply Qc_is_canon. unfold Qeq. now rewrite Hn, Hd.
Qed.
Lemma not_minus_one : forall q, nonneg q -> q <> minus_one.
Proof. intros q H ->. unfold nonneg in H. cbn in H. lia. Qed.

Lemma rat_name_inj : forall prefix a b, nonneg a -> nonneg b -> rat_name prefix a = rat_name prefix b -> a = b.
Proof.
  intros prefix a b Ha Hb H. unfold rat_name in H.
  destruct (Pos.eqb_spec (Qden (this a)) 1) as [Ea|Ea], (Pos.eqb_spec (Qden (this b)) 1) as [Eb|Eb];
    apply sapp_inj_l in H; try discriminate.
  - apply sapp_inj_l, str_of_Z_inj in H. apply Qc_eq; congruence.
  - apply sapp_inj_l in H. rewrite !(str_of_Z_nonneg (Qnum _)) in H by assumption.
    apply digits_cut in H; try reflexivity. destruct H as [H1 H2].
    apply (sapp_inj_l "_"), str_of_Z_inj in H2. injection H2 as H2. apply Qc_eq; auto.
    apply Z2Nat.inj; auto.
Qed.
Lemma rat_name_negone : forall prefix a, rat_name prefix a <> negone_name prefix.
Proof. intros prefix a H. unfold rat_name, negone_name in H. destruct (Pos.eqb _ 1); apply sapp_inj_l in H; discriminate. Qed.
Definition listed (q : Qc) : Prop := q = minus_one \/ nonneg q.
Lemma name_for_inj : forall prefix a b, listed a -> listed b -> name_for prefix a = name_for prefix b -> a = b.
Proof.
  intros prefix a b Ha Hb H. unfold name_for in H.
  destruct (qeqb a minus_one) eqn:Ea, (qeqb b minus_one) eqn:Eb.
  - apply qeqb_eq in Ea, Eb. congruence.
  - exfalso. exact (rat_name_negone _ _ (eq_sym H)).
  - exfalso. exact (rat_name_negone _ _ H).
  - apply qeqb_neq in Ea, Eb. destruct Ha, Hb; try contradiction. eapply rat_name_inj; eauto.
Qed.
Lemma one_name_for : forall prefix, name_for prefix 1%Qc = one_name prefix.
Proof. reflexivity. Qed.

(** ** The table *)
Definition table_ok (prefix : string) (d : dict Qc) : Prop :=
  NoDup (dkeys d) /\ forall s q, In (s, q) d -> listed q /\ s = name_for prefix q.
Lemma find_rat_in : forall q d s, find_rat q d = Some s -> In (s, q) d.
Proof.
  intros q d; induction d as [|[s r] d IH]; intros t H; cbn in H; [discriminate|].
  destruct (qeqb r q) eqn:E; [|cbn; auto]. injection H as <-. apply qeqb_eq in E. subst. cbn; auto.
Qed.
Lemma find_rat_none : forall q d, find_rat q d = None -> forall s, ~ In (s, q) d.
Proof.
  intros q d; induction d as [|[s r] d IH]; intros H t; cbn in *; [tauto|].
  destruct (qeqb r q) eqn:E; [discriminate|]. intros [K|K]; [|exact (IH H t K)].
  injection K as -> ->. rewrite (proj2 (qeqb_eq q q) eq_refl) in E. discriminate.
Qed.
Lemma dset_new : forall (d : dict Qc) k v, ~ In k (dkeys d) -> dset k v d = d ++ [(k, v)].
Proof.
  induction d as [|[s r] d IH]; intros k v H; cbn; auto. cbn in H.
  destruct (String.eqb_spec k s); [subst; tauto|]. now rewrite IH by tauto.
Qed.
Lemma register_spec : forall prefix q d, table_ok prefix d -> listed q -> forall d' e,
  sym_of_rat (name_for prefix q) q d = (d', e) ->
  e = Atom (Sym (name_for prefix q)) /\ table_ok prefix d' /\ incl d d' /\ In (name_for prefix q, q) d'.
Proof.
  intros prefix q d [T1 T2] L d' e H. unfold sym_of_rat in H. destruct (find_rat q d) as [s|] eqn:E.
  - injection H as <- <-. apply find_rat_in in E. destruct (T2 _ _ E) as [_ ->].
    split; auto. split; [split; auto|]. split; auto. intros x; auto.
  - injection H as <- <-.
    assert (N : ~ In (name_for prefix q) (dkeys d)).
    { intros K. apply in_map_iff in K. destruct K as ([s r] & K1 & K2). cbn in K1. subst s.
      destruct (T2 _ _ K2) as [L' K]. apply name_for_inj in K; auto. subst r. exact (find_rat_none _ _ E _ K2). }
    split; auto. rewrite dset_new by exact N. split; [split|split].
    + rewrite <- (dset_new d _ q N). apply NoDup_dset. exact T1.
    + intros s r K. apply in_app_or in K. destruct K as [K|[K|[]]]; auto. injection K as <- <-. auto.
    + intros x K. apply in_or_app; auto.
    + apply in_or_app. cbn; auto.
Qed.

Lemma fits_incl : forall V (cst : Qc -> V) rho d d', incl d d' -> fits cst rho d' -> fits cst rho d.
Proof. intros V cst rho d d' H F s q K. apply F, H, K. Qed.
Lemma in_dkeys : forall (d : dict Qc) s q, In (s, q) d -> In s (dkeys d).
Proof. intros d s q H. apply in_map_iff. exists (s, q); auto. Qed.
Lemma dkeys_incl : forall d d' : dict Qc, incl d d' -> incl (dkeys d) (dkeys d').
Proof. intros d d' H s K. apply in_map_iff in K. destruct K as ([t q] & <- & K). eapply in_dkeys. apply H, K. Qed.

Section Facts.
Variables (V : Type) (cst flt : Qc -> V) (app : fname -> list V -> V).
Local Notation ev := (ev V cst flt app).
Hypothesis law_neg : forall q, app FMul [cst minus_one; cst q] = cst (- q)%Qc.
Hypothesis law_pow : forall q, Qden (this q) = 1%positive ->
  app FPow [cst minus_one; cst q] = cst (if Z.even (Qnum (this q)) then 1%Qc else minus_one).

(** ** Numbers become symbols *)
Section Numbers.
Variables (prefix : string) (declare : bool).
Definition pre_ok (d : dict Qc) (e : sexpr) (d' : dict Qc) (e' : sexpr) : Prop :=
  table_ok prefix d' /\ incl d d' /\
  (forall rho, fits cst rho d' -> ev rho e' = ev rho e) /\
  (forall t, In t (symbols e') -> In t (symbols e) \/ In t (dkeys d')) /\
  (~ In (negone_name prefix) (symbols e) -> int_powers (Rat minus_one) e -> int_powers (Sym (negone_name prefix)) e').

Lemma neg1_spec : forall d d' e, table_ok prefix d -> neg1_node prefix declare d = (d', e) ->
  table_ok prefix d' /\ incl d d' /\ (forall rho, fits cst rho d' -> ev rho e = cst minus_one) /\
  (forall t, In t (symbols e) -> In t (dkeys d')) /\ (exists a, e = Atom a).
Proof.
  intros d d' e T H. unfold neg1_node in H. destruct declare.
  - change (negone_name prefix) with (name_for prefix minus_one) in H.
    destruct (register_spec prefix minus_one d T (or_introl eq_refl) d' e H) as (-> & T' & I & K).
    split; auto. split; auto. split; [|split; [|eauto]].
    + intros rho F. cbn [CseFacts.ev]. apply F. exact K.
    + intros t [<-|[]]. eapply in_dkeys; eauto.
  - injection H as <- <-. split; auto. split; [intros x; auto|]. split; [reflexivity|]. split; [intros t []|eauto].
Qed.
Lemma int_powers_atom : forall b a, int_powers b (Atom a).
Proof. intros b a ex r H. inversion H. Qed.
Lemma qneg_spec : forall q, qneg q = false -> nonneg q.
Proof. intros q H. unfold qneg in H. unfold nonneg. apply Z.ltb_ge in H. exact H. Qed.
Lemma qneg_opp : forall q, qneg q = true -> nonneg (- q)%Qc.
Proof.
  intros q H. unfold qneg in H. unfold nonneg. apply Z.ltb_lt in H. destruct q as [[n d] c]. cbn in *.
  unfold Qred in *. cbn [Qopp Qnum Qden] in *.
  destruct (Z.ggcd (- n) (Z.pos d)) as [g [aa bb]] eqn:E. cbn [Qnum fst snd].
  assert (X := Z.ggcd_correct_divisors (- n) (Z.pos d)). rewrite E in X. destruct X as [X1 X2].
  assert (Y := Z.ggcd_gcd (- n) (Z.pos d)). rewrite E in Y. cbn in Y.
  assert (0 <= g)%Z by (subst g; apply Z.gcd_nonneg). nia.
Qed.

Lemma pre_atom_spec : forall parent d q d' e', table_ok prefix d -> pre_atom prefix declare parent d q = (d', e') ->
  pre_ok d (Atom (Rat q)) d' e' /\
  (parent = Some FPow -> e' = Atom (Rat q) \/ (q = minus_one /\ e' = Atom (Sym (negone_name prefix)))).
Proof.
  intros parent d q d' e' T H. unfold pre_atom in H.
  destruct (qeqb q minus_one) eqn:E1.
  - apply qeqb_eq in E1. subst q. split.
    + destruct (neg1_spec d d' e' T H) as (T' & I & F & S & a & ->). split; auto. split; auto.
      split; [intros rho R; rewrite F; auto|]. split; [auto|]. intros _ _. apply int_powers_atom.
    + intros _. unfold neg1_node in H. destruct declare; [right|left; congruence]. split; auto.
      change (negone_name prefix) with (name_for prefix minus_one) in H.
      destruct (register_spec prefix minus_one d T (or_introl eq_refl) d' e' H) as (-> & _). reflexivity.
  - assert (E1' := E1). apply qeqb_neq in E1. assert (K : forall d0, table_ok prefix d0 -> pre_ok d0 (Atom (Rat q)) d0 (Atom (Rat q))).
    { intros d0 T0. split; auto. split; [intros x; auto|]. split; [reflexivity|]. split; [auto|]. intros _ _. apply int_powers_atom. }
    assert (M : forall d' e', (if qneg q then
                let '(d1, s) := sym_of_rat (rat_name prefix (- q)) (- q)%Qc d in
                let '(d2, m) := neg1_node prefix declare d1 in (d2, App FMul [m; s])
              else sym_of_rat (rat_name prefix q) q d) = (d', e') -> pre_ok d (Atom (Rat q)) d' e').
    { clear d' e' H. intros d' e' H. destruct (qneg q) eqn:E2.
      - assert (N := qneg_opp q E2). assert (X : rat_name prefix (- q)%Qc = name_for prefix (- q)%Qc).
        { unfold name_for. rewrite (proj2 (qeqb_neq _ _) (not_minus_one _ N)). reflexivity. }
        rewrite X in H. destruct (sym_of_rat _ _ d) as [d1 s] eqn:E3.
        destruct (register_spec prefix _ d T (or_intror N) d1 s E3) as (-> & T1 & I1 & K1).
        destruct (neg1_node prefix declare d1) as [d2 m] eqn:E4. injection H as <- <-.
        destruct (neg1_spec d1 d2 m T1 E4) as (T2 & I2 & F2 & S2 & a & ->).
        split; auto. split; [intros x Hx; auto|]. split; [|split].
        + intros rho F. cbn [CseFacts.ev map]. rewrite (F2 rho F) || idtac.
          change (app FMul [ev rho (Atom a); rho (name_for prefix (- q)%Qc)] = cst q).
          rewrite (F2 rho F), (F _ _ (I2 _ K1)), law_neg. f_equal. ring.
        + intros t Ht. right. cbn [symbols flat_map] in Ht. rewrite app_nil_r in Ht. apply in_app_or in Ht.
          destruct Ht as [Ht|[<-|[]]]; [exact (S2 t Ht)|]. eapply in_dkeys. apply I2. exact K1.
        + intros _ _ ex r Hs. inversion Hs as [|f l x Hx Hs']; subst.
          destruct Hx as [<-|[<-|[]]]; inversion Hs'.
      - assert (N := qneg_spec q E2). assert (X : rat_name prefix q = name_for prefix q).
        { unfold name_for. rewrite E1'. reflexivity. }
        rewrite X in H. destruct (register_spec prefix _ d T (or_intror N) d' e' H) as (-> & T1 & I1 & K1).
        split; auto. split; auto. split; [|split].
        + intros rho F. cbn [CseFacts.ev]. apply F. exact K1.
        + intros t [<-|[]]. right. eapply in_dkeys; eauto.
        + intros _ _. apply int_powers_atom. }
    destruct parent as [[]|]; try (split; [apply M; exact H|discriminate]).
    injection H as <- <-. split; auto.
Qed.

Definition pre_list (parent : fname) : dict Qc -> list sexpr -> dict Qc * list sexpr :=
  fix go (d : dict Qc) (l : list sexpr) : dict Qc * list sexpr :=
    match l with
    | [] => (d, [])
    | x :: r => let '(d1, x') := pre_rat prefix declare (Some parent) d x in
                let '(d2, r') := go d1 r in (d2, x' :: r')
    end.
(** Shape of the image of an argument of a power. *)
Definition same_shape (e e' : sexpr) : Prop :=
  match e with
  | Atom (Rat q) => e' = Atom (Rat q) \/ (q = minus_one /\ e' = Atom (Sym (negone_name prefix)))
  | Atom a => e' = Atom a
  | App f l => exists l', e' = App f l'
  end.
Lemma pre_list_spec : forall f l, Forall (fun e => forall parent d d' e', table_ok prefix d ->
    pre_rat prefix declare parent d e = (d', e') -> pre_ok d e d' e' /\ (parent = Some FPow -> same_shape e e')) l ->
  forall d d' l', table_ok prefix d -> pre_list f d l = (d', l') ->
  table_ok prefix d' /\ incl d d' /\ (forall rho, fits cst rho d' -> map (ev rho) l' = map (ev rho) l) /\
  (forall t, In t (flat_map symbols l') -> In t (flat_map symbols l) \/ In t (dkeys d')) /\
  Forall2 (fun x x' => (~ In (negone_name prefix) (symbols x) -> int_powers (Rat minus_one) x -> int_powers (Sym (negone_name prefix)) x')
                       /\ (f = FPow -> same_shape x x')) l l'.
Proof.
  intros f l H; induction H as [|x l Hx Hl IH]; intros d d' l' T E; cbn [pre_list] in E.
  - injection E as <- <-. split; auto. split; [intros y; auto|]. split; auto.
  - destruct (pre_rat prefix declare (Some f) d x) as [d1 x'] eqn:E1. fold (pre_list f) in E.
    destruct (pre_list f d1 l) as [d2 r'] eqn:E2. injection E as <- <-.
    destruct (Hx _ _ _ _ T E1) as [(T1 & I1 & F1 & S1 & P1) Sh]. destruct (IH _ _ _ T1 E2) as (T2 & I2 & F2 & S2 & P2).
    split; auto. split; [intros y Hy; auto|]. split; [|split].
    + intros rho F. cbn [map]. rewrite (F2 rho F), (F1 rho); auto. eapply fits_incl; eauto.
    + intros t Ht. cbn [flat_map] in *. apply in_app_or in Ht. rewrite in_app_iff. destruct Ht as [Ht|Ht].
      * destruct (S1 t Ht); auto. right. eapply dkeys_incl; eauto.
      * destruct (S2 t Ht); auto.
    + constructor; auto. split; auto. intros ->. auto.
Qed.
Lemma pre_rat_app : forall parent d f l, pre_rat prefix declare parent d (App f l) =
  (let '(d', l') := pre_list f d l in (d', App f l')).
Proof. reflexivity. Qed.

Lemma int_powers_app : forall b f l, int_powers b (App f l) ->
  (forall x, In x l -> int_powers b x) /\
  (forall ex r, f = FPow -> l = Atom b :: ex :: r -> int_exponent ex r).
Proof.
  intros b f l H. split.
  - intros x Hx ex r Hs. apply (H ex r). eapply sub_arg; eauto.
  - intros ex r -> ->. apply (H ex r). constructor.
Qed.
Lemma int_powers_build : forall b f l, (forall x, In x l -> int_powers b x) ->
  (forall ex r, f = FPow -> l = Atom b :: ex :: r -> int_exponent ex r) -> int_powers b (App f l).
Proof.
  intros b f l H1 H2 ex r Hs. apply subterm_app in Hs. destruct Hs as [Hs|(x & Hx & Hs)].
  - injection Hs as <- <-. auto.
  - exact (H1 x Hx ex r Hs).
Qed.

Lemma pre_rat_spec : forall e parent d d' e', table_ok prefix d -> pre_rat prefix declare parent d e = (d', e') ->
  pre_ok d e d' e' /\ (parent = Some FPow -> same_shape e e').
Proof.
  intros e; induction e as [[s|q|q]|f l IH] using expr_ind2; intros parent d d' e' T H.
  - cbn in H. injection H as <- <-. split; [|reflexivity]. split; auto. split; [intros x; auto|]. split; [reflexivity|].
    split; [auto|]. intros _ _. apply int_powers_atom.
  - cbn [pre_rat] in H. destruct (pre_atom_spec parent d q d' e' T H) as [H1 H2]. split; auto.
  - cbn in H. injection H as <- <-. split; [|reflexivity]. split; auto. split; [intros x; auto|]. split; [reflexivity|].
    split; [auto|]. intros _ _. apply int_powers_atom.
  - rewrite pre_rat_app in H. destruct (pre_list f d l) as [d1 l'] eqn:E. injection H as <- <-.
    destruct (pre_list_spec f l IH d d1 l' T E) as (T1 & I1 & F1 & S1 & P1).
    split; [|intros _; exists l'; reflexivity].
    split; auto. split; auto. split; [|split].
    + intros rho F. cbn [CseFacts.ev]. f_equal. auto.
    + cbn [symbols]. exact S1.
    + intros N P. apply int_powers_app in P. destruct P as [Pl Pr]. apply int_powers_build.
      * clear -P1 Pl N. cbn [symbols] in N. induction P1 as [|x x' l l' [Hx _] Hl IHl]; [intros ? []|].
        cbn [flat_map] in N. rewrite in_app_iff in N.
        intros y [<-|Hy]; [apply Hx; [tauto|apply Pl; cbn; auto]|]. apply IHl; auto. intros; apply Pl; cbn; auto.
      * intros ex r -> ->. inversion P1 as [|b b' l1 l1' [_ Hb] H1]; subst. inversion H1 as [|x x' l2 l2' [_ Hx] H2]; subst.
        specialize (Hb eq_refl). specialize (Hx eq_refl).
        destruct b as [[s|q|q]|g m]; cbn [same_shape] in Hb.
        -- injection Hb as <-. exfalso. apply N. cbn; auto.
        -- destruct Hb as [Hb|[-> _]]; [discriminate|]. specialize (Pr x l2 eq_refl eq_refl).
           destruct x as [[s|q|q]|g m]; cbn [same_shape] in Hx; cbn [int_exponent] in Pr.
           ++ subst ex. exact Logic.I.
           ++ destruct Pr as [Pr ->]. inversion H2; subst. destruct Hx as [->|[_ ->]]; cbn; auto.
           ++ destruct Pr.
           ++ destruct Hx as (m' & ->). exact Logic.I.
        -- discriminate.
        -- destruct Hb as (m' & Hb). discriminate.
Qed.
End Numbers.

(** ** Collecting *)
Section CollectFacts.
Variable collect : list string -> sexpr -> sexpr.
Hypothesis collect_value : forall vs e rho, ev rho (collect vs e) = ev rho e.
Hypothesis collect_symbols : forall vs e t, In t (symbols (collect vs e)) -> In t (symbols e).
Hypothesis collect_powers : forall vs e s, int_powers (Sym s) e -> int_powers (Sym s) (collect vs e).

(** What a step keeps. *)
Definition keeps (c : sexpr -> sexpr) : Prop := forall e,
  (forall rho, ev rho (c e) = ev rho e) /\ (forall t, In t (symbols (c e)) -> In t (symbols e)) /\
  (forall s, int_powers (Sym s) e -> int_powers (Sym s) (c e)).
Lemma keeps_collect : forall vs, keeps (collect vs).
Proof. intros vs e. split; [|split]; eauto. Qed.
Lemma keeps_each : forall vs, keeps (collect_each collect vs).
Proof.
  intros vs; induction vs as [|v vs IH]; intros e; unfold collect_each; cbn [fold_left]; [auto|].
  fold (collect_each collect vs (if existsb (String.eqb v) (symbols e) then collect [v] e else e)).
  destruct (IH (if existsb (String.eqb v) (symbols e) then collect [v] e else e)) as (A & B & C).
  destruct (existsb (String.eqb v) (symbols e)); [|auto]. split; [|split].
  - intros rho. rewrite A. auto.
  - intros t Ht. apply (collect_symbols [v]). auto.
  - intros s Hs. apply C. auto.
Qed.
Lemma rule_collect_app : forall c f l, exists l', rule_collect c (App f l) = App f l' /\ (f = FPow -> l' = l).
Proof. intros c f l. destruct f; try (eexists; split; [reflexivity|auto; fail]); destruct l; eexists; split; try reflexivity; discriminate. Qed.
Lemma keeps_rule : forall c, keeps c -> keeps (rule_collect c).
Proof.
  intros c K e.
  assert (X : forall f x r, f <> FPow -> (forall rho, ev rho (App f (c x :: r)) = ev rho (App f (x :: r))) /\
     (forall t, In t (symbols (App f (c x :: r))) -> In t (symbols (App f (x :: r)))) /\
     (forall s, int_powers (Sym s) (App f (x :: r)) -> int_powers (Sym s) (App f (c x :: r)))).
  { intros f x r Nf. destruct (K x) as (A & B & C). split; [|split].
    - intros rho. cbn [CseFacts.ev map]. now rewrite A.
    - intros t Ht. cbn [symbols flat_map] in *. apply in_app_or in Ht. apply in_or_app. destruct Ht; auto.
    - intros s P. apply int_powers_app in P. destruct P as [P _]. apply int_powers_build; [|intros; congruence].
      intros y [<-|Hy]; [apply C|]; apply P; cbn; auto. }
  destruct e as [a|f [|x r]]; [cbn; auto|destruct f; cbn; auto|].
  destruct f; cbn [rule_collect]; try (split; [|split]; auto; fail); apply X; discriminate.
Qed.
Lemma topdown_atom : forall c n e a, topdown n (rule_collect c) e = Atom a -> e = Atom a.
Proof.
  intros c [|n] e a H; cbn [topdown] in H; auto.
  destruct e as [b|f l]; [exact H|]. destruct (rule_collect_app c f l) as (l' & E & _). rewrite E in H. discriminate.
Qed.
Lemma keeps_topdown : forall c, keeps c -> forall n, keeps (topdown n (rule_collect c)).
Proof.
  intros c K n; induction n as [|n IH]; intros e; cbn [topdown]; [auto|].
  assert (R := keeps_rule c K e). destruct e as [a|f l]; [cbn; auto|].
  destruct (rule_collect_app c f l) as (l' & E & EP). rewrite E in *. destruct R as (A & B & C). split; [|split].
  - intros rho. rewrite <- A. cbn [CseFacts.ev]. f_equal. rewrite map_map. apply map_ext. intros x. apply IH.
  - intros t Ht. apply B. cbn [symbols] in *. apply in_flat_map in Ht. destruct Ht as (y & Hy & Ht).
    apply in_map_iff in Hy. destruct Hy as (x & <- & Hx). apply in_flat_map. exists x. split; auto. apply IH; auto.
  - intros s P. specialize (C s P). apply int_powers_app in C. destruct C as [Cl Cr]. apply int_powers_build.
    + intros y Hy. apply in_map_iff in Hy. destruct Hy as (x & <- & Hx). apply IH. auto.
    + intros ex r -> Hl. destruct l' as [|b [|x r0]]; try discriminate. cbn [map] in Hl. injection Hl as Hb Hx Hr.
      apply topdown_atom in Hb. subst b. specialize (Cr x r0 eq_refl eq_refl).
      destruct ex as [a|]; [|exact Logic.I]. apply topdown_atom in Hx. subst x.
      destruct a; cbn [int_exponent] in *; auto. destruct Cr as [Cr ->]. auto.
Qed.

(** ** Powers of -1 and remaining ones *)
Definition neg1_list (prefix : string) : list sexpr -> py (list sexpr) :=
  fix go (l : list sexpr) : py (list sexpr) :=
    match l with
    | [] => Ok []
    | x :: r => py_bind (neg1_powers prefix x) (fun x' => py_bind (go r) (fun r' => Ok (x' :: r')))
    end.
Lemma neg1_powers_app : forall prefix f l, neg1_powers prefix (App f l) =
  match neg1_exponent prefix f l with
  | Some ex => parity_node prefix ex
  | None => py_bind (neg1_list prefix l) (fun l' => Ok (App f l'))
  end.
Proof. reflexivity. Qed.
Lemma neg1_exponent_spec : forall prefix f l ex, neg1_exponent prefix f l = Some ex ->
  f = FPow /\ exists r, l = Atom (Sym (negone_name prefix)) :: ex :: r.
Proof.
  intros prefix f l ex H. destruct f; try discriminate. destruct l as [|[[s| |]|] [|x r]]; try discriminate. cbn in H.
  destruct (String.eqb_spec s (negone_name prefix)); [|discriminate]. injection H as ->. subst. eauto.
Qed.
Lemma neg1_powers_spec : forall prefix e e', neg1_powers prefix e = Ok e' ->
  (forall rho, (In (negone_name prefix) (symbols e) -> rho (negone_name prefix) = cst minus_one) ->
     rho (one_name prefix) = cst 1%Qc -> int_powers (Sym (negone_name prefix)) e -> ev rho e' = ev rho e) /\
  (forall t, In t (symbols e') -> In t (symbols e) \/ t = one_name prefix).
Proof.
  intros prefix e; induction e as [a|f l IH] using expr_ind2; intros e' H.
  - cbn in H. injection H as <-. auto.
  - rewrite neg1_powers_app in H. destruct (neg1_exponent prefix f l) as [ex|] eqn:E.
    + destruct (neg1_exponent_spec _ _ _ _ E) as (-> & r & ->). clear E IH. split.
      * intros rho Rn R1 P. assert (X := P ex r (sub_refl _)). specialize (Rn (or_introl eq_refl)).
        destruct ex as [[s|q|q]|]; cbn in H; try discriminate; [|destruct X].
        destruct X as [Dq ->]. injection H as <-. cbn [CseFacts.ev map]. rewrite Rn, law_pow by exact Dq.
        rewrite Dq, Z.quot_1_r. destruct (Z.even (Qnum (this q))); auto.
      * intros t Ht. destruct ex as [[s|q|q]|]; cbn in H; try discriminate; injection H as <-; cbn in Ht;
          destruct Ht as [<-|[]]; destruct (Z.even _); auto; left; cbn; auto.
    + clear E. destruct (neg1_list prefix l) as [l'|x] eqn:E; cbn in H; [|discriminate]. injection H as <-.
      revert l' E. assert (G : forall l', neg1_list prefix l = Ok l' ->
        (forall rho, (In (negone_name prefix) (flat_map symbols l) -> rho (negone_name prefix) = cst minus_one) ->
          rho (one_name prefix) = cst 1%Qc -> (forall x, In x l -> int_powers (Sym (negone_name prefix)) x) ->
          map (ev rho) l' = map (ev rho) l) /\
        (forall t, In t (flat_map symbols l') -> In t (flat_map symbols l) \/ t = one_name prefix)).
      { induction IH as [|x l Hx Hl IHl]; intros l' E; cbn [neg1_list] in E; [injection E as <-; cbn; auto|].
        destruct (neg1_powers prefix x) as [x'|] eqn:Ex; cbn [py_bind] in E; [|discriminate]. fold (neg1_list prefix) in E.
        destruct (neg1_list prefix l) as [r'|] eqn:Er; cbn [py_bind] in E; [|discriminate]. injection E as <-.
        destruct (Hx x' eq_refl) as [V1 S1]. destruct (IHl r' eq_refl) as [V2 S2]. split.
        - intros rho Rn R1 P. cbn [map flat_map] in *. rewrite V1, V2; auto; intros; try apply Rn; try apply in_or_app; auto;
            apply P; cbn; auto.
        - intros t Ht. cbn [flat_map] in *. apply in_app_or in Ht. rewrite in_app_iff.
          destruct Ht as [Ht|Ht]; [destruct (S1 t Ht)|destruct (S2 t Ht)]; auto. }
      intros l' E. destruct (G l' E) as [Gv Gs]. split; [|exact Gs].
      intros rho Rn R1 P. cbn [CseFacts.ev symbols] in *. f_equal. apply Gv; auto.
      apply int_powers_app in P. tauto.
Qed.
Lemma replace_ones_value : forall prefix rho e, rho (one_name prefix) = cst 1%Qc -> ev rho (replace_ones prefix e) = ev rho e.
Proof.
  intros prefix rho e H; induction e as [[s|q|q]|f l IH] using expr_ind2; cbn [replace_ones]; auto.
  - destruct (qeqb q 1) eqn:E; auto. apply qeqb_eq in E. subst. exact H.
  - cbn [CseFacts.ev]. f_equal. rewrite map_map. apply map_ext_in. rewrite Forall_forall in IH. auto.
Qed.
Lemma replace_ones_symbols : forall prefix e t, In t (symbols (replace_ones prefix e)) -> In t (symbols e) \/ t = one_name prefix.
Proof.
  intros prefix e t; induction e as [[s|q|q]|f l IH] using expr_ind2; cbn [replace_ones]; auto.
  - destruct (qeqb q 1); auto. intros [<-|[]]; auto.
  - cbn [symbols]. intros H. apply in_flat_map in H. destruct H as (y & Hy & Ht). apply in_map_iff in Hy.
    destruct Hy as (x & <- & Hx). rewrite Forall_forall in IH. destruct (IH x Hx Ht); auto. left. apply in_flat_map; eauto.
Qed.

(** ** One expression *)
Lemma preprocess1_spec : forall fuel prefix declare factor negative d e d' e', table_ok prefix d ->
  preprocess1 collect fuel prefix declare factor negative d e = Ok (d', e') ->
  table_ok prefix d' /\ incl d d' /\
  (forall t, In t (symbols e') -> In t (symbols e) \/ In t (dkeys d') \/ (declare = true /\ t = one_name prefix)) /\
  ((declare = true -> ~ In (negone_name prefix) (symbols e) /\ int_powers (Rat minus_one) e) ->
   forall rho, fits cst rho d' ->
     (declare = true -> rho (one_name prefix) = cst 1%Qc) -> ev rho e' = ev rho e).
Proof.
  intros fuel prefix declare factor negative d e d' e' T H. unfold preprocess1 in H.
  destruct (pre_rat prefix declare None d e) as [d1 e1] eqn:E1.
  destruct (pre_rat_spec prefix declare e None d d1 e1 T E1) as [(T1 & I1 & F1 & S1 & P1) _].
  set (e2 := if factor then _ else e1) in H.
  assert (K2 : (forall rho, ev rho e2 = ev rho e1) /\ (forall t, In t (symbols e2) -> In t (symbols e1)) /\
     (forall s, int_powers (Sym s) e1 -> int_powers (Sym s) e2)).
  { unfold e2. destruct factor; [|auto]. cbn zeta.
    match goal with |- context [topdown fuel ?r e1] => set (e11 := topdown fuel r e1) end.
    assert (KT : (forall rho, ev rho e11 = ev rho e1) /\ (forall t, In t (symbols e11) -> In t (symbols e1)) /\
       (forall s, int_powers (Sym s) e1 -> int_powers (Sym s) e11)) by (apply keeps_topdown, keeps_each).
    destruct KT as (A & B & C). split; [|split].
    - intros rho. now rewrite collect_value.
    - intros t Ht. apply B. eapply collect_symbols; eauto.
    - intros s P. apply collect_powers. auto. }
  clearbody e2. destruct K2 as (V2 & S2 & P2).
  set (e3 := if negative then _ else e2) in H.
  assert (K3 : (forall rho, ev rho e3 = ev rho e2) /\ (forall t, In t (symbols e3) -> In t (symbols e2)) /\
     (forall s, int_powers (Sym s) e2 -> int_powers (Sym s) e3)).
  { unfold e3. destruct negative; [|auto].
    destruct (keeps_topdown (collect [negone_name prefix]) (keeps_collect _) fuel e2) as (A & B & C). split; [|split].
    - intros rho. now rewrite collect_value.
    - intros t Ht. apply B. eapply collect_symbols; eauto.
    - intros s P. apply collect_powers. auto. }
  clearbody e3. destruct K3 as (V3 & S3 & P3).
  destruct (if declare then neg1_powers prefix e3 else Ok e3) as [e4|] eqn:E4; cbn [py_bind] in H; [|discriminate].
  assert (Sone : rat_name prefix 1%Qc = one_name prefix) by reflexivity.
  assert (S4 : forall t, In t (symbols e4) -> In t (symbols e) \/ In t (dkeys d1) \/ (declare = true /\ t = one_name prefix)).
  { intros t Ht. assert (In t (symbols e3) \/ (declare = true /\ t = one_name prefix)) as [K|K]; auto.
    - destruct declare; [|injection E4 as <-; auto]. destruct (neg1_powers_spec prefix e3 e4 E4) as [_ X].
      destruct (X t Ht); auto.
    - apply S3, S2 in K. apply S1 in K. tauto. }
  assert (V4 : (declare = true -> ~ In (negone_name prefix) (symbols e) /\ int_powers (Rat minus_one) e) ->
    forall rho, fits cst rho d1 -> (declare = true -> rho (one_name prefix) = cst 1%Qc) -> ev rho e4 = ev rho e).
  { intros Hd rho F R1. assert (Y : ev rho e3 = ev rho e) by (rewrite V3, V2; auto).
    rewrite <- Y. destruct declare; [|injection E4 as <-; auto]. destruct (Hd eq_refl) as [N0 P0].
    destruct (neg1_powers_spec prefix e3 e4 E4) as [X _]. apply X; auto.
    intros K. apply S3, S2 in K. apply S1 in K. destruct K as [K|K]; [contradiction|].
    apply in_map_iff in K. destruct K as ([s q] & K1 & K2). cbn in K1. subst s.
    destruct T1 as [_ T1]. destruct (T1 _ _ K2) as [L K1].
    change (negone_name prefix) with (name_for prefix minus_one) in K1. apply name_for_inj in K1; auto; [|left; reflexivity].
    subst q. exact (F _ _ K2). }
  destruct (factor || negative).
  - cbn zeta in H. destruct (expr_eqb (replace_ones prefix e4) e4) eqn:E5; cbn [negb] in H.
    + injection H as <- <-. apply expr_eqb_eq in E5. rewrite E5. auto.
    + assert (L1 : listed 1%Qc) by (right; unfold nonneg; cbn; lia).
      destruct (sym_of_rat (name_for prefix 1%Qc) 1%Qc d1) as [d2 s] eqn:E6.
      destruct (register_spec prefix 1%Qc d1 T1 L1 d2 s E6) as (_ & T2 & I2 & K2).
      assert (X : d' = d2 /\ e' = replace_ones prefix e4).
      { unfold sym_of_rat in E6. destruct (find_rat 1%Qc d1); injection E6 as <- _; injection H as <- <-; auto. }
      destruct X as [-> ->]. split; auto. split; [intros x; auto|]. split.
      * intros t Ht. apply replace_ones_symbols in Ht. destruct Ht as [Ht|Ht].
        -- destruct (S4 t Ht) as [K|[K|K]]; auto. right. left. eapply dkeys_incl; eauto.
        -- right. left. subst t. eapply in_dkeys. exact K2.
      * intros Hd rho F R1. rewrite replace_ones_value by (apply F; exact K2). apply V4; auto. eapply fits_incl; eauto.
  - injection H as <- <-. auto.
Qed.

Lemma cse_preprocess_spec : forall fuel prefix declare factor negative es d d' es', table_ok prefix d ->
  cse_preprocess collect fuel prefix declare factor negative d es = Ok (d', es') ->
  table_ok prefix d' /\ incl d d' /\
  (forall e' t, In e' es' -> In t (symbols e') ->
     (exists e, In e es /\ In t (symbols e)) \/ In t (dkeys d') \/ (declare = true /\ t = one_name prefix)) /\
  ((declare = true -> forall e, In e es -> ~ In (negone_name prefix) (symbols e) /\ int_powers (Rat minus_one) e) ->
   forall rho, fits cst rho d' -> (declare = true -> rho (one_name prefix) = cst 1%Qc) ->
     map (ev rho) es' = map (ev rho) es).
Proof.
  intros fuel prefix declare factor negative es; induction es as [|e r IH]; intros d d' es' T H; cbn [cse_preprocess] in H.
  - injection H as <- <-. split; auto. split; [intros x; auto|]. split; [intros ? ? []|auto].
  - destruct (preprocess1 collect fuel prefix declare factor negative d e) as [[d1 e1]|] eqn:E1; cbn [py_bind] in H; [|discriminate].
    destruct (cse_preprocess collect fuel prefix declare factor negative d1 r) as [[d2 r2]|] eqn:E2; cbn [py_bind] in H; [|discriminate].
    injection H as <- <-.
    destruct (preprocess1_spec _ _ _ _ _ _ _ _ _ T E1) as (T1 & I1 & S1 & V1).
    destruct (IH _ _ _ T1 E2) as (T2 & I2 & S2 & V2).
    split; auto. split; [intros x; auto|]. split.
    + intros e' t [<-|He'] Ht.
      * destruct (S1 t Ht) as [K|[K|K]]; auto; [left; exists e; cbn; auto|]. right. left. eapply dkeys_incl; eauto.
      * destruct (S2 e' t He' Ht) as [(x & Hx & K)|[K|K]]; auto. left. exists x. cbn; auto.
    + intros Hd rho F R1. cbn [map]. rewrite V1, V2; auto.
      * intros D x Hx. apply Hd; cbn; auto.
      * intros D. apply Hd; cbn; auto.
      * eapply fits_incl; eauto.
Qed.
End CollectFacts.
End Facts.
