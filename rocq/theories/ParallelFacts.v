(** Specification and proofs for parallel code generation (model: Parallel.v). *)
From Coq Require Import String List Bool Arith Lia.
From Verif Require Import PyBase PyBaseFacts Parallel.
Import ListNotations.
Open Scope list_scope.

(** ** Specification: an environment as a map from names (paths, for the extras) to entries *)
Inductive key : Type := KParam (s : string) | KCode (s : string) | KFun (s : string) | KGf (s : string) | KExtra (p : list string).

Section Spec.
Variable V : Type.
Fixpoint tlook (t : tree V) (p : list string) : option V :=
  match p, t with
  | [], Leaf v => Some v
  | k :: r, Node d => match dget k d with Some t' => tlook t' r | None => None end
  | _, _ => None
  end.
Definition look (e : env V) (k : key) : option V :=
  match k with
  | KParam s => dget s (e_params e) | KCode s => dget s (e_code e) | KFun s => dget s (e_cfun e)
  | KGf s => dget s (e_gridfcs e) | KExtra p => tlook (Node (e_extras e)) p
  end.
(** [s] tells which paths of the extras hold objects (true) and which hold dictionaries (false). *)
Inductive shaped (s : list string -> bool) : list string -> tree V -> Prop :=
| sh_leaf : forall p v, s p = true -> shaped s p (Leaf v)
| sh_node : forall p d, s p = false -> NoDup (dkeys d) -> (forall k t, In (k, t) d -> shaped s (p ++ [k]) t) ->
    shaped s p (Node d).
Record env_ok (s : list string -> bool) (e : env V) : Prop := {
  ok_params : NoDup (dkeys (e_params e)); ok_code : NoDup (dkeys (e_code e)); ok_cfun : NoDup (dkeys (e_cfun e));
  ok_gf : NoDup (dkeys (e_gridfcs e)); ok_extras : shaped s [] (Node (e_extras e)) }.
(** What a call registers: [w] maps its names to the entries; [x] tells which names it refuses to find taken. *)
Definition admits (e : env V) (w : key -> option V) (x : key -> bool) : Prop :=
  forall k v, w k = Some v -> look e k = None \/ (x k = false /\ look e k = Some v).
Definition registers (s : list string -> bool) (f : task V) (w : key -> option V) (x : key -> bool) : Prop :=
  forall e, env_ok s e -> admits e w x ->
  exists e', f e = Ok e' /\ env_ok s e' /\ forall k, look e' k = match w k with Some v => Some v | None => look e k end.
End Spec.
Arguments tlook {V}. Arguments look {V}. Arguments shaped {V}. Arguments env_ok {V}. Arguments admits {V}. Arguments registers {V}.

(** ** deep_update *)
Section Tree.
Variable V : Type.
Fixpoint tree_ind2 (P : tree V -> Prop) (HL : forall v, P (Leaf v))
    (HN : forall d, (forall k t, In (k, t) d -> P t) -> P (Node d)) (t : tree V) : P t :=
  match t with
  | Leaf v => HL v
  | Node d => HN d ((fix go (d : list (string * tree V)) : forall k t, In (k, t) d -> P t :=
      match d with
      | [] => fun k t H => match H with end
      | (k0, t0) :: r => fun k t H =>
          match H with
          | or_introl E => match E in _ = y return P (snd y) with eq_refl => tree_ind2 P HL HN t0 end
          | or_intror H' => go r k t H'
          end
      end) d)
  end.
Definition over (a b : option V) : option V := match a with Some v => Some v | None => b end.
Definition olook (o : option (tree V)) (q : list string) : option V := match o with Some t => tlook t q | None => None end.
Definition go_items : dict (tree V) -> list (string * tree V) -> py (dict (tree V)) :=
  fix go (d : dict (tree V)) (u : list (string * tree V)) : py (dict (tree V)) :=
    match u with
    | [] => Ok d
    | (k, w) :: r => py_bind (deep_value (dget k d) w) (fun w' => go (dset k w' d) r)
    end.
Lemma deep_value_node : forall (old : option (tree V)) u,
  deep_value old (Node u) = match old with
                            | Some (Leaf _) => Err TypeError
                            | _ => py_bind (go_items (match old with Some (Node x) => x | _ => [] end) u) (fun d => Ok (Node d))
                            end.
Proof. intros [[v|d]|] u; reflexivity. Qed.

Lemma in_dset : forall (d : dict (tree V)) k w k' t, In (k', t) (dset k w d) -> (k' = k /\ t = w) \/ In (k', t) d.
Proof.
  induction d as [|[a b] d IH]; intros k w k' t H; cbn in *.
  - destruct H as [H|[]]. injection H as <- <-. auto.
  - destruct (String.eqb_spec k a).
    + destruct H as [H|H]; [injection H as <- <-; auto|auto].
    + destruct H as [H|H]; [auto|]. apply IH in H. tauto.
Qed.
Lemma deep_value_spec : forall s (v : tree V) p old, shaped s p v -> (forall t, old = Some t -> shaped s p t) ->
  exists r, deep_value old v = Ok r /\ shaped s p r /\ forall q, tlook r q = over (tlook v q) (olook old q).
Proof.
  intros s v; induction v as [x|u IH] using tree_ind2; intros p old Hv Ho.
  - exists (Leaf x). split; [reflexivity|]. split; auto. intros q. inversion Hv; subst.
    destruct q as [|k q]; [reflexivity|]. destruct old as [t|]; [|reflexivity]. specialize (Ho t eq_refl).
    inversion Ho; subst; [reflexivity|congruence].
  - inversion Hv as [|? ? Hs Hn Hu]; subst.
    set (d0 := match old with Some (Node x) => x | _ => [] end).
    assert (Hd0 : NoDup (dkeys d0) /\ (forall k t, In (k, t) d0 -> shaped s (p ++ [k]) t) /\ (forall q, tlook (Node d0) q = olook old q)
                  /\ deep_value old (Node u) = py_bind (go_items d0 u) (fun d => Ok (Node d))).
    { rewrite deep_value_node. unfold d0. destruct old as [[y|d]|].
      - specialize (Ho _ eq_refl). inversion Ho; subst. congruence.
      - specialize (Ho _ eq_refl). inversion Ho; subst. auto.
      - split; [constructor|]. split; [intros ? ? []|]. split; [|reflexivity]. intros [|k q]; reflexivity. }
    clearbody d0. destruct Hd0 as (N0 & S0 & L0 & E0).
    assert (G : forall u d, (forall k t, In (k, t) u -> forall p old, shaped s p t -> (forall t', old = Some t' -> shaped s p t') ->
        exists r, deep_value old t = Ok r /\ shaped s p r /\ forall q, tlook r q = over (tlook t q) (olook old q)) ->
      NoDup (dkeys u) -> (forall k t, In (k, t) u -> shaped s (p ++ [k]) t) ->
      NoDup (dkeys d) -> (forall k t, In (k, t) d -> shaped s (p ++ [k]) t) ->
      exists r, go_items d u = Ok r /\ NoDup (dkeys r) /\ (forall k t, In (k, t) r -> shaped s (p ++ [k]) t) /\
        forall q, tlook (Node r) q = over (tlook (Node u) q) (tlook (Node d) q)).
    { clear. induction u as [|[k w] u IH]; intros d H Nu Su Nd Sd; cbn [go_items].
      - exists d. split; [reflexivity|]. split; auto. split; auto. intros [|k q]; reflexivity.
      - fold go_items. cbn [dkeys map fst] in Nu. inversion Nu as [|? ? Nk Nu']; subst.
        destruct (H k w (or_introl eq_refl) (p ++ [k]) (dget k d)) as (w' & Ew & Sw & Lw).
        + apply Su. cbn; auto.
        + intros t' E. apply dget_In in E. auto.
        + rewrite Ew. cbn [py_bind]. destruct (IH (dset k w' d)) as (r & Er & Nr & Sr & Lr); auto.
          * intros; eapply H; cbn; eauto.
          * intros; apply Su; cbn; auto.
          * now apply NoDup_dset.
          * intros k' t Hin. apply in_dset in Hin. destruct Hin as [[-> ->]|Hin]; auto.
          * exists r. split; auto. split; auto. split; auto. intros q. rewrite Lr. destruct q as [|k' q]; [reflexivity|].
            cbn [tlook dget]. destruct (String.eqb_spec k' k) as [->|Nk'].
            -- rewrite dget_dset_same. rewrite Lw.
               assert (E : dget k u = None) by (apply dget_None_keys; exact Nk). rewrite E. cbn [over].
               destruct (dget k d); reflexivity.
            -- rewrite dget_dset_other by auto. reflexivity. }
    destruct (G u d0 IH Hn Hu N0 S0) as (r & Er & Nr & Sr & Lr).
    exists (Node r). rewrite E0, Er. split; [reflexivity|]. split; [constructor; auto|]. intros q. rewrite Lr, L0. reflexivity.
Qed.
Lemma deep_update_spec : forall s (d u : dict (tree V)), shaped s [] (Node d) -> shaped s [] (Node u) ->
  exists r, deep_update d u = Ok r /\ shaped s [] (Node r) /\
    forall q, tlook (Node r) q = over (tlook (Node u) q) (tlook (Node d) q).
Proof.
  intros s d u Hd Hu. destruct (deep_value_spec s (Node u) [] (Some (Node d)) Hu) as (r & E & S & L).
  { intros t H. injection H as <-. exact Hd. }
  unfold deep_update. rewrite E.
  destruct r as [v|r]; [|exists r; auto].
  exfalso. inversion S; subst. inversion Hu; subst. congruence.
Qed.

Lemma unpack1_spec : forall s (a b : env V), env_ok s a -> env_ok s b ->
  exists r, unpack1 a b = Ok r /\ env_ok s r /\ forall k, look r k = over (look b k) (look a k).
Proof.
  intros s a b [A1 A2 A3 A4 A5] [B1 B2 B3 B4 B5]. unfold unpack1.
  destruct (deep_update_spec s _ _ A5 B5) as (x & E & Sx & Lx). rewrite E. cbn [py_bind].
  eexists. split; [reflexivity|]. split.
  - constructor; cbn [e_params e_code e_cfun e_gridfcs e_extras]; auto using NoDup_dupdate.
  - intros [k|k|k|k|p]; cbn [look e_params e_code e_cfun e_gridfcs e_extras]; try (rewrite dget_dupdate by assumption; reflexivity).
    apply Lx.
Qed.
End Tree.

(** ** The pool *)
Section Pool.
Variables (V : Type) (s : list string -> bool).
Variable calls : dict (task V).
Variable w : string -> key -> option V.
Variable x : string -> key -> bool.
Hypothesis calls_ok : forall t f, dget t calls = Some f -> registers s f (w t) (x t).
(** Different calls register different names, or the same entry under a name neither insists on. *)
Hypothesis different : forall t t' k v v', t <> t' -> In t (dkeys calls) -> In t' (dkeys calls) ->
  w t k = Some v -> w t' k = Some v' -> v = v' /\ x t k = false.
Variable base : env V.
Hypothesis base_ok : env_ok s base.
Hypothesis base_admits : forall t, In t (dkeys calls) -> admits base (w t) (x t).

(** The entries an environment may hold after the calls in [done]. *)
Definition sound (done : string -> Prop) (e : env V) : Prop :=
  forall k v, look e k = Some v -> look base k = Some v \/ exists t, done t /\ In t (dkeys calls) /\ w t k = Some v.
Definition keeps_base (e : env V) : Prop := forall k v, look base k = Some v -> look e k = Some v.
Definition holds (t : string) (e : env V) : Prop := forall k v, w t k = Some v -> look e k = Some v.

Lemma step_ok : forall done e t f, env_ok s e -> sound done e -> keeps_base e -> ~ done t -> dget t calls = Some f ->
  exists e', f e = Ok e' /\ env_ok s e' /\ sound (fun u => done u \/ u = t) e' /\ keeps_base e' /\ holds t e' /\
    (forall u, In u (dkeys calls) -> holds u e -> holds u e').
Proof.
  intros done e t f Oe Se Ke Nt Hf.
  assert (Ht : In t (dkeys calls)) by (eapply dget_Some_keys; eauto).
  destruct (calls_ok t f Hf e Oe) as (e' & E & Oe' & Le').
  - intros k v Hw. destruct (look e k) as [v'|] eqn:El; auto. right.
    destruct (Se k v' El) as [B|(t' & D & C & Hw')].
    + destruct (base_admits t Ht k v Hw) as [B'|[X B']]; [congruence|]. split; auto. congruence.
    + destruct (different t t' k v v') as [-> X]; auto. intros ->. contradiction.
  - exists e'. split; auto. split; auto.
    assert (KB : forall k v v', look e k = Some v -> w t k = Some v' -> v = v').
    { intros k v v' El Hw. destruct (Se k v El) as [B|(t' & D & C & Hw')].
      - destruct (base_admits t Ht k v' Hw) as [B'|[X B']]; congruence.
      - destruct (different t t' k v' v) as [-> X]; auto. intros ->. contradiction. }
    split; [|split; [|split]].
    + intros k v H. rewrite Le' in H. destruct (w t k) as [v'|] eqn:Ew.
      * injection H as ->. right. exists t. auto.
      * destruct (Se k v H) as [B|(t' & D & C & Hw')]; auto. right. exists t'. auto.
    + intros k v H. rewrite Le'. destruct (w t k) as [v'|] eqn:Ew; [|auto].
      f_equal. symmetry. eapply KB; [|exact Ew]. auto.
    + intros k v H. rewrite Le', H. reflexivity.
    + intros u Hu Hh k v H. specialize (Hh k v H). rewrite Le'. destruct (w t k) as [v'|] eqn:Ew; auto.
      f_equal. symmetry. eapply KB; eauto.
Qed.

Lemma sound_mono : forall (a b : string -> Prop) e, (forall t, a t -> b t) -> sound a e -> sound b e.
Proof. intros a b e H S k v L. destruct (S k v L) as [B|(t & A & C & Hw)]; auto. right. exists t. auto. Qed.

Lemma run_pool_ok : forall sched ws shared (done : string -> Prop),
  NoDup (map snd sched) -> (forall t, In t (map snd sched) -> In t (dkeys calls) /\ ~ done t) ->
  (forall i, env_ok s (ws i) /\ sound done (ws i) /\ keeps_base (ws i)) ->
  (forall t, In t (dkeys shared) -> done t) ->
  (forall t e, In (t, e) shared -> env_ok s e /\ sound (fun _ => True) e /\ holds t e) ->
  exists r, run_pool calls ws shared sched = Ok r /\
    (forall t e, In (t, e) r -> env_ok s e /\ sound (fun _ => True) e /\ holds t e) /\
    (forall t, In t (dkeys r) <-> In t (dkeys shared) \/ In t (map snd sched)).
Proof.
  induction sched as [|[i t] sched IH]; intros ws shared done Nd Hs Hw Hsh Hen; cbn [run_pool].
  - exists shared. split; auto. split; auto. intros t. cbn. tauto.
  - cbn [map snd] in Nd. inversion Nd as [|? ? Nt Nd']; subst.
    destruct (Hs t) as [Ct Dt]; [cbn; auto|].
    destruct (dget t calls) as [f|] eqn:Ef.
    2:{ apply dget_None_keys in Ef. contradiction. }
    destruct (Hw i) as (O1 & S1 & K1).
    destruct (step_ok done (ws i) t f O1 S1 K1 Dt Ef) as (e' & E & O2 & S2 & K2 & H2 & _).
    rewrite E.
    destruct (IH (set_worker ws i e') (dset t e' shared) (fun u => done u \/ u = t)) as (r & Er & P1 & P2); auto.
    + intros u Hu. destruct (Hs u) as [Cu Du]; [cbn; auto|]. split; auto. intros [K|K]; [auto|subst; contradiction].
    + intros j. unfold set_worker. destruct (Nat.eqb_spec j i) as [->|]; auto.
      destruct (Hw j) as (A & B & C). split; auto. split; auto. eapply sound_mono; [|exact B]. auto.
    + intros u Hu. apply in_map_iff in Hu. destruct Hu as ([u' e''] & <- & Hu). cbn.
      assert (X : In (u', e'') shared \/ u' = t).
      { clear -Hu. induction shared as [|[a b] shared IH]; cbn in *.
        - destruct Hu as [H|[]]. injection H as <- <-. auto.
        - destruct (String.eqb_spec t a); destruct Hu as [H|H]; try (injection H as <- <-); auto.
          destruct (IH H); auto. }
      destruct X as [X|X]; auto. left. apply Hsh. apply in_map_iff. exists (u', e''). auto.
    + intros u e Hu.
      assert (X : In (u, e) shared \/ (u = t /\ e = e')).
      { clear -Hu. induction shared as [|[a b] shared IH]; cbn in *.
        - destruct Hu as [H|[]]. injection H as <- <-. auto.
        - destruct (String.eqb_spec t a); destruct Hu as [H|H]; try (injection H as <- <-); auto.
          destruct (IH H); auto. }
      destruct X as [X|[-> ->]]; auto. split; auto. split; auto. eapply sound_mono; [|exact S2]. auto.
    + exists r. split; auto. split; auto. intros u. rewrite P2.
      assert (Y : In u (dkeys (dset t e' shared)) <-> In u (dkeys shared) \/ u = t).
      { clear. unfold dkeys. induction shared as [|[a b] shared IH]; cbn.
        - intuition.
        - destruct (String.eqb_spec t a); cbn; [subst; intuition|]. rewrite IH. intuition. }
      rewrite Y. cbn [map snd In]. intuition.
Qed.

Lemma unpack_ok : forall shared m, env_ok s m -> sound (fun _ => True) m -> keeps_base m ->
  (forall t e, In (t, e) shared -> env_ok s e /\ sound (fun _ => True) e /\ holds t e) ->
  (forall t, In t (dkeys shared) -> In t (dkeys calls)) ->
  exists r, unpack m shared = Ok r /\ env_ok s r /\ sound (fun _ => True) r /\ keeps_base r /\
    (forall t, In t (dkeys calls) -> holds t m \/ In t (dkeys shared) -> holds t r).
Proof.
  assert (Same : forall k v v', (look base k = Some v \/ exists t, True /\ In t (dkeys calls) /\ w t k = Some v) ->
     (look base k = Some v' \/ exists t, True /\ In t (dkeys calls) /\ w t k = Some v') -> v = v').
  { intros k v v' [B|(t & _ & C & Hw)] [B'|(t' & _ & C' & Hw')].
    - congruence.
    - destruct (base_admits t' C' k v' Hw') as [X|[_ X]]; congruence.
    - destruct (base_admits t C k v Hw) as [X|[_ X]]; congruence.
    - destruct (string_dec t t') as [->|N]; [congruence|]. eapply different; eauto. }
  induction shared as [|[t e] shared IH]; intros m Om Sm Km He Hc; cbn [unpack].
  - exists m. split; auto. split; auto. split; auto. split; auto. intros t _ [H|[]]; auto.
  - destruct (He t e) as (Oe & Se & Ht); [cbn; auto|].
    destruct (unpack1_spec V s m e Om Oe) as (r1 & E1 & O1 & L1). rewrite E1. cbn [py_bind].
    assert (Sr : sound (fun _ => True) r1).
    { intros k v H. rewrite L1 in H. unfold over in H. destruct (look e k) eqn:Ek; [injection H as ->|]; auto. }
    assert (Kr : forall k v, look m k = Some v -> look r1 k = Some v).
    { intros k v H. rewrite L1. destruct (look e k) as [v'|] eqn:Ek; auto. cbn [over]. f_equal.
      eapply Same; [apply (Se _ _ Ek)|apply (Sm _ _ H)]. }
    destruct (IH r1) as (r & Er & Or & Sr' & Kr' & Hr); auto.
    + intros k v H. apply Kr, Km, H.
    + intros; apply He; cbn; auto.
    + intros; apply Hc; cbn; auto.
    + exists r. split; auto. split; auto. split; auto. split; auto.
      intros u Cu [Hu|[Hu|Hu]]; apply Hr; auto.
      * left. intros k v H. apply Kr, Hu, H.
      * cbn in Hu. subst u. left. intros k v H. rewrite L1, (Ht k v H). reflexivity.
Qed.

(** One after another in the main process. *)
Fixpoint run_seq (m : env V) (order : list string) : py (env V) :=
  match order with
  | [] => Ok m
  | t :: r => match dget t calls with None => Err KeyError | Some f => py_bind (f m) (fun m' => run_seq m' r) end
  end.
Lemma run_seq_ok : forall order m (done : string -> Prop), NoDup order ->
  (forall t, In t order -> In t (dkeys calls) /\ ~ done t) -> env_ok s m -> sound done m -> keeps_base m ->
  (forall t, done t -> holds t m) -> (forall t, done t -> In t (dkeys calls)) ->
  exists r, run_seq m order = Ok r /\ env_ok s r /\ sound (fun _ => True) r /\ keeps_base r /\
    (forall t, done t \/ In t order -> holds t r).
Proof.
  induction order as [|t order IH]; intros m done Nd Ho Om Sm Km Hd Hdc; cbn [run_seq].
  - exists m. split; auto. split; auto. split; [eapply sound_mono; [|exact Sm]; auto|]. split; auto. intros t [H|[]]; auto.
  - inversion Nd as [|? ? Nt Nd']; subst. destruct (Ho t) as [Ct Dt]; [cbn; auto|].
    destruct (dget t calls) as [f|] eqn:Ef; [|apply dget_None_keys in Ef; contradiction].
    destruct (step_ok done m t f Om Sm Km Dt Ef) as (m' & E & O2 & S2 & K2 & H2 & H3). rewrite E. cbn [py_bind].
    destruct (IH m' (fun u => done u \/ u = t)) as (r & Er & A & B & C & D); auto.
    + intros u Hu. destruct (Ho u) as [Cu Du]; [cbn; auto|]. split; auto. intros [K|K]; [auto|subst; contradiction].
    + intros u [Hu| ->]; auto.
    + intros u [Hu| ->]; auto.
    + exists r. split; auto. split; auto. split; auto. split; auto. intros u [Hu|[Hu|Hu]]; apply D; auto.
Qed.

Lemma final_look : forall r (all : string -> Prop), sound (fun _ => True) r -> keeps_base r ->
  (forall t, In t (dkeys calls) -> holds t r) ->
  forall k v, look r k = Some v <-> look base k = Some v \/ exists t, In t (dkeys calls) /\ w t k = Some v.
Proof.
  intros r _ S K H k v. split.
  - intros L. destruct (S k v L) as [B|(t & _ & C & Hw)]; eauto.
  - intros [B|(t & C & Hw)]; [apply K, B|exact (H t C k v Hw)].
Qed.
End Pool.
