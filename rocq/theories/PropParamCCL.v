(** C87: param.ccl. *)
From Coq Require Import String List Bool Permutation Sorted.
From Verif Require Import PyBase PyBaseFacts PyList PyListFacts CFunction ParamCCL GridFacts RegistryFacts.
Import ListNotations.
Open Scope string_scope.
Open Scope list_scope.

(** A function of the thorn uses the parameter *)
Definition uses (d : dict pfun) (thorn n : string) : Prop := exists it, In it d /\ p_thorn (snd it) = thorn /\ In n (p_used (snd it)).

(** The declaration of a parameter and the beginning of the file, as Cactus reads them *)
Definition declaration (c : cparam) : string := String.concat nl
  [(c_type c ++ " " ++ c_name c ++ " ""(see NRPy+ for parameter definition)""")%string; "{";
   " *:* :: ""All values accepted. NRPy+ does not restrict the allowed ranges of parameters yet."""; ("} " ++ c_default c)%string; ""; ""].
Definition beginning (shares : string) : string := String.concat nl
  ["# This param.ccl file was automatically generated by NRPy+."; "#   You are advised against modifying it directly; instead";
   "#   modify the Python code that generates it."; shares; ""; "restricted:"; ""].
Lemma sapp_assoc : forall a b c : string, ((a ++ b) ++ c = a ++ b ++ c)%string.
Proof. intros a b c. induction a; cbn; congruence. Qed.
Lemma block_declaration : forall c, block c = declaration c.
Proof. intros [t n v]. unfold block, declaration. cbn [String.concat c_type c_name c_default]. rewrite !sapp_assoc. reflexivity. Qed.
Lemma intro_beginning : forall s, intro s = beginning s.
Proof. intros s. unfold intro, beginning. cbn [String.concat]. reflexivity. Qed.

Lemma In_declare : forall acc n x, In x (declare acc n) <-> In x acc \/ x = n.
Proof.
  intros acc n x. unfold declare. destruct (existsb (String.eqb n) acc) eqn:E.
  - apply existsb_exists in E. destruct E as (y & I & Q). apply String.eqb_eq in Q. subst y. split; [auto|intros [H| ->]; auto].
  - rewrite in_app_iff. cbn. intuition.
Qed.
Lemma NoDup_declare : forall acc n, NoDup acc -> NoDup (declare acc n).
Proof.
  intros acc n N. unfold declare. destruct (existsb (String.eqb n) acc) eqn:E; auto.
  apply (Permutation_NoDup (Permutation_cons_append acc n)). constructor; auto. intros I.
  assert (T : existsb (String.eqb n) acc = true) by (apply existsb_exists; exists n; split; auto; apply String.eqb_refl). congruence.
Qed.
Lemma declare_all : forall l acc, (NoDup acc -> NoDup (fold_left declare l acc)) /\ (forall x, In x (fold_left declare l acc) <-> In x acc \/ In x l).
Proof.
  induction l as [|n l IH]; intros acc; cbn [fold_left].
  - split; auto. intros x. cbn. intuition.
  - destruct (IH (declare acc n)) as [A B]. split; [intros N; apply A; now apply NoDup_declare|].
    intros x. rewrite B, In_declare. cbn. intuition.
Qed.
Lemma registered_spec : forall d thorn, NoDup (registered d thorn) /\ forall n, In n (registered d thorn) <-> uses d thorn n.
Proof.
  intros d thorn. unfold registered, uses.
  assert (G : forall d acc, NoDup acc ->
    NoDup (fold_left (fun acc f => if String.eqb (p_thorn f) thorn then fold_left declare (p_used f) acc else acc) (map snd d) acc) /\
    forall n, In n (fold_left (fun acc f => if String.eqb (p_thorn f) thorn then fold_left declare (p_used f) acc else acc) (map snd d) acc)
      <-> In n acc \/ exists it : string * pfun, In it d /\ p_thorn (snd it) = thorn /\ In n (p_used (snd it))).
  { induction d0 as [|it d0 IH]; intros acc N; cbn [map fold_left].
    - split; auto. intros n. split; auto. intros [H|(it & [] & _)]; auto.
    - destruct (String.eqb_spec (p_thorn (snd it)) thorn) as [E|E].
      + destruct (declare_all (p_used (snd it)) acc) as [A B]. destruct (IH _ (A N)) as [C D]. split; auto.
        intros n. rewrite D, B. split.
        * intros [[H|H]|(x & I & H)]; auto; right; [exists it|exists x]; cbn; auto.
        * intros [H|(x & [<-|I] & H & H')]; auto. right. now exists x.
      + destruct (IH acc N) as [C D]. split; auto. intros n. rewrite D. split.
        * intros [H|(x & I & H)]; auto. right. exists x. cbn; auto.
        * intros [H|(x & [<-|I] & H & H')]; auto; [congruence|]. right. now exists x. }
  destruct (G d [] (NoDup_nil _)) as [A B]. split; auto. intros n. rewrite B. cbn. intuition.
Qed.
Lemma blocks_ok : forall params names, (forall n, In n names -> dget n params <> None) ->
  exists cs, Forall2 (fun n c => dget n params = Some c) names cs /\ blocks params names = Ok (String.concat "" (map block cs)).
Proof.
  intros params names. induction names as [|n r IH]; intros H.
  - exists []. split; constructor.
  - destruct (dget n params) as [c|] eqn:E; [|exfalso; apply (H n); cbn; auto].
    destruct IH as (cs & F & B); [intros; apply H; cbn; auto|]. exists (c :: cs). split; [constructor; auto|].
    cbn [blocks]. rewrite E, B. cbn [py_bind]. f_equal.
    assert (Z : forall s, (s ++ "")%string = s) by (induction s; cbn; congruence).
    destruct cs as [|c' cs]; [cbn [map String.concat]; apply Z|reflexivity].
Qed.
Lemma blocks_err : forall params names n, In n names -> dget n params = None -> blocks params names = Err KeyError.
Proof.
  intros params names n. induction names as [|m r IH]; intros I H; [destruct I|]. cbn [blocks].
  destruct (dget m params) eqn:E; auto. destruct I as [->|I]; [congruence|]. rewrite IH; auto.
Qed.

(** C87_declares.  If every parameter that a function of the thorn uses is registered, param.ccl declares exactly those parameters, each once, in the
    order of their names, each with the type, name and default value it is registered with; the same names are returned, each once. *)
Theorem C87_declares : forall d params thorn shares, (forall n, uses d thorn n -> dget n params <> None) ->
  exists names cs ret, NoDup names /\ StronglySorted (fun a b => String.leb a b = true) names /\ (forall n, In n names <-> uses d thorn n) /\
    Forall2 (fun n c => dget n params = Some c) names cs /\ Permutation ret names /\
    construct_param_ccl d params thorn shares = Ok ((beginning shares ++ String.concat "" (map declaration cs))%string, ret).
Proof.
  intros d params thorn shares H. destruct (registered_spec d thorn) as [N I].
  destruct (py_sorted_spec String.leb RegistryFacts.string_leb_tot string_leb_trans (registered d thorn)) as [P S].
  destruct (blocks_ok params (py_sorted String.leb (registered d thorn))) as (cs & F & B).
  { intros n Q. apply H, I. eapply Permutation_in; [apply Permutation_sym|]; eauto. }
  exists (py_sorted String.leb (registered d thorn)), cs, (registered d thorn).
  split; [eapply Permutation_NoDup; eauto|]. split; [exact S|]. split.
  { intros n. rewrite <- I. split; intros Q; [eapply Permutation_in; [apply Permutation_sym|]; eauto|eapply Permutation_in; eauto]. }
  split; [exact F|]. split; [exact P|]. unfold construct_param_ccl. cbv zeta. rewrite B, intro_beginning, (map_ext _ _ block_declaration). reflexivity.
Qed.
(** C87_unregistered.  Otherwise the call ends with KeyError. *)
Theorem C87_unregistered : forall d params thorn shares n, uses d thorn n -> dget n params = None ->
  construct_param_ccl d params thorn shares = Err KeyError.
Proof.
  intros d params thorn shares n U H. destruct (registered_spec d thorn) as [_ I].
  destruct (py_sorted_spec String.leb RegistryFacts.string_leb_tot string_leb_trans (registered d thorn)) as [P _].
  unfold construct_param_ccl. cbv zeta. rewrite (blocks_err params _ n); auto. eapply Permutation_in; [exact P|]. now apply I.
Qed.
(** C87_order.  The text does not depend on the order in which the functions were registered. *)
Theorem C87_order : forall d d' params thorn shares t ret, Permutation d d' ->
  construct_param_ccl d params thorn shares = Ok (t, ret) ->
  exists ret', construct_param_ccl d' params thorn shares = Ok (t, ret') /\ Permutation ret ret'.
Proof.
  intros d d' params thorn shares t ret P H. destruct (registered_spec d thorn) as [N I]. destruct (registered_spec d' thorn) as [N' I'].
  assert (Q : Permutation (registered d thorn) (registered d' thorn)).
  { apply NoDup_Permutation; auto. intros n. rewrite I, I'.
    split; intros (it & J & K); exists it; (split; [|exact K]); [apply (Permutation_in _ P J)|apply (Permutation_in _ (Permutation_sym P) J)]. }
  unfold construct_param_ccl in *. cbv zeta in *. rewrite (py_sorted_perm _ _ Q) in H.
  destruct (blocks params (py_sorted String.leb (registered d' thorn))) as [b|]; cbn [py_bind] in *; [|discriminate].
  injection H as <- <-. exists (registered d' thorn). auto.
Qed.

(** ** Examples *)
Definition ex_funs : dict pfun :=
  [("rhs", mk_pfun "T" ["eta"; "KO_strength"]); ("init", mk_pfun "T" ["eta"; "Amp"]); ("other", mk_pfun "U" ["zeta"]); ("bc", mk_pfun "T" [])].
Definition ex_params : dict cparam :=
  [("eta", mk_cparam "REAL" "eta" "2.0"); ("Amp", mk_cparam "REAL" "Amp" "1e-3"); ("KO_strength", mk_cparam "CCTK_REAL" "KO_strength" "0.99")].
Example ex_C87_declares : construct_param_ccl ex_funs ex_params "T" "shares: Grid" =
  Ok ((intro "shares: Grid" ++ block (mk_cparam "REAL" "Amp" "1e-3") ++ block (mk_cparam "CCTK_REAL" "KO_strength" "0.99")
       ++ block (mk_cparam "REAL" "eta" "2.0"))%string, ["eta"; "KO_strength"; "Amp"]).
Proof. vm_compute. reflexivity. Qed.
Example ex_C87_text : block (mk_cparam "REAL" "Amp" "1e-3") =
  ("REAL Amp ""(see NRPy+ for parameter definition)""" ++ nl ++ "{" ++ nl
   ++ " *:* :: ""All values accepted. NRPy+ does not restrict the allowed ranges of parameters yet.""" ++ nl ++ "} 1e-3" ++ nl ++ nl)%string.
Proof. reflexivity. Qed.
Example ex_C87_hypothesis : forall n, uses ex_funs "T" n -> dget n ex_params <> None.
Proof.
  intros n (it & I & T & U). repeat (destruct I as [<-|I]; [try discriminate; cbn in U; intuition (subst; discriminate)|]). destruct I.
Qed.
Example ex_C87_unregistered : construct_param_ccl ex_funs ex_params "U" "" = Err KeyError.
Proof. apply C87_unregistered with (n := "zeta"); [|reflexivity]. exists ("other", mk_pfun "U" ["zeta"]). cbn. intuition. Qed.
Example ex_C87_order : exists ret, construct_param_ccl (rev ex_funs) ex_params "T" "shares: Grid" =
  Ok ((intro "shares: Grid" ++ block (mk_cparam "REAL" "Amp" "1e-3") ++ block (mk_cparam "CCTK_REAL" "KO_strength" "0.99")
       ++ block (mk_cparam "REAL" "eta" "2.0"))%string, ret) /\ Permutation ["eta"; "KO_strength"; "Amp"] ret.
Proof. apply (C87_order ex_funs); [apply Permutation_rev|exact ex_C87_declares]. Qed.

Print Assumptions C87_declares.
Print Assumptions C87_unregistered.
Print Assumptions C87_order.
