(** Headline theorems for parallel code generation (C22). *)
From Coq Require Import String Ascii List Bool Arith Lia Permutation.
From Verif Require Import PyBase PyBaseFacts Parallel ParallelFacts.
Import ListNotations.
Open Scope list_scope.
Open Scope string_scope.

Definition staged {V} (codegen : V) (m : env V) : env V :=
  MkEnv (dset "parallel_codegen_stage" codegen (e_params m)) (e_code m) (e_cfun m) (e_gridfcs m) (e_extras m).

Section C22.
Variables (V : Type) (s : list string -> bool) (calls : dict (task V)) (w : string -> key -> option V) (x : string -> key -> bool).
(** Every call registers the entries [w], and refuses names of [x] that are taken. *)
Hypothesis calls_ok : forall t f, dget t calls = Some f -> registers s f (w t) (x t).
Hypothesis different : forall t t' k v v', t <> t' -> In t (dkeys calls) -> In t' (dkeys calls) ->
  w t k = Some v -> w t' k = Some v' -> v = v' /\ x t k = false.
Variables (codegen : V) (main : env V).
Hypothesis main_ok : env_ok s (staged codegen main).
Hypothesis main_admits : forall t, In t (dkeys calls) -> admits (staged codegen main) (w t) (x t).

(** Whatever the number of workers, the distribution of the calls over them and the order in which they finish, the main
    process ends up with its own entries and those of every call, and nothing else. *)
Theorem C22_schedule : forall sched, NoDup (map snd sched) -> (forall t, In t (map snd sched) <-> In t (dkeys calls)) ->
  exists r, do_parallel_codegen true codegen calls main sched = Ok r /\
    forall k v, look r k = Some v <->
      look (staged codegen main) k = Some v \/ exists t, In t (dkeys calls) /\ w t k = Some v.
Proof.
  intros sched ND A. unfold do_parallel_codegen. cbn [negb].
  change (MkEnv (dset "parallel_codegen_stage" codegen (e_params main)) (e_code main) (e_cfun main) (e_gridfcs main) (e_extras main))
    with (staged codegen main). set (base := staged codegen main) in *.
  destruct (run_pool_ok V s calls w x calls_ok different base main_admits sched (fun _ => base) [] (fun _ => False))
    as (shared & E & P1 & P2); auto.
  - intros t Ht. split; [now apply A|auto].
  - intros i. split; auto. split; [intros k v; auto|intros k v; auto].
  - intros t e [].
  - rewrite E. cbn [py_bind].
    destruct (unpack_ok V s calls w x different base main_admits shared base) as (r & Er & Or & Sr & Kr & Hr); auto.
    + intros k v; auto.
    + intros k v; auto.
    + intros t Ht. apply A. apply P2 in Ht. destruct Ht as [[]|Ht]; auto.
    + exists r. split; auto. apply (final_look V calls w base r (fun _ => True)); auto.
      intros t Ht. apply Hr; auto. right. apply P2. right. now apply A.
Qed.

(** Running them one after another, in any order, gives the same entries. *)
Theorem C22_sequential : forall order, NoDup order -> (forall t, In t order <-> In t (dkeys calls)) ->
  exists r, run_seq V calls (staged codegen main) order = Ok r /\
    forall k v, look r k = Some v <->
      look (staged codegen main) k = Some v \/ exists t, In t (dkeys calls) /\ w t k = Some v.
Proof.
  intros order ND A. set (base := staged codegen main) in *.
  destruct (run_seq_ok V s calls w x calls_ok different base main_admits order base (fun _ => False))
    as (r & E & Or & Sr & Kr & Hr); auto.
  - intros t Ht. split; [now apply A|auto].
  - intros k v; auto.
  - intros k v; auto.
  - intros t [].
  - intros t [].
  - exists r. split; auto. apply (final_look V calls w base r (fun _ => True)); auto.
    intros t Ht. apply Hr. right. now apply A.
Qed.

Corollary C22_same : forall sched sched' order, NoDup (map snd sched) -> Permutation (map snd sched) (dkeys calls) ->
  NoDup (map snd sched') -> Permutation (map snd sched') (dkeys calls) -> NoDup order -> Permutation order (dkeys calls) ->
  exists r r' q, do_parallel_codegen true codegen calls main sched = Ok r /\
    do_parallel_codegen true codegen calls main sched' = Ok r' /\ run_seq V calls (staged codegen main) order = Ok q /\
    forall k, look r k = look r' k /\ look r k = look q k.
Proof.
  assert (P : forall l, Permutation l (dkeys calls) -> forall t, In t l <-> In t (dkeys calls)).
  { intros l H t. split; apply Permutation_in; auto. now apply Permutation_sym. }
  assert (O : forall (a b : option V), (forall v, a = Some v <-> b = Some v) -> a = b).
  { intros [v|] [v'|] H; auto; [now apply H|symmetry; now apply H|now apply H]. }
  intros sched sched' order N1 P1 N2 P2 N3 P3.
  destruct (C22_schedule sched N1 (P _ P1)) as (r & E & L).
  destruct (C22_schedule sched' N2 (P _ P2)) as (r' & E' & L').
  destruct (C22_sequential order N3 (P _ P3)) as (q & Eq & Lq).
  exists r, r', q. repeat (split; auto); apply O; intros v; [rewrite L, L'|rewrite L, Lq]; reflexivity.
Qed.
End C22.

(** ** The registry of calls *)
(** Any history of register_func_call, with the caller catching the ValueError. *)
Definition reg_all {F} (calls : dict F) (ops : list (string * string * F)) : dict F :=
  fold_left (fun c '(n, a, f) => match register_func_call c n a f with Ok c' => c' | Err _ => c end) ops calls.
Theorem C22_register : forall F (calls : dict F) n a f,
  (register_func_call calls n a f = Err ValueError <-> In (n ++ a) (dkeys calls)) /\
  forall c', register_func_call calls n a f = Ok c' -> c' = (calls ++ [((n ++ a)%string, f)])%list.
Proof.
  intros F calls n a f. unfold register_func_call. destruct (dmem (n ++ a) calls) eqn:E.
  - split; [|discriminate]. split; auto. intros _. apply dmem_true in E. destruct E as (v & E). eapply dget_Some_keys; eauto.
  - assert (N : ~ In (n ++ a) (dkeys calls)).
    { intros K. destruct (dget (n ++ a) calls) eqn:G.
      - assert (dmem (n ++ a) calls = true) by (apply dmem_true; eauto). congruence.
      - apply dget_None_keys in G. contradiction. }
    split; [split; [discriminate|contradiction]|]. intros c' H. injection H as <-. clear E.
    induction calls as [|[k v] calls IH]; cbn; auto. cbn in N.
    destruct (String.eqb_spec (n ++ a) k); [subst; tauto|]. rewrite IH by tauto. reflexivity.
Qed.
(** Distinct calls have distinct keys when function names contain no brace and printed arguments start with one. *)
Theorem C22_keys_injective : forall n n' a a', ~ In "{"%char (list_ascii_of_string n) -> ~ In "{"%char (list_ascii_of_string n') ->
  n ++ String "{" a = n' ++ String "{" a' -> n = n' /\ a = a'.
Proof.
  induction n as [|c n IH]; intros [|c' n'] a a' H H' E; cbn in *.
  - injection E as ->; auto.
  - injection E as E1 E2. exfalso. apply H'. auto.
  - injection E as E1 E2. exfalso. apply H. auto.
  - injection E as -> E. destruct (IH n' a a') as [-> ->]; auto.
Qed.
(** Registered once, a call is never replaced, whatever follows; keys stay unique. *)
Theorem C22_calls_kept : forall F (ops : list (string * string * F)) (calls : dict F), NoDup (dkeys calls) ->
  NoDup (dkeys (reg_all calls ops)) /\ forall k f, dget k calls = Some f -> dget k (reg_all calls ops) = Some f.
Proof.
  intros F ops; unfold reg_all; induction ops as [|[[n a] g] ops IH]; intros calls N; cbn [fold_left]; auto.
  unfold register_func_call at 2 4. destruct (dmem (n ++ a) calls) eqn:E.
  - apply IH; auto.
  - destruct (IH (dset (n ++ a) g calls)) as [A B]; [now apply NoDup_dset|]. split; auto.
    intros k f H. apply B. rewrite dget_dset_other; auto. intros ->.
    assert (dmem (n ++ a) calls = true) by (apply dmem_true; eauto). congruence.
Qed.

(** ** Examples *)
Definition reg_fun (name body : string) : task string := fun e =>
  if dmem name (e_cfun e) then Err ValueError
  else Ok (MkEnv (e_params e) (e_code e) (dset name body (e_cfun e)) (e_gridfcs e) (e_extras e)).
Lemma reg_fun_registers : forall s n b,
  registers s (reg_fun n b) (fun k => match k with KFun m => if String.eqb m n then Some b else None | _ => None end) (fun _ => true).
Proof.
  intros s n b e [A1 A2 A3 A4 A5] Ad. unfold reg_fun.
  assert (E : dget n (e_cfun e) = None).
  { destruct (Ad (KFun n) b) as [K|[K _]]; [rewrite String.eqb_refl; reflexivity|exact K|discriminate]. }
  assert (D : dmem n (e_cfun e) = false) by (unfold dmem; now rewrite E).
  rewrite D. eexists. split; [reflexivity|]. split.
  - constructor; cbn; auto. now apply NoDup_dset.
  - intros [k|k|k|k|p]; cbn [look e_params e_code e_cfun e_gridfcs e_extras]; auto.
    destruct (String.eqb_spec k n) as [->|N]; [apply dget_dset_same|now apply dget_dset_other].
Qed.
Definition ex_main : env string := MkEnv [("parallel_codegen_stage", "register"); ("Infrastructure", "BHaH")] [] [("main", "m")] []
  [("BHaH_defines", Node [("general", Leaf "#define A")])].
Definition ex_calls : dict (task string) := [("mod.f{}", reg_fun "f" "body f"); ("mod.g{}", reg_fun "g" "body g"); ("mod.h{}", reg_fun "h" "body h")].
Example C22_ex : forall sched, In sched [[(0, "mod.f{}"); (1, "mod.g{}"); (0, "mod.h{}")]; [(2, "mod.h{}"); (2, "mod.f{}"); (1, "mod.g{}")]] ->
  exists r, do_parallel_codegen true "codegen" ex_calls ex_main sched = Ok r /\
    map (fun n => look r (KFun n)) ["main"; "f"; "g"; "h"; "z"] = [Some "m"; Some "body f"; Some "body g"; Some "body h"; None] /\
    look r (KExtra ["BHaH_defines"; "general"]) = Some "#define A" /\ look r (KParam "parallel_codegen_stage") = Some "codegen".
Proof. intros sched [<-|[<-|[]]]; eexists; (split; [vm_compute; reflexivity|]); vm_compute; auto. Qed.
(** The registries agree as maps, not in the order of their items. *)
Example C22_ex_order : exists a b,
  do_parallel_codegen true "c" ex_calls ex_main [(0, "mod.f{}"); (1, "mod.g{}"); (2, "mod.h{}")] = Ok a /\
  do_parallel_codegen true "c" ex_calls ex_main [(0, "mod.h{}"); (1, "mod.g{}"); (2, "mod.f{}")] = Ok b /\
  dkeys (e_cfun a) = ["main"; "f"; "g"; "h"] /\ dkeys (e_cfun b) = ["main"; "h"; "g"; "f"].
Proof. do 2 eexists. split; [vm_compute; reflexivity|]. split; [vm_compute; reflexivity|]. auto. Qed.
Example C22_ex_hyps :
  let s := fun p : list string => Nat.eqb (length p) 2 in
  let w := fun (t : string) (k : key) => match k with
     | KFun n => if (String.eqb t "mod.f{}" && String.eqb n "f")%bool then Some "body f"
                 else if (String.eqb t "mod.g{}" && String.eqb n "g")%bool then Some "body g" else None
     | _ => None end in
  let calls := [("mod.f{}", reg_fun "f" "body f"); ("mod.g{}", reg_fun "g" "body g")] in
  env_ok s (staged "codegen" ex_main) /\
  (forall t f, dget t calls = Some f -> registers s f (w t) (fun _ => true)) /\
  (forall t t' k v v', t <> t' -> In t (dkeys calls) -> In t' (dkeys calls) -> w t k = Some v -> w t' k = Some v' -> v = v' /\ true = false) /\
  (forall t, In t (dkeys calls) -> admits (staged "codegen" ex_main) (w t) (fun _ => true)).
Proof.
  cbn zeta. split; [|split; [|split]].
  - constructor; cbn; try (repeat constructor; cbn; intuition discriminate).
    constructor; [reflexivity|repeat constructor; cbn; intuition discriminate|].
    intros k t [H|[]]. injection H as <- <-. constructor; [reflexivity|repeat constructor; cbn; intuition discriminate|].
    intros k t [H|[]]. injection H as <- <-. constructor. reflexivity.
  - intros t f. cbn [dget]. destruct (String.eqb_spec t "mod.f{}") as [->|N1].
    + intros H. injection H as <-. intros e Oe Ad. destruct (reg_fun_registers (fun p => Nat.eqb (length p) 2) "f" "body f" e Oe) as (e' & E & O & L).
      * intros k v Hk. apply Ad. destruct k; cbn in *; auto.
      * exists e'. split; auto.
    + destruct (String.eqb_spec t "mod.g{}") as [->|N2]; [|discriminate]. 
      intros H. injection H as <-. intros e Oe Ad. destruct (reg_fun_registers (fun p => Nat.eqb (length p) 2) "g" "body g" e Oe) as (e' & E & O & L).
      * intros k v Hk. apply Ad. destruct k; cbn in *; auto. 
      * exists e'. split; auto.
  - intros t t' k v v' N [<-|[<-|[]]] [<-|[<-|[]]]; try congruence; destruct k; cbn; try discriminate;
      destruct (String.eqb_spec s "f"), (String.eqb_spec s "g"); try discriminate; subst; discriminate.
  - intros t [<-|[<-|[]]] k v; destruct k; cbn; try discriminate; destruct (String.eqb_spec s "f"), (String.eqb_spec s "g"); subst; auto; discriminate.
Qed.

(** ** Where the hypotheses fail *)
(** Two calls registering the same function with different bodies: the outcome depends on the schedule, and only a run
    on one worker notices. *)
Definition dup_calls : dict (task string) := [("a{}", reg_fun "f" "one"); ("b{}", reg_fun "f" "two")].
Theorem C22_same_name_refuted :
  (exists r, do_parallel_codegen true "c" dup_calls ex_main [(0, "a{}"); (1, "b{}")] = Ok r /\ look r (KFun "f") = Some "two") /\
  (exists r, do_parallel_codegen true "c" dup_calls ex_main [(1, "b{}"); (0, "a{}")] = Ok r /\ look r (KFun "f") = Some "one") /\
  do_parallel_codegen true "c" dup_calls ex_main [(0, "a{}"); (0, "b{}")] = Err RuntimeError /\
  run_seq string dup_calls (staged "c" ex_main) ["a{}"; "b{}"] = Err ValueError.
Proof. repeat split; try (eexists; split; [vm_compute; reflexivity|vm_compute; reflexivity]); vm_compute; reflexivity. Qed.
(** A call that changes an entry the main process already has: the old value comes back with the environment of a call
    that finishes later. *)
Definition set_par (n v : string) : task string := fun e =>
  Ok (MkEnv (dset n v (e_params e)) (e_code e) (e_cfun e) (e_gridfcs e) (e_extras e)).
Definition chg_calls : dict (task string) := [("a{}", set_par "Infrastructure" "superB"); ("b{}", reg_fun "f" "x")].
Theorem C22_changed_entry_refuted :
  (exists r, do_parallel_codegen true "c" chg_calls ex_main [(0, "a{}"); (1, "b{}")] = Ok r /\ look r (KParam "Infrastructure") = Some "BHaH") /\
  (exists r, do_parallel_codegen true "c" chg_calls ex_main [(1, "b{}"); (0, "a{}")] = Ok r /\ look r (KParam "Infrastructure") = Some "superB") /\
  (exists r, run_seq string chg_calls (staged "c" ex_main) ["a{}"; "b{}"] = Ok r /\ look r (KParam "Infrastructure") = Some "superB").
Proof. repeat split; eexists; (split; [vm_compute; reflexivity|vm_compute; reflexivity]). Qed.
(** Two calls adding to one module's BHaH_defines (register_BHaH_defines, BHaH_defines_h.py l.105-111): one of the
    contributions is lost. *)
Definition add_defines (m txt : string) : task string := fun e =>
  match dget "BHaH_defines" (e_extras e) with
  | Some (Node d) =>
      let t := match dget m d with Some (Leaf o) => o ++ txt | _ => txt end in
      Ok (MkEnv (e_params e) (e_code e) (e_cfun e) (e_gridfcs e) (dset "BHaH_defines" (Node (dset m (Leaf t) d)) (e_extras e)))
  | _ => Ok (MkEnv (e_params e) (e_code e) (e_cfun e) (e_gridfcs e) (dset "BHaH_defines" (Node [(m, Leaf txt)]) (e_extras e)))
  end.
Definition def_calls : dict (task string) := [("a{}", add_defines "mod" "A;"); ("b{}", add_defines "mod" "B;")].
Theorem C22_shared_module_refuted :
  (exists r, do_parallel_codegen true "c" def_calls ex_main [(0, "a{}"); (1, "b{}")] = Ok r /\ look r (KExtra ["BHaH_defines"; "mod"]) = Some "B;") /\
  (exists r, run_seq string def_calls (staged "c" ex_main) ["a{}"; "b{}"] = Ok r /\ look r (KExtra ["BHaH_defines"; "mod"]) = Some "A;B;").
Proof. repeat split; eexists; (split; [vm_compute; reflexivity|vm_compute; reflexivity]). Qed.

Print Assumptions C22_schedule.
Print Assumptions C22_sequential.
Print Assumptions C22_same.
Print Assumptions C22_register.
Print Assumptions C22_keys_injective.
Print Assumptions C22_calls_kept.
Print Assumptions C22_same_name_refuted.
Print Assumptions C22_changed_entry_refuted.
Print Assumptions C22_shared_module_refuted.
