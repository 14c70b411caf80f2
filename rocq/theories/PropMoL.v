(** C32: the generated time step is the Runge-Kutta step of the table.
    C39: memory of the time integrator. *)
From Coq Require Import String Ascii List Bool Arith Lia QArith Qcanon Field.
From Verif Require Import PyBase PyBaseFacts FDReadMem MoL MoLFacts Butcher ButcherFacts.
Import ListNotations.
Open Scope string_scope.
Open Scope nat_scope.

Section Field.
Variable K : Type.
Variables (kO kI : K) (kadd kmul ksub : K -> K -> K) (kopp kinv : K -> K) (kdiv : K -> K -> K) (keqb : K -> K -> bool).
Hypothesis Fth : field_theory kO kI kadd kmul ksub kopp kdiv kinv eq.
Hypothesis keqb_eq : forall a b, keqb a b = true <-> a = b.
Notation wf := (wf K kO).
Notation mk_table := (mk_table K).
Notation is_diagonal := (is_diagonal K kO keqb).
Notation row rows i := (snd (nth i rows (kO, []))).

(** The tables for which the storage scheme chosen is correct.  A table with some a_ij <> 0 left of the sub-diagonal always
    is.  For a diagonal one: three stages and a_21 <> 0 if the name contains RK3; one stage and weight 1 if it is Euler;
    else at least two stages, no zero sub-diagonal entry after the first and a non-zero last weight. *)
Definition handled (name : string) (rows : list (K * list K)) (b : list K) : Prop :=
  let n := List.length rows in
  is_diagonal (mk_table rows b) = true ->
  if py_in "RK3" name then n = 3 /\ nth 0 (row rows 1) kO <> kO
  else if String.eqb name "Euler" then n = 1 /\ b = [kI]
  else 2 <= n /\ (forall s, 1 <= s -> s < n - 1 -> nth s (row rows (S s)) kO <> kO) /\ nth (n - 1) b kO <> kO.

Lemma head_last : forall rows b, head K (mk_table rows b) (List.length (mk_table rows b) - 1) = CTag K "".
Proof.
  intros. rewrite table_len. cbn [Nat.sub]. rewrite Nat.sub_0_r. unfold head. now rewrite nth_table_last.
Qed.
Lemma three_rows : forall (rows : list (K * list K)) (b : list K), wf rows b -> List.length rows = 3 -> is_diagonal (mk_table rows b) = true ->
  exists c0 c1 c2 a21 a32 b1 b2 b3, rows = [(c0, []); (c1, [a21]); (c2, [kO; a32])] /\ b = [b1; b2; b3].
Proof.
  intros rows b [_ [R Bl]] N D.
  assert (Z : nth 0 (row rows 2) kO = kO).
  { unfold MoL.is_diagonal in D. rewrite forallb_forall in D. rewrite table_len, N in D.
    specialize (D 2 ltac:(cbn; auto)). rewrite forallb_forall in D. specialize (D 1 ltac:(cbn; auto)).
    apply keqb_eq in D. pose proof (coef_row K kO rows b 2 0 ltac:(lia)) as CR. cbn [Nat.add] in CR. now rewrite <- CR. }
  destruct rows as [|[c0 r0] [|[c1 r1] [|[c2 r2] [|]]]]; cbn in N; try discriminate N.
  pose proof (R 0 ltac:(cbn; lia)) as L0. pose proof (R 1 ltac:(cbn; lia)) as L1. pose proof (R 2 ltac:(cbn; lia)) as L2.
  cbn in L0, L1, L2, Bl, Z.
  destruct r0; [|discriminate L0]. destruct r1 as [|a21 [|]]; try discriminate L1.
  destruct r2 as [|a31 [|a32 [|]]]; try discriminate L2. destruct b as [|b1 [|b2 [|b3 [|]]]]; try discriminate Bl.
  cbn in Z. subst a31. now exists c0, c1, c2, a21, a32, b1, b2, b3.
Qed.

(** [writes] are the points the right-hand side function computes (the interior); [rhs] must depend only on values
    (extensionality) and [post] only on the values at written points (boundary fill from the interior). *)
Theorem C32_step : forall (P : Type) (writes : P -> bool) (rhs : K -> (P -> K) -> P -> K) (post : (P -> K) -> P -> K),
  (forall t u v, (forall p, u p = v p) -> forall p, rhs t u p = rhs t v p) ->
  (forall u v, (forall p, writes p = true -> u p = v p) -> forall p, post u p = post v p) ->
  forall name rows b, wf rows b -> handled name rows b ->
  (is_diagonal (mk_table rows b) = true -> py_in "RK3" name = true -> forall u p, writes p = true -> post u p = u p) ->
  exists prog, gen_step K kO kI keqb name (mk_table rows b) = Ok prog /\
    forall t dt st p, run_step K kadd kmul ksub kinv P writes rhs post t dt prog st y_n p
                    = rk_step K kO kadd kmul P rhs post t dt rows b (st y_n) p.
Proof.
  intros P writes rhs post RE PD name rows b WF H PI. unfold gen_step. rewrite head_last. unfold handled in H. cbv zeta in H.
  destruct (is_diagonal (mk_table rows b)) eqn:D; cbn [andb negb].
  - specialize (H eq_refl). destruct (py_in "RK3" name) eqn:R3.
    + destruct H as [N A]. destruct (three_rows rows b WF N D) as [c0 [c1 [c2 [a21 [a32 [b1 [b2 [b3 [-> ->]]]]]]]]].
      cbn in A. eexists. split; [reflexivity|]. intros t dt st p.
      exact (rk3_step K kO kI kadd kmul ksub kopp kinv kdiv Fth P writes rhs post RE PD t dt c0 c1 c2 a21 a32 b1 b2 b3 st
               (PI eq_refl eq_refl) A p).
    + destruct (String.eqb name "Euler").
      * destruct H as [N ->]. destruct rows as [|[c r] [|]]; try discriminate N.
        destruct WF as [_ [R _]]. specialize (R 0 ltac:(cbn; lia)). cbn in R. destruct r; [|discriminate R].
        eexists. split; [reflexivity|]. intros t dt st p.
        exact (euler_step K kO kI kadd kmul ksub kopp kinv kdiv Fth P writes rhs post PD t dt c st p).
      * destruct H as [N [Ha Hb]]. rewrite (gen_diag_ok K kO kI keqb rows b N). eexists. split; [reflexivity|]. intros t dt st p.
        exact (diag_step K kO kI kadd kmul ksub kopp kinv kdiv keqb Fth keqb_eq P writes rhs post RE PD t dt rows b WF st D N Ha Hb p).
  - rewrite (gen_general_ok K kO kI keqb). eexists. split; [reflexivity|]. intros t dt st p.
    exact (general_step K kO kI kadd kmul ksub kopp kinv kdiv keqb Fth keqb_eq P writes rhs post RE PD t dt rows b WF st p).
Qed.

(** Adaptive tables (two weight rows, tagged HO and LO) are refused. *)
Theorem C32_adaptive_refused : forall name B, (forall s, head K B (List.length B - 1) = CTag K s -> s <> "") ->
  gen_step K kO kI keqb name B = Err ValueError.
Proof.
  intros name B H. unfold gen_step. destruct (head K B (List.length B - 1)) as [c|s]; [reflexivity|].
  destruct s; [exfalso; now apply (H "")|reflexivity].
Qed.

(** l.747-754 set time to (nn+1)*dt: this is time_start + dt exactly when time_start = nn*dt. *)
Theorem C32_time : forall (of_nat : nat -> K), (forall n, of_nat (n + 1) = kadd (of_nat n) kI) ->
  forall nn dt t, fst (after_step K kmul of_nat nn dt) = kadd t dt <-> t = kmul (of_nat nn) dt.
Proof.
  intros of_nat S nn dt t. cbn [after_step fst]. rewrite S. pose proof (F_R Fth) as R.
  assert (E : kmul (kadd (of_nat nn) kI) dt = kadd (kmul (of_nat nn) dt) dt).
  { rewrite (Rdistr_l R), (Rmul_1_l R). reflexivity. }
  rewrite E. split.
  - intros H. apply (f_equal (fun z => kadd z (kopp dt))) in H. rewrite <- !(Radd_assoc R), (Ropp_def R) in H.
    rewrite !(Radd_comm R _ kO), !(Radd_0_l R) in H. now symmetry.
  - intros ->. reflexivity.
Qed.

(** *** C39 *)
Section Mem.
Notation names := (gridfunction_names K kO keqb).
Notation nlist name B := (fst (fst (names name B))).
Notation malloc_list := (malloc_list K kO keqb).
Notation free_list := (free_list K kO keqb).

(** What is allocated is what is freed, in the same order. *)
Theorem C39_malloc_free : forall which name B naux, malloc_list which name B naux = free_list which name B naux.
Proof.
  intros which name B naux. unfold MoL.malloc_list, MoL.free_list. destruct (names name B) as [[l d1] d2].
  assert (F : forall m, filter (fun g => negb (g =? "auxevol_gfs")%string || (0 <? naux)) m =
              flat_map (fun g => if (g =? "auxevol_gfs")%string then (if 0 <? naux then [g] else []) else [g]) m).
  { induction m as [|g m IH]; [reflexivity|]. cbn [filter flat_map]. rewrite IH.
    destruct (g =? "auxevol_gfs")%string, (0 <? naux); reflexivity. }
  destruct (which =? "y_n_gfs")%string; [cbn [py_bind]; now rewrite F|].
  destruct (which =? "non_y_n_gfs")%string; [cbn [py_bind]; now rewrite F|reflexivity].
Qed.

Lemma k_gfs_other : forall i, k_gfs i <> "auxevol_gfs" /\ k_gfs i <> "y_n_gfs" /\ k_gfs i <> "next_y_input_gfs".
Proof. intros i. unfold k_gfs. repeat split; intros H; cbn in H; discriminate. Qed.
Lemma nodup_k : forall l, NoDup l -> NoDup (map (fun i => k_gfs (i + 1)) l).
Proof.
  induction l as [|x l IH]; intros N; [constructor|]. apply NoDup_cons_iff in N as [N1 N2]. cbn. constructor; [|now apply IH].
  intros I. apply in_map_iff in I. destruct I as [z [E I]]. apply k_gfs_inj in E. assert (z = x) by lia. now subst.
Qed.
(** No array is listed twice, and y_n_gfs is not among the others. *)
Theorem C39_no_double : forall name B, NoDup (nlist name B) /\ ~ In y_n (nlist name B).
Proof.
  intros name B. unfold gridfunction_names. destruct (is_diagonal B && py_in "RK3" name); [|destruct (is_diagonal B); cbn [negb]].
  - cbn [fst]. split; [repeat constructor; cbn; intuition discriminate|cbn; intuition discriminate].
  - cbn [fst]. destruct (name =? "Euler")%string; cbn [List.app].
    + split; [repeat constructor; cbn; intuition discriminate|cbn; intuition discriminate].
    + split; [repeat constructor; cbn; intuition discriminate|cbn; intuition discriminate].
  - cbn [fst]. set (ks := map (fun i => k_gfs (i + 1)) (seq 0 (List.length B - 1))).
    assert (KS : forall s, In s ks -> exists i, s = k_gfs i).
    { intros s I. unfold ks in I. apply in_map_iff in I. destruct I as [i [<- _]]. now exists (i + 1). }
    split.
    + cbn [List.app]. constructor.
      * intros I. apply in_app_or in I. destruct I as [I|[I|[]]]; [|discriminate I].
        apply KS in I. destruct I as [i I]. symmetry in I. now apply k_gfs_other in I.
      * assert (ND : NoDup ks) by (apply nodup_k, seq_NoDup).
        assert (NA : ~ In "auxevol_gfs" ks).
        { intros I. apply KS in I. destruct I as [i I]. symmetry in I. now apply k_gfs_other in I. }
        clear -ND NA. induction ks as [|x ks IH]; cbn; [repeat constructor; auto|].
        apply NoDup_cons_iff in ND as [N1 N2]. constructor; [|apply IH; auto; intros I; apply NA; now right].
        intros I. apply in_app_or in I. destruct I as [I|[I|[]]]; [auto|]. apply NA. now left.
    + cbn [List.app]. intros [I|I]; [discriminate I|]. apply in_app_or in I. destruct I as [I|[I|[]]]; [|discriminate I].
      apply KS in I. destruct I as [i I]. symmetry in I. now apply k_gfs_other in I.
Qed.

(** Arrays a generated step touches. *)
Fixpoint syms (e : ex K) : list string :=
  match e with
  | ESym _ s => [s] | EDt _ => [] | ENum _ _ => []
  | EAdd _ a b | ESub _ a b | EMul _ a b | EDiv _ a b => (syms a ++ syms b)%list
  end.
Definition used (s : substep K) : list string :=
  (ss_in K s :: ss_out K s :: flat_map (fun '(n, e) => n :: syms e) (ss_upd K s) ++ ss_post K s)%list.

Lemma sequence_In : forall l prog, sequence K l = Ok prog -> forall s, In s prog -> In (Ok s) l.
Proof.
  induction l as [|m l IH]; intros prog H s I; cbn [sequence] in H.
  - inversion H; subst. contradiction.
  - destruct m as [x|e]; cbn [py_bind] in H; [|discriminate H]. destruct (sequence K l) as [t|e] eqn:E; cbn [py_bind] in H; [|discriminate H].
    inversion H; subst. destruct I as [->|I]; [now left|right; now apply (IH t)].
Qed.
Lemma general_syms : forall B s l e0 g, In g (syms (fold_left (fun e m =>
      let a := coef K kO B (s + 1) (m + 1) in
      if negb (keqb a kO) then
        if negb (keqb a kI) then EAdd K e (EMul K (EMul K (EDt K) (ESym K (k_gfs (m + 1)))) (ENum K a))
        else EAdd K e (EMul K (EDt K) (ESym K (k_gfs (m + 1))))
      else e) l e0)) -> In g (syms e0) \/ exists m, In m l /\ g = k_gfs (m + 1).
Proof.
  induction l as [|m l IH]; intros e0 g I; cbn [fold_left] in I; [now left|]. apply IH in I. destruct I as [I|[m' [I E]]].
  - cbv zeta in I. destruct (keqb (coef K kO B (s + 1) (m + 1)) kO); cbn [negb] in I; [now left|].
    destruct (keqb (coef K kO B (s + 1) (m + 1)) kI); cbn [negb syms] in I;
      repeat (apply in_app_or in I; destruct I as [I|I]); cbn in I; auto;
      try (destruct I as [<-|[]]; right; exists m; split; [now left|reflexivity]); contradiction.
  - right. exists m'. split; [now right|exact E].
Qed.
Lemma nlist_k : forall name B i, is_diagonal B = false -> 1 <= i -> i <= List.length B - 1 -> In (k_gfs i) (nlist name B).
Proof.
  intros name B i D L1 L2. unfold gridfunction_names. rewrite D. cbn [andb negb fst]. right. apply in_or_app. left.
  apply in_map_iff. exists (i - 1). split; [f_equal; lia|apply in_seq; lia].
Qed.
Lemma mk_substep_inv : forall c i o u p s, mk_substep K c i o u p = Ok s ->
  ss_in K s = i /\ ss_out K s = o /\ ss_upd K s = u /\ ss_post K s = p.
Proof. intros c i o u p s H. destruct c; [|discriminate H]. inversion H; subst. cbn. auto. Qed.

(** Every array the generated step reads or writes is y_n_gfs or in the allocated list. *)
Theorem C39_used : forall name B prog s g, gen_step K kO kI keqb name B = Ok prog -> In s prog -> In g (used s) ->
  g = y_n \/ In g (nlist name B).
Proof.
  intros name B prog s g H Is Ig. unfold gen_step in H.
  destruct (head K B (List.length B - 1)) as [c|[|]]; try discriminate H.
  apply (sequence_In _ _ H) in Is. clear H. unfold used in Ig.
  destruct (is_diagonal B && py_in "RK3" name) eqn:C1.
  { unfold gridfunction_names. rewrite C1. cbn [fst].
    unfold gen_rk3 in Is. destruct Is as [Is|[Is|[Is|[]]]]; apply mk_substep_inv in Is; destruct Is as [E1 [E2 [E3 E4]]];
      rewrite E1, E2, E3, E4 in Ig; cbn in Ig; cbn; intuition (subst; auto). }
  destruct (is_diagonal B) eqn:D; cbn [negb andb] in Is.
  2:{ apply in_map_iff in Is. destruct Is as [i [Is Ii]]. apply in_seq in Ii.
      apply mk_substep_inv in Is; destruct Is as [E1 [E2 [E3 E4]]]. rewrite E1, E2, E3, E4 in Ig.
      assert (NY : In next_y (nlist name B)) by (unfold gridfunction_names; rewrite D; cbn; now left).
      assert (LH : forall g, g = (if i =? List.length B - 1 - 1 then y_n else next_y) -> g = y_n \/ In g (nlist name B)).
      { intros g' ->. destruct (i =? List.length B - 1 - 1); [now left|now right]. }
      destruct Ig as [<-|[<-|Ig]].
      - destruct (i =? 0); [now left|now right].
      - right. apply nlist_k; [exact D|lia|lia].
      - cbn [flat_map List.app] in Ig. rewrite app_nil_r in Ig. destruct Ig as [<-|Ig]; [now apply LH|].
        apply in_app_or in Ig. destruct Ig as [Ig|[<-|[]]]; [|now apply LH].
        unfold general_rhs in Ig. apply general_syms in Ig. destruct Ig as [[<-|[]]|[m [Im ->]]]; [now left|].
        apply in_seq in Im. right. apply nlist_k; [exact D|lia|lia]. }
  destruct (name =? "Euler")%string eqn:EU.
  { unfold gridfunction_names. rewrite D. cbn [andb] in C1 |- *. rewrite C1, EU. cbn [negb fst List.app].
    unfold gen_euler in Is. destruct Is as [Is|[]]. apply mk_substep_inv in Is; destruct Is as [E1 [E2 [E3 E4]]].
    rewrite E1, E2, E3, E4 in Ig; cbn in Ig; cbn; intuition (subst; auto). }
  unfold gridfunction_names. rewrite D. cbn [andb] in C1 |- *. rewrite C1, EU. cbn [negb fst List.app].
  apply in_map_iff in Is. destruct Is as [i [Is Ii]]. apply mk_substep_inv in Is; destruct Is as [E1 [E2 [E3 E4]]].
  rewrite E1, E2, E3, E4 in Ig. clear E1 E2 E3 E4.
  assert (O : In (if Nat.even i then k_odd else k_even) [running; k_odd; k_even]) by (destruct (Nat.even i); cbn; auto).
  assert (G : g = y_n \/ In g [running; k_odd; k_even]).
  { set (out := if Nat.even i then k_odd else k_even) in *. destruct Ig as [<-|[<-|Ig]].
    - destruct (i =? 0); [now left|]. destruct (Nat.even i); right; cbn; auto.
    - now right.
    - apply in_app_or in Ig. destruct Ig as [Ig|[<-|[]]]; [|destruct (i =? List.length B - 1 - 1); auto].
      unfold diag_updates in Ig. cbv zeta in Ig.
      repeat match type of Ig with context [if negb ?c then _ else _] => destruct c; cbn [negb] in Ig
                                 | context [if ?c then _ else _] => destruct c end;
        cbn in Ig; repeat (destruct Ig as [<-|Ig]; [auto; right; cbn; auto|]); try contradiction. }
  destruct G as [->|G]; [now left|right; cbn in *; intuition].
Qed.

(** Pointers set up for the diagnostics: both targets are allocated arrays unless the method is the diagonal Euler one (or a
    non-diagonal one with fewer than two stages, which cannot be: see below). *)
Lemma nondiag_three : forall B, is_diagonal B = false -> 4 <= List.length B.
Proof.
  intros B D. destruct (le_lt_dec 4 (List.length B)) as [L|L]; [exact L|]. exfalso.
  assert (T : is_diagonal B = true); [|congruence].
  unfold MoL.is_diagonal. apply forallb_forall. intros i I. apply in_seq in I. apply forallb_forall. intros j J.
  apply in_seq in J. lia.
Qed.
Theorem C39_pointers : forall name B, (is_diagonal B = true -> py_in "RK3" name = false -> name <> "Euler") ->
  forall g, In g (pointer_targets K kO keqb name B) -> In g (nlist name B).
Proof.
  intros name B NE g I. unfold pointer_targets, gridfunction_names in *.
  destruct (is_diagonal B && py_in "RK3" name) eqn:C1.
  { cbn in I |- *. intuition. }
  destruct (is_diagonal B) eqn:D; cbn [negb fst] in I |- *.
  - cbn [andb] in C1. specialize (NE eq_refl C1). apply String.eqb_neq in NE. rewrite NE. cbn in I |- *. intuition.
  - pose proof (nondiag_three B D) as L. set (l := "next_y_input_gfs" :: _) in *.
    assert (K1 : In "k1_gfs" l).
    { right. apply in_map_iff. exists 0. split; [reflexivity|apply in_seq; lia]. }
    assert (K2 : In "k2_gfs" l).
    { right. apply in_map_iff. exists 1. split; [reflexivity|apply in_seq; lia]. }
    assert (E : existsb (String.eqb "k2_gfs") l = true).
    { apply existsb_exists. exists "k2_gfs". split; [exact K2|reflexivity]. }
    rewrite E in I. destruct I as [<-|[<-|[]]]; apply in_or_app; now left.
Qed.
(** For Euler (diagonal, as every one-stage table is) the second pointer names an array that is neither allocated nor
    declared. *)
Theorem C39_pointers_refuted : forall B, is_diagonal B = true ->
  In "k_odd_gfs" (pointer_targets K kO keqb "Euler" B) /\ ~ In "k_odd_gfs" (struct_members K kO keqb "Euler" B).
Proof.
  intros B D. unfold pointer_targets, struct_members, gridfunction_names. rewrite D. cbn. split; [tauto|].
  intuition discriminate.
Qed.
(** Arrays allocated are members of the struct, and every struct member is y_n_gfs, allocated (if NUM_AUXEVOL_GFS > 0) or
    a diagnostics pointer. *)
Theorem C39_struct : forall name B naux l, 0 < naux -> malloc_list "non_y_n_gfs" name B naux = Ok l ->
  struct_members K kO keqb name B = (y_n :: l ++ ["diagnostic_output_gfs"; "diagnostic_output_gfs2"])%list.
Proof.
  intros name B naux l N H. unfold MoL.malloc_list, struct_members in *. destruct (names name B) as [[l' d1] d2].
  cbn [String.eqb] in H. change ("non_y_n_gfs" =? "y_n_gfs")%string with false in H.
  change ("non_y_n_gfs" =? "non_y_n_gfs")%string with true in H. cbv iota in H.
  inversion H as [E]. f_equal. f_equal. apply Nat.ltb_lt in N. rewrite N. clear.
  induction l' as [|x l' IH]; [reflexivity|]. cbn [filter]. rewrite orb_true_r. f_equal. exact IH.
Qed.
End Mem.
End Field.

(** ** The built-in tables *)
Definition rows_of (B : table Q21) : list (Q21 * list Q21) :=
  map (fun '(c, a) => (match c with CNum _ x => x | CTag _ _ => q21_0 end, a)) (removelast B).
Definition weights_of (B : table Q21) : list Q21 := snd (last B (CTag _ "", [])).
Notation mkQ := (mk_table Q21).
Notation wfQ := (wf Q21 q21_0).
Notation diagQ := (is_diagonal Q21 q21_0 q21_eqb).
Definition tag_empty (B : table Q21) : bool :=
  match head Q21 B (List.length B - 1) with CTag _ s => (s =? "")%string | _ => false end.
Definition wf_b (rows : list (Q21 * list Q21)) (b : list Q21) : bool :=
  negb (List.length rows =? 0) && forallb (fun i => List.length (snd (nth i rows (q21_0, []))) =? i) (seq 0 (List.length rows))
  && (List.length b =? List.length rows).
Definition handled_b (name : string) (rows : list (Q21 * list Q21)) (b : list Q21) : bool :=
  let n := List.length rows in
  if diagQ (mkQ rows b) then
    if py_in "RK3" name then (n =? 3) && negb (q21_eqb (nth 0 (snd (nth 1 rows (q21_0, []))) q21_0) q21_0)
    else if (name =? "Euler")%string then (n =? 1) && match b with [w] => q21_eqb w q21_1 | _ => false end
    else (2 <=? n) && forallb (fun s => negb (q21_eqb (nth s (snd (nth (S s) rows (q21_0, []))) q21_0) q21_0)) (seq 1 (n - 2))
         && negb (q21_eqb (nth (n - 1) b q21_0) q21_0)
  else true.
Lemma neqb : forall x y, negb (q21_eqb x y) = true -> x <> y.
Proof. intros x y H E. apply q21_eqb_eq in E. rewrite E in H. discriminate. Qed.
Lemma wf_b_ok : forall rows b, wf_b rows b = true -> wfQ rows b.
Proof.
  intros rows b H. unfold wf_b in H. apply andb_true_iff in H as [H H3]. apply andb_true_iff in H as [H1 H2].
  split; [|split].
  - intros ->. discriminate H1.
  - intros i L. rewrite forallb_forall in H2. apply Nat.eqb_eq. apply H2. apply in_seq. lia.
  - now apply Nat.eqb_eq.
Qed.
Lemma handled_b_ok : forall name rows b, handled_b name rows b = true -> handled Q21 q21_0 q21_1 q21_eqb name rows b.
Proof.
  intros name rows b H D. unfold handled_b in H. rewrite D in H. destruct (py_in "RK3" name).
  - apply andb_true_iff in H as [H1 H2]. split; [now apply Nat.eqb_eq|now apply neqb].
  - destruct (name =? "Euler")%string.
    + apply andb_true_iff in H as [H1 H2]. split; [now apply Nat.eqb_eq|]. destruct b as [|w [|]]; try discriminate H2.
      f_equal. now apply q21_eqb_eq.
    + apply andb_true_iff in H as [H H3]. apply andb_true_iff in H as [H1 H2]. split; [now apply Nat.leb_le|split].
      * intros s S1 S2. rewrite forallb_forall in H2. apply neqb, H2, in_seq. lia.
      * now apply neqb.
Qed.
Definition cell_eqb (x y : cell Q21) : bool :=
  match x, y with CNum _ a, CNum _ b => q21_eqb a b | CTag _ a, CTag _ b => (a =? b)%string | _, _ => false end.
Lemma cell_eqb_eq : forall x y, cell_eqb x y = true -> x = y.
Proof.
  intros [a|a] [b|b] H; cbn in H; try discriminate; f_equal; [now apply q21_eqb_eq|now apply String.eqb_eq].
Qed.
Fixpoint list_eqb {A} (f : A -> A -> bool) (l m : list A) : bool :=
  match l, m with [], [] => true | x :: l', y :: m' => f x y && list_eqb f l' m' | _, _ => false end.
Lemma list_eqb_eq : forall A (f : A -> A -> bool), (forall x y, f x y = true -> x = y) ->
  forall l m, list_eqb f l m = true -> l = m.
Proof.
  intros A f F. induction l as [|x l IH]; intros [|y m] H; cbn in H; try discriminate; [reflexivity|].
  apply andb_true_iff in H as [H1 H2]. f_equal; auto.
Qed.
Definition table_eqb : table Q21 -> table Q21 -> bool :=
  list_eqb (fun x y => cell_eqb (fst x) (fst y) && list_eqb q21_eqb (snd x) (snd y)).
Lemma table_eqb_eq : forall B C, table_eqb B C = true -> B = C.
Proof.
  apply list_eqb_eq. intros [c a] [d b] H. cbn in H. apply andb_true_iff in H as [H1 H2]. f_equal; [now apply cell_eqb_eq|].
  revert H2. apply list_eqb_eq. intros x y. apply q21_eqb_eq.
Qed.
Definition builtin_ok (e : string * (table Q21 * nat)) : bool :=
  let '(name, (B, _)) := e in
  if tag_empty B then table_eqb B (mkQ (rows_of B) (weights_of B)) && wf_b (rows_of B) (weights_of B)
                      && handled_b name (rows_of B) (weights_of B)
  else true.
Lemma builtin_all : forallb builtin_ok Butcher_dict = true.
Proof. vm_compute. reflexivity. Qed.

(** The non-adaptive built-in tables are exactly those listed; each is an explicit table the generator handles. *)
Theorem C32_builtin_names :
  map fst (filter (fun e => tag_empty (fst (snd e))) Butcher_dict)
  = ["Euler"; "RK2 Heun"; "RK2 MP"; "RK2 Ralston"; "RK3"; "RK3 Heun"; "RK3 Ralston"; "SSPRK3"; "RK4"; "DP5"; "DP5alt"; "CK5";
     "DP6"; "L6"; "DP8"].
Proof. vm_compute. reflexivity. Qed.
Theorem C32_builtin : forall name B o, In (name, (B, o)) Butcher_dict ->
  (tag_empty B = false /\ gen_step Q21 q21_0 q21_1 q21_eqb name B = Err ValueError) \/
  (tag_empty B = true /\ exists rows b, B = mkQ rows b /\ wfQ rows b /\
   forall (P : Type) (writes : P -> bool) (rhs : Q21 -> (P -> Q21) -> P -> Q21) (post : (P -> Q21) -> P -> Q21),
     (forall t u v, (forall p, u p = v p) -> forall p, rhs t u p = rhs t v p) ->
     (forall u v, (forall p, writes p = true -> u p = v p) -> forall p, post u p = post v p) ->
     (name = "RK3 Heun" \/ name = "RK3 Ralston" -> forall u p, writes p = true -> post u p = u p) ->
     exists prog, gen_step Q21 q21_0 q21_1 q21_eqb name B = Ok prog /\
       forall t dt st p, run_step Q21 q21_add q21_mul q21_sub q21_inv P writes rhs post t dt prog st y_n p
                       = rk_step Q21 q21_0 q21_add q21_mul P rhs post t dt rows b (st y_n) p).
Proof.
  intros name B o I. destruct (tag_empty B) eqn:T.
  - right. split; [reflexivity|]. pose proof builtin_all as H. rewrite forallb_forall in H. specialize (H _ I).
    cbn [builtin_ok] in H. rewrite T in H. apply andb_true_iff in H as [H H3]. apply andb_true_iff in H as [H1 H2].
    apply table_eqb_eq in H1. exists (rows_of B), (weights_of B). split; [exact H1|]. apply wf_b_ok in H2. split; [exact H2|].
    intros P writes rhs post RE PD PI.
    pose proof (C32_step Q21 q21_0 q21_1 q21_add q21_mul q21_sub q21_opp q21_inv q21_div q21_eqb q21_field q21_eqb_eq P writes rhs
             post RE PD name (rows_of B) (weights_of B) H2) as G. rewrite <- H1 in G. apply G.
    + now apply handled_b_ok.
    + intros D R. apply PI. clear G.
      assert (G : forallb (fun '(n, (B, _)) => negb (tag_empty B && diagQ B && py_in "RK3" n)
                            || (n =? "RK3 Heun")%string || (n =? "RK3 Ralston")%string) Butcher_dict = true)
        by (vm_compute; reflexivity).
      rewrite forallb_forall in G. specialize (G _ I). cbn beta iota in G. rewrite T, D, R in G. cbn [andb negb orb] in G.
      apply orb_true_iff in G. destruct G as [G|G]; apply String.eqb_eq in G; auto.
  - left. split; [reflexivity|]. apply C32_adaptive_refused. intros s E ->. unfold tag_empty in T. rewrite E in T. discriminate T.
Qed.
(** Hypotheses met: RK4 has the diagonal scheme, L6 (with sqrt(21)) the general one, RK3 Heun the two-array one. *)
Example C32_ex_schemes :
  map (fun n => match dget n Butcher_dict with Some (B, _) => Some (diagQ B, List.length B - 1) | None => None end)
      ["RK4"; "L6"; "RK3 Heun"; "Euler"]
  = [Some (true, 4); Some (false, 7); Some (true, 3); Some (true, 1)].
Proof. vm_compute. reflexivity. Qed.

(** ** Concrete runs and counterexamples, over the rationals: one point, y' = y. *)
Definition q (a : Z) : Qc := Q2Qc (a # 1).
Notation runQ post := (run_step Qc Qcplus Qcmult Qcminus Qcinv unit (fun _ => true) (fun _ u => u) post).
Notation rkQ post := (rk_step Qc (Q2Qc 0) Qcplus Qcmult unit (fun _ u => u) post).
Notation genQ := (gen_step Qc (Q2Qc 0) (Q2Qc 1) Qc_eq_bool).
Definition idpost (u : unit -> Qc) : unit -> Qc := u.
Definition st_of (y other : Qc) : string -> unit -> Qc := fun s _ => if (s =? y_n)%string then y else other.
Definition one_step (name : string) (post : (unit -> Qc) -> unit -> Qc) (rows : list (Qc * list Qc)) (b : list Qc) (junk : Qc)
  : option (Qc * Qc) :=
  match genQ name (MoLFacts.mk_table Qc rows b) with
  | Ok prog => Some (runQ post (q 0) (q 1) prog (st_of (q 1) junk) y_n tt, rkQ post (q 0) (q 1) rows b (fun _ => q 1) tt)
  | Err _ => None
  end.
(** A correct case: Heun's second-order method on y' = y with dt = 1 gives 5/2 both ways. *)
Example C32_ex_heun : one_step "RK2 Heun" idpost [(q 0, []); (q 1, [q 1])] [Q2Qc (1 # 2); Q2Qc (1 # 2)] (q 7)
  = Some (Q2Qc (5 # 2), Q2Qc (5 # 2)).
Proof. vm_compute. reflexivity. Qed.

Notation differs r := (match r with Some (x, y) => Qc_eq_bool x y = false | None => False end).
(** The conditions in [handled] are needed: a zero sub-diagonal entry makes the next stage start from the slope instead of
    from y_n, *)
Theorem C32_zero_subdiagonal_refuted :
  differs (one_step "mine" idpost [(q 0, []); (q 1, [q 1]); (q 0, [q 0; q 0])] [q 1; q 1; q 1] (q 0)).
Proof. vm_compute. reflexivity. Qed.
(** a zero last weight makes the whole update disappear, *)
Theorem C32_zero_last_weight_refuted : differs (one_step "mine" idpost [(q 0, []); (q 1, [q 1])] [q 1; q 0] (q 0)).
Proof. vm_compute. reflexivity. Qed.
(** a one-stage table not called Euler adds an array nothing has written, *)
Theorem C32_one_stage_refuted : differs (one_step "FE" idpost [(q 0, [])] [q 1] (q 5)).
Proof. vm_compute. reflexivity. Qed.
(** the Euler code ignores the weight, *)
Theorem C32_euler_weight_refuted : differs (one_step "Euler" idpost [(q 0, [])] [q 2] (q 0)).
Proof. vm_compute. reflexivity. Qed.
(** and the two-array RK3 code recovers k_1 from an array that the post-RHS function has changed. *)
Theorem C32_rk3_post_refuted :
  differs (one_step "RK3" (fun u p => u p * q 2)%Qc [(q 0, []); (q 1, [q 1]); (q 1, [q 0; q 1])] [q 1; q 1; q 1] (q 0)).
Proof. vm_compute. reflexivity. Qed.

(** ** Examples for C39: RK4, all arrays. *)
Example C39_ex_rk4 : match dget "RK4" Butcher_dict with
  | Some (B, _) => malloc_list Q21 q21_0 q21_eqb "non_y_n_gfs" "RK4" B 2
                   = Ok ["y_nplus1_running_total_gfs"; "k_odd_gfs"; "k_even_gfs"; "auxevol_gfs"]
  | None => False end.
Proof. vm_compute. reflexivity. Qed.
Example C39_ex_used : match dget "RK4" Butcher_dict with
  | Some (B, _) => match gen_step Q21 q21_0 q21_1 q21_eqb "RK4" B with
                   | Ok prog => map (fun s => (ss_in _ s, ss_out _ s)) prog
                                = [("y_n_gfs", "k_odd_gfs"); ("k_odd_gfs", "k_even_gfs"); ("k_even_gfs", "k_odd_gfs");
                                   ("k_odd_gfs", "k_even_gfs")]
                   | Err _ => False end
  | None => False end.
Proof. vm_compute. reflexivity. Qed.
Example C39_ex_pointers : match dget "L6" Butcher_dict with
  | Some (B, _) => pointer_targets Q21 q21_0 q21_eqb "L6" B = ["k1_gfs"; "k2_gfs"]
  | None => False end.
Proof. vm_compute. reflexivity. Qed.
Example C39_ex_euler : match dget "Euler" Butcher_dict with
  | Some (B, _) => diagQ B = true /\ struct_members Q21 q21_0 q21_eqb "Euler" B
      = ["y_n_gfs"; "y_nplus1_running_total_gfs"; "auxevol_gfs"; "diagnostic_output_gfs"; "diagnostic_output_gfs2"]
  | None => False end.
Proof. vm_compute. split; reflexivity. Qed.

Print Assumptions C32_step.
Print Assumptions C32_adaptive_refused.
Print Assumptions C32_time.
Print Assumptions C32_builtin.
Print Assumptions C32_zero_subdiagonal_refuted.
Print Assumptions C39_malloc_free.
Print Assumptions C39_no_double.
Print Assumptions C39_used.
Print Assumptions C39_pointers.
Print Assumptions C39_struct.
