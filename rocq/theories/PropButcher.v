(** C33: the built-in Runge-Kutta tables are explicit, consistent and of the stated order. *)
From Coq Require Import String List Bool Arith QArith Qcanon ZArith Lia Field.
From Verif Require Import PyBase MoL MoLFacts Butcher ButcherFacts ButcherOrder ButcherCompute PropMoL.
Import ListNotations.
Open Scope string_scope.
Open Scope nat_scope.

(** Stage rows, and weight rows with their tags ("" or HO and LO). *)
Definition stages (B : table Q21) : list (Q21 * list Q21) :=
  flat_map (fun '(c, a) => match c with CNum _ x => [(x, a)] | CTag _ _ => [] end) B.
Definition weights (B : table Q21) : list (string * list Q21) :=
  flat_map (fun '(c, a) => match c with CNum _ _ => [] | CTag _ s => [(s, a)] end) B.
Notation has_orderQ := (has_order Q21 q21_0 q21_1 q21_add q21_mul).
Notation row_sumsQ := (row_sums Q21 q21_0 q21_add).
Notation knatQ := (knat Q21 q21_0 q21_1 q21_add).
Definition approximate (name : string) : bool := ((name =? "DP8") || (name =? "ADP8"))%string.

Definition shape_b (B : table Q21) : bool :=
  table_eqb B (map (fun '(c, a) => (CNum _ c, a)) (stages B) ++ map (fun '(s, a) => (CTag _ s, a)) (weights B))%list
  && (list_eqb String.eqb (map fst (weights B)) [""] || list_eqb String.eqb (map fst (weights B)) ["HO"; "LO"])
  && forallb (fun w => wf_b (stages B) (snd w)) (weights B).
(** Every table is a list of stage rows, row i with i coefficients, followed by one weight row or by a higher-order and a
    lower-order one, with one weight per stage: an explicit method. *)
Theorem C33_explicit : forall name B o, In (name, (B, o)) Butcher_dict ->
  B = (map (fun '(c, a) => (CNum _ c, a)) (stages B) ++ map (fun '(s, a) => (CTag _ s, a)) (weights B))%list /\
  (map fst (weights B) = [""] \/ map fst (weights B) = ["HO"; "LO"]) /\
  forall s w, In (s, w) (weights B) -> wf Q21 q21_0 (stages B) w.
Proof.
  intros name B o I. assert (H : forallb (fun e => shape_b (fst (snd e))) Butcher_dict = true) by (vm_compute; reflexivity).
  rewrite forallb_forall in H. specialize (H _ I). cbn [fst snd] in H. unfold shape_b in H.
  apply andb_true_iff in H as [H H3]. apply andb_true_iff in H as [H1 H2]. split; [now apply table_eqb_eq|split].
  - apply orb_true_iff in H2. assert (E : forall x y, (x =? y)%string = true -> x = y) by (intros; now apply String.eqb_eq).
    destruct H2 as [H2|H2]; apply (list_eqb_eq _ _ E) in H2; auto.
  - intros s w J. rewrite forallb_forall in H3. apply wf_b_ok. exact (H3 _ J).
Qed.

Definition rows_b (B : table Q21) : bool :=
  forallb (fun '(c, a) => q21_eqb (fold_right q21_add q21_0 a) c) (stages B).
(** The c column is the row sums (DP8 and its adaptive twin only approximately). *)
Theorem C33_row_sums : forall name B o, In (name, (B, o)) Butcher_dict -> approximate name = false -> row_sumsQ (stages B).
Proof.
  intros name B o I E i L.
  assert (H : forallb (fun e => approximate (fst e) || rows_b (fst (snd e))) Butcher_dict = true) by (vm_compute; reflexivity).
  rewrite forallb_forall in H. specialize (H _ I). cbn [fst snd] in H. rewrite E in H. cbn [orb] in H.
  unfold rows_b in H. rewrite forallb_forall in H. specialize (H _ (nth_In _ (q21_0, []) L)).
  destruct (nth i (stages B) (q21_0, [])) as [c a]. now apply q21_eqb_eq.
Qed.

Definition order_ok (e : string * (table Q21 * nat)) : bool :=
  let '(name, (B, o)) := e in
  if approximate name then true else
  forallb (fun '(s, w) => order_qq (map (map to_qq) (map snd (stages B))) (map to_qq w)
                            (if (s =? "LO")%string then o - 1 else o)) (weights B).
Lemma order_all : forallb order_ok Butcher_dict = true.
Proof. vm_compute. reflexivity. Qed.
(** Order: Phi(t) = 1/gamma(t) for every rooted tree with at most [o] nodes, [o] the stated order; for the lower-order weights
    of the adaptive tables, at most [o-1] nodes. *)
Theorem C33_order : forall name B o s w, In (name, (B, o)) Butcher_dict -> approximate name = false -> In (s, w) (weights B) ->
  has_orderQ (map snd (stages B)) w (if (s =? "LO")%string then o - 1 else o).
Proof.
  intros name B o s w I E J. pose proof order_all as H. rewrite forallb_forall in H. specialize (H _ I).
  cbn [order_ok] in H. rewrite E in H. rewrite forallb_forall in H. specialize (H _ J). cbn beta iota in H.
  now apply order_qq_ok.
Qed.
(** In particular the weights sum to one. *)
Theorem C33_weights_sum : forall name B o s w, In (name, (B, o)) Butcher_dict -> approximate name = false ->
  In (s, w) (weights B) -> fold_right q21_add q21_0 w = q21_1.
Proof.
  intros name B o s w I E J.
  pose proof (C33_order name B o s w I E J leaf) as H.
  assert (L : size leaf <= (if (s =? "LO")%string then o - 1 else o)).
  { assert (G : forallb (fun '(_, (B, o)) => forallb (fun '(s, _) => 1 <=? (if (s =? "LO")%string then o - 1 else o)) (weights B))
                  Butcher_dict = true) by (vm_compute; reflexivity).
    rewrite forallb_forall in G. specialize (G _ I). cbn beta iota in G. rewrite forallb_forall in G. specialize (G _ J).
    cbn beta iota in G. now apply Nat.leb_le. }
  specialize (H L). unfold Phi in H.
  rewrite (phi_leaf_repeat Q21 q21_0 q21_1 q21_add q21_mul) in H.
  assert (W : List.length w <= List.length (stages B)).
  { destruct (C33_explicit name B o I) as [_ [_ X]]. destruct (X s w J) as [_ [_ X']]. lia. }
  rewrite (dotl_ones Q21 q21_0 q21_1 q21_add q21_mul q21_sub q21_opp q21_inv q21_div q21_field) in H by exact W.
  rewrite <- H. pose proof q21_ring as R. change (knatQ (gamma leaf)) with (q21_add q21_1 q21_0).
  rewrite (Radd_comm R), (Radd_0_l R), (Rmul_comm R), (Rmul_1_l R). reflexivity.
Qed.

Lemma stages_rows : forall rows b, stages (mk_table Q21 rows b) = rows /\ weights (mk_table Q21 rows b) = [("", b)].
Proof.
  intros rows b. unfold mk_table, stages, weights. rewrite !flat_map_app. cbn [flat_map List.app]. rewrite app_nil_r. split.
  - induction rows as [|[c a] rows IH]; [reflexivity|]. cbn [map flat_map List.app]. now rewrite IH.
  - induction rows as [|[c a] rows IH]; [reflexivity|]. cbn [map flat_map List.app]. exact IH.
Qed.
(** Hence for the code generated from a non-adaptive table (DP8 aside), with a post-RHS function that does nothing: on
    y' = lambda y one step multiplies y by a polynomial in z = lambda dt that agrees with the series of exp(z) up to the
    stated order, *)
Theorem C33_linear : forall name B o, In (name, (B, o)) Butcher_dict -> tag_empty B = true -> approximate name = false ->
  exists prog, gen_step Q21 q21_0 q21_1 q21_eqb name B = Ok prog /\
  exists n (d : nat -> Q21), (forall m, m <= o -> q21_mul (d m) (knatQ (fact m)) = q21_1) /\
    forall (P : Type) lam t dt (st : string -> P -> Q21) p,
      run_step Q21 q21_add q21_mul q21_sub q21_inv P (fun _ => true) (fun _ u p => q21_mul lam (u p)) (fun u => u) t dt prog st y_n p
      = q21_mul (st y_n p)
          (sumn Q21 q21_0 q21_add n (fun m => q21_mul (d m) (kpow Q21 q21_1 q21_mul (q21_mul lam dt) m))).
Proof.
  intros name B o I T E. destruct (C32_builtin name B o I) as [[F _]|[_ [rows [b [EB [WF H]]]]]]; [congruence|].
  destruct (stages_rows rows b) as [S W]. rewrite <- EB in S, W.
  assert (O : has_orderQ (map snd rows) b o).
  { rewrite <- S. apply (C33_order name B o "" b I E). rewrite W. now left. }
  assert (X : exists prog, gen_step Q21 q21_0 q21_1 q21_eqb name B = Ok prog).
  { destruct (H unit (fun _ => true) (fun _ u => u) (fun u => u)) as [prog [G _]]; auto. now exists prog. }
  destruct X as [prog G]. exists prog. split; [exact G|].
  exists (Datatypes.S (List.length rows)), (lin_coef Q21 q21_0 q21_1 q21_add q21_mul rows b). split.
  - intros m L. exact (linear_order Q21 q21_0 q21_1 q21_add q21_mul q21_sub q21_opp q21_inv q21_div q21_field rows b o O m L).
  - intros P lam t dt st p. destruct (H P (fun _ => true) (fun _ u p => q21_mul lam (u p)) (fun u => u)) as [prog' [G' R]]; auto.
    { intros t' u v UV q. now rewrite UV. }
    rewrite G in G'. inversion G'; subst prog'. rewrite R.
    exact (linear_step Q21 q21_0 q21_1 q21_add q21_mul q21_sub q21_opp q21_inv q21_div q21_field rows b WF P lam t dt (st y_n) p).
Qed.
(** and on y' = g(t), g a polynomial of degree below the stated order, one step is the exact integral. *)
Theorem C33_quadrature : forall name B o, In (name, (B, o)) Butcher_dict -> tag_empty B = true -> approximate name = false ->
  exists prog, gen_step Q21 q21_0 q21_1 q21_eqb name B = Ok prog /\
    forall (P : Type) t dt (g : nat -> P -> Q21) (st : string -> P -> Q21) p,
      run_step Q21 q21_add q21_mul q21_sub q21_inv P (fun _ => true)
        (fun tau _ p => sumn Q21 q21_0 q21_add o (fun k => q21_mul (g k p) (kpow Q21 q21_1 q21_mul (q21_sub tau t) k)))
        (fun u => u) t dt prog st y_n p
      = q21_add (st y_n p)
          (sumn Q21 q21_0 q21_add o (fun k => q21_mul (g k p) (q21_mul (kpow Q21 q21_1 q21_mul dt (S k)) (q21_inv (knatQ (S k)))))).
Proof.
  intros name B o I T E. destruct (C32_builtin name B o I) as [[F _]|[_ [rows [b [EB [WF H]]]]]]; [congruence|].
  destruct (stages_rows rows b) as [S W]. rewrite <- EB in S, W.
  assert (O : has_orderQ (map snd rows) b o).
  { rewrite <- S. apply (C33_order name B o "" b I E). rewrite W. now left. }
  assert (RS : row_sumsQ rows) by (rewrite <- S; now apply (C33_row_sums name B o)).
  assert (X : exists prog, gen_step Q21 q21_0 q21_1 q21_eqb name B = Ok prog).
  { destruct (H unit (fun _ => true) (fun _ u => u) (fun u => u)) as [prog [G _]]; auto. now exists prog. }
  destruct X as [prog G]. exists prog. split; [exact G|]. intros P t dt g st p.
  destruct (H P (fun _ => true) (fun tau _ p => sumn Q21 q21_0 q21_add o
      (fun k => q21_mul (g k p) (kpow Q21 q21_1 q21_mul (q21_sub tau t) k))) (fun u => u)) as [prog' [G' R]]; auto.
  rewrite G in G'. inversion G'; subst prog'. rewrite R.
  exact (quadrature Q21 q21_0 q21_1 q21_add q21_mul q21_sub q21_opp q21_inv q21_div q21_field rows b WF P o O RS t dt (st y_n) g p).
Qed.

(** DP8 (and ADP8) hold rational approximations: not even the weights sum to one exactly. *)
Theorem C33_dp8_refuted :
  exists B w, In ("DP8", (B, 8)) Butcher_dict /\ In ("", w) (weights B) /\ fold_right q21_add q21_0 w <> q21_1.
Proof.
  exists bt_DP8. eexists. split; [cbn; tauto|]. split; [left; reflexivity|]. intros H. apply q21_eqb_eq in H. vm_compute in H. discriminate H.
Qed.

(** Hypotheses met and the statements concrete: nineteen of the twenty-one tables; the trees of RK4; the weights of ARKF. *)
Example C33_ex_names : List.length (filter (fun e => negb (approximate (fst e))) Butcher_dict) = 19.
Proof. reflexivity. Qed.
Example C33_ex_trees : List.length (trees_upto 4) = 9 /\ map gamma [Node [leaf; leaf; leaf]; Node [leaf; Node [leaf]]; Node [Node [leaf; leaf]]; tall 3] = [4; 8; 12; 24].
Proof. split; reflexivity. Qed.
Example C33_ex_rk4 : Phi Q21 q21_0 q21_1 q21_add q21_mul (map snd (stages bt_RK4)) (snd (last (weights bt_RK4) ("", []))) (tall 3) = r 1 24.
Proof. apply q21_eqb_eq. vm_compute. reflexivity. Qed.
Example C33_ex_adaptive : map fst (weights bt_ARKF) = ["HO"; "LO"] /\ tag_empty bt_ARKF = false.
Proof. split; reflexivity. Qed.

Print Assumptions C33_explicit.
Print Assumptions C33_row_sums.
Print Assumptions C33_order.
Print Assumptions C33_weights_sum.
Print Assumptions C33_linear.
Print Assumptions C33_quadrature.
Print Assumptions C33_dp8_refuted.
