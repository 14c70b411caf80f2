(** Specification of the order of a Runge-Kutta method (rooted trees, elementary weights) and what the order conditions give:
    exactness on polynomials in time and the Taylor polynomial of exp on linear problems. *)
From Coq Require Import String List Bool Arith Lia Field.
From Verif Require Import PyBase MoL MoLFacts.
Import ListNotations.

(** ** Rooted (ordered) trees: Butcher 1963; Hairer, Norsett, Wanner I, II.2 *)
Inductive tree : Type := Node (children : list tree).
Fixpoint size (t : tree) : nat := match t with Node l => S (fold_right (fun u n => size u + n) 0 l) end.
Definition fsize (l : list tree) : nat := fold_right (fun u n => size u + n) 0 l.
(** density *)
Fixpoint gamma (t : tree) : nat :=
  match t with Node l => S (fsize l) * fold_right (fun u n => gamma u * n) 1 l end.

(** All forests (lists of trees) with [n] nodes in total. *)
Fixpoint forests (fuel n : nat) : list (list tree) :=
  match fuel with
  | 0 => [[]]
  | S fuel' =>
      match n with
      | 0 => [[]]
      | S m => flat_map (fun k => flat_map (fun f1 => map (fun f2 => Node f1 :: f2) (forests fuel' (m - k))) (forests fuel' k))
                        (seq 0 (S m))
      end
  end.
Lemma forests_complete : forall fuel n l, n <= fuel -> fsize l = n -> In l (forests fuel n).
Proof.
  induction fuel as [|fuel IH]; intros n l L E.
  - assert (Z : n = 0) by lia. destruct l as [|[c] l]; [now left|]. cbn in E. lia.
  - destruct l as [|[c] l].
    + cbn in E. subst n. now left.
    + destruct n as [|m]; [cbn in E; lia|]. change (S (fsize c) + fsize l = S m) in E.
      cbn [forests]. apply in_flat_map. exists (fsize c). split; [apply in_seq; lia|].
      apply in_flat_map. exists c. split; [apply IH; [lia|reflexivity]|]. apply in_map. apply IH; lia.
Qed.
(** All trees with at most [p] nodes. *)
Definition trees_upto (p : nat) : list tree := flat_map (fun n => map Node (forests n n)) (seq 0 p).
Lemma trees_upto_complete : forall p t, size t <= p -> In t (trees_upto p).
Proof.
  intros p [l] L. change (S (fsize l) <= p) in L. apply in_flat_map. exists (fsize l). split; [apply in_seq; lia|].
  apply in_map. now apply forests_complete.
Qed.

Section Order.
Variable K : Type.
Variables (kO kI : K) (kadd kmul ksub : K -> K -> K) (kopp kinv : K -> K) (kdiv : K -> K -> K).
Infix "+" := kadd. Infix "*" := kmul. Infix "-" := ksub.
Notation "0" := kO. Notation "1" := kI.

Fixpoint dotl (x y : list K) : K := match x, y with a :: x', b :: y' => a * b + dotl x' y' | _, _ => 0 end.
Fixpoint knat (n : nat) : K := match n with O => 0 | S m => 1 + knat m end.
(** elementary weight of stage i: product over the children u of sum_j a_ij phi_j(u) *)
Fixpoint phi (A : list (list K)) (t : tree) : list K :=
  match t with
  | Node l => let vs := map (phi A) l in map (fun row => fold_right (fun v acc => dotl row v * acc) 1 vs) A
  end.
Definition Phi (A : list (list K)) (b : list K) (t : tree) : K := dotl b (phi A t).
(** order p: Phi(t) = 1/gamma(t) for all trees with at most p nodes *)
Definition has_order (A : list (list K)) (b : list K) (p : nat) : Prop :=
  forall t, size t <= p -> Phi A b t * knat (gamma t) = 1.

Variable keqb : K -> K -> bool.
Hypothesis keqb_eq : forall a b, keqb a b = true <-> a = b.
Definition order_b (A : list (list K)) (b : list K) (p : nat) : bool :=
  forallb (fun t => keqb (Phi A b t * knat (gamma t)) 1) (trees_upto p).
Lemma order_b_ok : forall A b p, order_b A b p = true -> has_order A b p.
Proof.
  intros A b p H t L. unfold order_b in H. rewrite forallb_forall in H. apply keqb_eq, H. now apply trees_upto_complete.
Qed.

Hypothesis Fth : field_theory kO kI kadd kmul ksub kopp kdiv kinv eq.
Add Field Kf : Fth.
Fixpoint kpow (x : K) (n : nat) : K := match n with O => 1 | S m => x * kpow x m end.
(** sum of f over 0..n-1 *)
Fixpoint sumn (n : nat) (f : nat -> K) : K := match n with O => 0 | S m => sumn m f + f m end.
Lemma sumn_ext : forall n f g, (forall i, (i < n)%nat -> f i = g i) -> sumn n f = sumn n g.
Proof. induction n as [|n IH]; intros f g H; [reflexivity|]. cbn. rewrite (H n) by lia. f_equal. apply IH. auto. Qed.
Lemma sumn_add : forall n f g, sumn n (fun i => f i + g i) = sumn n f + sumn n g.
Proof. induction n as [|n IH]; intros; cbn; [ring|]. rewrite IH. ring. Qed.
Lemma sumn_scale : forall n c f, sumn n (fun i => c * f i) = c * sumn n f.
Proof. induction n as [|n IH]; intros; cbn; [ring|]. rewrite IH. ring. Qed.
Lemma sumn_zero : forall n f, (forall i, (i < n)%nat -> f i = 0) -> sumn n f = 0.
Proof. induction n as [|n IH]; intros f H; cbn; [reflexivity|]. rewrite (H n) by lia. rewrite IH by auto. ring. Qed.
Lemma sumn_swap : forall n m f, sumn n (fun i => sumn m (f i)) = sumn m (fun j => sumn n (fun i => f i j)).
Proof.
  induction n as [|n IH]; intros m f; cbn.
  - symmetry. apply sumn_zero. reflexivity.
  - rewrite IH, <- sumn_add. reflexivity.
Qed.
Lemma sumn_first : forall n f, sumn (S n) f = f O + sumn n (fun i => f (S i)).
Proof. induction n as [|n IH]; intros f; [cbn; ring|]. cbn [sumn] in *. rewrite IH. ring. Qed.
Lemma ksum_sumn : forall n f, ksum K kO kadd (seq 0 n) f = sumn n f.
Proof.
  induction n as [|n IH]; intros f; [reflexivity|]. rewrite seq_S, (ksum_app K kO kI kadd kmul ksub kopp kinv kdiv Fth), IH. cbn. ring.
Qed.
Lemma dotl_sumn : forall x y, (length x <= length y)%nat -> dotl x y = sumn (length x) (fun j => nth j x 0 * nth j y 0).
Proof.
  induction x as [|a x IH]; intros y L; [reflexivity|]. destruct y as [|b y]; [cbn in L; lia|].
  cbn [length]. rewrite sumn_first. cbn [dotl nth]. f_equal. apply IH. cbn in L. lia.
Qed.

(** ** Special trees *)
Definition leaf : tree := Node [].
Definition bushy (m : nat) : tree := Node (repeat leaf m).
Fixpoint tall (m : nat) : tree := match m with O => leaf | S k => Node [tall k] end.
Lemma fsize_repeat_leaf : forall m, fsize (repeat leaf m) = m.
Proof. induction m as [|m IH]; [reflexivity|]. cbn [repeat fsize fold_right] in *. unfold fsize in IH. rewrite IH. reflexivity. Qed.
Lemma size_bushy : forall m, size (bushy m) = S m.
Proof. intros m. change (S (fsize (repeat leaf m)) = S m). now rewrite fsize_repeat_leaf. Qed.
Lemma gamma_bushy : forall m, gamma (bushy m) = S m.
Proof.
  intros m. unfold bushy. cbn [gamma]. rewrite fsize_repeat_leaf.
  assert (E : fold_right (fun u n => (gamma u * n)%nat) 1%nat (repeat leaf m) = 1%nat).
  { induction m as [|m IH]; [reflexivity|]. cbn [repeat fold_right]. rewrite IH. reflexivity. }
  rewrite E. lia.
Qed.
Lemma size_tall : forall m, size (tall m) = S m.
Proof. induction m as [|m IH]; [reflexivity|]. cbn [tall size fold_right]. rewrite IH. lia. Qed.
Lemma gamma_tall : forall m, gamma (tall m) = fact (S m).
Proof.
  induction m as [|m IH]; [reflexivity|]. cbn [tall gamma fsize fold_right]. rewrite IH, size_tall.
  change (fact (S (S m))) with (S (S m) * fact (S m))%nat. lia.
Qed.

(** ** Consequences for a well-formed table *)
Section Table.
Variables (rows : list (K * list K)) (b : list K).
Hypothesis WF : wf K kO rows b.
Notation s := (length rows).
Notation A := (map snd rows).
Notation row i := (snd (nth i rows (0, []))).
Notation ci i := (fst (nth i rows (0, []))).
Definition row_sums : Prop := forall i, (i < s)%nat -> fold_right kadd 0 (row i) = ci i.

Lemma nth_A : forall (f : list K -> K) i, (i < s)%nat -> nth i (map f A) 0 = f (row i).
Proof.
  intros f i L. rewrite map_map. rewrite (nth_indep _ _ (f (snd (0, [])))) by (rewrite map_length; exact L).
  exact (map_nth (fun x => f (snd x)) rows (0, []) i).
Qed.
Lemma row_len' : forall i, (i < s)%nat -> length (row i) = i.
Proof. apply WF. Qed.
Lemma b_len' : length b = s.
Proof. apply WF. Qed.
Lemma phi_len : forall t, length (phi A t) = s.
Proof. intros [l]. cbn. now rewrite !map_length. Qed.
Lemma phi_leaf : forall i, (i < s)%nat -> nth i (phi A leaf) 0 = 1.
Proof. intros i L. cbn [leaf phi map]. rewrite (nth_A (fun row => fold_right (fun v acc => dotl row v * acc) 1 [])) by exact L. reflexivity. Qed.
Lemma dotl_row : forall i t, (i < s)%nat -> dotl (row i) (phi A t) = sumn i (fun j => nth j (row i) 0 * nth j (phi A t) 0).
Proof. intros i t L. rewrite dotl_sumn by (rewrite phi_len, row_len'; lia). now rewrite row_len'. Qed.
Lemma phi_tall_S : forall m i, (i < s)%nat ->
  nth i (phi A (tall (S m))) 0 = sumn i (fun j => nth j (row i) 0 * nth j (phi A (tall m)) 0).
Proof.
  intros m i L. cbn [tall phi map]. rewrite (nth_A (fun row => fold_right (fun v acc => dotl row v * acc) 1 [phi A (tall m)])) by exact L.
  cbn [fold_right]. rewrite dotl_row by exact L. ring.
Qed.
Lemma phi_tall_zero : forall m i, (i < s)%nat -> (i < m)%nat -> nth i (phi A (tall m)) 0 = 0.
Proof.
  induction m as [|m IH]; intros i L M; [lia|]. rewrite phi_tall_S by exact L. apply sumn_zero. intros j J.
  rewrite IH by lia. ring.
Qed.
Lemma dotl_ones : forall x m, (length x <= m)%nat -> dotl x (repeat 1 m) = fold_right kadd 0 x.
Proof.
  induction x as [|a x IH]; intros m L; [reflexivity|]. destruct m as [|m]; [cbn in L; lia|]. cbn. rewrite IH by (cbn in L; lia). ring.
Qed.
Lemma phi_leaf_repeat : phi A leaf = repeat 1 s.
Proof. cbn. rewrite map_map. clear. induction rows as [|x l IH]; [reflexivity|]. cbn. now rewrite IH. Qed.
Lemma phi_bushy : row_sums -> forall m i, (i < s)%nat -> nth i (phi A (bushy m)) 0 = kpow (ci i) m.
Proof.
  intros RS m i L. unfold bushy. cbn [phi].
  rewrite (nth_A (fun row => fold_right (fun v acc => dotl row v * acc) 1 (map (phi A) (repeat leaf m)))) by exact L.
  induction m as [|m IH]; [reflexivity|]. cbn [repeat map fold_right kpow]. rewrite IH. f_equal.
  rewrite phi_leaf_repeat, dotl_ones by (rewrite row_len'; lia). now apply RS.
Qed.
Lemma Phi_sumn : forall t, Phi A b t = sumn s (fun i => nth i b 0 * nth i (phi A t) 0).
Proof. intros t. unfold Phi. rewrite dotl_sumn by (rewrite phi_len, b_len'; lia). now rewrite b_len'. Qed.

(** ** y' = lambda y *)
Variable P : Type.
Notation arr := (P -> K).
Notation zarr := (zarr K kO P).
Lemma step_sumn : forall rhs t dt y p,
  rk_step K kO kadd kmul P rhs (fun u => u) t dt rows b y p
  = y p + dt * sumn s (fun i => nth i b 0 * nth i (rk_stages K kO kadd kmul P rhs (fun u => u) t dt y rows []) zarr p).
Proof.
  intros. unfold rk_step, comb. rewrite (dot_ksum K kO kadd kmul P).
  2:{ rewrite (rk_stages_len K kO kadd kmul P). cbn. rewrite b_len'. lia. }
  rewrite ksum_sumn, b_len'. reflexivity.
Qed.
Lemma stage_sumn : forall rhs t dt y i, (i < s)%nat ->
  let S := rk_stages K kO kadd kmul P rhs (fun u => u) t dt y rows [] in
  (forall t u v, (forall p, u p = v p) -> forall p, rhs t u p = rhs t v p) ->
  forall p, nth i S zarr p = rhs (t + ci i * dt) (fun q => y q + dt * sumn i (fun j => nth j (row i) 0 * nth j S zarr q)) p.
Proof.
  intros rhs t dt y i L S RE p. pose proof (rk_stages_nth K kO kadd kmul P rhs (fun u => u) t dt y rows [] i L) as H.
  cbv zeta in H. cbn [length Nat.add] in H. fold S in H. rewrite H. apply RE. intros q. destruct i as [|i].
  - cbn. ring.
  - cbn [stage_input]. unfold comb. rewrite (dot_ksum K kO kadd kmul P).
    + rewrite ksum_sumn, row_len' by exact L. f_equal. f_equal. apply sumn_ext. intros j J. rewrite nth_firstn_lt by lia. reflexivity.
    + rewrite firstn_length. unfold S. rewrite (rk_stages_len K kO kadd kmul P), row_len' by exact L. cbn [length Nat.add]. lia.
Qed.
Definition lin_coef (m : nat) : K := match m with O => 1 | S k => Phi A b (tall k) end.
Lemma linear_stage : forall lam t dt y i, (i < s)%nat -> forall p,
  nth i (rk_stages K kO kadd kmul P (fun _ u p => lam * u p) (fun u => u) t dt y rows []) zarr p
  = lam * y p * sumn s (fun m => kpow (lam * dt) m * nth i (phi A (tall m)) 0).
Proof.
  intros lam t dt y i. induction i as [i IH] using lt_wf_ind. intros L p.
  rewrite stage_sumn by (exact L || (intros; f_equal; auto)).
  set (Sg := rk_stages _ _ _ _ _ _ _ _ _ _ _ _) in *.
  set (z := lam * dt) in *.
  assert (E : dt * sumn i (fun j => nth j (row i) 0 * nth j Sg zarr p)
              = y p * sumn s (fun m => kpow z (S m) * nth i (phi A (tall (S m))) 0)).
  { transitivity (z * y p * sumn i (fun j => sumn s (fun m => nth j (row i) 0 * (kpow z m * nth j (phi A (tall m)) 0)))).
    { rewrite (sumn_ext i _ (fun j => (lam * y p) * sumn s (fun m => nth j (row i) 0 * (kpow z m * nth j (phi A (tall m)) 0)))).
      { rewrite sumn_scale. unfold z. ring. }
      intros j J. rewrite IH by lia. rewrite sumn_scale. ring. }
    rewrite sumn_swap. rewrite <- !sumn_scale. apply sumn_ext. intros m M. rewrite phi_tall_S by exact L.
    cbn [kpow]. rewrite (sumn_ext i _ (fun j => kpow z m * (nth j (row i) 0 * nth j (phi A (tall m)) 0)))
      by (intros; ring). rewrite sumn_scale. ring. }
  rewrite E.
  assert (F : sumn s (fun m => kpow z m * nth i (phi A (tall m)) 0)
              = 1 + sumn s (fun m => kpow z (S m) * nth i (phi A (tall (S m))) 0)).
  { pose proof (sumn_first s (fun m => kpow z m * nth i (phi A (tall m)) 0)) as G. cbn [sumn] in G.
    rewrite (phi_tall_zero s i L L) in G. change (tall 0) with leaf in G. rewrite phi_leaf in G by exact L. change (kpow z 0) with 1 in G.
    transitivity (sumn s (fun m => kpow z m * nth i (phi A (tall m)) 0) + kpow z s * 0); [ring|]. rewrite G. ring. }
  rewrite F. ring.
Qed.
(** One step multiplies y by the polynomial sum_m d_m (lambda dt)^m, where d_m m! = 1 for m up to the order. *)
Theorem linear_step : forall lam t dt y p,
  rk_step K kO kadd kmul P (fun _ u p => lam * u p) (fun u => u) t dt rows b y p
  = y p * sumn (S s) (fun m => lin_coef m * kpow (lam * dt) m).
Proof.
  intros. rewrite step_sumn. rewrite sumn_first. cbn [lin_coef kpow].
  rewrite (sumn_ext s (fun i => nth i b 0 * _) (fun i => lam * y p * sumn s (fun m => nth i b 0 * (kpow (lam * dt) m * nth i (phi A (tall m)) 0)))).
  2:{ intros i L. rewrite linear_stage by exact L. rewrite sumn_scale. ring. }
  rewrite sumn_scale, sumn_swap.
  rewrite (sumn_ext s (fun i => Phi A b (tall i) * _) (fun m => (lam * dt) * sumn s (fun i => nth i b 0 * (kpow (lam * dt) m * nth i (phi A (tall m)) 0)))).
  2:{ intros m M. rewrite Phi_sumn.
      rewrite (sumn_ext s (fun i => nth i b 0 * (kpow (lam * dt) m * _)) (fun i => kpow (lam * dt) m * (nth i b 0 * nth i (phi A (tall m)) 0)))
        by (intros; ring). rewrite sumn_scale. ring. }
  rewrite sumn_scale. ring.
Qed.
Theorem linear_order : forall o, has_order A b o -> forall m, (m <= o)%nat -> lin_coef m * knat (fact m) = 1.
Proof.
  intros o H [|m] L; [cbn; ring|]. cbn [lin_coef]. rewrite <- gamma_tall. apply H. rewrite size_tall. lia.
Qed.

(** ** y' = g(t), g a polynomial: the step is the exact integral for degree below the order. *)
Theorem quadrature : forall o, has_order A b o -> row_sums -> forall t dt y (g : nat -> P -> K) p,
  rk_step K kO kadd kmul P (fun tau _ p => sumn o (fun k => g k p * kpow (tau - t) k)) (fun u => u) t dt rows b y p
  = y p + sumn o (fun k => g k p * (kpow dt (S k) * kinv (knat (S k)))).
Proof.
  intros o H RS t dt y g p. rewrite step_sumn.
  rewrite (sumn_ext s (fun i => nth i b 0 * _) (fun i => sumn o (fun k => nth i b 0 * (g k p * (kpow dt k * kpow (ci i) k))))).
  2:{ intros i L. rewrite stage_sumn by (exact L || reflexivity). rewrite <- sumn_scale. apply sumn_ext. intros k Hk.
      f_equal. f_equal. replace (t + ci i * dt - t) with (dt * ci i) by ring.
      clear Hk. induction k as [|k IH]; cbn; [ring|]. rewrite IH. ring. }
  rewrite sumn_swap, <- sumn_scale. f_equal. apply sumn_ext. intros k Hk.
  rewrite (sumn_ext s (fun i => nth i b 0 * _) (fun i => (g k p * kpow dt k) * (nth i b 0 * nth i (phi A (bushy k)) 0))).
  2:{ intros i L. rewrite phi_bushy by assumption. ring. }
  rewrite sumn_scale, <- Phi_sumn. pose proof (H (bushy k)) as E. rewrite size_bushy, gamma_bushy in E. specialize (E ltac:(lia)).
  assert (N : knat (S k) <> 0).
  { intros Z. rewrite Z in E. apply (F_1_neq_0 Fth). rewrite <- E. ring. }
  assert (E' : Phi A b (bushy k) = kinv (knat (S k))).
  { replace (Phi A b (bushy k)) with (Phi A b (bushy k) * knat (S k) * kinv (knat (S k))) by (field; exact N). rewrite E. ring. }
  rewrite E'. cbn [kpow]. ring.
Qed.
End Table.
End Order.
