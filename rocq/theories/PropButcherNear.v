(** C33, continued: the DP8 and ADP8 tables, whose entries are rational approximations, meet the conditions of the stated
    order up to a stated error. *)
From Coq Require Import String List Bool Arith QArith Qabs Qcanon ZArith Lia Lqa.
From Verif Require Import PyBase MoL MoLFacts Butcher ButcherFacts ButcherOrder ButcherCompute PropMoL PropButcher.
Import ListNotations.
Open Scope Z_scope.

(** ** Numbers known up to an error: middle and radius in units of 2^-80 *)
Definition iv : Type := (Z * Z)%type.
Definition sc : Z := Eval vm_compute in 2 ^ 80.
Definition iv_add (x y : iv) : iv := (fst x + fst y, snd x + snd y).
Definition iv_mul (x y : iv) : iv :=
  match x, y with (0, 0), _ | _, (0, 0) => (0, 0) | _, _ =>
  (Z.shiftr (fst x * fst y) 80, Z.shiftr (Z.abs (fst x) * snd y + Z.abs (fst y) * snd x + snd x * snd y) 80 + 2)
  end.
Definition iv0 : iv := (0, 0).
Definition iv1 : iv := (sc, 0).
Definition iv_of (x : Q21) : iv :=
  let q := this (fst x) in match Qnum q with 0 => (0, 0) | n => (n * sc / Zpos (Qden q), 1) end.
(** rational numbers of Q(sqrt 21) inside the interval *)
Definition inside (x : Q21) (i : iv) : Prop :=
  (this (snd x) == 0)%Q /\ (inject_Z (fst i - snd i) <= this (fst x) * inject_Z sc)%Q /\
  (this (fst x) * inject_Z sc <= inject_Z (fst i + snd i))%Q.

Definition iv_mul' (x y : iv) : iv :=
  (Z.shiftr (fst x * fst y) 80, Z.shiftr (Z.abs (fst x) * snd y + Z.abs (fst y) * snd x + snd x * snd y) 80 + 2).
Lemma iv_mul_eq : forall x y, (iv_mul x y = (0, 0) /\ (x = (0, 0) \/ y = (0, 0))) \/ (iv_mul x y = iv_mul' x y /\ True).
Proof.
  intros [[|a|a] [|r|r]] [[|b|b] [|s|s]]; (left; split; [reflexivity|]; (left; reflexivity) || (right; reflexivity)) || (right; split; reflexivity).
Qed.
Lemma in_0 : inside q21_0 iv0. Proof. repeat split; cbn; discriminate. Qed.
Lemma in_1 : inside q21_1 iv1. Proof. repeat split; cbn; discriminate. Qed.
Lemma in_add : forall x y i j, inside x i -> inside y j -> inside (q21_add x y) (iv_add i j).
Proof.
  intros x y [a b] [c d] (A0 & A1 & A2) (B0 & B1 & B2). unfold inside. cbn [fst snd q21_add iv_add Qcplus Q2Qc this] in *.
  rewrite !Qred_correct. rewrite A0, B0. rewrite ?inject_Z_plus, ?inject_Z_opp in *. unfold Z.sub in *.
  rewrite ?inject_Z_plus, ?inject_Z_opp, ?inject_Z_plus in *. split; [lra|]. split; lra.
Qed.
Lemma shr : forall n, Z.shiftr n 80 * sc <= n < Z.shiftr n 80 * sc + sc.
Proof.
  intros n. rewrite Z.shiftr_div_pow2 by discriminate. change (2 ^ 80) with sc.
  pose proof (Z.mod_pos_bound n sc eq_refl). pose proof (Z.div_mod n sc ltac:(discriminate)). nia.
Qed.
Lemma prod_near : forall x y a b r s : Q, (0 <= r -> 0 <= s -> a - r <= x -> x <= a + r -> b - s <= y -> y <= b + s ->
  a * b - (Qabs a * s + Qabs b * r + r * s) <= x * y <= a * b + (Qabs a * s + Qabs b * r + r * s))%Q.
Proof.
  intros x y a b r s R S X1 X2 Y1 Y2. apply Qabs_diff_Qle_condition.
  assert (E : (a * b - x * y == a * (b - y) + b * (a - x) + (x - a) * (b - y))%Q) by ring. rewrite E.
  assert (U : (Qabs (a - x) <= r)%Q) by (apply Qabs_Qle_condition; split; lra).
  assert (U' : (Qabs (x - a) <= r)%Q) by (apply Qabs_Qle_condition; split; lra).
  assert (V : (Qabs (b - y) <= s)%Q) by (apply Qabs_Qle_condition; split; lra).
  eapply Qle_trans; [apply Qabs_triangle|]. apply Qplus_le_compat; [eapply Qle_trans; [apply Qabs_triangle|]; apply Qplus_le_compat|];
    rewrite Qabs_Qmult; apply Qmult_le_compat_nonneg; split; try apply Qabs_nonneg; try assumption; apply Qle_refl.
Qed.
Definition rad_ok (i : iv) : Prop := 0 <= snd i.
Lemma rad_mul : forall i j, rad_ok i -> rad_ok j -> rad_ok (iv_mul i j).
Proof.
  intros i j I J. destruct (iv_mul_eq i j) as [(-> & _)|(-> & _)]; [easy|]. unfold rad_ok, iv_mul' in *. cbn [snd]. pose proof (Z.abs_nonneg (fst i)). pose proof (Z.abs_nonneg (fst j)).
  pose proof (shr (Z.abs (fst i) * snd j + Z.abs (fst j) * snd i + snd i * snd j)) as K.
  assert (0 <= Z.abs (fst i) * snd j + Z.abs (fst j) * snd i + snd i * snd j) by nia.
  assert (0 <= Z.shiftr (Z.abs (fst i) * snd j + Z.abs (fst j) * snd i + snd i * snd j) 80) by (apply Z.shiftr_nonneg; assumption). lia.
Qed.
Lemma abs_inj : forall z, (Qabs (inject_Z z) == inject_Z (Z.abs z))%Q.
Proof. intros z. reflexivity. Qed.
Lemma in_mul : forall x y i j, rad_ok i -> rad_ok j -> inside x i -> inside y j -> inside (q21_mul x y) (iv_mul i j).
Proof.
  intros x y i j I J X Y. destruct (iv_mul_eq i j) as [(-> & Z)|(-> & _)].
  { destruct X as (A0 & A1 & A2), Y as (B0 & B1 & B2). unfold inside. cbn [fst snd q21_mul Qcplus Qcmult Q2Qc this c21].
    rewrite !Qred_correct. rewrite A0, B0.
    assert (N : forall q : Q, (inject_Z 0 <= q * inject_Z sc -> q * inject_Z sc <= inject_Z 0 -> q == 0)%Q).
    { intros q L U. apply Qle_antisym; apply Qmult_lt_0_le_reg_r with (inject_Z sc); try reflexivity; rewrite Qmult_0_l; assumption. }
    assert (M : (this (fst x) * this (fst y) == 0)%Q).
    { destruct Z as [-> | ->]; [rewrite (N (this (fst x))) by assumption|rewrite (N (this (fst y))) by assumption]; ring. }
    rewrite M. repeat split; try ring; discriminate. }
  destruct i as [a r], j as [b s]. destruct X as (A0 & A1 & A2), Y as (B0 & B1 & B2). unfold inside, iv_mul', rad_ok in *.
  cbn [fst snd q21_mul Qcplus Qcmult Q2Qc this c21] in *. rewrite !Qred_correct. rewrite A0, B0.
  set (u := this (fst x)) in *. set (v := this (fst y)) in *.
  assert (E2 : (u * v + 21 * (0 * 0) == u * v)%Q) by ring. rewrite E2. split; [ring|].
  pose proof (prod_near (u * inject_Z sc) (v * inject_Z sc) (inject_Z a) (inject_Z b) (inject_Z r) (inject_Z s)) as P.
  unfold Z.sub in A1, B1. rewrite inject_Z_plus in A1, A2, B1, B2. rewrite inject_Z_opp in A1, B1.
  specialize (P ltac:(change 0%Q with (inject_Z 0); now rewrite <- Zle_Qle) ltac:(change 0%Q with (inject_Z 0); now rewrite <- Zle_Qle)
                ltac:(lra) ltac:(lra) ltac:(lra) ltac:(lra)).
  rewrite !abs_inj in P. rewrite <- !inject_Z_mult, <- !inject_Z_plus in P.
  set (R := (Z.abs a * s + Z.abs b * r + r * s)%Z) in *. destruct P as [P1 P2].
  assert (E : (u * inject_Z sc * (v * inject_Z sc) == u * v * inject_Z sc * inject_Z sc)%Q) by ring. rewrite E in P1, P2.
  pose proof (shr (a * b)) as S1. pose proof (shr R) as S2.
  set (m := Z.shiftr (a * b) 80) in *. set (q := Z.shiftr R 80) in *.
  assert (P1' : (inject_Z (a * b - R) <= u * v * inject_Z sc * inject_Z sc)%Q).
  { unfold Z.sub. rewrite inject_Z_plus, inject_Z_opp. lra. }
  assert (P2' : (u * v * inject_Z sc * inject_Z sc <= inject_Z (a * b + R))%Q) by exact P2.
  split; apply Qmult_lt_0_le_reg_r with (inject_Z sc); try reflexivity; rewrite <- inject_Z_mult.
  - eapply Qle_trans; [|exact P1']. rewrite <- Zle_Qle. lia.
  - eapply Qle_trans; [exact P2'|]. rewrite <- Zle_Qle. lia.
Qed.
Lemma in_of : forall x, (this (snd x) == 0)%Q -> inside x (iv_of x).
Proof.
  intros x H. split; [exact H|]. unfold iv_of. cbv zeta. cbn [fst snd]. destruct (this (fst x)) as [n d]. cbn [Qnum Qden].
  assert (G : forall n, (inject_Z (n * sc / Zpos d - 1) <= (n # d) * inject_Z sc)%Q /\ ((n # d) * inject_Z sc <= inject_Z (n * sc / Zpos d + 1))%Q).
  { clear n. intros n. unfold Qle, inject_Z, Qmult. cbn [Qnum Qden]. rewrite !Z.mul_1_r. rewrite Pos.mul_1_r.
    pose proof (Z.mod_pos_bound (n * sc) (Zpos d) eq_refl). pose proof (Z.div_mod (n * sc) (Zpos d) ltac:(discriminate)). split; nia. }
  destruct n as [|n|n]; cbn [fst snd]; [split; discriminate|apply G|apply G].
Qed.

(** ** Elementary weights of all forests of 0, 1, ..., p nodes *)
Definition vec : Type := list iv.
Fixpoint vmul (x y : vec) : vec := match x, y with a :: x', b :: y' => iv_mul a b :: vmul x' y' | _, _ => [] end.
Notation dot := (dotl iv iv0 iv_add iv_mul).
Section Table.
Variable A : list (list iv).
Fixpoint ftab (p : nat) : list (list (vec * Z)) :=
  match p with
  | O => [[(map (fun _ => iv1) A, 1)]]
  | S m => let T := ftab m in
           (T ++ [flat_map (fun k => flat_map (fun '(v, g) => let d := map (fun row => dot row v) A in
                                                let g' := Z.of_nat (S k) * g in
                                                map (fun '(v2, g2) => (vmul d v2, g' * g2)) (nth (m - k) T []))
                                     (nth k T [])) (seq 0 (S m))])%list
  end.
End Table.
(** Error bound: 10^-16. *)
Definition tol : Z := sc / 10 ^ 16.
Definition near_w (T : list (list (vec * Z))) (b : list iv) (p : nat) : bool :=
  forallb (fun '(n, F) => forallb (fun '(v, g) =>
      let '(m, r) := iv_mul (dot b v) (Z.of_nat (S n) * g * sc, 0) in (sc - tol <=? m - r) && (m + r <=? sc + tol)) F)
    (combine (seq 0 p) T).
Definition near_b (A : list (list Q21)) (ws : list (list Q21 * nat)) : bool :=
  forallb (fun row => forallb (fun x => Qeq_bool (this (snd x)) 0) row) (map fst ws ++ A) &&
  let T := ftab (map (map iv_of) A) 7 in
  forallb (fun '(w, p) => near_w T (map iv_of w) p) ws.

(** ** The table covers all trees *)
Definition inn (x : Q21) (i : iv) : Prop := inside x i /\ rad_ok i.
Notation phiQ := (phi Q21 q21_0 q21_1 q21_add q21_mul).
Notation PhiQ := (Phi Q21 q21_0 q21_1 q21_add q21_mul).
Lemma inn_0 : inn q21_0 iv0. Proof. split; [apply in_0|easy]. Qed.
Lemma inn_1 : inn q21_1 iv1. Proof. split; [apply in_1|easy]. Qed.
Lemma inn_add : forall x y i j, inn x i -> inn y j -> inn (q21_add x y) (iv_add i j).
Proof. intros x y i j [X I] [Y J]. split; [now apply in_add|]. unfold rad_ok, iv_add in *. cbn [snd]. lia. Qed.
Lemma inn_mul : forall x y i j, inn x i -> inn y j -> inn (q21_mul x y) (iv_mul i j).
Proof. intros x y i j [X I] [Y J]. split; [now apply in_mul|now apply rad_mul]. Qed.
Lemma inn_dot : forall x x', Forall2 inn x x' -> forall y y', Forall2 inn y y' ->
  inn (dotl Q21 q21_0 q21_add q21_mul x y) (dot x' y').
Proof. exact (R_dotl Q21 iv q21_0 q21_add q21_mul iv0 iv_add iv_mul inn inn_0 inn_add inn_mul). Qed.
Definition gprod (l : list tree) : nat := fold_right (fun u n => gamma u * n)%nat 1%nat l.
Lemma ftab_length : forall A p, List.length (ftab A p) = S p.
Proof. induction p as [|p IH]; [reflexivity|]. cbn [ftab]. rewrite app_length, IH. cbn. lia. Qed.
Lemma phi_cons : forall A u l, phiQ A (Node (u :: l)) =
  map (fun row => q21_mul (dotl Q21 q21_0 q21_add q21_mul row (phiQ A u)) (fold_right (fun v acc => q21_mul (dotl Q21 q21_0 q21_add q21_mul row v) acc) q21_1 (map (phiQ A) l))) A.
Proof. reflexivity. Qed.
Lemma rows_in : forall A A' x v (F : list Q21 -> Q21) u, Forall2 (Forall2 inn) A A' -> Forall2 inn x v -> Forall2 inn (map F A) u ->
  Forall2 inn (map (fun row => q21_mul (dotl Q21 q21_0 q21_add q21_mul row x) (F row)) A) (vmul (map (fun row => dot row v) A') u).
Proof.
  intros A A' x v F u HA V. revert u. induction HA as [|row row' A A' R0 HA IH]; intros u U; [constructor|].
  cbn [map] in U. inversion U as [|? y ? u' Y U']; subst. cbn [map vmul]. constructor; [|now apply IH].
  apply inn_mul; [now apply inn_dot|exact Y].
Qed.
Lemma ftab_complete : forall A A', Forall2 (Forall2 inn) A A' -> forall p n l, (n <= p)%nat -> fsize l = n ->
  exists v, In (v, Z.of_nat (gprod l)) (nth n (ftab A' p) []) /\ Forall2 inn (phiQ A (Node l)) v.
Proof.
  intros A A' HA p. induction p as [|m IH]; intros n l L E.
  - destruct l as [|[c] l]; [|cbn in E; lia]. assert (n = 0%nat) as -> by lia.
    exists (map (fun _ => iv1) A'). split; [now left|]. cbn [phi map fold_right].
    clear -HA. induction HA; cbn [map]; constructor; [apply inn_1|assumption].
  - cbn [ftab]. cbv zeta. destruct (Nat.eq_dec n (S m)) as [->|N].
    + rewrite app_nth2 by (rewrite ftab_length; lia). rewrite ftab_length, Nat.sub_diag. cbn [nth].
      destruct l as [|[c] l]; [discriminate E|]. change (S (fsize c) + fsize l = S m)%nat in E.
      destruct (IH (fsize c) c ltac:(lia) eq_refl) as (v & V1 & V2).
      destruct (IH (fsize l) l ltac:(lia) eq_refl) as (u & U1 & U2).
      exists (vmul (map (fun row => dot row v) A') u). split.
      * apply in_flat_map. exists (fsize c). split; [apply in_seq; lia|]. apply in_flat_map. exists (v, Z.of_nat (gprod c)).
        split; [exact V1|]. cbv beta iota zeta. apply in_map_iff. exists (u, Z.of_nat (gprod l)).
        split; [|replace (m - fsize c)%nat with (fsize l) by lia; exact U1].
        f_equal. change (gprod (Node c :: l)) with (gamma (Node c) * gprod l)%nat.
        change (gamma (Node c)) with (S (fsize c) * gprod c)%nat. rewrite !Nat2Z.inj_mul. reflexivity.
      * rewrite phi_cons. cbn [phi] in U2. cbv zeta in U2. clear -HA V2 U2.
        exact (rows_in A A' _ v _ u HA V2 U2).
    + rewrite app_nth1 by (rewrite ftab_length; lia). apply IH; [lia|exact E].
Qed.

(** ** The bound *)
(** Distance of a number of Q(sqrt 21) with no sqrt 21 part from one. *)
Definition within (x : Q21) (eps : Q) : Prop := (this (snd x) == 0)%Q /\ (Qabs (this (fst x) - 1) <= eps)%Q.
Lemma in_within : forall x m r, inside x (m, r) -> sc - tol <= m - r -> m + r <= sc + tol -> within x (1 # 10 ^ 16).
Proof.
  intros x m r (H0 & H1 & H2) L U. split; [exact H0|]. cbn [fst snd] in *.
  apply Qabs_Qle_condition.
  assert (T : (inject_Z tol <= (1 # 10 ^ 16) * inject_Z sc)%Q) by (vm_compute; discriminate).
  assert (L' : (inject_Z sc - inject_Z tol <= inject_Z (m - r))%Q).
  { unfold Qminus. rewrite <- inject_Z_opp, <- inject_Z_plus, <- Zle_Qle. exact L. }
  assert (U' : (inject_Z (m + r) <= inject_Z sc + inject_Z tol)%Q) by (rewrite <- inject_Z_plus, <- Zle_Qle; exact U).
  set (q := this (fst x)) in *. set (e := (1 # 10 ^ 16)%Q) in *. clearbody q e.
  assert (P : (0 < inject_Z sc)%Q) by reflexivity. revert T L' U' H1 H2 P. generalize (inject_Z sc) (inject_Z tol) (inject_Z (m - r)) (inject_Z (m + r)).
  clear. intros S t a b T L U H1 H2 P.
  assert (A1 : ((1 - e) * S <= q * S)%Q) by lra. assert (A2 : (q * S <= (1 + e) * S)%Q) by lra.
  apply Qmult_lt_0_le_reg_r in A1; [|exact P]. apply Qmult_lt_0_le_reg_r in A2; [|exact P]. split; lra.
Qed.
Lemma near_sound : forall A ws w p t, near_b A ws = true -> In (w, p) ws -> (p <= 8)%nat -> (size t <= p)%nat ->
  within (q21_mul (PhiQ A w t) (knatQ (gamma t))) (1 # 10 ^ 16).
Proof.
  intros A ws w p [l] H I P L. unfold near_b in H. apply andb_true_iff in H as [H1 H2]. rewrite forallb_forall in H1, H2.
  assert (X : forall row, In row (map fst ws ++ A) -> Forall2 inn row (map iv_of row)).
  { intros row J. specialize (H1 _ J). rewrite forallb_forall in H1. clear -H1. induction row as [|x row IH]; [constructor|].
    cbn [map]. constructor; [|apply IH; intros y Y; apply H1; now right].
    split; [apply in_of, Qeq_bool_iff, H1; now left|]. unfold rad_ok, iv_of. cbv zeta. destruct (Qnum (this (fst x))); cbn [snd]; lia. }
  assert (HA : Forall2 (Forall2 inn) A (map (map iv_of) A)).
  { assert (Y : forall row, In row A -> Forall2 inn row (map iv_of row)) by (intros; apply X, in_or_app; now right).
    clear -Y. induction A as [|row A IH]; [constructor|]. cbn [map]. constructor; [apply Y; now left|apply IH; intros; apply Y; now right]. }
  assert (HW : Forall2 inn w (map iv_of w)).
  { apply X, in_or_app. left. apply in_map_iff. exists (w, p). auto. }
  specialize (H2 _ I). cbn beta iota in H2. unfold near_w in H2. rewrite forallb_forall in H2.
  change (S (fsize l) <= p)%nat in L.
  destruct (ftab_complete A _ HA 7 (fsize l) l ltac:(lia) eq_refl) as (v & V1 & V2).
  set (T := ftab (map (map iv_of) A) 7) in *.
  assert (LT : List.length T = 8%nat) by apply ftab_length.
  assert (J : In (fsize l, nth (fsize l) T []) (combine (seq 0 p) T)).
  { clear -L P LT. assert (K : nth (fsize l) (combine (seq 0 p) T) (0%nat, []) = (fsize l, nth (fsize l) T [])).
    { rewrite combine_firstn_l, seq_length. rewrite (combine_nth _ _ _ 0%nat []) by (rewrite seq_length, firstn_length; lia).
      rewrite seq_nth by lia. f_equal. rewrite <- (firstn_skipn p T) at 2. rewrite app_nth1; [reflexivity|rewrite firstn_length; lia]. }
    rewrite <- K. apply nth_In. rewrite combine_length, seq_length. lia. }
  specialize (H2 _ J). cbn beta iota in H2. rewrite forallb_forall in H2. specialize (H2 _ V1). cbn beta iota in H2.
  assert (G : inn (q21_mul (PhiQ A w (Node l)) (knatQ (gamma (Node l))))
                  (iv_mul (dot (map iv_of w) v) (Z.of_nat (S (fsize l)) * Z.of_nat (gprod l) * sc, 0))).
  { apply inn_mul; [now apply inn_dot|]. split; [|apply Z.le_refl]. destruct (rel_nat (gamma (Node l))) as [R1 R2]. cbn [fst snd] in R1, R2.
    split; [exact R2|]. cbn [fst snd]. rewrite R1. change (gamma (Node l)) with (S (fsize l) * gprod l)%nat.
    rewrite Z.sub_0_r, Z.add_0_r. rewrite Nat2Z.inj_mul. set (z := Z.of_nat (S (fsize l)) * Z.of_nat (gprod l)).
    change (z # 1)%Q with (inject_Z z). rewrite <- inject_Z_mult. split; apply Qle_refl. }
  destruct (iv_mul (dot (map iv_of w) v) _) as [m r]. apply andb_true_iff in H2 as [Q1 Q2]. apply Z.leb_le in Q1, Q2.
  destruct G as [G _]. exact (in_within _ _ _ G Q1 Q2).
Qed.
Lemma near_all : near_b (map snd (stages bt_ADP8)) (map (fun '(s, w) => (w, if (s =? "LO")%string then 7 else 8)%nat) (weights bt_ADP8)) = true.
Proof. vm_compute. reflexivity. Qed.
Lemma same_stages : list_eqb (list_eqb q21_eqb) (map snd (stages bt_DP8)) (map snd (stages bt_ADP8)) &&
  list_eqb (list_eqb q21_eqb) (map snd (weights bt_DP8)) (firstn 1 (map snd (weights bt_ADP8))) = true.
Proof. vm_compute. reflexivity. Qed.
(** DP8 and ADP8: Phi(t) gamma(t) is within 10^-16 of one for every rooted tree of at most 8 nodes (7 for the lower-order weights). *)
Theorem C33_near : forall name B o s w, In (name, (B, o)) Butcher_dict -> approximate name = true -> In (s, w) (weights B) ->
  forall t, (size t <= if (s =? "LO")%string then o - 1 else o)%nat ->
  within (q21_mul (PhiQ (map snd (stages B)) w t) (knatQ (gamma t))) (1 # 10 ^ 16).
Proof.
  intros name B o s w I E J t L.
  assert (C : (B = bt_DP8 \/ B = bt_ADP8) /\ o = 8%nat).
  { cbn in I. repeat (destruct I as [I|I]; [injection I as <- <- <-; try discriminate E; auto|]). destruct I. }
  destruct C as [C ->].
  pose proof same_stages as S. apply andb_true_iff in S as [S1 S2].
  assert (Q : forall x y, q21_eqb x y = true -> x = y) by (intros; now apply q21_eqb_eq).
  apply (list_eqb_eq _ _ (list_eqb_eq _ _ Q)) in S1, S2.
  destruct C as [-> | ->].
  - rewrite S1. assert (J' : s = ""%string /\ In w (map snd (weights bt_DP8))).
    { split; [cbn in J; destruct J as [J|[]]; congruence|apply in_map_iff; exists (s, w); auto]. }
    destruct J' as [-> J']. rewrite S2 in J'.
    apply (near_sound _ _ w 8 t near_all); [|lia|exact L]. cbn in J'. destruct J' as [<-|[]]. now left.
  - apply (near_sound _ _ w (if (s =? "LO")%string then 7 else 8)%nat t near_all).
    + apply in_map_iff. exists (s, w). auto.
    + destruct (s =? "LO")%string; lia.
    + destruct (s =? "LO")%string; exact L.
Qed.
(** In particular the weights sum to one and the condition on a tall tree of 8 nodes holds, up to that error. *)
Example C33_ex_near : exists w, In (""%string, w) (weights bt_DP8) /\ List.length w = 13%nat /\
  within (q21_mul (PhiQ (map snd (stages bt_DP8)) w (tall 7)) (knatQ (gamma (tall 7)))) (1 # 10 ^ 16) /\ gamma (tall 7) = (8 * 5040)%nat.
Proof.
  eexists. split; [left; reflexivity|]. split; [reflexivity|]. split; [|reflexivity].
  apply (C33_near "DP8" bt_DP8 8 ""); [cbn; tauto|reflexivity|left; reflexivity|cbn; lia].
Qed.
Print Assumptions C33_near.
