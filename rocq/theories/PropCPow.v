(** C42: the C text printed for powers has the value of the power.

    The meaning of C text is given by a small grammar with values ([den]), written independently of the
    tables: which strings are C primary, multiplicative and general expressions, and which real number
    they stand for.  [sqrt] and [cbrt] are described by what they satisfy ([w*w = v] with [w >= 0],
    [w*w*w = v]), [pow] by [power].  Real arithmetic stands for floating-point arithmetic. *)
From Coq Require Import String List ZArith Bool QArith Qreals Reals Lia Lra.
From Verif Require Import PyBase PyBaseFacts CPow.
Import ListNotations.
Open Scope string_scope.

(** Real powers: any integer exponent (nonzero base if it is negative), any exponent for positive bases,
    positive exponents for the base 0.  Elsewhere [base**exponent] is not a real number. *)
Inductive power : R -> R -> R -> Prop :=
| power_int x n : (x <> 0%R \/ (0 <= n)%Z) -> power x (IZR n) (powerRZ x n)
| power_pos x y : (0 < x)%R -> power x y (Rpower x y)
| power_zero y : (0 < y)%R -> power 0 y 0.

Definition suffix_fn (fp : fptype) : string :=
  match fp with FpDouble => "" | FpFloat => "f" | FpLongDouble => "l" end.

(** Grammar levels: primary, multiplicative, any expression. *)
Inductive level := Prim | Mult | Expr.

Inductive den (fp : fptype) (known : string -> R -> Prop) : level -> string -> R -> Prop :=
| d_known s v : known s v -> den fp known Expr s v
| d_prim s v : den fp known Prim s v -> den fp known Mult s v
| d_mult s v : den fp known Mult s v -> den fp known Expr s v
| d_paren s v : den fp known Expr s v -> den fp known Prim ("(" ++ s ++ ")") v
| d_one : den fp known Prim ("1.0" ++ suffix_fn fp) 1
| d_mul s v t w : den fp known Mult s v -> den fp known Prim t w ->
    den fp known Mult (s ++ "*" ++ t) (v * w)
| d_div s v t w : den fp known Mult s v -> den fp known Prim t w -> w <> 0%R ->
    den fp known Mult (s ++ "/" ++ t) (v / w)
| d_sqrt s v w : den fp known Expr s v -> (0 <= w)%R -> (w * w = v)%R ->
    den fp known Prim ("sqrt" ++ suffix_fn fp ++ "(" ++ s ++ ")") w
| d_cbrt s v w : den fp known Expr s v -> (w * w * w = v)%R ->
    den fp known Prim ("cbrt" ++ suffix_fn fp ++ "(" ++ s ++ ")") w
| d_fabs s v : den fp known Expr s v ->
    den fp known Prim ("fabs" ++ suffix_fn fp ++ "(" ++ s ++ ")") (Rabs v)
| d_pow s v t y w : den fp known Expr s v -> den fp known Expr t y -> power v y w ->
    den fp known Prim ("pow" ++ suffix_fn fp ++ "(" ++ s ++ ", " ++ t ++ ")") w.

(** ** [power] is single-valued and has the expected values at the tested exponents *)

Lemma powerRZ_IZR_pos x n : (0 < x)%R -> powerRZ x n = Rpower x (IZR n).
Proof. intros H. rewrite powerRZ_Rpower by exact H. reflexivity. Qed.

Lemma powerRZ_0_pos n : (0 < n)%Z -> powerRZ 0 n = 0%R.
Proof.
  intros H. destruct n as [|p|p]; try lia. cbn. rewrite pow_i; [reflexivity|]. lia.
Qed.

Lemma power_fun x y v w : power x y v -> power x y w -> v = w.
Proof.
  intros A B. destruct A as [x n N|x y P|y P]; inversion B as [x' m M E1 E2 E3|x' y' P' E1 E2 E3|y' P' E1 E2 E3];
    subst; try reflexivity; try lra.
  - apply eq_IZR in E2. subst. reflexivity.
  - apply powerRZ_IZR_pos. assumption.
  - apply powerRZ_0_pos. apply lt_IZR. assumption.
  - symmetry. apply powerRZ_IZR_pos. assumption.
  - symmetry. apply powerRZ_0_pos. apply lt_IZR. assumption.
Qed.

Lemma power_nonint x y w : power x y w -> (forall n, y <> IZR n) ->
  (0 < x)%R /\ w = Rpower x y \/ x = 0%R /\ (0 < y)%R /\ w = 0%R.
Proof. intros H N. destruct H as [x n _|x y P|y P]; [destruct (N n); reflexivity|auto|auto]. Qed.

Lemma power_is_int x n w : power x (IZR n) w -> (x <> 0%R \/ (0 <= n)%Z) -> w = powerRZ x n.
Proof. intros H N. exact (power_fun _ _ _ _ H (power_int x n N)). Qed.

Lemma power_neg_nonzero x n w : (n < 0)%Z -> power x (IZR n) w -> x <> 0%R.
Proof.
  intros N H. inversion H as [x' m M E1 E2 E3|x' y' P' E1 E2 E3|y' P' E1 E2 E3]; subst; try lra.
  - apply eq_IZR in E2. subst. destruct M; [assumption|lia].
  - apply lt_IZR in P'. lia.
Qed.

Lemma not_integer (p q : Z) : (1 < q)%Z -> (p mod q <> 0)%Z -> forall n, (IZR p / IZR q <> IZR n)%R.
Proof.
  intros Q M n E. apply M. assert (0 < IZR q)%R by (apply IZR_lt; lia).
  assert (F : IZR p = IZR (n * q)) by (rewrite mult_IZR, <- E; field; lra).
  apply eq_IZR in F. rewrite F. apply Z_mod_mult.
Qed.

Lemma Rpower_sq x y : (Rpower x y * Rpower x y = Rpower x (y + y))%R.
Proof. rewrite <- Rpower_plus. reflexivity. Qed.

Lemma Rpower_pos x y : (0 < Rpower x y)%R.
Proof. unfold Rpower. apply exp_pos. Qed.

(** Positive fractional exponents [1/k]: a nonnegative root. *)
Lemma power_root x y w : power x y w -> (0 < y)%R -> (forall n, y <> IZR n) ->
  (0 <= w)%R /\ forall k, (0 < k)%nat -> power x (INR k * y) (w ^ k).
Proof.
  intros H P N. destruct (power_nonint _ _ _ H N) as [[A ->]|(-> & _ & ->)].
  - split; [apply Rlt_le, Rpower_pos|]. intros k K.
    rewrite <- Rpower_pow by apply Rpower_pos. rewrite Rpower_mult, Rmult_comm.
    replace (y * INR k)%R with (INR k * y)%R by ring. rewrite Rmult_comm.
    replace (INR k * y)%R with (y * INR k)%R by ring. apply power_pos. exact A.
  - split; [lra|]. intros k K. rewrite pow_i by exact K. apply power_zero.
    apply Rmult_lt_0_compat; [apply lt_0_INR; lia|exact P].
Qed.

(** Negative fractional exponents: the reciprocal of the positive one. *)
Lemma power_recip x y w : power x (- y) w -> (0 < y)%R -> (forall n, y <> IZR n) ->
  exists u, power x y u /\ u <> 0%R /\ w = (1 / u)%R.
Proof.
  intros H P N. assert (N' : forall n, (- y)%R <> IZR n).
  { intros n E. apply (N (- n)%Z). rewrite opp_IZR. lra. }
  destruct (power_nonint _ _ _ H N') as [[A ->]|(-> & B & _)]; [|lra].
  exists (Rpower x y). split; [apply power_pos, A|]. pose proof (Rpower_pos x y).
  split; [lra|]. rewrite Rpower_Ropp. unfold Rdiv. ring.
Qed.

(** ** Texts *)

Lemma Qeq_value r q : Qeq_bool r q = true -> Q2R r = Q2R q.
Proof. intros H. apply Qeq_eqR, Qeq_bool_iff, H. Qed.

Section Rows.
Context (fp : fptype) (known : string -> R -> Prop) (b : string) (x : R).
Hypothesis B : den fp known Expr b x.

Notation P := (den fp known Prim).
Notation M := (den fp known Mult).

Lemma base_prim : P ("(" ++ b ++ ")") x.
Proof. apply d_paren, B. Qed.

(** [(b)*(b)*...*(b)] with [n + 1] factors. *)
Fixpoint prod_text (n : nat) : string :=
  match n with O => "(" ++ b ++ ")" | S k => prod_text k ++ "*" ++ "(" ++ b ++ ")" end.
Lemma prod_den n : M (prod_text n) (x ^ (S n)).
Proof.
  induction n as [|n IH].
  - cbn [prod_text]. replace (x ^ 1)%R with x by ring. apply d_prim, base_prim.
  - cbn [prod_text]. replace (x ^ S (S n))%R with (x ^ (S n) * x)%R by (cbn; ring).
    apply d_mul; [exact IH|apply base_prim].
Qed.

Lemma recip_den s v : P s v -> v <> 0%R -> P ("(1.0" ++ suffix_fn fp ++ "/" ++ s ++ ")") (1 / v).
Proof.
  intros A N.
  change ("(1.0" ++ suffix_fn fp ++ "/" ++ s ++ ")") with ("(" ++ "1.0" ++ suffix_fn fp ++ "/" ++ s ++ ")").
  replace ("(" ++ "1.0" ++ suffix_fn fp ++ "/" ++ s ++ ")")
    with ("(" ++ (("1.0" ++ suffix_fn fp) ++ "/" ++ s) ++ ")")
    by (rewrite !sapp_assoc; reflexivity).
  apply d_paren, d_mult, d_div; [apply d_prim, d_one|exact A|exact N].
Qed.

Lemma half_den w : power x (1 / 2) w -> P ("sqrt" ++ suffix_fn fp ++ "(" ++ b ++ ")") w.
Proof.
  intros H. destruct (power_root _ _ _ H) as [A C]; [lra| |].
  { apply (not_integer 1 2); [lia|discriminate]. }
  apply d_sqrt with x; [exact B|exact A|].
  specialize (C 2%nat ltac:(lia)). replace (INR 2 * (1 / 2))%R with (IZR 1) in C by (cbn; field).
  apply power_is_int in C; [|right; lia]. rewrite powerRZ_1 in C. rewrite <- C. ring.
Qed.

Lemma third_den w : power x (1 / 3) w -> P ("cbrt" ++ suffix_fn fp ++ "(" ++ b ++ ")") w.
Proof.
  intros H. destruct (power_root _ _ _ H) as [A C]; [lra| |].
  { apply (not_integer 1 3); [lia|discriminate]. }
  apply d_cbrt with x; [exact B|].
  specialize (C 3%nat ltac:(lia)). replace (INR 3 * (1 / 3))%R with (IZR 1) in C by (cbn; field).
  apply power_is_int in C; [|right; lia]. rewrite powerRZ_1 in C. rewrite <- C. ring.
Qed.

Lemma sixth_den w : power x (1 / 6) w ->
  P ("sqrt" ++ suffix_fn fp ++ "(" ++ ("cbrt" ++ suffix_fn fp ++ "(" ++ b ++ ")") ++ ")") w.
Proof.
  intros H. destruct (power_root _ _ _ H) as [A C]; [lra| |].
  { apply (not_integer 1 6); [lia|discriminate]. }
  apply d_sqrt with (w ^ 2)%R; [|exact A|cbn; ring].
  apply d_mult, d_prim, third_den.
  specialize (C 2%nat ltac:(lia)). replace (INR 2 * (1 / 6))%R with (1 / 3)%R in C by (cbn; field).
  exact C.
Qed.

Lemma int_den n w : power x (IZR (Z.of_nat (S n))) w -> P ("(" ++ prod_text n ++ ")") w.
Proof.
  intros H. apply power_is_int in H; [|right; lia]. subst w.
  rewrite <- pow_powerRZ. apply d_paren, d_mult, prod_den.
Qed.

Lemma int_recip_den n w : power x (IZR (- Z.of_nat (S (S n)))) w ->
  P ("(1.0" ++ suffix_fn fp ++ "/" ++ ("(" ++ prod_text (S n) ++ ")") ++ ")") w.
Proof.
  intros H. assert (NZ : x <> 0%R) by (eapply power_neg_nonzero; [|exact H]; lia).
  apply power_is_int in H; [|left; exact NZ]. subst w.
  rewrite powerRZ_neg', <- pow_powerRZ.
  replace (/ x ^ S (S n))%R with (1 / x ^ S (S n))%R by (unfold Rdiv; ring).
  apply recip_den; [apply d_paren, d_mult, prod_den|apply pow_nonzero, NZ].
Qed.

Lemma inv_den w : power x (IZR (- 1)) w -> P ("(1.0" ++ suffix_fn fp ++ "/" ++ ("(" ++ b ++ ")") ++ ")") w.
Proof.
  intros H. assert (NZ : x <> 0%R) by (eapply power_neg_nonzero; [|exact H]; lia).
  apply power_is_int in H; [|left; exact NZ]. subst w.
  replace (powerRZ x (- 1)) with (1 / x)%R
    by (change (- 1)%Z with (- (1))%Z; rewrite powerRZ_neg', powerRZ_1; unfold Rdiv; ring).
  apply recip_den; [apply base_prim|exact NZ].
Qed.

Lemma recip_of s y w : (0 < y)%R -> (forall n, y <> IZR n) ->
  (forall u, power x y u -> P s u) -> power x (- y) w ->
  P ("(1.0" ++ suffix_fn fp ++ "/" ++ s ++ ")") w.
Proof.
  intros Y N F H. destruct (power_recip _ _ _ H Y N) as (u & U & NZ & ->).
  apply recip_den; [apply F, U|exact NZ].
Qed.
End Rows.

(** ** C42 *)

Definition expo_value (e : expo) (y : R) : Prop :=
  match e with ENum q => y = Q2R q | ESym => True end.

Lemma Q2R_half : Q2R (1 # 2) = (1 / 2)%R. Proof. unfold Q2R; cbn; field. Qed.
Lemma Q2R_mhalf : Q2R ((-1) # 2) = (- (1 / 2))%R. Proof. unfold Q2R; cbn; field. Qed.
Lemma Q2R_third : Q2R (1 # 3) = (1 / 3)%R. Proof. unfold Q2R; cbn; field. Qed.
Lemma Q2R_mthird : Q2R ((-1) # 3) = (- (1 / 3))%R. Proof. unfold Q2R; cbn; field. Qed.
Lemma Q2R_sixth : Q2R (1 # 6) = (1 / 6)%R. Proof. unfold Q2R; cbn; field. Qed.
Lemma Q2R_msixth : Q2R ((-1) # 6) = (- (1 / 6))%R. Proof. unfold Q2R; cbn; field. Qed.
Lemma Q2R_int z : Q2R (z # 1) = IZR z. Proof. unfold Q2R; cbn; field. Qed.

Lemma half_ni : forall n, (1 / 2 <> IZR n)%R. Proof. apply (not_integer 1 2); [lia|discriminate]. Qed.
Lemma third_ni : forall n, (1 / 3 <> IZR n)%R. Proof. apply (not_integer 1 3); [lia|discriminate]. Qed.
Lemma sixth_ni : forall n, (1 / 6 <> IZR n)%R. Proof. apply (not_integer 1 6); [lia|discriminate]. Qed.

Ltac same_text t :=
  match goal with |- den _ _ _ ?s _ =>
    replace s with t by (cbn [prod_text suffix_fn append]; rewrite ?sapp_assoc; reflexivity) end.

(** The value of the text printed for [base**exponent], in each of the three precisions, for every
    base text and exponent text, every exponent and every base value for which the power is a real
    number: exactly the power.  The text is a primary expression, so it can be inserted anywhere, and
    it only calls the functions and uses the literals of its own precision. *)
Theorem C42_power_printing : forall fp known b x e et y w,
  den fp known Expr b x -> den fp known Expr et y -> expo_value e y -> power x y w ->
  den fp known Prim (pow_text fp b e et) w.
Proof.
  intros fp known b x e et y w Hb He Hv Hp.
  assert (FB : den fp known Prim (pow_name fp ++ "(" ++ b ++ ", " ++ et ++ ")") w).
  { pose proof (d_pow fp known b x et y w Hb He Hp) as D.
    destruct fp; exact D. }
  destruct e as [q|]; [|unfold pow_text; destruct fp; exact FB].
  cbn [expo_value] in Hv. subst y.
  assert (R : forall rows, (forall r, In r rows -> Q2R q = Q2R (fst r) -> den fp known Prim (snd r b) w) ->
            match first_row rows (ENum q) with Some f => den fp known Prim (f b) w | None => True end).
  { induction rows as [|[r f] rows IH]; intros A; cbn [first_row expo_is]; [exact I|].
    destruct (Qeq_bool q r) eqn:E.
    - apply (A (r, f)); [left; reflexivity|]. cbn. apply Qeq_value, E.
    - apply IH. intros r' I. apply A. right. exact I. }
  unfold pow_text. specialize (R (pow_rows fp)).
  destruct (first_row (pow_rows fp) (ENum q)) as [f|]; [|exact FB].
  apply R. clear R FB f.
  pose proof half_ni. pose proof third_ni. pose proof sixth_ni.
  destruct fp; intros r I E; cbn [pow_rows pow_rows_double pow_rows_float pow_rows_long_double In] in I;
  repeat (destruct I as [<- | I]; [cbn [fst] in E; cbn [snd]; rewrite E in Hp;
    rewrite ?Q2R_half, ?Q2R_mhalf, ?Q2R_third, ?Q2R_mthird, ?Q2R_sixth, ?Q2R_msixth in Hp|]);
  try destruct I.
  all: try (rewrite Q2R_int in Hp).
  all: match type of Hp with
    | power _ (IZR ?z) _ =>
        let n := eval vm_compute in (Z.to_nat z - 1)%nat in
        let m := eval vm_compute in (Z.to_nat (- z) - 2)%nat in
        match z with
        | (-1)%Z => pose proof (inv_den _ _ _ _ Hb _ Hp) as D
        | Zpos _ => pose proof (int_den _ _ _ _ Hb n _ Hp) as D
        | Zneg _ => pose proof (int_recip_den _ _ _ _ Hb m _ Hp) as D
        end
    | power _ (1 / 2)%R _ => pose proof (half_den _ _ _ _ Hb _ Hp) as D
    | power _ (1 / 3)%R _ => pose proof (third_den _ _ _ _ Hb _ Hp) as D
    | power _ (- (1 / 2))%R _ =>
        pose proof (recip_of _ _ _ _ (1 / 2) _ ltac:(lra) half_ni (half_den _ _ _ _ Hb) Hp) as D
    | power _ (- (1 / 3))%R _ =>
        pose proof (recip_of _ _ _ _ (1 / 3) _ ltac:(lra) third_ni (third_den _ _ _ _ Hb) Hp) as D
    | power _ (1 / 6)%R _ =>
        pose proof (d_paren _ _ _ _ (d_mult _ _ _ _ (d_prim _ _ _ _ (sixth_den _ _ _ _ Hb _ Hp)))) as D
    | power _ (- (1 / 6))%R _ =>
        pose proof (recip_of _ _ _ _ (1 / 6) _ ltac:(lra) sixth_ni
          (fun u U => d_paren _ _ _ _ (d_mult _ _ _ _ (d_prim _ _ _ _ (sixth_den _ _ _ _ Hb u U)))) Hp) as D
    end;
    cbn [prod_text suffix_fn append] in D |- *;
    repeat (rewrite sapp_assoc in D; cbn [append] in D); exact D.
Qed.

(** [nrpyAbs] prints the absolute value. *)
Theorem C42_abs_printing : forall fp known b x,
  den fp known Expr b x -> den fp known Prim (abs_text fp b) (Rabs x).
Proof. intros fp known b x H. pose proof (d_fabs fp known b x H) as D. destruct fp; exact D. Qed.

(** The value is what one expects of a power: multiplication is repeated for natural exponents,
    exponents add, and a negative exponent is the reciprocal. *)
Theorem C42_power_laws : forall x,
  (forall n : nat, power x (INR n) (x ^ n)) /\
  (forall y z v w, (0 < x)%R -> power x y v -> power x z w -> power x (y + z) (v * w)) /\
  (forall y v, (0 < x)%R -> power x y v -> power x (- y) (/ v)) /\
  (forall y v w, power x y v -> power x y w -> v = w).
Proof.
  intros x. repeat split.
  - intros n. rewrite INR_IZR_INZ, pow_powerRZ. apply power_int. right. lia.
  - intros y z v w X A B.
    rewrite (power_fun _ _ _ _ A (power_pos x y X)), (power_fun _ _ _ _ B (power_pos x z X)).
    rewrite <- Rpower_plus. apply power_pos, X.
  - intros y v X A. rewrite (power_fun _ _ _ _ A (power_pos x y X)), <- Rpower_Ropp.
    apply power_pos, X.
  - intros y v w. apply power_fun.
Qed.

(** The tables of the three precisions differ at the exponents 1/6 and -1/6 only: there float and long
    double fall back to [powf]/[powl]. *)
Theorem C42_tables_agree_but_sixths : forall e,
  expo_is (1 # 6) e = false -> expo_is ((-1) # 6) e = false ->
  (first_row (pow_rows FpFloat) e = None <-> first_row (pow_rows FpDouble) e = None) /\
  (first_row (pow_rows FpLongDouble) e = None <-> first_row (pow_rows FpDouble) e = None).
Proof.
  intros e A B.
  cbn [pow_rows pow_rows_double pow_rows_float pow_rows_long_double first_row].
  rewrite A, B.
  repeat match goal with |- context [if expo_is ?q e then _ else _] => destruct (expo_is q e) end;
    split; split; intros; congruence.
Qed.

Theorem C42_sixths_differ : forall et,
  pow_text FpDouble "b" (ENum (1 # 6)) et = "(sqrt(cbrt(b)))" /\
  pow_text FpFloat "b" (ENum (1 # 6)) et = "powf(b, " ++ et ++ ")" /\
  pow_text FpLongDouble "b" (ENum (1 # 6)) et = "powl(b, " ++ et ++ ")".
Proof. intros et. repeat split. Qed.

(** Outside the real powers the texts do not agree with SymPy's principal value: for a negative base and
    exponent 1/3 the C code computes the negative real root, while the principal value has the
    positive real part [|x|^(1/3) cos(pi/3)]. *)
Theorem C42_cbrt_negative_refuted : forall fp known b et x w, (x < 0)%R ->
  den fp known Expr b x ->
  (w * w * w = x)%R ->
  den fp known Prim (pow_text fp b (ENum (1 # 3)) et) w /\
  (w < 0 < Rpower (- x) (1 / 3) * cos (PI / 3))%R.
Proof.
  intros fp known b et x w X H C. split.
  - pose proof (d_cbrt fp known b x w H C) as D. destruct fp; exact D.
  - split.
    + destruct (Rlt_le_dec w 0) as [L|L]; [exact L|].
      assert (0 <= w * w * w)%R by (repeat apply Rmult_le_pos; exact L). lra.
    + apply Rmult_lt_0_compat; [apply Rpower_pos|]. rewrite cos_PI3. lra.
Qed.

(** ** Examples *)

Example C42_ex_text :
  pow_text FpDouble "a + b" (ENum (-2)) "-2" = "(1.0/((a + b)*(a + b)))" /\
  pow_text FpFloat "x" (ENum (2 # 4)) "0.5" = "sqrtf(x)" /\
  pow_text FpDouble "x" (ENum (7 # 2)) "7.0/2.0" = "pow(x, 7.0/2.0)" /\
  pow_text FpLongDouble "x" ESym "n" = "powl(x, n)".
Proof. repeat split. Qed.

(** A base [a + b] of value 3: the hypotheses hold and the text stands for 1/9. *)
Example C42_ex_value : exists known, den FpDouble known Expr "a + b" 3 /\ den FpDouble known Expr "-2" (-2) /\
  power 3 (-2) (/ 9) /\
  den FpDouble known Prim "(1.0/((a + b)*(a + b)))" (/ 9).
Proof.
  exists (fun s v => s = "a + b" /\ v = 3%R \/ s = "-2" /\ v = (-2)%R).
  assert (A : power 3 (-2) (/ 9)).
  { replace (/ 9)%R with (powerRZ 3 (-2)) 
      by (change (powerRZ 3 (-2)) with (/ (3 * (3 * 1)))%R; field).
    apply power_int. left. lra. }
  split; [apply d_known; left; auto|]. split; [apply d_known; right; auto|]. split; [exact A|].
  apply (C42_power_printing FpDouble _ "a + b" 3 (ENum (-2)) "-2" (-2)).
  - apply d_known; left; auto.
  - apply d_known; right; auto.
  - cbn. unfold Q2R. cbn. lra.
  - exact A.
Qed.

Print Assumptions C42_power_printing.
Print Assumptions C42_abs_printing.
Print Assumptions C42_power_laws.
Print Assumptions C42_tables_agree_but_sixths.
Print Assumptions C42_sixths_differ.
Print Assumptions C42_cbrt_negative_refuted.
