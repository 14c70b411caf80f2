(** C83: the tables of TOVola and their interpolation. *)
From Coq Require Import List ZArith Bool Arith Lia Reals Lra Psatz.
From Verif Require Import TOVEquations Tovola PropTOV.
Import ListNotations.
Local Open Scope R_scope.

(** ** Memory *)
Lemma step_inv : forall s s' w, (fst s + 11 < snd s)%nat -> (1024 <= snd s)%nat -> save_step s = (s', w) ->
  fst s' = S (fst s) /\ (fst s' + 11 < snd s')%nat /\ (1024 <= snd s')%nat /\ w = (fst s, snd s').
Proof.
  intros [n al] s' w H H0 E. unfold save_step, NEGATIVE_R_INTERP_BUFFER in E. cbn [fst snd] in *. injection E as <- <-. cbn [fst snd].
  pose proof (Nat.div_mod_eq (3 * al) 2) as D. pose proof (Nat.mod_upper_bound (3 * al) 2 ltac:(lia)) as D2. set (q := (3 * al / 2)%nat) in *. set (m := ((3 * al) mod 2)%nat) in *.
  destruct (Nat.leb_spec al (n + 11 + 1)); repeat split; try lia; change (fst (Nat.divmod (al + (al + (al + 0))) 1 0 1)) with q; lia.
Qed.
Lemma steps_inv : forall n s s' ws, (fst s + 11 < snd s)%nat -> (1024 <= snd s)%nat -> save_steps n s = (s', ws) ->
  fst s' = (fst s + n)%nat /\ (fst s' + 11 < snd s')%nat /\ map fst ws = seq (fst s) n /\ Forall (fun w => (fst w < snd w)%nat) ws.
Proof.
  induction n as [|n IH]; intros s s' ws H H0 E; cbn [save_steps] in E.
  - injection E as <- <-. cbn. repeat split; [lia | lia | constructor].
  - destruct (save_step s) as [s1 w] eqn:E1. destruct (save_steps n s1) as [s2 ws'] eqn:E2. injection E as <- <-.
    destruct (step_inv s s1 w H H0 E1) as (A1 & A2 & A3 & A4). destruct (IH s1 s2 ws' A2 A3 E2) as (B1 & B2 & B3 & B4).
    split; [lia |]. split; [exact B2 |]. split; [cbn [map seq]; rewrite A4; cbn [fst]; f_equal; rewrite B3, A1; reflexivity |].
    constructor; [| exact B4]. rewrite A4. cbn [fst snd]. lia.
Qed.
(** After any number of steps every value was stored inside the arrays, one after another, and the 11 values that are added at r < 0 fit. *)
Theorem C83_memory : forall n, exists al ws, saved_after n = ((n, al), ws) /\ map fst ws = seq 0 n /\ Forall (fun w => (fst w < snd w)%nat) ws /\ (n + NEGATIVE_R_INTERP_BUFFER <= al)%nat.
Proof.
  intro n. unfold saved_after, NEGATIVE_R_INTERP_BUFFER. destruct (save_steps n (0%nat, 1024%nat)) as [[m al] ws] eqn:E.
  destruct (steps_inv n (0%nat, 1024%nat) _ _ ltac:(cbn; lia) ltac:(cbn; lia) E) as (A1 & A2 & A3 & A4). cbn [fst snd] in *. exists al, ws. subst m. repeat split; try assumption; lia.
Qed.
Example C83_memory_at : saved_after 3 = ((3%nat, 1024%nat), [(0, 1024); (1, 1024); (2, 1024)]%nat).
Proof. reflexivity. Qed.

(** ** Extension to r < 0 *)
(** If at least 11 radii are stored, the extended radii are symmetric about 0 and increasing, and each extended table belongs to a function that is
    even (parity 1) or odd (parity -1): the value at the radius with the opposite sign is parity times the value. *)
Theorem C83_extension : forall r l, (NEGATIVE_R_INTERP_BUFFER <= List.length r)%nat -> List.length l = List.length r ->
  (forall i, (S i < List.length r)%nat -> nth i r 0 < nth (S i) r 0) -> 0 < nth 0 r 0 -> forall parity,
  exists r' l', extend_to_negative_r (-1) r = Some r' /\ extend_to_negative_r parity l = Some l' /\
    List.length r' = (List.length r + 11)%nat /\ List.length l' = List.length r' /\
    (forall i, (S i < List.length r')%nat -> nth i r' 0 < nth (S i) r' 0) /\
    (forall i, (i < List.length r)%nat -> nth (i + 11) r' 0 = nth i r 0 /\ nth (i + 11) l' 0 = nth i l 0) /\
    (forall i, (i < 11)%nat -> nth i r' 0 = - nth (21 - i) r' 0 /\ nth i l' 0 = parity * nth (21 - i) l' 0).
Proof.
  unfold NEGATIVE_R_INTERP_BUFFER. intros r l L E Inc P0 parity. unfold extend_to_negative_r, NEGATIVE_R_INTERP_BUFFER. rewrite E.
  destruct (Nat.ltb_spec (List.length r) 11); [lia |]. eexists. eexists. split; [reflexivity |]. split; [reflexivity |].
  rewrite !app_length, !map_length, !seq_length. split; [lia |]. split; [lia |].
  assert (Lo : forall p (a : list R) i, (i < 11)%nat -> nth i (map (fun i => p * nth (11 - i - 1) a 0) (seq 0 11) ++ a) 0 = p * nth (10 - i) a 0).
  { intros p a i Hi. rewrite app_nth1 by (rewrite map_length, seq_length; lia). rewrite (nth_indep _ 0 (p * nth (11 - 0 - 1) a 0)) by (rewrite map_length, seq_length; lia).
    rewrite (map_nth (fun i => p * nth (11 - i - 1) a 0)), seq_nth by lia. f_equal. f_equal. lia. }
  assert (Hi : forall p (a : list R) i, nth (i + 11) (map (fun i => p * nth (11 - i - 1) a 0) (seq 0 11) ++ a) 0 = nth i a 0).
  { intros p a i. rewrite app_nth2 by (rewrite map_length, seq_length; lia). f_equal. rewrite map_length, seq_length. lia. }
  split; [| split].
  - intros i Hlt. destruct (Nat.lt_ge_cases i 11) as [A|A].
    + rewrite Lo by exact A. destruct (Nat.eq_dec i 10) as [->|N].
      * pose proof (Hi (-1) r 0%nat) as Q. change (0 + 11)%nat with 11%nat in Q. rewrite Q. replace (10 - 10)%nat with 0%nat by lia. lra.
      * rewrite Lo by lia. pose proof (Inc (10 - S i)%nat ltac:(lia)) as I. replace (S (10 - S i)) with (10 - i)%nat in I by lia. lra.
    + replace i with (i - 11 + 11)%nat at 1 by lia. replace (S i) with (S (i - 11) + 11)%nat by lia. rewrite !Hi. apply Inc. lia.
  - intros i Hlt. rewrite !Hi. split; reflexivity.
  - intros i Hlt. rewrite (Lo (-1) r i Hlt), (Lo parity l i Hlt). replace (21 - i)%nat with (10 - i + 11)%nat by lia. rewrite !Hi. split; [ring | reflexivity].
Qed.
Example C83_extension_at : extend_to_negative_r (-1) (map INR (seq 1 12)) = Some ([-11; -10; -9; -8; -7; -6; -5; -4; -3; -2; -1] ++ map INR (seq 1 12)).
Proof. unfold extend_to_negative_r, NEGATIVE_R_INTERP_BUFFER. cbn [List.length map seq Nat.ltb Nat.leb nth Nat.sub app]. repeat (f_equal; try (cbn; ring)). Qed.
(** With the parities of the code: from the isotropic radii and the values there of an even function, the extension is the table of the same function at
    the extended radii for the densities, the pressure and nu, and of an odd function for the areal radius. *)
Theorem C83_parities : forall r, (NEGATIVE_R_INTERP_BUFFER <= List.length r)%nat -> exists r', extend_to_negative_r parity_r_iso r = Some r' /\
  (forall f, (forall x, f (- x) = f x) -> Forall (fun parity => extend_to_negative_r parity (map f r) = Some (map f r')) [parity_rho_energy; parity_rho_baryon; parity_P; parity_nu]) /\
  (forall f, (forall x, f (- x) = - f x) -> extend_to_negative_r parity_r_Schw (map f r) = Some (map f r')).
Proof.
  unfold NEGATIVE_R_INTERP_BUFFER. intros r L.
  assert (G : forall c f, (forall x, f (- x) = c * f x) -> extend_to_negative_r c (map f r) = Some (map f (map (fun i => -1 * nth (11 - i - 1) r 0) (seq 0 11) ++ r))).
  { intros c f H. unfold extend_to_negative_r, NEGATIVE_R_INTERP_BUFFER. rewrite map_length. destruct (Nat.ltb_spec (List.length r) 11); [lia |]. rewrite map_app, map_map. do 2 f_equal.
    apply map_ext_in. intros i I. apply in_seq in I. rewrite (nth_indep _ 0 (f 0)) by (rewrite map_length; lia). rewrite map_nth, <- H. f_equal. ring. }
  eexists. split; [pose proof (G (-1) (fun x => x) ltac:(cbn; intro; ring)) as E; rewrite !map_id in E; exact E |]. split.
  - intros f H. repeat constructor; apply G; intro x; rewrite H; unfold parity_rho_energy, parity_rho_baryon, parity_P, parity_nu; ring.
  - intros f H. apply G. intro x. rewrite H. unfold parity_r_Schw. ring.
Qed.
Example C83_parities_at : extend_to_negative_r parity_P (map (fun x => x * x) (map INR (seq 1 11))) = Some (map (fun x => x * x) ([-11; -10; -9; -8; -7; -6; -5; -4; -3; -2; -1] ++ map INR (seq 1 11))).
Proof.
  destruct (C83_parities (map INR (seq 1 11)) (Nat.le_refl 11)) as (r' & E & Ev & _). specialize (Ev (fun x => x * x) ltac:(cbn; intro; ring)). rewrite Forall_forall in Ev. rewrite (Ev parity_P) by (cbn; tauto). do 2 f_equal.
  injection E as <-. cbn [map seq app nth Nat.sub NEGATIVE_R_INTERP_BUFFER]. unfold parity_r_iso. repeat (f_equal; try (cbn; ring)).
Qed.
(** The mass inside r is an odd function (it grows with r^3), but its table is extended with parity 1: for a star of constant density the extended
    table is not the mass at the extended radii. *)
Theorem C83_mass_parity_refuted : ~ (forall r, (NEGATIVE_R_INTERP_BUFFER <= List.length r)%nat -> forall r' m', extend_to_negative_r parity_r_iso r = Some r' ->
  extend_to_negative_r parity_M (map (fun x => x * x * x) r) = Some m' -> m' = map (fun x => x * x * x) r').
Proof.
  intro H. specialize (H (map INR (seq 1 11)) (Nat.le_refl 11) _ _ eq_refl eq_refl). apply (f_equal (fun l => nth 0 l 0)) in H. cbn in H. unfold parity_M, parity_r_iso in H. lra.
Qed.

(** ** Normalisation *)
(** At the surface the normalised tables are the Schwarzschild solution of the stellar mass: expnu = 1 - 2 M / R, and the exterior formula of the
    interpolation takes the isotropic surface radius to R and gives the same exp4phi and expnu there. *)
Theorem C83_surface : forall n r_Schw M nu r_iso, let R0 := r_Schw (n - 1)%nat in let M0 := M (n - 1)%nat in
  0 < R0 -> 2 * M0 < R0 -> r_iso (n - 1)%nat <> 0 ->
  let rs := set_r_iso n r_Schw M r_iso (n - 1) in
  0 < rs /\ rs + M0 + M0 * M0 / (4 * rs) = R0 /\ set_expnu n r_Schw M nu (n - 1) = 1 - 2 * M0 / R0 /\ set_exp4phi n r_Schw M r_iso (n - 1) = R0 * R0 / (rs * rs).
Proof.
  intros n r_Schw M nu r_iso R0 M0 H0 H1 H2 rs. assert (W : 0 < R0 * (R0 - 2 * M0)) by (apply Rmult_lt_0_compat; lra). pose proof (sqrt_lt_R0 _ W) as Sp. pose proof (sqrt_sqrt (R0 * (R0 - 2 * M0)) ltac:(lra)) as SS.
  assert (Er : rs = / 2 * (sqrt (R0 * (R0 - 2 * M0)) + R0 - M0)).
  { unfold rs, set_r_iso, normalize, R_Schw_surface, M_surface, r_iso_surface. fold R0. fold M0. field. exact H2. }
  assert (Fp : 0 < 1 - 2 * M0 / R0). { apply Rmult_lt_reg_l with R0; [exact H0 |]. rewrite Rmult_0_r. replace (R0 * (1 - 2 * M0 / R0)) with (R0 - 2 * M0) by (field; lra). lra. }
  set (q := sqrt (R0 * (R0 - 2 * M0))) in *. assert (Rp : 0 < rs). { rewrite Er. nra. }
  split; [exact Rp |]. split; [| split].
  - assert (Q : 4 * rs * rs + M0 * M0 = 4 * rs * (R0 - M0)). { rewrite Er. replace (R0 - M0) with (R0 - M0) by ring. nra. }
    transitivity ((4 * rs * rs + M0 * M0) / (4 * rs) + M0); [field; lra |]. rewrite Q. field. lra.
  - unfold set_expnu, nu_surface, M_surface, R_Schw_surface. fold R0. fold M0. replace (nu (n - 1)%nat - nu (n - 1)%nat) with 0 by ring. rewrite Rplus_0_l. now apply exp_ln.
  - unfold set_exp4phi. fold rs. fold R0. field. lra.
Qed.
Example C83_surface_at : let r_Schw i := match i with O => 1 | _ => 4 end in let M i := match i with O => / 4 | _ => 3 / 2 end in let r_iso i := INR i + 1 in
  set_r_iso 2 r_Schw M r_iso 1 = 9 / 4 /\ set_expnu 2 r_Schw M (fun _ => 5) 1 = 1 / 4.
Proof.
  intros r_Schw M r_iso. destruct (C83_surface 2 r_Schw M (fun _ => 5) r_iso) as (_ & _ & E & _); [cbn; lra | cbn; lra | unfold r_iso; cbn; lra |]. split.
  - unfold set_r_iso, normalize, R_Schw_surface, M_surface, r_iso_surface, r_iso. cbn. replace (4 * (4 - 2 * (3 / 2))) with (2 * 2) by field. rewrite sqrt_square by lra. field.
  - cbn [Nat.sub] in E. rewrite E. cbn. field.
Qed.
(** the exterior formulas *)
(** From the surface outwards the data are vacuum and Schwarzschild's solution in isotropic coordinates. *)
Theorem C83_exterior : forall size max_size T rr, t_r_iso T (t_n T - 1)%nat <= rr -> 0 < rr -> 0 <= t_M T (t_n T - 1)%nat -> let m := t_M T (t_n T - 1)%nat in
  exists v, interpolate_1D size max_size T rr = CVal v /\ v_rho_energy v = 0 /\ v_rho_baryon v = 0 /\ v_P v = 0 /\ v_M v = m /\
    v_exp4phi v = (1 + m / (2 * rr)) ^ 4 /\ v_expnu v = ((1 - m / (2 * rr)) / (1 + m / (2 * rr))) ^ 2.
Proof.
  intros size max_size T rr H H0 Hm m. unfold interpolate_1D. destruct (Rlt_dec rr (t_r_iso T (t_n T - 1)%nat)) as [A|A]; [lra |]. fold m in Hm |- *.
  eexists. split; [reflexivity |]. cbn [v_rho_energy v_rho_baryon v_P v_M v_expnu v_exp4phi]. repeat split.
  - field. lra.
  - assert (Z : 2 * rr + m <> 0) by lra. field. repeat split; try lra. replace (rr * (4 * rr) + 4 * m * rr + m * m) with ((2 * rr + m) * (2 * rr + m)) by ring. nra.
Qed.
Example C83_exterior_at : let T := MkT 2 INR INR INR INR (fun _ => 2) INR INR (fun i => INR i + 1) in
  exists v, interpolate_1D 5 13 T 3 = CVal v /\ v_expnu v = 1 / 4 /\ v_exp4phi v = 256 / 81.
Proof.
  intro T. destruct (C83_exterior 5 13 T 3) as (v & E & _ & _ & _ & _ & E4 & En); [cbn; lra | lra | cbn; lra |]. exists v. split; [exact E |]. cbn [t_M T t_n Nat.sub] in E4, En. rewrite E4, En. split; field.
Qed.
(** ** Bisection *)
Section Nearest.
Variables (rr : R) (arr : nat -> R) (n : nat).
Hypothesis inc : forall i j, (i < j < n)%nat -> arr i < arr j.
Lemma inc_le : forall i j, (i <= j < n)%nat -> arr i <= arr j.
Proof. intros i j H. destruct (Nat.eq_dec i j) as [->|N]; [lra | left; apply inc; lia]. Qed.
Lemma near_of : forall x k, (S x < n)%nat -> arr x <= rr <= arr (S x) -> (k < n)%nat -> Rmin (Rabs (rr - arr x)) (Rabs (rr - arr (S x))) <= Rabs (rr - arr k).
Proof.
  intros x k Hx [A1 A2] Hk. destruct (Nat.le_gt_cases k x) as [L|L].
  - pose proof (inc_le k x ltac:(lia)). eapply Rle_trans; [apply Rmin_l |]. rewrite !Rabs_right by lra. lra.
  - pose proof (inc_le (S x) k ltac:(lia)). eapply Rle_trans; [apply Rmin_r |]. rewrite !Rabs_left1 by lra. lra.
Qed.
Lemma choose : forall x, (S x < n)%nat -> arr x <= rr <= arr (S x) ->
  exists i, (if Rlt_dec (Rabs (rr - arr x)) (Rabs (rr - arr (S x))) then Some x else Some (S x)) = Some i /\ (i < n)%nat /\ forall k, (k < n)%nat -> Rabs (rr - arr i) <= Rabs (rr - arr k).
Proof.
  intros x Hx B. destruct (Rlt_dec _ _) as [C|C]; eexists; (split; [reflexivity |]); (split; [lia |]); intros k Hk; pose proof (near_of x k Hx B Hk) as M.
  - rewrite Rmin_left in M by lra. exact M.
  - rewrite Rmin_right in M by lra. exact M.
Qed.
Lemma bisect_ok : forall fuel x1 x2, (x1 + 2 <= x2 < n)%nat -> (x2 - x1 <= S fuel)%nat -> arr x1 <= rr <= arr x2 ->
  exists i, bisect rr arr fuel x1 x2 (rr - arr x1) = Some i /\ (i < n)%nat /\ forall k, (k < n)%nat -> Rabs (rr - arr i) <= Rabs (rr - arr k).
Proof.
  induction fuel as [|fuel IH]; intros x1 x2 B Hf A; [lia |]. cbn [bisect]. set (mid := ((x1 + x2) / 2)%nat).
  assert (Mb : (x1 < mid < x2)%nat).
  { unfold mid. pose proof (Nat.div_mod_eq (x1 + x2) 2). pose proof (Nat.mod_upper_bound (x1 + x2) 2 ltac:(lia)). lia. }
  assert (Ma : arr x1 < arr mid) by (apply inc; lia). assert (Mc : arr mid < arr x2) by (apply inc; lia).
  destruct (Rle_dec ((rr - arr mid) * (rr - arr x1)) 0) as [C|C].
  - assert (rr <= arr mid) by (destruct (Rle_lt_dec rr (arr mid)); [assumption |]; exfalso; apply (Rlt_not_le ((rr - arr mid) * (rr - arr x1)) 0); [apply Rmult_lt_0_compat; lra | exact C]).
    replace (Nat.max x1 mid - Nat.min x1 mid)%nat with (mid - x1)%nat by lia. destruct (Nat.eqb_spec (mid - x1) 1) as [E|E].
    + replace mid with (S x1) in * by lia. apply choose; [lia | lra].
    + apply IH; [lia | lia | lra].
  - assert (arr mid <= rr) by (destruct (Rle_lt_dec (arr mid) rr); [assumption |]; exfalso; apply C; replace ((rr - arr mid) * (rr - arr x1)) with (- ((arr mid - rr) * (rr - arr x1))) by ring; pose proof (Rmult_le_pos (arr mid - rr) (rr - arr x1) ltac:(lra) ltac:(lra)); lra).
    replace (Nat.max mid x2 - Nat.min mid x2)%nat with (x2 - mid)%nat by lia. destruct (Nat.eqb_spec (x2 - mid) 1) as [E|E].
    + replace x2 with (S mid) in * by lia. apply choose; [lia | lra].
    + apply IH; [lia | lia | lra].
Qed.
End Nearest.
(** For an increasing table of three or more radii the bisection finds the nearest radius, if the argument is inside the table; otherwise it exits. *)
Theorem C83_nearest : forall rr arr n, (3 <= n)%nat -> (forall i j, (i < j < n)%nat -> arr i < arr j) ->
  (arr 0%nat <= rr <= arr (n - 1)%nat -> exists i, bisection_idx_finder rr arr n = Some i /\ (i < n)%nat /\ forall k, (k < n)%nat -> Rabs (rr - arr i) <= Rabs (rr - arr k)) /\
  (rr < arr 0%nat \/ arr (n - 1)%nat < rr -> bisection_idx_finder rr arr n = None).
Proof.
  intros rr arr n Hn Inc. pose proof (Inc 0%nat (n - 1)%nat ltac:(lia)) as I0. unfold bisection_idx_finder. split.
  - intros B. destruct (Rlt_dec 0 _) as [C|C].
    + exfalso. replace ((rr - arr 0%nat) * (rr - arr (n - 1)%nat)) with (- ((rr - arr 0%nat) * (arr (n - 1)%nat - rr))) in C by ring. pose proof (Rmult_le_pos (rr - arr 0%nat) (arr (n - 1)%nat - rr) ltac:(lra) ltac:(lra)). lra.
    + apply (bisect_ok rr arr n Inc n 0 (n - 1)); [lia | lia | exact B].
  - intros B. destruct (Rlt_dec 0 _) as [C|C]; [reflexivity |]. exfalso. apply C. destruct B.
    + replace ((rr - arr 0%nat) * (rr - arr (n - 1)%nat)) with ((arr 0%nat - rr) * (arr (n - 1)%nat - rr)) by ring. apply Rmult_lt_0_compat; lra.
    + apply Rmult_lt_0_compat; lra.
Qed.
Example C83_nearest_at : exists i, bisection_idx_finder (7 / 3) INR 6 = Some i /\ i = 2%nat.
Proof.
  destruct (proj1 (C83_nearest (7 / 3) INR 6 ltac:(lia) (fun i j H => lt_INR i j ltac:(lia))) ltac:(cbn; lra)) as (i & E & Hi & Near). exists i. split; [exact E |].
  specialize (Near 2%nat ltac:(lia)). do 6 (destruct i as [|i]; [cbn in Near; try reflexivity; exfalso; revert Near; repeat (unfold Rabs; destruct (Rcase_abs _)); lra |]). lia.
Qed.

(** ** Lagrange interpolation *)
Fixpoint pev (p : list R) (x : R) : R := match p with [] => 0 | c :: q => c + x * pev q x end.
Fixpoint padd (p q : list R) : list R := match p, q with [], _ => q | _, [] => p | a :: p', b :: q' => (a + b) :: padd p' q' end.
Lemma pev_add : forall p q x, pev (padd p q) x = pev p x + pev q x.
Proof. induction p as [|a p IH]; intros [|b q] x; cbn [padd pev]; try ring. rewrite IH. ring. Qed.
Lemma padd_len : forall p q, List.length (padd p q) = Nat.max (List.length p) (List.length q).
Proof. induction p as [|a p IH]; intros [|b q]; cbn; auto. Qed.
Lemma pev_scale : forall c p x, pev (map (Rmult c) p) x = c * pev p x.
Proof. induction p as [|a p IH]; intro x; cbn; [ring |]. rewrite IH. ring. Qed.
Lemma deflate : forall p a, exists q, List.length q = pred (List.length p) /\ forall x, pev p x - pev p a = (x - a) * pev q x.
Proof.
  induction p as [|c p IH]; intro a; [exists []; split; [reflexivity | intro; cbn; ring] |]. destruct (IH a) as (q & L & H).
  exists (padd p (map (Rmult a) q)). split; [rewrite padd_len, map_length, L; cbn; lia |]. intro x. cbn [pev]. rewrite pev_add, pev_scale.
  replace (c + x * pev p x - (c + a * pev p a)) with ((x - a) * pev p x + a * (pev p x - pev p a)) by ring. rewrite H. ring.
Qed.
Lemma roots_zero : forall xs p, NoDup xs -> (List.length p <= List.length xs)%nat -> (forall x, In x xs -> pev p x = 0) -> forall x, pev p x = 0.
Proof.
  induction xs as [|a xs IH]; intros p N L Rt x; [destruct p; [reflexivity | cbn in L; lia] |].
  apply NoDup_cons_iff in N as [N1 N2]. destruct (deflate p a) as (q & Lq & H). assert (RA : pev p a = 0) by (apply Rt; now left).
  assert (Q : forall z, pev q z = 0).
  { apply IH; [exact N2 | cbn in L; lia |]. intros z Iz. specialize (H z). rewrite RA, (Rt z) in H by now right. assert (E : (z - a) * pev q z = 0) by lra.
    apply Rmult_integral in E as [E|E]; [| exact E]. exfalso. apply N1. replace a with z by lra. exact Iz. }
  specialize (H x). rewrite RA, Q in H. lra.
Qed.
(** [f] is a polynomial of degree below [n] *)
Definition polynomial (n : nat) (f : R -> R) : Prop := exists p, (List.length p <= n)%nat /\ forall x, f x = pev p x.
Lemma pol_add : forall n f g, polynomial n f -> polynomial n g -> polynomial n (fun x => f x + g x).
Proof. intros n f g (p & Lp & Hp) (q & Lq & Hq). exists (padd p q). split; [rewrite padd_len; lia | intro x; now rewrite pev_add, Hp, Hq]. Qed.
Lemma pol_scale : forall n c f, polynomial n f -> polynomial n (fun x => f x * c).
Proof. intros n c f (p & Lp & Hp). exists (map (Rmult c) p). split; [rewrite map_length; lia | intro x; rewrite pev_scale, Hp; ring]. Qed.
Lemma pol_mul : forall n s f, polynomial n f -> polynomial (S n) (fun x => f x * (x - s)).
Proof.
  intros n s f (p & Lp & Hp). exists (padd (0 :: p) (map (Rmult (- s)) p)). split; [rewrite padd_len, map_length; cbn [List.length]; lia | intro x; rewrite pev_add, pev_scale, Hp; cbn; ring].
Qed.
Lemma pol_ext : forall n f g, (forall x, f x = g x) -> polynomial n f -> polynomial n g.
Proof. intros n f g H (p & L & Hp). exists p. split; [exact L | intro x; now rewrite <- H]. Qed.
Lemma pol_le : forall n m f, (n <= m)%nat -> polynomial n f -> polynomial m f.
Proof. intros n m f H (p & L & Hp). exists p. split; [lia | exact Hp]. Qed.
Section Lagrange.
Variables (s : nat -> R) (size : nat).
Hypothesis distinct : forall i j, (i < size)%nat -> (j < size)%nat -> i <> j -> s i <> s j.
Let numer (x : R) (i n : nat) : R := fold_left (fun a j => if (j =? i)%nat then a else a * (x - s j)) (seq 0 n) 1.
Lemma numer_S : forall x i n, numer x i (S n) = if (n =? i)%nat then numer x i n else numer x i n * (x - s n).
Proof. intros. unfold numer. rewrite seq_S, fold_left_app. reflexivity. Qed.
Lemma numer_pol : forall i n, polynomial (if (i <? n)%nat then n else S n) (fun x => numer x i n).
Proof.
  intros i n. induction n as [|n IH].
  - cbn. exists [1]. split; [cbn; lia | intro x; cbn; ring].
  - destruct (Nat.eqb_spec n i) as [->|N].
    + apply (pol_ext _ (fun x => numer x i i)); [intro x; now rewrite numer_S, Nat.eqb_refl |]. rewrite Nat.ltb_irrefl in IH. destruct (Nat.ltb_spec i (S i)); [exact IH | lia].
    + apply (pol_ext _ (fun x => numer x i n * (x - s n))); [intro x; rewrite numer_S; destruct (Nat.eqb_spec n i); [lia | reflexivity] |].
      destruct (Nat.ltb_spec i (S n)); destruct (Nat.ltb_spec i n); try lia; now apply pol_mul.
Qed.
Lemma numer_zero : forall i j n, (j < n)%nat -> j <> i -> numer (s j) i n = 0.
Proof.
  intros i j n. induction n as [|n IH]; intros H N; [lia |]. rewrite numer_S. destruct (Nat.eq_dec j n) as [->|E].
  - destruct (Nat.eqb_spec n i); [lia | ring].
  - rewrite IH by lia. destruct (n =? i)%nat; ring.
Qed.
Lemma numer_nz : forall i n, (n <= size)%nat -> (i < size)%nat -> numer (s i) i n <> 0.
Proof.
  intros i n. induction n as [|n IH]; intros H Hi; [cbn; lra |]. rewrite numer_S. destruct (Nat.eqb_spec n i) as [->|N]; [apply IH; lia |].
  apply Rmult_integral_contrapositive. split; [apply IH; lia |]. intro E. apply (distinct n i); [lia | lia | exact N | lra].
Qed.
Lemma lagrange_eq : forall x i, lagrange s size x i = numer x i size / numer (s i) i size.
Proof. reflexivity. Qed.
Let total (f : nat -> R) (x : R) (n : nat) : R := fold_left (fun a i => a + lagrange s size x i * f i) (seq 0 n) 0.
Lemma total_S : forall f x n, total f x (S n) = total f x n + lagrange s size x n * f n.
Proof. intros. unfold total. rewrite seq_S, fold_left_app. reflexivity. Qed.
Lemma total_pol : forall f n, (n <= size)%nat -> polynomial size (fun x => total f x n).
Proof.
  intros f n. induction n as [|n IH]; intro H.
  - exists []. split; [cbn; lia | intro x; reflexivity].
  - apply (pol_ext _ (fun x => total f x n + numer x n size * (f n / numer (s n) n size))).
    + intro x. rewrite total_S, lagrange_eq. unfold Rdiv. ring.
    + apply pol_add; [apply IH; lia |]. apply pol_scale. pose proof (numer_pol n size) as P. destruct (Nat.ltb_spec n size); [exact P | lia].
Qed.
Lemma total_node : forall f n j, (n <= size)%nat -> (j < size)%nat -> total f (s j) n = if (j <? n)%nat then f j else 0.
Proof.
  intros f n j. induction n as [|n IH]; intros H Hj; [reflexivity |]. rewrite total_S, IH, lagrange_eq by lia. destruct (Nat.eq_dec j n) as [->|N].
  - rewrite Nat.ltb_irrefl. destruct (Nat.ltb_spec n (S n)); [| lia]. field. apply numer_nz; lia.
  - rewrite (numer_zero n j size) by lia. destruct (Nat.ltb_spec j n); destruct (Nat.ltb_spec j (S n)); try lia; unfold Rdiv; ring.
Qed.
Lemma exact : forall p f, polynomial size p -> (forall i, (i < size)%nat -> f i = p (s i)) -> forall x, total f x size = p x.
Proof.
  intros p f Hp Hf. destruct (pol_add _ _ _ (total_pol f size (Nat.le_refl _)) (pol_scale _ (-1) _ Hp)) as (q & Lq & Hq). intro x.
  assert (Z : pev q x = 0).
  { apply (roots_zero (map s (seq 0 size))).
    - assert (G : forall l, NoDup l -> (forall i, In i l -> (i < size)%nat) -> NoDup (map s l)).
      { induction l as [|a l IH]; intros Nd B; [constructor |]. apply NoDup_cons_iff in Nd as [N1 N2]. cbn. constructor; [| apply IH; [exact N2 | intros; apply B; now right]].
        intro I. apply in_map_iff in I. destruct I as (b & E & Ib). apply (distinct b a); [apply B; now right | apply B; now left | intros ->; contradiction | exact E]. }
      apply G; [apply seq_NoDup | intros i I; apply in_seq in I; lia].
    - now rewrite map_length, seq_length.
    - intros y I. apply in_map_iff in I. destruct I as (j & <- & Ij). apply in_seq in Ij. rewrite <- Hq, total_node by lia. destruct (Nat.ltb_spec j size); [| lia]. rewrite Hf by lia. ring. }
  rewrite <- Hq in Z. lra.
Qed.
End Lagrange.
(** Inside the star the interpolation neither exits nor leaves the arrays, if the table has at least as many radii as the stencil; the stencil contains
    the nearest radius; and every quantity whose table comes from a polynomial of degree below the size of the stencil is reproduced exactly. *)
Theorem C83_interpolation : forall size max_size T rr, (3 <= size <= max_size)%nat -> (size <= t_n T)%nat ->
  (forall i j, (i < j < t_n T)%nat -> t_r_iso T i < t_r_iso T j) -> t_r_iso T 0%nat <= rr < t_r_iso T (t_n T - 1)%nat -> 0 <= rr ->
  exists v idxmin, interpolate_1D size max_size T rr = CVal v /\ (idxmin + size <= t_n T)%nat /\
    (exists i, (idxmin <= i < idxmin + size)%nat /\ forall k, (k < t_n T)%nat -> Rabs (rr - t_r_iso T i) <= Rabs (rr - t_r_iso T k)) /\
    forall (pick : tov_tables -> nat -> R) (get : tov_values -> R) p,
      In (pick, get) [(t_rho_energy, v_rho_energy); (t_rho_baryon, v_rho_baryon); (t_P, v_P); (t_M, v_M); (t_expnu, v_expnu); (t_exp4phi, v_exp4phi)] ->
      polynomial size p -> (forall i, (idxmin <= i < idxmin + size)%nat -> pick T i = p (t_r_iso T i)) -> get v = p rr.
Proof.
  intros size max_size T rr Hs Hn Inc [H0 H1] Hp. unfold interpolate_1D. destruct (Rlt_dec rr (t_r_iso T (t_n T - 1)%nat)) as [C|C]; [| lra]. destruct (Rlt_dec rr 0) as [C'|C']; [lra |].
  destruct (proj1 (C83_nearest rr (t_r_iso T) (t_n T) ltac:(lia) Inc) ltac:(lra)) as (i & Ei & Hi & Near). rewrite Ei. destruct (Nat.ltb_spec max_size size); [lia |].
  set (z := stencil_start (t_n T) size i). assert (Z : (0 <= z /\ z + Z.of_nat size <= Z.of_nat (t_n T) /\ z <= Z.of_nat i < z + Z.of_nat size)%Z).
  { unfold z, stencil_start. pose proof (Z.div_mod (Z.of_nat size) 2 ltac:(lia)). pose proof (Z.mod_pos_bound (Z.of_nat size) 2 ltac:(lia)). lia. }
  destruct (Z.ltb_spec z 0); [lia |]. destruct (Z.ltb_spec (Z.of_nat (t_n T)) (z + Z.of_nat size)); [lia |]. cbn [orb]. set (k0 := Z.to_nat z).
  eexists. exists k0. split; [reflexivity |]. split; [unfold k0; lia |]. split; [exists i; split; [unfold k0; lia | exact Near] |].
  assert (Ex : forall f p, polynomial size p -> (forall i, (k0 <= i < k0 + size)%nat -> f i = p (t_r_iso T i)) -> interpolate (t_r_iso T) f k0 size rr = p rr).
  { intros f p Pp Pf. unfold interpolate. apply (exact (fun k => t_r_iso T (k0 + k)%nat) size); [| exact Pp | intros j Hj; apply Pf; lia].
    intros a b Ha Hb N E. destruct (Nat.lt_total a b) as [L|[L|L]]; [| lia |].
    - pose proof (Inc (k0 + a)%nat (k0 + b)%nat ltac:(unfold k0; lia)). lra.
    - pose proof (Inc (k0 + b)%nat (k0 + a)%nat ltac:(unfold k0; lia)). lra. }
  intros pick get p I Pp Pf. cbn [In] in I. repeat (destruct I as [I|I]; [injection I as <- <-; cbn; now apply Ex |]). contradiction.
Qed.
Definition C83_T : tov_tables := MkT 12 (fun i => INR i) (fun i => INR i * INR i) (fun i => 1) (fun i => 2) (fun i => INR i) (fun i => 3) (fun i => 4) (fun i => INR i).
Example C83_interpolation_at : exists v, interpolate_1D 5 13 C83_T (7 / 2) = CVal v /\ v_rho_energy v = 49 / 4.
Proof.
  destruct (C83_interpolation 5 13 C83_T (7 / 2) ltac:(lia) ltac:(cbn; lia)) as (v & k & E & _ & _ & X).
  - intros i j H. cbn [t_r_iso C83_T]. apply lt_INR. lia.
  - cbn. lra.
  - lra.
  - exists v. split; [exact E |]. rewrite (X t_rho_energy v_rho_energy (fun x => x * x)); [field | now left | exists [0; 0; 1]; split; [cbn; lia | intro x; cbn; ring] | intros; reflexivity].
Qed.
(** With fewer radii than the stencil the first index is negative and the code reads outside the arrays. *)
Theorem C83_small_table_refuted : ~ (forall size max_size T rr, (3 <= size <= max_size)%nat -> (3 <= t_n T)%nat -> (forall i j, (i < j < t_n T)%nat -> t_r_iso T i < t_r_iso T j) ->
  t_r_iso T 0%nat <= rr < t_r_iso T (t_n T - 1)%nat -> 0 <= rr -> interpolate_1D size max_size T rr <> COutside).
Proof.
  intro H. apply (H 13%nat 13%nat C83_T 1); [lia | cbn; lia | intros i j L; cbn [t_r_iso C83_T]; apply lt_INR; lia | cbn; lra | lra |].
  unfold interpolate_1D. cbn [t_n C83_T t_r_iso Nat.sub]. destruct (Rlt_dec 1 (INR 11)) as [C|C]; [| exfalso; apply C; cbn; lra]. destruct (Rlt_dec 1 0); [lra |].
  destruct (proj1 (C83_nearest 1 INR 12 ltac:(lia) (fun i j L => lt_INR i j ltac:(lia))) ltac:(cbn; lra)) as (i & Ei & Hi & _). change (t_r_iso C83_T) with (fun i => INR i).
  replace (bisection_idx_finder 1 (fun i => INR i) 12) with (Some i) by (symmetry; exact Ei). cbn [Nat.ltb Nat.leb]. unfold stencil_start.
  destruct (Z.ltb_spec (Z.min (Z.max 0 (Z.of_nat i - Z.of_nat 13 / 2 - 1)) (Z.of_nat 12 - 1 - Z.of_nat 13 + 1)) 0) as [L|L]; [reflexivity | lia].
Qed.

(** ** The data *)
(** the metric with lapse [d_alpha], no shift and spatial metric [d_gammaDD] *)
Definition four_metric (v : tov_values) (r_iso theta : R) (mu nu : nat) : R :=
  match mu, nu with 0%nat, 0%nat => - (d_alpha v * d_alpha v) | S i, S j => d_gammaDD v r_iso theta i j | _, _ => 0 end.
Definition sum4 (f : nat -> R) : R := f 0%nat + f 1%nat + f 2%nat + f 3%nat.
(** The energy-momentum tensor is the one of the perfect fluid with these densities at rest in this metric. *)
Theorem C83_tensor : forall v r_iso theta, 0 < v_expnu v -> 0 < v_exp4phi v -> r_iso <> 0 -> sin theta <> 0 ->
  let g := four_metric v r_iso theta in let u mu := match mu with 0%nat => / d_alpha v | _ => 0 end in let uD mu := sum4 (fun nu => g mu nu * u nu) in
  sum4 (fun mu => u mu * uD mu) = -1 /\
  forall mu lam, (mu < 4)%nat -> (lam < 4)%nat ->
    sum4 (fun nu => d_T4UU v r_iso theta mu nu * g nu lam) = (v_rho_energy v + v_P v) * u mu * uD lam + v_P v * (if (mu =? lam)%nat then 1 else 0).
Proof.
  intros v r th H0 H1 H2 H3 g u uD. pose proof (sqrt_lt_R0 _ H0) as Ap. pose proof (sqrt_sqrt (v_expnu v) ltac:(lra)) as AA.
  change (sqrt (v_expnu v)) with (d_alpha v) in Ap, AA. split.
  - unfold sum4, uD, sum4, g, u. cbn. field. lra.
  - intros mu lam Hm Hl. assert (Cm : (mu = 0 \/ mu = 1 \/ mu = 2 \/ mu = 3)%nat) by lia. assert (Cl : (lam = 0 \/ lam = 1 \/ lam = 2 \/ lam = 3)%nat) by lia.
    destruct Cm as [->|[->|[->| ->]]]; destruct Cl as [->|[->|[->| ->]]];
      unfold sum4, uD, sum4, g, u, four_metric, d_T4UU, d_gammaDD; cbn [Nat.eqb]; rewrite <- ?AA; try ring; field; repeat split; lra.
Qed.
Example C83_tensor_at : let v := MkV 3 2 1 7 (1 / 4) 16 in d_T4UU v 2 1 0 0 = 12 /\ d_T4UU v 2 1 2 2 = 1 / 64 /\ d_alpha v = 1 / 2.
Proof. cbn. repeat split; try field. unfold d_alpha. cbn. replace (1 / 4) with (1 / 2 * (1 / 2)) by field. apply sqrt_square. lra. Qed.

(** ** Equation of state *)
Lemma evaluate_pos : forall K Gamma P, 0 < K -> 1 < Gamma -> 0 < P -> exists rb, evaluate_rho_and_eps K Gamma P = (Some rb, Some (rb + P / (Gamma - 1))) /\
  rb = Rpower (P / K) (1 / Gamma) /\ 0 < rb /\ K * Rpower rb Gamma = P.
Proof.
  intros K Gamma P Hk Hg Hp. assert (Pk : 0 < P / K) by (apply Rdiv_lt_0_compat; assumption). exists (Rpower (P / K) (1 / Gamma)).
  assert (Rb : 0 < Rpower (P / K) (1 / Gamma)) by apply exp_pos.
  assert (E : Rpower (Rpower (P / K) (1 / Gamma)) Gamma = P / K). { rewrite Rpower_mult. replace (1 / Gamma * Gamma) with 1 by (field; lra). now apply Rpower_1. }
  split; [| split; [reflexivity | split; [exact Rb | rewrite E; field; lra]]].
  unfold evaluate_rho_and_eps, cpow, cdiv. destruct (Rlt_dec 0 (P / K)); [| lra]. set (rb := Rpower (P / K) (1 / Gamma)) in *. destruct (Rlt_dec 0 rb); [| lra]. rewrite E.
  destruct (Req_EM_T ((Gamma - 1) * rb) 0) as [Z|Z]; [exfalso; apply Rmult_integral in Z; lra |]. f_equal. f_equal. field. repeat split; lra.
Qed.
(** For a positive pressure the densities are those of the polytrope: P = K rho_baryon^Gamma and rho_energy = rho_baryon + P / (Gamma - 1); the energy
    density satisfies the first law d(rho_energy) = (rho_energy + P) / rho_baryon d(rho_baryon).  Otherwise the ODE takes rho_energy = 0.  The initial
    condition is the state at the central density. *)
Theorem C83_polytrope : forall K Gamma, 0 < K -> 1 < Gamma ->
  (forall P, 0 < P -> exists rb e, evaluate_rho_and_eps K Gamma P = (Some rb, Some e) /\ 0 < rb /\ P = K * Rpower rb Gamma /\ e = rb + P / (Gamma - 1)) /\
  (forall P, P <= 0 -> snd (evaluate_rho_and_eps K Gamma P) = None) /\
  (forall rb, 0 < rb -> let P x := K * Rpower x Gamma in let e x := x + P x / (Gamma - 1) in evaluate_rho_and_eps K Gamma (P rb) = (Some rb, Some (e rb)) /\
     derivable_pt_lim e rb ((e rb + P rb) / rb)) /\
  (forall rhoC, 0 < rhoC -> let '(y, e) := get_initial_condition K Gamma rhoC in y_nu y = 0 /\ y_M y = 0 /\ y_r_iso y = 0 /\ evaluate_rho_and_eps K Gamma (y_P y) = (Some rhoC, Some e)).
Proof.
  intros K Gamma Hk Hg. assert (Inv : forall rb, 0 < rb -> Rpower (K * Rpower rb Gamma / K) (1 / Gamma) = rb).
  { intros rb H. replace (K * Rpower rb Gamma / K) with (Rpower rb Gamma) by (field; lra). rewrite Rpower_mult. replace (Gamma * (1 / Gamma)) with 1 by (field; lra). now apply Rpower_1. }
  assert (Ev : forall rb, 0 < rb -> evaluate_rho_and_eps K Gamma (K * Rpower rb Gamma) = (Some rb, Some (rb + K * Rpower rb Gamma / (Gamma - 1)))).
  { intros rb H. destruct (evaluate_pos K Gamma (K * Rpower rb Gamma) Hk Hg) as (q & E & Eq & _); [apply Rmult_lt_0_compat; [exact Hk | apply exp_pos] |]. rewrite Inv in Eq by exact H. now rewrite E, Eq. }
  split; [| split; [| split]].
  - intros P Hp. destruct (evaluate_pos K Gamma P Hk Hg Hp) as (rb & E & _ & Rb & EP). exists rb, (rb + P / (Gamma - 1)). repeat split; [exact E | exact Rb | now symmetry].
  - intros P Hp. unfold evaluate_rho_and_eps, cpow, cdiv. destruct (Rlt_dec 0 (P / K)) as [C|C].
    + exfalso. assert (0 < P / K * K) by (apply Rmult_lt_0_compat; lra). replace (P / K * K) with P in H by (field; lra). lra.
    + destruct (Req_EM_T (P / K) 0); [| reflexivity]. assert (0 < 1 / Gamma) by (apply Rdiv_lt_0_compat; lra). destruct (Rlt_dec 0 (1 / Gamma)); [| lra]. destruct (Rlt_dec 0 0); [lra |]. destruct (Req_EM_T 0 0); [| lra].
      destruct (Rlt_dec 0 Gamma); [| lra]. destruct (Req_EM_T ((Gamma - 1) * 0) 0) as [Z|Z]; [reflexivity | exfalso; apply Z; ring].
  - intros rb H P e. split; [now apply Ev |]. unfold e, P.
    assert (D : derivable_pt_lim (fun x => x + / (Gamma - 1) * (K * Rpower x Gamma)) rb (1 + / (Gamma - 1) * (K * (Gamma * Rpower rb (Gamma - 1))))).
    { apply der_plus; [apply der_id |]. apply der_scal, der_scal. now apply derivable_pt_lim_power. }
    apply (der_ext (fun x => x + / (Gamma - 1) * (K * Rpower x Gamma))); [intro u; unfold Rdiv; ring |]. eapply der_val; [| exact D].
    assert (Sp : Rpower rb Gamma = Rpower rb (Gamma - 1) * rb). { transitivity (Rpower rb (Gamma - 1) * Rpower rb 1); [rewrite <- Rpower_plus; f_equal; ring | now rewrite Rpower_1 by exact H]. }
    rewrite Sp. set (q := Rpower rb (Gamma - 1)). field. split; lra.
  - intros rhoC H. unfold get_initial_condition. cbn [y_nu y_M y_r_iso y_P]. repeat split. rewrite Ev by exact H. now rewrite Inv by exact H.
Qed.
(** ** The integrated system *)
(** the densities of the code *)
Definition rho_baryon_of (K Gamma P : R) : R := match fst (evaluate_rho_and_eps K Gamma P) with Some x => x | None => 0 end.
Definition rho_energy_of (K Gamma P : R) : R := match snd (evaluate_rho_and_eps K Gamma P) with Some x => x | None => 0 end.
(** the states [Y] follow the right-hand sides of the code at radius [r] *)
Definition follows (K Gamma : R) (Y : R -> ode_state) (r : R) : Prop := let d := TOVola_ODE K Gamma r (Y r) in
  derivable_pt_lim (fun s => y_P (Y s)) r (y_P d) /\ derivable_pt_lim (fun s => y_nu (Y s)) r (y_nu d) /\ derivable_pt_lim (fun s => y_M (Y s)) r (y_M d) /\
  derivable_pt_lim (fun s => y_r_iso (Y s)) r (y_r_iso d).
Lemma positive_near : forall f x l, derivable_pt_lim f x l -> 0 < f x -> exists r1 r2, r1 < x < r2 /\ forall u, r1 < u < r2 -> 0 < f u.
Proof.
  intros f x l D Hp. pose proof (derivable_continuous_pt f x (exist _ l D)) as C. destruct (C (f x) Hp) as (d & Hd & C'). exists (x - d), (x + d). split; [lra |]. intros u Hu.
  destruct (Req_dec u x) as [->|N]; [exact Hp |]. specialize (C' u). cbn in C'. unfold R_dist, D_x, no_cond in C'.
  assert (A : Rabs (f u - f x) < f x). { apply C'. split; [split; [exact I | auto] |]. apply Rabs_def1; lra. } apply Rabs_def2 in A. lra.
Qed.
Lemma injection_pos : forall K Gamma P, 0 < K -> 1 < Gamma -> 0 < P -> exists rb, rho_baryon_of K Gamma P = rb /\ rho_energy_of K Gamma P = rb + P / (Gamma - 1) /\ 0 < rb /\ exp ((1 - 1 / Gamma) * ln (P / K)) = P / K / rb.
Proof.
  intros K Gamma P Hk Hg Pp. destruct (evaluate_pos K Gamma _ Hk Hg Pp) as (rb & E & Eb & Rb & EP). exists rb. unfold rho_baryon_of, rho_energy_of. rewrite E. cbn [fst snd]. repeat split; [exact Rb |].
  assert (Q : exp ((1 - 1 / Gamma) * ln (P / K)) * rb = P / K).
  { rewrite Eb. unfold Rpower. rewrite <- exp_plus. replace ((1 - 1 / Gamma) * ln (P / K) + 1 / Gamma * ln (P / K)) with (ln (P / K)) by ring. apply exp_ln. apply Rdiv_lt_0_compat; assumption. }
  apply (Rmult_eq_reg_r rb); [rewrite Q; field; split; lra | lra].
Qed.
(** Where the states follow the right-hand sides of the code at a positive pressure, the three TOV equations hold with the energy density of the
    polytrope (so by C82 the metric satisfies Einstein's equations), and the injection energy (rho_energy + P) / rho_baryon exp(nu / 2) has derivative
    0: the star is in equilibrium. *)
Theorem C83_equilibrium : forall K Gamma Y r, 0 < K -> 1 < Gamma -> 0 < r -> follows K Gamma Y r -> 0 < y_P (Y r) -> 2 * y_M (Y r) < r ->
  let rho := rho_energy_of K Gamma (y_P (Y r)) in
  (derivable_pt_lim (fun s => y_P (Y s)) r (dP_dr r rho (y_P (Y r)) (y_M (Y r))) /\ derivable_pt_lim (fun s => y_nu (Y s)) r (dnu_dr r (y_P (Y r)) (y_M (Y r))) /\
   derivable_pt_lim (fun s => y_M (Y s)) r (dM_dr r rho)) /\
  derivable_pt_lim (fun s => (rho_energy_of K Gamma (y_P (Y s)) + y_P (Y s)) / rho_baryon_of K Gamma (y_P (Y s)) * exp (y_nu (Y s) / 2)) r 0.
Proof.
  intros K Gamma Y r Hk Hg Hr (DP & DN & DM & _) Pp HM rho. unfold TOVola_ODE in DP, DN, DM. fold (rho_energy_of K Gamma (y_P (Y r))) in DP, DM.
  destruct (Req_EM_T r 0) as [Z|Z]; [exfalso; lra |]. cbn [y_P y_nu y_M] in DP, DN, DM. fold rho in DP, DM. split; [repeat split; assumption |].
  set (F := fun r => (1 + Gamma / (Gamma - 1) * (K * exp ((1 - 1 / Gamma) * ln (y_P (Y r) / K)))) * exp (y_nu (Y r) / 2)).
  destruct (positive_near _ r _ DP Pp) as (r1 & r2 & Hin & Pos). apply (der_near F _ r 0 r1 r2 Hin).
  { intros u Hu. destruct (injection_pos K Gamma (y_P (Y u)) Hk Hg (Pos u Hu)) as (rb & E1 & E2 & Rb & Q). rewrite E1, E2. unfold F. rewrite Q. f_equal. field. repeat split; lra. }
  destruct (injection_pos K Gamma (y_P (Y r)) Hk Hg Pp) as (rb & E1 & E2 & Rb & Q). fold rho in E2. assert (PK : 0 < y_P (Y r) / K) by (apply Rdiv_lt_0_compat; assumption).
  pose proof (derivable_pt_lim_comp (fun s => y_P (Y s) / K) ln r _ _ (der_div _ (fun _ => K) r _ _ (Rgt_not_eq _ _ Hk) DP (der_c K r)) (derivable_pt_lim_ln _ PK)) as D1.
  pose proof (der_exp _ r _ (der_scal (1 - 1 / Gamma) _ r _ D1)) as D2.
  pose proof (der_plus _ _ r _ _ (der_c 1 r) (der_scal (Gamma / (Gamma - 1)) _ r _ (der_scal K _ r _ D2))) as D3.
  assert (T2 : 2 <> 0) by lra. pose proof (der_mult _ _ r _ _ D3 (der_exp _ r _ (der_div _ (fun _ => 2) r _ _ T2 DN (der_c 2 r)))) as D4.
  eapply der_val; [| exact D4]. cbn beta. unfold comp. rewrite C82_hydrostatic by lra. rewrite Q, E2. set (N := dnu_dr r (y_P (Y r)) (y_M (Y r))). field. repeat split; lra.
Qed.
(** a case: K = 1, Gamma = 2, at r = 1 with P = 4, M = 1/4 *)
Definition C83_Y (s : R) : ode_state := let y := MkY 4 0 (1 / 4) 1 in let d := TOVola_ODE 1 2 1 y in
  MkY (4 + (s - 1) * y_P d) (0 + (s - 1) * y_nu d) (1 / 4 + (s - 1) * y_M d) (1 + (s - 1) * y_r_iso d).
Example C83_equilibrium_at : follows 1 2 C83_Y 1 /\ rho_energy_of 1 2 (y_P (C83_Y 1)) = 6 /\ dP_dr 1 6 4 (1 / 4) < 0.
Proof.
  assert (E : C83_Y 1 = MkY 4 0 (1 / 4) 1) by (unfold C83_Y; f_equal; ring). split; [| split].
  - assert (L : forall a b, derivable_pt_lim (fun s => a + (s - 1) * b) 1 b).
    { intros a b. eapply der_val; [| exact (der_plus _ _ 1 _ _ (der_c a 1) (der_mult _ _ 1 _ _ (der_minus _ _ 1 _ _ (der_id 1) (der_c 1 1)) (der_c b 1)))]. cbn beta. ring. }
    unfold follows. rewrite E. unfold C83_Y. cbn [y_P y_nu y_M y_r_iso]. repeat split; apply L.
  - rewrite E. cbn [y_P]. destruct (C83_polytrope 1 2 ltac:(lra) ltac:(lra)) as (_ & _ & Ev & _). destruct (Ev 2 ltac:(lra)) as [E2 _]. cbn beta in E2.
    assert (S2 : Rpower 2 2 = 4). { replace 2 with (INR 2) at 2 by (cbn; lra). rewrite Rpower_pow by lra. ring. } rewrite S2 in E2. replace (1 * 4) with 4 in E2 by ring.
    unfold rho_energy_of. rewrite E2. cbn. field.
  - rewrite C82_hydrostatic by lra. unfold dnu_dr. pose proof PI_RGT_0. replace ((2 * (1 / 4) / 1 + 8 * PI * 1 * 1 * 4) / (1 * (1 - 2 * (1 / 4) / 1))) with (1 + 64 * PI) by field. nra.
Qed.
Example C83_polytrope_at : evaluate_rho_and_eps 1 2 4 = (Some 2, Some 6).
Proof.
  destruct (C83_polytrope 1 2 ltac:(lra) ltac:(lra)) as (_ & _ & Ev & _). destruct (Ev 2 ltac:(lra)) as [E2 _]. cbn beta in E2.
  assert (S2 : Rpower 2 2 = 4). { replace 2 with (INR 2) at 2 by (cbn; lra). rewrite Rpower_pow by lra. ring. } rewrite S2 in E2. replace (1 * 4) with 4 in E2 by ring. rewrite E2. f_equal. f_equal. field.
Qed.
Print Assumptions C83_memory.
Print Assumptions C83_extension.
Print Assumptions C83_parities.
Print Assumptions C83_mass_parity_refuted.
Print Assumptions C83_surface.
Print Assumptions C83_exterior.
Print Assumptions C83_nearest.
Print Assumptions C83_interpolation.
Print Assumptions C83_small_table_refuted.
Print Assumptions C83_tensor.
Print Assumptions C83_polytrope.
Print Assumptions C83_equilibrium.
