(** C43: the grid points the generated 1D and 2D output code visits.

    The model is Planes.v.  Positions are real numbers here: cell [i] of direction [d] has its centre
    at [xxmin + (i - NGHOSTS + 1/2) * dxx] with [dxx = (xxmax - xxmin) / Nxx]
    (numerical_grids_and_timestep.py:104-106 and 152-154). *)
From Coq Require Import String List ZArith Bool QArith Reals Lia Lra.
From Verif Require Import PyBase Planes.
Import ListNotations.
Open Scope string_scope.
Open Scope Z_scope.

(** ** Vocabulary of the statements *)

Definition sizes_ok (g : sizes) : Prop := 0 <= NGHOSTS g /\ forall d, 1 <= Nxx g d.

(** An index of the physical part of the grid. *)
Definition interior (g : sizes) (d : nat) (i : Z) : Prop :=
  NGHOSTS g <= i < NGHOSTS g + Nxx g d.

(** The centre of cell [i] when the direction runs from [lo] to [hi]. *)
Definition centre (g : sizes) (d : nat) (lo hi : R) (i : Z) : R :=
  (lo + (IZR (i - NGHOSTS g) + 1 / 2) * ((hi - lo) / IZR (Nxx g d)))%R.

(** No interior cell has its centre nearer to [t]. *)
Definition nearest (g : sizes) (d : nat) (lo hi t : R) (i : Z) : Prop :=
  interior g d i /\
  forall j, interior g d j -> (Rabs (centre g d lo hi i - t) <= Rabs (centre g d lo hi j - t))%R.

(** An index array is declared with length [fst a] and filled by the stores [snd a]: every slot is
    written exactly once, in order, and nothing outside the array is written. *)
Definition filled (a : arr) : Prop :=
  map fst (snd a) = map Z.of_nat (seq 0 (Z.to_nat (fst a))) /\ 0 <= fst a.

Definition indices (a : arr) : list Z := map snd (snd a).

(** All interior indices of a direction, each once, in increasing order. *)
Definition whole (g : sizes) (d : nat) (a : arr) : Prop :=
  indices a = map (fun k => NGHOSTS g + Z.of_nat k) (seq 0 (Z.to_nat (Nxx g d))).

(** The array lists, for each target coordinate, a nearest cell. *)
Definition samples (g : sizes) (d : nat) (lo hi : R) (ts : list R) (a : arr) : Prop :=
  Forall2 (nearest g d lo hi) ts (indices a).

Definition sphere_like (cs : string) : Prop :=
  py_in "Cartesian" cs = false /\ py_in "Cylindrical" cs = false /\
  (py_in "Spherical" cs = true \/ py_in "SymTP" cs = true).
Definition cyl_like (cs : string) : Prop :=
  py_in "Cartesian" cs = false /\ py_in "Cylindrical" cs = true /\
  py_in "Spherical" cs = false /\ py_in "SymTP" cs = false.
Definition wedge_like (cs : string) : Prop :=
  py_in "Cartesian" cs = false /\ py_in "Cylindrical" cs = false /\
  py_in "Spherical" cs = false /\ py_in "SymTP" cs = false /\ py_in "Wedge" cs = true.

(** ** Values of the emitted index expressions *)

Lemma mid_index g d : 0 <= NGHOSTS g -> 1 <= Nxx g d ->
  pt_index g (PMid d) = NGHOSTS g + Nxx g d / 2.
Proof.
  intros A B. unfold pt_index, c_int, pt_value, Nxx_plus_2NGHOSTS, Qdiv.
  cbn [Qnum Qden Qmult Qinv inject_Z Pos.mul].
  rewrite Z.quot_div_nonneg by lia.
  replace ((Nxx g d + 2 * NGHOSTS g) * 1) with (Nxx g d + NGHOSTS g * 2) by lia.
  rewrite Z.div_add by lia. lia.
Qed.

Lemma quarter_index g d : 0 <= NGHOSTS g -> 2 <= Nxx g d ->
  pt_index g (PQuarter d) = NGHOSTS g + (Nxx g d - 2) / 4.
Proof.
  intros A B. unfold pt_index, c_int, pt_value.
  cbn [Qnum Qden Qplus Qminus Qmult Qopp inject_Z Pos.mul].
  rewrite Z.quot_div_nonneg by lia.
  replace ((NGHOSTS g * 4 + 1 * Nxx g d * 1) * 2 + - (1) * 4)
    with ((Nxx g d - 2) * 2 + NGHOSTS g * 8) by lia.
  rewrite Z.div_add by lia. change 8 with (4 * 2). rewrite Z.div_mul_cancel_r by lia. lia.
Qed.

Lemma three_quarter_index g d : 0 <= NGHOSTS g -> 1 <= Nxx g d ->
  pt_index g (PThreeQuarter d) = NGHOSTS g + (3 * Nxx g d - 2) / 4.
Proof.
  intros A B. unfold pt_index, c_int, pt_value.
  cbn [Qnum Qden Qplus Qminus Qmult Qopp inject_Z Pos.mul].
  rewrite Z.quot_div_nonneg by lia.
  replace ((NGHOSTS g * 4 + 3 * Nxx g d * 1) * 2 + - (1) * 4)
    with ((3 * Nxx g d - 2) * 2 + NGHOSTS g * 8) by lia.
  rewrite Z.div_add by lia. change 8 with (4 * 2). rewrite Z.div_mul_cancel_r by lia. lia.
Qed.

(** With a single cell the quarter point is one cell to the left of the interior. *)
Lemma quarter_index_one g d : 1 <= NGHOSTS g -> Nxx g d = 1 ->
  pt_index g (PQuarter d) = NGHOSTS g - 1.
Proof.
  intros A B. unfold pt_index, c_int, pt_value.
  cbn [Qnum Qden Qplus Qminus Qmult Qopp inject_Z Pos.mul]. rewrite B.
  rewrite Z.quot_div_nonneg by lia.
  replace ((NGHOSTS g * 4 + 1 * 1 * 1) * 2 + - (1) * 4) with (6 + (NGHOSTS g - 1) * 8) by lia.
  rewrite Z.div_add by lia. change (6 / 8) with 0. lia.
Qed.

Lemma first_index g : pt_index g PFirst = NGHOSTS g.
Proof. unfold pt_index, c_int, pt_value. cbn [inject_Z Qnum Qden]. apply Z.quot_1_r. Qed.

Lemma last_index g d : pt_index g (PLast d) = NGHOSTS g + Nxx g d - 1.
Proof.
  unfold pt_index, c_int, pt_value, Nxx_plus_2NGHOSTS. cbn [inject_Z Qnum Qden].
  rewrite Z.quot_1_r. lia.
Qed.

(** ** Distances *)

(** The distance of a cell centre from the target [lo + (a/4) (hi - lo)], in quarter cells. *)
Lemma centre_dist g d lo hi a i : 1 <= Nxx g d -> (lo < hi)%R ->
  (Rabs (centre g d lo hi i - (lo + IZR a / 4 * (hi - lo)))
   = (hi - lo) / (4 * IZR (Nxx g d)) *
     IZR (Z.abs (4 * (i - NGHOSTS g) + 2 - a * Nxx g d)))%R.
Proof.
  intros A B. unfold centre.
  assert (0 < IZR (Nxx g d))%R by (apply IZR_lt; lia).
  rewrite abs_IZR.
  rewrite <- (Rabs_pos_eq ((hi - lo) / (4 * IZR (Nxx g d)))).
  2:{ apply Rlt_le, Rdiv_lt_0_compat; lra. }
  rewrite <- Rabs_mult. f_equal.
  repeat rewrite ?plus_IZR, ?minus_IZR, ?mult_IZR. field. lra.
Qed.

Lemma nearest_iff g d lo hi a i : 1 <= Nxx g d -> (lo < hi)%R ->
  (forall j, interior g d j ->
     Z.abs (4 * (i - NGHOSTS g) + 2 - a * Nxx g d) <= Z.abs (4 * (j - NGHOSTS g) + 2 - a * Nxx g d)) ->
  interior g d i -> nearest g d lo hi (lo + IZR a / 4 * (hi - lo)) i.
Proof.
  intros A B C D. split; [exact D|]. intros j J.
  rewrite !centre_dist by assumption.
  apply Rmult_le_compat_l.
  - apply Rlt_le, Rdiv_lt_0_compat; [lra|]. assert (0 < IZR (Nxx g d))%R by (apply IZR_lt; lia). lra.
  - apply IZR_le, C, J.
Qed.

(** The four emitted expressions hit a nearest centre (the quarter points for even sizes). *)
Lemma mid_nearest g d lo hi : 0 <= NGHOSTS g -> 1 <= Nxx g d -> (lo < hi)%R ->
  nearest g d lo hi ((lo + hi) / 2) (pt_index g (PMid d)).
Proof.
  intros A B C. replace ((lo + hi) / 2)%R with (lo + IZR 2 / 4 * (hi - lo))%R by (simpl; field).
  rewrite mid_index by assumption.
  pose proof (Z.div_mod (Nxx g d) 2 ltac:(lia)). pose proof (Z.mod_pos_bound (Nxx g d) 2 ltac:(lia)).
  apply nearest_iff; auto; unfold interior; intros; lia.
Qed.

Lemma quarter_nearest g d lo hi : 0 <= NGHOSTS g -> 1 <= Nxx g d -> Z.even (Nxx g d) = true ->
  (lo < hi)%R -> nearest g d lo hi (lo + 1 / 4 * (hi - lo)) (pt_index g (PQuarter d)).
Proof.
  intros A B E C. apply Z.even_spec in E. destruct E as [k E].
  rewrite quarter_index by lia. rewrite E in *.
  pose proof (Z.div_mod (2 * k - 2) 4 ltac:(lia)).
  pose proof (Z.mod_pos_bound (2 * k - 2) 4 ltac:(lia)).
  apply (nearest_iff g d lo hi 1); auto; unfold interior; try lia; intros; lia.
Qed.

Lemma three_quarter_nearest g d lo hi : 0 <= NGHOSTS g -> 1 <= Nxx g d -> Z.even (Nxx g d) = true ->
  (lo < hi)%R -> nearest g d lo hi (lo + 3 / 4 * (hi - lo)) (pt_index g (PThreeQuarter d)).
Proof.
  intros A B E C. apply Z.even_spec in E. destruct E as [k E].
  rewrite three_quarter_index by lia. rewrite E in *.
  pose proof (Z.div_mod (3 * (2 * k) - 2) 4 ltac:(lia)).
  pose proof (Z.mod_pos_bound (3 * (2 * k) - 2) 4 ltac:(lia)).
  apply (nearest_iff g d lo hi 3); auto; unfold interior; try lia; intros; lia.
Qed.

Lemma first_nearest g d lo hi : 0 <= NGHOSTS g -> 1 <= Nxx g d -> (lo < hi)%R ->
  nearest g d lo hi lo (pt_index g PFirst).
Proof.
  intros A B C. replace lo with (lo + IZR 0 / 4 * (hi - lo))%R at 2 by (simpl; field).
  rewrite first_index. apply nearest_iff; auto; unfold interior; intros; lia.
Qed.

Lemma last_nearest g d lo hi : 0 <= NGHOSTS g -> 1 <= Nxx g d -> (lo < hi)%R ->
  nearest g d lo hi hi (pt_index g (PLast d)).
Proof.
  intros A B C. replace hi with (lo + IZR 4 / 4 * (hi - lo))%R at 2 by (simpl; field).
  rewrite last_index. apply nearest_iff; auto; unfold interior; intros; lia.
Qed.

(** ** The arrays *)

Lemma whole_stores g d : indices (Nxx g d, interior_stores g d)
  = map (fun k => NGHOSTS g + Z.of_nat k) (seq 0 (Z.to_nat (Nxx g d))).
Proof. unfold indices, interior_stores. cbn [snd]. rewrite map_map. reflexivity. Qed.

Lemma whole_filled g d : sizes_ok g -> filled (Nxx g d, interior_stores g d).
Proof.
  intros [_ B]. unfold filled, interior_stores. cbn [fst snd]. rewrite map_map. cbn [fst].
  split; [reflexivity|]. specialize (B d). lia.
Qed.

Lemma map_fst_combine {A B} (x : list A) (y : list B) :
  length x = length y -> map fst (combine x y) = x /\ map snd (combine x y) = y.
Proof.
  revert y; induction x as [|a x IH]; intros [|b y] H; cbn in *; try lia; auto.
  destruct (IH y ltac:(lia)) as [P Q]. split; f_equal; assumption.
Qed.

Lemma listed_filled g l : filled (Z.of_nat (length l), listed_stores g l).
Proof.
  unfold filled, listed_stores. cbn [fst snd]. rewrite Nat2Z.id. split; [|lia].
  apply map_fst_combine. rewrite !map_length, seq_length. reflexivity.
Qed.

Lemma listed_indices g k l : indices (k, listed_stores g l) = map (pt_index g) l.
Proof.
  unfold indices, listed_stores. cbn [snd].
  apply map_fst_combine. rewrite !map_length, seq_length. reflexivity.
Qed.

Ltac two_dim E :=
  unfold arrays_2D; rewrite E; cbn [numpts_2D numpts_of max_numpts];
  unfold stores_2D; cbn [count_eqb max_numpts Nat.eqb count_value length].
Ltac one_dim E :=
  unfold arrays_1D; rewrite E; unfold numpts_1D;
  cbn [starts_minus_one orb numpts_of max_numpts all_zero];
  unfold stores_1D; cbn [count_eqb all_zero andb Nat.eqb count_value length].
Ltac arrays :=
  eexists _, _, _; split; [reflexivity|];
  repeat match goal with |- _ /\ _ => split end;
  lazymatch goal with
  | |- filled (_, listed_stores ?g ?l) => exact (listed_filled g l)
  | |- filled _ => apply whole_filled; assumption
  | |- whole _ _ _ => apply whole_stores
  | |- samples _ _ _ _ _ _ =>
      unfold samples; rewrite listed_indices; cbn [map]; repeat apply Forall2_cons;
      try apply Forall2_nil
  | |- _ => idtac
  end;
  auto using mid_nearest, quarter_nearest, three_quarter_nearest, first_nearest, last_nearest.

(** ** C43: two-dimensional output *)

(** The xy-plane: [z] is the third coordinate in Cartesian-like and cylindrical-like systems, the polar
    angle is the second one in spherical-like systems.  In each case the other two directions are
    covered completely and the plane's coordinate is sampled once, at a cell whose centre is nearest
    to the middle of its range - for every grid size and ghost width. *)
Theorem C43_xy_plane : forall g cs (lo hi : nat -> R),
  sizes_ok g -> (forall d, (lo d < hi d)%R) ->
  (py_in "Cartesian" cs = true \/ cyl_like cs ->
     exists a0 a1 a2, arrays_2D g cs "xy" = Ok (a0, a1, a2) /\
       filled a0 /\ filled a1 /\ filled a2 /\ whole g 0 a0 /\ whole g 1 a1 /\
       samples g 2 (lo 2%nat) (hi 2%nat) [((lo 2%nat + hi 2%nat) / 2)%R] a2) /\
  (sphere_like cs ->
     exists a0 a1 a2, arrays_2D g cs "xy" = Ok (a0, a1, a2) /\
       filled a0 /\ filled a1 /\ filled a2 /\ whole g 0 a0 /\ whole g 2 a2 /\
       samples g 1 (lo 1%nat) (hi 1%nat) [((lo 1%nat + hi 1%nat) / 2)%R] a1).
Proof.
  intros g cs lo hi H L. pose proof H as [NG N]. split.
  - intros K.
    assert (E : plane_pts cs "xy" = Ok ([], [], [PMid 2])).
    { unfold plane_pts. cbn [String.eqb Ascii.eqb negb orb Bool.eqb].
      destruct K as [-> | [A [B _]]]; [reflexivity|]. rewrite A, B. reflexivity. }
    two_dim E. arrays.
  - intros (A & B & K).
    assert (E : plane_pts cs "xy" = Ok ([], [PMid 1], [])).
    { unfold plane_pts. cbn [String.eqb Ascii.eqb negb orb Bool.eqb]. rewrite A, B.
      destruct K as [-> | ->]; [reflexivity|]. rewrite orb_true_r. reflexivity. }
    two_dim E. arrays.
Qed.

(** The yz-plane: the middle of [x] in Cartesian-like systems; the azimuths [-pi/2] and [pi/2], a quarter
    and three quarters of the way through [[-pi, pi]], in cylindrical-like and spherical-like
    systems, for an even number of azimuthal cells; the middle of the polar angle in the wedges. *)
Theorem C43_yz_plane : forall g cs (lo hi : nat -> R),
  sizes_ok g -> (forall d, (lo d < hi d)%R) ->
  (py_in "Cartesian" cs = true ->
     exists a0 a1 a2, arrays_2D g cs "yz" = Ok (a0, a1, a2) /\
       filled a0 /\ filled a1 /\ filled a2 /\ whole g 1 a1 /\ whole g 2 a2 /\
       samples g 0 (lo 0%nat) (hi 0%nat) [((lo 0%nat + hi 0%nat) / 2)%R] a0) /\
  (cyl_like cs -> Z.even (Nxx g 1) = true ->
     exists a0 a1 a2, arrays_2D g cs "yz" = Ok (a0, a1, a2) /\
       filled a0 /\ filled a1 /\ filled a2 /\ whole g 0 a0 /\ whole g 2 a2 /\
       samples g 1 (- PI) PI [(- PI / 2)%R; (PI / 2)%R] a1) /\
  (sphere_like cs -> Z.even (Nxx g 2) = true ->
     exists a0 a1 a2, arrays_2D g cs "yz" = Ok (a0, a1, a2) /\
       filled a0 /\ filled a1 /\ filled a2 /\ whole g 0 a0 /\ whole g 1 a1 /\
       samples g 2 (- PI) PI [(- PI / 2)%R; (PI / 2)%R] a2) /\
  (wedge_like cs ->
     exists a0 a1 a2, arrays_2D g cs "yz" = Ok (a0, a1, a2) /\
       filled a0 /\ filled a1 /\ filled a2 /\ whole g 0 a0 /\ whole g 2 a2 /\
       samples g 1 (lo 1%nat) (hi 1%nat) [((lo 1%nat + hi 1%nat) / 2)%R] a1).
Proof.
  intros g cs lo hi H L. pose proof H as [NG N].
  assert (P : (- PI < PI)%R) by (pose proof PI_RGT_0; lra).
  assert (P1 : (- PI / 2 = - PI + 1 / 4 * (PI - - PI))%R) by field.
  assert (P2 : (PI / 2 = - PI + 3 / 4 * (PI - - PI))%R) by field.
  repeat match goal with |- _ /\ _ => split end.
  - intros A.
    assert (E : plane_pts cs "yz" = Ok ([PMid 0], [], [])) by (unfold plane_pts; rewrite A; reflexivity).
    two_dim E. arrays.
  - intros (A & B & _) Ev.
    assert (E : plane_pts cs "yz" = Ok ([], [PQuarter 1; PThreeQuarter 1], []))
      by (unfold plane_pts; rewrite A, B; reflexivity).
    rewrite P1, P2. two_dim E. arrays.
  - intros (A & B & K) Ev.
    assert (E : plane_pts cs "yz" = Ok ([], [], [PQuarter 2; PThreeQuarter 2])).
    { unfold plane_pts. rewrite A, B. cbn [String.eqb Ascii.eqb negb orb Bool.eqb].
      destruct K as [-> | ->]; [reflexivity|]. rewrite orb_true_r. reflexivity. }
    rewrite P1, P2. two_dim E. arrays.
  - intros (A & B & C & D & W).
    assert (E : plane_pts cs "yz" = Ok ([], [PMid 1], []))
      by (unfold plane_pts; rewrite A, B, C, D, W; reflexivity).
    two_dim E. arrays.
Qed.

(** Whatever the coordinate system, the 2D code fills its arrays exactly and visits interior points
    only, as long as the directions sampled at quarter points (1 and 2) have at least two cells. *)
Lemma in_indices_interior g d a : whole g d a \/
  (exists l, indices a = map (pt_index g) l /\ Forall (fun p => interior g d (pt_index g p)) l) ->
  forall i, In i (indices a) -> interior g d i.
Proof.
  intros [W | [l [E F]]] i I.
  - rewrite W in I. apply in_map_iff in I. destruct I as [k [<- I]]. apply in_seq in I.
    unfold interior. lia.
  - rewrite E in I. apply in_map_iff in I. destruct I as [q [<- I]].
    rewrite Forall_forall in F. auto.
Qed.

Lemma interior_cases g d : sizes_ok g ->
  interior g d (pt_index g (PMid d)) /\ interior g d (pt_index g (PThreeQuarter d)) /\
  (2 <= Nxx g d -> interior g d (pt_index g (PQuarter d))) /\
  interior g d (pt_index g PFirst) /\ interior g d (pt_index g (PLast d)).
Proof.
  intros [A B]. specialize (B d). unfold interior.
  rewrite mid_index, three_quarter_index, first_index, last_index by lia.
  pose proof (Z.div_mod (Nxx g d) 2 ltac:(lia)). pose proof (Z.mod_pos_bound (Nxx g d) 2 ltac:(lia)).
  pose proof (Z.div_mod (3 * Nxx g d - 2) 4 ltac:(lia)).
  pose proof (Z.mod_pos_bound (3 * Nxx g d - 2) 4 ltac:(lia)).
  repeat split; try lia; rewrite quarter_index by lia;
  pose proof (Z.div_mod (Nxx g d - 2) 4 ltac:(lia));
  pose proof (Z.mod_pos_bound (Nxx g d - 2) 4 ltac:(lia)); lia.
Qed.

Lemma in_visited a0 a1 a2 i0 i1 i2 :
  In (i0, i1, i2) (visited (a0, a1, a2)) <->
  In i0 (indices a0) /\ In i1 (indices a1) /\ In i2 (indices a2).
Proof.
  unfold visited, indices. rewrite in_flat_map. split.
  - intros (z & Z2 & H). apply in_flat_map in H. destruct H as (y & Y & H).
    apply in_map_iff in H. destruct H as (x & [= -> -> ->] & X). auto.
  - intros (X & Y & Z2). exists i2. split; [exact Z2|]. apply in_flat_map. exists i1.
    split; [exact Y|]. apply in_map_iff. exists i0. auto.
Qed.

(** Every direction of an accepted request is either covered or listed. *)
Definition chosen (g : sizes) (d : nat) (a : arr) : Prop :=
  filled a /\ (whole g d a \/
    exists l, indices a = map (pt_index g) l /\ Forall (fun p => interior g d (pt_index g p)) l).

Ltac chosen_tac g :=
  unfold chosen;
  match goal with
  | |- filled (_, interior_stores _ _) /\ _ =>
      split; [apply whole_filled; assumption | left; apply whole_stores]
  | |- filled (_, listed_stores ?g0 ?l) /\ _ =>
      split; [exact (listed_filled g0 l) | right; exists l; rewrite listed_indices; split; [reflexivity|];
        repeat constructor; try apply interior_cases; auto]
  end.

Lemma arrays_2D_chosen g cs plane a0 a1 a2 : sizes_ok g -> 2 <= Nxx g 1 -> 2 <= Nxx g 2 ->
  arrays_2D g cs plane = Ok (a0, a1, a2) -> chosen g 0 a0 /\ chosen g 1 a1 /\ chosen g 2 a2.
Proof.
  intros H N1 N2 E. unfold arrays_2D in E.
  destruct (plane_pts cs plane) as [[[l0 l1] l2]|e] eqn:P; [|discriminate].
  assert (K : (l0, l1, l2) = ([], [], [PMid 2]) \/ (l0, l1, l2) = ([], [PMid 1], []) \/
              (l0, l1, l2) = ([], [], [PQuarter 2; PThreeQuarter 2]) \/
              (l0, l1, l2) = ([PMid 0], [], []) \/
              (l0, l1, l2) = ([], [PQuarter 1; PThreeQuarter 1], [])).
  { unfold plane_pts in P.
    repeat match type of P with (if ?b then _ else _) = _ => destruct b end;
      injection P as <- <- <- || discriminate; auto 8. }
  destruct K as [K|[K|[K|[K|K]]]]; injection K as -> -> ->;
    cbn [numpts_2D numpts_of max_numpts] in E; unfold stores_2D in E;
    cbn [count_eqb max_numpts Nat.eqb count_value length] in E; injection E as <- <- <-;
    (split; [|split]); chosen_tac g.
Qed.

Theorem C43_points_interior : forall g cs plane a0 a1 a2,
  sizes_ok g -> 2 <= Nxx g 1 -> 2 <= Nxx g 2 ->
  arrays_2D g cs plane = Ok (a0, a1, a2) ->
  filled a0 /\ filled a1 /\ filled a2 /\
  forall i0 i1 i2, In (i0, i1, i2) (visited (a0, a1, a2)) ->
    interior g 0 i0 /\ interior g 1 i1 /\ interior g 2 i2.
Proof.
  intros g cs plane a0 a1 a2 H N1 N2 E.
  destruct (arrays_2D_chosen g cs plane a0 a1 a2 H N1 N2 E) as ((F0 & C0) & (F1 & C1) & (F2 & C2)).
  repeat match goal with |- _ /\ _ => split end; auto.
  intros i0 i1 i2 I. apply in_visited in I. destruct I as (I0 & I1 & I2).
  (split; [|split]); eapply in_indices_interior; eauto.
Qed.

(** Which requests are accepted at all: the two planes, and the names that mention one of the five
    families; anything else raises. *)
Theorem C43_accepted : forall g cs plane,
  is_ok (arrays_2D g cs plane) = true <->
  (plane = "xy" \/ plane = "yz") /\
  (py_in "Cartesian" cs = true \/ py_in "Cylindrical" cs = true \/ py_in "Spherical" cs = true \/
   py_in "SymTP" cs = true \/ py_in "Wedge" cs = true).
Proof.
  intros g cs plane.
  assert (X : is_ok (arrays_2D g cs plane) = is_ok (plane_pts cs plane)).
  { unfold arrays_2D. destruct (plane_pts cs plane) as [[[l0 l1] l2]|e]; reflexivity. }
  rewrite X. unfold plane_pts.
  assert (PL : (String.eqb plane "xy" || String.eqb plane "yz" = true)%bool <->
               plane = "xy" \/ plane = "yz")
    by (rewrite orb_true_iff, !String.eqb_eq; tauto).
  rewrite <- PL. clear.
  destruct (String.eqb plane "xy"), (String.eqb plane "yz"); cbn [negb orb];
    destruct (py_in "Cartesian" cs), (py_in "Cylindrical" cs), (py_in "Spherical" cs),
             (py_in "SymTP" cs), (py_in "Wedge" cs); cbn; intuition congruence.
Qed.

(** *** Where it fails *)

(** One azimuthal cell: the yz-plane output of a spherical-like grid reads the ghost cell
    [NGHOSTS - 1], for every positive ghost width. *)
Theorem C43_single_cell_ghost_refuted : forall g cs, sphere_like cs -> 1 <= NGHOSTS g ->
  (forall d, 1 <= Nxx g d) -> Nxx g 2 = 1 ->
  exists a0 a1 a2, arrays_2D g cs "yz" = Ok (a0, a1, a2) /\
    exists i0 i1 i2, In (i0, i1, i2) (visited (a0, a1, a2)) /\ ~ interior g 2 i2.
Proof.
  intros g cs (A & B & K) NG N N2.
  assert (E : plane_pts cs "yz" = Ok ([], [], [PQuarter 2; PThreeQuarter 2])).
  { unfold plane_pts. rewrite A, B. cbn [String.eqb Ascii.eqb negb orb Bool.eqb].
    destruct K as [-> | ->]; [reflexivity|]. rewrite orb_true_r. reflexivity. }
  two_dim E. eexists _, _, _. split; [reflexivity|].
  exists (NGHOSTS g), (NGHOSTS g), (NGHOSTS g - 1). split; [|unfold interior; lia].
  apply in_visited. rewrite !whole_stores, listed_indices.
  split; [|split].
  - apply in_map_iff. exists 0%nat. split; [lia|]. apply in_seq. specialize (N 0%nat). lia.
  - apply in_map_iff. exists 0%nat. split; [lia|]. apply in_seq. specialize (N 1%nat). lia.
  - left. apply quarter_index_one; auto.
Qed.

(** An odd number of azimuthal cells: the truncation picks a cell that is not nearest.  With [4k+1]
    cells the one for [-pi/2] is wrong, with [4k+3] cells the one for [pi/2] is - for every [k]. *)
Lemma not_nearest g d lo hi a i j : 1 <= Nxx g d -> (lo < hi)%R -> interior g d j ->
  Z.abs (4 * (j - NGHOSTS g) + 2 - a * Nxx g d) < Z.abs (4 * (i - NGHOSTS g) + 2 - a * Nxx g d) ->
  ~ nearest g d lo hi (lo + IZR a / 4 * (hi - lo)) i.
Proof.
  intros A B J D [_ C]. specialize (C j J). rewrite !centre_dist in C by assumption.
  apply Rmult_le_reg_l in C.
  - apply le_IZR in C. lia.
  - apply Rdiv_lt_0_compat; [lra|]. assert (0 < IZR (Nxx g d))%R by (apply IZR_lt; lia). lra.
Qed.

Theorem C43_odd_azimuth_refuted : forall g d k, 0 <= NGHOSTS g -> 1 <= k ->
  (Nxx g d = 4 * k + 1 -> ~ nearest g d (- PI) PI (- PI / 2) (pt_index g (PQuarter d))) /\
  (Nxx g d = 4 * k - 1 -> ~ nearest g d (- PI) PI (PI / 2) (pt_index g (PThreeQuarter d))).
Proof.
  intros g d k NG K. assert (P : (- PI < PI)%R) by (pose proof PI_RGT_0; lra).
  split; intros N.
  - replace (- PI / 2)%R with (- PI + IZR 1 / 4 * (PI - - PI))%R by (simpl; field).
    rewrite quarter_index by lia. rewrite N.
    replace ((4 * k + 1 - 2) / 4) with (k - 1) by (apply Z.div_unique with 3; lia).
    apply not_nearest with (NGHOSTS g + k); unfold interior; auto; lia.
  - replace (PI / 2)%R with (- PI + IZR 3 / 4 * (PI - - PI))%R by (simpl; field).
    rewrite three_quarter_index by lia. rewrite N.
    replace ((3 * (4 * k - 1) - 2) / 4) with (3 * k - 2) by (apply Z.div_unique with 3; lia).
    apply not_nearest with (NGHOSTS g + (3 * k - 1)); unfold interior; auto; lia.
Qed.

(** Even then the chosen centre is less than one cell away, and for [4k+2] cells it is exact. *)
Theorem C43_azimuth_error : forall g d, 0 <= NGHOSTS g -> 2 <= Nxx g d ->
  (Rabs (centre g d (- PI) PI (pt_index g (PQuarter d)) - (- PI / 2)) < 2 * PI / IZR (Nxx g d))%R /\
  (Rabs (centre g d (- PI) PI (pt_index g (PThreeQuarter d)) - PI / 2) < 2 * PI / IZR (Nxx g d))%R /\
  (Nxx g d mod 4 = 2 ->
     centre g d (- PI) PI (pt_index g (PQuarter d)) = (- PI / 2)%R /\
     centre g d (- PI) PI (pt_index g (PThreeQuarter d)) = (PI / 2)%R).
Proof.
  intros g d NG N. assert (P : (- PI < PI)%R) by (pose proof PI_RGT_0; lra).
  assert (Np : (0 < IZR (Nxx g d))%R) by (apply IZR_lt; lia).
  replace (- PI / 2)%R with (- PI + IZR 1 / 4 * (PI - - PI))%R by (simpl; field).
  replace (PI / 2)%R with (- PI + IZR 3 / 4 * (PI - - PI))%R by (simpl; field).
  rewrite quarter_index, three_quarter_index by lia.
  pose proof (Z.div_mod (Nxx g d - 2) 4 ltac:(lia)).
  pose proof (Z.mod_pos_bound (Nxx g d - 2) 4 ltac:(lia)).
  pose proof (Z.div_mod (3 * Nxx g d - 2) 4 ltac:(lia)).
  pose proof (Z.mod_pos_bound (3 * Nxx g d - 2) 4 ltac:(lia)).
  assert (U : (2 * PI / IZR (Nxx g d) = (PI - - PI) / (4 * IZR (Nxx g d)) * IZR 4)%R)
    by (simpl; field; lra).
  assert (V : (0 < (PI - - PI) / (4 * IZR (Nxx g d)))%R) by (apply Rdiv_lt_0_compat; lra).
  rewrite U. split; [|split].
  - rewrite centre_dist by (lia || lra). apply Rmult_lt_compat_l; [exact V|]. apply IZR_lt. lia.
  - rewrite centre_dist by (lia || lra). apply Rmult_lt_compat_l; [exact V|]. apply IZR_lt. lia.
  - intros M. pose proof (Z.div_mod (Nxx g d) 4 ltac:(lia)) as D. rewrite M in D.
    assert (Z0 : forall x y : R, Rabs (x - y) = 0%R -> x = y).
    { intros x y E. destruct (Req_dec (x - y) 0) as [F|F]; [lra|].
      apply Rabs_no_R0 in F. contradiction. }
    split; apply Z0; rewrite centre_dist by (lia || lra); apply Rmult_eq_0_compat_l; apply IZR_eq; lia.
Qed.

(** *** The targets really lie on the planes *)

(** [xx_to_Cart] (nrpy/reference_metric.py:709-711, 757, 1065-1071, 1139-1141, 1413-1415, 874-876, 915-917):
    Cartesian-like components are odd functions of their own coordinate, spherical-like systems use
    a radius [r(xx0)], prolate ones two radii, the wedges exchange [x] and [z]. *)
Definition sph_to_Cart (r th ph : R) : R * R * R :=
  (r * sin th * cos ph, r * sin th * sin ph, r * cos th)%R.
Definition symtp_to_Cart (r_perp r_axis th ph : R) : R * R * R :=
  (r_perp * sin th * cos ph, r_perp * sin th * sin ph, r_axis * cos th)%R.
Definition cyl_to_Cart (rho ph z : R) : R * R * R := (rho * cos ph, rho * sin ph, z)%R.
Definition uwedge_to_Cart (r th ph : R) : R * R * R :=
  (- r * cos th, r * sin th * sin ph, r * sin th * cos ph)%R.
Definition lwedge_to_Cart (r th ph : R) : R * R * R :=
  (r * cos th, r * sin th * sin ph, - r * sin th * cos ph)%R.
Definition xC (p : R * R * R) : R := fst (fst p).
Definition yC (p : R * R * R) : R := snd (fst p).
Definition zC (p : R * R * R) : R := snd p.

Lemma cos_mPI2 : cos (- PI / 2) = 0%R.
Proof. replace (- PI / 2)%R with (- (PI / 2))%R by field. rewrite cos_neg. apply cos_PI2. Qed.

(** The spherical and cylindrical azimuths named in [C43_yz_plane] are on the yz-plane and the middle of
    the polar range [[0, pi]] is on the xy-plane, whatever the other coordinates; conversely, off the
    [z]-axis a point with azimuth in [[-pi, pi]] is on the yz-plane only at these azimuths. *)
Theorem C43_targets_on_plane : forall r r' th ph z,
  (forall p, In p [(- PI / 2)%R; (PI / 2)%R] ->
     xC (sph_to_Cart r th p) = 0%R /\ xC (symtp_to_Cart r r' th p) = 0%R /\
     xC (cyl_to_Cart r p z) = 0%R) /\
  zC (sph_to_Cart r ((0 + PI) / 2) ph) = 0%R /\ zC (symtp_to_Cart r r' ((0 + PI) / 2) ph) = 0%R /\
  xC (uwedge_to_Cart r ((PI / 4 + 3 * PI / 4) / 2) ph) = 0%R /\
  xC (lwedge_to_Cart r ((PI / 4 + 3 * PI / 4) / 2) ph) = 0%R.
Proof.
  intros r r' th ph z. unfold xC, zC, sph_to_Cart, symtp_to_Cart, cyl_to_Cart, uwedge_to_Cart,
    lwedge_to_Cart. cbn [fst snd].
  replace ((PI / 4 + 3 * PI / 4) / 2)%R with (PI / 2)%R by field.
  replace ((0 + PI) / 2)%R with (PI / 2)%R by field.
  rewrite cos_PI2. split; [|repeat split; ring].
  intros p [<- | [<- | []]]; rewrite ?cos_mPI2, ?cos_PI2; repeat split; ring.
Qed.

Theorem C43_plane_only_there : forall r th ph, (r <> 0)%R -> (sin th <> 0)%R -> (- PI <= ph <= PI)%R ->
  xC (sph_to_Cart r th ph) = 0%R -> ph = (- PI / 2)%R \/ ph = (PI / 2)%R.
Proof.
  intros r th ph A B [C D] E. unfold xC, sph_to_Cart in E. cbn [fst snd] in E.
  apply Rmult_integral in E. destruct E as [E|E].
  { apply Rmult_integral in E. tauto. }
  pose proof PI_RGT_0.
  destruct (Rle_dec 0 ph) as [Q|Q].
  - right.
    destruct (Rtotal_order ph (PI / 2)) as [L|[L|L]]; [|exact L|].
    + assert (0 < cos ph)%R by (apply cos_gt_0; lra). lra.
    + assert (cos ph < 0)%R by (apply cos_lt_0; lra). lra.
  - left. rewrite <- cos_neg in E.
    destruct (Rtotal_order (- ph) (PI / 2)) as [L|[L|L]]; [|lra|].
    + assert (0 < cos (- ph))%R by (apply cos_gt_0; lra). lra.
    + assert (cos (- ph) < 0)%R by (apply cos_lt_0; lra). lra.
Qed.

(** The wedge grids cover azimuths [[-pi/4, pi/4]] only (reference_metric.py:819-829), so the quarter
    points used for their xy-plane are not near it: with 6 azimuthal cells both listed indices have
    an interior neighbour strictly closer to [z = 0], on every radius and polar angle. *)
Theorem C43_wedge_xy_refuted : forall g cs r th, wedge_like cs -> 0 <= NGHOSTS g ->
  (forall d, 1 <= Nxx g d) -> Nxx g 2 = 6 -> (0 < r)%R -> (0 < sin th)%R ->
  exists a0 a1 a2, arrays_2D g cs "xy" = Ok (a0, a1, a2) /\
  forall i, In i (indices a2) -> exists j, interior g 2 j /\
    (Rabs (zC (uwedge_to_Cart r th (centre g 2 (- PI / 4) (PI / 4) j)))
     < Rabs (zC (uwedge_to_Cart r th (centre g 2 (- PI / 4) (PI / 4) i))))%R.
Proof.
  intros g cs r th (A & B & C & D & W) NG N N2 Rp Sp.
  assert (E : plane_pts cs "xy" = Ok ([], [], [PQuarter 2; PThreeQuarter 2]))
    by (unfold plane_pts; rewrite A, B, C, D, W; reflexivity).
  two_dim E. eexists _, _, _. split; [reflexivity|].
  rewrite listed_indices. cbn [map].
  rewrite quarter_index, three_quarter_index by lia. rewrite N2.
  change ((6 - 2) / 4) with 1. change ((3 * 6 - 2) / 4) with 4.
  assert (cosb : forall x y, (0 <= x)%R -> (x < y)%R -> (y <= PI / 4)%R ->
            (Rabs (r * sin th * cos y) < Rabs (r * sin th * cos x))%R).
  { intros x y P1 P2 P3. pose proof PI_RGT_0.
    assert (0 < cos y)%R by (apply cos_gt_0; lra). assert (0 < cos x)%R by (apply cos_gt_0; lra).
    assert (cos y < cos x)%R by (apply cos_decreasing_1; lra).
    assert (Q : (0 < r * sin th)%R) by (apply Rmult_lt_0_compat; assumption).
    rewrite !Rabs_pos_eq by (apply Rlt_le, Rmult_lt_0_compat; assumption).
    apply Rmult_lt_compat_l; assumption. }
  unfold zC, uwedge_to_Cart. cbn [snd]. unfold centre. rewrite N2. pose proof PI_RGT_0.
  intros i [<- | [<- | []]].
  - exists (NGHOSTS g). split; [unfold interior; lia|].
    replace (NGHOSTS g - NGHOSTS g) with 0 by lia.
    replace (NGHOSTS g + 1 - NGHOSTS g) with 1 by lia.
    rewrite <- (cos_neg (- PI / 4 + (IZR 0 + 1 / 2) * _)), <- (cos_neg (- PI / 4 + (IZR 1 + 1 / 2) * _)).
    apply cosb; simpl; lra.
  - exists (NGHOSTS g + 5). split; [unfold interior; lia|].
    replace (NGHOSTS g + 5 - NGHOSTS g) with 5 by lia.
    replace (NGHOSTS g + 4 - NGHOSTS g) with 4 by lia.
    apply cosb; simpl; lra.
Qed.

(** ** One-dimensional output *)

(** The y-axis is [x = z = 0], the z-axis [x = y = 0]: the directions that are constant on the axis are
    sampled at nearest cells, the remaining one is covered completely.  On the z-axis of a
    spherical-like system both ends of the polar range are sampled, at the first azimuth (on the
    axis itself the azimuth is irrelevant). *)
Theorem C43_y_axis : forall g cs (lo hi : nat -> R),
  sizes_ok g -> (forall d, (lo d < hi d)%R) ->
  (py_in "Cartesian" cs = true ->
     exists a0 a1 a2, arrays_1D g cs "y" = Ok (a0, a1, a2) /\
       filled a0 /\ filled a1 /\ filled a2 /\ whole g 1 a1 /\
       samples g 0 (lo 0%nat) (hi 0%nat) [((lo 0%nat + hi 0%nat) / 2)%R] a0 /\
       samples g 2 (lo 2%nat) (hi 2%nat) [((lo 2%nat + hi 2%nat) / 2)%R] a2) /\
  (sphere_like cs -> Z.even (Nxx g 2) = true ->
     exists a0 a1 a2, arrays_1D g cs "y" = Ok (a0, a1, a2) /\
       filled a0 /\ filled a1 /\ filled a2 /\ whole g 0 a0 /\
       samples g 1 (lo 1%nat) (hi 1%nat) [((lo 1%nat + hi 1%nat) / 2)%R] a1 /\
       samples g 2 (- PI) PI [(- PI / 2)%R; (PI / 2)%R] a2) /\
  (cyl_like cs -> Z.even (Nxx g 1) = true ->
     exists a0 a1 a2, arrays_1D g cs "y" = Ok (a0, a1, a2) /\
       filled a0 /\ filled a1 /\ filled a2 /\ whole g 0 a0 /\
       samples g 1 (- PI) PI [(- PI / 2)%R; (PI / 2)%R] a1 /\
       samples g 2 (lo 2%nat) (hi 2%nat) [((lo 2%nat + hi 2%nat) / 2)%R] a2).
Proof.
  intros g cs lo hi H L. pose proof H as [NG N].
  assert (P : (- PI < PI)%R) by (pose proof PI_RGT_0; lra).
  assert (P1 : (- PI / 2 = - PI + 1 / 4 * (PI - - PI))%R) by field.
  assert (P2 : (PI / 2 = - PI + 3 / 4 * (PI - - PI))%R) by field.
  repeat match goal with |- _ /\ _ => split end.
  - intros A.
    assert (E : axis_pts cs "y" = Ok ([PMid 0], [], [PMid 2])) by (unfold axis_pts; rewrite A; reflexivity).
    one_dim E. arrays.
  - intros (A & B & K) Ev.
    assert (E : axis_pts cs "y" = Ok ([], [PMid 1], [PQuarter 2; PThreeQuarter 2])).
    { unfold axis_pts. rewrite A, B. cbn [String.eqb Ascii.eqb negb orb Bool.eqb].
      destruct K as [-> | ->]; [reflexivity|]. destruct (py_in "Spherical" cs); reflexivity. }
    rewrite P1, P2. one_dim E. arrays.
  - intros (A & B & C & D) Ev.
    assert (E : axis_pts cs "y" = Ok ([], [PQuarter 1; PThreeQuarter 1], [PMid 2]))
      by (unfold axis_pts; rewrite A, C, B; reflexivity).
    rewrite P1, P2. one_dim E. arrays.
Qed.

Theorem C43_z_axis : forall g cs (lo hi : nat -> R),
  sizes_ok g -> (forall d, (lo d < hi d)%R) ->
  (py_in "Cartesian" cs = true ->
     exists a0 a1 a2, arrays_1D g cs "z" = Ok (a0, a1, a2) /\
       filled a0 /\ filled a1 /\ filled a2 /\ whole g 2 a2 /\
       samples g 0 (lo 0%nat) (hi 0%nat) [((lo 0%nat + hi 0%nat) / 2)%R] a0 /\
       samples g 1 (lo 1%nat) (hi 1%nat) [((lo 1%nat + hi 1%nat) / 2)%R] a1) /\
  (sphere_like cs -> py_in "Ring" cs = false ->
     exists a0 a1 a2, arrays_1D g cs "z" = Ok (a0, a1, a2) /\
       filled a0 /\ filled a1 /\ filled a2 /\ whole g 0 a0 /\
       samples g 1 (lo 1%nat) (hi 1%nat) [lo 1%nat; hi 1%nat] a1 /\
       indices a2 = [NGHOSTS g]) /\
  (cyl_like cs ->
     exists a0 a1 a2, arrays_1D g cs "z" = Ok (a0, a1, a2) /\
       filled a0 /\ filled a1 /\ filled a2 /\ whole g 2 a2 /\
       samples g 0 (lo 0%nat) (hi 0%nat) [lo 0%nat] a0 /\ indices a1 = [NGHOSTS g]) /\
  (wedge_like cs ->
     exists a0 a1 a2, arrays_1D g cs "z" = Ok (a0, a1, a2) /\
       filled a0 /\ filled a1 /\ filled a2 /\ whole g 0 a0 /\
       samples g 1 (lo 1%nat) (hi 1%nat) [((lo 1%nat + hi 1%nat) / 2)%R] a1 /\
       samples g 2 (lo 2%nat) (hi 2%nat) [((lo 2%nat + hi 2%nat) / 2)%R] a2).
Proof.
  intros g cs lo hi H L. pose proof H as [NG N].
  repeat match goal with |- _ /\ _ => split end.
  - intros A.
    assert (E : axis_pts cs "z" = Ok ([PMid 0], [PMid 1], [])) by (unfold axis_pts; rewrite A; reflexivity).
    one_dim E. arrays.
  - intros (A & B & K) Rg.
    assert (E : axis_pts cs "z" = Ok ([], [PFirst; PLast 1], [PFirst])).
    { unfold axis_pts. rewrite A, B, Rg. cbn [String.eqb Ascii.eqb negb orb Bool.eqb].
      destruct K as [-> | ->]; [reflexivity|]. destruct (py_in "Spherical" cs); reflexivity. }
    one_dim E. arrays. rewrite listed_indices. cbn [map]. rewrite first_index. reflexivity.
  - intros (A & B & C & D).
    assert (E : axis_pts cs "z" = Ok ([PFirst], [PFirst], []))
      by (unfold axis_pts; rewrite A, C, B; reflexivity).
    one_dim E. arrays. rewrite listed_indices. cbn [map]. rewrite first_index. reflexivity.
  - intros (A & B & C & D & W).
    assert (E : axis_pts cs "z" = Ok ([], [PMid 1], [PMid 2]))
      by (unfold axis_pts; rewrite A, C, B, D, W; reflexivity).
    one_dim E. arrays.
Qed.

(** "No points on the axis": nothing is visited, but the code still stores [-1] into element 0 of two
    arrays it has declared with length 0 (simple_loop.py:356-365). *)
Theorem C43_no_points_stores_refuted : forall g cs,
  (wedge_like cs -> exists a0 a1 a2, arrays_1D g cs "y" = Ok (a0, a1, a2) /\
     a0 = (0, []) /\ a1 = (0, [(0, -1)]) /\ a2 = (0, [(0, -1)]) /\ ~ filled a1) /\
  (py_in "Cartesian" cs = false -> py_in "Spherical" cs = true -> py_in "Ring" cs = true ->
   exists a0 a1 a2, arrays_1D g cs "z" = Ok (a0, a1, a2) /\
     a0 = (0, []) /\ a1 = (0, [(0, -1)]) /\ a2 = (0, [(0, -1)]) /\ ~ filled a1).
Proof.
  intros g cs. split.
  - intros (A & B & C & D & W).
    assert (E : axis_pts cs "y" = Ok ([PMinusOne], [PMinusOne], [PMinusOne]))
      by (unfold axis_pts; rewrite A, C, B, D, W; reflexivity).
    unfold arrays_1D. rewrite E. eexists _, _, _. split; [reflexivity|].
    repeat split. intros [F _]. discriminate F.
  - intros A C Rg.
    assert (E : axis_pts cs "z" = Ok ([PMinusOne], [PMinusOne], [PMinusOne]))
      by (unfold axis_pts; rewrite A, C, Rg; reflexivity).
    unfold arrays_1D. rewrite E. eexists _, _, _. split; [reflexivity|].
    repeat split. intros [F _]. discriminate F.
Qed.

(** ** Examples *)

Definition ex_sizes : sizes := {| NGHOSTS := 3; Nxx := fun d => match d with 0%nat => 2 | 1%nat => 4 | _ => 6 end |}.

Example C43_ex_yz : option_map visited
    (match arrays_2D ex_sizes "SinhSpherical" "yz" with Ok a => Some a | Err _ => None end)
  = Some [(3,3,4);(4,3,4);(3,4,4);(4,4,4);(3,5,4);(4,5,4);(3,6,4);(4,6,4);
          (3,3,7);(4,3,7);(3,4,7);(4,4,7);(3,5,7);(4,5,7);(3,6,7);(4,6,7)].
Proof. vm_compute. reflexivity. Qed.

Example C43_ex_kinds : sphere_like "SinhSpherical" /\ sphere_like "SymTP" /\ cyl_like "SinhCylindrical" /\
  wedge_like "UWedgeHSinhSph" /\ sizes_ok ex_sizes /\ Z.even (Nxx ex_sizes 2) = true /\
  arrays_2D ex_sizes "Spherical" "xz" = Err ValueError.
Proof.
  unfold sphere_like, cyl_like, wedge_like.
  repeat match goal with |- _ /\ _ => split end; try reflexivity;
    try (left; reflexivity); try (right; reflexivity).
  split; [cbn; lia|]. intros [|[|d]]; cbn; lia.
Qed.

Example C43_ex_z : option_map visited
    (match arrays_1D ex_sizes "SinhSymTP" "z" with Ok a => Some a | Err _ => None end)
  = Some [(3,3,3);(4,3,3);(3,6,3);(4,6,3)].
Proof. vm_compute. reflexivity. Qed.

(** Seven azimuthal cells: cell 4 is chosen for [pi/2], cell 5 is nearer. *)
Example C43_ex_odd : pt_index {| NGHOSTS := 0; Nxx := fun _ => 7 |} (PThreeQuarter 2) = 4.
Proof. vm_compute. reflexivity. Qed.

Print Assumptions C43_xy_plane.
Print Assumptions C43_yz_plane.
Print Assumptions C43_points_interior.
Print Assumptions C43_accepted.
Print Assumptions C43_single_cell_ghost_refuted.
Print Assumptions C43_odd_azimuth_refuted.
Print Assumptions C43_azimuth_error.
Print Assumptions C43_targets_on_plane.
Print Assumptions C43_plane_only_there.
Print Assumptions C43_wedge_xy_refuted.
Print Assumptions C43_y_axis.
Print Assumptions C43_z_axis.
Print Assumptions C43_no_points_stores_refuted.
