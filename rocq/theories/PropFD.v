(** Headline theorems for finite differencing (C10-C16).
    Specification vocabulary: [fd_request hist ds fo] is the answer of compute_fdcoeffs_fdstencl to
    (ds, fo) after the arbitrary earlier requests [hist]; [apply_stencil] is the weighted sum of grid
    data; [axis d v] is offset [v] along direction [d]; [peval]/[pderiv] evaluate and differentiate
    a polynomial given by its coefficient list; [binom] is Pascal's triangle. *)
From Coq Require Import String Ascii List ZArith Bool Lia QArith Qcanon.
From Verif Require Import PyBase QcLib FDMatrix FDMatrixFacts FDCoeffs FDCoeffsFacts FDOpsFacts.
Import ListNotations.
Open Scope list_scope.
Open Scope Qc_scope.

(** C10: exact on polynomials of degree <= fd_order (= 2k). *)
Theorem C10_first_derivatives_exact :
  forall hist op dirn k (f : idx3 -> Qc) (p : list Qc),
  In op ["dD"; "dupD"; "ddnD"; "dfullupD"; "dfulldnD"]%string -> (dirn < 3)%nat -> (1 <= k)%nat ->
  (forall v, f (axis dirn v) = peval p (qz v)) -> (List.length p <= 2 * k + 1)%nat ->
  exists r, fd_request hist (deriv_string op dirn) (2 * k) = Ok r /\
            apply_stencil r f = peval (pderiv p) 0.
Proof. exact first_exact. Qed.

Theorem C10_second_derivatives_exact :
  forall hist dirn k (f : idx3 -> Qc) (p : list Qc), (dirn < 3)%nat -> (1 <= k)%nat ->
  (forall v, f (axis dirn v) = peval p (qz v)) -> (List.length p <= 2 * k + 1)%nat ->
  exists r, fd_request hist (deriv_string2 "dDD" dirn dirn) (2 * k) = Ok r /\
            apply_stencil r f = peval (pderiv (pderiv p)) 0.
Proof. exact second_exact. Qed.

(** x^4 - 2x along direction 1, fourth order, upwinded: derivative -2. *)
Example C10_ex :
  exists r, fd_request [("dD0", 6%nat)]%string (deriv_string "dupD" 1) (2 * 2) = Ok r /\
   apply_stencil r (fun t => let '(_, y, _) := t in peval [0; qz (-2); 0; 0; 1] (qz y)) = qz (-2).
Proof.
  destruct (C10_first_derivatives_exact [("dD0", 6%nat)]%string "dupD" 1 2
    (fun t => let '(_, y, _) := t in peval [0; qz (-2); 0; 0; 1] (qz y)) [0; qz (-2); 0; 0; 1])
    as (r & E & H).
  - right; left; reflexivity.
  - repeat constructor.
  - repeat constructor.
  - intros v; reflexivity.
  - repeat constructor.
  - exists r; split; [exact E|]. rewrite H. apply Qc_is_canon; reflexivity.
Qed.

(** C11: the inverse is two-sided and no row is ever swapped. *)
Theorem C11_inverse_two_sided_no_swaps : forall w s,
  (exists A, lu_decomposition w (mtab w (fd_M w s)) = Ok (A, [])) /\
  exists Minv, setup_FD_matrix_inverse_lowlevel w s = Ok Minv /\
    (forall i j, (i < w)%nat -> (j < w)%nat ->
       qsum w (fun k => (fd_node w s k) ^ i * Minv k j) = (if Nat.eqb i j then 1 else 0)) /\
    (forall i j, (i < w)%nat -> (j < w)%nat ->
       qsum w (fun k => Minv i k * (fd_node w s j) ^ k) = (if Nat.eqb i j then 1 else 0)).
Proof.
  intros w s. destruct (fd_inverse_correct w s) as (H & Minv & E & R & L).
  split; auto. exists Minv; split; auto. split; intros i j Hi Hj.
  - change (if Nat.eqb i j then 1 else 0) with (qdelta i j); rewrite <- (R i j Hi Hj). unfold mmul. apply qsum_ext. intros k Hk. now rewrite fd_M_pow.
  - change (if Nat.eqb i j then 1 else 0) with (qdelta i j); rewrite <- (L i j Hi Hj). unfold mmul. apply qsum_ext. intros k Hk. now rewrite fd_M_pow.
Qed.

(** Width 5, offset 1: a definite inverse whose (0,1) entry is -1/4. *)
Example C11_ex : match setup_FD_matrix_inverse_lowlevel 5 1 with
                 | Ok M => qeqb (M 0%nat 1%nat) (- (1) / qz 4) | _ => false end = true.
Proof. vm_compute. reflexivity. Qed.

(** C12: Kreiss-Oliger coefficients. *)
Theorem C12_KO_closed_form : forall hist dirn k, (dirn < 3)%nat ->
  fd_request hist (deriv_string "dKOD" dirn) (2 * k) =
  Ok (map (fun j => (-(1)) ^ (k + j) * qn (binom (2 * k + 2) j) / (qn 2) ^ (2 * k + 2)) (seq 0 (2 * k + 3)),
      map (fun j => axis dirn (Z.of_nat j - Z.of_nat (k + 1))) (seq 0 (2 * k + 3))).
Proof. exact KO_closed. Qed.

Theorem C12_KO_annihilates : forall hist dirn k (f : idx3 -> Qc) p, (dirn < 3)%nat ->
  (forall v, f (axis dirn v) = peval p (qz v)) -> (List.length p <= 2 * k + 2)%nat ->
  exists r, fd_request hist (deriv_string "dKOD" dirn) (2 * k) = Ok r /\ apply_stencil r f = 0.
Proof. exact KO_annihilates. Qed.

(** The grid-scale mode (-1)^i is multiplied by -1, i.e. damped. *)
Theorem C12_KO_damps_checkerboard : forall hist dirn k (f : idx3 -> Qc), (dirn < 3)%nat ->
  (forall v, f (axis dirn v) = if Z.even v then 1 else -(1)) ->
  exists r, fd_request hist (deriv_string "dKOD" dirn) (2 * k) = Ok r /\ apply_stencil r f = -(1).
Proof. exact KO_damps. Qed.

Example C12_ex : map this (match fd_request [] (deriv_string "dKOD" 2) 4 with Ok r => fst r | _ => [] end)
  = map (fun z => this (qz z / qz 64)) [1; -6; 15; -20; 15; -6; 1]%Z.
Proof. vm_compute. reflexivity. Qed.

(** C13: mirror images. *)
Theorem C13_up_down_mirror : forall hist hist' up dn dirn k,
  In (up, dn) [("dupD", "ddnD"); ("dfullupD", "dfulldnD"); ("dD", "dD")]%string ->
  (dirn < 3)%nat -> (1 <= k)%nat ->
  exists cs ts, fd_request hist (deriv_string up dirn) (2 * k) = Ok (cs, ts) /\
    fd_request hist' (deriv_string dn dirn) (2 * k) = Ok (map Qcopp (rev cs), map mirror (rev ts)).
Proof. exact first_mirror. Qed.

Theorem C13_second_derivative_even : forall hist dirn k, (dirn < 3)%nat -> (1 <= k)%nat ->
  exists cs ts, fd_request hist (deriv_string2 "dDD" dirn dirn) (2 * k) = Ok (cs, ts) /\
    rev cs = cs /\ map mirror (rev ts) = ts.
Proof. exact second_mirror. Qed.

Example C13_ex :
  option_map (fun r => (map this (fst r), snd r))
    (match fd_request [] "dupD0" 2 with Ok r => Some r | _ => None end)
  = Some ([-3#2; 2; -1#2]%Q, [(0, 0, 0); (1, 0, 0); (2, 0, 0)]%Z) /\
  option_map (fun r => (map this (fst r), snd r))
    (match fd_request [] "ddnD0" 2 with Ok r => Some r | _ => None end)
  = Some ([1#2; -2; 3#2]%Q, [(-2, 0, 0); (-1, 0, 0); (0, 0, 0)]%Z).
Proof. split; vm_compute; reflexivity. Qed.

(** C14: support. *)
Definition declared_radius (op : string) (k : nat) : nat :=
  if String.eqb op "dD" then k
  else if (String.eqb op "dupD" || String.eqb op "ddnD")%bool then k + 1
  else 2 * k.

Theorem C14_first_derivative_support : forall hist op dirn k,
  In op ["dD"; "dupD"; "ddnD"; "dfullupD"; "dfulldnD"]%string -> (dirn < 3)%nat -> (1 <= k)%nat ->
  exists cs ts, fd_request hist (deriv_string op dirn) (2 * k) = Ok (cs, ts) /\
    List.length cs = List.length ts /\ NoDup ts /\ (forall c, In c cs -> c <> 0) /\
    (forall t, In t ts -> exists v, t = axis dirn v /\
        (Z.abs v <= Z.of_nat (declared_radius op k))%Z /\
        (op = "dfullupD"%string -> 0 <= v)%Z /\ (op = "dfulldnD"%string -> v <= 0)%Z).
Proof.
  intros h op dirn k Hop Hd Hk.
  destruct (first_support h op dirn k Hop Hd Hk) as (cs & ts & E & L & N & C & T).
  exists cs, ts. repeat (split; auto). intros t Ht. destruct (T t Ht) as (v & -> & B).
  exists v; split; auto.
  cbn in Hop. repeat destruct Hop as [<-|Hop]; try contradiction; cbn in *;
    (split; [lia|split; intros Q; try discriminate Q; lia]).
Qed.

Theorem C14_second_derivative_support : forall hist dirn k, (dirn < 3)%nat -> (1 <= k)%nat ->
  exists cs ts, fd_request hist (deriv_string2 "dDD" dirn dirn) (2 * k) = Ok (cs, ts) /\
    List.length cs = List.length ts /\ NoDup ts /\ (forall c, In c cs -> c <> 0) /\
    (forall t, In t ts -> exists v, t = axis dirn v /\ (Z.abs v <= Z.of_nat k)%Z).
Proof.
  intros h dirn k Hd Hk.
  destruct (second_support h dirn k Hd Hk) as (cs & ts & E & L & N & C & T).
  exists cs, ts. repeat (split; auto). intros t Ht. destruct (T t Ht) as (v & -> & B).
  exists v; split; auto. lia.
Qed.

Theorem C14_KO_support : forall hist dirn k, (dirn < 3)%nat ->
  exists cs ts, fd_request hist (deriv_string "dKOD" dirn) (2 * k) = Ok (cs, ts) /\
    List.length cs = List.length ts /\ NoDup ts /\ (forall c, In c cs -> c <> 0) /\
    (forall t, In t ts -> exists v, t = axis dirn v /\ (Z.abs v <= Z.of_nat (k + 1))%Z).
Proof.
  intros h dirn k Hd. do 2 eexists; split; [apply KO_closed; auto|]. repeat split.
  - now rewrite !map_length.
  - apply NoDup_map_inj_in; [|apply seq_NoDup]. intros a b _ _ H. apply axis_inj in H. lia.
  - intros c Hc. apply in_map_iff in Hc. destruct Hc as (j & <- & Hj). apply in_seq in Hj.
    unfold ko_coeff, Qcdiv. repeat apply Qc_mul_nonzero; try apply m1_pow_nz.
    + apply qn_nonzero. pose proof (binom_pos (2 * k + 2) j). lia.
    + intros Hz. pose proof (Qcmult_inv_r (qn 2 ^ (2 * k + 2)) (qn2_pow_nz _)) as I.
      rewrite Hz in I. rewrite Qcmult_0_r in I. discriminate.
  - intros t Ht. apply in_map_iff in Ht. destruct Ht as (j & <- & Hj). apply in_seq in Hj.
    eexists; split; [reflexivity|]. lia.
Qed.

Theorem C14_mixed_support : forall hist d1 d2 k,
  (d1 < 3)%nat -> (d2 < 3)%nat -> d1 <> d2 -> (1 <= k)%nat ->
  exists cs ts, fd_request hist (deriv_string2 "dDD" d1 d2) (2 * k) = Ok (cs, ts) /\
    List.length cs = List.length ts /\ NoDup ts /\ (forall c, In c cs -> c <> 0) /\
    (forall t, In t ts -> exists u v, t = tadd (axis d1 u) (axis d2 v) /\
        (- Z.of_nat k <= u <= Z.of_nat k)%Z /\ (- Z.of_nat k <= v <= Z.of_nat k)%Z).
Proof. exact mixed_support. Qed.

Example C14_ex : match fd_request [] "dfulldnD2" 4 with Ok (_, t) => t | _ => [] end
  = [(0, 0, -4); (0, 0, -3); (0, 0, -2); (0, 0, -1); (0, 0, 0)]%Z.
Proof. vm_compute. reflexivity. Qed.

(** C15: mixed second derivatives. *)
Theorem C15_mixed_is_composition : forall hist d1 d2 k (f : idx3 -> Qc),
  (d1 < 3)%nat -> (d2 < 3)%nat -> d1 <> d2 -> (1 <= k)%nat ->
  exists r r1 r2, fd_request hist (deriv_string2 "dDD" d1 d2) (2 * k) = Ok r /\
    fd_request hist (deriv_string "dD" d1) (2 * k) = Ok r1 /\
    fd_request hist (deriv_string "dD" d2) (2 * k) = Ok r2 /\
    apply_stencil r f = apply_stencil r1 (fun t => apply_stencil r2 (fun u => f (tadd t u))).
Proof. exact mixed_composition. Qed.

Theorem C15_mixed_exact : forall hist d1 d2 k (f : idx3 -> Qc) (p : list (list Qc)),
  (d1 < 3)%nat -> (d2 < 3)%nat -> d1 <> d2 -> (1 <= k)%nat ->
  (forall u v, f (tadd (axis d1 u) (axis d2 v)) = peval2 p (qz u) (qz v)) ->
  (List.length p <= 2 * k + 1)%nat -> (forall q, In q p -> (List.length q <= 2 * k + 1)%nat) ->
  exists r, fd_request hist (deriv_string2 "dDD" d1 d2) (2 * k) = Ok r /\
    apply_stencil r f = peval (pderiv (map (fun q => peval (pderiv q) 0) p)) 0.
Proof. exact mixed_exact. Qed.

Example C15_ex : match fd_request [] "dDD02" 2 with
  | Ok r => qeqb (apply_stencil r (fun t => let '(x, _, z) := t in
               qz 3 * qz x * qz z + qz x * qz x * qz z * qz z)) (qz 3) | _ => false end = true.
Proof. vm_compute. reflexivity. Qed.

(** C16: the cache never changes an answer (matrix level and operator level). *)
Definition matrix_history (hist : list (nat * Z)) : matrix_dict :=
  fold_left (fun d q => fst (setup_FD_matrix_inverse (fst q) (snd q) d)) hist [].

Theorem C16_matrix_independent_of_history : forall hist w s,
  snd (setup_FD_matrix_inverse w s (matrix_history hist)) = setup_FD_matrix_inverse_lowlevel w s.
Proof.
  intros hist w s. apply setup_cached. unfold matrix_history.
  generalize cache_ok_nil. generalize (@nil (mkey * matrix)) as d.
  induction hist as [|q hist IH]; intros d H; cbn [fold_left]; auto.
  apply IH. now apply setup_cached.
Qed.

Theorem C16_operator_independent_of_history : forall hist hist' ds fo,
  fd_request hist ds fo = fd_request hist' ds fo.
Proof. intros. now rewrite !fd_request_nil. Qed.

Example C16_ex : List.length (matrix_history [(3%nat, 0%Z); (5%nat, 1%Z); (3%nat, 0%Z)]) = 2%nat.
Proof. vm_compute. reflexivity. Qed.

Print Assumptions C10_first_derivatives_exact.
Print Assumptions C10_second_derivatives_exact.
Print Assumptions C11_inverse_two_sided_no_swaps.
Print Assumptions C12_KO_closed_form.
Print Assumptions C12_KO_annihilates.
Print Assumptions C12_KO_damps_checkerboard.
Print Assumptions C13_up_down_mirror.
Print Assumptions C13_second_derivative_even.
Print Assumptions C14_first_derivative_support.
Print Assumptions C14_second_derivative_support.
Print Assumptions C14_KO_support.
Print Assumptions C14_mixed_support.
Print Assumptions C15_mixed_is_composition.
Print Assumptions C15_mixed_exact.
Print Assumptions C16_matrix_independent_of_history.
Print Assumptions C16_operator_independent_of_history.
