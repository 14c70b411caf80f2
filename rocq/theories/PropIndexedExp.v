(** Headline theorems for indexed expressions (C19, C20, C21, C44).
    Specification vocabulary: [in_range dim rank idx] says idx is a tuple of [rank] indices below
    [dim]; [declared_symmetries] tables rank, option string and the exchanges the option promises;
    [leibniz]/[matmul]/[delta] are the textbook determinant, product and identity;
    [crosses axes ord src]: one of the last [ord] indices of [src] is a symmetry axis. *)
From Coq Require Import String Ascii List Arith ZArith Bool Lia QArith Qcanon Field.
From Verif Require Import PyBase PyBaseFacts IndexedExp IndexedExpFacts Inverter InverterFacts.
Import ListNotations.
Open Scope list_scope.
Open Scope nat_scope.

(** C19: every documented option (a pair, an ascending triple, all four positions, two disjoint
    pairs with independent signs), every dimension, every starting tensor, entries in any type with
    an involutive negation fixing zero. *)
Theorem C19_declared_symmetry_holds :
  forall (A : Type) (neg : A -> A) (zero : A),
  (forall x, neg (neg x) = x) -> neg zero = zero ->
  forall rank opt ex dim (T : tensor A), In (rank, opt, ex) declared_symmetries ->
  exists T', symmetrize neg zero rank dim opt T = Ok T' /\
    (forall o idx, In o ex -> in_range dim rank idx ->
       T' (swap_pos (so_a o) (so_b o) idx) = (if so_anti o then neg (T' idx) else T' idx) /\
       (so_anti o = true -> nth (so_a o) idx 0 = nth (so_b o) idx 0 -> T' idx = zero)) /\
    (forall idx, canonical ex idx -> T' idx = T idx) /\
    (forall idx, ~ in_range dim rank idx -> T' idx = T idx) /\
    (forall idx, in_range dim rank idx -> T' idx = zero \/
        exists src, in_range dim rank src /\ canonical ex src /\ (forall x, In x src -> In x idx) /\
          (T' idx = T src \/ T' idx = neg (T src))) /\
    ((forall o, In o ex -> so_anti o = false) -> forall idx, in_range dim rank idx ->
        exists src, in_range dim rank src /\ canonical ex src /\ T' idx = T src) /\
    (exists T'', symmetrize neg zero rank dim opt T' = Ok T'' /\ forall idx, T'' idx = T' idx).
Proof. exact declared_symmetrize. Qed.

Theorem C19_nosym_keeps_every_entry : forall A neg zero rank dim (T : tensor A), 2 <= rank -> rank <= 4 ->
  symmetrize neg zero rank dim "nosym" T = Ok T.
Proof. exact nosym_run. Qed.

(** The table: 20 pair options, 12 of three or four positions, 24 of two disjoint pairs. *)
Example C19_table : List.length declared_symmetries = 56 /\
  forallb (fun d => negb (Nat.eqb (List.length (snd d)) 0)) declared_symmetries = true /\
  In (4, "anti01_sym23"%string, [MkSym true 0 1; MkSym false 2 3]) declared_symmetries /\
  In (3, "sym012"%string, [MkSym false 0 1; MkSym false 0 2; MkSym false 1 2]) declared_symmetries.
Proof.
  repeat split; try (vm_compute; reflexivity);
    unfold declared_symmetries; rewrite !in_app_iff; vm_compute; intuition.
Qed.

(** Riemann-like tensor in four dimensions: R[3][1][2][0] is read from R[1][3][0][2]. *)
Example C19_ex : exists T', symmetrize Z.opp 0%Z 4 4 "anti01_anti23"
    (fun idx => Z.of_nat (nth 0 idx 0 * 64 + nth 1 idx 0 * 16 + nth 2 idx 0 * 4 + nth 3 idx 0)) = Ok T' /\
  T' [3; 1; 2; 0] = 114%Z /\ T' [1; 3; 2; 0] = (-114)%Z /\ T' [2; 2; 0; 1] = 0%Z /\ T' [0; 1; 0; 1] = 17%Z.
Proof. eexists. vm_compute. repeat split. Qed.

(** Refuted for combined options that share a position: "sym01_sym02" is accepted and the result is
    not symmetric in positions 0 and 2. *)
Theorem C19_overlapping_pairs_refuted :
  exists (T T' : tensor Z) idx, symmetrize Z.opp 0%Z 3 3 "sym01_sym02" T = Ok T' /\
    in_range 3 3 idx /\ T' (swap_pos 0 2 idx) <> T' idx.
Proof.
  exists (fun idx => Z.of_nat (nth 0 idx 0 * 9 + nth 1 idx 0 * 3 + nth 2 idx 0)).
  eexists. exists [2; 0; 1]. split; [reflexivity|]. split.
  - split; [reflexivity|]. intros x [<-|[<-|[<-|[]]]]; lia.
  - vm_compute. discriminate.
Qed.

(** A misspelt prefix "nosym01" passes the prefix test and antisymmetrises. *)
Theorem C19_nosym01_antisymmetrises :
  forall A neg zero dim (T : tensor A), symmetrize neg zero 2 dim "nosym01" T = symmetrize neg zero 2 dim "anti01" T.
Proof. reflexivity. Qed.

(** C20. Over every field with decidable equality. *)
Section C20.
Variables (F : Type) (fO fI : F) (fadd fmul fsub fdiv : F -> F -> F) (fopp finv : F -> F)
          (feqb : F -> F -> bool).

(** What a correct inverter for n x n matrices does on input [a]. *)
Definition inverts (n : nat) (a : nat -> nat -> F) (r : py ((nat -> nat -> F) * F)) : Prop :=
  let det := leibniz F fO fI fadd fmul fopp n a in
  (det = fO -> r = Err NonInvertibleMatrixError) /\
  (det <> fO -> exists inv, r = Ok (inv, det) /\ two_sided_inverse F fO fI fadd fmul n a inv).
End C20.

Theorem C20_matrix_inverters :
  forall (F : Type) (fO fI : F) (fadd fmul fsub fdiv : F -> F -> F) (fopp finv : F -> F)
         (feqb : F -> F -> bool),
  field_theory fO fI fadd fmul fsub fopp fdiv finv (@eq F) ->
  (forall x y, feqb x y = true <-> x = y) ->
  let ok := inverts F fO fI fadd fmul fopp in
  (forall a, ok 2 a (generic_matrix_inverter2x2 F fO fmul fsub fdiv fopp feqb a)) /\
  (forall a, ok 3 a (generic_matrix_inverter3x3 F fO fadd fmul fsub fdiv fopp feqb a)) /\
  (forall a, ok 4 a (generic_matrix_inverter4x4 F fO fadd fmul fsub fdiv fopp feqb a)) /\
  (forall a, symmetric F 2 a -> ok 2 a (symm_matrix_inverter2x2 F fO fmul fsub fdiv fopp feqb a)) /\
  (forall a, symmetric F 3 a -> ok 3 a (symm_matrix_inverter3x3 F fO fI fadd fmul fsub fdiv fopp feqb a)) /\
  (forall a, symmetric F 4 a -> ok 4 a (symm_matrix_inverter4x4 F fO fI fadd fmul fsub fdiv fopp feqb a)).
Proof.
  intros F fO fI fadd fmul fsub fdiv fopp finv feqb Fth Feq ok.
  assert (G : forall n a d (inv : (nat -> nat -> F)),
     d = leibniz F fO fI fadd fmul fopp n a ->
     (d <> fO -> two_sided_inverse F fO fI fadd fmul n a inv) ->
     ok n a (if feqb d fO then Err NonInvertibleMatrixError else Ok (inv, d))).
  { intros n a d inv Hd Hi. unfold ok, inverts. cbv zeta. rewrite <- Hd. split; intros H.
    - now rewrite (proj2 (Feq d fO) H).
    - exists inv. split; auto. destruct (feqb d fO) eqn:E; auto. apply Feq in E. contradiction. }
  split; [|split; [|split; [|split; [|split]]]]; intros a; try intros Hs.
  - apply G; [eapply gen2_det_leibniz; eauto|intros H; eapply gen2_inverse; eauto].
  - apply G; [eapply gen3_det_leibniz; eauto|intros H; eapply gen3_inverse; eauto].
  - apply G; [eapply gen4_det_leibniz; eauto|intros H; eapply gen4_inverse; eauto].
  - apply G; [eapply symm2_det_leibniz; eauto|intros H; eapply symm2_inverse; eauto].
  - apply G; [eapply symm3_det_leibniz; eauto|intros H; eapply symm3_inverse; eauto].
  - apply G; [eapply symm4_det_leibniz; eauto|intros H; eapply symm4_inverse; eauto].
Qed.

(** Concrete: a 3x3 rational matrix with determinant -10; a singular one is refused. *)
Definition lmat (l : list (list Z)) (i j : nat) : Qc := Q2Qc (inject_Z (nth j (nth i l []) 0%Z)).
Example C20_ex_det : leibniz Qc 0%Qc 1%Qc Qcplus Qcmult Qcopp 3 (lmat [[2;1;0];[1;3;4];[0;5;6]]%Z) = Q2Qc (-10)%Q.
Proof. apply Qc_is_canon. vm_compute. reflexivity. Qed.
Definition Qceqb (x y : Qc) : bool := Qeq_bool x y.
Example C20_ex_hyp : forall x y, Qceqb x y = true <-> x = y.
Proof.
  intros x y. unfold Qceqb. rewrite Qeq_bool_iff. split; [apply Qc_is_canon|now intros ->].
Qed.
Example C20_ex :
  match generic_matrix_inverter3x3 Qc 0%Qc Qcplus Qcmult Qcminus Qcdiv Qcopp Qceqb
          (lmat [[2;1;0];[1;3;4];[0;5;6]]%Z) with
  | Ok (inv, det) => Qceqb det (Q2Qc (-10)%Q) && Qceqb (inv 0 2) (Q2Qc (-2 # 5)%Q) && Qceqb (inv 1 0) (Q2Qc (3 # 5)%Q)
  | Err _ => false
  end = true /\
  generic_matrix_inverter2x2 Qc 0%Qc Qcmult Qcminus Qcdiv Qcopp Qceqb (lmat [[1;2];[2;4]]%Z)
    = Err NonInvertibleMatrixError.
Proof. split; vm_compute; reflexivity. Qed.

(** C21. *)
Theorem C21_levi_civita_symbol :
  forall (F : Type) (fO fI : F) (fadd fmul fsub fdiv : F -> F -> F) (fopp finv : F -> F),
  field_theory fO fI fadd fmul fsub fopp fdiv finv (@eq F) -> fadd fI fI <> fO ->
  let eps := LeviCivitaSymbol_dim3_rank3 F fO fI fadd fmul fsub fdiv in
  (forall i j k, i < 3 -> j < 3 -> k < 3 -> eps i j k = sign_of F fO fI fopp [i; j; k]) /\
  (forall i j k, eps j i k = fopp (eps i j k) /\ eps i k j = fopp (eps i j k) /\ eps k j i = fopp (eps i j k)).
Proof.
  intros F fO fI fadd fmul fsub fdiv fopp finv Fth H2 eps. split.
  - intros. eapply eps_sign; eauto.
  - intros. eapply eps_antisym; eauto.
Qed.

Theorem C21_levi_civita_contraction :
  forall (F : Type) (fO fI : F) (fadd fmul fsub fdiv : F -> F -> F) (fopp finv : F -> F),
  field_theory fO fI fadd fmul fsub fopp fdiv finv (@eq F) -> fadd fI fI <> fO ->
  forall s i j l m, s <> fO -> i < 3 -> j < 3 -> l < 3 -> m < 3 ->
  fsum F fO fadd (map (fun k =>
     fmul (LeviCivitaTensorUUU_dim3_rank3 F fO fI fadd fmul fsub fdiv s i j k)
          (LeviCivitaTensorDDD_dim3_rank3 F fO fI fadd fmul fsub fdiv s l m k)) (seq 0 3))
  = fsub (fmul (delta F fO fI i l) (delta F fO fI j m)) (fmul (delta F fO fI i m) (delta F fO fI j l)).
Proof.
  intros F fO fI fadd fmul fsub fdiv fopp finv Fth H2 s i j l m Hs Hi Hj Hl Hm.
  eapply up_dn_contract; eauto.
Qed.

Example C21_ex : LeviCivitaSymbol_dim3_rank3 Qc 0%Qc 1%Qc Qcplus Qcmult Qcminus Qcdiv 2 0 1 = 1%Qc /\
  LeviCivitaSymbol_dim3_rank3 Qc 0%Qc 1%Qc Qcplus Qcmult Qcminus Qcdiv 0 2 1 = Qcopp 1%Qc /\
  sign_of Qc 0%Qc 1%Qc Qcopp [1; 1; 0] = 0%Qc /\ Qcplus 1%Qc 1%Qc <> 0%Qc.
Proof.
  split; [|split; [|split]]; try (apply Qc_is_canon; vm_compute; reflexivity).
  intros H. apply (f_equal this) in H. discriminate.
Qed.

(** C44. For every tensor whose entries are zero or (minus) components of base_d<op>, with base free
    of "_d" and single-digit indices, exactly the entries differentiated across an axis are zeroed. *)
Theorem C44_exactly_derivatives_across_axes :
  forall axes rank dim base op ord T,
  py_in "_d" base = false -> In (op, ord) deriv_ops ->
  (forall i, in_range dim rank i -> T i = EZero \/ exists src, deriv_entry base op ord (T i) src) ->
  exists T', zero_out axes rank dim T = Ok T' /\
    (forall i, in_range dim rank i -> T i = EZero -> T' i = EZero) /\
    (forall i src, in_range dim rank i -> deriv_entry base op ord (T i) src ->
       (crosses axes ord src -> T' i = EZero) /\ (~ crosses axes ord src -> T' i = T i)).
Proof. exact zero_out_derivs. Qed.

Theorem C44_names_without_derivative_kept : forall axes rank dim T,
  (forall i, in_range dim rank i -> py_in "_d" (str_entry (T i)) = false) ->
  exists T', zero_out axes rank dim T = Ok T' /\ forall i, T' i = T i.
Proof. exact zero_out_plain. Qed.

(** hDD_dDD with symmetry axis 1: the axis-1 tensor components stay, axis-1 derivatives go. *)
Example C44_ex : exists T', declare_indexedexp "1" (Some "hDD_dDD"%string) 4 3 "sym01_sym23" = Ok T' /\
  T' [1; 1; 0; 2] = ESym false "hDD_dDD1102" /\ T' [0; 0; 1; 2] = EZero /\ T' [0; 2; 2; 1] = EZero /\
  T' [2; 0; 2; 0] = ESym false "hDD_dDD0202".
Proof. eexists. vm_compute. repeat split. Qed.
Example C44_ex_hyp : deriv_entry "hDD" "DD" 2 (ESym false "hDD_dDD1102") [1; 1; 0; 2] /\
  ~ crosses "1" 2 [1; 1; 0; 2] /\ crosses "1" 2 [0; 0; 1; 2].
Proof.
  split; [|split].
  - split; [exists false; reflexivity|]. split; [|cbn; lia].
    intros x [<-|[<-|[<-|[<-|[]]]]]; lia.
  - intros (x & [<-|[<-|[]]] & [H|[]]); discriminate.
  - exists 1. split; [left; reflexivity|left; reflexivity].
Qed.

(** Refuted in general: the text "_d" inside a base name makes a plain component vanish ... *)
Theorem C44_plain_component_zeroed_refuted :
  exists base T', py_in "_dD" base = false /\ declare_indexedexp "2" (Some base) 1 3 "" = Ok T' /\
    T' [2] = EZero /\ T' [1] <> EZero.
Proof. exists "S_dustU"%string. eexists. vm_compute. repeat split. discriminate. Qed.

(** ... and a first derivative of such a tensor is tested on two indices instead of one. *)
Theorem C44_order_misjudged_refuted :
  exists base T', declare_indexedexp "2" (Some base) 3 3 "" = Ok T' /\
    base = "T_dustDD_dD"%string /\ T' [0; 2; 1] = EZero.
Proof. exists "T_dustDD_dD"%string. eexists. vm_compute. repeat split. Qed.

Print Assumptions C19_declared_symmetry_holds.
Print Assumptions C19_nosym_keeps_every_entry.
Print Assumptions C19_overlapping_pairs_refuted.
Print Assumptions C20_matrix_inverters.
Print Assumptions C21_levi_civita_symbol.
Print Assumptions C21_levi_civita_contraction.
Print Assumptions C44_exactly_derivatives_across_axes.
Print Assumptions C44_names_without_derivative_kept.
Print Assumptions C44_plain_component_zeroed_refuted.
Print Assumptions C44_order_misjudged_refuted.
