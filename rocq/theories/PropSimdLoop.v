(** Headline theorems for C56: the loops around the kernels, scalar and vectorised, serial and parallel. *)
From Coq Require Import String Ascii List Arith ZArith Bool Lia Sorted.
From Verif Require Import PyBase PyBaseFacts Functional FunctionalFacts Loop LoopFacts SimdLoop SimdLoopFacts.
Import ListNotations.
Open Scope list_scope.
Open Scope nat_scope.

(** ** The text *)
(** What is read at the top of each loop level, by direction. *)
Definition xx_read (k : nat) : string :=
  nth k ["MAYBE_UNUSED const REAL xx0 = xx[0][i0];"; "MAYBE_UNUSED const REAL xx1 = xx[1][i1];";
         "MAYBE_UNUSED const REAL xx2 = xx[2][i2];"]%string ""%string.
Definition reads_of (simd read_xxs : bool) (rfm : option rfm_reads) (k : nat) : string :=
  match rfm with
  | Some r => if simd then (if Nat.eqb k 0 then rd_inner r 0 else rd_outer r k) else rd_plain r k
  | None => if read_xxs then xx_read k else ""%string
  end.
Definition regions : list string := ["all points"; "interior"; "interior plus one upper"]%string.
(** lower and upper bound of direction k *)
Definition bounds_of (region : string) (k : nat) : string * string :=
  let n := nth k ["Nxx_plus_2NGHOSTS0"; "Nxx_plus_2NGHOSTS1"; "Nxx_plus_2NGHOSTS2"]%string ""%string in
  let i := nth k ["NGHOSTS+Nxx0"; "NGHOSTS+Nxx1"; "NGHOSTS+Nxx2"]%string ""%string in
  if String.eqb region "all points" then ("0"%string, n)
  else if String.eqb region "interior" then ("NGHOSTS"%string, i)
  else ("NGHOSTS"%string, (i ++ "+1")%string).
Definition the_dims (region : string) (simd : bool) (pragma p1 p0 : string) : list dim :=
  let d v k inc p := MkDim v (fst (bounds_of region k)) (snd (bounds_of region k)) inc p ""%string in
  [d "i2" 2 "1" pragma; d "i1" 1 "1" p1; d "i0" 0 (if simd then "simd_width" else "1") p0]%string.

(** When a loop is generated: a known region, and coordinates are read only without SIMD and without precomputation.
    Everything else raises ValueError. *)
Theorem C56_accepts : forall body simd region rx rfm omp custom collapse,
  let r := simple_loop_bhah body simd region rx rfm omp custom collapse in
  ((exists t, r = Ok t) <-> region = ""%string \/ (In region regions /\ (rx = true -> simd = false /\ rfm = None))) /\
  ((exists t, r = Ok t) \/ r = Err ValueError).
Proof.
  intros body simd region rx rfm omp custom collapse. unfold simple_loop_bhah, bhah_region.
  destruct (String.eqb_spec region "") as [->|N0].
  { split; [split; [auto|intros _; eexists; reflexivity]|left; eexists; reflexivity]. }
  assert (R : forall ms Ms, In region regions ->
     let r := (let rd := bhah_reads simd rx rfm in match rd with Err e => Err e | Ok rd =>
        (let pragma := omp_pragma str_of_Z omp custom collapse in
            let body1 := (rd 0 ++ body)%string in
            let '(pre, body2) :=
              if (collapse =? 2)%Z then ([pragma; ""; rd 2 ++ rd 1]%string, body1)
              else if (collapse =? 3)%Z then ([pragma; ""; ""], rd 2 ++ rd 1 ++ body1)%string
              else ([pragma; rd 2; rd 1], body1) in
            loop (Many ["i2"; "i1"; "i0"]%string) (Many ms) (Many Ms) (Many (increments simd)) (Many pre) body2 (One ""%string)) end) in
     length ms = 3 -> length Ms = 3 ->
     ((exists t, r = Ok t) <-> region = ""%string \/ (In region regions /\ (rx = true -> simd = false /\ rfm = None))) /\
     ((exists t, r = Ok t) \/ r = Err ValueError)).
  { intros ms Ms I r L1 L2. subst r. cbv zeta.
    assert (T : forall pre body2, length pre = 3 -> exists t,
       loop (Many ["i2"; "i1"; "i0"]%string) (Many ms) (Many Ms) (Many (increments simd)) (Many pre) body2 (One ""%string) = Ok t).
    { intros pre b L3. destruct ms as [|m2 [|m1 [|m0 [|? ?]]]]; try discriminate. destruct Ms as [|M2 [|M1 [|M0 [|? ?]]]]; try discriminate.
      destruct pre as [|q2 [|q1 [|q0 [|? ?]]]]; try discriminate.
      pose proof (loop_plain_text [MkDim "i2" m2 M2 "1" q2 ""; MkDim "i1" m1 M1 "1" q1 "";
        MkDim "i0" m0 M0 (if simd then "simd_width" else "1") q0 ""]%string b) as E.
      unfold args_of in E. cbn [map d_var d_lo d_hi d_inc d_pragma] in E. exists (finish (plain_nest
        [MkDim "i2" m2 M2 "1" q2 ""; MkDim "i1" m1 M1 "1" q1 ""; MkDim "i0" m0 M0 (if simd then "simd_width" else "1") q0 ""]%string) b).
      rewrite <- E. unfold increments. destruct simd; reflexivity. }
    unfold bhah_reads. destruct rx.
    - destruct simd.
      { split; [split; [intros [t E]; discriminate|intros [K|[_ K]]; [congruence|destruct (K eq_refl); discriminate]]|now right]. }
      destruct rfm.
      { split; [split; [intros [t E]; discriminate|intros [K|[_ K]]; [congruence|destruct (K eq_refl); discriminate]]|now right]. }
      destruct (collapse =? 2)%Z; [|destruct (collapse =? 3)%Z];
        match goal with |- context [loop _ _ _ _ (Many ?p) ?b _] => destruct (T p b eq_refl) as [t E] end; rewrite E;
        (split; [split; [auto|intros _; now exists t]|left; now exists t]).
    - assert (Q : exists rd, match rfm with None => Ok (fun _ : nat => ""%string)
           | Some r => Ok (if simd then fun k => match k with 0 => rd_inner r 0 | _ => rd_outer r k end else rd_plain r) end = Ok rd)
        by (destruct rfm; eexists; reflexivity).
      destruct Q as [rd ->]. destruct (collapse =? 2)%Z; [|destruct (collapse =? 3)%Z];
        match goal with |- context [loop _ _ _ _ (Many ?p) ?b _] => destruct (T p b eq_refl) as [t E] end; rewrite E;
        (split; [split; [intros _; right; split; [exact I|discriminate]|intros _; now exists t]|left; now exists t]). }
  destruct (String.eqb_spec region "all points") as [->|N1]; [apply R; [left; reflexivity|reflexivity|reflexivity]|].
  destruct (String.eqb_spec region "interior") as [->|N2]; [apply R; [right; left; reflexivity|reflexivity|reflexivity]|].
  destruct (String.eqb_spec region "interior plus one upper") as [->|N3]; [apply R; [right; right; left; reflexivity|reflexivity|reflexivity]|].
  clear R. split; [split; [intros [t E]; discriminate|]|now right].
  intros [K|[[K|[K|[K|[]]]] _]]; congruence.
Qed.

(** The text is the rendering of three nested loops over i2, i1, i0 around the body; the reads stand between the loops or
    before the body, in the order 2, 1, 0, none of them before the loop over its own index, and the loops that are
    collapsed have nothing between them. *)
(** The pragma: the given one, else OpenMP with the number of collapsed loops, or none. *)
Definition is_pragma (omp : bool) (custom : string) (collapse : Z) (p : string) : Prop :=
  (custom <> ""%string -> p = custom) /\ (custom = ""%string -> omp = false -> p = ""%string) /\
  (custom = ""%string -> omp = true -> exists c, p = ("#pragma omp parallel for" ++ c)%string /\
     ((collapse <= 1)%Z -> c = ""%string) /\ (collapse = 2%Z -> c = " collapse(2)"%string) /\ (collapse = 3%Z -> c = " collapse(3)"%string) /\
     ((1 < collapse)%Z -> c = (" collapse(" ++ str_of_Z collapse ++ ")")%string)).
Lemma pragma_ok : forall omp custom collapse, is_pragma omp custom collapse (omp_pragma str_of_Z omp custom collapse).
Proof.
  intros omp custom collapse. unfold is_pragma, omp_pragma. destruct (String.eqb_spec custom "") as [->|N].
  - split; [congruence|]. split; [intros _ ->; reflexivity|]. intros _ ->. cbn [orb].
    destruct (Z.ltb_spec 1 collapse).
    + exists (" collapse(" ++ str_of_Z collapse ++ ")")%string. split; [reflexivity|]. split; [lia|]. split; [intros ->; reflexivity|].
      split; [intros ->; reflexivity|]. reflexivity.
    + exists ""%string. split; [reflexivity|]. split; [reflexivity|]. split; [lia|]. split; lia.
  - split; [intros _; now rewrite orb_true_r|]. split; contradiction.
Qed.
Theorem C56_text : forall body simd region rx rfm omp custom collapse t,
  simple_loop_bhah body simd region rx rfm omp custom collapse = Ok t -> region <> ""%string ->
  exists p p1 p0 pre, is_pragma omp custom collapse p /\
    let rd := reads_of simd rx rfm in
    t = finish (plain_nest (the_dims region simd p p1 p0)) (pre ++ body)%string /\
    (p1 ++ p0 ++ pre = rd 2 ++ rd 1 ++ rd 0)%string /\
    (exists q, pre = q ++ rd 0)%string /\ (p1 = ""%string \/ p1 = rd 2) /\
    (collapse = 2%Z -> p1 = ""%string) /\ (collapse = 3%Z -> p1 = ""%string /\ p0 = ""%string).
Proof.
  intros body simd region rx rfm omp custom collapse t H N0.
  assert (ACC : exists t', simple_loop_bhah body simd region rx rfm omp custom collapse = Ok t') by eauto.
  apply (proj1 (proj1 (C56_accepts body simd region rx rfm omp custom collapse))) in ACC as [K|[IR RX]]; [contradiction|].
  assert (BR : exists b, bhah_region region = Ok b /\ b =
     ([fst (bounds_of region 2); fst (bounds_of region 1); fst (bounds_of region 0)],
      [snd (bounds_of region 2); snd (bounds_of region 1); snd (bounds_of region 0)])).
  { destruct IR as [<-|[<-|[<-|[]]]]; eexists; split; reflexivity. }
  assert (RD : exists rd, bhah_reads simd rx rfm = Ok rd /\ forall k, k < 3 -> rd k = reads_of simd rx rfm k).
  { unfold bhah_reads, reads_of. destruct rx.
    - destruct (RX eq_refl) as [-> ->]. eexists; split; [reflexivity|]. intros [|[|[|k]]] L; try lia; reflexivity.
    - destruct rfm as [r|]; eexists; split; try reflexivity. intros [|k] _; destruct simd; reflexivity. }
  destruct BR as [b [BR ->]]. destruct RD as [rd [RD RE]].
  unfold simple_loop_bhah in H. destruct (String.eqb_spec region "") as [|_]; [contradiction|]. rewrite BR, RD in H.
  cbv zeta. rewrite <- (RE 0), <- (RE 1), <- (RE 2) by lia. set (pragma := omp_pragma str_of_Z omp custom collapse) in *.
  exists pragma. assert (PR : is_pragma omp custom collapse pragma) by apply pragma_ok.
  assert (T : forall p1 p0 bd, loop (Many ["i2"; "i1"; "i0"]%string)
     (Many [fst (bounds_of region 2); fst (bounds_of region 1); fst (bounds_of region 0)])
     (Many [snd (bounds_of region 2); snd (bounds_of region 1); snd (bounds_of region 0)])
     (Many (increments simd)) (Many [pragma; p1; p0]) bd (One ""%string)
     = Ok (finish (plain_nest (the_dims region simd pragma p1 p0)) bd)).
  { intros p1 p0 bd. rewrite <- loop_plain_text. unfold args_of, the_dims, increments.
    cbn [map d_var d_lo d_hi d_inc d_pragma]. destruct simd; reflexivity. }
  destruct (Z.eqb_spec collapse 2) as [->|C2]; [|destruct (Z.eqb_spec collapse 3) as [->|C3]]; rewrite T in H; injection H as <-.
  - exists ""%string, (rd 2 ++ rd 1)%string, (rd 0). cbn [append]. rewrite sapp_assoc. split; [exact PR|]. repeat split; auto; try discriminate.
    exists ""%string; reflexivity.
  - exists ""%string, ""%string, (rd 2 ++ rd 1 ++ rd 0)%string. cbn [append]. rewrite !sapp_assoc. split; [exact PR|]. repeat split; auto; try discriminate.
    exists (rd 2 ++ rd 1)%string. now rewrite sapp_assoc.
  - exists (rd 2), (rd 1), (rd 0). split; [exact PR|]. repeat split; auto; try contradiction. exists ""%string; reflexivity.
Qed.

(** ETLegacy: the same nest without reads; "" is not a region there. *)
Definition et_dims (region : string) (simd : bool) (pragma : string) : list dim :=
  let lsh k := nth k ["cctk_lsh[0]"; "cctk_lsh[1]"; "cctk_lsh[2]"]%string ""%string in
  let ng k := nth k ["cctk_nghostzones[0]"; "cctk_nghostzones[1]"; "cctk_nghostzones[2]"]%string ""%string in
  let d v k inc p := if String.eqb region "interior" then MkDim v (ng k) (lsh k ++ "-" ++ ng k)%string inc p ""%string
                     else MkDim v "0"%string (lsh k) inc p ""%string in
  [d "i2" 2 "1" pragma; d "i1" 1 "1" ""; d "i0" 0 (if simd then "simd_width" else "1") ""]%string.
Theorem C56_text_ETLegacy : forall body simd region omp custom collapse,
  exists p, is_pragma omp custom collapse p /\
  simple_loop_et body simd region omp custom collapse =
  if existsb (String.eqb region) ["all points"; "interior"]%string
  then Ok (finish (plain_nest (et_dims region simd p)) body)
  else Err ValueError.
Proof.
  intros body simd region omp custom collapse. exists (omp_pragma str_of_Z omp custom collapse). split; [apply pragma_ok|]. unfold simple_loop_et, et_region. set (pragma := omp_pragma _ _ _ _).
  cbn [existsb]. destruct (String.eqb_spec region "all points") as [->|N1]; cbn [orb].
  - rewrite <- loop_plain_text. unfold args_of, et_dims, increments. destruct simd; reflexivity.
  - destruct (String.eqb_spec region "interior") as [->|N2]; cbn [orb]; [|reflexivity].
    rewrite <- loop_plain_text. unfold args_of, et_dims, increments. destruct simd; reflexivity.
Qed.

(** ** The points visited *)
Open Scope Z_scope.
(** The grid: nx interior points per direction and NG ghost zones on each side. *)
Definition grid_box (region : string) (NG : Z) (nx : nat -> Z) (ngf : nat) : box :=
  let all := String.eqb region "all points" in
  MkBox (fun _ => if all then 0 else NG)
        (fun k => if all then nx k + 2 * NG else if String.eqb region "interior" then nx k else nx k + 1)
        (fun k => nx k + 2 * NG) ngf.
Definition strings_mean (m : string -> Z) (NG : Z) (nx : nat -> Z) (w : nat) : Prop :=
  m "0"%string = 0 /\ m "1"%string = 1 /\ m "simd_width"%string = Z.of_nat w /\ m "NGHOSTS"%string = NG /\
  forall k, (k < 3)%nat ->
    m (nth k ["Nxx_plus_2NGHOSTS0"; "Nxx_plus_2NGHOSTS1"; "Nxx_plus_2NGHOSTS2"]%string ""%string) = nx k + 2 * NG /\
    m (nth k ["NGHOSTS+Nxx0"; "NGHOSTS+Nxx1"; "NGHOSTS+Nxx2"]%string ""%string) = NG + nx k /\
    m (nth k ["NGHOSTS+Nxx0"; "NGHOSTS+Nxx1"; "NGHOSTS+Nxx2"]%string ""%string ++ "+1")%string = NG + nx k + 1.
Theorem C56_visits : forall m NG nx ngf w simd region pragma p1 p0, strings_mean m NG nx w -> In region regions ->
  map (fun e => (lookup e "i2", lookup e "i1", lookup e "i0")%string)
      (exec m (plain_nest (the_dims region simd pragma p1 p0)) [])
  = points (grid_box region NG nx ngf) (if simd then w else 1%nat).
Proof.
  intros m NG nx ngf w simd region pragma p1 p0 [M0 [M1 [MW [MN MK]]]] IR.
  assert (ND : NoDup (map d_var (the_dims region simd pragma p1 p0))).
  { cbn. repeat constructor; cbn; intuition discriminate. }
  pose proof (exec_plain_values m (the_dims region simd pragma p1 p0) ND) as E.
  apply (f_equal (map (fun t => match t with [a; b; c] => (a, b, c) | _ => (0, 0, 0) end))) in E.
  rewrite map_map in E. cbn [map d_var the_dims] in E. rewrite E.
  change (cart [range m (MkDim _ _ _ _ _ _); range m (MkDim _ _ _ _ _ _); range m (MkDim _ _ _ _ _ _)]) with
    (cart (map (range m) (the_dims region simd pragma p1 p0))). clear E.
  unfold the_dims. cbn [map]. rewrite cart3. unfold points, range1, range0, range. cbn [d_lo d_hi d_inc].
  destruct (MK 0%nat ltac:(lia)) as [A0 [B0 C0]]. destruct (MK 1%nat ltac:(lia)) as [A1 [B1 C1]].
  destruct (MK 2%nat ltac:(lia)) as [A2 [B2 C2]]. cbn [nth] in *.
  assert (I : m (if simd then "simd_width" else "1")%string = Z.of_nat (if simd then w else 1%nat)) by (destruct simd; auto).
  rewrite I, M1. destruct IR as [<-|[<-|[<-|[]]]]; cbn [bounds_of String.eqb Ascii.eqb Bool.eqb fst snd nth grid_box b_lo b_n].
  - unfold bounds_of, grid_box. cbn [fst snd nth b_lo b_n]. cbn. rewrite M0, A0, A1, A2. reflexivity.
  - unfold bounds_of, grid_box. cbn. rewrite MN, B0, B1, B2. reflexivity.
  - unfold bounds_of, grid_box. cbn. cbn in C0, C1, C2. rewrite MN, C0, C1, C2, !Z.add_assoc. reflexivity.
Qed.
(** They are the points of the region whose first index is a multiple of the width from its lower end, each once, the
    first index running fastest. *)
Theorem C56_points : forall x w, (0 < w)%nat ->
  (forall i2 i1 i0, In (i2, i1, i0) (points x w) <->
     (b_lo x 2 <= i2 < b_lo x 2 + b_n x 2) /\ (b_lo x 1 <= i1 < b_lo x 1 + b_n x 1) /\
     (b_lo x 0 <= i0 < b_lo x 0 + b_n x 0) /\ (i0 - b_lo x 0) mod Z.of_nat w = 0) /\
  StronglySorted lt3 (points x w).
Proof.
  intros x w W. split; [|now apply points_sorted]. intros i2 i1 i0. rewrite in_points by exact W. unfold inr, vec. tauto.
Qed.

(** ** What the loop writes *)
(** [spill w n] is the distance from n to the next multiple of w. *)
Theorem C56_spill : forall w n, (0 < w)%nat -> (n + spill w n) mod Z.of_nat w = 0 /\ 0 <= spill w n < Z.of_nat w.
Proof. intros. split; [now apply spill_total|now apply spill_range]. Qed.

(** One thread.  If the last vectors of the rows do not reach the next gridfunction's region, every cell of the region ends with the
    value of its own point, and nothing else changes except the [spill] cells after each row. *)
Theorem C56_serial : forall (V : Type) x w (val : Z -> Z -> Z -> Z -> V) mem, box_ok x -> (0 < w)%nat ->
  let final := run V mem (flat_map (body_events V x w val) (points x w)) in
  (gf_safe x (spill w (b_n x 0)) ->
   forall g i0 i1 i2, 0 <= g < Z.of_nat (b_ngf x) -> inr x 0 i0 -> inr x 1 i1 -> inr x 2 i2 ->
     final (idx4 x g i0 i1 i2) = val g i0 i1 i2) /\
  (forall a, (forall g j0 j1 j2, 0 <= g < Z.of_nat (b_ngf x) -> inr x 1 j1 -> inr x 2 j2 ->
     b_lo x 0 <= j0 < b_lo x 0 + b_n x 0 + spill w (b_n x 0) -> a <> idx4 x g j0 j1 j2) -> final a = mem a).
Proof.
  intros V x w val mem OK W final. split.
  - intros GF g i0 i1 i2 G A B C. now apply sequential.
  - intros a H. apply (untouched V x w val W mem a H). auto.
Qed.
(** Threads: with collapse(c) the iterations of the c outer loops are tasks; every interleaving of their stores gives the
    same region. *)
Theorem C56_parallel : forall (V : Type) x w (val : Z -> Z -> Z -> Z -> V) mem c l, box_ok x -> (0 < w)%nat ->
  interleave (tasks V x w val c) l ->
  ((c = 1%nat -> slice_safe x (spill w (b_n x 0))) -> (c <> 1%nat -> row_safe x (spill w (b_n x 0))) ->
   forall g i0 i1 i2, 0 <= g < Z.of_nat (b_ngf x) -> inr x 0 i0 -> inr x 1 i1 -> inr x 2 i2 ->
     run V mem l (idx4 x g i0 i1 i2) = val g i0 i1 i2) /\
  (forall a, (forall g j0 j1 j2, 0 <= g < Z.of_nat (b_ngf x) -> inr x 1 j1 -> inr x 2 j2 ->
     b_lo x 0 <= j0 < b_lo x 0 + b_n x 0 + spill w (b_n x 0) -> a <> idx4 x g j0 j1 j2) -> run V mem l a = mem a).
Proof.
  intros V x w val mem c l OK W L. split.
  - intros S1 S2 g i0 i1 i2 G A B C. apply (parallel V x w val OK W c); auto.
    destruct c as [|[|c]]; [apply S2; lia|now apply S1|apply S2; lia].
  - intros a H. apply (untouched V x w val W mem a H). intros e I. rewrite <- (tasks_concat V x w val c).
    apply (interleave_in _ _ _ L) in I as [t [T I]]. apply in_concat. now exists t.
Qed.
(** The stores of a task are those of the iterations with that outer index, in their serial order; together the tasks are
    the serial loop. *)
Theorem C56_tasks : forall (V : Type) x w (val : Z -> Z -> Z -> Z -> V) c,
  concat (tasks V x w val c) = flat_map (body_events V x w val) (points x w) /\
  interleave (tasks V x w val c) (flat_map (body_events V x w val) (points x w)) /\
  (forall k, nth_error (tasks V x w val 1) k =
     option_map (fun i2 => flat_map (body_events V x w val) (list_prod (list_prod [i2] (range1 x 1)) (range0 x w)))
       (nth_error (range1 x 2) k)).
Proof.
  intros V x w val c. split; [apply tasks_concat|]. split.
  - rewrite <- (tasks_concat V x w val c). apply interleave_concat.
  - intros k. apply nth_error_map.
Qed.

(** ** BHaH grids *)
Lemma grid_ok : forall region NG nx ngf, In region regions -> 0 <= NG -> (forall k, (k < 3)%nat -> 1 <= nx k) ->
  (region = "interior plus one upper"%string -> 1 <= NG) -> box_ok (grid_box region NG nx ngf).
Proof.
  intros region NG nx ngf IR H N U k K. specialize (N k K).
  destruct IR as [<-|[<-|[<-|[]]]]; cbn -[Z.mul Z.add]; [lia|lia|]. specialize (U eq_refl). lia.
Qed.
(** The interior: with at least one ghost zone and vectors of at most 9 numbers, serial and "parallel for" loops compute
    every interior point of every gridfunction, whatever the grid size; with collapse(2) or (3) if the spill is at most
    2 NGHOSTS, in particular if the number of points is a multiple of the width. *)
Theorem C56_interior : forall (V : Type) NG nx ngf w (val : Z -> Z -> Z -> Z -> V) mem c l,
  let x := grid_box "interior" NG nx ngf in
  1 <= NG -> (forall k, (k < 3)%nat -> 1 <= nx k) -> (0 < w <= 9)%nat ->
  interleave (tasks V x w val c) l -> (c = 1%nat \/ spill w (nx 0%nat) <= 2 * NG) ->
  forall g i0 i1 i2, 0 <= g < Z.of_nat ngf ->
    NG <= i0 < NG + nx 0%nat -> NG <= i1 < NG + nx 1%nat -> NG <= i2 < NG + nx 2%nat ->
    run V mem l (idx4 x g i0 i1 i2) = val g i0 i1 i2.
Proof.
  intros V NG nx ngf w val mem c l x HN NX W L S g i0 i1 i2 G A B C.
  assert (OK : box_ok x) by (apply grid_ok; [right; left; reflexivity|lia|auto|discriminate]).
  destruct (C56_parallel V x w val mem c l OK ltac:(lia) L) as [K _]. apply K; auto.
  - intros ->. pose proof (spill_range w (b_n x 0) ltac:(lia)) as SR. unfold slice_safe.
    unfold x in *. cbn [grid_box b_N b_n] in *. change (String.eqb "interior" "all points") with false in *.
    change (String.eqb "interior" "interior") with true in *. cbv iota in *.
    pose proof (NX 0%nat ltac:(lia)). pose proof (NX 1%nat ltac:(lia)).
    replace (nx 0%nat + 2 * NG - nx 0%nat) with (2 * NG) by lia. replace (nx 1%nat + 2 * NG - nx 1%nat) with (2 * NG) by lia. nia.
  - intros N1. destruct S as [S|S]; [contradiction|]. unfold row_safe, x. cbn -[Z.mul Z.add Z.sub spill]. cbn -[Z.mul Z.add Z.sub spill] in S. lia.
Qed.
(** All points: correct when the whole row is a multiple of the width (in particular without SIMD). *)
Theorem C56_all_points : forall (V : Type) NG nx ngf w (val : Z -> Z -> Z -> Z -> V) mem c l,
  let x := grid_box "all points" NG nx ngf in
  0 <= NG -> (forall k, (k < 3)%nat -> 1 <= nx k) -> (0 < w)%nat -> (nx 0%nat + 2 * NG) mod Z.of_nat w = 0 ->
  interleave (tasks V x w val c) l ->
  (forall g i0 i1 i2, 0 <= g < Z.of_nat ngf ->
    0 <= i0 < nx 0%nat + 2 * NG -> 0 <= i1 < nx 1%nat + 2 * NG -> 0 <= i2 < nx 2%nat + 2 * NG ->
    run V mem l (idx4 x g i0 i1 i2) = val g i0 i1 i2).
Proof.
  intros V NG nx ngf w val mem c l x HN NX W D L g i0 i1 i2 G A B C.
  assert (OK : box_ok x) by (apply grid_ok; [left; reflexivity|lia|auto|discriminate]).
  assert (S0 : spill w (b_n x 0) <= 0).
  { apply spill_least; [exact W|lia|]. rewrite Z.add_0_r. exact D. }
  destruct (C56_parallel V x w val mem c l OK W L) as [K _].
  assert (RS : row_safe x (spill w (b_n x 0))) by (unfold row_safe; destruct (OK 0%nat ltac:(lia)) as [? [? [? ?]]]; lia).
  apply K; auto. intros _. now apply row_slice.
Qed.
(** Otherwise the loop over all points stores past the end of the arrays. *)
Theorem C56_all_points_out_of_bounds_refuted : forall (V : Type) NG nx ngf w (val : Z -> Z -> Z -> Z -> V),
  let x := grid_box "all points" NG nx ngf in
  0 <= NG -> (forall k, (k < 3)%nat -> 1 <= nx k) -> (0 < w)%nat -> (0 < ngf)%nat -> (nx 0%nat + 2 * NG) mod Z.of_nat w <> 0 ->
  exists a v, In (a, v) (flat_map (body_events V x w val) (points x w)) /\
    Z.of_nat ngf * (nx 0%nat + 2 * NG) * (nx 1%nat + 2 * NG) * (nx 2%nat + 2 * NG) <= a.
Proof.
  intros V NG nx ngf w val x HN NX W NG0 D.
  pose proof (NX 0%nat ltac:(lia)). pose proof (NX 1%nat ltac:(lia)). pose proof (NX 2%nat ltac:(lia)).
  set (N0 := nx 0%nat + 2 * NG) in *. set (N1 := nx 1%nat + 2 * NG). set (N2 := nx 2%nat + 2 * NG).
  set (r := N0 mod Z.of_nat w) in *. assert (R : 0 < r < Z.of_nat w).
  { pose proof (Z.mod_pos_bound N0 (Z.of_nat w) ltac:(lia)). unfold r in *. lia. }
  assert (RL : r <= N0) by (apply Z.mod_le; lia).
  exists (idx4 x (Z.of_nat ngf - 1) (N0 - r + r) (N1 - 1) (N2 - 1)), (val (Z.of_nat ngf - 1) (N0 - r + r) (N1 - 1) (N2 - 1)).
  split.
  - apply in_flat_map. exists (N2 - 1, N1 - 1, N0 - r). split.
    + apply in_points; [exact W|]. unfold inr, vec, x. cbn -[Z.mul Z.add Z.sub spill]. fold N0 N1 N2.
      assert (M : (N0 - r - 0) mod Z.of_nat w = 0).
      { rewrite Z.sub_0_r. unfold r. rewrite (Z.div_mod N0 (Z.of_nat w)) at 1 by lia.
        replace (Z.of_nat w * (N0 / Z.of_nat w) + N0 mod Z.of_nat w - N0 mod Z.of_nat w) with ((N0 / Z.of_nat w) * Z.of_nat w) by lia.
        apply Z_mod_mult. }
      repeat split; try lia; exact M.
    + apply in_events. exists (Z.of_nat ngf - 1), r. repeat split; cbn -[Z.mul Z.add Z.sub spill]; lia.
  - unfold idx4, x. cbn [grid_box b_N]. fold N0 N1 N2. nia.
Qed.
(** ... and one gridfunction's last vector overwrites the next one's first cell: serial result wrong. *)
Theorem C56_all_points_overwrite_refuted : exists nx w, 
  let x := grid_box "all points" 1 nx 2 in
  let val := fun g i0 i1 i2 : Z => (g, i0, i1, i2) in
  (forall k, 1 <= nx k) /\
  run _ (fun _ => (9, 9, 9, 9)) (flat_map (body_events _ x w val) (points x w)) (idx4 x 1 0 0 0) = (0, 3, 2, 2).
Proof. exists (fun _ => 1), 2%nat. split; [intros; lia|]. vm_compute. reflexivity. Qed.

(** collapse(2): if the spill is more than the two ghost zones between the rows, there is a schedule of the tasks after
    which an interior cell holds the value of a point that does not exist. *)
Lemma interleave_move : forall (A : Type) (a b : list (list A)) t, interleave (a ++ t :: b) (concat a ++ concat b ++ t).
Proof.
  intros A a b t. induction a as [|u a IH]; cbn [app concat].
  - assert (G : forall ts l, interleave ts l -> interleave (t :: ts) (l ++ t)).
    { clear. intros ts l H. induction H as [ts F|p y q r l H IH].
      - cbn [app]. rewrite <- (app_nil_r t) at 2. apply interleave_app. now constructor.
      - cbn [app]. apply (il_step (t :: p) y q r). exact IH. }
    apply G. apply interleave_concat.
  - rewrite <- app_assoc. apply interleave_app. exact IH.
Qed.
Theorem C56_collapse_race_refuted : forall (V : Type) NG nx ngf w (val : Z -> Z -> Z -> Z -> V) mem,
  let x := grid_box "interior" NG nx ngf in
  1 <= NG -> (forall k, (k < 3)%nat -> 1 <= nx k) -> 2 <= nx 1%nat -> (0 < w)%nat -> (0 < ngf)%nat ->
  2 * NG < spill w (nx 0%nat) ->
  exists l, interleave (tasks V x w val 2) l /\
    run V mem l (idx4 x 0 NG (NG + 1) NG) = val 0 (NG + (nx 0%nat + 2 * NG)) NG NG.
Proof.
  intros V NG nx ngf w val mem x HN NX NX1 W GP SP.
  assert (OK : box_ok x) by (apply grid_ok; [right; left; reflexivity|lia|auto|discriminate]).
  pose proof (NX 0%nat ltac:(lia)). pose proof (NX 2%nat ltac:(lia)).
  set (f := fun p : Z * Z => flat_map (body_events V x w val) (list_prod [p] (range0 x w))).
  assert (I : In (NG, NG) (list_prod (range1 x 2) (range1 x 1))).
  { apply in_prod_iff. split; apply in_range1; unfold inr, x; cbn -[Z.mul Z.add Z.sub spill]; lia. }
  destruct (in_split _ _ I) as [A [B E]].
  exists (concat (map f A) ++ concat (map f B) ++ f (NG, NG)). split.
  - cbn [tasks]. fold f. rewrite E, map_app. cbn [map]. apply interleave_move.
  - rewrite app_assoc, run_app.
    set (N0 := nx 0%nat + 2 * NG) in *.
    (* the vector that reaches the next row *)
    destruct (cover (MkBox (b_lo x) (fun k => b_n x k + spill w (nx 0%nat)) (b_N x) ngf) w (NG + N0) W) as [k0 [q [V1 [V2 V3]]]].
    { cbn -[Z.mul Z.add Z.sub spill]. unfold N0. lia. }
    assert (VK : vec x w k0).
    { destruct V1 as [V1 VM]. cbn -[Z.mul Z.add Z.sub spill] in V1, VM. split; [|exact VM]. cbn -[Z.mul Z.add Z.sub spill]. split; [lia|].
      destruct (Z_lt_ge_dec k0 (NG + nx 0%nat)) as [|Q]; [assumption|exfalso].
      pose proof (spill_least w (nx 0%nat) (k0 - NG - nx 0%nat) W ltac:(lia)) as SL.
      replace (nx 0%nat + (k0 - NG - nx 0%nat)) with (k0 - NG) in SL by lia. specialize (SL VM). lia. }
    assert (AD : idx4 x 0 NG (NG + 1) NG = idx4 x 0 (k0 + q) NG NG).
    { rewrite <- V3. unfold idx4, x. cbn [grid_box b_N]. fold N0. ring. }
    rewrite AD, V3. apply run_hit.
    + exists (idx4 x 0 (k0 + q) NG NG, val 0 (k0 + q) NG NG). split; [|reflexivity]. unfold f. apply in_flat_map.
      exists (NG, NG, k0). split; [apply in_prod_iff; split; [now left|now apply in_range0]|].
      apply in_events. exists 0, q. repeat split; auto; cbn -[Z.mul Z.add Z.sub spill]; lia.
    + intros [a v] IE K. cbn -[Z.mul Z.add Z.sub spill] in K |- *. subst a. unfold f in IE. apply in_flat_map in IE as [[[j2 j1] j0] [P IE]].
      apply in_prod_iff in P as [[P|[]] P0]. apply pair_equal_spec in P as [<- <-]. apply in_range0 in P0; [|exact W].
      apply in_events in IE as [g' [q' [G' [Q' [EQ ->]]]]].
      pose proof (lane_range x w j0 q' W P0 Q') as LR. rewrite <- V3 in EQ. unfold idx4, x in EQ. cbn [grid_box b_N] in EQ.
      fold N0 in EQ. cbn -[Z.mul Z.add Z.sub spill] in LR. set (N1 := nx 1%nat + 2 * NG) in *. set (N2 := nx 2%nat + 2 * NG) in *.
      assert (g' = 0).
      { assert (E2 : N0 * (N1 * (N2 * g')) = NG + N0 - (j0 + q')) by lia.
        destruct (Z_le_gt_dec g' 0); [lia|]. exfalso.
        assert (N2 * g' >= 1) by nia. assert (N1 * (N2 * g') >= 2) by nia. nia. }
      subst g'. assert (j0 + q' = k0 + q) by lia. congruence.
Qed.

(** ** Bounds *)
(** Interior, reads and writes at a fixed offset o from the point: all lanes of all vectors stay inside the arrays exactly
    when spill + o0 <= NG + N0 ((NG - o1) + N1 (NG - o2)). *)
Theorem C56_in_bounds : forall NG nx ngf w o0 o1 o2,
  let x := grid_box "interior" NG nx ngf in
  let N k := nx k + 2 * NG in
  1 <= NG -> (forall k, (k < 3)%nat -> 1 <= nx k) -> (0 < w)%nat -> (0 < ngf)%nat ->
  - NG <= o0 -> - NG <= o1 <= NG -> - NG <= o2 <= NG ->
  ((forall g i2 i1 i0 l, 0 <= g < Z.of_nat ngf -> In (i2, i1, i0) (points x w) -> 0 <= l < Z.of_nat w ->
      0 <= idx4 x g (i0 + l + o0) (i1 + o1) (i2 + o2) < Z.of_nat ngf * (N 0%nat * N 1%nat * N 2%nat))
   <-> spill w (nx 0%nat) + o0 <= NG + N 0%nat * ((NG - o1) + N 1%nat * (NG - o2))).
Proof.
  intros NG nx ngf w o0 o1 o2 x N HN NX W GP O0 O1 O2.
  assert (OK : box_ok x) by (apply grid_ok; [right; left; reflexivity|lia|auto|discriminate]).
  pose proof (NX 0%nat ltac:(lia)). pose proof (NX 1%nat ltac:(lia)). pose proof (NX 2%nat ltac:(lia)).
  assert (HN0 : N 0%nat = nx 0%nat + 2 * NG) by reflexivity. assert (HN1 : N 1%nat = nx 1%nat + 2 * NG) by reflexivity.
  assert (HN2 : N 2%nat = nx 2%nat + 2 * NG) by reflexivity.
  pose proof (spill_range w (nx 0%nat) W) as SR.
  assert (IX : forall g i0 i1 i2, idx4 x g i0 i1 i2 = i0 + N 0%nat * (i1 + N 1%nat * (i2 + N 2%nat * g))) by reflexivity.
  set (n0 := N 0%nat) in *. set (n1 := N 1%nat) in *. set (n2 := N 2%nat) in *. clearbody n0 n1 n2.
  split.
  - intros HB.
    destruct (cover (MkBox (b_lo x) (fun k => b_n x k + spill w (nx 0%nat)) (b_N x) ngf) w (NG + nx 0%nat + spill w (nx 0%nat) - 1) W)
      as [k0 [q [V1 [V2 V3]]]].
    { cbn -[Z.mul Z.add Z.sub spill]. lia. }
    assert (VK : vec x w k0).
    { destruct V1 as [V1 VM]. cbn -[Z.mul Z.add Z.sub spill] in V1, VM. split; [|exact VM]. cbn -[Z.mul Z.add Z.sub spill]. split; [lia|].
      destruct (Z_lt_ge_dec k0 (NG + nx 0%nat)) as [|Q]; [assumption|exfalso].
      pose proof (spill_least w (nx 0%nat) (k0 - NG - nx 0%nat) W ltac:(lia)) as SL.
      replace (nx 0%nat + (k0 - NG - nx 0%nat)) with (k0 - NG) in SL by lia. specialize (SL VM). lia. }
    specialize (HB (Z.of_nat ngf - 1) (NG + nx 2%nat - 1) (NG + nx 1%nat - 1) k0 q ltac:(lia)).
    rewrite in_points in HB by exact W. rewrite <- V3 in HB. rewrite IX in HB.
    specialize (HB ltac:(repeat split; try apply VK; cbn -[Z.mul Z.add Z.sub spill]; lia) V2). destruct HB as [_ HB].
    assert (E1 : NG + nx 1%nat - 1 + o1 = n1 - 1 - (NG - o1)) by lia.
    assert (E2 : NG + nx 2%nat - 1 + o2 = n2 - 1 - (NG - o2)) by lia.
    assert (E0 : NG + nx 0%nat + spill w (nx 0%nat) - 1 + o0 = n0 - 1 - NG + (spill w (nx 0%nat) + o0)) by lia.
    rewrite E0, E1, E2 in HB. set (d1 := NG - o1) in *. set (d2 := NG - o2) in *. set (gg := Z.of_nat ngf) in *.
    assert (E3 : n1 * (n2 - 1 - d2 + n2 * (gg - 1)) = n1 * n2 * gg - n1 - n1 * d2) by ring. rewrite E3 in HB.
    assert (E4 : n0 * (n1 - 1 - d1 + (n1 * n2 * gg - n1 - n1 * d2)) = n0 * (n1 * n2 * gg) - n0 - n0 * (d1 + n1 * d2)) by ring.
    rewrite E4 in HB. lia.
  - intros C g i2 i1 i0 l G P L. apply in_points in P as [P2 [P1 P0]]; [|exact W].
    pose proof (lane_range x w i0 l W P0 L) as LR. unfold inr in P1, P2. cbn -[Z.mul Z.add Z.sub spill] in P1, P2, LR. rewrite IX. split.
    + assert (0 <= i2 + o2 + n2 * g) by nia. assert (0 <= i1 + o1) by lia.
      assert (0 <= n1 * (i2 + o2 + n2 * g)) by nia. assert (0 <= n0 * (i1 + o1 + n1 * (i2 + o2 + n2 * g))) by nia. lia.
    + set (d1 := NG - o1) in *. set (d2 := NG - o2) in *. set (gg := Z.of_nat ngf) in *.
      assert (A2 : i2 + o2 + n2 * g <= n2 * gg - 1 - d2) by nia.
      assert (A1 : i1 + o1 <= n1 - 1 - d1) by lia.
      assert (B1 : n1 * (i2 + o2 + n2 * g) <= n1 * (n2 * gg - 1 - d2)) by (apply Z.mul_le_mono_nonneg_l; lia).
      assert (B2 : n0 * (i1 + o1 + n1 * (i2 + o2 + n2 * g)) <= n0 * (n1 - 1 - d1 + n1 * (n2 * gg - 1 - d2))) by (apply Z.mul_le_mono_nonneg_l; lia).
      assert (E4 : n0 * (n1 - 1 - d1 + n1 * (n2 * gg - 1 - d2)) = n0 * (n1 * n2 * gg) - n0 - n0 * (d1 + n1 * d2)) by ring.
      rewrite E4 in B2. lia.
Qed.
(** So every write, and every read at an offset that is not along both x1 and x2, is in bounds (vectors of at most 8 numbers, at
    least 5 points) ... *)
Theorem C56_stencil_reads : forall NG nx ngf w o0 o1 o2,
  let x := grid_box "interior" NG nx ngf in
  1 <= NG -> (forall k, (k < 3)%nat -> 1 <= nx k) -> 5 <= nx 0%nat -> (0 < w <= 8)%nat -> (0 < ngf)%nat ->
  - NG <= o0 <= NG -> - NG <= o1 <= NG -> - NG <= o2 <= NG -> (o1 = 0 \/ o2 = 0) ->
  forall g i2 i1 i0 l, 0 <= g < Z.of_nat ngf -> In (i2, i1, i0) (points x w) -> 0 <= l < Z.of_nat w ->
    0 <= idx4 x g (i0 + l + o0) (i1 + o1) (i2 + o2)
      < Z.of_nat ngf * ((nx 0%nat + 2 * NG) * (nx 1%nat + 2 * NG) * (nx 2%nat + 2 * NG)).
Proof.
  intros NG nx ngf w o0 o1 o2 x HN NX N5 W GP O0 O1 O2 O. apply (proj2 (C56_in_bounds NG nx ngf w o0 o1 o2 HN NX ltac:(lia) GP ltac:(lia) O1 O2)).
  pose proof (NX 1%nat ltac:(lia)). pose proof (spill_range w (nx 0%nat) ltac:(lia)) as SR. cbv beta.
  assert (K : (nx 0%nat + 2 * NG) * NG <= (nx 0%nat + 2 * NG) * (NG - o1 + (nx 1%nat + 2 * NG) * (NG - o2))).
  { apply Z.mul_le_mono_nonneg_l; [lia|]. destruct O as [-> | ->]; [nia|]. nia. }
  nia.
Qed.
(** ... but a mixed derivative along x1 and x2 reads past the end of the last gridfunction as soon as the spill is more than
    NGHOSTS. *)
Theorem C56_mixed_read_out_of_bounds_refuted : forall NG nx ngf w,
  let x := grid_box "interior" NG nx ngf in
  1 <= NG -> (forall k, (k < 3)%nat -> 1 <= nx k) -> (0 < w)%nat -> (0 < ngf)%nat -> NG < spill w (nx 0%nat) ->
  ~ (forall g i2 i1 i0 l, 0 <= g < Z.of_nat ngf -> In (i2, i1, i0) (points x w) -> 0 <= l < Z.of_nat w ->
       0 <= idx4 x g (i0 + l + 0) (i1 + NG) (i2 + NG)
         < Z.of_nat ngf * ((nx 0%nat + 2 * NG) * (nx 1%nat + 2 * NG) * (nx 2%nat + 2 * NG))).
Proof.
  intros NG nx ngf w x HN NX W GP SP H.
  apply (proj1 (C56_in_bounds NG nx ngf w 0 NG NG HN NX W GP ltac:(lia) ltac:(lia) ltac:(lia))) in H. cbv beta in H. nia.
Qed.
(** One-dimensional arrays along x0 (the precomputed f(xx0)) are read in bounds exactly when the spill is at most NGHOSTS. *)
Theorem C56_row_reads : forall NG nx ngf w,
  let x := grid_box "interior" NG nx ngf in
  0 <= NG -> (forall k, (k < 3)%nat -> 1 <= nx k) -> (0 < w)%nat ->
  ((forall i2 i1 i0 l, In (i2, i1, i0) (points x w) -> 0 <= l < Z.of_nat w -> 0 <= i0 + l < nx 0%nat + 2 * NG)
   <-> spill w (nx 0%nat) <= NG).
Proof.
  intros NG nx ngf w x HN NX W. pose proof (NX 0%nat ltac:(lia)). pose proof (NX 1%nat ltac:(lia)). pose proof (NX 2%nat ltac:(lia)).
  pose proof (spill_range w (nx 0%nat) W) as SR. split.
  - intros H2.
    destruct (cover (MkBox (b_lo x) (fun k => b_n x k + spill w (nx 0%nat)) (b_N x) ngf) w (NG + nx 0%nat + spill w (nx 0%nat) - 1) W)
      as [k0 [q [V1 [V2 V3]]]]; [cbn -[Z.mul Z.add Z.sub spill]; lia|].
    assert (VK : vec x w k0).
    { destruct V1 as [V1 VM]. cbn -[Z.mul Z.add Z.sub spill] in V1, VM. split; [|exact VM]. cbn -[Z.mul Z.add Z.sub spill]. split; [lia|].
      destruct (Z_lt_ge_dec k0 (NG + nx 0%nat)) as [|Q]; [assumption|exfalso].
      pose proof (spill_least w (nx 0%nat) (k0 - NG - nx 0%nat) W ltac:(lia)) as SL.
      replace (nx 0%nat + (k0 - NG - nx 0%nat)) with (k0 - NG) in SL by lia. specialize (SL VM). lia. }
    specialize (H2 NG NG k0 q). rewrite in_points in H2 by exact W. specialize (H2 ltac:(repeat split; try apply VK; cbn -[Z.mul Z.add Z.sub spill]; lia) V2). lia.
  - intros S i2 i1 i0 l P L. apply in_points in P as [_ [_ P0]]; [|exact W]. pose proof (lane_range x w i0 l W P0 L) as LR. cbn -[Z.mul Z.add Z.sub spill] in LR. lia.
Qed.

(** ** The vectorised MoL update *)
Lemma mol_vectors_iter : forall fuel w total i, mol_vectors fuel w total i = for_iter fuel i total w.
Proof. induction fuel as [|n IH]; intros; [reflexivity|]. cbn. now rewrite IH. Qed.
(** Every number of the arrays is updated exactly once; nothing else is touched exactly when the total is a multiple of the
    vector width. *)
Theorem C56_mol : forall w total, (0 < w)%nat -> 0 <= total ->
  (forall i, 0 <= i < total -> In i (mol_cells w total)) /\ NoDup (mol_cells w total) /\
  ((forall i, In i (mol_cells w total) -> 0 <= i < total) <-> total mod Z.of_nat w = 0).
Proof.
  intros w total W T.
  assert (V : forall i, In i (mol_vectors (Z.to_nat total) (Z.of_nat w) total 0) <-> 0 <= i < total /\ i mod Z.of_nat w = 0).
  { intros i. rewrite mol_vectors_iter. pose proof (in_for_values 0 total (Z.of_nat w) i ltac:(lia)) as K.
    unfold for_values in K. rewrite Z.sub_0_r in K. rewrite K, Z.sub_0_r. reflexivity. }
  assert (C : forall i, In i (mol_cells w total) <-> exists v l, 0 <= v < total /\ v mod Z.of_nat w = 0 /\ 0 <= l < Z.of_nat w /\ i = v + l).
  { intros i. unfold mol_cells. rewrite in_flat_map. split.
    - intros [v [A B]]. apply V in A as [A1 A2]. apply in_map_iff in B as [l [<- L]]. apply in_zrange in L. exists v, l. auto.
    - intros [v [l [A [B [L ->]]]]]. exists v. split; [apply V; auto|]. apply in_map_iff. exists l. split; [reflexivity|now apply in_zrange]. }
  split; [|split].
  - intros i I. apply C. pose proof (Z.mod_pos_bound i (Z.of_nat w) ltac:(lia)). pose proof (Z.mod_le i (Z.of_nat w) ltac:(lia) ltac:(lia)).
    exists (i - i mod Z.of_nat w), (i mod Z.of_nat w). repeat split; try lia.
    rewrite (Z.div_mod i (Z.of_nat w)) at 1 by lia.
    replace (Z.of_nat w * (i / Z.of_nat w) + i mod Z.of_nat w - i mod Z.of_nat w) with ((i / Z.of_nat w) * Z.of_nat w) by lia. apply Z_mod_mult.
  - assert (ST : StronglySorted Z.lt (mol_vectors (Z.to_nat total) (Z.of_nat w) total 0)).
    { rewrite mol_vectors_iter. pose proof (for_values_sorted 0 total (Z.of_nat w) ltac:(lia)) as K.
      unfold for_values in K. rewrite Z.sub_0_r in K. exact K. }
    assert (SS : StronglySorted Z.lt (mol_cells w total)).
    { unfold mol_cells. assert (M : forall v, In v (mol_vectors (Z.to_nat total) (Z.of_nat w) total 0) -> v mod Z.of_nat w = 0) by (intros v I; now apply V in I).
      clear C V. revert M. generalize dependent (mol_vectors (Z.to_nat total) (Z.of_nat w) total 0). intros vs ST.
      induction ST as [|v l ST IH F]; intros M; [constructor|]. cbn [flat_map]. apply ssorted_app.
      - unfold zrange. rewrite map_map. assert (SQ : StronglySorted lt (seq 0 w)).
        { clear. generalize 0%nat. induction w as [|w IH]; intros k; cbn [seq]; constructor; auto.
          rewrite Forall_forall. intros y I. apply in_seq in I. lia. }
        induction SQ as [|y q SQ IHq FQ]; cbn [map]; constructor; auto. rewrite Forall_map. eapply Forall_impl; [|exact FQ]. cbn. lia.
      - apply IH. intros u I. apply M. now right.
      - intros y z Y Z0. apply in_map_iff in Y as [l1 [<- L1]]. apply in_zrange in L1. apply in_flat_map in Z0 as [u [U Z0]].
        apply in_map_iff in Z0 as [l2 [<- L2]]. apply in_zrange in L2. rewrite Forall_forall in F. pose proof (F u U) as LT.
        pose proof (M v ltac:(now left)) as M1. pose proof (M u ltac:(now right)) as M2.
        apply Z.mod_divide in M1; [|lia]. apply Z.mod_divide in M2; [|lia]. destruct M1 as [p P], M2 as [r R].
        assert (p < r) by nia. nia. }
    apply (ssorted_nodup _ Z.lt); [intros; lia|exact SS].
  - split.
    + intros H. destruct (Z.eq_dec total 0) as [->|NZ]; [apply Z.mod_0_l; lia|].
      set (r := total mod Z.of_nat w). pose proof (Z.mod_pos_bound total (Z.of_nat w) ltac:(lia)) as B. fold r in B.
      destruct (Z.eq_dec r 0) as [|R]; [assumption|exfalso]. pose proof (Z.mod_le total (Z.of_nat w) ltac:(lia) ltac:(lia)) as B2. fold r in B2.
      assert (K : In (total - r + r) (mol_cells w total)).
      { apply C. exists (total - r), r. repeat split; try lia. unfold r. rewrite (Z.div_mod total (Z.of_nat w)) at 1 by lia.
        replace (Z.of_nat w * (total / Z.of_nat w) + total mod Z.of_nat w - total mod Z.of_nat w) with ((total / Z.of_nat w) * Z.of_nat w) by lia. apply Z_mod_mult. }
      apply H in K. lia.
    + intros M i I. apply C in I as [v [l [A [B [L ->]]]]]. apply Z.mod_divide in M; [|lia]. apply Z.mod_divide in B; [|lia].
      destruct M as [p P], B as [q Q]. assert (q < p) by nia. nia.
Qed.
(** The text of the vectorised loop opens two blocks and closes one. *)
Theorem C56_mol_braces_refuted : forall stmts,
  braces (mol_loop_text true stmts) = (["{"; "{"]%char ++ braces stmts ++ ["}"%char])%list /\
  braces (mol_loop_text false stmts) = (["{"%char] ++ braces stmts ++ ["}"%char])%list.
Proof. intros stmts. unfold mol_loop_text. rewrite !braces_app. split; reflexivity. Qed.

(** CarpetX: SIMD is rejected, three indices 0 or 1 are required, and only the two regions are known. *)
Theorem C56_carpetx : forall body simd region centering device,
  let r := simple_loop_carpetx body simd region centering device in
  (simd = false -> (region = "all points"%string \/ region = "interior"%string) ->
   (forall l, centering = Some l -> length l = 3%nat /\ forall c, In c l -> c = 0 \/ c = 1) ->
   exists pre post, r = Ok (pre ++ body ++ post)%string) /\
  (simd = true \/ ~ In region ["all points"; "interior"]%string \/
   (exists l, centering = Some l /\ (length l <> 3%nat \/ exists c, In c l /\ c <> 0 /\ c <> 1)) -> r = Err ValueError).
Proof.
  intros body simd region centering device. unfold simple_loop_carpetx. split.
  - intros -> R C.
    assert (CL : exists l, match centering with None => Ok [0; 0; 0] | Some l => if Nat.eqb (length l) 3 then Ok l else Err ValueError end = Ok l
       /\ forallb (fun c => (c =? 0) || (c =? 1)) l = true).
    { destruct centering as [l|]; [|exists [0; 0; 0]; split; reflexivity]. destruct (C l eq_refl) as [L F]. exists l. rewrite L. split; [reflexivity|].
      apply forallb_forall. intros c I. destruct (F c I) as [-> | ->]; reflexivity. }
    destruct CL as [l [-> FL]]. rewrite FL.
    assert (RW : exists which, (if String.eqb region "all points" then Ok "all"%string else if String.eqb region "interior" then Ok "int"%string else Err ValueError) = Ok which).
    { destruct R as [-> | ->]; eexists; reflexivity. }
    destruct RW as [which ->].
    set (m := ("grid.loop_" ++ which ++ _)%string). set (d := (if device then "DEVICE" else "HOST")%string).
    exists (m ++ "grid.nghostzones," ++ nl ++ "[=] CCTK_" ++ d ++ "(const Loop::PointDesc &p) CCTK_ATTRIBUTE_ALWAYS_INLINE {" ++ nl)%string.
    exists (nl ++ "}); // END LOOP: " ++ m ++ nl)%string. rewrite !sapp_assoc. reflexivity.
  - intros H. destruct centering as [l|].
    + destruct (Nat.eqb_spec (length l) 3) as [L|L]; [|reflexivity].
      destruct (String.eqb_spec region "all points") as [R1|R1]; [|destruct (String.eqb_spec region "interior") as [R2|R2]; [|reflexivity]];
      (destruct simd; [reflexivity|]; destruct (forallb _ l) eqn:FB; [|reflexivity]; exfalso;
       rewrite forallb_forall in FB; destruct H as [H|[H|[l' [E [H|[c [I [H1 H2]]]]]]]];
       [discriminate|apply H; subst; cbn; auto|injection E as <-; contradiction|injection E as <-; apply FB in I; apply orb_true_iff in I as [I|I];
        apply Z.eqb_eq in I; contradiction]).
    + destruct (String.eqb_spec region "all points") as [R1|R1]; [|destruct (String.eqb_spec region "interior") as [R2|R2]; [|reflexivity]];
      (destruct simd; [reflexivity|]; exfalso; destruct H as [H|[H|[l' [E _]]]];
       [discriminate|apply H; subst; cbn; auto|discriminate]).
Qed.

(** ** Examples *)
Open Scope string_scope.
Example C56_ex_text :
  simple_loop_bhah "// b" true "interior" false None true "" 2 = Ok (LText
    ("#pragma omp parallel for collapse(2)" ++ nl ++ "for (int i2 = NGHOSTS; i2 < NGHOSTS+Nxx2; i2++) {" ++ nl ++
     "for (int i1 = NGHOSTS; i1 < NGHOSTS+Nxx1; i1++) {" ++ nl ++ "for (int i0 = NGHOSTS; i0 < NGHOSTS+Nxx0; i0 += simd_width) {" ++ nl ++
     "// b" ++ nl ++ "} // END LOOP: for (int i0 = NGHOSTS; i0 < NGHOSTS+Nxx0; i0 += simd_width)" ++ nl ++
     "} // END LOOP: for (int i1 = NGHOSTS; i1 < NGHOSTS+Nxx1; i1++)" ++ nl ++
     "} // END LOOP: for (int i2 = NGHOSTS; i2 < NGHOSTS+Nxx2; i2++)" ++ nl)).
Proof. vm_compute. reflexivity. Qed.
Example C56_ex_reads :
  simple_loop_bhah "// b" false "all points" true None false "" 1 = Ok (LText
    ("for (int i2 = 0; i2 < Nxx_plus_2NGHOSTS2; i2++) {" ++ nl ++ "MAYBE_UNUSED const REAL xx2 = xx[2][i2];" ++ nl ++
     "for (int i1 = 0; i1 < Nxx_plus_2NGHOSTS1; i1++) {" ++ nl ++ "MAYBE_UNUSED const REAL xx1 = xx[1][i1];" ++ nl ++
     "for (int i0 = 0; i0 < Nxx_plus_2NGHOSTS0; i0++) {" ++ nl ++ "MAYBE_UNUSED const REAL xx0 = xx[0][i0];// b" ++ nl ++
     "} // END LOOP: for (int i0 = 0; i0 < Nxx_plus_2NGHOSTS0; i0++)" ++ nl ++
     "} // END LOOP: for (int i1 = 0; i1 < Nxx_plus_2NGHOSTS1; i1++)" ++ nl ++
     "} // END LOOP: for (int i2 = 0; i2 < Nxx_plus_2NGHOSTS2; i2++)" ++ nl)).
Proof. vm_compute. reflexivity. Qed.
Open Scope Z_scope.
(** 5 interior points, width 4, one ghost zone: spill 3, two rows; the serial loop is right on the interior, the cell after a
    row (ghost zone) and the first ghost cell of the next row are overwritten. *)
Definition ex_nx (k : nat) : Z := match k with O => 5 | S O => 2 | _ => 1 end.
Example C56_ex_run :
  let x := grid_box "interior" 1 ex_nx 2 in
  let val := fun g i0 i1 i2 : Z => 1000 * g + 100 * i2 + 10 * i1 + i0 in
  spill 4 5 = 3 /\ box_ok x /\
  map (fun i0 => run Z (fun _ => -1) (flat_map (body_events Z x 4 val) (points x 4)) (idx4 x 1 i0 1 1)) [0; 1; 2; 3; 4; 5; 6]
    = [-1; 1111; 1112; 1113; 1114; 1115; 1116] /\
  map (fun i0 => run Z (fun _ => -1) (flat_map (body_events Z x 4 val) (points x 4)) (idx4 x 1 i0 2 1)) [0; 1; 2; 3; 4; 5; 6]
    = [1117; 1121; 1122; 1123; 1124; 1125; 1126].
Proof.
  cbv zeta. split; [reflexivity|]. split; [apply grid_ok; [right; left; reflexivity|lia| |discriminate]|split; vm_compute; reflexivity].
  intros [|[|[|k]]] _; cbn; lia.
Qed.
(** The hypotheses of the race: width 8, one ghost zone, 3 points. *)
Example C56_ex_race : 2 * 1 < spill 8 3 /\ ~ 2 * 1 < spill 4 2.
Proof. vm_compute. split; [reflexivity|discriminate]. Qed.
Example C56_ex_mol : mol_cells 4 6 = [0; 1; 2; 3; 4; 5; 6; 7] /\ mol_cells 2 6 = [0; 1; 2; 3; 4; 5].
Proof. split; reflexivity. Qed.
Example C56_ex_carpetx : simple_loop_carpetx "b;" false "interior" (Some [0; 1; 0]) true = Ok
  ("grid.loop_int_device<0, 1, 0>(" ++ nl ++ "grid.nghostzones," ++ nl ++
   "[=] CCTK_DEVICE(const Loop::PointDesc &p) CCTK_ATTRIBUTE_ALWAYS_INLINE {" ++ nl ++ "b;" ++ nl ++
   "}); // END LOOP: grid.loop_int_device<0, 1, 0>(" ++ nl ++ nl)%string.
Proof. vm_compute. reflexivity. Qed.
Example C56_ex_meaning : exists m, strings_mean m 3 ex_nx 4.
Proof.
  exists (fun s => match find (fun p => String.eqb (fst p) s)
    [("0", 0); ("1", 1); ("simd_width", 4); ("NGHOSTS", 3); ("Nxx_plus_2NGHOSTS0", 11); ("Nxx_plus_2NGHOSTS1", 8); ("Nxx_plus_2NGHOSTS2", 7);
     ("NGHOSTS+Nxx0", 8); ("NGHOSTS+Nxx1", 5); ("NGHOSTS+Nxx2", 4); ("NGHOSTS+Nxx0+1", 9); ("NGHOSTS+Nxx1+1", 6); ("NGHOSTS+Nxx2+1", 5)]%string with
    Some p => snd p | None => 0 end).
  repeat split; intros; destruct k as [|[|[|k]]]; try lia; reflexivity.
Qed.

Print Assumptions C56_accepts. Print Assumptions C56_text. Print Assumptions C56_text_ETLegacy. Print Assumptions C56_visits.
Print Assumptions C56_points. Print Assumptions C56_spill. Print Assumptions C56_serial. Print Assumptions C56_parallel.
Print Assumptions C56_tasks. Print Assumptions C56_interior. Print Assumptions C56_all_points.
Print Assumptions C56_all_points_out_of_bounds_refuted. Print Assumptions C56_all_points_overwrite_refuted.
Print Assumptions C56_collapse_race_refuted. Print Assumptions C56_in_bounds. Print Assumptions C56_stencil_reads.
Print Assumptions C56_mixed_read_out_of_bounds_refuted. Print Assumptions C56_row_reads. Print Assumptions C56_mol.
Print Assumptions C56_mol_braces_refuted. Print Assumptions C56_carpetx.
