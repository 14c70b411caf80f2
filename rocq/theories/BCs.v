(** Curvilinear boundary conditions of the BHaH infrastructure: which points are inner and which are
    pure outer boundary points, in which batches the outer ones are filled, and the two fill loops.
    The C text is modelled.  Grid indices are unbounded integers (the C code keeps those of outer
    points in a short); REAL is an exact rational.  The map from a point to its in-bounds image
    (EigenCoord_set_x0x1x2_inbounds__i0i1i2_inbounds_single_pt, which goes through the coordinate
    system's formulas) is a parameter [inb]; so is the parity table.  Definitions only. *)
From Coq Require Import List ZArith Bool QArith Qcanon.
From Verif Require Import QcLib.
Import ListNotations.
Set Implicit Arguments.
Open Scope Z_scope.

Notation point := (Z * Z * Z)%type.
Definition x0 (p : point) : Z := fst (fst p).
Definition x1 (p : point) : Z := snd (fst p).
Definition x2 (p : point) : Z := snd p.

Definition point_eqb (p q : point) : bool := (x0 p =? x0 q) && (x1 p =? x1 q) && (x2 p =? x2 q).

(** Nxx_plus_2NGHOSTS0/1/2 and NGHOSTS. *)
Record gsize := MkG { gN0 : Z; gN1 : Z; gN2 : Z; gNG : Z }.

(** [for (int i = lo; i < hi; i++)] *)
Definition zrange (lo hi : Z) : list Z := map (fun n => lo + Z.of_nat n) (seq 0 (Z.to_nat (hi - lo))).

(** nrpy/infrastructures/BHaH/BHaH_defines_h.py l.360-361: LOOP_NOOMP visits i2, then i1, then i0. *)
Definition loop_points (l0 h0 l1 h1 l2 h2 : Z) : list point :=
  flat_map (fun i2 => flat_map (fun i1 => map (fun i0 => (i0, i1, i2)) (zrange l0 h0))
                               (zrange l1 h1)) (zrange l2 h2).

(** BHaH_defines_h.py l.363-366: IS_IN_GRID_INTERIOR. *)
Definition is_interior (g : gsize) (p : point) : bool :=
  (gNG g <=? x0 p) && (x0 p <? gN0 g - gNG g) &&
  (gNG g <=? x1 p) && (x1 p <? gN1 g - gNG g) &&
  (gNG g <=? x2 p) && (x2 p <? gN2 g - gNG g).

(** BHaH_defines.h: IDX3 and IDX4pt. *)
Definition IDX3 (g : gsize) (p : point) : Z := x0 p + gN0 g * (x1 p + gN1 g * x2 p).
Definition IDX4pt (g : gsize) (gf idx : Z) : Z := idx + gN0 g * gN1 g * gN2 g * gf.

(** ** bcstruct_set_up, step 1: inner boundary points *)

Record inner_pt := MkInner { in_dst : Z; in_src : Z; in_parity : nat -> Z }.

(** nrpy/infrastructures/BHaH/CurviBoundaryConditions/CurviBoundaryConditions.py l.547-564: the number
    of inner points, and l.573-592: inner_bc_array.  Both loops test the same condition. *)
Definition inner_points (g : gsize) (inb : point -> point) : list point :=
  filter (fun p => negb (is_interior g p) && negb (point_eqb p (inb p)))
         (loop_points 0 (gN0 g) 0 (gN1 g) 0 (gN2 g)).

Definition inner_bc_array (g : gsize) (inb : point -> point) (par : point -> nat -> Z)
  : list inner_pt :=
  map (fun p => MkInner (IDX3 g p) (IDX3 g (inb p)) (par p)) (inner_points g inb).

(** ** bcstruct_set_up, step 2: outer boundary points *)

Record face_range := MkR { r0 : Z; r1 : Z; r2 : Z; r3 : Z; r4 : Z; r5 : Z }.

(** CurviBoundaryConditions.py l.604-609: the six face ranges of one ghost layer; imin and imax move
    outwards one direction at a time. *)
Definition layer_faces (imin imax : point)
  : (face_range * face_range * face_range * face_range * face_range * face_range) * (point * point) :=
  let '(a0, a1, a2) := imin in
  let '(b0, b1, b2) := imax in
  let x0min := MkR (a0 - 1) a0 a1 b1 a2 b2 in let a0 := a0 - 1 in
  let x0max := MkR b0 (b0 + 1) a1 b1 a2 b2 in let b0 := b0 + 1 in
  let x1min := MkR a0 b0 (a1 - 1) a1 a2 b2 in let a1 := a1 - 1 in
  let x1max := MkR a0 b0 b1 (b1 + 1) a2 b2 in let b1 := b1 + 1 in
  let x2min := MkR a0 b0 a1 b1 (a2 - 1) a2 in let a2 := a2 - 1 in
  let x2max := MkR a0 b0 a1 b1 b2 (b2 + 1) in let b2 := b2 + 1 in
  ((x0min, x0max, x1min, x1max, x2min, x2max), ((a0, a1, a2), (b0, b1, b2))).

(** CurviBoundaryConditions.py l.601-660: bc_loop_bounds[which_gz][face] for all layers, as one list of
    (lower face, upper face) per (which_gz, dirn). *)
Fixpoint face_pairs (layers : nat) (imin imax : point) : list (nat * (face_range * face_range)) :=
  match layers with
  | O => []
  | S n =>
      let '((a, b, c, d, e, f), (imin', imax')) := layer_faces imin imax in
      (0%nat, (a, b)) :: (1%nat, (c, d)) :: (2%nat, (e, f)) :: face_pairs n imin' imax'
  end.

Definition all_pairs (g : gsize) : list (nat * (face_range * face_range)) :=
  face_pairs (Z.to_nat (gNG g)) (gNG g, gNG g, gNG g)
             (gN0 g - gNG g, gN1 g - gNG g, gN2 g - gNG g).

(** Number of slots allocated for a pair (l.616-619, 632-635 and 649-652): twice the lower face. *)
Definition pair_slots (fr : face_range) : Z := 2 * ((r1 fr - r0 fr) * (r3 fr - r2 fr) * (r5 fr - r4 fr)).

(** An outerpt_bc_struct: the point and FACEX0, FACEX1, FACEX2. *)
Record outer_pt := MkOuter { op_p : point; op_face : point }.

(** l.669-671 and 692-694: FACEX0, FACEX1, FACEX2 of a face. *)
Definition facex (face : nat) : point :=
  match face with
  | 0%nat => (1, 0, 0) | 1%nat => (-1, 0, 0) | 2%nat => (0, 1, 0) | 3%nat => (0, -1, 0)
  | 4%nat => (0, 0, 1) | 5%nat => (0, 0, -1) | _ => (0, 0, 0)
  end.

Definition face_points (inb : point -> point) (face : nat) (fr : face_range) : list outer_pt :=
  map (fun p => MkOuter p (facex face))
      (filter (fun p => point_eqb p (inb p)) (loop_points (r0 fr) (r1 fr) (r2 fr) (r3 fr) (r4 fr) (r5 fr))).

(** l.662-713: pure_outer_bc_array[dirn + 3*which_gz] for all layers and directions, in order: the
    points of the lower face, then those of the upper face. *)
Definition outer_batches (g : gsize) (inb : point -> point) : list (list outer_pt) :=
  map (fun dp : nat * (face_range * face_range) =>
         let '(dirn, (lo, hi)) := dp in
         face_points inb (2 * dirn) lo ++ face_points inb (2 * dirn + 1) hi) (all_pairs g).

(** ** The fill loops *)
Notation mem := (Z -> Qc).
Definition upd (m : mem) (i : Z) (v : Qc) : mem := fun x => if x =? i then v else m x.

Definition shift (p f : point) (k : Z) : point :=
  (x0 p + k * x0 f, x1 p + k * x1 f, x2 p + k * x2 f).

(** l.821-830: the assignment for one outer point and one gridfunction (the same text in the loop over
    gridfunctions). *)
Definition outer_assign (g : gsize) (o : outer_pt) (gf : Z) (m : mem) : mem :=
  let p := op_p o in let f := op_face o in
  upd m (IDX4pt g gf (IDX3 g (shift p f 0)))
    (qz 3 * m (IDX4pt g gf (IDX3 g (shift p f 1)))
     - qz 3 * m (IDX4pt g gf (IDX3 g (shift p f 2)))
     + 1 * m (IDX4pt g gf (IDX3 g (shift p f 3))))%Qc.

(** One assignment of a batch: a point and a gridfunction. *)
Notation otask := (outer_pt * Z)%type.

(** l.814-832: the tasks of a batch; OpenMP distributes the points over threads. *)
Definition batch_tasks (ngf : Z) (b : list outer_pt) : list otask :=
  flat_map (fun o => map (fun gf => (o, gf)) (zrange 0 ngf)) b.

Definition run_batch (g : gsize) (ts : list otask) (m : mem) : mem :=
  fold_left (fun m t => outer_assign g (fst t) (snd t) m) ts m.

(** l.804-835: all batches in order.  There is a barrier after each [omp for]. *)
Definition run_batches (g : gsize) (bs : list (list otask)) (m : mem) : mem :=
  fold_left (fun m b => run_batch g b m) bs m.

(** l.754-756: the assignment for one inner point and one gridfunction. *)
Definition inner_assign (g : gsize) (gf_parity : Z -> nat) (t : Z * inner_pt) (m : mem) : mem :=
  let '(gf, ip) := t in
  upd m (IDX4pt g gf (in_dst ip))
    (qz (in_parity ip (gf_parity gf)) * m (IDX4pt g gf (in_src ip)))%Qc.

(** l.751-758: the tasks of apply_bcs_inner_only; OpenMP distributes them over threads. *)
Definition inner_tasks (ngf : Z) (a : list inner_pt) : list (Z * inner_pt) :=
  flat_map (fun gf => map (fun ip => (gf, ip)) a) (zrange 0 ngf).

Definition run_inner (g : gsize) (gf_parity : Z -> nat) (ts : list (Z * inner_pt)) (m : mem) : mem :=
  fold_left (fun m t => inner_assign g gf_parity t m) ts m.

(** l.774-848: apply_bcs_outerextrap_and_inner in program order. *)
Definition apply_bcs_outerextrap_and_inner (g : gsize) (ngf : Z) (gf_parity : Z -> nat)
    (inb : point -> point) (par : point -> nat -> Z) (m : mem) : mem :=
  run_inner g gf_parity (inner_tasks ngf (inner_bc_array g inb par))
    (run_batches g (map (batch_tasks ngf) (outer_batches g inb)) m).
