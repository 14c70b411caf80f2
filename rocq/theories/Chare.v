(** Domain decomposition of the superB infrastructure: index macros, the map between the global grid
    and the chares, and the exchange of ghost zones.  The C text is modelled; C ints are unbounded
    naturals here (no overflow).  Definitions only. *)
From Coq Require Import List Arith Bool.
Import ListNotations.
Set Implicit Arguments.

(** nrpy/infrastructures/superB/superB/superB.h l.22: IDX3GENERAL (and IDX3_OF_CHARE, l.21, with
    Ni = Nchare0, Nj = Nchare1). *)
Definition IDX3GENERAL (i j k Ni Nj : nat) : nat := i + Ni * (j + Nj * k).

(** superB.h l.23-29: REVERSE_IDX3GENERAL, returning the three outputs. *)
Definition REVERSE_IDX3GENERAL (index Ni Nj : nat) : nat * nat * nat :=
  let k := index / (Ni * Nj) in
  let temp := index mod (Ni * Nj) in
  (temp mod Ni, temp / Ni, k).

(** superB.h l.30: IDX4GENERAL; the generated BHaH_defines.h macro IDX4 is the same formula. *)
Definition IDX4GENERAL (g i j k Ni Nj Nk : nat) : nat := i + Ni * (j + Nj * (k + Nk * g)).

(** superB.h l.31-33: MAP_LOCAL_TO_GLOBAL_IDX0/1/2 (one formula for the three directions). *)
Definition MAP_LOCAL_TO_GLOBAL_IDX (chareidx local_idx Nxxchare : nat) : nat :=
  chareidx * Nxxchare + local_idx.

(** superB.h l.35-37: MAP_GLOBAL_TO_LOCAL_IDX0/1/2. *)
Definition MAP_GLOBAL_TO_LOCAL_IDX (chareidx global_idx Nxxchare : nat) : nat :=
  global_idx - chareidx * Nxxchare.

(** Sizes: chares per direction, interior points of the whole grid, ghost width. *)
Record csize := MkSize {
  cs_nch : nat * nat * nat;   (* Nchare0, Nchare1, Nchare2 *)
  cs_nxx : nat * nat * nat;   (* params->Nxx0, Nxx1, Nxx2 *)
  cs_ng : nat                 (* NGHOSTS *)
}.

Definition p0 (t : nat * nat * nat) : nat := fst (fst t).
Definition p1 (t : nat * nat * nat) : nat := snd (fst t).
Definition p2 (t : nat * nat * nat) : nat := snd t.

(** How the C code can stop. *)
Inductive cstop : Type :=
| DivByZero                 (* Nxx % 0: undefined behaviour *)
| NotDivisible (dir : nat)  (* exit(1), first block of checks *)
| TooThin (dir : nat)       (* exit(1), second block of checks *)
| OutOfBounds.              (* store outside the malloc'ed block *)

Inductive cres (A : Type) : Type := COk (a : A) | CStop (s : cstop).
Arguments COk {A} a.
Arguments CStop {A} s.

(** nrpy/infrastructures/superB/numerical_grids.py l.33-62:
    numerical_grid_params_Nxx_dxx_xx_chare, the divisibility and thickness checks and the sizes of
    the local grid of a chare. *)
Definition chare_Nxx (s : csize) : cres (nat * nat * nat) :=
  let '(n0, n1, n2) := cs_nch s in
  let '(x0, x1, x2) := cs_nxx s in
  if (n0 =? 0) || (n1 =? 0) || (n2 =? 0) then CStop DivByZero
  else if negb (x0 mod n0 =? 0) then CStop (NotDivisible 0)
  else if negb (x1 mod n1 =? 0) then CStop (NotDivisible 1)
  else if negb (x2 mod n2 =? 0) then CStop (NotDivisible 2)
  else if (1 <? n0) && (x0 / n0 <? cs_ng s) then CStop (TooThin 0)
  else if (1 <? n1) && (x1 / n1 <? cs_ng s) then CStop (TooThin 1)
  else if (1 <? n2) && (x2 / n2 <? cs_ng s) then CStop (TooThin 2)
  else COk (x0 / n0, x1 / n1, x2 / n2).

(** [for (int l = start; l < stop; l++)] *)
Definition range (start stop : nat) : list nat := seq start (stop - start).

(** nrpy/infrastructures/superB/chare_communication_maps.py l.56-88: startlocal and endlocal of chare
    number [ch] out of [nch] in one direction.  The C code stores the last index, [stop_local] is one
    past it. *)
Definition start_local (ng ch : nat) : nat := if ch =? 0 then 0 else ng.
Definition stop_local (ng nch nxxc ch : nat) : nat :=
  if ch =? nch - 1 then nxxc + 2 * ng else nxxc + ng.

(** chare_communication_maps.py l.56-104: the stores into globalidx3pt_to_chareidx3 and
    globalidx3pt_to_localidx3pt, in execution order, as (globalidx3, chareidx3, localidx3). *)
Definition map_stores (nch nxx c : nat * nat * nat) (ng : nat) : list (nat * (nat * nat)) :=
  flat_map (fun charek =>
  flat_map (fun charej =>
  flat_map (fun charei =>
  flat_map (fun localk =>
  flat_map (fun localj =>
  map (fun locali =>
    let localidx3 := IDX3GENERAL locali localj localk (p0 c + 2 * ng) (p1 c + 2 * ng) in
    let globali := MAP_LOCAL_TO_GLOBAL_IDX charei locali (p0 c) in
    let globalj := MAP_LOCAL_TO_GLOBAL_IDX charej localj (p1 c) in
    let globalk := MAP_LOCAL_TO_GLOBAL_IDX charek localk (p2 c) in
    let globalidx3 :=
      IDX3GENERAL globali globalj globalk (p0 nxx + 2 * ng) (p1 nxx + 2 * ng) in
    (globalidx3, (IDX3GENERAL charei charej charek (p0 nch) (p1 nch), localidx3)))
      (range (start_local ng charei) (stop_local ng (p0 nch) (p0 c) charei)))
      (range (start_local ng charej) (stop_local ng (p1 nch) (p1 c) charej)))
      (range (start_local ng charek) (stop_local ng (p2 nch) (p2 c) charek)))
    (range 0 (p0 nch)))
    (range 0 (p1 nch)))
    (range 0 (p2 nch)).

(** chare_communication_maps.py l.106-127: the stores into localidx3pt_to_globalidx3pt of the chare
    with index [t]. *)
Definition local_stores (t nxx c : nat * nat * nat) (ng : nat) : list (nat * nat) :=
  flat_map (fun localk =>
  flat_map (fun localj =>
  map (fun locali =>
    (IDX3GENERAL locali localj localk (p0 c + 2 * ng) (p1 c + 2 * ng),
     IDX3GENERAL (MAP_LOCAL_TO_GLOBAL_IDX (p0 t) locali (p0 c))
                 (MAP_LOCAL_TO_GLOBAL_IDX (p1 t) localj (p1 c))
                 (MAP_LOCAL_TO_GLOBAL_IDX (p2 t) localk (p2 c))
                 (p0 nxx + 2 * ng) (p1 nxx + 2 * ng)))
      (range 0 (p0 c + 2 * ng)))
      (range 0 (p1 c + 2 * ng)))
      (range 0 (p2 c + 2 * ng)).

(** A malloc'ed block of [size] slots: uninitialised slots are None; a store outside stops. *)
Fixpoint run_stores {A} (size : nat) (ws : list (nat * A)) (m : nat -> option A)
  : cres (nat -> option A) :=
  match ws with
  | [] => COk m
  | (i, v) :: r =>
      if i <? size then run_stores size r (fun x => if x =? i then Some v else m x)
      else CStop OutOfBounds
  end.

Definition grid_size (x : nat * nat * nat) (ng : nat) : nat :=
  (p0 x + 2 * ng) * (p1 x + 2 * ng) * (p2 x + 2 * ng).

(** The three arrays of charecomm_struct (superB.h): the first two come from one list of stores. *)
Record charecomm := MkComm {
  g2chare : nat -> option nat;   (* globalidx3pt_to_chareidx3 *)
  g2local : nat -> option nat;   (* globalidx3pt_to_localidx3pt *)
  l2global : nat -> option nat   (* localidx3pt_to_globalidx3pt *)
}.

(** chare_communication_maps.py l.15-127: charecommstruct_set_up for the chare with index [t], run
    after the sizes have been set by numerical_grid_params_Nxx_dxx_xx_chare (numerical_grids.py
    l.140-158 calls them in this order). *)
Definition charecommstruct_set_up (s : csize) (t : nat * nat * nat) : cres charecomm :=
  match chare_Nxx s with
  | CStop e => CStop e
  | COk c =>
      match run_stores (grid_size (cs_nxx s) (cs_ng s))
                       (map_stores (cs_nch s) (cs_nxx s) c (cs_ng s)) (fun _ => None) with
      | CStop e => CStop e
      | COk g =>
          match run_stores (grid_size c (cs_ng s)) (local_stores t (cs_nxx s) c (cs_ng s))
                           (fun _ => None) with
          | CStop e => CStop e
          | COk l => COk (MkComm (fun i => option_map fst (g i)) (fun i => option_map snd (g i)) l)
          end
      end
  end.

(** Ghost-zone exchange. *)

(** superB.h l.39-41. *)
Definition IDXFACES0 (N1 N2 ng g inner j k : nat) : nat := j + N1 * (k + N2 * (inner + ng * g)).
Definition IDXFACES1 (N0 N2 ng g inner i k : nat) : nat := i + N0 * (k + N2 * (inner + ng * g)).
Definition IDXFACES2 (N0 N1 ng g inner i j : nat) : nat := i + N0 * (j + N1 * (inner + ng * g)).

(** [to[fst] = from[snd]] for a list of copies in execution order. *)
Fixpoint run_copies {V} (ws : list (nat * nat)) (from to : nat -> V) : nat -> V :=
  match ws with
  | [] => to
  | (i, j) :: r => run_copies r from (fun x => if x =? i then from j else to x)
  end.

(** The four nested loops common to all sends and receives: gridfunction, layer, outer face index,
    inner face index. *)
Definition face_loops (ngfs ng A B : nat) (f : nat -> nat -> nat -> nat -> nat * nat)
  : list (nat * nat) :=
  flat_map (fun which_gf =>
  flat_map (fun which_inner =>
  flat_map (fun a =>
  map (fun b => f which_gf which_inner a b) (range 0 B)) (range 0 A)) (range 0 ng)) (range 0 ngfs).

Inductive axis : Type := AX0 | AX1 | AX2.   (* EAST_WEST, NORTH_SOUTH, TOP_BOTTOM *)

(** nrpy/infrastructures/superB/timestepping_chare.py l.789-905: send_neighbor_data.  Copies into the
    buffer of the axis; [up] is false for the send to west/south/bottom, true for the send to
    east/north/top.  Layer [w] is index 2*NGHOSTS-1-w (i0--) or Nxx+w (i0++). *)
Definition send_copies (c : nat * nat * nat) (ng : nat) (sync : list nat) (a : axis) (up : bool)
  : list (nat * nat) :=
  let N0 := p0 c + 2 * ng in let N1 := p1 c + 2 * ng in let N2 := p2 c + 2 * ng in
  let gf g := nth g sync 0 in
  match a, up with
  | AX0, false => face_loops (length sync) ng N2 N1 (fun g w i2 i1 =>
      (IDXFACES0 N1 N2 ng g w i1 i2, IDX4GENERAL (gf g) (2 * ng - 1 - w) i1 i2 N0 N1 N2))
  | AX0, true => face_loops (length sync) ng N2 N1 (fun g w i2 i1 =>
      (IDXFACES0 N1 N2 ng g w i1 i2, IDX4GENERAL (gf g) (p0 c + w) i1 i2 N0 N1 N2))
  | AX1, false => face_loops (length sync) ng N2 N0 (fun g w i2 i0 =>
      (IDXFACES1 N0 N2 ng g w i0 i2, IDX4GENERAL (gf g) i0 (2 * ng - 1 - w) i2 N0 N1 N2))
  | AX1, true => face_loops (length sync) ng N2 N0 (fun g w i2 i0 =>
      (IDXFACES1 N0 N2 ng g w i0 i2, IDX4GENERAL (gf g) i0 (p1 c + w) i2 N0 N1 N2))
  | AX2, false => face_loops (length sync) ng N1 N0 (fun g w i1 i0 =>
      (IDXFACES2 N0 N1 ng g w i0 i1, IDX4GENERAL (gf g) i0 i1 (2 * ng - 1 - w) N0 N1 N2))
  | AX2, true => face_loops (length sync) ng N1 N0 (fun g w i1 i0 =>
      (IDXFACES2 N0 N1 ng g w i0 i1, IDX4GENERAL (gf g) i0 i1 (p2 c + w) N0 N1 N2))
  end.

(** timestepping_chare.py l.911-1008: process_ghost.  [pos] is true for EAST/NORTH/TOP_GHOST (layer
    [w] is index Nxx+2*NGHOSTS-1-w) and false for WEST/SOUTH/BOTTOM_GHOST (layer [w] is index w). *)
Definition ghost_copies (c : nat * nat * nat) (ng : nat) (sync : list nat) (a : axis) (pos : bool)
  : list (nat * nat) :=
  let N0 := p0 c + 2 * ng in let N1 := p1 c + 2 * ng in let N2 := p2 c + 2 * ng in
  let gf g := nth g sync 0 in
  match a, pos with
  | AX0, true => face_loops (length sync) ng N2 N1 (fun g w i2 i1 =>
      (IDX4GENERAL (gf g) (p0 c + 2 * ng - 1 - w) i1 i2 N0 N1 N2, IDXFACES0 N1 N2 ng g w i1 i2))
  | AX0, false => face_loops (length sync) ng N2 N1 (fun g w i2 i1 =>
      (IDX4GENERAL (gf g) w i1 i2 N0 N1 N2, IDXFACES0 N1 N2 ng g w i1 i2))
  | AX1, true => face_loops (length sync) ng N2 N0 (fun g w i2 i0 =>
      (IDX4GENERAL (gf g) i0 (p1 c + 2 * ng - 1 - w) i2 N0 N1 N2, IDXFACES1 N0 N2 ng g w i0 i2))
  | AX1, false => face_loops (length sync) ng N2 N0 (fun g w i2 i0 =>
      (IDX4GENERAL (gf g) i0 w i2 N0 N1 N2, IDXFACES1 N0 N2 ng g w i0 i2))
  | AX2, true => face_loops (length sync) ng N1 N0 (fun g w i1 i0 =>
      (IDX4GENERAL (gf g) i0 i1 (p2 c + 2 * ng - 1 - w) N0 N1 N2, IDXFACES2 N0 N1 ng g w i0 i1))
  | AX2, false => face_loops (length sync) ng N1 N0 (fun g w i1 i0 =>
      (IDX4GENERAL (gf g) i0 i1 w N0 N1 N2, IDXFACES2 N0 N1 ng g w i0 i1))
  end.

(** The chare's index in the direction of the axis, and the neighbours' indices. *)
Definition along (a : axis) (t : nat * nat * nat) : nat :=
  match a with AX0 => p0 t | AX1 => p1 t | AX2 => p2 t end.
Definition shift_up (a : axis) (t : nat * nat * nat) : nat * nat * nat :=
  match a with
  | AX0 => (p0 t + 1, p1 t, p2 t) | AX1 => (p0 t, p1 t + 1, p2 t) | AX2 => (p0 t, p1 t, p2 t + 1)
  end.
Definition shift_down (a : axis) (t : nat * nat * nat) : nat * nat * nat :=
  match a with
  | AX0 => (p0 t - 1, p1 t, p2 t) | AX1 => (p0 t, p1 t - 1, p2 t) | AX2 => (p0 t, p1 t, p2 t - 1)
  end.

(** timestepping_chare.py l.119-163 (generate_send_neighbor_data_code, generate_process_ghost_code):
    one exchange along an axis, seen from chare [t].  All chares send from their data [d] before they
    overwrite ghosts; [b] is what their send buffers held before.  A chare receives from the upper
    neighbour if there is one, then from the lower neighbour if there is one.  Message delivery is
    taken to be in order. *)
Definition exchange {V} (nch c : nat * nat * nat) (ng : nat) (sync : list nat)
    (b : nat * nat * nat -> nat -> V) (a : axis) (d : nat * nat * nat -> nat -> V)
    (t : nat * nat * nat) : nat -> V :=
  let sent up u := run_copies (send_copies c ng sync a up) (d u) (b u) in
  let d1 := if along a t <? along a nch - 1
            then run_copies (ghost_copies c ng sync a true) (sent false (shift_up a t)) (d t)
            else d t in
  if 0 <? along a t
  then run_copies (ghost_copies c ng sync a false) (sent true (shift_down a t)) d1
  else d1.

(** timestepping_chare.py l.1327-1361 and l.1543-1583: the loops over x, y and z. *)
Definition exchange_all {V} (nch c : nat * nat * nat) (ng : nat) (sync : list nat)
    (b : nat * nat * nat -> nat -> V) (d : nat * nat * nat -> nat -> V)
    : nat * nat * nat -> nat -> V :=
  exchange nch c ng sync b AX2 (exchange nch c ng sync b AX1 (exchange nch c ng sync b AX0 d)).
