(** Model of the one- and two-dimensional output loops of
    nrpy/infrastructures/BHaH/simple_loop.py: which grid indices the generated C code visits on an
    axis or a plane.  Definitions only.

    Simplifications: the printed text itself is not modelled; an entry of [i0_pts] etc. is kept as a
    small expression and evaluated the way the emitted C does, in exact arithmetic (halves and
    quarters of int-sized numbers are exact in double precision) followed by the C cast [(int)],
    which truncates toward zero. *)
From Coq Require Import String List ZArith Bool QArith.
From Verif Require Import PyBase.
Import ListNotations.
Open Scope string_scope.

(** The sizes the generated code sees: [NGHOSTS] and [Nxx[d]];
    [Nxx_plus_2NGHOSTS[d] = Nxx[d] + 2*NGHOSTS]
    (nrpy/infrastructures/BHaH/numerical_grids_and_timestep.py:98-100). *)
Record sizes := { NGHOSTS : Z; Nxx : nat -> Z }.
Definition Nxx_plus_2NGHOSTS (g : sizes) (d : nat) : Z := (Nxx g d + 2 * NGHOSTS g)%Z.

(** The entries that are appended to [i0_pts], [i1_pts], [i2_pts]
    (simple_loop.py:250-317 and 463-511). *)
Inductive pt : Type :=
| PMid (d : nat)            (* Nxx_plus_2NGHOSTS[d] / 2 *)
| PQuarter (d : nat)        (* NGHOSTS + Rational(1, 4) * Nxx[d] - Rational(1, 2) *)
| PThreeQuarter (d : nat)   (* NGHOSTS + Rational(3, 4) * Nxx[d] - Rational(1, 2) *)
| PFirst                    (* NGHOSTS *)
| PLast (d : nat)           (* Nxx_plus_2NGHOSTS[d] - NGHOSTS - 1 *)
| PMinusOne.                (* -1 *)

(** The value of an entry before the cast (simple_loop.py:365 and 564, [sp.ccode(pt)]). *)
Definition pt_value (g : sizes) (p : pt) : Q :=
  match p with
  | PMid d => inject_Z (Nxx_plus_2NGHOSTS g d) / 2
  | PQuarter d => inject_Z (NGHOSTS g) + (1 # 4) * inject_Z (Nxx g d) - (1 # 2)
  | PThreeQuarter d => inject_Z (NGHOSTS g) + (3 # 4) * inject_Z (Nxx g d) - (1 # 2)
  | PFirst => inject_Z (NGHOSTS g)
  | PLast d => inject_Z (Nxx_plus_2NGHOSTS g d - NGHOSTS g - 1)
  | PMinusOne => inject_Z (-1)
  end%Q.

(** The C conversion [(int)(x)] of a floating-point value: truncation toward zero. *)
Definition c_int (q : Q) : Z := Z.quot (Qnum q) (Zpos (Qden q)).

(** [i{d}_pts[j] = (int)(...)] *)
Definition pt_index (g : sizes) (p : pt) : Z := c_int (pt_value g p).

(** [[i0_pts, i1_pts, i2_pts]] *)
Definition pts3 : Type := (list pt * list pt * list pt)%type.

(** [max_numpts__i012_pts__numpts_2D], the choice of points (simple_loop.py:447-513). *)
Definition plane_pts (CoordSystem plane : string) : py pts3 :=
  if negb (String.eqb plane "xy" || String.eqb plane "yz") then Err ValueError
  else if String.eqb plane "xy" then
    if py_in "Cartesian" CoordSystem || py_in "Cylindrical" CoordSystem then Ok ([], [], [PMid 2])
    else if py_in "Spherical" CoordSystem || py_in "SymTP" CoordSystem then Ok ([], [PMid 1], [])
    else if py_in "Wedge" CoordSystem then Ok ([], [], [PQuarter 2; PThreeQuarter 2])
    else Err ValueError
  else
    if py_in "Cartesian" CoordSystem then Ok ([PMid 0], [], [])
    else if py_in "Cylindrical" CoordSystem then Ok ([], [PQuarter 1; PThreeQuarter 1], [])
    else if py_in "Spherical" CoordSystem || py_in "SymTP" CoordSystem
         then Ok ([], [], [PQuarter 2; PThreeQuarter 2])
    else if py_in "Wedge" CoordSystem then Ok ([], [PMid 1], [])
    else Err ValueError.

(** [simple_loop_1D], the choice of points (simple_loop.py:238-318). *)
Definition axis_pts (CoordSystem axis : string) : py pts3 :=
  if negb (String.eqb axis "y" || String.eqb axis "z") then Err ValueError
  else if String.eqb axis "y" then
    if py_in "Cartesian" CoordSystem then Ok ([PMid 0], [], [PMid 2])
    else if py_in "Spherical" CoordSystem
         then Ok ([], [PMid 1], [PQuarter 2; PThreeQuarter 2])
    else if py_in "Cylindrical" CoordSystem
         then Ok ([], [PQuarter 1; PThreeQuarter 1], [PMid 2])
    else if py_in "SymTP" CoordSystem
         then Ok ([], [PMid 1], [PQuarter 2; PThreeQuarter 2])
    else if py_in "Wedge" CoordSystem then Ok ([PMinusOne], [PMinusOne], [PMinusOne])
    else Err ValueError
  else
    if py_in "Cartesian" CoordSystem then Ok ([PMid 0], [PMid 1], [])
    else if py_in "Spherical" CoordSystem then
      if py_in "Ring" CoordSystem then Ok ([PMinusOne], [PMinusOne], [PMinusOne])
      else Ok ([], [PFirst; PLast 1], [PFirst])
    else if py_in "Cylindrical" CoordSystem then Ok ([PFirst], [PFirst], [])
    else if py_in "SymTP" CoordSystem then Ok ([], [PFirst; PLast 1], [PFirst])
    else if py_in "Wedge" CoordSystem then Ok ([], [PMid 1], [PMid 2])
    else Err ValueError.

(** An entry of [numpts] / [max_numpts]: a Python int, the symbol [Nxx[d]] or the symbol
    [Nxx_plus_2NGHOSTS[d]] (simple_loop.py:320-331 and 515-524).  [numpts[i] == max_numpts[i]] is
    equality of these. *)
Inductive count : Type := CInt (k : nat) | CNxx (d : nat) | CNxxGhosts (d : nat).

Definition count_eqb (a b : count) : bool :=
  match a, b with
  | CInt i, CInt j | CNxx i, CNxx j | CNxxGhosts i, CNxxGhosts j => Nat.eqb i j
  | _, _ => false
  end.

(** The C value of [numpts_i{d}], the declared length of [i{d}_pts] (simple_loop.py:335-336, 556-557). *)
Definition count_value (g : sizes) (c : count) : Z :=
  match c with
  | CInt k => Z.of_nat k
  | CNxx d => Nxx g d
  | CNxxGhosts d => Nxx_plus_2NGHOSTS g d
  end.

(** [max_numpts] (simple_loop.py:516-518). *)
Definition max_numpts (include_GHOSTS : bool) (d : nat) : count :=
  if include_GHOSTS then CNxxGhosts d else CNxx d.

(** [numpts[d] = len(pts) if pts else max_numpts[d]] (simple_loop.py:521-523). *)
Definition numpts_of (include_GHOSTS : bool) (d : nat) (l : list pt) : count :=
  match l with [] => max_numpts include_GHOSTS d | _ => CInt (length l) end.

(** [max_numpts__i012_pts__numpts_2D]: the triple of counts (simple_loop.py:520-524). *)
Definition numpts_2D (include_GHOSTS : bool) (p : pts3) : count * count * count :=
  match p with (l0, l1, l2) =>
    (numpts_of include_GHOSTS 0 l0, numpts_of include_GHOSTS 1 l1, numpts_of include_GHOSTS 2 l2)
  end.

(** [i0_pts and i0_pts[0] == -1] (simple_loop.py:322-326). *)
Definition starts_minus_one (l : list pt) : bool :=
  match l with PMinusOne :: _ => true | _ => false end.

(** [simple_loop_1D]: [numpts] (simple_loop.py:321-331). *)
Definition numpts_1D (p : pts3) : count * count * count :=
  match p with (l0, l1, l2) =>
    if starts_minus_one l0 || starts_minus_one l1 || starts_minus_one l2
    then (CInt 0, CInt 0, CInt 0)
    else (numpts_of false 0 l0, numpts_of false 1 l1, numpts_of false 2 l2)
  end.

(** The stores [i{d}_pts[position] = index] the generated code performs for direction [d]. *)
Definition interior_stores (g : sizes) (d : nat) : list (Z * Z) :=
  map (fun k => (Z.of_nat k, (NGHOSTS g + Z.of_nat k)%Z)) (seq 0 (Z.to_nat (Nxx g d))).
Definition listed_stores (g : sizes) (l : list pt) : list (Z * Z) :=
  combine (map Z.of_nat (seq 0 (length l))) (map (pt_index g) l).

(** [simple_loop_2D], body of [for i in range(3)] (simple_loop.py:559-564). *)
Definition stores_2D (g : sizes) (d : nat) (n : count) (l : list pt) : list (Z * Z) :=
  if count_eqb n (max_numpts false d) then interior_stores g d else listed_stores g l.

(** [simple_loop_1D], body of [for i in range(3)] (simple_loop.py:356-365); the [numpts == [0, 0, 0]]
    branch emits only a comment, and only for [i == 0]. *)
Definition all_zero (n : count * count * count) : bool :=
  match n with (CInt 0, CInt 0, CInt 0) => true | _ => false end.
Definition stores_1D (g : sizes) (d : nat) (all : count * count * count) (n : count) (l : list pt)
  : list (Z * Z) :=
  if count_eqb n (CNxx d) then interior_stores g d
  else if all_zero all && Nat.eqb d 0 then []
  else listed_stores g l.

(** The three index arrays with their declared lengths: what [simple_loop_2D] and [simple_loop_1D]
    declare and fill before the main loop. *)
Definition arr : Type := (Z * list (Z * Z))%type.

Definition arrays_2D (g : sizes) (CoordSystem plane : string) : py (arr * arr * arr) :=
  match plane_pts CoordSystem plane with
  | Err e => Err e
  | Ok (l0, l1, l2) =>
      match numpts_2D false (l0, l1, l2) with (n0, n1, n2) =>
        Ok ((count_value g n0, stores_2D g 0 n0 l0),
            (count_value g n1, stores_2D g 1 n1 l1),
            (count_value g n2, stores_2D g 2 n2 l2))
      end
  end.

Definition arrays_1D (g : sizes) (CoordSystem axis : string) : py (arr * arr * arr) :=
  match axis_pts CoordSystem axis with
  | Err e => Err e
  | Ok (l0, l1, l2) =>
      match numpts_1D (l0, l1, l2) with (n0, n1, n2) =>
        let all := (n0, n1, n2) in
        Ok ((count_value g n0, stores_1D g 0 all n0 l0),
            (count_value g n1, stores_1D g 1 all n1 l1),
            (count_value g n2, stores_1D g 2 all n2 l2))
      end
  end.

(** The main loop [LOOP_NOOMP(i0_pt,0,numpts_i0, ...)] visits the stored indices in order, with
    [i2_pt] slowest (simple_loop.py:366-371 and 566-571; BHaH_defines_h.py:360-361). *)
Definition visited (a : arr * arr * arr) : list (Z * Z * Z) :=
  match a with (a0, a1, a2) =>
    flat_map (fun i2 => flat_map (fun i1 => map (fun i0 => (i0, i1, i2))
      (map snd (snd a0))) (map snd (snd a1))) (map snd (snd a2))
  end.
