(** Model of the three-dimensional loops around generated kernels: simple_loop of
    nrpy/infrastructures/BHaH/simple_loop.py l.18-208, nrpy/infrastructures/ETLegacy/simple_loop.py l.13-101 and
    nrpy/infrastructures/CarpetX/simple_loop.py l.13-93, and of what the loop writes when its body stores vectors; the
    vectorised update loop of nrpy/infrastructures/BHaH/MoLtimestepping/MoL.py l.294-345. *)
From Coq Require Import String Ascii List ZArith Bool.
From Verif Require Import PyBase Loop.
Import ListNotations.
Open Scope string_scope.
Open Scope list_scope.

(** The strings of ReferenceMetricPrecompute(CoordSystem): readvr_str, readvr_SIMD_inner_str,
    readvr_SIMD_outer_str (rfm_precompute.py l.45-47), by direction. *)
Record rfm_reads : Type := MkReads { rd_plain : nat -> string; rd_inner : nat -> string; rd_outer : nat -> string }.

(** BHaH simple_loop, l.118-134: the bounds by loop_region *)
Definition bhah_region (region : string) : py (list string * list string) :=
  if String.eqb region "all points" then
    Ok (["0"; "0"; "0"], ["Nxx_plus_2NGHOSTS2"; "Nxx_plus_2NGHOSTS1"; "Nxx_plus_2NGHOSTS0"])
  else if String.eqb region "interior" then
    Ok (["NGHOSTS"; "NGHOSTS"; "NGHOSTS"], ["NGHOSTS+Nxx2"; "NGHOSTS+Nxx1"; "NGHOSTS+Nxx0"])
  else if String.eqb region "interior plus one upper" then
    Ok (["NGHOSTS"; "NGHOSTS"; "NGHOSTS"], ["NGHOSTS+Nxx2+1"; "NGHOSTS+Nxx1+1"; "NGHOSTS+Nxx0+1"])
  else Err ValueError.
(** l.136-168 *)
Definition bhah_reads (simd read_xxs : bool) (rfm : option rfm_reads) : py (nat -> string) :=
  if read_xxs then
    if simd then Err ValueError
    else match rfm with
         | Some _ => Err ValueError
         | None => Ok (fun k => match k with
                                | 0 => "MAYBE_UNUSED const REAL xx0 = xx[0][i0];"
                                | 1 => "MAYBE_UNUSED const REAL xx1 = xx[1][i1];"
                                | _ => "MAYBE_UNUSED const REAL xx2 = xx[2][i2];"
                                end)
         end
  else match rfm with
       | None => Ok (fun _ => "")
       | Some r => Ok (if simd then fun k => match k with 0 => rd_inner r 0 | _ => rd_outer r k end else rd_plain r)
       end.
(** l.169-179; ETLegacy l.79-89 *)
Definition omp_pragma (str_of_int : Z -> string) (omp : bool) (custom : string) (collapse : Z) : string :=
  if omp || negb (String.eqb custom "") then
    if String.eqb custom "" then
      if (1 <? collapse)%Z then "#pragma omp parallel for collapse(" ++ str_of_int collapse ++ ")"
      else "#pragma omp parallel for"
    else custom
  else "".
(** l.180; ETLegacy l.90 *)
Definition increments (simd : bool) : list string := if simd then ["1"; "1"; "simd_width"] else ["1"; "1"; "1"].

(** simple_loop (BHaH), l.18-208.  [rfm] is None without enable_rfm_precompute.  The final [str(...)] is not applied: a
    text stays itself, and for an empty body the pair (header, footer) would be printed as a tuple. *)
Definition simple_loop_bhah (body : string) (simd : bool) (region : string) (read_xxs : bool) (rfm : option rfm_reads)
  (omp : bool) (custom : string) (collapse : Z) : py loop_result :=
  if String.eqb region "" then Ok (LText body)
  else
    match bhah_region region with
    | Err e => Err e
    | Ok (mins, maxs) =>
        match bhah_reads simd read_xxs rfm with
        | Err e => Err e
        | Ok rd =>
            let pragma := omp_pragma str_of_Z omp custom collapse in
            let body1 := (rd 0 ++ body)%string in
            let '(pre, body2) :=
              if (collapse =? 2)%Z then ([pragma; ""; rd 2 ++ rd 1]%string, body1)
              else if (collapse =? 3)%Z then ([pragma; ""; ""], rd 2 ++ rd 1 ++ body1)%string
              else ([pragma; rd 2; rd 1], body1) in
            loop (Many ["i2"; "i1"; "i0"]) (Many mins) (Many maxs) (Many (increments simd)) (Many pre) body2 (One "")
        end
    end.

(** ETLegacy simple_loop, l.13-101 *)
Definition et_region (region : string) : py (list string * list string) :=
  if String.eqb region "all points" then Ok (["0"; "0"; "0"], ["cctk_lsh[2]"; "cctk_lsh[1]"; "cctk_lsh[0]"])
  else if String.eqb region "interior" then
    Ok (["cctk_nghostzones[2]"; "cctk_nghostzones[1]"; "cctk_nghostzones[0]"],
        ["cctk_lsh[2]-cctk_nghostzones[2]"; "cctk_lsh[1]-cctk_nghostzones[1]"; "cctk_lsh[0]-cctk_nghostzones[0]"])
  else Err ValueError.
Definition simple_loop_et (body : string) (simd : bool) (region : string) (omp : bool) (custom : string) (collapse : Z)
  : py loop_result :=
  match et_region region with
  | Err e => Err e
  | Ok (mins, maxs) =>
      loop (Many ["i2"; "i1"; "i0"]) (Many mins) (Many maxs) (Many (increments simd))
        (Many [omp_pragma str_of_Z omp custom collapse; ""; ""]) body (One "")
  end.

(** CarpetX simple_loop, l.13-93; [centering] None or a list of integers (a list of other length raises). *)
Definition simple_loop_carpetx (body : string) (simd : bool) (region : string) (centering : option (list Z))
  (device : bool) : py string :=
  match (match centering with
         | None => Ok [0; 0; 0]%Z
         | Some l => if Nat.eqb (List.length l) 3 then Ok l else Err ValueError
         end) with
  | Err e => Err e
  | Ok l =>
      match (if String.eqb region "all points" then Ok "all"
             else if String.eqb region "interior" then Ok "int" else Err ValueError) with
      | Err e => Err e
      | Ok which =>
          if simd then Err ValueError
          else if forallb (fun c => (c =? 0)%Z || (c =? 1)%Z) l then
            let n k := str_of_Z (nth k l 0%Z) in
            let m := ("grid.loop_" ++ which ++ (if device then "_device" else "") ++
                      "<" ++ n 0 ++ ", " ++ n 1 ++ ", " ++ n 2 ++ ">(" ++ nl)%string in
            Ok (m ++ "grid.nghostzones," ++ nl ++ "[=] CCTK_" ++ (if device then "DEVICE" else "HOST") ++
                "(const Loop::PointDesc &p) CCTK_ATTRIBUTE_ALWAYS_INLINE {" ++ nl ++ body ++ nl ++
                "}); // END LOOP: " ++ m ++ nl)%string
          else Err ValueError
      end
  end.

(** ** What a vectorised loop body writes *)
(** [ngf] gridfunctions of N0 x N1 x N2 cells one after the other (IDX4, BHaH_defines_h.py l.360-361); the loop runs over
    lo <= i < lo + n in every direction. *)
Record box : Type := MkBox { b_lo : nat -> Z; b_n : nat -> Z; b_N : nat -> Z; b_ngf : nat }.
Definition idx4 (x : box) (g i0 i1 i2 : Z) : Z := (i0 + b_N x 0 * (i1 + b_N x 1 * (i2 + b_N x 2 * g)))%Z.
Definition zrange (n : nat) : list Z := map Z.of_nat (seq 0 n).

Section Run.
(** [val g i0 i1 i2]: what the kernel computes at a point (lane l of the vector at i0 is the point i0 + l). *)
Variables (V : Type) (x : box) (w : nat) (val : Z -> Z -> Z -> Z -> V).
Definition ev : Type := (Z * V)%type.
Definition store1 (mem : Z -> V) (e : ev) : Z -> V := fun a => if (a =? fst e)%Z then snd e else mem a.
Definition run (mem : Z -> V) (l : list ev) : Z -> V := fold_left store1 l mem.
(** One execution of the loop body at (i2, i1, i0): WriteSIMD for every gridfunction. *)
Definition body_events (t : Z * Z * Z) : list ev :=
  let '(i2, i1, i0) := t in
  flat_map (fun g => map (fun l => (idx4 x g (i0 + l) i1 i2, val g (i0 + l)%Z i1 i2)) (zrange w)) (zrange (b_ngf x)).
End Run.

(** ** The vectorised MoL update loop, MoL.py l.294-345 *)
(** l.298-299 and the closing brace l.346: the text around the statements *)
Definition mol_simd_open : string :=
  ("#pragma omp parallel for" ++ nl ++
   "for(int i=0;i<Nxx_plus_2NGHOSTS0*Nxx_plus_2NGHOSTS1*Nxx_plus_2NGHOSTS2*NUM_EVOL_GFS;i+=simd_width) {{" ++ nl)%string.
Definition mol_plain_open : string := ("LOOP_ALL_GFS_GPS(i) {" ++ nl)%string.
Definition mol_close : string := ("}" ++ nl)%string.
Definition mol_loop_text (simd : bool) (stmts : string) : string :=
  ((if simd then mol_simd_open else mol_plain_open) ++ stmts ++ mol_close)%string.
(** The cells written: i = 0, w, 2w, ... < total, w cells each. *)
Fixpoint mol_vectors (fuel : nat) (w total i : Z) : list Z :=
  match fuel with
  | O => []
  | S n => if (i <? total)%Z then i :: mol_vectors n w total (i + w)%Z else []
  end.
Definition mol_cells (w : nat) (total : Z) : list Z :=
  flat_map (fun i => map (fun l => (i + l)%Z) (zrange w)) (mol_vectors (Z.to_nat total) (Z.of_nat w) total 0).
