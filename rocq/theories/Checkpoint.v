(** Checkpoint files of the BHaH infrastructure: write_checkpoint and read_checkpoint, and what a crash
    during a write leaves on disk.  The generated C text is modelled.  A file is a sequence of cells, one
    per struct, int or REAL that one fread/fwrite call transfers; so the places where a file can be cut
    are between cells (the real ones are between bytes).  Memory that malloc returned and nothing has set
    yet holds None.  Definitions only. *)
From Coq Require Import List Arith ZArith QArith Qround Bool.
From Verif Require Import Chare.
Import ListNotations.
Set Implicit Arguments.
Open Scope nat_scope.

(** A REAL in memory; None: not initialised.  [V] is the type of REAL values. *)
Notation cellv V := (option V).

(** commondata_struct: the fields these functions use, and the rest of its bytes. *)
Record common := MkCommon {
  c_time : Q; c_dt : Q; c_every : Q; c_nn : Z; c_t0 : Q; c_nn0 : Z;
  c_NUMGRIDS : nat; c_nh : nat (* bah_num_horizons *); c_rest : list Z }.

(** params_struct: the sizes and the rest. *)
Record prms := MkPrms { p_N0 : nat; p_N1 : nat; p_N2 : nat; p_rest : list Z }.
Definition ntot (p : prms) : nat := p_N0 p * p_N1 p * p_N2 p.

(** One entry of commondata->bhahaha_params_and_data: its bytes and the three arrays of 64*32 REALs. *)
Record horizon V := MkHz { h_bytes : list Z; h_m1 : list (cellv V); h_m2 : list (cellv V); h_m3 : list (cellv V) }.

(** One griddata_struct: params, y_n_gfs and diagnostic_output_gfs. *)
Record grid V := MkGrid { gr_params : prms; gr_y : list (cellv V); gr_diag : list (cellv V) }.

Record state V := MkState { s_common : common; s_hz : list (horizon V); s_grids : list (grid V) }.

Inductive cell V :=
| KCommon (c : common) | KHz (b : list Z) | KParams (p : prms) | KInt (n : nat) | KReal (v : cellv V).
Arguments KCommon {V}. Arguments KHz {V}. Arguments KParams {V}. Arguments KInt {V}. Arguments KReal {V}.
Notation file V := (list (cell V)).

(** * Writing *)

(** C round(): to the nearest integer, halves away from zero. *)
Definition cround (q : Q) : Z :=
  if Qle_bool 0 q then Qfloor (q + (1 # 2)) else Qceiling (q - (1 # 2)).

(** nrpy/infrastructures/BHaH/checkpointing.py l.140-145: is a checkpoint due?  Exact arithmetic. *)
Definition due (c : common) : bool :=
  let d := (inject_Z (cround (c_time c / c_every c)) * c_every c - c_time c)%Q in
  negb (Qle_bool ((1 # 2) * c_dt c) d) && negb (Qle_bool ((1 # 2) * c_dt c) (- d)).

(** checkpointing.py l.167, 195: the first [n] REALs copied. *)
Definition copy_into {V} (n : nat) (src dst : list (cellv V)) : list (cellv V) := firstn n src ++ skipn n dst.

(** checkpointing.py l.180-188: compact_out_data, for NUM_EVOL_GFS = [ne], from diagnostic_output_gfs. *)
Definition compact {V} (ne n : nat) (y : list (cellv V)) : list (cellv V) :=
  flat_map (fun i => map (fun gf => nth (n * gf + i) y None) (seq 0 ne)) (seq 0 n).

(** checkpointing.py l.161-191: the cells of one grid.  The mask is constant, so every point is kept. *)
Definition grid_cells {V} (ne : nat) (g : grid V) : file V :=
  let n := ntot (gr_params g) in
  KParams (gr_params g) :: KInt n ::
  map KInt (seq 0 n) ++ map KReal (compact ne n (copy_into (n * ne) (gr_y g) (gr_diag g))).

(** checkpointing.py l.152-157 (enable_bhahaha): the cells of one horizon. *)
Definition hz_cells {V} (h : horizon V) : file V :=
  KHz (h_bytes h) :: map KReal (h_m1 h) ++ map KReal (h_m2 h) ++ map KReal (h_m3 h).

(** checkpointing.py l.146-197: the whole file. *)
Definition checkpoint_cells {V} (bah : bool) (ne : nat) (s : state V) : file V :=
  KCommon (s_common s) ::
  (if bah then flat_map (@hz_cells V) (firstn (c_nh (s_common s)) (s_hz s)) else []) ++
  flat_map (grid_cells ne) (firstn (c_NUMGRIDS (s_common s)) (s_grids s)).

(** checkpointing.py l.167-168, 193-195: y_n_gfs is copied to diagnostic_output_gfs, freed, allocated
    again (MoL_malloc_y_n_gfs: ntot*NUM_EVOL_GFS uninitialised REALs) and copied back. *)
Definition write_grid {V} (ne : nat) (g : grid V) : grid V :=
  let n := ntot (gr_params g) * ne in
  let diag := copy_into n (gr_y g) (gr_diag g) in
  let y := copy_into n diag (repeat None n) in
  MkGrid (gr_params g) y diag.

Definition write_state {V} (ne : nat) (s : state V) : state V :=
  let k := c_NUMGRIDS (s_common s) in
  MkState (s_common s) (s_hz s) (map (write_grid ne) (firstn k (s_grids s)) ++ skipn k (s_grids s)).

(** write_checkpoint: new content of the checkpoint file and new state. *)
Definition write_checkpoint {V} (bah : bool) (ne : nat) (disk : option (file V)) (s : state V)
  : option (file V) * state V :=
  if due (s_common s) then (Some (checkpoint_cells bah ne s), write_state ne s) else (disk, s).

(** What is on disk if the program stops while write_checkpoint runs: the old file, if fopen has not
    happened; otherwise, since mode "w+" (l.146) empties the file first, the part of the new file that
    has reached the disk. *)
Definition crash_disk {V} (bah : bool) (ne : nat) (disk : option (file V)) (s : state V)
    (d : option (file V)) : Prop :=
  d = disk \/ (due (s_common s) = true /\ exists k, d = Some (firstn k (checkpoint_cells bah ne s))).

(** * Reading *)

(** Results: None stands for undefined behaviour (use of an uninitialised count or index, an access out
    of bounds, or bytes of another type than expected). *)
Definition bind {A B} (x : option A) (f : A -> option B) : option B :=
  match x with Some a => f a | None => None end.
Notation "'do' x <- e ; r" := (bind e (fun x => r)) (at level 200, x pattern, e at level 100, r at level 200).

(** checkpointing.py l.31: FREAD ignores the number of items read; at the end of the file memory keeps
    what it held. *)
Definition fread_common {V} (f : file V) (old : common) : option (common * file V) :=
  match f with KCommon c :: f' => Some (c, f') | [] => Some (old, []) | _ => None end.
Definition fread_hz {V} (f : file V) (old : list Z) : option (list Z * file V) :=
  match f with KHz b :: f' => Some (b, f') | [] => Some (old, []) | _ => None end.
Definition fread_params {V} (f : file V) (old : prms) : option (prms * file V) :=
  match f with KParams p :: f' => Some (p, f') | [] => Some (old, []) | _ => None end.
Definition fread_int {V} (f : file V) : option (option nat * file V) :=
  match f with KInt n :: f' => Some (Some n, f') | [] => Some (None, []) | _ => None end.

(** [n] items into a block just allocated. *)
Fixpoint fread_ints {V} (n : nat) (f : file V) : option (list (option nat) * file V) :=
  match n with
  | O => Some ([], f)
  | S n' => do (v, f1) <- fread_int f; do (r, f2) <- fread_ints n' f1; Some (v :: r, f2)
  end.
Definition fread_real {V} (f : file V) : option (cellv V * file V) :=
  match f with KReal v :: f' => Some (v, f') | [] => Some (None, []) | _ => None end.
Fixpoint fread_reals {V} (n : nat) (f : file V) : option (list (cellv V) * file V) :=
  match n with
  | O => Some ([], f)
  | S n' => do (v, f1) <- fread_real f; do (r, f2) <- fread_reals n' f1; Some (v :: r, f2)
  end.

(** checkpointing.py l.53-61 (enable_bhahaha). *)
Fixpoint read_hz {V} (k : nat) (f : file V) (hz : list (horizon V)) : option (list (horizon V) * file V) :=
  match k with
  | O => Some (hz, f)
  | S k' =>
      match hz with
      | [] => None
      | h :: hz' =>
          do (b, f1) <- fread_hz f (h_bytes h);
          do (a1, f2) <- fread_reals (64 * 32) f1;
          do (a2, f3) <- fread_reals (64 * 32) f2;
          do (a3, f4) <- fread_reals (64 * 32) f3;
          do (r, f5) <- read_hz k' f4 hz';
          Some (MkHz b a1 a2 a3 :: r, f5)
      end
  end.

(** All indices initialised. *)
Fixpoint all_some {A} (l : list (option A)) : option (list A) :=
  match l with
  | [] => Some []
  | Some a :: r => do r' <- all_some r; Some (a :: r')
  | None :: _ => None
  end.

(** checkpointing.py l.83-87: the stores of one grid; IDX4pt is BHaH_defines_h.py l.353. *)
Definition y_stores {V} (ne n : nat) (idx : list nat) (data : list (cellv V)) : list (nat * cellv V) :=
  flat_map (fun ix : nat * nat =>
    map (fun gf => (snd ix + n * gf, nth (fst ix * ne + gf) data None)) (seq 0 ne))
    (combine (seq 0 (length idx)) idx).

(** checkpointing.py l.65-89: one grid.  A value that is itself uninitialised is stored as such. *)
Definition read_grid {V} (ne : nat) (f : file V) (g : grid V) : option (grid V * file V) :=
  do (p, f1) <- fread_params f (gr_params g);
  do (c, f2) <- fread_int f1;
  match c with
  | None => None
  | Some count =>
      do (oidx, f3) <- fread_ints count f2;
      do (data, f4) <- fread_reals (count * ne) f3;
      let n := ntot p in
      if (count * ne =? 0) then Some (MkGrid p (repeat None (n * ne)) (gr_diag g), f4) else
      do idx <- all_some oidx;
      match run_stores (n * ne) (y_stores ne n idx data) (fun _ => None) with
      | COk m => Some (MkGrid p (map (fun i => match m i with Some v => v | None => None end)
                                     (seq 0 (n * ne))) (gr_diag g), f4)
      | CStop _ => None
      end
  end.

Fixpoint read_grids {V} (k ne : nat) (f : file V) (gs : list (grid V)) : option (list (grid V) * file V) :=
  match k with
  | O => Some (gs, f)
  | S k' =>
      match gs with
      | [] => None
      | g :: gs' =>
          do (g', f1) <- read_grid ne f g;
          do (r, f2) <- read_grids k' ne f1 gs';
          Some (g' :: r, f2)
      end
  end.

(** checkpointing.py l.40-98: read_checkpoint.  The outer option is undefined behaviour; the Boolean is
    the return value. *)
Definition read_checkpoint {V} (bah : bool) (ne : nat) (disk : option (file V)) (s : state V)
  : option (bool * state V) :=
  match disk with
  | None => Some (false, s)
  | Some f =>
      do (c, f1) <- fread_common f (s_common s);
      do (hz, f2) <- (if bah then read_hz (c_nh c) f1 (s_hz s) else Some (s_hz s, f1));
      do (gs, f3) <- read_grids (c_NUMGRIDS c) ne f2 (s_grids s);
      Some (true, MkState (MkCommon (c_time c) (c_dt c) (c_every c) (c_nn c) (c_time c) (c_nn c)
                             (c_NUMGRIDS c) (c_nh c) (c_rest c)) hz gs)
  end.
