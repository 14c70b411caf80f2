(** Model of nrpy/grid.py: gridfunction registry, lists, #defines, parity types, tensor registration. *)
From Coq Require Import String Ascii List ZArith Bool.
From Verif Require Import PyBase IndexedExp.
Import ListNotations.
Open Scope string_scope.

(** Floats are kept as their printed form [str(x)]. *)
Inductive farg : Type := FScalar (x : string) | FList (l : list string).

(** Keyword arguments of register_gridfunctions, l.788; absent ones take the constructor defaults
    (l.60-70, l.267-278, l.459-469, l.583-595).  Not modelled: [thorn], [gf_type]. *)
Record kwargs : Type := MkKw {
  k_group : string; k_rank : Z; k_finf : farg; k_wave : farg; k_isbase : bool;
  k_array : option string; k_sync : option bool; k_centering : option string
}.
Definition kw_default : kwargs :=
  MkKw "EVOL" 0 (FScalar "0.0") (FScalar "1.0") true None None None.

(** GridFunction attributes, l.71-81, l.283-295, l.610-611. *)
Record gfunc : Type := MkGf {
  g_infra : string; g_name : string; g_group : string; g_rank : Z; g_dim : Z;
  g_finf : string; g_wave : string; g_isbase : bool; g_array : option string;
  g_sync : option bool; g_centering : option string
}.

Definition registry : Type := dict gfunc.

Definition str_in (s : string) (l : list string) : bool := existsb (String.eqb s) l.

(** verify_gridfunction_basename_is_valid, l.107-140. *)
Definition verify_basename (name : string) : py unit :=
  if String.eqb name "" then Err ValueError
  else match last_char name with
       | Some c => if is_digit c then Err ValueError else Ok tt
       | None => Ok tt
       end.

(** GridFunction.__init__, l.60-84. *)
Definition base_init (name : string) (isbase : bool) : py unit :=
  if isbase then verify_basename name else Ok tt.

Definition groups3 : list string := ["EVOL"; "AUX"; "AUXEVOL"].
Definition groupsX : list string := groups3 ++ ["EXTERNAL"; "CORE"; "TILE_TMP"; "SCALAR_TMP"].

(** BHaHGridFunction.__init__ and verify_gridfunction_group_is_valid, l.267-326. A "centering"
    keyword is not accepted. *)
Definition mk_BHaH (name : string) (dim : Z) (k : kwargs) (finf wave : string) : py gfunc :=
  match k_centering k with
  | Some _ => Err TypeError
  | None =>
      match base_init name (k_isbase k) with
      | Err e => Err e
      | Ok _ =>
          if str_in (k_group k) groups3 then
            let arr := match k_array k with
                       | Some a => Some a
                       | None => if String.eqb (k_group k) "EVOL" then Some "in_gfs"
                                 else if String.eqb (k_group k) "AUXEVOL" then Some "auxevol_gfs"
                                 else if String.eqb (k_group k) "AUX" then Some "aux_gfs" else None
                       end in
            let sync := match k_sync k with
                        | Some b => Some b
                        | None => if String.eqb (k_group k) "EVOL" then Some true else None
                        end in
            Ok (MkGf "BHaH" name (k_group k) (k_rank k) dim finf wave (k_isbase k) arr sync None)
          else Err ValueError
      end
  end.

(** ETLegacyGridFunction.__init__, l.459-479: the group is not verified. *)
Definition mk_ETLegacy (name : string) (dim : Z) (k : kwargs) (finf wave : string) : py gfunc :=
  match k_centering k, k_sync k with
  | None, None =>
      match base_init name (k_isbase k) with
      | Err e => Err e
      | Ok _ => Ok (MkGf "ETLegacy" name (k_group k) (k_rank k) dim finf wave (k_isbase k) None None None)
      end
  | _, _ => Err TypeError
  end.

(** The Literal list of centerings, l.17-32. *)
Definition centerings : list string :=
  ["CCC"; "CCV"; "CVC"; "CVV"; "VCC"; "VCV"; "VVC"; "VVV"; "CC"; "CV"; "VC"; "VV"; "V"; "C"].
(** verify_gridfunction_centering_is_valid, l.665-682. *)
Definition centering_ok (c : string) : bool :=
  Nat.eqb (String.length c) 3 &&
  forallb (fun ch => Ascii.eqb ch "C" || Ascii.eqb ch "V") (str_to_list c).
(** group_suffixes, l.611-618. *)
Definition group_suffix (g : string) : string :=
  if String.eqb g "EXTERNAL" then "_ext" else if String.eqb g "CORE" then "_core"
  else if String.eqb g "TILE_TMP" then "_tile_tmp" else "".

(** CarpetXGridFunction.__init__, l.583-628. *)
Definition mk_CarpetX (name : string) (dim : Z) (k : kwargs) (finf wave : string) : py gfunc :=
  match k_sync k with
  | Some _ => Err TypeError
  | None =>
      match base_init name (k_isbase k) with
      | Err e => Err e
      | Ok _ =>
          let c := match k_centering k with Some c => c | None => "CCC" end in
          if negb (str_in c centerings) then Err ValueError
          else if negb (centering_ok c) then Err ValueError
          else if negb (str_in (k_group k) groupsX) then Err ValueError
          else Ok (MkGf "CarpetX" (name ++ group_suffix (k_group k)) (k_group k) (k_rank k) dim
                        finf wave (k_isbase k) None None (Some c))
      end
  end.

(** [kwargs_modify[param]], l.843-847: a non-empty list is indexed, anything else passed on. *)
Definition pick (a : farg) (i : nat) : py string :=
  match a with
  | FScalar x => Ok x
  | FList [] => Ok "[]"
  | FList l => match nth_error l i with Some x => Ok x | None => Err IndexError end
  end.

(** The body of the loop for a new name, l.839-857. *)
Definition mk_gf (infra : string) (name : string) (i : nat) (dim : Z) (k : kwargs) : py gfunc :=
  match pick (k_finf k) i with
  | Err e => Err e
  | Ok finf =>
      match pick (k_wave k) i with
      | Err e => Err e
      | Ok wave =>
          if String.eqb infra "BHaH" then mk_BHaH name dim k finf wave
          else if String.eqb infra "ETLegacy" then mk_ETLegacy name dim k finf wave
          else if String.eqb infra "CarpetX" then mk_CarpetX name dim k finf wave
          else Err ValueError
      end
  end.

(** register_gridfunctions, l.835-861: names before a failing one stay registered.  The returned
    symbols carry the given names. *)
Fixpoint register_loop (infra : string) (i : nat) (names : list string) (dim : Z) (k : kwargs)
  (st : registry) : registry * py unit :=
  match names with
  | [] => (st, Ok tt)
  | name :: r =>
      if dmem name st then register_loop infra (S i) r dim k st
      else match mk_gf infra name i dim k with
           | Err e => (st, Err e)
           | Ok gf => register_loop infra (S i) r dim k (dset name gf st)
           end
  end.
Definition register_gridfunctions (infra : string) (names : list string) (dim : Z) (k : kwargs)
  (st : registry) : registry * py (list string) :=
  match register_loop infra 0 names dim k st with
  | (st', Ok _) => (st', Ok names)
  | (st', Err e) => (st', Err e)
  end.

(** [kwargs["is_basename"] = False; kwargs["rank"] = r], l.897-898, l.949-950, l.1068-1069. *)
Definition tensor_kw (r : Z) (k : kwargs) : kwargs :=
  MkKw (k_group k) r (k_finf k) (k_wave k) false (k_array k) (k_sync k) (k_centering k).

(** register_gridfunctions_for_single_rank1, l.864-902: [range(3)] whatever the dimension. *)
Definition register_rank1 (axes infra base : string) (dim : Z) (k : kwargs) (st : registry)
  : registry * py (tensor entry) :=
  match declare_indexedexp axes (Some base) 1 dim "" with
  | Err e => (st, Err e)
  | Ok T =>
      if Nat.ltb (eff_dim dim) 3 then (st, Err IndexError)
      else match register_loop infra 0 (map (fun i => str_entry (T [i])) [0; 1; 2]) dim (tensor_kw 1 k) st with
           | (st', Ok _) => (st', Ok T)
           | (st', Err e) => (st', Err e)
           end
  end.

(** The duplicate-free list of l.932-945. *)
Definition dedup_append (l : list string) (s : string) : list string :=
  if str_in s l then l else (l ++ [s])%list.

(** register_gridfunctions_for_single_rank2, l.905-954. [range(dimension)] with the dimension as
    given; an index outside the declared tensor cannot occur since [eff_dim] only enlarges. *)
Definition register_rank2 (axes infra base symmetry : string) (dim : Z) (k : kwargs) (st : registry)
  : registry * py (tensor entry) :=
  match declare_indexedexp axes (Some base) 2 dim symmetry with
  | Err e => (st, Err e)
  | Ok T =>
      let names := fold_left dedup_append
                     (map (fun i => str_entry (T i)) (product_range (Z.to_nat dim) 2)) [] in
      match register_loop infra 0 names dim (tensor_kw 2 k) st with
      | (st', Ok _) => (st', Ok T)
      | (st', Err e) => (st', Err e)
      end
  end.

(** register_gridfunctions_for_single_rankN, l.957-1073.  [list(set(...))] has no fixed order: the
    parameter [order] permutes the duplicate-free list. *)
Definition register_rankN (order : list string -> list string) (axes infra base : string) (rank : Z)
  (symmetry : string) (dim : Z) (k : kwargs) (st : registry) : registry * py (tensor entry) :=
  if negb (Z.leb 1 rank && Z.leb rank 4) then (st, Err ValueError)
  else
    let r := Z.to_nat rank in
    match declare_indexedexp axes (Some base) r dim (if Nat.eqb r 1 then "" else symmetry) with
    | Err e => (st, Err e)
    | Ok T =>
        let names := order (fold_left dedup_append
                       (map (fun i => str_entry (T i)) (product_range (eff_dim dim) r)) []) in
        match register_loop infra 0 names dim (tensor_kw rank k) st with
        | (st', Ok _) => (st', Ok T)
        | (st', Err e) => (st', Err e)
        end
    end.

(** Stable sort by [x.lower()], l.177 (Python's [sorted] is stable; insertion before the first
    strictly larger key). *)
Fixpoint insert_by (x : string) (l : list string) : list string :=
  match l with
  | [] => [x]
  | y :: r => if String.leb (py_lower y) (py_lower x) then y :: insert_by x r else x :: l
  end.
Definition sort_lower (l : list string) : list string := fold_left (fun acc x => insert_by x acc) l [].

(** GridFunction.gridfunction_lists, l.143-181: one group. *)
Definition group_list (g : string) (st : registry) : list string :=
  sort_lower (map (fun kv => g_name (snd kv)) (filter (fun kv => String.eqb (g_group (snd kv)) g) st)).
Definition gridfunction_lists (st : registry) : list string * list string * list string :=
  (group_list "EVOL" st, group_list "AUX" st, group_list "AUXEVOL" st).

(** BHaHGridFunction.gridfunction_defines, l.395-452: the macros of one group with their numbers
    (define_gfs, l.410-423), and the two per-gridfunction arrays of the EVOL group. *)
Definition macro_name (gf : string) : string := py_upper gf ++ "GF".
Definition define_gfs (gfs : list string) : list (string * nat) :=
  combine (map macro_name gfs) (seq 0 (List.length gfs)).
Fixpoint lookup_all (f : gfunc -> string) (st : registry) (names : list string) : py (list string) :=
  match names with
  | [] => Ok []
  | n :: r => match dget n st with
              | None => Err KeyError
              | Some gf => match lookup_all f st r with Err e => Err e | Ok l => Ok (f gf :: l) end
              end
  end.
Record defines : Type := MkDefs {
  d_evol : list (string * nat); d_aux : list (string * nat); d_auxevol : list (string * nat);
  d_num : nat * nat * nat; d_finf : list string; d_wave : list string }.
Definition gridfunction_defines (st : registry) : py defines :=
  let '(ev, ax, ae) := gridfunction_lists st in
  match lookup_all g_finf st ev with
  | Err e => Err e
  | Ok fi => match lookup_all g_wave st ev with
             | Err e => Err e
             | Ok wv => Ok (MkDefs (define_gfs ev) (define_gfs ax) (define_gfs ae)
                              (List.length ev, List.length ax, List.length ae) fi wv)
             end
  end.

(** The rank-2 parity tables of l.213-246. *)
Definition parity_table (dim : Z) : list (string * Z) :=
  (if Z.eqb dim 3 then
    [("00", 4); ("01", 5); ("10", 5); ("02", 6); ("20", 6); ("11", 7); ("12", 8); ("21", 8); ("22", 9)]
  else if Z.eqb dim 4 then
    [("00", 0); ("01", 1); ("10", 1); ("02", 2); ("20", 2); ("03", 3); ("30", 3); ("11", 4); ("12", 5);
     ("21", 5); ("13", 6); ("31", 6); ("22", 7); ("23", 8); ("32", 8); ("33", 9)]
  else [])%Z.

(** [int(c)] for one character. *)
Definition int_char (c : ascii) : py Z :=
  if is_digit c then Ok (Z.of_nat (nat_of_ascii c) - 48)%Z else Err ValueError.

(** The inner body of set_parity_types, l.204-256, for one matching gridfunction.  The message of the
    raise evaluates [gf.name[-2]]. *)
Definition parity_one (gf : gfunc) : py Z :=
  let cant := if Nat.ltb (String.length (g_name gf)) 2 then Err IndexError else Err ValueError in
  if Z.eqb (g_rank gf) 0 then Ok 0%Z
  else if Z.eqb (g_rank gf) 1 then
    match last_char (g_name gf) with
    | None => Err IndexError
    | Some c => match int_char c with Ok z => Ok (z + 1)%Z | Err e => Err e end
    end
  else if Z.eqb (g_rank gf) 2 then
    if Nat.ltb (String.length (g_name gf)) 2 then Err IndexError
    else match dget (str_last2 (g_name gf)) (parity_table (g_dim gf)) with
         | Some v => Ok v
         | None => cant
         end
  else cant.

(** set_parity_types, l.184-261: every registry value with that name contributes. *)
Fixpoint parity_values (name : string) (st : registry) : py (list Z) :=
  match st with
  | [] => Ok []
  | (_, gf) :: r =>
      if String.eqb (g_name gf) name then
        match parity_one gf with
        | Err e => Err e
        | Ok v => match parity_values name r with Err e => Err e | Ok l => Ok (v :: l) end
        end
      else parity_values name r
  end.
Fixpoint parity_loop (names : list string) (st : registry) : py (list Z) :=
  match names with
  | [] => Ok []
  | n :: r => match parity_values n st with
              | Err e => Err e
              | Ok l => match parity_loop r st with Err e => Err e | Ok l' => Ok (l ++ l')%list end
              end
  end.
Definition set_parity_types (names : list string) (st : registry) : py (list Z) :=
  match parity_loop names st with
  | Err e => Err e
  | Ok l => if Nat.eqb (List.length l) (List.length names) then Ok l else Err ValueError
  end.
