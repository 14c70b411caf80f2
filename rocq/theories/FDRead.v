(** Model of the name handling and memory reads of nrpy/finite_difference.py, l.333-836, and of the
    gridfunction access strings of nrpy/grid.py. *)
From Coq Require Import String Ascii List ZArith Bool.
From Verif Require Import PyBase PyList Grid.
Import ListNotations.
Open Scope string_scope.

(** ** Classification and extraction of derivative symbols *)
Inductive symkind : Type := KGridfunction | KCparameter | KOther.

(** symbol_is_gridfunction_Cparameter_or_other, l.333-374; [cpars] are the names in
    glb_code_params_dict. *)
Definition symbol_kind (reg : registry) (cpars : list string) (v : string) : py symkind :=
  let gf := dmem v reg in
  let cp := str_in v cpars in
  if gf && cp then Err ValueError
  else if cp then Ok KCparameter else if gf then Ok KGridfunction else Ok KOther.

(** [any(s in str(var) for s in ["_dD", "_dKOD", "_dupD", "_ddnD"])], l.411 *)
Definition deriv_like (v : string) : bool :=
  existsb (fun s => py_in s v) ["_dD"; "_dKOD"; "_dupD"; "_ddnD"].

(** The loop l.408-418. *)
Fixpoint deriv_vars_loop (reg : registry) (cpars : list string) (l : list string) : py (list string) :=
  match l with
  | [] => Ok []
  | v :: r =>
      match symbol_kind reg cpars v with
      | Err e => Err e
      | Ok k =>
          match deriv_vars_loop reg cpars r with
          | Err e => Err e
          | Ok t => match k with
                    | KOther => if deriv_like v then Ok (v :: t) else Ok t
                    | _ => Ok t
                    end
          end
      end
  end.

(** extract_list_of_deriv_var_strings_from_sympyexpr_list, l.380-433.  Symbols are their names;
    [sympify] of a name is that symbol.  The final sort by SymPy's key is the parameter [order]. *)
Definition extract_deriv_vars (order : list string -> list string) (reg : registry) (cpars : list string)
  (free : list string) (upwinding : bool) : py (list string) :=
  match deriv_vars_loop reg cpars free with
  | Err e => Err e
  | Ok dup =>
      let vars := superfast_uniq String.eqb dup in
      let vars' := if upwinding
                   then (vars ++ map (py_replace "_dupD" "_ddnD") (filter (py_in "_dupD") vars))%list
                   else vars in
      Ok (order vars')
  end.

(** ** Parsing one derivative symbol, l.517-567 *)
Fixpoint drop_while (p : ascii -> bool) (l : list ascii) : list ascii :=
  match l with [] => [] | c :: r => if p c then drop_while p r else l end.
Fixpoint count_while (p : ascii -> bool) (l : list ascii) : nat :=
  match l with [] => 0 | c :: r => if p c then S (count_while p r) else 0 end.
Definition count_char (c : ascii) (l : list ascii) : nat := List.length (filter (Ascii.eqb c) l).
(** [s.rstrip("0123456789")] *)
Definition rstrip_digits (l : list ascii) : list ascii := rev (drop_while is_digit (rev l)).
(** [s.rfind(c)]; [None] is -1. *)
Fixpoint find_char (c : ascii) (l : list ascii) : option nat :=
  match l with
  | [] => None
  | x :: r => if Ascii.eqb x c then Some 0 else option_map S (find_char c r)
  end.
Definition rfind_char (c : ascii) (l : list ascii) : option nat :=
  option_map (fun i => List.length l - 1 - i) (find_char c (rev l)).
(** [s[a:b]] for 0 <= a, b <= len *)
Definition slice (a b : nat) (l : list ascii) : list ascii := firstn (b - a) (skipn a l).
Definition is_UD (c : ascii) : bool := Ascii.eqb c "U" || Ascii.eqb c "D".

Definition parse_deriv_var (varstr : string) : py (string * string) :=
  let l := str_to_list varstr in
  let len := List.length l in
  let num_UDs := count_char "D" l + count_char "U" l in
  let num_digits := len - List.length (rstrip_digits l) in
  if negb (Nat.eqb num_UDs num_digits) then Err TypeError
  else
    match rfind_char "_" l with
    | Some us =>
        let rank := count_while is_UD (rev (firstn us l)) in
        let order := count_char "D" (skipn (us + 1) l) in
        Ok (list_to_str (firstn us l ++ slice (len - order - rank) (len - order) l),
            list_to_str (slice (us + 1) (len - order - rank) l ++ skipn (len - order) l))
    | None => (* underscore_position = -1: [s[:-1]], no rank, all D's counted *)
        let order := count_char "D" l in
        Ok (list_to_str (firstn (len - 1) l),
            list_to_str (slice 0 (len - order) l ++ skipn (len - order) l))
    end.

(** extract_base_gfs_and_deriv_ops_lists__from_list_of_deriv_vars, l.489-572. *)
Fixpoint extract_bases_ops (l : list string) : py (list string * list string) :=
  match l with
  | [] => Ok ([], [])
  | v :: r => match parse_deriv_var v with
              | Err e => Err e
              | Ok (b, o) => match extract_bases_ops r with
                             | Err e => Err e
                             | Ok (bs, os) => Ok (b :: bs, o :: os)
                             end
              end
  end.

(** ** Names of temporaries, l.438-486 *)
Definition pt : Type := Z * Z * Z.
Definition pt_eqb (p q : pt) : bool :=
  let '(a, b, c) := p in let '(a', b', c') := q in Z.eqb a a' && Z.eqb b b' && Z.eqb c c'.

Definition offset_suffix (axis : string) (o : Z) : list string :=
  if Z.ltb o 0 then [axis ++ "m" ++ str_of_Z (Z.abs o)]
  else if Z.ltb 0 o then [axis ++ "p" ++ str_of_Z o] else [].
Definition fd_temp_variable_name (base : string) (p : pt) : py string :=
  if String.eqb base "" then Err ValueError
  else let '(a, b, c) := p in
       let l := (offset_suffix "i0" a ++ offset_suffix "i1" b ++ offset_suffix "i2" c)%list in
       match l with
       | [] => Ok base
       | _ => Ok (base ++ "_" ++ String.concat "_" l)
       end.

(** ** Access strings: nrpy/grid.py *)
(** l.352-354: [f"i0+{o}".replace("+-", "-") if o != 0 else "i0"] *)
Definition offset_index (axis : string) (o : Z) : string :=
  if Z.eqb o 0 then axis else py_replace "+-" "-" (axis ++ "+" ++ str_of_Z o).
(** l.749-754 (CarpetX) *)
Definition offset_carpetx (d : string) (o : Z) : string :=
  if Z.eqb o 0 then "" else py_replace "+ -" "- " (" + " ++ str_of_Z o ++ "*p.DI[" ++ d ++ "]").

(** BHaH l.329-362, ETLegacy l.531-570, CarpetX l.723-774; default keyword arguments. *)
Definition read_onept (gf : gfunc) (p : pt) (simd : bool) : string :=
  let '(a, b, c) := p in
  let idx := offset_index "i0" a ++ ", " ++ offset_index "i1" b ++ ", " ++ offset_index "i2" c in
  let s :=
    if String.eqb (g_infra gf) "BHaH" then
      match g_array gf with Some n => n | None => "None" end ++
      "[IDX4(" ++ py_upper (g_name gf) ++ "GF, " ++ idx ++ ")]"
    else if String.eqb (g_infra gf) "ETLegacy" then
      g_name gf ++ "GF[CCTK_GFINDEX3D(cctkGH, " ++ idx ++ ")]"
    else g_name gf ++ "GF(p.I" ++ offset_carpetx "0" a ++ offset_carpetx "1" b ++ offset_carpetx "2" c ++ ")" in
  if simd then "ReadSIMD(&" ++ s ++ ")" else s.

(** Default gf_type of the three constructors (l.275, l.467, l.592); an overriding keyword is not
    modelled. *)
Definition gf_type (gf : gfunc) : string :=
  if String.eqb (g_infra gf) "BHaH" then "REAL" else "CCTK_REAL".

(** ** read_gfs_from_memory, l.575-836 *)
(** Points are kept as integer triples; the source prints them as "a,b,c" and parses them back. *)
Definition unique_idx (style : string) (p : pt) : py Z :=
  let '(a, b, c) := p in
  (if String.eqb style "210" then Ok ((a + 50) + 100 * ((b + 50) + 100 * (c + 50)))
   else if String.eqb style "012" then Ok ((c + 50) + 100 * ((b + 50) + 100 * (a + 50)))
   else Err ValueError)%Z.

(** Step 4a, l.663-671. *)
Fixpoint points_of_derivs (bases : list string) (stencils : list (list pt)) (d : dict (list pt))
  : py (dict (list pt)) :=
  match bases with
  | [] => Ok d
  | b :: r =>
      let continue d' := points_of_derivs r (tl stencils) d' in
      match dget b d with
      | None => continue d
      | Some l => match stencils with
                  | [] => Err IndexError
                  | s :: _ => continue (dset b (l ++ s)%list d)
                  end
      end
  end.

(** Step 4b, l.677-682. *)
Fixpoint points_of_free (reg : registry) (cpars free : list string) (d : dict (list pt)) : py (dict (list pt)) :=
  match free with
  | [] => Ok d
  | v :: r =>
      match symbol_kind reg cpars v with
      | Err e => Err e
      | Ok KGridfunction =>
          match dget v d with
          | Some l => points_of_free reg cpars r (dset v (l ++ [(0, 0, 0)%Z])%list d)
          | None => points_of_free reg cpars r d
          end
      | Ok _ => points_of_free reg cpars r d
      end
  end.

(** sort_memory_accesses, l.733-781, one gridfunction: zip with keys, stable sort, unzip. *)
Fixpoint keyed (style : string) (l : list pt) : py (list (Z * pt)) :=
  match l with
  | [] => Ok []
  | p :: r => match unique_idx style p with
              | Err e => Err e
              | Ok k => match keyed style r with Err e => Err e | Ok t => Ok ((k, p) :: t) end
              end
  end.
Definition sort_points (style : string) (l : list pt) : py (list pt) :=
  match keyed style l with
  | Err e => Err e
  | Ok kl => Ok (map snd (py_sorted (fun x y => Z.leb (fst x) (fst y)) kl))
  end.
Fixpoint sort_all (style : string) (d : dict (list pt)) : py (dict (list pt)) :=
  match d with
  | [] => Ok []
  | (k, l) :: r => match sort_points style l with
                   | Err e => Err e
                   | Ok l' => match sort_all style r with Err e => Err e | Ok t => Ok ((k, l') :: t) end
                   end
  end.

(** One emitted declaration. *)
Record read : Type := MkRead { r_gf : string; r_pt : pt; r_type : string; r_var : string; r_text : string }.

Fixpoint emit_points (simd : bool) (key : string) (gf : gfunc) (ty : string) (l : list pt) : py (list read) :=
  match l with
  | [] => Ok []
  | p :: r => match fd_temp_variable_name (g_name gf) p with
              | Err e => Err e
              | Ok v => match emit_points simd key gf ty r with
                        | Err e => Err e
                        | Ok t => Ok (MkRead key p ty v (read_onept gf p simd) :: t)
                        end
              end
  end.
(** The last loop, l.817-834, over the gridfunctions sorted by name. *)
Fixpoint emit_all (infra : string) (simd : bool) (reg : registry) (pts : dict (list pt)) (names : list string)
  : py (list read) :=
  match names with
  | [] => Ok []
  | n :: r =>
      match dget n reg with
      | None => Err KeyError
      | Some gf =>
          if simd && negb (str_in infra ["BHaH"; "CarpetX"; "ETLegacy"]) then Err ValueError
          else
            let ty := if simd then "REAL_SIMD_ARRAY" else gf_type gf in
            match emit_points simd n gf ty (match dget n pts with Some l => l | None => [] end) with
            | Err e => Err e
            | Ok a => match emit_all infra simd reg pts r with Err e => Err e | Ok b => Ok (a ++ b)%list end
            end
      end
  end.

Definition read_gfs_list (reg : registry) (cpars : list string) (infra : string)
  (bases : list string) (stencils : list (list pt)) (free : list string) (style : string) (simd : bool)
  : py (list read) :=
  py_bind (points_of_derivs bases stencils (map (fun kv => (fst kv, [])) reg)) (fun d1 =>
  py_bind (points_of_free reg cpars free d1) (fun d2 =>
  let d3 := map (fun kv => (fst kv, superfast_uniq pt_eqb (snd kv))) d2 in
  py_bind (sort_all style d3) (fun d4 =>
  match reg with
  | [] => Err RuntimeError
  | _ => emit_all infra simd reg d4 (py_sorted String.leb (dkeys reg))
  end))).

(** The C text, l.834. *)
Definition read_line (r : read) : string :=
  "const " ++ r_type r ++ " " ++ r_var r ++ " = " ++ r_text r ++ ";" ++ String "010" "".
Definition read_gfs_from_memory (reg : registry) (cpars : list string) (infra : string)
  (bases : list string) (stencils : list (list pt)) (free : list string) (style : string) (simd : bool)
  : py string :=
  match read_gfs_list reg cpars infra bases stencils free style simd with
  | Err e => Err e
  | Ok l => Ok (String.concat "" (map read_line l))
  end.
