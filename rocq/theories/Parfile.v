(** Model of nrpy/infrastructures/BHaH/cmdline_input_and_parfiles.py: the C parser of parameter files that it generates, the table it generates for it,
    and the default parameter file it writes.  C strings are lists of characters (files and arguments without NUL bytes); the C locale; int has 32
    bits, long 64.  Left out: the messages, the text of the C function (the functions below are its meaning). *)
From Coq Require Import String Ascii List ZArith Bool Arith.
From Verif Require Import PyBase PyList Params Registry.
From Verif Require CacheFS.
Import ListNotations.
Open Scope list_scope.
Open Scope string_scope.

(** ** The C parser *)
Definition chars : Type := list ascii.
(** exit(1); a write outside a buffer; a value *)
Inductive pres (A : Type) : Type := PExit | POver | PVal (a : A).
Arguments PExit {A}. Arguments POver {A}. Arguments PVal {A} a.
Definition pbind {A B} (m : pres A) (f : A -> pres B) : pres B := match m with PVal a => f a | PExit => PExit | POver => POver end.
Fixpoint pmap {A B} (f : A -> pres B) (l : list A) : pres (list B) :=
  match l with [] => PVal [] | x :: r => pbind (f x) (fun y => pbind (pmap f r) (fun ys => PVal (y :: ys))) end.

Definition isspace (c : ascii) : bool := let n := nat_of_ascii c in ((9 <=? n) && (n <=? 13) || (n =? 32))%nat.
Definition isalnum (c : ascii) : bool :=
  let n := nat_of_ascii c in ((48 <=? n) && (n <=? 57) || (65 <=? n) && (n <=? 90) || (97 <=? n) && (n <=? 122))%nat.
(** LINE_SIZE, PARAM_SIZE, MAX_ARRAY_SIZE, l.47-48, l.134 *)
Definition LINE_SIZE : nat := 1024.
Definition PARAM_SIZE : nat := 128.
Definition MAX_ARRAY_SIZE : nat := 100.
(** strchr: what is before the first [c], and what is after it *)
Fixpoint upto (c : ascii) (l : chars) : chars * option chars :=
  match l with
  | [] => ([], None)
  | x :: r => if Ascii.eqb x c then ([], Some r) else let '(a, b) := upto c r in (x :: a, b)
  end.
(** strtok with one delimiter: delimiters at the start are skipped; the token and the rest of the string *)
Fixpoint skip (c : ascii) (l : chars) : chars := match l with x :: r => if Ascii.eqb x c then skip c r else l | [] => [] end.
Definition strtok (c : ascii) (l : chars) : option (chars * chars) :=
  match skip c l with
  | [] => None
  | l' => let '(t, r) := upto c l' in Some (t, match r with Some r => r | None => [] end)
  end.
Fixpoint ltrim (l : chars) : chars := match l with x :: r => if isspace x then ltrim r else l | [] => [] end.
(** trim_space, l.59-79 *)
Definition trim_space (l : chars) : chars := rev (ltrim (rev (ltrim l))).
(** safe_copy into a buffer of [size], l.91-111 *)
Definition safe_copy (src : chars) (size : nat) : pres chars := if (size <=? List.length src)%nat then PExit else PVal src.

(** strtol(value, &end, 10): [None] if there are no digits, otherwise the number (before the check of the range) and the rest *)
Fixpoint digits (acc : Z) (l : chars) : Z * chars :=
  match l with
  | c :: r => if is_digit c then digits (10 * acc + Z.of_nat (nat_of_ascii c - 48)) r else (acc, l)
  | [] => (acc, [])
  end.
Definition strtol (l : chars) : option (Z * chars) :=
  let unsigned s := match s with c :: _ => if is_digit c then Some (digits 0 s) else None | [] => None end in
  match ltrim l with
  | c :: r => if Ascii.eqb c "-" then match unsigned r with Some (z, e) => Some ((- z)%Z, e) | None => None end
              else if Ascii.eqb c "+" then unsigned r else unsigned (c :: r)
  | [] => None
  end.
(** the conversion of a long to an int *)
Definition to_int (z : Z) : Z := ((z + 2 ^ 31) mod 2 ^ 32 - 2 ^ 31)%Z.
(** read_integer, l.318-329 *)
Definition read_integer (value : chars) : pres Z :=
  match strtol value with
  | Some (z, []) => if ((z <? - 2 ^ 63) || (2 ^ 63 <=? z))%Z then PExit else PVal (to_int z)
  | _ => PExit
  end.
(** atoi *)
Definition atoi (l : chars) : Z := match strtol l with Some (z, _) => to_int z | None => 0 end.
Definition DQ_char : ascii := ascii_of_nat 34.
(** read_chararray, l.352-372 *)
Definition read_chararray (value : chars) (size : nat) : pres chars :=
  let len := List.length value in
  let quoted := match value with c :: _ => Ascii.eqb c DQ_char && Ascii.eqb (last value c) DQ_char | [] => false end in
  pbind (if quoted then
           (if (len =? 1)%nat || (size <=? len - 2)%nat then PExit            (* len - 2 wraps around for len = 1 *)
            else if (PARAM_SIZE <=? len - 2)%nat then POver                   (* trimmed_value[len - 2] *)
            else PVal (firstn (len - 2) (tl value)))
         else safe_copy value PARAM_SIZE)
    (fun t => if (size <=? List.length t)%nat then PExit else safe_copy t size).

(** parse_param, l.247-273: name and size; size_str has 16 characters *)
Definition parse_param (param_str : chars) : pres (chars * Z) :=
  match upto "[" param_str with
  | (nm, Some r) =>
      match upto "]" r with
      | (_, None) => PExit
      | (sz, Some _) => if (16 <=? List.length sz)%nat then POver else if (atoi sz <=? 0)%Z then PExit else PVal (nm, atoi sz)
      end
  | (_, None) => pbind (safe_copy param_str PARAM_SIZE) (fun n => PVal (n, 0%Z))
  end.
(** the loop of parse_value over the tokens, l.288-301 *)
Fixpoint value_tokens (fuel count : nat) (l : chars) : pres (list chars) :=
  match fuel with
  | O => PVal []
  | S k =>
      match strtok "," l with
      | None => PVal []
      | Some (t, r) =>
          pbind (safe_copy (trim_space t) PARAM_SIZE) (fun v =>
          if (MAX_ARRAY_SIZE <=? count)%nat then POver                        (* values[count] *)
          else pbind (value_tokens k (S count) r) (fun vs => PVal (v :: vs)))
      end
  end.
(** parse_value, l.276-311 *)
Definition parse_value (value_str : chars) : pres (list chars) :=
  match value_str with
  | c :: r =>
      if Ascii.eqb c "{" then
        if negb (Ascii.eqb (last value_str c) "}") then PExit
        else pbind (safe_copy r LINE_SIZE) (fun v => let v := removelast v in value_tokens (S (List.length v)) 0 v)
      else pbind (safe_copy value_str PARAM_SIZE) (fun m => pbind (safe_copy (trim_space m) PARAM_SIZE) (fun t => PVal [t]))
  | [] => PVal [[]]
  end.

(** param_type and param_descriptor, l.137-146 *)
Inductive ptype : Type := PARAM_REAL | PARAM_INT | PARAM_CHARARRAY | PARAM_REAL_ARRAY | PARAM_INT_ARRAY.
Record descr : Type := MkD { d_name : string; d_index : nat; d_type : ptype; d_array : Z; d_buf : Z }.
(** find_param_descriptor, l.226-233 *)
Definition find_descr (table : list descr) (name : chars) : option descr :=
  find (fun d => if list_eq_dec ascii_dec (str_to_list (d_name d)) name then true else false) table.

(** *** Generated code around it *)
(** The values of the struct; strtod with the checks of read_REAL (l.335-346) is a parameter: [None] where it exits. *)
Section Reader.
Variables (REAL : Type) (strtod : chars -> option REAL).
Inductive cval : Type := CReal (x : REAL) | CInt (z : Z) | CChars (s : chars) | CReals (l : list REAL) | CInts (l : list Z).
Definition store : Type := string -> cval.
Definition upd (s : store) (k : string) (v : cval) : store := fun k' => if String.eqb k' k then v else s k'.
Definition read_REAL (value : chars) : pres REAL := match strtod value with Some x => PVal x | None => PExit end.
(** the assignments, l.546-594: [values] are values_array *)
Definition assign (d : descr) (values : list chars) (s : store) : pres store :=
  let v0 := nth 0 values [] in
  let first_n := firstn (Z.to_nat (d_array d)) values in
  match d_type d with
  | PARAM_REAL => pbind (read_REAL v0) (fun x => PVal (upd s (d_name d) (CReal x)))
  | PARAM_INT => pbind (read_integer v0) (fun z => PVal (upd s (d_name d) (CInt z)))
  | PARAM_CHARARRAY => pbind (read_chararray v0 (Z.to_nat (d_buf d))) (fun t => PVal (upd s (d_name d) (CChars t)))
  | PARAM_REAL_ARRAY => pbind (pmap read_REAL first_n) (fun l => PVal (upd s (d_name d) (CReals l)))
  | PARAM_INT_ARRAY => pbind (pmap read_integer first_n) (fun l => PVal (upd s (d_name d) (CInts l)))
  end.
(** the statements for the steerable parameters, l.608-624 *)
Inductive steer : Type := SChars (key : string) (buf : Z) | SInt (key : string) | SReal (key : string) | SBool (key : string).
Definition steer_one (t : steer) (arg : chars) (s : store) : pres store :=
  match t with
  | SChars k buf => pbind (read_chararray arg (Z.to_nat buf)) (fun x => PVal (upd s k (CChars x)))
  | SInt k => pbind (read_integer arg) (fun z => PVal (upd s k (CInt z)))
  | SReal k => pbind (read_REAL arg) (fun x => PVal (upd s k (CReal x)))
  | SBool _ => PExit
  end.
Fixpoint steer_all (l : list (steer * chars)) (s : store) : pres store :=
  match l with [] => PVal s | (t, a) :: r => pbind (steer_one t a s) (steer_all r) end.
(** one line of the file, l.473-627.  The state is the struct and the indices that were set.  [over]: the statements for the steerable parameters with
    their arguments, empty for options 1 and 2; they are inside the loop over the lines, and [continue] jumps over them. *)
Definition line_step (table : list descr) (over : list (steer * chars)) (st : store * list nat) (line : chars) : pres (store * list nat) :=
  let finish (st : store * list nat) := pbind (steer_all over (fst st)) (fun s => PVal (s, snd st)) in
  match strtok "=" (fst (upto "#" line)) with
  | None => finish st
  | Some (p, r) =>
      pbind (safe_copy (trim_space p) PARAM_SIZE) (fun param =>
      match strtok "=" r with
      | None => finish st
      | Some (q, _) =>
          pbind (safe_copy (trim_space q) PARAM_SIZE) (fun value =>
          pbind (parse_param param) (fun na =>
          let '(nm, array_size) := na in
          if negb (forallb (fun c => isalnum c || Ascii.eqb c "_") nm) then PExit
          else pbind (parse_value value) (fun values =>
          match find_descr table nm with
          | None => PVal st
          | Some d =>
              if existsb (Nat.eqb (d_index d)) (snd st) then PExit
              else
                let array := match d_type d with PARAM_CHARARRAY => false | _ => (0 <? d_array d)%Z end in
                let count := Z.of_nat (List.length values) in
                if (if array then negb (array_size =? d_array d)%Z || negb (count =? d_array d)%Z else (0 <? array_size)%Z || negb (count =? 1)%Z) then PExit
                else pbind (assign d values (fst st)) (fun s => finish (s, d_index d :: snd st))
          end)))
      end)
  end.
Fixpoint run_lines (table : list descr) (over : list (steer * chars)) (st : store * list nat) (lines : list chars) : pres (store * list nat) :=
  match lines with [] => PVal st | l :: r => pbind (line_step table over st l) (fun st => run_lines table over st r) end.
End Reader.

(** fgets(line, 1024, file): up to 1023 characters, stopping after a newline *)
Fixpoint fgets (room : nat) (l : chars) : chars * chars :=
  match room, l with
  | O, _ => ([], l)
  | _, [] => ([], [])
  | S k, c :: r => if Ascii.eqb c CacheFS.LF then ([c], r) else let '(a, b) := fgets k r in (c :: a, b)
  end.
Fixpoint fgets_all (fuel : nat) (l : chars) : list chars :=
  match fuel, l with
  | S k, _ :: _ => let '(a, b) := fgets (LINE_SIZE - 1) l in a :: fgets_all k b
  | _, _ => []
  end.
Definition file_lines (l : chars) : list chars := fgets_all (List.length l) l.

(** The usage option, l.414-455: [help]: argc = 2 and argv[1] is -h or --help; [opens]: argv[1] can be opened *)
Inductive choice : Type := Exit0 | Exit1 | Option (k : nat).
Definition usage_option (argc number_of_steerable_parameters : nat) (help opens : bool) : choice :=
  if (argc =? 2)%nat && help then Exit0
  else if (argc =? 1)%nat then Option 1
  else if (argc =? 2)%nat then (if opens then Option 2 else if (argc =? 1 + number_of_steerable_parameters)%nat then Option 3 else Exit1)
  else if (argc =? 1 + number_of_steerable_parameters)%nat then Option 3
  else if (argc =? 2 + number_of_steerable_parameters)%nat then (if opens then Option 4 else Exit1)
  else Exit1.

(** The function, l.412-628: [par] is the content of "{project_name}.par" and [read] that of a named file, [None] if it cannot be opened; [argv] contains
    the name of the program; [steers]: the statements for the parameters in cmdline_inputs, [None] where there is none. *)
Inductive outcome (A : Type) : Type := Help | Ran (r : pres A).
Arguments Help {A}. Arguments Ran {A} r.
Definition is_help (a : chars) : bool :=
  (if list_eq_dec ascii_dec a (str_to_list "-h") then true else false) || (if list_eq_dec ascii_dec a (str_to_list "--help") then true else false).
Definition overrides (steers : list (option steer)) (args : list chars) : list (steer * chars) :=
  flat_map (fun p => match fst p with Some t => [(t, snd p)] | None => [] end) (combine steers args).
Definition parser (REAL : Type) (strtod : chars -> option REAL) (table : list descr) (steers : list (option steer)) (par : option chars)
    (read : chars -> option chars) (argv : list chars) (s : store REAL) : outcome (store REAL) :=
  let n := List.length steers in
  let argv1 := nth 1 argv [] in
  match usage_option (List.length argv) n (is_help argv1) (match read argv1 with Some _ => true | None => false end) with
  | Exit0 => Help
  | Exit1 => Ran PExit
  | Option k =>
      match (if (k =? 1) || (k =? 3) then par else read argv1)%nat with
      | None => Ran PExit
      | Some text =>
          let over := if ((k =? 3) || (k =? 4))%nat then overrides steers (skipn (List.length argv - n) argv) else [] in
          Ran (pbind (run_lines REAL strtod table over (s, []) (file_lines text)) (fun st => PVal (fst st)))
      end
  end.

(** ** The generated table, l.149-205 *)
Definition in_parfile (c : code_param) : bool := cp_parfile c && cp_commondata c.
Definition bracket_size (t : string) : py Z := py_int (nth 0 (py_split "]" (after_bracket t)) "").
(** type, array_size, buffer_size of one parameter; [None]: the type is skipped *)
Definition table_type (cparam_type : string) : py (option (ptype * Z * Z)) :=
  let t := CacheFS.py_strip cparam_type in
  if py_in "int[" t || py_in "int [" t then py_bind (bracket_size t) (fun n => Ok (Some (PARAM_INT_ARRAY, n, 0%Z)))
  else if py_in "REAL[" t || py_in "REAL [" t then py_bind (bracket_size t) (fun n => Ok (Some (PARAM_REAL_ARRAY, n, 0%Z)))
  else if String.eqb t "int" then Ok (Some (PARAM_INT, 0%Z, 0%Z))
  else if String.eqb t "REAL" then Ok (Some (PARAM_REAL, 0%Z, 0%Z))
  else if py_in "char" t && py_in "[" t && py_in "]" t then py_bind (bracket_size t) (fun n => Ok (Some (PARAM_CHARARRAY, 0%Z, n)))
  else Ok None.
Fixpoint table_from (l : cparams_dict) (param_index : nat) : py (list descr) :=
  match l with
  | [] => Ok []
  | (key, c) :: r =>
      if in_parfile c then
        py_bind (table_type (cp_type c)) (fun o =>
        match o with
        | Some (t, a, b) => py_bind (table_from r (S param_index)) (fun ds => Ok (MkD key param_index t a b :: ds))
        | None => table_from r param_index
        end)
      else table_from r param_index
  end.
Definition param_table (d : cparams_dict) : py (list descr) := table_from (py_sorted (fun a b => String.leb (fst a) (fst b)) d) 0.
(** NUM_PARAMETERS, the length of params_set, l.38-45, l.470 *)
Definition NUM_PARAMETERS (d : cparams_dict) : nat := List.length (filter (fun kv => in_parfile (snd kv)) d).
(** The statements for the steerable parameters, l.609-623 *)
Definition steer_stmt (d : cparams_dict) (key : string) : py (option steer) :=
  match dget key d with
  | None => Err KeyError
  | Some c =>
      if in_parfile c then
        let t := CacheFS.py_strip (cp_type c) in
        if py_in "char" t then (if py_in "[" t then py_bind (bracket_size t) (fun n => Ok (Some (SChars key n))) else Err IndexError)
        else if String.eqb t "int" then Ok (Some (SInt key))
        else if String.eqb t "REAL" then Ok (Some (SReal key))
        else if py_in "bool" t then Ok (Some (SBool key))
        else Ok None
      else Ok None
  end.
(** Which reading functions are part of the C file, l.156-187, l.315-403: found_boolean is never set *)
Definition defines_integer (table : list descr) : bool := existsb (fun d => match d_type d with PARAM_INT | PARAM_INT_ARRAY => true | _ => false end) table.
Definition defines_REAL (table : list descr) : bool := existsb (fun d => match d_type d with PARAM_REAL | PARAM_REAL_ARRAY => true | _ => false end) table.
Definition defines_chararray (table : list descr) : bool := existsb (fun d => match d_type d with PARAM_CHARARRAY => true | _ => false end) table.
Definition defines_boolean (table : list descr) : bool := false.
Definition is_defined (table : list descr) (t : steer) : bool :=
  match t with SChars _ _ => defines_chararray table | SInt _ => defines_integer table | SReal _ => defines_REAL table | SBool _ => defines_boolean table end.

(** The C function compiles: the chain of assignments starts with an "if" (l.551-603), and the reading functions it calls are there *)
Definition compiles (table : list descr) (steers : list (option steer)) : bool :=
  negb (List.length table =? 0)%nat && forallb (fun o => match o with Some t => is_defined table t | None => true end) steers.

(** ** generate_default_parfile, l.661-897 *)
Section Default.
(** f"{v}", f"{float(v)}" and str(int(v)) *)
Variables (vstr : pyval -> string) (vfloat vint : pyval -> py string).
Definition isdigit (s : string) : bool := match s with EmptyString => false | _ => forallb is_digit (str_to_list s) end.
(** parse_array_type, l.773-786: t.split("[")[0] and the slice from after the first "[" to the first "]" of the whole type, empty if that comes first *)
Definition parse_array_type (t : string) : option (string * nat) :=
  match upto "[" (str_to_list t) with
  | (base, Some r) =>
      match upto "]" r with
      | (sz, Some _) =>
          if negb (existsb (Ascii.eqb "]") base) && isdigit (list_to_str sz) then Some (list_to_str base, Z.to_nat (fst (digits 0 sz))) else None
      | _ => None
      end
  | _ => None
  end.
Definition escape (s : string) : string := py_replace DQ ("\" ++ DQ) s.
(** the line of one parameter, l.792-845 *)
Definition parfile_line (parname : string) (c : code_param) : py string :=
  let description := CacheFS.py_strip (cp_desc c) in
  let description_suffix := if String.eqb description "" then "" else " " ++ description in
  match parse_array_type (cp_type c) with
  | Some (base, size) =>
      let base_type := py_lower base in
      let values (f : pyval -> py string) (display : string) :=
        py_bind (f (cp_default c)) (fun v =>
        Ok (parname ++ "[" ++ str_of_nat size ++ "] = { " ++ String.concat ", " (repeat v size) ++ " }  # (" ++ display ++ ")" ++ description_suffix ++ NL)) in
      if String.eqb base_type "real" then values vfloat "REAL"
      else if String.eqb base_type "int" then values vint "int"
      else if String.eqb base_type "char" then
        match cp_default c with
        | VStr s => Ok (parname ++ " = " ++ DQ ++ escape s ++ DQ ++ "  # (char[" ++ str_of_nat size ++ "])" ++ description_suffix ++ NL)
        | _ => Err ValueError
        end
      else Err ValueError
  | None =>
      if prefix "char" (py_lower (cp_type c)) then
        match cp_default c with
        | VStr s => Ok (parname ++ " = " ++ DQ ++ escape s ++ DQ ++ "  # (" ++ cp_type c ++ ")" ++ description_suffix ++ NL)
        | _ => Err ValueError
        end
      else Ok (parname ++ " = " ++ vstr (cp_default c) ++ "  # (" ++ cp_type c ++ ")" ++ description_suffix ++ NL)
  end.
(** parfile_output_dict, l.770, l.789-845 *)
Fixpoint by_module (l : cparams_dict) (acc : dict (list string)) : py (dict (list string)) :=
  match l with
  | [] => Ok acc
  | (k, c) :: r =>
      if in_parfile c then
        py_bind (parfile_line k c) (fun line =>
        by_module r (dset (cp_module c) ((match dget (cp_module c) acc with Some l => l | None => [] end) ++ [line])%list acc))
      else by_module r acc
  end.
Definition RULE : string := "###########################" ++ NL.
(** l.788-791, l.847-866 *)
Definition parfile_text (project_name : string) (d : cparams_dict) : py string :=
  py_bind (by_module (py_sorted (fun a b => String.leb (cp_module (snd a)) (cp_module (snd b))) d) []) (fun m =>
  Ok ("#### " ++ project_name ++ " BH@H parameter file. NOTE: only commondata CodeParameters appear here ###" ++ NL ++
      String.concat "" (map (fun kv => RULE ++ RULE ++ "### Module: " ++ fst kv ++ NL ++ String.concat "" (py_sorted String.leb (snd kv)))
        (py_sorted (fun a b => String.leb (fst a) (fst b)) m)))).
(** align_by_hash, l.868-892: the part of a line before its first "#", and the part from there, for the lines that do not start with it *)
Definition to_align (line : string) : option (chars * chars) :=
  match upto "#" (str_to_list line) with
  | (a, Some b) => if prefix "#" (CacheFS.py_strip line) then None else Some (a, "#"%char :: b)
  | _ => None
  end.
Definition max_length (lines : list string) : nat :=
  fold_left (fun m l => match to_align l with Some (a, _) => Nat.max m (List.length a) | None => m end) lines 0%nat.
Definition adjust (m : nat) (line : string) : string :=
  match to_align line with
  | Some (a, b) => list_to_str (a ++ repeat " "%char (m - List.length a) ++ b)
  | None => line
  end.
Definition align_by_hash (s : string) : string :=
  let lines := py_split NL s in String.concat NL (map (adjust (max_length lines)) lines).
Definition generate_default_parfile (project_name : string) (d : cparams_dict) : py string :=
  py_bind (parfile_text project_name d) (fun t => Ok (align_by_hash t)).
End Default.
