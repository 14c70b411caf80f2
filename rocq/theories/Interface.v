(** Model of the variable groups that construct_interface_ccl declares: nrpy/infrastructures/ETLegacy/interface_ccl.py l.101-149 and
    nrpy/infrastructures/CarpetX/interface_ccl.py l.62-148.  A group is a record; left out are its text and the texts before "public:", which are
    fixed but for the arguments put in. *)
From Coq Require Import String List ZArith Bool.
From Verif Require Import PyBase Grid.
Import ListNotations.
Open Scope string_scope.

(** One group: its name, Timelevels, whether TAGS has prolongation="none" checkpoint="no", the rhs tag, the parities tag, the members *)
Record vgroup : Type := mk_vgroup {
  i_name : string; i_levels : nat; i_temporary : bool; i_rhs : option string; i_parities : option string; i_members : list string }.

(** construct_parity_string, CarpetX l.68-96: the signs of one parity value; a value that is not listed adds nothing to the two blanks *)
Definition parity_signs (v : Z) : string :=
  if existsb (Z.eqb v) [0; 4; 7; 9]%Z then "+1 +1 +1"
  else if Z.eqb v 1 then "-1 +1 +1"
  else if Z.eqb v 2 then "+1 -1 +1"
  else if Z.eqb v 3 then "+1 +1 -1"
  else if Z.eqb v 5 then "-1 -1 +1"
  else if Z.eqb v 6 then "-1 +1 -1"
  else if Z.eqb v 8 then "+1 -1 -1"
  else "".
Fixpoint construct_parity_string (parities : list Z) : string :=
  match parities with [] => "" | v :: r => "  " ++ parity_signs v ++ construct_parity_string r end.

(** The member lists, e.g. ETLegacy l.110, l.119-121 *)
Definition members (l : list string) : list string := map (fun n => n ++ "GF") l.
Definition rhs_members (l : list string) : list string := map (fun n => n ++ "_rhsGF") l.
Definition nonempty {A} (l : list A) : bool := match l with [] => false | _ => true end.

(** ETLegacy l.101-149 *)
Definition groups_ETLegacy (st : registry) (is_evol_thorn : bool) : list vgroup :=
  let '(ev, ax, ae) := gridfunction_lists st in
  if is_evol_thorn then
    (if nonempty ev then
       mk_vgroup "evol_variables" 3 false None None (members ev) :: mk_vgroup "evol_variables_rhs" 1 true None None (rhs_members ev)
       :: (if nonempty ae then [mk_vgroup "auxevol_variables" 1 true None None (members ae)] else [])
     else [])
    ++ (if nonempty ax then [mk_vgroup "aux_variables" 3 false None None (members ax)] else [])
  else [].

(** A group with parities, CarpetX l.100-110, l.123-135, l.138-148 *)
Definition with_parities (st : registry) (names : list string) (f : string -> list vgroup) : py (list vgroup) :=
  if nonempty names then py_bind (set_parity_types names st) (fun vs => Ok (f (construct_parity_string vs))) else Ok [].
(** CarpetX l.62-148 *)
Definition groups_CarpetX (st : registry) (is_evol_thorn : bool) : py (list vgroup) :=
  let '(ev, ax, ae) := gridfunction_lists st in
  py_bind (if is_evol_thorn then
     py_bind (with_parities st ev (fun t => [mk_vgroup "evol_variables" 1 false (Some "evol_variables_rhs") (Some t) (members ev);
                                             mk_vgroup "evol_variables_rhs" 1 true None None (rhs_members ev)])) (fun a =>
     py_bind (with_parities st ae (fun t => [mk_vgroup "auxevol_variables" 1 true None (Some t) (members ae)])) (fun b => Ok (a ++ b)%list))
   else Ok []) (fun ab =>
  py_bind (with_parities st ax (fun t => [mk_vgroup "aux_variables" 1 false None (Some t) (members ax)])) (fun c => Ok (ab ++ c)%list)).
