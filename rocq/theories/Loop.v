(** Model of nrpy/helpers/loop.py: generation of C loop nests. *)
From Coq Require Import String Ascii List ZArith Bool.
From Verif Require Import PyBase.
Import ListNotations.
Open Scope string_scope.

Definition nl : string := String "010" "".

(** loop1D, l.16-64 (the type check cannot fail here).  [header.strip()] is the identity on the text
    "for (...)". *)
Definition loop1D_header (idx lo hi inc : string) : string :=
  "for (int " ++ idx ++ " = " ++ lo ++ "; " ++ idx ++ " < " ++ hi ++ "; " ++ idx ++
  (if String.eqb inc "1" then "++" else " += " ++ inc) ++ ")".
Definition loop1D (idx lo hi inc pragma : string) : string * string :=
  let h := loop1D_header idx lo hi inc in
  ((if String.eqb pragma "" then "" else pragma ++ nl) ++ h ++ " {" ++ nl, "} // END LOOP: " ++ h ++ nl).

(** Arguments that are one string or a list of strings. *)
Inductive strs : Type := One (s : string) | Many (l : list string).
Definition to_list (a : strs) : list string := match a with One s => [s] | Many l => l end.
(** [[] if tile_size == "" else ...], l.121-125 *)
Definition tile_list (a : strs) : list string :=
  match a with One s => if String.eqb s "" then [] else [s] | Many l => l end.

(** [l.insert(i, x)] *)
Fixpoint list_insert {A} (i : nat) (x : A) (l : list A) : list A :=
  match i, l with
  | S j, y :: r => y :: list_insert j x r
  | _, _ => x :: l
  end.

Inductive loop_result : Type := LText (s : string) | LPair (header footer : string).

(** The loop l.134-162 over enumerate(idx_var). *)
Fixpoint loop_build (i : nat) (idx lo hi inc pragma tile : list string) (vars : list string)
  (headers footers : list string) : py (list string * list string) :=
  match vars with
  | [] => Ok (headers, footers)
  | var :: r =>
      match nth_error lo i, nth_error hi i, nth_error inc i, nth_error pragma i with
      | Some l, Some h, Some c, Some p =>
          match tile with
          | _ :: _ =>
              match nth_error tile i with
              | None => Err IndexError
              | Some t =>
                  let '(eh, ef) := loop1D (var ++ "B") l h t "" in
                  let '(hd, ft) := loop1D var (var ++ "B") ("MIN(" ++ h ++ ", " ++ var ++ "B + " ++ t ++ ")") c p in
                  loop_build (S i) idx lo hi inc pragma tile r
                    (list_insert i eh headers ++ [hd])%list (list_insert i ef footers ++ [ft])%list
              end
          | [] =>
              let '(hd, ft) := loop1D var l h c p in
              loop_build (S i) idx lo hi inc pragma tile r (headers ++ [hd])%list (footers ++ [ft])%list
          end
      | _, _, _, _ => Err IndexError
      end
  end.

(** loop, l.67-171 *)
Definition loop (idx_var lower upper increment pragma : strs) (body : string) (tile_size : strs) : py loop_result :=
  let idx := to_list idx_var in
  let lo := to_list lower in
  let hi := to_list upper in
  let inc := to_list increment in
  let pr := to_list pragma in
  let tile := tile_list tile_size in
  let n := List.length idx in
  if (Nat.eqb (List.length lo) n && Nat.eqb (List.length hi) n && Nat.eqb (List.length inc) n &&
      Nat.eqb (List.length pr) n)%bool
  then
    match loop_build 0 idx lo hi inc pr tile idx [] [] with
    | Err e => Err e
    | Ok (headers, footers) =>
        let header := String.concat "" headers in
        let footer := String.concat "" (rev footers) in
        if String.eqb body "" then Ok (LPair header footer)
        else
          let body' := String.concat "" (map (fun line => line ++ nl) (py_split nl body)) in
          Ok (LText (header ++ body' ++ footer))
    end
  else Err ValueError.
