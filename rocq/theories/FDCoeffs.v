(** Model of nrpy/finite_difference.py l.202-328: compute_fdcoeffs_fdstencl. *)
From Coq Require Import String Ascii List ZArith Bool QArith Qcanon.
From Verif Require Import PyBase QcLib FDMatrix.
Import ListNotations.
Open Scope Qc_scope.

(** A stencil offset [idx3], l.280. *)
Definition idx3 : Type := (Z * Z * Z)%type.

(** [idx3[dirn] = v]; [None] is IndexError. *)
Definition idx3_set (t : idx3) (dirn : nat) (v : Z) : option idx3 :=
  let '(a, b, c) := t in
  match dirn with
  | 0%nat => Some (v, b, c)
  | 1%nat => Some (a, v, c)
  | 2%nat => Some (a, b, v)
  | _ => None
  end.

(** [s[len(s) - 1 - k]] *)
Definition char_from_end (s : string) (k : nat) : option ascii := nth_error (rev (str_to_list s)) k.

(** [int(c)] for a single character. *)
Definition int_of_char (c : option ascii) : py nat :=
  match c with
  | Some ch => if is_digit ch then Ok (nat_of_ascii ch - 48)%nat else Err ValueError
  | None => Err IndexError
  end.

Inductive deriv_type : Type := FirstDeriv | SecondDeriv | MixedSecondDeriv | KreissOligerDeriv.

(** l.225-228 *)
Definition fd_order_eff (ds : string) (fd_order : nat) : nat :=
  if py_in "dKOD" ds then (fd_order + 2)%nat else fd_order.

(** l.229-239; [int(fd_order / 2)] *)
Definition fd_shift (ds : string) (fd_order : nat) : Z :=
  if py_in "dupD" ds then 1%Z
  else if py_in "ddnD" ds then (-1)%Z
  else if py_in "dfullupD" ds then Z.of_nat (Nat.div fd_order 2)
  else if py_in "dfulldnD" ds then (- Z.of_nat (Nat.div fd_order 2))%Z
  else 0%Z.

Definition opt_ascii_eqb (a b : option ascii) : bool :=
  match a, b with Some x, Some y => Ascii.eqb x y | _, _ => false end.

(** l.249-270 *)
Definition fd_type_row (ds : string) (w : nat) : py (deriv_type * nat) :=
  if py_in "DDD" ds then Err ValueError
  else if py_in "DD" ds then
    if opt_ascii_eqb (char_from_end ds 0) (char_from_end ds 1) then Ok (SecondDeriv, 2%nat)
    else Ok (MixedSecondDeriv, 1%nat)
  else if py_in "dKOD" ds then Ok (KreissOligerDeriv, (w - 1)%nat)
  else Ok (FirstDeriv, 1%nat).

Definition is_KO (t : deriv_type) : bool :=
  match t with KreissOligerDeriv => true | _ => false end.

(** [sp.factorial(n)] *)
Fixpoint factorial (n : nat) : nat := match n with O => 1 | S m => (S m * factorial m)%nat end.

(** l.287-290: [(-1) ** Rational(stencil_width + 1, 2) / 2**matrixrow]; for an even stencil width
    SymPy produces a complex number, which is outside the model. *)
Definition ko_factor (w row : nat) : py Qc :=
  if Nat.even (w + 1) then Ok ((qz (-1)) ^ (Nat.div (w + 1) 2) / (qz 2) ^ row)
  else Err NotImplementedError.

(** [l[i] *= f] *)
Definition list_scale_at (i : nat) (f : Qc) (l : list Qc) : option (list Qc) :=
  match nth_error l i with
  | None => None
  | Some a => Some (firstn i l ++ (a * f) :: skipn (S i) l)%list
  end.

(** l.294-296: [i - int((stencil_width - 1) / 2) + shift] *)
Definition gridpt_posn (w : nat) (shift : Z) (i : nat) : Z :=
  (Z.of_nat i - Z.of_nat (Nat.div (w - 1) 2) + shift)%Z.

Definition fd_result : Type := (list Qc * list idx3)%type.

(** The loop l.279-301 over the remaining columns [l]. *)
Fixpoint fd_loop (t : deriv_type) (ds : string) (w row : nat) (shift : Z) (Minv : matrix)
  (l : list nat) (acc : fd_result) : py fd_result :=
  match l with
  | [] => Ok acc
  | i :: r =>
      let fdcoeff := qn (factorial row) * Minv i row in
      if qeqb fdcoeff 0 then fd_loop t ds w row shift Minv r acc
      else
        let coeffs1 := (fst acc ++ [fdcoeff])%list in
        let coeffs2 :=
          if is_KO t then
            match ko_factor w row with
            | Err e => Err e
            | Ok f => match list_scale_at i f coeffs1 with
                      | None => Err IndexError
                      | Some c => Ok c
                      end
            end
          else Ok coeffs1 in
        match coeffs2 with
        | Err e => Err e
        | Ok c =>
            let posn := gridpt_posn w shift i in
            let idx :=
              if Z.eqb posn 0 then Ok (0, 0, 0)%Z
              else match int_of_char (char_from_end ds 0) with
                   | Err e => Err e
                   | Ok dirn => match idx3_set (0, 0, 0)%Z dirn posn with
                                | Some t' => Ok t' | None => Err IndexError end
                   end in
            match idx with
            | Err e => Err e
            | Ok t' => fd_loop t ds w row shift Minv r (c, (snd acc ++ [t'])%list)
            end
        end
  end.

(** The double loop l.305-327 of the mixed derivative, over the remaining (i, j) pairs. *)
Fixpoint fd_mixed_loop (ds : string) (w row : nat) (Minv : matrix) (l : list (nat * nat))
  (acc : fd_result) : py fd_result :=
  match l with
  | [] => Ok acc
  | (i, j) :: r =>
      let fdcoeff := (qn (factorial row) * Minv i row) * (qn (factorial row) * Minv j row) in
      if qeqb fdcoeff 0 then fd_mixed_loop ds w row Minv r acc
      else
        let posn1 := gridpt_posn w 0 i in
        let posn2 := gridpt_posn w 0 j in
        match int_of_char (char_from_end ds 0), int_of_char (char_from_end ds 1) with
        | Ok d1, Ok d2 =>
            match idx3_set (0, 0, 0)%Z d1 posn1 with
            | None => Err IndexError
            | Some t1 => match idx3_set t1 d2 posn2 with
                         | None => Err IndexError
                         | Some t2 => fd_mixed_loop ds w row Minv r
                                        ((fst acc ++ [fdcoeff])%list, (snd acc ++ [t2])%list)
                         end
            end
        | Err e, _ => Err e
        | _, Err e => Err e
        end
  end.

(** compute_fdcoeffs_fdstencl, l.202-328, threading the matrix cache. *)
Definition compute_fdcoeffs_fdstencl (ds : string) (fd_order : nat) (cache : matrix_dict)
  : matrix_dict * py fd_result :=
  let fo := fd_order_eff ds fd_order in
  let w := S fo in
  let shift := fd_shift ds fo in
  match setup_FD_matrix_inverse w shift cache with
  | (cache', Err e) => (cache', Err e)
  | (cache', Ok Minv) =>
      (cache',
       match fd_type_row ds w with
       | Err e => Err e
       | Ok (t, row) =>
           if Nat.leb w row then Err IndexError
           else match t with
                | MixedSecondDeriv =>
                    fd_mixed_loop ds w row Minv (list_prod (seq 0 w) (seq 0 w)) ([], [])
                | _ => fd_loop t ds w row shift Minv (seq 0 w) ([], [])
                end
       end)
  end.
