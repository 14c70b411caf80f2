(** Model of nrpy/reference_metric.py: the coordinate systems, and the hatted quantities built from them.  SymPy expressions are
    terms; the automatic simplifications modelled are those of zero and one, which decide whether a determinant is zero. *)
From Coq Require Import String Ascii List ZArith Bool.
From Verif Require Import PyBase Inverter.
Import ListNotations.
Open Scope string_scope.
Open Scope list_scope.

(** Expressions: integers, CodeParameters (PI, AMPL, ...), self.xx[k], Cartx/Carty/Cartz, and [Fn f n], the n-th derivative of the
    generic function f0_of_xx0_funcform, f1_of_xx1_funcform, f2_of_xx0_funcform, f3_of_xx2_funcform, f4_of_xx1_funcform (l.117-121). *)
Inductive ex : Type :=
| Num (z : Z) | Par (s : string) | XX (k : nat) | Cart (k : nat)
| Add (a b : ex) | Sub (a b : ex) | Mul (a b : ex) | Div (a b : ex) | Opp (a : ex) | Pow (a : ex) (n : nat)
| Sqrt (a : ex) | Exp (a : ex) | Sin (a : ex) | Cos (a : ex) | Sinh (a : ex) | Cosh (a : ex) | Asinh (a : ex) | Acos (a : ex)
| Atan2 (y x : ex) | Sign (a : ex) | Fn (f n : nat).

(** the variable a generic function depends on, l.117-121 *)
Definition var_of (f : nat) : nat := match f with 0 => 0 | 1 => 1 | 2 => 0 | 3 => 2 | _ => 1 end.

(** SymPy's automatic treatment of 0 and 1 *)
Definition sadd (a b : ex) : ex := match a, b with Num 0, _ => b | _, Num 0 => a | _, _ => Add a b end.
Definition ssub (a b : ex) : ex := match a, b with _, Num 0 => a | Num 0, _ => Opp b | _, _ => Sub a b end.
Definition smul (a b : ex) : ex :=
  match a, b with Num 0, _ => Num 0 | _, Num 0 => Num 0 | Num 1, _ => b | _, Num 1 => a | _, _ => Mul a b end.
Definition sdiv (a b : ex) : ex := match a, b with Num 0, _ => Num 0 | _, Num 1 => a | _, _ => Div a b end.
Definition sopp (a : ex) : ex := match a with Num 0 => Num 0 | _ => Opp a end.
Definition spow (a : ex) (n : nat) : ex :=
  match n with
  | 0 => Num 1
  | 1 => a
  | _ => match a with Num 0 => Num 0 | Num 1 => Num 1 | _ => Pow a n end
  end.

(** sp.diff(e, xx[k]).  The derivative of sign is taken as 0; sign occurs only in Cart_to_xx, which is never differentiated. *)
Fixpoint diff (k : nat) (e : ex) : ex :=
  match e with
  | Num _ | Par _ | Cart _ => Num 0
  | XX j => if Nat.eqb j k then Num 1 else Num 0
  | Add a b => sadd (diff k a) (diff k b)
  | Sub a b => ssub (diff k a) (diff k b)
  | Mul a b => sadd (smul (diff k a) b) (smul a (diff k b))
  | Div a b => sdiv (ssub (smul (diff k a) b) (smul a (diff k b))) (smul b b)
  | Opp a => sopp (diff k a)
  | Pow a n => smul (smul (Num (Z.of_nat n)) (spow a (n - 1))) (diff k a)
  | Sqrt a => sdiv (diff k a) (smul (Num 2) (Sqrt a))
  | Exp a => smul (diff k a) (Exp a)
  | Sin a => smul (diff k a) (Cos a)
  | Cos a => sopp (smul (diff k a) (Sin a))
  | Sinh a => smul (diff k a) (Cosh a)
  | Cosh a => smul (diff k a) (Sinh a)
  | Asinh a => sdiv (diff k a) (Sqrt (Add (Pow a 2) (Num 1)))
  | Acos a => sopp (sdiv (diff k a) (Sqrt (Sub (Num 1) (Pow a 2))))
  | Atan2 y x => sdiv (ssub (smul x (diff k y)) (smul y (diff k x))) (Add (Pow x 2) (Pow y 2))
  | Sign _ => Num 0
  | Fn f n => if Nat.eqb (var_of f) k then Fn f (S n) else Num 0
  end.

(** ** The coordinate systems *)
Record coord : Type := MkCoord {
  c_min : nat -> ex; c_max : nat -> ex; to_cart : nat -> ex; cart_to : nat -> ex; sph : nat -> ex; scale : nat -> ex;
  scale_ff : nat -> ex; base : nat -> ex; unitv : nat -> nat -> ex }.
Definition v3 {A} (a b c : A) (i : nat) : A := match i with 0 => a | 1 => b | _ => c end.
(** the symbols returned by register_CodeParameters, l.122-140 *)
Definition base0 (f : nat) : ex :=
  Par (match f with 0 => "f0_of_xx0" | 1 => "f1_of_xx1" | 2 => "f2_of_xx0" | 3 => "f3_of_xx2" | _ => "f4_of_xx1" end).
Definition set_base (l : list (nat * ex)) (f : nat) : ex :=
  match find (fun p => Nat.eqb (fst p) f) l with Some p => snd p | None => base0 f end.
Notation zero3 := (fun _ : nat => Num 0).
Notation PIe := (Par "PI").
Definition frac (a b : Z) : ex := Div (Num a) (Num b).

(** Sinhv1, l.631-644 *)
Definition sinhv1 (x A w : ex) : ex :=
  Div (Mul A (Sub (Exp (Div x w)) (Exp (Div (Opp x) w)))) (Sub (Exp (Div (Num 1) w)) (Exp (Div (Num (-1)) w))).
(** s.isdigit() (ASCII) and int(s) *)
Fixpoint digits_from (s : string) (acc : nat) : option nat :=
  match s with
  | EmptyString => Some acc
  | String c r => if is_digit c then digits_from r (10 * acc + (nat_of_ascii c - 48)) else None
  end.
Definition isdigit_int (s : string) : option nat := match s with EmptyString => None | _ => digits_from s 0 end.
(** what follows the first "v2n", l.659-670 *)
Fixpoint after_v2n (s : string) : option string :=
  if prefix "v2n" s then Some (substring 3 (String.length s - 3) s)
  else match s with EmptyString => None | String _ r => after_v2n r end.
(** Sinhv2, l.646-684 *)
Definition sinhv2_power (cs : string) : py nat :=
  match after_v2n cs with
  | Some suffix =>
      if prefix "Sinh" cs then
        match isdigit_int suffix with
        | Some n => if Nat.even n then Ok n else Err ValueError
        | None => Err ValueError
        end
      else Err ValueError
  | None => Err ValueError
  end.
Definition sinhv2 (n : nat) (x A w slope : ex) : ex :=
  Add (Div (Mul (Mul (Sub A slope) (Pow x n)) (Sub (Exp (Div x w)) (Exp (Div (Opp x) w))))
           (Sub (Exp (Div (Num 1) w)) (Exp (Div (Num (-1)) w)))) (Mul slope x).

(** the inverse of sinhv1: SINHW * asinh(v * sinh(1/SINHW) / AMPL) *)
Definition asinhv1 (v A w : ex) : ex := Mul w (Asinh (Div (Mul v (Sinh (Div (Num 1) w))) A)).
Notation X0 := (XX 0). Notation X1 := (XX 1). Notation X2 := (XX 2).
Notation CX := (Cart 0). Notation CY := (Cart 1). Notation CZ := (Cart 2).
Definition norm3 (a b c : ex) : ex := Sqrt (Add (Add (Pow a 2) (Pow b 2)) (Pow c 2)).
Definition identity3 (i j : nat) : ex := if Nat.eqb i j then Num 1 else Num 0.

(** cartesian_like, l.686-797.  Any other name containing "Cartesian" leaves the initial zeros (l.76-104). *)
Definition cartesian_like (cs : string) : coord :=
  if String.eqb cs "Cartesian" then
    MkCoord (v3 (Par "xmin") (Par "ymin") (Par "zmin")) (v3 (Par "xmax") (Par "ymax") (Par "zmax"))
      (v3 X0 X1 X2) (v3 CX CY CZ)
      (v3 (norm3 X0 X1 X2) (Acos (Div X2 (norm3 X0 X1 X2))) (Atan2 X1 X0))
      (fun _ => Num 1) (fun _ => Num 1) base0 identity3
  else if String.eqb cs "SinhCartesian" then
    let A := Par "AMPLXYZ" in let w := Par "SINHWXYZ" in
    let c i := sinhv1 (XX i) A w in
    MkCoord (fun _ => Num (-1)) (fun _ => Num 1) c (fun i => asinhv1 (Cart i) A w)
      (v3 (norm3 (c 0) (c 1) (c 2)) (Acos (Div (c 2) (norm3 (c 0) (c 1) (c 2)))) (Atan2 (c 1) (c 0)))
      (fun i => diff i (c i)) (v3 (Fn 0 0) (Fn 1 0) (Fn 3 0))
      (set_base [(0, diff 0 (c 0)); (1, diff 1 (c 1)); (3, diff 2 (c 2))]) identity3
  else MkCoord zero3 zero3 zero3 zero3 zero3 zero3 zero3 base0 identity3.

(** spherical_wedge_like, l.799-930 *)
Definition spherical_wedge_like (cs : string) : coord :=
  let A := Par "AMPL" in let w := Par "SINHW" in let rmin := Par "RMIN" in
  let r := sinhv1 X0 A w in
  let rc := norm3 CX CY CZ in
  let mn := v3 (asinhv1 rmin A w) (Mul (frac 1 4) PIe) (Mul (Opp PIe) (frac 1 4)) in
  let mx := v3 (asinhv1 A A w) (Mul (frac 3 4) PIe) (Mul PIe (frac 1 4)) in
  let sp := v3 r X1 X2 in
  let sc := v3 (diff 0 r) r (Mul r (Sin X1)) in
  let ff := v3 (Fn 0 1) (Fn 0 0) (Mul (Fn 0 0) (Fn 1 0)) in
  let bs := set_base [(0, r); (1, Sin X1)] in
  if String.eqb cs "UWedgeHSinhSph" then
    MkCoord mn mx
      (v3 (Mul (Opp r) (Cos X1)) (Mul (Mul r (Sin X1)) (Sin X2)) (Mul (Mul r (Sin X1)) (Cos X2)))
      (v3 (asinhv1 rc A w) (Acos (Div (Opp CX) rc)) (Atan2 CY CZ)) sp sc ff bs
      (v3 (v3 (Opp (Cos X1)) (Mul (Sin X1) (Sin X2)) (Mul (Sin X1) (Cos X2)))
          (v3 (Sin X1) (Mul (Cos X1) (Sin X2)) (Mul (Cos X1) (Cos X2)))
          (v3 (Num 0) (Cos X2) (Opp (Sin X2))))
  else if String.eqb cs "LWedgeHSinhSph" then
    MkCoord mn mx
      (v3 (Mul r (Cos X1)) (Mul (Mul r (Sin X1)) (Sin X2)) (Mul (Mul (Opp r) (Sin X1)) (Cos X2)))
      (v3 (asinhv1 rc A w) (Acos (Div CX rc)) (Atan2 CY (Opp CZ))) sp sc ff bs
      (v3 (v3 (Cos X1) (Mul (Sin X1) (Sin X2)) (Mul (Opp (Sin X1)) (Cos X2)))
          (v3 (Opp (Sin X1)) (Mul (Cos X1) (Sin X2)) (Mul (Opp (Cos X1)) (Cos X2)))
          (v3 (Num 0) (Cos X2) (Sin X2)))
  else MkCoord mn mx zero3 zero3 sp sc ff bs (fun _ _ => Num 0).

(** spherical_like, l.932-1094; the universal attributes for a radius r, l.1058-1094 *)
Definition spherical_of (mn mx ct : nat -> ex) (r : ex) : coord :=
  MkCoord mn mx
    (v3 (Mul (Mul r (Sin X1)) (Cos X2)) (Mul (Mul r (Sin X1)) (Sin X2)) (Mul r (Cos X1))) ct (v3 r X1 X2)
    (v3 (diff 0 r) r (Mul r (Sin X1))) (v3 (Fn 0 1) (Fn 0 0) (Mul (Fn 0 0) (Fn 1 0))) (set_base [(0, r); (1, Sin X1)])
    (v3 (v3 (Mul (Sin X1) (Cos X2)) (Mul (Sin X1) (Sin X2)) (Cos X1))
        (v3 (Mul (Cos X1) (Cos X2)) (Mul (Cos X1) (Sin X2)) (Opp (Sin X1)))
        (v3 (Opp (Sin X2)) (Cos X2) (Num 0))).
(** s.endswith(t) *)
Definition ends_with (t s : string) : bool :=
  (Nat.leb (String.length t) (String.length s)) &&
  String.eqb t (substring (String.length s - String.length t) (String.length t) s).
Definition spherical_like (cs : string) : py coord :=
  let A := Par "AMPL" in let w := Par "SINHW" in
  let rc := norm3 CX CY CZ in
  if String.eqb cs "Spherical" then
    Ok (spherical_of (v3 (Num 0) (Num 0) (Opp PIe)) (v3 (Par "RMAX") PIe PIe) (v3 rc (Acos (Div CZ rc)) (Atan2 CY CX)) X0)
  else if ends_with "SinhSpherical" cs then
    let ct := v3 (asinhv1 rc A w) (Acos (Div CZ rc)) (Atan2 CY CX) in
    let r := sinhv1 X0 A w in
    if py_in "HoleySinhSpherical" cs then
      if String.eqb cs "HoleySinhSpherical" then
        Ok (spherical_of (v3 (asinhv1 (Par "RMIN") A w) (Num 0) (Opp PIe)) (v3 (asinhv1 A A w) PIe PIe) ct r)
      else if String.eqb cs "RingHoleySinhSpherical" then
        Ok (spherical_of (v3 (asinhv1 (Par "RMIN") A w) (Mul (frac 1 4) PIe) (Opp PIe))
                         (v3 (asinhv1 A A w) (Mul (frac 3 4) PIe) PIe) ct r)
      else Err ValueError
    else Ok (spherical_of (v3 (Num 0) (Num 0) (Opp PIe)) (v3 (Num 1) PIe PIe) ct r)
  else if prefix "SinhSphericalv2n" cs then
    py_bind (sinhv2_power cs) (fun n =>
    Ok (spherical_of (v3 (Num 0) (Num 0) (Opp PIe)) (v3 (Num 1) PIe PIe) zero3 (sinhv2 n X0 A w (Par "r_slope"))))
  else Err ValueError.

(** prolate_spheroidal_like, l.1096-1287; for a function AA of xx0 *)
Definition prolate_of (mx0 : ex) (AA : ex) : coord :=
  let b := Par "bScale" in let h := Par "SQRT1_2" in
  let var1 := Sqrt (Add (Pow AA 2) (Pow (Mul b (Sin X1)) 2)) in
  let var2 := Sqrt (Add (Pow AA 2) (Pow b 2)) in
  let rho := Mul AA (Sin X1) in
  let z := Mul var2 (Cos X1) in
  let r := norm3 CX CY CZ in
  let th := Acos (Div CZ r) in
  let disc := Sqrt (Sub (Add (Add (Pow b 4) (Mul (Mul (Num 2) (Pow b 2)) (Pow r 2))) (Pow r 4))
                        (Mul (Mul (Mul (Num 4) (Pow b 2)) (Pow r 2)) (Pow (Cos th) 2))) in
  let rs := Sqrt (Add (Pow rho 2) (Pow z 2)) in
  let v1f := Sqrt (Add (Pow (Fn 0 0) 2) (Pow (Fn 4 0) 2)) in
  MkCoord (v3 (Num 0) (Num 0) (Opp PIe)) (v3 mx0 PIe PIe)
    (v3 (Mul (Mul AA (Sin X1)) (Cos X2)) (Mul (Mul AA (Sin X1)) (Sin X2)) z)
    (v3 (Mul (Sqrt (Add (Add (Opp (Pow b 2)) (Pow r 2)) disc)) h)
        (Acos (Mul (Sign CZ) (Mul (Sqrt (Sub (Add (Num 1) (Div (Pow r 2) (Pow b 2))) (Div disc (Pow b 2)))) h)))
        (Atan2 CY CX))
    (v3 rs (Acos (Div z rs)) X2)
    (v3 (Div (Mul (diff 0 AA) var1) var2) var1 (Mul AA (Sin X1)))
    (v3 (Div (Mul (Fn 0 1) v1f) (Fn 2 0)) v1f (Mul (Fn 0 0) (Fn 1 0)))
    (set_base [(0, AA); (1, Sin X1); (2, var2); (4, Mul b (Sin X1))])
    (v3 (v3 (Div (Mul (Mul (Sin X1) (Cos X2)) var2) var1) (Div (Mul (Mul (Sin X1) (Sin X2)) var2) var1) (Div (Mul AA (Cos X1)) var1))
        (v3 (Div (Mul (Mul AA (Cos X1)) (Cos X2)) var1) (Div (Mul (Mul AA (Cos X1)) (Sin X2)) var1) (Div (Mul (Opp (Sin X1)) var2) var1))
        (v3 (Opp (Sin X2)) (Cos X2) (Num 0))).
(** SinhSymTP carries the same Cart_to_xx as SymTP (l.1210-1243) *)
Definition prolate_spheroidal_like (cs : string) : py coord :=
  if String.eqb cs "SymTP" then Ok (prolate_of (Par "AMAX") X0)
  else if String.eqb cs "SinhSymTP" then Ok (prolate_of (Num 1) (sinhv1 X0 (Par "AMAX") (Par "SINHWAA")))
  else Err ValueError.

(** cylindrical_like, l.1289-1440; the universal attributes, l.1412-1440 *)
Definition cylindrical_of (mn mx ct : nat -> ex) (rho z : ex) : coord :=
  let rs := Sqrt (Add (Pow rho 2) (Pow z 2)) in
  MkCoord mn mx (v3 (Mul rho (Cos X1)) (Mul rho (Sin X1)) z) ct (v3 rs (Acos (Div z rs)) X1)
    (v3 (diff 0 rho) rho (diff 2 z)) (v3 (Fn 0 1) (Fn 0 0) (Fn 3 0)) (set_base [(0, rho); (3, diff 2 z)])
    (v3 (v3 (Cos X1) (Sin X1) (Num 0)) (v3 (Opp (Sin X1)) (Cos X1) (Num 0)) (v3 (Num 0) (Num 0) (Num 1))).
Definition cylindrical_like (cs : string) : py coord :=
  let A := Par "AMPLRHO" in let w := Par "SINHWRHO" in let Az := Par "AMPLZ" in let wz := Par "SINHWZ" in
  let rc := Sqrt (Add (Pow CX 2) (Pow CY 2)) in
  if String.eqb cs "Cylindrical" then
    Ok (cylindrical_of (v3 (Num 0) (Opp PIe) (Par "ZMIN")) (v3 (Par "RHOMAX") PIe (Par "ZMAX")) (v3 rc (Atan2 CY CX) CZ) X0 X2)
  else if String.eqb cs "SinhCylindrical" then
    Ok (cylindrical_of (v3 (Num 0) (Opp PIe) (Num (-1))) (v3 (Num 1) PIe (Num 1))
          (v3 (asinhv1 rc A w) (Atan2 CY CX) (asinhv1 CZ Az wz)) (sinhv1 X0 A w) (sinhv1 X2 Az wz))
  else if prefix "SinhCylindricalv2" cs then
    py_bind (sinhv2_power cs) (fun n =>
    Ok (cylindrical_of (v3 (Num 0) (Opp PIe) (Num (-1))) (v3 (Num 1) PIe (Num 1)) zero3
          (sinhv2 n X0 A w (Par "rho_slope")) (sinhv2 n X2 Az wz (Par "z_slope"))))
  else Err ValueError.

(** the dispatch, l.185-204 *)
Definition coord_system (cs : string) : py coord :=
  if py_in "Cartesian" cs then Ok (cartesian_like cs)
  else if py_in "Spherical" cs then spherical_like cs
  else if py_in "Wedge" cs then Ok (spherical_wedge_like cs)
  else if py_in "SymTP" cs then prolate_spheroidal_like cs
  else if py_in "Cylindrical" cs then cylindrical_like cs
  else Err ValueError.

(** ** The hatted quantities *)
(** structural equality, used only against 0 *)
Definition ex_eqb (a b : ex) : bool := match a, b with Num x, Num y => Z.eqb x y | _, _ => false end.
Definition inverse3 : mat ex -> py (mat ex * ex) := generic_matrix_inverter3x3 ex (Num 0) sadd smul ssub sdiv sopp ex_eqb.
Definition inverse3s : mat ex -> py (mat ex * ex) := symm_matrix_inverter3x3 ex (Num 0) (Num 1) sadd smul ssub sdiv sopp ex_eqb.

Record rfm : Type := MkRfm {
  r_coord : coord; jac : nat -> nat -> ex; jac_inv : nat -> nat -> ex; jac_sph : nat -> nat -> ex; jac_sph_inv : nat -> nat -> ex;
  r_scale : nat -> ex; ghatUU : nat -> nat -> ex; detgammahat : ex }.
(** l.245-277 *)
Definition ghatDD (s : nat -> ex) (i j : nat) : ex := if Nat.eqb i j then spow (s i) 2 else Num 0.
Definition ReU (s : nat -> ex) (i : nat) : ex := sdiv (Num 1) (s i).
Definition ReD (s : nat -> ex) (i : nat) : ex := s i.
Definition ReDD (s : nat -> ex) (i j : nat) : ex := smul (s i) (s j).
(** ReferenceMetric.__init__, l.72-295 (the symmetry checks l.281-295 compare products that SymPy has put in the same order) *)
Definition reference_metric (cs : string) (precompute : bool) : py rfm :=
  py_bind (coord_system cs) (fun m =>
  let j := fun i k => diff k (to_cart m i) in
  py_bind (inverse3 j) (fun ji =>
  let js := fun i k => diff k (sph m i) in
  py_bind (inverse3 js) (fun jsi =>
  let s := if precompute then scale_ff m else scale m in
  py_bind (inverse3s (ghatDD s)) (fun gu =>
  Ok (MkRfm m j (fst ji) js (fst jsi) s (fst gu) (snd gu)))))).

(** the derivatives, l.296-376 *)
Section Derivatives.
Variable r : rfm.
Notation s := (r_scale r).
Definition detgammahatdD (i : nat) : ex := diff i (detgammahat r).
Definition detgammahatdDD (i j : nat) : ex := diff j (detgammahatdD i).
Definition ReUdD (i j : nat) : ex := diff j (ReU s i).
Definition ReUdDD (i j k : nat) : ex := diff k (ReUdD i j).
Definition ReDdD (i j : nat) : ex := diff j (ReD s i).
Definition ReDdDD (i j k : nat) : ex := diff k (ReDdD i j).
Definition ReDDdD (i j k : nat) : ex := diff k (ReDD s i j).
Definition ReDDdDD (i j k l : nat) : ex := diff l (ReDDdD i j k).
Definition ghatDDdD (i j k : nat) : ex := diff k (ghatDD s i j).
Definition ghatDDdDD (i j k l : nat) : ex := diff l (ghatDDdD i j k).
(** l.351-366 *)
Definition GammahatUDD (i k l : nat) : ex :=
  fold_left (fun acc m => sadd acc (smul (smul (frac 1 2) (ghatUU r i m))
     (ssub (sadd (ghatDDdD m k l) (ghatDDdD m l k)) (ghatDDdD k l m)))) [0; 1; 2] (Num 0).
Definition GammahatUDDdD (i j k l : nat) : ex := diff l (GammahatUDD i j k).
End Derivatives.
