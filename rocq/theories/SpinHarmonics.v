(** Model of nrpy/equations/special_functions/spin_weighted_spherical_harmonics.py and of
    nrpy/infrastructures/BHaH/special_functions/spin_weight_minus2_spherical_harmonics.py.  SymPy terms are their values, complex numbers are
    pairs; cached_simplify does not change values.  Registration of M_PI and of the C function is left out (C43, C41). *)
From Coq Require Import List ZArith Bool Arith Reals.
From Verif Require Import PyBase.
Import ListNotations.
Local Open Scope R_scope.

(** sp.binomial(n, k) for integers: 0 for k < 0, else n (n - 1) ... (n - k + 1) / k! *)
Fixpoint bin (x : R) (k : nat) : R := match k with O => 1 | S k' => bin x k' * (x - INR k') / INR (S k') end.
Definition binomial (n k : Z) : R := if (k <? 0)%Z then 0 else bin (IZR n) (Z.to_nat k).
(** sp.factorial(n); complex infinity for negative numbers *)
Definition factorial (n : Z) : option R := if (n <? 0)%Z then None else Some (INR (fact (Z.to_nat n))).
(** sp.cot *)
Definition cot (x : R) : R := cos x / sin x.

Section Y.
Variables (GenerateMathematicaCode : bool) (s l m : Z) (th ph : R).
(** the terms of the sum, l.58-77; the factor exp(I m ph) is (cos (m ph), sin (m ph)) *)
Definition term_coef (r : Z) : R := binomial (l - s) r * binomial (l + s) (r + s - m) * powerRZ (-1) (l - r - s).
Definition term_angle (r : Z) : R :=
  if GenerateMathematicaCode then powerRZ (cot (th / 2)) (2 * r + s - m) else / powerRZ (tan (th / 2)) (2 * r + s - m).
Definition term (r : Z) : R * R := (term_coef r * cos (IZR m * ph) * term_angle r, term_coef r * sin (IZR m * ph) * term_angle r).
(** for r in range(l - s + 1), l.57 *)
Definition Sum : R * R := fold_left (fun a r => (fst a + fst (term r), snd a + snd (term r))) (map Z.of_nat (seq 0 (Z.to_nat (l - s + 1)))) (0, 0).
(** l.80-85: a quotient by complex infinity is 0; [None] if the numerator is infinite *)
Definition prefactor : option R :=
  match factorial (l + m), factorial (l - m) with
  | Some a, Some b =>
      Some (sqrt (match factorial (l + s), factorial (l - s) with Some c, Some d => a * b * (2 * IZR l + 1) / (4 * PI * c * d) | _, _ => 0 end))
  | _, _ => None
  end.
(** Y, l.31-87 *)
Definition Y : option (R * R) :=
  match prefactor with
  | None => None
  | Some p => Some (p * (powerRZ (-1) m * powerRZ (sin (th / 2)) (2 * l) * fst Sum), p * (powerRZ (-1) m * powerRZ (sin (th / 2)) (2 * l) * snd Sum))
  end.
End Y.

(** ** The C function of spin_weight_minus2_spherical_harmonics.py, l.55-87 *)
(** the cases of the outer switch with those of the inner one: for l in range(max + 1), for m in range(-l, l + 1) *)
Definition inner_cases (l : nat) : list Z := map (fun i => (Z.of_nat i - Z.of_nat l)%Z) (seq 0 (2 * l + 1)).
Definition outer_cases (max : nat) : list (nat * list Z) := map (fun l => (l, inner_cases l)) (seq 0 (max + 1)).
(** a case of the inner switch returns; where no case of it matches control goes on to the next case of the outer switch, for want of a break.
    The result is the pair (l, m) of the harmonic that is stored, or [None] for exit(1) *)
Fixpoint run_from (cases : list (nat * list Z)) (m : Z) : option (nat * Z) :=
  match cases with
  | [] => None
  | (l, ms) :: r => if existsb (Z.eqb m) ms then Some (l, m) else run_from r m
  end.
Fixpoint switch (cases : list (nat * list Z)) (l m : Z) : option (nat * Z) :=
  match cases with
  | [] => None
  | (l', ms) :: r => if Z.eqb l (Z.of_nat l') then run_from cases m else switch r l m
  end.
Definition spin_weight_minus2_sph_harmonics (max : nat) (l m : Z) (th ph : R) : option (R * R) :=
  match switch (outer_cases max) l m with
  | Some (l', m') => Y false (-2) (Z.of_nat l') m' th ph
  | None => None
  end.
