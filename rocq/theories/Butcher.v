(** Model of nrpy/infrastructures/BHaH/MoLtimestepping/RK_Butcher_Table_Dictionary.py: the table dictionary, with exact
    coefficients a + b*sqrt(21) (a, b rational; only table L6 has b <> 0), and the Adams-Bashforth generator. *)
From Coq Require Import String List Bool Arith QArith Qcanon ZArith.
From Verif Require Import PyBase QcLib MoL.
Import ListNotations.
Open Scope string_scope.
Open Scope nat_scope.

Definition Q21 : Type := (Qc * Qc)%type.
Definition q21_0 : Q21 := (Q2Qc 0, Q2Qc 0).
Definition q21_1 : Q21 := (Q2Qc 1, Q2Qc 0).
Definition q21_add (x y : Q21) : Q21 := (fst x + fst y, snd x + snd y)%Qc.
Definition q21_opp (x : Q21) : Q21 := (- fst x, - snd x)%Qc.
Definition q21_sub (x y : Q21) : Q21 := (fst x - fst y, snd x - snd y)%Qc.
Definition c21 : Qc := Q2Qc (21 # 1).
Definition q21_mul (x y : Q21) : Q21 :=
  (fst x * fst y + c21 * (snd x * snd y), fst x * snd y + snd x * fst y)%Qc.
Definition q21_norm (x : Q21) : Qc := (fst x * fst x - c21 * (snd x * snd x))%Qc.
Definition q21_inv (x : Q21) : Q21 := (fst x / q21_norm x, - (snd x / q21_norm x))%Qc.
Definition q21_div (x y : Q21) : Q21 := q21_mul x (q21_inv y).
Definition q21_eqb (x y : Q21) : bool := Qc_eq_bool (fst x) (fst y) && Qc_eq_bool (snd x) (snd y).
(** sp.Rational(n, d), and (a + b*sp.sqrt(21))/d *)
Definition r (n : Z) (d : positive) : Q21 := (Q2Qc (n # d), Q2Qc 0).
Definition s21 (a b : Z) (d : positive) : Q21 := (Q2Qc (a # d), Q2Qc (b # d)).

(** l.43-46 *)
Definition bt_Euler : table Q21 :=
  [(CNum _ (r 0 1), []);
   (CTag _ "", [r 1 1])].
(** l.50-54 *)
Definition bt_RK2_Heun : table Q21 :=
  [(CNum _ (r 0 1), []);
   (CNum _ (r 1 1), [r 1 1]);
   (CTag _ "", [r 1 2; r 1 2])].
(** l.58-62 *)
Definition bt_RK2_MP : table Q21 :=
  [(CNum _ (r 0 1), []);
   (CNum _ (r 1 2), [r 1 2]);
   (CTag _ "", [r 0 1; r 1 1])].
(** l.66-70 *)
Definition bt_RK2_Ralston : table Q21 :=
  [(CNum _ (r 0 1), []);
   (CNum _ (r 2 3), [r 2 3]);
   (CTag _ "", [r 1 4; r 3 4])].
(** l.74-79 *)
Definition bt_RK3 : table Q21 :=
  [(CNum _ (r 0 1), []);
   (CNum _ (r 1 2), [r 1 2]);
   (CNum _ (r 1 1), [r (-1) 1; r 2 1]);
   (CTag _ "", [r 1 6; r 2 3; r 1 6])].
(** l.83-88 *)
Definition bt_RK3_Heun : table Q21 :=
  [(CNum _ (r 0 1), []);
   (CNum _ (r 1 3), [r 1 3]);
   (CNum _ (r 2 3), [r 0 1; r 2 3]);
   (CTag _ "", [r 1 4; r 0 1; r 3 4])].
(** l.92-97 *)
Definition bt_RK3_Ralston : table Q21 :=
  [(CNum _ (r 0 1), []);
   (CNum _ (r 1 2), [r 1 2]);
   (CNum _ (r 3 4), [r 0 1; r 3 4]);
   (CTag _ "", [r 2 9; r 1 3; r 4 9])].
(** l.100-105 *)
Definition bt_SSPRK3 : table Q21 :=
  [(CNum _ (r 0 1), []);
   (CNum _ (r 1 1), [r 1 1]);
   (CNum _ (r 1 2), [r 1 4; r 1 4]);
   (CTag _ "", [r 1 6; r 1 6; r 2 3])].
(** l.109-115 *)
Definition bt_RK4 : table Q21 :=
  [(CNum _ (r 0 1), []);
   (CNum _ (r 1 2), [r 1 2]);
   (CNum _ (r 1 2), [r 0 1; r 1 2]);
   (CNum _ (r 1 1), [r 0 1; r 0 1; r 1 1]);
   (CTag _ "", [r 1 6; r 1 3; r 1 3; r 1 6])].
(** l.119-128 *)
Definition bt_DP5 : table Q21 :=
  [(CNum _ (r 0 1), []);
   (CNum _ (r 1 5), [r 1 5]);
   (CNum _ (r 3 10), [r 3 40; r 9 40]);
   (CNum _ (r 4 5), [r 44 45; r (-56) 15; r 32 9]);
   (CNum _ (r 8 9), [r 19372 6561; r (-25360) 2187; r 64448 6561; r (-212) 729]);
   (CNum _ (r 1 1), [r 9017 3168; r (-355) 33; r 46732 5247; r 49 176; r (-5103) 18656]);
   (CNum _ (r 1 1), [r 35 384; r 0 1; r 500 1113; r 125 192; r (-2187) 6784; r 11 84]);
   (CTag _ "", [r 35 384; r 0 1; r 500 1113; r 125 192; r (-2187) 6784; r 11 84; r 0 1])].
(** l.132-141 *)
Definition bt_DP5alt : table Q21 :=
  [(CNum _ (r 0 1), []);
   (CNum _ (r 1 10), [r 1 10]);
   (CNum _ (r 2 9), [r (-2) 81; r 20 81]);
   (CNum _ (r 3 7), [r 615 1372; r (-270) 343; r 1053 1372]);
   (CNum _ (r 3 5), [r 3243 5500; r (-54) 55; r 50949 71500; r 4998 17875]);
   (CNum _ (r 4 5), [r (-26492) 37125; r 72 55; r 2808 23375; r (-24206) 37125; r 338 459]);
   (CNum _ (r 1 1), [r 5561 2376; r (-35) 11; r (-24117) 31603; r 899983 200772; r (-5225) 1836; r 3925 4056]);
   (CTag _ "", [r 821 10800; r 0 1; r 19683 71825; r 175273 912600; r 395 3672; r 785 2704; r 3 50])].
(** l.145-153 *)
Definition bt_CK5 : table Q21 :=
  [(CNum _ (r 0 1), []);
   (CNum _ (r 1 5), [r 1 5]);
   (CNum _ (r 3 10), [r 3 40; r 9 40]);
   (CNum _ (r 3 5), [r 3 10; r (-9) 10; r 6 5]);
   (CNum _ (r 1 1), [r (-11) 54; r 5 2; r (-70) 27; r 35 27]);
   (CNum _ (r 7 8), [r 1631 55296; r 175 512; r 575 13824; r 44275 110592; r 253 4096]);
   (CTag _ "", [r 37 378; r 0 1; r 250 621; r 125 594; r 0 1; r 512 1771])].
(** l.157-167 *)
Definition bt_DP6 : table Q21 :=
  [(CNum _ (r 0 1), []);
   (CNum _ (r 1 10), [r 1 10]);
   (CNum _ (r 2 9), [r (-2) 81; r 20 81]);
   (CNum _ (r 3 7), [r 615 1372; r (-270) 343; r 1053 1372]);
   (CNum _ (r 3 5), [r 3243 5500; r (-54) 55; r 50949 71500; r 4998 17875]);
   (CNum _ (r 4 5), [r (-26492) 37125; r 72 55; r 2808 23375; r (-24206) 37125; r 338 459]);
   (CNum _ (r 1 1), [r 5561 2376; r (-35) 11; r (-24117) 31603; r 899983 200772; r (-5225) 1836; r 3925 4056]);
   (CNum _ (r 1 1), [r 465467 266112; r (-2945) 1232; r (-5610201) 14158144; r 10513573 3212352; r (-424325) 205632; r 376225 454272; r 0 1]);
   (CTag _ "", [r 61 864; r 0 1; r 98415 321776; r 16807 146016; r 1375 7344; r 1375 5408; r (-37) 1120; r 1 10])].
(** l.172-181 *)
Definition bt_L6 : table Q21 :=
  [(CNum _ (r 0 1), []);
   (CNum _ (r 1 1), [r 1 1]);
   (CNum _ (r 1 2), [r 3 8; r 1 8]);
   (CNum _ (r 2 3), [r 8 27; r 2 27; r 8 27]);
   (CNum _ (s21 7 (-1) 14), [s21 (-21) (9) 392; s21 (-56) (8) 392; s21 (336) (-48) 392; s21 (-63) (3) 392]);
   (CNum _ (s21 7 1 14), [s21 (-1155) (-255) 1960; s21 (-280) (-40) 1960; s21 0 (-320) 1960; s21 (63) (363) 1960; s21 (2352) (392) 1960]);
   (CNum _ (r 1 1), [s21 (330) (105) 180; r 2 3; s21 (-200) (280) 180; s21 (126) (-189) 180; s21 (-686) (-126) 180; s21 (490) (-70) 180]);
   (CTag _ "", [r 1 20; r 0 1; r 16 45; r 0 1; r 49 180; r 49 180; r 1 20])].
(** l.185-200 *)
Definition bt_DP8 : table Q21 :=
  [(CNum _ (r 0 1), []);
   (CNum _ (r 1 18), [r 1 18]);
   (CNum _ (r 1 12), [r 1 48; r 1 16]);
   (CNum _ (r 1 8), [r 1 32; r 0 1; r 3 32]);
   (CNum _ (r 5 16), [r 5 16; r 0 1; r (-75) 64; r 75 64]);
   (CNum _ (r 3 8), [r 3 80; r 0 1; r 0 1; r 3 16; r 3 20]);
   (CNum _ (r 59 400), [r 29443841 614563906; r 0 1; r 0 1; r 77736538 692538347; r (-28693883) 1125000000; r 23124283 1800000000]);
   (CNum _ (r 93 200), [r 16016141 946692911; r 0 1; r 0 1; r 61564180 158732637; r 22789713 633445777; r 545815736 2771057229; r (-180193667) 1043307555]);
   (CNum _ (r 5490023248 9719169821), [r 39632708 573591083; r 0 1; r 0 1; r (-433636366) 683701615; r (-421739975) 2616292301; r 100302831 723423059; r 790204164 839813087; r 800635310 3783071287]);
   (CNum _ (r 13 20), [r 246121993 1340847787; r 0 1; r 0 1; r (-37695042795) 15268766246; r (-309121744) 1061227803; r (-12992083) 490766935; r 6005943493 2108947869; r 393006217 1396673457; r 123872331 1001029789]);
   (CNum _ (r 1201146811 1299019798), [r (-1028468189) 846180014; r 0 1; r 0 1; r 8478235783 508512852; r 1311729495 1432422823; r (-10304129995) 1701304382; r (-48777925059) 3047939560; r 15336726248 1032824649; r (-45442868181) 3398467696; r 3065993473 597172653]);
   (CNum _ (r 1 1), [r 185892177 718116043; r 0 1; r 0 1; r (-3185094517) 667107341; r (-477755414) 1098053517; r (-703635378) 230739211; r 5731566787 1027545527; r 5232866602 850066563; r (-4093664535) 808688257; r 3962137247 1805957418; r 65686358 487910083]);
   (CNum _ (r 1 1), [r 403863854 491063109; r 0 1; r 0 1; r (-5068492393) 434740067; r (-411421997) 543043805; r 652783627 914296604; r 11173962825 925320556; r (-13158990841) 6184727034; r 3936647629 1978049680; r (-160528059) 685178525; r 248638103 1413531060; r 0 1]);
   (CTag _ "", [r 14005451 335480064; r 0 1; r 0 1; r 0 1; r 0 1; r (-59238493) 1068277825; r 181606767 758867731; r 561292985 797845732; r (-1041891430) 1371343529; r 760417239 1151165299; r 118820643 751138087; r (-528747749) 2220607170; r 1 4])].
(** l.210-215 *)
Definition bt_AHE : table Q21 :=
  [(CNum _ (r 0 1), []);
   (CNum _ (r 1 1), [r 1 1]);
   (CTag _ "HO", [r 1 2; r 1 2]);
   (CTag _ "LO", [r 1 1; r 0 1])].
(** l.219-226 *)
Definition bt_ABS : table Q21 :=
  [(CNum _ (r 0 1), []);
   (CNum _ (r 1 2), [r 1 2]);
   (CNum _ (r 3 4), [r 0 1; r 3 4]);
   (CNum _ (r 1 1), [r 2 9; r 1 3; r 4 9]);
   (CTag _ "HO", [r 2 9; r 1 3; r 4 9; r 0 1]);
   (CTag _ "LO", [r 7 24; r 1 4; r 1 3; r 1 8])].
(** l.230-239 *)
Definition bt_ARKF : table Q21 :=
  [(CNum _ (r 0 1), []);
   (CNum _ (r 1 4), [r 1 4]);
   (CNum _ (r 3 8), [r 3 32; r 9 32]);
   (CNum _ (r 12 13), [r 1932 2197; r (-7200) 2197; r 7296 2197]);
   (CNum _ (r 1 1), [r 439 216; r (-8) 1; r 3680 513; r (-845) 4104]);
   (CNum _ (r 1 2), [r (-8) 27; r 2 1; r (-3544) 2565; r 1859 4104; r (-11) 40]);
   (CTag _ "HO", [r 16 135; r 0 1; r 6656 12825; r 28561 56430; r (-9) 50; r 2 55]);
   (CTag _ "LO", [r 25 216; r 0 1; r 1408 2565; r 2197 4104; r (-1) 5; r 0 1])].
(** l.243-252 *)
Definition bt_ACK : table Q21 :=
  [(CNum _ (r 0 1), []);
   (CNum _ (r 1 5), [r 1 5]);
   (CNum _ (r 3 10), [r 3 40; r 9 40]);
   (CNum _ (r 3 5), [r 3 10; r (-9) 10; r 6 5]);
   (CNum _ (r 1 1), [r (-11) 54; r 5 2; r (-70) 27; r 35 27]);
   (CNum _ (r 7 8), [r 1631 55296; r 175 512; r 575 13824; r 44275 110592; r 253 4096]);
   (CTag _ "HO", [r 37 378; r 0 1; r 250 621; r 125 594; r 0 1; r 512 1771]);
   (CTag _ "LO", [r 2825 27648; r 0 1; r 18575 48384; r 13525 55296; r 277 14336; r 1 4])].
(** l.256-266 *)
Definition bt_ADP5 : table Q21 :=
  [(CNum _ (r 0 1), []);
   (CNum _ (r 1 5), [r 1 5]);
   (CNum _ (r 3 10), [r 3 40; r 9 40]);
   (CNum _ (r 4 5), [r 44 45; r (-56) 15; r 32 9]);
   (CNum _ (r 8 9), [r 19372 6561; r (-25360) 2187; r 64448 6561; r (-212) 729]);
   (CNum _ (r 1 1), [r 9017 3168; r (-355) 33; r 46732 5247; r 49 176; r (-5103) 18656]);
   (CNum _ (r 1 1), [r 35 384; r 0 1; r 500 1113; r 125 192; r (-2187) 6784; r 11 84]);
   (CTag _ "HO", [r 35 384; r 0 1; r 500 1113; r 125 192; r (-2187) 6784; r 11 84; r 0 1]);
   (CTag _ "LO", [r 5179 57600; r 0 1; r 7571 16695; r 393 640; r (-92097) 339200; r 187 2100; r 1 40])].
(** l.270-286 *)
Definition bt_ADP8 : table Q21 :=
  [(CNum _ (r 0 1), []);
   (CNum _ (r 1 18), [r 1 18]);
   (CNum _ (r 1 12), [r 1 48; r 1 16]);
   (CNum _ (r 1 8), [r 1 32; r 0 1; r 3 32]);
   (CNum _ (r 5 16), [r 5 16; r 0 1; r (-75) 64; r 75 64]);
   (CNum _ (r 3 8), [r 3 80; r 0 1; r 0 1; r 3 16; r 3 20]);
   (CNum _ (r 59 400), [r 29443841 614563906; r 0 1; r 0 1; r 77736538 692538347; r (-28693883) 1125000000; r 23124283 1800000000]);
   (CNum _ (r 93 200), [r 16016141 946692911; r 0 1; r 0 1; r 61564180 158732637; r 22789713 633445777; r 545815736 2771057229; r (-180193667) 1043307555]);
   (CNum _ (r 5490023248 9719169821), [r 39632708 573591083; r 0 1; r 0 1; r (-433636366) 683701615; r (-421739975) 2616292301; r 100302831 723423059; r 790204164 839813087; r 800635310 3783071287]);
   (CNum _ (r 13 20), [r 246121993 1340847787; r 0 1; r 0 1; r (-37695042795) 15268766246; r (-309121744) 1061227803; r (-12992083) 490766935; r 6005943493 2108947869; r 393006217 1396673457; r 123872331 1001029789]);
   (CNum _ (r 1201146811 1299019798), [r (-1028468189) 846180014; r 0 1; r 0 1; r 8478235783 508512852; r 1311729495 1432422823; r (-10304129995) 1701304382; r (-48777925059) 3047939560; r 15336726248 1032824649; r (-45442868181) 3398467696; r 3065993473 597172653]);
   (CNum _ (r 1 1), [r 185892177 718116043; r 0 1; r 0 1; r (-3185094517) 667107341; r (-477755414) 1098053517; r (-703635378) 230739211; r 5731566787 1027545527; r 5232866602 850066563; r (-4093664535) 808688257; r 3962137247 1805957418; r 65686358 487910083]);
   (CNum _ (r 1 1), [r 403863854 491063109; r 0 1; r 0 1; r (-5068492393) 434740067; r (-411421997) 543043805; r 652783627 914296604; r 11173962825 925320556; r (-13158990841) 6184727034; r 3936647629 1978049680; r (-160528059) 685178525; r 248638103 1413531060; r 0 1]);
   (CTag _ "HO", [r 14005451 335480064; r 0 1; r 0 1; r 0 1; r 0 1; r (-59238493) 1068277825; r 181606767 758867731; r 561292985 797845732; r (-1041891430) 1371343529; r 760417239 1151165299; r 118820643 751138087; r (-528747749) 2220607170; r 1 4]);
   (CTag _ "LO", [r 13451932 455176623; r 0 1; r 0 1; r 0 1; r 0 1; r (-808719846) 976000145; r 1757004468 5645159321; r 656045339 265891186; r (-3867574721) 1518517206; r 465885868 322736535; r 53011238 667516719; r 2 45; r 0 1])].
Open Scope nat_scope.
(** generate_Butcher_tables without the Adams-Bashforth part: name, table, stated order *)
Definition Butcher_dict : dict (table Q21 * nat) :=
  [("Euler", (bt_Euler, 1));
   ("RK2 Heun", (bt_RK2_Heun, 2));
   ("RK2 MP", (bt_RK2_MP, 2));
   ("RK2 Ralston", (bt_RK2_Ralston, 2));
   ("RK3", (bt_RK3, 3));
   ("RK3 Heun", (bt_RK3_Heun, 3));
   ("RK3 Ralston", (bt_RK3_Ralston, 3));
   ("SSPRK3", (bt_SSPRK3, 3));
   ("RK4", (bt_RK4, 4));
   ("DP5", (bt_DP5, 5));
   ("DP5alt", (bt_DP5alt, 5));
   ("CK5", (bt_CK5, 5));
   ("DP6", (bt_DP6, 6));
   ("L6", (bt_L6, 6));
   ("DP8", (bt_DP8, 8));
   ("AHE", (bt_AHE, 2));
   ("ABS", (bt_ABS, 3));
   ("ARKF", (bt_ARKF, 5));
   ("ACK", (bt_ACK, 5));
   ("ADP5", (bt_ADP5, 5));
   ("ADP8", (bt_ADP8, 8))].

(** ** Adams-Bashforth, l.289-337 *)
(** Polynomials in x: coefficient lists, constant term first. *)
Fixpoint padd (p q : list Qc) : list Qc :=
  match p, q with [], _ => q | _, [] => p | a :: p', b :: q' => (a + b)%Qc :: padd p' q' end.
Definition pscale (c : Qc) (p : list Qc) : list Qc := map (Qcmult c) p.
(** (x + i) * p *)
Definition pmul_x_plus (i : nat) (p : list Qc) : list Qc := padd (Q2Qc 0 :: p) (pscale (qn i) p).
(** expr, l.311-313: x * prod(x+i, i <> j) / x, which SymPy cancels to the product *)
Definition ab_poly (n j : nat) : list Qc :=
  fold_right pmul_x_plus [Q2Qc 1] (filter (fun i => negb (Nat.eqb i j)) (seq 0 n)).
(** sp.integrate(expr, (x, 0, 1)), l.315 *)
Fixpoint pint01 (k : nat) (p : list Qc) : Qc :=
  match p with [] => Q2Qc 0 | a :: p' => (a / qn (S k) + pint01 (S k) p')%Qc end.
(** l.318-320: times (-1)^j / (j! (n-j-1)!) *)
Definition ab_coef (n j : nat) : Qc :=
  (pint01 0 (ab_poly n j) * (Qcpower (- Q2Qc 1) j / (qn (fact j) * qn (fact (n - j - 1)))))%Qc.
(** l.322-331: storing into the growing matrix *)
Definition set_nth {A} (i : nat) (x : A) (l : list A) : list A :=
  (firstn i l ++ match skipn i l with [] => [] | _ :: t => x :: t end)%list.
Definition ab_store (n : nat) (m : list (list Qc)) (j : nat) : list (list Qc) :=
  let m1 := if Nat.ltb (List.length m) n then (m ++ [repeat (Q2Qc 0) n])%list else m in
  let row := nth (n - 1) m1 [] in
  let row' := if Nat.ltb (List.length row) (j + 1) then (row ++ [ab_coef n j])%list else set_nth j (ab_coef n j) row in
  set_nth (n - 1) row' m1.
(** l.297-334 *)
Definition ab_table (order : nat) : list (list Qc) :=
  let m := fold_left (fun m n => fold_left (ab_store n) (seq 0 n) m) (seq 1 order)
             [[Q2Qc 0; Q2Qc 0]; [Q2Qc 0; Q2Qc 0]] in
  set_nth 0 [Q2Qc 1] m.
