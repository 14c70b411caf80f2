(** RbarDD of BSSN_quantities.py is the Ricci tensor of the conformal metric, in every coordinate system, up to the constraint that
    Lambdabar^i is the contracted difference of the two connections. *)
From Coq Require Import String List Arith Bool Lia Reals Lra.
From Verif Require Import PyBase Inverter InverterFacts GRMetric RefMetric RefMetricReal RefMetricCalc RefMetricFacts RefMetricFlat PropRefMetric
  BSSN BSSNFacts BSSNCalc BSSNGeo BSSNInv BSSNConn BSSNRicci BSSNRicciFacts PropBSSNDeriv.
Import ListNotations.
Local Open Scope R_scope.

(** ** Symmetries of the second covariant derivatives *)
Lemma redd_sym : forall cs r v, reference_metric cs false = Ok r -> good (ep v) -> inside (r_coord r) v ->
  forall i j k l, (i < 3)%nat -> (j < 3)%nat -> h_ReDDdDD (ref_at r v) i j k l = h_ReDDdDD (ref_at r v) i j l k.
Proof.
  intros cs r v H G IN i j k l Hi Hj. destruct (rm_kinds cs false r H) as (q & E & _ & EV & EJ & IJ & _ & _ & ES & HG).
  rewrite E in *. cbn iota in ES. pose proof (kind_regular q v G EV IN) as RG.
  unfold ref_at. cbn [h_ReDDdDD]. unfold ReDDdDD, ReDDdD. apply diff_sym. unfold ReDD. rewrite ES. apply wd_smul; now apply (reg_wds _ _ RG).
Qed.
Lemma second_alg : forall (H : nat -> nat -> nat -> R) (dH : nat -> nat -> nat -> nat -> R) (e : nat -> nat -> R) (de : nat -> nat -> nat -> R) (dde : nat -> nat -> nat -> nat -> R),
  (forall i j k, (i < 3)%nat -> (j < 3)%nat -> (k < 3)%nat -> H i j k = H i k j) ->
  (forall i k l p, (i < 3)%nat -> (k < 3)%nat -> (l < 3)%nat -> (p < 3)%nat ->
    dH i k l p + s3 (fun n => H i n p * H n k l) = dH i k p l + s3 (fun n => H i n l * H n k p)) ->
  (forall i j k l, (i < 3)%nat -> (j < 3)%nat -> (k < 3)%nat -> (l < 3)%nat -> dde i j k l = dde i j l k) ->
  let P := fun i j l => de i j l + s3 (fun n => - H n i l * e n j - H n j l * e i n) in
  let dP := fun i j l k => dde i j l k + s3 (fun n => - dH n i l k * e n j - H n i l * de n j k - dH n j l k * e i n - H n j l * de i n k) in
  forall i j k l, (i < 3)%nat -> (j < 3)%nat -> (k < 3)%nat -> (l < 3)%nat -> Q_of H P dP i j k l = Q_of H P dP i j l k.
Proof.
  intros H dH e de dde HS FL DS P dP i j k l Hi Hj Hk Hl. unfold Q_of, dP, P.
  rewrite (DS i j k l Hi Hj Hk Hl).
  assert (F : forall n a, (n < 3)%nat -> (a < 3)%nat -> dH n a k l = dH n a l k + s3 (fun c => H n c k * H c a l) - s3 (fun c => H n c l * H c a k)).
  { intros n a Hn Ha. pose proof (FL n a k l Hn Ha Hk Hl). lra. }
  rewrite (s3_ext (fun n => H n k l * (de i j n + s3 (fun n0 => - H n0 i n * e n0 j - H n0 j n * e i n0)))
    (fun n => H n l k * (de i j n + s3 (fun n0 => - H n0 i n * e n0 j - H n0 j n * e i n0)))) by (intros n Hn; now rewrite (HS n k l Hn Hk Hl)).
  rewrite (s3_ext (fun n => - dH n i k l * e n j - H n i k * de n j l - dH n j k l * e i n - H n j k * de i n l)
    (fun n => - (dH n i l k + s3 (fun c => H n c k * H c i l) - s3 (fun c => H n c l * H c i k)) * e n j - H n i k * de n j l
        - (dH n j l k + s3 (fun c => H n c k * H c j l) - s3 (fun c => H n c l * H c j k)) * e i n - H n j k * de i n l)) by (intros n Hn; now rewrite !F).
  rewrite !s3_eq. ring.
Qed.

Lemma redd_sym1 : forall cs r w, reference_metric cs false = Ok r -> good (ep w) -> inside (r_coord r) w ->
  forall i j k, (i < 3)%nat -> (j < 3)%nat -> (k < 3)%nat -> h_ReDDdD (ref_at r w) i j k = h_ReDDdD (ref_at r w) j i k.
Proof.
  intros cs r w H G IN i j k Hi Hj Hk. pose proof (k_ReDD _ _ (ref_at_ok cs r w H G IN)) as K.
  assert (SY : forall w' a c, h_ReDD (ref_at r w') a c = h_ReDD (ref_at r w') c a) by (intros w' a c; exact (geo_ReDDsym r w' a c)).
  generalize dependent (ref_at r). intros M K SY.
  apply (d_unique (fun w => h_ReDD (M w) i j) k w); [now apply K|].
  apply (d_eq (fun w => h_ReDD (M w) j i) _ k w (h_ReDDdD (M w) j i k)); [intros w'; apply SY|reflexivity|now apply K].
Qed.
Lemma hat_sym : forall m b, ref_geo m -> declared b -> (forall i j k, (i < 3)%nat -> (j < 3)%nat -> (k < 3)%nat -> h_ReDDdD m i j k = h_ReDDdD m j i k) ->
  forall i j k, (i < 3)%nat -> (j < 3)%nat -> (k < 3)%nat -> gammabarDD_dHatD m b i j k = gammabarDD_dHatD m b j i k.
Proof.
  intros m b E D RS i j k Hi Hj Hk.
  assert (EP : forall a c, (a < 3)%nat -> (c < 3)%nat -> epsDD m b a c = epsDD m b c a).
  { intros a c Ha Hc. unfold epsDD. now rewrite (y_h _ D a c Ha Hc), (e_ReDDsym _ E a c Ha Hc). }
  unfold gammabarDD_dHatD.
  rewrite (s3_ext (fun n => - h_Gam m n i k * epsDD m b n j - h_Gam m n j k * epsDD m b i n)
    (fun n => - h_Gam m n j k * epsDD m b n i - h_Gam m n i k * epsDD m b j n)).
  - f_equal. unfold epsDD_dD. rewrite (y_hD _ D i j k Hi Hj Hk), (e_ReDDsym _ E i j Hi Hj), (y_h _ D i j Hi Hj), (RS i j k Hi Hj Hk). reflexivity.
  - intros n Hn. rewrite (EP n j Hn Hj), (EP i n Hi Hn). ring.
Qed.

Lemma contr_alg : forall (U : nat -> nat -> R) (G H D : nat -> nat -> nat -> R),
  (forall i j k, (i < 3)%nat -> (j < 3)%nat -> (k < 3)%nat -> G i j k = H i j k + D i j k) ->
  forall i, (i < 3)%nat -> s3 (fun j => s3 (fun k => U j k * (G i j k - H i j k))) = s3 (fun j => s3 (fun k => U j k * D i j k)).
Proof. intros U G H D E i Hi. apply s3_ext. intros j Hj. apply s3_ext. intros k Hk. rewrite (E i j k Hi Hj Hk). ring. Qed.

Lemma add_sub_l : forall a b c : R, a = b + c -> a - b = c.
Proof. intros a b c ->. ring. Qed.
(** RbarDD with its constituents replaced by equal ones *)
Lemma rbar_alg : forall m b U Q D L lam (g : nat -> nat -> R), 
  (forall i j k l, (i < 3)%nat -> (j < 3)%nat -> (k < 3)%nat -> (l < 3)%nat -> gammabarDD_dHatDD m b i j k l = Q i j k l) ->
  (forall i j k, (i < 3)%nat -> (j < 3)%nat -> (k < 3)%nat -> DGammaUDD m b U i j k = D i j k) ->
  (forall i j k, (i < 3)%nat -> (j < 3)%nat -> (k < 3)%nat -> DGammaDDD m b U i j k = L i j k) ->
  (forall i, (i < 3)%nat -> DGammaU m b U i = lam i) ->
  (forall i j, gammabarDD m b i j = g i j) ->
  forall i j, (i < 3)%nat -> (j < 3)%nat ->
  RbarDD m b U i j =
  s3 (fun k => s3 (fun l => - (1 / 2) * U k l * Q i j l k))
  + s3 (fun k => 1 / 2 * (g k i * LambarU_dHatD m b k j + g k j * LambarU_dHatD m b k i))
  + s3 (fun k => 1 / 2 * lam k * (L i j k + L j i k))
  + s3 (fun k => s3 (fun l => s3 (fun n => U k l * (D n k i * L j n l + D n k j * L i n l + D n i k * L n j l)))).
Proof.
  intros m b U Q D L lam g EQ DU DL DC EG i j Hi Hj. unfold RbarDD. f_equal; [f_equal; [f_equal|]|].
  - apply s3_ext. intros k Hk. apply s3_ext. intros l Hl. now rewrite EQ.
  - apply s3_ext. intros k Hk. now rewrite !EG.
  - apply s3_ext. intros k Hk. now rewrite (DC k Hk), (DL i j k Hi Hj Hk), (DL j i k Hj Hi Hk).
  - apply s3_ext. intros k Hk. apply s3_ext. intros l Hl. apply s3_ext. intros n Hn.
    now rewrite (DU n k i Hn Hk Hi), (DU n k j Hn Hk Hj), (DU n i k Hn Hi Hk), (DL j n l Hj Hn Hl), (DL i n l Hi Hn Hl), (DL n j l Hn Hj Hl).
Qed.

Section Ric.
Variables (cs : string) (r : rfm) (V : env -> vars) (v : env) (u : env -> nat -> nat -> R) (d : env -> R).
Hypothesis S : setting cs r V v.
Hypothesis IV : near v (fun w => inv3 (gammabarDD (ref_at r w) (V w)) = Ok (u w, d w)).
Let M := ref_at r.
Let P := fun w => gammabarDD_dHatD (M w) (V w).
Let dP := gammabarDD_dHatD_dD (M v) (V v).
Let g := fun w => gammabarDD (M w) (V w).
Let H := fun w => h_Gam (M w).
Lemma at_near : near v (fun w => ref_geo (M w) /\ sym3 (g w) /\ sym3 (u w) /\ two_sided3 (g w) (u w) /\ declared (V w)).
Proof using S IV.
  eapply near_imp; [exact (near_and _ _ _ (near_and _ _ _ (decl_gd_sym _ _ _ _ S) IV) (s_decl _ _ _ _ S))|].
  intros w (((E & SG & _) & Iw) & Dw). split; [exact E|]. split; [exact SG|]. destruct (inv3_spec _ _ _ SG Iw) as (_ & _ & TS). split; [|split; [exact TS|exact Dw]].
  destruct (inv3_form _ _ Iw) as [F1 _]. cbn [fst] in F1. rewrite F1. intros [|[|[|a]]] [|[|[|c]]] Ha Hc; try lia; reflexivity.
Qed.
Lemma P_near : near v (fun w => forall i j k, (i < 3)%nat -> (j < 3)%nat -> (k < 3)%nat -> P w i j k = P w j i k).
Proof using S IV.
  eapply near_imp; [exact (near_and _ _ _ at_near (near_ok cs r v (s_rm _ _ _ _ S) (s_good _ _ _ _ S) (s_inside _ _ _ _ S)))|].
  intros w ((E & _ & _ & _ & D) & Gw & Iw). exact (hat_sym _ _ E D (redd_sym1 cs r w (s_rm _ _ _ _ S) Gw Iw)).
Qed.
Lemma dP_sym : forall i j k l, (i < 3)%nat -> (j < 3)%nat -> (k < 3)%nat -> (l < 3)%nat -> dP i j k l = dP j i k l.
Proof using S IV.
  intros i j k l Hi Hj Hk Hl. destruct S as [HR G IN HV DC].
  refine (sym_deriv (fun w i j => P w i j k) (fun i j => dP i j k l) l v Hl _ _ i j Hi Hj).
  - eapply near_imp; [exact P_near|]. intros w X a c Ha Hc. now apply X.
  - intros a c Ha Hc. exact (d_hat _ _ _ (ref_at_ok cs r v HR G IN) HV a c k l Ha Hc Hk Hl).
Qed.
Lemma Q_val : forall i j k l, gammabarDD_dHatDD (M v) (V v) i j k l = Q_of (H v) (P v) dP i j k l.
Proof using.
  intros i j k l. unfold gammabarDD_dHatDD, Q_of. fold (P v). fold dP. fold (H v). generalize (P v) dP (H v). intros. rewrite !s3_eq. ring.
Qed.
Lemma Q_sym : forall i j k l, (i < 3)%nat -> (j < 3)%nat -> (k < 3)%nat -> (l < 3)%nat ->
  Q_of (H v) (P v) dP i j k l = Q_of (H v) (P v) dP j i k l /\ Q_of (H v) (P v) dP i j k l = Q_of (H v) (P v) dP i j l k.
Proof using S IV.
  intros i j k l Hi Hj Hk Hl. pose proof (near_here _ _ P_near) as PS. pose proof (near_here _ _ at_near) as (E & _ & _ & _ & DC). split.
  - unfold Q_of. rewrite (dP_sym i j k l Hi Hj Hk Hl).
    rewrite (s3_ext (fun n => H v n k l * P v i j n) (fun n => H v n k l * P v j i n)) by (intros n Hn; now rewrite (PS i j n)).
    rewrite (s3_ext (fun n => H v n i l * P v n j k) (fun n => H v n i l * P v j n k)) by (intros n Hn; now rewrite (PS n j k)).
    rewrite (s3_ext (fun n => H v n j l * P v i n k) (fun n => H v n j l * P v n i k)) by (intros n Hn; now rewrite (PS i n k)).
    generalize (s3 (fun n => H v n i l * P v j n k)) (s3 (fun n => H v n j l * P v n i k)) (s3 (fun n => H v n k l * P v j i n)). intros; ring.
  - assert (RS := redd_sym cs r v (s_rm _ _ _ _ S) (s_good _ _ _ _ S) (s_inside _ _ _ _ S)). fold M in RS.
    refine (second_alg (H v) (h_GamdD (M v)) (epsDD (M v) (V v)) (epsDD_dD (M v) (V v)) (epsDD_dDD (M v) (V v)) (e_Gam _ E) (e_flat _ E) _ i j k l Hi Hj Hk Hl).
    intros a c e f Ha Hc He Hf. unfold epsDD_dDD. rewrite (proj2 (y_hDD _ DC a c e f Ha Hc He Hf)).
    rewrite (RS a c e f Ha Hc). clear.
    generalize (h_ReDDdDD (M v)) (h_ReDDdD (M v)) (h_ReDD (M v)). intros; ring.
Qed.
(** the connection, its derivative, and the contracted difference *)
Lemma gd_val : forall w, ref_geo (M w) -> forall i j l, (i < 3)%nat -> (j < 3)%nat -> (l < 3)%nat ->
  gammabarDD_dD (M w) (V w) i j l = gd_of (g w) (H w) (P w) i j l.
Proof using.
  intros w E i j l Hi Hj Hl. unfold gd_of, P. rewrite (hat_cov _ _ E i j l Hi Hj Hl). unfold cov_DD.
  fold (g w). fold (H w). generalize (g w) (H w). intros. rewrite !s3_eq. ring.
Qed.
Lemma conn_near : near v (fun w => forall i k l, (i < 3)%nat -> (k < 3)%nat -> (l < 3)%nat ->
  GammabarUDD (M w) (V w) (u w) i k l = H w i k l + D_of (u w) (P w) i k l).
Proof using S IV.
  eapply near_imp; [exact at_near|]. intros w (E & SG & SU & TS & D) i k l Hi Hk Hl. unfold GammabarUDD.
  exact (conn_split (g w) (u w) (H w) (P w) TS SG (e_Gam _ E) (gammabarDD_dD (M w) (V w)) (gd_val w E) i k l Hi Hk Hl).
Qed.
Let du := du_of (g v) (u v) (H v) (P v).
Let dD := dD_of (g v) (u v) (H v) (P v) dP.
Lemma d_u : forall i j l, (i < 3)%nat -> (j < 3)%nat -> (l < 3)%nat -> d_at (fun w => u w i j) l v (du i j l).
Proof using S IV.
  intros i j l Hi Hj Hl. pose proof (near_here _ _ at_near) as (E & _).
  replace (du i j l) with (- s3 (fun a => s3 (fun b => u v i a * u v j b * gammabarDD_dD (M v) (V v) a b l))).
  - apply (d_inverse g u d (fun a b => gammabarDD_dD (M v) (V v) a b l) l v Hl); try assumption.
    + eapply near_imp; [exact at_near|]. intros w (_ & X & _). exact X.
    + intros a b Ha Hb. destruct S as [HR G IN HV DC]. exact (d_gammabar _ _ _ (ref_at_ok cs r v HR G IN) HV a b l Ha Hb Hl).
  - unfold du, du_of. f_equal. apply s3_ext. intros a Ha. apply s3_ext. intros b Hb. now rewrite (gd_val v E a b l Ha Hb Hl).
Qed.
Lemma d_D : forall i j k l, (i < 3)%nat -> (j < 3)%nat -> (k < 3)%nat -> (l < 3)%nat -> d_at (fun w => D_of (u w) (P w) i j k) l v (dD i j k l).
Proof using S IV.
  intros i j k l Hi Hj Hk Hl. unfold D_of, dD, dD_of. apply (d_s3 (fun w n => u w i n * L_of (P w) n j k)). intros n Hn.
  apply d_mult; [now apply d_u|]. unfold L_of, dL_of. apply d_scal. destruct S as [HR G IN HV DC]. pose proof (d_hat _ _ _ (ref_at_ok cs r v HR G IN) HV) as DH.
  apply d_minus; [apply d_plus|]; apply DH; assumption.
Qed.
Lemma d_Gam : forall i j k l, (i < 3)%nat -> (j < 3)%nat -> (k < 3)%nat -> (l < 3)%nat ->
  d_at (fun w => GammabarUDD (M w) (V w) (u w) i j k) l v (h_GamdD (M v) i j k l + dD i j k l).
Proof using S IV.
  intros i j k l Hi Hj Hk Hl. pose proof S as [HR G IN HV DC].
  eapply d_ext; [exact Hl| |reflexivity|exact (d_plus _ _ l v _ _ (k_Gam _ _ (ref_at_ok cs r v HR G IN) i j k l Hi Hj Hk Hl) (d_D i j k l Hi Hj Hk Hl))].
  eapply near_imp; [exact conn_near|]. intros w X. now rewrite (X i j k Hi Hj Hk).
Qed.
(** the contracted difference of the connections and its derivative *)
Definition contr (w : env) (i : nat) : R := s3 (fun j => s3 (fun k => u w j k * (GammabarUDD (M w) (V w) (u w) i j k - H w i j k))).
Let dlam := dlam_of (g v) (u v) (H v) (P v) dP.
Lemma contr_near : near v (fun w => forall i, (i < 3)%nat -> contr w i = lam_of (u w) (P w) i).
Proof using S IV.
  eapply near_imp; [exact conn_near|]. intros w X. exact (contr_alg (u w) (GammabarUDD (M w) (V w) (u w)) (H w) (D_of (u w) (P w)) X).
Qed.
Lemma d_contr' : forall i l, (i < 3)%nat -> (l < 3)%nat -> d_at (fun w => contr w i) l v (dlam i l).
Proof using S IV.
  intros i l Hi Hl. apply (d_ext (fun w => lam_of (u w) (P w) i) _ l v (dlam i l)); [exact Hl| |reflexivity|].
  - eapply near_imp; [exact contr_near|]. intros w X. symmetry. exact (X i Hi).
  - unfold lam_of, dlam, dlam_of. apply (d_s3 (fun w a => s3 (fun b => u w a b * D_of (u w) (P w) i a b))). intros a Ha.
    apply (d_s3 (fun w b => u w a b * D_of (u w) (P w) i a b)). intros b Hb.
    exact (d_mult _ _ l v _ _ (d_u a b l Ha Hb Hl) (d_D i a b l Hi Ha Hb Hl)).
Qed.
Lemma rbar_val : forall i j, (i < 3)%nat -> (j < 3)%nat ->
  RbarDD (M v) (V v) (u v) i j =
  s3 (fun k => s3 (fun l => - (1 / 2) * u v k l * Q_of (H v) (P v) dP i j l k))
  + s3 (fun k => 1 / 2 * (g v k i * LambarU_dHatD (M v) (V v) k j + g v k j * LambarU_dHatD (M v) (V v) k i))
  + s3 (fun k => 1 / 2 * lam_of (u v) (P v) k * (L_of (P v) i j k + L_of (P v) j i k))
  + s3 (fun k => s3 (fun l => s3 (fun n => u v k l *
      (D_of (u v) (P v) n k i * L_of (P v) j n l + D_of (u v) (P v) n k j * L_of (P v) i n l + D_of (u v) (P v) n i k * L_of (P v) n j l)))).
Proof using S IV.
  intros i j Hi Hj. pose proof (near_here _ _ conn_near) as CN. pose proof (near_here _ _ at_near) as (E & SG & SU & TS & _).
  apply (rbar_alg (M v) (V v) (u v)); try assumption; [| | | |reflexivity].
  - intros a b c e _ _ _ _. apply Q_val.
  - intros a b c Ha Hb Hc. exact (add_sub_l _ _ _ (CN a b c Ha Hb Hc)).
  - intros a b c Ha Hb Hc. rewrite <- (D_low (g v) (u v) (P v) TS a b c Ha). apply s3_ext. intros n Hn. f_equal.
    exact (add_sub_l _ _ _ (CN n b c Hn Hb Hc)).
  - exact (contr_alg (u v) (GammabarUDD (M v) (V v) (u v)) (H v) (D_of (u v) (P v)) CN).
Qed.
End Ric.

Lemma ricci_ext : forall G G' dG, (forall i j k, (i < 3)%nat -> (j < 3)%nat -> (k < 3)%nat -> G i j k = G' i j k) ->
  forall i j, (i < 3)%nat -> (j < 3)%nat -> ricci G dG i j = ricci G' dG i j.
Proof.
  intros G G' dG E i j Hi Hj. unfold ricci. f_equal. apply s3_ext. intros k Hk. apply s3_ext. intros n Hn.
  now rewrite (E k n k), (E n i j), (E k n j), (E n i k).
Qed.
Lemma hat_split : forall (G : nat -> nat -> nat -> R) (X L : nat -> R) (Y dL : nat -> nat -> R) k j,
  dL k j + s3 (fun n => G k n j * L n) = (Y k j + s3 (fun n => G k n j * X n)) + cov_U G (fun n => L n - X n) (fun n l => dL n l - Y n l) k j.
Proof. intros. unfold cov_U. rewrite !s3_eq. ring. Qed.

Lemma half_alg : forall a b x y c e : R, 1 / 2 * (a * (x + c) + b * (y + e)) = 1 / 2 * (a * x + b * y) + 1 / 2 * (a * c + b * e).
Proof. intros; ring. Qed.

(** RbarDD is the Ricci tensor of the connection of gammabarDD (R_ij = d_k G^k_ij - d_j G^k_ik + G^k_nk G^n_ij - G^k_nj G^n_ik), plus
    the symmetrised covariant derivative of the violation C^i of Lambdabar^i = gammabar^jk (Gammabar^i_jk - Gammahat^i_jk). *)
Theorem C63_general : forall cs r V v u d, setting cs r V v -> near v (fun w => inv3 (gammabarDD (ref_at r w) (V w)) = Ok (u w, d w)) ->
  let M := ref_at r in
  let Gam := fun w => GammabarUDD (M w) (V w) (u w) in
  let C := fun w i => LambdabarU (M w) (V w) i - s3 (fun j => s3 (fun k => u w j k * (Gam w i j k - h_Gam (M w) i j k))) in
  exists dGam dC,
  (forall i j k l, (i < 3)%nat -> (j < 3)%nat -> (k < 3)%nat -> (l < 3)%nat -> d_at (fun w => Gam w i j k) l v (dGam i j k l)) /\
  (forall i l, (i < 3)%nat -> (l < 3)%nat -> d_at (fun w => C w i) l v (dC i l)) /\
  forall i j, (i < 3)%nat -> (j < 3)%nat ->
    RbarDD (M v) (V v) (u v) i j =
    s3 (fun k => dGam k i j k) - s3 (fun k => dGam k i k j) + s3 (fun k => s3 (fun n => Gam v k n k * Gam v n i j - Gam v k n j * Gam v n i k))
    + s3 (fun k => 1 / 2 * (gammabarDD (M v) (V v) k i * cov_U (h_Gam (M v)) (C v) dC k j
                          + gammabarDD (M v) (V v) k j * cov_U (h_Gam (M v)) (C v) dC k i)).
Proof.
  intros cs r V v u d S IV M Gam C. pose proof (near_here _ _ (at_near cs r V v u d S IV)) as (E & SG & SU & TS & _).
  pose proof (d_Gam cs r V v u d S IV) as DG. pose proof (d_contr' cs r V v u d S IV) as DC.
  pose proof (near_here _ _ (conn_near cs r V v u d S IV)) as CN. pose proof (near_here _ _ (contr_near cs r V v u d S IV)) as KN.
  pose proof (near_here _ _ (P_near cs r V v u d S IV)) as PS. pose proof (Q_sym cs r V v u d S IV) as QS.
  pose proof (rbar_val cs r V v u d S IV) as RV.
  assert (DL := fun a c Ha Hc => d_Lambar _ _ _ (ref_at_ok cs r v (s_rm _ _ _ _ S) (s_good _ _ _ _ S) (s_inside _ _ _ _ S)) (s_vars _ _ _ _ S) a c Ha Hc).
  cbn zeta in *. fold M in E, SG, TS, DG, DC, CN, KN, PS, QS, RV, DL.
  set (P := gammabarDD_dHatD (M v) (V v)) in *. set (dP := gammabarDD_dHatD_dD (M v) (V v)) in *. set (g := gammabarDD (M v) (V v)) in *.
  set (H := h_Gam (M v)) in *. set (U := u v) in *.
  set (dL := fun a c => v_lam_dD (V v) a c * h_ReU (M v) a + v_lam (V v) a * h_ReUdD (M v) a c).
  set (dl := dlam_of g U H P dP).
  exists (fun i j k l => h_GamdD (M v) i j k l + dD_of g U H P dP i j k l), (fun i l => dL i l - dl i l).
  split; [exact DG|]. split.
  { intros i l Hi Hl. exact (d_minus _ _ l v _ _ (DL i l Hi Hl) (DC i l Hi Hl)). }
  intros i j Hi Hj. rewrite (RV i j Hi Hj).
  pose proof (ricci_formula g U H (h_GamdD (M v)) P dP TS SG SU (e_Gam _ E) (e_flat _ E) PS QS i j Hi Hj) as RF.
  rewrite <- (ricci_ext (Gam v) (fun i j k => H i j k + D_of U P i j k) _ CN i j Hi Hj) in RF. unfold ricci in RF.
  match goal with |- _ = ?a + _ => replace a with (s3 (fun k => s3 (fun l => - (1 / 2) * U k l * Q_of H P dP i j l k)) +
     s3 (fun k => 1 / 2 * (g k i * (dlam_of g U H P dP k j + s3 (fun n => H k n j * lam_of U P n)) + g k j * (dlam_of g U H P dP k i + s3 (fun n => H k n i * lam_of U P n)))) +
     s3 (fun k => 1 / 2 * lam_of U P k * (L_of P i j k + L_of P j i k)) +
     s3 (fun k => s3 (fun l => s3 (fun n => U k l * (D_of U P n k i * L_of P j n l + D_of U P n k j * L_of P i n l + D_of U P n i k * L_of P n j l))))) by (symmetry; exact RF) end.
  clear RF RV.
  assert (HL : forall k l, (k < 3)%nat -> (l < 3)%nat -> LambarU_dHatD (M v) (V v) k l =
     (dl k l + s3 (fun n => H k n l * lam_of U P n)) + cov_U H (C v) (fun i l => dL i l - dl i l) k l).
  { intros k l Hk Hl.
    transitivity (dL k l + s3 (fun n => H k n l * LambdabarU (M v) (V v) n)).
    - unfold LambarU_dHatD, dL, LambdabarU. f_equal. apply s3_ext. intros n Hn. apply Rmult_assoc.
    - rewrite (hat_split H (lam_of U P) (LambdabarU (M v) (V v)) dl dL k l). f_equal. unfold cov_U. f_equal. apply s3_ext. intros n Hn. f_equal.
      symmetry. exact (f_equal (Rminus (LambdabarU (M v) (V v) n)) (KN n Hn)). }
  rewrite (s3_ext (fun k => 1 / 2 * (g k i * LambarU_dHatD (M v) (V v) k j + g k j * LambarU_dHatD (M v) (V v) k i))
    (fun k => 1 / 2 * (g k i * (dl k j + s3 (fun n => H k n j * lam_of U P n)) + g k j * (dl k i + s3 (fun n => H k n i * lam_of U P n)))
     + 1 / 2 * (g k i * cov_U H (C v) (fun i l => dL i l - dl i l) k j + g k j * cov_U H (C v) (fun i l => dL i l - dl i l) k i))).
  - rewrite s3_plus. fold dl.
    match goal with |- ?a + (?b + ?c) + ?e + ?f = ?a + ?b + ?e + ?f + ?c => generalize a b c e f end. intros; ring.
  - intros k Hk. rewrite (HL k j Hk Hj), (HL k i Hk Hi).
    apply half_alg.
Qed.

Lemma cov_zero : forall (G : nat -> nat -> nat -> R) T dT, (forall a, (a < 3)%nat -> T a = 0) -> (forall a l, (a < 3)%nat -> (l < 3)%nat -> dT a l = 0) ->
  forall k l, (k < 3)%nat -> (l < 3)%nat -> cov_U G T dT k l = 0.
Proof. intros G T dT T0 D0 k l Hk Hl. unfold cov_U. rewrite (D0 k l Hk Hl), s3_eq, !T0 by lia. ring. Qed.
Lemma s3_0 : s3 (fun _ => 0) = 0.
Proof. rewrite s3_eq. ring. Qed.
Lemma half_zero : forall a b : R, 1 / 2 * (a * 0 + b * 0) = 0.
Proof. intros; ring. Qed.
(** Where the constraint holds, RbarDD is the Ricci tensor of gammabar *)
Theorem C63_ricci : forall cs r V v u d, setting cs r V v -> near v (fun w => inv3 (gammabarDD (ref_at r w) (V w)) = Ok (u w, d w)) ->
  let M := ref_at r in
  let Gam := fun w => GammabarUDD (M w) (V w) (u w) in
  near v (fun w => forall i, (i < 3)%nat -> LambdabarU (M w) (V w) i = s3 (fun j => s3 (fun k => u w j k * (Gam w i j k - h_Gam (M w) i j k)))) ->
  exists dGam,
  (forall i j k l, (i < 3)%nat -> (j < 3)%nat -> (k < 3)%nat -> (l < 3)%nat -> d_at (fun w => Gam w i j k) l v (dGam i j k l)) /\
  forall i j, (i < 3)%nat -> (j < 3)%nat ->
    RbarDD (M v) (V v) (u v) i j =
    s3 (fun k => dGam k i j k) - s3 (fun k => dGam k i k j) + s3 (fun k => s3 (fun n => Gam v k n k * Gam v n i j - Gam v k n j * Gam v n i k)).
Proof.
  intros cs r V v u d S IV M Gam N. destruct (C63_general cs r V v u d S IV) as (dG & dC & DG & DC & E). cbn zeta in *. fold M in DG, DC, E.
  exists dG. split; [exact DG|]. intros i j Hi Hj. rewrite (E i j Hi Hj).
  assert (C0 : forall a, (a < 3)%nat -> LambdabarU (M v) (V v) a - s3 (fun j => s3 (fun k => u v j k * (GammabarUDD (M v) (V v) (u v) a j k - h_Gam (M v) a j k))) = 0).
  { intros a Ha. rewrite (near_here _ _ N a Ha). apply Rminus_diag_eq. reflexivity. }
  assert (D0 : forall a l, (a < 3)%nat -> (l < 3)%nat -> dC a l = 0).
  { intros a l Ha Hl. refine (d_unique _ l v _ _ (DC a l Ha Hl) _).
    eapply d_ext; [exact Hl| |reflexivity|apply (d_const 0)]. eapply near_imp; [exact N|]. intros w X. cbn beta. rewrite (X a Ha). unfold Gam.
    symmetry. apply Rminus_diag_eq. reflexivity. }
  assert (Z : forall k l, (k < 3)%nat -> (l < 3)%nat -> cov_U (h_Gam (M v))
    (fun i => LambdabarU (M v) (V v) i - s3 (fun j => s3 (fun k => u v j k * (GammabarUDD (M v) (V v) (u v) i j k - h_Gam (M v) i j k)))) dC k l = 0).
  { intros k l Hk Hl. exact (cov_zero _ _ _ C0 D0 k l Hk Hl). }
  rewrite (s3_ext (fun k => 1 / 2 * _) (fun _ => 0)).
  - rewrite s3_0. apply Rplus_0_r.
  - intros k Hk. rewrite (Z k j Hk Hj), (Z k i Hk Hi). apply half_zero.
Qed.

(** RbarDD is symmetric, whether the constraint holds or not *)
Lemma last_sym : forall (U : nat -> nat -> R) (L : nat -> nat -> nat -> R), sym3 U -> forall i j,
  s3 (fun k => s3 (fun l => s3 (fun n => U k l * (De U L n k i * L j n l + De U L n k j * L i n l + De U L n i k * L n j l)))) =
  s3 (fun k => s3 (fun l => s3 (fun n => U k l * (De U L n k j * L i n l + De U L n k i * L j n l + De U L n j k * L n i l)))).
Proof.
  intros U L US i j. unfold De. rewrite !s3_eq. rewrite (US 1%nat 0%nat), (US 2%nat 0%nat), (US 2%nat 1%nat) by lia. ring.
Qed.
(** Where gammabar is invertible at [v] it is so near [v] *)
Lemma nonzero_near : forall f v, (forall l, (l < 3)%nat -> d_ex f l v) -> f v <> 0 -> near v (fun w => f w <> 0).
Proof.
  intros f v D N.
  assert (X : forall l, (l < 3)%nat -> exists e, 0 < e /\ forall t, Rabs (t - exx v l) < e -> f (upd l t v) <> 0).
  { intros l Hl. destruct (D l Hl) as [x HX]. destruct (continuous_near _ _ _ HX (Rabs (f v)) (Rabs_pos_lt _ N)) as (e & He & HE).
    exists e. split; [exact He|]. intros t Ht Z. specialize (HE t Ht). cbn beta in HE. rewrite upd_same, Z in HE.
    replace (0 - f v) with (- f v) in HE by ring. rewrite Rabs_Ropp in HE. lra. }
  destruct (X 0%nat ltac:(lia)) as (e0 & P0 & H0). destruct (X 1%nat ltac:(lia)) as (e1 & P1 & H1). destruct (X 2%nat ltac:(lia)) as (e2 & P2 & H2).
  exists (Rmin e0 (Rmin e1 e2)). split; [repeat apply Rmin_glb_lt; assumption|]. intros l t Hl Ht.
  pose proof (Rmin_l e0 (Rmin e1 e2)). pose proof (Rmin_r e0 (Rmin e1 e2)). pose proof (Rmin_l e1 e2). pose proof (Rmin_r e1 e2).
  destruct l as [|[|[|l]]]; try lia; [apply H0|apply H1|apply H2]; lra.
Qed.
Lemma near_inverse : forall cs r V v, setting cs r V v -> forall u0 d0, inv3 (gammabarDD (ref_at r v) (V v)) = Ok (u0, d0) ->
  exists u d, u v = u0 /\ near v (fun w => inv3 (gammabarDD (ref_at r w) (V w)) = Ok (u w, d w)).
Proof.
  intros cs r V v S u0 d0 I0. pose proof (decl_gd_sym _ _ _ _ S) as N.
  exists (fun w => match inv3 (gammabarDD (ref_at r w) (V w)) with Ok p => fst p | Err _ => fun _ _ => 0 end), (fun w => det3 (gammabarDD (ref_at r w) (V w))).
  split; [now rewrite I0|].
  assert (Z : near v (fun w => symm3_det R 1 Rplus Rmult Rminus Ropp (gammabarDD (ref_at r w) (V w)) <> 0)).
  { apply (nonzero_near (fun w => symm3_det R 1 Rplus Rmult Rminus Ropp (gammabarDD (ref_at r w) (V w)))).
    - intros l Hl. apply (ex_det (fun w => gammabarDD (ref_at r w) (V w)) (fun i j => gammabarDD_dD (ref_at r v) (V v) i j l) l v Hl).
      intros i j Hi Hj. destruct S as [HR G IN HV DC]. exact (d_gammabar _ _ _ (ref_at_ok cs r v HR G IN) HV i j l Hi Hj Hl).
    - destruct (inv3_form _ _ I0) as [_ F]. cbn [snd] in F. rewrite <- F. destruct (near_here _ _ N) as (_ & SG & _). apply (inv3_spec _ _ _ SG I0). }
  eapply near_imp; [exact (near_and _ _ _ N Z)|]. intros w ((_ & SG & _) & NZ). destruct (inv3_total _ SG) as (h & ->); [|reflexivity].
  intros DZ. apply NZ. rewrite <- DZ. revert SG. generalize (gammabarDD (ref_at r w) (V w)). intros a SG.
  unfold symm3_det, leibniz. cbn. rewrite (SG 1%nat 0%nat), (SG 2%nat 0%nat), (SG 2%nat 1%nat) by lia. ring.
Qed.
Theorem C63_symmetric : forall cs r V v u d, setting cs r V v -> inv3 (gammabarDD (ref_at r v) (V v)) = Ok (u, d) ->
  forall i j, (i < 3)%nat -> (j < 3)%nat -> RbarDD (ref_at r v) (V v) u i j = RbarDD (ref_at r v) (V v) u j i.
Proof.
  intros cs r V v u0 d0 S I0 i j Hi Hj. destruct (near_inverse _ _ _ _ S u0 d0 I0) as (u & d & <- & IV).
  pose proof (near_here _ _ (at_near cs r V v u d S IV)) as (_ & _ & SU & _).
  pose proof (Q_sym cs r V v u d S IV) as QS. pose proof (rbar_val cs r V v u d S IV) as RV. cbn zeta in QS, RV.
  rewrite (RV i j Hi Hj), (RV j i Hj Hi). f_equal; [f_equal; [f_equal|]|].
  - apply s3_ext. intros k Hk. apply s3_ext. intros l Hl. f_equal. exact (proj1 (QS i j l k Hi Hj Hl Hk)).
  - apply s3_ext. intros k Hk. f_equal. apply Rplus_comm.
  - apply s3_ext. intros k Hk. f_equal. apply Rplus_comm.
  - exact (last_sym (u v) (L_of (gammabarDD_dHatD (ref_at r v) (V v))) SU i j).
Qed.

(** *** Concrete fields satisfying the constraint: those of ex_fields, with Lambdabar computed from the connections *)
Definition with_lam (b : vars) (lam : nat -> R) (lamD : nat -> nat -> R) : vars :=
  MkVars (v_h b) (v_a b) lam (v_vet b) (v_bet b) (v_trK b) (v_cf b) (v_alpha b) (v_h_dD b) (v_h_dupD b) (v_h_dDD b) (v_a_dD b) (v_a_dupD b)
    lamD lamD (v_vet_dD b) (v_vet_dupD b) (v_vet_dDD b) (v_cf_dD b) (v_cf_dupD b) (v_cf_dDD b) (v_trK_dD b) (v_trK_dupD b) (v_alpha_dD b) (v_alpha_dDD b).
Lemma ex_constraint : exists r v V u d, setting "SinhSymTP" r V v /\ near v (fun w => inv3 (gammabarDD (ref_at r w) (V w)) = Ok (u w, d w)) /\
  (forall w, v_h (V w) 0%nat 1%nat = exx w 0%nat) /\
  near v (fun w => forall i, (i < 3)%nat -> LambdabarU (ref_at r w) (V w) i =
     s3 (fun j => s3 (fun k => u w j k * (GammabarUDD (ref_at r w) (V w) (u w) i j k - h_Gam (ref_at r w) i j k)))).
Proof.
  destruct ex_point as (r & v & H & G & I). pose proof (ex_setting _ r v H G I) as S. destruct (ex_inverse _ _ _ S) as (u & N).
  pose proof (d_contr' _ r ex_fields v u _ S N) as DC. pose proof (ref_at_ok _ r v H G I) as RO. pose proof (near_ok _ r v H G I) as NO.
  set (c := contr r ex_fields u) in *. cbn zeta in DC.
  assert (RU : forall i, (i < 3)%nat -> h_ReU (ref_at r v) i <> 0) by exact (e_ReU _ (ref_at_geo _ r v H G I)).
  assert (X : exists X, forall i l, (i < 3)%nat -> (l < 3)%nat -> d_at (fun w => c w i / h_ReU (ref_at r w) i) l v (X i l)).
  { eexists (fun i l => _). intros i l Hi Hl. exact (d_div _ _ l v _ _ (RU i Hi) (DC i l Hi Hl) (k_ReU _ _ RO i l Hi Hl)). }
  destruct X as (X & DX).
  exists r, v, (fun w => with_lam (ex_fields w) (fun i => c w i / h_ReU (ref_at r w) i) X), u, (fun w => det3 (gammabarDD (ref_at r w) (ex_fields w))).
  split; [|split; [exact N|split; [reflexivity|]]].
  - destruct S as [_ _ _ SV SD]. constructor; [exact H|exact G|exact I| |].
    + destruct SV. constructor; assumption.
    + eapply near_imp; [exact SD|]. intros w [A1 A2 A3 A4 A5 A6 A7]. constructor; assumption.
  - eapply near_imp; [exact NO|]. intros w (Gw & Iw) i Hi. pose proof (e_ReU _ (ref_at_geo _ r w H Gw Iw) i Hi) as RW.
    transitivity (c w i / h_ReU (ref_at r w) i * h_ReU (ref_at r w) i); [reflexivity|].
    transitivity (c w i); [|reflexivity]. unfold Rdiv. rewrite Rmult_assoc, Rinv_l by exact RW. apply Rmult_1_r.
Qed.
Example ex_C63_ricci : exists r v V u dGam, setting "SinhSymTP" r V v /\ (forall w, v_h (V w) 0%nat 1%nat = exx w 0%nat) /\
  (forall l, (l < 3)%nat -> d_at (fun w => GammabarUDD (ref_at r w) (V w) (u w) 0%nat 0%nat 1%nat) l v (dGam 0%nat 0%nat 1%nat l)) /\
  RbarDD (ref_at r v) (V v) (u v) 0%nat 1%nat = ricci (GammabarUDD (ref_at r v) (V v) (u v)) dGam 0%nat 1%nat.
Proof.
  destruct ex_constraint as (r & v & V & u & d & S & N & HH & K). destruct (C63_ricci _ r V v u d S N K) as (dG & DG & E).
  exists r, v, V, u, dG. split; [exact S|]. split; [exact HH|]. split; [intros l Hl; exact (DG 0%nat 0%nat 1%nat l ltac:(lia) ltac:(lia) ltac:(lia) Hl)|].
  exact (E 0%nat 1%nat ltac:(lia) ltac:(lia)).
Qed.
Example ex_C63_general : exists r v u, setting "SinhSymTP" r ex_fields v /\ near v (fun w => inv3 (gammabarDD (ref_at r w) (ex_fields w)) = Ok (u w, det3 (gammabarDD (ref_at r w) (ex_fields w)))) /\
  RbarDD (ref_at r v) (ex_fields v) (u v) 0%nat 1%nat = RbarDD (ref_at r v) (ex_fields v) (u v) 1%nat 0%nat.
Proof.
  destruct ex_point as (r & v & H & G & I). pose proof (ex_setting _ r v H G I) as S. destruct (ex_inverse _ _ _ S) as (u & N).
  exists r, v, u. split; [exact S|]. split; [exact N|]. exact (C63_symmetric _ r ex_fields v (u v) _ S (near_here _ _ N) 0%nat 1%nat ltac:(lia) ltac:(lia)).
Qed.

Print Assumptions C63_general.
Print Assumptions C63_ricci.
Print Assumptions C63_symmetric.
