(** Headline theorems for checkpointing (C38). *)
From Coq Require Import List Arith ZArith QArith Qround Bool Lia Lqa FinFun Permutation.
From Verif Require Import Chare ChareFacts Checkpoint.
Import ListNotations.
Open Scope nat_scope.

(** ** Reading back what was written *)
Lemma fread_ints_app : forall V (l : list nat) (f : file V),
  fread_ints (length l) (map KInt l ++ f) = Some (map Some l, f).
Proof. induction l as [|a l IH]; intros f; cbn; [reflexivity|]. rewrite IH. reflexivity. Qed.

Lemma fread_reals_app : forall V (l : list (cellv V)) (f : file V),
  fread_reals (length l) (map KReal l ++ f) = Some (l, f).
Proof. induction l as [|a l IH]; intros f; cbn; [reflexivity|]. rewrite IH. reflexivity. Qed.

Lemma all_some_map : forall A (l : list A), all_some (map Some l) = Some l.
Proof. induction l as [|a l IH]; cbn; [reflexivity|]. rewrite IH. reflexivity. Qed.

Lemma flat_map_len : forall A B (f : A -> list B) k l,
  (forall a, In a l -> length (f a) = k) -> length (flat_map f l) = length l * k.
Proof.
  induction l as [|a l IH]; cbn; intros H; [reflexivity|].
  rewrite app_length, (H a (or_introl eq_refl)), IH; [reflexivity|]. intros; apply H; now right.
Qed.

Lemma nth_flat_map : forall A B (f : A -> list B) k l d d' i j, (forall a, length (f a) = k) -> j < k ->
  i < length l -> nth (i * k + j) (flat_map f l) d = nth j (f (nth i l d')) d.
Proof.
  induction l as [|a l IH]; cbn; intros d d' i j H Hj Hi; [lia|].
  destruct i as [|i].
  - cbn. apply app_nth1. rewrite H. exact Hj.
  - rewrite app_nth2 by (rewrite H; cbn; lia). rewrite H. cbn [Nat.mul].
    replace (k + i * k + j - k) with (i * k + j) by lia. apply IH; [exact H|exact Hj|lia].
Qed.

Lemma compact_length : forall V ne n (y : list (cellv V)), length (compact ne n y) = n * ne.
Proof.
  intros. unfold compact. rewrite flat_map_len with (k := ne); [rewrite seq_length; reflexivity|].
  intros. rewrite map_length, seq_length. reflexivity.
Qed.

Lemma compact_nth : forall V ne n (y : list (cellv V)) i gf, i < n -> gf < ne ->
  nth (i * ne + gf) (compact ne n y) None = nth (n * gf + i) y None.
Proof.
  intros V ne n y i gf Hi Hg. unfold compact.
  rewrite nth_flat_map with (d' := 0); [|intros; rewrite map_length, seq_length; reflexivity|exact Hg|rewrite seq_length; exact Hi].
  rewrite seq_nth by exact Hi. cbn [Nat.add].
  rewrite nth_indep with (d' := (fun gf => nth (n * gf + i) y None) 0) by (rewrite map_length, seq_length; exact Hg).
  rewrite (map_nth (fun gf => nth (n * gf + i) y None)), seq_nth by exact Hg. reflexivity.
Qed.

Lemma in_y_stores : forall V ne n (data : list (cellv V)) j v,
  In (j, v) (y_stores ne n (seq 0 n) data) <->
  exists i gf, i < n /\ gf < ne /\ j = i + n * gf /\ v = nth (i * ne + gf) data None.
Proof.
  intros. unfold y_stores. rewrite seq_length, in_flat_map. split.
  - intros ([a b] & Hab & H). apply in_map_iff in H. destruct H as (gf & E & Hg). cbn [fst snd] in E.
    assert (a = b /\ a < n).
    { clear - Hab. assert (forall s l, In (a, b) (combine (seq s l) (seq s l)) -> a = b /\ a < s + l).
      { intros s l. revert s. induction l as [|l IH]; cbn; intros s H; [easy|].
        destruct H as [H|H]; [injection H as -> ->; lia|]. apply IH in H. lia. }
      apply H in Hab. lia. }
    destruct H as [-> Hn]. apply in_seq in Hg. injection E as <- <-. exists b, gf. repeat split; lia.
  - intros (i & gf & Hi & Hg & -> & ->). exists (i, i). split.
    + assert (forall s l, s <= i < s + l -> In (i, i) (combine (seq s l) (seq s l))).
      { intros s l. revert s. induction l as [|l IH]; cbn; intros s H; [lia|].
        destruct (Nat.eq_dec s i); [left; congruence|right; apply IH; lia]. }
      apply H. lia.
    + apply in_map_iff. exists gf. split; [reflexivity|apply in_seq; lia].
Qed.

Lemma y_stores_NoDup : forall V ne n (data : list (cellv V)),
  NoDup (map fst (y_stores ne n (seq 0 n) data)).
Proof.
  intros. unfold y_stores. rewrite seq_length.
  assert (G : forall s l, s + l <= n -> NoDup (map fst (flat_map (fun ix : nat * nat =>
      map (fun gf => (snd ix + n * gf, nth (fst ix * ne + gf) data None)) (seq 0 ne))
      (combine (seq s l) (seq s l)))) /\
    forall j, In j (map fst (flat_map (fun ix : nat * nat =>
      map (fun gf => (snd ix + n * gf, nth (fst ix * ne + gf) data None)) (seq 0 ne))
      (combine (seq s l) (seq s l)))) -> s <= j mod n < s + l).
  { intros s l. revert s. induction l as [|l IH]; intros s Hs; cbn [seq combine flat_map]; [split; [constructor|easy]|].
    destruct (IH (S s) ltac:(lia)) as [N R]. rewrite map_app, map_map. cbn [fst snd].
    assert (M : forall gf, (s + n * gf) mod n = s).
    { intros gf. rewrite (Nat.mul_comm n gf), Nat.mod_add by lia. apply Nat.mod_small. lia. }
    split.
    - apply NoDup_app; [|exact N|].
      + apply FinFun.Injective_map_NoDup; [|apply seq_NoDup]. intros a b E. nia.
      + intros j Hj C. apply in_map_iff in Hj. destruct Hj as (gf & <- & _). apply R in C.
        rewrite M in C. lia.
    - intros j Hj. apply in_app_iff in Hj. destruct Hj as [Hj|Hj]; [|apply R in Hj; lia].
      apply in_map_iff in Hj. destruct Hj as (gf & <- & _). rewrite M. lia. }
  apply G. lia.
Qed.

Lemma split_index : forall n ne j, j < n * ne -> exists i gf, i < n /\ gf < ne /\ j = i + n * gf.
Proof.
  intros n ne j H. assert (n <> 0) by (destruct n; [cbn in H; lia|lia]).
  exists (j mod n), (j / n). split; [apply Nat.mod_upper_bound; assumption|].
  split; [apply Nat.div_lt_upper_bound; [assumption|lia]|].
  rewrite Nat.add_comm. apply Nat.div_mod. assumption.
Qed.

(** A grid as write_checkpoint needs it: y_n_gfs has ntot*NUM_EVOL_GFS entries and
    diagnostic_output_gfs at least as many. *)
Definition grid_wf {V} (ne : nat) (g : grid V) : Prop :=
  length (gr_y g) = ntot (gr_params g) * ne /\ ntot (gr_params g) * ne <= length (gr_diag g).

Lemma copy_all : forall V n (y d : list (cellv V)), length y = n -> copy_into n y d = y ++ skipn n d.
Proof. intros. unfold copy_into. subst. rewrite firstn_all. reflexivity. Qed.

Lemma read_grid_cells : forall V ne (g g0 : grid V) f, grid_wf ne g ->
  read_grid ne (grid_cells ne g ++ f) g0 = Some (MkGrid (gr_params g) (gr_y g) (gr_diag g0), f).
Proof.
  intros V ne g g0 f [L D]. unfold read_grid, grid_cells. set (n := ntot (gr_params g)) in *.
  cbn [app fread_params fread_int bind fst snd].
  rewrite <- app_assoc.
  set (dd := compact ne n (copy_into (n * ne) (gr_y g) (gr_diag g))).
  pose proof (fread_ints_app V (seq 0 n) (map KReal dd ++ f)) as F1. rewrite seq_length in F1. rewrite F1. cbn [bind].
  pose proof (fread_reals_app V dd f) as F2. unfold dd at 1 in F2. rewrite compact_length in F2. rewrite F2. cbn [bind].
  fold n. destruct (Nat.eqb_spec (n * ne) 0) as [E|E].
  - rewrite E in *. destruct (gr_y g); [reflexivity|discriminate].
  - rewrite all_some_map. cbn [bind].
    destruct (run_stores_ok _ (n * ne) (y_stores ne n (seq 0 n) dd) (fun _ => None)) as [m Hm].
    { intros j v Hj. apply in_y_stores in Hj. destruct Hj as (i & gf & Hi & Hg & -> & _). nia. }
    rewrite Hm. do 3 f_equal. apply nth_ext with (d := None) (d' := None).
    + rewrite map_length, seq_length. symmetry. exact L.
    + intros j Hj. rewrite map_length, seq_length in Hj.
      destruct (split_index n ne j Hj) as (i & gf & Hi & Hg & Ej).
      rewrite nth_indep with (d' := (fun i => match m i with Some v => v | None => None end) 0)
        by (rewrite map_length, seq_length; exact Hj).
      rewrite (map_nth (fun i => match m i with Some v => v | None => None end)), seq_nth by exact Hj.
      cbn [Nat.add]. rewrite (run_stores_in _ _ _ _ _ j (nth (i * ne + gf) dd None) Hm).
      * unfold dd. rewrite compact_nth by assumption. rewrite copy_all by exact L.
        rewrite app_nth1 by (rewrite L; nia). f_equal. lia.
      * apply y_stores_NoDup.
      * apply in_y_stores. exists i, gf. auto.
Qed.

Lemma read_grids_cells : forall V ne (gs gs0 : list (grid V)) f, Forall (grid_wf ne) gs ->
  length gs <= length gs0 ->
  read_grids (length gs) ne (flat_map (grid_cells ne) gs ++ f) gs0 =
  Some (map (fun gg => MkGrid (gr_params (fst gg)) (gr_y (fst gg)) (gr_diag (snd gg))) (combine gs gs0)
        ++ skipn (length gs) gs0, f).
Proof.
  induction gs as [|g gs IH]; intros gs0 f W L; cbn [length read_grids flat_map combine map app]; [reflexivity|].
  destruct gs0 as [|g0 gs0]; [cbn in L; lia|]. inversion W; subst.
  rewrite <- app_assoc, read_grid_cells by assumption. cbn [bind]. rewrite IH; [reflexivity|assumption|cbn in L; lia].
Qed.

Definition hz_wf {V} (h : horizon V) : Prop :=
  length (h_m1 h) = 64 * 32 /\ length (h_m2 h) = 64 * 32 /\ length (h_m3 h) = 64 * 32.

Lemma read_hz_cells : forall V (hs hs0 : list (horizon V)) f, Forall hz_wf hs -> length hs <= length hs0 ->
  read_hz (length hs) (flat_map (@hz_cells V) hs ++ f) hs0 = Some (hs ++ skipn (length hs) hs0, f).
Proof.
  induction hs as [|h hs IH]; intros hs0 f W L; cbn [length read_hz flat_map]; [reflexivity|].
  destruct hs0 as [|h0 hs0]; [cbn in L; lia|]. inversion W as [|? ? (W1 & W2 & W3) W']; subst.
  unfold hz_cells at 1. cbn [app fread_hz bind]. rewrite <- !app_assoc.
  pose proof (fread_reals_app V (h_m1 h) (map KReal (h_m2 h) ++ map KReal (h_m3 h) ++ flat_map (@hz_cells V) hs ++ f)) as F1.
  rewrite W1 in F1. rewrite F1. cbn [bind].
  pose proof (fread_reals_app V (h_m2 h) (map KReal (h_m3 h) ++ flat_map (@hz_cells V) hs ++ f)) as F2.
  rewrite W2 in F2. rewrite F2. cbn [bind].
  pose proof (fread_reals_app V (h_m3 h) (flat_map (@hz_cells V) hs ++ f)) as F3.
  rewrite W3 in F3. rewrite F3. cbn [bind].
  rewrite IH; [|assumption|cbn in L; lia]. cbn [bind skipn app]. destruct h; reflexivity.
Qed.

(** A state that write_checkpoint handles without running out of bounds. *)
Definition state_wf {V} (bah : bool) (ne : nat) (s : state V) : Prop :=
  Forall (grid_wf ne) (s_grids s) /\ length (s_grids s) = c_NUMGRIDS (s_common s) /\
  (bah = true -> Forall hz_wf (s_hz s) /\ length (s_hz s) = c_nh (s_common s)).

(** Restarting restores everything: all of commondata (with t_0 and nn_0 set to the checkpoint's time and
    iteration), the horizon data if enabled, and each grid's parameters and evolved values. *)
Theorem C38_round_trip : forall V bah ne disk (s s0 : state V),
  state_wf bah ne s -> due (s_common s) = true ->
  length (s_grids s0) = c_NUMGRIDS (s_common s) ->
  (bah = true -> length (s_hz s0) = c_nh (s_common s)) ->
  exists s', read_checkpoint bah ne (fst (write_checkpoint bah ne disk s)) s0 = Some (true, s') /\
    (let c := s_common s in
     s_common s' = MkCommon (c_time c) (c_dt c) (c_every c) (c_nn c) (c_time c) (c_nn c)
                            (c_NUMGRIDS c) (c_nh c) (c_rest c)) /\
    map (@gr_params V) (s_grids s') = map (@gr_params V) (s_grids s) /\
    map (@gr_y V) (s_grids s') = map (@gr_y V) (s_grids s) /\
    (bah = true -> s_hz s' = s_hz s).
Proof.
  intros V bah ne disk s s0 (W & L & H) D L0 H0. unfold write_checkpoint. rewrite D. cbn [fst].
  unfold read_checkpoint, checkpoint_cells. cbn [app fread_common bind].
  rewrite <- L, firstn_all.
  assert (K : forall gs gs0 : list (grid V), length gs0 = length gs ->
    map (@gr_params V) (map (fun gg => MkGrid (gr_params (fst gg)) (gr_y (fst gg)) (gr_diag (snd gg))) (combine gs gs0)
        ++ skipn (length gs) gs0) = map (@gr_params V) gs /\
    map (@gr_y V) (map (fun gg => MkGrid (gr_params (fst gg)) (gr_y (fst gg)) (gr_diag (snd gg))) (combine gs gs0)
        ++ skipn (length gs) gs0) = map (@gr_y V) gs).
  { induction gs as [|g gs IH]; intros gs0 E; destruct gs0 as [|g0 gs0]; cbn in E; try discriminate; [split; reflexivity|].
    destruct (IH gs0 ltac:(lia)) as [I1 I2]. cbn. rewrite I1, I2. split; reflexivity. }
  pose proof (read_grids_cells V ne (s_grids s) (s_grids s0) [] W ltac:(lia)) as R. rewrite app_nil_r in R.
  destruct (K (s_grids s) (s_grids s0) ltac:(lia)) as [K1 K2].
  destruct bah.
  - destruct (H eq_refl) as [W' L']. specialize (H0 eq_refl). rewrite <- L', firstn_all.
    rewrite read_hz_cells by (assumption || lia). cbn [bind]. rewrite R. cbn [bind].
    eexists. split; [reflexivity|]. cbn [s_common s_grids s_hz]. split; [reflexivity|].
    split; [exact K1|]. split; [exact K2|]. intros _.
    rewrite skipn_all2 by lia. apply app_nil_r.
  - cbn [app bind]. rewrite R. cbn [bind].
    eexists. split; [reflexivity|]. cbn [s_common s_grids s_hz]. split; [reflexivity|].
    split; [exact K1|]. split; [exact K2|]. discriminate.
Qed.

(** Without a file nothing is read. *)
Theorem C38_no_file : forall V bah ne (s0 : state V), read_checkpoint bah ne None s0 = Some (false, s0).
Proof. reflexivity. Qed.

(** Writing leaves the simulation state alone: commondata, horizons, parameters and evolved values.  The
    diagnostics buffer ends up with a copy of the evolved values. *)
Theorem C38_write_keeps : forall V bah ne disk (s : state V), state_wf bah ne s ->
  let s' := snd (write_checkpoint bah ne disk s) in
  s_common s' = s_common s /\ s_hz s' = s_hz s /\
  map (@gr_params V) (s_grids s') = map (@gr_params V) (s_grids s) /\
  map (@gr_y V) (s_grids s') = map (@gr_y V) (s_grids s).
Proof.
  intros V bah ne disk s (W & L & _). unfold write_checkpoint. destruct (due (s_common s)); cbn [snd]; [|auto].
  unfold write_state. cbn [s_common s_hz s_grids]. split; [reflexivity|]. split; [reflexivity|].
  rewrite <- L, firstn_all, skipn_all, app_nil_r, !map_map. split; [reflexivity|].
  apply map_ext_in. intros g Hg. rewrite Forall_forall in W. destruct (W g Hg) as [Ly Ld].
  unfold write_grid. cbn [gr_y]. set (n := ntot (gr_params g) * ne) in *.
  rewrite (copy_all V n (gr_y g) (gr_diag g) Ly).
  assert (C : copy_into n (gr_y g ++ skipn n (gr_diag g)) (repeat None n) = gr_y g).
  { unfold copy_into. rewrite firstn_app, Ly, Nat.sub_diag, firstn_O, app_nil_r.
    rewrite <- Ly, firstn_all, Ly, skipn_all2 by (rewrite repeat_length; lia). apply app_nil_r. }
  exact C.
Qed.

(** ** Truncated files *)
Lemma fread_ints_nil : forall V n, fread_ints n ([] : file V) = Some (repeat None n, []).
Proof. induction n as [|n IH]; cbn; [reflexivity|]. rewrite IH. reflexivity. Qed.
Lemma fread_reals_nil : forall V n, fread_reals n ([] : file V) = Some (repeat None n, []).
Proof. induction n as [|n IH]; cbn; [reflexivity|]. rewrite IH. reflexivity. Qed.
Lemma fread_ints_trunc : forall V (l : list nat) n, length l <= n ->
  fread_ints n (map KInt l : file V) = Some (map Some l ++ repeat None (n - length l), []).
Proof.
  induction l as [|a l IH]; intros n H; [cbn [map length app]; rewrite Nat.sub_0_r; apply fread_ints_nil|].
  destruct n as [|n]; [cbn in H; lia|]. cbn. rewrite IH by (cbn in H; lia). reflexivity.
Qed.
Lemma fread_reals_trunc : forall V (l : list (cellv V)) n, length l <= n ->
  fread_reals n (map KReal l) = Some (l ++ repeat None (n - length l), []).
Proof.
  induction l as [|a l IH]; intros n H; [cbn [map length app]; rewrite Nat.sub_0_r; apply fread_reals_nil|].
  destruct n as [|n]; [cbn in H; lia|]. cbn. rewrite IH by (cbn in H; lia). reflexivity.
Qed.

Lemma all_some_None : forall A (l : list (option A)), In None l -> all_some l = None.
Proof.
  induction l as [|[a|] l IH]; cbn; intros H; [easy| |reflexivity].
  destruct H as [H|H]; [discriminate|]. rewrite IH by exact H. reflexivity.
Qed.

Lemma read_grid_nil : forall V ne (g0 : grid V), read_grid ne [] g0 = None.
Proof. reflexivity. Qed.

Lemma grid_cells_length : forall V ne (g : grid V),
  length (grid_cells ne g) = 2 + ntot (gr_params g) + ntot (gr_params g) * ne.
Proof.
  intros. unfold grid_cells. cbn [length]. rewrite app_length, !map_length, seq_length, compact_length. lia.
Qed.

Lemma read_grid_trunc : forall V ne (g g0 : grid V) k, 0 < ne -> 0 < ntot (gr_params g) ->
  k < length (grid_cells ne g) ->
  read_grid ne (firstn k (grid_cells ne g)) g0 = None \/
  exists g', read_grid ne (firstn k (grid_cells ne g)) g0 = Some (g', []) /\ In None (gr_y g').
Proof.
  intros V ne g g0 k Hne Hn Hk. rewrite grid_cells_length in Hk. unfold grid_cells.
  set (n := ntot (gr_params g)) in *. set (dd := compact ne n (copy_into (n * ne) (gr_y g) (gr_diag g))).
  assert (Ld : length dd = n * ne) by apply compact_length.
  destruct k as [|[|k]]; [left; reflexivity|left; reflexivity|]. cbn [firstn].
  unfold read_grid. cbn [fread_params fread_int bind]. fold n.
  rewrite firstn_app, map_length, seq_length.
  replace (n * ne =? 0) with false by (symmetry; apply Nat.eqb_neq; nia).
  destruct (Nat.lt_ge_cases k n) as [Hkn|Hkn].
  - left. replace (k - n) with 0 by lia. rewrite firstn_O, app_nil_r, firstn_map.
    rewrite fread_ints_trunc by (rewrite firstn_length, seq_length; lia). cbn [bind].
    rewrite fread_reals_nil. cbn [bind]. rewrite all_some_None; [reflexivity|].
    apply in_app_iff. right. rewrite firstn_length, seq_length.
    replace (n - Nat.min k n) with (S (n - Nat.min k n - 1)) by lia. left. reflexivity.
  - right. rewrite firstn_all2 by (rewrite map_length, seq_length; lia).
    pose proof (fread_ints_app V (seq 0 n) (firstn (k - n) (map KReal dd))) as F1. rewrite seq_length in F1.
    rewrite F1. cbn [bind]. rewrite firstn_map, fread_reals_trunc by (rewrite firstn_length; lia).
    cbn [bind]. rewrite all_some_map. cbn [bind]. rewrite firstn_length.
    set (data := firstn (k - n) dd ++ repeat None (n * ne - Nat.min (k - n) (length dd))).
    destruct (run_stores_ok _ (n * ne) (y_stores ne n (seq 0 n) data) (fun _ => None)) as [m Hm].
    { intros j v Hj. apply in_y_stores in Hj. destruct Hj as (i & gf & Hi & Hg & -> & _). nia. }
    rewrite Hm. eexists. split; [reflexivity|]. cbn [gr_y]. apply in_map_iff.
    exists (n - 1 + n * (ne - 1)). split; [|apply in_seq; nia].
    rewrite (run_stores_in _ _ _ _ _ (n - 1 + n * (ne - 1)) (nth ((n - 1) * ne + (ne - 1)) data None) Hm).
    + unfold data. rewrite app_nth2 by (rewrite firstn_length; nia).
      destruct (nth_in_or_default ((n - 1) * ne + (ne - 1) - length (firstn (k - n) dd))
        (repeat (None : cellv V) (n * ne - Nat.min (k - n) (length dd))) None) as [H|H]; [|exact H].
      apply repeat_spec in H. exact H.
    + apply y_stores_NoDup.
    + apply in_y_stores. exists (n - 1), (ne - 1). repeat split; lia.
Qed.

Lemma read_grids_nil : forall V k ne (gs0 : list (grid V)), 0 < k -> read_grids k ne [] gs0 = None.
Proof. intros V [|k] ne gs0 H; [lia|]. destruct gs0; reflexivity. Qed.

Lemma read_grids_trunc : forall V ne (gs gs0 : list (grid V)) k, 0 < ne -> Forall (grid_wf ne) gs ->
  Forall (fun g => 0 < ntot (gr_params g)) gs ->
  k < length (flat_map (grid_cells ne) gs) ->
  read_grids (length gs) ne (firstn k (flat_map (grid_cells ne) gs)) gs0 = None \/
  exists gs' f, read_grids (length gs) ne (firstn k (flat_map (grid_cells ne) gs)) gs0 = Some (gs', f) /\
    exists g, In g gs' /\ In None (gr_y g).
Proof.
  induction gs as [|g gs IH]; intros gs0 k Hne W N Hk; [cbn in Hk; lia|].
  inversion W; subst. inversion N; subst. cbn [length read_grids flat_map] in *. rewrite app_length in Hk.
  destruct gs0 as [|g0 gs0]; [left; reflexivity|]. rewrite firstn_app.
  destruct (Nat.lt_ge_cases k (length (grid_cells ne g))) as [Hlt|Hge].
  - replace (k - length (grid_cells ne g)) with 0 by lia. rewrite firstn_O, app_nil_r.
    destruct (read_grid_trunc V ne g g0 k Hne H3 Hlt) as [E|(g' & E & U)]; rewrite E; cbn [bind]; [left; reflexivity|].
    destruct gs as [|g1 gs].
    + right. cbn [length read_grids bind]. eexists _, _. split; [reflexivity|]. exists g'. split; [left; reflexivity|exact U].
    + left. rewrite read_grids_nil by (cbn; lia). reflexivity.
  - rewrite firstn_all2 by lia. rewrite read_grid_cells by assumption. cbn [bind].
    destruct (IH gs0 (k - length (grid_cells ne g)) Hne H2 H4 ltac:(lia)) as [E|(gs' & f & E & (g' & Hg' & U))]; rewrite E; cbn [bind].
    + left; reflexivity.
    + right. eexists _, _. split; [reflexivity|]. exists g'. split; [right; exact Hg'|exact U].
Qed.

Lemma fread_reals_consume : forall V n (f : file V) l f', fread_reals n f = Some (l, f') -> length f' = length f - n.
Proof.
  induction n as [|n IH]; cbn [fread_reals]; intros f l f' H; [injection H as _ <-; lia|].
  destruct f as [|c f]; [|destruct c]; cbn [fread_real bind] in H; try discriminate.
  - destruct (fread_reals n []) as [[r f2]|] eqn:E; cbn [bind] in H; [|discriminate]. injection H as _ <-.
    apply IH in E. cbn in E. cbn. lia.
  - destruct (fread_reals n f) as [[r f2]|] eqn:E; cbn [bind] in H; [|discriminate]. injection H as _ <-.
    apply IH in E. cbn [length]. lia.
Qed.

Lemma read_hz_consume : forall V k (f : file V) hs r f', read_hz k f hs = Some (r, f') ->
  length f' = length f - k * (1 + 3 * (64 * 32)).
Proof.
  induction k as [|k IH]; cbn [read_hz]; intros f hs r f' H; [injection H as _ <-; lia|].
  destruct hs as [|h hs]; [discriminate|].
  assert (E1 : forall b f1, fread_hz f (h_bytes h) = Some (b, f1) -> length f1 = length f - 1).
  { intros b f1 E. destruct f as [|[] f]; cbn in E; try discriminate; injection E as _ <-; cbn; lia. }
  destruct (fread_hz f (h_bytes h)) as [[b f1]|]; cbn [bind] in H; [|discriminate]. specialize (E1 _ _ eq_refl).
  destruct (fread_reals (64 * 32) f1) as [[a1 f2]|] eqn:E2; cbn [bind] in H; [|discriminate].
  destruct (fread_reals (64 * 32) f2) as [[a2 f3]|] eqn:E3; cbn [bind] in H; [|discriminate].
  destruct (fread_reals (64 * 32) f3) as [[a3 f4]|] eqn:E4; cbn [bind] in H; [|discriminate].
  destruct (read_hz k f4 hs) as [[r' f5]|] eqn:E5; cbn [bind] in H; [|discriminate].
  injection H as _ <-. apply fread_reals_consume in E2, E3, E4. apply IH in E5. lia.
Qed.

Lemma hz_cells_length : forall V (hs : list (horizon V)), Forall hz_wf hs ->
  length (flat_map (@hz_cells V) hs) = length hs * (1 + 3 * (64 * 32)).
Proof.
  induction hs as [|h hs IH]; intros W; [reflexivity|]. inversion W as [|? ? (W1 & W2 & W3) W']; subst.
  cbn [flat_map]. rewrite app_length, IH by assumption. unfold hz_cells at 1.
  cbn [length]. rewrite !app_length, !map_length, W1, W2, W3. lia.
Qed.

(** A strict prefix of a checkpoint is never refused: either the read uses uninitialised memory as a count
    or index, or it reports success with evolved values that were never set. *)
Theorem C38_truncated : forall V bah ne (s s0 : state V) k r s', state_wf bah ne s -> 0 < ne ->
  Forall (fun g => 0 < ntot (gr_params g)) (s_grids s) ->
  0 < c_NUMGRIDS (s_common s) -> 0 < c_NUMGRIDS (s_common s0) ->
  k < length (checkpoint_cells bah ne s) ->
  read_checkpoint bah ne (Some (firstn k (checkpoint_cells bah ne s))) s0 = Some (r, s') ->
  r = true /\ exists g, In g (s_grids s') /\ In None (gr_y g).
Proof.
  intros V bah ne s s0 k r s' (W & L & H) Hne N P P0 Hk R.
  unfold checkpoint_cells in *. unfold read_checkpoint in R.
  destruct k as [|k].
  - exfalso. cbn [firstn fread_common bind] in R.
    destruct bah; cbn [bind] in R; [|rewrite read_grids_nil in R by exact P0; discriminate].
    destruct (read_hz _ _ _) as [[hz f2]|] eqn:E; cbn [bind] in R; [|discriminate].
    assert (f2 = []).
    { apply read_hz_consume in E. cbn [length] in E. destruct f2; [reflexivity|cbn [length] in E; lia]. }
    subst f2. rewrite read_grids_nil in R by exact P0. discriminate.
  - cbn [firstn fread_common bind] in R. cbn [length] in Hk. rewrite <- L, firstn_all in *.
    assert (Q : exists hz f2, (if bah then read_hz (c_nh (s_common s))
        (firstn k ((if bah then flat_map (@hz_cells V) (firstn (c_nh (s_common s)) (s_hz s)) else []) ++ flat_map (grid_cells ne) (s_grids s))) (s_hz s0)
        else Some (s_hz s0, firstn k ((if bah then flat_map (@hz_cells V) (firstn (c_nh (s_common s)) (s_hz s)) else []) ++ flat_map (grid_cells ne) (s_grids s)))) = Some (hz, f2) /\
      (f2 = [] \/ exists k', k' < length (flat_map (grid_cells ne) (s_grids s)) /\ f2 = firstn k' (flat_map (grid_cells ne) (s_grids s)))).
    { destruct bah.
      - destruct (read_hz _ _ _) as [[hz f2]|] eqn:E; cbn [bind] in R; [|discriminate].
        exists hz, f2. split; [reflexivity|]. destruct (H eq_refl) as [W' L']. rewrite <- L', firstn_all in E, Hk.
        set (hh := flat_map (@hz_cells V) (s_hz s)) in *. rewrite app_length in Hk.
        destruct (Nat.lt_ge_cases k (length hh)) as [Hlt|Hge].
        + left. apply read_hz_consume in E. rewrite firstn_length, app_length in E. unfold hh in *.
          rewrite hz_cells_length in * by assumption. destruct f2; [reflexivity|cbn [length] in E; lia].
        + right. exists (k - length hh). split; [lia|].
          rewrite firstn_app, firstn_all2 in E by lia. 
          destruct (Nat.lt_ge_cases (length (s_hz s0)) (length (s_hz s))) as [C|C].
          * exfalso. clear - E C. revert E. generalize (hh ++ firstn (k - length hh) (flat_map (grid_cells ne) (s_grids s))). intros f E.
            revert f f2 hz E C. generalize (s_hz s0). induction (length (s_hz s)) as [|m IH]; intros l f f2 hz E C; [lia|].
            cbn [read_hz] in E. destruct l as [|h l]; [discriminate|].
            destruct (fread_hz f (h_bytes h)) as [[b f1]|]; cbn [bind] in E; [|discriminate].
            destruct (fread_reals (64 * 32) f1) as [[a1 f3]|]; cbn [bind] in E; [|discriminate].
            destruct (fread_reals (64 * 32) f3) as [[a2 f4]|]; cbn [bind] in E; [|discriminate].
            destruct (fread_reals (64 * 32) f4) as [[a3 f5]|]; cbn [bind] in E; [|discriminate].
            destruct (read_hz m f5 l) as [[r' f6]|] eqn:E5; cbn [bind] in E; [|discriminate].
            eapply IH; [exact E5|cbn in C; lia].
          * unfold hh in E. rewrite read_hz_cells in E by assumption. injection E as _ <-. reflexivity.
      - eexists _, _. split; [reflexivity|]. right. exists k. cbn [app] in *. split; [lia|reflexivity]. }
    destruct Q as (hz & f2 & E & [->|(k' & Hk' & ->)]); rewrite E in R; cbn [bind] in R.
    + rewrite read_grids_nil in R by lia. discriminate.
    + destruct (read_grids_trunc V ne (s_grids s) (s_grids s0) k' Hne W N Hk') as [E'|(gs' & f & E' & U)];
        rewrite E' in R; cbn [bind] in R; [discriminate|].
      injection R as <- <-. split; [reflexivity|]. exact U.
Qed.

(** The original claim about crashes fails: a valid earlier checkpoint is on disk, the program stops
    during the next write, and the restart is told that all is well while evolved values are garbage. *)
Theorem C38_crash_refuted : exists (s_old s_new s0 : state Z) disk d s',
  disk = fst (write_checkpoint false 1 None s_old) /\
  (exists s1, read_checkpoint false 1 disk s0 = Some (true, s1) /\ map (@gr_y Z) (s_grids s1) = map (@gr_y Z) (s_grids s_old)) /\
  state_wf false 1 s_new /\ crash_disk false 1 disk s_new d /\
  read_checkpoint false 1 d s0 = Some (true, s') /\
  exists g, In g (s_grids s') /\ In None (gr_y g) /\ In (Some 5%Z) (gr_y g).
Proof.
  pose (c t := MkCommon t 1 2 0 0 0 1 0 []).
  pose (gd a b := MkGrid (MkPrms 2 1 1 []) [Some a; Some b] [None; None] : grid Z).
  pose (s_old := MkState (c 2%Q) [] [gd 3%Z 4%Z]).
  pose (s_new := MkState (c 4%Q) [] [gd 5%Z 6%Z]).
  pose (s0 := MkState (c 0%Q) [] [gd 0%Z 0%Z]).
  exists s_old, s_new, s0, (fst (write_checkpoint false 1 None s_old)),
    (Some (firstn 6 (checkpoint_cells false 1 s_new))).
  eexists. split; [reflexivity|]. split; [eexists; split; [vm_compute; reflexivity|vm_compute; reflexivity]|].
  split; [split; [repeat constructor|split; [reflexivity|discriminate]]|].
  split; [right; split; [vm_compute; reflexivity|exists 6; reflexivity]|].
  split; [vm_compute; reflexivity|]. eexists. split; [left; reflexivity|]. split; vm_compute; auto.
Qed.

(** What a crash can leave: the old file, or a prefix of the new one. Only the whole new file (or the old
    one) restores a state. *)
Theorem C38_crash_outcomes : forall V bah ne disk (s : state V) d,
  crash_disk bah ne disk s d ->
  d = disk \/ d = Some (checkpoint_cells bah ne s) \/
  exists k, k < length (checkpoint_cells bah ne s) /\ d = Some (firstn k (checkpoint_cells bah ne s)).
Proof.
  intros V bah ne disk s d [H|(_ & k & H)]; [left; exact H|right].
  destruct (Nat.lt_ge_cases k (length (checkpoint_cells bah ne s))) as [Hk|Hk]; [right; exists k; auto|].
  left. rewrite firstn_all2 in H by exact Hk. exact H.
Qed.

(** ** When a checkpoint is written *)
Lemma cround_near : forall q, (inject_Z (cround q) - (1 # 2) <= q <= inject_Z (cround q) + (1 # 2))%Q.
Proof.
  intros q. unfold cround. destruct (Qle_bool 0 q).
  - pose proof (Qfloor_le (q + (1 # 2))). pose proof (Qlt_floor (q + (1 # 2))) as H1.
    rewrite inject_Z_plus in H1. change (inject_Z 1) with 1%Q in H1. split; lra.
  - pose proof (Qle_ceiling (q - (1 # 2))). pose proof (Qceiling_lt (q - (1 # 2))) as H1.
    replace (Qceiling (q - (1 # 2)) - 1)%Z with (Qceiling (q - (1 # 2)) + (-1))%Z in H1 by lia.
    rewrite inject_Z_plus in H1. change (inject_Z (-1)) with (-1)%Q in H1. split; lra.
Qed.

Lemma cround_best : forall q k, k <> cround q ->
  (inject_Z k <= q - (1 # 2) \/ q + (1 # 2) <= inject_Z k)%Q.
Proof.
  intros q k H. pose proof (cround_near q) as [A B].
  destruct (Z_lt_ge_dec k (cround q)) as [C|C].
  - left. assert (D : (k + 1 <= cround q)%Z) by lia. rewrite Zle_Qle, inject_Z_plus in D.
    change (inject_Z 1) with 1%Q in D. lra.
  - right. assert (D : (cround q + 1 <= k)%Z) by lia. rewrite Zle_Qle, inject_Z_plus in D.
    change (inject_Z 1) with 1%Q in D. lra.
Qed.

(** The test holds exactly when some multiple of checkpoint_every lies within half a step. *)
Theorem C38_due : forall c, ~ (c_every c == 0)%Q ->
  (due c = true <->
   exists k : Z, (- ((1 # 2) * c_dt c) < inject_Z k * c_every c - c_time c < (1 # 2) * c_dt c)%Q).
Proof.
  intros c He. unfold due. set (q := (c_time c / c_every c)%Q).
  assert (Hq : (c_time c == q * c_every c)%Q) by (unfold q; field; exact He).
  rewrite andb_true_iff, !negb_true_iff.
  assert (NL : forall a b, Qle_bool a b = false <-> (b < a)%Q).
  { intros a b. destruct (Qle_bool a b) eqn:E; split; intro H; try easy.
    - apply Qle_bool_iff in E. lra.
    - apply Qnot_le_lt. intro C. apply Qle_bool_iff in C. congruence. }
  rewrite !NL. split.
  - intros [A B]. exists (cround q). lra.
  - intros (k & A & B). destruct (Z.eq_dec k (cround q)) as [->|Hk]; [split; lra|].
    pose proof (cround_near q) as [N1 N2].
    set (r := inject_Z (cround q)) in *. set (kk := inject_Z k) in *.
    set (e := c_every c) in *. set (t := c_time c) in *. set (d := ((1 # 2) * c_dt c)%Q) in *.
    assert (He' : (e < 0 \/ 0 < e)%Q).
    { destruct (Qlt_le_dec e 0) as [H|H]; [left; exact H|right]. apply Qle_lteq in H. destruct H as [H|H]; [exact H|].
      exfalso. apply He. symmetry. exact H. }
    destruct (cround_best q k Hk) as [K|K]; fold kk in K; rewrite Hq in *;
      destruct He' as [He'|He']; split; nra.
Qed.

(** Midway between two steps no step is close enough: that checkpoint is never written. *)
Theorem C38_due_midway_refuted : exists every dt : Q, (0 < dt < every)%Q /\
  exists k : Z, forall n : Z, let t := (inject_Z n * dt)%Q in
    ((inject_Z k * every - every < t < inject_Z k * every + every)%Q) ->
    due (MkCommon t dt every n 0 0 1 0 []) = false.
Proof.
  exists (3 # 2), 1%Q. split; [split; reflexivity|]. exists 1%Z. intros n t [A B].
  assert (Hn : (n = 1 \/ n = 2)%Z).
  { unfold t in *. change (inject_Z 1) with 1%Q in *.
    assert (C : (inject_Z 0 < inject_Z n < inject_Z 3)%Q) by (change (inject_Z 0) with 0%Q; change (inject_Z 3) with 3%Q; lra).
    rewrite <- !Zlt_Qlt in C. lia. }
  destruct Hn as [-> | ->]; vm_compute; reflexivity.
Qed.

(** Examples *)
Example C38_ex : 
  let c := MkCommon 4 1 2 8 0 0 2 0 [7; 9]%Z in
  let s := MkState c [] [MkGrid (MkPrms 2 1 2 [1]%Z) (map Some [10; 11; 12; 13; 20; 21; 22; 23]%Z) (repeat None 8);
                         MkGrid (MkPrms 1 1 1 []) [Some 5; Some 6]%Z [Some 1; None; None]%Z] in
  state_wf false 2 s /\ due c = true /\
  nth_error (checkpoint_cells false 2 s) 8 = Some (KReal (Some 20%Z)) /\
  exists s', read_checkpoint false 2 (fst (write_checkpoint false 2 None s)) (MkState c [] [MkGrid (MkPrms 0 0 0 []) [] []; MkGrid (MkPrms 0 0 0 []) [] []])
    = Some (true, s') /\ map (@gr_y Z) (s_grids s') = map (@gr_y Z) (s_grids s).
Proof.
  cbv zeta. split; [split; [repeat constructor; cbn; lia|split; [reflexivity|discriminate]]|].
  split; [vm_compute; reflexivity|]. split; [vm_compute; reflexivity|]. eexists. split; vm_compute; reflexivity.
Qed.

Print Assumptions C38_round_trip.
Print Assumptions C38_no_file.
Print Assumptions C38_write_keeps.
Print Assumptions C38_truncated.
Print Assumptions C38_crash_refuted.
Print Assumptions C38_crash_outcomes.
Print Assumptions C38_due.
Print Assumptions C38_due_midway_refuted.
