(** Headline theorems for the on-disk cache (C23) and conditional file updates (C24). *)
From Coq Require Import String Ascii List Bool Arith Lia.
From Verif Require Import PyBase PyBaseFacts CacheFS.
Import ListNotations.
Open Scope list_scope.

(** ** C23 *)
Section C23.
Variables (D B : Type).
Variable dumps : D -> option (list B).
Variable loads : list B -> py D.
Variable simplify : D -> D.
Variables (is_zero : D -> bool) (zero : D).
Variable sha : list B -> string.
Variable encode : string -> list B.
(** pickle: what was dumped loads again, and no proper part of a dump loads (a dump ends with the STOP opcode). *)
Hypothesis loads_dumps : forall d b, dumps d = Some b -> loads b = Ok d.
Hypothesis loads_partial : forall d b n, dumps d = Some b -> n < length b -> exists e, loads (firstn n b) = Err e.
Hypothesis loads_empty : exists e, loads [] = Err e.
(** SHA-256 has no collision among the byte strings in use; a pickle is not the encoding of an identifier (it starts
    with byte 0x80). *)
Hypothesis sha_inj : forall a b, sha a = sha b -> a = b.
Hypothesis encode_inj : forall a b, encode a = encode b -> a = b.
Hypothesis apart : forall id d b, dumps d = Some b -> encode id <> b.
(** sp.simplify maps 0 to 0. *)
Hypothesis simplify_zero : forall e, is_zero e = true -> simplify e = zero.

Notation op := (op D).
Notation run_ops := (run_ops D B dumps loads simplify is_zero zero sha encode).
Notation read_cached := (read_cached D B loads sha encode).
Notation is_cached := (is_cached B sha encode).
Notation cached_simplify := (cached_simplify D B dumps loads simplify is_zero zero sha).

Lemma cache_file_inj : forall a b, cache_file B sha encode a = cache_file B sha encode b -> a = b.
Proof. intros a b H. unfold cache_file in H. apply sapp_inj_r, sha_inj, encode_inj in H. exact H. Qed.
Lemma files_apart : forall id d b, dumps d = Some b -> cache_file B sha encode id <> simplify_file B sha b.
Proof. intros id d b H K. unfold cache_file, simplify_file in K. apply sapp_inj_r, sha_inj in K. exact (apart id d b H K). Qed.

(** The last write under an identifier in a history, oldest first. *)
Definition touches (id : string) (o : op) : option (D * option nat) :=
  match o with Write _ i d u => if String.eqb i id then Some (d, u) else None | Simplify _ _ _ => None end.
Fixpoint last_write (id : string) (l : list op) : option (D * option nat) :=
  match l with
  | [] => None
  | o :: r => match last_write id r with Some x => Some x | None => touches id o end
  end.
Lemma last_write_snoc : forall id l o, last_write id (l ++ [o]) = match touches id o with Some x => Some x | None => last_write id l end.
Proof.
  intros id l o; induction l as [|a l IH]; cbn; [destruct (touches id o); reflexivity|].
  rewrite IH. destruct (touches id o); [reflexivity|]. reflexivity.
Qed.

Definition file_of (x : D * option nat) : list B :=
  match dumps (fst x) with
  | None => []
  | Some b => match snd x with None => b | Some n => firstn n b end
  end.
Lemma simplify_frame : forall f e u id, dget (cache_file B sha encode id) (fst (cached_simplify f e u)) =
  dget (cache_file B sha encode id) f.
Proof.
  intros f e u id. unfold CacheFS.cached_simplify. destruct (is_zero e); auto. destruct (dumps e) as [b|] eqn:E; auto.
  destruct (dmem _ f); auto. destruct (dump_file _ _ _ _ _ _ _) as [f' r] eqn:F. cbn [fst]. unfold dump_file in F.
  destruct (dumps (simplify e)); [destruct u|]; injection F as <- <-; apply dget_dset_other; eapply files_apart; eauto.
Qed.
Lemma file_content : forall l id, dget (cache_file B sha encode id) (run_ops [] l) = option_map file_of (last_write id l).
Proof.
  intros l id. induction l as [|o l IH] using rev_ind; [reflexivity|].
  unfold CacheFS.run_ops in *. rewrite fold_left_app. cbn [fold_left]. rewrite last_write_snoc.
  set (f := fold_left (run_op D B dumps loads simplify is_zero zero sha encode) l []) in *. destruct o as [i d u|e u]; cbn [CacheFS.run_op touches].
  - unfold write_cached, dump_file. destruct (String.eqb_spec i id) as [->|N].
    + unfold file_of. cbn [option_map fst snd]. destruct (dumps d); [destruct u|]; cbn [fst]; apply dget_dset_same.
    + assert (K : cache_file B sha encode id <> cache_file B sha encode i) by (intros K; apply N; symmetry; now apply cache_file_inj).
      destruct (dumps d); [destruct u|]; cbn [fst]; rewrite dget_dset_other by auto; exact IH.
  - rewrite simplify_frame. exact IH.
Qed.

(** After any history -- writes under any identifiers, interrupted or not, and simplifications -- reading returns the
    object of the last write under the identifier if that write was complete. *)
Theorem C23_last_write : forall l id d b, last_write id l = Some (d, None) -> dumps d = Some b ->
  is_cached (run_ops [] l) id = true /\ read_cached (run_ops [] l) id = Ok d.
Proof.
  intros l id d b L E. assert (F := file_content l id). rewrite L in F. unfold file_of in F. cbn [option_map fst snd] in F. rewrite E in F.
  unfold CacheFS.is_cached, CacheFS.read_cached, load_file, dmem. rewrite F. split; auto.
Qed.
Theorem C23_never_written : forall l id, last_write id l = None ->
  is_cached (run_ops [] l) id = false /\ read_cached (run_ops [] l) id = Err FileNotFoundError.
Proof.
  intros l id L. assert (F := file_content l id). rewrite L in F. cbn in F.
  unfold CacheFS.is_cached, CacheFS.read_cached, load_file, dmem. rewrite F. auto.
Qed.
(** A write that dies leaves an entry that is visible and cannot be read, and the object stored before is gone: the
    crash clause of the property is false for every history and every crash point. *)
Theorem C23_crash_refuted : forall l id d b n, dumps d = Some b -> n < length b ->
  let f := run_ops [] (l ++ [Write D id d (Some n)]) in
  is_cached f id = true /\ exists e, read_cached f id = Err e.
Proof.
  intros l id d b n E L f. assert (F := file_content (l ++ [Write D id d (Some n)]) id). fold f in F.
  rewrite last_write_snoc in F. cbn [touches] in F. rewrite String.eqb_refl in F. unfold file_of in F.
  cbn [option_map fst snd] in F. rewrite E in F.
  unfold CacheFS.is_cached, CacheFS.read_cached, load_file, dmem. rewrite F. split; auto. eapply loads_partial; eauto.
Qed.

(** cached_simplify returns the simplified expression after every history in which no earlier simplification of that
    expression died and the result can be pickled. *)
Definition simp_ok (f : fs B) (e : D) (b : list B) : Prop :=
  forall c, dget (simplify_file B sha b) f = Some c -> dumps (simplify e) = Some c.
Lemma simp_step : forall f o e b, dumps e = Some b -> dumps (simplify e) <> None ->
  (forall u, o = Simplify D e u -> u = None) -> simp_ok f e b ->
  simp_ok (run_op D B dumps loads simplify is_zero zero sha encode f o) e b.
Proof.
  intros f o e b E P Hu H c K. destruct o as [i d u|e' u]; cbn [run_op] in K.
  - apply H. unfold write_cached, dump_file in K.
    destruct (dumps d); [destruct u|]; cbn [fst] in K; rewrite dget_dset_other in K; auto; apply not_eq_sym; eapply files_apart; eauto.
  - unfold CacheFS.cached_simplify in K. destruct (is_zero e'); auto. destruct (dumps e') as [b'|] eqn:E'; auto.
    destruct (dmem _ f); auto. destruct (dump_file _ _ _ _ _ _ _) as [f' r] eqn:F. cbn [fst] in K. unfold dump_file in F.
    destruct (string_dec (simplify_file B sha b) (simplify_file B sha b')) as [Q|Q].
    + assert (b = b') by (unfold simplify_file in Q; apply sapp_inj_r, sha_inj in Q; exact Q). subst b'.
      assert (e' = e) by (apply loads_dumps in E; apply loads_dumps in E'; congruence). subst e'.
      specialize (Hu u eq_refl). subst u. destruct (dumps (simplify e)) as [c'|] eqn:S; [|contradiction].
      injection F as <- <-. rewrite dget_dset_same in K. congruence.
    + destruct (dumps (simplify e')); [destruct u|]; injection F as <- <-; rewrite dget_dset_other in K by auto; auto.
Qed.
Theorem C23_simplify : forall l e, (forall u, In (Simplify D e u) l -> u = None) ->
  (dumps e <> None -> dumps (simplify e) <> None) ->
  snd (cached_simplify (run_ops [] l) e None) = Ok (simplify e).
Proof.
  intros l e Hl P. unfold CacheFS.cached_simplify. destruct (is_zero e) eqn:Z; [now rewrite simplify_zero|].
  destruct (dumps e) as [b|] eqn:E; [|reflexivity]. specialize (P ltac:(discriminate)).
  assert (S : simp_ok (run_ops [] l) e b).
  { clear Z. unfold CacheFS.run_ops. induction l as [|o l IH] using rev_ind; [intros c K; discriminate|].
    rewrite fold_left_app. cbn [fold_left]. apply simp_step; auto.
    - intros u ->. apply Hl. apply in_or_app. cbn; auto.
    - apply IH. intros u K. apply Hl. apply in_or_app; auto. }
  destruct (dmem _ _) eqn:M.
  - unfold load_file. apply dmem_true in M. destruct M as (c & M). rewrite M. cbn [snd]. apply loads_dumps. apply S. exact M.
  - destruct (dump_file _ _ _ _ _ _ _) as [f' r]. reflexivity.
Qed.
(** If an earlier simplification died while storing its result, every later one fails. *)
Theorem C23_simplify_crash_refuted : forall e b c n, is_zero e = false -> dumps e = Some b -> dumps (simplify e) = Some c -> n < length c ->
  exists x, snd (cached_simplify (run_ops [] [Simplify D e (Some n)]) e None) = Err x.
Proof.
  intros e b c n Z E S L. unfold CacheFS.run_ops. cbn [fold_left CacheFS.run_op]. unfold CacheFS.cached_simplify. rewrite Z, E.
  cbn [dmem dget]. unfold dump_file. rewrite S. cbn [fst]. unfold dmem. rewrite dget_dset_same. cbn [snd].
  unfold load_file. rewrite dget_dset_same. eapply loads_partial; eauto.
Qed.
(** An expression that can be pickled with a simplified form that cannot: the first call succeeds (the error is caught) but
    leaves an empty file behind, and the second call fails. *)
Theorem C23_unpicklable_result_refuted : forall e b, is_zero e = false -> dumps e = Some b -> dumps (simplify e) = None ->
  snd (cached_simplify [] e None) = Ok (simplify e) /\
  exists x, snd (cached_simplify (run_ops [] [Simplify D e None]) e None) = Err x.
Proof.
  intros e b Z E S. unfold CacheFS.run_ops. cbn [fold_left CacheFS.run_op]. unfold CacheFS.cached_simplify. rewrite Z, E.
  cbn [dmem dget]. unfold dump_file. rewrite S. cbn [fst snd]. split; auto. unfold dmem. rewrite dget_dset_same. cbn [snd].
  unfold load_file. rewrite dget_dset_same. exact loads_empty.
Qed.
End C23.

(** A concrete cache: objects are numbers, a dump is a byte 0x80, that many ones and a stop byte. *)
Definition d_dumps (n : nat) : option (list ascii) := if Nat.eqb n 13 then None else Some (ascii_of_nat 128 :: repeat "1"%char n ++ ["."%char]).
Fixpoint d_count (b : list ascii) : py nat :=
  match b with
  | [c] => if Ascii.eqb c "." then Ok 0 else Err UnpicklingError
  | c :: r => if Ascii.eqb c "1" then py_bind (d_count r) (fun n => Ok (S n)) else Err UnpicklingError
  | [] => Err UnpicklingError
  end.
Definition d_loads (b : list ascii) : py nat := match b with _ :: r => d_count r | [] => Err UnpicklingError end.
Definition d_encode (s : string) : list ascii := "u"%char :: list_ascii_of_string s.
Example C23_ex_hyps :
  (forall d b, d_dumps d = Some b -> d_loads b = Ok d) /\
  (forall d b n, d_dumps d = Some b -> n < length b -> exists e, d_loads (firstn n b) = Err e) /\
  (exists e, d_loads [] = Err e) /\ (forall a b, string_of_list_ascii a = string_of_list_ascii b -> a = b) /\
  (forall a b, d_encode a = d_encode b -> a = b) /\ (forall id d b, d_dumps d = Some b -> d_encode id <> b).
Proof.
  assert (C : forall n, d_count (repeat "1"%char n ++ ["."%char]) = Ok n).
  { induction n as [|n IH]; [reflexivity|]. cbn [repeat app d_count].
    destruct (repeat "1"%char n ++ ["."%char])%list eqn:E; [destruct n; discriminate|]. rewrite IH. reflexivity. }
  assert (P : forall n k, k <= n -> d_count (firstn k (repeat "1"%char n ++ ["."%char])) = Err UnpicklingError).
  { induction n as [|n IH]; intros [|k] L; try reflexivity; [lia|]. cbn [repeat app firstn d_count].
    specialize (IH k ltac:(lia)). destruct (firstn k (repeat "1"%char n ++ ["."%char])) eqn:E; [reflexivity|].
    rewrite IH. reflexivity. }
  split; [|split; [|split; [|split; [|split]]]].
  - intros d b H. unfold d_dumps in H. destruct (Nat.eqb d 13); [discriminate|]. injection H as <-. apply C.
  - intros d b n H L. unfold d_dumps in H. destruct (Nat.eqb d 13); [discriminate|]. injection H as <-.
    cbn [length] in L. rewrite app_length, repeat_length in L. cbn in L. destruct n as [|n]; [exists UnpicklingError; reflexivity|].
    cbn [firstn d_loads]. exists UnpicklingError. apply P. lia.
  - exists UnpicklingError; reflexivity.
  - intros a b H. apply (f_equal list_ascii_of_string) in H. now rewrite !list_ascii_of_string_of_list_ascii in H.
  - intros a b H. injection H as H. apply (f_equal string_of_list_ascii) in H. now rewrite !string_of_list_ascii_of_string in H.
  - intros id d b H. unfold d_dumps in H. destruct (Nat.eqb d 13); [discriminate|]. injection H as <-. discriminate.
Qed.
Definition d_run := run_ops nat ascii d_dumps d_loads (fun n => n / 2) (Nat.eqb 0) 0 string_of_list_ascii d_encode.
Definition d_read := read_cached nat ascii d_loads string_of_list_ascii d_encode.
Example C23_ex :
  let l := [Write nat "a" 5 None; Write nat "b" 7 (Some 3); Simplify nat 8 None; Write nat "a" 6 None; Write nat "c" 1 (Some 0); Write nat "c" 2 None] in
  map (d_read (d_run [] l)) ["a"; "b"; "c"; "d"]%string = [Ok 6; Err UnpicklingError; Ok 2; Err FileNotFoundError].
Proof. vm_compute. reflexivity. Qed.
Example C23_ex_simplify :
  let cs f e := snd (cached_simplify nat ascii d_dumps d_loads (fun n => n / 2) (Nat.eqb 0) 0 string_of_list_ascii f e None) in
  (cs (d_run [] [Simplify nat 8 None; Write nat "a" 1 None]) 8, cs (d_run [] [Simplify nat 26 None]) 26, cs (d_run [] []) 26, cs (d_run [] []) 0) =
  (Ok 4, Err UnpicklingError, Ok 13, Ok 0).
Proof. vm_compute. reflexivity. Qed.

(** ** C24 *)
Definition no_cr (s : string) : Prop := ~ In CR (list_ascii_of_string s).
Lemma read_no_cr : forall s, no_cr s -> read_text s = s.
Proof.
  unfold read_text. intros s; induction s as [|c s IH]; intros H; [reflexivity|]. cbn [newlines].
  assert (N : Ascii.eqb c CR = false) by (apply Ascii.eqb_neq; intros ->; apply H; cbn; auto).
  rewrite N, andb_false_r. rewrite IH; auto. intros K. apply H. cbn; auto.
Qed.
(** The text the body printed, formatted. *)
Definition text (fmt : option (string -> string)) (chunks : list string) : string :=
  match fmt with Some f => f (String.concat "" chunks) | None => String.concat "" chunks end.
Definition content (file : option string) : string := match file with Some s => read_text s | None => ""%string end.

(** What is meant by surrounding white space: the characters 9-13 and 28-32 at either end, as many as there are. *)
Definition white (c : ascii) : Prop := In (nat_of_ascii c) [9; 10; 11; 12; 13; 28; 29; 30; 31; 32].
Definition ends_black (s : string) : Prop :=
  forall c l, (list_ascii_of_string s = c :: l \/ list_ascii_of_string s = l ++ [c])%list -> ~ white c.
Lemma is_ws_white : forall c, is_ws c = true <-> white c.
Proof.
  intros c. unfold is_ws, white. cbn [In]. rewrite orb_true_iff, !andb_true_iff, !Nat.leb_le. lia.
Qed.
Lemma all_ws_white : forall s, all_ws s = true <-> Forall white (list_ascii_of_string s).
Proof.
  induction s as [|c s IH]; cbn [all_ws list_ascii_of_string]; [split; auto|].
  rewrite andb_true_iff, IH, is_ws_white. split; [intros []; now constructor|intros H; inversion H; auto].
Qed.
Theorem C24_strip : forall s, exists a b, s = (a ++ py_strip s ++ b)%string /\
  Forall white (list_ascii_of_string a) /\ Forall white (list_ascii_of_string b) /\ ends_black (py_strip s).
Proof.
  intros s. unfold py_strip.
  assert (L : forall s, exists a, s = (a ++ lstrip s)%string /\ Forall white (list_ascii_of_string a) /\
     forall c r, lstrip s = String c r -> ~ white c).
  { clear s. induction s as [|c s (a & A1 & A2 & A3)]; [exists ""%string; repeat split; [constructor|discriminate]|]. cbn [lstrip].
    destruct (is_ws c) eqn:W.
    - exists (String c a). split; [cbn; congruence|]. split; [|exact A3]. constructor; [now apply is_ws_white|exact A2].
    - exists ""%string. split; [reflexivity|]. split; [constructor|]. intros c' r [= <- <-] K. apply is_ws_white in K. congruence. }
  assert (R : forall s, exists b, s = (rstrip s ++ b)%string /\ Forall white (list_ascii_of_string b) /\
     (forall l c, list_ascii_of_string (rstrip s) = l ++ [c] -> ~ white c)%list /\ (rstrip s = ""%string \/ exists c r r', s = String c r /\ rstrip s = String c r')).
  { clear s L. induction s as [|c s (b & B1 & B2 & B3 & B4)]; [exists ""%string; split; [reflexivity|]; split; [constructor|]; split; [intros [|? ?] ?; discriminate|now left]|].
    cbn [rstrip]. destruct (all_ws (String c s)) eqn:W.
    - exists (String c s). split; [reflexivity|]. split; [now apply all_ws_white|]. split; [intros [|? ?] ?; discriminate|now left].
    - exists b. split; [cbn; congruence|]. split; [exact B2|]. split; [|right; eauto].
      intros l c' E K. destruct l as [|x l]; cbn in E; injection E as -> E.
      + assert (E' : rstrip s = ""%string) by (destruct (rstrip s); [reflexivity|discriminate]).
        rewrite E' in B1. cbn in B1. subst b. cbn [all_ws] in W. apply all_ws_white in B2. apply is_ws_white in K. rewrite B2, K in W. discriminate.
      + exact (B3 l c' E K). }
  destruct (L s) as (a & A1 & A2 & A3). destruct (R (lstrip s)) as (b & B1 & B2 & B3 & B4). exists a, b.
  split; [congruence|]. split; [exact A2|]. split; [exact B2|]. intros c l [E|E].
  - destruct B4 as [B4|(c' & r & r' & Q1 & Q2)]; [rewrite B4 in E; discriminate|]. rewrite Q2 in E. injection E as <- _. exact (A3 _ _ Q1).
  - exact (B3 l c E).
Qed.
Example C24_ex_strip : py_strip (String (ascii_of_nat 13) (" a b" ++ String (ascii_of_nat 14) (String (ascii_of_nat 9) ""))) = ("a b" ++ String (ascii_of_nat 14) "")%string.
Proof. reflexivity. Qed.

(** Without an exception the file holds the new text up to surrounding white space, for every previous state. *)
Theorem C24_holds : forall fmt file chunks file' wrote r, no_cr (text fmt chunks) ->
  update fmt false file chunks None = (file', wrote, r) ->
  r = Ok tt /\ py_strip (content file') = py_strip (text fmt chunks).
Proof.
  intros fmt file chunks file' wrote r N H. unfold update in H. fold (content file) in H. fold (text fmt chunks) in H.
  destruct (String.eqb_spec (py_strip (text fmt chunks)) (py_strip (content file))) as [E|E]; cbn in H; injection H as <- <- <-; split; auto.
  cbn [content]. now rewrite read_no_cr.
Qed.
(** When nothing changed up to surrounding white space, or changes are switched off, the file is not written. *)
Theorem C24_untouched : forall fmt nochange file chunks raises,
  let printed := match raises with None => chunks | Some n => firstn n chunks end in
  py_strip (text fmt printed) = py_strip (content file) \/ nochange = true ->
  exists r, update fmt nochange file chunks raises = (file, false, r).
Proof.
  intros fmt nochange file chunks raises printed H. unfold update. fold printed. fold (text fmt printed). fold (content file).
  destruct (String.eqb_spec (py_strip (text fmt printed)) (py_strip (content file))) as [E|E]; [eexists; reflexivity|].
  destruct H as [H| ->]; [contradiction|]. eexists; reflexivity.
Qed.
(** Repeating a generation does nothing. *)
Theorem C24_repeat : forall fmt nochange file chunks file' wrote r, no_cr (text fmt chunks) ->
  update fmt nochange file chunks None = (file', wrote, r) ->
  update fmt nochange file' chunks None = (file', false, Ok tt).
Proof.
  intros fmt nochange file chunks file' wrote r N H.
  assert (X : py_strip (text fmt chunks) = py_strip (content file') \/ nochange = true).
  { destruct nochange; auto. left. symmetry. eapply C24_holds; eauto. }
  unfold update. fold (text fmt chunks). fold (content file').
  destruct (String.eqb_spec (py_strip (text fmt chunks)) (py_strip (content file'))) as [E|E]; [reflexivity|].
  destruct X as [X| ->]; [contradiction|reflexivity].
Qed.
(** The body raises: the exception propagates, but the file is overwritten with what had been printed so far, whenever
    that differs from the old text.  The last clause of the property is false for every such case. *)
Theorem C24_raise_refuted : forall fmt file chunks n, py_strip (text fmt (firstn n chunks)) <> py_strip (content file) ->
  update fmt false file chunks (Some n) = (Some (text fmt (firstn n chunks)), true, Err RuntimeError).
Proof.
  intros fmt file chunks n H. unfold update. fold (text fmt (firstn n chunks)). fold (content file).
  destruct (String.eqb_spec (py_strip (text fmt (firstn n chunks))) (py_strip (content file))); [contradiction|reflexivity].
Qed.
(** Blank text: no file is created. *)
Theorem C24_blank_refuted : exists chunks, update None false None chunks None = (None, false, Ok tt).
Proof. exists [String LF ""]. reflexivity. Qed.
(** A carriage return in the text: the file is written again by every repetition. *)
Theorem C24_carriage_return_refuted : exists chunks s, update None false None chunks None = (Some s, true, Ok tt) /\
  update None false (Some s) chunks None = (Some s, true, Ok tt).
Proof. exists ["a"; String CR "b"]%string. eexists. split; vm_compute; reflexivity. Qed.

Example C24_ex : update None false (Some (String LF "int x;  ")) ["int "; "y;"]%string None = (Some "int y;"%string, true, Ok tt) /\
  update None false (Some (String LF "int y;  ")) ["int "; "y;"]%string None = (Some (String LF "int y;  "), false, Ok tt) /\
  update None false (Some "int y;"%string) ["int "; "y;"]%string (Some 1) = (Some "int "%string, true, Err RuntimeError).
Proof. vm_compute. auto. Qed.

Print Assumptions C23_last_write.
Print Assumptions C23_never_written.
Print Assumptions C23_crash_refuted.
Print Assumptions C23_simplify.
Print Assumptions C23_simplify_crash_refuted.
Print Assumptions C23_unpicklable_result_refuted.
Print Assumptions C24_holds.
Print Assumptions C24_untouched.
Print Assumptions C24_repeat.
Print Assumptions C24_raise_refuted.
Print Assumptions C24_blank_refuted.
Print Assumptions C24_carriage_return_refuted.

(** What "the text of the file" means: text mode reads a line ended by LF, by CR or by CR LF as the line ended by LF. *)
Definition no_ends (l : string) : Prop := forall a b c, l = (a ++ String c b)%string -> c <> CR /\ c <> LF.
Lemma no_ends_tail : forall c l, no_ends (String c l) -> no_ends l.
Proof. intros c l H a b d E. apply (H (String c a) b d). now rewrite E. Qed.
Lemma newlines_line : forall l b s, no_ends l -> l <> ""%string \/ b = false ->
  newlines b (l ++ s) = (l ++ newlines (match l with ""%string => b | _ => false end) s)%string.
Proof.
  induction l as [|c l IH]; intros b s H N; [reflexivity|].
  destruct (H ""%string l c eq_refl) as (C1 & C2). apply Ascii.eqb_neq in C1, C2.
  cbn [append newlines]. rewrite C1, C2. cbn [andb]. f_equal.
  rewrite IH; [now destruct l|eapply no_ends_tail, H|auto].
Qed.
Theorem C24_line_ends : forall t ls, In t [String LF ""; String CR ""; String CR (String LF "")]%string -> Forall no_ends ls ->
  read_text (String.concat "" (map (fun l => l ++ t)%string ls)) = String.concat "" (map (fun l => l ++ String LF "")%string ls).
Proof.
  intros t ls T F.
  assert (CC : forall x (l : list string), String.concat "" (x :: l) = (x ++ String.concat "" l)%string).
  { assert (N : forall s : string, (s ++ "")%string = s) by (induction s as [|c s IH]; [reflexivity|cbn; now rewrite IH]).
    intros x [|y l]; cbn; [now rewrite N|reflexivity]. }
  assert (AS : forall x y z : string, ((x ++ y) ++ z = x ++ y ++ z)%string)
    by (induction x as [|c x IH]; intros y z; [reflexivity|cbn; now rewrite IH]).
  unfold read_text.
  assert (G : forall b, (t = String CR "" \/ b = false) ->
    newlines b (String.concat "" (map (fun l => l ++ t)%string ls)) = String.concat "" (map (fun l => l ++ String LF "")%string ls));
    [|now apply G; right].
  induction F as [|l ls H F IH]; intros b B; [reflexivity|].
  cbn [map]. rewrite !CC, !AS.
  assert (S : newlines b (l ++ t ++ String.concat "" (map (fun l => l ++ t)%string ls)) =
    (l ++ newlines (match l with ""%string => b | _ => false end) (t ++ String.concat "" (map (fun l => l ++ t)%string ls)))%string).
  { destruct l as [|c l]; [reflexivity|]. apply newlines_line; [exact H|left; discriminate]. }
  rewrite S. f_equal. set (b' := match l with ""%string => b | _ => false end).
  assert (B' : t = String CR "" \/ b' = false) by (unfold b'; destruct l; [exact B|now right]).
  destruct T as [<-|[<-|[<-|[]]]].
  - destruct B' as [B'|B']; [discriminate|]. rewrite B'. cbn. f_equal. apply IH. now right.
  - cbn. f_equal. apply IH. now left.
  - destruct B' as [B'|B']; [discriminate|]. rewrite B'. cbn. f_equal. apply IH. now right.
Qed.
Example C24_ex_line_ends : no_ends "ab" /\
  read_text ("ab" ++ String CR (String LF ("cd" ++ String CR (String LF "")))) = ("ab" ++ String LF ("cd" ++ String LF ""))%string.
Proof.
  split; [|reflexivity]. intros a b c E. destruct a as [|x [|y a]]; cbn in E; injection E as; subst; try (split; discriminate).
  all: destruct a; discriminate.
Qed.
Print Assumptions C24_line_ends.
Print Assumptions C24_strip.
