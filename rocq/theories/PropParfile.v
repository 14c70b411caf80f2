(** C84: parameter files.  What the generated parser makes of a file, and that the generated default file is read back. *)
From Coq Require Import String Ascii List ZArith Bool Arith Lia.
From Verif Require Import PyBase PyBaseFacts PyList PyListFacts Params Registry Parfile ParfileFacts.
From Verif Require CacheFS CFunctionFacts.
Import ListNotations.
Open Scope list_scope.

Lemma NoDup_map_inv_in : forall (A B : Type) (f : A -> B) l x y, NoDup (map f l) -> In x l -> In y l -> f x = f y -> x = y.
Proof.
  induction l as [|a l IH]; intros x y N X Y E; [destruct X|]. cbn [map] in N. inversion N as [|? ? N1 N2]; subst. destruct X as [->|X], Y as [->|Y]; auto.
  - destruct N1. rewrite E. now apply in_map.
  - destruct N1. rewrite <- E. now apply in_map.
Qed.
(** ** Lines of a parameter file *)
Inductive pline : Type :=
| Blank (sp tail : chars)
| Scalar (sp1 : chars) (name : string) (sp2 sp3 v sp4 tail : chars)
| Array (sp1 : chars) (name : string) (sp2 sp3 : chars) (vs : list (chars * chars * chars)) (sp4 tail : chars).
Definition render (l : pline) : chars :=
  match l with
  | Blank sp tail => sp ++ tail ++ [CacheFS.LF]
  | Scalar sp1 name sp2 sp3 v sp4 tail => sp1 ++ str_to_list name ++ sp2 ++ "="%char :: sp3 ++ v ++ sp4 ++ tail ++ [CacheFS.LF]
  | Array sp1 name sp2 sp3 vs sp4 tail =>
      sp1 ++ (str_to_list name ++ "["%char :: str_to_list (str_of_nat (List.length vs)) ++ ["]"%char]) ++ sp2 ++ "="%char :: sp3 ++
      ("{"%char :: commas (map part vs) ++ ["}"%char]) ++ sp4 ++ tail ++ [CacheFS.LF]
  end.
(** white space within a line; a comment or nothing *)
Definition blank (sp : chars) : Prop := all_space sp /\ ~ In CacheFS.LF sp.
Definition comment (t : chars) : Prop := ~ In CacheFS.LF t /\ (t = [] \/ exists r, t = "#"%char :: r).
(** the text of a value *)
Definition value_text (v : chars) : Prop := tight v /\ ~ In "#"%char v /\ ~ In "="%char v /\ ~ In CacheFS.LF v.
Definition line_ok (l : pline) : Prop :=
  (List.length (render l) <= 1023)%nat /\
  match l with
  | Blank sp tail => blank sp /\ comment tail
  | Scalar sp1 name sp2 sp3 v sp4 tail =>
      blank sp1 /\ blank sp2 /\ blank sp3 /\ blank sp4 /\ comment tail /\ ident name /\ (String.length name < 128)%nat /\
      value_text v /\ (List.length v < 128)%nat /\ hd_error v <> Some "{"%char
  | Array sp1 name sp2 sp3 vs sp4 tail =>
      blank sp1 /\ blank sp2 /\ blank sp3 /\ blank sp4 /\ comment tail /\ ident name /\
      (List.length (str_to_list name ++ "["%char :: str_to_list (str_of_nat (List.length vs)) ++ ["]"%char]) < 128)%nat /\
      (0 < List.length vs <= 100)%nat /\ (List.length (commas (map part vs)) + 2 < 128)%nat /\
      Forall (fun t => let '(a, v, b) := t in blank a /\ value_text v /\ ~ In ","%char v /\ blank b) vs
  end.
(** what a line does *)
Section Values.
Variables (REAL : Type) (strtod : chars -> option REAL).
Notation cval := (cval REAL).
Inductive effect : Type := Nothing | Ignored | Sets (key : string) (x : cval).
(** a text for a parameter that is not an array *)
Definition text_value (t : ptype) (buf : Z) (v : chars) (x : cval) : Prop :=
  match t with
  | PARAM_REAL => exists r, strtod v = Some r /\ x = CReal REAL r
  | PARAM_INT => exists z, v = str_to_list (str_of_Z z) /\ int32 z /\ x = CInt REAL z
  | PARAM_CHARARRAY =>
      exists t, (v = DQ_char :: t ++ [DQ_char] \/ v = t /\ hd_error t <> Some DQ_char) /\ (Z.of_nat (List.length t) < buf)%Z /\
                (List.length t < 128)%nat /\ x = CChars REAL t
  | _ => False
  end.
Definition texts_value (t : ptype) (vs : list chars) (x : cval) : Prop :=
  match t with
  | PARAM_REAL_ARRAY => exists l, Forall2 (fun v r => strtod v = Some r) vs l /\ x = CReals REAL l
  | PARAM_INT_ARRAY => exists l, Forall2 (fun v z => v = str_to_list (str_of_Z z) /\ int32 z) vs l /\ x = CInts REAL l
  | _ => False
  end.
Definition effect_of (table : list descr) (l : pline) (e : effect) : Prop :=
  match l with
  | Blank _ _ => e = Nothing
  | Scalar _ name _ _ v _ _ =>
      (~ In name (map d_name table) /\ e = Ignored) \/
      (exists d x, In d table /\ d_name d = name /\ d_array d = 0%Z /\ text_value (d_type d) (d_buf d) v x /\ e = Sets name x)
  | Array _ name _ _ vs _ _ =>
      (~ In name (map d_name table) /\ e = Ignored) \/
      (exists d x, In d table /\ d_name d = name /\ d_array d = Z.of_nat (List.length vs) /\ texts_value (d_type d) (map mid vs) x /\ e = Sets name x)
  end.
(** a command line argument for a steerable parameter *)
Definition arg_value (t : steer) (a : chars) (k : string) (x : cval) : Prop :=
  match t with
  | SChars key buf => k = key /\ text_value PARAM_CHARARRAY buf a x
  | SInt key => k = key /\ text_value PARAM_INT 0 a x
  | SReal key => k = key /\ text_value PARAM_REAL 0 a x
  | SBool _ => False
  end.
Definition keys_set (es : list effect) : list string := flat_map (fun e => match e with Sets k _ => [k] | _ => [] end) es.

Lemma blank_free : forall sp c, blank sp -> isspace c = false -> ~ In c sp.
Proof. intros sp c [A _] F I. rewrite (A c I) in F. discriminate. Qed.
Lemma cut : forall x t, ~ In "#"%char x -> comment t -> exists n, all_space n /\ fst (upto "#" (x ++ t ++ [CacheFS.LF])) = x ++ n.
Proof.
  intros x t N [_ [->|[r ->]]].
  - exists [CacheFS.LF]. split; [intros c [<-|[]]; reflexivity|]. cbn [app]. rewrite upto_free; [reflexivity|].
    rewrite in_app_iff. intros [I|[I|[]]]; [easy|discriminate].
  - exists []. split; [intros c []|]. cbn [app]. rewrite upto_at by exact N. now rewrite app_nil_r.
Qed.
Lemma all_space_app : forall a b, all_space a -> all_space b -> all_space (a ++ b).
Proof. intros a b A B c I. apply in_app_iff in I as []; auto. Qed.
Lemma pmap_ok : forall A B (f : A -> pres B) (P : A -> B -> Prop) vs l, (forall v x, P v x -> f v = PVal x) -> Forall2 P vs l -> pmap f vs = PVal l.
Proof. intros A B f P vs l H F. induction F as [|v x vs l E F IH]; [reflexivity|]. cbn [pmap]. rewrite (H _ _ E). cbn [pbind]. now rewrite IH. Qed.
Lemma text_read : forall d v x s, d_array d = 0%Z -> text_value (d_type d) (d_buf d) v x -> assign REAL strtod d [v] s = PVal (upd REAL s (d_name d) x).
Proof.
  intros d v x s A H. unfold assign. cbn [nth]. destruct (d_type d); cbn [text_value] in H; try easy.
  - destruct H as (r & E & ->). unfold read_REAL. now rewrite E.
  - destruct H as (z & -> & I & ->). now rewrite read_integer_Z.
  - destruct H as (t & T & L & L' & ->). destruct T as [->|[-> T]].
    + rewrite read_quoted by lia. reflexivity.
    + rewrite read_plain by (try lia; exact T). reflexivity.
Qed.
Lemma texts_read : forall d vs x s, d_array d = Z.of_nat (List.length vs) -> texts_value (d_type d) vs x -> assign REAL strtod d vs s = PVal (upd REAL s (d_name d) x).
Proof.
  intros d vs x s A H. unfold assign. rewrite A, Nat2Z.id, firstn_all. destruct (d_type d); cbn [texts_value] in H; try easy.
  - destruct H as (l & F & ->). rewrite (pmap_ok _ _ _ (fun v r => strtod v = Some r) vs l); [reflexivity| |exact F]. intros v r E. unfold read_REAL. now rewrite E.
  - destruct H as (l & F & ->). rewrite (pmap_ok _ _ _ (fun v z => v = str_to_list (str_of_Z z) /\ int32 z) vs l); [reflexivity| |exact F].
    intros v z [-> I]. now apply read_integer_Z.
Qed.
Lemma find_known : forall table d, NoDup (map d_name table) -> In d table -> find_descr table (str_to_list (d_name d)) = Some d.
Proof.
  induction table as [|a t IH]; intros d N I; [destruct I|]. cbn [map] in N. inversion N as [|? ? N1 N2]; subst. unfold find_descr. cbn [find].
  destruct (list_eq_dec ascii_dec (str_to_list (d_name a)) (str_to_list (d_name d))) as [E|E].
  - destruct I as [->|I]; [reflexivity|]. destruct N1. rewrite <- (list_to_str_to_list (d_name a)), E, list_to_str_to_list. now apply in_map.
  - destruct I as [->|I]; [easy|]. now apply IH.
Qed.
Lemma find_unknown : forall table n, ~ In n (map d_name table) -> find_descr table (str_to_list n) = None.
Proof.
  intros table n N. unfold find_descr. destruct (find _ table) as [d|] eqn:F; [|reflexivity]. apply find_some in F as [I E].
  destruct (list_eq_dec ascii_dec (str_to_list (d_name d)) (str_to_list n)) as [E'|]; [|discriminate].
  destruct N. rewrite <- (list_to_str_to_list n), <- E', list_to_str_to_list. now apply in_map.
Qed.

(** ** One line *)
Notation line_step := (line_step REAL strtod).
Lemma split_line : forall sp1 p sp2 sp3 v sp4 tail, blank sp1 -> blank sp2 -> blank sp3 -> blank sp4 -> comment tail -> tight p -> ~ In "#"%char p ->
  ~ In "="%char p -> value_text v ->
  exists a b, strtok "=" (fst (upto "#" (sp1 ++ p ++ sp2 ++ "="%char :: sp3 ++ v ++ sp4 ++ tail ++ [CacheFS.LF]))) = Some (a, b) /\ trim_space a = p /\
              exists q r, strtok "=" b = Some (q, r) /\ trim_space q = v.
Proof.
  intros sp1 p sp2 sp3 v sp4 tail B1 B2 B3 B4 C T P1 P2 (V & V1 & V2 & _).
  assert (X : exists n, all_space n /\ fst (upto "#" (sp1 ++ p ++ sp2 ++ "="%char :: sp3 ++ v ++ sp4 ++ tail ++ [CacheFS.LF])) =
              (sp1 ++ p ++ sp2) ++ "="%char :: (sp3 ++ v ++ sp4 ++ n)).
  { destruct (cut (sp1 ++ p ++ sp2 ++ "="%char :: sp3 ++ v ++ sp4) tail) as (n & N & E); [|exact C|].
    - rewrite !in_app_iff. cbn [In]. rewrite !in_app_iff. intros [I|[I|[I|[I|[I|[I|I]]]]]]; try discriminate; try easy; revert I; now apply blank_free.
    - exists n. split; [exact N|]. repeat (rewrite <- ?app_assoc in E; cbn [app] in E). rewrite E.
      repeat (rewrite <- ?app_assoc; cbn [app]). reflexivity. }
  destruct X as (n & N & ->). exists (sp1 ++ p ++ sp2), (sp3 ++ v ++ sp4 ++ n). split; [|split].
  - apply strtok_at.
    + intros E. apply app_eq_nil in E as [_ E]. apply app_eq_nil in E as [-> _]. destruct T.
    + rewrite !in_app_iff. intros [I|[I|I]]; try easy; revert I; now apply blank_free.
  - apply trim_tight; [apply B1|exact T|apply B2].
  - exists (sp3 ++ v ++ sp4 ++ n), []. split.
    + apply strtok_end.
      * intros E. apply app_eq_nil in E as [_ E]. apply app_eq_nil in E as [-> _]. destruct V.
      * rewrite !in_app_iff. intros [I|[I|[I|I]]]; try easy; try (revert I; now apply blank_free). apply N in I. discriminate.
    + apply trim_tight; [apply B3|exact V|apply all_space_app; [apply B4|exact N]].
Qed.
Definition finish (over : list (steer * chars)) (st : store REAL * list nat) := pbind (steer_all REAL strtod over (fst st)) (fun s => PVal (s, snd st)).
Lemma step_blank : forall table over st sp tail, blank sp -> comment tail -> line_step table over st (sp ++ tail ++ [CacheFS.LF]) = finish over st.
Proof.
  intros table over st sp tail B C. unfold Parfile.line_step. destruct (cut sp tail) as (n & N & ->); [now apply blank_free|exact C|].
  assert (A : all_space (sp ++ n)) by (apply all_space_app; [apply B|exact N]). destruct (sp ++ n) as [|c r] eqn:E; [reflexivity|].
  rewrite strtok_end; [|discriminate|intros I; apply A in I; discriminate].
  rewrite (trim_blank (c :: r)) by exact A. cbn. reflexivity.
Qed.
Lemma step_entry : forall table over st l p v name n vals, line_ok l ->
  (match l with
   | Blank _ _ => False
   | Scalar _ nm _ _ w _ _ => p = str_to_list nm /\ name = nm /\ v = w /\ n = 0%Z /\ vals = [w]
   | Array _ nm _ _ ws _ _ => p = str_to_list nm ++ "["%char :: str_to_list (str_of_nat (List.length ws)) ++ ["]"%char] /\ name = nm /\
                              v = "{"%char :: commas (map part ws) ++ ["}"%char] /\ n = Z.of_nat (List.length ws) /\ vals = map mid ws
   end) ->
  line_step table over st (render l) =
  match find_descr table (str_to_list name) with
  | None => PVal st
  | Some d =>
      if existsb (Nat.eqb (d_index d)) (snd st) then PExit
      else
        let array := match d_type d with PARAM_CHARARRAY => false | _ => (0 <? d_array d)%Z end in
        let count := Z.of_nat (List.length vals) in
        if (if array then negb (n =? d_array d)%Z || negb (count =? d_array d)%Z else (0 <? n)%Z || negb (count =? 1)%Z) then PExit
        else pbind (assign REAL strtod d vals (fst st)) (fun s => finish over (s, d_index d :: snd st))
  end.
Proof.
  intros table over st l p v name n vals [_ O] H. destruct l as [|sp1 nm sp2 sp3 w sp4 tail|sp1 nm sp2 sp3 ws sp4 tail]; [destruct H| |]; cbn [render].
  - destruct H as (-> & -> & -> & -> & ->). destruct O as (B1 & B2 & B3 & B4 & C & I & L & V & L' & Hd).
    destruct (split_line sp1 (str_to_list nm) sp2 sp3 w sp4 tail) as (a & b & E1 & E2 & q & r & E3 & E4); try assumption; try (now apply ident_free).
    { now apply ident_tight. }
    unfold Parfile.line_step. rewrite E1, E2. rewrite safe_copy_ok.
    2: { replace (List.length (str_to_list nm)) with (String.length nm); [exact L|]. clear. induction nm; cbn; congruence. }
    cbn [pbind]. rewrite E3, E4, safe_copy_ok by exact L'. cbn [pbind]. rewrite param_scalar by assumption. cbn [pbind].
    rewrite (proj2 I). cbn [negb]. rewrite value_scalar by (try assumption; apply V). reflexivity.
  - destruct H as (-> & -> & -> & -> & ->). destruct O as (B1 & B2 & B3 & B4 & C & I & L & W & L' & F).
    set (p := str_to_list nm ++ "["%char :: str_to_list (str_of_nat (List.length ws)) ++ ["]"%char]) in *.
    set (w := "{"%char :: commas (map part ws) ++ ["}"%char]).
    assert (D : forall c, is_digit c = false -> ~ In c (str_to_list (str_of_nat (List.length ws)))).
    { intros c K J. apply (str_of_nat_digits (List.length ws)) in J. congruence. }
    assert (Q : forall c, c <> "{"%char -> c <> "}"%char -> c <> ","%char -> isspace c = false ->
                (forall t, In t ws -> ~ In c (mid t)) -> ~ In c (commas (map part ws))).
    { intros c K1 K2 K3 K4 K5. clear - F K3 K4 K5. induction ws as [|t ws IH]; [easy|]. inversion F as [|? ? F1 F2]; subst.
      assert (P : ~ In c (part t)).
      { specialize (K5 t (or_introl eq_refl)). destruct t as [[a v] b]. cbn in *. destruct F1 as (A & _ & _ & B). rewrite !in_app_iff.
        intros [I|[I|I]]; try easy; revert I; now apply blank_free. }
      destruct ws as [|t' ws]; [exact P|]. intros J. change (In c (part t ++ ","%char :: commas (map part (t' :: ws)))) in J.
      apply in_app_iff in J as [J|[J|J]]; [easy|congruence|]. apply IH in J; [easy|exact F2|]. intros x X. apply K5. now right. }
    assert (M : forall t, In t ws -> value_text (mid t)) by (intros t T; rewrite Forall_forall in F; specialize (F t T); destruct t as [[a v] b]; apply F).
    destruct (split_line sp1 p sp2 sp3 w sp4 tail) as (a & b & E1 & E2 & q & r & E3 & E4); try assumption.
    + unfold p. pose proof (ident_tight nm I) as T. destruct (str_to_list nm) as [|c x]; [destruct T|]. cbn [app]. split; [apply T|].
      rewrite app_comm_cons. change ("["%char :: str_to_list (str_of_nat (List.length ws)) ++ ["]"%char]) with (("["%char :: str_to_list (str_of_nat (List.length ws))) ++ ["]"%char]).
      rewrite app_assoc, last_last. reflexivity.
    + unfold p. rewrite in_app_iff. cbn [In]. rewrite in_app_iff. intros [K|[K|[K|[K|[]]]]]; try discriminate; [revert K; now apply ident_free|revert K; now apply D].
    + unfold p. rewrite in_app_iff. cbn [In]. rewrite in_app_iff. intros [K|[K|[K|[K|[]]]]]; try discriminate; [revert K; now apply ident_free|revert K; now apply D].
    + assert (X : forall c, (c = "#"%char \/ c = "="%char) -> ~ In c w).
      { intros c [->| ->]; unfold w; cbn [In]; rewrite in_app_iff; cbn [In]; intros [K|[K|[K|[]]]]; try discriminate; revert K;
          apply Q; try discriminate; try reflexivity; intros t T; apply M, T. }
      split; [|split; [apply X; now left|split; [apply X; now right|]]].
      * unfold w. split; [reflexivity|]. rewrite app_comm_cons, last_last. reflexivity.
      * unfold w. cbn [In]. rewrite in_app_iff. cbn [In]. intros [K|[K|[K|[]]]]; try discriminate. revert K.
        clear - F. induction ws as [|t ws IH]; [easy|]. inversion F as [|? ? F1 F2]; subst.
        assert (P : ~ In CacheFS.LF (part t)).
        { destruct t as [[a v] b]. cbn. destruct F1 as (A & V & _ & B). rewrite !in_app_iff. intros [I|[I|I]]; [now apply A in I|now apply V in I|now apply B in I]. }
        destruct ws as [|t' ws]; [exact P|]. intros J. change (In CacheFS.LF (part t ++ ","%char :: commas (map part (t' :: ws)))) in J.
        apply in_app_iff in J as [J|[J|J]]; [easy|discriminate|]. now apply IH in J.
    + unfold Parfile.line_step. rewrite E1, E2. rewrite safe_copy_ok by exact L. cbn [pbind].
      rewrite E3, E4, safe_copy_ok by (unfold w; cbn [List.length]; rewrite app_length; cbn [List.length]; unfold PARAM_SIZE; lia). cbn [pbind].
      unfold p. rewrite param_array by assumption. cbn [pbind]. rewrite (proj2 I). cbn [negb]. unfold w. rewrite value_braces; [reflexivity| |lia|exact L'].
      apply Forall_forall. intros [[x y] z] J. rewrite Forall_forall in F. specialize (F _ J). cbn in F. destruct F as (F1 & F2 & F3 & F4).
      split; [apply F1|]. split; [apply F2|]. split; [apply F4|]. rewrite !in_app_iff. intros [K|[K|K]]; try easy; revert K; now apply blank_free.
Qed.

(** ** A file *)
Notation run_lines := (run_lines REAL strtod).
Notation steer_all := (steer_all REAL strtod).
Notation store := (store REAL).
Lemma upd_same : forall (s : store) k x, upd REAL s k x k = x. Proof. intros. unfold upd. now rewrite String.eqb_refl. Qed.
Lemma upd_other : forall (s : store) k x k', k' <> k -> upd REAL s k x k' = s k'.
Proof. intros s k x k' N. unfold upd. destruct (String.eqb_spec k' k); congruence. Qed.
Lemma steer_ok : forall t a k x s, arg_value t a k x -> steer_one REAL strtod t a s = PVal (upd REAL s k x).
Proof.
  intros [key buf|key|key|key] a k x s H; cbn [arg_value] in H; try easy; destruct H as [-> H].
  - destruct H as (u & U & L & L' & ->). cbn [steer_one]. destruct U as [->|[-> U]].
    + rewrite read_quoted by lia. reflexivity.
    + rewrite read_plain by (try lia; exact U). reflexivity.
  - destruct H as (z & -> & I & ->). cbn [steer_one]. now rewrite read_integer_Z.
  - destruct H as (r & E & ->). cbn [steer_one]. unfold read_REAL. now rewrite E.
Qed.
Definition args_ok (over : list (steer * chars)) (os : list (string * cval)) : Prop :=
  Forall2 (fun p kx => arg_value (fst p) (snd p) (fst kx) (snd kx)) over os /\ NoDup (map fst os).
Lemma steers_ok : forall over os s, args_ok over os ->
  exists s', steer_all over s = PVal s' /\ (forall k x, In (k, x) os -> s' k = x) /\ (forall k, ~ In k (map fst os) -> s' k = s k).
Proof.
  intros over os s [F N]. revert s. induction F as [|[t a] [k x] over os H F IH]; intros s; [exists s; repeat split; easy|].
  cbn [map fst] in N. inversion N as [|? ? N1 N2]; subst. cbn in H. cbn [Parfile.steer_all]. rewrite (steer_ok _ _ _ _ s H). cbn [pbind].
  destruct (IH N2 (upd REAL s k x)) as (s' & E & A & B). exists s'. split; [exact E|]. split.
  - intros k' x' [[= <- <-]|I]; [|now apply A]. rewrite B by exact N1. apply upd_same.
  - intros k' M. cbn [map fst In] in M. rewrite B by (intros I; apply M; now right). apply upd_other. intros ->. apply M. now left.
Qed.
(** the step of a line *)
Lemma step_effect : forall table over os l e s set, NoDup (map d_name table) -> args_ok over os -> line_ok l -> effect_of table l e ->
  match e with
  | Ignored => line_step table over (s, set) (render l) = PVal (s, set)
  | Nothing => line_step table over (s, set) (render l) = finish over (s, set)
  | Sets k x => exists d, In d table /\ d_name d = k /\
      line_step table over (s, set) (render l) = if existsb (Nat.eqb (d_index d)) set then PExit else finish over (upd REAL s k x, d_index d :: set)
  end.
Proof.
  intros table over os l e s set N A O E. destruct l as [sp tail|sp1 nm sp2 sp3 v sp4 tail|sp1 nm sp2 sp3 vs sp4 tail].
  - cbn in E. subst e. apply step_blank; apply O.
  - pose proof (step_entry table over (s, set) _ (str_to_list nm) v nm 0%Z [v] O ltac:(cbn; tauto)) as S. cbn [effect_of] in E.
    destruct E as [[U ->]|(d & x & I & <- & D & V & ->)].
    + now rewrite S, find_unknown.
    + exists d. split; [exact I|]. split; [reflexivity|]. rewrite S, find_known by assumption. cbn [snd fst]. destruct (existsb _ set); [reflexivity|].
      rewrite D. cbv zeta. replace (match d_type d with PARAM_CHARARRAY => false | _ => (0 <? 0)%Z end) with false by (destruct (d_type d); reflexivity).
      cbn -[assign]. now rewrite (text_read d v x s D V).
  - pose proof (step_entry table over (s, set) _ _ _ nm (Z.of_nat (List.length vs)) (map mid vs) O ltac:(cbn; repeat split)) as S. cbn [effect_of] in E.
    destruct E as [[U ->]|(d & x & I & <- & D & V & ->)].
    + now rewrite S, find_unknown.
    + exists d. split; [exact I|]. split; [reflexivity|]. rewrite S, find_known by assumption. cbn [snd fst]. destruct (existsb _ set); [reflexivity|].
      destruct O as [_ O]. assert (L : (0 < List.length vs)%nat) by apply O. cbv zeta. rewrite D.
      replace (match d_type d with PARAM_CHARARRAY => false | _ => (0 <? Z.of_nat (List.length vs))%Z end) with true.
      2: { destruct (d_type d); try (destruct V; fail); symmetry; apply Z.ltb_lt; lia. }
      rewrite map_length, Z.eqb_refl. cbn [negb orb]. rewrite (texts_read d (map mid vs) x s) by (rewrite ?map_length; assumption). reflexivity.
Qed.
Definition lines_ok (table : list descr) (ls : list pline) (es : list effect) : Prop := Forall2 (fun l e => line_ok l /\ effect_of table l e) ls es.
Lemma run_ok : forall table over os ls es s set done, NoDup (map d_name table) -> NoDup (map d_index table) -> args_ok over os -> lines_ok table ls es ->
  NoDup (keys_set es) -> (forall i, In i set -> exists d, In d table /\ d_index d = i /\ In (d_name d) done) -> (forall k, In k done -> ~ In k (keys_set es)) ->
  exists s' set', run_lines table over (s, set) (map render ls) = PVal (s', set') /\
    (forall k x, In (Sets k x) es -> ~ In k (map fst os) -> s' k = x) /\
    (forall k, ~ In k (keys_set es) -> ~ In k (map fst os) -> s' k = s k) /\
    ((exists e, In e es /\ e <> Ignored) -> forall k x, In (k, x) os -> s' k = x) /\
    ((forall e, In e es -> e = Ignored) -> forall k, s' k = s k).
Proof.
  intros table over os ls es s set done N NI A F. revert s set done.
  induction F as [|l e ls es [O E] F IH]; intros s set done K I D.
  - exists s, set. split; [reflexivity|]. repeat split; try easy. intros (e & [] & _).
  - cbn [map Parfile.run_lines]. pose proof (step_effect table over os l e s set N A O E) as S. destruct e as [| |k0 x0].
    + rewrite S. unfold finish. destruct (steers_ok over os s A) as (s1 & E1 & V1 & V2). cbn [fst snd]. rewrite E1. cbn [pbind].
      destruct (IH s1 set done K I D) as (s' & set' & R & P1 & P2 & P3 & P4). exists s', set'. split; [exact R|]. split; [|split; [|split]].
      * intros k x [X|X]; [discriminate|]. now apply P1.
      * intros k X Y. rewrite P2 by assumption. now apply V2.
      * intros _ k x X. destruct (List.existsb (fun e => match e with Ignored => false | _ => true end) es) eqn:B.
        -- apply existsb_exists in B as (e & B1 & B2). apply P3; [|exact X]. exists e. split; [exact B1|]. intros ->. discriminate.
        -- rewrite P4; [now apply V1|]. intros e Q. destruct e; [|reflexivity|]; exfalso; enough (false = true) by discriminate; rewrite <- B; apply existsb_exists; eauto.
      * intros Q. specialize (Q Nothing (or_introl eq_refl)). discriminate.
    + rewrite S. cbn [pbind]. destruct (IH s set done K I D) as (s' & set' & R & P1 & P2 & P3 & P4). exists s', set'. split; [exact R|].
      split; [|split; [|split]].
      * intros k x [X|X]; [discriminate|]. now apply P1.
      * exact P2.
      * intros (e & [<-|Q] & Q'); [easy|]. apply P3. eauto.
      * intros Q k. apply P4. intros e Q'. apply Q. now right.
    + destruct S as (d & Id & Dn & S). change (keys_set (Sets k0 x0 :: es)) with (k0 :: keys_set es) in *. inversion K as [|y0 r0 K1 K2]; clear K; subst y0 r0 k0.
      assert (X : existsb (Nat.eqb (d_index d)) set = false).
      { destruct (existsb _ set) eqn:X; [|reflexivity]. apply existsb_exists in X as (i & X1 & X2). apply Nat.eqb_eq in X2. subst i.
        destruct (I _ X1) as (d' & Y1 & Y2 & Y3). assert (d' = d) as ->.
        { apply (NoDup_map_inv_in _ _ d_index table); assumption. }
        destruct (D _ Y3). now left. }
      rewrite S, X. unfold finish. destruct (steers_ok over os (upd REAL s (d_name d) x0) A) as (s1 & E1 & V1 & V2). cbn [fst snd]. rewrite E1. cbn [pbind].
      destruct (IH s1 (d_index d :: set) (d_name d :: done) K2) as (s' & set' & R & P1 & P2 & P3 & P4).
      { intros i [<-|J]; [exists d; repeat split; [exact Id|now left]|]. destruct (I i J) as (d' & J1 & J2 & J3). exists d'. repeat split; [exact J1|exact J2|now right]. }
      { intros k [<-|J]; [exact K1|]. intros J'. apply (D k J). now right. }
      exists s', set'. split; [exact R|]. split; [|split; [|split]].
      * intros k x [[= Y1 Y2]|Y] Z; [|now apply P1]. subst k x. rewrite P2 by assumption. rewrite V2 by exact Z. apply upd_same.
      * intros k Y Z. rewrite P2 by (try exact Z; intros W; apply Y; now right). rewrite V2 by exact Z. apply upd_other. intros ->. apply Y. now left.
      * intros _ k x Y. destruct (List.existsb (fun e => match e with Ignored => false | _ => true end) es) eqn:B.
        -- apply existsb_exists in B as (e & B1 & B2). apply P3; [|exact Y]. exists e. split; [exact B1|]. intros ->. discriminate.
        -- rewrite P4; [now apply V1|]. intros e Q. destruct e; [|reflexivity|]; exfalso; enough (false = true) by discriminate; rewrite <- B; apply existsb_exists; eauto.
      * intros Q. specialize (Q _ (or_introl eq_refl)). discriminate.
Qed.
Lemma run_twice : forall table over os ls es s set done, NoDup (map d_name table) -> args_ok over os -> lines_ok table ls es -> NoDup done ->
  (forall d, In d table -> In (d_name d) done -> In (d_index d) set) -> ~ NoDup (rev done ++ keys_set es) ->
  run_lines table over (s, set) (map render ls) = PExit.
Proof.
  intros table over os ls es s set done N A F. revert s set done. induction F as [|l e ls es [O E] F IH]; intros s set done ND I D.
  - destruct D. cbn. rewrite app_nil_r. now apply NoDup_rev.
  - cbn [map Parfile.run_lines]. pose proof (step_effect table over os l e s set N A O E) as S. destruct e as [| |k x].
    + rewrite S. unfold finish. destruct (steers_ok over os s A) as (s1 & E1 & _). cbn [fst snd]. rewrite E1. cbn [pbind]. now apply (IH _ _ done).
    + rewrite S. now apply (IH _ _ done).
    + destruct S as (d & Id & Dn & S). rewrite S. subst k. destruct (existsb _ set) eqn:X; [reflexivity|]. unfold finish.
      destruct (steers_ok over os (upd REAL s (d_name d) x) A) as (s1 & E1 & _). cbn [fst snd]. rewrite E1. cbn [pbind].
      apply (IH _ _ (d_name d :: done)).
      * constructor; [|exact ND]. intros J. apply (I _ Id) in J. enough (false = true) by discriminate. rewrite <- X. apply existsb_exists. exists (d_index d).
        split; [exact J|apply Nat.eqb_refl].
      * intros d' J [Q|Q]; [|right; now apply I]. left. f_equal. apply (NoDup_map_inv_in _ _ d_name table); congruence.
      * cbn [rev]. rewrite <- app_assoc. exact D.
Qed.
Lemma fgets_line : forall room a b, ~ In CacheFS.LF a -> (List.length a < room)%nat -> fgets room (a ++ CacheFS.LF :: b) = (a ++ [CacheFS.LF], b).
Proof.
  induction room as [|k IH]; intros a b N L; [lia|]. destruct a as [|c a]; cbn [app fgets]; [now rewrite Ascii.eqb_refl|].
  destruct (Ascii.eqb_spec c CacheFS.LF) as [->|D]; [destruct N; now left|]. cbn [List.length] in L. rewrite IH; [reflexivity| |lia]. intros I. apply N. now right.
Qed.
Lemma fgets_all_lines : forall bodies fuel, (forall b, In b bodies -> ~ In CacheFS.LF b /\ (List.length b < 1023)%nat) ->
  (List.length (concat (map (fun b => b ++ [CacheFS.LF]) bodies)) <= fuel)%nat ->
  fgets_all fuel (concat (map (fun b => b ++ [CacheFS.LF]) bodies)) = map (fun b => b ++ [CacheFS.LF]) bodies.
Proof.
  induction bodies as [|b bodies IH]; intros fuel H L; [destruct fuel; reflexivity|]. cbn [map concat] in *. rewrite <- app_assoc in *. cbn [app] in *.
  destruct (H b (or_introl eq_refl)) as [N S]. rewrite app_length in L. cbn [List.length] in L. destruct fuel as [|fuel]; [lia|]. cbn [fgets_all].
  pose proof (fgets_line (LINE_SIZE - 1) b (concat (map (fun b => b ++ [CacheFS.LF]) bodies)) N S) as E.
  destruct (b ++ CacheFS.LF :: concat (map (fun b => b ++ [CacheFS.LF]) bodies)) as [|c r] eqn:X; [destruct b; discriminate|].
  rewrite E. f_equal. apply IH; [intros x I; apply H; now right|lia].
Qed.
Lemma commas_free : forall c ts, c <> ","%char -> (forall t, In t ts -> ~ In c (part t)) -> ~ In c (commas (map part ts)).
Proof.
  intros c ts K. induction ts as [|t ts IH]; intros H; [easy|]. pose proof (H t (or_introl eq_refl)) as P. destruct ts as [|t' ts]; [exact P|].
  intros J. change (In c (part t ++ ","%char :: commas (map part (t' :: ts)))) in J. apply in_app_iff in J as [J|[J|J]]; [easy|congruence|].
  apply IH in J; [easy|]. intros x X. apply H. now right.
Qed.
Lemma render_body : forall l, line_ok l -> exists b, render l = b ++ [CacheFS.LF] /\ ~ In CacheFS.LF b.
Proof.
  assert (NI : forall nm, ident nm -> ~ In CacheFS.LF (str_to_list nm)) by (intros; now apply ident_free).
  intros [sp tail|sp1 nm sp2 sp3 v sp4 tail|sp1 nm sp2 sp3 vs sp4 tail] [_ O]; cbn [render].
  - destruct O as [B C]. exists (sp ++ tail). split; [now rewrite app_assoc|]. rewrite in_app_iff. intros [I|I]; [now apply B in I|now apply C in I].
  - destruct O as (B1 & B2 & B3 & B4 & C & I & _ & V & _).
    exists (sp1 ++ str_to_list nm ++ sp2 ++ "="%char :: sp3 ++ v ++ sp4 ++ tail). split; [repeat (rewrite <- ?app_assoc; cbn [app]); reflexivity|].
    rewrite !in_app_iff. cbn [In]. rewrite !in_app_iff. intros [K|[K|[K|[K|[K|[K|[K|K]]]]]]]; try discriminate;
      first [now apply B1 in K|now apply NI in K|now apply B2 in K|now apply B3 in K|now apply V in K|now apply B4 in K|now apply C in K].
  - destruct O as (B1 & B2 & B3 & B4 & C & I & _ & _ & _ & F).
    exists (sp1 ++ (str_to_list nm ++ "["%char :: str_to_list (str_of_nat (List.length vs)) ++ ["]"%char]) ++ sp2 ++ "="%char :: sp3 ++
            ("{"%char :: commas (map part vs) ++ ["}"%char]) ++ sp4 ++ tail).
    split; [repeat (rewrite <- ?app_assoc; cbn [app]); reflexivity|].
    assert (P : ~ In CacheFS.LF (commas (map part vs))).
    { apply commas_free; [discriminate|]. intros [[a v] b] J. rewrite Forall_forall in F. specialize (F _ J). cbn in F |- *. destruct F as (A & V & _ & B).
      rewrite !in_app_iff. intros [K|[K|K]]; [now apply A in K|now apply V in K|now apply B in K]. }
    assert (D : ~ In CacheFS.LF (str_to_list (str_of_nat (List.length vs)))) by (intros K; apply (str_of_nat_digits (List.length vs)) in K; discriminate).
    intros K. repeat (first [apply in_app_iff in K as [K|K] | destruct K as [K|K]]); try discriminate; try easy;
      first [now apply B1 in K|now apply NI in K|now apply B2 in K|now apply B3 in K|now apply B4 in K|now apply C in K].
Qed.
(** the text of a file, and its lines *)
Definition text_of (ls : list pline) : chars := concat (map render ls).
Lemma text_lines : forall ls, (forall l, In l ls -> line_ok l) -> file_lines (text_of ls) = map render ls.
Proof.
  intros ls H. assert (X : exists bs, map render ls = map (fun b => b ++ [CacheFS.LF]) bs /\ forall b, In b bs -> ~ In CacheFS.LF b /\ (List.length b < 1023)%nat).
  { induction ls as [|l ls IH]; [exists []; split; [reflexivity|easy]|]. destruct IH as (bs & E & B); [intros x I; apply H; now right|].
    pose proof (H l (or_introl eq_refl)) as O. destruct (render_body l O) as (b & Eb & N). exists (b :: bs). cbn [map]. split; [now rewrite Eb, E|].
    intros x [<-|I]; [|now apply B]. split; [exact N|]. destruct O as [O _]. rewrite Eb, app_length in O. cbn [List.length] in O. lia. }
  destruct X as (bs & E & B). unfold file_lines, text_of. rewrite E. apply fgets_all_lines; [exact B|lia].
Qed.
Lemma lines_ok_in : forall table ls es l, lines_ok table ls es -> In l ls -> line_ok l.
Proof. intros table ls es l F. induction F as [|a e ls es [O _] F IH]; intros I; [destruct I|]. destruct I as [<-|I]; [exact O|now apply IH]. Qed.

(** ** The command line *)
(** [n] steerable parameters; [par]: the file of the project; [read]: the other files.  The text that is read and the arguments for the parameters. *)
Inductive command (n : nat) (par : option chars) (read : chars -> option chars) : list chars -> chars -> list chars -> Prop :=
| cmd_default : forall prog text, par = Some text -> command n par read [prog] text []
| cmd_file : forall prog f text, is_help f = false -> read f = Some text -> command n par read [prog; f] text []
| cmd_steer : forall prog args text, (0 < n)%nat -> List.length args = n -> (forall a, args = [a] -> is_help a = false /\ read a = None) -> par = Some text ->
    command n par read (prog :: args) text args
| cmd_both : forall prog f args text, (0 < n)%nat -> List.length args = n -> read f = Some text -> command n par read (prog :: f :: args) text args.
Lemma command_runs : forall table steers par read argv text args s, command (List.length steers) par read argv text args ->
  parser REAL strtod table steers par read argv s =
  Ran (pbind (run_lines table (overrides steers args) (s, []) (file_lines text)) (fun st => PVal (fst st))).
Proof.
  intros table steers par read argv text args s C. assert (NA : overrides steers [] = []) by (unfold overrides; destruct steers; reflexivity).
  unfold parser, usage_option. destruct C as [prog text P|prog f text H P|prog args text L L' H P|prog f args text L L' P].
  - cbn. now rewrite P, NA.
  - cbn -[overrides]. rewrite H, P, NA. reflexivity.
  - cbn [List.length nth]. rewrite L'. set (n := List.length steers) in *. destruct args as [|a args]; [cbn in L'; lia|]. cbn [nth].
    replace (S n - n)%nat with 1%nat by lia. cbn [skipn].
    destruct args as [|b args].
    + destruct (H a eq_refl) as [H1 H2]. cbn [List.length] in L'. rewrite <- L', H1, H2, P. reflexivity.
    + cbn [List.length] in L'. replace (S n =? 2)%nat with false by (symmetry; apply Nat.eqb_neq; lia). cbn [andb].
      replace (S n =? 1)%nat with false by (symmetry; apply Nat.eqb_neq; lia). cbn [Nat.add]. rewrite Nat.eqb_refl. cbn [Nat.eqb orb]. now rewrite P.
  - cbn [List.length nth]. rewrite L'. set (n := List.length steers) in *. replace (S (S n) - n)%nat with 2%nat by lia. cbn [skipn].
    replace (S (S n) =? 2)%nat with false by (symmetry; apply Nat.eqb_neq; lia). cbn [andb].
    replace (S (S n) =? 1)%nat with false by (symmetry; apply Nat.eqb_neq; lia). cbn [Nat.add].
    replace (S (S n) =? S n)%nat with false by (symmetry; apply Nat.eqb_neq; lia). rewrite Nat.eqb_refl, P. cbn [Nat.eqb orb]. reflexivity.
Qed.
End Values.

(** White space and the characters of a name, by enumeration *)
Theorem C84_characters : forall c,
  (isspace c = true <-> In (nat_of_ascii c) [9; 10; 11; 12; 13; 32]%nat) /\
  ((isalnum c || Ascii.eqb c "_") = true <-> In c (str_to_list "abcdefghijklmnopqrstuvwxyzABCDEFGHIJKLMNOPQRSTUVWXYZ0123456789_")).
Proof.
  intros c. assert (Exb : forall l, existsb (Ascii.eqb c) l = true <-> In c l).
  { intros l. rewrite existsb_exists. split; [intros (x & I & E); apply Ascii.eqb_eq in E; now subst|intros I; exists c; split; [exact I|apply Ascii.eqb_refl]]. }
  split.
  - unfold isspace. rewrite orb_true_iff, andb_true_iff, !Nat.leb_le, Nat.eqb_eq. cbn [In]. lia.
  - rewrite <- Exb. destruct c as [[] [] [] [] [] [] [] []]; vm_compute; split; intros H; try exact H; discriminate.
Qed.
(** Each argument belongs to the steerable parameter at its place; those without a statement are skipped. *)
Inductive paired : list (option steer) -> list chars -> list (steer * chars) -> Prop :=
| paired_none : forall steers, paired steers [] []
| paired_some : forall t steers a args over, paired steers args over -> paired (Some t :: steers) (a :: args) ((t, a) :: over)
| paired_skip : forall steers a args over, paired steers args over -> paired (None :: steers) (a :: args) over.
Lemma paired_overrides : forall steers args over, paired steers args over -> overrides steers args = over.
Proof. intros steers args over P. unfold overrides. induction P as [steers|t steers a args over P IH|steers a args over P IH]; [now destruct steers| |]; cbn; now rewrite IH. Qed.
(** A file of entries, comments and blank lines, in any order and with any spacing, each parameter at most once: each parameter gets the value of its entry,
    those without entry keep theirs, and those given on the command line get that value — provided some line is not an unknown parameter. *)
Theorem C84_reads : forall (REAL : Type) strtod table steers par read argv args over ls es os s,
  NoDup (map d_name table) -> NoDup (map d_index table) ->
  command (List.length steers) par read argv (text_of ls) args ->
  lines_ok REAL strtod table ls es -> NoDup (keys_set REAL es) ->
  paired steers args over -> args_ok REAL strtod over os -> (exists e, In e es /\ e <> Ignored REAL) ->
  exists s', parser REAL strtod table steers par read argv s = Ran (PVal s') /\
    (forall k x, In (k, x) os -> s' k = x) /\
    (forall k x, In (Sets REAL k x) es -> ~ In k (map fst os) -> s' k = x) /\
    (forall k, ~ In k (keys_set REAL es) -> ~ In k (map fst os) -> s' k = s k).
Proof.
  intros REAL strtod table steers par read argv args over ls es os s N NI C F K PR A Q. apply paired_overrides in PR. subst over. rewrite (command_runs REAL strtod table steers par read argv _ args s C).
  rewrite text_lines by (intros l; eapply lines_ok_in; eauto).
  destruct (run_ok REAL strtod table _ os ls es s [] [] N NI A F K) as (s' & set' & R & P1 & P2 & P3 & _); [easy|easy|].
  exists s'. rewrite R. cbn [pbind fst]. repeat split; auto.
Qed.
(** A parameter given twice in the file: the program stops. *)
Theorem C84_duplicate : forall (REAL : Type) strtod table steers par read argv args over ls es os s,
  NoDup (map d_name table) -> command (List.length steers) par read argv (text_of ls) args ->
  lines_ok REAL strtod table ls es -> ~ NoDup (keys_set REAL es) -> paired steers args over -> args_ok REAL strtod over os ->
  parser REAL strtod table steers par read argv s = Ran PExit.
Proof.
  intros REAL strtod table steers par read argv args over ls es os s N C F K PR A. apply paired_overrides in PR. subst over. rewrite (command_runs REAL strtod table steers par read argv _ args s C).
  rewrite text_lines by (intros l; eapply lines_ok_in; eauto).
  rewrite (run_twice REAL strtod table _ os ls es s [] [] N A F); [reflexivity|constructor|easy|exact K].
Qed.
