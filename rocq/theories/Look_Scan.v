(** Lookaheads read the text in order, end, and find what they look for. *)
From Coq Require Import List Arith ZArith Bool Lia.
From Coq Require Import ZifyBool ZifyNat.
From Verif Require Import Look_Model Look_Spec Look_Proof Look_Copy Look_Expand.
Import ListNotations.

(** * The reading order exists and is unique *)
Section Reads.
Context {attr data : Type}.
Notation stmt := (stmt attr data).
Variable lib : id -> option (list stmt).

Lemma reads_one : forall k fs o out1, reads lib k fs o out1 -> forall out2, reads lib k fs o out2 -> out1 = out2.
Proof. induction 1; intros out2 X; inversion X; subst; auto; f_equal; auto. Qed.

Variable members : list id.
Hypothesis fin : finite lib members.

Lemma entered_cases : forall k o (s : stmt) fs, entered lib k o s fs = fs \/
  exists n b, entered lib k o s fs = (n, b) :: fs /\ lib n = Some b /\ ~ In n (map fst fs).
Proof.
  intros k o s fs. unfold entered. destruct k; auto. destruct (shows o s) as [[n| | |]| | | | |]; auto.
  destruct (lib n) as [b|] eqn:E; auto. destruct (existsb (fun f => Nat.eqb (fst f) n) fs) eqn:X; auto. right. exists n, b. split; [reflexivity|]. split; [exact E|].
  intros H. apply in_map_iff in H. destruct H as (f & Hf & Hin).
  assert (Y : existsb (fun f => Nat.eqb (fst f) n) fs = true) by (apply existsb_exists; exists f; split; [exact Hin|now apply Nat.eqb_eq]).
  congruence.
Qed.

Lemma reads_member : forall j n r fs o, NoDup (n :: map fst fs) -> (forall m, In m (n :: map fst fs) -> In m members) ->
  length members <= S (length fs) + j -> (forall k, exists out, reads lib k fs o out) -> forall k, exists out, reads lib k ((n, r) :: fs) o out.
Proof.
  induction j as [|j IHj]; intros n r fs o Hd Hi Hj Hc; induction r as [|s r IHr]; intros k;
    try (destruct (Hc k) as (out & H); exists out; now apply r_pop).
  - destruct (entered_cases k false s ((n, r) :: fs)) as [E|(m & b & E & Hb & Hn)].
    + destruct (IHr (nest_after k false s)) as (out & H). eexists. apply r_member. rewrite E. exact H.
    + exfalso. assert (L : length (m :: n :: map fst fs) <= length members).
      { apply NoDup_incl_length; [constructor; auto|]. intros x [<-|Hx]; [apply fin; congruence|auto]. }
      cbn in L. rewrite map_length in L. lia.
  - destruct (entered_cases k false s ((n, r) :: fs)) as [E|(m & b & E & Hb & Hn)].
    + destruct (IHr (nest_after k false s)) as (out & H). eexists. apply r_member. rewrite E. exact H.
    + destruct (IHj m b ((n, r) :: fs) o) with (k := nest_after k false s) as (out & H).
      * cbn in *. constructor; auto.
      * cbn. intros x [<-|Hx]; [apply fin; congruence|auto].
      * cbn. lia.
      * exact IHr.
      * eexists. apply r_member. rewrite E. exact H.
Qed.

Lemma reads_some : forall fs, NoDup (map fst fs) -> (forall m, In m (map fst fs) -> In m members) ->
  forall o k, exists out, reads lib k fs o out.
Proof.
  induction fs as [|[n r] fs IH]; intros Hd Hi o.
  - induction o as [|s o IHo]; intros k; [eexists; apply r_end|].
    destruct (entered_cases k true s []) as [E|(m & b & E & Hb & Hn)].
    + destruct (IHo (nest_after k true s)) as (out & H). eexists. apply r_open. rewrite E. exact H.
    + destruct (reads_member (length members) m b [] o) with (k := nest_after k true s) as (out & H).
      * repeat constructor. intros [].
      * intros x [<-|[]]. apply fin. congruence.
      * lia.
      * exact IHo.
      * eexists. apply r_open. rewrite E. exact H.
  - cbn in Hd, Hi. apply reads_member with (j := length members); auto; [cbn; lia|]. apply IH; [now inversion Hd|auto].
Qed.
End Reads.

Section Scan.
Context {attr data : Type}.
Variable unknown_attr : attr.
Variable defined : data -> id -> bool.
Variable program : list (stmt attr data).
Variable lib : id -> option (list (stmt attr data)).
Variable macro_of : data -> id -> option (list (stmt attr data)).
Variable define : list (stmt attr data) -> data -> data.
Notation state := (state attr data).
Notation stmt := (stmt attr data).
Notation step := (step unknown_attr defined program lib macro_of define).
Notation steps := (steps unknown_attr defined program lib macro_of define).

Hypothesis no_other : text program lib (fun s => s_kind s <> KCopy COther).

Definition frames_are (l : list frame) (fs : list (id * list stmt)) : Prop := Forall (frame_ok lib) l /\ rest_of lib l = Some fs.

Lemma frames_are_exists : forall l, Forall (frame_ok lib) l -> exists fs, frames_are l fs.
Proof.
  intros l H. unfold frames_are. induction H as [|f l (b & Hb & Hc) H IH]; [exists []; auto|].
  destruct IH as (fs & _ & E). cbn. rewrite Hb, E. destruct (Z.leb_spec (-1) (f_cur f)); [|lia]. eexists. split; [|reflexivity].
  constructor; [exists b; auto|exact H].
Qed.
Lemma frames_names : forall l fs, rest_of lib l = Some fs -> map fst fs = map f_name l.
Proof.
  induction l as [|f l IH]; intros fs H; cbn in H; [injection H as <-; reflexivity|].
  destruct (lib (f_name f)); [|discriminate]. destruct (rest_of lib l); [|discriminate]. destruct (Z.leb _ _); [|discriminate]. injection H as <-.
  cbn. f_equal. now apply IH.
Qed.

(** What a statement does to a lookahead. *)
Definition ends_at (a : action) (k : nat) (s : stmt) (todo : list id) : bool :=
  match a, k, s_lab s with
  | AOrd, 0, LOrd n => no_todo (remove n todo)
  | ASeq t, 0, LSeq n => Nat.eqb n t
  | _, _, _ => false
  end.
Definition todo_at (k : nat) (s : stmt) (todo : list id) : list id :=
  match k, s_lab s with 0, LOrd n => remove n todo | _, _ => todo end.
Definition found_at (a : action) (k : nat) (s : stmt) (found : bool) : bool :=
  match a, k, s_lab s with ASeq t, 0, LSeq n => Nat.eqb n t || found | _, _, _ => found end.

(** the change of the sequence symbols, whatever the source of the statement is *)
Definition seqs_at (k : nat) (s : stmt) (st : state) : list (id * ((nat * nat) * snapshot)) :=
  match k, s_lab s with 0, LSeq n => seqs (register n st) | _, _ => seqs st end.

Lemma find_spec : forall s k (st : state) a todo found bk sv, st_mode st = MLook a todo k false found bk sv ->
  let st1 := if Nat.eqb k 0 then find_label s st else st in
  st_mode st1 = MLook a (todo_at k s todo) k (ends_at a k s todo) (found_at a k s found) bk sv /\
  src st1 = src st /\ macros st1 = macros st /\ st_data st1 = st_data st /\ stop st1 = stop st /\ seqs st1 = seqs_at k s st /\
  (forall m, lookup m (refs st1) =
     match lookup m (refs st) with
     | Some v => Some v
     | None => if names m (k, true, s) then s_attr s (st_data st) else None
     end).
Proof.
  clear. intros s k st a todo found bk sv Hm. cbv zeta. unfold todo_at, ends_at, found_at, seqs_at, names.
  destruct k as [|k].
  - cbn [Nat.eqb andb]. unfold find_label. rewrite Hm. destruct (s_lab s) as [|n|n].
    + assert (R : forall m, lookup m (refs st) = match lookup m (refs st) with Some v => Some v | None => None end) by (intros m; now destruct (lookup m (refs st))).
      destruct a; repeat (split; [auto; fail|]); exact R.
    + set (st' := match s_attr s (st_data st) with Some v => add_ref n v st | None => st end).
      assert (E : src st' = src st /\ macros st' = macros st /\ st_data st' = st_data st /\ stop st' = stop st /\ seqs st' = seqs st /\
        forall m, lookup m (refs st') = match lookup m (refs st) with Some v => Some v | None => if Nat.eqb n m then s_attr s (st_data st) else None end).
      { subst st'. destruct (s_attr s (st_data st)) as [v|].
        - destruct (add_ref_spec n v st) as (A1 & A2 & A3 & A4 & A5 & A6 & A7 & A8). repeat (split; [assumption|]).
          intros m. rewrite A8, Nat.eqb_sym. reflexivity.
        - repeat (split; [reflexivity|]). intros m. destruct (lookup m (refs st)); [reflexivity|]. now destruct (Nat.eqb n m). }
      destruct E as (E1 & E2 & E3 & E4 & E5 & E6). cbn. split; [now destruct a|]. repeat (split; [assumption|]). exact E6.
    + destruct (register_spec n st) as (E1 & E2 & E3 & E4 & E5 & E6 & _).
      assert (R : forall m, lookup m (refs (register n st)) = match lookup m (refs st) with Some v => Some v | None => None end)
        by (intros m; rewrite E3; now destruct (lookup m (refs st))).
      destruct a as [|t]; [|destruct (Nat.eqb n t) eqn:X]; cbn; repeat (split; [first [congruence|reflexivity]|]); exact R.
  - cbn [Nat.eqb andb]. rewrite Hm. destruct a; cbn; repeat (split; [destruct (s_lab s); reflexivity|]); intros m; now destruct (lookup m (refs st)).
Qed.

Lemma shows_seen : forall o (s : stmt), shows o s = seen_kind o s.
Proof. reflexivity. Qed.

Lemma look_spec : forall s o k (st : state) a todo found bk sv fs, st_mode st = MLook a todo k false found bk sv -> in_text program lib s o ->
  frames_are (frames (src st)) fs ->
  exists st1, look_statement lib s o k st = Next st1 /\
    st_mode st1 = MLook a (todo_at k s todo) (nest_after k o s) (ends_at a k s todo) (found_at a k s found) bk sv /\
    frames_are (frames (src st1)) (entered lib k o s fs) /\ src st1 = set_frames (frames (src st1)) (src st) /\
    macros st1 = macros st /\ st_data st1 = st_data st /\ stop st1 = stop st /\ seqs st1 = seqs_at k s st /\
    (forall m, lookup m (refs st1) =
       match lookup m (refs st) with
       | Some v => Some v
       | None => if names m (k, o, s) then s_attr s (st_data st) else None
       end).
Proof.
  intros s o k st a todo found bk sv fs Hm Hin Hf. unfold look_statement.
  pose proof (find_spec s k st a todo found bk sv Hm) as F. cbv zeta in F.
  set (st0 := if Nat.eqb k 0 then find_label s st else st) in *. clearbody st0. destruct F as (F1 & F2 & F3 & F4 & F5 & F6 & F7).
  assert (Hk : seen_kind o s <> KCopy COther).
  { assert (X : s_kind s <> KCopy COther).
    { destruct no_other as [A B]. destruct o; [now apply A|]. destruct Hin as (n & b & Hb & Hin). now apply (B n b). }
    unfold seen_kind. destruct o, (s_lab s); congruence. }
  assert (Sf : src st = set_frames (frames (src st)) (src st)) by (destruct (src st); reflexivity).
  assert (Nop : nest_after k o s = k -> entered lib k o s fs = fs -> 
    exists st1, Next st0 = Next st1 /\
    st_mode st1 = MLook a (todo_at k s todo) (nest_after k o s) (ends_at a k s todo) (found_at a k s found) bk sv /\
    frames_are (frames (src st1)) (entered lib k o s fs) /\ src st1 = set_frames (frames (src st1)) (src st) /\
    macros st1 = macros st /\ st_data st1 = st_data st /\ stop st1 = stop st /\ seqs st1 = seqs_at k s st /\
    (forall m, lookup m (refs st1) = match lookup m (refs st) with Some v => Some v | None => if names m (k, o, s) then s_attr s (st_data st) else None end)).
  { intros -> ->. exists st0. split; [reflexivity|]. split; [exact F1|]. rewrite F2. repeat (split; [assumption|]). exact F7. }
  unfold nest_after, entered in *. change (shows o s) with (seen_kind o s) in *.
  destruct (seen_kind o s) as [c| | |f|n|f].
  - destruct c as [n| | |].
    + destruct k as [|k]; cbn [Nat.eqb]; [|now apply Nop].
      cbn [process_copy]. rewrite F2.
      assert (X : existsb (fun f => Nat.eqb (f_name f) n) (frames (src st)) = existsb (fun f => Nat.eqb (fst f) n) fs).
      { destruct Hf as [_ Hf]. rewrite existsb_map, <- (frames_names _ _ Hf). clear. induction fs as [|f fs IH]; cbn; [reflexivity|].
        now rewrite IH, Nat.eqb_sym. }
      rewrite X. destruct (lib n) as [b|] eqn:El; [|now apply Nop]. destruct (existsb (fun f => Nat.eqb (fst f) n) fs); [now apply Nop|].
      eexists. split; [reflexivity|]. cbn. split; [exact F1|]. destruct Hf as [Hf1 Hf2]. split.
      { split; [constructor; [|exact Hf1]|].
        - exists b. cbn. split; [exact El|lia].
        - cbn. rewrite El, Hf2. reflexivity. }
      split; [reflexivity|]. repeat (split; [assumption|]). exact F7.
    + destruct k as [|k]; cbn; now apply Nop.
    + now destruct Hk.
    + destruct k as [|k]; cbn; now apply Nop.
  - eexists. split; [reflexivity|]. unfold set_nest. rewrite F1. cbn. split; [reflexivity|]. rewrite F2.
    split; [now destruct k|]. repeat (split; [assumption|]). exact F7.
  - eexists. split; [reflexivity|]. unfold set_nest. rewrite F1. cbn. split; [reflexivity|]. rewrite F2.
    split; [now destruct k|]. repeat (split; [assumption|]). exact F7.
  - destruct k as [|k]; now apply Nop.
  - destruct k as [|k]; now apply Nop.
  - destruct k as [|k]; now apply Nop.
Qed.

(** One step of a lookahead that goes on. *)
Lemma look_reads : forall st fs o, frames_are (frames (src st)) fs -> skipn (pos (src st)) program = o -> eof (src st) = false ->
  match fs, o with
  | [], [] => exists st1, read_text program lib st = inl (None, st1) /\ frames (src st1) = [] /\ eof (src st1) = true /\
                 st1 = set_src (src st1) st
  | [], s :: o' => exists st1, read_text program lib st = inl (Some (s, true), st1) /\ frames_are (frames (src st1)) [] /\
                 skipn (pos (src st1)) program = o' /\ eof (src st1) = false /\ st1 = set_src (src st1) st
  | (n, []) :: fs', _ => exists st1, read_text program lib st = inl (None, st1) /\ frames_are (frames (src st1)) fs' /\
                 pos (src st1) = pos (src st) /\ eof (src st1) = false /\ st1 = set_src (src st1) st
  | (n, s :: r) :: fs', _ => exists st1, read_text program lib st = inl (Some (s, false), st1) /\ frames_are (frames (src st1)) ((n, r) :: fs') /\
                 pos (src st1) = pos (src st) /\ eof (src st1) = false /\ st1 = set_src (src st1) st
  end.
Proof.
  clear. intros st fs o Hf Ho He. unfold read_text. destruct (frames (src st)) as [|f l] eqn:Ef.
  - destruct Hf as (_ & Hf). cbn in Hf. injection Hf as <-. unfold read_open. destruct o as [|s o].
    + assert (N : nth_error program (pos (src st)) = None).
      { apply nth_error_None. rewrite <- (firstn_skipn (pos (src st)) program), Ho, app_nil_r, firstn_length. lia. }
      rewrite N. eexists. split; [reflexivity|]. cbn. auto.
    + destruct (nth_skipn _ _ _ _ Ho) as (Hn & Hs). rewrite Hn. eexists. split; [reflexivity|]. cbn [set_src src frames pos eof]. rewrite Ef.
      split; [split; constructor|]. split; [exact Hs|]. split; reflexivity.
  - destruct Hf as (Hf1 & Hf2). inversion Hf1 as [|? ? (b & Hb & Hc) Hl]; subst. cbn in Hf2. rewrite Hb in Hf2.
    destruct (rest_of lib l) as [fs'|] eqn:El; [|discriminate]. destruct (Z.leb_spec (-1) (f_cur f)); [|lia]. injection Hf2 as <-.
    unfold read_copy. rewrite Hb. destruct (skipn (Z.to_nat (f_cur f + 1)) b) as [|s r] eqn:Es.
    + assert (Hle : length b <= Z.to_nat (f_cur f + 1)).
      { rewrite <- (firstn_skipn (Z.to_nat (f_cur f + 1)) b), Es, app_nil_r, firstn_length. lia. }
      replace (Z.eqb (f_cur f + 1) (Z.of_nat (length b))) with true by lia. eexists. split; [reflexivity|]. cbn. repeat split; auto.
    + destruct (nth_skipn _ _ _ _ Es) as (Hn & Hs).
      assert (Hlt : Z.to_nat (f_cur f + 1) < length b) by (apply nth_error_Some; congruence).
      replace (Z.eqb (f_cur f + 1) (Z.of_nat (length b))) with false by lia. replace (Z.ltb (f_cur f + 1) 0) with false by lia. rewrite Hn.
      eexists. split; [reflexivity|]. cbn [set_src set_frames src frames pos eof]. split; [split|].
      * constructor; [|exact Hl]. exists b. cbn. split; [exact Hb|lia].
      * cbn. rewrite Hb, El. destruct (Z.leb_spec (-1) (f_cur f + 1)); [|lia].
        replace (Z.to_nat (f_cur f + 1 + 1)) with (S (Z.to_nat (f_cur f + 1))) by lia. now rewrite Hs.
      * repeat split; auto.
Qed.

Lemma in_remove : forall n m l, In m (remove n l) <-> In m l /\ m <> n.
Proof.
  intros n m l. unfold remove. rewrite filter_In. split; intros [A B]; split; auto.
  - intros ->. now rewrite Nat.eqb_refl in B.
  - destruct (Nat.eqb_spec m n); [congruence|reflexivity].
Qed.

(** Every named statement of the text has attributes. *)
Definition answers : Prop := text program lib (fun s => forall n d, s_lab s = LOrd n -> s_attr s d <> None).

(** The lookahead for attributes. *)
Lemma scan_ord : forall k fs o out, reads lib k fs o out -> forall st todo found bk sv,
  st_mode st = MLook AOrd todo k false found bk sv -> frames_are (frames (src st)) fs -> skipn (pos (src st)) program = o -> eof (src st) = false ->
  todo <> [] ->
  exists n st1 todo1 k1 fin1, steps n st = Next st1 /\ st_mode st1 = MLook AOrd todo1 k1 fin1 found bk sv /\ (look_end st1 || fin1 = true) /\
    macros st1 = macros st /\ st_data st1 = st_data st /\ (forall m v, lookup m (refs st) = Some v -> lookup m (refs st1) = Some v) /\
    (forall m, In m todo1 <-> In m todo /\ first m out = None) /\
    (forall m, first m out = None -> lookup m (refs st1) = lookup m (refs st)) /\
    (answers -> forall m, lookup m (refs st1) = lookup m (refs st) \/
       (lookup m (refs st) = None /\ exists s, first m out = Some s /\ lookup m (refs st1) = s_attr s (st_data st))) /\
    (forall m s, In m todo -> first m out = Some s -> lookup m (refs st) = None -> s_attr s (st_data st) <> None ->
       lookup m (refs st1) = s_attr s (st_data st)).
Proof.
  assert (Stp : forall st a todo k found bk sv s o st2, st_mode st = MLook a todo k false found bk sv -> look_end st = false ->
    read_text program lib st = inl (Some (s, o), st2) ->
    step st = look_statement lib s o k (if o then set_src (set_iline (line (src st)) (src st2)) st2 else st2)).
  { intros st a todo k found bk sv s o st2 Hm He Hr. unfold Look_Model.step. rewrite Hm. unfold step_look. rewrite He. cbn. now rewrite Hr. }
  assert (Le : forall st : state, eof (src st) = false -> look_end st = false).
  { intros st H. unfold look_end. rewrite H. now destruct (frames (src st)). }
  (* one statement *)
  assert (One : forall k fs o s ob out fs0 o0 (IH : forall st todo found bk sv,
      st_mode st = MLook AOrd todo (nest_after k ob s) false found bk sv -> frames_are (frames (src st)) (entered lib k ob s fs) -> skipn (pos (src st)) program = o -> eof (src st) = false ->
      todo <> [] ->
      exists n st1 todo1 k1 fin1, steps n st = Next st1 /\ st_mode st1 = MLook AOrd todo1 k1 fin1 found bk sv /\ (look_end st1 || fin1 = true) /\
        macros st1 = macros st /\ st_data st1 = st_data st /\ (forall m v, lookup m (refs st) = Some v -> lookup m (refs st1) = Some v) /\
        (forall m, In m todo1 <-> In m todo /\ first m out = None) /\
        (forall m, first m out = None -> lookup m (refs st1) = lookup m (refs st)) /\
        (answers -> forall m, lookup m (refs st1) = lookup m (refs st) \/
           (lookup m (refs st) = None /\ exists s, first m out = Some s /\ lookup m (refs st1) = s_attr s (st_data st))) /\
        (forall m s, In m todo -> first m out = Some s -> lookup m (refs st) = None -> s_attr s (st_data st) <> None ->
           lookup m (refs st1) = s_attr s (st_data st)))
      st todo found bk sv st2,
      st_mode st = MLook AOrd todo k false found bk sv -> frames_are (frames (src st)) fs0 -> skipn (pos (src st)) program = o0 -> eof (src st) = false -> todo <> [] ->
      read_text program lib st = inl (Some (s, ob), st2) -> frames_are (frames (src st2)) fs -> skipn (pos (src st2)) program = o -> eof (src st2) = false -> st2 = set_src (src st2) st ->
      exists n st1 todo1 k1 fin1, steps n st = Next st1 /\ st_mode st1 = MLook AOrd todo1 k1 fin1 found bk sv /\ (look_end st1 || fin1 = true) /\
        macros st1 = macros st /\ st_data st1 = st_data st /\ (forall m v, lookup m (refs st) = Some v -> lookup m (refs st1) = Some v) /\
        (forall m, In m todo1 <-> In m todo /\ first m ((k, ob, s) :: out) = None) /\
        (forall m, first m ((k, ob, s) :: out) = None -> lookup m (refs st1) = lookup m (refs st)) /\
        (answers -> forall m, lookup m (refs st1) = lookup m (refs st) \/
           (lookup m (refs st) = None /\ exists s', first m ((k, ob, s) :: out) = Some s' /\ lookup m (refs st1) = s_attr s' (st_data st))) /\
        (forall m s', In m todo -> first m ((k, ob, s) :: out) = Some s' -> lookup m (refs st) = None -> s_attr s' (st_data st) <> None ->
           lookup m (refs st1) = s_attr s' (st_data st))).
  { intros k fs o s ob out fs0 o0 IH st todo found bk sv st2 Hm Hf0 Ho0 He Ht Hr Hf2 Ho2 He2 Es2.
    pose proof (Stp _ _ _ _ _ _ _ _ _ _ Hm (Le _ He) Hr) as E.
    set (st3 := if ob then set_src (set_iline (line (src st)) (src st2)) st2 else st2) in *.
    assert (B3 : st_mode st3 = MLook AOrd todo k false found bk sv /\ frames_are (frames (src st3)) fs /\ pos (src st3) = pos (src st2) /\ eof (src st3) = false /\
      macros st3 = macros st /\ st_data st3 = st_data st /\ refs st3 = refs st).
    { subst st3. rewrite Es2. destruct ob; cbn; rewrite ?Hm; auto 10. }
    destruct B3 as (B1 & B2 & B3 & B4 & B5 & B6 & B7).
    destruct (look_spec s ob k st3 AOrd todo found bk sv fs B1 (read_text_in _ _ _ _ _ _ Hr) B2) as (st4 & L1 & L2 & L3 & L4 & L5 & L6 & L7 & L8 & L9).
    rewrite L1 in E. rewrite B6, B7 in L9.
    assert (Fst : forall m, first m ((k, ob, s) :: out) = if names m (k, ob, s) then Some s else first m out) by reflexivity.
    assert (Todo : forall m, In m (todo_at k s todo) <-> In m todo /\ names m (k, ob, s) = false).
    { intros m. unfold todo_at, names. destruct k as [|k]; cbn [Nat.eqb andb]; [|tauto]. destruct (s_lab s) as [|n|n]; try tauto.
      rewrite in_remove. destruct (Nat.eqb_spec n m); subst; split; intros [? ?]; split; auto; congruence. }
    destruct (ends_at AOrd k s todo) eqn:Ee.
    - exists 1, st4, (todo_at k s todo), (nest_after k ob s), true. cbn [Look_Model.steps]. rewrite E.
      assert (Em : todo_at k s todo = []).
      { unfold ends_at in Ee. unfold todo_at. destruct k as [|k]; [|discriminate]. destruct (s_lab s) as [|n|n]; try discriminate.
        destruct (remove n todo); [reflexivity|discriminate]. }
      assert (Fd : found_at AOrd k s found = found) by reflexivity. rewrite Fd in L2.
      split; [reflexivity|]. split; [exact L2|]. split; [now rewrite orb_true_r|]. split; [congruence|]. split; [congruence|].
      split; [intros m v Hv; now rewrite L9, Hv|]. split; [|split; [|split]].
      + intros m. rewrite Em. split; [intros []|]. intros [Hin Hn]. rewrite Fst in Hn.
        assert (In m (todo_at k s todo)) by (apply Todo; split; [exact Hin|]; now destruct (names m (k, ob, s))). now rewrite Em in H.
      + intros m Hn. rewrite Fst in Hn. rewrite L9. destruct (names m (k, ob, s)); [discriminate|]. now destruct (lookup m (refs st)).
      + intros _ m. rewrite L9, Fst. destruct (lookup m (refs st)) eqn:Er; [now left|]. destruct (names m (k, ob, s)); [right|now left].
        split; [reflexivity|]. eauto.
      + intros m s' Hin Hs Hr2 Ha. rewrite L9, Hr2. rewrite Fst in Hs. destruct (names m (k, ob, s)) eqn:En; [congruence|].
        assert (In m (todo_at k s todo)) by (apply Todo; auto). now rewrite Em in H.
    - assert (Ne : todo_at k s todo <> []).
      { unfold ends_at in Ee. unfold todo_at. destruct k as [|k]; [|exact Ht]. destruct (s_lab s) as [|n|n]; try exact Ht.
        now destruct (remove n todo). }
      destruct (IH st4 (todo_at k s todo) found bk sv L2 L3) as (n & st5 & todo5 & k5 & fin5 & I1 & I2 & I3 & I4 & I5 & I9 & I6 & I0 & I7 & I8).
      { rewrite L4. cbn. rewrite B3. exact Ho2. } { rewrite L4. cbn. exact B4. } { exact Ne. }
      exists (S n), st5, todo5, k5, fin5. cbn [Look_Model.steps]. rewrite E.
      split; [exact I1|]. split; [exact I2|]. split; [exact I3|]. split; [congruence|]. split; [congruence|].
      assert (Hd : st_data st4 = st_data st) by congruence. rewrite Hd in I7, I8.
      split; [intros m v Hv; apply I9; now rewrite L9, Hv|]. split; [|split; [|split]].
      + intros m. rewrite I6, Todo, Fst. destruct (names m (k, ob, s)); [|tauto]. split; [intros [[_ ?] _]; discriminate|intros [_ ?]; discriminate].
      + intros m Hn. rewrite Fst in Hn. destruct (names m (k, ob, s)) eqn:En; [discriminate|]. rewrite (I0 m Hn), L9, En. now destruct (lookup m (refs st)).
      + intros An m. rewrite Fst. specialize (I7 An m). rewrite L9 in I7. destruct (lookup m (refs st)) as [v|] eqn:Er.
        * destruct I7 as [I7|(I7 & _)]; [left; congruence|discriminate].
        * destruct (names m (k, ob, s)) eqn:En.
          -- destruct I7 as [I7|(I7 & s' & I71 & I72)].
             ++ right. split; [reflexivity|]. exists s. split; [reflexivity|]. exact I7.
             ++ exfalso. unfold names in En. destruct k as [|k]; [|discriminate]. destruct (s_lab s) as [|n0|n0] eqn:El; try discriminate.
                pose proof (read_text_in _ _ _ _ _ _ Hr) as Hin. destruct An as [A1 A2].
                destruct ob; [exact (A1 s Hin n0 _ El I7)|]. destruct Hin as (x & b & Hb & Hin). exact (A2 x b s Hb Hin n0 _ El I7).
          -- destruct I7 as [I7|(I7 & s' & I71 & I72)]; [now left|right; eauto].
      + intros m s' Hin Hs Hr2 Ha. rewrite Fst in Hs. destruct (names m (k, ob, s)) eqn:En.
        * injection Hs as <-. assert (X : lookup m (refs st4) = s_attr s (st_data st)) by (rewrite L9, Hr2, En; reflexivity).
          destruct (s_attr s (st_data st)) as [v|]; [now apply I9|congruence].
        * apply I8; auto; [apply Todo; auto|]. now rewrite L9, Hr2, En. }
  induction 1 as [k|k n fs o out H IH|k s o out H IH|k n s r fs o out H IH]; intros st todo found bk sv Hm Hf Ho He Ht;
    pose proof (look_reads st _ _ Hf Ho He) as X; cbn iota in X.
  - destruct X as (st1 & R & F1 & E1 & S1). exists 1, st1, todo, k, false. cbn [Look_Model.steps]. unfold Look_Model.step. rewrite Hm. unfold step_look.
    rewrite (Le _ He). cbn. rewrite R. split; [reflexivity|]. rewrite S1. cbn. split; [exact Hm|].
    split; [unfold look_end; cbn; now rewrite F1, E1|]. repeat (split; [auto; fail|]). split; [|split; [|split]].
    + intros m. tauto.
    + reflexivity.
    + intros _ m. now left.
    + discriminate.
  - destruct X as (st1 & R & F1 & P1 & E1 & S1).
    destruct (IH st1 todo found bk sv) as (n1 & st2 & todo2 & k2 & fin2 & I1 & I2); auto.
    { rewrite S1. exact Hm. } { now rewrite P1. }
    exists (S n1), st2, todo2, k2, fin2. cbn [Look_Model.steps]. unfold Look_Model.step. rewrite Hm. unfold step_look. rewrite (Le _ He). cbn. rewrite R.
    split; [exact I1|]. rewrite S1 in I2. exact I2.
  - destruct X as (st1 & R & F1 & P1 & E1 & S1). eapply One; eauto.
  - destruct X as (st1 & R & F1 & P1 & E1 & S1). eapply One with (fs := (n, r) :: fs); eauto. now rewrite P1.
Qed.
(** The lookahead for a sequence symbol. *)
Lemma scan_seq : forall k fs o out, reads lib k fs o out -> forall st t bk sv,
  st_mode st = MLook (ASeq t) [] k false false bk sv -> frames_are (frames (src st)) fs -> skipn (pos (src st)) program = o -> eof (src st) = false ->
  macros st = [] ->
  exists n st1 k1 fin1 found1, steps n st = Next st1 /\ st_mode st1 = MLook (ASeq t) [] k1 fin1 found1 bk sv /\ (look_end st1 || fin1 = true) /\
    macros st1 = [] /\ st_data st1 = st_data st /\ (forall m v, lookup m (refs st) = Some v -> lookup m (refs st1) = Some v) /\
    (forall m v, lookup m (seqs st) = Some v -> lookup m (seqs st1) = Some v) /\
    found1 = existsb (labels t) out /\ (found1 = true -> lookup t (seqs st1) <> None).
Proof.
  assert (Stp : forall st a todo k found bk sv s o st2, st_mode st = MLook a todo k false found bk sv -> look_end st = false ->
    read_text program lib st = inl (Some (s, o), st2) ->
    step st = look_statement lib s o k (if o then set_src (set_iline (line (src st)) (src st2)) st2 else st2)).
  { intros st a todo k found bk sv s o st2 Hm He Hr. unfold Look_Model.step. rewrite Hm. unfold step_look. rewrite He. cbn. now rewrite Hr. }
  assert (Le : forall st : state, eof (src st) = false -> look_end st = false).
  { intros st H. unfold look_end. rewrite H. now destruct (frames (src st)). }
  assert (Reg : forall (st : state) n, macros st = [] -> (forall m v, lookup m (seqs st) = Some v -> lookup m (seqs (register n st)) = Some v) /\
     lookup n (seqs (register n st)) <> None).
  { intros st n Hm. unfold register. rewrite Hm, andb_false_r. destruct (begin_snapshot _ st) as [p sn].
    destruct (lookup n (seqs st)) as [[p0 old]|] eqn:E.
    - destruct (snapshot_eqb old sn); cbn; split; auto; congruence.
    - cbn. rewrite Nat.eqb_refl. split; [|discriminate]. intros m v Hv. destruct (Nat.eqb_spec m n); [congruence|exact Hv]. }
  assert (One : forall k fs o s ob out (IH : forall st t bk sv,
      st_mode st = MLook (ASeq t) [] (nest_after k ob s) false false bk sv -> frames_are (frames (src st)) (entered lib k ob s fs) -> skipn (pos (src st)) program = o -> eof (src st) = false ->
      macros st = [] ->
      exists n st1 k1 fin1 found1, steps n st = Next st1 /\ st_mode st1 = MLook (ASeq t) [] k1 fin1 found1 bk sv /\ (look_end st1 || fin1 = true) /\
        macros st1 = [] /\ st_data st1 = st_data st /\ (forall m v, lookup m (refs st) = Some v -> lookup m (refs st1) = Some v) /\
        (forall m v, lookup m (seqs st) = Some v -> lookup m (seqs st1) = Some v) /\
        found1 = existsb (labels t) out /\ (found1 = true -> lookup t (seqs st1) <> None))
      st t bk sv st2,
      st_mode st = MLook (ASeq t) [] k false false bk sv -> eof (src st) = false -> macros st = [] ->
      read_text program lib st = inl (Some (s, ob), st2) -> frames_are (frames (src st2)) fs -> skipn (pos (src st2)) program = o -> eof (src st2) = false -> st2 = set_src (src st2) st ->
      exists n st1 k1 fin1 found1, steps n st = Next st1 /\ st_mode st1 = MLook (ASeq t) [] k1 fin1 found1 bk sv /\ (look_end st1 || fin1 = true) /\
        macros st1 = [] /\ st_data st1 = st_data st /\ (forall m v, lookup m (refs st) = Some v -> lookup m (refs st1) = Some v) /\
        (forall m v, lookup m (seqs st) = Some v -> lookup m (seqs st1) = Some v) /\
        found1 = existsb (labels t) ((k, ob, s) :: out) /\ (found1 = true -> lookup t (seqs st1) <> None)).
  { intros k fs o s ob out IH st t bk sv st2 Hm He Hmac Hr Hf2 Ho2 He2 Es2.
    pose proof (Stp _ _ _ _ _ _ _ _ _ _ Hm (Le _ He) Hr) as E.
    set (st3 := if ob then set_src (set_iline (line (src st)) (src st2)) st2 else st2) in *.
    assert (B3 : st_mode st3 = MLook (ASeq t) [] k false false bk sv /\ frames_are (frames (src st3)) fs /\ pos (src st3) = pos (src st2) /\ eof (src st3) = false /\
      macros st3 = [] /\ st_data st3 = st_data st /\ refs st3 = refs st /\ seqs st3 = seqs st).
    { subst st3. rewrite Es2. destruct ob; cbn; rewrite ?Hm; auto 10. }
    destruct B3 as (B1 & B2 & B3 & B4 & B5 & B6 & B7 & B8).
    destruct (look_spec s ob k st3 _ [] false bk sv fs B1 (read_text_in _ _ _ _ _ _ Hr) B2) as (st4 & L1 & L2 & L3 & L4 & L5 & L6 & L7 & L8 & L9).
    rewrite L1 in E. rewrite B6, B7 in L9.
    assert (Td : todo_at k s [] = []) by (unfold todo_at; destruct k, (s_lab s); reflexivity). rewrite Td in L2.
    assert (Rf : forall m v, lookup m (refs st) = Some v -> lookup m (refs st4) = Some v) by (intros m v Hv; now rewrite L9, Hv).
    assert (Sq : forall m v, lookup m (seqs st) = Some v -> lookup m (seqs st4) = Some v).
    { rewrite L8, <- B8. unfold seqs_at. destruct k; auto. destruct (s_lab s); auto. now apply Reg. }
    assert (Fa : found_at (ASeq t) k s false = ends_at (ASeq t) k s [] /\ labels t (k, ob, s) = ends_at (ASeq t) k s []).
    { unfold found_at, ends_at, labels. destruct k; cbn; [|auto]. destruct (s_lab s); auto. now rewrite orb_false_r. }
    destruct Fa as (Fa1 & Fa2). rewrite Fa1 in L2.
    destruct (ends_at (ASeq t) k s []) eqn:Ee.
    - exists 1, st4, (nest_after k ob s), true, true. cbn [Look_Model.steps]. rewrite E.
      split; [reflexivity|]. split; [exact L2|]. split; [now rewrite orb_true_r|]. split; [congruence|]. split; [congruence|].
      split; [exact Rf|]. split; [exact Sq|]. cbn [existsb]. rewrite Fa2. split; [reflexivity|]. intros _.
      unfold ends_at in Ee. destruct k; [|discriminate]. unfold seqs_at in L8. destruct (s_lab s) as [|n|n]; try discriminate.
      apply Nat.eqb_eq in Ee. subst n. rewrite L8. now apply Reg.
    - destruct (IH st4 t bk sv L2 L3) as (n & st5 & k5 & fin5 & found5 & I1 & I2 & I3 & I4 & I5 & I6 & I7 & I8 & I9).
      { rewrite L4. cbn. rewrite B3. exact Ho2. } { rewrite L4. cbn. exact B4. } { congruence. }
      exists (S n), st5, k5, fin5, found5. cbn [Look_Model.steps]. rewrite E.
      split; [exact I1|]. split; [exact I2|]. split; [exact I3|]. split; [congruence|]. split; [congruence|].
      split; [auto|]. split; [auto|]. cbn [existsb]. rewrite Fa2. auto. }
  induction 1 as [k|k n fs o out H IH|k s o out H IH|k n s r fs o out H IH]; intros st t bk sv Hm Hf Ho He Hmac;
    pose proof (look_reads st _ _ Hf Ho He) as X; cbn iota in X.
  - destruct X as (st1 & R & F1 & E1 & S1). exists 1, st1, k, false, false. cbn [Look_Model.steps]. unfold Look_Model.step. rewrite Hm. unfold step_look.
    rewrite (Le _ He). cbn. rewrite R. split; [reflexivity|]. rewrite S1. cbn. split; [exact Hm|].
    split; [unfold look_end; cbn; now rewrite F1, E1|]. repeat (split; [auto; fail|]). discriminate.
  - destruct X as (st1 & R & F1 & P1 & E1 & S1).
    destruct (IH st1 t bk sv) as (n1 & st2 & k2 & fin2 & found2 & I1 & I2); auto.
    { rewrite S1. exact Hm. } { now rewrite P1. } { rewrite S1. exact Hmac. }
    exists (S n1), st2, k2, fin2, found2. cbn [Look_Model.steps]. unfold Look_Model.step. rewrite Hm. unfold step_look. rewrite (Le _ He). cbn. rewrite R.
    split; [exact I1|]. rewrite S1 in I2. exact I2.
  - destruct X as (st1 & R & F1 & P1 & E1 & S1). eapply One; eauto.
  - destruct X as (st1 & R & F1 & P1 & E1 & S1). eapply One with (fs := (n, r) :: fs); eauto. now rewrite P1.
Qed.
End Scan.
