(** A lookahead as a whole: from the statement that begins it to the place where processing goes on. *)
From Coq Require Import List Arith ZArith Bool Lia.
From Coq Require Import ZifyBool ZifyNat.
From Verif Require Import Look_Model Look_Spec Look_Proof Look_Copy Look_Expand Look_Scan Look_Back.
Import ListNotations.

Section Whole.
Context {attr data : Type}.
Variable unknown_attr : attr.
Variable defined : data -> id -> bool.
Variable program : list (stmt attr data).
Variable lib : id -> option (list (stmt attr data)).
Variable macro_of : data -> id -> option (list (stmt attr data)).
Variable define : list (stmt attr data) -> data -> data.
Notation state := (state attr data).
Notation stmt := (stmt attr data).
Notation step := (step unknown_attr defined program lib macro_of define).
Notation steps := (steps unknown_attr defined program lib macro_of define).

Lemma read_any_mode : forall st x st1, read_any program lib st = inl (x, st1) ->
  st_mode st1 = st_mode st /\ st_data st1 = st_data st /\ refs st1 = refs st /\ log st1 = log st /\ seqs st1 = seqs st /\ stop st1 = stop st.
Proof.
  clear. intros st x st1 H. destruct (read_any_spec _ _ _ _ _ H) as [[_ R]|(m & rest & _ & _ & A & B & C & D & E & F & _)]; [|auto 10].
  apply read_text_spec in R. destruct R as (_ & A & B & C & D & E & F & _). auto 10.
Qed.

(** Which steps begin a lookahead. *)
Lemma jump_begins : forall t (st : state) a todo nest fin found bk sv, st_mode st = MOrd ->
  st_mode (jump_in_statements t st) = MLook a todo nest fin found bk sv ->
  macros st = [] /\ lookup t (seqs st) = None /\ jump_in_statements t st = start_lookahead (ASeq t) [] (fst (end_snapshot st)) (snd (end_snapshot st)) st.
Proof.
  clear. intros t st a todo nest fin found bk sv Hm H. unfold jump_in_statements in *. destruct (macros st).
  - destruct (lookup t (seqs st)) as [[p sn]|]; [cbn in H; congruence|]. auto.
  - destruct (label_index _ _); cbn in H; congruence.
Qed.

Lemma begins : forall st st1 a todo nest fin found bk sv, st_mode st = MOrd -> step st = Next st1 -> st_mode st1 = MLook a todo nest fin found bk sv ->
  exists s o st2, read_any program lib st = inl (Some (s, o), st2) /\ at_end st = false /\
    let st3 := if o then set_src (set_iline (line (src st)) (src st2)) st2 else st2 in
    match a with
    | AOrd => (todo = wanted defined (s_wants1 s) st2 /\ todo <> [] /\ st1 = trigger todo st2) \/
              (todo = wanted defined (s_wants2 s) st3 /\ todo <> [] /\ st1 = trigger todo st3 /\ wanted defined (s_wants1 s) st2 = [])
    | ASeq t => macros st2 = [] /\ exists st4, src st4 = src st3 /\ st_mode st4 = MOrd /\ macros st4 = [] /\ st_data st4 = st_data st /\ refs st4 = refs st /\ stop st4 = stop st /\
                st1 = start_lookahead (ASeq t) [] (fst (end_snapshot st4)) (snd (end_snapshot st4)) st4
    end.
Proof.
  intros st st1 a todo nest fin found bk sv Hm H Hl. unfold Look_Model.step in H. rewrite Hm in H. unfold step_ordinary in H.
  destruct (at_end st); [discriminate|]. destruct (read_any program lib st) as [[[[s o]|] st2]|e] eqn:Er.
  2: { injection H as <-. destruct (read_any_mode _ _ _ Er) as (X & _). congruence. }
  2: { exfalso. unfold read_any, read_text, read_copy in Er. destruct (macros st); [|destruct (nth_error _ _); discriminate].
      destruct (frames (src st)) as [|f l]; [discriminate|]. destruct (lib _); [|injection Er as <-; discriminate].
      destruct (Z.eqb _ _); [discriminate|]. destruct (Z.ltb _ _); [injection Er as <-; discriminate|]. destruct (nth_error _ _); [|injection Er as <-]; discriminate. }
  exists s, o, st2. split; [reflexivity|]. split; [reflexivity|].
  destruct (read_any_mode _ _ _ Er) as (X1 & X2 & X3 & X4 & X5 & X6).
  assert (T : forall l (x : state), l <> [] -> st_mode (trigger l x) = MLook a todo nest fin found bk sv -> a = AOrd /\ todo = l).
  { intros l x Hne. unfold trigger. destruct (begin_snapshot false x). cbn. now intros [= <- <- _ _ _ _ _]. }
  destruct (wanted defined (s_wants1 s) st2) as [|n l] eqn:W1.
  2: { injection H as <-. destruct (T (n :: l) st2) as (-> & ->); [discriminate|exact Hl|]. left. split; [auto|]. split; [discriminate|reflexivity]. }
  cbv zeta. cbv zeta in H. set (st3 := if o then set_src (set_iline (line (src st)) (src st2)) st2 else st2) in *.
  assert (Y : st_mode st3 = MOrd /\ st_data st3 = st_data st /\ refs st3 = refs st /\ stop st3 = stop st /\ macros st3 = macros st2) by (subst st3; destruct o; cbn; repeat split; congruence).
  destruct (wanted defined (s_wants2 s) st3) as [|n l] eqn:W2.
  2: { injection H as <-. destruct (T (n :: l) st3) as (-> & ->); [discriminate|exact Hl|]. right. split; [auto|]. split; [discriminate|auto]. }
  destruct Y as (Y1 & Y2 & Y3 & Y4 & Y5). unfold ordinary_statement in H.
  destruct (register_label_mode s (tell (Did s) st3)) as (R1 & R2 & R3 & R4 & R5). cbn in R1, R2, R3, R4, R5.
  assert (R6 : stop (register_label s (tell (Did s) st3)) = stop st3).
  { unfold register_label. destruct (s_lab s) as [|n0|n0]; [reflexivity|reflexivity|]. now destruct (register_spec n0 (tell (Did s) st3)) as (_ & _ & _ & -> & _). }
  set (st5 := register_label s (tell (Did s) st3)) in *. clearbody st5.
  destruct (s_kind s) as [c| | |f|n|f].
  - exfalso. destruct c as [n| | |]; try (injection H as <-; cbn in Hl; congruence);
      (destruct (process_copy _ _ _ _) as [st6|e] eqn:E; [|apply process_copy_crash in E; destruct E; discriminate]);
      injection H as <-; (destruct (process_copy_spec _ _ _ _ _ E) as [(m & b & _ & _ & _ & ->)|(e & -> & _)]; cbn in Hl; congruence).
  - exfalso. injection H as <-. cbn in Hl. congruence.
  - exfalso. injection H as <-. cbn in Hl. congruence.
  - destruct (f (st_data st5)) as [t|]; injection H as <-; [|congruence].
    assert (M5 : st_mode st5 = MOrd) by congruence.
    destruct (jump_begins _ _ _ _ _ _ _ _ _ M5 Hl) as (J1 & J2 & J3). rewrite J3 in Hl.
    assert (a = ASeq t) as -> by (unfold start_lookahead in Hl; cbn in Hl; congruence).
    split; [congruence|]. exists st5. repeat (split; [congruence|]). exact J3.
  - exfalso. destruct (macro_of _ n); injection H as <-; cbn in Hl; congruence.
  - exfalso. injection H as <-. destruct (s_reg s); cbn in Hl; congruence.
Qed.

(** What is behind the statement that was read. *)
Lemma read_back : forall st s o st2, read_any program lib st = inl (Some (s, o), st2) -> at_end st = false -> inv program lib st -> ordinary st ->
  eof (src st) = false /\
  match macros st2 with
  | m :: rest => mkM (m_body m) (pred (m_next m)) :: rest = macros st /\ src st2 = src st /\ behind (src st) /\ o = false
  | [] => macros st = [] /\ back_one (frames (src st2)) = frames (src st) /\ o = (match frames (src st) with [] => true | _ => false end) /\
          match frames (src st) with
          | [] => begin (src st2) = pos (src st) /\ nth_error program (pos (src st)) = Some s
          | _ => end_ (src st2) = pos (src st) /\ eline (src st2) + 1 = line (src st) /\ frames (src st2) <> []
          end
  end.
Proof.
  intros st s o st2 H He I O. destruct I as (_ & _ & _ & I).
  assert (I' : macros st <> [] \/ frames (src st) <> [] -> behind (src st) /\ eof (src st) = false) by (unfold mode_inv, ordinary in *; destruct (st_mode st); auto; contradiction).
  destruct (read_any_spec _ _ _ _ _ H) as [[Em R]|(m & rest & Em & E1 & E2 & E3 & E4 & E5 & E6 & E7 & R)].
  - pose proof (read_text_spec _ _ _ _ _ R) as (Em2 & _ & _ & _ & _ & _ & _ & E). rewrite Em2, Em.
    unfold at_end in He. rewrite Em in He, I'. destruct (frames (src st)) as [|f l].
    + destruct E as (F & -> & N & P1 & P2 & P3 & _). split; [exact He|]. rewrite F. auto.
    + destruct E as (b & _ & E & -> & F & _). split; [apply I'; right; discriminate|]. split; [reflexivity|]. rewrite F. split.
      * cbn. replace (f_cur f + 1 - 1)%Z with (f_cur f) by lia. now destruct f.
      * split; [reflexivity|]. rewrite E. cbn. destruct I' as ((B1 & B2 & B3) & _); [right; discriminate|]. split; [congruence|]. split; [lia|]. try rewrite F. discriminate.
  - destruct R as (-> & R & _). rewrite R. cbn. destruct I' as (B & B2); [left; rewrite Em; discriminate|].
    split; [exact B2|]. split; [rewrite Em; now destruct m|]. auto.
Qed.

Hypothesis unnamed : unnamed_copies program lib.
Hypothesis of_names : copies_of_names program lib macro_of.
Variable members : list id.
Hypothesis fin_lib : finite lib members.

Lemma reach_step : forall d n st st1, steps n (initial d) = Next st -> step st = Next st1 -> steps (S n) (initial d) = Next st1.
Proof. intros d n st st1 H H1. now rewrite steps_snoc, H. Qed.

Lemma no_other_text : text program lib (fun s => s_kind s <> KCopy COther).
Proof. destruct of_names as (A & B & _). now split. Qed.

(** The reading order from a state that is reached. *)
Lemma place_exists : forall d n st k, steps n (initial d) = Next st ->
  exists fs out, frames_are lib (frames (src st)) fs /\ reads lib k fs (skipn (pos (src st)) program) out.
Proof.
  intros d n st k H. destruct (ok_kept _ _ _ _ _ _ unnamed _ _ _ H) as (K & _). destruct (distinct_kept _ _ _ _ _ _ _ _ _ H) as ((D1 & D2) & _).
  destruct (frames_are_exists lib define _ K) as (fs & Hf). exists fs. pose proof (frames_names lib _ _ (proj2 Hf)) as Hn.
  destruct (reads_some lib members fin_lib fs) with (o := skipn (pos (src st)) program) (k := k) as (out & Ho).
  - now rewrite Hn.
  - rewrite Hn. intros m Hm. apply in_map_iff in Hm. destruct Hm as (f & <- & Hm). now apply fin_lib, D2.
  - eauto.
Qed.

(** The instruction of the statement of open code that is next refers to no attributes. *)
Definition next_plain (st : state) : Prop :=
  macros st = [] -> frames (src st) = [] -> forall s, nth_error program (pos (src st)) = Some s -> forall d r, s_wants1 s d r = [].

Theorem lookahead : forall d n st st1 todo nest fin found bk sv,
  steps n (initial d) = Next st -> st_mode st = MOrd -> step st = Next st1 -> st_mode st1 = MLook AOrd todo nest fin found bk sv ->
  exists fs out k st2,
    rest_of lib (frames (src st1)) = Some fs /\ reads lib 0 fs (skipn (pos (src st1)) program) out /\
    steps k st1 = Next st2 /\ st_mode st2 = MOrd /\ st_data st2 = st_data st /\
    macros st2 = macros st /\ frames (src st2) = frames (src st) /\ pos (src st2) = pos (src st) /\ eof (src st2) = eof (src st) /\
    (next_plain st -> line (src st2) = line (src st)) /\
    (forall m v, lookup m (refs st) = Some v -> lookup m (refs st2) = Some v) /\
    (forall m, In m todo -> lookup m (refs st) = None /\ defined (st_data st) m = false /\
       match first m out with
       | Some s => s_attr s (st_data st) <> None -> lookup m (refs st2) = s_attr s (st_data st)
       | None => lookup m (refs st2) = Some unknown_attr
       end).
Proof.
  intros d n st st1 todo nest fin found bk sv Hr Hm Hs Hl. pose proof (reach_step _ _ _ _ Hr Hs) as Hr1.
  pose proof (inv_reach unknown_attr defined program lib macro_of define _ _ _ Hr) as I.
  assert (O : ordinary st) by (unfold ordinary; now rewrite Hm).
  destruct (begins _ _ _ _ _ _ _ _ _ Hm Hs Hl) as (s & o & sta & Ra & He & B). cbv zeta in B.
  destruct (read_any_mode _ _ _ Ra) as (X1 & X2 & X3 & X4 & X5 & X6).
  destruct (read_back _ _ _ _ Ra He I O) as (Ee & Rb).
  destruct (read_any_inv _ _ define _ _ _ Ra I O) as (Ia & Ba). destruct (Ba ltac:(discriminate)) as (Ba1 & Ba2). clear Ba.
  (* the state in which the lookahead begins *)
  assert (T : exists stt, st1 = trigger todo stt /\ todo <> [] /\ st_data stt = st_data st /\ refs stt = refs st /\ macros stt = macros sta /\
     frames (src stt) = frames (src sta) /\ begin (src stt) = begin (src sta) /\ end_ (src stt) = end_ (src sta) /\ eline (src stt) = eline (src sta) /\
     eof (src stt) = false /\ (next_plain st -> o = true -> iline (src stt) = line (src st)) /\
     (forall m, In m todo -> lookup m (refs st) = None /\ defined (st_data st) m = false)).
  { assert (U : forall w x, st_data x = st_data st -> refs x = refs st -> forall m, In m (wanted defined w x) -> lookup m (refs st) = None /\ defined (st_data st) m = false).
    { intros w x D1 D2 m Hin. unfold wanted in Hin. apply filter_In in Hin. destruct Hin as (_ & Hu). unfold unknown in Hu. rewrite D1, D2 in Hu.
      apply andb_prop in Hu. destruct Hu as (Hu1 & Hu2). destruct (lookup m (refs st)); [discriminate|]. split; [reflexivity|]. now destruct (defined (st_data st) m). }
    destruct B as [(B1 & B2 & B3)|(B1 & B2 & B3 & B4)].
    - exists sta. repeat (split; [assumption||reflexivity|]). split.
      + intros Hp ->. exfalso. 
        assert (Hmac : macros sta = []) by (destruct (macros sta); [reflexivity|destruct Rb as (_ & _ & _ & Rb); discriminate]). rewrite Hmac in Rb.
        destruct Rb as (Rb1 & _ & Rb3 & Rb4). unfold next_plain in Hp. destruct (frames (src st)); [|discriminate].
        destruct Rb4 as (_ & Rb4). unfold wanted in B1. rewrite (Hp Rb1 eq_refl _ Rb4) in B1. now apply B2.
      + intros m Hin. rewrite B1 in Hin. eapply U; eauto.
    - exists (if o then set_src (set_iline (line (src st)) (src sta)) sta else sta). split; [exact B3|]. split; [exact B2|].
      split; [now destruct o|]. split; [now destruct o|]. split; [now destruct o|]. split; [now destruct o|]. split; [now destruct o|]. split; [now destruct o|].
      split; [now destruct o|]. split; [now destruct o|]. split; [intros _ ->; reflexivity|].
      intros m Hin. rewrite B1 in Hin. eapply U in Hin; eauto; now destruct o. }
  destruct T as (stt & T1 & T2 & T3 & T4 & T5 & T6 & T7 & T8 & T9 & T10 & T11 & T12). clear B.
  (* the lookahead *)
  unfold trigger in T1. destruct (begin_snapshot false stt) as [p sn] eqn:Eb.
  assert (L : st_mode st1 = MLook AOrd todo 0 false false p sn /\ eof (src st1) = false /\ macros st1 = macros stt /\ st_data st1 = st_data stt /\ refs st1 = refs stt).
  { rewrite T1. unfold start_lookahead. destruct (Nat.ltb _ _); cbn; repeat split; auto; (destruct todo; [congruence|reflexivity]). }
  destruct L as (L1 & L2 & L3 & L4 & L5).
  destruct (place_exists _ _ _ 0 Hr1) as (fs & out & Hf & Ho).
  destruct (scan_ord unknown_attr defined program lib macro_of define no_other_text _ _ _ _ Ho st1 todo false p sn L1 Hf eq_refl L2 T2)
    as (k & st3 & todo3 & k3 & fin3 & S1 & S2 & S3 & S4 & S5 & S6 & S7 & S8 & _ & S10).
  exists fs, out, (k + 1), (finish_lookahead unknown_attr AOrd todo3 false p sn st3).
  split; [apply (proj2 Hf)|]. split; [exact Ho|]. split.
  { rewrite (steps_app _ _ _ _ _ _ _ _ _ _ S1). cbn [Look_Model.steps]. unfold Look_Model.step. rewrite S2. unfold step_look. now rewrite S3. }
  unfold finish_lookahead. pose proof (add_refs_spec unknown_attr todo3 st3) as A. cbv zeta in A. set (st4 := fold_left _ todo3 st3) in *. clearbody st4.
  destruct A as (A1 & A2 & A3 & A4 & A5 & A6 & A7 & A8). cbn [set_mode set_stop macros].
  set (st5 := match macros st4 with m :: rest => _ | [] => _ end).
  assert (F : st_mode st5 = MOrd /\ st_data st5 = st_data st /\ refs st5 = refs st4 /\
     macros st5 = match macros sta with m :: rest => mkM (m_body m) (pred (m_next m)) :: rest | [] => [] end).
  { subst st5. rewrite A2, S4, L3, T5. destruct (macros sta) as [|m rest] eqn:Ems; cbn; repeat split; congruence. }
  clearbody st5. destruct F as (F1 & F2 & F3 & F4). cbn [set_src st_mode st_data macros src frames pos eof line perform_jump refs].
  split; [exact F1|]. split; [exact F2|]. rewrite F3, F4.
  (* the place *)
  unfold begin_snapshot, create_snapshot in Eb. rewrite T5, T6, T7, T8, T9 in Eb.
  assert (Pl : match macros sta with m :: rest => mkM (m_body m) (pred (m_next m)) :: rest | [] => [] end = macros st /\
     n_frames sn = frames (src st) /\ snd p = pos (src st) /\ (next_plain st -> fst p = line (src st))).
  { destruct (macros sta) as [|m rest].
    - destruct Rb as (Rb1 & Rb2 & Rb3 & Rb4). split; [now rewrite Rb1|]. rewrite Rb2 in Eb.
      destruct (frames (src st)) as [|f l] eqn:Ef.
      + assert (frames (src sta) = []) as Z by (destruct (frames (src sta)); [reflexivity|discriminate]). rewrite Z in Eb. injection Eb as <- <-. cbn.
        destruct Rb4 as (Rb4 & _). split; [reflexivity|]. split; [exact Rb4|]. auto.
      + destruct Rb4 as (Rb5 & Rb6 & Rb7). destruct (frames (src sta)); [now destruct Rb7|]. injection Eb as <- <-. cbn. auto.
    - destruct Rb as (Rb1 & Rb2 & (Rb3 & Rb4 & _) & _). split; [exact Rb1|]. rewrite Rb2 in Eb. injection Eb as <- <-. cbn. auto. }
  destruct Pl as (P1 & P2 & P3 & P4). split; [exact P1|]. split; [exact P2|]. split; [exact P3|]. split; [now rewrite Ee|]. split; [exact P4|].
  (* the answers *)
  rewrite L5, T4 in S6, S8, S10. rewrite L4, T3 in S10.
  split.
  - intros m v Hv. now rewrite A8, (S6 _ _ Hv).
  - intros m Hin. destruct (T12 m Hin) as (Z1 & Z2). split; [exact Z1|]. split; [exact Z2|]. destruct (first m out) as [s0|] eqn:Ef.
    + intros Ha. rewrite A8, (S10 m s0 Hin Ef Z1 Ha). destruct (s_attr s0 (st_data st)); [reflexivity|congruence].
    + rewrite A8, (S8 m Ef), Z1. replace (existsb (Nat.eqb m) todo3) with true; [reflexivity|].
      symmetry. apply existsb_exists. exists m. split; [|apply Nat.eqb_refl]. apply S7. auto.
Qed.

(** Lookaheads for sequence symbols. *)
Theorem jump_known : forall d n st t p sn, steps n (initial d) = Next st -> lookup t (seqs st) = Some (p, sn) -> forall st0 : state, src st0 = perform_jump p sn (src st0) ->
  exists s o st1, read_text program lib st0 = inl (Some (s, o), st1) /\ s_lab s = LSeq t.
Proof.
  intros d n st t p sn Hr Hl st0 Hs. destruct (inv_reach unknown_attr defined program lib macro_of define _ _ _ Hr) as (_ & _ & Q & _).
  destruct (Q _ _ _ Hl) as (_ & P). destruct (ok_kept _ _ _ _ _ _ unnamed _ _ _ Hr) as (_ & _ & K & _). specialize (K _ _ _ Hl).
  unfold read_text. rewrite Hs. cbn [perform_jump frames]. unfold points in P. destruct (n_frames sn) as [|f l].
  - destruct P as (s & P1 & P2). unfold read_open. rewrite Hs. cbn. rewrite P1. eauto.
  - destruct P as (b & s & P1 & P2 & P3 & P4). unfold read_copy. rewrite P1.
    assert (Hlt : Z.to_nat (f_cur f + 1) < length b) by (apply nth_error_Some; congruence).
    replace (Z.eqb (f_cur f + 1) (Z.of_nat (length b))) with false by lia. replace (Z.ltb (f_cur f + 1) 0) with false by lia. rewrite P3. eauto.
Qed.

Theorem branch : forall d n st st1 t todo nest fin found bk sv,
  steps n (initial d) = Next st -> st_mode st = MOrd -> step st = Next st1 -> st_mode st1 = MLook (ASeq t) todo nest fin found bk sv ->
  exists fs out k st2,
    rest_of lib (frames (src st1)) = Some fs /\ reads lib 0 fs (skipn (pos (src st1)) program) out /\
    steps k st1 = Next st2 /\ st_mode st2 = MOrd /\ st_data st2 = st_data st /\ macros st2 = [] /\
    (forall m v, lookup m (refs st) = Some v -> lookup m (refs st2) = Some v) /\
    if existsb (labels t) out
    then exists s o st3, read_text program lib st2 = inl (Some (s, o), st3) /\ s_lab s = LSeq t
    else (exists l, log st2 = E047 t :: l) /\
         exists s o sta, read_any program lib st = inl (Some (s, o), sta) /\ same_place sta st2.
Proof.
  intros d n st st1 t todo nest fin found bk sv Hr Hm Hs Hl. pose proof (reach_step _ _ _ _ Hr Hs) as Hr1.
  pose proof (inv_reach unknown_attr defined program lib macro_of define _ _ _ Hr) as I.
  assert (O : ordinary st) by (unfold ordinary; now rewrite Hm).
  destruct (begins _ _ _ _ _ _ _ _ _ Hm Hs Hl) as (s & o & sta & Ra & He & B). cbv zeta in B.
  destruct (read_any_mode _ _ _ Ra) as (X1 & X2 & X3 & X4 & X5 & X6).
  destruct (read_any_inv _ _ define _ _ _ Ra I O) as (Ia & Ba). destruct (Ba ltac:(discriminate)) as (Ba1 & Ba2). clear Ba.
  destruct B as (B1 & stt & B2 & B3 & B4 & B5 & B6 & B7 & B8).
  assert (Bs : frames (src stt) = frames (src sta) /\ end_ (src stt) = end_ (src sta) /\ eline (src stt) = eline (src sta) /\ eof (src stt) = false).
  { rewrite B2. destruct o; cbn; auto. }
  destruct Bs as (Bs1 & Bs2 & Bs3 & Bs4).
  set (p := fst (end_snapshot stt)) in *. set (sn := snd (end_snapshot stt)) in *.
  assert (L : st_mode st1 = MLook (ASeq t) [] 0 false false p sn /\ eof (src st1) = false /\ macros st1 = [] /\ st_data st1 = st_data st /\ refs st1 = refs st).
  { rewrite B8. unfold start_lookahead. destruct (Nat.ltb _ _); cbn; repeat split; auto. }
  destruct L as (L1 & L2 & L3 & L4 & L5).
  destruct (place_exists _ _ _ 0 Hr1) as (fs & out & Hf & Ho).
  destruct (scan_seq unknown_attr defined program lib macro_of define no_other_text _ _ _ _ Ho st1 t p sn L1 Hf eq_refl L2 L3)
    as (k & st3 & k3 & fin3 & found3 & S1 & S2 & S3 & S4 & S5 & S6 & S7 & S8 & S9).
  exists fs, out, (k + 1), (finish_lookahead unknown_attr (ASeq t) [] found3 p sn st3).
  split; [apply (proj2 Hf)|]. split; [exact Ho|]. split.
  { rewrite (steps_app _ _ _ _ _ _ _ _ _ _ S1). cbn [Look_Model.steps]. unfold Look_Model.step. rewrite S2. unfold step_look. now rewrite S3. }
  unfold finish_lookahead. cbn [fold_left]. set (st4 := set_mode MOrd (set_stop (create_snapshot (src st3)) st3)).
  rewrite <- S8. rewrite L5 in S6. destruct found3.
  - specialize (S9 eq_refl). unfold jump_in_statements. cbn [st4 set_mode set_stop macros seqs]. rewrite S4.
    destruct (lookup t (seqs st3)) as [[q qn]|] eqn:El; [|congruence]. cbn.
    split; [reflexivity|]. split; [congruence|]. split; [exact S4|]. split; [exact S6|].
    assert (Hr3 : steps (S n + k) (initial d) = Next st3) by (rewrite (steps_app _ _ _ _ _ _ _ _ _ _ Hr1); exact S1).
    eapply jump_known; eauto.
  - cbn. split; [reflexivity|]. split; [congruence|]. split; [exact S4|]. split; [exact S6|]. split; [eauto|].
    exists s, o, sta. split; [exact Ra|]. unfold same_place. cbn. destruct Ba1 as (Ba3 & Ba4 & _). subst p sn. cbn.
    repeat split; congruence.
Qed.
End Whole.
