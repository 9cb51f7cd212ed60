(** Places: what is saved for a lookahead and for a sequence symbol is where the statement is. *)
From Coq Require Import List Arith ZArith Bool Lia.
From Coq Require Import ZifyBool ZifyNat.
From Verif Require Import Look_Model Look_Spec Look_Proof Look_Copy Look_Expand.
Import ListNotations.

Section Back.
Context {attr data : Type}.
Variable unknown_attr : attr.
Variable defined : data -> id -> bool.
Variable program : list (stmt attr data).
Variable lib : id -> option (list (stmt attr data)).
Variable macro_of : data -> id -> option (list (stmt attr data)).
Variable define : list (stmt attr data) -> data -> data.
Notation state := (state attr data).
Notation stmt := (stmt attr data).
Notation step := (step unknown_attr defined program lib macro_of define).
Notation steps := (steps unknown_attr defined program lib macro_of define).

(** The instructions of open code refer to no attributes. *)
Definition plain_instructions : Prop := forall s, In s program -> forall d r, s_wants1 s d r = [].
Notation G := plain_instructions.

Lemma starts_S : forall l i (s : stmt), nth_error l i = Some s -> starts l (S i) = starts l i + s_lines s + 1.
Proof.
  clear. induction l as [|a l IH]; intros [|i] s H; try discriminate.
  - injection H as ->. cbn. destruct l; cbn; lia.
  - cbn in H. specialize (IH i s H). cbn in *. lia.
Qed.

Definition src_ok (s : source) : Prop :=
  (G -> line s = starts program (pos s)) /\ (G -> 0 < end_ s -> eline s + 1 = starts program (end_ s)).
Definition snap_ok (n : snapshot) : Prop := G -> 0 < n_end n -> n_eline n + 1 = starts program (n_end n).
(** what is read first from a snapshot of the frames, or from the offset in open code *)
Definition points (t : id) (off : nat) (l : list frame) : Prop :=
  match l with
  | [] => exists s, nth_error program off = Some s /\ s_lab s = LSeq t
  | f :: _ => exists b s, lib (f_name f) = Some b /\ (0 <= f_cur f + 1)%Z /\ nth_error b (Z.to_nat (f_cur f + 1)) = Some s /\ s_lab s = LSeq t
  end.
Definition saved_ok (p : nat * nat) (n : snapshot) : Prop :=
  snap_ok n /\ (G -> fst p = starts program (snd p)) /\ (n_frames n <> [] -> p = (n_eline n + 1, n_end n) /\ 0 < n_end n).
Definition seqs_inv (st : state) : Prop :=
  forall t p n, lookup t (seqs st) = Some (p, n) -> saved_ok p n /\ points t (snd p) (n_frames n).
Definition behind (s : source) : Prop := pos s = end_ s /\ line s = eline s + 1 /\ 0 < end_ s.
Definition mode_inv (st : state) : Prop :=
  match st_mode st with
  | MLook a _ _ _ _ bk sv => behind (src st) /\ saved_ok bk sv /\ (macros st <> [] -> bk = (n_eline sv + 1, n_end sv) /\ 0 < n_end sv) /\
                             match a with ASeq _ => macros st = [] | AOrd => True end
  | _ => macros st <> [] \/ frames (src st) <> [] -> behind (src st) /\ eof (src st) = false
  end.
Definition inv (st : state) : Prop := src_ok (src st) /\ snap_ok (stop st) /\ seqs_inv st /\ mode_inv st.

(** A statement of the text was just read. *)
Definition just_read (s : stmt) (st : state) : Prop :=
  match frames (src st) with
  | [] => nth_error program (begin (src st)) = Some s /\ (G -> iline (src st) = starts program (begin (src st)))
  | f :: _ => exists b, lib (f_name f) = Some b /\ (0 <= f_cur f)%Z /\ nth_error b (Z.to_nat (f_cur f)) = Some s
  end.

Lemma register_inv : forall n s (st : state), src_ok (src st) -> behind (src st) -> seqs_inv st -> 
  (attr_lookahead st = true \/ macros st = [] -> just_read s st) -> s_lab s = LSeq n -> seqs_inv (register n st).
Proof.
  intros n s st Hs Hb H Hj Hl t p sn E. destruct (register_spec n st) as (_ & _ & _ & _ & _ & _ & [X|(Hm & _ & X)] & _); rewrite X in E; [now apply H|].
  cbn in E. destruct (Nat.eqb_spec t n) as [->|]; [|now apply H].
  assert (Fr := begin_frames (attr_lookahead st) st Hm).
  assert (E2 : begin_snapshot (attr_lookahead st) st = (p, sn)) by (destruct (begin_snapshot (attr_lookahead st) st); congruence).
  rewrite E2 in Fr. cbn in Fr. specialize (Hj Hm). unfold just_read in Hj.
  unfold begin_snapshot in E2. set (im := if attr_lookahead st then false else match macros st with [] => false | _ => true end) in *.
  assert (Ei : im = false) by (subst im; destruct Hm as [-> | ->]; [reflexivity|now destruct (attr_lookahead st)]). rewrite Ei in E2.
  destruct Hb as (B1 & B2 & B3). destruct Hs as (S1 & S2).
  unfold create_snapshot in E2. destruct (frames (src st)) as [|f l]; injection E2 as <- <-; cbn in *.
  - destruct Hj as (J1 & J2). split; [|exists s; auto]. split; [exact S2|]. split; [exact J2|]. intros Y; now destruct Y.
  - destruct Hj as (b & J1 & J2 & J3). split.
    + split; [exact S2|]. cbn. split; [auto|]. auto.
    + exists b, s. replace (f_cur f - 1 + 1)%Z with (f_cur f) by lia. auto.
Qed.

Lemma jump_inv : forall p n (st : state), saved_ok p n -> (macros st <> [] -> p = (n_eline n + 1, n_end n) /\ 0 < n_end n) ->
  snap_ok (stop st) -> seqs_inv st -> st_mode st = MOrd -> inv (set_src (perform_jump p n (src st)) st).
Proof.
  intros p n st (H1 & H2 & H3) H4 H5 H6 H7. unfold inv, mode_inv, src_ok, seqs_inv. cbn. rewrite H7.
  split; [split; [exact H2|exact H1]|]. split; [exact H5|]. split; [exact H6|].
  intros X. assert (Y : p = (n_eline n + 1, n_end n) /\ 0 < n_end n) by tauto. destruct Y as (-> & Y). unfold behind. cbn. auto.
Qed.

Lemma start_inv : forall a todo bk sv (st : state), src_ok (src st) -> behind (src st) -> snap_ok (stop st) -> seqs_inv st ->
  saved_ok bk sv -> (macros st <> [] -> bk = (n_eline sv + 1, n_end sv) /\ 0 < n_end sv) -> match a with ASeq _ => macros st = [] | AOrd => True end ->
  inv (start_lookahead a todo bk sv st).
Proof.
  intros a todo bk sv st Hs Hb Ht Hq Hv Hm Ha. unfold start_lookahead. destruct (Nat.ltb_spec (end_ (src st)) (n_end (stop st))) as [L|L];
    unfold inv, mode_inv; cbn.
  - split; [split; cbn; [intros g; apply Ht; [exact g|lia]|exact Ht]|]. split; [exact Ht|]. split; [exact Hq|].
    split; [unfold behind; cbn; repeat split; lia|]. auto.
  - auto 10.
Qed.

Lemma jump_in_inv : forall t (st : state), src_ok (src st) -> snap_ok (stop st) -> seqs_inv st -> (macros st <> [] -> mode_inv st) ->
  st_mode st = MOrd -> behind (src st) -> inv (jump_in_statements t st).
Proof.
  intros t st H1 H2 H3 H4 Hm Hb. unfold jump_in_statements. destruct (macros st) as [|m rest] eqn:Em.
  - destruct (lookup t (seqs st)) as [[p sn]|] eqn:E.
    + apply jump_inv; auto; [now apply (H3 t)|]. rewrite Em. intros Y; now destruct Y.
    + unfold end_snapshot. apply start_inv; auto; [|rewrite Em; intros Y; now destruct Y].
      destruct H1 as (S1 & S2). destruct Hb as (B1 & B2 & B3). split; [exact S2|]. cbn. split; auto.
  - assert (M : mode_inv st) by (apply H4; discriminate). unfold mode_inv in M. rewrite Hm, Em in M. 
    assert (K : forall l, inv (set_macros (mkM (m_body m) l :: rest) st)).
    { intros l. unfold inv, mode_inv, seqs_inv in *. cbn. rewrite Hm. do 3 (split; [assumption|]). intros _. apply M. left. discriminate. }
    destruct (label_index _ _); [apply K|]. unfold inv, mode_inv, seqs_inv in *. cbn. rewrite Hm, Em. auto.
Qed.

(** ** Reading *)
Lemma read_inv : forall st x st1, read_text program lib st = inl (x, st1) -> inv st -> (match st_mode st with MLook _ _ _ _ _ _ _ => True | _ => macros st = [] end) -> inv st1.
Proof.
  intros st x st1 H (H1 & H2 & H3 & H4) Hmac. pose proof (read_text_spec _ _ _ _ _ H) as (E1 & E2 & E3 & E4 & E5 & E6 & E7 & E).
  unfold inv, mode_inv, seqs_inv. rewrite E1, E3, E4, E5.
  assert (S : src_ok (src st1) /\ (behind (src st) -> behind (src st1)) /\ 
     (macros st <> [] \/ frames (src st1) <> [] -> macros st <> [] \/ frames (src st) <> []) /\
     (frames (src st) <> [] -> eof (src st) = false -> eof (src st1) = false) /\ (frames (src st) = [] -> x <> None -> behind (src st1) /\ eof (src st1) = false) /\ (frames (src st) = [] -> frames (src st1) = [])).
  { destruct (frames (src st)) as [|f l].
    - destruct E as (F & E). destruct x as [[s o]|].
      + destruct E as (_ & N & P1 & P2 & P3 & P4 & P5 & P6 & P7). destruct H1 as (S1 & S2).
        assert (X : G -> line (src st) + s_lines s + 1 = starts program (S (pos (src st)))).
        { intros g. rewrite (starts_S _ _ _ N), <- S1; auto. }
        unfold src_ok, behind. rewrite P1, P2, P4, P5, P7, F. repeat split; auto; try lia.
      + destruct E as (_ & _ & P1 & P2 & P3 & P4 & P5 & P6). unfold src_ok, behind in *. rewrite P1, P2, P4, P5, F. repeat split; try tauto; congruence.
    - destruct E as (b & _ & E & _). rewrite E. unfold src_ok, behind in *. cbn. repeat split; try tauto; try discriminate. now right. }
  destruct S as (S1 & S2 & S3 & S4 & S5 & S6). split; [exact S1|]. split; [exact H2|]. split; [exact H3|].
  assert (Ord : macros st = [] -> (macros st <> [] \/ frames (src st) <> [] -> behind (src st) /\ eof (src st) = false) ->
     (macros st <> [] \/ frames (src st1) <> [] -> behind (src st1) /\ eof (src st1) = false)).
  { intros Em A B. specialize (A (S3 B)). destruct A as (A1 & A2). split; [auto|].
    destruct (frames (src st)) as [|f l] eqn:Ef; [|apply S4; [discriminate|exact A2]].
    (* reading open code *)
    destruct x as [y|]; [now apply S5|]. exfalso. rewrite (S6 eq_refl), Em in B. tauto. }
  unfold mode_inv in H4. destruct (st_mode st); auto. destruct H4 as (A & B). auto.
Qed.
Definition ordinary (st : state) : Prop := match st_mode st with MLook _ _ _ _ _ _ _ => False | _ => True end.

Lemma read_any_inv : forall st x st1, read_any program lib st = inl (x, st1) -> inv st -> ordinary st ->
  inv st1 /\ (x <> None -> behind (src st1) /\ eof (src st1) = false).
Proof.
  intros st x st1 H I O. destruct (read_any_spec _ _ _ _ _ H) as [[Em R]|(m & rest & Em & E1 & E2 & E3 & E4 & E5 & E6 & E7 & R)].
  - split.
    + eapply read_inv; eauto. unfold ordinary in O. now destruct (st_mode st).
    + intros Hx. pose proof (read_text_spec _ _ _ _ _ R) as (_ & _ & _ & _ & _ & _ & _ & E). destruct I as (_ & _ & _ & I).
      unfold mode_inv in I. assert (I' : macros st <> [] \/ frames (src st) <> [] -> behind (src st) /\ eof (src st) = false) by (unfold ordinary in O; destruct (st_mode st); auto; contradiction).
      destruct (frames (src st)) as [|f l].
      * destruct E as (_ & E). destruct x as [[s o]|]; [|congruence]. destruct E as (_ & _ & P1 & P2 & P3 & P4 & P5 & P6 & P7).
        unfold behind. rewrite P1, P2, P4, P5, P7. repeat split; lia.
      * destruct E as (b & _ & E & _). rewrite E. apply I'. right. discriminate.
  - destruct I as (I1 & I2 & I3 & I4).
    assert (I' : behind (src st) /\ eof (src st) = false).
    { unfold mode_inv in I4. unfold ordinary in O. destruct (st_mode st); try contradiction; apply I4; left; rewrite Em; discriminate. }
    split; [|intros _; now rewrite E1]. unfold inv, mode_inv, seqs_inv. rewrite E1, E3, E4, E5. repeat (split; [assumption|]).
    unfold ordinary in O. destruct (st_mode st); auto; contradiction.
Qed.

Lemma read_any_just : forall st s o st1, read_any program lib st = inl (Some (s, o), st1) -> inv st -> macros st1 = [] ->
  just_read s (if o then set_src (set_iline (line (src st)) (src st1)) st1 else st1).
Proof.
  intros st s o st1 H I Em. destruct (read_any_spec _ _ _ _ _ H) as [[_ R]|(m & rest & _ & _ & _ & _ & _ & _ & _ & _ & R)]; [|destruct R as (_ & R & _); congruence].
  pose proof (read_text_spec _ _ _ _ _ R) as (_ & _ & _ & _ & _ & _ & _ & E). unfold just_read. destruct I as ((I1 & _) & _).
  destruct (frames (src st)) as [|f l].
  - destruct E as (F & -> & N & P1 & P2 & P3 & _). cbn. rewrite F, P3. auto.
  - destruct E as (b & Hb & _ & -> & F & Hc & N). rewrite F. cbn. eauto.
Qed.
Lemma read_text_just : forall st s o st1, read_text program lib st = inl (Some (s, o), st1) -> inv st ->
  just_read s (if o then set_src (set_iline (line (src st)) (src st1)) st1 else st1).
Proof.
  intros st s o st1 R I. 
  pose proof (read_text_spec _ _ _ _ _ R) as (_ & _ & _ & _ & _ & _ & _ & E). unfold just_read. destruct I as ((I1 & _) & _).
  destruct (frames (src st)) as [|f l].
  - destruct E as (F & -> & N & P1 & P2 & P3 & _). cbn. rewrite F, P3. auto.
  - destruct E as (b & Hb & _ & -> & F & Hc & N). rewrite F. cbn. eauto.
Qed.
Lemma iline_inv : forall n (st : state), inv st -> inv (set_src (set_iline n (src st)) st).
Proof. intros n st H. unfold inv, mode_inv, src_ok, seqs_inv, behind in *. cbn. exact H. Qed.

Lemma trigger_inv : forall s l (st : state), inv st -> behind (src st) ->
  (macros st = [] -> frames (src st) = [] -> just_read s st) -> inv (trigger l st).
Proof.
  intros s l st (H1 & H2 & H3 & H4) Hb Hj. unfold trigger. destruct (begin_snapshot false st) as [p sn] eqn:E.
  assert (X : saved_ok p sn /\ (macros st <> [] -> p = (n_eline sn + 1, n_end sn) /\ 0 < n_end sn)).
  { unfold begin_snapshot, create_snapshot in E. destruct H1 as (S1 & S2). destruct Hb as (B1 & B2 & B3).
    assert (Sv : snap_ok sn) by (destruct (macros st); injection E as _ <-; exact S2).
    destruct (macros st) as [|m rest].
    - split; [|intros X; now destruct X]. split; [exact Sv|]. unfold just_read in Hj. destruct (frames (src st)) as [|f fl]; injection E as <- <-; cbn.
      + split; [now apply Hj|]. intros X; now destruct X.
      + split; [auto|]. auto.
    - injection E as <- <-. split; [|intros _; cbn; auto]. split; [exact Sv|]. cbn. split; auto. }
  destruct X as (X1 & X2). pose proof (start_inv AOrd l p sn st H1 Hb H2 H3 X1 X2 Logic.I) as K. unfold inv, mode_inv, seqs_inv in *. cbn. exact K.
Qed.

Lemma copy_inv : forall loud c st st1, process_copy lib loud c st = inl st1 -> inv st -> behind (src st) -> (ordinary st -> eof (src st) = false) -> inv st1.
Proof.
  intros loud c st st1 H (H1 & H2 & H3 & H4) Hb He. destruct (process_copy_spec _ _ _ _ _ H) as [(n & b & _ & _ & _ & ->)|(e & -> & _)].
  - unfold inv, mode_inv, src_ok, seqs_inv, behind, ordinary in *. cbn. repeat (split; [assumption|]). destruct (st_mode st); auto.
  - unfold report. destruct loud; unfold inv, mode_inv, seqs_inv in *; cbn; auto.
Qed.

Lemma label_inv : forall s (st : state), inv st -> behind (src st) -> attr_lookahead st = false -> (macros st = [] -> just_read s st) -> inv (register_label s st).
Proof.
  intros s st (H1 & H2 & H3 & H4) Hb Ha Hj. unfold register_label. destruct (s_lab s) as [|n|n] eqn:El; try (unfold inv; auto; fail).
  pose proof (register_inv n s st H1 Hb H3) as K. destruct (register_spec n st) as (E1 & E2 & E3 & E4 & E5 & _).
  unfold inv, mode_inv. rewrite E1, E2, E4, E5. repeat (split; [auto; fail|]). split; [|exact H4]. apply K; auto. intros [X|X]; [congruence|auto].
Qed.

Lemma finish_inv : forall a todo nest fin found bk sv (st : state), inv st -> st_mode st = MLook a todo nest fin found bk sv ->
  inv (finish_lookahead unknown_attr a todo found bk sv st).
Proof.
  intros a todo nest fin found bk sv st (H1 & H2 & H3 & H4) Hm. unfold mode_inv in H4. rewrite Hm in H4. destruct H4 as (Hb & Hv & Hk & Ha).
  unfold finish_lookahead. pose proof (add_refs_spec unknown_attr todo st) as A. cbv zeta in A. set (st1 := fold_left _ todo st) in *.
  destruct A as (A1 & A2 & A3 & A4 & _). clearbody st1.
  set (st2 := set_mode MOrd (set_stop (create_snapshot (src st1)) st1)).
  assert (B1 : src st2 = src st) by exact A1. assert (B2 : macros st2 = macros st) by exact A2. assert (B3 : seqs_inv st2) by (unfold seqs_inv; cbn; rewrite A3; exact H3).
  assert (B4 : snap_ok (stop st2)) by (cbn; rewrite A1; destruct H1 as (_ & H1); exact H1).
  assert (B5 : st_mode st2 = MOrd) by reflexivity. clearbody st2. destruct a as [|t].
  - set (st3 := match macros st2 with m :: rest => _ | [] => st2 end).
    assert (C : snap_ok (stop st3) /\ seqs_inv st3 /\ st_mode st3 = MOrd /\ (macros st3 <> [] -> macros st <> [])).
    { subst st3. destruct (macros st2) as [|m rest] eqn:Em; [rewrite <- B2, Em; auto|]. do 3 (split; [assumption|]). intros _. rewrite <- B2. discriminate. }
    destruct C as (C1 & C2 & C3 & C4). apply jump_inv; auto.
  - destruct found.
    + apply jump_in_inv; auto; rewrite ?B1, ?B2; auto. rewrite Ha. intros X; now destruct X.
    + pose proof (jump_inv bk sv st2 Hv) as K. unfold inv, mode_inv, seqs_inv in *. cbn in *. apply K; auto. now rewrite B2.
Qed.
Lemma find_inv : forall s (st : state), inv st -> just_read s st -> inv (find_label s st).
Proof.
  intros s st (H1 & H2 & H3 & H4) Hj. unfold find_label. destruct (st_mode st) as [| |a todo nest fin found bk sv] eqn:Em; try (unfold inv; auto; fail).
  pose proof H4 as Hb. unfold mode_inv in Hb. rewrite Em in Hb. destruct Hb as (Hb & Hr).
  destruct (s_lab s) as [|n|n] eqn:El; [unfold inv; auto| |].
  - set (st' := match s_attr s (st_data st) with Some v => add_ref n v st | None => st end).
    assert (E : src st' = src st /\ macros st' = macros st /\ seqs st' = seqs st /\ stop st' = stop st).
    { subst st'. destruct (s_attr s (st_data st)) as [v|]; [|auto]. destruct (add_ref_spec n v st) as (A1 & A2 & A3 & A4 & _). auto. }
    destruct E as (E1 & E2 & E3 & E4). unfold inv, mode_inv, seqs_inv. cbn. rewrite E1, E2, E3, E4. auto.
  - pose proof (register_inv n s st H1 Hb H3 (fun _ => Hj) El) as K. destruct (register_spec n st) as (E1 & E2 & E3 & E4 & E5 & _).
    assert (KI : inv (register n st)) by (unfold inv, mode_inv; rewrite E1, E2, E4, E5; unfold mode_inv in H4; auto).
    destruct a as [|t]; [exact KI|]. destruct (Nat.eqb n t); [|exact KI]. unfold inv, mode_inv, seqs_inv in *. cbn. rewrite E5, Em in KI. exact KI.
Qed.

Theorem inv_step : forall st st1, step st = Next st1 -> inv st -> inv st1.
Proof.
  intros st st1 H I. unfold Look_Model.step in H. destruct (st_mode st) as [|nest p body|a todo nest fin found bk sv] eqn:Em.
  - assert (O : ordinary st) by (unfold ordinary; now rewrite Em).
    unfold step_ordinary in H. destruct (at_end st); [discriminate|].
    destruct (read_any program lib st) as [[[[s o]|] st2]|e] eqn:Er.
    + destruct (read_any_inv _ _ _ Er I O) as (I2 & B2). destruct (B2 ltac:(discriminate)) as (B3 & B4). clear B2.
      pose proof (read_any_just _ _ _ _ Er I) as J.
      assert (M2 : st_mode st2 = MOrd).
      { destruct (read_any_spec _ _ _ _ _ Er) as [[_ R]|(m & rest & _ & _ & _ & _ & _ & E & _)]; [|congruence].
        apply read_text_spec in R. destruct R as (_ & _ & _ & _ & R & _). congruence. }
      destruct (wanted defined (s_wants1 s) st2) as [|n l] eqn:W1.
      * set (st3 := if o then set_src (set_iline (line (src st)) (src st2)) st2 else st2) in *.
        assert (I3 : inv st3) by (subst st3; destruct o; [now apply iline_inv|exact I2]).
        assert (Q3 : behind (src st3) /\ eof (src st3) = false /\ st_mode st3 = MOrd /\ macros st3 = macros st2) by (subst st3; destruct o; auto).
        destruct Q3 as (Q1 & Q2 & Q3 & Q4). rewrite <- Q4 in J. clearbody st3.
        destruct (wanted defined (s_wants2 s) st3) as [|n l] eqn:W2; [|injection H as <-; eapply trigger_inv; eauto].
        unfold ordinary_statement in H.
        assert (I4 : inv (tell (Did s) st3)) by (unfold inv, mode_inv, seqs_inv in *; exact I3).
        assert (I5 : inv (register_label s (tell (Did s) st3))) by (apply label_inv; auto; unfold attr_lookahead; cbn; now rewrite Q3).
        destruct (register_label_mode s (tell (Did s) st3)) as (R1 & R2 & R3 & _). cbn in R1, R2, R3.
        set (st4 := tell (Did s) st3) in *. set (st5 := register_label s st4) in *. clearbody st5.
        assert (B5 : behind (src st5)) by now rewrite R2. assert (C5 : eof (src st5) = false) by now rewrite R2.
        destruct (s_kind s) as [c| | |f|n|f].
        -- destruct c as [n| | |]; try (injection H as <-; unfold inv, mode_inv, seqs_inv in *; exact I5);
             (destruct (process_copy _ _ _ _) as [st6|e] eqn:E; [|apply process_copy_crash in E; destruct E; discriminate]);
             injection H as <-; eapply copy_inv; eauto.
        -- injection H as <-. unfold inv, mode_inv, seqs_inv in *. cbn. rewrite R1, Q3 in I5. exact I5.
        -- injection H as <-. exact I4.
        -- destruct (f _); injection H as <-; [|exact I5]. destruct I5 as (K1 & K2 & K3 & K4). apply jump_in_inv; auto. congruence.
        -- destruct (macro_of (st_data st4) n) as [b|]; injection H as <-; [|exact I4].
           destruct I4 as (K1 & K2 & K3 & _). unfold inv, mode_inv, seqs_inv in *. cbn. rewrite Q3. do 3 (split; [assumption|]). auto.
        -- injection H as <-. destruct (s_reg s); unfold inv, mode_inv, seqs_inv in *; [exact I5|exact I4].
      * injection H as <-. apply trigger_inv with (s := s); auto. intros Hm Hf. specialize (J Hm).
        destruct o; [|exact J].
        unfold just_read in *. cbn in J. rewrite Hf in *. destruct J as (J1 & J2). split; [exact J1|]. intros g. exfalso.
        apply nth_error_In in J1. unfold wanted in W1. rewrite (g s J1) in W1. discriminate.
    + injection H as <-. now apply (read_any_inv _ _ _ Er I O).
    + unfold read_any, read_text, read_copy in Er. exfalso. destruct (macros st); [|destruct (nth_error _ _); discriminate].
      destruct (frames (src st)) as [|f l]; [discriminate|]. destruct (lib _); [|injection Er as <-; discriminate].
      destruct (Z.eqb _ _); [discriminate|]. destruct (Z.ltb _ _); [injection Er as <-; discriminate|]. destruct (nth_error _ _); [|injection Er as <-]; discriminate.
  - assert (O : ordinary st) by (unfold ordinary; now rewrite Em).
    unfold step_definition in H. destruct (at_end st).
    { injection H as <-. unfold inv, mode_inv, seqs_inv in *. cbn. rewrite Em in I. exact I. }
    destruct (read_any program lib st) as [[[[s o]|] st2]|e] eqn:Er.
    + destruct (read_any_inv _ _ _ Er I O) as (I2 & B2). destruct (B2 ltac:(discriminate)) as (B3 & B4). clear B2.
      assert (M2 : st_mode st2 = st_mode st).
      { destruct (read_any_spec _ _ _ _ _ Er) as [[_ R]|(m & rest & _ & _ & _ & _ & _ & E & _)]; [|congruence].
        apply read_text_spec in R. destruct R as (_ & _ & _ & _ & R & _). congruence. }
      set (st3 := if o then set_src (set_iline (line (src st)) (src st2)) st2 else st2) in *.
      assert (I3 : inv st3) by (subst st3; destruct o; [now apply iline_inv|exact I2]).
      assert (Q3 : behind (src st3) /\ eof (src st3) = false /\ st_mode st3 = st_mode st) by (subst st3; destruct o; auto).
      destruct Q3 as (Q1 & Q2 & Q3). clearbody st3. rewrite Em in Q3.
      assert (S : forall x, inv (set_mode (MDef x false (s :: body)) st3)).
      { intros x. unfold inv, mode_inv, seqs_inv in *. cbn. rewrite Q3 in I3. exact I3. }
      assert (F : forall l, inv (finish_definition define l st3)).
      { intros l. unfold inv, mode_inv, seqs_inv in *. cbn. rewrite Q3 in I3. exact I3. }
      destruct p; [injection H as <-; apply S|].
      destruct (s_kind s) as [c| | |f|n|f]; try (injection H as <-; apply S).
      * destruct (process_copy _ _ _ _) as [st4|e] eqn:E; [|apply process_copy_crash in E; destruct E as [_ ->]; discriminate].
        injection H as <-. eapply copy_inv; eauto.
      * destruct nest as [|[|k]]; injection H as <-; auto.
    + injection H as <-. now apply (read_any_inv _ _ _ Er I O).
    + unfold read_any, read_text, read_copy in Er. exfalso. destruct (macros st); [|destruct (nth_error _ _); discriminate].
      destruct (frames (src st)) as [|f l]; [discriminate|]. destruct (lib _); [|injection Er as <-; discriminate].
      destruct (Z.eqb _ _); [discriminate|]. destruct (Z.ltb _ _); [injection Er as <-; discriminate|]. destruct (nth_error _ _); [|injection Er as <-]; discriminate.
  - unfold step_look in H. destruct (look_end st || fin); [injection H as <-; eapply finish_inv; eauto|].
    destruct (read_text program lib st) as [[[[s o]|] st2]|e] eqn:Er.
    + assert (I2 : inv st2) by (eapply read_inv; eauto; now rewrite Em).
      assert (M2 : st_mode st2 = st_mode st) by (apply read_text_spec in Er; now destruct Er as (_ & _ & _ & _ & R & _)).
      pose proof (read_text_just _ _ _ _ Er I) as J.
      set (st3 := if o then set_src (set_iline (line (src st)) (src st2)) st2 else st2) in *.
      assert (I3 : inv st3) by (subst st3; destruct o; [now apply iline_inv|exact I2]).
      assert (M3 : st_mode st3 = MLook a todo nest fin found bk sv) by (rewrite <- Em, <- M2; subst st3; now destruct o).
      clearbody st3. unfold look_statement in H.
      set (st4 := if Nat.eqb nest 0 then find_label s st3 else st3) in *.
      assert (I4 : inv st4) by (subst st4; destruct (Nat.eqb nest 0); [now apply find_inv|exact I3]).
      assert (M4 : exists a' t' n' f' g' b' v', st_mode st4 = MLook a' t' n' f' g' b' v').
      { subst st4. destruct (Nat.eqb nest 0); [|eauto 10]. destruct (find_label_mode s st3 _ _ _ _ _ _ _ M3) as (_ & _ & _ & _ & _ & x & y & z & E). eauto 10. }
      destruct M4 as (a' & t' & n' & f' & g' & b' & v' & M4). clearbody st4.
      assert (N : forall f, inv (set_nest f st4)).
      { intros f. unfold set_nest. rewrite M4. unfold inv, mode_inv, seqs_inv in *. cbn. rewrite M4 in I4. exact I4. }
      assert (C : forall c st5, process_copy lib false c st4 = inl st5 -> inv st5).
      { intros c st5 E. eapply copy_inv; eauto; [|unfold ordinary; now rewrite M4].
        destruct I4 as (_ & _ & _ & I4). unfold mode_inv in I4. rewrite M4 in I4. tauto. }
      destruct (seen_kind o s) as [c| | |f|n|f]; try (injection H as <-; auto; fail).
      destruct c as [n| | |]; try (injection H as <-; exact I4);
        (destruct (Nat.eqb nest 0); [|injection H as <-; exact I4]);
        (destruct (process_copy _ _ _ _) as [st5|e] eqn:E; [injection H as <-; eapply C; eauto|
           apply process_copy_crash in E; destruct E as [_ ->]; discriminate]).
    + injection H as <-. eapply read_inv; eauto. now rewrite Em.
    + unfold read_text, read_copy in Er. exfalso.
      destruct (frames (src st)) as [|f l]; [discriminate|]. destruct (lib _); [|injection Er as <-; discriminate].
      destruct (Z.eqb _ _); [discriminate|]. destruct (Z.ltb _ _); [injection Er as <-; discriminate|]. destruct (nth_error _ _); [|injection Er as <-]; discriminate.
Qed.

Lemma inv_reach : forall d n st, steps n (initial d) = Next st -> inv st.
Proof.
  intros d n. induction n as [|n IH]; intros st H.
  - injection H as <-. unfold inv, mode_inv, src_ok, snap_ok, seqs_inv, initial. cbn.
    split; [split; [intros _; now destruct program|intros; lia]|]. split; [intros; lia|]. split; [discriminate|]. intros [X|X]; now destruct X.
  - rewrite steps_snoc in H. destruct (steps n (initial d)) as [st1| | | |] eqn:E; try discriminate.
    eapply inv_step; eauto.
Qed.
End Back.
