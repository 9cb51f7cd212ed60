(** Invariants of the machine of Look_Model: the COPY members being read. *)
From Coq Require Import List Arith ZArith Bool Lia.
From Coq Require Import ZifyBool ZifyNat.
From Verif Require Import Look_Model Look_Spec.
Import ListNotations.

Section Proof.
Context {attr data : Type}.
Variable unknown_attr : attr.
Variable defined : data -> id -> bool.
Variable program : list (stmt attr data).
Variable lib : id -> option (list (stmt attr data)).
Variable macro_of : data -> id -> option (list (stmt attr data)).
Variable define : list (stmt attr data) -> data -> data.
Notation state := (state attr data).
Notation stmt := (stmt attr data).
Notation step := (step unknown_attr defined program lib macro_of define).
Notation steps := (steps unknown_attr defined program lib macro_of define).

Definition top_read (l : list frame) : Prop := match l with [] => True | f :: _ => (0 <= f_cur f)%Z end.

(** A statement read from the text, and whether it came from open code. *)
Definition in_text (s : stmt) (open : bool) : Prop :=
  if open then In s program else exists n b, lib n = Some b /\ In s b.

Lemma read_text_spec : forall st x st1, read_text program lib st = inl (x, st1) ->
  macros st1 = macros st /\ refs st1 = refs st /\ seqs st1 = seqs st /\ stop st1 = stop st /\ st_mode st1 = st_mode st /\
  st_data st1 = st_data st /\ log st1 = log st /\
  match frames (src st) with
  | [] => frames (src st1) = [] /\
          match x with
          | None => nth_error program (pos (src st)) = None /\ eof (src st1) = true /\ pos (src st1) = pos (src st) /\
                    line (src st1) = line (src st) /\ begin (src st1) = begin (src st) /\ end_ (src st1) = end_ (src st) /\
                    eline (src st1) = eline (src st) /\ iline (src st1) = iline (src st)
          | Some (s, o) => o = true /\ nth_error program (pos (src st)) = Some s /\ pos (src st1) = S (pos (src st)) /\
                    end_ (src st1) = S (pos (src st)) /\ begin (src st1) = pos (src st) /\
                    line (src st1) = line (src st) + s_lines s + 1 /\ eline (src st1) = line (src st) + s_lines s /\
                    iline (src st1) = iline (src st) /\ eof (src st1) = false
          end
  | f :: l => exists b, lib (f_name f) = Some b /\
          src st1 = set_frames (frames (src st1)) (src st) /\
          match x with
          | None => frames (src st1) = l /\ (f_cur f + 1 = Z.of_nat (length b))%Z
          | Some (s, o) => o = false /\ frames (src st1) = mkF (f_name f) (f_cur f + 1) :: l /\ (0 <= f_cur f + 1)%Z /\
                           nth_error b (Z.to_nat (f_cur f + 1)) = Some s
          end
  end.
Proof.
  clear unknown_attr defined macro_of define.
  intros st x st1 H. unfold read_text in H. destruct (frames (src st)) as [|f l] eqn:E.
  - injection H as H. unfold read_open in H. destruct (nth_error program (pos (src st))) as [s|] eqn:En; injection H as <- <-; cbn;
      repeat split; auto.
  - unfold read_copy in H. destruct (lib (f_name f)) as [b|] eqn:Eb; [|discriminate].
    destruct (Z.eqb_spec (f_cur f + 1) (Z.of_nat (length b))).
    + injection H as <- <-. cbn. repeat (split; [reflexivity|]). exists b. now repeat split.
    + destruct (Z.ltb_spec (f_cur f + 1) 0); [discriminate|].
      destruct (nth_error b _) as [s|] eqn:En; [|discriminate]. injection H as <- <-. cbn.
      repeat (split; [reflexivity|]). exists b. repeat split; auto.
Qed.

Lemma read_text_in : forall st s o st1, read_text program lib st = inl (Some (s, o), st1) -> in_text s o.
Proof.
  intros st s o st1 H. pose proof (read_text_spec _ _ _ H) as R. destruct R as (_ & _ & _ & _ & _ & _ & _ & R).
  destruct (frames (src st)) as [|f l].
  - destruct R as (_ & -> & R & _). now apply nth_error_In in R.
  - destruct R as (b & Hb & _ & -> & _ & _ & R). exists (f_name f), b. split; [exact Hb|]. now apply nth_error_In in R.
Qed.
Lemma read_text_top : forall st s o st1, read_text program lib st = inl (Some (s, o), st1) -> top_read (frames (src st1)).
Proof.
  intros st s o st1 H. pose proof (read_text_spec _ _ _ H) as R. destruct R as (_ & _ & _ & _ & _ & _ & _ & R).
  destruct (frames (src st)) as [|f l].
  - destruct R as (R & _). now rewrite R.
  - destruct R as (b & _ & _ & _ & R & Hz & _). now rewrite R.
Qed.

Lemma read_any_spec : forall st x st1, read_any program lib st = inl (x, st1) ->
  (macros st = [] /\ read_text program lib st = inl (x, st1)) \/
  (exists m rest, macros st = m :: rest /\ src st1 = src st /\ refs st1 = refs st /\ seqs st1 = seqs st /\ stop st1 = stop st /\
     st_mode st1 = st_mode st /\ st_data st1 = st_data st /\ log st1 = log st /\
     match x with
     | None => macros st1 = rest
     | Some (s, o) => o = false /\ macros st1 = mkM (m_body m) (S (m_next m)) :: rest /\ nth_error (m_body m) (m_next m) = Some s
     end).
Proof.
  clear unknown_attr defined macro_of define.
  intros st x st1 H. unfold read_any in H. destruct (macros st) as [|m rest] eqn:E; [left; now split|right].
  exists m, rest. destruct (nth_error (m_body m) (m_next m)) as [s|] eqn:En; injection H as <- <-; cbn; now repeat split.
Qed.

Lemma process_copy_spec : forall loud o st st1, process_copy lib loud o st = inl st1 ->
  (exists n b, o = CName n /\ lib n = Some b /\ existsb (fun f => Nat.eqb (f_name f) n) (frames (src st)) = false /\
     st1 = set_src (set_frames (mkF n (-1) :: frames (src st)) (src st)) st) \/
  (exists e, st1 = report loud e st /\ (e = E058 \/ e = E062)).
Proof.
  clear unknown_attr defined program macro_of define.
  intros loud o st st1 H. unfold process_copy in H. destruct o as [n| | |]; try discriminate.
  - destruct (lib n) as [b|] eqn:E.
    + destruct (existsb _ _) eqn:Ex; injection H as <-.
      * right. exists E062. auto.
      * left. exists n, b. auto.
    + injection H as <-. right. exists E058. auto.
  - injection H as <-. right. exists E058. auto.
  - injection H as <-. right. exists E058. auto.
Qed.
Lemma process_copy_crash : forall loud o st e, process_copy lib loud o st = inr e -> o = COther /\ e = Null_operand.
Proof.
  clear unknown_attr defined program macro_of define.
  intros loud o st e H. unfold process_copy in H. destruct o as [n| | |]; try discriminate.
  - destruct (lib n); [destruct (existsb _ _)|]; discriminate.
  - injection H as <-. auto.
Qed.

Lemma register_spec : forall n (st : state),
  src (register n st) = src st /\ macros (register n st) = macros st /\ refs (register n st) = refs st /\
  stop (register n st) = stop st /\ st_mode (register n st) = st_mode st /\ st_data (register n st) = st_data st /\
  (seqs (register n st) = seqs st \/
   ((attr_lookahead st = true \/ macros st = []) /\ lookup n (seqs st) = None /\
    seqs (register n st) = (n, begin_snapshot (attr_lookahead st) st) :: seqs st)) /\
  (log (register n st) = log st \/ log (register n st) = E045 n :: log st).
Proof.
  clear unknown_attr defined program lib macro_of define.
  intros n st. unfold register. destruct (negb (attr_lookahead st) && _) eqn:Em; [cbn; tauto|].
  destruct (begin_snapshot (attr_lookahead st) st) as [p sn] eqn:Eb.
  destruct (lookup n (seqs st)) as [[p' old]|] eqn:El.
  - destruct (snapshot_eqb old sn); cbn; tauto.
  - cbn. repeat (split; [reflexivity|]). split; [|tauto]. right. split; [|tauto].
    destruct (attr_lookahead st); [tauto|]. destruct (macros st); [tauto|discriminate].
Qed.

Lemma begin_frames : forall b (st : state), (b = true \/ macros st = []) ->
  n_frames (snd (begin_snapshot b st)) = back_one (frames (src st)).
Proof.
  clear unknown_attr defined program lib macro_of define.
  intros b st [->|E]; unfold begin_snapshot; [reflexivity|]. rewrite E. destruct b; reflexivity.
Qed.

(** Lists of frames with a property that reading, entering and leaving members and going back keep. *)
Section Keep.
Variable strict : bool.
Variable Q : list frame -> Prop.
Hypothesis q_nil : Q [].
Hypothesis q_pop : forall f l, Q (f :: l) -> Q l.
Hypothesis q_read : forall f l b s, Q (f :: l) -> lib (f_name f) = Some b -> (0 <= f_cur f + 1)%Z ->
  nth_error b (Z.to_nat (f_cur f + 1)) = Some s -> Q (mkF (f_name f) (f_cur f + 1) :: l).
Hypothesis q_push : forall n l b, Q l -> lib n = Some b -> existsb (fun f => Nat.eqb (f_name f) n) l = false -> Q (mkF n (-1) :: l).
Hypothesis q_back : forall l, Q l -> (strict = true -> top_read l) -> Q (back_one l).
(** a lookahead never ends at a COPY *)
Hypothesis unnamed : strict = true -> forall s o, in_text s o ->
  match seen_kind o s with KCopy _ => match s_lab s with LNone => True | _ => False end | _ => True end.

Definition mode_ok (st : state) : Prop :=
  match st_mode st with
  | MLook _ _ _ fin _ _ sv => Q (n_frames sv) /\ (strict = true -> fin = true -> top_read (frames (src st)))
  | _ => True
  end.
Definition kept (st : state) : Prop :=
  Q (frames (src st)) /\ Q (n_frames (stop st)) /\ (forall n p sn, lookup n (seqs st) = Some (p, sn) -> Q (n_frames sn)) /\
  mode_ok st.

Definition seqs_ok (st : state) : Prop := forall n p sn, lookup n (seqs st) = Some (p, sn) -> Q (n_frames sn).

Lemma register_seqs : forall n st, seqs_ok st -> Q (frames (src st)) -> (strict = true -> attr_lookahead st = true \/ macros st = [] -> top_read (frames (src st))) ->
  seqs_ok (register n st).
Proof.
  intros n st H HQ Ht m p sn. destruct (register_spec n st) as (_ & _ & _ & _ & _ & _ & [E|(Hm & _ & E)] & _); rewrite E.
  - apply H.
  - cbn [lookup]. destruct (Nat.eqb m n); [|apply H]. intros E1.
    assert (E3 : begin_snapshot (attr_lookahead st) st = (p, sn)) by congruence.
    assert (E2 : sn = snd (begin_snapshot (attr_lookahead st) st)) by now rewrite E3.
    rewrite E2, begin_frames by exact Hm. apply q_back; auto.
Qed.

Lemma kept_start : forall a todo bk sv st, kept st -> Q (n_frames sv) -> (a = AOrd -> todo <> []) -> kept (start_lookahead a todo bk sv st).
Proof.
  intros a todo bk sv st (H1 & H2 & H3 & _) Hs Ha. unfold start_lookahead.
  assert (Hf : match a with AOrd => no_todo todo | ASeq _ => false end = false).
  { destruct a; [|reflexivity]. destruct todo; [now destruct Ha|reflexivity]. }
  rewrite Hf. destruct (Nat.ltb _ _); cbn; unfold kept; cbn; unfold mode_ok; cbn; repeat split; auto; discriminate.
Qed.

Lemma kept_jump : forall t st, kept st -> st_mode st = MOrd -> kept (jump_in_statements t st).
Proof.
  intros t st H Hm. unfold jump_in_statements. destruct (macros st) as [|m rest].
  - destruct (lookup t (seqs st)) as [[p sn]|] eqn:E.
    + destruct H as (H1 & H2 & H3 & H4). unfold kept, mode_ok in *. cbn. rewrite Hm. repeat split; auto. eapply H3; eauto.
    + unfold end_snapshot. apply kept_start; [exact H|apply H|discriminate].
  - destruct (label_index (m_body m) t); unfold kept, mode_ok in *; cbn; now rewrite Hm in *.
Qed.

Lemma add_ref_spec : forall n a (st : state), src (add_ref n a st) = src st /\ macros (add_ref n a st) = macros st /\
  seqs (add_ref n a st) = seqs st /\ stop (add_ref n a st) = stop st /\ st_mode (add_ref n a st) = st_mode st /\
  st_data (add_ref n a st) = st_data st /\ log (add_ref n a st) = log st /\
  (forall m, lookup m (refs (add_ref n a st)) =
     match lookup m (refs st) with Some v => Some v | None => if Nat.eqb m n then Some a else None end).
Proof.
  intros n a st. unfold add_ref. destruct (lookup n (refs st)) eqn:E.
  - repeat split; auto. intros m. destruct (lookup m (refs st)) eqn:E2; [reflexivity|].
    destruct (Nat.eqb_spec m n); [subst; congruence|reflexivity].
  - cbn. repeat split; auto. intros m. destruct (Nat.eqb_spec m n) as [->|]; [now rewrite E|]. now destruct (lookup m (refs st)).
Qed.
Lemma add_refs_spec : forall a l (st : state), let st1 := fold_left (fun x n => add_ref n a x) l st in
  src st1 = src st /\ macros st1 = macros st /\ seqs st1 = seqs st /\ stop st1 = stop st /\ st_mode st1 = st_mode st /\
  st_data st1 = st_data st /\ log st1 = log st /\
  (forall m, lookup m (refs st1) = match lookup m (refs st) with Some v => Some v | None => if existsb (Nat.eqb m) l then Some a else None end).
Proof.
  intros a l. induction l as [|n l IH]; intros st; cbn [fold_left].
  - cbv zeta. repeat split; auto. intros m. cbn. now destruct (lookup m (refs st)).
  - specialize (IH (add_ref n a st)). cbv zeta in *. destruct (add_ref_spec n a st) as (A1 & A2 & A3 & A4 & A5 & A6 & A7 & A8).
    destruct IH as (B1 & B2 & B3 & B4 & B5 & B6 & B7 & B8).
    rewrite B1, B2, B3, B4, B5, B6, B7, A1, A2, A3, A4, A5, A6, A7. repeat (split; [reflexivity|]).
    intros m. rewrite B8, A8. destruct (lookup m (refs st)); [reflexivity|]. cbn [existsb].
    destruct (Nat.eqb m n); reflexivity.
Qed.

Lemma kept_finish : forall a todo nest fin found bk sv st, kept st -> st_mode st = MLook a todo nest fin found bk sv ->
  (strict = true -> top_read (frames (src st))) -> kept (finish_lookahead unknown_attr a todo found bk sv st).
Proof.
  intros a todo nest fin found bk sv st (H1 & H2 & H3 & H4) Hm Ht. unfold finish_lookahead.
  pose proof (add_refs_spec unknown_attr todo st) as A. cbv zeta in A.
  set (st1 := fold_left _ todo st) in *. destruct A as (A1 & A2 & A3 & A4 & A5 & _).
  assert (K : kept (set_mode MOrd (set_stop (create_snapshot (src st1)) st1))).
  { unfold kept, mode_ok. cbn. rewrite A1, A3. repeat split; auto. }
  unfold mode_ok in H4. rewrite Hm in H4. destruct H4 as [H4 _].
  set (st2 := set_mode MOrd _) in *.
  assert (J : forall x, kept x -> st_mode x = MOrd -> kept (set_src (perform_jump bk sv (src x)) x)).
  { intros x (X1 & X2 & X3 & _) Xm. unfold kept, mode_ok. cbn. rewrite Xm. repeat split; auto. }
  destruct a as [|t].
  - destruct (macros st2) as [|m rest]; apply J; auto.
  - destruct found.
    + apply kept_jump; [exact K|reflexivity].
    + apply (J st2 K eq_refl).
Qed.

Lemma read_text_Q : forall st x st1, read_text program lib st = inl (x, st1) -> Q (frames (src st)) -> Q (frames (src st1)).
Proof.
  intros st x st1 H HQ. pose proof (read_text_spec _ _ _ H) as (_ & _ & _ & _ & _ & _ & _ & R).
  destruct (frames (src st)) as [|f l].
  - destruct R as (-> & _). exact q_nil.
  - destruct R as (b & Hb & _ & R). destruct x as [[s o]|].
    + destruct R as (_ & -> & Hz & Hn). eapply q_read; eauto.
    + destruct R as (-> & _). eapply q_pop; eauto.
Qed.
Lemma read_text_kept : forall st x st1, read_text program lib st = inl (x, st1) -> kept st ->
  match st_mode st with MLook _ _ _ true _ _ _ => False | _ => True end -> kept st1.
Proof.
  intros st x st1 H (H1 & H2 & H3 & H4) Hf. pose proof (read_text_Q _ _ _ H H1) as HQ.
  pose proof (read_text_spec _ _ _ H) as (_ & _ & Es & Et & Em & _). unfold kept, mode_ok in *. rewrite Es, Et, Em.
  repeat split; auto. destruct (st_mode st) as [| |a todo nest [] found bk sv]; try tauto. split; [apply H4|discriminate].
Qed.
Lemma read_any_kept : forall st x st1, read_any program lib st = inl (x, st1) -> kept st -> 
  match st_mode st with MLook _ _ _ _ _ _ _ => False | _ => True end -> kept st1.
Proof.
  intros st x st1 H K Hm. destruct (read_any_spec _ _ _ H) as [[_ R]|(m & rest & _ & Es & _ & Eq & Et & Em & _)].
  - eapply read_text_kept; eauto. now destruct (st_mode st).
  - destruct K as (H1 & H2 & H3 & H4). unfold kept, mode_ok in *. rewrite Es, Eq, Et, Em. auto.
Qed.
Lemma read_any_top : forall st s o st1, read_any program lib st = inl (Some (s, o), st1) -> macros st1 = [] -> top_read (frames (src st1)).
Proof.
  intros st s o st1 H Hm. destruct (read_any_spec _ _ _ H) as [[_ R]|(m & rest & _ & _ & _ & _ & _ & _ & _ & _ & R)].
  - eapply read_text_top; eauto.
  - destruct R as (_ & R & _). congruence.
Qed.

Lemma kept_register : forall n st, kept st -> (strict = true -> attr_lookahead st = true \/ macros st = [] -> top_read (frames (src st))) -> kept (register n st).
Proof.
  intros n st (H1 & H2 & H3 & H4) Ht. destruct (register_spec n st) as (E1 & E2 & E3 & E4 & E5 & _).
  unfold kept, mode_ok in *. rewrite E1, E4, E5. repeat split; auto. apply register_seqs; auto.
Qed.
Lemma kept_register_label : forall s st, kept st -> (strict = true -> macros st = [] -> top_read (frames (src st))) -> attr_lookahead st = false ->
  kept (register_label s st).
Proof.
  intros s st K Ht Ha. unfold register_label. destruct (s_lab s); auto. apply kept_register; auto. intros E [X|X]; [congruence|auto].
Qed.
Lemma register_label_mode : forall s (st : state), st_mode (register_label s st) = st_mode st /\ src (register_label s st) = src st /\
  macros (register_label s st) = macros st /\ st_data (register_label s st) = st_data st /\ refs (register_label s st) = refs st.
Proof.
  clear unnamed q_back q_push q_read q_pop q_nil Q strict. clear unknown_attr defined program lib macro_of define.
  intros s st. unfold register_label. destruct (s_lab s) as [|n|n]; auto.
  destruct (register_spec n st) as (E1 & E2 & E3 & E4 & E5 & E6 & _). auto.
Qed.

Lemma kept_copy : forall loud o st st1, process_copy lib loud o st = inl st1 -> kept st ->
  match st_mode st with MLook _ _ _ true _ _ _ => strict = false | _ => True end -> kept st1.
Proof.
  intros loud o st st1 H (H1 & H2 & H3 & H4) Hm. destruct (process_copy_spec _ _ _ _ H) as [(n & b & _ & Hb & Hx & ->)|(e & -> & _)].
  - unfold kept, mode_ok in *. cbn. repeat split; auto.
    + eapply q_push; eauto.
    + destruct (st_mode st) as [| |a todo nest [] found bk sv]; auto; (split; [apply H4|]); [intros; congruence|discriminate].
  - unfold report. destruct loud; [|unfold kept; auto]. unfold kept, mode_ok in *. cbn. auto.
Qed.

Lemma kept_trigger : forall l st, kept st -> l <> [] -> (strict = true -> macros st = [] -> top_read (frames (src st))) -> kept (trigger l st).
Proof.
  intros l st K Hl Ht. unfold trigger. destruct (begin_snapshot false st) as [p sn] eqn:E.
  assert (Hs : Q (n_frames sn)).
  { assert (E2 : sn = snd (begin_snapshot false st)) by now rewrite E. destruct (macros st) as [|m rest] eqn:Em.
    - rewrite E2, begin_frames by auto. apply q_back; [apply K|auto].
    - rewrite E2. unfold begin_snapshot. rewrite Em. cbn. apply K. }
  pose proof (kept_start AOrd l p sn st K Hs (fun _ => Hl)) as K2.
  destruct K2 as (H1 & H2 & H3 & H4). unfold kept, mode_ok in *. cbn. auto.
Qed.

Lemma kept_ordinary : forall s st st1, ordinary_statement lib macro_of s st = Next st1 -> kept st -> st_mode st = MOrd ->
  (strict = true -> macros st = [] -> top_read (frames (src st))) -> kept st1.
Proof.
  intros s st st1 H K Hm Ht. unfold ordinary_statement in H.
  assert (K0 : kept (tell (Did s) st)) by (unfold kept, mode_ok in *; cbn; exact K).
  set (st0 := tell (Did s) st) in *.
  assert (Hm0 : st_mode st0 = MOrd) by exact Hm.
  assert (Ht0 : strict = true -> macros st0 = [] -> top_read (frames (src st0))) by exact Ht.
  clearbody st0.
  assert (K1 : kept (register_label s st0)).
  { apply kept_register_label; auto. unfold attr_lookahead. now rewrite Hm0. }
  destruct (register_label_mode s st0) as (M1 & M2 & M3 & M4 & M5).
  destruct (s_kind s) as [o| | |f|n|f].
  - destruct o as [n| | |]; try (injection H as <-; unfold kept, mode_ok in *; cbn; exact K1);
      (destruct (process_copy _ _ _ _) as [st2|e] eqn:E; [|apply process_copy_crash in E; destruct E; discriminate]); injection H as <-;
      eapply kept_copy; eauto; now rewrite M1, Hm0.
  - injection H as <-. unfold kept, mode_ok in *. cbn. destruct K1 as (A & B & C & _). auto.
  - now injection H as <-.
  - destruct (f _); injection H as <-; [|exact K1]. apply kept_jump; [exact K1|congruence].
  - destruct (macro_of _ _); injection H as <-; [|exact K0]. unfold kept, mode_ok in *. cbn. exact K0.
  - injection H as <-. destruct (s_reg s); unfold kept, mode_ok in *; cbn; [exact K1|exact K0].
Qed.

Lemma kept_set_iline : forall n st, kept st -> kept (set_src (set_iline n (src st)) st).
Proof. intros n st K. unfold kept, mode_ok in *. cbn. exact K. Qed.

Lemma kept_find : forall s st, kept st -> top_read (frames (src st)) -> kept (find_label s st).
Proof.
  intros s st K Ht. unfold find_label. destruct (st_mode st) as [| |a todo nest fin found bk sv] eqn:Em; auto.
  destruct (s_lab s) as [|n|n]; auto.
  - set (st' := match s_attr s (st_data st) with Some v => add_ref n v st | None => st end).
    assert (E : src st' = src st /\ stop st' = stop st /\ seqs st' = seqs st).
    { subst st'. destruct (s_attr _ _); auto. destruct (add_ref_spec n a0 st) as (A1 & A2 & A3 & A4 & _). auto. }
    destruct E as (E1 & E2 & E3). destruct K as (H1 & H2 & H3 & H4). unfold kept, mode_ok in *. cbn. rewrite E1, E2, E3, Em in *.
    repeat split; auto; apply H4.
  - assert (K1 : kept (register n st)) by (apply kept_register; auto).
    destruct (register_spec n st) as (E1 & _ & _ & _ & E5 & _).
    destruct a as [|t]; auto. destruct (Nat.eqb n t); auto.
    destruct K1 as (H1 & H2 & H3 & H4). unfold kept, mode_ok in *. cbn. rewrite E5, Em in H4. rewrite E1 in *. repeat split; auto; apply H4.
Qed.
Lemma find_label_mode : forall s (st : state) a todo nest fin found bk sv, st_mode st = MLook a todo nest fin found bk sv ->
  src (find_label s st) = src st /\ macros (find_label s st) = macros st /\ st_data (find_label s st) = st_data st /\ stop (find_label s st) = stop st /\
  (s_lab s = LNone -> find_label s st = st) /\
  exists todo' fin' found', st_mode (find_label s st) = MLook a todo' nest fin' found' bk sv.
Proof.
  clear unnamed q_back q_push q_read q_pop q_nil Q strict. clear unknown_attr defined program lib macro_of define.
  intros s st a todo nest fin found bk sv Em. unfold find_label. rewrite Em.
  destruct (s_lab s) as [|n|n].
  - repeat split; eauto.
  - repeat split; try discriminate; cbn; try (destruct (s_attr _ _); [now destruct (add_ref_spec n a0 st) as (A1 & A2 & A3 & A4 & A5 & A6 & _)|reflexivity]).
    eauto.
  - destruct (register_spec n st) as (E1 & E2 & E3 & E4 & E5 & E6 & _).
    destruct a as [|t]; [|destruct (Nat.eqb n t)]; cbn; repeat split; auto; try discriminate; eauto; rewrite E5, Em; eauto.
Qed.

Lemma kept_look : forall s o nest st st1 a todo found bk sv, look_statement lib s o nest st = Next st1 -> kept st -> top_read (frames (src st)) ->
  in_text s o -> st_mode st = MLook a todo nest false found bk sv -> kept st1.
Proof.
  intros s o nest st st1 a todo found bk sv H K Ht Hin Hm. unfold look_statement in H.
  set (st0 := if Nat.eqb nest 0 then find_label s st else st) in *.
  assert (K0 : kept st0) by (subst st0; destruct (Nat.eqb nest 0); [now apply kept_find|exact K]).
  assert (M0 : src st0 = src st /\ (s_lab s = LNone -> st0 = st) /\ exists todo' fin' found', st_mode st0 = MLook a todo' nest fin' found' bk sv).
  { subst st0. destruct (Nat.eqb nest 0); [|repeat split; eauto].
    destruct (find_label_mode s st _ _ _ _ _ _ _ Hm) as (A & _ & _ & _ & B & C). auto. }
  clearbody st0. destruct M0 as (M1 & M2 & todo' & fin' & found' & M3).
  assert (N : forall f, kept (set_nest f st0)).
  { intros f. unfold set_nest. rewrite M3. unfold kept, mode_ok in *. cbn. rewrite M3 in K0. exact K0. }
  pose proof (fun E => unnamed E s o Hin) as U.
  destruct (seen_kind o s) as [c| | |f|n|f]; try (injection H as <-; auto).
  assert (C : forall st2, process_copy lib false c st0 = inl st2 -> kept st2).
  { intros st2 E. eapply kept_copy; eauto. destruct strict eqn:Es; [|destruct (st_mode st0) as [| |? ? ? [] ? ? ?]; auto].
    specialize (U eq_refl). destruct (s_lab s) eqn:El; try tauto. rewrite (M2 eq_refl), Hm. exact Logic.I. }
  destruct c as [n| | |]; try (injection H as <-; auto);
    (destruct (Nat.eqb nest 0); [|injection H as <-; auto]);
    (destruct (process_copy _ _ _ _) as [st2|e] eqn:E; [injection H as <-; auto|apply process_copy_crash in E; destruct E as [_ ->]; discriminate]).
Qed.

Theorem kept_step : forall st st1, step st = Next st1 -> kept st -> kept st1.
Proof.
  intros st st1 H K. unfold Look_Model.step in H. destruct (st_mode st) as [|nest p body|a todo nest fin found bk sv] eqn:Em.
  - unfold step_ordinary in H. destruct (at_end st); [discriminate|].
    destruct (read_any program lib st) as [[[[s o]|] st2]|e] eqn:Er; [| |destruct e; discriminate || idtac].
    + assert (K2 : kept st2) by (eapply read_any_kept; eauto; now rewrite Em).
      assert (M2 : st_mode st2 = MOrd).
      { destruct (read_any_spec _ _ _ Er) as [[_ R]|(m & rest & _ & _ & _ & _ & _ & E & _)]; [|congruence].
        apply read_text_spec in R. destruct R as (_ & _ & _ & _ & R & _). congruence. }
      assert (T2 : strict = true -> macros st2 = [] -> top_read (frames (src st2))) by (intros _; eapply read_any_top; eauto).
      destruct (wanted defined (s_wants1 s) st2) as [|n l] eqn:W1.
      * set (st3 := if o then set_src (set_iline (line (src st)) (src st2)) st2 else st2) in *.
        assert (K3 : kept st3) by (subst st3; destruct o; [now apply kept_set_iline|exact K2]).
        assert (M3 : st_mode st3 = MOrd) by (subst st3; now destruct o).
        assert (T3 : strict = true -> macros st3 = [] -> top_read (frames (src st3))) by (subst st3; destruct o; exact T2).
        destruct (wanted defined (s_wants2 s) st3) as [|n l] eqn:W2.
        -- eapply kept_ordinary; eauto.
        -- injection H as <-. apply kept_trigger; auto. discriminate.
      * injection H as <-. apply kept_trigger; auto. discriminate.
    + injection H as <-. eapply read_any_kept; eauto. now rewrite Em.
    + subst. unfold read_any, read_text, read_copy in Er. exfalso. destruct (macros st); [|destruct (nth_error _ _); discriminate].
      destruct (frames (src st)) as [|f l]; [discriminate|]. destruct (lib _); [|discriminate].
      destruct (Z.eqb _ _); [discriminate|]. destruct (Z.ltb _ _); [discriminate|]. destruct (nth_error _ _); discriminate.
  - unfold step_definition in H. destruct (at_end st).
    + injection H as <-. unfold kept, mode_ok in *. cbn. destruct K as (A & B & C & _). auto.
    + destruct (read_any program lib st) as [[[[s o]|] st2]|e] eqn:Er.
      * assert (K2 : kept st2) by (eapply read_any_kept; eauto; now rewrite Em).
        set (st3 := if o then set_src (set_iline (line (src st)) (src st2)) st2 else st2) in *.
        assert (K3 : kept st3) by (subst st3; destruct o; [now apply kept_set_iline|exact K2]).
        clearbody st3.
        assert (D : forall m, match m with MLook _ _ _ _ _ _ _ => False | _ => True end -> kept (set_mode m st3)).
        { intros m Hm. destruct K3 as (A & B & C & _). unfold kept, mode_ok. cbn. destruct m; tauto. }
        destruct p; [injection H as <-; apply D; exact Logic.I|].
        destruct (s_kind s) as [c| | |f|n|f]; try (injection H as <-; apply D; exact Logic.I).
        -- destruct (process_copy _ _ _ _) as [st4|e] eqn:E; [|apply process_copy_crash in E; destruct E as [_ ->]; discriminate].
           injection H as <-. exact (kept_copy _ _ _ _ E (D (MDef nest false (s :: body)) Logic.I) Logic.I).
        -- destruct nest as [|[|k]]; injection H as <-; try (apply D; exact Logic.I);
             (destruct K3 as (A & B & C & _); unfold kept, mode_ok; cbn; auto).
      * injection H as <-. eapply read_any_kept; eauto. now rewrite Em.
      * subst. unfold read_any, read_text, read_copy in Er. exfalso. destruct (macros st); [|destruct (nth_error _ _); discriminate].
        destruct (frames (src st)) as [|f l]; [discriminate|]. destruct (lib _); [|discriminate].
        destruct (Z.eqb _ _); [discriminate|]. destruct (Z.ltb _ _); [discriminate|]. destruct (nth_error _ _); discriminate.
  - unfold step_look in H. destruct (look_end st || fin) eqn:Ef.
    + injection H as <-. eapply kept_finish; eauto. intros Hs. destruct fin.
      * destruct K as (_ & _ & _ & K). unfold mode_ok in K. rewrite Em in K. now apply K.
      * unfold look_end in Ef. destruct (frames (src st)); [exact Logic.I|discriminate].
    + apply orb_false_elim in Ef. destruct Ef as [_ ->].
      destruct (read_text program lib st) as [[[[s o]|] st2]|e] eqn:Er.
      * assert (K2 : kept st2) by (eapply read_text_kept; eauto; now rewrite Em).
        assert (M2 : st_mode st2 = st_mode st) by (apply read_text_spec in Er; now destruct Er as (_ & _ & _ & _ & R & _)).
        set (st3 := if o then set_src (set_iline (line (src st)) (src st2)) st2 else st2) in *.
        eapply kept_look; eauto.
        -- subst st3; destruct o; [now apply kept_set_iline|exact K2].
        -- pose proof (read_text_top _ _ _ _ Er). subst st3; destruct o; exact H0.
        -- eapply read_text_in; eauto.
        -- transitivity (st_mode st2); [subst st3; now destruct o|rewrite M2; exact Em].
      * injection H as <-. eapply read_text_kept; eauto. now rewrite Em.
      * subst. unfold read_text, read_copy in Er. exfalso. 
        destruct (frames (src st)) as [|f l]; [discriminate|]. destruct (lib _); [|discriminate].
        destruct (Z.eqb _ _); [discriminate|]. destruct (Z.ltb _ _); [discriminate|]. destruct (nth_error _ _); discriminate.
Qed.
Theorem kept_steps : forall n st st1, steps n st = Next st1 -> kept st -> kept st1.
Proof.
  induction n as [|n IH]; intros st st1 H K; cbn in H; [now injection H as <-|].
  destruct (step st) as [st2| | | |] eqn:E; try discriminate. eapply IH; eauto. eapply kept_step; eauto.
Qed.
Lemma kept_initial : forall d, kept (initial d).
Proof. intros d. unfold kept, mode_ok, initial. cbn. repeat split; auto. discriminate. Qed.
End Keep.
End Proof.
