(** COPY: members are not nested in themselves, reading stays inside them, and straight-line source is
    processed in place. *)
From Coq Require Import List Arith ZArith Bool Lia.
From Coq Require Import ZifyBool ZifyNat.
From Verif Require Import Look_Model Look_Spec Look_Proof.
Import ListNotations.

Section Copy.
Context {attr data : Type}.
Variable unknown_attr : attr.
Variable defined : data -> id -> bool.
Variable program : list (stmt attr data).
Variable lib : id -> option (list (stmt attr data)).
Variable macro_of : data -> id -> option (list (stmt attr data)).
Variable define : list (stmt attr data) -> data -> data.
Notation state := (state attr data).
Notation stmt := (stmt attr data).
Notation step := (step unknown_attr defined program lib macro_of define).
Notation steps := (steps unknown_attr defined program lib macro_of define).

(** * Frames *)
Definition distinct (l : list frame) : Prop := NoDup (map f_name l) /\ forall f, In f l -> lib (f_name f) <> None.

Lemma existsb_name : forall n l, existsb (fun f => Nat.eqb (f_name f) n) l = false -> ~ In n (map f_name l).
Proof.
  intros n l H Hin. apply in_map_iff in Hin. destruct Hin as (f & Hf & Hin).
  assert (E : existsb (fun f => Nat.eqb (f_name f) n) l = true).
  { apply existsb_exists. exists f. split; [exact Hin|]. now apply Nat.eqb_eq. }
  congruence.
Qed.

Lemma distinct_kept : forall d n st, steps n (initial d) = Next st -> kept false distinct st.
Proof.
  intros d n st H. eapply kept_steps; [..|exact H|apply kept_initial].
  - split; [constructor|]. intros f [].
  - intros f l [A B]. inversion A; subst. split; [assumption|]. intros g Hg. apply B. now right.
  - intros f l b s [A B] _ _ _. split; [exact A|]. intros g [<-|Hg]; [apply (B f); now left|apply B; now right].
  - intros m l b [A B] Hb Hx. split; [constructor; [now apply existsb_name|exact A]|].
    intros g [<-|Hg]; [cbn; congruence|exact (B g Hg)].
  - intros [|f l] [A B] _; cbn; [split; [constructor|intros ? []]|]. split; [exact A|].
    intros g [<-|Hg]; [apply (B f); now left|apply B; now right].
  - discriminate.
  - split; [constructor|intros ? []].
Qed.

Lemma nested : forall members d n st, finite lib members -> steps n (initial d) = Next st ->
  NoDup (map f_name (frames (src st))) /\ length (frames (src st)) <= length members.
Proof.
  intros members d n st Hf H. destruct (distinct_kept _ _ _ H) as ((A & B) & _). split; [exact A|].
  rewrite <- (map_length f_name). apply NoDup_incl_length; [exact A|].
  intros m Hm. apply in_map_iff in Hm. destruct Hm as (f & <- & Hf2). apply Hf, B, Hf2.
Qed.

(** * No undefined behaviour *)
Definition frame_ok (f : frame) : Prop := exists b, lib (f_name f) = Some b /\ (-1 <= f_cur f < Z.of_nat (length b))%Z.

(** COPY statements as they should be: nothing in the name field of a COPY that a lookahead may stop at, and
    no operand of another kind. *)
Definition unnamed_copies : Prop :=
  (forall s c, In s program -> s_kind s = KCopy c -> forall n, s_lab s <> LOrd n) /\
  (forall m b s c, lib m = Some b -> In s b -> s_kind s = KCopy c -> s_lab s = LNone).
Definition copies_of_names : Prop := everywhere program lib macro_of (fun s => s_kind s <> KCopy COther).

Lemma ok_kept : unnamed_copies -> forall d n st, steps n (initial d) = Next st -> kept true (Forall frame_ok) st.
Proof.
  intros (U1 & U2) d n st H. eapply kept_steps; [..|exact H|apply kept_initial].
  - constructor.
  - intros f l Hf. now inversion Hf.
  - intros f l b s Hf Hb Hz Hn. inversion Hf; subst. constructor; [|assumption]. exists b. cbn. split; [exact Hb|].
    assert (Hl : nth_error b (Z.to_nat (f_cur f + 1)) <> None) by congruence. apply nth_error_Some in Hl. lia.
  - intros m l b Hl Hb _. constructor; [|exact Hl]. exists b. cbn. split; [exact Hb|lia].
  - intros [|f l] Hf Ht; cbn; [constructor|]. inversion Hf; subst. constructor; [|assumption].
    destruct H2 as (b & Hb & Hr). exists b. cbn. split; [exact Hb|]. specialize (Ht eq_refl). cbn in Ht. lia.
  - intros _ s o Hin. unfold seen_kind, in_text in *. destruct o.
    + destruct (s_lab s) as [|m|m] eqn:El; destruct (s_kind s) eqn:Ek; auto. exact (U1 s o Hin Ek m El).
    + destruct Hin as (m & b & Hb & Hin). destruct (s_kind s) eqn:Ek; auto. now rewrite (U2 m b s o Hb Hin Ek).
  - constructor.
Qed.

Definition macros_ok (st : state) : Prop := forall m, In m (macros st) -> exists d n, macro_of d n = Some (m_body m).
Lemma start_macros : forall a t bk sv (st : state), macros (start_lookahead a t bk sv st) = macros st.
Proof. intros. unfold start_lookahead. now destruct (Nat.ltb _ _). Qed.
Lemma jump_macros : forall t (st : state), macros_ok st -> macros_ok (jump_in_statements t st).
Proof.
  intros t st H. unfold jump_in_statements. destruct (macros st) as [|m rest] eqn:E.
  - destruct (lookup t (seqs st)) as [[p sn]|]; [unfold macros_ok; cbn; now rewrite E|].
    unfold end_snapshot. unfold macros_ok. rewrite start_macros, E. now intros ? [].
  - destruct (label_index _ _); unfold macros_ok in *; cbn; rewrite E in *; [|exact H].
    intros x [<-|Hx]; [apply (H m); now left|apply H; now right].
Qed.
Lemma copy_macros : forall loud o (st st1 : state), process_copy lib loud o st = inl st1 -> macros st1 = macros st.
Proof.
  intros loud o st st1 H. destruct (process_copy_spec _ _ _ _ _ H) as [(n & b & _ & _ & _ & ->)|(e & -> & _)]; [reflexivity|].
  unfold report. now destruct loud.
Qed.
Lemma text_macros : forall st x st1, read_text program lib st = inl (x, st1) -> macros st1 = macros st.
Proof. intros st x st1 H. apply read_text_spec in H. tauto. Qed.
Lemma any_macros : forall st x st1, read_any program lib st = inl (x, st1) -> macros_ok st -> macros_ok st1.
Proof.
  intros st x st1 H Ho. destruct (read_any_spec _ _ _ _ _ H) as [[_ R]|(m & rest & Em & _ & _ & _ & _ & _ & _ & _ & R)].
  - unfold macros_ok in *. now rewrite (text_macros _ _ _ R).
  - unfold macros_ok in *. rewrite Em in Ho. destruct x as [[s o]|].
    + destruct R as (_ & -> & _). intros x [<-|Hx]; [apply (Ho m); now left|apply Ho; now right].
    + rewrite R. intros x Hx. apply Ho. now right.
Qed.
Lemma label_macros : forall s (st : state), macros (register_label s st) = macros st.
Proof. intros s st. now destruct (register_label_mode s st) as (_ & _ & E & _). Qed.
Lemma trigger_macros : forall l (st : state), macros (trigger l st) = macros st.
Proof. intros l st. unfold trigger. destruct (begin_snapshot false st) as [p sn]. exact (start_macros AOrd l p sn st). Qed.

Lemma finish_macros : forall a todo found bk sv (st : state), macros_ok st -> macros_ok (finish_lookahead unknown_attr a todo found bk sv st).
Proof.
  intros a todo found bk sv st H. unfold finish_lookahead.
  pose proof (add_refs_spec unknown_attr todo st) as A. cbv zeta in A. set (st1 := fold_left _ todo st) in *. destruct A as (_ & A2 & _).
  assert (H2 : macros_ok (set_mode MOrd (set_stop (create_snapshot (src st1)) st1))) by (unfold macros_ok in *; cbn; now rewrite A2).
  set (st2 := set_mode MOrd _) in *. clearbody st2. destruct a as [|t].
  - destruct (macros st2) as [|m rest] eqn:E; unfold macros_ok in *; cbn; [exact H2|rewrite E in *].
    intros x [<-|Hx]; [apply (H2 m); now left|apply H2; now right].
  - destruct found; [now apply jump_macros|exact H2].
Qed.

Lemma macros_step : forall st st1, step st = Next st1 -> macros_ok st -> macros_ok st1.
Proof.
  intros st st1 H K. unfold Look_Model.step in H. destruct (st_mode st) as [|nest p body|a todo nest fin found bk sv] eqn:Em.
  - unfold step_ordinary in H. destruct (at_end st); [discriminate|].
    destruct (read_any program lib st) as [[[[s o]|] st2]|e] eqn:Er.
    + pose proof (any_macros _ _ _ Er K) as K2.
      destruct (wanted defined (s_wants1 s) st2) as [|n l] eqn:W1; [|injection H as <-; unfold macros_ok; now rewrite trigger_macros].
      set (st3 := if o then set_src (set_iline (line (src st)) (src st2)) st2 else st2) in *.
      assert (K3 : macros_ok st3) by (subst st3; now destruct o).
      destruct (wanted defined (s_wants2 s) st3) as [|n l] eqn:W2; [|injection H as <-; unfold macros_ok; now rewrite trigger_macros].
      unfold ordinary_statement in H.
      assert (K4 : macros_ok (tell (Did s) st3)) by exact K3. set (st4 := tell (Did s) st3) in *. clearbody st4. clear K3 K2.
      assert (K5 : macros_ok (register_label s st4)) by (unfold macros_ok; now rewrite label_macros).
      destruct (s_kind s) as [c| | |f|n|f].
      * destruct c as [n| | |]; try (injection H as <-; exact K5);
          (destruct (process_copy _ _ _ _) as [st5|e] eqn:E; [|apply process_copy_crash in E; destruct E; discriminate]);
          injection H as <-; unfold macros_ok; now rewrite (copy_macros _ _ _ _ E).
      * injection H as <-. exact K5.
      * injection H as <-. exact K4.
      * destruct (f _); injection H as <-; [now apply jump_macros|exact K5].
      * destruct (macro_of (st_data st4) n) as [b|] eqn:Eb; injection H as <-; [|exact K4].
        intros x [<-|Hx]; [eauto|now apply K4].
      * injection H as <-. destruct (s_reg s); [exact K5|exact K4].
    + injection H as <-. eapply any_macros; eauto.
    + unfold read_any, read_text, read_copy in Er. exfalso. destruct (macros st); [|destruct (nth_error _ _); discriminate].
      destruct (frames (src st)) as [|f l]; [discriminate|]. destruct (lib _); [|injection Er as <-; discriminate].
      destruct (Z.eqb _ _); [discriminate|]. destruct (Z.ltb _ _); [injection Er as <-; discriminate|]. destruct (nth_error _ _); [|injection Er as <-]; discriminate.
  - unfold step_definition in H. destruct (at_end st); [injection H as <-; exact K|].
    destruct (read_any program lib st) as [[[[s o]|] st2]|e] eqn:Er.
    + pose proof (any_macros _ _ _ Er K) as K2.
      set (st3 := if o then set_src (set_iline (line (src st)) (src st2)) st2 else st2) in *.
      assert (K3 : macros_ok st3) by (subst st3; now destruct o). clearbody st3.
      destruct p; [injection H as <-; exact K3|].
      destruct (s_kind s) as [c| | |f|n|f]; try (injection H as <-; exact K3).
      * destruct (process_copy _ _ _ _) as [st4|e] eqn:E; [|apply process_copy_crash in E; destruct E as [_ ->]; discriminate].
        injection H as <-. unfold macros_ok. rewrite (copy_macros _ _ _ _ E). exact K3.
      * destruct nest as [|[|k]]; injection H as <-; exact K3.
    + injection H as <-. eapply any_macros; eauto.
    + unfold read_any, read_text, read_copy in Er. exfalso. destruct (macros st); [|destruct (nth_error _ _); discriminate].
      destruct (frames (src st)) as [|f l]; [discriminate|]. destruct (lib _); [|injection Er as <-; discriminate].
      destruct (Z.eqb _ _); [discriminate|]. destruct (Z.ltb _ _); [injection Er as <-; discriminate|]. destruct (nth_error _ _); [|injection Er as <-]; discriminate.
  - unfold step_look in H. destruct (look_end st || fin); [injection H as <-; now apply finish_macros|].
    destruct (read_text program lib st) as [[[[s o]|] st2]|e] eqn:Er.
    + assert (K2 : macros_ok st2) by (unfold macros_ok; now rewrite (text_macros _ _ _ Er)).
      assert (M2 : st_mode st2 = st_mode st) by (apply read_text_spec in Er; now destruct Er as (_ & _ & _ & _ & R & _)).
      set (st3 := if o then set_src (set_iline (line (src st)) (src st2)) st2 else st2) in *.
      assert (K3 : macros_ok st3) by (subst st3; now destruct o).
      assert (M3 : st_mode st3 = MLook a todo nest fin found bk sv) by (rewrite <- Em, <- M2; subst st3; now destruct o).
      clearbody st3. unfold look_statement in H.
      set (st4 := if Nat.eqb nest 0 then find_label s st3 else st3) in *.
      assert (K4 : macros_ok st4).
      { subst st4. destruct (Nat.eqb nest 0); [|exact K3]. destruct (find_label_mode s st3 _ _ _ _ _ _ _ M3) as (_ & E & _).
        unfold macros_ok. now rewrite E. }
      assert (N : forall f, macros_ok (set_nest f st4)).
      { intros f. unfold set_nest. now destruct (st_mode st4). }
      clearbody st4.
      destruct (seen_kind o s) as [c| | |f|n|f]; try (injection H as <-; auto).
      destruct c as [n| | |]; try (injection H as <-; exact K4);
        (destruct (Nat.eqb nest 0); [|injection H as <-; exact K4]);
        (destruct (process_copy _ _ _ _) as [st5|e] eqn:E; [injection H as <-; unfold macros_ok; now rewrite (copy_macros _ _ _ _ E)|
           apply process_copy_crash in E; destruct E as [_ ->]; discriminate]).
    + injection H as <-. unfold macros_ok. now rewrite (text_macros _ _ _ Er).
    + unfold read_text, read_copy in Er. exfalso.
      destruct (frames (src st)) as [|f l]; [discriminate|]. destruct (lib _); [|injection Er as <-; discriminate].
      destruct (Z.eqb _ _); [discriminate|]. destruct (Z.ltb _ _); [injection Er as <-; discriminate|]. destruct (nth_error _ _); [|injection Er as <-]; discriminate.
Qed.

Lemma read_text_ok : forall st e, Forall frame_ok (frames (src st)) -> read_text program lib st <> inr e.
Proof.
  intros st e H E. unfold read_text, read_copy in E. destruct (frames (src st)) as [|f l]; [discriminate|].
  inversion H as [|? ? (b & Hb & Hr) _]; subst. rewrite Hb in E.
  destruct (Z.eqb_spec (f_cur f + 1) (Z.of_nat (length b))); [discriminate|]. destruct (Z.ltb_spec (f_cur f + 1) 0); [lia|].
  destruct (nth_error b _) eqn:En; [discriminate|]. apply nth_error_None in En. lia.
Qed.
Lemma read_any_ok : forall st e, Forall frame_ok (frames (src st)) -> read_any program lib st <> inr e.
Proof.
  intros st e H E. unfold read_any in E. destruct (macros st); [now apply read_text_ok in E|]. destruct (nth_error _ _); discriminate.
Qed.
Definition crash (o : outcome attr data) : Prop := match o with Next _ | Done _ => False | _ => True end.

Lemma read_any_any : copies_of_names -> forall st s o st1, macros_ok st -> read_any program lib st = inl (Some (s, o), st1) -> s_kind s <> KCopy COther.
Proof.
  intros (C1 & C2 & C3) st s o st1 K H. destruct (read_any_spec _ _ _ _ _ H) as [[_ R]|(m & rest & Em & _ & _ & _ & _ & _ & _ & _ & R)].
  - apply read_text_in in R. destruct o; [now apply C1|]. destruct R as (n & b & Hb & Hin). now apply (C2 n b).
  - destruct R as (_ & _ & R). apply nth_error_In in R. destruct (K m) as (d & n & Hd); [rewrite Em; now left|]. now apply (C3 d n (m_body m)).
Qed.

Lemma step_safe : copies_of_names -> forall st, kept true (Forall frame_ok) st -> macros_ok st -> ~ crash (step st).
Proof.
  intros C st (K & _) M. unfold Look_Model.step. destruct (st_mode st) as [|nest p body|a todo nest fin found bk sv] eqn:Em.
  - unfold step_ordinary. destruct (at_end st); [now intros []|].
    destruct (read_any program lib st) as [[[[s o]|] st2]|e] eqn:Er; [|now intros []|now apply read_any_ok in Er].
    destruct (wanted defined (s_wants1 s) st2); [|now intros []]. cbv zeta.
    destruct (wanted defined (s_wants2 s) _); [|now intros []].
    pose proof (read_any_any C _ _ _ _ M Er) as Hc. unfold ordinary_statement.
    destruct (s_kind s) as [c| | |f|n|f]; try (now intros []).
    + destruct c as [n| | |]; try (now intros []);
        (destruct (process_copy _ _ _ _) as [st5|e] eqn:E; [now intros []|apply process_copy_crash in E; destruct E; discriminate]).
    + destruct (f _); now intros [].
    + destruct (macro_of _ _); now intros [].
  - unfold step_definition. destruct (at_end st); [now intros []|].
    destruct (read_any program lib st) as [[[[s o]|] st2]|e] eqn:Er; [|now intros []|now apply read_any_ok in Er].
    pose proof (read_any_any C _ _ _ _ M Er) as Hc. cbv zeta. destruct p; [now intros []|].
    destruct (s_kind s) as [c| | |f|n|f]; try (now intros []).
    + destruct (process_copy _ _ _ _) as [st5|e] eqn:E; [now intros []|apply process_copy_crash in E; destruct E as [-> _]; congruence].
    + destruct nest as [|[|k]]; now intros [].
  - unfold step_look. destruct (look_end st || fin); [now intros []|].
    destruct (read_text program lib st) as [[[[s o]|] st2]|e] eqn:Er; [|now intros []|now apply read_text_ok in Er].
    assert (Hc : s_kind s <> KCopy COther).
    { apply read_text_in in Er. destruct C as (C1 & C2 & _). destruct o; [now apply C1|]. destruct Er as (n & b & Hb & Hin). now apply (C2 n b). }
    unfold look_statement. cbv zeta.
    assert (Hk : seen_kind o s <> KCopy COther) by (unfold seen_kind; destruct o, (s_lab s); congruence).
    destruct (seen_kind o s) as [c| | |f|n|f]; try (now intros []).
    destruct c as [n| | |]; try (now intros []); try congruence;
      (destruct (Nat.eqb nest 0); [|now intros []]);
      (destruct (process_copy _ _ _ _) as [st5|e] eqn:E; [now intros []|apply process_copy_crash in E; destruct E; discriminate]).
Qed.

Lemma steps_snoc : forall n st, steps (S n) st = match steps n st with Next st1 => step st1 | o => o end.
Proof.
  induction n as [|n IH]; intros st; cbn [Look_Model.steps].
  - destruct (step st); reflexivity.
  - destruct (step st); try reflexivity. rewrite <- IH. reflexivity.
Qed.

Lemma macros_reach : forall d n st, steps n (initial d) = Next st -> macros_ok st.
Proof.
  intros d n. induction n as [|n IH]; intros st H.
  - injection H as <-. intros m [].
  - rewrite steps_snoc in H. destruct (steps n (initial d)) as [st1| | | |] eqn:E; try discriminate.
    eapply macros_step; eauto.
Qed.

Lemma safe : unnamed_copies -> copies_of_names -> forall d n, ~ crash (steps n (initial d)).
Proof.
  intros U C d n. induction n as [|n IH]; [now intros []|]. rewrite steps_snoc.
  destruct (steps n (initial d)) as [st1| | | |] eqn:E; auto.
  apply step_safe; [exact C|eapply ok_kept; eauto|eapply macros_reach; eauto].
Qed.
End Copy.
