(** No symbol is looked for twice. *)
From Coq Require Import List Arith ZArith Bool Lia.
From Verif Require Import Look_Model Look_Spec Look_Proof Look_Copy Look_Expand Look_Scan Look_Back Look_Whole.
Import ListNotations.

Section Once.
Context {attr data : Type}.
Variable unknown_attr : attr.
Variable defined : data -> id -> bool.
Variable program : list (stmt attr data).
Variable lib : id -> option (list (stmt attr data)).
Variable macro_of : data -> id -> option (list (stmt attr data)).
Variable define : list (stmt attr data) -> data -> data.
Notation state := (state attr data).
Notation stmt := (stmt attr data).
Notation step := (step unknown_attr defined program lib macro_of define).
Notation steps := (steps unknown_attr defined program lib macro_of define).
Hypothesis answer : answers program lib.

Definition mild (st st1 : state) : Prop :=
  searches (log st1) = searches (log st) /\ (forall m v, lookup m (refs st) = Some v -> lookup m (refs st1) = Some v).
Definition open_todo (st : state) (m : id) : Prop := match st_mode st with MLook AOrd todo _ _ _ _ _ => In m todo | _ => False end.
Definition once (st : state) : Prop :=
  ForallOrdPairs (fun a b => forall m, In m a -> ~ In m b) (searches (log st)) /\
  (forall l m, In l (searches (log st)) -> In m l -> lookup m (refs st) <> None \/ open_todo st m).

Lemma mild_refl : forall st, mild st st.
Proof. split; auto. Qed.
Lemma mild_trans : forall a b c, mild a b -> mild b c -> mild a c.
Proof. intros a b c (A & B) (C & D). split; [congruence|auto]. Qed.
Lemma mild_same : forall st st1 : state, log st1 = log st -> refs st1 = refs st -> mild st st1.
Proof. intros st st1 A B. split; [now rewrite A|intros; now rewrite B]. Qed.

Lemma once_mild : forall st st1, mild st st1 -> once st -> (forall m, open_todo st m -> lookup m (refs st1) <> None \/ open_todo st1 m) -> once st1.
Proof.
  intros st st1 (A & B) (C & D) E. split; rewrite A; [exact C|]. intros l m Hl Hm. destruct (D l m Hl Hm) as [X|X]; [|auto].
  left. destruct (lookup m (refs st)) as [v|] eqn:F; [|congruence]. now rewrite (B _ _ F).
Qed.
Lemma once_ord : forall st st1, mild st st1 -> once st -> (forall m, ~ open_todo st m) -> once st1.
Proof. intros st st1 M O H. eapply once_mild; eauto. intros m X. now destruct (H m). Qed.

Lemma mild_register : forall n st, mild st (register n st).
Proof.
  intros n st. destruct (register_spec n st) as (_ & _ & E & _). split; [|intros; now rewrite E].
  unfold register. destruct (negb _ && _); [reflexivity|]. destruct (begin_snapshot _ st). destruct (lookup n (seqs st)) as [[? ?]|]; [|reflexivity].
  now destruct (snapshot_eqb _ _).
Qed.
Lemma mild_label : forall s st, mild st (register_label s st).
Proof. intros s st. unfold register_label. destruct (s_lab s); try apply mild_refl. apply mild_register. Qed.
Lemma mild_copy : forall loud c st st1, process_copy lib loud c st = inl st1 -> mild st st1.
Proof.
  intros loud c st st1 H. destruct (process_copy_spec _ _ _ _ _ H) as [(n & b & _ & _ & _ & ->)|(e & -> & [-> | ->])]; [now apply mild_same| |];
    destruct loud; split; auto.
Qed.
Lemma mild_jump : forall t st, mild st (jump_in_statements t st).
Proof.
  intros t st. unfold jump_in_statements. destruct (macros st).
  - destruct (lookup t (seqs st)) as [[p sn]|]; [now apply mild_same|]. unfold end_snapshot, start_lookahead. destruct (Nat.ltb _ _); now apply mild_same.
  - destruct (label_index _ _); [now apply mild_same|]. split; auto.
Qed.
Lemma mild_add : forall n a st, mild st (add_ref n a st).
Proof.
  intros n a st. destruct (add_ref_spec n a st) as (_ & _ & _ & _ & _ & _ & L & R). split; [now rewrite L|]. intros m v Hv. now rewrite R, Hv.
Qed.
Lemma mild_find : forall s st, mild st (find_label s st).
Proof.
  intros s st. unfold find_label. destruct (st_mode st) as [| |a todo nest fin found bk sv]; try apply mild_refl. destruct (s_lab s) as [|n|n]; [apply mild_refl| |].
  - destruct (s_attr s (st_data st)) as [v|]; [|now apply mild_same]. eapply mild_trans; [apply (mild_add n v st)|now apply mild_same].
  - pose proof (mild_register n st) as M. destruct a; [exact M|]. destruct (Nat.eqb n target); [|exact M]. eapply mild_trans; [exact M|now apply mild_same].
Qed.
Lemma jump_todo : forall t st m, st_mode st = MOrd -> ~ open_todo (jump_in_statements t st) m.
Proof.
  intros t st m Hm. unfold jump_in_statements, open_todo. destruct (macros st).
  - destruct (lookup t (seqs st)) as [[p sn]|]; [cbn; now rewrite Hm|]. unfold end_snapshot, start_lookahead. now destruct (Nat.ltb _ _).
  - destruct (label_index _ _); cbn; now rewrite Hm.
Qed.

Lemma once_trigger : forall w st, once st -> st_mode st = MOrd -> wanted defined w st <> [] -> once (trigger (wanted defined w st) st).
Proof.
  intros w st (A & B) Hm _. unfold trigger. destruct (begin_snapshot false st) as [p sn].
  set (l := wanted defined w st).
  assert (U : forall m, In m l -> lookup m (refs st) = None).
  { intros m Hin. subst l. unfold wanted in Hin. apply filter_In in Hin. destruct Hin as (_ & Hu). unfold unknown in Hu. apply andb_prop in Hu. destruct Hu as (_ & Hu).
    now destruct (lookup m (refs st)). }
  clearbody l.
  assert (E : forall x : state, searches (log (tell (Searched l) (start_lookahead AOrd l p sn x))) = l :: searches (log x) /\ refs (start_lookahead AOrd l p sn x) = refs x).
  { intros x. unfold start_lookahead. destruct (Nat.ltb _ _); auto. }
  destruct (E st) as (E1 & E2). split; rewrite E1.
  - constructor; [|exact A]. apply Forall_forall. intros b Hb m Hm1 Hm2. destruct (B b m Hb Hm2) as [X|X]; [now rewrite (U m Hm1) in X|]. unfold open_todo in X. now rewrite Hm in X.
  - intros l1 m [<-|Hl] Hin.
    + right. unfold open_todo, start_lookahead. destruct (Nat.ltb _ _); exact Hin.
    + left. cbn [tell refs]. rewrite E2. destruct (B l1 m Hl Hin) as [X|X]; [exact X|]. unfold open_todo in X. now rewrite Hm in X.
Qed.

Lemma once_step : forall st st1, step st = Next st1 -> once st -> once st1.
Proof.
  intros st st1 H O. unfold Look_Model.step in H. destruct (st_mode st) as [|nest p body|a todo nest fin found bk sv] eqn:Em.
  - assert (N : forall m, ~ open_todo st m) by (intros m; unfold open_todo; now rewrite Em).
    unfold step_ordinary in H. destruct (at_end st); [discriminate|].
    destruct (read_any program lib st) as [[[[s o]|] st2]|e] eqn:Er.
    + destruct (read_any_mode _ _ _ _ _ Er) as (X1 & X2 & X3 & X4 & _).
      assert (M2 : mild st st2) by now apply mild_same. pose proof (once_ord _ _ M2 O N) as O2.
      destruct (wanted defined (s_wants1 s) st2) as [|n l] eqn:W1.
      2: { injection H as <-. rewrite <- W1. apply once_trigger; auto; congruence. }
      cbv zeta in H. set (st3 := if o then set_src (set_iline (line (src st)) (src st2)) st2 else st2) in *.
      assert (Y : st_mode st3 = MOrd /\ once st3).
      { subst st3. split; [destruct o; cbn; congruence|]. destruct o; [|exact O2]. eapply once_mild; [|exact O2|]; [now apply mild_same|].
        intros m X. unfold open_todo in X. rewrite X1, Em in X. contradiction. }
      destruct Y as (Y1 & Y2). clearbody st3.
      destruct (wanted defined (s_wants2 s) st3) as [|n l] eqn:W2.
      2: { injection H as <-. rewrite <- W2. apply once_trigger; auto; congruence. }
      assert (N3 : forall m, ~ open_todo st3 m) by (intros m; unfold open_todo; now rewrite Y1).
      apply (once_ord st3); auto.
      unfold ordinary_statement in H.
      assert (M4 : mild st3 (tell (Did s) st3)) by (split; auto).
      assert (M5 : mild st3 (register_label s (tell (Did s) st3))) by (eapply mild_trans; [exact M4|apply mild_label]).
      set (st4 := tell (Did s) st3) in *. set (st5 := register_label s st4) in *. clearbody st4 st5.
      destruct (s_kind s) as [c| | |f|n|f].
      * destruct c as [n| | |]; try (injection H as <-; eapply mild_trans; [exact M5|split; now auto]);
          (destruct (process_copy _ _ _ _) as [st6|e] eqn:E; [|apply process_copy_crash in E; destruct E; discriminate]);
          injection H as <-; (eapply mild_trans; [exact M5|eapply mild_copy; eauto]).
      * injection H as <-. eapply mild_trans; [exact M5|now apply mild_same].
      * injection H as <-. exact M4.
      * destruct (f _); injection H as <-; [|exact M5]. eapply mild_trans; [exact M5|apply mild_jump].
      * destruct (macro_of _ n); injection H as <-; [|exact M4]. eapply mild_trans; [exact M4|now apply mild_same].
      * injection H as <-. destruct (s_reg s); [eapply mild_trans; [exact M5|now apply mild_same]|eapply mild_trans; [exact M4|now apply mild_same]].
    + injection H as <-. destruct (read_any_mode _ _ _ _ _ Er) as (X1 & X2 & X3 & X4 & _). apply (once_ord st); auto. now apply mild_same.
    + exfalso. unfold read_any, read_text, read_copy in Er. destruct (macros st); [|destruct (nth_error _ _); discriminate].
      destruct (frames (src st)) as [|f l]; [discriminate|]. destruct (lib _); [|injection Er as <-; discriminate].
      destruct (Z.eqb _ _); [discriminate|]. destruct (Z.ltb _ _); [injection Er as <-; discriminate|]. destruct (nth_error _ _); [|injection Er as <-]; discriminate.
  - assert (N : forall m, ~ open_todo st m) by (intros m; unfold open_todo; now rewrite Em).
    apply (once_ord st); auto.
    unfold step_definition in H. destruct (at_end st); [injection H as <-; now apply mild_same|].
    destruct (read_any program lib st) as [[[[s o]|] st2]|e] eqn:Er.
    + destruct (read_any_mode _ _ _ _ _ Er) as (X1 & X2 & X3 & X4 & _).
      cbv zeta in H. set (st3 := if o then set_src (set_iline (line (src st)) (src st2)) st2 else st2) in *.
      assert (M3 : mild st st3) by (subst st3; destruct o; now apply mild_same). clearbody st3.
      assert (S : forall x, mild st (set_mode (MDef x false (s :: body)) st3)) by (intros x; eapply mild_trans; [exact M3|now apply mild_same]).
      assert (F : forall l, mild st (finish_definition define l st3)) by (intros x; eapply mild_trans; [exact M3|now apply mild_same]).
      destruct p; [injection H as <-; apply S|].
      destruct (s_kind s) as [c| | |f|n|f]; try (injection H as <-; apply S).
      * destruct (process_copy _ _ _ _) as [st4|e] eqn:E; [|apply process_copy_crash in E; destruct E as [_ ->]; discriminate].
        injection H as <-. eapply mild_trans; [apply S|eapply mild_copy; eauto].
      * destruct nest as [|[|k]]; injection H as <-; auto.
    + injection H as <-. destruct (read_any_mode _ _ _ _ _ Er) as (X1 & X2 & X3 & X4 & _). now apply mild_same.
    + exfalso. unfold read_any, read_text, read_copy in Er. destruct (macros st); [|destruct (nth_error _ _); discriminate].
      destruct (frames (src st)) as [|f l]; [discriminate|]. destruct (lib _); [|injection Er as <-; discriminate].
      destruct (Z.eqb _ _); [discriminate|]. destruct (Z.ltb _ _); [injection Er as <-; discriminate|]. destruct (nth_error _ _); [|injection Er as <-]; discriminate.
  - unfold step_look in H. destruct (look_end st || fin) eqn:Ef.
    + injection H as <-. unfold finish_lookahead.
      pose proof (add_refs_spec unknown_attr todo st) as A. cbv zeta in A. set (st2 := fold_left _ todo st) in *. clearbody st2.
      destruct A as (_ & _ & _ & _ & _ & _ & L & R).
      assert (M2 : mild st st2) by (split; [now rewrite L|intros m v Hv; now rewrite R, Hv]).
      assert (K : forall m, open_todo st m -> lookup m (refs st2) <> None).
      { intros m X. unfold open_todo in X. rewrite Em in X. destruct a; [|contradiction]. rewrite R. destruct (lookup m (refs st)); [discriminate|].
        replace (existsb (Nat.eqb m) todo) with true; [discriminate|]. symmetry. apply existsb_exists. exists m. split; [exact X|apply Nat.eqb_refl]. }
      set (st3 := set_mode MOrd (set_stop (create_snapshot (src st2)) st2)).
      assert (M3 : mild st st3) by (eapply mild_trans; [exact M2|now apply mild_same]).
      assert (K3 : forall m, open_todo st m -> lookup m (refs st3) <> None) by exact K. clearbody st3.
      assert (Fin : forall x, mild st3 x -> once x).
      { intros x Mx. eapply once_mild; [eapply mild_trans; [exact M3|exact Mx]|exact O|]. intros m X. left. destruct (lookup m (refs st3)) as [v|] eqn:Ev; [|now destruct (K3 m X)].
        now rewrite (proj2 Mx _ _ Ev). }
      destruct a as [|t]; apply Fin.
      * destruct (macros st3); now apply mild_same.
      * destruct found; [apply mild_jump|]. split; auto.
    + destruct (read_text program lib st) as [[[[s o]|] st2]|e] eqn:Er.
      * pose proof (read_text_spec _ _ _ _ _ Er) as (_ & X3 & _ & _ & X1 & _ & X4 & _).
        set (st3 := if o then set_src (set_iline (line (src st)) (src st2)) st2 else st2) in *.
        assert (Y : st_mode st3 = MLook a todo nest fin found bk sv /\ mild st st3) by (subst st3; split; [destruct o; cbn; congruence|destruct o; now apply mild_same]).
        destruct Y as (Y1 & Y2). clearbody st3. apply orb_false_iff in Ef. destruct Ef as (_ & ->).
        unfold look_statement in H. pose proof (find_spec s nest st3 a todo found bk sv Y1) as F. cbv zeta in F.
        assert (M4 : mild st3 (if Nat.eqb nest 0 then find_label s st3 else st3)) by (destruct (Nat.eqb nest 0); [apply mild_find|apply mild_refl]).
        set (st4 := if Nat.eqb nest 0 then find_label s st3 else st3) in *. clearbody st4. destruct F as (F1 & _ & _ & _ & _ & _ & F7).
        assert (O4 : once st4).
        { eapply once_mild; [eapply mild_trans; [exact Y2|exact M4]|exact O|]. intros m X. unfold open_todo in *. rewrite Em in X. rewrite F1.
          destruct a; [|contradiction]. unfold todo_at. destruct nest as [|k]; [|now right]. destruct (s_lab s) as [|n|n] eqn:El; try (now right).
          destruct (Nat.eq_dec m n) as [->|Hn]; [|right; apply in_remove; auto]. left. rewrite F7. destruct (lookup n (refs st3)); [discriminate|].
          unfold names. rewrite El. cbn [Nat.eqb andb]. rewrite Nat.eqb_refl. pose proof (read_text_in _ _ _ _ _ _ Er) as Hin. destruct answer as (A1 & A2).
          destruct o; [exact (A1 s Hin n _ El)|]. destruct Hin as (z & b & Hb & Hin). exact (A2 z b s Hb Hin n _ El). }
        assert (T : forall x, mild st4 x -> (forall m, open_todo st4 m -> open_todo x m) -> once x) by (intros x Mx Hx; eapply once_mild; eauto).
        destruct (seen_kind o s) as [c| | |f|n|f]; try (injection H as <-; exact O4).
        -- destruct c as [n| | |]; try (injection H as <-; exact O4);
             (destruct (Nat.eqb nest 0); [|injection H as <-; exact O4]);
             (destruct (process_copy _ _ _ _) as [st5|e] eqn:E; [injection H as <-|apply process_copy_crash in E; destruct E as [_ ->]; discriminate]);
             (apply T; [eapply mild_copy; eauto|]; intros m; destruct (process_copy_spec _ _ _ _ _ E) as [(? & ? & _ & _ & _ & ->)|(? & -> & _)]; exact (fun x => x)).
        -- injection H as <-. apply T; unfold set_nest; rewrite F1; [now apply mild_same|]. unfold open_todo. rewrite F1. auto.
        -- injection H as <-. apply T; unfold set_nest; rewrite F1; [now apply mild_same|]. unfold open_todo. rewrite F1. auto.
      * injection H as <-. pose proof (read_text_spec _ _ _ _ _ Er) as (_ & X3 & _ & _ & X1 & _ & X4 & _).
        apply (once_mild st); [now apply mild_same|exact O|]. intros m X. right. unfold open_todo in *. now rewrite X1.
      * exfalso. unfold read_text, read_copy in Er.
        destruct (frames (src st)) as [|f l]; [discriminate|]. destruct (lib _); [|injection Er as <-; discriminate].
        destruct (Z.eqb _ _); [discriminate|]. destruct (Z.ltb _ _); [injection Er as <-; discriminate|]. destruct (nth_error _ _); [|injection Er as <-]; discriminate.
Qed.

Lemma once_reach : forall d n st, steps n (initial d) = Next st -> once st.
Proof.
  intros d n. induction n as [|n IH]; intros st H.
  - injection H as <-. split; [constructor|]. intros l m [].
  - rewrite steps_snoc in H. destruct (steps n (initial d)) as [st1| | | |] eqn:E; try discriminate. eapply once_step; eauto.
Qed.
End Once.
