From Coq Require Import List NArith Arith Bool Lia.
From Verif Require Import Common Text_Model Ws_Model Ws_Spec.
Import ListNotations.

Lemma beq_refl : forall a, bytes_eqb a a = true.
Proof. intros a. apply bytes_eqb_eq. reflexivity. Qed.
Lemma beq_spec : forall a b, reflect (a = b) (bytes_eqb a b).
Proof.
  intros a b. destruct (bytes_eqb a b) eqn:E; constructor.
  - apply bytes_eqb_eq. exact E.
  - intros H. apply bytes_eqb_eq in H. congruence.
Qed.
Lemma mem_spec : forall u l, mem u l = true <-> In u l.
Proof.
  intros u l. unfold mem. rewrite existsb_exists. split.
  - intros (x & H & E). apply bytes_eqb_eq in E. subst. exact H.
  - intros H. exists u. split; [exact H|apply beq_refl].
Qed.
Lemma mem_false : forall u l, mem u l = false <-> ~ In u l.
Proof. intros u l. rewrite <- mem_spec. destruct (mem u l); intuition congruence. Qed.
Lemma in_minus : forall x a b, In x (minus a b) <-> In x a /\ ~ In x b.
Proof.
  intros x a b. unfold minus. rewrite filter_In, negb_true_iff, mem_false. reflexivity.
Qed.

Lemma put_same : forall s u f, files (put s u f) u = f.
Proof. intros s u f. cbn. rewrite beq_refl. reflexivity. Qed.
Lemma put_other : forall s u f v, v <> u -> files (put s u f) v = files s v.
Proof. intros s u f v H. cbn. destruct (beq_spec v u); [contradiction|reflexivity]. Qed.

(** ** Open documents survive everything internal *)
Definition open_as (s : st) (u : uri) (f : file) : Prop :=
  exists o, files s u = Some o /\ fo_edit o = true /\ fo_fresh o = true /\ fo_file o = f.

Definition keeps (s s' : st) : Prop := forall u,
  (forall f, open_as s u f -> open_as s' u f) /\ (editing s u = false -> editing s' u = false).

Lemma keeps_refl : forall s, keeps s s.
Proof. intros s u. auto. Qed.
Lemma keeps_trans : forall a b c, keeps a b -> keeps b c -> keeps a c.
Proof. intros a b c H1 H2 u. destruct (H1 u), (H2 u). auto. Qed.
Lemma keeps_fold : forall {A} (g : st -> A -> st), (forall s x, keeps s (g s x)) ->
  forall l s, keeps s (fold_left g l s).
Proof.
  intros A g H l. induction l as [|x l IH]; intros s; [apply keeps_refl|].
  cbn [fold_left]. eapply keeps_trans; [apply H|apply IH].
Qed.

(** Replacing an object by one with the same editor part. *)
Definition same_edit (o o' : fobj) : Prop :=
  fo_edit o' = fo_edit o /\ (fo_edit o = true -> fo_fresh o = true -> fo_fresh o' = true /\ fo_file o' = fo_file o).

Lemma keeps_put : forall s u o o', files s u = Some o -> same_edit o o' -> keeps s (put s u (Some o')).
Proof.
  intros s u o o' Ho [E1 E2] v. destruct (beq_spec v u) as [->|N].
  - split.
    + intros f (x & H1 & H2 & H3 & H4). rewrite Ho in H1. injection H1 as <-.
      destruct (E2 H2 H3) as [F1 F2]. exists o'. rewrite put_same. repeat split; try congruence.
    + unfold editing. rewrite put_same, Ho. congruence.
  - unfold open_as, editing. rewrite put_other by exact N. auto.
Qed.

Lemma keeps_put_new : forall s u o', files s u = None -> fo_edit o' = false -> keeps s (put s u (Some o')).
Proof.
  intros s u o' Ho He v. destruct (beq_spec v u) as [->|N].
  - split.
    + intros f (x & H1 & _). congruence.
    + unfold editing. rewrite put_same. auto.
  - unfold open_as, editing. rewrite put_other by exact N. auto.
Qed.

Lemma keeps_put_none : forall s u, editing s u = false -> keeps s (put s u None).
Proof.
  intros s u He v. destruct (beq_spec v u) as [->|N].
  - split.
    + intros f (x & H1 & H2 & _). unfold editing in He. rewrite H1 in He. congruence.
    + unfold editing. rewrite put_same. auto.
  - unfold open_as, editing. rewrite put_other by exact N. auto.
Qed.

Lemma same_edit_refl : forall o, same_edit o o.
Proof. intros o. split; auto. Qed.
Lemma same_edit_trans : forall a b c, same_edit a b -> same_edit b c -> same_edit a c.
Proof.
  intros a b c [A1 A2] [B1 B2]. split; [congruence|]. intros H1 H2.
  destruct (A2 H1 H2) as [C1 C2]. destruct B2 as [D1 D2]; [congruence|exact C1|]. split; congruence.
Qed.
Lemma same_edit_proc : forall o p, same_edit o (with_proc o p).
Proof. intros o p. split; auto. Qed.
Lemma same_edit_to_proc : forall o, same_edit o (to_proc o).
Proof. intros o. unfold to_proc. destruct (fo_proc o); [apply same_edit_refl|apply same_edit_proc]. Qed.
Lemma same_edit_get_text : forall s u o, same_edit o (get_text s u o).
Proof.
  intros s u o. unfold get_text. destruct (fo_fresh o) eqn:E; [apply same_edit_refl|].
  unfold load_text. destruct (disk s u); (split; [reflexivity|cbn; congruence]).
Qed.

Lemma files_add_proc : forall s u,
  files (add_processor_file s u) u = Some (to_proc (match files s u with Some o => o | None => new_file end)).
Proof. intros s u. unfold add_processor_file. destruct (files s u); apply put_same. Qed.

Lemma keeps_touch : forall s u, keeps s (touch s u).
Proof.
  intros s u. unfold touch, find_processor_file. destruct (files s u) as [o|] eqn:E; cbn [fst].
  - eapply keeps_put; [exact E|apply same_edit_to_proc].
  - apply keeps_refl.
Qed.

Lemma keeps_add_processor : forall s u, keeps s (add_processor_file s u).
Proof.
  intros s u. unfold add_processor_file. destruct (files s u) as [o|] eqn:E.
  - eapply keeps_put; [exact E|apply same_edit_to_proc].
  - apply keeps_put_new; [exact E|reflexivity].
Qed.

Lemma keeps_load_dep : forall s u, keeps s (load_dep s u).
Proof.
  intros s u. unfold load_dep. eapply keeps_trans; [apply (keeps_add_processor s u)|].
  destruct (files (add_processor_file s u) u) as [o|] eqn:E; [|apply keeps_refl].
  eapply keeps_put; [exact E|]. eapply same_edit_trans; [apply same_edit_get_text|apply same_edit_proc].
Qed.

Lemma keeps_parse : forall s u a, keeps s (parse s u a).
Proof.
  intros s u a. unfold parse. destruct (files s u) as [o0|] eqn:E; [|apply keeps_refl].
  eapply keeps_trans.
  { eapply (keeps_put s u o0 (get_text s u (to_proc o0)) E).
    eapply same_edit_trans; [apply same_edit_to_proc|apply same_edit_get_text]. }
  eapply keeps_trans; [apply (keeps_fold load_dep keeps_load_dep (a_loads a ++ a_visits a))|].
  cbv zeta. destruct (files (fold_left load_dep _ _) u) as [o|] eqn:E2; [|apply keeps_refl].
  eapply keeps_put; [exact E2|apply same_edit_proc].
Qed.

Lemma editing_fm_close_other : forall s d v, v <> d -> editing (fm_close s d false) v = editing s v.
Proof.
  intros s d v N. unfold fm_close, editing. destruct (files s d); [|reflexivity].
  rewrite put_other by exact N. reflexivity.
Qed.

Lemma keeps_close_one : forall s d, editing s d = false -> keeps s (close_one s d).
Proof.
  intros s d He. unfold close_one, remove_file.
  assert (K : keeps s (fm_close s d false)).
  { unfold fm_close. destruct (files s d) as [o|] eqn:E; [|apply keeps_refl].
    eapply keeps_put; [exact E|]. unfold editing in He. rewrite E in He.
    unfold prepare. cbn. split; cbn; [congruence|intros; congruence]. }
  eapply keeps_trans; [exact K|]. apply keeps_put_none. apply (K d). exact He.
Qed.

Lemma keeps_close_all : forall l s, (forall d, In d l -> editing s d = false) ->
  keeps s (fold_left close_one l s).
Proof.
  induction l as [|d l IH]; intros s H; [apply keeps_refl|].
  cbn [fold_left]. assert (K : keeps s (close_one s d)) by (apply keeps_close_one; apply H; left; reflexivity).
  eapply keeps_trans; [exact K|]. apply IH. intros d' Hd'. apply (K d'). apply H. right. exact Hd'.
Qed.

Lemma keeps_filter_and_close : forall s deps u, keeps s (filter_and_close s deps u).
Proof.
  intros s deps u. unfold filter_and_close.
  set (s1 := fold_left touch deps s).
  assert (K1 : keeps s s1) by (apply keeps_fold; apply keeps_touch).
  set (s2 := fold_left touch (dependants s1) s1).
  assert (K2 : keeps s1 s2) by (apply keeps_fold; apply keeps_touch).
  eapply keeps_trans; [exact K1|]. eapply keeps_trans; [exact K2|].
  apply keeps_close_all. intros d Hd. apply in_minus in Hd as [Hd _]. apply filter_In in Hd as [_ Hd].
  apply andb_true_iff in Hd as [_ Hd]. apply negb_true_iff in Hd. apply (K2 d). exact Hd.
Qed.

Lemma keeps_add_dependant : forall s u, keeps s (add_dependant s u).
Proof. intros s u v. unfold open_as, editing. cbn. auto. Qed.

Lemma keeps_parse_program : forall an s f, keeps s (parse_program an s f).
Proof.
  intros an s f. unfold parse_program. eapply keeps_trans; [apply (keeps_parse s f (an f))|].
  cbv zeta. destruct (deps_of _ f); [apply keeps_refl|apply keeps_add_dependant].
Qed.

Lemma keeps_read_config : forall s u, keeps s (read_config s u).
Proof.
  intros s u. unfold read_config, add_file. destruct (files s u) as [o|] eqn:E.
  - rewrite E. destruct (fo_edit o) eqn:Ee; [apply keeps_refl|].
    eapply keeps_put; [exact E|]. unfold load_text. destruct (disk s u); split; cbn; congruence.
  - rewrite put_same. cbn [new_file fo_edit].
    eapply keeps_trans; [apply (keeps_put_new s u new_file E eq_refl)|].
    eapply keeps_put; [apply put_same|]. unfold load_text. destruct (disk _ u); split; cbn; congruence.
Qed.

Lemma keeps_parse_file : forall s u an ok, keeps s (parse_file s u an ok).
Proof.
  intros s u an ok. unfold parse_file. destruct (is_config u).
  - eapply keeps_trans; [apply keeps_read_config|]. eapply keeps_trans; [apply keeps_read_config|].
    destruct ok; [|apply keeps_refl].
    eapply keeps_trans; [apply (keeps_fold (fun s f => parse s f (an f))); intros; apply keeps_parse|].
    apply keeps_fold. intros s' f. destruct (present s' f); [apply keeps_filter_and_close|apply keeps_refl].
  - eapply keeps_trans; [apply (keeps_fold touch keeps_touch (dependants s))|].
    cbv zeta. eapply keeps_trans; [apply (keeps_fold (parse_program an)); intros; apply keeps_parse_program|].
    apply keeps_fold. intros s' [f c]. apply keeps_filter_and_close.
Qed.

(** The files as the editor sees them. *)
Definition agrees (d : docs) (s : st) : Prop := forall u,
  match d u with Some f => open_as s u f | None => editing s u = false end.

Lemma agrees_keeps : forall d s s', agrees d s -> keeps s s' -> agrees d s'.
Proof.
  intros d s s' H K u. specialize (H u). destruct (d u) as [f|]; apply (K u); exact H.
Qed.

Lemma agrees_put : forall d s u o', agrees d s -> forall x,
  match x with Some f => fo_edit o' = true /\ fo_fresh o' = true /\ fo_file o' = f | None => fo_edit o' = false end ->
  agrees (set d u x) (put s u (Some o')).
Proof.
  intros d s u o' H x Hx v. unfold set. destruct (beq_spec v u) as [->|N].
  - destruct x as [f|].
    + exists o'. rewrite put_same. tauto.
    + unfold editing. rewrite put_same. exact Hx.
  - specialize (H v). unfold open_as, editing. rewrite put_other by exact N. exact H.
Qed.

Lemma step_agrees : forall d s o s', agrees d s -> step s o = Ok s' -> agrees (editor_step d o) s'.
Proof.
  intros d s o s' H Hs. destruct o as [u v t sh c an ok|u es sh c an ok|u sh|u an ok|u|u c]; cbn [step editor_step] in *.
  - injection Hs as <-. assert (A : agrees (set d u (Some (mkFile t (create_line_indices t) v))) (fm_open s u v t sh)).
    { unfold fm_open. apply agrees_put; [exact H|]. repeat split. }
    destruct c; [exact A|]. eapply agrees_keeps; [exact A|apply keeps_parse_file].
  - unfold fm_change in Hs. pose proof (H u) as Hu. destruct (files s u) as [o|] eqn:E.
    + destruct (apply_edits (fo_file (prepare sh o)) es) as [f| |] eqn:Ea; cbn [bind] in Hs; try discriminate.
      injection Hs as <-.
      assert (Ep : fo_file (prepare sh o) = fo_file o /\ fo_edit (prepare sh o) = fo_edit o /\ fo_fresh (prepare sh o) = fo_fresh o).
      { unfold prepare. destruct sh; [destruct (fo_proc o)|]; auto. }
      destruct Ep as (Ep1 & Ep2 & Ep3). rewrite Ep1 in Ea.
      assert (A : agrees (match d u with Some f0 => match apply_edits f0 es with Changed f' => set d u (Some f') | _ => d end | None => d end)
                         (put s u (Some (with_file (prepare sh o) f)))).
      { destruct (d u) as [f0|] eqn:Ed.
        - destruct Hu as (x & H1 & H2 & H3 & H4). rewrite E in H1. injection H1 as <-. rewrite <- H4, Ea.
          apply agrees_put; [exact H|]. cbn. repeat split; congruence.
        - intros v. destruct (beq_spec v u) as [->|N].
          + rewrite Ed. unfold editing in *. rewrite E in Hu. rewrite put_same. cbn. congruence.
          + specialize (H v). unfold open_as, editing. rewrite put_other by exact N. exact H. }
      destruct c; [exact A|]. eapply agrees_keeps; [exact A|apply keeps_parse_file].
    + cbn [bind] in Hs. injection Hs as <-.
      destruct (d u) as [f0|] eqn:Ed; [destruct Hu as (x & H1 & _); congruence|].
      destruct c; [exact H|]. eapply agrees_keeps; [exact H|apply keeps_parse_file].
  - unfold ws_close in Hs.
    assert (Kt : keeps s (fold_left touch (dependants s) s)) by (apply keeps_fold; apply keeps_touch).
    set (s1 := fold_left touch (dependants s) s) in *.
    assert (H1 : agrees d s1) by (eapply agrees_keeps; eauto).
    assert (Hc : forall s2 sh2, agrees d s2 -> agrees (set d u None) (fm_close s2 u sh2)).
    { intros s2 sh2 A. unfold fm_close. destruct (files s2 u) as [o|] eqn:E.
      - apply agrees_put; [exact A|reflexivity].
      - intros v. unfold set. destruct (beq_spec v u) as [->|N]; [|apply A].
        unfold editing. rewrite E. reflexivity. }
    destruct (is_dependency s1 u).
    + injection Hs as <-. apply Hc. exact H1.
    + assert (Hr : forall s2 sh2, agrees d s2 -> agrees (set d u None) (remove_file (fm_close s2 u sh2) u)).
      { intros s2 sh2 A w. pose proof (Hc s2 sh2 A w) as Hw. unfold set in *. unfold remove_file.
        destruct (beq_spec w u) as [Ew|N].
        - subst w. unfold editing. rewrite put_same. reflexivity.
        - unfold open_as, editing in *. rewrite put_other by exact N. exact Hw. }
      destruct (mem u (dependants s1)).
      * destruct (present s1 u); cbn [bind] in Hs; [|discriminate]. injection Hs as <-. apply Hr.
        intros v. assert (A : agrees d (filter_and_close s1 (deps_of s1 u) u)).
        { eapply agrees_keeps; [exact H1|apply keeps_filter_and_close]. }
        exact (A v).
      * cbn [bind] in Hs. injection Hs as <-. apply Hr. exact H1.
  - injection Hs as <-. eapply agrees_keeps; [exact H|apply keeps_parse_file].
  - destruct (query s u) as [s2 a] eqn:E.
    assert (K : keeps s s2).
    { unfold query in E.
      assert (K : keeps s (touch (fold_left touch (dependants s) s) u)).
      { eapply keeps_trans; [apply (keeps_fold touch keeps_touch)|apply keeps_touch]. }
      destruct (last _ None); injection E as <- _; exact K. }
    destruct a; try discriminate; injection Hs as <-; eapply agrees_keeps; eauto.
  - injection Hs as <-. intros v. exact (H v).
Qed.

Lemma run_agrees : forall ops d s s', agrees d s -> run s ops = Ok s' ->
  agrees (fold_left editor_step ops d) s'.
Proof.
  induction ops as [|o ops IH]; intros d s s' H Hr; cbn [run fold_left] in *.
  - injection Hr as <-. exact H.
  - destruct (step s o) as [s1| |] eqn:E; cbn [bind] in Hr; try discriminate.
    eapply IH; [|exact Hr]. eapply step_agrees; eauto.
Qed.

Lemma open_documents : forall ops dsk s', run (init dsk) ops = Ok s' -> agrees (editor ops) s'.
Proof.
  intros ops dsk s' H. eapply run_agrees; [|exact H]. intros u. reflexivity.
Qed.
