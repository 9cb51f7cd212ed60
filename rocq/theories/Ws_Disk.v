(** Files never opened in the editor carry the contents of the disk; every file that is not a
    configuration file has an analysis to answer queries with. *)
From Coq Require Import List NArith Arith Bool Lia.
From Verif Require Import Common Text_Model Ws_Model Ws_Spec Ws_Proof Ws_Fresh.
Import ListNotations.

(** * The disk *)
Definition disk_text (s : st) (u : uri) : bytes :=
  match disk s u with Some b => repair b | None => [] end.

Definition obj_ok (t : bytes) (o : fobj) : Prop :=
  (fo_fresh o = true -> text (fo_file o) = t) /\ (fo_fresh o = false -> text (fo_file o) = []).
Definition seen_ok (u : uri) (t : bytes) (o : fobj) : Prop :=
  forall x, seen u (oseen o) = Some x -> x = t.
Definition DI (u : uri) (t : bytes) (s : st) : Prop :=
  disk_text s u = t /\ (forall o, files s u = Some o -> obj_ok t o)
  /\ (forall f o, files s f = Some o -> seen_ok u t o).

Lemma DI_put : forall u t s v o, DI u t s -> (v = u -> obj_ok t o) -> seen_ok u t o -> DI u t (put s v (Some o)).
Proof.
  intros u t s v o (H1 & H2 & H3) Ho Hs. split; [exact H1|split].
  - intros x E. destruct (beq_spec u v) as [->|N].
    + rewrite put_same in E. injection E as <-. auto.
    + rewrite put_other in E by exact N. auto.
  - intros f x E. destruct (beq_spec f v) as [->|N].
    + rewrite put_same in E. injection E as <-. exact Hs.
    + rewrite put_other in E by exact N. eapply H3; eauto.
Qed.
Lemma DI_put_none : forall u t s v, DI u t s -> DI u t (put s v None).
Proof.
  intros u t s v (H1 & H2 & H3). split; [exact H1|split].
  - intros x E. destruct (beq_spec u v) as [->|N].
    + rewrite put_same in E. discriminate.
    + rewrite put_other in E by exact N. auto.
  - intros f x E. destruct (beq_spec f v) as [->|N].
    + rewrite put_same in E. discriminate.
    + rewrite put_other in E by exact N. eapply H3; eauto.
Qed.

Lemma obj_ok_to_proc : forall t o, obj_ok t o -> obj_ok t (to_proc o).
Proof. intros t o H. unfold to_proc. destruct (fo_proc o); exact H. Qed.
Lemma seen_ok_to_proc : forall u t o, seen_ok u t o -> seen_ok u t (to_proc o).
Proof.
  intros u t o H. unfold to_proc. destruct (fo_proc o) eqn:E; [exact H|]. intros x. cbn. discriminate.
Qed.
Lemma obj_ok_new : forall t, obj_ok t new_file.
Proof. intros t. split; cbn; congruence. Qed.
Lemma seen_ok_new : forall u t, seen_ok u t new_file.
Proof. intros u t x. cbn. discriminate. Qed.

Lemma load_text_ok : forall s u o, obj_ok (disk_text s u) (load_text s u o)
  /\ text (fo_file (load_text s u o)) = disk_text s u.
Proof.
  intros s u o. unfold load_text, disk_text, obj_ok. destruct (disk s u); cbn; repeat split; congruence.
Qed.
Lemma get_text_ok : forall s u o, obj_ok (disk_text s u) o ->
  obj_ok (disk_text s u) (get_text s u o) /\ text (fo_file (get_text s u o)) = disk_text s u.
Proof.
  intros s u o H. unfold get_text. destruct (fo_fresh o) eqn:E.
  - split; [exact H|]. apply H. exact E.
  - apply load_text_ok.
Qed.
Lemma oseen_get_text : forall s u o, oseen (get_text s u o) = oseen o.
Proof.
  intros s u o. unfold get_text, load_text. destruct (fo_fresh o); [reflexivity|]. destruct (disk s u); reflexivity.
Qed.

Lemma DI_fold : forall u t {A} (g : st -> A -> st), (forall s x, DI u t s -> DI u t (g s x)) ->
  forall l s, DI u t s -> DI u t (fold_left g l s).
Proof. intros u t A g H l. induction l as [|x l IH]; intros s Hs; cbn [fold_left]; auto. Qed.

Lemma DI_touch : forall u t s v, DI u t s -> DI u t (touch s v).
Proof.
  intros u t s v H. unfold touch, find_processor_file. destruct (files s v) as [o|] eqn:E; cbn [fst]; [|exact H].
  apply DI_put; [exact H| |].
  - intros ->. apply obj_ok_to_proc. apply H. exact E.
  - apply seen_ok_to_proc. eapply (proj2 (proj2 H)); eauto.
Qed.

Lemma DI_add : forall u t s v, DI u t s -> DI u t (add_processor_file s v).
Proof.
  intros u t s v H. unfold add_processor_file. destruct (files s v) as [o|] eqn:E.
  - apply DI_put; [exact H| |].
    + intros ->. apply obj_ok_to_proc. apply H. exact E.
    + apply seen_ok_to_proc. eapply (proj2 (proj2 H)); eauto.
  - apply DI_put; [exact H| |].
    + intros ->. apply obj_ok_to_proc. apply obj_ok_new.
    + apply seen_ok_to_proc. apply seen_ok_new.
Qed.

Lemma DI_load_dep : forall u t s v, DI u t s ->
  DI u t (load_dep s v) /\ (v = u -> text_of (load_dep s v) u = t).
Proof.
  intros u t s v H0. pose proof (DI_add u t s v H0) as H. unfold load_dep.
  destruct (files (add_processor_file s v) v) as [o|] eqn:E; [|rewrite files_add_proc in E; discriminate].
  set (s1 := add_processor_file s v) in *. cbv zeta.
  assert (Hg : v = u -> obj_ok t (get_text s1 v o) /\ text (fo_file (get_text s1 v o)) = t).
  { intros ->. destruct H as (H1 & H2 & H3). rewrite <- H1. apply get_text_ok. rewrite H1. auto. }
  split.
  - apply DI_put; [exact H| |].
    + intros Ev. apply Hg. exact Ev.
    + intros x. unfold oseen. cbn [with_proc fo_proc p_seen].
      replace (match fo_proc (get_text s1 v o) with Some p => p | None => new_proc end)
        with (match fo_proc (get_text s1 v o) with Some p => p | None => new_proc end) by reflexivity.
      intros Hx. apply (proj2 (proj2 H) v o E). rewrite <- (oseen_get_text s1 v o). unfold oseen.
      destruct (fo_proc (get_text s1 v o)); exact Hx.
  - intros ->. rewrite put_text, beq_refl. apply Hg. reflexivity.
Qed.

Lemma text_load_other : forall u t s v, DI u t s -> text_of s u = t -> present s u = true ->
  text_of (load_dep s v) u = t /\ present (load_dep s v) u = true.
Proof.
  intros u t s v H Ht Hp. destruct (beq_spec v u) as [->|N].
  - split; [apply DI_load_dep; auto|apply present_load_dep].
  - unfold load_dep. rewrite files_add_proc. rewrite put_text, put_present.
    destruct (beq_spec u v) as [E|_]; [congruence|].
    unfold text_of, present, add_processor_file in *.
    destruct (files s v); rewrite put_other by congruence; auto.
Qed.

Lemma DI_loads : forall u t l s, DI u t s ->
  DI u t (fold_left load_dep l s)
  /\ ((In u l \/ (text_of s u = t /\ present s u = true)) ->
      text_of (fold_left load_dep l s) u = t /\ present (fold_left load_dep l s) u = true).
Proof.
  intros u t l. induction l as [|v l IH]; intros s H; cbn [fold_left].
  - split; [exact H|]. intros [[]|K]; exact K.
  - destruct (DI_load_dep u t s v H) as [K1 K2]. destruct (IH _ K1) as [K3 K4]. split; [exact K3|].
    intros [[->|Hin]|[Ht Hp]]; apply K4; auto.
    + right. split; [auto|apply present_load_dep].
    + right. apply text_load_other; auto.
Qed.

Lemma seen_map_inv : forall (h : uri -> bytes) l g x, seen g (map (fun d => (d, h d)) l) = Some x -> In g l /\ x = h g.
Proof.
  intros h l g x. induction l as [|y l IH]; cbn [map seen]; [discriminate|].
  destruct (beq_spec g y) as [->|N]; intros H.
  - injection H as <-. split; [left|]; reflexivity.
  - destruct (IH H). split; [right; assumption|assumption].
Qed.

Lemma DI_parse : forall u t s v a, DI u t s -> DI u t (parse s v a).
Proof.
  intros u t s v a H. unfold parse. destruct (files s v) as [o0|] eqn:E; [|exact H].
  set (o1 := get_text s v (to_proc o0)).
  assert (Hg : v = u -> obj_ok t o1 /\ text (fo_file o1) = t).
  { intros ->. unfold o1. destruct H as (H1 & H2 & H3). rewrite <- H1. apply get_text_ok.
    apply obj_ok_to_proc. rewrite H1. auto. }
  assert (H1 : DI u t (put s v (Some o1))).
  { apply DI_put; [exact H|apply Hg|]. unfold o1. intros x. rewrite oseen_get_text.
    apply seen_ok_to_proc. eapply (proj2 (proj2 H)); eauto. }
  set (s1 := put s v (Some o1)) in *.
  set (l := a_loads a ++ a_visits a).
  destruct (DI_loads u t l s1 H1) as [K1 K2]. set (s2 := fold_left load_dep l s1) in *. cbv zeta.
  destruct (files s2 v) as [o|] eqn:E2; [|exact K1].
  apply DI_put; [exact K1| |].
  - intros ->. exact (proj1 (proj2 K1) o E2).
  - intros x. unfold oseen. cbn [with_proc fo_proc p_seen]. intros Hx.
    apply (seen_map_inv (text_of s2) (v :: l)) in Hx as [Hin ->].
    apply K2. destruct Hin as [->|Hin]; [|auto]. right. unfold s1. rewrite put_text, put_present, beq_refl.
    split; [apply Hg; reflexivity|reflexivity].
Qed.

Lemma DI_fm_close : forall u t s v sh, DI u t s -> DI u t (fm_close s v sh).
Proof.
  intros u t s v sh H. unfold fm_close. destruct (files s v) as [o|] eqn:E; [|exact H].
  destruct (prepare_file sh o) as (P1 & P2 & P3). apply DI_put; [exact H| |].
  - intros ->. unfold obj_ok. cbn. rewrite P1, P2. apply (proj1 (proj2 H)). exact E.
  - intros x. unfold oseen. cbn [fo_proc]. destruct (prepare_proc sh o) as [P|P]; rewrite P.
    + apply (proj2 (proj2 H) v o E).
    + cbn. discriminate.
Qed.

Lemma DI_filter_and_close : forall u t s deps v, DI u t s -> DI u t (filter_and_close s deps v).
Proof.
  intros u t s deps v H. unfold filter_and_close. cbv zeta.
  apply DI_fold. { intros s' x Hs. apply DI_put_none. apply DI_fm_close. exact Hs. }
  apply DI_fold. { intros; apply DI_touch; auto. }
  apply DI_fold; [|exact H]. intros; apply DI_touch; auto.
Qed.

Lemma DI_ext : forall u t s s', (forall v, files s' v = files s v) -> disk s' u = disk s u -> DI u t s -> DI u t s'.
Proof.
  intros u t s s' F D (H1 & H2 & H3). split; [|split].
  - unfold disk_text in *. rewrite D. exact H1.
  - intros o. rewrite F. apply H2.
  - intros f o. rewrite F. apply H3.
Qed.

Lemma DI_read_config : forall u t s v, DI u t s -> DI u t (read_config s v).
Proof.
  intros u t s v H. unfold read_config.
  assert (H1 : DI u t (add_file s v)).
  { unfold add_file. destruct (files s v) eqn:E; [exact H|]. apply DI_put; [exact H| |].
    - intros _. apply obj_ok_new.
    - apply seen_ok_new. }
  destruct (files (add_file s v) v) as [o|] eqn:E; [|exact H1]. destruct (fo_edit o); [exact H1|].
  apply DI_put; [exact H1| |].
  - intros ->. destruct H1 as (A & B & C). rewrite <- A. apply load_text_ok.
  - intros x Hx. apply (proj2 (proj2 H1) v o E). revert Hx. unfold load_text, oseen. destruct (disk _ v); auto.
Qed.

Lemma DI_parse_file : forall u t s v an ok, DI u t s -> DI u t (parse_file s v an ok).
Proof.
  intros u t s v an ok H. unfold parse_file. destruct (is_config v).
  - assert (H1 : DI u t (read_config (read_config s proc_grps) pgm_conf)).
    { apply DI_read_config. apply DI_read_config. exact H. }
    destruct ok; [|exact H1]. cbv zeta.
    apply DI_fold. { intros s' f Hs. destruct (present s' f); [apply DI_filter_and_close|]; exact Hs. }
    apply DI_fold; [|exact H1]. intros; apply DI_parse; auto.
  - cbv zeta. apply DI_fold. { intros s' f Hs. apply DI_filter_and_close. exact Hs. }
    apply DI_fold.
    { intros s' f Hs. unfold parse_program. pose proof (DI_parse u t s' f (an f) Hs) as K.
      destruct (deps_of _ f); [exact K|]. eapply DI_ext; [| |exact K]; reflexivity. }
    apply DI_fold; [|exact H]. intros; apply DI_touch; auto.
Qed.

(** The editor never edits [u] and nobody writes it. *)
Definition leaves (u : uri) (o : op) : Prop :=
  match o with
  | Open v _ _ _ _ _ _ | Change v _ _ _ _ _ | Disk v _ => v <> u
  | _ => True
  end.

Lemma DI_step : forall u t s o s', DI u t s -> leaves u o -> step s o = Ok s' -> DI u t s'.
Proof.
  intros u t s o s' H Hl Hs.
  destruct o as [v n x sh c an ok|v es sh c an ok|v sh|v an ok|v|v c]; cbn [step leaves] in *.
  - injection Hs as <-.
    assert (H1 : DI u t (fm_open s v n x sh)).
    { unfold fm_open. apply DI_put; [exact H|contradiction|].
      intros y. unfold oseen. cbn [fo_proc]. destruct (prepare_proc sh (match files s v with Some o => o | None => new_file end)) as [P|P]; rewrite P.
      - destruct (files s v) as [o|] eqn:E; [apply (proj2 (proj2 H) v o E)|cbn; discriminate].
      - cbn. discriminate. }
    destruct c; [exact H1|apply DI_parse_file; exact H1].
  - unfold fm_change in Hs. destruct (files s v) as [o|] eqn:E.
    + destruct (apply_edits _ es) as [f| |]; cbn [bind] in Hs; try discriminate. injection Hs as <-.
      assert (H1 : DI u t (put s v (Some (with_file (prepare sh o) f)))).
      { apply DI_put; [exact H|contradiction|].
        intros y. unfold oseen. cbn [with_file fo_proc]. destruct (prepare_proc sh o) as [P|P]; rewrite P.
        - apply (proj2 (proj2 H) v o E).
        - cbn. discriminate. }
      destruct c; [exact H1|apply DI_parse_file; exact H1].
    + cbn [bind] in Hs. injection Hs as <-. destruct c; [exact H|apply DI_parse_file; exact H].
  - unfold ws_close in Hs.
    set (s1 := fold_left touch (dependants s) s) in *.
    assert (H1 : DI u t s1) by (apply DI_fold; [intros; apply DI_touch; auto|exact H]).
    destruct (is_dependency s1 v); [injection Hs as <-; apply DI_fm_close; exact H1|].
    destruct (mem v (dependants s1)).
    + destruct (present s1 v); cbn [bind] in Hs; [|discriminate]. injection Hs as <-.
      apply DI_put_none. apply DI_fm_close.
      eapply DI_ext; [| |apply (DI_filter_and_close u t s1 (deps_of s1 v) v H1)]; reflexivity.
    + cbn [bind] in Hs. injection Hs as <-. apply DI_put_none. apply DI_fm_close. exact H1.
  - injection Hs as <-. apply DI_parse_file. exact H.
  - assert (K : forall x a, query s v = (x, a) -> DI u t x).
    { intros x a E. unfold query in E.
      assert (B : DI u t (touch (fold_left touch (dependants s) s) v)).
      { apply DI_touch. apply DI_fold; [intros; apply DI_touch; auto|exact H]. }
      destruct (last _ None); injection E as <- _; exact B. }
    destruct (query s v) as [x a] eqn:E. destruct a; try discriminate; injection Hs as <-; eapply K; eauto.
  - injection Hs as <-. eapply DI_ext; [| |exact H]; [reflexivity|]. cbn.
    destruct (beq_spec u v) as [->|N]; [contradiction|reflexivity].
Qed.

Lemma DI_run : forall u t ops s s', DI u t s -> Forall (leaves u) ops -> run s ops = Ok s' -> DI u t s'.
Proof.
  intros u t ops. induction ops as [|o ops IH]; intros s s' H Hl Hr; cbn [run] in Hr.
  - injection Hr as <-. exact H.
  - inversion_clear Hl as [|? ? L1 L2]. destruct (step s o) as [s1| |] eqn:E; cbn [bind] in Hr; try discriminate.
    eapply IH; [eapply DI_step; eauto|exact L2|exact Hr].
Qed.

Lemma DI_absent : forall u s, files s u = None -> (forall f o, files s f = Some o -> seen u (oseen o) = None) ->
  DI u (disk_text s u) s.
Proof.
  intros u s H1 H2. split; [reflexivity|split].
  - intros o E. congruence.
  - intros f o E x Hx. rewrite (H2 f o E) in Hx. discriminate.
Qed.
Lemma DI_init : forall u dsk, DI u (disk_text (init dsk) u) (init dsk).
Proof. intros u dsk. apply DI_absent; [reflexivity|]. intros f o E. discriminate. Qed.

(** * Analyses exist *)
Definition AI (P : uri -> Prop) (s : st) : Prop :=
  forall v, P v -> present s v = true -> is_config v = false -> analysed s v = true.
Definition oanalysed (o : fobj) : bool := match fo_proc o with Some p => p_analysed p | None => false end.
Lemma put_analysed : forall s u o f, analysed (put s u (Some o)) f = if bytes_eqb f u then oanalysed o else analysed s f.
Proof. intros. unfold analysed. cbn. destruct (bytes_eqb f u); reflexivity. Qed.
Lemma AI_put : forall (P : uri -> Prop) s u o, AI (fun v => P v /\ v <> u) s -> (P u -> is_config u = false -> oanalysed o = true) ->
  AI P (put s u (Some o)).
Proof.
  intros P s u o H Ho v Pv Hp Hc. rewrite put_analysed. rewrite put_present in Hp.
  destruct (beq_spec v u) as [->|N]; [auto|]. apply H; auto.
Qed.
Lemma AI_impl : forall (P Q : uri -> Prop) s, (forall v, Q v -> P v) -> AI P s -> AI Q s.
Proof. intros P Q s H K v Qv. apply K. auto. Qed.
Lemma AI_fold : forall P {A} (g : st -> A -> st), (forall s x, AI P s -> AI P (g s x)) ->
  forall l s, AI P s -> AI P (fold_left g l s).
Proof. intros P A g H l. induction l as [|x l IH]; intros s Hs; cbn [fold_left]; auto. Qed.
Lemma AI_same : forall P s u o o', AI P s -> files s u = Some o -> (oanalysed o = true -> oanalysed o' = true) ->
  AI P (put s u (Some o')).
Proof.
  intros P s u o o' H E Ho. apply AI_put; [eapply AI_impl; [|exact H]; tauto|].
  intros Pu Hc. apply Ho. specialize (H u Pu). unfold present, analysed, oanalysed in *. rewrite E in H. auto.
Qed.
Lemma oanalysed_to_proc : forall o, oanalysed o = true -> oanalysed (to_proc o) = true.
Proof. intros o. unfold oanalysed, to_proc. destruct (fo_proc o) eqn:E; [rewrite E; auto|discriminate]. Qed.
Lemma oanalysed_get : forall s u o, oanalysed (get_text s u o) = oanalysed o.
Proof. intros s u o. unfold get_text, load_text. destruct (fo_fresh o); [|destruct (disk s u)]; reflexivity. Qed.

Lemma AI_touch : forall P s u, AI P s -> AI P (touch s u).
Proof.
  intros P s u H. unfold touch, find_processor_file. destruct (files s u) as [o|] eqn:E; cbn [fst]; [|exact H].
  eapply AI_same; eauto. apply oanalysed_to_proc.
Qed.
Lemma AI_load_dep : forall P s u, AI P s -> AI P (load_dep s u).
Proof.
  intros P s u H. unfold load_dep. rewrite files_add_proc. apply AI_put; [|reflexivity].
  intros v [Pv N] Hp Hc. unfold present, analysed, add_processor_file in *.
  specialize (H v Pv). unfold present, analysed in H.
  destruct (files s u); rewrite put_other in * by exact N; auto.
Qed.
Lemma AI_parse : forall (P : uri -> Prop) s u a, AI P s -> present s u = true ->
  AI (fun v => P v \/ v = u) (parse s u a).
Proof.
  intros P s u a H Hp. unfold parse. unfold present in Hp. destruct (files s u) as [o0|] eqn:E; [|discriminate].
  set (s1 := put s u _). assert (H1 : AI P s1).
  { eapply AI_same; eauto. intros Ho. rewrite oanalysed_get. apply oanalysed_to_proc. exact Ho. }
  set (s2 := fold_left load_dep _ s1). assert (H2 : AI P s2) by (apply AI_fold; [intros; apply AI_load_dep; auto|exact H1]).
  assert (P2 : present s2 u = true).
  { unfold s2. assert (G : forall l s, present s u = true -> present (fold_left load_dep l s) u = true).
    { induction l as [|x l IH]; intros x0 K; [exact K|]. cbn [fold_left]. apply IH.
      unfold load_dep. rewrite files_add_proc, put_present. destruct (beq_spec u x); [reflexivity|].
      unfold present, add_processor_file in *. destruct (files x0 x); rewrite put_other by assumption; exact K. }
    apply G. unfold s1. rewrite put_present, beq_refl. reflexivity. }
  cbv zeta. unfold present in P2. destruct (files s2 u) as [o|] eqn:E2; [|discriminate].
  apply AI_put; [|reflexivity]. intros v [[Pv|Ev] N]; [apply H2; exact Pv|contradiction].
Qed.
Lemma AI_close_one : forall P s d, AI P s -> AI P (close_one s d).
Proof.
  intros P s d H v Pv. unfold present, analysed. rewrite close_one_files. destruct (bytes_eqb v d); [discriminate|].
  apply H. exact Pv.
Qed.
Lemma AI_filter_and_close : forall P s deps u, AI P s -> AI P (filter_and_close s deps u).
Proof.
  intros P s deps u H. unfold filter_and_close. cbv zeta.
  apply AI_fold; [intros; apply AI_close_one; auto|].
  apply AI_fold; [intros; apply AI_touch; auto|].
  apply AI_fold; [intros; apply AI_touch; auto|exact H].
Qed.
Lemma AI_read_config : forall P s u, is_config u = true -> AI P s -> AI P (read_config s u).
Proof.
  intros P s u Hc H. unfold read_config.
  assert (H1 : AI P (add_file s u)).
  { unfold add_file. destruct (files s u) eqn:E; [exact H|]. apply AI_put; [eapply AI_impl; [|exact H]; tauto|congruence]. }
  destruct (files (add_file s u) u) as [o|] eqn:E; [|exact H1]. destruct (fo_edit o); [exact H1|].
  eapply AI_same; eauto. unfold load_text, oanalysed. destruct (disk _ u); auto.
Qed.

Lemma parse_dependants : forall s u a, dependants (parse s u a) = dependants s.
Proof.
  assert (L : forall l s, dependants (fold_left load_dep l s) = dependants s).
  { induction l as [|x l IH]; intros s; [reflexivity|]. cbn [fold_left]. rewrite IH. unfold load_dep.
    rewrite files_add_proc. cbn. unfold add_processor_file. destruct (files s x); reflexivity. }
  intros s u a. unfold parse. destruct (files s u); [|reflexivity]. cbv zeta.
  destruct (files (fold_left load_dep _ _) u); cbn; rewrite L; reflexivity.
Qed.
Lemma touches_dependants : forall l s, dependants (fold_left touch l s) = dependants s.
Proof.
  induction l as [|x l IH]; intros s; [reflexivity|]. cbn [fold_left]. rewrite IH.
  unfold touch, find_processor_file. destruct (files s x); reflexivity.
Qed.
Lemma fc_dependants : forall s deps u, dependants (filter_and_close s deps u) = dependants s.
Proof. intros. unfold filter_and_close. rewrite close_all_dep, !touches_dependants. reflexivity. Qed.

(** Dependants are never configuration files. *)
Definition NC (s : st) : Prop := forall f, In f (dependants s) -> is_config f = false.

Definition all (_ : uri) : Prop := True.
Lemma AI_parse_file : forall (P : uri -> Prop) s u an ok, AI P s ->
  (forall v, v <> u -> P v) ->
  (is_config u = true \/ P u \/ (forall f, ~ In u (deps_of s f))) ->
  AI all (parse_file s u an ok).
Proof.
  intros P s u an ok H Hother Hu. unfold parse_file. destruct (is_config u) eqn:Hc.
  - assert (H0 : AI all s).
    { intros v _ Hp Hv. apply H; auto. apply Hother. intros ->. congruence. }
    assert (H1 : AI all (read_config (read_config s proc_grps) pgm_conf)).
    { apply (AI_read_config all _ pgm_conf eq_refl). apply (AI_read_config all _ proc_grps eq_refl). exact H0. }
    destruct ok; [|exact H1]. cbv zeta.
    apply AI_fold. { intros s' f Hs. destruct (present s' f); [apply AI_filter_and_close|]; exact Hs. }
    apply AI_fold; [|exact H1]. intros s' f Hs. destruct (present s' f) eqn:Ep.
    + eapply AI_impl; [|apply (AI_parse all s' f (an f) Hs Ep)]. left. exact I.
    + unfold parse. unfold present in Ep. destruct (files s' f); [discriminate|exact Hs].
  - cbv zeta. set (s1 := fold_left touch (dependants s) s).
    assert (H1 : AI P s1) by (apply AI_fold; [intros; apply AI_touch; auto|exact H]).
    set (users := filter _ (dependants s1)).
    set (todo := match users with [] => if present s1 u then [u] else [] | _ => users end).
    apply AI_fold. { intros s' f Hs. apply AI_filter_and_close. exact Hs. }
    assert (Hpp : forall (Q : uri -> Prop) s' f, AI Q s' ->
      AI (fun v => Q v \/ (v = f /\ present s' f = true)) (parse_program an s' f)).
    { intros Q s' f Hs. unfold parse_program.
      assert (K : AI (fun v => Q v \/ (v = f /\ present s' f = true)) (parse s' f (an f))).
      { destruct (present s' f) eqn:Ep.
        - eapply AI_impl; [|apply (AI_parse Q s' f (an f) Hs Ep)]. cbn. tauto.
        - unfold parse. unfold present in Ep. destruct (files s' f); [discriminate|].
          eapply AI_impl; [|exact Hs]. cbn. intros v [?|[_ ?]]; [assumption|discriminate]. }
      destruct (deps_of _ f); exact K. }
    assert (Hp : forall Q, AI Q s1 -> (forall v, Q v) -> AI all (fold_left (parse_program an) todo s1)).
    { intros Q HQ Hall. eapply AI_impl with (P := Q); [intros; apply Hall|].
      apply AI_fold; [|exact HQ]. intros s' f Hs. eapply AI_impl; [|apply Hpp; exact Hs]. tauto. }
    destruct Hu as [?|[Pu|Hn]]; [congruence| |].
    + apply (Hp P H1). intros v. destruct (beq_spec v u) as [->|N]; auto.
    + assert (Eu : users = []).
      { unfold users. destruct (filter _ _) as [|f l] eqn:Ef; [reflexivity|]. exfalso.
        assert (Hin : In f (f :: l)) by (left; reflexivity). rewrite <- Ef in Hin.
        apply filter_In in Hin as [_ Hin]. apply mem_spec in Hin. apply (Hn f).
        assert (Ed : forall l s f, deps_of (fold_left touch l s) f = deps_of s f).
        { clear. induction l as [|x l IH]; intros s f; [reflexivity|]. cbn [fold_left]. rewrite IH.
          unfold touch, find_processor_file. destruct (files s x) as [o|] eqn:E; [|reflexivity]. cbn [fst].
          rewrite put_deps. destruct (beq_spec f x) as [->|]; [|reflexivity].
          rewrite (proj1 (odeps_to_proc o)). unfold deps_of. rewrite E. reflexivity. }
        unfold s1 in Hin. rewrite Ed in Hin. exact Hin. }
      unfold todo. rewrite Eu. destruct (present s1 u) eqn:Ep.
      * cbn [fold_left]. eapply AI_impl; [|apply (Hpp P s1 u H1)]. cbn. intros v _.
        destruct (beq_spec v u) as [->|N]; auto.
      * cbn [fold_left]. intros v _ Hv. apply H1; auto. apply Hother. intros ->. congruence.
Qed.

Lemma NC_parse_file : forall s u an ok, NC s -> NC (parse_file s u an ok).
Proof.
  intros s u an ok H. unfold parse_file. destruct (is_config u) eqn:Hc.
  - assert (Er : forall s v, dependants (read_config s v) = dependants s).
    { intros s' v. unfold read_config, add_file. destruct (files s' v) eqn:E.
      - rewrite E. destruct (fo_edit _); reflexivity.
      - rewrite put_same. reflexivity. }
    assert (Ep : forall l s, dependants (fold_left (fun s f => parse s f (an f)) l s) = dependants s).
    { induction l as [|x l IH]; intros s'; [reflexivity|]. cbn [fold_left]. rewrite IH. apply parse_dependants. }
    assert (Ec : forall l s, dependants (fold_left (fun s f => if present s f then filter_and_close s (close_of s f) f else s) l s) = dependants s).
    { induction l as [|x l IH]; intros s'; [reflexivity|]. cbn [fold_left]. rewrite IH.
      destruct (present s' x); [apply fc_dependants|reflexivity]. }
    intros f. destruct ok; rewrite ?Ec, ?Ep, !Er; apply H.
  - cbv zeta.
    assert (Ec : forall l s, dependants (fold_left (fun s fc => filter_and_close s (snd fc) (fst fc)) l s) = dependants s).
    { induction l as [|x l IH]; intros s'; [reflexivity|]. cbn [fold_left]. rewrite IH. apply fc_dependants. }
    intros f. rewrite Ec. revert f.
    set (s1 := fold_left touch (dependants s) s).
    assert (H1 : NC s1) by (intros f; unfold s1; rewrite touches_dependants; apply H).
    set (users := filter _ (dependants s1)).
    set (todo := match users with [] => if present s1 u then [u] else [] | _ => users end).
    assert (Ht : forall f, In f todo -> is_config f = false).
    { intros f Hf. unfold todo in Hf. destruct users as [|x l] eqn:Ef.
      - destruct (present s1 u); [destruct Hf as [<-|[]]; exact Hc|destruct Hf].
      - rewrite <- Ef in Hf. unfold users in Hf. apply filter_In in Hf as [Hf _]. apply H1. exact Hf. }
    revert H1 Ht. generalize s1. induction todo as [|x l IH]; intros s0 H1 Ht; [exact H1|].
    cbn [fold_left]. apply IH; [|intros; apply Ht; right; assumption].
    intros f Hf. unfold parse_program in Hf. destruct (deps_of _ x); [rewrite parse_dependants in Hf; auto|].
    unfold add_dependant in Hf. cbn [dependants] in Hf. rewrite parse_dependants in Hf.
    destruct (mem x (dependants s0)); [auto|]. apply in_app_iff in Hf as [Hf|[<-|[]]]; [auto|].
    apply Ht. left. reflexivity.
Qed.

Lemma step_AI : forall d s o s', agrees d s -> Inv none s -> AI all s -> NC s -> calm_op d o -> unshared_op o ->
  step s o = Ok s' -> AI all s' /\ NC s'.
Proof.
  intros d s o s' Hag HI HA HN Hc Hu Hs.
  assert (Hput : forall u o', (forall x, files s u = Some x -> oanalysed x = true -> oanalysed o' = true) ->
    AI (fun v => v <> u \/ files s u <> None) (put s u (Some o'))).
  { intros u o' K. apply AI_put; [eapply AI_impl; [|exact HA]; intros; exact I|].
    intros [?|E] C; [contradiction|]. destruct (files s u) as [x|] eqn:Ex; [|contradiction].
    apply (K x eq_refl). specialize (HA u I). unfold present, analysed in HA. rewrite Ex in HA. apply HA; auto. }
  assert (Hfile : forall s1 u an ok, AI (fun v => v <> u \/ files s u <> None) s1 ->
    (forall f, deps_of s1 f = deps_of s f) -> AI all (parse_file s1 u an ok)).
  { intros s1 u an ok K D. eapply AI_parse_file; [exact K|left; assumption|].
    destruct (files s u) eqn:E; [right; left; right; discriminate|]. right. right. intros f Hf.
    rewrite D in Hf. destruct (i_seen _ _ HI f u Hf) as [_ [[]|[Q _]]].
    unfold present in Q. rewrite E in Q. discriminate. }
  destruct o as [u v t sh c an ok|u es sh c an ok|u sh|u an ok|u|u c]; cbn [step calm_op unshared_op] in *.
  - destruct Hc as [-> Ha]. subst sh. injection Hs as <-. unfold fm_open. split.
    + apply Hfile.
      * apply Hput. intros x E. rewrite E. cbn. auto.
      * intros f. rewrite put_deps. destruct (beq_spec f u) as [->|]; [|reflexivity].
        unfold odeps, deps_of. cbn. destruct (files s u); reflexivity.
    + apply NC_parse_file. exact HN.
  - destruct Hc as (Hd & -> & Ha). subst sh. unfold fm_change in Hs. destruct (files s u) as [o|] eqn:E.
    + destruct (apply_edits _ es) as [f| |]; cbn [bind] in Hs; try discriminate. injection Hs as <-. split.
      * apply Hfile.
        -- apply Hput. intros x Ex. rewrite E in Ex. injection Ex as <-. cbn. auto.
        -- intros g. rewrite put_deps. destruct (beq_spec g u) as [->|]; [|reflexivity].
           unfold odeps, deps_of. cbn. rewrite E. reflexivity.
      * apply NC_parse_file. exact HN.
    + pose proof (Hag u) as A. destruct (d u); [|contradiction]. destruct A as (x & A1 & _). congruence.
  - subst sh. unfold ws_close in Hs. set (s1 := fold_left touch (dependants s) s) in *.
    assert (H1 : AI all s1) by (apply AI_fold; [intros; apply AI_touch; auto|exact HA]).
    assert (E1 : dependants s1 = dependants s) by apply touches_dependants.
    assert (Hfc : forall s, AI all s -> AI all (fm_close s u false)).
    { intros s2 H2. unfold fm_close. destruct (files s2 u) as [o|] eqn:E; [|exact H2].
      eapply AI_same; [exact H2|exact E|]. cbn. auto. }
    assert (Hfd : forall s, dependants (fm_close s u false) = dependants s).
    { intros s2. unfold fm_close. destruct (files s2 u); reflexivity. }
    assert (Hrm : forall s, AI all s -> AI all (remove_file s u)).
    { intros s2 H2 v _. unfold present, analysed, remove_file. cbn. destruct (bytes_eqb v u); [discriminate|].
      apply H2. exact I. }
    destruct (is_dependency s1 u).
    + injection Hs as <-. split; [auto|]. intros f. rewrite Hfd, E1. apply HN.
    + destruct (mem u (dependants s1)).
      * destruct (present s1 u); cbn [bind] in Hs; [|discriminate]. injection Hs as <-. split.
        -- apply Hrm. apply Hfc. intros v. apply (AI_filter_and_close all s1 (deps_of s1 u) u H1 v).
        -- intros f. unfold remove_file. cbn [put dependants]. rewrite Hfd. cbn [dependants].
           rewrite fc_dependants, E1. intros Hf. apply in_minus in Hf as [Hf _]. auto.
      * cbn [bind] in Hs. injection Hs as <-. split; [auto|].
        intros f. unfold remove_file. cbn [put dependants]. rewrite Hfd, E1. apply HN.
  - injection Hs as <-. split; [|apply NC_parse_file; exact HN]. apply Hfile; [|reflexivity].
    eapply AI_impl; [|exact HA]. intros; exact I.
  - assert (K : forall x a, query s u = (x, a) -> AI all x /\ NC x).
    { intros x a E. unfold query in E.
      assert (B : AI all (touch (fold_left touch (dependants s) s) u)).
      { apply AI_touch. apply AI_fold; [intros; apply AI_touch; auto|exact HA]. }
      assert (B2 : dependants (touch (fold_left touch (dependants s) s) u) = dependants s).
      { transitivity (dependants (fold_left touch (dependants s) s)); [apply (touches_dependants [u])|apply touches_dependants]. }
      destruct (last _ None); injection E as <- _; (split; [exact B|]); intros f; rewrite B2; apply HN. }
    destruct (query s u) as [x a] eqn:E. destruct a; try discriminate; injection Hs as <-; eapply K; eauto.
  - injection Hs as <-. split; [intros v; apply (HA v)|exact HN].
Qed.

Lemma run_AI : forall ops d s s', agrees d s -> Inv none s -> AI all s -> NC s -> calm d ops -> Forall unshared_op ops ->
  run s ops = Ok s' -> AI all s' /\ NC s'.
Proof.
  induction ops as [|o ops IH]; intros d s s' Hag HI HA HN Hc Hu Hr; cbn [run calm] in *.
  - injection Hr as <-. auto.
  - destruct Hc as [C1 C2]. inversion_clear Hu as [|? ? U1 U2].
    destruct (step s o) as [s1| |] eqn:E; cbn [bind] in Hr; try discriminate.
    destruct (step_AI d s o s1 Hag HI HA HN C1 U1 E) as [A1 A2].
    eapply IH; [eapply step_agrees; eauto|eapply step_inv; eauto|exact A1|exact A2|exact C2|exact U2|exact Hr].
Qed.

Lemma reach_all : forall ops dsk s', calm no_docs ops -> Forall unshared_op ops -> run (init dsk) ops = Ok s' ->
  AI all s' /\ NC s'.
Proof.
  intros ops dsk s' Hc Hu Hr. apply (run_AI ops no_docs (init dsk)); auto.
  - intros u. reflexivity.
  - apply init_inv.
  - intros v _ H. discriminate H.
  - intros f [].
Qed.

Lemma last_in : forall {A} (l : list A) x, last (map Some l) None = Some x -> In x l.
Proof.
  intros A l x. induction l as [|a l IH]; [discriminate|]. destruct l as [|b l].
  - cbn. intros E. injection E as <-. auto.
  - cbn [map last] in *. intros E. right. apply IH. exact E.
Qed.

Lemma query_answered : forall s u, AI all s -> NC s -> is_config u = false -> snd (query s u) <> Crash.
Proof.
  intros s u HA HN Hc. unfold query. set (s1 := touch (fold_left touch (dependants s) s) u).
  assert (H1 : AI all s1).
  { apply AI_touch. apply AI_fold; [intros; apply AI_touch; auto|exact HA]. }
  assert (E1 : dependants s1 = dependants s).
  { transitivity (dependants (fold_left touch (dependants s) s)); [apply (touches_dependants [u])|apply touches_dependants]. }
  destruct (last (map Some (related s1 u)) None) as [f|] eqn:E; [|discriminate].
  apply last_in in E. cbn [snd].
  assert (G : present s1 f = true /\ is_config f = false).
  { unfold related in E. destruct (filter _ _) as [|x l] eqn:Ef.
    - destruct (present s1 u) eqn:Ep; [|destruct E]. destruct E as [<-|[]]. auto.
    - rewrite <- Ef in E. apply filter_In in E as [E1' E2]. split; [|apply HN; rewrite <- E1; exact E1'].
      apply mem_spec in E2. unfold present. unfold deps_of in E2. destruct (files s1 f); [reflexivity|destruct E2]. }
  destruct G as [G1 G2]. rewrite (H1 f I G1 G2). discriminate.
Qed.
