(** C14 open documents, C44 files that are not open, C45 up-to-date analyses, C46 answers. *)
From Coq Require Import List NArith Arith Bool.
From Verif Require Import Common Text_Model Ws_Model Ws_Spec Ws_Proof Ws_Fresh Ws_Disk.
Import ListNotations.

(** C14: whatever the server is sent, an open document has exactly the text of the editor, and a
    document that is not open is not treated as being edited. *)
Theorem C14_open_documents : forall dsk ops s u,
  run (init dsk) ops = Ok s ->
  match editor ops u with
  | Some f => exists o, files s u = Some o /\ fo_edit o = true /\ fo_fresh o = true /\ fo_file o = f
  | None => forall o, files s u = Some o -> fo_edit o = false
  end.
Proof.
  intros dsk ops s u H. pose proof (open_documents ops dsk s H u) as A.
  destruct (editor ops u) as [f|]; [exact A|].
  intros o E. unfold editing in A. rewrite E in A. exact A.
Qed.
Print Assumptions C14_open_documents.

(** C14: no analysis and no change on the disk alters the text of an open document. *)
Theorem C14_only_the_editor_changes : forall dsk ops o s s' u f,
  run (init dsk) ops = Ok s -> run (init dsk) (ops ++ [o]) = Ok s' ->
  editor ops u = Some f ->
  match o with Open v _ _ _ _ _ _ | Change v _ _ _ _ _ | Close v _ => v <> u | _ => True end ->
  text_of s' u = text_of s u.
Proof.
  intros dsk ops o s s' u f H H' Hd Ho.
  pose proof (open_documents ops dsk s H u) as A. pose proof (open_documents (ops ++ [o]) dsk s' H' u) as B.
  unfold editor in *. rewrite fold_left_app in B. cbn [fold_left] in B.
  assert (E : editor_step (fold_left editor_step ops no_docs) o u = fold_left editor_step ops no_docs u).
  { destruct o as [v n x sh c an ok|v es sh c an ok|v sh|v an ok|v|v c]; cbn [editor_step]; auto; unfold set;
      try (destruct (beq_spec u v) as [E|N]; [congruence|reflexivity]).
    destruct (fold_left editor_step ops no_docs v); [|reflexivity]. destruct (apply_edits f0 es); auto.
    destruct (beq_spec u v) as [E|N]; [congruence|reflexivity]. }
  rewrite E, Hd in B. rewrite Hd in A. destruct A as (a & A1 & A2 & A3 & A4), B as (b & B1 & B2 & B3 & B4).
  unfold text_of. rewrite A1, B1. congruence.
Qed.
Print Assumptions C14_only_the_editor_changes.

(** C44: a file the editor never opened, and that nobody writes meanwhile, is what the disk holds,
    in the file table and in every analysis that was given its text. *)
Theorem C44_from_disk : forall dsk ops s u, let t := match dsk u with Some b => repair b | None => [] end in
  run (init dsk) ops = Ok s ->
  Forall (fun o => match o with Open v _ _ _ _ _ _ | Change v _ _ _ _ _ | Disk v _ => v <> u | _ => True end) ops ->
  (forall o, files s u = Some o -> text (fo_file o) = t \/ (fo_fresh o = false /\ text (fo_file o) = []))
  /\ (forall f o p x, files s f = Some o -> fo_proc o = Some p -> seen u (p_seen p) = Some x -> x = t).
Proof.
  intros dsk ops s u t H Hl.
  pose proof (DI_run u t ops (init dsk) s (DI_init u dsk) Hl H) as (D1 & D2 & D3). split.
  - intros o E. destruct (D2 o E) as [K1 K2]. destruct (fo_fresh o); auto.
  - intros f o p x E Ep Hx. apply (D3 f o E). unfold oseen. rewrite Ep. exact Hx.
Qed.
Print Assumptions C44_from_disk.

(** C44 does not extend to files that were open once: a library member closed with unsaved
    changes keeps the discarded text, and later analyses of its users see it. *)
Definition lib : uri := s2b "lib/M".
Definition pgm : uri := s2b "pgm".
Definition uses (f : uri) : analysis :=
  if bytes_eqb f pgm then {| a_loads := []; a_visits := [lib]; a_cancelled := false |}
  else {| a_loads := []; a_visits := []; a_cancelled := false |}.
Definition saved (u : uri) : option bytes := if bytes_eqb u lib then Some (s2b "saved") else None.

Definition reopen : list op :=
  [ Open pgm 1 (s2b " M") false false uses true;
    Open lib 1 (s2b "unsaved") false false uses true;
    Close lib false;
    Change pgm [ Whole (s2b " M 1") ] false false uses true ].
Theorem C44_closed_dependency_refuted : exists ops s,
  run (init saved) ops = Ok s /\ calm no_docs ops /\ editor ops lib = None /\ saved lib = Some (s2b "saved")
  /\ seen lib (seen_of s pgm) = Some (s2b "unsaved").
Proof.
  exists reopen. eexists. split; [vm_compute; reflexivity|].
  split; [|split; [reflexivity|split; [reflexivity|vm_compute; reflexivity]]].
  assert (Ha : calm_an uses).
  { intros f. unfold uses. destruct (bytes_eqb f pgm); cbn; (split; [reflexivity|]).
    - intros d [<-|[]]. reflexivity.
    - intros d []. }
  repeat split; try apply Ha; try (vm_compute; discriminate).
Qed.
Print Assumptions C44_closed_dependency_refuted.

(** Nor does the server notice that a loaded file was rewritten, even when told so. *)
Definition rewritten : list op :=
  [ Open pgm 1 (s2b " M") false false uses true;
    Disk lib (Some (s2b "newer"));
    Watched lib uses true ].
Theorem C44_watched_change_refuted : exists ops s,
  run (init saved) ops = Ok s /\ calm no_docs ops /\ disk s lib = Some (s2b "newer")
  /\ seen lib (seen_of s pgm) = Some (s2b "saved").
Proof.
  exists rewritten. eexists. split; [vm_compute; reflexivity|].
  split; [|split; [reflexivity|vm_compute; reflexivity]].
  assert (Ha : calm_an uses).
  { intros f. unfold uses. destruct (bytes_eqb f pgm); cbn; (split; [reflexivity|]).
    - intros d [<-|[]]. reflexivity.
    - intros d []. }
  repeat split; try apply Ha; try (vm_compute; discriminate).
Qed.
Print Assumptions C44_watched_change_refuted.

(** C45: after every message, the last analysis of a program saw, for each library file it depends
    on, the text this file has now, or nothing when the file could not be read. *)
Theorem C45_analyses_are_current : forall dsk ops s f o p d,
  run (init dsk) ops = Ok s -> calm no_docs ops ->
  files s f = Some o -> fo_proc o = Some p -> In d (p_deps p) ->
  exists od t, files s d = Some od /\ seen d (p_seen p) = Some t /\ (t = text (fo_file od) \/ t = []).
Proof.
  intros dsk ops s f o p d H Hc E Ep Hd.
  destruct (analyses_fresh ops dsk s Hc H f d) as (P & t & T1 & T2).
  { unfold deps_of. rewrite E, Ep. exact Hd. }
  unfold present in P. destruct (files s d) as [od|] eqn:Ed; [|discriminate].
  exists od, t. split; [reflexivity|]. unfold seen_of in T1. rewrite E, Ep in T1. split; [exact T1|].
  unfold text_of in T2. rewrite Ed in T2. exact T2.
Qed.
Print Assumptions C45_analyses_are_current.

(** In particular for a dependency open in the editor. *)
Theorem C45_open_dependency : forall dsk ops s f o p d fd,
  run (init dsk) ops = Ok s -> calm no_docs ops ->
  files s f = Some o -> fo_proc o = Some p -> In d (p_deps p) -> editor ops d = Some fd ->
  seen d (p_seen p) = Some (text fd) \/ seen d (p_seen p) = Some [].
Proof.
  intros dsk ops s f o p d fd H Hc E Ep Hd Hed.
  destruct (C45_analyses_are_current dsk ops s f o p d H Hc E Ep Hd) as (od & t & O1 & O2 & O3).
  pose proof (C14_open_documents dsk ops s d H) as A. rewrite Hed in A.
  destruct A as (x & A1 & _ & _ & A4). rewrite O1 in A1. injection A1 as <-. subst fd.
  rewrite O2. destruct O3 as [->| ->]; auto.
Qed.
Print Assumptions C45_open_dependency.

(** A file that was read but whose text did not end up among the dependencies is not tracked:
    the program is not analysed again when it changes. *)
Definition loads (f : uri) : analysis :=
  if bytes_eqb f pgm then {| a_loads := [lib]; a_visits := []; a_cancelled := false |}
  else {| a_loads := []; a_visits := []; a_cancelled := false |}.
Theorem C45_loaded_only_refuted : exists ops s,
  run (init saved) ops = Ok s /\ calm no_docs ops
  /\ seen lib (seen_of s pgm) = Some (s2b "saved")
  /\ exists fd, editor ops lib = Some fd /\ text fd = s2b "edited".
Proof.
  exists [ Open pgm 1 (s2b " M") false false loads true; Open lib 1 (s2b "edited") false false loads true ].
  eexists. split; [vm_compute; reflexivity|]. split; [|split; [vm_compute; reflexivity|]].
  - assert (Ha : calm_an loads).
    { intros f. unfold loads. destruct (bytes_eqb f pgm); cbn; (split; [reflexivity|]).
      - intros d [<-|[]]. reflexivity.
      - intros d []. }
    repeat split; try apply Ha; try (vm_compute; discriminate).
  - eexists. split; reflexivity.
Qed.
Print Assumptions C45_loaded_only_refuted.

(** C46: a feature request about a file that is not a configuration file is answered by an
    existing analysis, or with nothing. *)
Theorem C46_answered : forall dsk ops s u,
  run (init dsk) ops = Ok s -> calm no_docs ops -> Forall unshared_op ops -> is_config u = false ->
  (exists s' p, query s u = (s', By p) /\ analysed s' p = true) \/ (exists s', query s u = (s', NoFile)).
Proof.
  intros dsk ops s u H Hc Hu Hn. destruct (reach_all ops dsk s Hc Hu H) as [HA HN].
  pose proof (query_answered s u HA HN Hn) as Q. unfold query in *. cbv zeta in *.
  destruct (last (map Some (related _ u)) None) as [p|]; [|right; eexists; reflexivity].
  left. cbn [snd] in Q. destruct (analysed _ p) eqn:E; [|contradiction]. eexists. exists p. split; [reflexivity|exact E].
Qed.
Print Assumptions C46_answered.

(** An open document is always answered for. *)
Theorem C46_open_answered : forall dsk ops s u f,
  run (init dsk) ops = Ok s -> calm no_docs ops -> Forall unshared_op ops -> is_config u = false ->
  editor ops u = Some f -> exists s' p, query s u = (s', By p) /\ analysed s' p = true.
Proof.
  intros dsk ops s u f H Hc Hu Hn Hd.
  destruct (C46_answered dsk ops s u H Hc Hu Hn) as [K|[s' K]]; [exact K|exfalso].
  pose proof (C14_open_documents dsk ops s u H) as A. rewrite Hd in A. destruct A as (o & A1 & _).
  unfold query in K. cbv zeta in K.
  assert (P : forall l s v, present s v = true -> present (fold_left touch l s) v = true).
  { clear. induction l as [|x l IH]; intros s v Hp; [exact Hp|]. cbn [fold_left]. apply IH.
    unfold touch, find_processor_file. destruct (files s x) eqn:E; [|exact Hp]. cbn [fst].
    rewrite put_present. destruct (bytes_eqb v x); [reflexivity|exact Hp]. }
  set (s1 := touch (fold_left touch (dependants s) s) u) in K.
  assert (P1 : present s1 u = true).
  { unfold s1. apply (P [u]). apply P. unfold present. rewrite A1. reflexivity. }
  destruct (last (map Some (related s1 u)) None) eqn:E;
    [destruct (analysed s1 _); discriminate K|].
  unfold related in E. rewrite P1 in E.
  destruct (filter (fun f0 => mem u (deps_of s1 f0)) (dependants s1)) as [|x l]; [discriminate|].
  revert E. clear. revert x. induction l as [|y l IH]; intros x E; [discriminate E|]. apply (IH y). exact E.
Qed.
Print Assumptions C46_open_answered.

(** Closing an open document never dereferences a missing file. *)
Theorem C46_close_defined : forall dsk ops s u f sh,
  run (init dsk) ops = Ok s -> editor ops u = Some f -> exists s', step s (Close u sh) = Ok s'.
Proof.
  intros dsk ops s u f sh H Hd. pose proof (C14_open_documents dsk ops s u H) as A. rewrite Hd in A.
  destruct A as (o & A1 & _). cbn [step]. unfold ws_close.
  assert (P : forall l s v, present s v = true -> present (fold_left touch l s) v = true).
  { clear. induction l as [|x l IH]; intros s v Hp; [exact Hp|]. cbn [fold_left]. apply IH.
    unfold touch, find_processor_file. destruct (files s x) eqn:E; [|exact Hp]. cbn [fst].
    rewrite put_present. destruct (bytes_eqb v x); [reflexivity|exact Hp]. }
  rewrite (P (dependants s) s u) by (unfold present; rewrite A1; reflexivity).
  destruct (is_dependency _ u); [eexists; reflexivity|]. destruct (mem u _); eexists; reflexivity.
Qed.
Print Assumptions C46_close_defined.

(** Configuration files are not analysed: a feature request about one is undefined behaviour. *)
Theorem C46_config_refuted : exists ops s,
  run (init (fun _ => None)) ops = Ok s /\ calm no_docs ops /\ Forall unshared_op ops
  /\ step s (Query proc_grps) = Undef.
Proof.
  exists [ Open proc_grps 1 (s2b "{}") false false uses true ]. eexists.
  split; [vm_compute; reflexivity|]. split; [|split; [repeat constructor|vm_compute; reflexivity]].
  assert (Ha : calm_an uses).
  { intros f. unfold uses. destruct (bytes_eqb f pgm); cbn; (split; [reflexivity|]).
    - intros d [<-|[]]. reflexivity.
    - intros d []. }
  repeat split; try apply Ha; try (vm_compute; discriminate).
Qed.
Print Assumptions C46_config_refuted.

(** Neither is a document whose opening was cancelled before the analysis began. *)
Theorem C46_cancelled_refuted : exists ops s,
  run (init (fun _ => None)) ops = Ok s /\ Forall unshared_op ops /\ is_config pgm = false
  /\ step s (Query pgm) = Undef.
Proof.
  exists [ Open pgm 1 (s2b " M") false true uses true ]. eexists.
  split; [vm_compute; reflexivity|]. split; [repeat constructor|split; [reflexivity|vm_compute; reflexivity]].
Qed.
Print Assumptions C46_cancelled_refuted.

(** A document open at another place keeps its text while its users are analysed. *)
Example C14_example : exists s, run (init saved) (firstn 2 reopen) = Ok s
  /\ text_of s lib = s2b "unsaved" /\ seen lib (seen_of s pgm) = Some (s2b "unsaved")
  /\ deps_of s pgm = [lib] /\ analysed s lib = true.
Proof. eexists. split; [vm_compute; reflexivity|]. repeat split. Qed.

Example C44_example : exists s, run (init saved) (firstn 1 reopen) = Ok s
  /\ text_of s lib = s2b "saved" /\ seen lib (seen_of s pgm) = Some (s2b "saved").
Proof. eexists. split; [vm_compute; reflexivity|]. repeat split. Qed.

Example C46_example : exists s, run (init saved) (firstn 2 reopen) = Ok s /\ snd (query s lib) = By pgm.
Proof. eexists. split; [vm_compute; reflexivity|]. reflexivity. Qed.
