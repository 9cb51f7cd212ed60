(** Every analysis has seen the current text of the files it depends on. *)
From Coq Require Import List NArith Arith Bool Lia.
From Verif Require Import Common Text_Model Ws_Model Ws_Spec Ws_Proof.
Import ListNotations.

Definition seen_of (s : st) (u : uri) : list (uri * bytes) :=
  match files s u with
  | Some o => match fo_proc o with Some p => p_seen p | None => [] end
  | None => []
  end.

(** A file not read yet, or not readable, has no text. *)
Definition Stale (s : st) : Prop :=
  forall u o, files s u = Some o -> fo_fresh o = false -> text (fo_file o) = [].

Record Inv (ex : uri -> uri -> Prop) (s : st) : Prop := {
  i_dep : forall f, deps_of s f <> [] -> In f (dependants s);
  i_seen : forall f g, In g (deps_of s f) -> is_config g = false
    /\ (ex f g \/ (present s g = true
        /\ exists t, seen g (seen_of s f) = Some t /\ (t = text_of s g \/ t = [])));
  i_stale : Stale s;
  i_close : forall f g, In g (close_of s f) -> ~ In g (deps_of s f) }.

Record stable (s s' : st) : Prop := {
  st_dep : dependants s' = dependants s;
  st_d : forall f, deps_of s' f = deps_of s f;
  st_s : forall f, seen_of s' f = seen_of s f;
  st_c : forall f, close_of s' f = close_of s f;
  st_p : forall g, present s g = true -> present s' g = true;
  st_t : forall g, is_config g = false -> present s g = true ->
    text_of s' g = text_of s g \/ text_of s g = [];
  st_f : Stale s' }.

Lemma stable_refl : forall s, Stale s -> stable s s.
Proof. intros s H. constructor; auto. Qed.
Lemma stable_trans : forall a b c, stable a b -> stable b c -> stable a c.
Proof.
  intros a b c A B. destruct A as [A1 A2 A3 A4 A5 A6 A7], B as [B1 B2 B3 B4 B5 B6 B7].
  constructor; intros.
  - congruence.
  - rewrite B2; auto.
  - rewrite B3; auto.
  - rewrite B4; auto.
  - auto.
  - destruct (A6 g) as [E|E]; auto. destruct (B6 g) as [E2|E2]; auto.
    + left. congruence.
    + right. congruence.
  - exact B7.
Qed.
Lemma stable_inv : forall ex s s', Inv ex s -> stable s s' -> Inv ex s'.
Proof.
  intros ex s s' [I1 I2 I3 I4] [S1 S2 S3 S4 S5 S6 S7]. constructor.
  - intros f H. rewrite S1. apply I1. rewrite <- S2. exact H.
  - intros f g H. rewrite S2 in H. destruct (I2 f g H) as [C [E|(P & t & T1 & T2)]]; (split; [exact C|]); [auto|].
    right. split; [auto|]. exists t. rewrite S3. split; [exact T1|].
    destruct T2 as [->|T2]; [|auto]. destruct (S6 g C P) as [E|E]; rewrite E; auto.
  - exact S7.
  - intros f g. rewrite S4, S2. apply I4.
Qed.

(** The view of one object. *)
Definition odeps (o : fobj) := match fo_proc o with Some p => p_deps p | None => [] end.
Definition oseen (o : fobj) := match fo_proc o with Some p => p_seen p | None => [] end.
Definition oclose (o : fobj) := match fo_proc o with Some p => p_close p | None => [] end.

Lemma put_deps : forall s u o f, deps_of (put s u (Some o)) f = if bytes_eqb f u then odeps o else deps_of s f.
Proof. intros. unfold deps_of. cbn. destruct (bytes_eqb f u); reflexivity. Qed.
Lemma put_seen : forall s u o f, seen_of (put s u (Some o)) f = if bytes_eqb f u then oseen o else seen_of s f.
Proof. intros. unfold seen_of. cbn. destruct (bytes_eqb f u); reflexivity. Qed.
Lemma put_close : forall s u o f, close_of (put s u (Some o)) f = if bytes_eqb f u then oclose o else close_of s f.
Proof. intros. unfold close_of. cbn. destruct (bytes_eqb f u); reflexivity. Qed.
Lemma put_present : forall s u o f, present (put s u (Some o)) f = if bytes_eqb f u then true else present s f.
Proof. intros. unfold present. cbn. destruct (bytes_eqb f u); reflexivity. Qed.
Lemma put_text : forall s u o f, text_of (put s u (Some o)) f = if bytes_eqb f u then text (fo_file o) else text_of s f.
Proof. intros. unfold text_of. cbn. destruct (bytes_eqb f u); reflexivity. Qed.

(** Replacing the object of a file by a compatible one; [old] is the previous object or a new one. *)
Lemma stable_put : forall s u o', Stale s ->
  let old := match files s u with Some o => o | None => new_file end in
  odeps o' = odeps old -> oseen o' = oseen old -> oclose o' = oclose old ->
  (is_config u = false -> files s u <> None -> text (fo_file o') = text (fo_file old) \/ text (fo_file old) = []) ->
  (fo_fresh o' = false -> text (fo_file o') = []) ->
  stable s (put s u (Some o')).
Proof.
  intros s u o' HS old E1 E2 E3 E4 E5. unfold old in *. clear old. constructor.
  - reflexivity.
  - intros f. rewrite put_deps. destruct (beq_spec f u) as [->|N]; [|reflexivity].
    rewrite E1. unfold deps_of, odeps. destruct (files s u); reflexivity.
  - intros f. rewrite put_seen. destruct (beq_spec f u) as [->|N]; [|reflexivity].
    rewrite E2. unfold seen_of, oseen. destruct (files s u); reflexivity.
  - intros f. rewrite put_close. destruct (beq_spec f u) as [->|N]; [|reflexivity].
    rewrite E3. unfold close_of, oclose. destruct (files s u); reflexivity.
  - intros g H. rewrite put_present. destruct (bytes_eqb g u); auto.
  - intros g C P. rewrite put_text. destruct (beq_spec g u) as [->|N]; [|auto].
    unfold text_of, present in *. destruct (files s u); [|discriminate].
    apply E4; [exact C|discriminate].
  - intros v o H F. destruct (beq_spec v u) as [->|N].
    + rewrite put_same in H. injection H as <-. auto.
    + rewrite put_other in H by exact N. eapply HS; eauto.
Qed.

Lemma odeps_to_proc : forall o, odeps (to_proc o) = odeps o /\ oseen (to_proc o) = oseen o
  /\ oclose (to_proc o) = oclose o /\ fo_file (to_proc o) = fo_file o /\ fo_fresh (to_proc o) = fo_fresh o.
Proof. intros o. unfold to_proc, odeps, oseen, oclose. destruct (fo_proc o) as [p|] eqn:E; cbn; rewrite ?E; auto. Qed.

Lemma stable_touch : forall s u, Stale s -> stable s (touch s u).
Proof.
  intros s u HS. unfold touch, find_processor_file. destruct (files s u) as [o|] eqn:E; cbn [fst]; [|apply stable_refl; exact HS].
  destruct (odeps_to_proc o) as (A1 & A2 & A3 & A4 & A5).
  apply stable_put; rewrite ?E; auto.
  - intros _ _. rewrite A4. auto.
  - rewrite A4, A5. eapply HS; eauto.
Qed.

Lemma stable_fold : forall {A} (g : st -> A -> st), (forall s x, Stale s -> stable s (g s x)) ->
  forall l s, Stale s -> stable s (fold_left g l s).
Proof.
  intros A g H l. induction l as [|x l IH]; intros s HS; [apply stable_refl; exact HS|].
  cbn [fold_left]. eapply stable_trans; [apply H; exact HS|]. apply IH. apply (st_f _ _ (H s x HS)).
Qed.

Lemma get_text_props : forall s u o, (fo_fresh o = false -> text (fo_file o) = []) ->
  let o' := get_text s u o in
  fo_proc o' = fo_proc o
  /\ (text (fo_file o') = text (fo_file o) \/ text (fo_file o) = [])
  /\ (fo_fresh o' = false -> text (fo_file o') = []).
Proof.
  intros s u o H. unfold get_text. cbv zeta. destruct (fo_fresh o) eqn:E.
  - rewrite E. auto.
  - specialize (H eq_refl). unfold load_text. destruct (disk s u); cbn; repeat split; auto; congruence.
Qed.

Lemma stale_old : forall s u, Stale s ->
  let old := match files s u with Some o => o | None => new_file end in
  fo_fresh old = false -> text (fo_file old) = [].
Proof. intros s u HS. cbv zeta. destruct (files s u) as [o|] eqn:E; [eauto|reflexivity]. Qed.

Lemma stable_load_dep : forall s u, Stale s -> stable s (load_dep s u).
Proof.
  intros s u HS. unfold load_dep. rewrite files_add_proc.
  set (old := match files s u with Some o => o | None => new_file end).
  assert (Hst : forall o', odeps o' = odeps old -> oseen o' = oseen old -> oclose o' = oclose old ->
    (text (fo_file o') = text (fo_file old) \/ text (fo_file old) = []) ->
    (fo_fresh o' = false -> text (fo_file o') = []) ->
    stable s (put (add_processor_file s u) u (Some o'))).
  { intros o' E1 E2 E3 E4 E5. assert (B : stable s (add_processor_file s u)).
    { destruct (odeps_to_proc old) as (A1 & A2 & A3 & A4 & A5).
      assert (K : add_processor_file s u = put s u (Some (to_proc old))).
      { unfold add_processor_file, old. destruct (files s u); reflexivity. }
      rewrite K. apply stable_put; fold old; auto.
      - intros _ _. rewrite A4. auto.
      - rewrite A4, A5. apply (stale_old s u HS). }
    eapply stable_trans; [exact B|].
    destruct (odeps_to_proc old) as (A1 & A2 & A3 & A4 & A5).
    apply stable_put; try apply (st_f _ _ B); rewrite ?files_add_proc; fold old;
      [congruence|congruence|congruence| |exact E5].
    intros _ _. rewrite A4. exact E4. }
  pose proof (get_text_props (add_processor_file s u) u (to_proc old)) as G. cbv zeta in G.
  destruct (odeps_to_proc old) as (A1 & A2 & A3 & A4 & A5).
  destruct G as (G1 & G2 & G3).
  { rewrite A4, A5. apply (stale_old s u HS). }
  apply Hst; cbn [with_proc fo_file fo_fresh].
  - rewrite <- A1. unfold odeps. cbn [with_proc fo_proc p_deps]. rewrite G1. destruct (fo_proc (to_proc old)); reflexivity.
  - rewrite <- A2. unfold oseen. cbn [with_proc fo_proc p_seen]. rewrite G1. destruct (fo_proc (to_proc old)); reflexivity.
  - rewrite <- A3. unfold oclose. cbn [with_proc fo_proc p_close]. rewrite G1. destruct (fo_proc (to_proc old)); reflexivity.
  - rewrite <- A4. exact G2.
  - exact G3.
Qed.

Lemma present_load_dep : forall s u, present (load_dep s u) u = true.
Proof.
  intros s u. unfold load_dep. rewrite files_add_proc. rewrite put_present, beq_refl. reflexivity.
Qed.

Lemma present_fold_load : forall l s g, Stale s -> In g l -> present (fold_left load_dep l s) g = true.
Proof.
  induction l as [|x l IH]; intros s g HS Hin; [destruct Hin|].
  cbn [fold_left]. pose proof (stable_load_dep s x HS) as K.
  destruct Hin as [->|Hin].
  - apply (st_p _ _ (stable_fold load_dep stable_load_dep l (load_dep s g) (st_f _ _ K))).
    apply present_load_dep.
  - apply IH; [apply (st_f _ _ K)|exact Hin].
Qed.

Lemma seen_map : forall (h : uri -> bytes) l g, In g l -> seen g (map (fun d => (d, h d)) l) = Some (h g).
Proof.
  intros h l g. induction l as [|x l IH]; intros H; [destruct H|].
  cbn [map seen]. destruct (beq_spec g x) as [->|N]; [reflexivity|].
  destruct H as [->|H]; [contradiction|auto].
Qed.

(** [parse] repairs the program it analyses and keeps the rest. *)
Lemma parse_inv : forall (ex : uri -> uri -> Prop) s u a, Inv ex s -> present s u = true ->
  a_cancelled a = false -> (forall d, In d (a_loads a ++ a_visits a) -> is_config d = false) ->
  (forall f, deps_of (parse s u a) f <> [] -> In f (dependants s) \/ f = u)
  /\ dependants (parse s u a) = dependants s
  /\ present (parse s u a) u = true
  /\ (forall g, present s g = true -> present (parse s u a) g = true)
  /\ (forall f, f <> u -> deps_of (parse s u a) f = deps_of s f)
  /\ (forall f g, In g (deps_of (parse s u a) f) -> is_config g = false
      /\ ((ex f g /\ f <> u) \/ (present (parse s u a) g = true
        /\ exists t, seen g (seen_of (parse s u a) f) = Some t /\ (t = text_of (parse s u a) g \/ t = []))))
  /\ Stale (parse s u a)
  /\ (forall f g, In g (close_of (parse s u a) f) -> ~ In g (deps_of (parse s u a) f)).
Proof.
  intros ex s u a HI Hp Hc Hd. unfold parse.
  unfold present in Hp. destruct (files s u) as [o0|] eqn:E; [clear Hp|discriminate].
  set (s1 := put s u (Some (get_text s u (to_proc o0)))).
  assert (B1 : stable s s1).
  { destruct (odeps_to_proc o0) as (A1 & A2 & A3 & A4 & A5).
    pose proof (get_text_props s u (to_proc o0)) as G. cbv zeta in G. destruct G as (G1 & G2 & G3).
    { rewrite A4, A5. intros. eapply (i_stale _ _ HI); eauto. }
    unfold s1. apply stable_put; rewrite ?E; try apply (i_stale _ _ HI); auto.
    - unfold odeps in *. rewrite G1. exact A1.
    - unfold oseen in *. rewrite G1. exact A2.
    - unfold oclose in *. rewrite G1. exact A3.
    - intros _ _. rewrite <- A4. exact G2. }
  set (l := a_loads a ++ a_visits a) in *.
  set (s2 := fold_left load_dep l s1).
  assert (B2 : stable s1 s2) by (apply stable_fold; [apply stable_load_dep|apply (st_f _ _ B1)]).
  assert (B : stable s s2) by (eapply stable_trans; eauto).
  pose proof (stable_inv _ _ _ HI B) as HI2.
  assert (P2 : present s2 u = true).
  { apply (st_p _ _ B). unfold present. rewrite E. reflexivity. }
  cbv zeta. destruct (files s2 u) as [o|] eqn:E2; [|unfold present in P2; rewrite E2 in P2; discriminate].
  rewrite Hc.
  set (p := match fo_proc o with Some p => p | None => new_proc end).
  set (deps := minus (a_visits a) [u]).
  set (np := {| p_analysed := true; p_deps := deps; p_close := minus (p_deps p) deps;
                p_seen := map (fun d => (d, text_of s2 d)) (u :: l) |}).
  set (s3 := put s2 u (Some (with_proc o np))).
  assert (T3 : forall g, text_of s3 g = text_of s2 g).
  { intros g. unfold s3. rewrite put_text. destruct (beq_spec g u) as [->|N]; [|reflexivity].
    unfold text_of. rewrite E2. reflexivity. }
  assert (P3 : forall g, present s3 g = present s2 g).
  { intros g. unfold s3. rewrite put_present. destruct (beq_spec g u) as [->|N]; [|reflexivity].
    symmetry. exact P2. }
  assert (D3 : forall f, f <> u -> deps_of s3 f = deps_of s2 f).
  { intros f N. unfold s3. rewrite put_deps. destruct (beq_spec f u); [contradiction|reflexivity]. }
  assert (Du : deps_of s3 u = deps) by (unfold s3; rewrite put_deps, beq_refl; reflexivity).
  split; [|split; [|split; [|split; [|split; [|split; [|split]]]]]].
  - intros f H. destruct (beq_spec f u) as [->|N]; [auto|]. left. rewrite D3 in H by exact N.
    rewrite <- (st_dep _ _ B). apply (i_dep _ _ HI2). exact H.
  - apply (st_dep _ _ B).
  - rewrite P3. exact P2.
  - intros g H. rewrite P3. apply (st_p _ _ B). exact H.
  - intros f N. rewrite D3 by exact N. apply (st_d _ _ B).
  - intros f g H. destruct (beq_spec f u) as [->|N].
    + rewrite Du in H. unfold deps in H. apply in_minus in H as [H _].
      assert (Hl : In g l) by (apply in_or_app; auto). split; [apply Hd; exact Hl|].
      right. rewrite P3. split.
      * apply present_fold_load; [apply (st_f _ _ B1)|exact Hl].
      * exists (text_of s2 g). rewrite T3. split; [|auto].
        unfold s3. rewrite put_seen, beq_refl. unfold oseen, np. cbn [with_proc fo_proc p_seen].
        apply (seen_map (text_of s2)). right. exact Hl.
    + rewrite D3 in H by exact N. destruct (i_seen _ _ HI2 f g H) as [C [X|(Q & t & Q1 & Q2)]]; (split; [exact C|]); [auto|].
      right. rewrite P3. split; [exact Q|]. exists t. rewrite T3. split; [|exact Q2].
      unfold s3. rewrite put_seen. destruct (beq_spec f u); [contradiction|exact Q1].
  - intros v x H F. unfold s3 in H. destruct (beq_spec v u) as [->|N].
    + rewrite put_same in H. injection H as <-. cbn in *. eapply (i_stale _ _ HI2); eauto.
    + rewrite put_other in H by exact N. eapply (i_stale _ _ HI2); eauto.
  - intros f g. destruct (beq_spec f u) as [->|N].
    + rewrite Du. unfold s3. rewrite put_close, beq_refl. unfold oclose, np. cbn [with_proc fo_proc p_close].
      intros H. apply in_minus in H as [_ H]. exact H.
    + rewrite D3 by exact N. unfold s3. rewrite put_close. destruct (beq_spec f u); [contradiction|].
      apply (i_close _ _ HI2).
Qed.

(** Removing files nobody needs. *)
Lemma close_one_files : forall s d v, files (close_one s d) v = if bytes_eqb v d then None else files s v.
Proof.
  intros s d v. unfold close_one, remove_file. cbn. destruct (beq_spec v d) as [->|N]; [reflexivity|].
  unfold fm_close. destruct (files s d); [|reflexivity]. rewrite put_other by exact N. reflexivity.
Qed.
Lemma close_one_dep : forall s d, dependants (close_one s d) = dependants s.
Proof. intros s d. unfold close_one, remove_file, fm_close. cbn. destruct (files s d); reflexivity. Qed.
Lemma close_all_files : forall l s v, files (fold_left close_one l s) v = if mem v l then None else files s v.
Proof.
  induction l as [|d l IH]; intros s v; [reflexivity|].
  cbn [fold_left]. rewrite IH, close_one_files. unfold mem. cbn [existsb].
  destruct (bytes_eqb v d); cbn [orb]; [|reflexivity]. destruct (existsb (bytes_eqb v) l); reflexivity.
Qed.
Lemma close_all_dep : forall l s, dependants (fold_left close_one l s) = dependants s.
Proof. induction l as [|d l IH]; intros s; [reflexivity|]. cbn [fold_left]. rewrite IH. apply close_one_dep. Qed.

Lemma close_all_inv : forall (ex : uri -> uri -> Prop) l s, Inv ex s ->
  (forall f g, In g l -> In g (deps_of s f) -> ex f g) ->
  Inv ex (fold_left close_one l s).
Proof.
  intros ex l s HI Hl. set (s' := fold_left close_one l s).
  assert (F : forall v, files s' v = if mem v l then None else files s v) by (intros v; apply close_all_files).
  assert (Dd : forall f, deps_of s' f = if mem f l then [] else deps_of s f).
  { intros f. unfold deps_of. rewrite F. destruct (mem f l); reflexivity. }
  constructor.
  - intros f H. rewrite Dd in H. destruct (mem f l); [contradiction|]. unfold s'. rewrite close_all_dep.
    apply (i_dep _ _ HI). exact H.
  - intros f g H. rewrite Dd in H. destruct (mem f l) eqn:Mf; [destruct H|].
    destruct (i_seen _ _ HI f g H) as [C [X|(Q & t & Q1 & Q2)]]; (split; [exact C|]); [auto|].
    destruct (mem g l) eqn:M.
    + left. apply Hl; [apply mem_spec; exact M|exact H].
    + right. unfold present, text_of, seen_of in *. rewrite !F, Mf, M. split; [exact Q|]. exists t. auto.
  - intros u o H Fr. rewrite F in H. destruct (mem u l); [discriminate|]. eapply (i_stale _ _ HI); eauto.
  - intros f g. rewrite Dd. unfold close_of. rewrite F. destruct (mem f l); [intros []|].
    apply (i_close _ _ HI).
Qed.

Lemma filter_and_close_spec : forall ex s deps u, Inv ex s ->
  (forall g, In g deps -> In g (deps_of s u) -> ex u g) ->
  (forall f g, ex f g -> f = u \/ False -> ex f g) ->
  Inv ex (filter_and_close s deps u)
  /\ dependants (filter_and_close s deps u) = dependants s
  /\ (forall f, deps_of (filter_and_close s deps u) f = deps_of s f \/ deps_of (filter_and_close s deps u) f = [])
  /\ (forall f, close_of (filter_and_close s deps u) f = close_of s f \/ close_of (filter_and_close s deps u) f = [])
  /\ (forall v, present (filter_and_close s deps u) v = true -> present s v = true).
Proof.
  intros ex s deps u HI Hd _. unfold filter_and_close.
  set (s1 := fold_left touch deps s).
  assert (B1 : stable s s1) by (apply stable_fold; [apply stable_touch|apply (i_stale _ _ HI)]).
  set (s2 := fold_left touch (dependants s1) s1).
  assert (B2 : stable s1 s2) by (apply stable_fold; [apply stable_touch|apply (st_f _ _ B1)]).
  assert (B : stable s s2) by (eapply stable_trans; eauto).
  pose proof (stable_inv _ _ _ HI B) as HI2.
  set (l := minus _ _).
  assert (Pt : forall x v, present (touch x v) = present x \/ forall w, present (touch x v) w = present x w).
  { intros x v. right. intros w. unfold touch, find_processor_file, present.
    destruct (files x v) as [o|] eqn:E; [|reflexivity]. cbn. destruct (beq_spec w v) as [->|]; [rewrite E|]; reflexivity. }
  assert (Pf : forall ls x w, present (fold_left touch ls x) w = present x w).
  { induction ls as [|v ls IH]; intros x w; [reflexivity|]. cbn [fold_left]. rewrite IH.
    unfold touch, find_processor_file, present. destruct (files x v) as [o|] eqn:E; [|reflexivity].
    cbn. destruct (beq_spec w v) as [->|]; [rewrite E|]; reflexivity. }
  split; [|split; [|split; [|split]]].
  - apply close_all_inv; [exact HI2|]. intros f g Hg Hf. unfold l in Hg. apply in_minus in Hg as [Hg Hk].
    apply filter_In in Hg as [Hg _].
    destruct (beq_spec f u) as [->|N].
    + apply Hd; [exact Hg|]. rewrite <- (st_d _ _ B). exact Hf.
    + exfalso. apply Hk. apply in_flat_map. exists f. split; [|exact Hf].
      apply filter_In. split.
      * apply (i_dep _ _ HI2). intros E. rewrite E in Hf. destruct Hf.
      * apply andb_true_iff. split.
        -- unfold present. unfold deps_of in Hf. destruct (files s2 f); [reflexivity|destruct Hf].
        -- apply negb_true_iff. destruct (beq_spec f u); [contradiction|reflexivity].
  - rewrite close_all_dep. apply (st_dep _ _ B).
  - intros f. unfold deps_of at 1 3. rewrite close_all_files. destruct (mem f l); [auto|].
    left. apply (st_d _ _ B).
  - intros f. unfold close_of at 1 3. rewrite close_all_files. destruct (mem f l); [auto|].
    left. apply (st_c _ _ B).
  - intros v H. unfold present in H. rewrite close_all_files in H. destruct (mem v l); [discriminate|].
    unfold s2, s1 in H. rewrite <- (Pf deps s), <- (Pf (dependants s1)). exact H.
Qed.

Definition none (_ _ : uri) : Prop := False.

(** Closing what programs no longer need. *)
Lemma close_lists_inv : forall l s, Inv none s ->
  (forall f c g, In (f, c) l -> In g c -> ~ In g (deps_of s f)) ->
  Inv none (fold_left (fun s fc => filter_and_close s (snd fc) (fst fc)) l s).
Proof.
  induction l as [|[f c] l IH]; intros s HI H; [exact HI|].
  cbn [fold_left fst snd].
  destruct (filter_and_close_spec none s c f HI) as (K1 & K2 & K3 & _).
  { intros g G1 G2. exfalso. eapply H; [left; reflexivity|exact G1|exact G2]. }
  { auto. }
  apply IH; [exact K1|]. intros f' c' g Hin Hg. destruct (K3 f') as [->| ->]; [|auto].
  eapply H; [right; exact Hin|exact Hg].
Qed.

Lemma close_current_inv : forall l s, Inv none s ->
  Inv none (fold_left (fun s f => if present s f then filter_and_close s (close_of s f) f else s) l s).
Proof.
  induction l as [|f l IH]; intros s HI; [exact HI|].
  cbn [fold_left]. apply IH. destruct (present s f); [|exact HI].
  apply filter_and_close_spec; [exact HI| |auto].
  intros g G1 G2. exfalso. eapply (i_close _ _ HI); eauto.
Qed.

Lemma stable_read_config : forall s u, is_config u = true -> Stale s -> stable s (read_config s u).
Proof.
  intros s u Hc HS. unfold read_config.
  assert (B : stable s (add_file s u)).
  { unfold add_file. destruct (files s u) as [o|] eqn:E; [apply stable_refl; exact HS|].
    apply stable_put; rewrite ?E; auto. }
  eapply stable_trans; [exact B|].
  destruct (files (add_file s u) u) as [o|] eqn:E; [|apply stable_refl; apply (st_f _ _ B)].
  destruct (fo_edit o); [apply stable_refl; apply (st_f _ _ B)|].
  apply stable_put; try apply (st_f _ _ B); rewrite ?E.
  - unfold load_text, odeps. destruct (disk _ u); reflexivity.
  - unfold load_text, oseen. destruct (disk _ u); reflexivity.
  - unfold load_text, oclose. destruct (disk _ u); reflexivity.
  - congruence.
  - unfold load_text. destruct (disk _ u); cbn; congruence.
Qed.

(** Re-analysis of programs of the set of dependants. *)
Lemma parse_dependants_inv : forall an l s, Inv none s -> calm_an an ->
  (forall f, In f l -> In f (dependants s) /\ present s f = true) ->
  Inv none (fold_left (fun s f => parse s f (an f)) l s).
Proof.
  intros an l. induction l as [|f l IH]; intros s HI Ha H; [exact HI|].
  cbn [fold_left]. destruct (H f (or_introl eq_refl)) as [H1 H2]. destruct (Ha f) as [C1 C2].
  destruct (parse_inv none s f (an f) HI H2 C1 C2) as (K1 & K2 & K3 & K4 & K5 & K6 & K7 & K8).
  apply IH; [|exact Ha|].
  - constructor; auto.
    + intros f' H'. rewrite K2. destruct (K1 f' H') as [A| ->]; auto.
    + intros f' g Hg. destruct (K6 f' g Hg) as [C [[[] _]|Q]]. auto.
  - intros f' Hf'. rewrite K2. destruct (H f' (or_intror Hf')) as [A1 A2]. auto.
Qed.

(** Re-analysis after a change to [u] of all programs that use it. *)
Definition excused (u : uri) (l : list uri) (f g : uri) : Prop := g = u /\ In f l.

Lemma parse_program_inv : forall an u f l s, Inv (excused u (f :: l)) s -> calm_an an ->
  present s f = true ->
  Inv (excused u l) (parse_program an s f)
  /\ (forall v, present s v = true -> present (parse_program an s f) v = true).
Proof.
  intros an u f l s HI Ha Hp. destruct (Ha f) as [C1 C2].
  destruct (parse_inv _ s f (an f) HI Hp C1 C2) as (K1 & K2 & K3 & K4 & K5 & K6 & K7 & K8).
  unfold parse_program. set (s1 := parse s f (an f)) in *.
  assert (Hs : forall f' g, In g (deps_of s1 f') -> is_config g = false
    /\ (excused u l f' g \/ (present s1 g = true
        /\ exists t, seen g (seen_of s1 f') = Some t /\ (t = text_of s1 g \/ t = [])))).
  { intros f' g Hg. destruct (K6 f' g Hg) as [C [[[E [->|X]] N]|Q]]; split; auto; [contradiction|].
    left. split; assumption. }
  destruct (deps_of s1 f) as [|g0 gs] eqn:Ed.
  - split; [|exact K4]. constructor; auto.
    intros f' H'. rewrite K2. destruct (K1 f' H') as [A| ->]; [auto|]. rewrite Ed in H'. contradiction.
  - split; [|exact K4]. constructor.
    + intros f' H'. unfold add_dependant. cbn [dependants]. rewrite K2.
      change (deps_of (add_dependant s1 f) f') with (deps_of s1 f') in H'.
      destruct (mem f (dependants s)) eqn:M.
      * destruct (K1 f' H') as [A| ->]; [auto|]. apply mem_spec. exact M.
      * apply in_or_app. destruct (K1 f' H') as [A| ->]; [auto|]. right. left. reflexivity.
    + exact Hs.
    + exact K7.
    + exact K8.
Qed.

Lemma parse_programs_inv : forall an u l s, Inv (excused u l) s -> calm_an an ->
  (forall f, In f l -> present s f = true) ->
  Inv none (fold_left (parse_program an) l s).
Proof.
  intros an u l. induction l as [|f l IH]; intros s HI Ha Hp; cbn [fold_left].
  - destruct HI as [I1 I2 I3 I4]. constructor; auto. intros f g Hg.
    destruct (I2 f g Hg) as [C [[_ []]|Q]]. auto.
  - destruct (parse_program_inv an u f l s HI Ha (Hp f (or_introl eq_refl))) as [K1 K2].
    apply IH; [exact K1|exact Ha|]. intros f' Hf'. apply K2. apply Hp. right. exact Hf'.
Qed.

(** [parse_file] re-establishes the invariant when only the text of [u] may be newer. *)
Lemma Inv_weaken : forall (ex ex' : uri -> uri -> Prop) s,
  (forall f g, In g (deps_of s f) -> ex f g -> ex' f g) -> Inv ex s -> Inv ex' s.
Proof.
  intros ex ex' s H [I1 I2 I3 I4]. constructor; auto. intros f g Hg.
  destruct (I2 f g Hg) as [C [X|Q]]; split; auto.
Qed.

Lemma parse_file_inv : forall s u an ok, Inv (fun f g => g = u) s -> calm_an an ->
  Inv none (parse_file s u an ok).
Proof.
  intros s u an ok HI Ha. unfold parse_file. destruct (is_config u) eqn:Hc.
  - assert (HI0 : Inv none s).
    { destruct HI as [I1 I2 I3 I4]. constructor; auto. intros f g Hg.
      destruct (I2 f g Hg) as [C [->|Q]]; [congruence|auto]. }
    assert (B : stable s (read_config (read_config s proc_grps) pgm_conf)).
    { eapply stable_trans; [apply (stable_read_config s proc_grps eq_refl (i_stale _ _ HI))|].
      apply (stable_read_config _ pgm_conf eq_refl).
      apply (st_f _ _ (stable_read_config s proc_grps eq_refl (i_stale _ _ HI))). }
    pose proof (stable_inv _ _ _ HI0 B) as HI1.
    destruct ok; [|exact HI1].
    apply close_current_inv. apply parse_dependants_inv; [exact HI1|exact Ha|].
    intros f Hf. apply filter_In in Hf. exact Hf.
  - set (s1 := fold_left touch (dependants s) s).
    assert (B : stable s s1) by (apply stable_fold; [apply stable_touch|apply (i_stale _ _ HI)]).
    pose proof (stable_inv _ _ _ HI B) as HI1. cbv zeta.
    set (users := filter (fun f => mem u (deps_of s1 f)) (dependants s1)).
    set (todo := match users with [] => if present s1 u then [u] else [] | _ => users end).
    assert (Hex : Inv (excused u todo) s1).
    { eapply Inv_weaken; [|exact HI1]. cbn. intros f g Hg ->. split; [reflexivity|].
      assert (Hu : In f users).
      { unfold users. apply filter_In. split; [|apply mem_spec; exact Hg].
        apply (i_dep _ _ HI1). intros E. rewrite E in Hg. destruct Hg. }
      unfold todo. destruct users; [destruct Hu|exact Hu]. }
    assert (Hpr : forall f, In f todo -> present s1 f = true).
    { intros f Hf. unfold todo in Hf. destruct users as [|x us] eqn:Eu.
      - destruct (present s1 u) eqn:Ep; [|destruct Hf]. destruct Hf as [<-|[]]. exact Ep.
      - rewrite <- Eu in Hf. unfold users in Hf. apply filter_In in Hf as [_ Hf]. apply mem_spec in Hf.
        unfold present. unfold deps_of in Hf. destruct (files s1 f); [reflexivity|destruct Hf]. }
    pose proof (parse_programs_inv an u todo s1 Hex Ha Hpr) as HI2.
    apply close_lists_inv; [exact HI2|].
    intros f c g Hin Hg. apply in_map_iff in Hin as (f0 & E & _). injection E as <- <-.
    apply (i_close _ _ HI2). exact Hg.
Qed.

(** Replacing the editor part of an object, keeping or dropping its analysis. *)
Lemma editor_put_inv : forall s u o', Inv none s ->
  let old := match files s u with Some o => o | None => new_file end in
  (fo_proc o' = fo_proc old \/ fo_proc o' = Some new_proc) ->
  (fo_fresh o' = false -> text (fo_file o') = []) ->
  Inv (fun f g => g = u) (put s u (Some o')).
Proof.
  intros s u o' HI old Hp Hf.
  assert (Dd : forall f, deps_of (put s u (Some o')) f = deps_of s f \/ deps_of (put s u (Some o')) f = []).
  { intros f. rewrite put_deps. destruct (beq_spec f u) as [->|N]; [|auto].
    unfold odeps. destruct Hp as [->| ->]; [|auto]. left. unfold deps_of, old. destruct (files s u); reflexivity. }
  constructor.
  - intros f H. cbn [dependants put]. apply (i_dep _ _ HI). destruct (Dd f) as [<-|E]; [exact H|congruence].
  - intros f g Hg. destruct (Dd f) as [E|E]; [|rewrite E in Hg; destruct Hg]. rewrite E in Hg.
    destruct (i_seen _ _ HI f g Hg) as [C [[]|(Q & t & Q1 & Q2)]]. split; [exact C|].
    destruct (beq_spec g u) as [->|N]; [auto|]. right.
    rewrite put_present, put_text. destruct (beq_spec g u); [contradiction|]. split; [exact Q|].
    exists t. split; [|exact Q2]. rewrite put_seen. destruct (beq_spec f u) as [->|N2]; [|exact Q1].
    unfold seen_of in Q1. unfold deps_of in Hg. destruct (files s u) as [o|] eqn:Eo; [|destruct Hg].
    unfold oseen. destruct Hp as [Hp|Hp]; [rewrite Hp; exact Q1|].
    (* the analysis was dropped: no dependencies are left *)
    exfalso. rewrite put_deps, beq_refl in E. unfold odeps in E. rewrite Hp in E. cbn in E.
    unfold deps_of in E. rewrite Eo in E. rewrite <- E in Hg. destruct Hg.
  - intros v x H F. destruct (beq_spec v u) as [->|N].
    + rewrite put_same in H. injection H as <-. auto.
    + rewrite put_other in H by exact N. eapply (i_stale _ _ HI); eauto.
  - intros f g. rewrite put_close. destruct (beq_spec f u) as [->|N].
    + rewrite put_deps, beq_refl. unfold oclose, odeps. destruct Hp as [->| ->]; [|intros []].
      intros H1 H2. eapply (i_close _ _ HI u g); unfold close_of, deps_of, old in *; destruct (files s u); auto.
    + rewrite put_deps. destruct (beq_spec f u); [contradiction|]. apply (i_close _ _ HI).
Qed.

Lemma prepare_proc : forall sh o, fo_proc (prepare sh o) = fo_proc o \/ fo_proc (prepare sh o) = Some new_proc.
Proof. intros sh o. unfold prepare. destruct sh; [destruct (fo_proc o) eqn:E|]; cbn; rewrite ?E; auto. Qed.
Lemma prepare_file : forall sh o, fo_file (prepare sh o) = fo_file o /\ fo_fresh (prepare sh o) = fo_fresh o
  /\ fo_edit (prepare sh o) = fo_edit o.
Proof. intros sh o. unfold prepare. destruct sh; [destruct (fo_proc o)|]; cbn; auto. Qed.

Lemma fm_close_inv : forall s u sh, Inv none s -> Inv none (fm_close s u sh).
Proof.
  intros s u sh HI. unfold fm_close. destruct (files s u) as [o|] eqn:E; [|exact HI].
  destruct (prepare_file sh o) as (P1 & P2 & P3).
  set (o' := {| fo_file := _; fo_fresh := _; fo_edit := _; fo_proc := _ |}).
  assert (HJ : Inv (fun f g => g = u) (put s u (Some o'))).
  { apply editor_put_inv; [exact HI| |].
    - rewrite E. apply prepare_proc.
    - cbn. rewrite P1, P2. intros. eapply (i_stale _ _ HI); eauto. }
  destruct HJ as [I1 I2 I3 I4]. constructor; auto.
  intros f g Hg. destruct (I2 f g Hg) as [C [->|Q]]; split; auto. right.
  (* the text of [u] did not change *)
  assert (Hg' : In u (deps_of s f)).
  { rewrite put_deps in Hg. destruct (beq_spec f u) as [->|N]; [|exact Hg].
    unfold odeps, o' in Hg. cbn [fo_proc] in Hg. destruct (prepare_proc sh o) as [P|P]; rewrite P in Hg; [|destruct Hg].
    unfold deps_of. rewrite E. exact Hg. }
  destruct (i_seen _ _ HI f u Hg') as [_ [[]|(Q & t & Q1 & Q2)]].
  rewrite put_present, beq_refl. split; [reflexivity|]. exists t.
  rewrite put_text, beq_refl. unfold text_of in Q2. rewrite E in Q2. cbn [o' fo_file]. rewrite P1. split; [|exact Q2].
  rewrite put_seen. destruct (beq_spec f u) as [->|N]; [|exact Q1].
  rewrite put_deps, beq_refl in Hg. unfold odeps in Hg. unfold oseen. cbn [o' fo_proc] in *.
  destruct (prepare_proc sh o) as [P|P]; rewrite P in *; [|destruct Hg].
  unfold seen_of in Q1. rewrite E in Q1. exact Q1.
Qed.

Lemma remove_inv : forall (ex : uri -> uri -> Prop) s u, Inv ex s ->
  (forall f g, ex f g -> f = u) ->
  (forall f, f <> u -> ~ In u (deps_of s f)) ->
  Inv none {| files := files (put s u None); dependants := minus (dependants s) [u]; disk := disk s |}.
Proof.
  intros ex s u HI Hex Hn.
  set (s' := {| files := _; dependants := _; disk := _ |}).
  assert (F : forall v, files s' v = if bytes_eqb v u then None else files s v) by reflexivity.
  assert (Dd : forall f, deps_of s' f = if bytes_eqb f u then [] else deps_of s f).
  { intros f. unfold deps_of. rewrite F. destruct (bytes_eqb f u); reflexivity. }
  constructor.
  - intros f H. rewrite Dd in H. destruct (beq_spec f u) as [Ev|N]; [contradiction|].
    apply in_minus. split; [apply (i_dep _ _ HI); exact H|]. intros [Ev|[]]. congruence.
  - intros f g Hg. rewrite Dd in Hg. destruct (beq_spec f u) as [Ev|N]; [destruct Hg|].
    destruct (i_seen _ _ HI f g Hg) as [C [X|(Q & t & Q1 & Q2)]]; [apply Hex in X; contradiction|].
    split; [exact C|]. right.
    assert (Ng : g <> u) by (intros E; subst g; eapply Hn; eauto).
    unfold present, text_of, seen_of in *. rewrite !F.
    destruct (beq_spec g u); [contradiction|]. destruct (beq_spec f u); [contradiction|].
    split; [exact Q|]. exists t. auto.
  - intros v o H Fr. rewrite F in H. destruct (bytes_eqb v u); [discriminate|]. eapply (i_stale _ _ HI); eauto.
  - intros f g. rewrite Dd. unfold close_of. rewrite F. destruct (bytes_eqb f u); [intros []|]. apply (i_close _ _ HI).
Qed.

Lemma Inv_ext : forall ex s s', (forall v, files s' v = files s v) ->
  (forall f, In f (dependants s) -> In f (dependants s')) -> Inv ex s -> Inv ex s'.
Proof.
  intros ex s s' F D [I1 I2 I3 I4].
  assert (Dd : forall f, deps_of s' f = deps_of s f) by (intros f; unfold deps_of; rewrite F; reflexivity).
  constructor.
  - intros f. rewrite Dd. auto.
  - intros f g. rewrite Dd. intros Hg. unfold present, text_of, seen_of. rewrite !F. apply (I2 f g Hg).
  - intros u o. rewrite F. apply I3.
  - intros f g. rewrite Dd. unfold close_of. rewrite F. apply I4.
Qed.

Lemma not_dependency : forall s u, Inv none s -> is_dependency s u = false -> forall f, ~ In u (deps_of s f).
Proof.
  intros s u HI H f Hf. unfold is_dependency in H.
  assert (T : existsb (fun f0 => mem u (deps_of s f0)) (dependants s) = true).
  { apply existsb_exists. exists f. split; [|apply mem_spec; exact Hf].
    apply (i_dep _ _ HI). intros E. rewrite E in Hf. destruct Hf. }
  congruence.
Qed.

Lemma ws_close_inv : forall s u sh s', Inv none s -> ws_close s u sh = Ok s' -> Inv none s'.
Proof.
  intros s u sh s' HI H. unfold ws_close in H.
  set (s1 := fold_left touch (dependants s) s) in *.
  assert (B : stable s s1) by (apply stable_fold; [apply stable_touch|apply (i_stale _ _ HI)]).
  pose proof (stable_inv _ _ _ HI B) as HI1.
  destruct (is_dependency s1 u) eqn:Ed.
  - injection H as <-. apply fm_close_inv. exact HI1.
  - pose proof (not_dependency s1 u HI1 Ed) as Hn.
    destruct (mem u (dependants s1)) eqn:Em.
    + destruct (present s1 u); cbn [bind] in H; [|discriminate]. injection H as <-.
      assert (HIu : Inv (fun f g => f = u) s1).
      { eapply Inv_weaken; [|exact HI1]. intros f g _ []. }
      destruct (filter_and_close_spec (fun f g => f = u) s1 (deps_of s1 u) u HIu) as (K1 & K2 & K3 & _).
      { reflexivity. } { auto. }
      set (s2 := filter_and_close s1 (deps_of s1 u) u) in *.
      pose proof (remove_inv _ s2 u K1 (fun f g e => e)) as R.
      eapply Inv_ext; [| |apply R].
      * intros v. unfold remove_file. cbn. destruct (bytes_eqb v u) eqn:Ev; [reflexivity|].
        unfold fm_close. cbn. destruct (files s2 u) as [o|]; [|reflexivity]. cbn. rewrite Ev. reflexivity.
      * intros f Hf. unfold remove_file, fm_close. cbn. destruct (files s2 u); exact Hf.
      * intros f N Hf. destruct (K3 f) as [E|E]; rewrite E in Hf; [eapply Hn; eauto|destruct Hf].
    + cbn [bind] in H. injection H as <-.
      pose proof (remove_inv none s1 u HI1) as R.
      eapply Inv_ext; [| |apply R].
      * intros v. unfold remove_file. cbn. destruct (bytes_eqb v u) eqn:Ev; [reflexivity|].
        unfold fm_close. cbn. destruct (files s1 u) as [o|]; [|reflexivity]. cbn. rewrite Ev. reflexivity.
      * intros f Hf. apply in_minus in Hf as [Hf _]. unfold remove_file, fm_close. cbn. destruct (files s1 u); exact Hf.
      * intros f g [].
      * intros f _. apply Hn.
Qed.

Lemma step_inv : forall d s o s', agrees d s -> Inv none s -> calm_op d o -> step s o = Ok s' -> Inv none s'.
Proof.
  intros d s o s' Hag HI Hc Hs.
  destruct o as [u v t sh c an ok|u es sh c an ok|u sh|u an ok|u|u c]; cbn [step calm_op] in *.
  - destruct Hc as [-> Ha]. injection Hs as <-. apply parse_file_inv; [|exact Ha].
    unfold fm_open. apply editor_put_inv; [exact HI| |cbn; discriminate].
    cbn [fo_proc]. apply prepare_proc.
  - destruct Hc as (Hd & -> & Ha). unfold fm_change in Hs. destruct (files s u) as [o|] eqn:E.
    + destruct (apply_edits _ es) as [f| |] eqn:Ea; cbn [bind] in Hs; try discriminate.
      injection Hs as <-. apply parse_file_inv; [|exact Ha].
      apply editor_put_inv; [exact HI| |].
      * rewrite E. cbn [with_file fo_proc]. apply prepare_proc.
      * cbn [with_file fo_fresh fo_file]. destruct (prepare_file sh o) as (P1 & P2 & P3). rewrite P2.
        pose proof (Hag u) as A. destruct (d u); [|contradiction].
        destruct A as (x & A1 & A2 & A3 & A4). rewrite E in A1. injection A1 as <-. congruence.
    + cbn [bind] in Hs. injection Hs as <-. apply parse_file_inv; [|exact Ha].
      eapply Inv_weaken; [|exact HI]. intros f g _ [].
  - eapply ws_close_inv; eauto.
  - injection Hs as <-. apply parse_file_inv; [|exact Hc]. eapply Inv_weaken; [|exact HI]. intros f g _ [].
  - assert (K : forall x a, query s u = (x, a) -> Inv none x).
    { intros x a E. unfold query in E.
      assert (B : stable s (touch (fold_left touch (dependants s) s) u)).
      { eapply stable_trans; [apply (stable_fold touch stable_touch); apply (i_stale _ _ HI)|].
        apply stable_touch. apply (st_f _ _ (stable_fold touch stable_touch (dependants s) s (i_stale _ _ HI))). }
      destruct (last _ None); injection E as <- _; exact (stable_inv _ _ _ HI B). }
    destruct (query s u) as [x a] eqn:E. destruct a; try discriminate; injection Hs as <-; eapply K; eauto.
  - injection Hs as <-. eapply Inv_ext; [| |exact HI]; auto.
Qed.

Lemma run_inv : forall ops d s s', agrees d s -> Inv none s -> calm d ops -> run s ops = Ok s' -> Inv none s'.
Proof.
  induction ops as [|o ops IH]; intros d s s' Hag HI Hc Hr; cbn [run calm] in *.
  - injection Hr as <-. exact HI.
  - destruct Hc as [C1 C2]. destruct (step s o) as [s1| |] eqn:E; cbn [bind] in Hr; try discriminate.
    eapply IH; [eapply step_agrees; eauto|eapply step_inv; eauto|exact C2|exact Hr].
Qed.

Lemma init_inv : forall dsk, Inv none (init dsk).
Proof. intros dsk. constructor; cbn; try contradiction; try congruence. intros u o H. discriminate. Qed.

Lemma analyses_fresh : forall ops dsk s', calm no_docs ops -> run (init dsk) ops = Ok s' ->
  forall f g, In g (deps_of s' f) ->
    present s' g = true /\ exists t, seen g (seen_of s' f) = Some t /\ (t = text_of s' g \/ t = []).
Proof.
  intros ops dsk s' Hc Hr f g Hg.
  assert (HI : Inv none s').
  { eapply run_inv; [|apply init_inv|exact Hc|exact Hr]. intros u. reflexivity. }
  destruct (i_seen _ _ HI f g Hg) as [_ [[]|Q]]. exact Q.
Qed.
