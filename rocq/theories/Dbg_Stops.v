(** Where the analysis stops when the client is disciplined. *)
From Coq Require Import List NArith Bool Lia Arith.
From Verif Require Import Common Lts Dbg_Model Dbg_Spec Dbg_Proof.
Import ListNotations.
Open Scope N_scope.

Section Program.
Variable program : list stmt.
Local Notation steps := (run (step program)).
Local Notation demanded := (demanded program).
Local Notation should_stop := (should_stop program).
Local Notation visible_upto := (visible_upto program).

(** The client is in the middle of a command that resumes the analysis. *)
Definition c_pre (p : cpc) : bool :=
  match p with
  | NextLock | NextOver | NextDepth | NextContinue | StepLock | StepFlag | StepContinue | ContFlag | ContContinue => true
  | _ => false
  end.
Definition c_disc_all (p : cpc) : bool :=
  match p with DiscLock | DiscFlag | DiscContinue | DiscCancel | DiscUnlock | DiscNotify | DiscJoin | Gone => true | _ => false end.

Definition rep (s : state) : Prop :=
  forall x, demanded (log s) x <-> stop_on_next s = true \/ (step_over s = true /\ depth x <= step_over_depth s).
Definition quiet (s : state) : Prop := c_pre (client s) = false /\ awaiting (log s) = false.
Definition at_stmt (i : nat) (P : stmt -> Prop) : Prop := exists x, nth_error program i = Some x /\ P x.

(** The analysis has told that it stopped at [i] and waits. *)
Definition waiting (i : nat) (s : state) : Prop :=
  at_stmt i (fun x =>
  decided (log s) = visible_upto (S i) /\
  if awaiting (log s) then
    c_pre (client s) = false /\ continue_ s = false /\ stop_on_next s = false /\ step_over s = false
    /\ stop_depth program (log s) = Some (depth x)
  else if c_pre (client s) then
    continue_ s = false /\
    match client s with
    | NextLock | NextOver =>
        stop_on_next s = false /\ step_over s = false /\ (forall y, demanded (log s) y <-> depth y <= depth x)
    | NextDepth => stop_on_next s = false /\ step_over s = true /\ (forall y, demanded (log s) y <-> depth y <= depth x)
    | StepLock | StepFlag => stop_on_next s = false /\ step_over s = false /\ (forall y, demanded (log s) y)
    | ContFlag => stop_on_next s = false /\ rep s
    | _ => rep s
    end
  else continue_ s = true /\ rep s).

Definition phase (s : state) : Prop :=
  match apc s with
  | NotStarted => quiet s /\ rep s /\ step_over s = false /\ decided (log s) = []
  | Starting => quiet s /\ rep s /\ decided (log s) = []
  | Fetch i => quiet s /\ rep s /\ (i <= length program)%nat /\ decided (log s) = visible_upto i
  | Enter i | Look i => quiet s /\ rep s /\ at_stmt i (fun _ => decided (log s) = visible_upto i)
  | Flag i hit =>
      quiet s /\ rep s /\
      at_stmt i (fun x => decided (log s) = visible_upto i /\ visible x = true /\
                 (hit = true <-> covers x (lines_set (since_look (log s)) (file x))))
  | Over i =>
      quiet s /\ rep s /\ stop_on_next s = false /\
      at_stmt i (fun x => decided (log s) = visible_upto i /\ visible x = true /\
                 ~ covers x (lines_set (since_look (log s)) (file x)))
  | Depth i =>
      quiet s /\ rep s /\ stop_on_next s = false /\ step_over s = true /\
      at_stmt i (fun x => decided (log s) = visible_upto i /\ visible x = true /\
                 ~ covers x (lines_set (since_look (log s)) (file x)))
  | Clear i | Lock i | Recheck i | Reset i =>
      quiet s /\
      at_stmt i (fun x => decided (log s) = visible_upto i /\ visible x = true /\ should_stop (log s) x)
  | Unset i =>
      quiet s /\ stop_on_next s = false /\ step_over s = false /\
      at_stmt i (fun x => decided (log s) = visible_upto i /\ visible x = true /\ should_stop (log s) x)
  | Notify i =>
      quiet s /\ stop_on_next s = false /\ step_over s = false /\ continue_ s = false /\
      at_stmt i (fun x => decided (log s) = visible_upto i /\ visible x = true /\ should_stop (log s) x)
  | Test i | Sleep i | Asleep i | Woken i => waiting i s
  | Relock i => quiet s /\ rep s /\ at_stmt i (fun _ => decided (log s) = visible_upto (S i))
  | Finish | Ending | Leaving | Done => quiet s /\ decided (log s) = visible_upto (length program)
  end.

(** What is claimed of the events. *)
Definition justified (e : event) (p : list event) : Prop :=
  match e with
  | Stopped i => at_stmt i (fun x => visible x = true /\ should_stop p x)
  | Passed i => at_stmt i (fun x => visible x = true /\ ~ should_stop p x)
  | Exited => decided p = visible_upto (length program)
  | _ => True
  end.
Fixpoint good (l : list event) : Prop := match l with [] => True | e :: p => justified e p /\ good p end.

Definition inv (s : state) : Prop :=
  disciplined (log s) ->
  table s /\ good (log s) /\
  (broken s = None ->
   disconnected s = false /\ cancel s = false /\ c_disc_all (client s) = false /\ phase s).

(** ** Facts about the specification *)
Lemma visible_upto_S : forall i x, nth_error program i = Some x ->
  visible_upto (S i) = if visible x then visible_upto i ++ [i] else visible_upto i.
Proof.
  intros i x H. unfold Dbg_Spec.visible_upto. rewrite seq_S, filter_app. cbn [plus filter].
  rewrite H. destruct (visible x); [reflexivity|apply app_nil_r].
Qed.
Lemma decided_cons : forall e l, decided (e :: l) = decided l ++ decision e.
Proof. intros. unfold decided. cbn [flat_map]. rewrite rev_app_distr. f_equal. destruct e; reflexivity. Qed.
Lemma breakpoint_hit_covers : forall x lines, breakpoint_hit x lines = true <-> covers x lines.
Proof.
  intros. unfold breakpoint_hit, covers. rewrite existsb_exists.
  split; intros (n & H & K); exists n; split; auto.
  - apply andb_prop in K. destruct K as [K1 K2]. apply N.leb_le in K1, K2. lia.
  - apply andb_true_intro. split; apply N.leb_le; lia.
Qed.

(** Events that change neither orders nor decisions. *)
Definition neutral (e : event) : bool :=
  match e with
  | Received (Breakpoints _ _) | Received View | Viewed _ => true
  | _ => false
  end.
Lemma neutral_facts : forall e l, neutral e = true ->
  awaiting (e :: l) = awaiting l /\ decided (e :: l) = decided l /\ since_look (e :: l) = since_look l /\
  (forall x, demanded (e :: l) x = demanded l x) /\ stop_depth program (e :: l) = stop_depth program l.
Proof.
  intros e l H. rewrite decided_cons. destruct e as [c| | | | | ]; try discriminate; [destruct c; try discriminate|];
    cbn; rewrite app_nil_r; auto.
Qed.

(** A step that changes only the client's program counter outside of resuming commands, and adds
    neutral events. *)
Definition same (s s' : state) : Prop :=
  apc s' = apc s /\ continue_ s' = continue_ s /\ stop_on_next s' = stop_on_next s /\
  step_over s' = step_over s /\ step_over_depth s' = step_over_depth s /\
  c_pre (client s) = false /\ c_pre (client s') = false /\
  (log s' = log s \/ exists e, neutral e = true /\ log s' = e :: log s).
Lemma phase_same : forall s s', same s s' -> phase s -> phase s'.
Proof.
  intros s s' (Ea & Ec & Es & Eo & Ed & P1 & P2 & El) H.
  assert (F : awaiting (log s') = awaiting (log s) /\ decided (log s') = decided (log s) /\
              since_look (log s') = since_look (log s) /\ (forall x, demanded (log s') x = demanded (log s) x) /\
              stop_depth program (log s') = stop_depth program (log s)).
  { destruct El as [->|(e & N & ->)]; [auto|apply neutral_facts; exact N]. }
  destruct F as (F1 & F2 & F3 & F4 & F5).
  assert (Q : quiet s -> quiet s') by (unfold quiet; rewrite F1, P2; intros [_ Q2]; auto).
  assert (R : rep s -> rep s') by (unfold rep; intros R x; rewrite F4, Es, Eo, Ed; apply R).
  assert (S : forall x, should_stop (log s) x -> should_stop (log s') x).
  { intros x. unfold Dbg_Spec.should_stop. rewrite F3, F4. auto. }
  unfold phase in *. rewrite Ea. destruct (apc s); rewrite ?F2, ?F3, ?Es, ?Eo, ?Ec; try tauto;
    try (destruct H as (H1 & H2); split; [auto|]; unfold at_stmt in *;
         repeat match goal with
                | K : _ /\ _ |- _ => destruct K
                | K : exists _, _ |- _ => destruct K
                end; repeat split; auto; try (eexists; repeat split; eauto; fail); fail).
  all: unfold waiting, at_stmt in *; destruct H as (x & X1 & X2 & X3); exists x; split; [exact X1|];
    rewrite F2; split; [exact X2|]; rewrite F1, P2; rewrite P1 in X3;
    rewrite Ec, Es, Eo, F5; destruct (awaiting (log s)); tauto.
Qed.

Lemma log_step : forall s l s', step program s l = Some s' -> log s' = log s \/ exists e, log s' = e :: log s.
Proof.
  intros s l s' H. split_state s. unfold step in H. cbn [broken] in H. destruct br; [discriminate|].
  destruct l as [ | |d|c].
  - unfold analysis in H. cbn in H.
    destruct ap; cbn in *; try discriminate;
      repeat match type of H with
             | context [match ?x with _ => _ end] => let E := fresh "E" in destruct x eqn:E; cbn in H; try discriminate
             end; injection H as <-; cbn; eauto.
  - unfold spurious in H. cbn in H. destruct ap; try discriminate. injection H as <-. auto.
  - unfold command_step in H. cbn in H. rewrite ?notify_all_eq in H. cbn in H.
    destruct cl; cbn in *; try discriminate;
      repeat match type of H with
             | context [match ?x with _ => _ end] =>
                 first [is_var x | unify x (ctx ap)]; let E := fresh "E" in destruct x eqn:E; cbn in H; try discriminate
             end; injection H as <-; cbn; eauto.
  - unfold receive in H. cbn in H. destruct cl; try discriminate. injection H as <-.
    destruct c; cbn; eauto. destruct ap; cbn; eauto.
Qed.
Lemma disciplined_tail : forall e l, disciplined (e :: l) -> disciplined l.
Proof. intros [c| | | | | ] l; cbn; auto. destruct c; cbn; tauto. Qed.
Lemma disciplined_step : forall s l s', step program s l = Some s' -> disciplined (log s') -> disciplined (log s).
Proof.
  intros s l s' H D. destruct (log_step _ _ _ H) as [E|(e & E)]; rewrite E in D; [exact D|].
  eapply disciplined_tail; exact D.
Qed.

Ltac spl := repeat match goal with
                   | K : _ /\ _ |- _ => destruct K
                   | K : exists _, _ |- _ => destruct K
                   end.
Ltac go G Di := split; [exact G|]; intros _; refine (conj eq_refl (conj eq_refl (conj Di _))).
Lemma inv_analysis : forall s s', table s -> good (log s) -> disconnected s = false -> cancel s = false ->
  c_disc_all (client s) = false -> phase s -> broken s = None -> mutexes s ->
  analysis program s = Some s' ->
  good (log s') /\ (broken s' = None -> disconnected s' = false /\ cancel s' = false /\ c_disc_all (client s') = false /\ phase s').
Proof.
  intros s s' T G D Ca Di P B M H. split_state s. cbn [disconnected cancel client broken] in D, Ca, Di, B. subst di ca br.
  unfold analysis in H. cbn in H. unfold phase in P. cbn [apc] in P. cbn [log] in G.
  destruct ap; cbn in H; try discriminate.
  - destruct va; try discriminate. injection H as <-. go G Di. destruct P as (P1 & P2 & P3).
    refine (conj P1 (conj P2 (conj _ P3))). lia.
  - destruct P as (Qu & R & L & Dd). destruct (nth_error program i) as [x|] eqn:E.
    + injection H as <-. go G Di. refine (conj Qu (conj R _)). exists x. auto.
    + injection H as <-. go G Di. refine (conj Qu _).
      apply nth_error_None in E. replace (length program) with i by lia. exact Dd.
  - injection H as <-. go G Di. exact P.
  - destruct P as (Qu & R & x & E & Dd). rewrite E in H. cbn [log] in Dd.
    destruct (negb (ordinary x) || blank x) eqn:V.
    + injection H as <-. go G Di. refine (conj Qu (conj R (conj _ _))).
      * assert (NN : nth_error program i <> None) by congruence. apply nth_error_Some in NN. lia.
      * rewrite (visible_upto_S i x E). unfold visible. replace (ordinary x && negb (blank x)) with false
          by (destruct (ordinary x), (blank x); try discriminate; reflexivity). exact Dd.
    + injection H as <-. split; [exact (conj Logic.I G)|]. intros _. refine (conj eq_refl (conj eq_refl (conj Di _))).
      refine (conj Qu (conj R _)). exists x. split; [exact E|].
      cbn [log with_apc tell]. rewrite decided_cons. cbn [decision]. rewrite app_nil_r. split; [exact Dd|]. split.
      * unfold visible. destruct (ordinary x), (blank x); try discriminate; reflexivity.
      * cbn [since_look]. unfold table in T. cbn in T. rewrite <- T. apply breakpoint_hit_covers.
  - destruct P as (Qu & R & x & E & Dd & V & Hc). injection H as <-. go G Di.
    unfold rep in R. cbn in R. destruct sn; cbn.
    + refine (conj Qu _). exists x. split; [exact E|]. repeat split; auto. right. apply R. auto.
    + destruct hit; cbn.
      * refine (conj Qu _). exists x. split; [exact E|]. repeat split; auto. left. apply Hc. reflexivity.
      * refine (conj Qu (conj R (conj eq_refl _))). exists x. split; [exact E|]. repeat split; auto. rewrite <- Hc. discriminate.
  - destruct P as (Qu & R & Sn & x & E & Dd & V & Hc). cbn in Sn. subst sn. destruct so; injection H as <-.
    + go G Di. refine (conj Qu (conj R (conj eq_refl (conj eq_refl _)))). exists x. auto.
    + unfold rep in R. cbn in R. cbn [log] in Dd, Hc.
      assert (NS : ~ should_stop lg x).
      { intros [K|K]; [exact (Hc K)|]. apply R in K. destruct K as [K|[K _]]; discriminate. }
      split; [split; [exists x; auto|exact G]|]. intros _. refine (conj eq_refl (conj eq_refl (conj Di _))).
      refine (conj Qu (conj R (conj _ _))).
      * assert (NN : nth_error program i <> None) by congruence. apply nth_error_Some in NN. lia.
      * cbn [log with_apc tell]. rewrite decided_cons. cbn [decision]. rewrite (visible_upto_S i x E), V, Dd. reflexivity.
  - destruct P as (Qu & R & Sn & So & x & E & Dd & V & Hc). cbn in Sn, So. subst sn so. rewrite E in H.
    unfold rep in R. cbn in R. cbn [log] in Dd, Hc.
    destruct (depth x <=? sd) eqn:L; injection H as <-.
    + go G Di. refine (conj Qu _). exists x. repeat split; auto. right. apply R. right. split; auto.
      apply N.leb_le. exact L.
    + apply N.leb_gt in L.
      assert (NS : ~ should_stop lg x).
      { intros [K|K]; [exact (Hc K)|]. apply R in K. destruct K as [K|[_ K]]; [discriminate|lia]. }
      split; [split; [exists x; auto|exact G]|]. intros _. refine (conj eq_refl (conj eq_refl (conj Di _))).
      refine (conj Qu (conj R (conj _ _))).
      * assert (NN : nth_error program i <> None) by congruence. apply nth_error_Some in NN. lia.
      * cbn [log with_apc tell]. rewrite decided_cons. cbn [decision]. rewrite (visible_upto_S i x E), V, Dd. reflexivity.
  - injection H as <-. go G Di. exact P.
  - destruct ct; try discriminate. injection H as <-. go G Di. exact P.
  - injection H as <-. go G Di. exact P.
  - injection H as <-. go G Di. destruct P as (Qu & P). exact (conj Qu (conj eq_refl (conj eq_refl P))).
  - injection H as <-. go G Di. destruct P as (Qu & S1 & S2 & P). exact (conj Qu (conj S1 (conj S2 (conj eq_refl P)))).
  - destruct P as (Qu & S1 & S2 & S3 & x & E & Dd & V & Sh). destruct Qu as [Q1 Q2]. injection H as <-. cbn in S1, S2, S3, Q1, Q2. cbn [log] in Dd. subst.
    split; [split; [exists x; auto|exact G]|]. intros _. refine (conj eq_refl (conj eq_refl (conj Di _))).
    exists x. split; [exact E|].
    cbn [log with_apc tell]. rewrite decided_cons. cbn [decision]. rewrite (visible_upto_S i x E), V, Dd. split; [reflexivity|].
    cbn. rewrite E. auto.
  - injection H as <-. go G Di.
    destruct P as (x & E & Dd & P). cbn in P. cbn [apc with_apc]. destruct co.
    + destruct (awaiting lg) eqn:W; [spl; discriminate|]. destruct (c_pre cl) eqn:Pc; [spl; discriminate|].
      destruct P as (_ & P). refine (conj (conj Pc W) (conj P _)). exists x. auto.
    + exists x. auto.
  - injection H as <-. go G Di. exact P.
  - destruct ct; try discriminate. injection H as <-. go G Di. exact P.
  - destruct va; try discriminate. injection H as <-. destruct P as (Qu & R & x & E & Dd).
    go G Di. refine (conj Qu (conj R (conj _ Dd))).
    assert (NN : nth_error program i <> None) by congruence. apply nth_error_Some in NN. lia.
  - injection H as <-. destruct P as (Qu & Dd). split; [exact (conj Dd G)|]. intros _. refine (conj eq_refl (conj eq_refl (conj Di _))).
    refine (conj Qu _).
    cbn [log with_apc tell]. rewrite decided_cons. cbn. rewrite app_nil_r. exact Dd.
  - injection H as <-. go G Di. exact P.
  - destruct va; injection H as <-.
    + split; [exact G|discriminate].
    + go G Di. exact P.
    + split; [exact G|discriminate].
Qed.

Definition waits_at (p : pc) : option nat :=
  match p with Test i | Sleep i | Asleep i | Woken i => Some i | _ => None end.
Lemma pre_waiting : forall s, phase s -> c_pre (client s) = true ->
  exists i, waits_at (apc s) = Some i /\ waiting i s.
Proof.
  intros s P C. unfold phase in P.
  destruct (apc s); try (destruct P as ((Q & _) & _); congruence);
    cbn [waits_at]; match goal with |- context [Some ?k = Some _] => exists k end; auto.
Qed.
Lemma waiting_phase : forall s i, waits_at (apc s) = Some i -> waiting i s -> phase s.
Proof.
  intros s i H W. unfold phase. destruct (apc s); try discriminate; injection H as <-; exact W.
Qed.
Lemma phase_wake : forall s, phase s -> phase (with_apc (wake (apc s)) s).
Proof. intros s P. unfold phase in *. cbn [apc with_apc]. destruct (apc s); exact P. Qed.
Lemma ctx_waiting : forall p i, waits_at p = Some i -> ctx p = Alive /\ halted p = Some i.
Proof. intros p i H; destruct p; try discriminate; injection H as <-; auto. Qed.

Lemma inv_client : forall s d s', good (log s) -> disconnected s = false -> cancel s = false ->
  c_disc_all (client s) = false -> phase s -> broken s = None ->
  command_step program s d = Some s' ->
  good (log s') /\ (broken s' = None -> disconnected s' = false /\ cancel s' = false /\ c_disc_all (client s') = false /\ phase s').
Proof.
  intros s d s' G D Ca Di P B H.
  destruct (c_pre (client s)) eqn:Pr.
  - destruct (pre_waiting s P Pr) as (i & Wi & x & E & Dd & W).
    destruct (ctx_waiting _ _ Wi) as (Cx & Hx).
    split_state s. cbn [log disconnected cancel client apc broken continue_ stop_on_next step_over] in *. subst di ca br. unfold command_step in H.
    destruct (awaiting lg) eqn:Aw; [spl; congruence|]. rewrite Pr in W. destruct W as (Co & W).
    assert (U : forall st, apc st = ap -> awaiting (log st) = false -> waiting i st -> phase st)
      by (intros st Ea _ Ws; apply (waiting_phase st i); [rewrite Ea; exact Wi|exact Ws]).
    destruct cl; try discriminate; cbn [client control] in H.
    + destruct ct; try discriminate. injection H as <-. go G Di. apply U; [reflexivity|exact Aw|].
      exists x. refine (conj E (conj Dd _)). cbn. rewrite Aw. exact (conj Co W).
    + injection H as <-. go G Di. apply U; [reflexivity|exact Aw|].
      exists x. refine (conj E (conj Dd _)). cbn. rewrite Aw. cbn in W. tauto.
    + cbn [apc] in H. rewrite Cx, Hx, E in H. injection H as <-. go G Di. apply U; [reflexivity|exact Aw|].
      exists x. refine (conj E (conj Dd _)). cbn. rewrite Aw. split; [exact Co|]. unfold rep. cbn.
      destruct W as (S1 & S2 & W). intro y. rewrite W. subst. intuition discriminate.
    + injection H as <-. go G Di. apply U; [reflexivity|exact Aw|].
      exists x. refine (conj E (conj Dd _)). cbn. rewrite Aw. exact (conj eq_refl W).
    + destruct ct; try discriminate. injection H as <-. go G Di. apply U; [reflexivity|exact Aw|].
      exists x. refine (conj E (conj Dd _)). cbn. rewrite Aw. exact (conj Co W).
    + injection H as <-. go G Di. apply U; [reflexivity|exact Aw|].
      exists x. refine (conj E (conj Dd _)). cbn. rewrite Aw. split; [exact Co|]. unfold rep. cbn.
      destruct W as (S1 & S2 & W). intro y. intuition auto.
    + injection H as <-. go G Di. apply U; [reflexivity|exact Aw|].
      exists x. refine (conj E (conj Dd _)). cbn. rewrite Aw. exact (conj eq_refl W).
    + injection H as <-. go G Di. apply U; [reflexivity|exact Aw|].
      exists x. refine (conj E (conj Dd _)). cbn. rewrite Aw. split; [exact Co|].
      destruct W as (W1 & W). cbn in W1. subst sn. exact W.
    + injection H as <-. go G Di. apply U; [reflexivity|exact Aw|].
      exists x. refine (conj E (conj Dd _)). cbn. rewrite Aw. exact (conj eq_refl W).
  - split_state s. cbn [log disconnected cancel client apc broken continue_ stop_on_next step_over] in *. subst di ca br. unfold command_step in H.
    destruct cl; try discriminate; cbn [client control vars] in H.
    + injection H as <-. go G Di. apply (phase_same _ _) with (2 := P). repeat split; auto.
    + rewrite notify_all_eq in H. injection H as <-. go G Di.
      eapply phase_same; [|exact (phase_wake _ P)]. repeat split; auto.
    + injection H as <-. go G Di. apply (phase_same _ _) with (2 := P). repeat split; auto.
    + rewrite notify_all_eq in H. injection H as <-. go G Di.
      eapply phase_same; [|exact (phase_wake _ P)]. repeat split; auto.
    + rewrite notify_all_eq in H. injection H as <-. go G Di.
      eapply phase_same; [|exact (phase_wake _ P)]. repeat split; auto.
    + destruct va; try discriminate. injection H as <-. go G Di. apply (phase_same _ _) with (2 := P). repeat split; auto.
    + injection H as <-. split; [exact (conj Logic.I G)|]. intros _. refine (conj eq_refl (conj eq_refl (conj Di _))).
      apply (phase_same _ _) with (2 := P). repeat split; auto. right. eexists. split; [|reflexivity]. reflexivity.
    + injection H as <-. go G Di. apply (phase_same _ _) with (2 := P). repeat split; auto.
Qed.

Lemma awaiting_waiting : forall s, phase s -> awaiting (log s) = true ->
  exists i, waits_at (apc s) = Some i /\ waiting i s.
Proof.
  intros s P C. unfold phase in P.
  destruct (apc s); try (destruct P as ((_ & Q) & _); congruence);
    cbn [waits_at]; match goal with |- context [Some ?k = Some _] => exists k end; auto.
Qed.

Lemma inv_receive : forall s c s', good (log s) -> disconnected s = false -> cancel s = false ->
  c_disc_all (client s) = false -> phase s -> broken s = None -> disciplined (log s') ->
  receive s c = Some s' ->
  good (log s') /\ (broken s' = None -> disconnected s' = false /\ cancel s' = false /\ c_disc_all (client s') = false /\ phase s').
Proof.
  intros s c s' G D Ca Di P B Ds H. unfold receive in H. destruct (client s) eqn:Cl; try discriminate. injection H as <-.
  assert (G' : forall e, good (Received e :: log s)) by (intro e; exact (conj Logic.I G)).
  assert (R : resuming c = true -> awaiting (log s) = true).
  { intro R. destruct c; try discriminate; cbn in Ds; destruct Ds as [Ds _]; auto. }
  destruct (resuming c) eqn:Rc.
  - specialize (R eq_refl).
    destruct (awaiting_waiting s P R) as (i & Wi & x & E & Dd & W). rewrite R in W.
    destruct W as (W1 & W2 & W3 & W4 & W5).
    destruct c; try discriminate; cbn; (split; [exact (conj Logic.I G)|]); intros _;
      (refine (conj D (conj Ca (conj eq_refl _))));
      (apply (waiting_phase _ i); [exact Wi|]); exists x; refine (conj E _); cbn [log with_client tell];
      rewrite decided_cons; cbn [decision]; rewrite app_nil_r; refine (conj Dd _); cbn;
      refine (conj W2 (conj W3 _)); try (refine (conj W4 _)); try tauto.
    + intros y. rewrite W5. split; [intros (d & K & L); injection K as <-; exact L|intro L; eauto].
    + unfold rep. cbn. rewrite W3, W4. intro y. intuition discriminate.
  - clear R. destruct c; try discriminate; cbn [apc tell].
    + destruct (apc s) eqn:Ea; cbn; try (split; [exact (conj Logic.I G)|discriminate]).
      split; [exact (conj Logic.I G)|]. intros _. rewrite Cl. refine (conj D (conj Ca (conj eq_refl _))).
      unfold phase in P. rewrite Ea in P. destruct P as ((Q1 & Q2) & R & So & Dd).
      cbn. refine (conj (conj _ Q2) (conj _ _)).
      * cbn. rewrite Cl. reflexivity.
      * unfold rep. cbn. rewrite So. intro y. intuition discriminate.
      * cbn [log with_apc with_stop tell]. change (decided (Received (Launch stop_on_entry) :: log s) = []).
        rewrite decided_cons. cbn. rewrite app_nil_r. exact Dd.
    + split; [exact (conj Logic.I G)|]. intros _. refine (conj D (conj Ca (conj _ _))); [cbn; rewrite Cl; reflexivity|].
      apply (phase_same s); [|exact P]. repeat split; auto; try (cbn; rewrite Cl; reflexivity).
      right. eexists; split; [|reflexivity]. reflexivity.
    + split; [exact (conj Logic.I G)|]. intros _. refine (conj D (conj Ca (conj _ _))); [reflexivity|].
      apply (phase_same s); [|exact P]. repeat split; auto; try (cbn; rewrite Cl; reflexivity).
      right. eexists; split; [|reflexivity]. reflexivity.
    + cbn in Ds. contradiction.
Qed.

Lemma inv_step : forall s l s', inv s -> mutexes s -> step program s l = Some s' -> inv s'.
Proof.
  intros s l s' I M H Ds. pose proof (disciplined_step _ _ _ H Ds) as D0. destruct (I D0) as (T & G & Rest).
  split; [exact (table_step program _ _ _ T H)|].
  unfold step in H. destruct (broken s) eqn:B; [discriminate|]. destruct (Rest eq_refl) as (D & Ca & Di & P).
  destruct l.
  - eapply inv_analysis; eassumption.
  - unfold spurious in H. destruct (apc s) eqn:Ea; try discriminate. injection H as <-. split; [exact G|]. intros _.
    refine (conj D (conj Ca (conj Di _))). pose proof (phase_wake _ P) as K. rewrite Ea in K. exact K.
  - eapply inv_client; eassumption.
  - eapply inv_receive; eassumption.
Qed.
Lemma inv_initial : inv initial.
Proof.
  intros _. split; [intro f; reflexivity|]. split; [exact Logic.I|]. intros _. repeat split; auto; cbn; try tauto.
  intros [K|[K _]]; discriminate.
Qed.
Lemma inv_run : forall ls s, steps initial ls = Some s -> inv s.
Proof.
  intros ls s H.
  apply (run_inv state label (step program) (fun s => inv s /\ mutexes s)) with (es := ls) (s := initial) in H.
  - apply H.
  - intros s0 e s1 [I M] E. split; [eapply inv_step; eassumption|eapply mutexes_step; eassumption].
  - split; [apply inv_initial|apply mutexes_initial].
Qed.

(** ** The claims *)
Lemma good_split : forall a e p, good (a ++ e :: p) -> justified e p.
Proof. induction a; cbn; intros e p H; [apply H|]. apply IHa. apply H. Qed.

Theorem stopped_justified : forall ls s a i p, steps initial ls = Some s -> disciplined (log s) ->
  log s = a ++ Stopped i :: p ->
  exists x, nth_error program i = Some x /\ visible x = true /\ should_stop p x.
Proof.
  intros ls s a i p H D E. destruct (inv_run _ _ H D) as (_ & G & _). rewrite E in G. exact (good_split _ _ _ G).
Qed.
Theorem passed_justified : forall ls s a i p, steps initial ls = Some s -> disciplined (log s) ->
  log s = a ++ Passed i :: p ->
  exists x, nth_error program i = Some x /\ visible x = true /\ ~ should_stop p x.
Proof.
  intros ls s a i p H D E. destruct (inv_run _ _ H D) as (_ & G & _). rewrite E in G. exact (good_split _ _ _ G).
Qed.
Theorem exited_all : forall ls s a p, steps initial ls = Some s -> disciplined (log s) ->
  log s = a ++ Exited :: p -> decided p = visible_upto (length program).
Proof.
  intros ls s a p H D E. destruct (inv_run _ _ H D) as (_ & G & _). rewrite E in G. exact (good_split _ _ _ G).
Qed.
Theorem decided_prefix : forall ls s, steps initial ls = Some s -> disciplined (log s) -> broken s = None ->
  exists k, (k <= length program)%nat /\ decided (log s) = visible_upto k.
Proof.
  intros ls s H D B. destruct (inv_run _ _ H D) as (_ & _ & R). destruct (R B) as (_ & _ & _ & P).
  assert (N : forall i x, nth_error program i = Some x -> (S i <= length program)%nat).
  { intros i x E. assert (K : nth_error program i <> None) by congruence. apply nth_error_Some in K. lia. }
  unfold phase in P. destruct (apc s);
    try (exists 0%nat; split; [lia|apply P]);
    try (exists (length program); split; [lia|apply P]);
    try (exists i; split; [apply P|apply P]);
    try (unfold waiting, at_stmt in P; spl; exists i; split; [apply N in H0; lia|assumption]);
    try (unfold waiting, at_stmt in P; spl; exists (S i); split; [eapply N; eassumption|assumption]).
  all: unfold waiting, at_stmt in P; spl.
  all: try (exists i; split; [eapply Nat.lt_le_incl, N; eassumption|assumption]).
Qed.
End Program.
