(** Commands take effect: the analysis goes on, or ends. *)
From Coq Require Import List NArith Bool Lia Arith.
From Verif Require Import Common Lts Dbg_Model Dbg_Spec Dbg_Proof.
Import ListNotations.

Section Program.
Variable program : list stmt.
Local Notation steps := (run (step program)).
Local Notation stuck := (stuck program).
Local Notation inevitable := (inevitable program).

Lemma inevitable_by (I P : state -> Prop) (m : state -> nat) :
  (forall s, I s -> P s \/ ~ stuck s /\ forall l s', thread l = true -> step program s l = Some s' -> I s' /\ (m s' < m s)%nat) ->
  forall n s, I s -> (m s < n)%nat -> inevitable P n s.
Proof.
  intros H. induction n as [|n IH]; intros s Is L; [lia|]. cbn. destruct (H s Is) as [K|(K1 & K2)]; [left; exact K|].
  right. split; [exact K1|]. intros l s' T E. destruct (K2 l s' T E) as (I' & L'). apply IH; [exact I'|lia].
Qed.
Lemma inevitable_more : forall P n s, inevitable P n s -> forall m, (n <= m)%nat -> inevitable P m s.
Proof.
  induction n as [|n IH]; intros s H m L.
  - destruct H as [H|[]]. destruct m; left; exact H.
  - destruct m; [lia|]. cbn in *. destruct H as [H|(H1 & H2)]; [left; exact H|]. right. split; [exact H1|].
    intros l s' T E. apply IH; [eauto|lia].
Qed.

(** ** A command that was received while the analysis waits *)
Definition before (p : cpc) : bool :=
  match p with
  | NextLock | NextOver | NextDepth | NextContinue | StepLock | StepFlag | StepContinue
  | DiscLock | DiscFlag | DiscContinue => true
  | _ => false
  end.
Definition after (p : cpc) : bool :=
  match p with NextUnlock | NextNotify | StepUnlock | StepNotify | DiscCancel | DiscUnlock | DiscNotify | ContNotify => true | _ => false end.
Definition final (p : cpc) : bool := match p with Idle | DiscJoin => true | _ => false end.
Definition c_left (p : cpc) : nat :=
  match p with
  | NextLock => 6 | NextOver => 5 | NextDepth => 4 | NextContinue => 3 | NextUnlock => 2 | NextNotify => 1
  | StepLock => 5 | StepFlag => 4 | StepContinue => 3 | StepUnlock => 2 | StepNotify => 1
  | ContFlag => 3 | ContContinue => 2 | ContNotify => 1
  | DiscLock => 7 | DiscFlag => 6 | DiscContinue => 5 | DiscCancel => 4 | DiscUnlock => 3 | DiscNotify => 2 | DiscJoin => 1
  | _ => 0
  end.
Definition a_left (p : pc) : nat :=
  match p with Woken _ => 4 | Test _ => 3 | Sleep _ => 2 | Relock _ => 2 | Asleep _ => 1 | _ => 0 end.
Definition left_ (s : state) : nat := 10 * c_left (client s) + a_left (apc s).
Definition ok_after (p : pc) : bool := match p with Test _ | Asleep _ | Woken _ | Relock _ => true | _ => false end.
Definition ok_final (p : pc) : bool := match p with Test _ | Woken _ | Relock _ => true | _ => false end.
Definition is_asleep (p : pc) : bool := match p with Asleep _ => true | _ => false end.
Definition going (s : state) : Prop :=
  mutexes s /\ broken s = None /\
  (waits (apc s) = false
   \/ before (client s) = true
   \/ ((client s = ContFlag \/ client s = ContContinue) /\ is_asleep (apc s) = true)
   \/ (after (client s) = true /\ continue_ s = true /\ ok_after (apc s) = true)
   \/ (final (client s) = true /\ continue_ s = true /\ ok_final (apc s) = true)).

Lemma going_waits : forall s, going s -> waits (apc s) = false \/
  ~ stuck s /\ forall l s', thread l = true -> step program s l = Some s' -> going s' /\ (left_ s' < left_ s)%nat.
Proof.
  intros s (M & B & G). destruct (waits (apc s)) eqn:W; [right|left; reflexivity].
  destruct G as [G|G]; [discriminate|].
  assert (MS : forall l s', step program s l = Some s' -> mutexes s') by (intros; eapply mutexes_step; eassumption).
  split.
  - intros (K1 & K2). specialize (K2 0%N). clear MS. split_state s. unfold mutexes in M. cbn in *. subst br.
    unfold step, analysis, command_step in *. cbn in *.
    destruct M as (M1 & M2 & M3 & M4 & M5 & M6).
    destruct ap; cbn in *; try discriminate.
    + destruct ct, cl; cbn in *; try discriminate; intuition discriminate.
    + destruct ct, cl; cbn in *; try discriminate; intuition discriminate.
    + destruct va, cl; cbn in *; try discriminate; intuition discriminate.
  - intros l s' T H. specialize (MS l s' H). unfold going, left_.
    split_state s. unfold mutexes in M. cbn in *. subst br. unfold step in H. cbn in H.
    destruct M as (M1 & M2 & M3 & M4 & M5 & M6).
    destruct l; try discriminate.
    + unfold analysis in H. cbn in H. destruct ap; cbn in *; try discriminate.
      * destruct co; injection H as <-; cbn in *; (split; [|lia]); (split; [exact MS|]); (split; [reflexivity|]).
        -- intuition auto.
        -- destruct G as [G|[(G1 & G2)|[(G1 & G2 & G3)|(G1 & G2 & G3)]]]; try discriminate. auto.
      * injection H as <-. cbn in *. split; [|lia]. split; [exact MS|]. split; [reflexivity|]. intuition auto; try discriminate.
      * destruct ct; try discriminate. injection H as <-. cbn in *. split; [|lia]. split; [exact MS|]. split; [reflexivity|].
        intuition auto; try discriminate.
      * destruct va; try discriminate. injection H as <-. cbn in *. split; [|lia]. split; [exact MS|]. split; [reflexivity|]. auto.
    + unfold command_step in H. cbn in H. rewrite ?notify_all_eq in H. cbn in H.
      assert (Cx : ctx ap = Alive) by (destruct ap; try discriminate; reflexivity). rewrite Cx in H.
      assert (W2 : waits (wake ap) = true) by (destruct ap; try discriminate; reflexivity).
      destruct cl; cbn in H; try discriminate;
        try (exfalso; cbn in G; intuition discriminate);
        try (destruct ct; try discriminate; []);
        try (destruct va; try discriminate; []);
        try (destruct ap; discriminate);
        injection H as <-; cbn [apc client continue_ broken with_client with_apc with_control with_over with_stop with_depth with_continue with_disconnected with_cancel];
        (split; [|first [destruct ap; try discriminate; cbn [c_left a_left wake]; lia]]);
        (split; [exact MS|split; [reflexivity|]]).
      all: destruct ap; try discriminate; cbn in *; intuition (try discriminate; try congruence).
Qed.

Lemma resumes : forall s n, going s -> (left_ s < n)%nat -> inevitable (fun s => waits (apc s) = false) n s.
Proof. intros s n. apply (inevitable_by going (fun s => waits (apc s) = false) left_ going_waits). Qed.

Lemma command_resumes : forall ls s c s', steps initial ls = Some s -> c = Next \/ c = StepIn \/ c = Disconnect ->
  waits (apc s) = true -> step program s (Cmd c) = Some s' ->
  inevitable (fun s => waits (apc s) = false) 80 s'.
Proof.
  intros ls s c s' R C W H. pose proof (mutexes_run program ls s R) as M.
  pose proof (mutexes_step program _ _ _ M H) as M'.
  unfold step in H. destruct (broken s) eqn:B; [discriminate|]. unfold receive in H.
  destruct (client s) eqn:Cl; try discriminate. injection H as <-.
  apply resumes.
  - split; [exact M'|]. destruct C as [->|[->| ->]]; cbn; auto.
  - unfold left_. destruct C as [->|[->| ->]]; cbn; destruct (apc s); cbn; lia.
Qed.
Lemma continue_resumes : forall ls s s', steps initial ls = Some s ->
  is_asleep (apc s) = true -> step program s (Cmd Continue) = Some s' ->
  inevitable (fun s => waits (apc s) = false) 80 s'.
Proof.
  intros ls s s' R W H. pose proof (mutexes_run program ls s R) as M.
  pose proof (mutexes_step program _ _ _ M H) as M'.
  unfold step in H. destruct (broken s) eqn:B; [discriminate|]. unfold receive in H.
  destruct (client s) eqn:Cl; try discriminate. injection H as <-.
  apply resumes.
  - split; [exact M'|]. cbn. split; [exact B|]. right. right. left. auto.
  - unfold left_. cbn; destruct (apc s); cbn; lia.
Qed.

End Program.
