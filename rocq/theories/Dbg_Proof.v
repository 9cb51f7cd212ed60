(** Invariants of the debugger. *)
From Coq Require Import List NArith Bool Lia Arith.
From Verif Require Import Common Lts Dbg_Model Dbg_Spec.
Import ListNotations.
Open Scope N_scope.

Ltac split_state s :=
  destruct s as [ap cl ct va co sn so sd di ca de bp sp br lg].
Section Program.
Variable program : list stmt.
Local Notation steps := (run (step program)).

(** ** Owners of the mutexes *)
Definition a_ctl (p : pc) : bool :=
  match p with Recheck _ | Reset _ | Unset _ | Notify _ | Test _ | Sleep _ | Relock _ => true | _ => false end.
Definition c_ctl (p : cpc) : bool :=
  match p with
  | NextOver | NextDepth | NextContinue | NextUnlock | StepFlag | StepContinue | StepUnlock
  | DiscFlag | DiscContinue | DiscCancel | DiscUnlock => true
  | _ => false
  end.
Definition c_var (p : cpc) : bool := match p with ViewRead | ViewUnlock => true | _ => false end.
(** The client disconnects and has set the flag. *)
Definition c_disc (p : cpc) : bool :=
  match p with DiscContinue | DiscCancel | DiscUnlock | DiscNotify | DiscJoin | Gone => true | _ => false end.

Definition mutexes (s : state) : Prop :=
  (control s = Analysis <-> a_ctl (apc s) = true) /\
  (control s = Client <-> c_ctl (client s) = true) /\
  (vars s = Client <-> c_var (client s) = true) /\
  (vars s = Analysis -> works (apc s) = true) /\
  (works (apc s) = true -> vars s = Analysis \/ disconnected s = true) /\
  (disconnected s = true <-> c_disc (client s) = true).

Ltac clash := match goal with H : c_var ?cl = true, K : c_disc ?cl = true |- _ => destruct cl; discriminate end.
Ltac finish := repeat split; intros; try discriminate; try tauto; try congruence; intuition (try discriminate; try congruence; try clash).

(** [notify_all] changes nothing else than the program counter from [Asleep] to [Woken]. *)
Definition wake (p : pc) : pc := match p with Asleep i => Woken i | _ => p end.
Lemma notify_all_eq : forall s, notify_all s = with_apc (wake (apc s)) s.
Proof. intros s. split_state s. unfold notify_all. cbn. destruct ap; reflexivity. Qed.
Lemma a_ctl_wake : forall p, a_ctl (wake p) = a_ctl p. Proof. destruct p; reflexivity. Qed.
Lemma works_wake : forall p, works (wake p) = works p. Proof. destruct p; reflexivity. Qed.

Lemma mutexes_step : forall s l s', mutexes s -> step program s l = Some s' -> mutexes s'.
Proof.
  intros s l s' M H. split_state s. unfold mutexes in *. cbn [apc client control vars disconnected] in M.
  unfold step in H. cbn [broken] in H. destruct br; [discriminate|].
  destruct M as (M1 & M2 & M3 & M4 & M5 & M6).
  destruct l as [ | |d|c].
  - unfold analysis in H. cbn in H.
    destruct ap; cbn in *; try discriminate;
      repeat match type of H with
             | context [match ?x with _ => _ end] => let E := fresh "E" in destruct x eqn:E; cbn in H; try discriminate
             end; injection H as <-; cbn in *; try (finish; fail).
  - unfold spurious in H. cbn in H. destruct ap; try discriminate. injection H as <-. cbn in *. finish.
  - unfold command_step in H. cbn in H. rewrite ?notify_all_eq in H. cbn in H.
    destruct cl; cbn in *; try discriminate;
      repeat match type of H with
             | context [match ?x with _ => _ end] =>
                 first [is_var x | unify x (ctx ap)]; let E := fresh "E" in destruct x eqn:E; cbn in H; try discriminate
             end; injection H as <-; cbn in *; rewrite ?a_ctl_wake, ?works_wake; try (finish; fail).
  - unfold receive in H. cbn in H. destruct cl; try discriminate. injection H as <-.
    destruct c; cbn in *; try (finish; fail). destruct ap; cbn in *; finish.
Qed.
Lemma mutexes_initial : mutexes initial.
Proof. unfold mutexes, initial; cbn. finish. Qed.
Lemma mutexes_run : forall ls s, steps initial ls = Some s -> mutexes s.
Proof. intros ls s. apply (run_inv state label (step program) mutexes mutexes_step). apply mutexes_initial. Qed.

(** ** Breakpoints and the record of commands *)
Definition table (s : state) : Prop := forall f, breakpoints_of f (breakpoints s) = lines_set (log s) f.
Lemma table_step : forall s l s', table s -> step program s l = Some s' -> table s'.
Proof.
  intros s l s' M H. split_state s. unfold table in *. cbn [breakpoints log] in M.
  unfold step in H. cbn [broken] in H. destruct br; [discriminate|].
  destruct l as [ | |d|c].
  - unfold analysis in H. cbn in H.
    destruct ap; cbn in *; try discriminate;
      repeat match type of H with
             | context [match ?x with _ => _ end] => let E := fresh "E" in destruct x eqn:E; cbn in H; try discriminate
             end; injection H as <-; cbn; exact M.
  - unfold spurious in H. cbn in H. destruct ap; try discriminate. injection H as <-. exact M.
  - unfold command_step in H. cbn in H.
    destruct cl; cbn in *; try discriminate;
      repeat match type of H with
             | context [match ?x with _ => _ end] =>
                 first [is_var x | unify x (ctx ap)]; let E := fresh "E" in destruct x eqn:E; cbn in H; try discriminate
             end; injection H as <-; cbn; unfold notify_all; cbn; try (destruct ap); cbn; exact M.
  - unfold receive in H. cbn in H. destruct cl; try discriminate. injection H as <-.
    destruct c; cbn; try (destruct ap; cbn; exact M); try exact M.
    intro f. cbn. destruct (bytes_eqb f source); [reflexivity|apply M].
Qed.
End Program.
