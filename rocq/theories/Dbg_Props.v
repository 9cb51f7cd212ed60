(** C33, C34, C50: the debugger. *)
From Coq Require Import List NArith Bool Lia Arith.
From Verif Require Import Common Lts Dbg_Model Dbg_Spec Dbg_Proof Dbg_Stops Dbg_All Dbg_Live Dbg_Exit Dbg_Free.
Import ListNotations.

Definition line (n d : N) : stmt :=
  {| ordinary := true; blank := false; file := [65%N]; first := n; last := n; depth := d |}.
Definition empty_line : stmt :=
  {| ordinary := true; blank := true; file := [65%N]; first := 9; last := 9; depth := 1 |}.
(** Four statements; the second calls something, in which the third is nested. *)
Definition sample : list stmt := [line 0 1; line 1 1; line 2 2; empty_line; line 3 1].
Definition As (n : nat) : list label := repeat A n.
Definition Cs (n : nat) : list label := repeat (C 0) n.
Definition after_run (ls : list label) : option (list event) := option_map log (run (step sample) initial ls).

(** ** C33 *)
(** A client that resumes only a stopped analysis is told of a stop only at a statement that a
    breakpoint set before covers, or which the last command asks for. *)
Theorem C33_stops : forall program ls s a i p, run (step program) initial ls = Some s -> disciplined (log s) ->
  log s = a ++ Stopped i :: p ->
  exists x, nth_error program i = Some x /\ visible x = true /\ should_stop program p x.
Proof. exact stopped_justified. Qed.
Print Assumptions C33_stops.

(** It is stopped at every such statement. *)
Theorem C33_passes : forall program ls s a i p, run (step program) initial ls = Some s -> disciplined (log s) ->
  log s = a ++ Passed i :: p ->
  exists x, nth_error program i = Some x /\ visible x = true /\ ~ should_stop program p x.
Proof. exact passed_justified. Qed.
Print Assumptions C33_passes.

(** Every statement that is shown is decided about, once and in order. *)
Theorem C33_order : forall program ls s, run (step program) initial ls = Some s -> disciplined (log s) -> broken s = None ->
  exists k, (k <= length program)%nat /\ decided (log s) = visible_upto program k.
Proof. exact decided_prefix. Qed.
Print Assumptions C33_order.

(** When the analysis ends all of them have been. *)
Theorem C33_end : forall program ls s a p, run (step program) initial ls = Some s -> disciplined (log s) ->
  log s = a ++ Exited :: p -> decided p = visible_upto program (length program).
Proof. exact exited_all. Qed.
Print Assumptions C33_end.

(** No client whatever makes the analysis run past a breakpoint that was set before the
    statement was looked at. *)
Theorem C33_breakpoints : forall program ls s a i p, run (step program) initial ls = Some s ->
  log s = a ++ Passed i :: p ->
  exists x, nth_error program i = Some x /\ visible x = true /\ ~ covers x (lines_set (since_look p) (file x)).
Proof. exact passed_uncovered. Qed.
Print Assumptions C33_breakpoints.

(** Only statements that are shown are considered at all. *)
Theorem C33_visible : forall program ls s a i p, run (step program) initial ls = Some s ->
  log s = a ++ Looked i :: p -> exists x, nth_error program i = Some x /\ visible x = true.
Proof. exact looked_visible. Qed.
Print Assumptions C33_visible.

(** Stop on entry, step, step over the call, run to the end. *)
Definition session : list label :=
  [Cmd (Breakpoints [65%N] [3%N]); Cmd (Launch true)] ++ As 13 ++
  [Cmd StepIn] ++ Cs 5 ++ As 15 ++ [Cmd Next] ++ Cs 6 ++ As 24 ++ [Cmd Continue] ++ Cs 3 ++ As 7.
Example C33_session : after_run session =
  Some [Exited; Received Continue; Stopped 4; Looked 4; Passed 2; Looked 2; Received Next; Stopped 1; Looked 1;
        Received StepIn; Stopped 0; Looked 0; Received (Launch true); Received (Breakpoints [65%N] [3%N])]%nat.
Proof. vm_compute. reflexivity. Qed.
Example C33_session_disciplined : forall l, after_run session = Some l -> disciplined l.
Proof. rewrite C33_session. intros l H. injection H as <-. cbn. tauto. Qed.
Example C33_session_decided : visible_upto sample (length sample) = [0; 1; 2; 4]%nat.
Proof. reflexivity. Qed.

(** Not so for a client that sends continue while the analysis runs: the step over asked for before
    is not forgotten (239-252 resets only [stop_on_next_stmt_]), and the analysis stops where
    there is no breakpoint although the last command was continue. *)
Definition restless : list label :=
  [Cmd (Launch true)] ++ As 13 ++ [Cmd Next] ++ Cs 6 ++ [Cmd Continue] ++ Cs 3 ++ As 15.
Theorem C33_continue_refuted : exists s i p x, run (step sample) initial restless = Some s /\
  log s = Stopped i :: p /\ nth_error sample i = Some x /\ ~ should_stop sample p x /\ (forall f, lines_set p f = []).
Proof.
  destruct (run (step sample) initial restless) as [s|] eqn:E; [|vm_compute in E; discriminate].
  assert (L : option_map log (Some s) = Some [Stopped 1; Looked 1; Received Continue; Received Next; Stopped 0; Looked 0; Received (Launch true)]%nat)
    by (rewrite <- E; vm_compute; reflexivity).
  cbn in L. injection L as L. do 4 eexists. refine (conj eq_refl (conj L (conj eq_refl (conj _ (fun f => eq_refl))))).
  unfold should_stop. cbn. intros [(n & [] & _)|[]].
Qed.
Print Assumptions C33_continue_refuted.

(** ** C34 *)
(** Neither thread ever waits for the other in vain: they stand still only when the client has no
    command to work on and the analysis has not started, is over, or sleeps until a command comes. *)
Theorem C34_standstill : forall program ls s, run (step program) initial ls = Some s -> broken s = None -> stuck program s ->
  (client s = Idle /\ (settled (apc s) = true \/ is_asleep (apc s) = true)) \/ (client s = Gone /\ settled (apc s) = true).
Proof. exact standstill. Qed.
Print Assumptions C34_standstill.

(** Next, step in and disconnect make a waiting analysis go on, whatever went before and however
    the threads are interleaved. *)
Theorem C34_resumes : forall program ls s c s', run (step program) initial ls = Some s ->
  c = Next \/ c = StepIn \/ c = Disconnect -> waits (apc s) = true -> step program s (Cmd c) = Some s' ->
  inevitable program (fun s => waits (apc s) = false) 80 s'.
Proof. exact command_resumes. Qed.
Print Assumptions C34_resumes.

(** Continue does if the analysis already sleeps when it is received. *)
Theorem C34_continue : forall program ls s s', run (step program) initial ls = Some s ->
  is_asleep (apc s) = true -> step program s (Cmd Continue) = Some s' ->
  inevitable program (fun s => waits (apc s) = false) 80 s'.
Proof. exact continue_resumes. Qed.
Print Assumptions C34_continue.

(** If it is received after the client was told of the stop, but just before the analysis falls
    asleep, its notification is lost: 239-252 does not take [control_mtx]. *)
Definition lost : list label := [Cmd (Launch true)] ++ As 12 ++ [Cmd Continue] ++ Cs 3 ++ As 1.
Theorem C34_continue_refuted : exists s, run (step sample) initial lost = Some s /\
  disciplined (log s) /\ log s = [Received Continue; Stopped 0; Looked 0; Received (Launch true)]%nat /\
  broken s = None /\ waits (apc s) = true /\ client s = Idle /\ stuck sample s.
Proof.
  eexists. split; [vm_compute; reflexivity|]. cbn. repeat split; auto.
Qed.
Print Assumptions C34_continue_refuted.

(** A client that disconnects is released and the analysis is over after finitely many steps, in
    whatever state it was; or the analysis unlocks a mutex it does not hold. *)
Theorem C34_disconnect : forall program ls s s', run (step program) initial ls = Some s ->
  step program s (Cmd Disconnect) = Some s' -> inevitable program finished (20 * length program + 100) s'.
Proof. exact disconnect_ends. Qed.
Print Assumptions C34_disconnect.

(** The latter does not happen if the client knows the analysis to be stopped. *)
Theorem C34_close : forall program ls s s', run (step program) initial ls = Some s ->
  disciplined (log s) -> awaiting (log s) = true -> step program s (Cmd Disconnect) = Some s' ->
  inevitable program closed (20 * length program + 100) s'.
Proof. exact disconnect_closes. Qed.
Print Assumptions C34_close.

(** It happens if the client disconnects while the analysis is about to stop (191-201: [variable_mtx_]
    is released, and not taken again on the way out). *)
Definition crossing : list label := [Cmd (Launch true)] ++ As 6 ++ [Cmd Disconnect] ++ Cs 6 ++ As 6.
Theorem C34_unlock_refuted : exists s, run (step sample) initial crossing = Some s /\ broken s = Some BadUnlock.
Proof. eexists. split; vm_compute; reflexivity. Qed.
Print Assumptions C34_unlock_refuted.

(** A client that has disconnected is told nothing any more. *)
Theorem C34_mute : forall program ls s ms s', run (step program) initial ls = Some s -> c_disc (client s) = true ->
  run (step program) s ms = Some s' -> exists a, log s' = a ++ log s /\ forall e, In e a -> told e = false.
Proof. exact disconnected_mute. Qed.
Print Assumptions C34_mute.

(** A second launch ends the process: [thread_] is overwritten while it runs (85-86). *)
Theorem C34_launch_refuted : exists s, run (step sample) initial [Cmd (Launch true); Cmd (Launch false)] = Some s /\
  broken s = Some Terminate.
Proof. eexists. split; vm_compute; reflexivity. Qed.
Print Assumptions C34_launch_refuted.

(** Next before the analysis has made its context, or after it has ended, reads through a pointer
    that is null or dangling (217). *)
Theorem C34_next_refuted :
  (exists s, run (step sample) initial ([Cmd (Launch true); Cmd Next] ++ Cs 3) = Some s /\ broken s = Some NullContext) /\
  (exists s, run (step []) initial ([Cmd (Launch true)] ++ As 5 ++ [Cmd Next] ++ Cs 3) = Some s /\ broken s = Some DeadContext).
Proof. split; eexists; split; vm_compute; reflexivity. Qed.
Print Assumptions C34_next_refuted.

Example C34_sample : exists s, run (step sample) initial ([Cmd (Launch true)] ++ As 13) = Some s /\
  disciplined (log s) /\ awaiting (log s) = true /\ is_asleep (apc s) = true /\
  exists s', step sample s (Cmd Disconnect) = Some s' /\ exists s'', run (step sample) s' (Cs 6 ++ As 7 ++ Cs 1) = Some s'' /\ closed s''.
Proof.
  eexists. split; [vm_compute; reflexivity|]. cbn [log]. refine (conj _ (conj eq_refl (conj eq_refl _))).
  - cbn. tauto.
  - eexists. split; [vm_compute; reflexivity|]. eexists. split; [vm_compute; reflexivity|]. vm_compute. auto.
Qed.

(** ** C50 *)
(** A stop is told at the statement that was looked at last, and a view shows that statement. *)
Theorem C50_stopped : forall program ls s a i p, run (step program) initial ls = Some s ->
  log s = a ++ Stopped i :: p -> at_statement p = Some i.
Proof. exact stopped_at. Qed.
Print Assumptions C50_stopped.
Theorem C50_viewed : forall program ls s a i p, run (step program) initial ls = Some s ->
  log s = a ++ Viewed (Some i) :: p -> at_statement p = Some i.
Proof. exact viewed_at. Qed.
Print Assumptions C50_viewed.
(** An empty view is given only before the first statement and after the end. *)
Theorem C50_empty : forall program ls s a p, run (step program) initial ls = Some s ->
  log s = a ++ Viewed None :: p -> (forall i, ~ In (Looked i) p) \/ In Exited p.
Proof. exact viewed_none. Qed.
Print Assumptions C50_empty.
(** While a view is taken the analysis does not change its state, and does not begin to. *)
Theorem C50_exclusive : forall program ls s, run (step program) initial ls = Some s ->
  client s = ViewRead \/ client s = ViewUnlock -> works (apc s) = false.
Proof. exact exclusive. Qed.
Print Assumptions C50_exclusive.
Theorem C50_stable : forall program ls s s', run (step program) initial ls = Some s ->
  client s = ViewRead \/ client s = ViewUnlock -> step program s A = Some s' -> works (apc s') = false.
Proof. exact view_stable. Qed.
Print Assumptions C50_stable.

Example C50_sample : after_run ([Cmd (Launch true)] ++ As 13 ++ [Cmd View] ++ Cs 3) =
  Some [Viewed (Some 0); Received View; Stopped 0; Looked 0; Received (Launch true)]%nat.
Proof. vm_compute. reflexivity. Qed.
