(** The debugger: the analysis thread and the thread that runs the client's commands.

    Modelled: parser_library/src/debugging/debugger.cpp:74-255, 373-391 (launch, analyze, next,
    step_in, continue_debug, disconnect, breakpoints, the locking of stack_frames, scopes and
    variables); processing/processing_manager.cpp:97-124 (the loop that calls analyze).  The
    commands of one debugging session run one at a time on one thread
    (dap/dap_session.cpp:24-43, request_manager.cpp; C03).

    One step per access to shared state.  Plain (not atomic) variables are read and written like
    atomic ones, although the code has data races on [disconnected_] (164), [step_over_depth_] (186)
    and the processing stack (217); what 217 reads while the analysis runs is arbitrary.

    Simplifications: the statements that the analysis goes through are a fixed list (they do
    not depend on the debugger); condition_variable::wait may also return without
    notification; conversion of paths and line numbers (dap_feature.cpp) and the contents of
    frames, scopes and variables are left out: [snapshot] is the statement [proc_stack_] shows. *)
From Coq Require Import List NArith Bool.
From Verif Require Import Common.
Import ListNotations.
Open Scope N_scope.

Definition path := bytes.
(** A statement handed to [analyze]; [depth] is processing_stack().size(). *)
Record stmt := { ordinary : bool; blank : bool; file : path; first : N; last : N; depth : N }.

(** Program counter of the analysis thread; the argument is the index of the statement. *)
Inductive pc :=
| NotStarted
| Starting                        (* 136: about to lock variable_mtx_ *)
| Fetch (i : nat)                 (* processing_manager.cpp:101 *)
| Enter (i : nat)                 (* 164 *)
| Look (i : nat)                  (* 169-183 *)
| Flag (i : nat) (hit : bool)     (* 186, first operands *)
| Over (i : nat)                  (* 186, step_over_ *)
| Depth (i : nat)                 (* 186, step_over_depth_ *)
| Clear (i : nat)                 (* 188-192 *)
| Lock (i : nat)                  (* 194 *)
| Recheck (i : nat)               (* 195 *)
| Reset (i : nat)                 (* 197-199 *)
| Unset (i : nat)                 (* 201 *)
| Notify (i : nat)                (* 203 *)
| Test (i : nat)                  (* 205, predicate *)
| Sleep (i : nat)                 (* predicate was false, lock still held *)
| Asleep (i : nat)
| Woken (i : nat)                 (* about to lock control_mtx again *)
| Relock (i : nat)                (* 207 *)
| Finish                          (* 152 *)
| Ending                          (* 154 *)
| Leaving                         (* the analyzer is destroyed, the guard unlocks *)
| Done.

(** Program counter of the command thread. *)
Inductive cpc :=
| Idle
| NextLock | NextOver | NextDepth | NextContinue | NextUnlock | NextNotify
| StepLock | StepFlag | StepContinue | StepUnlock | StepNotify
| ContFlag | ContContinue | ContNotify
| ViewLock | ViewRead | ViewUnlock
| DiscLock | DiscFlag | DiscContinue | DiscCancel | DiscUnlock | DiscNotify | DiscJoin
| Gone.                           (* the debugger is destroyed *)

Inductive owner := Nobody | Analysis | Client.
Inductive command :=
| Launch (stop_on_entry : bool)
| Breakpoints (source : path) (lines : list N)
| Next | StepIn | Continue | View | Disconnect.
(** Terminate: a joinable thread is overwritten; NullContext, DeadContext: [ctx_] in 217;
    BadUnlock: [variable_mtx_] is unlocked by the guard although it is not locked. *)
Inductive fault := Terminate | NullContext | DeadContext | BadUnlock.

Inductive event :=
| Received (c : command)
| Looked (i : nat)                (* the breakpoints were read for a visible statement *)
| Passed (i : nat)                (* it is not stopped at *)
| Stopped (i : nat)               (* the client is told *)
| Viewed (i : option nat)         (* a view of the stack at that statement was taken *)
| Exited.

Record state := {
  apc : pc; client : cpc;
  control : owner; vars : owner;
  continue_ : bool; stop_on_next : bool; step_over : bool; step_over_depth : N;
  disconnected : bool; cancel : bool; debug_ended : bool;
  breakpoints : list (path * list N);
  snapshot : option nat;
  broken : option fault;
  log : list event                (* newest first *)
}.

Definition initial : state :=
  {| apc := NotStarted; client := Idle; control := Nobody; vars := Nobody;
     continue_ := false; stop_on_next := false; step_over := false; step_over_depth := 0;
     disconnected := false; cancel := false; debug_ended := false;
     breakpoints := []; snapshot := None; broken := None; log := [] |}.

Definition with_apc (p : pc) (s : state) : state :=
  {| apc := p; client := client s; control := control s; vars := vars s; continue_ := continue_ s;
     stop_on_next := stop_on_next s; step_over := step_over s; step_over_depth := step_over_depth s;
     disconnected := disconnected s; cancel := cancel s; debug_ended := debug_ended s;
     breakpoints := breakpoints s; snapshot := snapshot s; broken := broken s; log := log s |}.
Definition with_client (p : cpc) (s : state) : state :=
  {| apc := apc s; client := p; control := control s; vars := vars s; continue_ := continue_ s;
     stop_on_next := stop_on_next s; step_over := step_over s; step_over_depth := step_over_depth s;
     disconnected := disconnected s; cancel := cancel s; debug_ended := debug_ended s;
     breakpoints := breakpoints s; snapshot := snapshot s; broken := broken s; log := log s |}.
Definition with_control (o : owner) (s : state) : state :=
  {| apc := apc s; client := client s; control := o; vars := vars s; continue_ := continue_ s;
     stop_on_next := stop_on_next s; step_over := step_over s; step_over_depth := step_over_depth s;
     disconnected := disconnected s; cancel := cancel s; debug_ended := debug_ended s;
     breakpoints := breakpoints s; snapshot := snapshot s; broken := broken s; log := log s |}.
Definition with_vars (o : owner) (s : state) : state :=
  {| apc := apc s; client := client s; control := control s; vars := o; continue_ := continue_ s;
     stop_on_next := stop_on_next s; step_over := step_over s; step_over_depth := step_over_depth s;
     disconnected := disconnected s; cancel := cancel s; debug_ended := debug_ended s;
     breakpoints := breakpoints s; snapshot := snapshot s; broken := broken s; log := log s |}.
Definition with_continue (b : bool) (s : state) : state :=
  {| apc := apc s; client := client s; control := control s; vars := vars s; continue_ := b;
     stop_on_next := stop_on_next s; step_over := step_over s; step_over_depth := step_over_depth s;
     disconnected := disconnected s; cancel := cancel s; debug_ended := debug_ended s;
     breakpoints := breakpoints s; snapshot := snapshot s; broken := broken s; log := log s |}.
Definition with_stop (b : bool) (s : state) : state :=
  {| apc := apc s; client := client s; control := control s; vars := vars s; continue_ := continue_ s;
     stop_on_next := b; step_over := step_over s; step_over_depth := step_over_depth s;
     disconnected := disconnected s; cancel := cancel s; debug_ended := debug_ended s;
     breakpoints := breakpoints s; snapshot := snapshot s; broken := broken s; log := log s |}.
Definition with_over (b : bool) (s : state) : state :=
  {| apc := apc s; client := client s; control := control s; vars := vars s; continue_ := continue_ s;
     stop_on_next := stop_on_next s; step_over := b; step_over_depth := step_over_depth s;
     disconnected := disconnected s; cancel := cancel s; debug_ended := debug_ended s;
     breakpoints := breakpoints s; snapshot := snapshot s; broken := broken s; log := log s |}.
Definition with_depth (d : N) (s : state) : state :=
  {| apc := apc s; client := client s; control := control s; vars := vars s; continue_ := continue_ s;
     stop_on_next := stop_on_next s; step_over := step_over s; step_over_depth := d;
     disconnected := disconnected s; cancel := cancel s; debug_ended := debug_ended s;
     breakpoints := breakpoints s; snapshot := snapshot s; broken := broken s; log := log s |}.
Definition with_disconnected (s : state) : state :=
  {| apc := apc s; client := client s; control := control s; vars := vars s; continue_ := continue_ s;
     stop_on_next := stop_on_next s; step_over := step_over s; step_over_depth := step_over_depth s;
     disconnected := true; cancel := cancel s; debug_ended := debug_ended s;
     breakpoints := breakpoints s; snapshot := snapshot s; broken := broken s; log := log s |}.
Definition with_cancel (s : state) : state :=
  {| apc := apc s; client := client s; control := control s; vars := vars s; continue_ := continue_ s;
     stop_on_next := stop_on_next s; step_over := step_over s; step_over_depth := step_over_depth s;
     disconnected := disconnected s; cancel := true; debug_ended := debug_ended s;
     breakpoints := breakpoints s; snapshot := snapshot s; broken := broken s; log := log s |}.
Definition with_ended (s : state) : state :=
  {| apc := apc s; client := client s; control := control s; vars := vars s; continue_ := continue_ s;
     stop_on_next := stop_on_next s; step_over := step_over s; step_over_depth := step_over_depth s;
     disconnected := disconnected s; cancel := cancel s; debug_ended := true;
     breakpoints := breakpoints s; snapshot := snapshot s; broken := broken s; log := log s |}.
Definition with_breakpoints (l : list (path * list N)) (s : state) : state :=
  {| apc := apc s; client := client s; control := control s; vars := vars s; continue_ := continue_ s;
     stop_on_next := stop_on_next s; step_over := step_over s; step_over_depth := step_over_depth s;
     disconnected := disconnected s; cancel := cancel s; debug_ended := debug_ended s;
     breakpoints := l; snapshot := snapshot s; broken := broken s; log := log s |}.
Definition with_snapshot (o : option nat) (s : state) : state :=
  {| apc := apc s; client := client s; control := control s; vars := vars s; continue_ := continue_ s;
     stop_on_next := stop_on_next s; step_over := step_over s; step_over_depth := step_over_depth s;
     disconnected := disconnected s; cancel := cancel s; debug_ended := debug_ended s;
     breakpoints := breakpoints s; snapshot := o; broken := broken s; log := log s |}.
Definition breaks (f : fault) (s : state) : state :=
  {| apc := apc s; client := client s; control := control s; vars := vars s; continue_ := continue_ s;
     stop_on_next := stop_on_next s; step_over := step_over s; step_over_depth := step_over_depth s;
     disconnected := disconnected s; cancel := cancel s; debug_ended := debug_ended s;
     breakpoints := breakpoints s; snapshot := snapshot s; broken := Some f; log := log s |}.
Definition tell (e : event) (s : state) : state :=
  {| apc := apc s; client := client s; control := control s; vars := vars s; continue_ := continue_ s;
     stop_on_next := stop_on_next s; step_over := step_over s; step_over_depth := step_over_depth s;
     disconnected := disconnected s; cancel := cancel s; debug_ended := debug_ended s;
     breakpoints := breakpoints s; snapshot := snapshot s; broken := broken s; log := e :: log s |}.

(** 373-385 *)
Fixpoint breakpoints_of (f : path) (l : list (path * list N)) : list N :=
  match l with
  | [] => []
  | (g, lines) :: l => if bytes_eqb f g then lines else breakpoints_of f l
  end.
(** 179-183 *)
Definition breakpoint_hit (x : stmt) (lines : list N) : bool :=
  existsb (fun line => (first x <=? line) && (line <=? last x)) lines.

Section Program.
Variable program : list stmt.

(** A step of the analysis thread; [None]: it cannot move (waiting, or over). *)
Definition analysis (s : state) : option state :=
  match apc s with
  | NotStarted | Done => None
  | Starting =>
      match vars s with Nobody => Some (with_apc (Fetch 0) (with_vars Analysis s)) | _ => None end
  | Fetch i =>
      if cancel s then Some (with_apc Finish s)
      else match nth_error program i with
           | Some _ => Some (with_apc (Enter i) s)
           | None => Some (with_apc Finish s)
           end
  | Enter i => Some (with_apc (if disconnected s then Fetch (S i) else Look i) s)
  | Look i =>
      match nth_error program i with
      | None => None
      | Some x =>
          if negb (ordinary x) || blank x then Some (with_apc (Fetch (S i)) s)
          else Some (with_apc (Flag i (breakpoint_hit x (breakpoints_of (file x) (breakpoints s)))) (tell (Looked i) s))
      end
  | Flag i hit => Some (with_apc (if stop_on_next s || hit then Clear i else Over i) s)
  | Over i => Some (if step_over s then with_apc (Depth i) s else with_apc (Fetch (S i)) (tell (Passed i) s))
  | Depth i =>
      match nth_error program i with
      | None => None
      | Some x => Some (if depth x <=? step_over_depth s then with_apc (Clear i) s
                        else with_apc (Fetch (S i)) (tell (Passed i) s))
      end
  | Clear i => Some (with_apc (Lock i) (with_vars Nobody (with_snapshot (Some i) s)))
  | Lock i =>
      match control s with Nobody => Some (with_apc (Recheck i) (with_control Analysis s)) | _ => None end
  | Recheck i =>
      Some (if disconnected s then with_apc (Fetch (S i)) (with_control Nobody s) else with_apc (Reset i) s)
  | Reset i => Some (with_apc (Unset i) (with_over false (with_stop false s)))
  | Unset i => Some (with_apc (Notify i) (with_continue false s))
  | Notify i => Some (with_apc (Test i) (tell (Stopped i) s))
  | Test i => Some (with_apc (if continue_ s then Relock i else Sleep i) s)
  | Sleep i => Some (with_apc (Asleep i) (with_control Nobody s))
  | Asleep _ => None
  | Woken i =>
      match control s with Nobody => Some (with_apc (Test i) (with_control Analysis s)) | _ => None end
  | Relock i =>
      match vars s with
      | Nobody => Some (with_apc (Fetch (S i)) (with_control Nobody (with_vars Analysis s)))
      | _ => None
      end
  | Finish => Some (with_apc Ending (if disconnected s then s else tell Exited s))
  | Ending => Some (with_apc Leaving (with_ended s))
  | Leaving =>
      match vars s with
      | Analysis => Some (with_apc Done (with_vars Nobody s))
      | _ => Some (breaks BadUnlock s)
      end
  end.

(** A return of wait() without notification. *)
Definition spurious (s : state) : option state :=
  match apc s with Asleep i => Some (with_apc (Woken i) s) | _ => None end.
Definition notify_all (s : state) : state :=
  match apc s with Asleep i => with_apc (Woken i) s | _ => s end.

Inductive context := Null | Alive | Dead.
Definition ctx (p : pc) : context :=
  match p with NotStarted | Starting => Null | Leaving | Done => Dead | _ => Alive end.
(** The statement at which the analysis thread is halted while [control_mtx] is not its own. *)
Definition halted (p : pc) : option nat :=
  match p with
  | Recheck i | Reset i | Unset i | Notify i | Test i | Sleep i | Asleep i | Woken i | Relock i | Lock i | Clear i => Some i
  | _ => None
  end.

(** A step of the command thread; [d]: what 217 reads while the analysis runs. *)
Definition command_step (s : state) (d : N) : option state :=
  let take p := match control s with Nobody => Some (with_client p (with_control Client s)) | _ => None end in
  let to p s := Some (with_client p s) in
  match client s with
  | Idle | Gone => None
  | NextLock => take NextOver
  | NextOver => to NextDepth (with_over true s)
  | NextDepth =>
      match ctx (apc s) with
      | Null => Some (breaks NullContext s)
      | Dead => Some (breaks DeadContext s)
      | Alive =>
          let d := match halted (apc s) with
                   | Some i => match nth_error program i with Some x => depth x | None => d end
                   | None => d
                   end in
          to NextContinue (with_depth d s)
      end
  | NextContinue => to NextUnlock (with_continue true s)
  | NextUnlock => to NextNotify (with_control Nobody s)
  | NextNotify => to Idle (notify_all s)
  | StepLock => take StepFlag
  | StepFlag => to StepContinue (with_stop true s)
  | StepContinue => to StepUnlock (with_continue true s)
  | StepUnlock => to StepNotify (with_control Nobody s)
  | StepNotify => to Idle (notify_all s)
  | ContFlag => to ContContinue (with_stop false s)
  | ContContinue => to ContNotify (with_continue true s)
  | ContNotify => to Idle (notify_all s)
  | ViewLock => match vars s with Nobody => to ViewRead (with_vars Client s) | _ => None end
  | ViewRead => to ViewUnlock (tell (Viewed (if debug_ended s then None else snapshot s)) s)
  | ViewUnlock => to Idle (with_vars Nobody s)
  | DiscLock => take DiscFlag
  | DiscFlag => to DiscContinue (with_disconnected s)
  | DiscContinue => to DiscCancel (with_continue true s)
  | DiscCancel => to DiscUnlock (with_cancel s)
  | DiscUnlock => to DiscNotify (with_control Nobody s)
  | DiscNotify => to DiscJoin (notify_all s)
  | DiscJoin => match apc s with NotStarted | Done => to Gone s | _ => None end
  end.

(** The thread takes up the next command. *)
Definition receive (s : state) (c : command) : option state :=
  match client s with
  | Idle =>
      let s := tell (Received c) s in
      Some match c with
           | Launch entry =>
               match apc s with
               | NotStarted => with_apc Starting (with_stop entry s)
               | _ => breaks Terminate s
               end
           | Breakpoints f lines => with_breakpoints ((f, lines) :: breakpoints s) s
           | Next => with_client NextLock s
           | StepIn => with_client StepLock s
           | Continue => with_client ContFlag s
           | View => with_client ViewLock s
           | Disconnect => with_client DiscLock s
           end
  | _ => None
  end.

Inductive label := A | W | C (d : N) | Cmd (c : command).
Definition step (s : state) (l : label) : option state :=
  match broken s with
  | Some _ => None
  | None =>
      match l with
      | A => analysis s
      | W => spurious s
      | C d => command_step s d
      | Cmd c => receive s c
      end
  end.
End Program.
