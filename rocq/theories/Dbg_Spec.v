(** What the client of the debugger may rely on, in terms of the events it sees and causes.
    A history is a list of events, newest first. *)
From Coq Require Import List NArith Bool.
From Verif Require Import Common Dbg_Model.
Import ListNotations.
Open Scope N_scope.

Definition visible (x : stmt) : bool := ordinary x && negb (blank x).

(** The breakpoint lines last set for a file. *)
Fixpoint lines_set (l : list event) (f : path) : list N :=
  match l with
  | [] => []
  | Received (Breakpoints g lines) :: l => if bytes_eqb f g then lines else lines_set l f
  | _ :: l => lines_set l f
  end.
(** The history up to the moment the statement now under consideration was looked at. *)
Fixpoint since_look (l : list event) : list event :=
  match l with [] => [] | Looked _ :: p => p | _ :: p => since_look p end.
Definition covers (x : stmt) (lines : list N) : Prop := exists n, In n lines /\ first x <= n <= last x.

(** A command that makes a stopped analysis go on. *)
Definition resuming (c : command) : bool := match c with Next | StepIn | Continue => true | _ => false end.
(** The last thing that happened is a stop; no such command came after it. *)
Fixpoint awaiting (l : list event) : bool :=
  match l with
  | [] => false
  | Stopped _ :: _ => true
  | Received c :: l => if resuming c then false else awaiting l
  | _ :: l => awaiting l
  end.
(** A client that resumes the analysis only when it has stopped, and does not disconnect. *)
Fixpoint disciplined (l : list event) : Prop :=
  match l with
  | [] => True
  | Received Disconnect :: _ => False
  | Received c :: l => (resuming c = true -> awaiting l = true) /\ disciplined l
  | _ :: l => disciplined l
  end.

Section Program.
Variable program : list stmt.

(** Nesting depth at the last stop. *)
Fixpoint stop_depth (l : list event) : option N :=
  match l with
  | [] => None
  | Stopped i :: _ => option_map depth (nth_error program i)
  | _ :: l => stop_depth l
  end.
(** Whether the last command asks for a stop at [x] (whatever the breakpoints). *)
Fixpoint demanded (l : list event) (x : stmt) : Prop :=
  match l with
  | [] => False
  | Received (Launch entry) :: _ => entry = true
  | Received StepIn :: _ => True
  | Received Continue :: _ => False
  | Received Next :: l => exists d, stop_depth l = Some d /\ depth x <= d
  | _ :: l => demanded l x
  end.
Definition should_stop (l : list event) (x : stmt) : Prop :=
  covers x (lines_set (since_look l) (file x)) \/ demanded l x.

(** The statements the analysis decided about, oldest first. *)
Definition decision (e : event) : list nat := match e with Passed i | Stopped i => [i] | _ => [] end.
Definition decided (l : list event) : list nat := rev (flat_map decision l).
(** The visible ones among the first [k] statements. *)
Definition visible_upto (k : nat) : list nat :=
  filter (fun i => match nth_error program i with Some x => visible x | None => false end) (seq 0 k).
End Program.

(** The statement under consideration, if the analysis did not go past it. *)
Fixpoint at_statement (l : list event) : option nat :=
  match l with
  | [] => None
  | Looked i :: _ => Some i
  | Passed _ :: _ | Exited :: _ => None
  | _ :: l => at_statement l
  end.

(** The analysis waits for a command, or is about to go on. *)
Definition waits (p : pc) : bool :=
  match p with Test _ | Sleep _ | Asleep _ | Woken _ | Relock _ => true | _ => false end.
(** The analysis is changing its state. *)
Definition works (p : pc) : bool :=
  match p with
  | Fetch _ | Enter _ | Look _ | Flag _ _ | Over _ | Depth _ | Clear _ | Finish | Ending | Leaving => true
  | _ => false
  end.
(** Labels of the two threads themselves: no further command, no wake-up out of nothing. *)
Definition thread (l : label) : bool := match l with A | C _ => true | _ => false end.
Definition stuck (program : list stmt) (s : state) : Prop :=
  step program s A = None /\ forall d, step program s (C d) = None.

(** Whichever of the two threads moves, [P] holds after at most [n] steps. *)
Fixpoint inevitable (program : list stmt) (P : state -> Prop) (n : nat) (s : state) : Prop :=
  P s \/
  match n with
  | O => False
  | S m => ~ stuck program s /\
           forall l s', thread l = true -> step program s l = Some s' -> inevitable program P m s'
  end.
