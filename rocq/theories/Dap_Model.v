(** Model of language_server/src/dap/dap_server.cpp (sequence numbers, message handling) and
    of the responses of dap_feature.cpp. *)
From Coq Require Import List NArith ZArith Bool.
From Verif Require Import Common Json.
Import ListNotations.

(** * Sequence numbers

    dap_server.cpp:37-65: [++last_seq_] on an atomic 64-bit counter, then the message is handed
    to the channel.  The worker thread (responses) and the debugger thread (events) both send,
    and nothing orders the two actions of one thread against those of the other.
    [wire] lists what was handed over: the sending thread (a ghost) and the number. *)
Definition two64 := (2 ^ 64)%N.
Record seqst := mkSeq { last : N; holding : nat -> option N; wire : list (nat * N) }.
Definition seq0 : seqst := mkSeq 0 (fun _ => None) [].

Inductive sevent := Take (t : nat) | Write (t : nat).

Definition upd (f : nat -> option N) (t : nat) (v : option N) : nat -> option N :=
  fun t' => if Nat.eqb t' t then v else f t'.

Definition seq_step (x : seqst) (e : sevent) : option seqst :=
  match e with
  | Take t => match holding x t with
              | None => let n := ((last x + 1) mod two64)%N in
                        Some (mkSeq n (upd (holding x) t (Some n)) (wire x))
              | Some _ => None
              end
  | Write t => match holding x t with
               | Some n => Some (mkSeq (last x) (upd (holding x) t None) (wire x ++ [(t, n)]))
               | None => None
               end
  end.

(** * Requests *)
Inductive dout :=
| DResponse (request_seq : json) (command : bytes)
| DEvent (name : bytes).

(** dap_feature.h: whether [debugger] holds a value. Line and column bases are dropped. *)
Record dap := mkDap { dbg : bool; dsent : list dout; ddisc : bool }.

Definition dsay (o : dout) (s : dap) := mkDap (dbg s) (dsent s ++ [o]) (ddisc s).

(** Commands that respond only if there is a debugger (dap_feature.cpp:119-296), and commands
    that respond always (lines 157-172). *)
Definition dbg_commands : list bytes :=
  [s2b "launch"; s2b "setBreakpoints"; s2b "stackTrace"; s2b "scopes"; s2b "next"; s2b "stepIn";
   s2b "variables"; s2b "continue"].
Definition free_commands : list bytes :=
  [s2b "setExceptionBreakpoints"; s2b "configurationDone"; s2b "threads"].
Definition c_initialize := s2b "initialize".
Definition c_disconnect := s2b "disconnect".
Definition dmem (k : bytes) (l : list bytes) : bool := existsb (bytes_eqb k) l.

Section Dap.
  (** What the debugger does with the arguments of a command: it may throw; a debugger command
      may emit events (stopped, exited, terminated) from its own thread. *)
  Variable act : bytes -> json -> res unit.

  Definition get_bool (j : json) : res bool := match j with JBool b => Ret b | _ => Throws end.

  (** dap_feature.cpp:100-102: the three arguments of initialize, in order. *)
  Definition init_args (args : json) : res unit :=
    bind (jindex_const (s2b "linesStartAt1") args) (fun a => bind (get_bool a) (fun _ =>
    bind (jindex_const (s2b "columnsStartAt1") args) (fun b => bind (get_bool b) (fun _ =>
    bind (jindex_const (s2b "pathFormat") args) (fun c => bind (get_string c) (fun _ => Ret tt)))))).

  (** server.cpp:39-65 [call_method] with dap_feature.cpp. Second component: [false] if undefined
      behaviour was executed.  Json exceptions are caught; what was sent before stays sent. *)
  Definition dcall (c : bytes) (seq : json) (args : json) (s : dap) : dap * bool :=
    if bytes_eqb c c_initialize then
      let s1 := dsay (DResponse seq c) s in
      match init_args args with
      | Ret _ => (dsay (DEvent (s2b "initialized")) (mkDap true (dsent s1) (ddisc s1)), true)
      | Throws => (s1, true)
      | Undef => (s1, false)
      end
    else if bytes_eqb c c_disconnect then
      (dsay (DResponse seq c) (mkDap false (dsent s) true), true)
    else if dmem c free_commands then (dsay (DResponse seq c) s, true)
    else if dmem c dbg_commands then
      if dbg s then
        match act c args with
        | Ret _ => (dsay (DResponse seq c) s, true)
        | Throws => (s, true)
        | Undef => (s, false)
        end
      else (s, true)
    else (s, true).

  (** dap_server.cpp:67-87 [message_received]; [at] throws when the member is missing. *)
  Definition dreceive (j : json) (s : dap) : dap * bool :=
    match jfind (s2b "type") j with
    | Some (JStr t) =>
        if bytes_eqb t (s2b "request") then
          let args := match jfind (s2b "arguments") j with Some a => a | None => JNull end in
          match jfind (s2b "command") j, jfind (s2b "seq") j with
          | Some (JStr c), Some q => dcall c q args s
          | _, _ => (s, true)
          end
        else (s, true)
    | _ => (s, true)
    end.
End Dap.
