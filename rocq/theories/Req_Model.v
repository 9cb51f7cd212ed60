(** Model of language_server/src/request_manager.cpp (asynchronous policy). *)
From Coq Require Import List Arith NArith Bool.
From Verif Require Import Common Lts.
Import ListNotations.

(** The part of a JSON message the manager looks at: "method" (if present) and
    params.textDocument.uri.  A textDocument message without that uri makes
    [get_request_file_] throw; such messages are treated in Dispatch_Model.v. *)
Record msg := mkMsg { mmethod : option bytes; muri : bytes }.

Definition td_prefix := s2b "textDocument".
Definition did_open := s2b "textDocument/didOpen".
Definition did_change := s2b "textDocument/didChange".

(** request_manager.cpp:143-164 [get_request_file_], first result: the file. *)
Definition get_request_file (m : msg) : bytes :=
  match mmethod m with
  | None => []
  | Some me => if starts_with td_prefix me then muri m else []
  end.

(** request_manager.cpp:154-160, the out parameter [is_parsing_required]. *)
Definition parsing_required (m : msg) : bool :=
  match mmethod m with
  | None => false
  | Some me => if starts_with td_prefix me
               then bytes_eqb me did_open || bytes_eqb me did_change
               else false
  end.

(** request_manager.h:28-34 [request]; [rid] is a ghost: how many requests were accepted
    before it. Servers are numbered. *)
Record req := mkReq { rid : nat; rsrv : nat; rmsg : msg; rvalid : bool }.

(** The worker thread, request_manager.cpp:81-111: about to take the mutex, asleep in
    [cond_.wait], executing a request, or returned. *)
Inductive worker := WReady | WWaiting | WRunning (r : req) | WEnded.

(** A thread inside [finish_server_requests] (request_manager.cpp:113-140) holds the mutex:
    waiting for the worker to leave server [s], or executing the listed requests. *)
Inductive finisher := FNone | FWait (s : nat) | FExec (s : nat) (todo : list req).

(** Members of the class.  [pending]: notifications still to be issued (lines 61, 71).
    Ghosts: [naccepted] - number of requests accepted; [started] - requests handed to a
    server, in order; [log] - for requests started by the worker, whether the
    cancellation flag was raised at the start. *)
Record st := mk {
  reqs : list req; wrk : worker; cur_file : bytes; cancel : bool; ending : bool;
  pending : nat; fin : finisher;
  naccepted : nat; started : list req; log : list (nat * bool) }.

Inductive ev :=
| EAdd (s : nat) (m : msg)   (* add_request, its critical section *)
| ENotify                    (* a pending notify_one *)
| ESpurious                  (* spurious wake-up of the worker *)
| EWorker                    (* worker takes the mutex *)
| EDone                      (* worker returns from message_received *)
| EEnd                       (* end_worker, its critical section *)
| EFinish (s : nat)          (* finish_server_requests takes the mutex *)
| EFinGo                     (* ... stops waiting for the worker *)
| EFinRun                    (* ... executes one request *)
| EFinEnd.                   (* ... erases the executed requests and returns *)

Definition invalidate (f : bytes) (r : req) : req :=
  if bytes_eqb (get_request_file (rmsg r)) f then mkReq (rid r) (rsrv r) (rmsg r) false else r.

(** [currently_running_server_ == s]: it is set when the worker starts a request and reset
    when it is done (lines 103, 109). *)
Definition runs_on (s : nat) (w : worker) : bool :=
  match w with WRunning r => rsrv r =? s | _ => false end.

Definition on_server (s : nat) (r : req) : bool := rsrv r =? s.

Definition step (x : st) (e : ev) : option st :=
  match e with
  | EAdd s m =>
      (* request_manager.cpp:32-62 *)
      match fin x with
      | FNone =>
        let f := get_request_file m in
        let hit := bytes_eqb (cur_file x) f && negb (bytes_eqb (cur_file x) []) && parsing_required m in
        let rs := if hit then map (invalidate f) (reqs x) else reqs x in
        Some (mk (rs ++ [mkReq (naccepted x) s m true]) (wrk x) (cur_file x)
                 (if hit then true else cancel x) (ending x) (S (pending x)) FNone
                 (S (naccepted x)) (started x) (log x))
      | _ => None
      end
  | ENotify =>
      match pending x with
      | O => None
      | S p => Some (mk (reqs x) (match wrk x with WWaiting => WReady | w => w end) (cur_file x)
                        (cancel x) (ending x) p (fin x) (naccepted x) (started x) (log x))
      end
  | ESpurious =>
      match wrk x with
      | WWaiting => Some (mk (reqs x) WReady (cur_file x) (cancel x) (ending x) (pending x) (fin x)
                             (naccepted x) (started x) (log x))
      | _ => None
      end
  | EWorker =>
      (* request_manager.cpp:86-105 *)
      match fin x, wrk x with
      | FNone, WReady =>
        if ending x then
          Some (mk (reqs x) WEnded (cur_file x) (cancel x) (ending x) (pending x) FNone
                   (naccepted x) (started x) (log x))
        else match reqs x with
        | [] => Some (mk [] WWaiting (cur_file x) (cancel x) (ending x) (pending x) FNone
                         (naccepted x) (started x) (log x))
        | r :: rs =>
            Some (mk rs (WRunning r) (get_request_file (rmsg r)) (negb (rvalid r)) (ending x)
                     (pending x) FNone (naccepted x) (started x ++ [r])
                     (log x ++ [(rid r, negb (rvalid r))]))
        end
      | _, _ => None
      end
  | EDone =>
      (* request_manager.cpp:107-109 *)
      match wrk x with
      | WRunning _ => Some (mk (reqs x) WReady (cur_file x) (cancel x) (ending x) (pending x) (fin x)
                               (naccepted x) (started x) (log x))
      | _ => None
      end
  | EEnd =>
      (* request_manager.cpp:64-73 *)
      match fin x with
      | FNone => Some (mk (reqs x) (wrk x) (cur_file x) (cancel x) true (S (pending x)) FNone
                          (naccepted x) (started x) (log x))
      | _ => None
      end
  | EFinish s =>
      (* request_manager.cpp:115-121 *)
      match fin x with
      | FNone =>
        match reqs x with
        | [] => Some x
        | _ => Some (mk (reqs x) (wrk x) (cur_file x) true (ending x) (pending x) (FWait s)
                        (naccepted x) (started x) (log x))
        end
      | _ => None
      end
  | EFinGo =>
      (* request_manager.cpp:124-125 *)
      match fin x with
      | FWait s => if runs_on s (wrk x) then None
                   else Some (mk (reqs x) (wrk x) (cur_file x) (cancel x) (ending x) (pending x)
                                 (FExec s (filter (on_server s) (reqs x)))
                                 (naccepted x) (started x) (log x))
      | _ => None
      end
  | EFinRun =>
      (* request_manager.cpp:128-134 *)
      match fin x with
      | FExec s (r :: todo) =>
          Some (mk (reqs x) (wrk x) (cur_file x) (cancel x) (ending x) (pending x) (FExec s todo)
                   (naccepted x) (started x ++ [r]) (log x))
      | _ => None
      end
  | EFinEnd =>
      (* request_manager.cpp:136-139 *)
      match fin x with
      | FExec s [] =>
          Some (mk (filter (fun r => negb (on_server s r)) (reqs x)) (wrk x) (cur_file x) (cancel x)
                   (ending x) (pending x) FNone (naccepted x) (started x) (log x))
      | _ => None
      end
  end.

(** request_manager.cpp:25-30: constructed, the worker thread just started. *)
Definition init : st := mk [] WReady [] false false 0 FNone 0 [] [].
