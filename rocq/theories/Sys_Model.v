(** Model of the server process: language_server/src/main.cpp, dispatcher.cpp (server loop),
    message_router.cpp (routing), composed with the request manager of Req_Model.v and the LSP
    server of Lsp_Model.v.  Three threads: the reader (main), the LSP thread, the worker. *)
From Coq Require Import List NArith ZArith Bool.
From Verif Require Import Common Lts Json Req_Model Lsp_Model.
Import ListNotations.

(** dap/dap_message_wrappers.h [broadcom_tunnel_method]; dap_session_manager.cpp:29-35, 90-96:
    messages whose method starts with it go to the debug sessions. message_router.cpp:26-38:
    the others take the default route. *)
Definition dap_method := s2b "hlasm/dap_tunnel".
Definition is_dap (j : json) : bool :=
  match jfind (s2b "method") j with Some (JStr m) => starts_with dap_method m | _ => false end.

(** request_manager.cpp:143-164 [get_request_file_] on the json message; [None]: it throws. *)
Definition to_msg (j : json) : option msg :=
  match jfind (s2b "method") j with
  | None => Some (mkMsg None [])
  | Some m =>
      match get_string m with
      | Ret m =>
          if starts_with td_prefix m then
            match bind (jindex (s2b "params") j) (fun p =>
                  bind (jindex (s2b "textDocument") p) (fun d =>
                  bind (jindex (s2b "uri") d) get_string)) with
            | Ret u => Some (mkMsg (Some m) u)
            | _ => None
            end
          else Some (mkMsg (Some m) [])
      | _ => None
      end
  end.

(** The LSP thread, main.cpp:55-73 and dispatcher.cpp:32-61: about to read, having read,
    about to test the exit flag, about to test the shutdown flag, about to finish the server
    with the given result, inside that call, returned, left by an exception. *)
Inductive lpc := LRead | LGot (j : json) | LCheckExit | LCheckShut | LFinish (v : Z)
  | LFinishing (v : Z) | LReturned | LFailed.

(** [inp]: input the reader has not read. [code]: the value of [return ret] in main, once
    evaluated (main.cpp:123; the destructor of [pgm] runs after that). [term]: lsp_queue
    terminated. [q]: lsp_queue. [rq]: request manager. [handled]: the worker's current
    request has taken effect. [acc]: accepted messages, indexed by [rid]. [sv]: LSP server.
    [ret]: the variable of main. *)
Record sys := mkSys {
  inp : list json; code : option Z; term : bool; q : list json; pc : lpc;
  rq : Req_Model.st; handled : bool; acc : list json; sv : srv; dead : bool; ret : Z }.

Definition sys0 (input : list json) : sys :=
  mkSys input None false [] LRead Req_Model.init false [] srv0 false 0.

Inductive sev :=
| SRead             (* main reads a message and routes it *)
| SEof              (* main sees the end of input, evaluates [return ret] *)
| STerm             (* ~main_program: terminate the queue *)
| SLsp              (* next action of the LSP thread *)
| SEffect           (* the worker's message_received takes effect *)
| SReq (e : ev).    (* a step of the request manager *)

Section Sys.
  Variable answer : bytes -> json -> res json.
  Variable sync : bytes -> json -> list bytes * res unit.
  Variable init_rest : json -> res unit.

  (** Handle accepted message number [i]; a crash or undefined behaviour ends the process. *)
  Definition deliver (i : nat) (x : sys) : sys :=
    match nth_error (acc x) i with
    | None => x
    | Some j =>
        match message_received answer sync init_rest j (sv x) with
        | Done s => mkSys (inp x) (code x) (term x) (q x) (pc x) (rq x) (handled x) (acc x) s (dead x) (ret x)
        | _ => mkSys (inp x) (code x) (term x) (q x) (pc x) (rq x) (handled x) (acc x) (sv x) true (ret x)
        end
    end.

  Definition set_pc (p : lpc) (x : sys) : sys :=
    mkSys (inp x) (code x) (term x) (q x) p (rq x) (handled x) (acc x) (sv x) (dead x) (ret x).
  Definition set_rq (r : Req_Model.st) (x : sys) : sys :=
    mkSys (inp x) (code x) (term x) (q x) (pc x) r (handled x) (acc x) (sv x) (dead x) (ret x).
  Definition set_handled (b : bool) (x : sys) : sys :=
    mkSys (inp x) (code x) (term x) (q x) (pc x) (rq x) b (acc x) (sv x) (dead x) (ret x).

  Definition sstep (x : sys) (e : sev) : option sys :=
    if dead x then None else
    match e with
    | SRead =>
        (* main.cpp:106-121 *)
        match code x, inp x with
        | None, j :: rest =>
            Some (mkSys rest None (term x) (if is_dap j then q x else q x ++ [j]) (pc x) (rq x)
                        (handled x) (acc x) (sv x) (dead x) (ret x))
        | _, _ => None
        end
    | SEof =>
        (* main.cpp:110-123 *)
        match code x, inp x with
        | None, [] => Some (mkSys [] (Some (ret x)) (term x) (q x) (pc x) (rq x) (handled x) (acc x)
                                  (sv x) (dead x) (ret x))
        | _, _ => None
        end
    | STerm =>
        (* main.cpp:75-81 *)
        match code x with
        | Some c => Some (mkSys (inp x) (Some c) true (q x) (pc x) (rq x) (handled x) (acc x) (sv x)
                                (dead x) (ret x))
        | None => None
        end
    | SLsp =>
        (* dispatcher.cpp:35-60 *)
        match pc x with
        | LRead =>
            match q x with
            | j :: rest => Some (mkSys (inp x) (code x) (term x) rest (LGot j) (rq x) (handled x) (acc x)
                                       (sv x) (dead x) (ret x))
            | [] => if term x then Some (set_pc (LFinish 1) x) else None
            end
        | LGot j =>
            match to_msg j with
            | None => Some (set_pc LFailed x)
            | Some m =>
                match Req_Model.step (rq x) (EAdd 0 m) with
                | None => None
                | Some r => Some (mkSys (inp x) (code x) (term x) (q x) LCheckExit r (handled x)
                                        (acc x ++ [j]) (sv x) (dead x) (ret x))
                end
            end
        | LCheckExit => Some (set_pc (if exited (sv x) then LCheckShut else LRead) x)
        | LCheckShut => Some (set_pc (LFinish (if shut (sv x) then 0 else 1)) x)
        | LFinish v =>
            match Req_Model.step (rq x) (EFinish 0) with
            | Some r => Some (set_pc (LFinishing v) (set_rq r x))
            | None => None
            end
        | LFinishing v =>
            match fin (rq x) with
            | FNone => Some (mkSys (inp x) (code x) (term x) (q x) LReturned (rq x) (handled x) (acc x)
                                   (sv x) (dead x) v)
            | _ => None
            end
        | LReturned | LFailed => None
        end
    | SEffect =>
        (* request_manager.cpp:107 *)
        match wrk (rq x), handled x with
        | WRunning r, false => Some (set_handled true (deliver (rid r) x))
        | _, _ => None
        end
    | SReq e =>
        match e with
        | ENotify | ESpurious | EFinGo | EFinEnd =>
            match Req_Model.step (rq x) e with Some r => Some (set_rq r x) | None => None end
        | EWorker =>
            match Req_Model.step (rq x) e with
            | Some r => Some (set_handled false (set_rq r x))
            | None => None
            end
        | EDone =>
            if handled x then
              match Req_Model.step (rq x) e with Some r => Some (set_rq r x) | None => None end
            else None
        | EFinRun =>
            (* request_manager.cpp:133 *)
            match fin (rq x) with
            | FExec _ (r :: _) =>
                match Req_Model.step (rq x) e with
                | Some r' => Some (deliver (rid r) (set_rq r' x))
                | None => None
                end
            | _ => None
            end
        | EEnd =>
            (* main.cpp:59: end_worker when the scope is left *)
            match pc x with
            | LReturned | LFailed =>
                match Req_Model.step (rq x) e with Some r => Some (set_rq r x) | None => None end
            | _ => None
            end
        | EAdd _ _ | EFinish _ => None
        end
    end.
End Sys.
