(** * Ses_Model: debug sessions tunnelled through the language server protocol

      language_server/src/dap/dap_session_manager.cpp (all), dap_session.cpp:24-75,
      dap_message_wrappers.cpp:19-46, json_queue_channel.cpp, message_router.cpp:26-38,
      main.cpp:43-55, dispatcher.cpp:32-61 (how the loop of a session ends)

    Threads: the reader, which writes the messages of the client into the router, and one
    for every session.  A session is numbered by its creation; the sessions erased from the
    map are kept in the list (their threads have ended).

    Simplifications.
    - What the debug server answers is free ([Say]); so is when its loop notices the end of
      debugging ([Stop]) and when its thread ends after that ([Finish]).
    - A session made for an identifier that is in use is destroyed at once without having
      been reachable; it is not made here.
    - Running out of threads or memory; the end of the process. *)
From Coq Require Import String List NArith ZArith Bool.
From Verif Require Import Common Lts Json.
Import ListNotations.
Open Scope list_scope.

(** dap_message_wrappers.h:22 *)
Definition tunnel : bytes := s2b "hlasm/dap_tunnel".
(** dap_message_wrappers.cpp:41-44 *)
Definition method_name (id : N) : bytes := tunnel ++ s2b "/" ++ dec id.
(** dap_session_manager.cpp:29-35: no method is the empty one *)
Definition method (msg : json) : bytes :=
  match jfind (s2b "method") msg with Some (JStr m) => m | _ => [] end.
(** 20-28: get<size_t> *)
Definition session_id (msg : json) : option N :=
  match jfind (s2b "params") msg with
  | Some (JNum z) => Some (Z.to_N (z mod 2 ^ 64))
  | _ => None
  end.
(** dap_message_wrappers.cpp:19-28 *)
Definition unwrap (msg : json) : option json :=
  match jfind (s2b "params") msg with
  | Some JNull | None => None
  | Some p => Some p
  end.
(** 30-39 *)
Definition wrap (id : N) (msg : json) : json :=
  JObj [(s2b "jsonrpc", JStr (s2b "2.0")); (s2b "method", JStr (method_name id)); (s2b "params", msg)].

(** Reading: in the loop; Closing: the loop has ended; Ended: running is false *)
Inductive phase := Reading | Closing | Ended.
(** [got]: what the debug server was given *)
Record session := Session { ident : N; queue : list json; at_ : phase; got : list json }.
Definition is_running (s : session) : bool := match at_ s with Ended => false | _ => true end.

Record st := St {
  registered : list (bytes * nat);      (* the map of the manager *)
  made : list session;
  out : list json;                      (* to the client *)
  lsp : list json                       (* to the language server *)
}.
Definition init : st := St [] [] [] [].

Fixpoint update {A} (n : nat) (f : A -> A) (l : list A) : list A :=
  match l, n with
  | [], _ => []
  | x :: r, O => f x :: r
  | x :: r, S n => x :: update n f r
  end.
Definition push (msg : json) (s : session) : session := Session (ident s) (queue s ++ [msg]) (at_ s) (got s).
Definition in_phase (p : phase) (s : session) : session := Session (ident s) (queue s) p (got s).

(** dap_session_manager.cpp:39-48 *)
Definition cleanup (s : st) : list (bytes * nat) :=
  filter (fun e => match nth_error (made s) (snd e) with Some x => is_running x | None => false end) (registered s).
(** 49-56: try_emplace *)
Definition handle_registration (id : N) (s : st) : st :=
  let r := cleanup s in
  match assoc (method_name id) r with
  | Some _ => St r (made s) (out s) (lsp s)
  | None => St (r ++ [(method_name id, List.length (made s))]) (made s ++ [Session id [] Reading []]) (out s) (lsp s)
  end.
(** 64-89 *)
Definition manager_write (msg : json) (s : st) : st :=
  match assoc (method msg) (registered s) with
  | Some k => St (registered s) (update k (push msg) (made s)) (out s) (lsp s)
  | None =>
    if bytes_eqb (method msg) tunnel then
      match session_id msg with Some id => handle_registration id s | None => s end
    else s
  end.
(** 90-96 *)
Definition is_tunnelled (msg : json) : bool := bytes_eqb (firstn (List.length tunnel) (method msg)) tunnel.
(** message_router.cpp:26-38 *)
Definition router_write (msg : json) (s : st) : st :=
  if is_tunnelled msg then manager_write msg s else St (registered s) (made s) (out s) (lsp s ++ [msg]).

Inductive ev :=
| Write (msg : json)            (* the reader has a message of the client *)
| Read (k : nat)                (* session k takes a message from its queue *)
| Stop (k : nat)                (* its loop notices the end of debugging *)
| Finish (k : nat)              (* its thread ends *)
| Say (k : nat) (msg : json).   (* its debug server sends a message *)

Definition step (s : st) (e : ev) : option st :=
  match e with
  | Write msg => Some (router_write msg s)
  | Read k =>
    match nth_error (made s) k with
    | Some (Session id (msg :: q) Reading g) =>
      let x := match unwrap msg with Some p => Session id q Reading (g ++ [p]) | None => Session id q Closing g end in
      Some (St (registered s) (update k (fun _ => x) (made s)) (out s) (lsp s))
    | _ => None
    end
  | Stop k =>
    match nth_error (made s) k with
    | Some (Session _ _ Reading _) => Some (St (registered s) (update k (in_phase Closing) (made s)) (out s) (lsp s))
    | _ => None
    end
  | Finish k =>
    match nth_error (made s) k with
    | Some (Session _ _ Closing _) => Some (St (registered s) (update k (in_phase Ended) (made s)) (out s) (lsp s))
    | _ => None
    end
  | Say k msg =>
    match nth_error (made s) k with
    | Some x => if is_running x then Some (St (registered s) (made s) (out s ++ [wrap (ident x) msg]) (lsp s)) else None
    | None => None
    end
  end.
