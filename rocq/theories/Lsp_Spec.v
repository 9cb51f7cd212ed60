(** Reference for the message level of the LSP server, in terms of the messages exchanged. *)
From Coq Require Import List NArith ZArith Bool.
From Verif Require Import Common Json Lsp_Model.
Import ListNotations.

(** JSON-RPC: a request has a method and an id, and is no response. *)
Definition request_of (j : json) : option (json * bytes) :=
  match jfind (s2b "result") j, jfind (s2b "error") j, jfind (s2b "id") j, jfind (s2b "method") j with
  | None, None, Some id, Some (JStr m) => Some (id, m)
  | _, _, _, _ => None
  end.

(** Ids of the responses, and of the requests with a given id, among the messages sent. *)
Fixpoint response_ids (l : list out) : list json :=
  match l with
  | [] => []
  | ORespond id _ :: l' => id :: response_ids l'
  | _ :: l' => response_ids l'
  end.

Fixpoint requests_sent (k : bytes) (l : list out) : nat :=
  match l with
  | [] => 0
  | ORequest k' _ :: l' => (if bytes_eqb k k' then 1 else 0) + requests_sent k l'
  | _ :: l' => requests_sent k l'
  end.

Fixpoint times (k : bytes) (l : list bytes) : nat :=
  match l with
  | [] => 0
  | k' :: l' => (if bytes_eqb k k' then 1 else 0) + times k l'
  end.

(** A request the server can serve: it has parameters, names one of the supported requests,
    and looking up the answer succeeds. *)
Definition servable (answer : bytes -> json -> res json) (j : json) : bool :=
  match request_of j, jfind (s2b "params") j with
  | Some (_, m), Some p =>
      mem m [m_initialize; m_shutdown]
      || (mem m query_methods && match answer m p with Ret _ => true | _ => false end)
  | _, _ => false
  end.

(** Notifications (method but no id) that name a request of the server. *)
Definition notification_only (j : json) : Prop :=
  jfind (s2b "id") j = None ->
  forall m, jfind (s2b "method") j = Some (JStr m) ->
  mem m (m_initialize :: m_shutdown :: query_methods) = false.

Definition id_of (j : json) : json := match jfind (s2b "id") j with Some i => i | None => JNull end.

(** Messages that respect the protocol: an error response carries an id or a message text; a
    configuration result is an array of objects whose limit, if given, is a number;
    initialize carries capabilities. *)
Definition good_config (r : json) : Prop :=
  match r with
  | JNull => True
  | JArr l => match l with
              | [] => True
              | c :: _ => match jfind (s2b "diagnosticsSuppressLimit") c with
                          | None => True | Some (JNum _) => True | Some _ => False end
              end
  | _ => False
  end.
Definition well_formed (j : json) : Prop :=
  (forall e, jfind (s2b "error") j = Some e ->
             jfind (s2b "message") e <> None \/ jfind (s2b "id") j <> None) /\
  (forall r, jfind (s2b "result") j = Some r -> good_config r) /\
  (forall p, jfind (s2b "method") j = Some (JStr m_initialize) -> jfind (s2b "params") j = Some p ->
             jfind (s2b "capabilities") p <> None).

(** The messages that get a response: no response themselves, with parameters, the method of a
    request, and an answer that can be computed.  The response carries the id of the message;
    for a message without id, the empty string. *)
Definition answered (answer : bytes -> json -> res json) (j : json) : bool :=
  match jfind (s2b "result") j, jfind (s2b "error") j, jfind (s2b "method") j, jfind (s2b "params") j with
  | None, None, Some (JStr m), Some p =>
      if existsb (bytes_eqb m) [s2b "initialize"; s2b "shutdown"] then true
      else if existsb (bytes_eqb m)
                [s2b "textDocument/definition"; s2b "textDocument/references"; s2b "textDocument/hover";
                 s2b "textDocument/completion"; s2b "textDocument/semanticTokens/full"]
      then match answer m p with Ret _ => true | _ => false end
      else false
  | _, _, _, _ => false
  end.
Definition reply_id (j : json) : json := match jfind (s2b "id") j with Some i => i | None => JStr [] end.

(** A configuration result the server cannot read. *)
Definition unreadable (r : json) : Prop :=
  match r with
  | JNull | JArr [] | JObj [] => False
  | JArr (c :: _) => match jfind (s2b "diagnosticsSuppressLimit") c with
                     | None | Some (JNum _) | Some (JBool _) => False
                     | Some _ => True
                     end
  | _ => True
  end.

(** The server asked for the configuration under this id and has not accepted an answer yet. *)
Definition awaited (k : bytes) (s : srv) : Prop :=
  In (ORequest k (s2b "workspace/configuration")) (sent s) /\ ~ In k (ran s).

(** The messages that take the server down in state [s]. *)
Definition takes_down (s : srv) (j : json) : Prop :=
  (exists r k, jfind (s2b "result") j = Some r /\ jfind (s2b "id") j = Some (JStr k) /\
               awaited k s /\ unreadable r) \/
  (jfind (s2b "result") j = None /\
   exists e, jfind (s2b "error") j = Some e /\ jfind (s2b "message") e = None /\ jfind (s2b "id") j = None) \/
  (jfind (s2b "result") j = None /\ jfind (s2b "error") j = None /\
   jfind (s2b "method") j = Some (JStr (s2b "initialize")) /\
   exists l, jfind (s2b "params") j = Some (JObj l) /\ jfind (s2b "capabilities") (JObj l) = None).
