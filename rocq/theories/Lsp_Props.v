(** C35 (LSP part), C42: messages of the LSP server. Reference vocabulary: Lsp_Spec.v.
    The oracles [answer], [sync], [init_rest] stand for the parser library. *)
From Coq Require Import List NArith ZArith Bool.
From Verif Require Import Common Json Lsp_Model Lsp_Spec Lsp_Proof Lsp_Exact.
Import ListNotations.

(** C35. Whatever messages arrive, a response handler never runs more often than a request
    with its id was sent. *)
Theorem C35_lsp_handler_needs_request : forall answer sync init_rest js s,
  serve answer sync init_rest js srv0 = Done s ->
  forall k, times k (ran s) <= requests_sent k (sent s).
Proof. exact handler_bound. Qed.
Print Assumptions C35_lsp_handler_needs_request.

(** C35. A configuration response is acted upon at most once. *)
Theorem C35_lsp_config_handler_once : forall answer sync init_rest js s,
  serve answer sync init_rest js srv0 = Done s ->
  forall n, times (config_id n) (ran s) <= 1.
Proof. exact config_once. Qed.
Print Assumptions C35_lsp_config_handler_once.

(** C42, exactly: the responses sent are, in order, one for each message that is no response, has
    parameters, names a supported request and has an answer; each carries the id of its message. *)
Theorem C42_responses_exactly : forall answer sync init_rest js s,
  serve answer sync init_rest js srv0 = Done s ->
  response_ids (sent s) = map reply_id (filter (answered answer) js).
Proof. intros a sy i js s R. exact (serve_replies a sy i js srv0 s R). Qed.
Print Assumptions C42_responses_exactly.

(** C42. Hence, if the client sends no notification under the name of a request, the responses
    are exactly one for each servable request, with the id of that request. *)
Theorem C42_responses_match_requests : forall answer sync init_rest js s,
  Forall notification_only js ->
  serve answer sync init_rest js srv0 = Done s ->
  response_ids (sent s) = map id_of (filter (servable answer) js).
Proof. intros a sy i js s F R. exact (serve_ids a sy i js srv0 s F R). Qed.
Print Assumptions C42_responses_match_requests.

(** The provisos are needed: an unknown method, and even shutdown without parameters (which LSP
    prescribes), gets no response. *)
Theorem C42_every_request_answered_refuted : forall answer sync init_rest,
  exists j s id m, request_of j = Some (id, m) /\ m = s2b "shutdown" /\
    serve answer sync init_rest [j] srv0 = Done s /\ ~ In id (response_ids (sent s)) /\ shut s = false.
Proof.
  intros. exists (JObj [(s2b "id", JNum 7); (s2b "method", JStr (s2b "shutdown"))]).
  eexists. exists (JNum 7), (s2b "shutdown"). split; [reflexivity|]. split; [reflexivity|].
  split; [vm_compute; reflexivity|]. split; [intros []|reflexivity].
Qed.
Print Assumptions C42_every_request_answered_refuted.

Theorem C42_unknown_request_refuted : forall answer sync init_rest,
  exists j s id m, request_of j = Some (id, m) /\ jfind (s2b "params") j <> None /\
    serve answer sync init_rest [j] srv0 = Done s /\ ~ In id (response_ids (sent s)).
Proof.
  intros. exists (JObj [(s2b "id", JNum 7); (s2b "method", JStr (s2b "textDocument/rename")); (s2b "params", JNull)]).
  eexists. exists (JNum 7), (s2b "textDocument/rename"). split; [reflexivity|]. split; [discriminate|].
  split; [vm_compute; reflexivity|]. intros [].
Qed.
Print Assumptions C42_unknown_request_refuted.

(** C42. Conversely a notification named like a request is answered, although it has no id. *)
Theorem C42_notification_unanswered_refuted : forall answer sync init_rest,
  exists j s, jfind (s2b "id") j = None /\
    serve answer sync init_rest [j] srv0 = Done s /\ response_ids (sent s) = [JStr []].
Proof.
  intros. exists (JObj [(s2b "method", JStr (s2b "shutdown")); (s2b "params", JNull)]).
  eexists. split; [reflexivity|]. split; vm_compute; reflexivity.
Qed.
Print Assumptions C42_notification_unanswered_refuted.

(** C41 (server part): messages that respect the protocol never crash the server or run into
    undefined behaviour, if the parser library does not. *)
Theorem C41_conforming_messages_are_survived : forall answer sync init_rest,
  (forall m p, answer m p <> Undef) -> (forall m p, snd (sync m p) <> Undef) ->
  (forall p, init_rest p <> Undef) ->
  forall js s, Forall well_formed js -> exists s', serve answer sync init_rest js s = Done s'.
Proof. exact serve_total. Qed.
Print Assumptions C41_conforming_messages_are_survived.

(** C41 (server part), exactly: a session is survived if and only if no message of it is, in the
    state it is handled in, one of three kinds: an unreadable answer to an awaited configuration
    request, an error response with neither id nor text, initialize without capabilities. *)
Theorem C41_survived_exactly : forall answer sync init_rest,
  (forall m p, answer m p <> Undef) -> (forall m p, snd (sync m p) <> Undef) ->
  (forall p, init_rest p <> Undef) ->
  forall js,
  (exists s, serve answer sync init_rest js srv0 = Done s) <->
  (forall a j b s, js = a ++ j :: b -> serve answer sync init_rest a srv0 = Done s -> ~ takes_down s j).
Proof. exact serve_exactly. Qed.
Print Assumptions C41_survived_exactly.

(** Without provisos it is false: an error response without id
    and text dereferences an end iterator; a configuration result that is no array throws out
    of the worker thread. *)
Theorem C41_error_without_id_refuted : forall answer sync init_rest,
  exists j, serve answer sync init_rest [j] srv0 = UB.
Proof. intros. exists (JObj [(s2b "error", JObj [])]). reflexivity. Qed.
Print Assumptions C41_error_without_id_refuted.

Theorem C41_bad_configuration_result_refuted : forall answer sync init_rest,
  exists j1 j2, serve answer sync init_rest [j1; j2] srv0 = Crash.
Proof.
  intros.
  exists (JObj [(s2b "method", JStr m_config_changed); (s2b "params", JNull)]),
         (JObj [(s2b "id", JStr (s2b "config_request_0")); (s2b "result", JObj [(s2b "a", JNum 1)])]).
  vm_compute. reflexivity.
Qed.
Print Assumptions C41_bad_configuration_result_refuted.

(** Non-vacuity: a session with requests, a notification and a response to a configuration
    request. *)
Definition ex_answer (m : bytes) (p : json) : res json := Ret p.
Definition ex_sync (m : bytes) (p : json) : list bytes * res unit := ([s2b "textDocument/publishDiagnostics"], Ret tt).
Definition ex_init (p : json) : res unit := Ret tt.
Definition ex_call (id : option json) (m : String.string) (p : json) : json :=
  JObj (match id with Some i => [(s2b "id", i)] | None => [] end ++ [(s2b "method", JStr (s2b m)); (s2b "params", p)]).
Arguments ex_call id m%string_scope p.
Definition ex_session : list json :=
  [ex_call (Some (JNum 1)) "initialize" (JObj [(s2b "capabilities", JObj [])]);
   JObj [(s2b "id", JStr (s2b "config_request_0")); (s2b "result", JArr [JNull])];
   JObj [(s2b "id", JStr (s2b "config_request_0")); (s2b "result", JArr [JNull])];
   ex_call None "textDocument/didOpen" JNull;
   ex_call (Some (JNum 2)) "textDocument/hover" JNull;
   ex_call (Some (JNum 3)) "shutdown" JNull].
Example C42_ex : exists s, serve ex_answer ex_sync ex_init ex_session srv0 = Done s /\
  response_ids (sent s) = [JNum 1; JNum 2; JNum 3] /\ ran s = [config_id 0] /\
  Forall well_formed ex_session /\ Forall notification_only ex_session.
Proof.
  eexists. split; [vm_compute; reflexivity|]. split; [reflexivity|]. split; [reflexivity|]. split.
  - repeat constructor; cbn; intros; try discriminate; try congruence; 
      repeat match goal with H : Some _ = Some _ |- _ => injection H as <- end; cbn; auto; discriminate.
  - unfold ex_session, ex_call, notification_only.
    repeat constructor; cbn; intros; try discriminate.
    now match goal with H : Some _ = Some _ |- _ => injection H as <- end.
Qed.

(** Both configuration answers of the session are harmless, a bad one instead of the first is
    not; instead of the second it is, since nothing is awaited any more. *)
Example C41_ex_exact :
  let bad := JObj [(s2b "id", JStr (s2b "config_request_0")); (s2b "result", JObj [(s2b "a", JNum 1)])] in
  (exists s, serve ex_answer ex_sync ex_init (firstn 2 ex_session ++ [bad]) srv0 = Done s) /\
  (exists s, serve ex_answer ex_sync ex_init (firstn 1 ex_session) srv0 = Done s /\ takes_down s bad).
Proof.
  cbv zeta. split; [eexists; vm_compute; reflexivity|]. eexists. split; [vm_compute; reflexivity|].
  left. eexists. eexists. split; [reflexivity|]. split; [reflexivity|]. split; [|exact Logic.I].
  split; [vm_compute; auto|intros []].
Qed.
