(** Model of language_server/src/lsp/lsp_server.cpp (message handling), server.cpp
    (call_method) and of the message-visible behaviour of the three features. *)
From Coq Require Import List NArith ZArith Bool.
From Verif Require Import Common Json.
Import ListNotations.

(** What the server writes: lsp_server.cpp:112-138. *)
Inductive out :=
| ORespond (id : json) (result : json)
| ORequest (id : bytes) (meth : bytes)
| ONotify (meth : bytes).

(** The two response handlers ever registered: lsp_server.cpp:148 [empty_handler] and
    feature_workspace_folders.cpp:158 [configuration]. *)
Inductive handler := HEmpty | HConfiguration.

(** server.h:55-66 and feature_workspace_folders [config_request_number_].
    [hands] is [request_handlers_]; its keys are always json strings, which equal no json
    value of another kind. [ran] is a ghost: ids whose handler was run. *)
Record srv := mkSrv {
  shut : bool; exited : bool; hands : list (bytes * handler); nconf : N;
  sent : list out; ran : list bytes }.

Definition srv0 : srv := mkSrv false false [] 0 [] [].

(** How handling a message ends.  [Crash]: an exception leaves the worker thread's function
    (std::terminate). [UB]: undefined behaviour was executed. *)
Inductive outcome := Done (s : srv) | Crash | UB.

Definition say (o : out) (s : srv) : srv :=
  mkSrv (shut s) (exited s) (hands s) (nconf s) (sent s ++ [o]) (ran s).

(** lsp_server.cpp:112-117 [request]: [emplace] keeps an existing handler. *)
Definition send_request (id : bytes) (meth : bytes) (h : handler) (s : srv) : srv :=
  let hs := match assoc id (hands s) with Some _ => hands s | None => (id, h) :: hands s end in
  mkSrv (shut s) (exited s) hs (nconf s) (sent s ++ [ORequest id meth]) (ran s).

Definition config_id (n : N) : bytes := s2b "config_request_" ++ dec n.

(** feature_workspace_folders.cpp:148-156 [send_configuration_request]. *)
Definition send_configuration_request (s : srv) : srv :=
  let s1 := send_request (config_id (nconf s)) (s2b "workspace/configuration") HConfiguration s in
  mkSrv (shut s1) (exited s1) (hands s1) (nconf s1 + 1) (sent s1) (ran s1).

Definition m_initialize := s2b "initialize".
Definition m_shutdown := s2b "shutdown".
Definition m_exit := s2b "exit".
Definition m_config_changed := s2b "workspace/didChangeConfiguration".
(** feature_language_features.cpp:27-39 [register_methods] *)
Definition query_methods : list bytes :=
  [s2b "textDocument/definition"; s2b "textDocument/references"; s2b "textDocument/hover";
   s2b "textDocument/completion"; s2b "textDocument/semanticTokens/full"].
(** feature_text_synchronization.cpp:26-34, feature_workspace_folders.cpp:35-42 *)
Definition sync_methods : list bytes :=
  [s2b "textDocument/didOpen"; s2b "textDocument/didChange"; s2b "textDocument/didClose";
   s2b "workspace/didChangeWorkspaceFolders"; s2b "workspace/didChangeWatchedFiles"].
Definition mem (k : bytes) (l : list bytes) : bool := existsb (bytes_eqb k) l.

Section Lsp.
  (** Oracles for the parser library behind the features.
      [answer m params]: the result a query method passes to [respond]; it may throw instead.
      [sync m params]: the notifications a synchronisation method causes (diagnostics, messages)
      and whether it ends normally. *)
  Variable answer : bytes -> json -> res json.
  Variable sync : bytes -> json -> list bytes * res unit.
  (** The rest of feature_workspace_folders::initialize_feature (adding workspaces), lines 59-90. *)
  Variable init_rest : json -> res unit.

  (** server.cpp:39-65 [call_method] together with lsp_server.cpp:92-109: json exceptions and
      other std::exceptions are caught and logged; an unknown method is only logged. *)
  Definition call_method (m : bytes) (id : json) (params : json) (s : srv) : outcome :=
    if bytes_eqb m m_initialize then
      (* lsp_server.cpp:153-188; feature_workspace_folders.cpp:54-60. Capabilities abbreviated. *)
      let s1 := send_request (s2b "register1") (s2b "client/registerCapability") HEmpty
                  (say (ORespond id (JObj [(s2b "capabilities", JObj [])])) s) in
      let s2 := send_configuration_request s1 in
      match bind (jindex_const (s2b "capabilities") params) (fun _ => init_rest params) with
      | Undef => UB
      | _ => Done s2
      end
    else if bytes_eqb m m_shutdown then
      (* lsp_server.cpp:190-197 *)
      Done (say (ORespond id JNull) (mkSrv true (exited s) (hands s) (nconf s) (sent s) (ran s)))
    else if bytes_eqb m m_exit then
      (* lsp_server.cpp:199 *)
      Done (mkSrv (shut s) true (hands s) (nconf s) (sent s) (ran s))
    else if bytes_eqb m m_config_changed then Done (send_configuration_request s)
    else if mem m query_methods then
      match answer m params with
      | Ret r => Done (say (ORespond id r) s)
      | Throws => Done s
      | Undef => UB
      end
    else if mem m sync_methods then
      let (ns, r) := sync m params in
      match r with
      | Undef => UB
      | _ => Done (fold_left (fun s n => say (ONotify n) s) ns s)
      end
    else Done s.

  (** feature_workspace_folders.cpp:158-167 [configuration], lib_config.cpp:32-46
      [load_from_json]. The library's reaction is not modelled. *)
  Definition run_handler (h : handler) (result : json) : res unit :=
    match h with
    | HEmpty => Ret tt
    | HConfiguration =>
        if (jsize result =? 0)%nat then Ret tt
        else bind (jindex_0 result) (fun c =>
             match jfind (s2b "diagnosticsSuppressLimit") c with
             | None => Ret tt
             | Some v => bind (get_int v) (fun _ => Ret tt)
             end)
    end.

  Fixpoint remove_key {A} (k : bytes) (l : list (bytes * A)) : list (bytes * A) :=
    match l with
    | [] => []
    | (k', v) :: l' => if bytes_eqb k k' then remove_key k l' else (k', v) :: remove_key k l'
    end.

  (** lsp_server.cpp:42-110 [message_received] *)
  Definition message_received (j : json) (s : srv) : outcome :=
    let id := jfind (s2b "id") j in
    match jfind (s2b "result") j with
    | Some result =>
        match id with
        | Some (JStr k) =>
            match assoc k (hands s) with
            | None => Done s
            | Some h =>
                match run_handler h result with
                | Ret _ => Done (mkSrv (shut s) (exited s) (remove_key k (hands s)) (nconf s) (sent s)
                                       (ran s ++ [k]))
                | Throws => Crash
                | Undef => UB
                end
            end
        | _ => Done s
        end
    | None =>
        match jfind (s2b "error") j with
        | Some e =>
            match jfind (s2b "message") e, id with
            | Some _, _ => Done s
            | None, Some _ => Done s
            | None, None => UB    (* line 78 dereferences the end iterator *)
            end
        | None =>
            match jfind (s2b "params") j, jfind (s2b "method") j with
            | Some params, Some m =>
                match get_string m with
                | Ret m => call_method m (match id with Some i => i | None => JStr [] end) params s
                | _ => Done s
                end
            | _, _ => Done s
            end
        end
    end.

  (** The messages handled one after the other. *)
  Fixpoint serve (js : list json) (s : srv) : outcome :=
    match js with
    | [] => Done s
    | j :: js' => match message_received j s with Done s' => serve js' s' | o => o end
    end.
End Lsp.
