(** Reference for the server process: what the client sent. *)
From Coq Require Import List NArith ZArith Bool.
From Verif Require Import Common Json Lsp_Model Lsp_Spec Req_Model Sys_Model.
Import ListNotations.

(** The message is a call of method [m] (with parameters, as the server insists). *)
Definition asks (m : bytes) (j : json) : bool :=
  match jfind (s2b "result") j, jfind (s2b "error") j, jfind (s2b "params") j, jfind (s2b "method") j with
  | None, None, Some _, Some (JStr m') => bytes_eqb m m'
  | _, _, _, _ => false
  end.

(** The messages for the LSP server (the others are for debug sessions). *)
Definition lsp_part (input : list json) : list json := filter (fun j => negb (is_dap j)) input.

(** Every exit notification is preceded by a shutdown request. *)
Definition orderly (l : list json) : Prop :=
  forall a j b, l = a ++ j :: b -> asks m_exit j = true -> existsb (asks m_shutdown) a = true.

(** A message of a textDocument method names its document; the method is a string. *)
Definition names_document (j : json) : Prop :=
  forall m, jfind (s2b "method") j = Some m ->
    exists s, m = JStr s /\
      (starts_with (s2b "textDocument") s = true ->
       exists p d u, jfind (s2b "params") j = Some p /\ jfind (s2b "textDocument") p = Some d /\
                     jfind (s2b "uri") d = Some (JStr u)).
