(** * Prx_Spec: framed messages as the debug adapter protocol describes them

    A frame: the header field Content-Length first, other header fields, an empty line, the
    text of the message. *)
From Coq Require Import String List NArith ZArith Bool.
From Verif Require Import Common Json Ses_Spec.
Import ListNotations.
Open Scope list_scope.

Definition header_line (l : bytes) : Prop := l <> [] /\ ~ In 13%N l.
Inductive frame (body : bytes) : bytes -> Prop :=
| fr : forall d lines, decimal (N.of_nat (List.length body)) d -> Forall header_line lines ->
    frame body (s2b "Content-Length: " ++ d ++ [13; 10]%N ++ concat (map (fun l => l ++ [13; 10]%N) lines) ++ [13; 10]%N ++ body).

(** [framed parse ms s]: [s] is a sequence of frames of [ms] *)
Inductive framed (parse : bytes -> option json) : list json -> bytes -> Prop :=
| fd_end : framed parse [] []
| fd_more : forall m ms body f s, body <> [] -> parse body = Some m -> frame body f -> framed parse ms s ->
    framed parse (m :: ms) (f ++ s).
(** ... followed by the beginning of another *)
Definition begun (s : bytes) : Prop := s = [] \/ exists body f r, frame body f /\ f = s ++ r /\ r <> [].

(** null ends a session *)
Inductive up_to_null : list json -> list json -> Prop :=
| un_end : up_to_null [] []
| un_null : forall ms, up_to_null (JNull :: ms) []
| un_more : forall m ms l, m <> JNull -> up_to_null ms l -> up_to_null (m :: ms) (m :: l).

(** the messages of a list that go through the tunnel *)
Inductive through : list json -> list json -> Prop :=
| th_end : through [] []
| th_keep : forall m ms l, tunnelled m -> through ms l -> through (m :: ms) (m :: l)
| th_skip : forall m ms l, ~ tunnelled m -> through ms l -> through (m :: ms) l.
