(** Reference for the request manager, in terms of the calls made. *)
From Coq Require Import List Arith Bool.
From Verif Require Import Common Req_Model.
Import ListNotations.

(** The requests accepted, in order of arrival: (server, message). *)
Fixpoint arrivals (es : list ev) : list (nat * msg) :=
  match es with
  | [] => []
  | EAdd s m :: es' => (s, m) :: arrivals es'
  | _ :: es' => arrivals es'
  end.

Definition for_server (s : nat) (l : list (nat * msg)) : list (nat * msg) :=
  filter (fun a => fst a =? s) l.

(** What a stored request is about. *)
Definition sm (r : req) : nat * msg := (rsrv r, rmsg r).

(** Requests of server [s] that still have to be executed. *)
Definition outstanding (x : st) (s : nat) : list req :=
  match fin x with
  | FExec s' todo => if s' =? s then todo else filter (on_server s) (reqs x)
  | _ => filter (on_server s) (reqs x)
  end.

(** A later arrival [j] opens or changes the file of arrival [i]. *)
Definition superseded (arr : list (nat * msg)) (i : nat) : Prop :=
  exists j si mi sj mj, i < j /\ nth_error arr i = Some (si, mi) /\ nth_error arr j = Some (sj, mj) /\
    parsing_required mj = true /\ get_request_file mj = get_request_file mi /\
    get_request_file mj <> [].

Definition is_finish (e : ev) : bool := match e with EFinish _ => true | _ => false end.
