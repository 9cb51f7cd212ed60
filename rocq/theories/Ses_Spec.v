(** * Ses_Spec: debug sessions as the client sees them

    The client opens the session [n] with the message hlasm/dap_tunnel carrying the number,
    and from then on talks with it under the name hlasm/dap_tunnel/n. *)
From Coq Require Import String List NArith ZArith Bool.
From Verif Require Import Common Json.
Import ListNotations.
Open Scope list_scope.

Inductive decimal : N -> bytes -> Prop :=
| dc_one : forall d, (d < 10)%N -> decimal d [(48 + d)%N]
| dc_more : forall n d s, (0 < n)%N -> (d < 10)%N -> decimal n s -> decimal (10 * n + d) (s ++ [(48 + d)%N]).

Definition member (k : string) (msg v : json) : Prop :=
  exists l l1 l2, msg = JObj l /\ l = l1 ++ (s2b k, v) :: l2 /\ ~ In (s2b k) (map fst l1).
Definition is_method (m : bytes) (msg : json) : Prop := member "method" msg (JStr m).

Definition opening (n : N) (msg : json) : Prop :=
  is_method (s2b "hlasm/dap_tunnel") msg /\ member "params" msg (JNum (Z.of_N n)) /\ (n < 2 ^ 64)%N.
Definition named (n : N) (m : bytes) : Prop := exists d, decimal n d /\ m = s2b "hlasm/dap_tunnel/" ++ d.
Definition addressed (n : N) (msg : json) : Prop := exists m, named n m /\ is_method m msg.
(** The content; a message without one, or with null, closes the session. *)
Definition content (msg c : json) : Prop := member "params" msg c /\ c <> JNull.
Definition closing (msg : json) : Prop := forall c, ~ content msg c.

(** [stream n msgs cs]: what the messages [msgs] of the client say to session [n], up to the
    first that closes it. *)
Inductive stream (n : N) : list json -> list json -> Prop :=
| st_end : stream n [] []
| st_other : forall m ms cs, ~ addressed n m -> stream n ms cs -> stream n (m :: ms) cs
| st_content : forall m c ms cs, addressed n m -> content m c -> stream n ms cs -> stream n (m :: ms) (c :: cs)
| st_close : forall m ms, addressed n m -> closing m -> stream n (m :: ms) [].

(** A message to the client. *)
Definition sent (n : N) (c msg : json) : Prop :=
  addressed n msg /\ member "params" msg c /\ member "jsonrpc" msg (JStr (s2b "2.0")).

Definition tunnelled (msg : json) : Prop := exists r, is_method (s2b "hlasm/dap_tunnel" ++ r) msg.
(** The messages that are not for the debugger. *)
Inductive others : list json -> list json -> Prop :=
| ot_end : others [] []
| ot_skip : forall m ms ls, tunnelled m -> others ms ls -> others (m :: ms) ls
| ot_keep : forall m ms ls, ~ tunnelled m -> others ms ls -> others (m :: ms) (m :: ls).
