(** What a pattern means to the user: '?' stands for one character, '*' for any sequence,
    everything else for itself. *)
From Coq Require Import List NArith.
From Verif Require Import Common.
Import ListNotations.
Local Open Scope N_scope.

Inductive denotes : bytes -> bytes -> Prop :=
| d_nil : denotes [] []
| d_char : forall c w n, c <> 42 -> c <> 63 -> denotes w n -> denotes (c :: w) (c :: n)
| d_one : forall x w n, denotes w n -> denotes (63 :: w) (x :: n)
| d_many : forall xs w n, denotes w n -> denotes (42 :: w) (xs ++ n).

(** No line break in a name. *)
Definition one_line (n : bytes) : Prop := ~ In 10 n /\ ~ In 13 n.

(** The same relation where '+' stands for a non-empty sequence: what the code implements. *)
Inductive denotes_plus : bytes -> bytes -> Prop :=
| p_nil : denotes_plus [] []
| p_char : forall c w n, c <> 42 -> c <> 63 -> c <> 43 -> denotes_plus w n -> denotes_plus (c :: w) (c :: n)
| p_one : forall x w n, denotes_plus w n -> denotes_plus (63 :: w) (x :: n)
| p_many : forall xs w n, denotes_plus w n -> denotes_plus (42 :: w) (xs ++ n)
| p_some : forall x xs w n, denotes_plus w n -> denotes_plus (43 :: w) (x :: xs ++ n).
