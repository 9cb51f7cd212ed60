(** Reference: what the client shows, and what it should show. *)
From Coq Require Import List NArith Bool.
From Verif Require Import Common.
Import ListNotations.

(** The client keeps, per uri, the diagnostics of the last notification about it. *)
Definition client_view {D} (ms : list (bytes * list D)) (u : bytes) : list D :=
  fold_left (fun acc m => if bytes_eqb (fst m) u then snd m else acc) ms [].

(** The diagnostics of file [f] in a round. *)
Definition diags_of {D} (ds : list (bytes * D)) (f : bytes) : list D :=
  map snd (filter (fun fd => bytes_eqb (fst fd) f) ds).
