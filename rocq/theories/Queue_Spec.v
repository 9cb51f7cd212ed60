(** Reference for the queue: what was pushed. *)
From Coq Require Import List.
From Verif Require Import Queue_Model.
Import ListNotations.

(** The values of the push calls that entered their critical section before the first
    terminate did, in that order. *)
Fixpoint pushed (T : Type) (es : list (ev T)) : list T :=
  match es with
  | [] => []
  | EPush t :: es' => t :: pushed T es'
  | ETerminate :: _ => []
  | _ :: es' => pushed T es'
  end.
