(** C02: the blocking queue that carries messages between threads. *)
From Coq Require Import List Arith Lia.
From Verif Require Import Lts Queue_Model Queue_Spec Queue_Proof.
Import ListNotations.

(** Specification: [pushed es] are the values of the push calls that entered their critical
    section before the first terminate did, in that order (Queue_Spec.v). *)

(** Under every interleaving, for any number of producers and consumers: the values popped
    are a prefix of the values pushed, and the difference is exactly what is still queued. *)
Theorem C02_fifo_nothing_lost_or_repeated :
  forall (T : Type) pol consumers_n es s,
  run (step T pol) (init T consumers_n) es = Some s ->
  pushed T es = popped s ++ queue s.
Proof. exact fifo_pushed. Qed.
Print Assumptions C02_fifo_nothing_lost_or_repeated.

(** With one consumer: whenever it sleeps although there is an item or a termination
    request, some thread is about to notify it, that notification wakes it, and the awakened
    [pop] then does not go back to sleep. *)
Theorem C02_consumer_never_left_asleep :
  forall (T : Type) pol es s,
  run (step T pol) (init T 1) es = Some s ->
  consumers s = [CWaiting] -> (queue s <> [] \/ terminated s = true) ->
  1 <= pending s /\
  exists s1 s2, step T pol s (ENotify (Some 0)) = Some s1 /\ step T pol s1 (EPop 0) = Some s2 /\
    consumers s2 = [CIdle] /\
    (length (popped s2) = S (length (popped s)) \/ nulls s2 = S (nulls s)).
Proof. exact asleep_wakes. Qed.
Print Assumptions C02_consumer_never_left_asleep.

(** Termination: a queue that processes its elements reports the end only when empty; one
    that drops them delivers nothing after termination; both report the end only after
    termination. *)
Theorem C02_end_only_after_terminate : forall (T : Type) (s s' : st T) c,
  (step T process_elements s (EPop c) = Some s' -> nulls s' <> nulls s ->
     queue s = [] /\ terminated s = true) /\
  (step T drop_elements s (EPop c) = Some s' ->
     (nulls s' <> nulls s -> terminated s = true) /\ (popped s' <> popped s -> terminated s = false)).
Proof. intros; split; [apply process_null_empty|apply drop_null_terminated]. Qed.
Print Assumptions C02_end_only_after_terminate.

(** The restriction to one consumer is needed: with two, a schedule leaves one asleep with an
    item in the queue and no notification under way. *)
Theorem C02_two_consumers_refuted :
  exists es s, run (step nat drop_elements) (init nat 2) es = Some s /\
    consumers s = [CIdle; CWaiting] /\ queue s = [2] /\ pending s = 0.
Proof.
  exists [EPop 0; EPop 1; EPush 1; EPush 2; ENotify (Some 0); EPop 0]. eexists.
  split; [vm_compute; reflexivity|]. vm_compute. auto.
Qed.
Print Assumptions C02_two_consumers_refuted.

(** Non-vacuity: the consumer sleeps, two values arrive, the notification is pending. *)
Example C02_ex : exists s,
  run (step nat drop_elements) (init nat 1) [EPop 0; EPush 7; EPush 8] = Some s /\
  consumers s = [CWaiting] /\ queue s = [7; 8] /\ pending s = 1.
Proof. eexists. split; [vm_compute; reflexivity|]. vm_compute. auto. Qed.
