(** C01: message framing. Specification vocabulary: Framing_Spec.v. *)
From Coq Require Import List Arith NArith.
From Verif Require Import Common Framing_Model Framing_Spec Framing_Proof.
Import ListNotations.
Open Scope N_scope.

(** Whatever is written message by message is read back, in order, then the end. *)
Theorem C01_write_then_read : forall (J : Type) (parse : bytes -> option J) (msgs : list bytes),
  Forall (fun m => 1 <= N.of_nat (length m) <= 2 ^ 30) msgs ->
  let wire := concat (map write_message msgs) in
  read_all J parse (length wire + 2) (fresh wire) = Some (parsed parse msgs).
Proof.
  intros J parse msgs H wire.
  assert (E : wire = wire_all (map (mkFrame [] []) msgs)).
  { unfold wire, wire_all. rewrite map_map. reflexivity. }
  assert (G : Forall good_frame (map (mkFrame [] []) msgs)).
  { apply Forall_map. revert H. apply Forall_impl. intros m Hm. repeat split; try constructor; apply Hm. }
  pose proof (roundtrip J parse _ G) as R. rewrite <- E, map_map, map_id in R. exact R.
Qed.
Print Assumptions C01_write_then_read.

(** Bytes are delivered unchanged: with the identity in place of JSON parsing the list of
    messages itself comes back, whatever bytes the messages contain. *)
Theorem C01_bytes_unchanged : forall msgs : list bytes,
  Forall (fun m => 1 <= N.of_nat (length m) <= 2 ^ 30) msgs ->
  let wire := concat (map write_message msgs) in
  read_all bytes Some (length wire + 2) (fresh wire) = Some msgs.
Proof.
  intros msgs H. cbv zeta. rewrite (C01_write_then_read bytes Some msgs H).
  f_equal. clear H. induction msgs as [|m ms IH]; cbn; [reflexivity|now rewrite IH].
Qed.
Print Assumptions C01_bytes_unchanged.

(** Other header lines before and after Content-Length do not matter. *)
Theorem C01_extra_headers : forall (J : Type) (parse : bytes -> option J) (fs : list frame),
  Forall good_frame fs ->
  read_all J parse (length (wire_all fs) + 2) (fresh (wire_all fs))
  = Some (parsed parse (map body fs)).
Proof. exact roundtrip. Qed.
Print Assumptions C01_extra_headers.

(** Connection lost at any byte: every complete message is delivered, nothing else. *)
Theorem C01_cut_anywhere : forall (J : Type) (parse : bytes -> option J) fs f p q,
  Forall good_frame fs -> good_frame f -> wire_of f = p ++ q -> q <> [] ->
  read_all J parse (length (wire_all fs ++ p) + 2) (fresh (wire_all fs ++ p))
  = Some (parsed parse (map body fs)).
Proof. exact truncation. Qed.
Print Assumptions C01_cut_anywhere.

(** Reading terminates on every byte stream, also on one that is not a message sequence. *)
Theorem C01_reading_terminates : forall (J : Type) (parse : bytes -> option J) (input : bytes),
  exists js, read_all J parse (length input + 2) (fresh input) = Some js.
Proof.
  intros J parse input. exact (read_all_total J parse (length input + 2) (fresh input) (Nat.le_refl _)).
Qed.
Print Assumptions C01_reading_terminates.

(** Non-vacuity: three messages, one of which contains a complete header, and header lines
    on both sides. *)
Example C01_ex_msgs :
  let msgs := [s2b "{}"; s2b "Content-Length: 3" ++ [13;10;13;10] ++ s2b "abc"; [10;13;0;255]] in
  Forall (fun m => 1 <= N.of_nat (length m) <= 2 ^ 30) msgs
  /\ read_all bytes Some 200 (fresh (concat (map write_message msgs))) = Some msgs.
Proof. cbv zeta. split; [repeat constructor; discriminate|vm_compute; reflexivity]. Qed.
Example C01_ex_frame :
  let f := mkFrame [s2b "X: y"] [s2b "Content-Type: utf8" ++ [13]] (s2b "{}") in
  good_frame f /\ read_all bytes Some 200 (fresh (wire_of f)) = Some [s2b "{}"]
  /\ exists p q, wire_of f = p ++ q /\ q <> [] /\ p <> [].
Proof.
  cbv zeta. split; [|split; [vm_compute; reflexivity|]].
  - repeat split; cbn [pre post]; try discriminate; repeat constructor; try discriminate;
      try (intros H; vm_compute in H; intuition discriminate);
      intros [r H]; vm_compute in H; discriminate.
  - exists (s2b "X: y"). eexists. split; [reflexivity|]. split; discriminate.
Qed.
