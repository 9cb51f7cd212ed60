(** Property C11: program name patterns. *)
From Coq Require Import List NArith Bool.
From Verif Require Import Common Wild_Model Wild_Spec Wild_Proof.
Import ListNotations.

(** Every pattern compiles, and without '+' it selects exactly the names it denotes. *)
Theorem C11_pattern_selects_what_it_says : forall w n, ~ In 43%N w -> one_line n ->
  exists b, pattern_match false w n = Some b /\ (b = true <-> denotes w n).
Proof. exact pattern_match_ok. Qed.
Print Assumptions C11_pattern_selects_what_it_says.

(** Every pattern whatsoever: '+' acts as "one or more characters". *)
Theorem C11_plus_is_a_wildcard : forall w n, one_line n ->
  exists b, pattern_match false w n = Some b /\ (b = true <-> denotes_plus w n).
Proof. exact pattern_match_plus. Qed.
Print Assumptions C11_plus_is_a_wildcard.

(** On Windows a pattern with '/' is the pattern with a backslash. *)
Theorem C11_windows_slash : forall w n,
  pattern_match true w n = pattern_match false (map (fun c => if (c =? 47)%N then 92%N else c) w) n.
Proof. intros w n. unfold pattern_match. now rewrite wildcard2regex_windows. Qed.
Print Assumptions C11_windows_slash.

(** A pattern with a literal '+' also selects names it does not denote. *)
Theorem C11_plus_refuted : exists w n, one_line n /\ is_wildcard w = true
  /\ pattern_match false w n = Some true /\ ~ denotes w n.
Proof.
  exists (s2b "a+b*"), (s2b "axxb"). split; [split; vm_compute; intuition discriminate|].
  split; [reflexivity|]. split; [vm_compute; reflexivity|].
  intros H. inversion H; subst. inversion H5; subst.
Qed.
Print Assumptions C11_plus_refuted.

(** It never misses a name it denotes, '+' or not. *)
Theorem C11_never_misses : forall w n, one_line n -> denotes w n -> pattern_match false w n = Some true.
Proof. exact pattern_never_misses. Qed.
Print Assumptions C11_never_misses.

(** A name with a line break is not selected although '*' stands for any sequence. *)
Theorem C11_line_break_refuted : exists w n, denotes w n /\ pattern_match false w n = Some false.
Proof.
  exists [42%N], [10%N]. split; [|vm_compute; reflexivity].
  exact (d_many [10%N] [] [] d_nil).
Qed.
Print Assumptions C11_line_break_refuted.

Example C11_example :
  pattern_match false (s2b "src/*.(a)?") (s2b "src/x/y.(a)z") = Some true
  /\ pattern_match false (s2b "src/*.(a)?") (s2b "src/x/y.a z") = Some false
  /\ one_line (s2b "src/x/y.(a)z") /\ ~ In 43%N (s2b "src/*.(a)?").
Proof. repeat split; vm_compute; intuition discriminate. Qed.
