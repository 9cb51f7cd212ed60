(** Where the characters of operands stand in the source. *)
From Coq Require Import List ZArith Lia.
From Verif Require Import Rng_Model.
Import ListNotations.
Open Scope Z_scope.

(** Statements are written in columns 0-70 of their first line and 15-70 of the lines continuing
    it.  [after p n q]: behind [n] characters written from [p] on one is at [q]; at the end of a
    line one is at column 71 of it until another character is written. *)
Inductive after (p : position) : nat -> position -> Prop :=
| after_0 : after p 0 p
| after_in n q : after p n q -> column q < 71 ->
    after p (S n) {| line := line q; column := column q + 1 |}
| after_wrap n q : after p n q -> 71 <= column q ->
    after p (S n) {| line := line q + 1; column := 16 |}.
(** Where the character with number [n] stands. *)
Inductive stands (p : position) (n : nat) : position -> Prop :=
| stands_in q : after p n q -> column q < 71 -> stands p n q
| stands_next q : after p n q -> 71 <= column q -> stands p n {| line := line q + 1; column := 15 |}.

(** An operand is written at its range. *)
Definition written (o : operand) : Prop :=
  0 <= line (start (place o)) < 2 ^ 32 /\ 0 <= column (start (place o)) < 71 /\
  after (start (place o)) (length (text o)) (finish (place o)).
Definition on_one_line (o : operand) : Prop := line (finish (place o)) = line (start (place o)).

(** Order of positions in the text. *)
Definition le (p q : position) : Prop := line p < line q \/ line p = line q /\ column p <= column q.

(** The number of characters the joined line has up to the operand behind [l]: every operand of [l] is
    followed by a comma. *)
Definition skipped (l : list operand) : nat := fold_right (fun o n => S (length (text o) + n)) 0%nat l.
(** A range with both ends in order. *)
Definition proper (r : range) : Prop := le (start r) (finish r).
Definition within (r r' : range) : Prop := le (start r') (start r) /\ le (finish r) (finish r').
