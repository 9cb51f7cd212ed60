(** What is expected of the editing commands: what becomes of one line of the document. *)
From Coq Require Import List NArith Bool.
From Verif Require Import Cont_Model.
Import ListNotations.
Open Scope list_scope.
Open Scope nat_scope.

(** columns a to b-1 (counted from 0) of a line *)
Definition cols (a b : nat) (l : list N) : list N := skipn a (firstn b l).

(** column 72 holds something *)
Definition continued (l : list N) : Prop := exists x, nth_error l 71 = Some x /\ x <> 32%N.
(** columns a to b-1 are blank *)
Definition blank_in (a b : nat) (l : list N) : Prop := forall k, a <= k < b -> nth_error l k = Some 32%N.

(** the command turns line [l], between [pre] and [post], into [l'] and touches nothing else *)
Definition turns (pre : doc) (l : list N) (post : doc) (cmd : doc -> option (list edit)) (l' : list N) : Prop :=
  result (pre ++ l :: post) (cmd (pre ++ l :: post)) = Some (text (pre ++ l' :: post)).
(** ... into several lines *)
Definition turns_many (pre : doc) (ls : doc) (post : doc) (cmd : doc -> option (list edit)) (ls' : doc) : Prop :=
  result (pre ++ ls ++ post) (cmd (pre ++ ls ++ post)) = Some (text (pre ++ ls' ++ post)).

Definition caret (i c : nat) : selection := mkSel (mkPos i c) (mkPos i c).
(** columns a to b-1 of line i, selected towards the right or towards the left *)
Definition selected (forward : bool) (i a b : nat) : selection :=
  if forward then mkSel (mkPos i a) (mkPos i b) else mkSel (mkPos i b) (mkPos i a).
