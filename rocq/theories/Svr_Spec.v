(** What the system variables are said to be. *)
From Coq Require Import String List NArith ZArith Bool.
From Verif Require Import Common Svr_Model Ard_Spec.
Import ListNotations.
Open Scope list_scope.
Open Scope Z_scope.

(** A time of the calendar, with a year of four figures *)
Definition calendar (now : tm) : Prop :=
  1000 <= tm_year now + 1900 <= 9999 /\ 0 <= tm_mon now <= 11 /\ 1 <= tm_mday now <= 31 /\
  0 <= tm_hour now <= 23 /\ 0 <= tm_min now <= 59.

(** The macros called within each other, the innermost first, in open code *)
Definition nest (macros : list bytes) : list (option bytes) := map Some macros ++ [None].
