(** Storage and label of a machine instruction: processing/instruction_sets/mach_processor.cpp:32-85
    [mach_processor::process].  Checking the operands (64-82) changes neither. *)
From Coq Require Import ZArith Bool Arith String List.
From Verif Require Import Loctr_Model Loctr_Spec Mach_Model.
Import ListNotations.
Local Open Scope Z_scope.

(** alignment.h:35 *)
Definition halfword : alignment := mkAl 0 2.
(** The attributes that a label gets: symbol_attributes.cpp [make_machine_attrs], type I. *)
Record label := mkLabel { l_at : loctr; l_length : Z; l_type : string }.
(** low_language_processor.cpp:116-129, called at 34: the location counter symbol in the expressions of the
    operands gets, one expression after the other, the location without alignment. *)
Inductive stars (p : lengths) : loctr -> list loctr -> loctr -> Prop :=
| stars_nil l : stars p l [] l
| stars_cons l l1 ls l2 : exec p l (Reserve 0 no_align) l1 -> stars p l1 ls l2 -> stars p l (l1 :: ls) l2.
(** 46-62, 84: [new] tells that there is a label that is not defined yet, [ss] are the states whose location
    the location counter symbol denotes in the expressions of the operands.  The states are the location
    counter before and after, [p] the lengths its spaces finally get (Loctr_Spec). *)
Inductive mach_step (p : lengths) (l : loctr) (i : instr) (ss : list loctr) : bool -> option label -> loctr -> Prop :=
| step_label l0 l1 l2 : stars p l ss l0 ->
    exec p l0 (Reserve 0 halfword) l1 -> exec p l1 (Reserve (bytes_of i) halfword) l2 ->
    mach_step p l i ss true (Some (mkLabel l1 (bytes_of i) "I")) l2
| step_plain l0 l2 : stars p l ss l0 -> exec p l0 (Reserve (bytes_of i) halfword) l2 ->
    mach_step p l i ss false None l2.
