(** * Cal_Model: AIF from the characters of its operands to the branch

    parser_library/src/processing/instruction_sets/ca_processor.cpp lines 373-443 (prepare_AIF, process_AIF),
    parser_library/src/parsing/grammar/ca_operand_rules.g4 lines 17-33,
    parser_library/src/parsing/parser_impl.cpp lines 298-332 (resolve_expression: the operands of AIF are logical).

    The operands are read as in [Caf_Model].  Conditions are evaluated from the first on until one is true, whose
    sequence symbol is the target; the others are only checked for their form.
    Simplifications: jumping itself is [Br_Model]; parts that [Caf_Model.term_of] leaves out ([None]) are left out. *)
From Coq Require Import List NArith ZArith Bool Arith.
From Verif Require Import Common Cag_Model Caf_Model.
From Verif Require Grp_Model Exp_Model.
Import ListNotations.
Import Exp_Model.

Inductive decision :=
| Jump (target : bytes)
| Stay
| Refused.                                              (* E010, E022: no branch *)

(** What the parser reports of the operands. *)
Definition reported (o : operand) : option (list xdiag) :=
  match o with
  | Branch e _ => match term_of e with Some x => Some (resolve Grp_Model.KB x) | None => None end
  | _ => Some []
  end.

(** 385-428; [taken] is the target of the first condition that is true, [has] has_operand. *)
Fixpoint decide (w : world) (ops : list operand) (taken : option bytes) (has : bool) : M decision :=
  match ops with
  | [] => ret (if has then match taken with Some t => Jump t | None => Stay end else Refused)
  | Empty :: r => match r with [] => decide w r taken has | _ => ret Refused end
  | Branch e t :: r =>
    match taken with
    | Some _ => decide w r taken true
    | None =>
      bind (match term_of e with Some x => evaluate_as w Grp_Model.KB x | None => None end) (fun v =>
      decide w r (if b_value v then Some t else None) true)
    end
  | _ :: _ => ret Refused
  end.

Definition aif (wide : N -> bool) (w : world) (text : list N) (col : nat) : option (list xdiag * M decision) :=
  match ca_field wide text col false with
  | Some l => match all (map reported l) with Some ds => Some (concat ds, decide w l None false) | None => None end
  | None => None
  end.
