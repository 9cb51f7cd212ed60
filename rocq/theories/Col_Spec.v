(** Which statement a line is. *)

From Coq Require Import List Arith Bool.
Import ListNotations.
From Verif Require Import Col_Model.
Open Scope nat_scope.

(** Operands as handed on: one empty operand is no operand, a missing one is
    an empty one. *)
Definition missing (x : option operand) : operand := match x with Some x => x | None => EmptyOp end.
Definition operands_of (o : list (option operand)) : list operand :=
  match map missing o with [EmptyOp] => [] | l => l end.

(** The operands, the remarks and the text of an operand field, with what is
    highlighted in it. *)
Definition field_operands (x : operand_field) : list operand :=
  match x with Operands o _ _ => operands_of o | _ => [] end.
Definition field_remarks (x : operand_field) : list nat :=
  match x with Operands _ r _ | Text _ r _ => r | _ => [] end.
Definition field_text (x : operand_field) : deferred :=
  match x with Text d _ _ => d | _ => Deferred_ no_text [] end.
Definition field_shown (x : operand_field) : list nat :=
  match x with Operands _ r h | Text _ r h => r ++ h | Failed h => h | NoOperands => [] end.

(** The statement of a label, an instruction and an operand field. *)
Definition as_statement (st : status) (l : label) (i : instr) (x : operand_field) : stmt :=
  match s_form st with
  | DEFERRED => Deferred l i (field_text x)
  | _ => Resolved l i (field_operands x) (field_remarks x) st
  end.

(** What there is to read: the statement of a line with what is highlighted;
    nothing for lines that cannot be read, at the end of the file and for
    instructions to be ignored. *)
Definition line_statement (status_of : instr -> status) (field : form -> bool -> nat -> operand_field) (x : line)
    : option (instr * stmt * list nat) :=
  let of l i t h :=
    let st := status_of i in
    let noop := absent st || match s_form st with UNKNOWN => true | _ => false end in
    let y := field (s_form st) noop t in
    match s_form st with
    | IGNORED => None
    | _ => Some (i, as_statement st l i y, h ++ field_shown y)
    end in
  match x with
  | Fields l i t h => of l i t h
  | Process i t h => of NoLabel i t h
  | Blank => Some (NoInstr, as_statement (status_of NoInstr) NoLabel NoInstr NoOperands, [])
  | NoInstruction _ _ | NoLabelRead | AtEnd | Unreadable => None
  end.

(** While looking ahead: label, instruction and, for COPY and lines with a
    label whose instruction is not to be ignored, the operands. *)
Definition ahead_statement (status_of : instr -> status) (copy : nat)
    (field : nat -> option (list (option operand))) (x : look_line) : option stmt :=
  match x with
  | Seq l => Some (Resolved l NoInstr [] [] (status_of NoInstr))
  | Other => Some (Resolved NoLabel NoInstr [] [] (status_of NoInstr))
  | EndAhead | NoneAhead | Operation _ None _ _ => None
  | Operation l (Some i) t _ =>
      let st := status_of i in
      let parsed :=
        match s_form st with IGNORED => false | _ => true end
        && match l, i with None, OrdInstr n => n =? copy | _, _ => true end in
      let o := if parsed then match field t with Some o => operands_of o | None => [] end else [] in
      Some (Resolved (match l with Some l => l | None => NoLabel end) i o [] st)
  end.

(** What it highlights: the variable symbols in the operation field. *)
Definition ahead_shown (x : look_line) : list nat :=
  match x with Operation _ _ _ h => h | _ => [] end.
