(** What a mnemonic stands for, read off the history of the program (newest statement first). *)
From Coq Require Import List NArith Bool.
From Verif Require Import Common Ops_Model.
Import ListNotations.

Inductive operation := OMacro (d : definition) | OInstr (name : id) (k : kind).

Section Spec.
Variable instruction_map : id -> option kind.
Variable library : id -> option (option definition).

Fixpoint stands (h : list event) (n : id) : option operation :=
  match h with
  | [] => match instruction_map n with Some k => Some (OInstr n k) | None => None end
  | Opsyn label op :: h =>
      if bytes_eqb n label then
        match op with
        | Symbol s => match stands h s with Some o => Some o | None => stands h n end
        | _ => None
        end
      else stands h n
  | Macro m d :: h => if bytes_eqb n m then Some (OMacro d) else stands h n
  | Statement i :: h =>
      if bytes_eqb n i then
        match stands h i with
        | Some o => Some o
        | None => match library i with Some (Some d) => Some (OMacro d) | _ => None end
        end
      else stands h n
  end.

(** The statement makes the macro [n] known. *)
Definition defines (e : event) (h : list event) (n : id) : Prop :=
  match e with
  | Macro m _ => m = n
  | Statement i => i = n /\ stands h i = None /\ exists d, library i = Some (Some d)
  | Opsyn _ _ => False
  end.
(** No macro becomes known after its name was the label of an OPSYN. *)
Definition macros_first (h : list event) : Prop :=
  forall h2 e h1 n op, h = h2 ++ e :: h1 -> defines e h1 n -> ~ In (Opsyn n op) h1.
(** Labels, operands and operation fields are not empty. *)
Definition named (e : event) : Prop :=
  match e with
  | Opsyn label op => label <> [] /\ op <> Symbol []
  | Macro n _ => n <> []
  | Statement i => i <> []
  end.

Definition shows (o : opcode_t) (m : option operation) : Prop :=
  match m with
  | None => o = no_opcode
  | Some (OMacro d) => opcode_detail o = Mac d
  | Some (OInstr n k) => o = {| opcode := Some n; opcode_detail := Instr k |}
  end.
Definition does (a : action) (o : operation) : Prop :=
  match o with OMacro d => a = Calls d | OInstr n k => a = Runs n k end.
End Spec.
