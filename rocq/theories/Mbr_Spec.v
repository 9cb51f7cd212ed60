(** * Mbr_Spec: blocks of MACRO and MEND *)
From Coq Require Import List NArith ZArith Bool Arith.
From Verif Require Import Common Mbr_Model.
Import ListNotations.

(** Statements in which every MACRO has its MEND. *)
Inductive Balanced : list stmt -> Prop :=
| bal_nil : Balanced []
| bal_stmt : forall s l, op s <> KMacro -> op s <> KMend -> Balanced l -> Balanced (s :: l)
| bal_macro : forall m l e r, op m = KMacro -> Balanced l -> op e = KMend -> Balanced r ->
    Balanced (m :: l ++ e :: r).

(** The body of a definition: up to the MEND of its own. *)
Definition Closed (b : list stmt) : Prop :=
  exists l e, b = l ++ [e] /\ Balanced l /\ op e = KMend.

(** What is kept of a statement: all, but nothing happens again for a COPY. *)
Definition kept (s : stmt) : item := match op s with KCopy => Anop | _ => Kept s end.

(** The statement with the number [k] belongs to the definition itself and not to one inside. *)
Definition own (b : list stmt) (k : nat) : Prop := Balanced (firstn k b).

(** The first statement of the definition itself with this sequence symbol. *)
Definition label_at (b : list stmt) (n : id) (k : nat) : Prop :=
  (exists s, nth_error b k = Some s /\ seq s = Some n /\ own b k) /\
  (forall j s, j < k -> nth_error b j = Some s -> seq s = Some n -> ~ own b j).

(** The operands that a stored statement has as an instruction of this form. *)
Definition reading {operand} (read : form -> bytes -> list operand) (s : status) (text : bytes) : list operand :=
  match s_occ s with
  | ABSENT => []
  | PRESENT => match s_form s with MACH | ASM | MAC | DAT | CA => read (s_form s) text | _ => [] end
  end.
