(** What completion and hovering are to show. *)
From Coq Require Import String.
From Coq Require Import List NArith ZArith Bool Arith.
From Verif Require Import Common Text_Model Text_Spec Mach_Model Hov_Model.
Import ListNotations.

(** ** The language of a regular expression *)
Inductive lang : re -> bytes -> Prop :=
| l_eps : lang Eps []
| l_cls f c : f c = true -> lang (Cls f) [c]
| l_cat a b s s' : lang a s -> lang b s' -> lang (Cat a b) (s ++ s')
| l_alt_l a b s : lang a s -> lang (Alt a b) s
| l_alt_r a b s : lang b s -> lang (Alt a b) s
| l_star_0 a : lang (Star a) []
| l_star_1 a s s' : lang a s -> lang (Star a) s' -> lang (Star a) (s ++ s').

(** ** The fields of a line *)
Definition blank (c : N) : Prop := c = 32%N \/ (9 <= c <= 13)%N.
Definition blanks (s : bytes) : Prop := s <> [] /\ Forall blank s.
Definition word (s : bytes) : Prop := Forall (fun c => ~ blank c) s.
(** The cursor is in the operation field, behind [name], if the line up to it is a label or nothing, blanks
    and [name]. *)
Definition operation_field (s : bytes) : Prop :=
  exists lab b name, s = lab ++ b ++ name /\ word lab /\ blanks b /\ word name /\ hd_error lab <> Some 42%N.

(** ** Lines *)
(** [ls] are the lines of [t], line ends included. *)
Fixpoint starts (from : nat) (ls : list bytes) : list nat :=
  match ls with [] => [] | l :: r => from :: starts (from + length l) r end.
Definition lined (t : bytes) (ls : list bytes) : Prop := concat ls = t /\ is_line t (starts 0 ls).
Definition comment (l : bytes) : Prop := exists r, l = 42%N :: r \/ l = 46%N :: 42%N :: r.
(** A line is continued if its column 71 is not blank. *)
Definition continued (l : bytes) : Prop := exists c, nth_error l 71 = Some c /\ ~ blank c.

(** ** Operands of an instruction: those that may be left out in brackets *)
Fixpoint listed (l : list bytes) : bytes :=
  match l with [] => [] | [x] => x | x :: r => x ++ s2b "," ++ listed r end.
Definition with_optional (sep : bytes) (l opt : list bytes) : bytes :=
  let comma := match l with [] => [] | _ => s2b "," end in
  match opt with
  | [] => listed l
  | [a] => listed l ++ sep ++ s2b "[" ++ comma ++ a ++ s2b "]"
  | a :: b :: _ => listed l ++ sep ++ s2b "[" ++ comma ++ a ++ s2b "[," ++ b ++ s2b "]]"
  end.
Definition shown (sep : bytes) (optional : nat) (ops : list bytes) : bytes :=
  with_optional sep (firstn (length ops - optional) ops) (skipn (length ops - optional) ops).

(** The operands of a mnemonic that are to be written: those of the instruction at the places that are not
    filled by the mnemonic. *)
Fixpoint unfilled (i : nat) (filled : list nat) (ops : list bytes) : list bytes :=
  match ops with
  | [] => []
  | x :: r => if existsb (Nat.eqb i) filled then unfilled (S i) filled r else x :: unfilled (S i) filled r
  end.
(** The operands of the instruction behind a mnemonic, with the values the mnemonic stands for. *)
Fixpoint substituted (i : nat) (filled : list (nat * Z)) (ops : list bytes) : list bytes :=
  match ops with
  | [] => []
  | x :: r => (match find (fun p => fst p =? i) filled with Some (_, v) => dec (Z.to_N v) | None => x end)
              :: substituted (S i) filled r
  end.

(** ** The text of one operand: a letter for what it is; for numbers that are encoded the bits they have and
    whether they have a sign; index or length and base register in parentheses. *)
Inductive described : parameter -> bytes -> Prop :=
| d_mask s n : described (mkP s n MASK) (s2b "M")
| d_register s n : described (mkP s n REG) (s2b "R")
| d_base s n : described (mkP s n BASE) (s2b "B")
| d_vector s n : described (mkP s n VEC_REG) (s2b "V")
| d_index s n : described (mkP s n DIS_REG) (s2b "X")
| d_nothing s n : described (mkP s n NONE) []
| d_signed n ty letters : numbered ty letters -> described (mkP true n ty) (letters ++ dec (Z.to_N n) ++ s2b "S")
| d_unsigned n ty letters : numbered ty letters -> described (mkP false n ty) (letters ++ dec (Z.to_N n) ++ s2b "U")
with numbered : op_type -> bytes -> Prop :=
| n_relative : numbered REG_IMM (s2b "RI")
| n_immediate : numbered IMM (s2b "I")
| n_displacement : numbered DISPLC (s2b "D")
| n_length : numbered LENGTH (s2b "L").
Definition no_parameter : parameter := mkP false 0 NONE.
Inductive operand_described : op_format -> bytes -> Prop :=
| o_plain p t : described p t -> operand_described (mkF p no_parameter no_parameter) t
| o_base p b t u : described p t -> described b u -> b <> no_parameter ->
    operand_described (mkF p no_parameter b) (t ++ s2b "(" ++ u ++ s2b ")")
| o_both p x b t v u : described p t -> described x v -> described b u -> x <> no_parameter ->
    operand_described (mkF p x b) (t ++ s2b "(" ++ v ++ s2b "," ++ u ++ s2b ")").
