(** Positions of what is read a second time: the operands of a macro call.

    Modelled code: parser_library/src/semantics/range_provider.cpp:20-36 (union_range), 74-125
    (adjust_range, adjust_position); parsing/parser_impl.cpp:269-296 (the text that is read again
    and the ranges of its operands), 474-506.

    The operands of a macro call are collected from one or more lines, joined with commas into one
    line and read again; the positions in that line are turned into positions in the source.

    [size_t] is modelled with its wrap-around.  Reading a vector beyond its end has the outcome
    [Out_of_range]; [Hang] is never reached ([no_hang]).  Columns are those of the lexer
    (UTF-16 units, Lex_Model.v). *)
From Coq Require Import List ZArith.
Import ListNotations.
Open Scope Z_scope.

Definition w (z : Z) : Z := z mod 2 ^ 64.
Record position := { line : Z; column : Z }.
Record range := { start : position; finish : position }.

(** 20-36 *)
Definition union_range (l r : range) : range :=
  {| start :=
       if line (start l) =? line (start r)
       then {| line := line (start l); column := Z.min (column (start l)) (column (start r)) |}
       else if line (start l) =? Z.min (line (start l)) (line (start r)) then start l else start r;
     finish :=
       if line (finish l) =? line (finish r)
       then {| line := line (finish l); column := Z.max (column (finish l)) (column (finish r)) |}
       else if line (finish l) =? Z.max (line (finish l)) (line (finish r)) then finish l else finish r |}.

Inductive out := Pos (p : position) | Out_of_range | Hang.

(** 92-105: the operand the offset is in and the offset in it. *)
Definition columns (r : range) : Z :=
  w (w (column (finish r) + 72 * w (line (finish r) - line (start r))) - column (start r)).
Fixpoint locate (r : range) (others : list range) (offset : Z) : option (range * Z) :=
  if columns r >=? offset then Some (r, offset)
  else match others with
       | [] => None
       | r' :: others' => locate r' others' (w (offset - w (columns r + 1)))
       end.
(** 107-124 *)
Fixpoint walk (fuel : nat) (l c offset : Z) : out :=
  match fuel with
  | O => Hang
  | S fuel' =>
      let rest := w (71 - c) in
      if offset >? rest then walk fuel' (w (l + 1)) 15 (w (offset - rest))
      else Pos {| line := l; column := w (c + offset) |}
  end.
(** 85-125; [whole] is original_range. *)
Definition adjust_position (whole : range) (ranges : list range) (p : position) : out :=
  match ranges with
  | [] => let o := w (column p - column (start whole)) in
          walk (S (S (Z.to_nat o))) (line (start whole)) (column (start whole)) o
  | r :: others =>
      match locate r others (w (column p - column (start r))) with
      | None => Out_of_range
      | Some (r', o) => walk (S (S (Z.to_nat o))) (line (start r')) (column (start r')) o
      end
  end.

(** 74-83 *)
Inductive state := NONE | SUBSTITUTION | MACRO_REPARSE.
Definition adjust_range (s : state) (whole : range) (ranges : list range) (r : range) : option (out * out) :=
  match s with
  | MACRO_REPARSE => Some (adjust_position whole ranges (start r), adjust_position whole ranges (finish r))
  | SUBSTITUTION => Some (Pos (start whole), Pos (finish whole))
  | NONE => Some (Pos (start r), Pos (finish r))
  end.

(** parser_impl.cpp:269-296: the line that is read again and where it is said to begin.  An operand
    is its text and its range. *)
Record operand := { text : list Z; place : range }.
Fixpoint joined (l : list operand) : list Z :=
  match l with
  | [] => []
  | [x] => text x
  | x :: r => text x ++ 44 :: joined r
  end.
Definition field_range (first : operand) (others : list operand) : range :=
  union_range (place first) (place (last others first)).
(** The source position of the character with number [k] of the joined line: the lexer starts at
    the start of the field range and counts columns without limit (474-490). *)
Definition source_of (first : operand) (others : list operand) (k : Z) : out :=
  let f := field_range first others in
  adjust_position f (map place (first :: others)) {| line := line (start f); column := w (column (start f) + k) |}.
