(** Model of the AREAD statement:

      processing/instruction_sets/ca_processor.cpp:149-166 (prepare_SET_symbol), 475-600 (process_AREAD)
      parsing/parser_impl.cpp:63-74 (aread)
      aread_time.cpp:18-44 (time_to_clockb, time_to_clockd)

    Variables are those of Var_Model.v and the source is the lexer of Lex_Model.v.  The time of day
    (since_midnight, ca_processor.cpp:562-573) is a parameter, in nanoseconds: hours, minutes and
    seconds of the local time are not negative, so divisions are of numbers that are not negative. *)
From Coq Require Import String List NArith ZArith Bool.
From Verif Require Import Common Var_Model.
From Verif Require Lex_Model.
Import ListNotations.
Open Scope list_scope.
Open Scope Z_scope.

(** converter.to_bytes (lexer.cpp:811) for one code point *)
Definition encode (c : N) : bytes :=
  (if c <? 128 then [c]
   else if c <? 2048 then [192 + c / 64; 128 + c mod 64]
   else if c <? 65536 then [224 + c / 4096; 128 + (c / 64) mod 64; 128 + c mod 64]
   else [240 + c / 262144; 128 + (c / 4096) mod 64; 128 + (c / 64) mod 64; 128 + c mod 64])%N.

(** aread_time.cpp:18-25 *)
Definition zero_left_pad (s : bytes) (len : nat) : bytes :=
  if (len <=? length s)%nat then s else repeat 48%N (len - length s) ++ s.
Definition to_string (n : Z) : bytes := dec (Z.to_N n).
(** 29-33 *)
Definition time_to_clockb (d : Z) : bytes := zero_left_pad (to_string (d / 1000000 / 10)) 8.
(** 35-44 *)
Definition time_to_clockd (d : Z) : bytes :=
  zero_left_pad (to_string (d / 3600000000000)) 2 ++
  zero_left_pad (to_string (d / 60000000000 mod 60)) 2 ++
  zero_left_pad (to_string (d / 1000000000 mod 60)) 2 ++
  zero_left_pad (to_string (d / 1000000 mod 1000 / 10)) 2.

(** The part of parser_impl that AREAD touches. *)
Record source := mkSource { lex : Lex_Model.lexer; finished_flag : bool; input_tokens_invalidated : bool }.
Definition resize80 (s : bytes) : bytes := firstn 80 s ++ repeat 32%N (80 - length s).
(** parser_impl.cpp:63-74 *)
Definition aread (o : source) : bytes * source :=
  let '(l, s) := Lex_Model.aread (lex o) in
  let line := flat_map encode l in
  (match line with [] => [] | _ => resize80 line end,
   mkSource s (if Lex_Model.eof_generated s then true else finished_flag o) true).

Inductive label := LVar (n : name) (subscript : list Z) | LOther.
(** Omitted; an expression that is one symbol; any other. *)
Inductive operand := OEmpty | OSymbol (n : bytes) | OOther.
Inductive variant := reader | clockb | clockd.
Inductive diag := E010_label | E069 | E070 | Assignment (d : vdiag).

(** ca_processor.cpp:522-550 *)
Definition allowed_operands : list (bytes * variant) :=
  [(s2b "NOSTMT", reader); (s2b "NOPRINT", reader); (s2b "CLOCKB", clockb); (s2b "CLOCKD", clockd)].
Definition aread_variant (ops : list operand) : option variant :=
  match ops with
  | [] => Some reader
  | [OEmpty; OEmpty] => Some reader
  | OSymbol n :: _ => option_map snd (List.find (fun p => bytes_eqb (fst p) n) allowed_operands)
  | _ => None
  end.

(** 509-600 *)
Definition process_AREAD (now : Z) (l : label) (ops : list operand) (c : ctx) (o : source)
  : list diag * ctx * source :=
  match l with
  | LOther => ([E010_label], c, o)
  | LVar n subscript =>
      if negb (is_in_macro c) then ([E069], c, o)
      else match aread_variant ops with
           | None => ([E070], c, o)
           | Some v =>
               match test_symbol_for_assignment TC n subscript c with
               | inl d => ([Assignment d], c, o)
               | inr (index, symbol) =>
                   let (a, c') := match symbol with
                                  | Some a => (a, c)
                                  | None => create_local_variable TC n (index =? -1) c
                                  end in
                   let (value, o') := match v with
                                      | reader => aread o
                                      | clockb => (time_to_clockb now, o)
                                      | clockd => (time_to_clockd now, o)
                                      end in
                   ([], store a (set_value (deref a c') (VC value) (index - 1)) c', o')
               end
           end
  end.
