(** The lexer: parser_library/src/lexing/lexer.cpp, with the streams of input_source.cpp.

    Characters are UTF-32 code points.  [c] of an input state is not kept: it always is [LA(1)]
    of its stream (51, 81, 119, 235, 277, 805); nor is [char_position], which moves with the index
    of the stream (233-234, 63/69, 801-804).  A column -1 between 227 and 237 is not observable;
    the two assignments are one.

    Fixed: begin_ = 0, end_default_ = 71, continue_ = 15, continuation_enabled_ and
    double_byte_enabled_ = false (ICTL is commented out in the grammar and nothing else calls the
    setters), so [end_] is 71 except in [lex_process], which passes its own.
    Not modelled: the set of tokens after a continuation, metrics, last_lln_*.

    [None] is a loop that never ends: [consume] (231) does nothing at the end of the stream. *)
From Coq Require Import List NArith Bool Arith.
From Verif Require Import Common.
Import ListNotations.

Definition char := N.
Definition LF : char := 10%N.
Definition CR : char := 13%N.
Definition BLANK : char := 32%N.
Definition END : nat := 71.
Definition CONTINUE : nat := 15.

(** lexer.h:180-188 *)
Record input := { data : list char; index : nat; line : nat; column : nat; column16 : nat }.
Definition LA (k : nat) (i : input) : option char := nth_error (data i) (index i + (k - 1)).
Definition remaining (i : input) : nat := length (data i) - index i.

Inductive ttype :=
| IGNORED | CONTINUATION | COMMENT | EOLLN | SPACE | DOT | ASTERISK | MINUS | PLUS | LT | GT | COMMA | LPAR | RPAR
| APOSTROPHE | SLASH | AMPERSAND | EQUALS | ORDSYMBOL | IDENTIFIER | NUM | PROCESS | VERTICAL | ATTR | EOF.
(** token.h; [stop] is one past the last character. *)
Record token := { ty : ttype; hidden : bool; of_buffer : bool; start : nat; stop : nat; t_line : nat; t_column : nat;
                  t_column16 : nat; t_end16 : nat; t_index : nat }.
(** What is highlighted: from line, column; to line, column; as what. *)
Record highlight := { h_line : nat; h_column : nat; h_end_line : nat; h_end_column : nat; scope : ttype }.

Record lexer := {
  file : input;                  (* file_input_state_ *)
  buffer : input;                (* buffer_input_state_, ainsert_stream_ *)
  from_buffer : bool;            (* input_state_ *)
  pending : list (list char);    (* ainsert_buffer_ *)
  begun : input; begun_buffer : bool;    (* token_start_state_ *)
  queue : list token;            (* token_queue_ *)
  next_id : nat;                 (* last_token_id_ *)
  eof_generated : bool;
  long : bool;                   (* last_char_utf16_long_ *)
  var_symbol : bool;             (* creating_var_symbol_ *)
  attr_ref : bool;               (* creating_attr_ref_ *)
  last_line_pos : nat;
  apostrophes : nat;
  highlights : list highlight    (* newest first *)
}.

Section Lexer.
(** [isspace] and [toupper] of what is not a byte (318, 523; undefined behaviour). *)
Variable wide_space : char -> bool.
Variable unlimited : bool.       (* unlimited_line_ *)

Definition isspace (c : char) : bool :=
  if (c <? 256)%N then (c =? 32)%N || ((9 <=? c) && (c <=? 13))%N else wide_space c.
Definition current (s : lexer) : input := if from_buffer s then buffer s else file s.
Definition c (s : lexer) : option char := LA 1 (current s).
Definition is (x : char) (o : option char) : bool := match o with Some y => (x =? y)%N | None => false end.
(** 258 *)
Definition eof (s : lexer) : bool :=
  match LA 1 (file s), LA 1 (buffer s) with None, None => true | _, _ => false end.

Definition with_current (i : input) (b : bool) (s : lexer) : lexer :=
  {| file := if from_buffer s then file s else i; buffer := if from_buffer s then i else buffer s;
     from_buffer := from_buffer s; pending := pending s; begun := begun s; begun_buffer := begun_buffer s;
     queue := queue s; next_id := next_id s; eof_generated := eof_generated s; long := b;
     var_symbol := var_symbol s; attr_ref := attr_ref s; last_line_pos := last_line_pos s;
     apostrophes := apostrophes s; highlights := highlights s |}.
Definition with_attr (b : bool) (s : lexer) : lexer :=
  {| file := file s; buffer := buffer s;
     from_buffer := from_buffer s; pending := pending s; begun := begun s; begun_buffer := begun_buffer s;
     queue := queue s; next_id := next_id s; eof_generated := eof_generated s; long := long s;
     var_symbol := var_symbol s; attr_ref := b; last_line_pos := last_line_pos s;
     apostrophes := apostrophes s; highlights := highlights s |}.
Definition with_apostrophes (n : nat) (s : lexer) : lexer :=
  {| file := file s; buffer := buffer s;
     from_buffer := from_buffer s; pending := pending s; begun := begun s; begun_buffer := begun_buffer s;
     queue := queue s; next_id := next_id s; eof_generated := eof_generated s; long := long s;
     var_symbol := var_symbol s; attr_ref := attr_ref s; last_line_pos := last_line_pos s;
     apostrophes := n; highlights := highlights s |}.
Definition with_last_line_pos (n : nat) (s : lexer) : lexer :=
  {| file := file s; buffer := buffer s;
     from_buffer := from_buffer s; pending := pending s; begun := begun s; begun_buffer := begun_buffer s;
     queue := queue s; next_id := next_id s; eof_generated := eof_generated s; long := long s;
     var_symbol := var_symbol s; attr_ref := attr_ref s; last_line_pos := n;
     apostrophes := apostrophes s; highlights := highlights s |}.
Definition with_queue (q : list token) (s : lexer) : lexer :=
  {| file := file s; buffer := buffer s;
     from_buffer := from_buffer s; pending := pending s; begun := begun s; begun_buffer := begun_buffer s;
     queue := q; next_id := next_id s; eof_generated := eof_generated s; long := long s;
     var_symbol := var_symbol s; attr_ref := attr_ref s; last_line_pos := last_line_pos s;
     apostrophes := apostrophes s; highlights := highlights s |}.

(** 261 *)
Definition start_token (s : lexer) : lexer :=
  {| file := file s; buffer := buffer s;
     from_buffer := from_buffer s; pending := pending s; begun := current s; begun_buffer := from_buffer s;
     queue := queue s; next_id := next_id s; eof_generated := eof_generated s; long := long s;
     var_symbol := var_symbol s; attr_ref := attr_ref s; last_line_pos := last_line_pos s;
     apostrophes := apostrophes s; highlights := highlights s |}.

(** 220-254: what is added to the UTF-16 column is the width of the character that comes next. *)
Definition width (o : option char) : nat := match o with Some x => if (65535 <? x)%N then 2 else 1 | None => 1 end.
Definition advance (i : input) : input :=
  let next := nth_error (data i) (S (index i)) in
  if is LF (LA 1 i)
  then {| data := data i; index := S (index i); line := S (line i); column := 0; column16 := width next - 1 |}
  else {| data := data i; index := S (index i); line := line i; column := S (column i); column16 := column16 i + width next |}.
Definition consume (s : lexer) : lexer :=
  match c s with
  | None => s
  | Some _ => let i := advance (current s) in with_current i (width (LA 1 i) =? 2) s
  end.

(** [while (cond) consume();] *)
Fixpoint loop (fuel : nat) (cond : lexer -> bool) (s : lexer) : option lexer :=
  if cond s then match fuel with O => None | S fuel => loop fuel cond (consume s) end else Some s.
Definition while (cond : lexer -> bool) (s : lexer) : option lexer := loop (remaining (current s)) cond s.

(** 150-218; 158 compares with the index of the stream in which the token began *)
Definition stop_position (s : lexer) : nat := if long s then column16 (current s) - 1 else column16 (current s).
Definition add_highlight (t : ttype) (s : lexer) : list highlight :=
  let h l k := {| h_line := line (begun s); h_column := column16 (begun s); h_end_line := l; h_end_column := k; scope := t |} in
  match t with
  | CONTINUATION | COMMENT => [h (line (current s)) (stop_position s)]
  | IGNORED => [h (line (begun s)) (if line (begun s) =? line (current s) then stop_position s else last_line_pos s)]
  | _ => []
  end.
Definition is_ty (a b : ttype) : bool :=
  match a, b with
  | EOF, EOF | EOLLN, EOLLN | AMPERSAND, AMPERSAND | IGNORED, IGNORED | CONTINUATION, CONTINUATION => true
  | _, _ => false
  end.
Definition create_token (t : ttype) (hide : bool) (s : lexer) : lexer :=
  let ended := eof_generated s || is_ty t EOF in
  let s := {| file := file s; buffer := buffer s; from_buffer := from_buffer s; pending := pending s; begun := begun s;
              begun_buffer := begun_buffer s; queue := queue s; next_id := next_id s; eof_generated := ended; long := long s;
              var_symbol := var_symbol s; attr_ref := attr_ref s; last_line_pos := last_line_pos s;
              apostrophes := apostrophes s; highlights := highlights s |} in
  if (index (begun s) =? index (if begun_buffer s then buffer s else file s)) && negb (is_ty t EOF) && negb (is_ty t EOLLN)
  then s
  else
    {| file := file s; buffer := buffer s; from_buffer := from_buffer s; pending := pending s; begun := begun s;
       begun_buffer := begun_buffer s;
       queue := queue s ++ [{| ty := t; hidden := hide; of_buffer := begun_buffer s; start := index (begun s);
                               stop := index (current s); t_line := line (begun s); t_column := column (begun s);
                               t_column16 := column16 (begun s); t_end16 := column16 (current s); t_index := next_id s |}];
       next_id := S (next_id s); eof_generated := ended; long := long s; var_symbol := is_ty t AMPERSAND;
       attr_ref := attr_ref s && (is_ty t IGNORED || is_ty t CONTINUATION); last_line_pos := last_line_pos s;
       apostrophes := apostrophes s; highlights := add_highlight t s ++ highlights s |}.

(** 263-282 *)
Definition switch_input_streams (s : lexer) : lexer :=
  let set buf from pend :=
    {| file := file s; buffer := buf; from_buffer := from; pending := pend; begun := begun s; begun_buffer := begun_buffer s;
       queue := queue s; next_id := next_id s; eof_generated := eof_generated s; long := long s;
       var_symbol := var_symbol s; attr_ref := attr_ref s; last_line_pos := last_line_pos s;
       apostrophes := apostrophes s; highlights := highlights s |} in
  match LA 1 (buffer s) with
  | Some _ => s
  | None =>
      match pending s with
      | f :: pend =>
          let b := {| data := data (buffer s) ++ f; index := index (buffer s); line := line (buffer s);
                      column := column (buffer s); column16 := column16 (buffer s) |} in
          match LA 1 b with Some _ => set b true pend | None => set b false pend end
      | [] => set (buffer s) false []
      end
  end.

(** 464-486 *)
Definition divider (x : char) : bool := existsb (N.eqb x) [42; 46; 45; 43; 61; 60; 62; 44; 40; 41; 39; 47; 38; 124]%N.
Definition identifier_divider (s : lexer) : bool := match c s with Some x => divider x | None => false end.
(** 595-600; [e] is [end_] *)
Definition before_end (e : nat) (s : lexer) : bool :=
  (column (current s) <? e)
  || (unlimited && negb (is CR (c s)) && negb (is LF (c s)))
  || ((column (current s) =? e) && from_buffer s && match pending s with [] => false | _ => true end).
(** 602-615 *)
Definition is_digit (x : char) : bool := ((48 <=? x) && (x <=? 57))%N.
Definition is_letter (x : char) : bool := ((65 <=? x) && (x <=? 90) || (97 <=? x) && (x <=? 122))%N.
Definition ord_char (x : char) : bool := is_digit x || is_letter x || existsb (N.eqb x) [95; 64; 36; 35]%N.
Definition is_ord_char (s : lexer) : bool := match c s with Some x => ord_char x | None => false end.
Definition is_num_char (s : lexer) : bool := match c s with Some x => is_digit x | None => false end.
Definition is_space (s : lexer) : bool := is BLANK (c s) || is LF (c s) || is CR (c s).
Definition is_data_attribute (s : lexer) : bool :=
  match c s with
  | Some x => existsb (N.eqb x) [68; 79; 78; 83; 75; 73; 76; 84; 100; 111; 110; 115; 107; 105; 108; 116]%N
  | None => false
  end.

Notation "'do' s <- x ; y" := (match x with Some s => y | None => None end) (at level 200, s name).

(** 488-494: [begin_] is 0 *)
Definition lex_begin (s : lexer) : lexer := create_token IGNORED true (start_token s).
(** 496-512 *)
Definition lex_end (eolln : bool) (s : lexer) : option lexer :=
  do s <- while (fun s => match c s with Some x => negb (x =? LF)%N | None => false end) (start_token s);
  let s := if eof s then s
           else let s := consume (with_last_line_pos (column (current s)) s) in
                if eolln then create_token EOLLN false s else s in
  Some (create_token IGNORED true s).
(** 545-566 *)
Definition lex_continuation (s : lexer) : option lexer :=
  do s <- while (fun s => (column (current s) <=? END) && negb (eof s)) (start_token s);
  do s <- lex_end false (create_token CONTINUATION true s);
  do s <- while (fun s => (column (current s) <? CONTINUE) && negb (eof s) && negb (is LF (c s))) (start_token (lex_begin s));
  Some (create_token IGNORED true s).
(** 514-533; [n]: lines *)
Fixpoint lex_comment (n : nat) (s : lexer) : option lexer :=
  do s <- while (fun s => (column (current s) <? END) && negb (eof s) && negb (is LF (c s))) (start_token s);
  let s := create_token COMMENT true s in
  if match c s with Some x => negb (isspace x) | None => true end && negb (eof s)
  then match n with O => None | S n => do s <- lex_continuation s; lex_comment n s end
  else lex_end false s.
(** 588-593 *)
Definition lex_space (e : nat) (s : lexer) : option lexer :=
  do s <- while (fun s => is BLANK (c s) && before_end e s && negb (eof s)) s;
  Some (create_token SPACE false s).
(** 617-659 *)
Fixpoint word (fuel : nat) (e : nat) (ord num attr : bool) (len : nat) (s : lexer)
  : option (lexer * bool * bool * bool * nat * bool) :=
  if negb (is_space s) && negb (eof s) && negb (identifier_divider s) && before_end e s then
    let ord := ord && is_ord_char s in
    let num := num && is_num_char s in
    let attr := is_data_attribute s in
    if var_symbol s && negb ord && (0 <? len) && (len <=? 63) then Some (create_token ORDSYMBOL false s, ord, num, attr, len, true)
    else match fuel with O => None | S fuel => word fuel e ord num attr (S len) (consume s) end
  else Some (s, ord, num, attr, len, false).
Definition lex_word (e : nat) (s : lexer) : option lexer :=
  match word (remaining (current s)) e (is_ord_char s && negb (is_num_char s)) (is_num_char s) false 0 s with
  | None => None
  | Some (s, ord, num, attr, len, returned) =>
      if returned then Some s
      else
        let var := var_symbol s in
        let s := create_token (if ord && (len <=? 63) then ORDSYMBOL else if num then NUM else IDENTIFIER) false s in
        let s := if is 39%N (c s) && attr && negb var && (len =? 1) && (unlimited || negb (column (current s) =? e))
                 then create_token ATTR false (consume (start_token s)) else s in
        Some (with_attr (negb unlimited && (column (current s) =? e) && attr && negb var && (len =? 1)) s)
  end.

(** 377-461 *)
Definition punctuation (x : char) : option ttype :=
  match x with
  | 45 => Some MINUS | 43 => Some PLUS | 61 => Some EQUALS | 60 => Some LT | 62 => Some GT | 44 => Some COMMA
  | 40 => Some LPAR | 41 => Some RPAR | 47 => Some SLASH | 38 => Some AMPERSAND | 124 => Some VERTICAL
  | 42 => Some ASTERISK | 46 => Some DOT
  | _ => None
  end%N.
Definition lex_token (e : nat) (s : lexer) : option lexer :=
  match c s with
  | None => lex_word e s
  | Some x =>
      if (x =? BLANK)%N then lex_space e s
      else if (x =? 39)%N then
        let s := consume s in
        Some (if attr_ref s then create_token ATTR false s
              else create_token APOSTROPHE false (with_apostrophes (S (apostrophes s)) s))
      else if (x =? CR)%N then
        let s := consume s in
        Some (create_token EOLLN false (if is LF (c s) then consume s else s))
      else if (x =? LF)%N then Some (create_token EOLLN false (consume s))
      else match punctuation x with
           | Some t => Some (create_token t false (consume s))
           | None => lex_word e s
           end
  end.

(** 696-706; [ictl_] is false *)
Definition upper (x : char) : char := if ((97 <=? x) && (x <=? 122))%N then (x - 32)%N else x.
Definition is_process (s : lexer) : bool :=
  (line (current s) <=? 10) &&
  forallb (fun p => match LA (fst p) (current s) with Some x => (upper x =? snd p)%N | None => false end)
    [(2, 80%N); (3, 82%N); (4, 79%N); (5, 67%N); (6, 69%N); (7, 83%N); (8, 83%N)].
(** 729-750; beyond the first column [lex_tokens] is [lex_token] *)
Fixpoint process_tokens (fuel : nat) (s : lexer) : option lexer :=
  if negb (eof s) && before_end (S END) s && negb (is LF (c s)) && negb (is CR (c s))
     && (Nat.odd (apostrophes s) || negb (is BLANK (c s)))
  then match fuel with O => None | S fuel => do s <- lex_token (S END) (start_token s); process_tokens fuel s end
  else Some s.
Definition process_options (s : lexer) : option lexer :=
  do s <- lex_space END (start_token s);
  do s <- process_tokens (S (remaining (current s))) (with_apostrophes 0 s);
  lex_end true s.
Definition lex_process (s : lexer) : option lexer :=
  process_options (create_token PROCESS false (Nat.iter 8 consume (start_token s))).

(** 343-375: 366 looks at the file even while the buffer is read *)
Definition lex_tokens (s : lexer) : option lexer :=
  let comment := lex_comment (remaining (current s)) in
  if column (current s) =? 0 then
    if is 42%N (c s) then if is_process s then lex_process s else comment s
    else if is 46%N (c s) && is 42%N (LA 2 (file s)) then comment s
    else lex_token END s
  else lex_token END s.

(** 302-331: what is done when the queue is empty *)
Definition lex (s : lexer) : option lexer :=
  let s := start_token (switch_input_streams s) in
  let col := column (current s) in
  if eof s then Some (create_token EOF false (create_token EOLLN false s))
  else if negb unlimited && (col =? END) && match c s with Some x => negb (isspace x) | None => true end
          && (negb (from_buffer s) || match pending s with [] => false | _ => true end)
  then lex_continuation s
  else if (unlimited && (is CR (c s) || is LF (c s))) || (negb unlimited && (END <=? col)) then lex_end true s
  else lex_tokens s.
(** 289-333 *)
Fixpoint next_token (fuel : nat) (s : lexer) : option (token * lexer) :=
  match queue s with
  | t :: q => Some (t, with_queue q s)
  | [] => match fuel with O => None | S fuel => do s <- lex s; next_token fuel s end
  end.

(** ** AREAD and AINSERT *)
Definition with_input (f b : input) (q : list token) (ended : bool) (id : nat) (s : lexer) : lexer :=
  {| file := f; buffer := b;
     from_buffer := from_buffer s; pending := pending s; begun := begun s; begun_buffer := begun_buffer s;
     queue := q; next_id := id; eof_generated := ended; long := long s;
     var_symbol := var_symbol s; attr_ref := attr_ref s; last_line_pos := last_line_pos s;
     apostrophes := apostrophes s; highlights := highlights s |}.
Definition at_index (n l : nat) (i : input) : input :=
  {| data := data i; index := n; line := l; column := 0; column16 := 0 |}.
(** 56-82 *)
Definition rewind_input (l offset : nat) (s : lexer) : lexer :=
  let offset := if length (data (file s)) <=? offset then length (data (file s)) - 1 else offset in
  with_input (at_index offset l (file s)) (buffer s) []
    false (match queue s with t :: _ => t_index t | [] => next_id s end) s.
(** 795-798, 848-851 *)
Definition rewind_line (s : lexer) : lexer :=
  if column (file s) =? 0 then s else rewind_input (line (file s)) (index (file s) - column (file s)) s.
(** 799-806 *)
Definition rewind_record (s : lexer) : lexer :=
  if from_buffer s && negb (column (buffer s) =? 0)
  then with_input (file s) (at_index (index (buffer s) - column (buffer s)) (line (buffer s)) (buffer s)) (queue s)
         (eof_generated s) (next_id s) s
  else s.
(** 809-813 *)
Fixpoint read_line (fuel : nat) (s : lexer) : list char * lexer :=
  match c s, fuel with
  | Some x, S fuel => if (x =? CR)%N || (x =? LF)%N then ([], s) else let '(l, s) := read_line fuel (consume s) in (x :: l, s)
  | _, _ => ([], s)
  end.
Definition consume_new_line (s : lexer) : lexer :=
  let s := if is CR (c s) then consume s else s in
  if is LF (c s) then consume s else s.
(** 786-826: the characters of the line, before they are encoded *)
Definition aread (s : lexer) : list char * lexer :=
  let s := switch_input_streams s in
  if eof s then ([], s)
  else
    let s := start_token (rewind_record (rewind_line s)) in
    let '(l, s) := read_line (remaining (current s)) s in
    let s := consume_new_line s in
    let s := if eof s then create_token EOF false s else s in
    (match l with [] => [BLANK] | _ => l end, s).

Definition pad (n : nat) (l : list char) : list char := l ++ repeat BLANK (n - length l).
(** 834-861; [None]: the exception *)
Definition ainsert (front : bool) (r : list char) (s : lexer) : option lexer :=
  match r with
  | [] => None
  | _ =>
      let rec := pad 80 r ++ [LF] in
      let s := {| file := file s; buffer := buffer s; from_buffer := from_buffer s;
                  pending := if front then rec :: pending s else pending s ++ [rec];
                  begun := begun s; begun_buffer := begun_buffer s; queue := queue s; next_id := next_id s;
                  eof_generated := eof_generated s; long := long s; var_symbol := var_symbol s; attr_ref := attr_ref s;
                  last_line_pos := last_line_pos s; apostrophes := apostrophes s; highlights := highlights s |} in
      let s := rewind_line s in
      Some (with_input (file s) (buffer s) [] false (next_id s) s)
  end.
End Lexer.

(** 38-54 *)
Definition input_of (t : list char) : input := {| data := t; index := 0; line := 0; column := 0; column16 := 0 |}.
Definition initial (t : list char) : lexer :=
  {| file := input_of t; buffer := input_of []; from_buffer := false; pending := []; begun := input_of []; begun_buffer := false;
     queue := []; next_id := 0; eof_generated := false; long := false; var_symbol := false; attr_ref := false;
     last_line_pos := 0; apostrophes := 0; highlights := [] |}.
