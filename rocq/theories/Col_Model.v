(** From the fields of a line to a statement: parser_library/src/semantics/
    collector.cpp and the flow of parser_library/src/parsing/parser_impl.cpp
    (get_next, process_ordinary, process_lookahead, process_instruction,
    process_statement, parse_operands, parse_lookahead_operands).

    Scope.  What the rules of the grammar read is given ([line], [look_line],
    [operand_field] below list what the actions of the rules hand over,
    including that a rule failed and its action did not run).  Labels,
    instructions, texts, variable symbols, remarks, highlighted symbols,
    ranges and operation codes are only passed on; they are numbers here.
    Ranges of fields are left out. *)

From Coq Require Import List Arith Bool.
Import ListNotations.
Open Scope nat_scope.

(** An operand is empty or not; a null pointer is None. *)
Inductive operand := EmptyOp | Op (n : nat).

(** A label field: nothing or a label; an instruction field: nothing
    (instruction_si_type::EMPTY), an ordinary symbol or a concatenation. *)
Inductive label := NoLabel | Label (n : nat).
Inductive instr := NoInstr | OrdInstr (n : nat) | ConcInstr (n : nat).

(** processing/processing_format.h:22-48. *)
Inductive form := MACH | ASM | MAC | CA | DAT | IGNORED | DEFERRED | UNKNOWN.
Record status := Status { s_form : form; absent : bool; opcode : nat }.

Record deferred := Deferred_ { d_text : nat; d_vars : list nat }.
Definition no_text : nat := 0.

(** collector.h:67-75. *)
Record collector := Collector
  { lbl : option label;
    ins : option instr;
    ops : option (list (option operand));
    rem : option (list nat);
    def : option deferred;
    hl : list nat;
    hl_extracted : bool }.

Definition fresh : collector := Collector None None None None None [] false.

(** The statements handed out (semantics/statement.h,
    processing/statement.h). *)
Inductive stmt :=
| Resolved (l : label) (i : instr) (o : list operand) (r : list nat) (s : status)
| Deferred (l : label) (i : instr) (d : deferred).

Inductive outcome (A : Type) :=
| Ok (a : A)
| Assigned        (* runtime_error "field already assigned" *)
| Extracted       (* runtime_error "data already extracted" *)
| AssertFails
| Undefined.      (* the value of an empty optional is used *)
Arguments Ok {A} _.
Arguments Assigned {A}.
Arguments Extracted {A}.
Arguments AssertFails {A}.
Arguments Undefined {A}.

Definition bind {A B} (x : outcome A) (f : A -> outcome B) : outcome B :=
  match x with
  | Ok a => f a
  | Assigned => Assigned
  | Extracted => Extracted
  | AssertFails => AssertFails
  | Undefined => Undefined
  end.
Notation "'do' x <- a ; b" := (bind a (fun x => b)) (at level 200, x name, a at level 100, b at level 200).

(** collector.cpp:44-98 (five overloads; what they make of a label is the
    matter of Mdl_Model.v). *)
Definition set_label (l : label) (c : collector) : outcome collector :=
  match lbl c with
  | Some _ => Assigned
  | None => Ok (Collector (Some l) (ins c) (ops c) (rem c) (def c) (hl c) (hl_extracted c))
  end.

(** collector.cpp:100-120. *)
Definition set_instruction (i : instr) (c : collector) : outcome collector :=
  match ins c with
  | Some _ => Assigned
  | None => Ok (Collector (lbl c) (Some i) (ops c) (rem c) (def c) (hl c) (hl_extracted c))
  end.

Definition assigned (c : collector) : bool :=
  match ops c, rem c, def c with None, None, None => false | _, _, _ => true end.

Definition add_hl (h : list nat) (c : collector) : collector :=
  Collector (lbl c) (ins c) (ops c) (rem c) (def c) (hl c ++ h) (hl_extracted c).

(** collector.cpp:122-131 with 165-172: no remarks, so nothing is
    highlighted. *)
Definition set_no_operands (c : collector) : outcome collector :=
  if assigned c then Assigned
  else Ok (Collector (lbl c) (ins c) (Some []) (Some []) (Some (Deferred_ no_text [])) (hl c) (hl_extracted c)).

(** collector.cpp:133-142; remarks are highlighted (165-172). *)
Definition set_deferred (d : deferred) (r : list nat) (c : collector) : outcome collector :=
  if assigned c then Assigned
  else Ok (add_hl r (Collector (lbl c) (ins c) (ops c) (Some r) (Some d) (hl c) (hl_extracted c))).

(** collector.cpp:144-159. *)
Definition single_empty (o : list (option operand)) : bool :=
  match o with [None] | [Some EmptyOp] => true | _ => false end.
Definition set_operands (o : list (option operand)) (r : list nat) (c : collector) : outcome collector :=
  if assigned c then Assigned
  else Ok (add_hl r (Collector (lbl c) (ins c) (Some (if single_empty o then [] else o)) (Some r) (def c)
                               (hl c) (hl_extracted c))).

(** collector.cpp:174-185; the fields of [c'] are moved from. *)
Definition append_operand_field (c' c : collector) : collector :=
  Collector (lbl c) (ins c)
    (match ops c' with Some o => Some o | None => ops c end)
    (match rem c' with Some r => Some r | None => rem c end)
    (match def c' with Some d => Some d | None => def c end)
    (hl c ++ hl c') (hl_extracted c).

(** collector.cpp:189-229. *)
Definition extract_statement (st : status) (c : collector) : outcome (stmt * collector) :=
  let l := match lbl c with Some l => l | None => NoLabel end in
  let i := match ins c with Some i => i | None => NoInstr end in
  let r := match rem c with Some r => r | None => [] end in
  let hint := match s_form st with DEFERRED => true | _ => false end in
  if hint && match ops c with Some (_ :: _) => true | _ => false end then AssertFails
  else if hint then
    Ok (Deferred l i (match def c with Some d => d | None => Deferred_ no_text [] end), c)
  else
    let o := match ops c with Some o => o | None => [] end in
    Ok (Resolved l i (map (fun x => match x with Some x => x | None => EmptyOp end) o) r st, c).

(** collector.cpp:231-238. *)
Definition extract_hl (c : collector) : outcome (list nat * collector) :=
  if hl_extracted c then Extracted
  else Ok (hl c, Collector (lbl c) (ins c) (ops c) (rem c) (def c) [] true).

(** What is read of a line in open code (hlasmparser.g4:146-184, lab_instr and
    first_part).  In all but the last two cases the rule has got to the end of
    the line.
    - [Fields l i t h]: label, instruction and the text of the operand field,
      with the highlighted symbols;
    - [Process i t h]: the first alternative with a *PROCESS statement;
    - [NoInstruction l h]: a label, and the rule for the instruction failed;
      the text is not set then (line 173, the exception is passed on in 152);
    - [NoLabelRead]: the rule for the label failed; then the rest of
      first_part fails, too;
    - [Blank]: an empty line;
    - [AtEnd]: the end of the file;
    - [Unreadable]: no alternative. *)
Inductive line :=
| Fields (l : label) (i : instr) (text : nat) (h : list nat)
| Process (i : instr) (text : nat) (h : list nat)
| NoInstruction (l : label) (h : list nat)
| NoLabelRead
| Blank
| AtEnd
| Unreadable.

(** lab_instr: what it leaves in the collector, the text of the operand field
    and whether the end of the file has been reached. *)
Definition lab_instr (x : line) (c : collector) : outcome (collector * option nat * bool) :=
  match x with
  | Fields l i t h =>
      do c <- set_label l c; do c <- set_instruction i c; Ok (add_hl h c, Some t, false)
  | Process i t h =>
      do c <- set_label NoLabel c; do c <- set_instruction i c; Ok (add_hl h c, Some t, false)
  | NoInstruction l h => do c <- set_label l c; Ok (add_hl h c, None, false)
  | NoLabelRead => Ok (c, None, false)
  | Blank =>
      do c <- set_label NoLabel c; do c <- set_instruction NoInstr c; do c <- set_no_operands c;
      Ok (c, None, false)
  | AtEnd => Ok (c, None, true)
  | Unreadable => Ok (c, None, false)
  end.

(** What is read of a line while looking ahead (lookahead_rules.g4:18-51).
    - [Seq l]: a sequence symbol, whatever follows;
    - [Operation l i t h]: maybe a label, a space, the instruction -- None if
      its rule failed --, the text of the operand field and what is
      highlighted (the variable symbols of the instruction, ca_expr_rules.g4:
      218-228);
    - [Other]: a line that is neither (bad_look);
    - [EndAhead]: the end of the file;
    - [NoneAhead]: no alternative. *)
Inductive look_line :=
| Seq (l : label)
| Operation (l : option label) (i : option instr) (text : nat) (h : list nat)
| Other
| EndAhead
| NoneAhead.

Definition look_lab_instr (x : look_line) (c : collector) : outcome (collector * option nat * bool) :=
  match x with
  | Seq l =>
      do c <- set_label l c; do c <- set_instruction NoInstr c; do c <- set_no_operands c; Ok (c, None, false)
  | Operation l i t h =>
      do c <- match i with Some i => set_instruction i c | None => Ok c end;
      do c <- match l with Some l => set_label l c | None => Ok c end;
      Ok (add_hl h c, Some t, false)
  | Other =>
      do c <- set_label NoLabel c; do c <- set_instruction NoInstr c; do c <- set_no_operands c; Ok (c, None, false)
  | EndAhead => Ok (c, None, true)
  | NoneAhead => Ok (c, None, false)
  end.

(** What is read of the operand field with the rule of the form
    (operand_field_rules.g4): operands and remarks,
    nothing, a text with variable symbols (form DEFERRED), or the rule failed
    before its action. *)
Inductive operand_field :=
| Operands (o : list (option operand)) (r : list nat) (h : list nat)
| NoOperands
| Text (d : deferred) (r : list nat) (h : list nat)
| Failed (h : list nat).

(** Which of these the rule of a form can give: op_rem_body_noop hands over an
    empty list (operand_field_rules.g4:302-307), op_rem_body_deferred no
    operands, the others no text. *)
Definition fits (noop : bool) (f : form) (x : operand_field) : bool :=
  match x with
  | Operands o _ _ => if noop then match o with [] => true | _ => false end
                      else match f with DEFERRED | IGNORED => false | _ => true end
  | NoOperands => negb noop && match f with IGNORED => false | _ => true end
  | Text _ _ _ => negb noop && match f with DEFERRED => true | _ => false end
  | Failed _ => true
  end.

(** The rules of the rest parser on its own collector (parser_impl.cpp:
    570-616).  Macro operands are set by parse_operands itself (592-600)
    whatever the rule did: an empty line if it failed. *)
Definition op_rem_body (f : form) (noop : bool) (x : operand_field) (c : collector) : outcome collector :=
  match x with
  | Operands o r h => do c <- set_operands o r c; Ok (add_hl h c)
  | NoOperands =>
      match f, noop with
      | MAC, false => set_operands [] [] c
      | _, _ => set_no_operands c
      end
  | Text d r h => do c <- set_deferred d r c; Ok (add_hl h c)
  | Failed h =>
      match f, noop with
      | MAC, false => do c <- set_operands [] [] c; Ok (add_hl h c)
      | _, _ => Ok (add_hl h c)
      end
  end.

(** The outside: what the statement processor makes of an instruction, and
    whether attributes have to be looked for because of the instruction or of
    the statement (only when statements are processed). *)
Record world := World
  { status_of : instr -> status;
    instr_looks : instr -> bool;
    stmt_looks : stmt -> bool }.

(** The parser: its collector, that of the rest parser, what has been
    highlighted, the flag for the end. *)
Record parser := Parser { col : collector; rest_col : collector; shown : list nat; finished : bool }.

(** The value of an optional ([*instr_]). *)
Definition current_instruction (c : collector) : outcome instr :=
  match ins c with Some i => Ok i | None => Undefined end.

(** parser_impl.cpp:337-346: whether attributes are looked for, else the
    status. *)
Definition process_instruction (w : world) (ordinary : bool) (c : collector) : outcome (option status) :=
  do i <- current_instruction c;
  if ordinary && instr_looks w i then Ok None
  else do i <- current_instruction c; Ok (Some (status_of w i)).

(** parser_impl.cpp:348-367. *)
Definition process_statement (w : world) (ordinary : bool) (st : status) (p : parser) : outcome (option stmt * parser) :=
  do sc <- extract_statement st (col p);
  let (s, c) := sc in
  if ordinary && stmt_looks w s then Ok (None, Parser c (rest_col p) (shown p) (finished p))
  else
    do hc <- extract_hl c;
    let (h, c) := hc in
    Ok (Some s, Parser c (rest_col p) (shown p ++ h) (finished p)).

(** parser_impl.cpp:539-624.  [field] is what the rule of the form reads of a
    text. *)
Definition parse_operands (w : world) (field : form -> bool -> nat -> operand_field)
    (st : status) (text : nat) (p : parser) : outcome (option stmt * parser) :=
  let noop := absent st || match s_form st with UNKNOWN => true | _ => false end in
  do rc <- op_rem_body (s_form st) noop (field (s_form st) noop text) fresh;
  match s_form st with
  | IGNORED => Ok (None, Parser (col p) rc (shown p) (finished p))
  | _ => process_statement w true st (Parser (append_operand_field rc (col p)) rc (shown p) (finished p))
  end.

(** parser_impl.cpp:626-679; [copy] is the identifier COPY.  What the rule
    lookahead_operands_and_remarks reads (lookahead_rules.g4:63-74): operands
    without remarks, or it failed. *)
Definition clear_hl (c : collector) : collector :=
  Collector (lbl c) (ins c) (ops c) (rem c) (def c) [] (hl_extracted c).
Definition parse_lookahead_operands (w : world) (copy : nat) (field : nat -> option (list (option operand)))
    (st : status) (text : nat) (p : parser) : outcome (option stmt * parser) :=
  match s_form st with
  | IGNORED => process_statement w false st p
  | _ =>
      let skip :=
        match lbl (col p), ins (col p) with
        | None, Some (OrdInstr n) => negb (n =? copy)
        | _, _ => false
        end in
      if skip then process_statement w false st p
      else
        do rc <- match field text with Some o => set_operands o [] fresh | None => Ok fresh end;
        let rc := clear_hl rc in
        process_statement w false st (Parser (append_operand_field rc (col p)) rc (shown p) (finished p))
  end.

(** parser_impl.cpp:509-524. *)
Definition process_ordinary (w : world) (field : form -> bool -> nat -> operand_field) (x : line) (p : parser)
    : outcome (option stmt * parser) :=
  do y <- lab_instr x (col p);
  let '(c, text, e) := y in
  let p := Parser c (rest_col p) (shown p) (finished p || e) in
  if negb (finished p) && match ins c with Some _ => true | None => false end then
    do st <- process_instruction w true c;
    match st with
    | None => Ok (None, p)
    | Some st =>
        match text with
        | None => process_statement w true st p
        | Some t => parse_operands w field st t p
        end
    end
  else Ok (None, p).

(** parser_impl.cpp:526-537. *)
Definition process_lookahead (w : world) (copy : nat) (field : nat -> option (list (option operand))) (x : look_line) (p : parser)
    : outcome (option stmt * parser) :=
  do y <- look_lab_instr x (col p);
  let '(c, text, e) := y in
  let p := Parser c (rest_col p) (shown p) (finished p || e) in
  if negb (finished p) then
    do st <- process_instruction w false c;
    match st with
    | None => Ok (None, p)
    | Some st =>
        match text with
        | None => process_statement w false st p
        | Some t => parse_lookahead_operands w copy field st t p
        end
    end
  else Ok (None, p).

(** parser_impl.cpp:369-395: get_next; behind a statement the collector is
    made ready for the next one (collector.cpp:240-251). *)
Definition get_next_ordinary w field x (p : parser) : outcome (option stmt * parser) :=
  do y <- process_ordinary w field x p;
  let (s, p) := y in Ok (s, Parser fresh (rest_col p) (shown p) (finished p)).
Definition get_next_lookahead w copy field x (p : parser) : outcome (option stmt * parser) :=
  do y <- process_lookahead w copy field x p;
  let (s, p) := y in Ok (s, Parser fresh (rest_col p) (shown p) (finished p)).
