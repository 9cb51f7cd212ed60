(** Conditional assembly branching: AIF, AGO, ACTR, sequence symbols, macro nesting.

    Modelled: processing/processing_manager.cpp:97-124, 183-216, 246-297 (the processing loop,
    lookahead for sequence symbols, jumps, registration); processing/statement_processors/
    lookahead_processor.cpp:46-87, 271-285; ordinary_processor.cpp:74-104, 227-257 (limits);
    processing/instruction_sets/ca_processor.cpp:79-90, 256-458 (ANOP, ACTR, AGO, AIF, MEXIT, MEND);
    macro_processor.cpp:29-35 (macro call); context/hlasm_context.cpp:445-487, 705-718;
    context/code_scope.h:46-55; statement_processors/macrodef_processor.cpp:436-455 (labels of a
    macro); statement_providers/macro_statement_provider.cpp:28-43.

    Everything that is not about control (variables, symbols, storage) is one abstract value of the
    type [data]: expressions are functions of it, other statements change it in any way.

    Simplifications: COPY, AREAD and AINSERT are left out, so open code is a fixed list of
    statements and a position is an index into it (the real positions are byte offsets); a macro
    definition in open code is one statement; lookahead for symbol attributes is left out;
    evaluation of expressions produces a value, its own diagnostics are not recorded. *)
From Coq Require Import List NArith ZArith Bool.
From Verif Require Import Common.
Import ListNotations.

Definition id := bytes.

Section Machine.
Variable data : Type.

(** semantics/operand_impls.h: ca operands.  [OEmpty]: an omitted operand; [OOther]: an
    expression or variable. *)
Inductive operand (value : Type) :=
| OEmpty
| OSeq (target : id)
| OBranch (e : data -> value) (target : id)
| OOther.
Arguments OEmpty {value}.
Arguments OSeq {value} target.
Arguments OBranch {value} e target.
Arguments OOther {value}.

Inductive op :=
| Plain (registers : bool) (f : data -> data)
    (* any statement without an effect on control; [registers]: its processor registers the
       sequence symbol of the name field (machine and assembler instructions, ANOP, MACRO) or
       not (LCLx, GBLx, AEJECT, ASPACE, AREAD, blank operation) *)
| Actr (e : option (data -> Z))
| Ago (ops : list (operand Z))
| Aif (ops : list (operand bool))
| Mexit
| Mend
| Call (name : id) (f : data -> data).
Record stmt := { label : option id; operation : op }.

(** The macro definition that a name stands for, see Ops_Model. *)
Variable macro_of : data -> id -> option (list stmt).

(** code_scope.h; [next]: index of the statement to be fetched (current_statement + 1). *)
Record scope := { body : list stmt; next : nat; counter : Z; changes : nat }.
Inductive diag := E010 | E020 | E022 | E045 | E049 | E054 | E055 | E056 | E063.
Inductive event := Jump (depth at_ : nat) (target : id) (to : nat) | Set_counter (depth : nat) (v : Z) | Enter (depth : nat)
| Missing (depth at_ : nat) (target : id) (* E047 *) | Diag (d : diag).
Record state := {
  store : data;
  base : scope;
  stack : list scope;             (* macro scopes, innermost first *)
  symbols : list (id * nat);      (* sequence symbols of open code *)
  stop : nat;                     (* lookahead_stop_ *)
  finished : bool;
  log : list event                (* newest first *)
}.

Definition current (st : state) : scope := match stack st with [] => base st | s :: _ => s end.
Definition set_current (st : state) (s : scope) : state :=
  match stack st with
  | [] => {| store := store st; base := s; stack := []; symbols := symbols st; stop := stop st; finished := finished st; log := log st |}
  | _ :: r => {| store := store st; base := base st; stack := s :: r; symbols := symbols st; stop := stop st; finished := finished st; log := log st |}
  end.
Definition set_stack (st : state) (l : list scope) : state :=
  {| store := store st; base := base st; stack := l; symbols := symbols st; stop := stop st; finished := finished st; log := log st |}.
Definition set_store (st : state) (d : data) : state :=
  {| store := d; base := base st; stack := stack st; symbols := symbols st; stop := stop st; finished := finished st; log := log st |}.
Definition set_symbols (st : state) (l : list (id * nat)) : state :=
  {| store := store st; base := base st; stack := stack st; symbols := l; stop := stop st; finished := finished st; log := log st |}.
Definition set_stop (st : state) (n : nat) : state :=
  {| store := store st; base := base st; stack := stack st; symbols := symbols st; stop := n; finished := finished st; log := log st |}.
Definition finish (st : state) : state :=
  {| store := store st; base := base st; stack := stack st; symbols := symbols st; stop := stop st; finished := true; log := log st |}.
Definition tell (st : state) (e : event) : state :=
  {| store := store st; base := base st; stack := stack st; symbols := symbols st; stop := stop st; finished := finished st; log := e :: log st |}.

Fixpoint find (n : id) (l : list (id * nat)) : option nat :=
  match l with
  | [] => None
  | (m, i) :: l => if bytes_eqb n m then Some i else find n l
  end.

(** processing_manager.cpp:281-297, for the statement with the index [i] of open code. *)
Definition register_symbol (st : state) (n : id) (i : nat) : state :=
  match find n (symbols st) with
  | None => set_symbols st ((n, i) :: symbols st)
  | Some p => if Nat.eqb p i then st else tell st (Diag E045)
  end.
(** the same from a statement being processed; nothing inside a macro *)
Definition register (st : state) (s : stmt) : state :=
  match stack st, label s with
  | [], Some n => register_symbol st n (next (base st) - 1)
  | _, _ => st
  end.

(** macrodef_processor.cpp:436-455: the first statement with the label. *)
Fixpoint label_index (l : list stmt) (t : id) : option nat :=
  match l with
  | [] => None
  | s :: l =>
      if match label s with Some n => bytes_eqb n t | None => false end then Some 0%nat
      else match label_index l t with Some i => Some (S i) | None => None end
  end.

Definition moved (s : scope) (i : nat) : scope :=
  {| body := body s; next := i; counter := counter s - 1; changes := changes s |}.
(** 262-278: the jump itself. *)
Definition go (st : state) (t : id) (i : nat) : state :=
  tell (set_current st (moved (current st) i)) (Jump (length (stack st)) (next (current st) - 1) t i).

Definition missing (st : state) (t : id) : state :=
  tell st (Missing (length (stack st)) (next (current st) - 1) t).

(** lookahead_processor.cpp:46-68, 271-285 over the rest [l] of open code, which begins at [i]. *)
Fixpoint lookahead (st : state) (l : list stmt) (i : nat) (t : id) : state * bool :=
  match l with
  | [] => (set_stop st i, false)
  | s :: l =>
      match label s with
      | Some n =>
          let st := register_symbol st n i in
          if bytes_eqb n t then (set_stop st (S i), true) else lookahead st l (S i) t
      | None => lookahead st l (S i) t
      end
  end.

(** processing_manager.cpp:246-279, 183-216. *)
Definition jump_in_statements (st : state) (t : id) : state :=
  match stack st with
  | s :: _ =>
      match label_index (body s) t with
      | Some i => go st t i
      | None => missing st t
      end
  | [] =>
      match find t (symbols st) with
      | Some i => go st t i
      | None =>
          let start := if Nat.ltb (next (base st)) (stop st) then stop st else next (base st) in
          let (st', found) := lookahead st (skipn start (body (base st))) start t in
          if found then
            match find t (symbols st') with
            | Some i => go st' t i
            | None => st' (* not reached: found means registered *)
            end
          else missing st' t
      end
  end.

(** ca_processor.cpp:296-358: [inl]: no jump (with a diagnostic or without). *)
Fixpoint seq_targets (l : list (operand Z)) : option (list id) :=
  match l with
  | [] => Some []
  | OSeq t :: l => match seq_targets l with Some ts => Some (t :: ts) | None => None end
  | _ :: _ => None
  end.
Definition is_empty {v} (o : operand v) : bool := match o with OEmpty => true | _ => false end.
Definition prepare_AGO (ops : list (operand Z)) (d : data) : (option diag) + (Z * list id) :=
  match ops with
  | [] => inl (Some E022)
  | first :: rest =>
      if existsb is_empty ops then inl (Some E010)
      else
        match first with
        | OSeq t => match rest with [] => inr (1%Z, [t]) | _ => inl (Some E010) end
        | OBranch e t => match seq_targets rest with Some ts => inr (e d, t :: ts) | None => inl (Some E010) end
        | _ => inl None
        end
  end.
Definition complain (st : state) (e : option diag) : state := match e with Some e => tell st (Diag e) | None => st end.
(** 360-371 *)
Definition process_AGO (st : state) (ops : list (operand Z)) : state :=
  match prepare_AGO ops (store st) with
  | inl e => complain st e
  | inr (branch, targets) =>
      if (0 <? branch)%Z && (branch <=? Z.of_nat (length targets))%Z then
        match nth_error targets (Z.to_nat (branch - 1)) with
        | Some t => jump_in_statements st t
        | None => st
        end
      else st
  end.
(** 373-428; the accumulator is (condition, target) and has_operand. *)
Fixpoint aif_operands (ops : list (operand bool)) (d : data) (acc : option id) (has : bool) : (option diag) + (option id) :=
  match ops with
  | [] => if has then inr acc else inl (Some E022)
  | OEmpty :: rest => match rest with [] => aif_operands rest d acc has | _ => inl (Some E010) end
  | OBranch e t :: rest =>
      aif_operands rest d (match acc with Some _ => acc | None => if e d then Some t else None end) true
  | _ :: _ => inl (Some E010)
  end.
Definition prepare_AIF (ops : list (operand bool)) (d : data) : (option diag) + (option id) :=
  match ops with [] => inl (Some E022) | _ => aif_operands ops d None false end.
(** 430-443 *)
Definition process_AIF (st : state) (ops : list (operand bool)) : state :=
  match prepare_AIF ops (store st) with
  | inl e => complain st e
  | inr None => st
  | inr (Some t) => jump_in_statements st t
  end.
(** 262-294, hlasm_context.cpp:479-483 *)
Definition process_ACTR (st : state) (e : option (data -> Z)) : state :=
  match e with
  | None => tell st (Diag E020)
  | Some e =>
      let s := current st in
      tell (set_current st {| body := body s; next := next s; counter := e (store st); changes := S (changes s) |})
        (Set_counter (length (stack st)) (e (store st)))
  end.
Definition new_scope (b : list stmt) : scope := {| body := b; next := 0; counter := 4096; changes := 0 |}.
Definition enter_macro (st : state) (b : list stmt) : state :=
  tell (set_stack st (new_scope b :: stack st)) (Enter (S (length (stack st)))).
Definition leave_macro (st : state) : state := set_stack st (tl (stack st)).

Definition execute (st : state) (s : stmt) : state :=
  match operation s with
  | Plain r f => let st := if r then register st s else st in set_store st (f (store st))
  | Actr e => process_ACTR (register st s) e
  | Ago ops => process_AGO (register st s) ops
  | Aif ops => process_AIF (register st s) ops
  | Mexit => match stack st with [] => tell st (Diag E054) | _ => leave_macro st end
  | Mend => match stack st with [] => tell st (Diag E054) | _ => st end
  | Call n f =>
      match macro_of (store st) n with
      | None => tell st (Diag E049)
      | Some b => enter_macro (set_store st (f (store st))) b
      end
  end.

Definition NEST_LIMIT : nat := 100.
Definition ACTR_LIMIT : nat := 100.
(** ordinary_processor.cpp:74-104, 227-257 *)
Definition process_statement (st : state) (s : stmt) : state :=
  if Nat.ltb NEST_LIMIT (S (length (stack st))) then tell (set_stack st []) (Diag E055)
  else if (counter (current st) <? 0)%Z then
    let st := tell st (Diag E056) in
    match stack st with [] => finish st | _ => leave_macro st end
  else if Nat.ltb ACTR_LIMIT (changes (current st)) then finish (tell st (Diag E063))
  else execute st s.

Definition fetched (s : scope) : scope := {| body := body s; next := S (next s); counter := counter s; changes := changes s |}.
(** processing_manager.cpp:97-124; [None]: processing is over. *)
Definition step (st : state) : option state :=
  if finished st then None
  else
    match nth_error (body (current st)) (next (current st)) with
    | Some s => Some (process_statement (set_current st (fetched (current st))) s)
    | None => match stack st with [] => None | _ => Some (leave_macro st) end
    end.

Definition initial (d : data) (program : list stmt) : state :=
  {| store := d; base := new_scope program; stack := []; symbols := []; stop := 0; finished := false; log := [] |}.
Fixpoint steps (n : nat) (st : state) : state :=
  match n with
  | O => st
  | S n => match step st with Some st' => steps n st' | None => st end
  end.
End Machine.

Arguments OEmpty {data value}.
Arguments OSeq {data value} target.
Arguments OBranch {data value} e target.
Arguments OOther {data value}.
Arguments label {data}.
Arguments operation {data}.
Arguments body {data}.
Arguments next {data}.
Arguments counter {data}.
Arguments changes {data}.
Arguments store {data}.
Arguments base {data}.
Arguments stack {data}.
Arguments symbols {data}.
Arguments stop {data}.
Arguments finished {data}.
Arguments log {data}.
Arguments Plain {data}.
Arguments Actr {data}.
Arguments Ago {data}.
Arguments Aif {data}.
Arguments Mexit {data}.
Arguments Mend {data}.
Arguments Call {data}.
Arguments current {data}.
Arguments set_current {data}.
Arguments set_stack {data}.
Arguments set_store {data}.
Arguments set_symbols {data}.
Arguments set_stop {data}.
Arguments finish {data}.
Arguments tell {data}.
Arguments register_symbol {data}.
Arguments register {data}.
Arguments label_index {data}.
Arguments moved {data}.
Arguments go {data}.
Arguments missing {data}.
Arguments lookahead {data}.
Arguments jump_in_statements {data}.
Arguments seq_targets {data}.
Arguments is_empty {data v}.
Arguments prepare_AGO {data}.
Arguments complain {data}.
Arguments process_AGO {data}.
Arguments aif_operands {data}.
Arguments prepare_AIF {data}.
Arguments process_AIF {data}.
Arguments process_ACTR {data}.
Arguments new_scope {data}.
Arguments enter_macro {data}.
Arguments leave_macro {data}.
Arguments execute {data}.
Arguments process_statement {data}.
Arguments fetched {data}.
Arguments step {data}.
Arguments initial {data}.
Arguments steps {data}.
