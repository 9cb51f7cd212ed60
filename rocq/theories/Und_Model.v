(** Model of the search for the symbols whose attributes a statement refers to before they are
    known, done before every statement is processed:

      processing/statement_providers/statement_provider.cpp:26-128
      processing/statement_providers/members_statement_provider.cpp:31-64,
      parsing/parser_impl.cpp:334-353 (when it is done)
      semantics/concatenation.cpp:175-199, semantics/operand_impls.cpp:447-490
      expressions/conditional_assembly/terms/ca_var_sym.cpp:29-54, ca_string.cpp:36-46,
        ca_function.cpp:49-57, ca_expr_list.cpp:32-38, ca_symbol_attribute.cpp:61-102,
        ca_symbol.cpp:27, ca_constant.cpp:27
      expressions/conditional_assembly/ca_operator_unary.cpp:30-33, ca_operator_binary.cpp:33-38
      processing/context_manager.cpp:99-109 (try_get_symbol_name)
      context/ordinary_assembly/symbol_attributes.cpp:80-84 (is_ordinary_attribute)
      processing/statement_processors/lookahead_processor.cpp:67-76 (end_processing)

    Expressions, variable symbols and points of concatenations are one type here: a variable symbol
    is a term of an expression and also a point of a concatenation.  The value of a variable symbol
    (vs->evaluate) is a parameter; C106 and C14 are about it.  A set of names is a list in
    which only membership matters.  The diagnostics of the evaluation that the search makes go
    to an evaluation context of their own, which is dropped: they are not modelled.  Pointers
    to expressions are never null here (the parser leaves them so only after a syntax error). *)
From Coq Require Import List NArith Bool Arith.
From Verif Require Import Common.
Import ListNotations.
Open Scope nat_scope.

Inductive attr := AL | AI | AS | AT | AD | AK | AN | AO | AUnknown.

Inductive node :=
| Const
| Sym (name : bytes)
| Var (name : option bytes) (created : list node) (subscript : list node)
| Str (value : list node) (dupl start count : option node)
| AttrS (a : attr) (s : bytes)
| AttrV (a : attr) (v : node)
| Fun (parameters : list node) (dupl : option node)
| Lst (l : list node)
| Un (e : node)
| Bin (l r : node)
(* points of concatenations other than variable symbols *)
| Text (s : bytes)
| Dot
| Equals
| Sub (l : list (list node)).

(** symbol_attributes.cpp:80-84 *)
Definition is_ordinary_attribute (a : attr) : bool :=
  match a with AL | AI | AS | AT => true | _ => false end.

(** context_manager.cpp:99-109; ids().add (id_storage.cpp) folds to upper case. *)
Definition ord_char (c : N) : bool :=
  ((65 <=? c) && (c <=? 90) || (97 <=? c) && (c <=? 122) || (48 <=? c) && (c <=? 57) ||
   (c =? 95) || (c =? 64) || (c =? 36) || (c =? 35))%N.
Definition digit (c : N) : bool := ((48 <=? c) && (c <=? 57))%N.
Definition up (c : N) : N := if ((97 <=? c) && (c <=? 122))%N then (c - 32)%N else c.
Definition try_get_symbol_name (s : bytes) : option bytes :=
  match s with
  | [] => None
  | c :: _ => if (63 <? length s) || digit c then None
              else if forallb ord_char s then Some (map up s) else None
  end.

Definition is_var (n : node) : bool := match n with Var _ _ _ => true | _ => false end.

Section Undef.
(** ord_ctx.get_symbol(n) || ord_ctx.get_symbol_reference(n) *)
Variable known : bytes -> bool.
(** vs->evaluate, if the result is of type C *)
Variable value : node -> option bytes.

Definition unless_known (s : bytes) : list bytes := if known s then [] else [s].

Fixpoint undefined (n : node) : list bytes :=
  let maybe := fun o => match o with Some e => undefined e | None => [] end in
  match n with
  | Const | Sym _ | Text _ | Dot | Equals => []
  (* ca_var_sym.cpp:29-47 *)
  | Var _ created subscript =>
      flat_map undefined subscript ++
      flat_map (fun p => if is_var p then undefined p else []) created
  (* ca_string.cpp:36-46 *)
  | Str _ d s c => maybe d ++ maybe s ++ maybe c
  (* ca_symbol_attribute.cpp:61-102 *)
  | AttrS a s => if is_ordinary_attribute a then unless_known s else []
  | AttrV a v =>
      match undefined v with
      | [] => if is_ordinary_attribute a
              then match value v with
                   | None => []
                   | Some t => match try_get_symbol_name t with
                               | None => []
                               | Some s => unless_known s
                               end
                   end
              else []
      | u => u
      end
  | Fun ps d => flat_map undefined ps ++ maybe d
  | Lst l => flat_map undefined l
  | Un e => undefined e
  | Bin l r => undefined l ++ undefined r
  (* concatenation.cpp:189-192 *)
  | Sub l => flat_map (flat_map undefined) l
  end.

(** concatenation.cpp:175-199 *)
Definition chain_undefined (c : list node) : list bytes := flat_map undefined c.

(** ** Statements *)
Inductive label := LConc (c : list node) | LVar (v : node) | LOther.
Inductive instruction := IConc (c : list node) | IOther.
Inductive ca_operand := CVar (v : node) | CExpr (e : node) | CSeq | CBranch (e : node).
Inductive operand :=
| OModel (c : list node)
| OMacChain (c : list node)
| OCa (o : ca_operand)
| OOther. (* machine, assembler, data definition, empty *)
Record statement := mkS {
  instr : instruction;
  lab : label;
  deferred : bool; (* the operand field has not been parsed *)
  operands : list operand }.

(** statement_provider.cpp:77-128 *)
Definition process_label (l : label) : list bytes :=
  match l with LConc c => chain_undefined c | LVar v => undefined v | LOther => [] end.
Definition process_instruction (i : instruction) : list bytes :=
  match i with IConc c => chain_undefined c | IOther => [] end.
(** operand_impls.cpp:447-490 *)
Definition ca_undefined (o : ca_operand) : list bytes :=
  match o with CVar v => undefined v | CExpr e | CBranch e => undefined e | CSeq => [] end.
Definition process_operand (o : operand) : list bytes :=
  match o with
  | OModel c | OMacChain c => chain_undefined c
  | OCa o => ca_undefined o
  | OOther => []
  end.
Definition process_operands (l : list operand) : list bytes := flat_map process_operand l.

(** statement_provider.cpp:26-69; members_statement_provider.cpp:31-64, parser_impl.cpp:334-353: the
    instruction field first, the other fields only if it refers to nothing unknown. *)
Inductive decision := Lookahead (l : list bytes) | Process.
Definition trigger_instruction (i : instruction) : decision :=
  match process_instruction i with [] => Process | l => Lookahead l end.
Definition trigger_statement (s : statement) : decision :=
  match (if deferred s then [] else process_operands (operands s)) ++ process_label (lab s) with
  | [] => Process
  | l => Lookahead l
  end.
Definition read (s : statement) : decision :=
  match trigger_instruction (instr s) with
  | Process => trigger_statement s
  | d => d
  end.
End Undef.

(** ** The same statement is read again after the lookahead, when all symbols looked for are known:
    those found have their attributes and the others the unknown ones
    (lookahead_processor.cpp:67-76; C67).  The value of a variable symbol depends on what is
    known through the attribute references in its subscripts. *)
Definition mem (s : bytes) (k : list bytes) : bool := existsb (bytes_eqb s) k.
Section Rounds.
Variable value : list bytes -> node -> option bytes.
(** None: the fuel is spent.  Otherwise the number of lookaheads and what is known when the
    statement is processed. *)
Fixpoint rounds (fuel : nat) (k : list bytes) (s : statement) : option (nat * list bytes) :=
  match read (fun n => mem n k) (value k) s with
  | Process => Some (0, k)
  | Lookahead l =>
      match fuel with
      | O => None
      | S fuel' => match rounds fuel' (l ++ k) s with
                   | Some (c, k') => Some (S c, k')
                   | None => None
                   end
      end
  end.
End Rounds.
