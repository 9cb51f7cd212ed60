(** * The collector of symbol occurrences

    Modelled files of /repo/parser_library/src:
    - processing/statement_analyzers/occurence_collector.cpp (all);
    - processing/statement_analyzers/lsp_analyzer.cpp 38-70, 138-200, 240-258, 315-326 (what is
      collected from which field, copy operands);
    - processing/context_manager.cpp 99-110 (which texts are ordinary symbols);
    - semantics/variable_symbol.h, concatenation_term.h, operand_impls.h, expressions/mach_expr_term.h and
      expressions/conditional_assembly/terms/*.h (the trees that are visited).

    Simplifications.  Names and ranges are natural numbers; the table of identifiers is any function from
    texts to names.  Values, attribute kinds and operators, which the collector does not look at, are left
    out.  A missing optional expression is an empty list.  The operand [&()] of the grammar leaves the
    variable symbol a null pointer (ca_expr_rules.g4, created_set_symbol): [NoVar]; looking at it, and at
    the expression of a copy operand that has none, is the outcome [None]. *)
From Coq Require Import List Arith NArith Bool.
Import ListNotations.

Definition name := nat.
Definition place := nat.
Inductive kind := ORD | VAR | SEQ | INSTR | COPY_OP.
Definition kind_eqb (a b : kind) : bool :=
  match a, b with ORD, ORD | VAR, VAR | SEQ, SEQ | INSTR, INSTR | COPY_OP, COPY_OP => true | _, _ => false end.
Record occ := Occ { kind_of : kind; symbol : name; at_ : place }.

(** variable_symbol, ca_expression and concat_chain *)
Inductive var :=
  | Basic (n : name) (subscript : exprs) (r : place)
  | Created (c : chain) (subscript : exprs) (r : place)
  | NoVar
with expr :=
  | Constant
  | ExprList (es : exprs)
  | Function_ (duplication parameters : exprs)
  | String_ (value : chain) (duplication substring : exprs)
  | Symbol (n : name) (r : place)
  | Attribute (n : name) (r : place)
  | AttributeOf (v : var)
  | Variable_ (v : var)
  | Binary (a b : expr)
  | Unary (a : expr)
with exprs := ENil | ECons (e : expr) (r : exprs)
with chain := Empty | Add (p : point) (c : chain)
with point := Text (t : list N) (r : place) | Var (v : var) | Sublist (l : chains) | Dot | Equals
with chains := LNil | LCons (c : chain) (l : chains).

(** mach_expression *)
Inductive mexpr :=
  | MConstant | MAttribute (n : name) (r : place) | MSymbol (n : name) (r : place) | MLocation | MSelf | MDefault
  | MBinary (a b : mexpr) | MUnary (a : mexpr).

Inductive nominal := NExpr (e : mexpr) | NAddress (base displacement : mexpr).
Record data_def := Data {
  dupl_factor : option mexpr; program_type : option mexpr; length_ : option mexpr; scale : option mexpr;
  exponent : option mexpr; nominal_exprs : list nominal
}.

Inductive operand :=
  | EmptyOp | Model (c : chain)
  | MachExpr (e : option mexpr) | MachAddress (displacement first second : option mexpr)
  | AsmExpr (e : option mexpr) | AsmUsing (base end_ : option mexpr) | AsmComplex (symbols : list (name * place)) | AsmString
  | DataDef (d : data_def)
  | CaVar (v : var) | CaExpr (e : exprs) | CaSeq (n : name) (r : place) | CaBranch (e : expr) (n : name) (r : place)
  | MacChain (c : chain) | MacString.

Inductive label := LNone | LConc (c : chain) | LOrd (n : name) (r : place) | LSeq (n : name) (r : place) | LVar (v : var).
Inductive instruction := IConc (c : chain) | IOrd (n : name) (r : place) | IEmpty.
Inductive operands := Resolved (ops : list operand) | Deferred (vars : list var).
(** [opcode]: the operation code of a resolved statement. *)
Record statement := Stmt { label_of : label; instruction_of : instruction; operands_of : operands; opcode : option name }.

(** Results are appended to the list of the statement; [None] is undefined behaviour. *)
Definition result := option (list occ).
Definition both (a b : result) : result :=
  match a, b with Some x, Some y => Some (x ++ y) | _, _ => None end.

Section Collector.
(** ids().add, lexer::ord_char, isdigit. *)
Variable intern : list N -> name.
Variable ord_char : N -> bool.
Variable is_digit : N -> bool.

(** try_get_symbol_name (context_manager.cpp 99-110). *)
Definition symbol_name (t : list N) : option name :=
  match t with
  | [] => None
  | c :: _ => if (63 <? length t) || is_digit c then None else if forallb ord_char t then Some (intern t) else None
  end.

Variable k : kind.   (* collector_kind *)
Definition single (kd : kind) (n : name) (r : place) : result := Some (if kind_eqb k kd then [Occ kd n r] else []).

(** get_occurence(variable_symbol), get_occurence(concat_chain) (118-163), visit of CA expressions (181-222). *)
Fixpoint of_var (v : var) : result :=
  match v with
  | NoVar => None
  | Basic n _ r => single VAR n r
  | Created c _ _ => if kind_eqb k VAR then of_chain c else Some []
  end
with of_chain (c : chain) : result :=
  match c with
  | Empty => Some []
  | Add p r => both (of_point p) (of_chain r)
  end
with of_point (p : point) : result :=
  match p with
  | Text t r => match symbol_name t with Some n => single ORD n r | None => Some [] end
  | Var v => if kind_eqb k VAR then of_var v else Some []
  | Sublist l => of_chains l
  | Dot | Equals => Some []
  end
with of_chains (l : chains) : result :=
  match l with
  | LNil => Some []
  | LCons c r => both (of_chain c) (of_chains r)
  end.
Fixpoint of_expr (e : expr) : result :=
  match e with
  | Constant => Some []
  | ExprList es => of_exprs es
  | Function_ d ps => both (of_exprs d) (of_exprs ps)
  | String_ _ d _ => of_exprs d
  | Symbol n r | Attribute n r => single ORD n r
  | AttributeOf v | Variable_ v => of_var v
  | Binary a b => both (of_expr a) (of_expr b)
  | Unary a => of_expr a
  end
with of_exprs (es : exprs) : result :=
  match es with
  | ENil => Some []
  | ECons e r => both (of_expr e) (of_exprs r)
  end.

(** visit of machine expressions (165-179, mach_operator.h 53-57, 90). *)
Fixpoint of_mexpr (e : mexpr) : result :=
  match e with
  | MAttribute n r | MSymbol n r => single ORD n r
  | MBinary a b => both (of_mexpr a) (of_mexpr b)
  | MUnary a => of_mexpr a
  | _ => Some []
  end.
Definition of_omexpr (e : option mexpr) : result := match e with Some a => of_mexpr a | None => Some [] end.
Fixpoint all {A} (f : A -> result) (l : list A) : result :=
  match l with [] => Some [] | a :: r => both (f a) (all f r) end.
Definition of_nominal (x : nominal) : result :=
  match x with NExpr e => of_mexpr e | NAddress b d => both (of_mexpr b) (of_mexpr d) end.

(** visit of operands (28-116). *)
Definition of_operand (o : operand) : result :=
  match o with
  | EmptyOp | AsmComplex _ | AsmString | MacString => Some []
  | Model c | MacChain c => of_chain c
  | MachExpr e | AsmExpr e => of_omexpr e
  | MachAddress d a b => both (of_omexpr d) (both (of_omexpr a) (of_omexpr b))
  | AsmUsing b e => both (of_omexpr b) (of_omexpr e)
  | DataDef d => both (of_omexpr (dupl_factor d)) (both (of_omexpr (program_type d)) (both (of_omexpr (length_ d))
      (both (of_omexpr (scale d)) (both (of_omexpr (exponent d)) (all of_nominal (nominal_exprs d))))))
  | CaVar v => of_var v
  | CaExpr e => of_exprs e
  | CaSeq n r => single SEQ n r
  | CaBranch e n r => both (of_expr e) (single SEQ n r)
  end.

(** collect_occurence (lsp_analyzer.cpp 158-205); the instructions (kind INSTR) are not modelled here. *)
Definition of_label (l : label) : result :=
  match l with
  | LNone => Some []
  | LConc c => of_chain c
  | LOrd n r => single ORD n r
  | LSeq n r => single SEQ n r
  | LVar v => of_var v
  end.
Definition of_instruction (i : instruction) : result :=
  match i with IConc c => of_chain c | _ => Some [] end.
Definition of_operands (o : operands) : result :=
  match o with Resolved l => all of_operand l | Deferred vs => all of_var vs end.
Definition of_statement (s : statement) : result :=
  both (of_label (label_of s)) (both (of_instruction (instruction_of s)) (of_operands (operands_of s))).
End Collector.

(** collect_copy_operands (240-258): the outer [None] is undefined behaviour.  A symbol is what
    the dynamic_cast finds. *)
Definition copy_operand (copy : name) (s : statement) : option (option (name * place)) :=
  match opcode s, operands_of s with
  | Some n, Resolved [o] =>
      if n =? copy then
        match o with
        | AsmExpr (Some (MSymbol m r)) => Some (Some (m, r))
        | AsmExpr _ => Some None
        | AsmUsing _ _ | AsmComplex _ | AsmString => None
        | _ => Some None
        end
      else Some None
  | _, _ => Some None
  end.
