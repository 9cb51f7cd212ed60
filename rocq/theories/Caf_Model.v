(** * Caf_Model: conditional assembly operands from their characters to their values

    Joins the lexer ([Lex_Model], as [Fld_Model] runs it on a field), the grammar of conditional assembly operands
    ([Cag_Model]), the grouping of lists ([Grp_Model]) and the evaluation of expressions ([Exp_Model]):
      parser_library/src/parsing/parser_impl.cpp lines 214-219 (is_self_def), 236-245 (parse_self_def_term),
        260-267 (parse_identifier), 298-332 (resolve_expression), 538-583 (parse_operands),
      parser_library/src/parsing/grammar/hlasmparser.g4 lines 186-223 (num, self_def_term, id_no_dot),
      parser_library/src/parsing/grammar/operand_field_rules.g4 lines 154-168 (op_rem_body_ca),
      parser_library/src/parsing/grammar/ca_expr_rules.g4 lines 17-118 (expr, expr_s, term_c, term, expr_list),
        var_symbol, vs_id, vs_id_ch_c, data_attribute,
      parser_library/src/expressions/conditional_assembly/terms/ca_expr_list.cpp lines 44-59, 115-155,
      parser_library/src/processing/instruction_sets/ca_processor.cpp lines 168-195 (prepare_SET_operands) and
        ca_processor.h lines 101-122 (process_SET).

    Simplifications.
    - Created names of variable symbols, strings with variable symbols in them, attributes, strings and functions
      are not taken further than the grammar ([None] in [term_of]).
    - Outside of parentheses a blank ends the operands: no alternative of the grammar reads one there.  What is
      behind it is a remark and is not looked at.
    - The line is not continued. *)
From Coq Require Import String List NArith ZArith Bool Arith.
From Verif Require Import Common Lex_Model.
From Verif Require Fld_Model.
From Verif Require Import Cag_Model.
From Verif Require Grp_Model Exp_Model.
Import ListNotations.
Open Scope list_scope.

Import Fld_Model.

(** ** Lexemes *)
Definition name_ch (t : ttype) : bool := match t with NUM | ORDSYMBOL => true | _ => false end.     (* vs_id_ch_c *)
Definition num_ch (t : ttype) : bool := match t with NUM => true | _ => false end.

Definition lexeme (ts : list lx) : option (tok * list lx) :=
  match ts with
  | [] => None
  | t :: r =>
    match lt t with
    | PLUS => Some (TPlus, r)
    | MINUS => Some (TMinus, r)
    | ASTERISK => Some (TStar, r)
    | SLASH => Some (TSlash, r)
    | LPAR => Some (TLpar, r)
    | RPAR => Some (TRpar, r)
    | COMMA => Some (TComma, r)
    | DOT => Some (TDot, r)
    | SPACE => Some (TSpace, r)
    | AMPERSAND =>                                             (* var_symbol, vs_id *)
      match r with
      | q :: r1 =>
        match lt q with
        | ORDSYMBOL => let '(x, _, r') := more name_ch (l_hi q) r1 in Some (TVar (map upper (ltx q ++ x)), r')
        | _ => None
        end
      | [] => None
      end
    | NUM =>
      let '(x, _, r') := more num_ch (l_hi t) r in
      match self_def [68%N] (ltx t ++ x) with Some v => Some (TConst v, r') | None => None end
    | ORDSYMBOL =>
      let symbol := let '(x, _, r') := more is_word (l_hi t) r in Some (TId (map upper (ltx t ++ x)), r') in
      match r with
      | q :: r1 =>
        match lt q with
        | ATTR => Some (TAttr (map upper (ltx t)), r1)         (* data_attribute *)
        | APOSTROPHE =>                                        (* self_def_term *)
          match string_rest r1 with
          | Some (x, _, r') => match self_def (ltx t) x with Some v => Some (TConst v, r') | None => None end
          | None => None
          end
        | _ => symbol
        end
      | [] => symbol
      end
    | APOSTROPHE =>
      match string_rest r with Some (x, _, r') => Some (TStr (utf8 x), r') | None => None end
    | _ => None
    end
  end.

(** Up to the first blank outside of parentheses, or the end. *)
Definition deeper (k : tok) (depth : nat) : nat :=
  match k with TLpar => S depth | TRpar => Nat.pred depth | _ => depth end.
Definition remark_begins (k : tok) (depth : nat) : bool := match k, depth with TSpace, O => true | _, _ => false end.
Definition is_eolln (t : ttype) : bool := match t with EOLLN => true | _ => false end.
Fixpoint lexemes (fuel depth : nat) (ts : list lx) : option (list tok) :=
  match fuel, ts with
  | S fuel, t :: _ =>
    if is_eolln (lt t) then Some []
    else
      match lexeme ts with
      | None => None
      | Some (k, r) =>
        if remark_begins k depth then Some [k]
        else match lexemes fuel (deeper k depth) r with Some ks => Some (k :: ks) | None => None end
      end
  | _, _ => None
  end.

(** parse_operands, op_rem_body_ca: the field begins with the blanks behind the instruction. *)
Definition ca_field (wide : char -> bool) (text : list char) (col : nat) (defines : bool) : option (list operand) :=
  match tokens (2 * List.length text + 3) wide false text (field_lexer text col) with
  | None => None
  | Some [] => None
  | Some (t :: ts) =>
    match lt t with
    | SPACE => match lexemes (S (List.length ts)) 0 ts with Some ks => Some (ca_line defines ks) | None => None end
    | _ => Some []
    end
  end.

(** ** Expressions *)
Import Exp_Model.
Definition item_of (i : nat) (e : cexpr) : option Grp_Model.item :=
  match e with
  | XSym n => Some (Grp_Model.Sym n)
  | XCall _ _ _ => None
  | _ => Some (Grp_Model.Term (N.of_nat i))
  end.
Fixpoint items_of (i : nat) (l : list cexpr) : option (list Grp_Model.item) :=
  match l with
  | [] => Some []
  | e :: r => match item_of i e, items_of (S i) r with Some x, Some xs => Some (x :: xs) | _, _ => None end
  end.
(** The tree of a list, with the items themselves in it. *)
Fixpoint planted (k : Grp_Model.kind) (l : list expr) (t : Grp_Model.tree) : option expr :=
  match t with
  | Grp_Model.Leaf (Grp_Model.Sym n) => Some (OrdSym n)
  | Grp_Model.Leaf (Grp_Model.Term i) => nth_error l (N.to_nat i)
  | Grp_Model.Leaf _ => None
  | Grp_Model.Un o t => match planted k l t with Some x => Some (Un o k x) | None => None end
  | Grp_Model.Bin o a b =>
    match planted k l a, planted k l b with Some x, Some y => Some (Bin o k x y) | _, _ => None end
  end.
Definition grouped (k : Grp_Model.kind) (its : list Grp_Model.item) (l : list expr) : option expr :=
  match Grp_Model.resolve_expression_tree k its with
  | Some (inl t) => planted k l t
  | _ => None
  end.

Definition all {A} (l : list (option A)) : option (list A) :=
  fold_right (fun o r => match o, r with Some x, Some xs => Some (x :: xs) | _, _ => None end) (Some []) l.

Fixpoint term_of (e : cexpr) : option expr :=
  match e with
  | XConst v => Some (Const v)
  | XSym n => Some (OrdSym n)
  | XVar v subs => match all (map term_of subs) with Some l => Some (VarSym (Some v) [] l) | None => None end
  | XUn UPlus x => match term_of x with Some t => Some (Plus t) | None => None end
  | XUn UMinus x => match term_of x with Some t => Some (Minus t) | None => None end
  | XBin o a b =>
    match term_of a, term_of b with
    | Some x, Some y => Some (Bas (match o with OAdd => ADD | OSub => SUB | OMul => MUL | ODiv => DIV end) x y)
    | _, _ => None
    end
  | XList l =>
    match items_of 0 l, all (map term_of l) with
    | Some its, Some xs => Some (Lst (grouped Grp_Model.KA its xs) (grouped Grp_Model.KB its xs) (grouped Grp_Model.KC its xs))
    | _, _ => None
    end
  | XAttr _ _ | XStr _ _ _ | XConc _ _ | XCall _ _ _ => None
  end.

(** ** The operands of SETA, SETB and SETC: what the parser reports and what evaluation gives *)
Inductive answer :=
| Omitted
| Rejected                                                     (* E012: no expression *)
| Answer (parsing : list xdiag) (evaluation : M SET_t).

Definition answer_of (w : world) (k : Grp_Model.kind) (o : operand) : option answer :=
  match o with
  | Empty => Some Omitted
  | Value e => match term_of e with Some x => Some (Answer (resolve k x) (evaluate_as w k x)) | None => None end
  | Branch _ _ | Seq _ | Def _ _ => Some Rejected
  end.
Definition set_operands (wide : char -> bool) (w : world) (k : Grp_Model.kind) (text : list char) (col : nat)
  : option (list answer) :=
  match ca_field wide text col false with
  | Some l => all (map (answer_of w k) l)
  | None => None
  end.
