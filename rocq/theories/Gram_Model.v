(** * Gram_Model: the grammar of machine and assembler operands

    Models the grammar rules that turn the tokens of an operand field into
    expression trees and operands:
      parser_library/src/parsing/grammar/machine_expr_rules.g4 lines 18-98
        (mach_expr, mach_expr_s, mach_term_c, mach_term),
      parser_library/src/parsing/grammar/machine_operand_rules.g4 lines 19-39
        (mach_op),
      parser_library/src/parsing/grammar/assembler_operand_rules.g4 lines
        18-110 (asm_op, asm_op_inner, asm_op_comma_c, end_instr_word),
      parser_library/src/parsing/grammar/operand_field_rules.g4 (op_list_mach,
        operand_mach, op_list_asm, operand_asm),
      parser_library/src/semantics/range_provider.cpp lines 37-56 (get_range).

    Simplifications.
    - The parser generated by ANTLR is outside the model.  What is modelled
      are the rules and the actions attached to them, run by recursive descent
      with the choices made by looking at the next token.  [Gram_Props] shows
      that no sequence of tokens has two readings, so any other way of making
      the choices finds the same trees.
    - What follows a syntax error (the recovery of ANTLR, the operands it
      leaves behind) is outside the model: [None] is the error.
    - A lexeme that the grammar builds from several lexer tokens (a symbol, a
      qualified symbol, a number, a self-defining term, an attribute reference
      T'symbol, a literal, a string) is one token here; its value is given.
      [Lex_Model] has the lexer itself.
    - Positions are numbers in a one-line source; the positions of continued
      lines are in [Rng_Model].
    - Operands that contain variable symbols are read by other rules (model_op)
      and are outside the model. *)
From Coq Require Import String List ZArith Bool Lia.
Import ListNotations.
Open Scope list_scope.

(** ** Tokens *)

(** A lexeme and its kind; [KId] is a symbol (ORDSYMBOL), [KWord] a word that
    is not one (IDENTIFIER), [KNum] a number with its text and its value, [KSelf]
    a self-defining term, [KAttr] an attribute reference, [KLit] a literal,
    [KStr] a string in apostrophes, [KSpace] the space that ends the operands. *)
Inductive kind : Type :=
| KPlus | KMinus | KStar | KSlash | KLpar | KRpar | KComma | KSpace
| KId (name : string)
| KWord (text : string)
| KNum (text : string) (value : Z)
| KSelf (value : Z)
| KAttr (attribute : string) (symbol : string)
| KLit
| KStr (text : string).

Definition pos : Type := nat.
Definition span : Type := (pos * pos)%type.

Record tok : Type := Tok { tk : kind; lo : pos; hi : pos }.

(** range_provider.cpp lines 37-56: from the start of one token to the end of
    another *)
Definition get_range (start stop : tok) : span := (lo start, hi stop).

(** ** Trees *)

(** The terms without operators: mach_expr_symbol, mach_expr_constant,
    mach_expr_data_attr. *)
Inductive atom : Type :=
| ASymbol (name : string)
| AConstant (value : Z)
| AAttribute (attribute symbol : string).

Inductive bop : Type := OAdd | OSub | OMul | ODiv.
Inductive uop : Type := UPlus | UMinus | UPar.

Inductive mexpr : Type :=
| MAtom (a : atom) (r : span)
| MLocation (r : span)
| MUnary (o : uop) (e : mexpr) (r : span)
| MBinary (o : bop) (l r : mexpr) (rg : span).

(** ** Expressions: machine_expr_rules.g4 *)

(** What is being read.  [CSumRest] and [CProdRest] are the loops of lines
    18-32 and 34-48: the tree built so far, the first and the last token read by
    the rule, and whether $plus.ctx ($slash.ctx) is set. *)
Inductive cat : Type :=
| CSum
| CSumRest (e : mexpr) (first last : tok) (plus_set : bool)
| CProd
| CProdRest (e : mexpr) (first last : tok) (slash_set : bool)
| CUnary
| CTerm.

(** What a rule returns: the tree, the first and the last token it read, and
    the tokens left. *)
Definition out : Type := (mexpr * tok * tok * list tok)%type.

(** The terms made of one lexeme, lines 81-98; a literal counts as the constant
    0. *)
Definition atom_of (k : kind) : option atom :=
  match k with
  | KId n => Some (ASymbol n)
  | KNum _ v => Some (AConstant v)
  | KSelf v => Some (AConstant v)
  | KAttr a s => Some (AAttribute a s)
  | KLit => Some (AConstant 0)
  | _ => None
  end.

Fixpoint parse (n : nat) (c : cat) (ts : list tok) {struct n} : option out :=
  match n with
  | O => None
  | S n =>
    match c with
    | CSum =>
      match parse n CProd ts with
      | Some (e, a, z, rest) => parse n (CSumRest e a z false) rest
      | None => None
      end
    | CSumRest e a z set =>
      match ts with
      | t :: ts' =>
        match tk t with
        | KPlus =>
          match parse n CProd ts' with
          | Some (e2, _, z2, rest) =>
              parse n (CSumRest (MBinary OAdd e e2 (get_range a z2)) a z2 false) rest
          | None => None
          end
        | KMinus =>
          match parse n CProd ts' with
          | Some (e2, _, z2, rest) =>
              parse n
                (CSumRest (MBinary (if set then OAdd else OSub) e e2 (get_range a z2)) a z2 false)
                rest
          | None => None
          end
        | _ => Some (e, a, z, ts)
        end
      | [] => Some (e, a, z, ts)
      end
    | CProd =>
      match parse n CUnary ts with
      | Some (e, a, z, rest) => parse n (CProdRest e a z false) rest
      | None => None
      end
    | CProdRest e a z set =>
      match ts with
      | t :: ts' =>
        match tk t with
        | KSlash =>
          match parse n CUnary ts' with
          | Some (e2, _, z2, rest) =>
              parse n (CProdRest (MBinary ODiv e e2 (get_range a z2)) a z2 false) rest
          | None => None
          end
        | KStar =>
          match parse n CUnary ts' with
          | Some (e2, _, z2, rest) =>
              parse n
                (CProdRest (MBinary (if set then ODiv else OMul) e e2 (get_range a z2)) a z2 false)
                rest
          | None => None
          end
        | _ => Some (e, a, z, ts)
        end
      | [] => Some (e, a, z, ts)
      end
    | CUnary =>
      match ts with
      | t :: ts' =>
        match tk t with
        | KPlus =>
          match parse n CUnary ts' with
          | Some (e, _, z, rest) => Some (MUnary UPlus e (get_range t z), t, z, rest)
          | None => None
          end
        | KMinus =>
          match parse n CUnary ts' with
          | Some (e, _, z, rest) => Some (MUnary UMinus e (get_range t z), t, z, rest)
          | None => None
          end
        | _ => parse n CTerm ts
        end
      | [] => None
      end
    | CTerm =>
      match ts with
      | t :: ts' =>
        match tk t with
        | KLpar =>
          match parse n CSum ts' with
          | Some (e, _, _, z :: rest) =>
            match tk z with
            | KRpar => Some (MUnary UPar e (get_range t z), t, z, rest)
            | _ => None
            end
          | _ => None
          end
        | KStar => Some (MLocation (get_range t t), t, t, ts')
        | k =>
          match atom_of k with
          | Some a => Some (MAtom a (get_range t t), t, t, ts')
          | None => None
          end
        end
      | [] => None
      end
    end
  end.

(** Enough steps for every text of this length, see [Gram_Proof.parse_stable]. *)
Definition enough (ts : list tok) : nat := 6 * List.length ts + 6.

(** A mach_expr at the start of the tokens. *)
Definition expr (ts : list tok) : option out := parse (enough ts) CSum ts.

(** ** Machine operands: machine_operand_rules.g4 lines 19-39 *)

Inductive astate : Type := ONE_OP | PRESENT | FIRST_OMITTED | SECOND_OMITTED.

Inductive mop : Type :=
| OpEmpty (at_ : pos)
| OpExpr (e : mexpr) (r : span)
| OpAddress (disp : mexpr) (index base : option mexpr) (st : astate) (r : span).

Definition is_rpar (t : tok) : bool := match tk t with KRpar => true | _ => false end.
Definition is_lpar (t : tok) : bool := match tk t with KLpar => true | _ => false end.
Definition is_comma (t : tok) : bool := match tk t with KComma => true | _ => false end.
Definition is_space (t : tok) : bool := match tk t with KSpace => true | _ => false end.

Definition mach_op (ts : list tok) : option (mop * list tok) :=
  match expr ts with
  | None => None
  | Some (d, a, z, rest) =>
    match rest with
    | p :: rest1 =>
      if is_lpar p then
        match rest1 with
        | c :: rest2 =>
          if is_comma c then
            match expr rest2 with
            | Some (b, _, _, q :: rest3) =>
              if is_rpar q then
                Some (OpAddress d None (Some b) FIRST_OMITTED (get_range a q), rest3)
              else None
            | _ => None
            end
          else
            match expr rest1 with
            | Some (x, _, _, q :: rest3) =>
              if is_rpar q then
                Some (OpAddress d None (Some x) ONE_OP (get_range a q), rest3)
              else if is_comma q then
                match rest3 with
                | q2 :: rest4 =>
                  if is_rpar q2 then
                    Some (OpAddress d (Some x) None SECOND_OMITTED (get_range a q2), rest4)
                  else
                    match expr rest3 with
                    | Some (b, _, _, q3 :: rest5) =>
                      if is_rpar q3 then
                        Some (OpAddress d (Some x) (Some b) PRESENT (get_range a q3), rest5)
                      else None
                    | _ => None
                    end
                | [] => None
                end
              else None
            | _ => None
            end
        | [] => None
        end
      else Some (OpExpr d (get_range a z), rest)
    | [] => Some (OpExpr d (get_range a z), rest)
    end
  end.

(** ** Operand lists: operand_field_rules.g4, op_list_mach and op_list_asm

    The operands are followed by the end of the field or by a space and
    remarks.  [eof] is the position of the end of the field, where an operand
    omitted at the end of the list is placed (get_empty_range of the token that
    follows it). *)
Section Lists.
  Variable A : Type.
  Variable one : list tok -> option (A * list tok).
  Variable none : pos -> A.

  (** An operand, or nothing if a comma, a space or the end follows. *)
  Definition one_o (eof : pos) (ts : list tok) : option (A * list tok) :=
    match ts with
    | [] => Some (none eof, ts)
    | t :: _ => if is_comma t || is_space t then Some (none (lo t), ts) else one ts
    end.

  Fixpoint op_list (n : nat) (eof : pos) (ts : list tok) : option (list A) :=
    match n with
    | O => None
    | S n =>
      match one_o eof ts with
      | None => None
      | Some (a, rest) =>
        match rest with
        | [] => Some [a]
        | t :: rest' =>
          if is_comma t then
            match op_list n eof rest' with Some l => Some (a :: l) | None => None end
          else if is_space t then Some [a]
          else None
        end
      end
    end.
End Lists.

Definition mach_ops (eof : pos) (ts : list tok) : option (list mop) :=
  op_list mop mach_op OpEmpty (S (List.length ts)) eof ts.

(** ** Assembler operands: assembler_operand_rules.g4 *)

(** complex_assembler_operand::component_value_t: string_value_t, int_value_t,
    composite_value_t *)
Inductive comp : Type :=
| CStr (s : string) (r : span)
| CInt (v : Z) (r : span)
| CComposite (name : string) (l : list comp) (r : span).

Inductive aop : Type :=
| AsEmpty (at_ : pos)
| AsComplex (name : string) (l : list comp) (r : span)
| AsUsing (base end_ : mexpr) (r : span)
| AsExpr (e : mexpr) (r : span)
| AsString (s : string) (r : span).

(** Lines 61-90 (asm_op_inner) and 92-94 (asm_op_comma_c).  [inner] reads one
    component, [inners] a list of them up to the closing parenthesis, which is
    left in the tokens.  An omitted component has the range of the token that
    follows it: get_range of a rule that read nothing starts at that token and
    has no last token, so it is empty. *)
Inductive icat : Type := IOne | IMany.

Fixpoint inner (n : nat) (c : icat) (ts : list tok) {struct n}
  : option (list comp * list tok) :=
  match n with
  | O => None
  | S n =>
    match c with
    | IOne =>
      match ts with
      | t :: ts' =>
        match tk t with
        | KStr s => Some ([CStr s (get_range t t)], ts')
        | KNum _ v => Some ([CInt v (get_range t t)], ts')
        | KId x =>
          match ts' with
          | p :: ts2 =>
            if is_lpar p then
              match inner n IMany ts2 with
              | Some (l, q :: rest) =>
                if is_rpar q then Some ([CComposite x l (get_range t q)], rest) else None
              | _ => None
              end
            else Some ([CStr x (get_range t t)], ts')
          | [] => Some ([CStr x (get_range t t)], ts')
          end
        | KComma => Some ([CStr "" (lo t, lo t)], ts)
        | KRpar => Some ([CStr "" (lo t, lo t)], ts)
        | _ => None
        end
      | [] => None
      end
    | IMany =>
      match inner n IOne ts with
      | Some (l, rest) =>
        match rest with
        | t :: rest' =>
          if is_comma t then
            match inner n IMany rest' with
            | Some (l2, rest2) => Some (l ++ l2, rest2)
            | None => None
            end
          else Some (l, rest)
        | [] => Some (l, rest)
        end
      | None => None
      end
    end
  end.

Definition enough_inner (ts : list tok) : nat := 2 * List.length ts + 2.

(** Lines 96-106: a word of the END operand *)
Definition word (t : tok) : option comp :=
  match tk t with
  | KId s => Some (CStr s (get_range t t))
  | KWord s => Some (CStr s (get_range t t))
  | KNum s _ => Some (CStr s (get_range t t))
  | _ => None
  end.

(** Lines 27-43: (word,word,word) *)
Definition triplet (ts : list tok) : option (aop * list tok) :=
  match ts with
  | p :: a :: c1 :: b :: c2 :: c :: q :: rest =>
    if is_lpar p && is_comma c1 && is_comma c2 && is_rpar q then
      match word a, word b, word c with
      | Some wa, Some wb, Some wc =>
          Some (AsComplex "" [wa; wb; wc] (get_range p q), rest)
      | _, _, _ => None
      end
    else None
  | _ => None
  end.

(** Lines 44-51: (base,end) *)
Definition using_op (ts : list tok) : option (aop * list tok) :=
  match ts with
  | p :: ts1 =>
    if is_lpar p then
      match expr ts1 with
      | Some (b, _, _, c :: ts2) =>
        if is_comma c then
          match expr ts2 with
          | Some (e, _, _, q :: rest) =>
            if is_rpar q then Some (AsUsing b e (get_range p q), rest) else None
          | _ => None
          end
        else None
      | _ => None
      end
    else None
  | [] => None
  end.

(** Lines 52-57: an expression *)
Definition expr_op (ts : list tok) : option (aop * list tok) :=
  match expr ts with
  | Some (e, a, z, rest) => Some (AsExpr e (get_range a z), rest)
  | None => None
  end.

(** Lines 18-61 (asm_op) *)
Definition asm_op (ts : list tok) : option (aop * list tok) :=
  match ts with
  | t :: ts' =>
    match tk t with
    | KStr s => Some (AsString s (get_range t t), ts')
    | KLpar =>
      match triplet ts with
      | Some r => Some r
      | None => match using_op ts with Some r => Some r | None => expr_op ts end
      end
    | KId x =>
      match ts' with
      | p :: ts2 =>
        if is_lpar p then
          match inner (enough_inner ts2) IMany ts2 with
          | Some (l, q :: rest) =>
            if is_rpar q then Some (AsComplex x l (get_range t q), rest) else None
          | _ => None
          end
        else expr_op ts
      | [] => expr_op ts
      end
    | _ => expr_op ts
    end
  | [] => None
  end.

Definition asm_ops (eof : pos) (ts : list tok) : option (list aop) :=
  op_list aop asm_op AsEmpty (S (List.length ts)) eof ts.
