(** * Fld_Model: from the characters of an operand field to operands

    Joins the lexer of [Lex_Model] with the operands of [Gram_Model]:
      parser_library/src/parsing/parser_impl.cpp lines 114-196
        (parse_operand_field), 214-258 (is_data_attr, parse_self_def_term,
        get_attribute), 260-267 (parse_identifier),
      parser_library/src/lexing/lexer.cpp lines 100-116 (set_unlimited_line,
        set_file_offset, reset),
      parser_library/src/parsing/grammar/hlasmparser.g4 lines 186-223 (num,
        self_def_term, id_ch_c, id, id_no_dot),
      parser_library/src/parsing/grammar/machine_expr_rules.g4 lines 104-141
        (mach_data_attribute, string_ch, string),
      parser_library/src/parsing/grammar/label_field_rules.g4 lines 123-145,
        254-256 (common_ch, l_ch, l_sp_ch),
      parser_library/src/context/id_storage.cpp lines 49-56 (add),
      parser_library/src/expressions/conditional_assembly/terms/ca_constant.cpp
        lines 46-70 (self_defining_term).

    Simplifications.
    - The choices of the generated parser are made by looking at the next token;
      what follows a syntax error is not modelled ([None]).
    - Literals, and the attributes of literals and of the location counter, are
      not modelled ([None]).
    - Positions are indices into the field; the ranges of the source are counted
      from them (range_provider, [Rng_Model]).
    - reset leaves creating_var_symbol_ and creating_attr_ref_ as they are; the
      token EOLLN, which every rule run on a field reads, clears both. *)
From Coq Require Import String Ascii List NArith ZArith Bool Arith.
From Verif Require Import Common Lex_Model.
From Verif Require Ca_Model Gram_Model Ard_Model.
Import ListNotations.
Open Scope list_scope.

(** ** The tokens of a field *)
(** lexer.cpp:101-116 *)
Definition field_lexer (text : list char) (col : nat) : lexer :=
  {| file := {| data := text; index := 0; line := 0; column := col; column16 := col |};
     buffer := input_of []; from_buffer := false; pending := []; begun := input_of []; begun_buffer := false;
     queue := []; next_id := 0; eof_generated := false; long := false; var_symbol := false; attr_ref := false;
     last_line_pos := 0; apostrophes := 0; highlights := [] |}.

(** A token as the grammar sees it: its type, getText and its place. *)
Record lx := Lx { lt : ttype; ltx : list char; l_lo : nat; l_hi : nat }.
Definition seen (text : list char) (t : token) : lx :=
  Lx (ty t) (firstn (stop t - start t) (skipn (start t) text)) (start t) (stop t).
Definition is_eof (t : ttype) : bool := match t with EOF => true | _ => false end.

(** The stream up to EOF; tokens of the hidden channel are passed over. *)
Fixpoint tokens (fuel : nat) (wide : char -> bool) (unlimited : bool) (text : list char) (s : lexer) : option (list lx) :=
  match fuel with
  | O => None
  | S fuel =>
    match next_token wide unlimited 1 s with
    | None => None
    | Some (t, s') =>
      if is_eof (ty t) then Some []
      else match tokens fuel wide unlimited text s' with
           | None => None
           | Some l => Some (if hidden t then l else seen text t :: l)
           end
    end
  end.

(** ** Lexemes made of several tokens *)
Definition name_of (l : list char) : string := fold_right (fun c s => String (ascii_of_N c) s) EmptyString l.
Definition utf8 (l : list char) : bytes := flat_map Ard_Model.encode l.

Definition is_word (t : ttype) : bool := match t with ORDSYMBOL | IDENTIFIER | NUM => true | _ => false end.
Definition is_quote (t : ttype) : bool := match t with APOSTROPHE | ATTR => true | _ => false end.

(** hlasmparser.g4:201-208: id_ch_c, what continues a symbol *)
Fixpoint more (p : ttype -> bool) (hi : nat) (ts : list lx) : list char * nat * list lx :=
  match ts with
  | t :: r => if p (lt t) then let '(x, h, r') := more p (l_hi t) r in (ltx t ++ x, h, r') else ([], hi, ts)
  | [] => ([], hi, [])
  end.
(** 215-223; id_storage.cpp:49-56 *)
Definition id_no_dot (ts : list lx) : option (string * nat * list lx) :=
  match ts with
  | t :: r =>
    match lt t with
    | ORDSYMBOL => let '(x, h, r') := more is_word (l_hi t) r in Some (name_of (map upper (ltx t ++ x)), h, r')
    | _ => None
    end
  | [] => None
  end.
(** 211-213: the qualifier is not kept by the expression *)
Definition id (ts : list lx) : option (string * nat * list lx) :=
  match id_no_dot ts with
  | Some (n, h, d :: r) => match lt d with DOT => id_no_dot r | _ => Some (n, h, d :: r) end
  | o => o
  end.

(** machine_expr_rules.g4:121-141, behind the opening apostrophe *)
Fixpoint string_rest (ts : list lx) : option (list char * nat * list lx) :=
  match ts with
  | [] => None
  | t :: r =>
    let go x r' := match string_rest r' with Some (y, h, q) => Some (x ++ y, h, q) | None => None end in
    match lt t with
    | APOSTROPHE | ATTR =>
      match r with
      | q :: r' => if is_quote (lt q) then go [39%N] r' else Some ([], l_hi t, r)
      | [] => Some ([], l_hi t, r)
      end
    | AMPERSAND =>
      match r with
      | q :: r' => match lt q with AMPERSAND => go [38%N] r' | _ => None end
      | [] => None
      end
    | ASTERISK | MINUS | PLUS | LT | GT | SLASH | EQUALS | VERTICAL | IDENTIFIER | NUM | ORDSYMBOL | DOT
    | COMMA | LPAR | RPAR | SPACE => go (ltx t) r
    | _ => None
    end
  end.

(** parser_impl.cpp:236-245, ca_constant.cpp:46-70: an error leaves the value 0 *)
Definition self_def (type value : list char) : option Z :=
  match type with
  | [t] => match Ca_Model.self_defining t (utf8 value) with
           | Ca_Model.Ok v => Some v
           | Ca_Model.Fail _ => Some 0%Z
           | _ => None
           end
  | _ => Some 0%Z
  end.

(** parser_impl.cpp:221-226 *)
Definition is_data_attr (text : list char) : bool :=
  match map upper text with
  | [x] => existsb (N.eqb x) [68; 79; 78; 83; 75; 73; 76; 84]%N
  | _ => false
  end.

Import Gram_Model.
Definition lexeme (ts : list lx) : option (tok * list lx) :=
  match ts with
  | [] => None
  | t :: r =>
    let one k := Some (Tok k (l_lo t) (l_hi t), r) in
    match lt t with
    | PLUS => one KPlus
    | MINUS => one KMinus
    | ASTERISK => one KStar
    | SLASH => one KSlash
    | LPAR => one KLpar
    | RPAR => one KRpar
    | COMMA => one KComma
    | SPACE => one KSpace
    | IDENTIFIER => one (KWord (name_of (ltx t)))
    | NUM =>
      let '(x, h, r') := more (fun k => match k with NUM => true | _ => false end) (l_hi t) r in
      match self_def [68%N] (ltx t ++ x) with
      | Some v => Some (Tok (KNum (name_of (ltx t ++ x)) v) (l_lo t) h, r')
      | None => None
      end
    | ORDSYMBOL =>
      let symbol := match id ts with Some (n, h, r') => Some (Tok (KId n) (l_lo t) h, r') | None => None end in
      match r with
      | q :: r1 =>
        match lt q with
        | ATTR =>
          if is_data_attr (ltx t) then
            match id r1 with
            | Some (n, h, r') => Some (Tok (KAttr (name_of (map upper (ltx t))) n) (l_lo t) h, r')
            | None => None
            end
          else None
        | APOSTROPHE =>
          match string_rest r1 with
          | Some (x, h, r') =>
            match self_def (ltx t) x with Some v => Some (Tok (KSelf v) (l_lo t) h, r') | None => None end
          | None => None
          end
        | _ => symbol
        end
      | [] => symbol
      end
    | APOSTROPHE =>
      match string_rest r with
      | Some (x, h, r') => Some (Tok (KStr (name_of x)) (l_lo t) h, r')
      | None => None
      end
    | _ => None
    end
  end.

(** The lexemes up to the space before the remark or the end (EOLLN), and the
    place of the end. *)
Fixpoint lexemes (fuel : nat) (ts : list lx) : option (list tok * nat) :=
  match fuel, ts with
  | S fuel, t :: _ =>
    match lt t with
    | EOLLN => Some ([], l_lo t)
    | _ =>
      match lexeme ts with
      | None => None
      | Some (k, r) =>
        if is_space k then Some ([k], lo k)
        else match lexemes fuel r with Some (ks, e) => Some (k :: ks, e) | None => None end
      end
    end
  | _, _ => None
  end.

(** parser_impl.cpp:176-183: a single empty operand is none *)
Definition cleared (l : list mop) : list mop := match l with [OpEmpty _] => [] | _ => l end.

(** parse_operand_field for machine instructions; operand_field_rules.g4:309-325 *)
Definition mach_field (wide : char -> bool) (unlimited : bool) (text : list char) (col : nat) : option (list mop) :=
  match tokens (2 * List.length text + 3) wide unlimited text (field_lexer text col) with
  | None => None
  | Some ts =>
    match lexemes (S (List.length ts)) ts with
    | None => None
    | Some (ks, e) => match mach_ops e ks with Some l => Some (cleared l) | None => None end
    end
  end.
