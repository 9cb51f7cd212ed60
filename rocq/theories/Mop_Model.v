(** * Mop_Model: the operands of a macro call, from the source to chains

    Modelled:
      parser_library/src/parsing/grammar/operand_field_rules.g4, the rules
        op_rem_body_alt_mac, cont_mac, cont_body_mac, alt_op_list_comma_mac,
        alt_op_list_comma_o_mac, alt_operand_mac (the first reading: pieces of
        text, remarks, continuations),
      parser_library/src/parsing/parser_impl.cpp lines 269-296
        (parse_macro_operands: the pieces are joined by commas and read again),
      parser_library/src/parsing/grammar/macro_operand_rules.g4, the rules
        macro_ops, mac_op_o, mac_entry, mac_ch, mac_ch_c, mac_str, mac_str_b,
        mac_sublist, mac_sublist_b, mac_sublist_b_c (the second reading),
      parser_library/src/parsing/grammar/label_field_rules.g4, common_ch_v,
      parser_library/src/semantics/concatenation.cpp lines 89-101
        (clear_concat_chain).

    Simplifications.
    - Recursive descent stands for the parser generated by ANTLR, [None] is a
      field without reading: in the first reading the line has no operands then,
      all of it is a remark (op_rem_body_mac, second alternative), in the second
      there is a syntax error, and error recovery is outside the model.
    - The alternatives [literal] and [ORDSYMBOL EQUALS literal] of mac_entry and
      [literal] of mac_sublist_b_c are left out.  Where the text also has a
      reading by characters, ANTLR takes that one, it is the first alternative;
      a text that has none has been refused by the first reading, which has no
      rule for literals.
    - A variable symbol with its subscripts is one token, and so is a string of
      the first reading; the tokens of the second reading are the ones of the
      first, with the commas between the pieces.
    - Ranges are left out, see [Rng_Model]. *)
From Coq Require Import List NArith ZArith Bool.
From Verif Require Import Common Sub_Model Ca_Model Mac_Model.
Import ListNotations.
Open Scope N_scope.

(** [TText]: a word, a number, an operator or &&; [TApo] and [TAttr]: an
    apostrophe, the second one directly after an attribute letter. *)
Inductive mtok :=
| TText (s : bytes) | TDot | TEqu | TVar (v : varsym) | TLpar | TRpar | TComma
| TApo | TAttr | TSpace (s : bytes).

(** ** The first reading *)

(** [FTok]: a token of an operand, not a comma; [FRemark]: a space and what
    follows it on the lines up to the next continuation that counts; [FCont]: a
    continuation, which counts only after a comma (enable_continuation). *)
Inductive ftok := FTok (t : mtok) | FComma | FRemark | FCont.

(** mac_preproc: the tokens of one operand *)
Fixpoint piece (ts : list ftok) : list mtok * list ftok :=
  match ts with
  | FTok t :: r => let (p, r') := piece r in (t :: p, r')
  | _ => ([], ts)
  end.

Definition remark_o (ts : list ftok) : list ftok :=
  match ts with FRemark :: r => r | _ => ts end.

(** op_rem_body_alt_mac and cont_body_mac *)
Fixpoint fields (n : nat) (ts : list ftok) : option (list (list mtok)) :=
  match n with
  | O => None
  | S n =>
    match piece ts with
    | (p, FComma :: r) =>
      match r with
      | FTok _ :: _ | FComma :: _ =>
          match fields n r with Some l => Some (p :: l) | None => None end
      | _ =>
        match remark_o r with
        | [] => Some [p; []]
        | FCont :: r' =>
          match remark_o r' with
          | [] => Some [p; []]
          | _ => match fields n r' with Some l => Some (p :: l) | None => None end
          end
        | _ => None
        end
      end
    | (t :: p, r) => match remark_o r with [] => Some [t :: p] | _ => None end
    | ([], _) => None
    end
  end.

(** parser_impl.cpp:269-296 *)
Fixpoint joined_tokens (l : list (list mtok)) : list mtok :=
  match l with
  | [] => []
  | [p] => p
  | p :: l => p ++ TComma :: joined_tokens l
  end.

(** ** The second reading *)
Definition apostrophe : point := Str [QUOTE].

(** mac_str_b: up to the closing apostrophe *)
Fixpoint str_body (ts : list mtok) : option (chain * list mtok) :=
  match ts with
  | [] => None
  | (TApo | TAttr) :: r => Some ([], r)
  | t :: r =>
    match str_body r with
    | Some (c, r') =>
      Some ((match t with
             | TText s => Str s | TDot => Dot | TEqu => Equ | TVar v => Var v
             | TLpar => Str [LPAR] | TRpar => Str [RPAR] | TComma => Str [COMMA]
             | TSpace s => Str s | TApo | TAttr => apostrophe
             end) :: c, r')
    | None => None
    end
  end.

Definition before (p : chain) (r : option (chain * list mtok)) : option (chain * list mtok) :=
  match r with Some (c, r') => Some (p ++ c, r') | None => None end.

(** mac_ch_c and mac_sublist_b *)
Fixpoint chars (n : nat) (ts : list mtok) {struct n} : option (chain * list mtok) :=
  match n with
  | O => None
  | S n =>
    match ts with
    | TText s :: r => before [Str s] (chars n r)
    | TDot :: r => before [Dot] (chars n r)
    | TEqu :: r => before [Equ] (chars n r)
    | TVar v :: r => before [Var v] (chars n r)
    | TAttr :: r => before [apostrophe] (chars n r)
    | TApo :: r =>
      match str_body r with
      | Some (c, r') => before (apostrophe :: c ++ [apostrophe]) (chars n r')
      | None => None
      end
    | TLpar :: r =>
      match items n r with
      | Some (l, r') => before [Sub l] (chars n r')
      | None => None
      end
    | _ => Some ([], ts)
    end
  end
with items (n : nat) (ts : list mtok) {struct n} : option (list chain * list mtok) :=
  match n with
  | O => None
  | S n =>
    match chars n ts with
    | Some (c, TComma :: r) =>
      match items n r with Some (l, r') => Some (c :: l, r') | None => None end
    | Some (c, TRpar :: r) => Some ([c], r)
    | _ => None
    end
  end.

(** concatenation.cpp:89-101; chains have no null pointers here *)
Definition clear_concat_chain (c : chain) : chain :=
  filter (fun p => match p with Str [] => false | _ => true end) c.

(** mac_op_o *)
Definition mac_op (c : chain) : operand :=
  match c with [] => Empty | _ => Chain (clear_concat_chain c) end.

(** macro_ops *)
Fixpoint mac_ops (n : nat) (ts : list mtok) : option (list operand) :=
  match n with
  | O => None
  | S n =>
    match chars (S (2 * length ts)) ts with
    | Some (c, []) => Some [mac_op c]
    | Some (c, TComma :: r) =>
      match mac_ops n r with Some l => Some (mac_op c :: l) | None => None end
    | _ => None
    end
  end.

(** Both readings. *)
Definition call_operands (ts : list ftok) : option (list operand) :=
  match fields (S (length ts)) ts with
  | Some l => let ts := joined_tokens l in mac_ops (S (length ts)) ts
  | None => None
  end.
