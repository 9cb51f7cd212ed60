(** * Ddg_Model: the grammar of the operands of DC and DS

    Models
      parser_library/src/parsing/grammar/data_def_rules.g4 lines 18-150 (dat_op,
        mach_expr_pars, dupl_factor_expr_o, prog_type_and_modifier_p,
        nominal_value, nominal_value_o, data_def_address,
        mach_expr_or_address_comma_c, data_def, data_def_ch, data_def_id,
        data_def_string),
      parser_library/src/parsing/grammar/machine_expr_rules.g4 lines 121-134
        (string_ch, string_ch_c),
      parser_library/src/parsing/grammar/operand_field_rules.g4 (op_list_dat,
        operand_dat).

    What data_def hands to data_definition::create is read on by
    [DDP_Model.parse]; the expressions are those of [Gram_Model].

    Simplifications, beside those of [Gram_Model].
    - The dot of a bit length (DOT) is a word of its own, [KWord "."].
    - A string is one token, [KStr] with the text between its outer
      apostrophes.
    - The place where the definition starts is outside the model. *)
From Coq Require Import String List ZArith Bool Ascii.
From Verif Require Import DD_Model DDP_Model Gram_Model.
Import ListNotations.
Open Scope list_scope.

(** ** Words: data_def_ch and data_def_id, lines 131-142 *)
Definition word_of (k : kind) : option string :=
  match k with
  | KId n => Some n
  | KWord w => Some w
  | KNum s _ => Some s
  | KMinus => Some "-"%string
  | _ => None
  end.

(** All words that follow each other, put together. *)
Fixpoint words (ts : list tok) : list ascii * list tok :=
  match ts with
  | t :: ts' =>
    match word_of (tk t) with
    | Some w => let (f, rest) := words ts' in (list_ascii_of_string w ++ f, rest)
    | None => ([], ts)
    end
  | [] => ([], [])
  end.

Definition is_word (ts : list tok) : bool :=
  match ts with
  | t :: _ => match word_of (tk t) with Some _ => true | None => false end
  | [] => false
  end.

(** ** Expressions in parentheses, lines 21-25 *)
Definition parens (ts : list tok) : option (mexpr * list tok) :=
  match ts with
  | p :: ts' =>
    if is_lpar p then
      match expr ts' with
      | Some (e, _, _, q :: rest) => if is_rpar q then Some (e, rest) else None
      | _ => None
      end
    else None
  | [] => None
  end.

(** ** Strings: string_ch and string_ch_c *)
Fixpoint chars (s : list ascii) : option (list ascii) :=
  match s with
  | [] => Some []
  | c :: s' =>
    if (Ascii.eqb c "'" || Ascii.eqb c "&")%char then
      match s' with
      | c2 :: s'' =>
        if Ascii.eqb c c2 then
          match chars s'' with Some v => Some (c :: v) | None => None end
        else None
      | [] => None
      end
    else
      match chars s' with Some v => Some (c :: v) | None => None end
  end.

(** ** Nominal values, lines 58-100 *)

(** data_def_address is tried when a parenthesis follows the expression. *)
Definition item (ts : list tok) : option (pitem mexpr * list tok) :=
  match expr ts with
  | Some (d, _, _, p :: rest) =>
    if is_lpar p then
      match expr rest with
      | Some (b, _, _, q :: rest') => if is_rpar q then Some (PAddress b d, rest') else None
      | _ => None
      end
    else Some (PExpr d, p :: rest)
  | Some (d, _, _, []) => Some (PExpr d, [])
  | None => None
  end.

Fixpoint items (n : nat) (ts : list tok) : option (list (pitem mexpr) * list tok) :=
  match n with
  | O => None
  | S n =>
    match item ts with
    | Some (i, t :: rest) =>
      if is_comma t then
        match items n rest with Some (l, rest') => Some (i :: l, rest') | None => None end
      else Some ([i], t :: rest)
    | Some (i, []) => Some ([i], [])
    | None => None
    end
  end.

Definition nominal (ts : list tok) : option (pnominal mexpr * list tok) :=
  match ts with
  | t :: ts' =>
    match tk t with
    | KStr s =>
      match chars (list_ascii_of_string s) with Some v => Some (PStr v, ts') | None => None end
    | KLpar =>
      match items (S (List.length ts')) ts' with
      | Some (l, q :: rest) => if is_rpar q then Some (PExprs l, rest) else None
      | _ => None
      end
    | _ => None
    end
  | [] => None
  end.

Definition is_nominal (ts : list tok) : bool :=
  match ts with
  | t :: _ => match tk t with KStr _ | KLpar => true | _ => false end
  | [] => false
  end.

(** ** Definitions *)

(** What is handed over: the format with & for every expression and a space for
    the nominal value, the expressions, the nominal value. *)
Definition handed : Type := (list ascii * list mexpr * option (pnominal mexpr))%type.

Definition nominal_last (ts : list tok) : option (handed * list tok) :=
  match nominal ts with
  | Some (n, rest) => Some (([" "%char], [], Some n), rest)
  | None => None
  end.

(** prog_type_and_modifier_p with room for [k] pairs (lines 35-56) and
    nominal_value_o (lines 68-78). *)
Fixpoint modifiers (k : nat) (ts : list tok) : option (handed * list tok) :=
  if is_nominal ts then
    match parens ts with
    | Some (e, rest) =>
      if is_word rest then
        match k with
        | O => None
        | S k =>
          let (i, rest') := words rest in
          match modifiers k rest' with
          | Some (f, es, n, rest'') => Some (("&"%char :: i ++ f, e :: es, n), rest'')
          | None => None
          end
        end
      else if is_nominal rest then
        match nominal rest with
        | Some (n, rest') => Some ((["&"; " "]%char, [e], Some n), rest')
        | None => None
        end
      else nominal_last ts
    | None => nominal_last ts
    end
  else Some (([], [], None), ts).

(** The mandatory word, and what follows it. *)
Definition typed (ts : list tok) : option (handed * list tok) :=
  if is_word ts then
    let (i, rest) := words ts in
    match modifiers 3 rest with
    | Some (f, es, n, rest') => Some ((i ++ f, es, n), rest')
    | None => None
    end
  else None.

(** data_def, lines 103-129 *)
Definition data_def (ts : list tok) : option (handed * list tok) :=
  match ts with
  | p :: _ =>
    if is_lpar p then
      match parens ts with
      | Some (e, rest) =>
        match typed rest with
        | Some (f, es, n, rest') => Some (("&"%char :: f, e :: es, n), rest')
        | None => None
        end
      | None => None
      end
    else typed ts
  | [] => None
  end.

(** ** Operand fields: op_list_dat *)

(** An operand, or an omitted one and its place. *)
Inductive dop : Type :=
| DEmpty (at_ : pos)
| DDef (h : handed).

Definition dat_op (ts : list tok) : option (dop * list tok) :=
  match data_def ts with Some (h, rest) => Some (DDef h, rest) | None => None end.

Definition dat_ops (eof : pos) (ts : list tok) : option (list dop) :=
  op_list dop dat_op DEmpty (S (List.length ts)) eof ts.

(** data_definition::create *)
Definition create (h : handed) : res (definition mexpr * list pdiag) :=
  let '(f, es, n) := h in DDP_Model.parse f es n.

(** The definitions of a field; [None] for an omitted operand. *)
Definition read (o : dop) : option (res (definition mexpr * list pdiag)) :=
  match o with DEmpty _ => None | DDef h => Some (create h) end.
