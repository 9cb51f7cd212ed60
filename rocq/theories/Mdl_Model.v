(** * Mdl_Model: the label, the operation and the operands of statements with variable symbols

    Modelled:
      parser_library/src/parsing/grammar/label_field_rules.g4 (all rules),
      parser_library/src/parsing/grammar/instruction_field_rules.g4 (all rules),
      parser_library/src/parsing/grammar/model_operand_rules.g4 (all rules),
      machine_expr_rules.g4 lines 121-141 and ca_expr_rules.g4 lines 336-344 (strings),
      hlasmparser.g4 lines 143-150 (first_part, first alternative),
      parser_library/src/semantics/collector.cpp lines 46-94 (set_label_field),
      parser_library/src/semantics/concatenation.cpp lines 50-101 (evaluate, clear_concat_chain),
      parser_library/src/processing/instruction_sets/low_language_processor.cpp lines 67-100 (the label),
      macro_processor.cpp lines 182-199 (get_label_args),
      statement_processors/ordinary_processor.cpp lines 258-281 (resolve_instruction),
      context_manager.cpp lines 91-109 (get_symbol_name).

    The rules describe regular languages over tokens.  As in [Cag_Model] the first alternative, in the order of the
    grammar, that leads to the end is taken, and a loop is entered rather than left; a parser gets what is to be done
    with the rest, [k].

    Simplifications.
    - A variable symbol with its subscript is one token, known by its text; what it evaluates to is a parameter.
      Two ampersands are one token.  Tokens for operators, numbers and bars are texts.
    - Ranges and highlighting are left out; error recovery is not modelled: [None] is a syntax error. *)
From Coq Require Import List NArith ZArith Bool Arith.
From Verif Require Import Common.
Import ListNotations.

Inductive tok :=
| TText (s : bytes)      (* * - + < > / | and numbers *)
| TOrd (s : bytes)       (* ORDSYMBOL *)
| TIdent (s : bytes)     (* IDENTIFIER *)
| TEqu | TDot | TAmps | TLpar | TRpar | TComma | TApo | TAttr
| TSpace (s : bytes)
| TVar (v : bytes).

Definition APO : N := 39. Definition DOT : N := 46. Definition BLANK : N := 32.

(** getText *)
Definition text (t : tok) : bytes :=
  match t with
  | TText s | TOrd s | TIdent s | TSpace s | TVar s => s
  | TEqu => [61%N] | TDot => [DOT] | TAmps => [38; 38]%N | TLpar => [40%N] | TRpar => [41%N] | TComma => [44%N]
  | TApo | TAttr => [APO]
  end.

Inductive point := Str (s : bytes) | Var (v : bytes) | Dot | Equ.
Definition chain := list point.

(** concatenation.cpp 50-87; [value]: what variable symbols evaluate to *)
Fixpoint evaluate (value : bytes -> bytes) (was_var : bool) (c : chain) : bytes :=
  match c with
  | [] => []
  | Dot :: r => (if was_var then [] else [DOT]) ++ evaluate value false r
  | Equ :: r => 61%N :: evaluate value false r
  | Str s :: r => s ++ evaluate value false r
  | Var v :: r => value v ++ evaluate value true r
  end.
(** 89-101 *)
Definition clear_concat_chain (c : chain) : chain := filter (fun p => match p with Str [] => false | _ => true end) c.

(** label_field_rules.g4 124-158, 256-262; model_operand_rules.g4 19-40 *)
Definition common_ch (t : tok) : option bytes :=
  match t with
  | TText _ | TOrd _ | TIdent _ | TEqu | TDot | TAmps => Some (text t)
  | _ => None
  end.
Definition l_ch (t : tok) : option bytes :=
  match t with TComma | TLpar | TRpar => Some (text t) | _ => common_ch t end.
Definition common_ch_v (t : tok) : option point :=
  match t with
  | TText s | TOrd s | TIdent s => Some (Str s)
  | TAmps => Some (Str (text t))
  | TEqu => Some Equ
  | TDot => Some Dot
  | TVar v => Some (Var v)
  | _ => None
  end.
Definition l_ch_v (t : tok) : option point :=
  match t with TComma | TLpar | TRpar => Some (Str (text t)) | _ => common_ch_v t end.
Definition l_sp_ch (t : tok) : option bytes := match t with TSpace s => Some s | _ => l_ch t end.
Definition l_sp_ch_v (t : tok) : option point := match t with TSpace s => Some (Str s) | _ => l_ch_v t end.
Definition op_ch (t : tok) : option bytes := match t with TAttr => Some [APO] | _ => l_ch t end.
Definition op_ch_v (t : tok) : option point := match t with TAttr => Some (Str [APO]) | _ => l_ch_v t end.
Definition is_var (t : tok) : option bytes := match t with TVar v => Some v | _ => None end.
Definition is_apo (t : tok) : option unit := match t with TApo | TAttr => Some tt | _ => None end.
Definition is_apostrophe (t : tok) : option unit := match t with TApo => Some tt | _ => None end.
Definition is_ord (t : tok) : option bytes := match t with TOrd s => Some s | _ => None end.
Definition is_ident (t : tok) : option bytes := match t with TIdent s => Some s | _ => None end.
Definition not_space (t : tok) : option bytes := match t with TSpace _ => None | _ => Some (text t) end.

Definition quote (s : bytes) : bytes := APO :: s ++ [APO].

Section Parse.
Variable R : Type.
Definition P (A : Type) := list tok -> (A -> list tok -> option R) -> option R.

Definition orelse (a b : option R) : option R := match a with Some x => Some x | None => b end.
Definition one {A} (f : tok -> option A) : P A := fun ts k =>
  match ts with t :: r => match f t with Some a => k a r | None => None end | [] => None end.
Definition bind {A B} (p : P A) (q : A -> P B) : P B := fun ts k => p ts (fun a r => q a r k).
Definition ret {A} (a : A) : P A := fun ts k => k a ts.
Definition alt {A} (p q : P A) : P A := fun ts k => orelse (p ts k) (q ts k).
Fixpoint star {A} (n : nat) (p : P A) (ts : list tok) (k : list A -> list tok -> option R) : option R :=
  match n with
  | O => k [] ts
  | S n => orelse (p ts (fun a r => star n p r (fun l => k (a :: l)))) (k [] ts)
  end.
Definition many {A} (p : P A) : P (list A) := fun ts k => star (length ts) p ts k.
Notation "x <- p ; q" := (bind p (fun x => q)) (at level 61, p at next level, right associativity).

Definition many1 {A} (p : P A) : P (list A) := a <- p; l <- many p; ret (a :: l).
Definition texts (f : tok -> option bytes) : P bytes := l <- many (one f); ret (concat l).

(** label_field_rules.g4 *)
Definition l_apo : P unit := one is_apo.
Definition l_string_o : P bytes := texts l_ch.
Definition l_string : P bytes := a <- one l_ch; l <- texts l_ch; ret (a ++ l).
Definition l_str_v : P chain := many (one l_ch_v).
Definition l_string_v : P chain :=
  s <- l_string_o; v <- one is_var; c <- l_str_v; ret (clear_concat_chain (Str s :: Var v :: c)).

Definition l_quoted (body : P bytes) : P bytes := _ <- l_apo; s <- body; _ <- l_apo; ret (quote s).
Definition no_space_c1 : P bytes := a <- l_quoted l_string_o; b <- l_string_o; ret (a ++ b).
Definition l_string_no_space_c : P bytes := l <- many1 no_space_c1; ret (concat l).
Definition l_string_no_space_v : P chain :=
  alt (a <- l_quoted l_string_o; c <- l_string_v; ret (Str a :: c))
 (alt (_ <- l_apo; c <- l_string_v; _ <- l_apo; s <- l_string_o; ret (Str [APO] :: c ++ [Str [APO]; Str s]))
      (_ <- l_apo; c <- l_string_v; _ <- l_apo; d <- l_string_v; ret (Str [APO] :: c ++ Str [APO] :: d))).
Definition l_string_no_space_u : P chain :=
  alt l_string_no_space_v (s <- no_space_c1; ret [Str s]).
Definition l_string_v_apo : P chain :=
  s <- alt l_string_no_space_c (ret []); c <- l_string_no_space_v; l <- many l_string_no_space_u; ret (Str s :: c ++ concat l).

Definition l_sp_string : P bytes := texts l_sp_ch.
Definition l_sp_string_v : P chain :=
  s <- l_sp_string; v <- one is_var; c <- many (one l_sp_ch_v); ret (Str s :: Var v :: c).
Definition l_string_poss_space_c : P bytes := l <- many1 (l_quoted l_sp_string); ret (concat l).
Definition l_string_poss_space_u : P chain :=
  alt (s <- l_quoted l_sp_string; ret [Str s])
      (_ <- l_apo; c <- l_sp_string_v; _ <- l_apo; ret (Str [APO] :: c ++ [Str [APO]])).
Definition l_string_v_apo_sp : P chain :=
  s <- alt l_string_poss_space_c (ret []); _ <- l_apo; c <- l_sp_string_v; _ <- l_apo;
  l <- many l_string_poss_space_u; ret (Str (s ++ [APO]) :: (c ++ [Str [APO]]) ++ concat l).

Definition l_common_rules : P chain :=
  alt (a <- l_string_v_apo_sp; c <- l_string_v; ret (a ++ c))
 (alt (s <- l_string_poss_space_c; c <- l_string_v; ret (Str s :: c))
      (a <- l_string_v_apo_sp; s <- l_string; ret (a ++ [Str s]))).
Definition l_model_sp : P chain :=
  c <- alt l_string_v_apo_sp
      (alt l_common_rules
      (alt (c <- l_common_rules; d <- l_string_v_apo; ret (c ++ d))
      (alt (c <- l_common_rules; s <- l_string_no_space_c; ret (c ++ [Str s]))
           (a <- l_string_poss_space_c; s <- l_string; d <- l_string_v_apo; ret (Str a :: Str s :: d)))));
  ret (clear_concat_chain c).
Definition l_model : P chain :=
  c <- alt l_string_v
      (alt (s <- l_string; d <- l_string_v_apo; ret (Str s :: d))
      (alt (c <- l_string_v; d <- l_string_v_apo; ret (c ++ d))
           (c <- l_string_v; s <- l_string_no_space_c; ret (c ++ [Str s]))));
  ret (clear_concat_chain c).

(** With the tokens, for parser_ctx->getStart() == getStop() *)
Definition l_char_string : P (bytes * bool) := fun ts k =>
  (a <- one l_ch; l <- many (one (fun t => match l_ch t with Some s => Some s | None => match is_apo t with Some _ => Some [APO] | None => None end end));
   ret (a ++ concat l, match ts, l with TOrd _ :: _, [] => true | _, _ => false end)) ts k.
Definition l_char_string_sp : P bytes := l <- many1 (l_quoted l_sp_string); ret (concat l).

Inductive label_si :=
| LEmpty
| LOrd (s : bytes)
| LMac (s : bytes)
| LSeq (s : bytes)
| LVar (v : bytes)
| LConc (c : chain).

(** collector.cpp 46-94, label_field_rules.g4 19-34 *)
Definition text_label (s : bytes) (ord : bool) : label_si :=
  match s with
  | c :: ((_ :: _) as s') => if (c =? DOT)%N then LSeq s' else if ord then LOrd s else LMac s
  | _ => if ord then LOrd s else LMac s
  end.
Definition chain_label (c : chain) : label_si := match c with [Var v] => LVar v | _ => LConc c end.

Definition label : P label_si :=
  alt (x <- l_char_string; ret (text_label (fst x) (snd x)))
 (alt (s <- l_char_string_sp; o <- alt l_char_string (ret ([], false)); ret (LMac (s ++ fst o)))
 (alt (c <- l_model; ret (chain_label c))
 (alt (c <- l_model_sp; ret (chain_label c))
      (ret LEmpty)))).

(** instruction_field_rules.g4 *)
Inductive instr_si := IName (s : bytes) | IConc (c : chain).
Definition instruction : P instr_si :=
  alt (c <- l_string_v; ret (IConc c))
 (alt (a <- one is_ord; b <- l_string; ret (IName (a ++ b)))
 (alt (a <- one is_ord; ret (IName a))
      (a <- one is_ident; l <- texts not_space; ret (IName (a ++ l))))).

(** model_operand_rules.g4 *)
Definition string_ch (t : tok) : option bytes :=
  match t with TAmps => Some [38%N] | _ => l_sp_ch t end.
Definition pair_apo {A} (a : A) : P A := _ <- l_apo; _ <- l_apo; ret a.
Definition string : P bytes :=
  _ <- one is_apostrophe; l <- many (alt (one string_ch) (pair_apo [APO])); _ <- l_apo; ret (concat l).
Definition before_var_sym_model : P bytes :=
  l <- many (alt (one op_ch) (s <- string; ret (quote s))); ret (concat l).
Definition string_v_actual : P chain :=
  _ <- l_apo; l <- many (alt (one l_sp_ch) (pair_apo [APO; APO])); v <- one is_var;
  c <- many (alt (one l_sp_ch_v) (pair_apo (Str [APO; APO]))); _ <- l_apo;
  ret (Str [APO] :: Str (concat l) :: Var v :: c ++ [Str [APO]]).
Definition var_sym_model : P chain := alt (v <- one is_var; ret [Var v]) string_v_actual.
Definition model_string_v : P chain :=
  _ <- l_apo; c <- many (alt (one l_sp_ch_v) (pair_apo (Str [APO]))); _ <- l_apo;
  ret (Str [APO] :: clear_concat_chain c ++ [Str [APO]]).
Definition after_var_sym_model : P chain :=
  l <- many (alt (p <- one op_ch_v; ret [p]) model_string_v); ret (concat l).
Definition model_op : P chain :=
  b <- before_var_sym_model; c <- var_sym_model; d <- after_var_sym_model; ret (clear_concat_chain (Str b :: c ++ d)).
End Parse.

(** hlasmparser.g4 143-150; operand_field_rest takes everything behind the operation. *)
Definition first_part (ts : list tok) : option (label_si * instr_si * list tok) :=
  label _ ts (fun l r =>
    match r with
    | TSpace _ :: r' => instruction _ r' (fun i r'' => Some (l, i, r''))
    | _ => None
    end).

(** A whole operand field with a remark (op_rem_body_mach and so on, second alternative). *)
Definition model_field (ts : list tok) : option chain :=
  model_op _ ts (fun c r => match r with [] | TSpace _ :: _ => Some c | _ => None end).

(** ** Use *)

(** low_language_processor.cpp 67-100: the label of machine and assembler instructions *)
Inductive low_label := NoLabel | SymbolText (s : bytes) | BadLabel (* E057 *) | Sequence (s : bytes).
Definition low_label_of (value : bytes -> bytes) (l : label_si) : low_label :=
  match l with
  | LEmpty => NoLabel
  | LOrd s => SymbolText s
  | LMac _ => BadLabel
  | LSeq s => Sequence s
  | LVar v => match value v with [] => NoLabel | c :: _ => if (c =? BLANK)%N then NoLabel else SymbolText (value v) end
  | LConc c => SymbolText (evaluate value false c)
  end.

(** context_manager.cpp 99-109 *)
Definition ord_char (c : N) : bool :=
  ((65 <=? c) && (c <=? 90) || (97 <=? c) && (c <=? 122) || (48 <=? c) && (c <=? 57) ||
   (c =? 95) || (c =? 64) || (c =? 36) || (c =? 35))%N.
Definition digit (c : N) : bool := ((48 <=? c) && (c <=? 57))%N.
Definition try_get_symbol_name (s : bytes) : bool :=
  match s with
  | [] => false
  | c :: _ => negb ((63 <? length s)%nat || digit c) && forallb ord_char s
  end.

(** macro_processor.cpp 182-199: the label as an argument *)
Definition macro_label (value : bytes -> bytes) (l : label_si) : option bytes :=
  match l with
  | LConc c => Some (evaluate value false c)
  | LOrd s | LMac s => Some s
  | LVar v => Some (value v)
  | LEmpty | LSeq _ => None
  end.

(** ordinary_processor.cpp 259-281; [None] is the report E067 *)
Fixpoint trim_left (s : bytes) : bytes := match s with c :: r => if (c =? BLANK)%N then trim_left r else s | [] => [] end.
Definition trim_right (s : bytes) : bytes := rev (trim_left (rev s)).
Definition resolve_instruction (value : bytes -> bytes) (i : instr_si) : option bytes :=
  match i with
  | IName s => Some s
  | IConc c =>
    let tmp := trim_left (trim_right (evaluate value false c)) in
    if existsb (N.eqb BLANK) tmp then None else Some tmp
  end.
