(** * Cag_Model: the grammar of conditional assembly operands

    Modelled (parser_library/src/parsing/grammar):
      ca_expr_rules.g4: expr, expr_s, term_c, term, expr_list, expr_space_c, seq_symbol, subscript_ne, subscript,
        expr_comma_c, var_symbol, data_attribute, ca_dupl_factor, substring, ca_string_b, ca_string, var_def,
      ca_operand_rules.g4: ca_op,
      operand_field_rules.g4: op_rem_body_ca, op_rem_body_alt_ca, cont_body_ca, alt_op_list_comma_ca, alt_operand_ca.

    The grammar is ambiguous: items of a list in parentheses may follow each other without a space, so that A-B is
    a difference or the two items A and -B.  The parser that ANTLR generates takes at each decision the first
    alternative, in the order of the grammar, with which the rest of the line can be read (full LL prediction, the
    mode the parser runs in), and enters a loop rather than leaving it.  The model does the same: it tries the
    alternatives in order and takes the first that leads to the end.  A function gets what is to be done
    with the rest, [k]; [None] is a failure.

    Simplifications.
    - A lexeme of several lexer tokens (a name, a number, a self-defining term, a string with what is in it, an
      attribute letter with its apostrophe) is one token.  Literals and qualified names as operands of attributes
      and created names of variable symbols are left out.
    - A line that is not continued.  Ranges and highlighting are left out.
    - Recovery after syntax errors does not occur: what cannot be read is a remark (op_rem_body_ca). *)
From Coq Require Import List NArith ZArith Bool Arith.
From Verif Require Import Common.
Import ListNotations.

Inductive tok :=
| TPlus | TMinus | TStar | TSlash | TLpar | TRpar | TComma | TDot | TSpace
| TVar (v : bytes)       (* & and a name *)
| TStr (s : bytes)       (* with its apostrophes *)
| TConst (v : Z)         (* a number or a self-defining term *)
| TAttr (a : bytes)      (* a letter and an apostrophe *)
| TId (n : bytes).

Inductive bop := OAdd | OSub | OMul | ODiv.
Inductive uop := UPlus | UMinus.

Inductive cexpr :=
| XConst (v : Z)
| XSym (n : bytes)
| XVar (v : bytes) (subs : list cexpr)
| XAttr (a : bytes) (of : cexpr)
| XStr (dup : option cexpr) (s : bytes) (sub : option (cexpr * option cexpr))
| XConc (a b : cexpr)
| XCall (f : bytes) (dup : option cexpr) (args : list cexpr)
| XList (l : list cexpr)
| XUn (o : uop) (e : cexpr)
| XBin (o : bop) (a b : cexpr).

Section Parse.
Variable R : Type.

Definition orelse (a b : option R) : option R := match a with Some x => Some x | None => b end.

(** SPACE* and SPACE? *)
Fixpoint spaces (ts : list tok) (k : list tok -> option R) : option R :=
  match ts with TSpace :: r => orelse (spaces r k) (k ts) | _ => k ts end.
Definition opt_space (ts : list tok) (k : list tok -> option R) : option R :=
  match ts with TSpace :: r => orelse (k r) (k ts) | _ => k ts end.
Definition rpar (ts : list tok) (k : list tok -> option R) : option R :=
  match ts with TRpar :: r => k r | _ => None end.

Definition cont := cexpr -> list tok -> option R.

Fixpoint expr (n : nat) (ts : list tok) (k : cont) {struct n} : option R :=
  match n with
  | O => None
  | S n => prod n ts (fun e r => sum_loop n e r k)
  end
with sum_loop (n : nat) (e : cexpr) (ts : list tok) (k : cont) {struct n} : option R :=
  match n with
  | O => None
  | S n =>
    match ts with
    | TPlus :: r => orelse (prod n r (fun x r' => sum_loop n (XBin OAdd e x) r' k)) (k e ts)
    | TMinus :: r => orelse (prod n r (fun x r' => sum_loop n (XBin OSub e x) r' k)) (k e ts)
    | _ => k e ts
    end
  end
with prod (n : nat) (ts : list tok) (k : cont) {struct n} : option R :=
  match n with
  | O => None
  | S n => unary n ts (fun e r => prod_loop n e r k)
  end
with prod_loop (n : nat) (e : cexpr) (ts : list tok) (k : cont) {struct n} : option R :=
  match n with
  | O => None
  | S n =>
    match ts with
    | TSlash :: r => orelse (unary n r (fun x r' => prod_loop n (XBin ODiv e x) r' k)) (k e ts)
    | TStar :: r => orelse (unary n r (fun x r' => prod_loop n (XBin OMul e x) r' k)) (k e ts)
    | _ => k e ts
    end
  end
with unary (n : nat) (ts : list tok) (k : cont) {struct n} : option R :=
  match n with
  | O => None
  | S n =>
    match ts with
    | TPlus :: r => unary n r (fun e r' => k (XUn UPlus e) r')
    | TMinus :: r => unary n r (fun e r' => k (XUn UMinus e) r')
    | _ => term n ts k
    end
  end
with term (n : nat) (ts : list tok) (k : cont) {struct n} : option R :=
  match n with
  | O => None
  | S n =>
    match ts with
    | TLpar :: _ => orelse (expr_list n ts k) (orelse (ca_string n ts k) (function n ts k))
    | TVar v :: r => subscript n r (fun l r' => k (XVar v l) r')
    | TStr _ :: _ => ca_string n ts k
    | TAttr a :: TVar v :: r => subscript n r (fun l r' => k (XAttr a (XVar v l)) r')
    | TAttr a :: TId x :: r => k (XAttr a (XSym x)) r
    | TConst v :: r => k (XConst v) r
    | TId f :: r => orelse (function n ts k) (k (XSym f) r)
    | _ => None
    end
  end
with expr_list (n : nat) (ts : list tok) (k : cont) {struct n} : option R :=
  match n with
  | O => None
  | S n =>
    match ts with
    | TLpar :: r =>
        spaces r (fun r => expr n r (fun e r =>
          items_loop n [e] r (fun l r => spaces r (fun r => rpar r (fun r => k (XList l) r)))))
    | _ => None
    end
  end
(* expr_space_c behind its first item *)
with items_loop (n : nat) (l : list cexpr) (ts : list tok) (k : list cexpr -> list tok -> option R) {struct n}
  : option R :=
  match n with
  | O => None
  | S n => orelse (spaces ts (fun r => expr n r (fun e r' => items_loop n (l ++ [e]) r' k))) (k l ts)
  end
with ca_string (n : nat) (ts : list tok) (k : cont) {struct n} : option R :=
  match n with
  | O => None
  | S n => string_b n ts (fun e r => string_loop n e r k)
  end
with string_loop (n : nat) (e : cexpr) (ts : list tok) (k : cont) {struct n} : option R :=
  match n with
  | O => None
  | S n =>
    match ts with
    | TDot :: r => orelse (string_b n r (fun x r' => string_loop n (XConc e x) r' k)) (k e ts)
    | _ => k e ts
    end
  end
with string_b (n : nat) (ts : list tok) (k : cont) {struct n} : option R :=
  match n with
  | O => None
  | S n =>
    dupl n ts (fun d r =>
      match r with
      | TStr s :: r' => substring n r' (fun u r'' => k (XStr d s u) r'')
      | _ => None
      end)
  end
with dupl (n : nat) (ts : list tok) (k : option cexpr -> list tok -> option R) {struct n} : option R :=
  match n with
  | O => None
  | S n =>
    match ts with
    | TLpar :: r => orelse (expr n r (fun e r' => rpar r' (fun r'' => k (Some e) r''))) (k None ts)
    | _ => k None ts
    end
  end
with substring (n : nat) (ts : list tok) (k : option (cexpr * option cexpr) -> list tok -> option R) {struct n}
  : option R :=
  match n with
  | O => None
  | S n =>
    match ts with
    | TLpar :: r =>
        orelse (expr n r (fun e1 r1 =>
                  match r1 with
                  | TComma :: r2 => expr n r2 (fun e2 r3 => rpar r3 (fun r4 => k (Some (e1, Some e2)) r4))
                  | _ => None
                  end))
       (orelse (expr n r (fun e r1 =>
                  match r1 with
                  | TComma :: TStar :: r2 => rpar r2 (fun r3 => k (Some (e, None)) r3)
                  | _ => None
                  end))
               (k None ts))
    | _ => k None ts
    end
  end
with function (n : nat) (ts : list tok) (k : cont) {struct n} : option R :=
  match n with
  | O => None
  | S n =>
    dupl n ts (fun d r =>
      match r with
      | TId f :: r' => subscript_ne n r' (fun l r'' => k (XCall f d l) r'')
      | _ => None
      end)
  end
with subscript_ne (n : nat) (ts : list tok) (k : list cexpr -> list tok -> option R) {struct n} : option R :=
  match n with
  | O => None
  | S n =>
    match ts with
    | TLpar :: r =>
        orelse (opt_space r (fun r => expr n r (fun e r => opt_space r (fun r => rpar r (fun r => k [e] r)))))
               (expr n r (fun e r =>
                  match r with
                  | TComma :: r => comma_list n [e] r (fun l r => rpar r (fun r => k l r))
                  | _ => None
                  end))
    | _ => None
    end
  end
with subscript (n : nat) (ts : list tok) (k : list cexpr -> list tok -> option R) {struct n} : option R :=
  match n with
  | O => None
  | S n =>
    match ts with
    | TLpar :: r => orelse (comma_list n [] r (fun l r => rpar r (fun r => k l r))) (k [] ts)
    | _ => k [] ts
    end
  end
(* expr_comma_c, behind the items [l] *)
with comma_list (n : nat) (l : list cexpr) (ts : list tok) (k : list cexpr -> list tok -> option R) {struct n}
  : option R :=
  match n with
  | O => None
  | S n =>
    expr n ts (fun e r =>
      match r with
      | TComma :: r' => orelse (comma_list n (l ++ [e]) r' k) (k (l ++ [e]) r)
      | _ => k (l ++ [e]) r
      end)
  end.

(** ** Operands *)
Inductive operand :=
| Empty
| Branch (condition : cexpr) (to : bytes)
| Seq (to : bytes)
| Value (e : cexpr)
| Def (v : bytes) (size : option Z).

Definition seq_symbol (ts : list tok) (k : bytes -> list tok -> option R) : option R :=
  match ts with TDot :: TId s :: r => k s r | _ => None end.

Definition var_def_substr (ts : list tok) (k : option Z -> list tok -> option R) : option R :=
  match ts with
  | TLpar :: TConst v :: TRpar :: r => orelse (k (Some v) r) (k None ts)
  | _ => k None ts
  end.

(** [defines]: is_var_def, LCLx and GBLx *)
Definition ca_op (n : nat) (defines : bool) (ts : list tok) (k : operand -> list tok -> option R) : option R :=
  orelse (expr_list n ts (fun e r => seq_symbol r (fun s r' => k (Branch e s) r')))
 (orelse (seq_symbol ts (fun s r => k (Seq s) r))
         (if defines
          then match ts with
               | TVar v :: r | TId v :: r => var_def_substr r (fun z r' => k (Def v z) r')
               | _ => None
               end
          else expr n ts (fun e r => k (Value e) r))).
End Parse.

Definition fuel (ts : list tok) : nat := 10 * length ts + 10.

(** The operands of a line: what follows the last one is a remark. *)
Fixpoint fields (n : nat) (defines : bool) (ts : list tok) : option (list operand) :=
  match n with
  | O => None
  | S n =>
    let after (o : operand) (r : list tok) : option (list operand) :=
      match r with
      | TComma :: r' =>
        match r' with
        | [] | TSpace :: _ => Some [o; Empty]
        | _ => match fields n defines r' with Some l => Some (o :: l) | None => None end
        end
      | [] | TSpace :: _ => match o with Empty => None | _ => Some [o] end
      | _ => None
      end in
    orelse _ (ca_op _ (fuel ts) defines ts after) (after Empty ts)
  end.

(** op_rem_body_ca: the field behind the operation; if it has no reading with operands it is a remark. *)
Definition ca_line (defines : bool) (ts : list tok) : list operand :=
  match fields (S (length ts)) defines ts with Some l => l | None => [] end.
