(** * Mop_Spec: what the operands of a macro call are *)
From Coq Require Import List NArith ZArith Bool.
From Verif Require Import Common Sub_Model Mac_Model Mop_Model.
Import ListNotations.
Open Scope N_scope.

(** ** Texts of operands as trees

    [items]: what stands between two commas: words, apostrophes after attribute
    letters, strings, lists in parentheses, in any order.  [parts]: the items of
    a list, at least one. *)
Inductive its : Type :=
| INil
| ITok (t : mtok) (r : its)
| IStr (a : mtok) (b : list mtok) (z : mtok) (r : its)
| ISub (p : parts) (r : its)
with parts : Type :=
| POne (i : its)
| PCons (i : its) (p : parts).

Fixpoint itext (i : its) : list mtok :=
  match i with
  | INil => []
  | ITok t r => t :: itext r
  | IStr a b z r => a :: b ++ z :: itext r
  | ISub p r => TLpar :: ptext p ++ TRpar :: itext r
  end
with ptext (p : parts) : list mtok :=
  match p with
  | POne i => itext i
  | PCons i p => itext i ++ TComma :: ptext p
  end.

(** Words are not empty. *)
Definition plain_tok (t : mtok) : Prop :=
  match t with TText s => s <> [] | TDot | TEqu | TVar _ | TAttr => True | _ => False end.
Definition in_string (t : mtok) : Prop :=
  match t with TApo | TAttr => False | TText s | TSpace s => s <> [] | _ => True end.

Fixpoint proper (i : its) : Prop :=
  match i with
  | INil => True
  | ITok t r => plain_tok t /\ proper r
  | IStr a b z r => a = TApo /\ Forall in_string b /\ (z = TApo \/ z = TAttr) /\ proper r
  | ISub p r => pproper p /\ proper r
  end
with pproper (p : parts) : Prop :=
  match p with
  | POne i => proper i
  | PCons i p => proper i /\ pproper p
  end.

Fixpoint part_list (p : parts) : list its :=
  match p with POne i => [i] | PCons i p => i :: part_list p end.

(** ** The text in the source *)
Definition shows (t : mtok) : bytes :=
  match t with
  | TText s => s | TSpace s => s | TVar v => 38 :: shown v
  | TDot => [46] | TEqu => [61] | TLpar => [40] | TRpar => [41] | TComma => [44]
  | TApo | TAttr => [39]
  end.
Definition source (l : list mtok) : bytes := flat_map shows l.

Definition no_var (t : mtok) : Prop := match t with TVar _ => False | _ => True end.

(** ** Its value

    An omitted operand has none; an operand that is one list has the values of
    its items; every other operand is its text. *)
Fixpoint value_of (i : its) : data :=
  match i with
  | INil => Dummy
  | ISub p INil => Composite (values_of p)
  | _ => Single (source (itext i))
  end
with values_of (p : parts) : list data :=
  match p with
  | POne i => [value_of i]
  | PCons i p => value_of i :: values_of p
  end.

(** ** The chain of an operand, with variable symbols left in place *)
Definition point_of (t : mtok) : point :=
  match t with
  | TDot => Dot | TEqu => Equ | TVar v => Var v | _ => Str (shows t)
  end.

Fixpoint chain_of (i : its) : chain :=
  match i with
  | INil => []
  | ITok t r => point_of t :: chain_of r
  | IStr a b z r => point_of a :: map point_of b ++ point_of z :: chain_of r
  | ISub p r => Sub (chains_of p) :: chain_of r
  end
with chains_of (p : parts) : list chain :=
  match p with
  | POne i => [chain_of i]
  | PCons i p => chain_of i :: chains_of p
  end.

Definition operand_of (i : its) : operand :=
  match i with INil => Empty | _ => Chain (chain_of i) end.

(** ** Operands over several lines

    [Layout ts l]: the operands [l] are separated by commas.  After a comma the
    line may end, with or without a remark; a continuation goes on with the next
    operand.  What follows the last operand is a remark.  A comma at the very
    end has an omitted operand behind it. *)
Definition remark (r : list ftok) : Prop := r = [] \/ r = [FRemark].

Definition goes_on (ts : list ftok) : Prop :=
  match ts with FTok _ :: _ | FComma :: _ => True | _ => False end.

Inductive Layout : list ftok -> list (list mtok) -> Prop :=
| la_last : forall p r, p <> [] -> remark r -> Layout (map FTok p ++ r) [p]
| la_comma_end : forall p r, remark r -> Layout (map FTok p ++ FComma :: r) [p; []]
| la_comma_cont_end : forall p r r2, remark r -> remark r2 ->
    Layout (map FTok p ++ FComma :: r ++ FCont :: r2) [p; []]
| la_comma : forall p ts l, goes_on ts -> Layout ts l ->
    Layout (map FTok p ++ FComma :: ts) (p :: l)
| la_comma_cont : forall p r ts l, remark r -> goes_on ts -> Layout ts l ->
    Layout (map FTok p ++ FComma :: r ++ FCont :: ts) (p :: l).

(** The same operands on one line. *)
Fixpoint one_line (l : list (list mtok)) : list ftok :=
  match l with
  | [] => []
  | [p] => map FTok p
  | p :: l => map FTok p ++ FComma :: one_line l
  end.

(** The operands of a call with the commas between them. *)
Fixpoint call_text (l : list its) : list mtok :=
  match l with
  | [] => []
  | [i] => itext i
  | i :: l => itext i ++ TComma :: call_text l
  end.

(** Tokens have a text. *)
Definition word (t : mtok) : Prop :=
  match t with TText s | TSpace s => s <> [] | _ => True end.
