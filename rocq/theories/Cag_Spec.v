(** * Cag_Spec: how conditional assembly operands are written

    [sum loose d e ts]: the tokens [ts] write the expression [e].  Operators between operands group from the left,
    * and / bind stronger than + and -, signs bind strongest.  With [loose = false] the items of a list are
    separated by spaces, and a duplication factor is not written directly in an item of a list ([d = false]
    there), only in arguments, subscripts and so on ([d = true]); with [loose = true] neither matters. *)
From Coq Require Import List NArith ZArith Bool Arith.
From Verif Require Import Common Cag_Model.
Import ListNotations.

Definition blanks (i : nat) : list tok := repeat TSpace i.

Section Written.
Variable loose : bool.

Inductive sum : bool -> cexpr -> list tok -> Prop :=
| sum_i : forall d x a e b, prod d x a -> sums d x e b -> sum d e (a ++ b)
with sums : bool -> cexpr -> cexpr -> list tok -> Prop :=
| sums_nil : forall d e, sums d e e []
| sums_add : forall d acc x a e b, prod d x a -> sums d (XBin OAdd acc x) e b -> sums d acc e (TPlus :: a ++ b)
| sums_sub : forall d acc x a e b, prod d x a -> sums d (XBin OSub acc x) e b -> sums d acc e (TMinus :: a ++ b)
with prod : bool -> cexpr -> list tok -> Prop :=
| prod_i : forall d x a e b, unary d x a -> prods d x e b -> prod d e (a ++ b)
with prods : bool -> cexpr -> cexpr -> list tok -> Prop :=
| prods_nil : forall d e, prods d e e []
| prods_mul : forall d acc x a e b, unary d x a -> prods d (XBin OMul acc x) e b -> prods d acc e (TStar :: a ++ b)
| prods_div : forall d acc x a e b, unary d x a -> prods d (XBin ODiv acc x) e b -> prods d acc e (TSlash :: a ++ b)
with unary : bool -> cexpr -> list tok -> Prop :=
| unary_t : forall d e a, term d e a -> unary d e a
| unary_plus : forall d e a, unary d e a -> unary d (XUn UPlus e) (TPlus :: a)
| unary_minus : forall d e a, unary d e a -> unary d (XUn UMinus e) (TMinus :: a)
with term : bool -> cexpr -> list tok -> Prop :=
| term_list : forall d l a, plist l a -> term d (XList l) a
| term_var : forall d v l a, subscript l a -> term d (XVar v l) (TVar v :: a)
| term_string : forall d x a e b, str d x a -> strs x e b -> term d e (a ++ b)
| term_attr : forall d a x, term d (XAttr a (XSym x)) [TAttr a; TId x]
| term_attr_var : forall d a v l b, subscript l b -> term d (XAttr a (XVar v l)) (TAttr a :: TVar v :: b)
| term_const : forall d v, term d (XConst v) [TConst v]
| term_call : forall d f m l a b, dup d m a -> args l b -> term d (XCall f m l) (a ++ TId f :: b)
| term_sym : forall d n, term d (XSym n) [TId n]
(* a list in parentheses *)
with plist : list cexpr -> list tok -> Prop :=
| plist_i : forall i l a j, items l a -> plist l (TLpar :: blanks i ++ a ++ blanks j ++ [TRpar])
with items : list cexpr -> list tok -> Prop :=
| items_one : forall e a, sum false e a -> items [e] a
| items_more : forall e a i l b, sum false e a -> loose = true \/ 0 < i -> items l b ->
    items (e :: l) (a ++ blanks i ++ b)
(* a string with its duplication factor and substring; strings with periods between them *)
with str : bool -> cexpr -> list tok -> Prop :=
| str_i : forall d m s u a b, dup d m a -> substr u b -> str d (XStr m s u) (a ++ TStr s :: b)
with strs : cexpr -> cexpr -> list tok -> Prop :=
| strs_nil : forall e, strs e e []
| strs_more : forall acc x a e b, str true x a -> strs (XConc acc x) e b -> strs acc e (TDot :: a ++ b)
with dup : bool -> option cexpr -> list tok -> Prop :=
| dup_none : forall d, dup d None []
| dup_some : forall d e a, loose = true \/ d = true -> sum true e a -> dup d (Some e) (TLpar :: a ++ [TRpar])
with substr : option (cexpr * option cexpr) -> list tok -> Prop :=
| substr_none : substr None []
| substr_two : forall e1 a e2 b, sum true e1 a -> sum true e2 b ->
    substr (Some (e1, Some e2)) (TLpar :: a ++ TComma :: b ++ [TRpar])
| substr_rest : forall e a, sum true e a -> substr (Some (e, None)) (TLpar :: a ++ [TComma; TStar; TRpar])
with args : list cexpr -> list tok -> Prop :=
| args_one : forall i e a j, i <= 1 -> j <= 1 -> sum true e a -> args [e] (TLpar :: blanks i ++ a ++ blanks j ++ [TRpar])
| args_more : forall e a l b, sum true e a -> commas l b -> args (e :: l) (TLpar :: a ++ TComma :: b ++ [TRpar])
with subscript : list cexpr -> list tok -> Prop :=
| sub_none : subscript [] []
| sub_some : forall l b, commas l b -> subscript l (TLpar :: b ++ [TRpar])
with commas : list cexpr -> list tok -> Prop :=
| commas_one : forall e a, sum true e a -> commas [e] a
| commas_more : forall e a l b, sum true e a -> commas l b -> commas (e :: l) (a ++ TComma :: b).

(** One operand that is not omitted. *)
Inductive writes : bool -> operand -> list tok -> Prop :=
| w_branch : forall def l a s, plist l a -> writes def (Branch (XList l) s) (a ++ [TDot; TId s])
| w_seq : forall def s, writes def (Seq s) [TDot; TId s]
| w_value : forall e a, sum true e a -> writes false (Value e) a
| w_def_amp : forall v, writes true (Def v None) [TVar v]
| w_def : forall v, writes true (Def v None) [TId v]
| w_def_amp_size : forall v z, writes true (Def v (Some z)) [TVar v; TLpar; TConst z; TRpar]
| w_def_size : forall v z, writes true (Def v (Some z)) [TId v; TLpar; TConst z; TRpar].

(** Nothing, or a space and a remark. *)
Definition ends (r : list tok) : Prop := match r with [] | TSpace :: _ => True | _ => False end.

(** The operands of a line and what comes behind them; an operand may be omitted before a comma and behind the last
    comma. *)
Inductive line (def : bool) : list operand -> list tok -> Prop :=
| line_one : forall o a r, writes def o a -> ends r -> line def [o] (a ++ r)
| line_comma : forall o a r, writes def o a -> ends r -> line def [o; Empty] (a ++ TComma :: r)
| line_comma_empty : forall r, ends r -> line def [Empty; Empty] (TComma :: r)
| line_more : forall o a l b, writes def o a -> line def l b -> line def (o :: l) (a ++ TComma :: b)
| line_more_empty : forall l b, line def l b -> line def (Empty :: l) (TComma :: b).
End Written.

Scheme sum_m := Minimality for sum Sort Prop
  with sums_m := Minimality for sums Sort Prop
  with prod_m := Minimality for prod Sort Prop
  with prods_m := Minimality for prods Sort Prop
  with unary_m := Minimality for unary Sort Prop
  with term_m := Minimality for term Sort Prop
  with plist_m := Minimality for plist Sort Prop
  with items_m := Minimality for items Sort Prop
  with str_m := Minimality for str Sort Prop
  with strs_m := Minimality for strs Sort Prop
  with dup_m := Minimality for dup Sort Prop
  with substr_m := Minimality for substr Sort Prop
  with args_m := Minimality for args Sort Prop
  with subscript_m := Minimality for subscript Sort Prop
  with commas_m := Minimality for commas Sort Prop.
Combined Scheme written_ind from sum_m, sums_m, prod_m, prods_m, unary_m, term_m, plist_m, items_m, str_m, strs_m,
  dup_m, substr_m, args_m, subscript_m, commas_m.
