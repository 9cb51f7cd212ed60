(** * Caf_Spec: arithmetic operands of conditional assembly as they are written, and what they are worth

    Expressions by their parts, the characters they are written with, and their value as numbers.  Nothing here
    knows of tokens, of the trees of the parser or of how they are evaluated; variable symbols and ordinary symbols
    are looked up in the [world] of [Exp_Model]. *)
From Coq Require Import String List NArith ZArith Bool Arith.
From Verif Require Import Common.
From Verif Require Ca_Spec Fld_Spec Exp_Model.
Import ListNotations.
Open Scope list_scope.

Inductive bop := Add | Sub | Mul | Div.
Inductive wexpr : Type :=
| WNumber (d : list N)
| WTerm (t : N) (s : list N)                    (* X'...', B'...', C'...' *)
| WSymbol (n : list N)
| WVariable (n : list N) (subscripts : list wexpr)    (* &NAME, &NAME(...), &NAME(...,...) *)
| WSign (minus : bool) (e : wexpr)
| WParen (e : wexpr)
| WBinary (o : bop) (l r : wexpr).

Definition mark (o : bop) : N := match o with Add => 43 | Sub => 45 | Mul => 42 | Div => 47 end%N.

(** Texts with commas between them. *)
Fixpoint separated (l : list (list N)) : list N :=
  match l with
  | [] => []
  | x :: r => match r with [] => x | _ => x ++ 44%N :: separated r end
  end.
Fixpoint written (e : wexpr) : list N :=
  match e with
  | WNumber d => d
  | WTerm t s => t :: 39%N :: flat_map Fld_Spec.doubled s ++ [39%N]
  | WSymbol n => n
  | WVariable n [] => 38%N :: n
  | WVariable n subs => 38%N :: n ++ 40%N :: separated (map written subs) ++ [41%N]
  | WSign m e => (if m then 45%N else 43%N) :: written e
  | WParen e => 40%N :: written e ++ [41%N]
  | WBinary o l r => written l ++ mark o :: written r
  end.

(** How tightly: 1 sums, 2 products, 3 the rest *)
Definition tight (e : wexpr) : nat :=
  match e with WBinary (Add | Sub) _ _ => 1 | WBinary (Mul | Div) _ _ => 2 | _ => 3 end.

(** In parentheses NOT is an operator. *)
Definition plain (e : wexpr) : Prop := match e with WSymbol n => map Fld_Spec.big n <> s2b "NOT" | _ => True end.

(** Operators of one rank from left to right, a sign belongs to the term behind it. *)
Fixpoint regular (e : wexpr) : Prop :=
  match e with
  | WNumber d => d <> [] /\ Forall Fld_Spec.digit d
  | WTerm t s => In (Fld_Spec.big t) [66; 67; 88]%N /\ Forall Fld_Spec.on_the_line s
  | WSymbol n => Fld_Spec.symbol n
  | WVariable n subs => Fld_Spec.symbol n /\ fold_right (fun e P => regular e /\ P) True subs
  | WSign _ e => tight e = 3 /\ regular e
  | WParen e => plain e /\ regular e
  | WBinary o l r =>
      (tight (WBinary o l r) <= tight l /\ tight (WBinary o l r) < tight r)%nat /\ regular l /\ regular r
  end.

(** ** Values *)
Open Scope Z_scope.
(** A number, a truth value, no characters, or digits with or without a sign, up to 11 characters. *)
Inductive held : Exp_Model.val -> Z -> Prop :=
| held_number : forall z, held (Exp_Model.VNum z) z
| held_truth : forall b, held (Exp_Model.VBool b) (if b then 1 else 0)
| held_empty : held (Exp_Model.VChar []) 0
| held_digits : forall s z, Ca_Spec.signed_decimal s z -> -2147483648 <= z <= 2147483647 ->
    (List.length s <= 11)%nat -> held (Exp_Model.VChar s) z.

Definition fits (z : Z) : option Z := if (-2147483648 <=? z) && (z <=? 2147483647) then Some z else None.
(** Division by zero gives zero, and the remainder is dropped. *)
Definition computed (o : bop) (a b : Z) : option Z :=
  match o with
  | Add => fits (a + b)
  | Sub => fits (a - b)
  | Mul => fits (a * b)
  | Div => if b =? 0 then Some 0 else fits (Z.quot a b)
  end.

(** [worth w e (Some z)]: the value; [worth w e None]: an error, of a part or of the whole. *)
Inductive worth (w : Exp_Model.world) : wexpr -> option Z -> Prop :=
| w_number : forall d ds, Forall2 Ca_Spec.dec_digit d ds -> Ca_Spec.numeral 10 ds < 2147483648 ->
    (List.length d <= 11)%nat -> worth w (WNumber d) (Some (Ca_Spec.numeral 10 ds))
| w_term : forall t s v, Fld_Spec.valued t s v -> worth w (WTerm t s) (Some v)
| w_symbol : forall n, worth w (WSymbol n) (Exp_Model.absolute w (map Fld_Spec.big n))
| w_variable : forall n subs zs v z, outcomes w subs (map Some zs) ->
    Exp_Model.variable w (map Fld_Spec.big n) zs = inl v -> held v z -> worth w (WVariable n subs) (Some z)
| w_unknown : forall n subs zs d, outcomes w subs (map Some zs) ->
    Exp_Model.variable w (map Fld_Spec.big n) zs = inr d -> worth w (WVariable n subs) None
| w_subscript : forall n subs os, outcomes w subs os -> In None os -> worth w (WVariable n subs) None
| w_plus : forall e o, worth w e o -> worth w (WSign false e) o
| w_minus : forall e z, worth w e (Some z) -> z <> -2147483648 -> worth w (WSign true e) (Some (- z))
| w_minus_wrong : forall e, worth w e None -> worth w (WSign true e) None
| w_paren : forall e o, worth w e o -> worth w (WParen e) o
| w_binary : forall o l r a b, worth w l (Some a) -> worth w r (Some b) -> worth w (WBinary o l r) (computed o a b)
| w_binary_left : forall o l r b, worth w l None -> worth w r b -> worth w (WBinary o l r) None
| w_binary_right : forall o l r a, worth w l a -> worth w r None -> worth w (WBinary o l r) None
with outcomes (w : Exp_Model.world) : list wexpr -> list (option Z) -> Prop :=
| o_none : outcomes w [] []
| o_more : forall e l o os, worth w e o -> outcomes w l os -> outcomes w (e :: l) (o :: os).

Open Scope nat_scope.
(** ** Fields: the blanks behind the instruction, operands with commas between them, a remark *)
Definition op_written (o : option wexpr) : list N := match o with Some e => written e | None => [] end.
Definition field (l : list (option wexpr)) : list N := separated (map op_written l).
Definition op_regular (o : option wexpr) : Prop := match o with Some e => regular e | None => True end.

Inductive op_worth (w : Exp_Model.world) : option wexpr -> option (option Z) -> Prop :=
| ow_omitted : op_worth w None None
| ow_given : forall e o, worth w e o -> op_worth w (Some e) (Some o).

(** ** When an error is sure to be reported *)
Fixpoint unsigned (e : wexpr) : Prop :=
  match e with
  | WVariable _ subs => fold_right (fun e P => unsigned e /\ P) True subs
  | WSign m e => m = false /\ unsigned e
  | WParen e => unsigned e
  | WBinary _ l r => unsigned l /\ unsigned r
  | _ => True
  end.
Definition op_unsigned (o : option wexpr) : Prop := match o with Some e => unsigned e | None => True end.
(** All variable symbols that have a value have a number. *)
Definition steady (w : Exp_Model.world) : Prop :=
  forall n zs v, Exp_Model.variable w n zs = inl v -> exists z, held v z.
