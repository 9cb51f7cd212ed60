(** * Fld_Spec: operands as they are written

    An expression by its parts, the characters it is written with, and what it
    is read as: the values of its terms, its operations, and for each of them the
    place in the text.  Nothing here knows of tokens. *)
From Coq Require Import String Ascii List NArith ZArith Bool Arith.
From Verif Require Import Common.
From Verif Require Ebc_Spec Ebc_Model Ca_Spec.
From Verif Require Import Gram_Model.
Import ListNotations.
Open Scope list_scope.

(** ** Characters *)
Definition letter (c : N) : Prop := (65 <= c <= 90 \/ 97 <= c <= 122)%N.
Definition digit (c : N) : Prop := (48 <= c <= 57)%N.
Definition national (c : N) : Prop := c = 95%N \/ c = 64%N \/ c = 36%N \/ c = 35%N.   (* _ @ $ # *)
Definition big (c : N) : N := if ((97 <=? c) && (c <=? 122))%N then (c - 32)%N else c.
(** Names are read in capitals. *)
Definition named (n : list N) : string := string_of_list_ascii (map (fun c => ascii_of_N (big c)) n).

(** A symbol: a letter or one of _ @ $ #, then up to 62 of these and digits. *)
Definition symbol (n : list N) : Prop :=
  match n with
  | [] => False
  | c :: r => (letter c \/ national c) /\ Forall (fun c => letter c \/ national c \/ digit c) r
  end /\ (List.length n <= 63)%nat.

(** ** Terms *)

(** A character of a string: apostrophes and ampersands are written twice. *)
Definition doubled (c : N) : list N := if ((c =? 39) || (c =? 38))%N then [c; c] else [c].
Definition on_the_line (c : N) : Prop := c <> 10%N /\ c <> 13%N.

Inductive wexpr : Type :=
| WSymbol (n : list N)
| WQualified (q n : list N)
| WNumber (d : list N)
| WTerm (t : N) (s : list N)          (* X'...', B'...', C'...' *)
| WAttribute (a : N) (n : list N)     (* L'NAME *)
| WLocation
| WSign (minus : bool) (e : wexpr)
| WParen (e : wexpr)
| WBinary (o : bop) (l r : wexpr).

Definition mark (o : bop) : N := match o with OAdd => 43 | OSub => 45 | OMul => 42 | ODiv => 47 end%N.

Fixpoint written (e : wexpr) : list N :=
  match e with
  | WSymbol n => n
  | WQualified q n => q ++ 46%N :: n
  | WNumber d => d
  | WTerm t s => t :: 39%N :: flat_map doubled s ++ [39%N]
  | WAttribute a n => a :: 39%N :: n
  | WLocation => [42%N]
  | WSign m e => (if m then 45%N else 43%N) :: written e
  | WParen e => 40%N :: written e ++ [41%N]
  | WBinary o l r => written l ++ mark o :: written r
  end.
Notation size e := (List.length (written e)).

(** How tightly: 1 sums, 2 products, 3 the rest *)
Definition tight (e : wexpr) : nat :=
  match e with WBinary (OAdd | OSub) _ _ => 1 | WBinary (OMul | ODiv) _ _ => 2 | _ => 3 end.
Definition attribute (a : N) : Prop := In (big a) [68; 79; 78; 83; 75; 73; 76; 84]%N. (* D O N S K I L T *)

(** Operators of one rank from left to right, a sign belongs to the term behind
    it. *)
Fixpoint regular (e : wexpr) : Prop :=
  match e with
  | WSymbol n => symbol n
  | WQualified q n => symbol q /\ symbol n
  | WNumber d => d <> [] /\ Forall digit d
  | WTerm t s => In (big t) [66; 67; 88]%N /\ Forall on_the_line s
  | WAttribute a n => attribute a /\ symbol n
  | WLocation => True
  | WSign _ e => tight e = 3 /\ regular e
  | WParen e => regular e
  | WBinary o l r =>
      (tight (WBinary o l r) <= tight l /\ tight (WBinary o l r) < tight r)%nat /\ regular l /\ regular r
  end.

(** The value of a self-defining term: hexadecimal, binary, and the EBCDIC codes
    of characters, all 32-bit two's complement. *)
Inductive valued : N -> list N -> Z -> Prop :=
| v_hex : forall t s ds, big t = 88%N -> s <> [] -> Forall2 Ca_Spec.hex_digit s ds -> (List.length s <= 8)%nat ->
    valued t s (Ca_Spec.signed_of (Ca_Spec.numeral 16 ds))
| v_bin : forall t s ds, big t = 66%N -> s <> [] -> Forall2 Ca_Spec.bin_digit s ds -> (List.length s <= 32)%nat ->
    valued t s (Ca_Spec.signed_of (Ca_Spec.numeral 2 ds))
| v_chr : forall t bs, big t = 67%N -> bs <> [] -> Forall (fun b => 0 <= b < 256)%Z bs ->
    (List.length (Ebc_Spec.text (map (fun b => Ebc_Model.e2a (Z.to_N b)) bs)) <= 4)%nat ->
    valued t (map (fun b => Ebc_Model.e2a (Z.to_N b)) bs) (Ca_Spec.signed_of (Ca_Spec.numeral 256 bs)).

(** [reading p e m]: written from place [p] on, [e] is read as [m]. *)
Inductive reading : nat -> wexpr -> mexpr -> Prop :=
| r_symbol : forall p n, reading p (WSymbol n) (MAtom (ASymbol (named n)) (p, p + List.length n))
| r_qualified : forall p q n,
    reading p (WQualified q n) (MAtom (ASymbol (named n)) (p, p + size (WQualified q n)))
| r_number : forall p d ds, Forall2 Ca_Spec.dec_digit d ds -> (Ca_Spec.numeral 10 ds < 2147483648)%Z ->
    (List.length d <= 11)%nat ->
    reading p (WNumber d) (MAtom (AConstant (Ca_Spec.numeral 10 ds)) (p, p + List.length d))
| r_term : forall p t s v, valued t s v ->
    reading p (WTerm t s) (MAtom (AConstant v) (p, p + size (WTerm t s)))
| r_attribute : forall p a n,
    reading p (WAttribute a n) (MAtom (AAttribute (named [a]) (named n)) (p, p + size (WAttribute a n)))
| r_location : forall p, reading p WLocation (MLocation (p, p + 1))
| r_sign : forall p b e m, reading (p + 1) e m ->
    reading p (WSign b e) (MUnary (if b then UMinus else UPlus) m (p, p + size (WSign b e)))
| r_paren : forall p e m, reading (p + 1) e m ->
    reading p (WParen e) (MUnary UPar m (p, p + size (WParen e)))
| r_binary : forall p o l r ml mr, reading p l ml -> reading (p + size l + 1) r mr ->
    reading p (WBinary o l r) (MBinary o ml mr (p, p + size (WBinary o l r))).

(** ** Operands of machine instructions *)
Inductive woperand : Type :=
| WNone
| WExpr (e : wexpr)
| WBase (d b : wexpr)                 (* D(B) *)
| WIndexBase (d x b : wexpr)          (* D(X,B) *)
| WNoIndex (d b : wexpr)              (* D(,B) *)
| WNoBase (d x : wexpr).              (* D(X,) *)

Definition op_written (o : woperand) : list N :=
  match o with
  | WNone => []
  | WExpr e => written e
  | WBase d b => written d ++ 40%N :: written b ++ [41%N]
  | WIndexBase d x b => written d ++ 40%N :: written x ++ 44%N :: written b ++ [41%N]
  | WNoIndex d b => written d ++ 40%N :: 44%N :: written b ++ [41%N]
  | WNoBase d x => written d ++ 40%N :: written x ++ [44%N; 41%N]
  end.
Notation osize o := (List.length (op_written o)).
Definition op_regular (o : woperand) : Prop :=
  match o with
  | WNone => True
  | WExpr e => regular e
  | WBase d b => regular d /\ regular b
  | WIndexBase d x b => regular d /\ regular x /\ regular b
  | WNoIndex d b => regular d /\ regular b
  | WNoBase d x => regular d /\ regular x
  end.
Inductive op_reading (p : nat) : woperand -> mop -> Prop :=
| or_none : op_reading p WNone (OpEmpty p)
| or_expr : forall e m, reading p e m -> op_reading p (WExpr e) (OpExpr m (p, p + size e))
| or_base : forall d b md mb, reading p d md -> reading (p + size d + 1) b mb ->
    op_reading p (WBase d b) (OpAddress md None (Some mb) ONE_OP (p, p + osize (WBase d b)))
| or_index_base : forall d x b md mx mb, reading p d md -> reading (p + size d + 1) x mx ->
    reading (p + size d + size x + 2) b mb ->
    op_reading p (WIndexBase d x b)
      (OpAddress md (Some mx) (Some mb) PRESENT (p, p + osize (WIndexBase d x b)))
| or_no_index : forall d b md mb, reading p d md -> reading (p + size d + 2) b mb ->
    op_reading p (WNoIndex d b) (OpAddress md None (Some mb) FIRST_OMITTED (p, p + osize (WNoIndex d b)))
| or_no_base : forall d x md mx, reading p d md -> reading (p + size d + 1) x mx ->
    op_reading p (WNoBase d x) (OpAddress md (Some mx) None SECOND_OMITTED (p, p + osize (WNoBase d x))).

(** Operands with commas between them. *)
Fixpoint field (o : woperand) (l : list woperand) : list N :=
  match l with [] => op_written o | o2 :: l => op_written o ++ 44%N :: field o2 l end.
Inductive field_reading : nat -> woperand -> list woperand -> list mop -> Prop :=
| fr_one : forall p o m, op_reading p o m -> field_reading p o [] [m]
| fr_more : forall p o m o2 l ms, op_reading p o m -> field_reading (p + osize o + 1) o2 l ms ->
    field_reading p o (o2 :: l) (m :: ms).

(** What may stand behind the operands: nothing, or a remark set off by a
    blank. *)
Definition remark (r : list N) : Prop :=
  match r with [] => True | c :: r => c = 32%N /\ Forall on_the_line r end.
