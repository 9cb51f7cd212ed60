(** What a message about a syntax error claims about the statement. *)

From Coq Require Import String List Arith Bool.
Import ListNotations.
From Verif Require Import Err_Model.
Open Scope list_scope.
Open Scope nat_scope.

Definition tok_eq_dec (a b : tok) : {a = b} + {a <> b}.
Proof. decide equality. Defined.
Definition occurrences (t : tok) (l : list tok) : nat := count_occ tok_eq_dec l t.

(** The part of the statement the message is about: from the token where the
    decision began, without leading spaces, to the end of the statement (or of
    the file, if it ends there). *)
Definition part_of (ts : list tok) (start : nat) (part : list tok) : Prop :=
  exists spaces,
    (forall x, In x spaces -> x = SPACE)
    /\ (forall r, part <> SPACE :: r)
    /\ ~ In EOLLN part
    /\ ((exists r, skipn start ts = spaces ++ part ++ EOLLN :: r)
        \/ skipn start ts = spaces ++ part).

Definition comparison (t : tok) : Prop := In t [LT; GT; EQUALS; EQ; OR; AND; LE; LTx; GTx; GE; NE].
Definition sign (t : tok) : Prop := In t [ASTERISK; MINUS; PLUS; SLASH] \/ comparison t.
Definition begins_operand (l : list tok) : Prop :=
  exists t r, l = t :: r /\ In t [IDENTIFIER; ORDSYMBOL; AMPERSAND; LPAR; CONTINUATION; COMMENT].
Definition ends_operand (l : list tok) : Prop :=
  exists t r, l = r ++ [t] /\ In t [IDENTIFIER; ORDSYMBOL; AMPERSAND; RPAR; CONTINUATION; COMMENT].

(** What each message claims. *)
Definition claims (part : list tok) (apostrophe_expected column0 : bool) (c : code) : Prop :=
  match c with
  | S0012 => exists a b, part = a ++ b /\ occurrences LPAR a < occurrences RPAR a
  | S0011 => occurrences RPAR part < occurrences LPAR part
  | S0010 => forall t, In t part -> t = LPAR \/ t = RPAR
  | S0009 => exists a t b, part = a ++ t :: b /\ sign t /\ ~ begins_operand b
  | S0008 => exists a b, part = a ++ AMPERSAND :: b /\ ~ begins_operand b
  | S0007 => exists a t b, part = a ++ t :: b /\ sign t /\ t <> PLUS /\ t <> MINUS /\ ~ ends_operand a
  | S0006 => exists t, In t part /\ comparison t
  | S0005 => Nat.odd (occurrences APOSTROPHE part) = true /\ apostrophe_expected = true
  | S0004 => column0 = true
  | S0002 => True
  | S0001 | S0003 => False
  end.

(** The order in which they are considered. *)
Definition order : list code := [S0012; S0011; S0010; S0009; S0008; S0007; S0006; S0005; S0004; S0002].

Definition first_claim (part : list tok) (a c0 : bool) (c : code) : Prop :=
  exists before after, order = before ++ c :: after /\ claims part a c0 c
  /\ forall x, In x before -> ~ claims part a c0 x.
