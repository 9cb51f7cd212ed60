(** The structure of a sublist operand, as trees with a text. *)
From Coq Require Import List NArith ZArith Bool.
From Verif Require Import Common Sub_Model.
Import ListNotations.
Open Scope N_scope.

(** A text that is one item: no comma or closing parenthesis outside of parentheses and of
    quoted strings, and none of both left open.  A quote after an attribute letter, as in L'A,
    does not start a string; parentheses are counted also inside of quotes. *)
Definition attribute_letter (c : N) : bool :=
  existsb (N.eqb c) (s2b "LISTDONKlistdonk").
Fixpoint plain (depth : nat) (quoted : bool) (prev : N) (s : bytes) : bool :=
  match s with
  | [] => Nat.eqb depth 0 && negb quoted
  | c :: r =>
      if quoted then plain depth (negb (c =? QUOTE)) c r
      else match depth with
           | S d => plain (if c =? LPAR then S depth else if c =? RPAR then d else depth) false c r
           | O => if c =? LPAR then plain 1 false c r
                  else if c =? QUOTE then plain 0 (negb (attribute_letter prev)) c r
                  else negb (c =? COMMA) && negb (c =? RPAR) && plain 0 false c r
           end
  end.

(** An item: a text, or a list with what directly follows its closing parenthesis. *)
Inductive tree := Text (s : bytes) | List (l : list tree) (suffix : bytes).

Fixpoint commas (l : list bytes) : bytes :=
  match l with
  | [] => []
  | [x] => x
  | x :: r => x ++ COMMA :: commas r
  end.
Fixpoint text (t : tree) : bytes :=
  match t with
  | Text s => s
  | List l suffix => LPAR :: commas (map text l) ++ RPAR :: suffix
  end.
Fixpoint well_formed (t : tree) : Prop :=
  match t with
  | Text s => plain 0 false 0 s = true /\ match s with c :: _ => c <> LPAR | [] => True end
  | List l suffix =>
      (fix all (l : list tree) : Prop := match l with [] => True | x :: r => well_formed x /\ all r end) l /\
      plain 0 false RPAR suffix = true
  end.

(** The items that the parser keeps: an empty one is lost if it is the last one or if it comes
    after a list with a suffix. *)
Definition is_empty (t : tree) : bool := match t with Text [] => true | _ => false end.
Definition suffixed (t : tree) : bool := match t with List _ (_ :: _) => true | _ => false end.
Fixpoint kept (after_suffix : bool) (l : list tree) : list tree :=
  match l with
  | [] => []
  | t :: r =>
      if is_empty t && (after_suffix || match r with [] => true | _ => false end) then kept false r
      else t :: kept (suffixed t) r
  end.

(** The data of an item. *)
Fixpoint data_of (t : tree) : data :=
  match t with
  | Text s => Single s
  | List l suffix =>
      let items :=
        (fix go (after_suffix : bool) (l : list tree) : list data :=
           match l with
           | [] => []
           | t :: r =>
               if is_empty t && (after_suffix || match r with [] => true | _ => false end) then go false r
               else data_of t :: go (suffixed t) r
           end) false l in
      match suffix with
      | [] => Composite items
      | _ => Single (LPAR :: commas (map get_value items) ++ RPAR :: suffix)
      end
  end.

(** Trees without a lost item. *)
Fixpoint clean (t : tree) : Prop :=
  match t with
  | Text _ => True
  | List l _ =>
      kept false l = l /\
      (fix all (l : list tree) : Prop := match l with [] => True | x :: r => clean x /\ all r end) l
  end.

(** No [a] directly before a [b]. *)
Definition without (a b : N) (s : bytes) : Prop := forall p q, s <> p ++ a :: b :: q.
