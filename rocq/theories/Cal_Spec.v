(** * Cal_Spec: conditions as they are written, and when they hold *)
From Coq Require Import String List NArith ZArith Bool Arith.
From Verif Require Import Common.
From Verif Require Fld_Spec Exp_Model.
From Verif Require Import Caf_Spec.
Import ListNotations.
Open Scope list_scope.

Inductive rel := Equal | Unequal | AtMost | Less | AtLeast | More.
Inductive joint := Both | Either | OneOf.
Inductive cond :=
| Truth (e : wexpr)                             (* a term that is 0 or 1 *)
| Compare (r : rel) (e1 e2 : wexpr)
| Not (c : cond)
| Join (o : joint) (negated : bool) (l r : cond)      (* AND, AND NOT and so on *)
| Paren (c : cond).

Definition rel_word (r : rel) : list N :=
  s2b match r with Equal => "EQ" | Unequal => "NE" | AtMost => "LE" | Less => "LT" | AtLeast => "GE" | More => "GT" end.
Definition joint_word (o : joint) : list N := s2b match o with Both => "AND" | Either => "OR" | OneOf => "XOR" end.
Definition not_word : list N := s2b "NOT".
(** In capital or small letters. *)
Definition spelled (w s : list N) : Prop := map Fld_Spec.big s = w.
Definition pad (g : list N) : Prop := exists k, g = repeat 32%N k.
Definition gap (g : list N) : Prop := exists k, g = repeat 32%N (S k).

Inductive text : cond -> list N -> Prop :=
| t_truth : forall e, text (Truth e) (written e)
| t_compare : forall r e1 e2 g s h, gap g -> gap h -> spelled (rel_word r) s ->
    text (Compare r e1 e2) (written e1 ++ g ++ s ++ h ++ written e2)
| t_not : forall c s g t, gap g -> spelled not_word s -> text c t -> text (Not c) (s ++ g ++ t)
| t_join : forall o l r a b g s h, gap g -> gap h -> spelled (joint_word o) s -> text l a -> text r b ->
    text (Join o false l r) (a ++ g ++ s ++ h ++ b)
| t_join_not : forall o l r a b g s h n i, gap g -> gap h -> gap i -> spelled (joint_word o) s -> spelled not_word n ->
    text l a -> text r b -> text (Join o true l r) (a ++ g ++ s ++ h ++ n ++ i ++ b)
| t_paren : forall c t p q, pad p -> pad q -> text c t -> text (Paren c) (40%N :: p ++ t ++ q ++ [41%N]).

(** AND binds before OR, OR before XOR, comparisons before NOT and NOT before those; they go from left to right.
    On the right of AND, OR or XOR stands a term, a comparison or a condition in parentheses. *)
Definition level (c : cond) : nat :=
  match c with Join Both _ _ _ => 2 | Join Either _ _ _ => 3 | Join OneOf _ _ _ => 4 | _ => 1 end.
Definition simple (c : cond) : Prop := match c with Truth _ | Compare _ _ _ | Paren _ => True | _ => False end.
Definition atom (e : wexpr) : Prop := match e with WNumber _ | WTerm _ _ | WSymbol _ | WVariable _ _ => True | _ => False end.
Fixpoint sound (c : cond) : Prop :=
  match c with
  | Truth e => atom e /\ regular e /\ plain e
  | Compare _ e1 e2 => (regular e1 /\ plain e1) /\ regular e2 /\ plain e2
  | Not c => level c = 1 /\ sound c
  | Join o n l r => level l <= level (Join o n l r) /\ simple r /\ sound l /\ sound r
  | Paren c => sound c
  end.

Open Scope Z_scope.
Definition test (r : rel) (a b : Z) : bool :=
  match r with
  | Equal => a =? b | Unequal => negb (a =? b) | AtMost => a <=? b | Less => a <? b | AtLeast => b <=? a | More => b <? a
  end.
Definition combined (o : joint) (a b : bool) : bool :=
  match o with Both => a && b | Either => a || b | OneOf => xorb a b end.
Definition variable_name (e : wexpr) : bool := match e with WVariable _ _ => true | _ => false end.

(** [holds w c None]: an error, of a part or of the whole. *)
Inductive holds (w : Exp_Model.world) : cond -> option bool -> Prop :=
| h_value : forall e z, variable_name e = false -> worth w e (Some z) -> z = 0 \/ z = 1 -> holds w (Truth e) (Some (z =? 1))
| h_value_wrong : forall e, variable_name e = false -> worth w e None -> holds w (Truth e) None
| h_variable : forall n subs zs v z, outcomes w subs (map Some zs) -> Exp_Model.variable w (map Fld_Spec.big n) zs = inl v ->
    held v z -> v <> Exp_Model.VChar [] -> z = 0 \/ z = 1 -> holds w (Truth (WVariable n subs)) (Some (z =? 1))
| h_unknown : forall n subs zs d, outcomes w subs (map Some zs) -> Exp_Model.variable w (map Fld_Spec.big n) zs = inr d ->
    holds w (Truth (WVariable n subs)) None
| h_subscript : forall n subs os, outcomes w subs os -> In None os -> holds w (Truth (WVariable n subs)) None
| h_compare : forall r e1 e2 a b, worth w e1 (Some a) -> worth w e2 (Some b) -> -2147483648 <= a - b <= 2147483647 ->
    holds w (Compare r e1 e2) (Some (test r a b))
| h_compare_left : forall r e1 e2 b, worth w e1 None -> worth w e2 b -> holds w (Compare r e1 e2) None
| h_compare_right : forall r e1 e2 a, worth w e1 a -> worth w e2 None -> holds w (Compare r e1 e2) None
| h_not : forall c o, holds w c o -> holds w (Not c) (option_map negb o)
| h_join : forall o n l r a b, holds w l (Some a) -> holds w r (Some b) -> holds w (Join o n l r) (Some (combined o a (xorb n b)))
| h_join_left : forall o n l r b, holds w l None -> holds w r b -> holds w (Join o n l r) None
| h_join_right : forall o n l r a, holds w l a -> holds w r None -> holds w (Join o n l r) None
| h_paren : forall c o, holds w c o -> holds w (Paren c) o.
Close Scope Z_scope.

(** ** Operand fields *)
(** AIF: conditions in parentheses, each with a period and its sequence symbol. *)
Definition branch_text (b : cond * list N) (t : list N) : Prop :=
  exists u, text (Paren (fst b)) u /\ t = u ++ 46%N :: snd b.
Definition branch_sound (b : cond * list N) : Prop := sound (fst b) /\ Fld_Spec.symbol (snd b).
(** The first condition that is true says where to go, provided those before it are no errors. *)
Fixpoint decided (l : list (option bool * list N)) : option (option (list N)) :=
  match l with
  | [] => Some None
  | (None, _) :: _ => None
  | (Some true, n) :: _ => Some (Some (map Fld_Spec.big n))
  | (Some false, _) :: r => decided r
  end.
(** SETB: a term, or a condition in parentheses. *)
Definition operand_form (c : cond) : Prop := match c with Truth _ | Paren _ => True | _ => False end.
