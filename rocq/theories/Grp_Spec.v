(** What grouping by priority means, stated on trees and on the list as written. *)
From Coq Require Import List NArith ZArith Bool.
From Verif Require Import Common Ca_Model Grp_Model.
Import ListNotations.
Open Scope Z_scope.

(** ** The operators of the language *)

(** By priority, strongest first. *)
Definition levels (k : kind) : list (list op) :=
  match k with
  | KA => [[FIND_op; INDEX_op]; [NOT]; [AND; OR; XOR]; [SLA; SLL; SRA; SRL]]
  | KB => [[EQ; NE; LE; LT; GE; GT]; [NOT]; [AND; AND_NOT]; [OR; OR_NOT]; [XOR; XOR_NOT]]
  | KC => [[BYTE_op; DOUBLE_op; LOWER_op; SIGNED_op; UPPER_op]]
  end.
(** Operators written in front of their only operand. *)
Definition prefix (o : op) : Prop := In o [NOT; BYTE_op; DOUBLE_op; LOWER_op; SIGNED_op; UPPER_op].

(** [rank k o p]: [o] is an operator of level [p]. *)
Definition rank (k : kind) (o : op) (p : Z) : Prop :=
  0 <= p /\ exists ls, nth_error (levels k) (Z.to_nat p) = Some ls /\ In o ls.

Definition spelling (o : op) : bytes :=
  match o with
  | SLA => s2b "SLA" | SLL => s2b "SLL" | SRA => s2b "SRA" | SRL => s2b "SRL"
  | FIND_op => s2b "FIND" | INDEX_op => s2b "INDEX"
  | AND => s2b "AND" | OR => s2b "OR" | XOR => s2b "XOR" | NOT => s2b "NOT"
  | EQ => s2b "EQ" | NE => s2b "NE" | LE => s2b "LE" | LT => s2b "LT" | GE => s2b "GE" | GT => s2b "GT"
  | AND_NOT => s2b "AND_NOT" | OR_NOT => s2b "OR_NOT" | XOR_NOT => s2b "XOR_NOT"
  | BYTE_op => s2b "BYTE" | DOUBLE_op => s2b "DOUBLE" | LOWER_op => s2b "LOWER"
  | SIGNED_op => s2b "SIGNED" | UPPER_op => s2b "UPPER"
  | UNKNOWN => []
  end.

Definition prefix_word (k : kind) (i : item) (u : op) : Prop :=
  (exists p, rank k u p) /\ prefix u /\ i = Sym (spelling u).

(** In logical expressions AND, OR or XOR and a NOT behind it are one operator. *)
Definition joined (o b : op) : Prop := In (o, b) [(AND, AND_NOT); (OR, OR_NOT); (XOR, XOR_NOT)].

(** [operator_words k b w next]: the words [w], in front of [next], are the operator [b]. *)
Inductive operator_words (k : kind) (b : op) : list item -> list item -> Prop :=
  | one_word : forall p next, rank k b p ->
      (forall c next', k = KB -> joined b c -> next <> Sym (s2b "NOT") :: next') ->
      operator_words k b [Sym (spelling b)] next
  | two_words : forall o next, k = KB -> joined o b ->
      operator_words k b [Sym (spelling o); Sym (s2b "NOT")] next.

(** ** [written k t w]: reading [w] from left to right one meets exactly the operands and
    operators of [t], in order. *)
Inductive written (k : kind) : tree -> list item -> Prop :=
  | w_leaf : forall i, (forall u, ~ prefix_word k i u) -> written k (Leaf i) [i]
  | w_un : forall u i t w, prefix_word k i u -> written k t w -> written k (Un u t) (i :: w)
  | w_bin : forall b l r wl wo wr, written k l wl -> written k r wr -> operator_words k b wo wr ->
      written k (Bin b l r) (wl ++ wo ++ wr).

(** ** Grouping by priority *)

(** The operators at the right edge of a tree - the ones a following operator could steal the
    last operand from - and the binary operators at its left edge. *)
Fixpoint right_edge (t : tree) : list op :=
  match t with
  | Leaf _ => []
  | Un u t' => u :: right_edge t'
  | Bin b _ r => b :: right_edge r
  end.
Fixpoint left_edge (t : tree) : list op :=
  match t with
  | Leaf _ | Un _ _ => []
  | Bin b l _ => b :: left_edge l
  end.

Definition stronger (k : kind) (a b : op) : Prop := exists p q, rank k a p /\ rank k b q /\ p < q.

(** No operator stands below a weaker one that would have taken its operand: what is left of
    an operator is at least as strong, what is right of it is stronger. *)
Inductive grouped (k : kind) : tree -> Prop :=
  | g_leaf : forall i, grouped k (Leaf i)
  | g_un : forall u t, grouped k t -> Forall (fun o => stronger k o u) (left_edge t) ->
      grouped k (Un u t)
  | g_bin : forall b l r, grouped k l -> grouped k r ->
      Forall (fun o => ~ stronger k b o) (right_edge l) ->
      Forall (fun o => stronger k o b) (left_edge r) ->
      grouped k (Bin b l r).

(** ** The lists on which the program groups wrongly *)

(** The operators in the order of writing; [true] marks the ones in front of an operand. *)
Fixpoint operators (t : tree) : list (bool * op) :=
  match t with
  | Leaf _ => []
  | Un u t' => (true, u) :: operators t'
  | Bin b l r => operators l ++ (false, b) :: operators r
  end.

(** A run of operators each of which is stronger than the one before it or stands in front of
    an operand. *)
Fixpoint falling (k : kind) (os : list (bool * op)) : Prop :=
  match os with
  | x :: ((y :: _) as os') => (fst y = true \/ stronger k (snd y) (snd x)) /\ falling k os'
  | _ => True
  end.

(** A run, and behind it an operator that ends it but is stronger than the first of the run. *)
Definition dip (k : kind) (os : list (bool * op)) : Prop :=
  exists a x run z b, os = a ++ (x :: run) ++ (false, z) :: b /\ falling k (x :: run) /\
    ~ stronger k z (snd (last (x :: run) x)) /\ stronger k z (snd x).

(** ** Well-formed lists: every operand may have prefix operators in front, and between two
    operands stands an operator. *)
Definition operator_word (k : kind) (i : item) : Prop :=
  exists o p, rank k o p /\ i = Sym (spelling o).
Inductive wants_term (k : kind) : list item -> Prop :=
  | wt_prefix : forall i u l, prefix_word k i u -> wants_term k l -> wants_term k (i :: l)
  | wt_operand : forall i l, (forall u, ~ prefix_word k i u) -> wants_operator k l ->
      wants_term k (i :: l)
with wants_operator (k : kind) : list item -> Prop :=
  | wo_end : wants_operator k []
  | wo_operator : forall i l, operator_word k i -> wants_term k l -> wants_operator k (i :: l).

(** ** Unrecognised function calls are operators with an operand in parentheses *)
Definition unfold_call (i : item) : list item :=
  match i with
  | Call name (Some d) [p] => [Paren d; Sym name; Paren p]
  | Call name None [p] => [Sym name; Paren p]
  | _ => [i]
  end.
