(** Model of how a list of terms and operators becomes an expression tree:
    parser_library/src/expressions/conditional_assembly/terms/ca_expr_list.cpp and the
    operator tables of ca_expr_policy.cpp.

    An expression in parentheses reaches the code as a list of items; an item is a symbol
    (which may be a word that means an operator), a function call that the parser did not
    recognise as a built-in function, or any other term.

    Simplifications: other terms are opaque (a number); ranges are left out; the position
    [it] in the list is represented by what remains of the list from there on. *)
From Coq Require Import List NArith ZArith Bool.
From Verif Require Import Common Ca_Model.
Import ListNotations.
Open Scope Z_scope.

Inductive item :=
  | Sym (name : bytes)
  | Term (n : N)
  | Paren (n : N)                                     (* [ca_par_operator] *)
  (** [UNKNOWN] function: name, duplication factor, parameters *)
  | Call (name : bytes) (dupl : option N) (params : list N).

(** The kind of expression wanted: arithmetic, logical, character. *)
Inductive kind := KA | KB | KC.

(** ca_expr_policy.cpp:263-295 [get_expr_operator]. *)
Definition operator_names : list (bytes * op) :=
  [(s2b "SLA", SLA); (s2b "SLL", SLL); (s2b "SRA", SRA); (s2b "SRL", SRL);
   (s2b "FIND", FIND_op); (s2b "INDEX", INDEX_op);
   (s2b "AND_NOT", AND_NOT); (s2b "OR_NOT", OR_NOT); (s2b "XOR_NOT", XOR_NOT);
   (s2b "EQ", EQ); (s2b "NE", NE); (s2b "LE", LE); (s2b "LT", LT); (s2b "GE", GE); (s2b "GT", GT);
   (s2b "AND", AND); (s2b "OR", OR); (s2b "XOR", XOR); (s2b "NOT", NOT);
   (s2b "BYTE", BYTE_op); (s2b "DOUBLE", DOUBLE_op); (s2b "LOWER", LOWER_op);
   (s2b "SIGNED", SIGNED_op); (s2b "UPPER", UPPER_op)].
Fixpoint lookup (name : bytes) (t : list (bytes * op)) : op :=
  match t with
  | [] => UNKNOWN
  | (n, o) :: t' => if bytes_eqb name n then o else lookup name t'
  end.
Definition get_operator (name : bytes) : op := lookup name operator_names.

(** 21-27 *)
Definition is_unary (k : kind) (o : op) : bool :=
  match k, o with
  | KA, NOT | KB, NOT => true
  | KC, (BYTE_op | DOUBLE_op | LOWER_op | SIGNED_op | UPPER_op) => true
  | _, _ => false
  end.
(** 29-34 *)
Definition multiple_words (k : kind) (o : op) : bool :=
  match k, o with
  | KB, (AND | OR | XOR) => true
  | _, _ => false
  end.
(** 36-51 *)
Definition is_binary (k : kind) (o : op) : bool :=
  match k, o with
  | KA, (SLA | SLL | SRA | SRL | FIND_op | INDEX_op | AND | OR | XOR) => true
  | KB, (EQ | NE | LE | LT | GE | GT | AND | OR | XOR | AND_NOT | OR_NOT | XOR_NOT) => true
  | _, _ => false
  end.
(** 53-55 *)
Definition is_operator (k : kind) (o : op) : bool := is_unary k o || is_binary k o.
(** 114-164 *)
Definition get_priority (k : kind) (o : op) : Z :=
  match k, o with
  | KA, (FIND_op | INDEX_op) => 0
  | KA, NOT => 1
  | KA, (AND | OR | XOR) => 2
  | KA, (SLA | SLL | SRA | SRL) => 3
  | KB, (EQ | NE | LE | LT | GE | GT) => 0
  | KB, NOT => 1
  | KB, (AND | AND_NOT) => 2
  | KB, (OR | OR_NOT) => 3
  | KB, (XOR | XOR_NOT) => 4
  | _, _ => 0
  end.

Inductive tree :=
  | Leaf (i : item)
  | Un (o : op) (t : tree)
  | Bin (o : op) (l r : tree).

Inductive gdiag :=
  | CE001  (* operator expected *)
  | CE002  (* unknown operator *)
  | CE003. (* term expected *)

Inductive res (A : Type) :=
  | Got (v : A)
  | Err (d : gdiag).
Arguments Got {A}. Arguments Err {A}.

Definition is_not (i : item) : bool :=
  match i with Sym n => bytes_eqb n (s2b "NOT") | _ => false end.

(** ca_expr_list.cpp:214-244 [retrieve_binary_operator] at item [o], followed by [rest]: the
    operator, and whether it consists of two words. *)
Definition retrieve_binary_operator (k : kind) (o : item) (rest : list item) : res (op * bool) :=
  match o with
  | Sym name =>
      if negb (is_operator k (get_operator name)) then Err CE002
      else if multiple_words k (get_operator name)
              && match rest with n :: _ => is_not n | [] => false end
      then Got (get_operator (name ++ s2b "_NOT"), true)
      else Got (get_operator name, false)
  | _ => Err CE001
  end.

(** 174-177: the operator a term position starts with, if it is a unary one. *)
Definition unary_at (k : kind) (i : item) : option op :=
  match i with
  | Sym name => if is_unary k (get_operator name) then Some (get_operator name) else None
  | _ => None
  end.

(** 157-212 [retrieve_term]: the tree and what remains of the list. *)
Fixpoint retrieve_term (k : kind) (l : list item) (priority : Z) {struct l} : res (tree * list item) :=
  match l with
  | [] => Err CE003                                                   (* 161-168 *)
  | curr :: r1 =>
      match unary_at k curr with
      | Some u =>                                                     (* 174-185 *)
          match retrieve_term k r1 (get_priority k u) with
          | Got (t, r) => Got (Un u t, r)
          | Err d => Err d
          end
      | None =>
          match r1 with
          | [] => Got (Leaf curr, [])                                 (* 188-189 *)
          | o :: r2 =>
              match retrieve_binary_operator k o r2 with              (* 192-198 *)
              | Err d => Err d
              | Got (b, two) =>
                  if priority <=? get_priority k b then Got (Leaf curr, r1)   (* 201-202 *)
                  else
                    match (if two then
                             match r2 with
                             | _ :: r3 => retrieve_term k r3 (get_priority k b)
                             | [] => retrieve_term k r2 (get_priority k b)
                             end
                           else retrieve_term k r2 (get_priority k b)) with
                    | Got (t, r) => Got (Bin b (Leaf curr) t, r)      (* 206-211 *)
                    | Err d => Err d
                    end
              end
          end
      end
  end.

(** The loop of [resolve] (130-141).  After an error of [retrieve_binary_operator] the term
    behind it is still retrieved, which may add a second diagnostic.  [None]: the bound on the
    number of rounds is exhausted (it never is, see [loop_rounds] in Grp_Proof.v). *)
Definition tails (two : bool) (r : list item) : list item :=
  match two, r with true, _ :: r' => r' | _, _ => r end.
Fixpoint loop (n : nat) (k : kind) (final : tree) (l : list item) : option (tree + list gdiag) :=
  match l with
  | [] => Some (inl final)
  | o :: r =>
      match n with
      | O => None
      | S n' =>
          match retrieve_binary_operator k o r with
          | Err d => Some (inr (d :: match retrieve_term k r 0 with Err d' => [d'] | Got _ => [] end))
          | Got (b, two) =>
              match retrieve_term k (tails two r) (get_priority k b) with
              | Got (t, r') => loop n' k (Bin b final t) r'
              | Err d => Some (inr [d])
              end
          end
      end
  end.

(** 115-155 [resolve] up to the resolution of the tree's own types. *)
Definition resolve (k : kind) (l : list item) : option (tree + list gdiag) :=
  match l with
  | [] => Some (inr [CE003])
  | _ => match retrieve_term k l 0 with
         | Got (t, r) => loop (length l) k t r
         | Err d => Some (inr [d])
         end
  end.

(** 80-113 [unknown_functions_to_operators], for logical expressions: from the last item to
    the first, [ (d)NAME(p) ] becomes the three items (d), NAME, (p) and [ NAME(p) ] the two
    items NAME, (p). *)
Fixpoint set_nth (n : nat) (x : item) (l : list item) : list item :=
  match l, n with
  | [], _ => []
  | _ :: l', O => x :: l'
  | y :: l', S n' => y :: set_nth n' x l'
  end.
Definition insert_at (n : nat) (x : item) (l : list item) : list item := firstn n l ++ x :: skipn n l.
Definition convert_at (idx : nat) (l : list item) : list item :=
  match nth_error l idx with
  | Some (Call name (Some d) [p]) =>
      insert_at (idx + 1) (Sym name) (insert_at (idx + 1) (Paren p) (set_nth idx (Paren d) l))
  | Some (Call name None [p]) => insert_at (idx + 1) (Paren p) (set_nth idx (Sym name) l)
  | _ => l
  end.
Fixpoint unknown_functions_to_operators (n : nat) (l : list item) : list item :=
  match n with
  | O => l
  | S idx => unknown_functions_to_operators idx (convert_at idx l)
  end.

(** 44-59 [resolve_expression_tree]. *)
Definition resolve_expression_tree (k : kind) (l : list item) : option (tree + list gdiag) :=
  match k with
  | KB => resolve KB (unknown_functions_to_operators (length l) l)
  | _ => resolve k l
  end.
