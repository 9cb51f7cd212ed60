(** Relocatable addresses and symbol values.
    parser_library/src/context/ordinary_assembly/address.cpp, symbol.cpp.

    Simplifications.  Sections and spaces are identified by numbers.  A space is modelled as the
    tree that its resolution spans at the time of the computation: an unresolved space is its
    identity, a resolved one has a length and the spaces it was resolved to.  The integers of
    addresses are unbounded (in the code an overflow is undefined behaviour); those of absolute
    symbol values are checked. *)
From Coq Require Import List ZArith Bool.
Import ListNotations.
Local Open Scope Z_scope.

(** address.h:103-137; [space_entry] is a pair of a space and a count. *)
Inductive space := Unres (id : nat) | Res (length : Z) (ptrs : list (space * Z)).
Definition sentry := (space * Z)%type.
Definition bentry := (nat * Z)%type.
Record address := mkAddr { bases : list bentry; offset_ : Z; spaces : list sentry }.

(** address.cpp:124-134 [get_space_offset]; the counts are not looked at. *)
Fixpoint space_offset (s : space) : Z :=
  match s with
  | Unres _ => 0
  | Res len ptrs => len + fold_right (fun e acc => space_offset (fst e) + acc) 0 ptrs
  end.
(** 136-142. *)
Definition offset (a : address) : Z :=
  offset_ a + fold_right (fun e acc => space_offset (fst e) + acc) 0 (spaces a).

(** 146-157 [insert]: unresolved spaces with their counts, in order of first appearance. *)
Definition uentry := (nat * Z)%type.
Fixpoint insert (id : nat) (n : Z) (l : list uentry) : list uentry :=
  match l with
  | [] => [(id, n)]
  | (j, m) :: l' => if Nat.eqb id j then (j, m + n) :: l' else (j, m) :: insert id n l'
  end.
(** 159-176 [get_unresolved_spaces], the accumulated list; the count of a resolved space is not
    looked at. *)
Fixpoint unres (s : space) (n : Z) (acc : list uentry) {struct s} : list uentry :=
  match s with
  | Unres id => insert id n acc
  | Res _ ptrs => fold_left (fun acc e => match e with (s', n') => unres s' n' acc end) ptrs acc
  end.
Definition unresolved (e : sentry) (acc : list uentry) : list uentry := unres (fst e) (snd e) acc.
Definition nonzero (e : uentry) : bool := negb (snd e =? 0).
(** 180-192. *)
Definition normalized_spaces (a : address) : list uentry :=
  filter nonzero (fold_left (fun acc e => unresolved e acc) (spaces a) []).
Definition as_spaces (l : list uentry) : list sentry := map (fun e => (Unres (fst e), snd e)) l.

(** 194-204, 356-368: the constructor normalizes. *)
Definition new_address (base : nat) (offs : Z) (sps : list space) : address :=
  let a := mkAddr [(base, 1)] offs (map (fun s => (s, 1)) sps) in
  mkAddr (bases a) (offset a) (as_spaces (normalized_spaces a)).

(** 223-268 [merge_entries]; [take] finds and removes the first entry of the right operand. *)
Inductive aop := ADD | SUB.
Fixpoint take (k : nat) (l : list uentry) : option (Z * list uentry) :=
  match l with
  | [] => None
  | (j, m) :: l' =>
      if Nat.eqb k j then Some (m, l')
      else match take k l' with Some (x, r) => Some (x, (j, m) :: r) | None => None end
  end.
Fixpoint merge (o : aop) (l r : list uentry) : list uentry :=
  match l with
  | [] => match o with ADD => r | SUB => map (fun e => (fst e, - snd e)) r end
  | (k, n) :: l' =>
      match take k r with
      | Some (m, r') =>
          let c := match o with ADD => m + n | SUB => m - n end in
          if c =? 0 then merge o l' r' else (k, c) :: merge o l' r'
      | None => (k, n) :: merge o l' r
      end
  end.

(** 270-291. *)
Definition combine (o : aop) (a b : address) : address :=
  mkAddr (merge o (bases a) (bases b))
    (match o with ADD => offset a + offset b | SUB => offset a - offset b end)
    (as_spaces (merge o (normalized_spaces a) (normalized_spaces b))).
Definition add := combine ADD.
Definition sub := combine SUB.
Definition add_int (a : address) (z : Z) : address := mkAddr (bases a) (offset_ a + z) (spaces a).
Definition sub_int (a : address) (z : Z) : address :=
  mkAddr (bases a) (offset a - z) (as_spaces (normalized_spaces a)).
Definition neg (a : address) : address :=
  mkAddr (merge SUB [] (bases a)) (- offset a) (as_spaces (merge SUB [] (normalized_spaces a))).

(** 318, 320-328, 342-348. *)
Definition is_simple (a : address) : bool :=
  match bases a with [(_, n)] => n =? 1 | _ => false end.
Fixpoint space_unresolved (s : space) : bool :=
  match s with
  | Unres _ => true
  | Res _ ptrs => existsb (fun e => space_unresolved (fst e)) ptrs
  end.
Definition has_unresolved_space (a : address) : bool := existsb (fun e => space_unresolved (fst e)) (spaces a).

(** symbol.h:36-60. *)
Inductive value := Undefined | Abs (z : Z) | Reloc (a : address).

(** An overflowing operation on [int32_t] is undefined behaviour. *)
Inductive result := Ub | Val (v : value).
Definition i32 (z : Z) : bool := (- 2 ^ 31 <=? z) && (z <? 2 ^ 31).
Definition abs (z : Z) : result := if i32 z then Val (Abs z) else Ub.

(** symbol.cpp:51-55, 83-87. *)
Definition collapse (a : address) : value :=
  match bases a with
  | [] => if has_unresolved_space a then Reloc a else Abs (offset a)
  | _ => Reloc a
  end.
(** symbol.cpp:33-63. *)
Definition vadd (x y : value) : result :=
  match x, y with
  | Undefined, _ | _, Undefined => Val Undefined
  | Abs a, Abs b => abs (a + b)
  | Abs a, Reloc b => Val (Reloc (add_int b a))
  | Reloc a, Abs b => Val (Reloc (add_int a b))
  | Reloc a, Reloc b => Val (collapse (add a b))
  end.
(** symbol.cpp:65-95; line 75 subtracts the left operand from the right one. *)
Definition vsub (x y : value) : result :=
  match x, y with
  | Undefined, _ | _, Undefined => Val Undefined
  | Abs a, Abs b => abs (a - b)
  | Abs a, Reloc b => Val (Reloc (sub_int b a))
  | Reloc a, Abs b => Val (Reloc (sub_int a b))
  | Reloc a, Reloc b => Val (collapse (sub a b))
  end.
(** symbol.cpp:97-127. *)
Definition vmul (x y : value) : result :=
  match x, y with Abs a, Abs b => abs (a * b) | _, _ => Val Undefined end.
Definition vdiv (x y : value) : result :=
  match x, y with
  | Abs a, Abs b => if b =? 0 then Val (Abs 0) else abs (Z.quot a b)
  | _, _ => Val Undefined
  end.
Definition vneg (x : value) : result :=
  match x with Undefined => Val Undefined | Abs a => abs (- a) | Reloc a => Val (Reloc (neg a)) end.
