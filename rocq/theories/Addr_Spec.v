(** The number an address denotes once sections and spaces have their places. *)
From Coq Require Import List ZArith Bool.
From Verif Require Import Addr_Model.
Import ListNotations.
Local Open Scope Z_scope.

Record placement := { base_at : nat -> Z; space_len : nat -> Z }.

Fixpoint sum (l : list Z) : Z := match l with [] => 0 | x :: l' => x + sum l' end.

(** A resolved space is its length and the spaces it was resolved to, with multiplicity. *)
Fixpoint space_value (p : placement) (s : space) : Z :=
  match s with
  | Unres id => space_len p id
  | Res len ptrs => len + sum (map (fun e => snd e * space_value p (fst e)) ptrs)
  end.
Definition denotes (p : placement) (a : address) : Z :=
  sum (map (fun e => snd e * base_at p (fst e)) (bases a)) + offset_ a
  + sum (map (fun e => snd e * space_value p (fst e)) (spaces a)).
Definition value_denotes (p : placement) (v : value) : option Z :=
  match v with Undefined => None | Abs z => Some z | Reloc a => Some (denotes p a) end.

(** Every space that is already resolved occurs once wherever it occurs. *)
Fixpoint flat_space (s : space) : bool :=
  match s with
  | Unres _ => true
  | Res _ ptrs => forallb (fun e => (match fst e with Unres _ => true | Res _ _ => snd e =? 1 end) && flat_space (fst e)) ptrs
  end.
Definition flat (a : address) : bool :=
  forallb (fun e => (match fst e with Unres _ => true | Res _ _ => snd e =? 1 end) && flat_space (fst e)) (spaces a).

(** Sections and unresolved spaces occurring in both addresses occur equally often: the
    restriction under which subtraction is right. *)
Definition same_counts (l r : list (nat * Z)) : Prop := forall k n m, In (k, n) l -> In (k, m) r -> n = m.
