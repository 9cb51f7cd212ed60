(** Vocabulary for the conditional-assembly properties, written without reference to the
    model's functions. *)
From Coq Require Import List NArith ZArith Bool.
From Verif Require Import Common Ebc_Spec.
Import ListNotations.
Open Scope Z_scope.

(** 32-bit integers. *)
Definition int32 (n : Z) : Prop := -2147483648 <= n < 2147483648.

(** ** Shifts of a 32-bit register by [s] positions (z/Architecture Principles of Operation) *)

(** Logical shifts move all 32 bits of the register. *)
Definition register (n : Z) : Z := n mod 2 ^ 32.
Definition signed_of (r : Z) : Z := (r + 2 ^ 31) mod 2 ^ 32 - 2 ^ 31.
Definition shift_left_logical (n s : Z) : Z := signed_of (register n * 2 ^ s).
Definition shift_right_logical (n s : Z) : Z := signed_of (register n / 2 ^ s).
(** Arithmetic shifts keep the sign bit and move the 31 others; the right shift fills with
    the sign, which is division rounding down. *)
Definition shift_left_arithmetic (n s : Z) : Z :=
  (if n <? 0 then - 2 ^ 31 else 0) + (n * 2 ^ s) mod 2 ^ 31.
Definition shift_right_arithmetic (n s : Z) : Z := n / 2 ^ s.

(** ** Numerals *)

(** The number with digits [ds], most significant first. *)
Fixpoint numeral (base : Z) (ds : list Z) : Z :=
  match ds with
  | [] => 0
  | d :: ds' => d * base ^ Z.of_nat (length ds') + numeral base ds'
  end.

Definition bin_digit (c : N) (d : Z) : Prop := Z.of_N c = 48 + d /\ 0 <= d <= 1.
Definition dec_digit (c : N) (d : Z) : Prop := Z.of_N c = 48 + d /\ 0 <= d <= 9.
Definition upper_hex_digit (c : N) (d : Z) : Prop :=
  Z.of_N c = 48 + d /\ 0 <= d <= 9 \/ Z.of_N c = 65 + (d - 10) /\ 10 <= d <= 15.
Definition hex_digit (c : N) (d : Z) : Prop :=
  upper_hex_digit c d \/ Z.of_N c = 97 + (d - 10) /\ 10 <= d <= 15.

(** A decimal number with an optional sign. *)
Inductive signed_decimal : bytes -> Z -> Prop :=
  | dec_plain : forall s ds, s <> [] -> Forall2 dec_digit s ds -> signed_decimal s (numeral 10 ds)
  | dec_plus : forall s ds, s <> [] -> Forall2 dec_digit s ds ->
      signed_decimal (43%N :: s) (numeral 10 ds)
  | dec_minus : forall s ds, s <> [] -> Forall2 dec_digit s ds ->
      signed_decimal (45%N :: s) (- numeral 10 ds).

(** ** Strings *)

(** [cut s b n r]: [r] is what [s] holds at positions [b], [b]+1, ..., [b]+[n]-1 (counted from
    1), as far as [s] reaches. *)
Definition cut (s : bytes) (b n : Z) (r : bytes) : Prop :=
  Z.of_nat (length r) = Z.min n (Z.of_nat (length s) - b + 1) /\
  forall i c, nth_error r i = Some c -> nth_error s (i + Z.to_nat (b - 1)) = Some c.

(** [first_at P n]: [n] is the least number with [P]. *)
Definition first_at (P : nat -> Prop) (n : nat) : Prop := P n /\ forall m, P m -> (n <= m)%nat.

(** [occurs t s i]: [t] stands in [s] at offset [i]. *)
Definition occurs (t s : bytes) (i : nat) : Prop := exists a b, s = a ++ t ++ b /\ length a = i.

(** The order of the EBCDIC collating sequence on texts of Latin-1 characters; [pos] gives
    the position of a character in the code page. *)
Inductive precedes (pos : N -> N) : list N -> list N -> Prop :=
  | pre_prefix : forall y b, precedes pos [] (y :: b)
  | pre_here : forall x y a b, (pos x < pos y)%N -> precedes pos (x :: a) (y :: b)
  | pre_later : forall x a b, precedes pos a b -> precedes pos (x :: a) (x :: b).

(** Doubling quotes and ampersands, as a relation. *)
Inductive doubling : bytes -> bytes -> Prop :=
  | dbl_nil : doubling [] []
  | dbl_special : forall c a b, c = 39%N \/ c = 38%N -> doubling a b -> doubling (c :: a) (c :: c :: b)
  | dbl_other : forall c a b, c <> 39%N -> c <> 38%N -> doubling a b -> doubling (c :: a) (c :: b).
