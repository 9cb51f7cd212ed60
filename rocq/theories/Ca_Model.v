(** Model of conditional-assembly arithmetic, strings and built-in functions:
    parser_library/src/expressions/conditional_assembly/
      ca_operator_binary.cpp, ca_operator_unary.cpp, terms/ca_string.cpp,
      terms/ca_function.cpp, terms/ca_constant.cpp.

    An [A_t] is an [int] (32 bits, two's complement): a [Z] between -2^31 and 2^31-1.
    A [C_t] is a [std::string]: a byte string holding UTF-8.

    Every operation yields one of
    - [Ok v]: the value,
    - [Fail d]: diagnostic [d] is added and the value is the default of its type (0 or ""),
    - [Bad]: the C++ expression has undefined behaviour.

    Simplifications: [isxdigit], [isdigit], [tolower], [toupper] are the "C" locale functions
    and are the identity or false on bytes from 128 on (strictly, passing them a negative
    [char] is undefined); evaluating the operands themselves (symbols, attributes,
    concatenations) is not part of this model. *)
From Coq Require Import List NArith ZArith Bool.
From Verif Require Import Common Ebc_Model.
Import ListNotations.
Open Scope Z_scope.

Inductive diag :=
  | CE004  (* wrong operand type *)
  | CE007  (* bad parameter of a function *)
  | CE008  (* substring start or length is not positive *)
  | CE009  (* substring start beyond the string *)
  | CE010  (* negative duplication factor *)
  | CE011  (* string too long *)
  | CE013  (* overflow *)
  | CE014  (* underflow *)
  | CE015. (* bad self-defining term *)

Inductive out (A : Type) :=
  | Ok (v : A)
  | Fail (d : diag)
  | Bad.
Arguments Ok {A}. Arguments Fail {A}. Arguments Bad {A}.

Definition INT_MAX : Z := 2147483647.
Definition INT_MIN : Z := -2147483648.
Definition W : Z := 4294967296.                     (* 2^32 *)

(** Reinterpreting 32 bits as [int] ([return result;] with [unsigned result], and
    [*reinterpret_cast<int*>(&res)]) and as [uint32_t]. *)
Definition to_signed (u : Z) : Z := if u <? 2147483648 then u else u - W.
Definition to_unsigned (n : Z) : Z := n mod W.

(** ** Arithmetic: ca_operator_binary.cpp *)

(** 260-274 [overflow_transform] on an [int64_t]. *)
Definition overflow_transform (v : Z) : out Z :=
  if v >? INT_MAX then Fail CE013
  else if v <? INT_MIN then Fail CE014
  else Ok v.

(** 276-300 [ca_add], [ca_sub], [ca_mul], [ca_div]: computed in 64 bits, where nothing
    overflows for 32-bit operands ([ca_exact64] in Ca_Proof.v). *)
Definition ca_add (a b : Z) : out Z := overflow_transform (a + b).
Definition ca_sub (a b : Z) : out Z := overflow_transform (a - b).
Definition ca_mul (a b : Z) : out Z := overflow_transform (a * b).
Definition ca_div (a b : Z) : out Z :=
  if b =? 0 then Ok 0 else overflow_transform (Z.quot a b).

(** ca_operator_unary.cpp:110-118: unary plus and minus; [-INT_MIN] overflows an [int]. *)
Definition ca_plus (a : Z) : out Z := Ok a.
Definition ca_minus (a : Z) : out Z := if a =? INT_MIN then Bad else Ok (- a).

Inductive op :=
  | SLA | SLL | SRA | SRL | FIND_op | INDEX_op | AND | OR | XOR | NOT
  | EQ | NE | LE | LT | GE | GT | AND_NOT | OR_NOT | XOR_NOT
  | BYTE_op | DOUBLE_op | LOWER_op | SIGNED_op | UPPER_op | UNKNOWN.

(** ca_operator_binary.cpp:102-153 [shift_operands]. *)
Definition shift_operands (lhs rhs : Z) (o : op) : Z :=
  let shift_part := Z.land rhs 63 in
  if shift_part =? 0 then rhs                                              (* 104-106 *)
  else
    let u := to_unsigned lhs in
    let sign_bit := Z.land u 2147483648 in
    if 32 <=? shift_part then
      to_signed (match o with
                 | SLA => sign_bit
                 | SRA => 4294967295
                 | _ => 0
                 end)
    else
      to_signed (match o with
                 | SLA => Z.lor (to_unsigned (Z.shiftl u shift_part)) sign_bit
                 | SLL => to_unsigned (Z.shiftl u shift_part)
                 | SRA => if sign_bit =? 0 then Z.shiftr u shift_part
                          else Z.lor (Z.shiftr u shift_part)
                                 (to_unsigned (Z.shiftl 4294967295 (32 - shift_part)))
                 | SRL => Z.shiftr u shift_part
                 | _ => 0
                 end).

(** ** Strings *)

(** terms/ca_string.h:38 *)
Definition MAX_STR_SIZE : Z := 4064.
Definition size (s : bytes) : Z := Z.of_nat (length s).

(** ca_operator_binary.cpp:302-314 [ca_conc]. *)
Definition ca_conc (a b : bytes) : out bytes :=
  if size a + size b >? MAX_STR_SIZE then Fail CE011 else Ok (a ++ b).

(** [std::string::compare]: the bytes compared as [unsigned char], a proper prefix is less. *)
Fixpoint compare (a b : bytes) : Z :=
  match a, b with
  | [], [] => 0
  | [], _ => -1
  | _, [] => 1
  | x :: a', y :: b' => if (x <? y)%N then -1 else if (y <? x)%N then 1 else compare a' b'
  end.

(** ca_operator_binary.cpp:220-228 [compare_string]. *)
Definition compare_string (a b : bytes) : out Z :=
  if negb (size a - size b =? 0) then Ok (size a - size b)
  else match to_ebcdic a, to_ebcdic b with
       | Some x, Some y => Ok (compare x y)
       | _, _ => Bad
       end.

(** 230-242 [compare_relational] on two arithmetic operands: an [int] subtraction. *)
Definition compare_a (a b : Z) : out Z :=
  if (INT_MIN <=? a - b) && (a - b <=? INT_MAX) then Ok (a - b) else Bad.

(** 184-196: the relational operators applied to the result of the comparison. *)
Definition relation (o : op) (comp : Z) : bool :=
  match o with
  | EQ => comp =? 0
  | NE => negb (comp =? 0)
  | LE => comp <=? 0
  | LT => comp <? 0
  | GE => comp >=? 0
  | GT => comp >? 0
  | _ => false
  end.

Definition relational_a (o : op) (a b : Z) : out bool :=
  match compare_a a b with Ok c => Ok (relation o c) | Fail d => Fail d | Bad => Bad end.
Definition relational_c (o : op) (a b : bytes) : out bool :=
  match compare_string a b with Ok c => Ok (relation o c) | Fail d => Fail d | Bad => Bad end.

(** 169-174 and ca_operator_unary.cpp:73-77: bitwise operators on [int]. *)
Definition bitwise (o : op) (a b : Z) : Z :=
  match o with
  | AND => Z.land a b
  | OR => Z.lor a b
  | XOR => Z.lxor a b
  | _ => 0
  end.
Definition bitwise_not (a : Z) : Z := Z.lnot a.

(** 197-208 and ca_operator_unary.cpp:78-82: boolean operators. *)
Definition boolean (o : op) (a b : bool) : bool :=
  match o with
  | AND => a && b
  | OR => a || b
  | XOR => xorb a b
  | AND_NOT => a && negb b
  | OR_NOT => a || negb b
  | XOR_NOT => xorb a (negb b)
  | _ => false
  end.

(** terms/ca_string.cpp:68-105 [evaluate] without the duplication: [None] stands for an
    omitted length.  [start] and [count] are [int]; the default length
    [(A_t)str.size() - start + 1] overflows when [start] is very negative. *)
Definition substring (str : bytes) (start : Z) (count : option Z) : out bytes :=
  if size str >? MAX_STR_SIZE then Fail CE011
  else
    match (match count with
           | Some n => Some n
           | None => if size str - start + 1 >? INT_MAX then None
                     else Some (size str - start + 1)
           end) with
    | None => Bad
    | Some n =>
        if (start <? 0) || (n <? 0) || ((start =? 0) && (n >? 0)) then Fail CE008
        else if start >? size str then Fail CE009
        else if negb (n =? 0) then Ok (firstn (Z.to_nat n) (skipn (Z.to_nat (start - 1)) str))
        else Ok []
    end.

(** [value.append(begin, end)] [n] more times. *)
Fixpoint append_times (n : nat) (acc value : bytes) : bytes :=
  match n with
  | O => acc
  | S n' => append_times n' (acc ++ value) value
  end.

(** 107-138 [duplicate] with a duplication factor. *)
Definition duplicate (dupl : Z) (value : bytes) : out bytes :=
  if dupl <? 0 then Fail CE010
  else if size value * dupl >? MAX_STR_SIZE then Fail CE011
  else if (dupl =? 0) || (match value with [] => true | _ => false end) then Ok []
  else Ok (append_times (Z.to_nat (dupl - 1)) value value).

(** A string term as written: a value, an optional substring, an optional duplication.
    A failed substring returns at once (77-96); the string is bounded in any case (72). *)
Definition string_term (str : bytes) (sub : option (Z * option Z)) (dupl : option Z) : out bytes :=
  if size str >? MAX_STR_SIZE then Fail CE011
  else
    match (match sub with
           | None => Ok str
           | Some (start, count) => substring str start count
           end) with
    | Ok s => match dupl with None => Ok s | Some d => duplicate d s end
    | Fail d => Fail d
    | Bad => Bad
    end.

(** ** Built-in functions: terms/ca_function.cpp *)

(** A digit of base 2, 10 or 16 ([std::from_chars] takes both cases). *)
Definition digit (base : Z) (c : N) : option Z :=
  let c := Z.of_N c in
  let v := if (48 <=? c) && (c <=? 57) then c - 48
           else if (65 <=? c) && (c <=? 70) then c - 55
           else if (97 <=? c) && (c <=? 102) then c - 87
           else 99 in
  if v <? base then Some v else None.

Fixpoint digits (base acc : Z) (s : bytes) : option Z :=
  match s with
  | [] => Some acc
  | c :: s' => match digit base c with
               | Some d => digits base (acc * base + d) s'
               | None => None
               end
  end.

(** [from_chars] on an unsigned number, required to succeed and to use up the string. *)
Definition whole_unsigned (base : Z) (s : bytes) : option Z :=
  match s with
  | [] => None
  | _ => match digits base 0 s with
         | Some v => if v <? W then Some v else None
         | None => None
         end
  end.

(** The same on an [int]: a minus sign is recognised, a plus sign is not. *)
Definition whole_signed (base : Z) (s : bytes) : option Z :=
  match s with
  | 45%N :: ((_ :: _) as s') =>
      match digits base 0 s' with
      | Some v => if - v >=? INT_MIN then Some (- v) else None
      | None => None
      end
  | _ :: _ =>
      match digits base 0 s with
      | Some v => if v <=? INT_MAX then Some v else None
      | None => None
      end
  | [] => None
  end.

(** 202-217 *)
Definition B2A (s : bytes) : out Z :=
  match s with
  | [] => Ok 0
  | _ => if size s >? 32 then Fail CE007
         else match whole_unsigned 2 s with
              | Some v => Ok (to_signed v)
              | None => Fail CE007
              end
  end.

(** 219-235: at most four bytes; each character shifts the result by eight bits. *)
Definition C2A (s : bytes) : out Z :=
  match s with
  | [] => Ok 0
  | _ => if size s >? 4 then Fail CE007
         else match decode below_end 0 s with
              | Some cs => Ok (to_signed (fold_left (fun r c => (r * 256 + Z.of_N (a2e c)) mod W) cs 0))
              | None => Bad
              end
  end.

Definition is_sign (c : N) : bool := ((c =? 45) || (c =? 43))%N.
Fixpoint signs (s : bytes) : nat :=
  match s with
  | c :: s' => if is_sign c then S (signs s') else O
  | [] => O
  end.

(** 237-258 *)
Definition D2A (s : bytes) : out Z :=
  match s with
  | [] => Ok 0
  | c :: s' =>
      if size s >? 11 then Fail CE007
      else if (1 <? Z.of_nat (signs s)) then Fail CE007
      else match whole_signed 10 (if (c =? 43)%N then s' else s) with
           | Some v => Ok v
           | None => Fail CE007
           end
  end.

(** 353-370 *)
Definition X2A (s : bytes) : out Z :=
  match s with
  | [] => Ok 0
  | _ => if size s >? 8 then Fail CE007
         else match whole_unsigned 16 s with
              | Some v => Ok (to_signed v)
              | None => Fail CE007
              end
  end.

Definition quote : N := 39.
Definition amp : N := 38.
(** [( *c == '\'' && *(c+1) == '\'') || ( *c == '&' && *(c+1) == '&')]; the byte behind the
    last one is the terminating NUL. *)
Definition doubled (c : N) (rest : bytes) : bool :=
  ((c =? quote) && (peek rest 0 =? quote) || (c =? amp) && (peek rest 0 =? amp))%N.

(** 260-272 [DCLEN] and 567-579 [DCVAL] step over one of two equal quotes or ampersands. *)
Fixpoint DCVAL_from (skip : bool) (s : bytes) : bytes :=
  match s with
  | [] => []
  | c :: s' =>
      if skip then c :: DCVAL_from false s'
      else if doubled c s' then DCVAL_from true s'
      else c :: DCVAL_from false s'
  end.
Definition DCVAL (s : bytes) : bytes := DCVAL_from false s.

Fixpoint DCLEN_from (skip : bool) (s : bytes) : Z :=
  match s with
  | [] => 0
  | c :: s' =>
      if skip then 1 + DCLEN_from false s'
      else if doubled c s' then DCLEN_from true s'
      else 1 + DCLEN_from false s'
  end.
Definition DCLEN (s : bytes) : Z := DCLEN_from false s.

(** 274-278 [find_first_of]. *)
Fixpoint find_first_of (s set : bytes) : option nat :=
  match s with
  | [] => None
  | c :: s' => if existsb (N.eqb c) set then Some O
               else option_map S (find_first_of s' set)
  end.
Definition FIND (a b : bytes) : Z :=
  match find_first_of a b with None => 0 | Some i => Z.of_nat i + 1 end.

(** 280-284 [find]. *)
Fixpoint find_sub (s t : bytes) : option nat :=
  if starts_with t s then Some O
  else match s with
       | [] => None
       | _ :: s' => option_map S (find_sub s' t)
       end.
Definition INDEX (a b : bytes) : Z :=
  match find_sub a b with None => 0 | Some i => Z.of_nat i + 1 end.

Definition is_xdigit (c : N) : bool := match digit 16 c with Some _ => true | None => false end.

(** 286-295, 297-319, 321-329, 331-340 *)
Definition ISBIN (s : bytes) : out Z :=
  match s with
  | [] => Fail CE007
  | _ => if (size s <=? 32) && forallb (fun c => (c =? 48) || (c =? 49))%N s then Ok 1 else Ok 0
  end.
Definition ISDEC (s : bytes) : out Z :=
  match s with
  | [] => Fail CE007
  | c :: _ => if (size s >? 10) || (c =? 45)%N then Ok 0
              else match whole_signed 10 s with Some _ => Ok 1 | None => Ok 0 end
  end.
Definition ISHEX (s : bytes) : out Z :=
  match s with
  | [] => Fail CE007
  | _ => if (size s <=? 8) && forallb is_xdigit s then Ok 1 else Ok 0
  end.
(** lexing::lexer::ord_char (lexer.cpp:602-605): letters, digits and _ @ $ #. *)
Definition ord_char (c : N) : bool :=
  ((65 <=? c) && (c <=? 90) || (97 <=? c) && (c <=? 122) || (48 <=? c) && (c <=? 57)
   || (c =? 95) || (c =? 64) || (c =? 36) || (c =? 35))%N.
Definition ISSYM (s : bytes) : out Z :=
  match s with
  | [] => Fail CE007
  | c :: _ => if negb (is_digit c) && (size s <? 64) && forallb ord_char s then Ok 1 else Ok 0
  end.

(** [std::bitset<n>(v).to_string()]: the [n] low bits, most significant first. *)
Fixpoint bits (n : nat) (v : Z) : bytes :=
  match n with
  | O => []
  | S n' => (if Z.testbit v (Z.of_nat n') then 49%N else 48%N) :: bits n' v
  end.

(** 372 *)
Definition A2B (n : Z) : bytes := bits 32 n.

(** 374-395: byte [i] cut out with masks, the sign bit of the byte or-ed in again. *)
Definition A2C_byte (param : Z) (i : Z) : N :=
  let u := to_unsigned param in
  let sh := (3 - i) * 8 in
  let sign := Z.land u (Z.shiftl 128 sh) in
  let rest := Z.land u (Z.shiftl 255 sh) in
  Z.to_N (Z.lor (Z.shiftr rest sh mod 256) (Z.shiftr sign sh mod 256)).
Definition A2C (n : Z) : bytes := flat_map (fun i => to_ascii (A2C_byte n i)) [0; 1; 2; 3].

(** [std::to_string(int)]. *)
Definition to_string (n : Z) : bytes :=
  if n <? 0 then 45%N :: dec (Z.to_N (- n)) else dec (Z.to_N n).

(** 397-404 *)
Definition A2D (n : Z) : bytes :=
  match to_string n with
  | (45%N :: _) as s => s
  | s => 43%N :: s
  end.

Definition hexdigit (v : Z) : N := Z.to_N (if v <? 10 then 48 + v else 55 + v).
(** [std::setw(w) << std::uppercase << std::hex]: [w] hexadecimal digits of a number that has
    no more than that. *)
Fixpoint hex (w : nat) (v : Z) : bytes :=
  match w with
  | O => []
  | S w' => hexdigit (v / 16 ^ Z.of_nat w' mod 16) :: hex w' v
  end.

(** 406-411 *)
Definition A2X (n : Z) : bytes := hex 8 (to_unsigned n).

(** Taking a string apart in groups of [n] bits, most significant first (the inner loops at
    434-441 and 471-478); [None] when a character is neither 0 nor 1. *)
Definition bit (c : N) : option Z :=
  if (c =? 48)%N then Some 0 else if (c =? 49)%N then Some 1 else None.
Fixpoint group (n : nat) (acc : Z) (s : bytes) : option (Z * bytes) :=
  match n, s with
  | O, _ => Some (acc, s)
  | S n', c :: s' => match bit c with
                     | Some b => group n' (2 * acc + b) s'
                     | None => None
                     end
  | S _, [] => None
  end.
Fixpoint groups (k n : nat) (f : Z -> bytes) (s : bytes) : option bytes :=
  match k with
  | O => Some []
  | S k' => match group n 0 s with
            | Some (v, s') => option_map (app (f v)) (groups k' n f s')
            | None => None
            end
  end.

(** The zeros put in front (418-428, 455-465). *)
Definition pad (n : nat) (s : bytes) : bytes :=
  (if Nat.eqb (length s mod n) 0 then [] else repeat 48%N (n - length s mod n)) ++ s.

Definition of_bits (n : nat) (f : Z -> bytes) (s : bytes) : out bytes :=
  match s with
  | [] => Ok []
  | _ => match groups (length (pad n s) / n) n f (pad n s) with
         | Some r => Ok r
         | None => Fail CE007
         end
  end.

(** 413-443 and 453-477 *)
Definition B2C : bytes -> out bytes := of_bits 8 (fun v => to_ascii (Z.to_N v)).
Definition B2X : bytes -> out bytes := of_bits 4 (fun v => [hexdigit v]).

Definition then_a (r : out Z) (f : Z -> bytes) : out bytes :=
  match r with Ok v => Ok (f v) | Fail d => Fail d | Bad => Bad end.

(** 445-451, 505-511, 688-694; 530-565 *)
Definition B2D (s : bytes) : out bytes := then_a (B2A s) A2D.
Definition C2D (s : bytes) : out bytes := then_a (C2A s) A2D.
Definition X2D (s : bytes) : out bytes := then_a (X2A s) A2D.
Definition D2B (s : bytes) : out bytes := match s with [] => Ok [] | _ => then_a (D2A s) A2B end.
Definition D2C (s : bytes) : out bytes := match s with [] => Fail CE007 | _ => then_a (D2A s) A2C end.
Definition D2X (s : bytes) : out bytes := match s with [] => Fail CE007 | _ => then_a (D2A s) A2X end.

(** 479-485 *)
Definition BYTE (n : Z) : out bytes :=
  if (n >? 255) || (n <? 0) then Fail CE007 else Ok (to_ascii (Z.to_N n)).

(** 487-503 and 513-528 *)
Definition C2B (s : bytes) : out bytes :=
  match s with
  | [] => Ok []
  | _ => if size s * 8 >? MAX_STR_SIZE then Fail CE007
         else match decode until_end 0 s with
              | Some cs => Ok (flat_map (fun c => bits 8 (Z.of_N (a2e c))) cs)
              | None => Bad
              end
  end.
Definition C2X (s : bytes) : out bytes :=
  match s with
  | [] => Ok []
  | _ => if size s * 2 >? MAX_STR_SIZE then Fail CE007
         else match decode until_end 0 s with
              | Some cs => Ok (flat_map (fun c => hex 2 (Z.of_N (a2e c))) cs)
              | None => Bad
              end
  end.

(** 581-593 *)
Definition DEQUOTE (s : bytes) : bytes :=
  let s1 := match s with c :: s' => if (c =? quote)%N then s' else s | [] => [] end in
  match rev s1 with
  | c :: r => if (c =? quote)%N then rev r else s1
  | [] => s1
  end.

(** 595-611 *)
Definition double_chars (s : bytes) : bytes :=
  flat_map (fun c => if ((c =? quote) || (c =? amp))%N then [c; c] else [c]) s.
Definition DOUBLE (s : bytes) : out bytes :=
  if size (double_chars s) >? MAX_STR_SIZE then Fail CE007 else Ok (double_chars s).

(** 615-619, 621, 627-631 *)
Definition lower (c : N) : N := if ((65 <=? c) && (c <=? 90))%N then (c + 32)%N else c.
Definition upper (c : N) : N := if ((97 <=? c) && (c <=? 122))%N then (c - 32)%N else c.
Definition LOWER (s : bytes) : bytes := map lower s.
Definition UPPER (s : bytes) : bytes := map upper s.
Definition SIGNED (n : Z) : bytes := to_string n.

(** 633-654 *)
Fixpoint X2B_digits (s : bytes) : option bytes :=
  match s with
  | [] => Some []
  | c :: s' => match digit 16 c with
               | Some v => option_map (app (bits 4 v)) (X2B_digits s')
               | None => None
               end
  end.
Definition X2B (s : bytes) : out bytes :=
  match s with
  | [] => Ok []
  | _ => if size s * 4 >? MAX_STR_SIZE then Fail CE007
         else match X2B_digits s with Some r => Ok r | None => Fail CE007 end
  end.

(** 656-686: only the first digit of a pair is tested; [from_chars(c, c + 2, value, 16)]
    stops at a second character that is no digit, leaving the value of the first. *)
Fixpoint X2C_pairs (s : bytes) : option bytes :=
  match s with
  | c1 :: c2 :: s' =>
      match digit 16 c1 with
      | Some v1 =>
          let v := match digit 16 c2 with Some v2 => v1 * 16 + v2 | None => v1 end in
          option_map (app (to_ascii (Z.to_N v))) (X2C_pairs s')
      | None => None
      end
  | _ => Some []
  end.
Definition X2C (s : bytes) : out bytes :=
  match s with
  | [] => Ok []
  | _ => match X2C_pairs (pad 2 s) with Some r => Ok r | None => Fail CE007 end
  end.

(** ** Self-defining terms: terms/ca_constant.cpp:46-88.
    A value in an expression such as [X'1F'], [C'A'], [B'101'] or [12].
    Simplification: the value between the quotes is treated as a string of its own, although
    it is a view into the written text (what follows it is the closing quote, not a NUL; this
    differs only when the text ends in the middle of a character). *)
Definition self_defining (type : N) (value : bytes) : out Z :=
  match value with
  | [] => Fail CE015
  | _ =>
      let t := upper type in
      if (t =? 66)%N then B2A value
      else if (t =? 67)%N then C2A value
      else if (t =? 68)%N then D2A value
      else if (t =? 88)%N then X2A value
      else Fail CE015
  end.
Definition self_defining_term (v : bytes) : out Z :=
  if (size v >=? 3) && (peek v 1 =? quote)%N && (last v 0 =? quote)%N
  then self_defining (peek v 0) (removelast (skipn 2 v))
  else self_defining 68 v.
