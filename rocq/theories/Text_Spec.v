(** UTF-8 texts, line starts, LSP positions. *)
From Coq Require Import List NArith ZArith Arith Sorting.Sorted.
From Verif Require Import Common Text_Model.
Import ListNotations.

Definition is_byte (b : N) : Prop := (b < 256)%N.

(** A continuation byte and one character in the length-prefix form of UTF-8, with the number of
    UTF-16 code units of the code point it encodes. *)
Definition cont (b : N) : Prop := (128 <= b < 192)%N.
Inductive uchar : bytes -> nat -> Prop :=
| U1 b : (b < 128)%N -> uchar [b] 1
| U2 b c : (192 <= b < 224)%N -> cont c -> uchar [b; c] 1
| U3 b c d : (224 <= b < 240)%N -> cont c -> cont d -> uchar [b; c; d] 1
| U4 b c d e : (240 <= b < 248)%N -> cont c -> cont d -> cont e -> uchar [b; c; d; e] 2.

(** [utext t n]: [t] is a sequence of characters of [n] UTF-16 units altogether. *)
Inductive utext : bytes -> nat -> Prop :=
| Unil : utext [] 0
| Ucons c u t n : uchar c u -> utext t n -> utext (c ++ t) (u + n).

(** UTF-8 as RFC 3629 / Unicode table 3-7 define it. *)
Inductive strict_char : bytes -> Prop :=
| S1 b : (b < 128)%N -> strict_char [b]
| S2 b c : (194 <= b < 224)%N -> cont c -> strict_char [b; c]
| S3a c d : (160 <= c < 192)%N -> cont d -> strict_char [224; c; d]%N
| S3b b c d : (225 <= b < 237)%N \/ (238 <= b < 240)%N -> cont c -> cont d -> strict_char [b; c; d]
| S3c c d : (128 <= c < 160)%N -> cont d -> strict_char [237; c; d]%N
| S4a c d e : (144 <= c < 192)%N -> cont d -> cont e -> strict_char [240; c; d; e]%N
| S4b b c d e : (241 <= b < 244)%N -> cont c -> cont d -> cont e -> strict_char [b; c; d; e]
| S4c c d e : (128 <= c < 144)%N -> cont d -> cont e -> strict_char [244; c; d; e]%N.
Inductive strict_utf8 : bytes -> Prop :=
| Snil : strict_utf8 []
| Scons c t : strict_char c -> strict_utf8 t -> strict_utf8 (c ++ t).

Definition replacement : bytes := [239; 191; 189]%N.

(** How many characters of a byte sequence are well formed is not needed: [repairs t r] says [r] is
    [t] with complete characters copied and every other byte replaced by U+FFFD. *)
Inductive repairs : bytes -> bytes -> Prop :=
| Rnil : repairs [] []
| Rchar c u t r : uchar c u -> repairs t r -> repairs (c ++ t) (c ++ r)
| Rbad b t r : (forall c u t', uchar c u -> b :: t <> c ++ t') -> repairs t r ->
               repairs (b :: t) (replacement ++ r).

(** Offset [o] starts a line: it is 0, or follows LF, or follows a CR that is not part of CRLF. *)
Definition line_start (t : bytes) (o : nat) : Prop :=
  o = 0 \/
  exists p b, o = S p /\ nth_error t p = Some b /\
    (b = 10%N \/ (b = 13%N /\ nth_error t o <> Some 10%N)).

(** The number of line starts in [1, o]: the line that contains offset [o]. *)
Definition is_line (t : bytes) (lines : list nat) : Prop :=
  StronglySorted lt lines /\ forall o, In o lines <-> line_start t o.

(** An LSP position: offset [o] lies on line [line], whose start is [s], and the text between is
    [col] UTF-16 units long. *)
Definition position_at (t : bytes) (line col o : nat) : Prop :=
  exists tbl s, is_line t tbl /\ nth_error tbl line = Some s /\
    s <= o <= length t /\ (forall s', line_start t s' -> s < s' -> o < s') /\
    utext (firstn (o - s) (skipn s t)) col.

(** A CRLF pair is not cut between [a] and [b]. *)
Definition clean_cut (a b : bytes) : Prop :=
  ~ (exists a' b', a = a' ++ [13%N] /\ b = 10%N :: b').

(** An edit the client may send for text [t], and the text that results: the range is given by two
    positions of [t], no CRLF pair is cut by the range or by the new text, and the result is a
    possible string. *)
Inductive edited : bytes -> edit -> bytes -> Prop :=
| EdWhole t t' : edited t (Whole t') t'
| EdRange a b c n sline scol eline ecol :
    position_at (a ++ b ++ c) sline scol (length a) ->
    position_at (a ++ b ++ c) eline ecol (length a + length b) ->
    clean_cut a (b ++ c) -> clean_cut (a ++ b) c -> clean_cut a (n ++ c) -> clean_cut (a ++ n) c ->
    (Z.of_nat (length (a ++ n ++ c)) < 2 ^ 64)%Z ->
    edited (a ++ b ++ c) (Ranged sline scol eline ecol n) (a ++ n ++ c).
Inductive edited_all : bytes -> list edit -> bytes -> Prop :=
| EdNil t : edited_all t [] t
| EdCons t e t' es t'' : edited t e t' -> edited_all t' es t'' -> edited_all t (e :: es) t''.
