(** Vocabulary for the EBCDIC properties, independent of the translation tables. *)
From Coq Require Import List NArith Bool String.
From Verif Require Import Common.
Import ListNotations.
Open Scope N_scope.

(** Unicode code points and their UTF-8 encoding (RFC 3629). *)
Definition code_point (cp : N) : Prop := cp < 1114112.

Definition utf8 (cp : N) : bytes :=
  if cp <? 128 then [cp]
  else if cp <? 2048 then [192 + cp / 64; 128 + cp mod 64]
  else if cp <? 65536 then [224 + cp / 4096; 128 + cp / 64 mod 64; 128 + cp mod 64]
  else [240 + cp / 262144; 128 + cp / 4096 mod 64; 128 + cp / 64 mod 64; 128 + cp mod 64].

Definition text (cps : list N) : bytes := flat_map utf8 cps.

(** The printable part of the code page: sixteen characters per row, rows X'40' to X'F0'.
    A dot stands for a position that is not printable ASCII, except at X'4B', which is the
    full stop itself. *)
Definition page : string :=
  (" .........[.<(+!" ++
   "&.........]$*);^" ++
   "-/........|,%_>?" ++
   ".........`:#@'=""" ++
   ".abcdefghi......" ++
   ".jklmnopqr......" ++
   ".~stuvwxyz......" ++
   "................" ++
   "{ABCDEFGHI......" ++
   "}JKLMNOPQR......" ++
   "\.STUVWXYZ......" ++
   "0123456789......")%string.

(** [printable b c] - position [b] of the code page holds the ASCII character [c]. *)
Definition printable (b c : N) : Prop :=
  64 <= b /\ nth_error (s2b page) (N.to_nat (b - 64)) = Some c /\ (c <> 46 \/ b = 75).

(** [ebcdic cp b]: the code page has character [cp] (Latin-1) at position [b] - the table of
    the program read backwards - and X'3F' (SUB) for the characters it does not have. *)
Definition translates (tab : N -> N) (cp b : N) : Prop :=
  b < 256 /\ (cp < 256 -> tab b = cp) /\ (256 <= cp -> b = 63).
