(** * What is wanted of data definition operands

    Independent of the functions of DD_Model: only its types of operands, items and outcomes are used. *)
From Coq Require Import List ZArith NArith Bool Ascii.
From Verif Require Import DD_Model.
Import ListNotations.
Open Scope Z_scope.

(** ** Values of a nominal value written as text *)
(** the texts between the commas *)
Fixpoint pieces (s : text) : list text :=
  match s with
  | [] => [[]]
  | c :: s' => match pieces s' with
               | [] => []
               | p :: ps => if Ascii.eqb c ","%char then [] :: p :: ps else (c :: p) :: ps
               end
  end.

Definition decimal : list ascii := ["0"; "1"; "2"; "3"; "4"; "5"; "6"; "7"; "8"; "9"]%char.
Definition hexadecimal : list ascii :=
  (decimal ++ ["A"; "B"; "C"; "D"; "E"; "F"; "a"; "b"; "c"; "d"; "e"; "f"])%char.
Definition binary : list ascii := ["0"; "1"]%char.

(** how many of the characters of [v] are in [l] *)
Definition how_many (l : list ascii) (v : text) : Z :=
  Z.of_nat (length (filter (fun c => if in_dec ascii_dec c l then true else false) v)).

(** a value made of the given digits, among which there may be spaces *)
Definition digits_value (l : list ascii) (v : text) : Prop :=
  (forall c, In c v -> In c l \/ c = " "%char) /\ exists c, In c v /\ In c l.

(** an optional sign, then at least one digit, at most one point and any number of spaces *)
Definition number (signs : list ascii) (v : text) : Prop :=
  exists sign body, v = sign ++ body /\ (sign = [] \/ exists c, sign = [c] /\ In c signs) /\
    (forall c, In c body -> In c decimal \/ c = "."%char \/ c = " "%char) /\
    0 < how_many decimal body /\ how_many ["."%char] body <= 1.
(** E, an optional sign and at least one digit *)
Definition exponent (v : text) : Prop :=
  exists sign ds, v = "E"%char :: sign ++ ds /\ (sign = [] \/ sign = ["+"%char] \/ sign = ["-"%char]) /\
    ds <> [] /\ forall c, In c ds -> In c decimal.
(** the rounding mode of a type with the extension [e] *)
Definition rounding (e : option ascii) (v : text) : Prop :=
  exists m, v = "R"%char :: m /\
    ((e = Some "B"%char \/ e = Some "H"%char) /\ In m [["1"]; ["4"]; ["5"]; ["6"]; ["7"]]%char \/
     e = Some "D"%char /\
     In m [["8"]; ["9"]; ["1"; "0"]; ["1"; "1"]; ["1"; "2"]; ["1"; "3"]; ["1"; "4"]; ["1"; "5"]]%char).

Definition fixed_value (v : text) : Prop :=
  exists n e, v = n ++ e /\ number ["+"; "-"; "U"]%char n /\ (e = [] \/ exponent e).
Definition packed_value (v : text) : Prop := number ["+"; "-"]%char v.
Definition floating_value (x : option ascii) (v : text) : Prop :=
  exists n e r, v = n ++ e ++ r /\ number ["+"; "-"]%char n /\ (e = [] \/ exponent e) /\ (r = [] \/ rounding x r).

(** ** What a type allows *)
Definition between (lo n hi : Z) : Prop := lo <= n <= hi.
(** the values of the nominal value depend on where the program is loaded *)
Definition relocatable (l : list item) : Prop := exists v k, In (Expr v k false) l /\ k <> ABS.
Definition items_of (o : operand) : list item := match nom o with Some (NExprs l) => l | _ => [] end.

(** a length modifier, in bits or in bytes *)
Definition length_allowed (i : instr) (t : dtype) (o : operand) (bits : bool) (n : Z) : Prop :=
  match t with
  | B => between 1 n (if bits then 2048 else 256)
  | C | CA | CE | X =>
    match i with
    | DC_ => between 1 n (if bits then 2048 else 256)
    | DS_ => between 1 n (if bits then 524280 else 65535)
    end
  | CU => bits = false /\ between 1 n 256 /\ Z.even n = true
  | G => bits = false /\ between 1 n (match i with DC_ => 256 | DS_ => 65534 end) /\ Z.even n = true
  | H | F | FD => between 1 n (if bits then 64 else 8)
  | P | Z_ => between 1 n (if bits then 128 else 16)
  | A => (relocatable (items_of o) -> bits = false /\ between 2 n 4) /\
         (~ relocatable (items_of o) -> between 1 n (if bits then 128 else 8))
  | AD => (relocatable (items_of o) -> bits = false /\ between 2 n 8) /\
          (~ relocatable (items_of o) -> between 1 n (if bits then 128 else 8))
  | Y => (relocatable (items_of o) -> bits = false /\ n = 2) /\
         (~ relocatable (items_of o) -> between 1 n (if bits then 16 else 2))
  | S_ => bits = false /\ n = 2
  | SY => bits = false /\ n = 3
  | R | V => bits = false /\ (n = 3 \/ n = 4)
  | RD | VD => bits = false /\ (n = 3 \/ n = 4 \/ n = 8)
  | Q => bits = false /\ between 1 n 4
  | QD => bits = false /\ between 1 n 8
  | QY => bits = false /\ n = 3
  | J | JD => bits = false /\ (n = 2 \/ n = 3 \/ n = 4 \/ n = 8)
  | E | D => between 1 n (if bits then 64 else 8)
  | EH | DH => between (if bits then 12 else 1) n (if bits then 64 else 8)
  | ED | EB => n = if bits then 32 else 4
  | DD | DB => n = if bits then 64 else 8
  | L => between 1 n (if bits then 128 else 16)
  | LH | LQ => between (if bits then 12 else 1) n (if bits then 128 else 16)
  | LD | LB => n = if bits then 128 else 16
  end.

Definition scale_allowed (t : dtype) (n : Z) : Prop :=
  match t with
  | H | F | FD => between (-187) n 346
  | E | EH => between 0 n 5
  | D | DH => between 0 n 13
  | L | LH | LQ => between 0 n 27
  | ED | EB | DD | DB | LD | LB => True     (* a warning says that it is ignored *)
  | _ => False
  end.
Definition exponent_allowed (t : dtype) (n : Z) : Prop :=
  match t with
  | H | F | FD | E | EH | ED | EB | D | DH | DD | DB | L | LH | LQ | LD | LB => between (-85) n 75
  | _ => False
  end.

(** an address D(B), or an address whose base is not written, as a type S or SY takes *)
Definition item_allowed (lo hi : Z) (i : item) : Prop :=
  match i with
  | Expr v _ false => between lo v hi
  | Expr _ _ true => True
  | Address (Some b) (Some d) => between lo d hi /\ between 0 b 15
  | Address _ _ => True
  end.

Definition nominal_allowed (t : dtype) (x : option ascii) (n : nominal) : Prop :=
  match t, n with
  | B, NStr s => Forall (digits_value binary) (pieces s)
  | X, NStr s => Forall (digits_value hexadecimal) (pieces s)
  | (C | CA | CE | CU | G), NStr _ => True
  | (H | F | FD), NStr s => Forall fixed_value (pieces s)
  | (P | Z_), NStr s => Forall packed_value (pieces s)
  | (E | EH | ED | EB | D | DH | DD | DB | L | LH | LQ | LD | LB), NStr s => Forall (floating_value x) (pieces s)
  | (A | AD | Y | R | RD | V | VD | Q | QD | QY | J | JD), NExprs l => forall b d, ~ In (Address b d) l
  | S_, NExprs l => Forall (item_allowed 0 4095) l
  | SY, NExprs l => Forall (item_allowed (-524288) 524287) l
  | _, _ => False
  end.

(** ** Lengths *)
(** the length of a value in bytes when no length is given *)
Inductive value := TextValue (v : text) | ItemValue | NoValue.
Definition up (n d : Z) : Z := - (- n / d).     (* n divided by d, rounded up *)
Definition natural_bytes (t : dtype) (v : value) : Z :=
  match t, v with
  | B, TextValue s => up (how_many binary s) 8
  | X, TextValue s => up (how_many hexadecimal s) 2
  | (C | CA | CE), TextValue s => Z.of_nat (length s)
  | CU, TextValue s => 2 * Z.of_nat (length s)
  | G, TextValue s => Z.of_nat (length s) - how_many ["<"; ">"]%char s
  | P, TextValue s => up (how_many decimal s + 1) 2
  | Z_, TextValue s => how_many decimal s
  | (B | X | C | CA | CE | P | Z_), _ => 1
  | (CU | G), _ => 2
  | H, _ | Y, _ | S_, _ => 2
  | SY, _ | QY, _ => 3
  | F, _ | A, _ | R, _ | V, _ | Q, _ | J, _ | E, _ | EH, _ | ED, _ | EB, _ => 4
  | FD, _ | AD, _ | RD, _ | VD, _ | QD, _ | JD, _ | D, _ | DH, _ | DD, _ | DB, _ => 8
  | L, _ | LH, _ | LQ, _ | LD, _ | LB, _ => 16
  end.
Definition values (t : dtype) (n : option nominal) : list value :=
  match t, n with
  | _, None => [NoValue]
  | (C | CA | CE | CU | G), Some (NStr s) => [TextValue s]
  | _, Some (NStr s) => map TextValue (pieces s)
  | _, Some (NExprs l) => map (fun _ => ItemValue) l
  end.
Definition value_bits (t : dtype) (o : operand) (v : value) : Z :=
  match len o with
  | Some n => if bitlen o then n else 8 * n
  | None => 8 * natural_bytes t v
  end.
Definition total (l : list Z) : Z := fold_right Z.add 0 l.
Definition copies (o : operand) : Z := match dup o with Some n => n | None => 1 end.
(** how long the operand is, in bits *)
Definition operand_bits (t : dtype) (o : operand) : Z := copies o * total (map (value_bits t o) (values t (nom o))).

(** ** When an operand is right *)
Definition acceptable (i : instr) (t : dtype) (o : operand) : Prop :=
  (forall n, dup o = Some n -> 0 <= n) /\
  (forall n, len o = Some n -> length_allowed i t o (bitlen o) n) /\
  (forall n, scale o = Some n -> scale_allowed t n) /\
  (forall n, expo o = Some n -> exponent_allowed t n) /\
  (nom o = None -> i = DC_ -> dup o = Some 0) /\
  (forall n, nom o = Some n -> nominal_allowed t (ext o) n) /\
  operand_bits t o < 8 * 2 ^ 31.

(** The values are those of 32-bit fields, a length in bits comes from a length modifier and the nominal value is
    not of exorbitant size. *)
Definition nominal_size (o : operand) : Z :=
  match nom o with Some (NStr s) => Z.of_nat (length s) | Some (NExprs l) => Z.of_nat (length l) | None => 0 end.
Definition int32 (n : Z) : Prop := - 2 ^ 31 <= n < 2 ^ 31.
Definition field_ok (a : option Z) : Prop := forall n, a = Some n -> int32 n.
Definition reasonable (o : operand) : Prop :=
  field_ok (dup o) /\ field_ok (len o) /\ field_ok (scale o) /\ field_ok (expo o) /\
  (bitlen o = true -> len o <> None) /\ nominal_size o < 2 ^ 13.
(** types whose length modifier is only looked at together with the nominal value *)
Definition address_type (t : dtype) : bool := match t with A | AD | Y => true | _ => false end.
Definition seen_length (t : dtype) (o : operand) : Prop :=
  address_type t = true -> len o <> None -> nom o <> None.

(** ** Where operands go *)
(** the boundary in bytes on which an operand without a length modifier begins *)
Definition natural_boundary (t : dtype) : Z :=
  match t with
  | B | C | CA | CE | CU | G | X | P | Z_ => 1
  | H | Y | S_ | SY | QY => 2
  | F | A | R | V | Q | J | E | EH | ED | EB => 4
  | FD | AD | RD | VD | JD | D | DH | DD | DB | L | LH | LD | LB => 8
  | QD | LQ => 16
  end.
Definition boundary_of (t : dtype) (o : operand) : Z := match len o with Some _ => 1 | None => natural_boundary t end.

(** [p] is the next bit at or after [from] at which an operand may begin *)
Definition begins (t : dtype) (o : operand) (from p : Z) : Prop :=
  if bitlen o then p = from
  else (8 * boundary_of t o | p) /\ from <= p /\ forall q, (8 * boundary_of t o | q) -> from <= q -> p <= q.
(** the operands follow each other from bit [from], and the last one ends before bit [upto] *)
Inductive laid_out : Z -> list (dtype * operand) -> Z -> Prop :=
  | laid_none : forall from, laid_out from [] from
  | laid_more : forall from t o l p upto,
      begins t o from p -> laid_out (p + operand_bits t o) l upto -> laid_out from ((t, o) :: l) upto.

(** the type of an operand *)
Definition type_names : list (ascii * option ascii * dtype) :=
  [ ("B", None, B); ("C", None, C); ("C", Some "A", CA); ("C", Some "E", CE); ("C", Some "U", CU); ("G", None, G);
    ("X", None, X); ("H", None, H); ("F", None, F); ("F", Some "D", FD); ("P", None, P); ("Z", None, Z_);
    ("A", None, A); ("A", Some "D", AD); ("Y", None, Y); ("R", None, R); ("R", Some "D", RD); ("S", None, S_);
    ("S", Some "Y", SY); ("V", None, V); ("V", Some "D", VD); ("Q", None, Q); ("Q", Some "D", QD); ("Q", Some "Y", QY);
    ("J", None, J); ("J", Some "D", JD); ("E", None, E); ("E", Some "H", EH); ("E", Some "D", ED); ("E", Some "B", EB);
    ("D", None, D); ("D", Some "H", DH); ("D", Some "D", DD); ("D", Some "B", DB); ("L", None, L); ("L", Some "H", LH);
    ("L", Some "Q", LQ); ("L", Some "D", LD); ("L", Some "B", LB) ]%char.
Definition has_type (o : operand) (t : dtype) : Prop := In (typ o, ext o, t) type_names.

(** ** Attributes *)
Definition first_value (t : dtype) (n : option nominal) : value := hd NoValue (values t n).
(** the length attribute: the bytes the first value takes *)
Definition L_wanted (t : dtype) (o : operand) : Z := up (value_bits t o (first_value t (nom o))) 8.
(** the digits after the point of the first value *)
Fixpoint after_point (v : text) : text :=
  match v with [] => [] | c :: v' => if Ascii.eqb c "."%char then v' else after_point v' end.
Definition S_wanted (t : dtype) (o : operand) : Z :=
  match scale o with
  | Some n => n
  | None => match t, first_value t (nom o) with
            | (P | Z_), TextValue v => how_many decimal (after_point v)
            | _, _ => 0
            end
  end.
Definition I_wanted (t : dtype) (o : operand) : Z :=
  match t with
  | H | F | FD => 8 * L_wanted t o - S_wanted t o - 1
  | P => 2 * L_wanted t o - S_wanted t o - 1
  | Z_ => L_wanted t o - S_wanted t o
  | E | EH | D | DH | L | LH | LQ =>
    if 8 <? L_wanted t o then 2 * (L_wanted t o - 1) - S_wanted t o - 2 else 2 * (L_wanted t o - 1) - S_wanted t o
  | _ => 0
  end.

(** the type attribute, without and with a length modifier *)
Definition T_wanted (t : dtype) (length_given : bool) : ascii :=
  match t, length_given with
  | B, _ => "B" | (C | CA | CE | CU), _ => "C" | X, _ => "X" | P, _ => "P" | Z_, _ => "Z" | G, _ => "@"
  | (H | F | FD), true => "G" | H, false => "H" | (F | FD), false => "F"
  | (A | AD | J | JD), false => "A" | Y, false => "Y" | (S_ | SY), false => "S" | (Q | QD | QY), false => "Q"
  | (R | RD | V | VD), false => "V"
  | (A | AD | J | JD | Y | S_ | SY | Q | QD | QY | R | RD | V | VD), true => "R"
  | (E | EH | ED | EB), false => "E" | (D | DH | DD | DB), false => "D" | (L | LH | LQ | LD | LB), false => "L"
  | (E | EH | ED | EB | D | DH | DD | DB | L | LH | LQ | LD | LB), true => "K"
  end%char.

(** ** What the fields of a definition stand for *)
Section Meaning.
  Context {Ex : Type}.
  Variable eval : Ex -> outcome.
  Variable has_error : Ex -> bool.

  (** a field that is not written has no value; a written one has the value of its number or expression *)
  Definition stands (a : option (amount Ex)) (v : option Z) : Prop :=
    match a, v with
    | None, None => True
    | Some (Const z), Some v => v = z
    | Some (Exp e), Some v => eval e = IsAbs v
    | _, _ => False
    end.
  (** an external address (type V) need not have a value *)
  Definition item_stands (external : bool) (i : pitem Ex) (x : item) : Prop :=
    match i with
    | PExpr e => external = true /\ eval e = Unresolved /\ x = Expr 0 ABS true \/
                 has_error e = false /\
                 ((exists v, eval e = IsAbs v /\ x = Expr v ABS false) \/ (eval e = IsReloc /\ x = Expr 0 RELOC false) \/
                  (eval e = IsComplex /\ x = Expr 0 COMPLEX false))
    | PAddress b d => exists vb vd, eval b = IsAbs vb /\ eval d = IsAbs vd /\ x = Address (Some vb) (Some vd)
    end.
  Definition nominal_stands (external : bool) (n : option (pnominal Ex)) (m : option nominal) : Prop :=
    match n, m with
    | None, None => True
    | Some (PStr s), Some (NStr s') => s' = s
    | Some (PExprs l), Some (NExprs l') => Forall2 (item_stands external) l l'
    | _, _ => False
    end.
  (** a scale modifier of 16 bits *)
  Definition means (d : definition Ex) (o : operand) : Prop :=
    stands (d_dup d) (dup o) /\ typ o = d_type d /\ ext o = d_ext d /\ stands (d_len d) (len o) /\ bitlen o = d_bit d /\
    stands (d_scale d) (scale o) /\ (forall n, scale o = Some n -> - 2 ^ 15 <= n < 2 ^ 15) /\
    stands (d_exp d) (expo o) /\ nominal_stands (if ascii_dec (d_type d) "V" then true else false) (d_nom d) (nom o).
  Definition meaning (ds : list (definition Ex)) (l : list (dtype * operand)) : Prop :=
    Forall2 (fun d x => means d (snd x)) ds l.
End Meaning.

(** ** Statements *)
Definition good (x : dtype * operand) : Prop := has_type (snd x) (fst x) /\ reasonable (snd x) /\ seen_length (fst x) (snd x).
Definition fine (i : instr) (x : dtype * operand) : Prop := acceptable i (fst x) (snd x).
(** a statement has fewer operands than 2^28 *)
Definition few (n : nat) : Prop := Z.of_nat n < 2 ^ 28.
(** the first value of a type B or X is written without spaces *)
Definition tight (t : dtype) (o : operand) : Prop :=
  match t, nom o with (B | X), Some (NStr s) => ~ In " "%char (hd [] (pieces s)) | _, _ => True end.
(** so are the digits after the point of a type P or Z *)
Definition tight_fraction (t : dtype) (o : operand) : Prop :=
  match t, nom o with (P | Z_), Some (NStr s) => ~ In " "%char (after_point (hd [] (pieces s))) | _, _ => True end.
(** a check succeeds when it reports no error *)
Definition honest (c : checked) : Prop := fst c = negb (existsb is_error (snd c)).
