(** * What the checks of assembler instructions should accept and report

    Stated on operands, without any of the functions of the model. *)
From Coq Require Import String Ascii.
From Coq Require Import List ZArith Bool.
From Verif Require Import Asm_Model.
Import ListNotations.
Open Scope string_scope.
Open Scope list_scope.

(** ** Vocabulary *)

(** an operand that is written as one text *)
Definition text (o : op) (s : string) : Prop := exists d v r, o = Simple s d v r.
(** one of the given words *)
Definition word (ws : list string) (o : op) : Prop := exists w, text o w /\ In w ws.
(** an operand with a value *)
Definition valued (o : op) (z : Z) : Prop := exists t r, o = Simple t false z r.
(** an operand without one *)
Definition nameless (o : op) (s : string) : Prop := exists v r, o = Simple s true v r.
Definition empty (o : op) : Prop := exists r, o = Empty r.
Definition simple (o : op) : Prop := exists s, text o s.
Definition complex (o : op) (id : string) (ps : list op) : Prop := exists r, o = Complex id ps r.

Definition digits (s : string) : Prop :=
  forall c, In c (list_ascii_of_string s) -> In c (list_ascii_of_string "0123456789").
(** a number written with digits only *)
Definition literal (o : op) (z : Z) : Prop := exists t r, o = Simple t false z r /\ digits t.

Definition letter (c : ascii) : Prop :=
  In c (list_ascii_of_string "ABCDEFGHIJKLMNOPQRSTUVWXYZabcdefghijklmnopqrstuvwxyz").
Definition apostrophes (body : string) : string := ("'" ++ body ++ "'")%string.
(** a word and the same word after NO *)
Definition with_no (ws : list string) : list string := ws ++ map (append "NO") ws.

Definition power_of_two (lo hi z : Z) : Prop := exists k, (0 <= k /\ z = 2 ^ k /\ lo <= z <= hi)%Z.

(** ** Instructions with values and texts *)

Definition Title (ops : list op) : Prop :=
  exists o body, ops = [o] /\ text o (apostrophes body) /\ (1 <= String.length body <= 100)%nat.

Definition Rmode (ops : list op) : Prop := exists o, ops = [o] /\ word ["24"; "31"; "64"; "ANY"] o.
Definition Amode (ops : list op) : Prop :=
  exists o, ops = [o] /\ word ["24"; "31"; "64"; "ANY"; "ANY31"; "ANY64"] o.

(** The number of columns a text takes when it is read up to its last character: two
    ampersands, or two apostrophes, take one. *)
Definition doubled (c : ascii) : Prop := c = "&"%char \/ c = "'"%char.
Inductive columns : list ascii -> nat -> Prop :=
| col_nil : columns [] 0
| col_last c : columns [c] 0
| col_two c t n : doubled c -> columns t n -> columns (c :: c :: t) (S n)
| col_one a b t n : ~ (a = b /\ doubled a) -> columns (b :: t) n -> columns (a :: b :: t) (S n).
Definition Punch (ops : list op) : Prop :=
  exists o body n, ops = [o] /\ text o (apostrophes body)
                   /\ columns (list_ascii_of_string (apostrophes body)) n /\ (n <= 80)%nat.

Definition Print (ops : list op) : Prop :=
  ops <> [] /\ Forall (word (["ON"; "OFF"; "NOPRINT"] ++ with_no ["GEN"; "DATA"; "MCALL"; "MSOURCE"; "UHEAD"])) ops.

Definition Stack (ops : list op) : Prop :=
  exists ws tl, Forall2 text ops (ws ++ tl) /\ ws <> [] /\ NoDup ws
                /\ incl ws ["PRINT"; "USING"; "ACONTROL"] /\ (tl = [] \/ tl = ["NOPRINT"]).

Definition Org (ops : list op) : Prop :=
  ops = [] \/ (exists a b, ops = [a; b] /\ empty a /\ empty b)
  \/ exists a t, ops = a :: t /\ (exists z, valued a z)
     /\ (t = [] \/ exists b u, t = b :: u /\ (empty b \/ exists z, valued b z /\ power_of_two 2 4096 z)
                               /\ (u = [] \/ exists c z, u = [c] /\ valued c z)).

Definition Opsyn (ops : list op) : Prop := ops = [] \/ exists o, ops = [o] /\ (simple o \/ empty o).

Definition Mnote (ops : list op) : Prop :=
  exists m body, text m (apostrophes body) /\ (String.length body <= 1018)%nat
    /\ (ops = [m]
        \/ exists s, ops = [s; m]
           /\ (empty s
               \/ (exists t, text s t /\ (String.length t + String.length body <= 1022)%nat
                             /\ (t = "*" \/ exists z, literal s z /\ (0 <= z <= 255)%Z)))).

Definition Iseq (ops : list op) : Prop :=
  ops = [] \/ exists a b l r, ops = [a; b] /\ valued a l /\ valued b r /\ (1 <= l <= r /\ r <= 80)%Z.

Definition Ictl (ops : list op) : Prop :=
  (exists a b, ops = [a] /\ literal a b /\ (1 <= b <= 15)%Z)
  \/ (exists a x b e, ops = [a; x] /\ literal a b /\ literal x e /\ (1 <= b <= 40 /\ 41 <= e <= 80 /\ b + 5 <= e)%Z)
  \/ (exists a x y b e c, ops = [a; x; y] /\ literal a b /\ literal x e /\ literal y c
        /\ (1 <= b <= 40 /\ 41 <= e <= 80 /\ b + 5 <= e)%Z
        /\ (e = 80 \/ c = -1 \/ b < c <= 40)%Z).

Definition External (ops : list op) : Prop :=
  ops <> [] /\ Forall (fun o => (exists s, text o s /\ s <> "")
                                \/ exists ps, complex o "PART" ps /\ Forall (fun p => exists s, text p s /\ s <> "") ps) ops.

Definition Exitctl (ops : list op) : Prop :=
  exists a t, ops = a :: t /\ (1 <= List.length t <= 4)%nat
    /\ word ["SOURCE"; "LIBRARY"; "LISTING"; "PUNCH"; "ADATA"; "TERM"; "OBJECT"] a
    /\ Forall (fun o => empty o \/ exists z, valued o z) t.

Definition Entry (ops : list op) : Prop :=
  (1 <= Z.of_nat (List.length ops) <= 65535)%Z /\ Forall (fun o => exists s, text o s /\ s <> "") ops.

Definition Language (o : op) : Prop :=
  exists a b c x y z, complex o "" [a; b; c] /\ text a x /\ text b y /\ text c z
    /\ (1 <= String.length x <= 10)%nat /\ String.length y = 4%nat /\ String.length z = 5%nat /\ digits z.
Definition End_ (ops : list op) : Prop :=
  ops = [] \/ exists a t, ops = a :: t /\ (simple a \/ empty a)
                          /\ (t = [] \/ exists l, t = [l] /\ (empty l \/ Language l)).

(** a letter, then letters and digits, 63 at most *)
Definition plain_name (s : string) : Prop :=
  exists c t, s = String c t /\ letter c /\ (String.length t <= 62)%nat
    /\ forall x, In x (list_ascii_of_string t) -> letter x \/ In x (list_ascii_of_string "0123456789").
Definition Drop (ops : list op) : Prop :=
  (exists a b, ops = [a; b] /\ empty a /\ empty b)
  \/ Forall (fun o => (exists z, valued o z /\ (0 <= z <= 255)%Z)
                      \/ exists s, nameless o s /\ (plain_name s \/ exists t, s = String "&" t /\ plain_name t)) ops.

Definition Copy (ops : list op) : Prop :=
  exists o s, ops = [o] /\ nameless o s /\ ~ exists body, s = apostrophes body.

Definition Cnop (ops : list op) : Prop :=
  exists a b byte bound, ops = [a; b] /\ valued a byte /\ valued b bound
    /\ (0 <= byte)%Z /\ Z.Even byte /\ power_of_two 2 4096 bound /\ (byte <= bound - 2)%Z.

Definition Ccw (ops : list op) : Prop := List.length ops = 4%nat /\ Forall simple ops.

Definition Expression (ops : list op) : Prop :=
  ops = [] \/ (exists a b, ops = [a; b] /\ empty a /\ empty b)
  \/ exists a z, ops = [a] /\ valued a z /\ (0 < z)%Z.

Definition Ainsert (ops : list op) : Prop :=
  exists a b body, ops = [a; b] /\ text a (apostrophes body) /\ (1 <= String.length body <= 78)%nat
                   /\ word ["FRONT"; "BACK"] b.

Definition Adata (ops : list op) : Prop :=
  exists vs l, ops = vs ++ [l] /\ List.length vs = 4%nat
    /\ Forall (fun o => empty o \/ exists z, valued o z) vs
    /\ (empty l \/ exists s, text l s /\ (String.length s = 0 \/ 2 <= String.length s <= 255)%nat).

Definition No_operands (ops : list op) : Prop := ops = [].
Definition Using (ops : list op) : Prop := (2 <= List.length ops)%nat.
Definition Equ (ops : list op) : Prop := True.

(** ** Instructions with options *)

Definition Cattr (ops : list op) : Prop :=
  ops <> [] /\
  Forall (fun o =>
    word ["RENT"; "REUS"; "NOTREUS"; "REFR"; "READONLY"; "MOVABLE"; "REMOVABLE"; "EXECUTABLE"; "NOTEXECUTABLE";
          "DEFLOAD"; "NOLOAD"] o
    \/ (exists p, complex o "RMODE" [p] /\ word ["24"; "31"; "64"; "ANY"] p)
    \/ (exists p, complex o "ALIGN" [p] /\ word ["0"; "1"; "2"; "3"; "4"; "12"] p)
    \/ (exists p z, complex o "FILL" [p] /\ literal p z /\ (0 <= z <= 255)%Z)
    \/ (exists p s, complex o "PART" [p] /\ text p s /\ (1 <= String.length s <= 63)%nat)
    \/ (exists p z, complex o "PRIORITY" [p] /\ literal p z /\ (0 < z)%Z)) ops.

Definition Xattr (ops : list op) : Prop :=
  ops <> [] /\
  Forall (fun o =>
    (exists id p, complex o id [p] /\ In id ["ATTRIBUTES"; "ATTR"; "PSECT"])
    \/ (exists p, complex o "SCOPE" [p]
                  /\ word ["SECTION"; "MODULE"; "LIBRARY"; "IMPORT"; "EXPORT"; "S"; "M"; "L"; "X"] p)
    \/ (exists id p, complex o id [p] /\ In id ["LINKAGE"; "LINK"] /\ word ["OS"; "XPLINK"] p)
    \/ (exists id ps ws, complex o id ps /\ In id ["REFERENCE"; "REF"] /\ Forall2 text ps ws
          /\ In ws [["DIRECT"]; ["INDIRECT"]; ["DATA"]; ["CODE"];
                    ["DIRECT"; "DATA"]; ["DIRECT"; "CODE"]; ["INDIRECT"; "DATA"]; ["INDIRECT"; "CODE"];
                    ["DATA"; "DIRECT"]; ["CODE"; "DIRECT"]; ["DATA"; "INDIRECT"]; ["CODE"; "INDIRECT"]])) ops.

(** ALIAS: only the character form. *)
Definition alias_character (c : ascii) : Prop :=
  letter c \/ In c (list_ascii_of_string "0123456789.<(+|&!$*);-/,%_>?`:#@=~[]{}^\")
  \/ In (nat_of_ascii c) [34; 162; 166; 172; 177; 194]%nat.
Definition Alias (ops : list op) : Prop :=
  exists o body, ops = [o] /\ text o (String "C" (apostrophes body))
    /\ forall c, In c (list_ascii_of_string body) -> alias_character c.

Definition Flag (p : op) : Prop :=
  word (with_no ["ALIGN"; "AL"; "CONT"; "EXLITW"; "IMPLEN"; "PAGE0"; "SUBSTR"; "SUB"; "USING0"; "US0"]) p
  \/ exists z, literal p z /\ (0 <= z <= 255)%Z.
Definition Compat (p : op) : Prop :=
  word (with_no ["CASE"; "LITTYPE"; "LIT"; "MACROCASE"; "MC"; "SYSLIST"; "SYSL"; "TRANSDT"; "TRS"]) p.
Definition Typecheck (p : op) : Prop := word (with_no ["MAGNITUDE"; "MAG"; "REGISTER"; "REG"]) p.
(** also the empty text *)
Definition Optable (ps : list op) : Prop :=
  exists a t, ps = a :: t
    /\ word ["DOS"; "ESA"; "XA"; "370"; "YOP"; "ZOP"; "ZS3"; "ZS4"; "ZS5"; "ZS6"; "ZS7"; "ZS8"; ""] a
    /\ (t = [] \/ exists b, t = [b] /\ word ["LIST"; "NOLIST"] b).

Definition Acontrol (ops : list op) : Prop :=
  ops <> [] /\
  Forall (fun o =>
    word (["NOCOMPAT"; "NOCPAT"; "NOTYPECHECK"; "NOTC"] ++ with_no ["AFPR"; "LIBMAC"; "LMAC"; "RA2"]) o
    \/ (exists id ps, complex o id ps /\ In id ["COMPAT"; "CPAT"] /\ ps <> [] /\ Forall Compat ps)
    \/ (exists ps, complex o "FLAG" ps /\ ps <> [] /\ Forall Flag ps)
    \/ (exists id ps, complex o id ps /\ In id ["TYPECHECK"; "TC"] /\ ps <> [] /\ Forall Typecheck ps)
    \/ (exists ps, complex o "OPTABLE" ps /\ Optable ps)) ops.

(** Numbers read from the start of a text: blanks, a sign, then digits as far as they
    go; what follows is not looked at. *)
Definition blank (c : ascii) : Prop := nat_of_ascii c = 32%nat \/ (9 <= nat_of_ascii c <= 13)%nat.
Fixpoint decimal (acc : Z) (l : list ascii) : Z :=
  match l with
  | [] => acc
  | c :: t => decimal (10 * acc + (Z.of_nat (nat_of_ascii c) - 48)) t
  end.
Definition leading (s : string) (z : Z) : Prop :=
  exists bl sg ds rest,
    list_ascii_of_string s = bl ++ sg ++ ds ++ rest
    /\ Forall blank bl /\ In sg [[]; ["+"%char]; ["-"%char]]
    /\ ds <> [] /\ (forall c, In c ds -> In c (list_ascii_of_string "0123456789"))
    /\ (forall c t, rest = c :: t -> ~ In c (list_ascii_of_string "0123456789"))
    /\ z = (if match sg with [c] => Ascii.eqb c "-" | _ => false end then - decimal 0 ds else decimal 0 ds)%Z
    /\ (-2147483648 <= z <= 2147483647)%Z.

Fixpoint index_of (c : ascii) (l : list ascii) : Z :=
  match l with
  | [] => 0
  | x :: t => if Ascii.eqb c x then 0 else (1 + index_of c t)%Z
  end.
Definition hex_digits : list ascii := list_ascii_of_string "0123456789ABCDEFabcdef".
Definition hex_value (c : ascii) : Z :=
  let i := index_of c hex_digits in if (i <? 16)%Z then i else (i - 6)%Z.
Fixpoint hexadecimal (acc : Z) (l : list ascii) : Z :=
  match l with
  | [] => acc
  | c :: t => hexadecimal (16 * acc + hex_value c) t
  end.
(** X'...' with hexadecimal digits that make up the value z *)
Definition hex_literal (s : string) (z : Z) : Prop :=
  exists body, s = String "X" (apostrophes body) /\ body <> ""
    /\ (forall c, In c (list_ascii_of_string body) -> In c hex_digits)
    /\ z = hexadecimal 0 (list_ascii_of_string body).

(** CODEPAGE(...): 1140 to 1148. A hexadecimal value below 2^64 is taken modulo 2^32. *)
Definition Codepage (s : string) : Prop :=
  (exists z, hex_literal s z /\ (z < 2 ^ 64)%Z /\ (1140 <= z mod 2 ^ 32 <= 1148)%Z)
  \/ (s <> "" /\ digits s /\ (1140 <= decimal 0 (list_ascii_of_string s) <= 1148)%Z).

Definition leap_year (y : Z) : Prop := ((4 | y) /\ (~ (100 | y) \/ (400 | y)))%Z.
Definition month_length (y m : Z) : Z -> Prop := fun d =>
  (  (In m [1; 3; 5; 7; 8; 10; 12] /\ d = 31)
  \/ (In m [4; 6; 9; 11] /\ d = 30)
  \/ (m = 2 /\ leap_year y /\ d = 29)
  \/ (m = 2 /\ ~ leap_year y /\ d = 28))%Z.
(** YYYYMMDD *)
Definition Date (s : string) : Prop :=
  exists a b c d e f g h,
    list_ascii_of_string s = [a; b; c; d; e; f; g; h] /\ digits s
    /\ exists n, month_length (decimal 0 [a; b; c; d]) (decimal 0 [e; f]) n
                 /\ (1 <= decimal 0 [g; h] <= n)%Z.

Definition Process_using (p : op) : Prop :=
  word ["MAP"; "NOMAP"; "NOWARN"; "NOLIMIT"] p
  \/ (exists q s z, complex p "WARN" [q] /\ text q s /\ leading s z /\ (0 <= z <= 255)%Z)
  \/ (exists q s, complex p "LIMIT" [q] /\ text q s
        /\ ((exists z, hex_literal s z /\ (z <= 4095)%Z) \/ (exists z, leading s z /\ (z <= 4095)%Z))).

Definition Xref (ps : list op) : Prop :=
  (exists p, ps = [p] /\ word ["FULL"] p) \/ (ps <> [] /\ Forall (word ["SHORT"; "UNREFS"]) ps).

Definition Process_option (o : op) : Prop :=
  word (with_no ["ALIGN"; "BATCH"; "DBCS"; "DXREF"; "DX"; "ERASE"; "ESD"; "FOLD"; "ILMA"; "INFO"; "LIBMAC"; "LMAC";
                 "MXREF"; "MX"; "PRINT"; "PR"; "PROFILE"; "PROF"; "RA2"; "RENT"; "RLD"; "RXREF"; "RX"; "SEG"; "TEST";
                 "THREAD"; "THR"; "WORKFILE"]
        ++ ["DISK"; "DI"; "NOCOMPAT"; "NOCPAT"; "NOFAIL"; "NOPCONTROL"; "NOPC"; "NOSUPRWARN"; "NOSUP"; "NOTYPECHECK";
            "NOTC"; "NOUSING"; "NOUS"; "NOXREF"; "PESTOP=YES"; "PESTOP=NO"]) o
  \/ (exists id p s, complex o id [p] /\ In id ["CODEPAGE"; "CP"] /\ text p s /\ Codepage s)
  \/ (exists p t v r, complex o "INFO" [p] /\ p = Simple t false v r /\ Date t)
  \/ (exists id p, complex o id [p] /\ In id ["MXREF"; "MX"] /\ word ["FULL"; "SOURCE"; "XREF"] p)
  \/ (exists p z, complex o "SECTALGN" [p] /\ literal p z /\ power_of_two 8 4096 z)
  \/ (exists id p, complex o id [p] /\ In id ["PROFILE"; "PROF"])
  \/ (exists id a t, complex o id (a :: t) /\ In id ["MACHINE"; "MAC"]
        /\ word ["S370"; "S370XA"; "S370ESA"; "S390"; "S390E"; "ZSERIES"; "ZS";
                 "ZSERIES-2"; "ZSERIES-3"; "ZSERIES-4"; "ZSERIES-5"; "ZSERIES-6"; "ZSERIES-7"; "ZSERIES-8";
                 "ZS-2"; "ZS-3"; "ZS-4"; "ZS-5"; "ZS-6"; "ZS-7"; "ZS-8"] a
        /\ (t = [] \/ exists b, t = [b] /\ word ["LIST"; "NOLIST"] b))
  \/ (exists id ps, complex o id ps /\ In id ["OPTABLE"; "OP"] /\ Optable ps)
  \/ (exists id ps, complex o id ps /\ In id ["COMPAT"; "CPAT"] /\ ps <> [] /\ Forall Compat ps)
  \/ (exists id ps, complex o id ps /\ In id ["TYPECHECK"; "TC"] /\ ps <> [] /\ Forall Typecheck ps)
  \/ (exists id ps, complex o id ps /\ In id ["PCONTROL"; "PC"] /\ ps <> []
        /\ Forall (word (["ON"; "OFF"] ++ with_no ["DATA"; "GEN"; "MCALL"; "MC"; "MSOURCE"; "MS"; "UHEAD"; "UHD"])) ps)
  \/ (exists ps, complex o "XREF" ps /\ Xref ps)
  \/ (exists id ps, complex o id ps /\ In id ["SUPRWARN"; "SUP"; "NOSUPRWARN"; "NOSUP"] /\ ps <> []
        /\ Forall (fun p => exists s, text p s /\ digits s /\ (1 <= String.length s <= 4)%nat) ps)
  \/ (exists ps, complex o "FLAG" ps /\ ps <> []
        /\ Forall (fun p => Flag p \/ word (with_no ["PUSH"; "PU"; "RECORD"; "RC"]) p) ps)
  \/ (exists ps, complex o "FAIL" ps /\ Forall (word ["NOMSG"; "NOMNOTE"]) ps)
  \/ (exists id ps, complex o id ps /\ In id ["USING"; "US"] /\ Forall Process_using ps).

Definition Process (ops : list op) : Prop :=
  (exists o ps, ops = [o] /\ complex o "OVERRIDE" ps /\ Forall Process_option ps)
  \/ (ops <> [] /\ Forall Process_option ops).

(** ** The table: what each instruction accepts *)

Definition accepts : list (string * (list op -> Prop)) :=
  [ ("*PROCESS", Process); ("ACONTROL", Acontrol); ("ADATA", Adata); ("AINSERT", Ainsert); ("ALIAS", Alias);
    ("AMODE", Amode); ("CATTR", Cattr); ("CCW", Ccw); ("CCW0", Ccw); ("CCW1", Ccw); ("CEJECT", Expression);
    ("CNOP", Cnop); ("COM", No_operands); ("COPY", Copy); ("CSECT", No_operands); ("CXD", No_operands);
    ("DROP", Drop); ("DSECT", No_operands); ("DXD", fun _ => False); ("EJECT", No_operands); ("END", End_);
    ("ENTRY", Entry); ("EQU", Equ); ("EXITCTL", Exitctl); ("EXTRN", External); ("ICTL", Ictl); ("ISEQ", Iseq);
    ("LOCTR", No_operands); ("LTORG", No_operands); ("MNOTE", Mnote); ("OPSYN", Opsyn); ("ORG", Org); ("POP", Stack);
    ("PRINT", Print); ("PUNCH", Punch); ("PUSH", Stack); ("REPRO", No_operands); ("RMODE", Rmode);
    ("RSECT", No_operands); ("SPACE", Expression); ("START", Expression); ("TITLE", Title); ("USING", Using);
    ("WXTRN", External); ("XATTR", Xattr) ].

(** ** Reports *)

(** an operand, a parameter of it, a parameter of that, ... *)
Inductive within : op -> op -> Prop :=
| w_self o : within o o
| w_param o p id ps r : In p ps -> within o p -> within o (Complex id ps r).

(** the statement, an operand or a parameter of it, or everything from the first
    operand to the second *)
Definition placed (ops : list op) (stmt q : rng) : Prop :=
  q = stmt
  \/ (exists o p, In o ops /\ within p o /\ q = op_range p)
  \/ (exists a b t, ops = a :: b :: t /\ q = (fst (op_range a), snd (op_range b))).

(** accepted without a report, or rejected with exactly one, at such a place *)
Definition tidy (ops : list op) (stmt : rng) (r : res) : Prop :=
  r = (Yes, []) \/ exists c q, r = (No, [D c q]) /\ placed ops stmt q.

(** Operands whose check does not have this form. *)
Definition strange_option (o : op) : Prop :=
  (exists ps p s, complex o "FLAG" ps /\ In p ps /\ text p s /\ In s (with_no ["PUSH"; "PU"; "RECORD"; "RC"]))
  \/ (exists id p s, complex o id [p] /\ In id ["CODEPAGE"; "CP"] /\ text p s /\ ~ Codepage s)
  \/ (exists id ps p q s z, complex o id ps /\ In id ["USING"; "US"] /\ In p ps /\ complex p "LIMIT" [q]
        /\ text q s /\ hex_literal s z /\ (2 ^ 64 <= z)%Z).
Definition strange (name : string) (ops : list op) : Prop :=
  (name = "ALIAS" /\ exists o c body, ops = [o] /\ text o (String c (apostrophes body)) /\ c <> "C"%char /\ c <> "X"%char)
  \/ (name = "ADATA" /\ exists vs l s, ops = vs ++ [l] /\ text l s /\ s <> "" /\ ~ exists body, s = apostrophes body)
  \/ (name = "DROP" /\ exists o, In o ops /\ (nameless o "" \/ nameless o "&"))
  \/ name = "DXD"
  \/ (name = "*PROCESS" /\ ((exists o, In o ops /\ strange_option o)
                            \/ exists o ps p, ops = [o] /\ complex o "OVERRIDE" ps /\ In p ps /\ strange_option p)).

(** ** Numbers of operands *)

(** the messages about the number of operands *)
Definition count_codes : list string := ["A010"; "A011"; "A012"; "A013"].
Definition counted (r : res) : Prop := exists d, In d (snd r) /\ In (d_code d) count_codes.
Definition in_range (mn : nat) (mx : option nat) (n : nat) : Prop :=
  (mn <= n)%nat /\ forall m, mx = Some m -> (n <= m)%nat.
(** at least; exactly; one of two; between *)
Definition count_code (mn : nat) (mx : option nat) (c : string) : Prop :=
  (mx = None /\ c = "A010") \/ (mx = Some mn /\ c = "A011") \/ (mx = Some (S mn) /\ c = "A013")
  \/ (exists m, mx = Some m /\ m <> mn /\ m <> S mn /\ c = "A012").

(** ** In the source *)

(** A part of an operand, at any depth. *)
Inductive part_of : part -> list part -> Prop :=
| po_here p ps : In p ps -> part_of p ps
| po_deeper p id qs r ps : In (PComposite id qs r) ps -> part_of p qs -> part_of p ps.
Definition part_range (p : part) : rng := match p with PInt _ r => r | PText _ r => r | PComposite _ _ r => r end.
Definition composite (p : part) : Prop := exists id ps r, p = PComposite id ps r.
Definition parts (s : src) : list part := match s with SComplex _ ps _ => ps | _ => [] end.

(** the statement, an operand, a part of an operand that is not composite, or from the
    first operand to the second *)
Definition spot (l : list src) (stmt q : rng) : Prop :=
  q = stmt
  \/ (exists s, In s l /\ q = src_range s)
  \/ (exists s p, In s l /\ part_of p (parts s) /\ ~ composite p /\ q = part_range p)
  \/ (exists a b t, l = a :: b :: t /\ q = (fst (src_range a), snd (src_range b))).

Inductive read_part (dec : Z -> string) : part -> op -> Prop :=
| rp_int v r : read_part dec (PInt v r) (Simple (dec v) false v r)
| rp_text s r : read_part dec (PText s r) (Simple s true 0 r)
| rp_composite id ps qs r : Forall2 (read_part dec) ps qs -> read_part dec (PComposite id ps r) (Complex id qs (0, 0)%Z).

(** How an operand of the source is read: [ord] tells whether symbols stand for values
    in the instruction, [dec] writes a number in decimal. *)
Inductive read (dec : Z -> string) (ord : bool) : src -> op -> Prop :=
| rd_symbol t d v r : ord = false -> read dec ord (SExpr t true d v r) (Simple t true 0 r)
| rd_undefined t sym d r : (ord = false -> sym = false) -> read dec ord (SExpr t sym d VUndef r) (Simple t true 0 r)
| rd_absolute t sym d z r : (ord = false -> sym = false) -> read dec ord (SExpr t sym d (VAbs z) r) (Simple t false z r)
| rd_relocatable t sym d r : (ord = false -> sym = false) -> read dec ord (SExpr t sym d VReloc r) (Simple "0" false 0 r)
| rd_string t r : read dec ord (SString t r) (Simple (apostrophes t) true 0 r)
| rd_base d r : read dec ord (SBaseEnd d r) (Complex "" [] r)
| rd_empty r : read dec ord (SEmpty r) (Empty r)
| rd_complex id ps qs r : Forall2 (read_part dec) ps qs -> read dec ord (SComplex id ps r) (Complex id qs r).

(** the instructions in which symbols stand for values *)
Definition symbolic : list string :=
  [ "*PROCESS"; "CCW"; "CCW0"; "CCW1"; "CEJECT"; "CNOP"; "DC"; "DROP"; "DS"; "DXD"; "END"; "ENTRY"; "EQU"; "ORG";
    "SPACE"; "START"; "USING" ].
(** an operand that depends on symbols that are not defined *)
Definition depends (s : src) : Prop :=
  (exists t sym v r, s = SExpr t sym true v r) \/ exists r, s = SBaseEnd true r.

(** ** Which messages there are *)

Definition codes : list (string * list string) :=
  [ ("*PROCESS", ["A010"; "A015"; "A016"; "A018"; "A021"; "A162"; "A209"; "A210"; "A211"; "A212"; "A213"; "A214"; "A215"; "A216";
                  "A217"; "A218"; "A219"; "A220"; "A221"; "A222"; "A223"; "A224"; "A225"; "A226"; "A227"; "A228"; "A229"; "A230";
                  "A231"; "A232"; "A233"; "A234"; "A235"; "A236"; "A237"]);
    ("ACONTROL", ["A010"; "A015"; "A018"; "A021"; "A161"; "A209"; "A210"; "A211"; "A212"; "A213"; "A214"]);
    ("ADATA", ["A011"; "A158"; "A160"; "A239"; "A300"]);
    ("AINSERT", ["A011"; "A021"; "A156"; "A157"; "A301"]);
    ("ALIAS", ["A011"; "A151"; "A152"; "A153"; "A154"; "A155"]);
    ("AMODE", ["A011"; "A150"]);
    ("CATTR", ["A010"; "A016"; "A021"; "A149"; "A204"; "A205"; "A206"; "A207"; "A208"]);
    ("CCW", ["A011"; "A143"; "A147"; "A247"]); ("CCW0", ["A011"; "A143"; "A147"; "A247"]);
    ("CCW1", ["A011"; "A143"; "A147"; "A247"]);
    ("CEJECT", ["A013"; "A148"; "A240"]); ("SPACE", ["A013"; "A148"; "A240"]); ("START", ["A013"; "A148"; "A240"]);
    ("CNOP", ["A011"; "A143"; "A144"; "A145"; "A146"]);
    ("COM", ["A011"]); ("CSECT", ["A011"]); ("CXD", ["A011"]); ("DSECT", ["A011"]); ("EJECT", ["A011"]);
    ("LOCTR", ["A011"]); ("LTORG", ["A011"]); ("REPRO", ["A011"]); ("RSECT", ["A011"]);
    ("COPY", ["A011"; "A142"]);
    ("DROP", ["A141"]);
    ("DXD", ["A010"; "A004"]);
    ("END", ["A012"; "A001"; "A016"; "A137"; "A138"; "A139"; "A140"; "A243"; "A248"]);
    ("ENTRY", ["A010"; "A014"; "A136"]);
    ("EQU", []);
    ("EXITCTL", ["A012"; "A020"; "A130"; "A131"]);
    ("EXTRN", ["A010"; "A021"; "A129"]); ("WXTRN", ["A010"; "A021"; "A129"]);
    ("ICTL", ["A012"; "A021"; "A122"; "A123"; "A124"; "A125"; "A126"; "A127"; "A242"]);
    ("ISEQ", ["A013"; "A120"; "A121"]);
    ("MNOTE", ["A013"; "A117"; "A118"; "A119"; "A300"]);
    ("OPSYN", ["A013"; "A246"]);
    ("ORG", ["A012"; "A020"; "A115"; "A116"; "A245"]);
    ("POP", ["A012"; "A110"; "A111"; "A112"; "A113"; "A114"]); ("PUSH", ["A012"; "A110"; "A111"; "A112"; "A113"; "A114"]);
    ("PRINT", ["A010"; "A109"]);
    ("PUNCH", ["A011"; "A108"; "A244"; "A300"]);
    ("RMODE", ["A011"; "A107"]);
    ("TITLE", ["A011"; "A106"; "A300"]);
    ("USING", ["A010"]);
    ("XATTR", ["A001"; "A010"; "A016"; "A018"; "A100"; "A200"; "A201"; "A202"; "A203"; "A238"]) ].
