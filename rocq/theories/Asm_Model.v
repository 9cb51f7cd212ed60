(** * Checking of assembler instructions

    The checks that decide whether the operands of an assembler instruction are
    right, and what is reported when they are not:
      parser_library/src/checking/asm_instr_check.cpp
      parser_library/src/checking/asm_instr_class.cpp
      parser_library/src/checking/checker_helper.h
      parser_library/src/checking/instruction_checker.cpp
      parser_library/src/processing/instruction_sets/asm_processor.cpp (506-531)
      parser_library/src/processing/instruction_sets/low_language_processor.cpp
        (255-280, 282-328, 331-365)
      parser_library/src/semantics/operand_impls.cpp/.h (operands to values)

    Simplifications.
    - A source range is a pair of integers (start, end): line and column are one number.
      [no_range] is the value of a default-constructed range, line 0 column 0.
    - A diagnostic is its code and its range. Messages are not modelled.
    - Character classification is that of the "C" locale; bytes of 128 and over are
      not digits or letters.
    - Operand counts do not exceed the range of [int].
    - The evaluation of an expression is given: an expression operand carries its text,
      whether it is a bare symbol, whether it still depends on undefined symbols,
      and its value. Diagnostics of the evaluation itself are not included.
    - The checks of data definitions (DC and DS) are modelled elsewhere (DD files).
      DXD is included: its operands never are data definitions. *)
From Coq Require Import String Ascii.
From Coq Require Import List ZArith Bool Arith.
Import ListNotations.
Open Scope Z_scope.

Definition rng : Type := (Z * Z)%type.
Definition no_range : rng := (0, 0).

(** instr_operand.h 150-235: one_operand (operand_identifier, is_default, value),
    complex_operand (operand_identifier, operand_parameters), empty_operand;
    each with operand_range. *)
Inductive op : Type :=
| Simple (id : string) (dflt : bool) (value : Z) (r : rng)
| Complex (id : string) (ps : list op) (r : rng)
| Empty (r : rng).

Definition op_range (o : op) : rng :=
  match o with Simple _ _ _ r => r | Complex _ _ r => r | Empty r => r end.

Record diag : Type := D { d_code : string; d_at : rng }.

(** The outcome of a check: accepted, rejected, left by an exception, or undefined
    behaviour (a precondition of a library call violated, or a failed assertion). *)
Inductive verdict : Type := Yes | No | Thrown | Undefined.
Definition res : Type := (verdict * list diag)%type.

Definition ok : res := (Yes, []).
Definition fail (c : string) (r : rng) : res := (No, [D c r]).
Definition need (b : bool) (c : string) (r : rng) : res := if b then ok else fail c r.
Definition andthen (x : res) (k : res) : res :=
  match x with
  | (Yes, ds) => (fst k, ds ++ snd k)
  | _ => x
  end.
Notation "x ;; k" := (andthen x k) (at level 61, right associativity).

(** a loop over operands that stops at the first that is not accepted *)
Fixpoint each {A} (f : A -> res) (l : list A) : res :=
  match l with
  | [] => ok
  | x :: t => f x ;; each f t
  end.

(** the same with the position of the operand *)
Fixpoint each_i {A} (f : nat -> A -> res) (i : nat) (l : list A) : res :=
  match l with
  | [] => ok
  | x :: t => f i x ;; each_i f (S i) t
  end.

(** ** checker_helper.h *)

Definition code (c : ascii) : nat := nat_of_ascii c.
Definition is_digit (c : ascii) : bool := ((48 <=? code c) && (code c <=? 57))%nat.
Definition is_upper (c : ascii) : bool := ((65 <=? code c) && (code c <=? 90))%nat.
Definition is_lower (c : ascii) : bool := ((97 <=? code c) && (code c <=? 122))%nat.
Definition is_alpha (c : ascii) : bool := is_upper c || is_lower c.
Definition is_alnum (c : ascii) : bool := is_alpha c || is_digit c.
Definition is_xdigit (c : ascii) : bool :=
  is_digit c || ((65 <=? code c) && (code c <=? 70))%nat || ((97 <=? code c) && (code c <=? 102))%nat.
Definition is_space (c : ascii) : bool := ((code c =? 32) || ((9 <=? code c) && (code c <=? 13)))%nat.

Definition chars (s : string) : list ascii := list_ascii_of_string s.
Definition quote : ascii := ascii_of_nat 39.
Definition amp : ascii := ascii_of_nat 38.

(** asm_instr_class.cpp 22-26: is_param_in_vector *)
Definition mem (s : string) (l : list string) : bool := existsb (String.eqb s) l.

(** checker_helper.h 62: has_all_digits *)
Definition has_all_digits (s : string) : bool := forallb is_digit (chars s).
(** checker_helper.h 64: is_positive_number *)
Definition is_positive (z : Z) : bool := 0 <? z.
(** checker_helper.h 80-83: is_value_hexa *)
Definition is_value_hexa (l : list ascii) : bool := negb (match l with [] => true | _ => false end) && forallb is_xdigit l.
(** checker_helper.h 85: is_byte_value *)
Definition is_byte (z : Z) : bool := (z <=? 255) && (0 <=? z).
(** checker_helper.h 87-92: is_power_of_two *)
Definition is_power_of_two (z : Z) : bool := (0 <=? z) && (Z.land z (z - 1) =? 0).

(** checker_helper.h 94-99: is_ord_symbol; None is the failed assertion. *)
Definition is_ord_symbol (s : string) : option bool :=
  match chars s with
  | [] => None
  | c :: _ => Some ((String.length s <=? 63)%nat && is_alpha c && forallb is_alnum (chars s))
  end.
(** checker_helper.h 101-105: is_var_symbol *)
Definition is_var_symbol (s : string) : option bool :=
  match s with
  | EmptyString => None
  | String c t => if Ascii.eqb c amp then is_ord_symbol t else Some false
  end.

(** checker_helper.h 107-110: is_character_string *)
Definition is_character_string (s : string) : bool :=
  let n := String.length s in ((n =? 0) || negb ((n =? 1) || (255 <? n)))%nat.

Definition digit (c : ascii) : Z := Z.of_nat (code c) - 48.
Definition xdigit (c : ascii) : Z :=
  if is_digit c then digit c
  else if (code c <=? 70)%nat then Z.of_nat (code c) - 55 else Z.of_nat (code c) - 87.

Fixpoint span (p : ascii -> bool) (l : list ascii) : list ascii :=
  match l with
  | c :: t => if p c then c :: span p t else []
  | [] => []
  end.
Fixpoint skip (p : ascii -> bool) (l : list ascii) : list ascii :=
  match l with
  | c :: t => if p c then skip p t else l
  | [] => []
  end.
Definition number (base : Z) (v : ascii -> Z) (l : list ascii) : Z :=
  fold_left (fun a c => a * base + v c) l 0.

(** A sign, if there is one: the factor and what follows. *)
Definition sign (l : list ascii) : Z * list ascii :=
  match l with
  | c :: t => if (code c =? 45)%nat then (-1, t) else if (code c =? 43)%nat then (1, t) else (1, l)
  | [] => (1, l)
  end.

(** std::stoi(s): white space, a sign, digits; whatever follows is ignored. None is an
    exception: no digits, or a value that is not an [int]. *)
Definition stoi (s : string) : option Z :=
  let (g, l) := sign (skip is_space (chars s)) in
  match span is_digit l with
  | [] => None
  | ds => let v := g * number 10 digit ds in
          if (-2147483648 <=? v) && (v <=? 2147483647) then Some v else None
  end.

(** std::stoul(s, nullptr, 16): white space, a sign, 0x, digits. None is an exception:
    no digits, or a value of 2^64 and over. *)
Definition stoul16 (s : list ascii) : option Z :=
  let (g, l) := sign (skip is_space s) in
  let l' := match l with
            | z :: x :: h :: t =>
              if ((code z =? 48) && ((code x =? 120) || (code x =? 88)))%nat && is_xdigit h then h :: t else l
            | _ => l
            end in
  match span is_xdigit l' with
  | [] => None
  | ds => let v := number 16 xdigit ds in
          if v <? 2 ^ 64 then Some ((g * v) mod 2 ^ 64) else None
  end.

(** Conversion of an unsigned long to [int]. *)
Definition to_int (z : Z) : Z := (z + 2147483648) mod 4294967296 - 2147483648.

(** checker_helper.h 112-137: is_date. The text has eight digits, so that the three
    calls of std::stoi cannot throw. *)
Definition days_in_month : list Z := [31; 28; 31; 30; 31; 30; 31; 31; 30; 31; 30; 31].
Definition is_date (s : string) : bool :=
  if negb ((String.length s =? 8)%nat && has_all_digits s) then false
  else
    let num a n := number 10 digit (chars (substring a n s)) in
    let year := num 0%nat 4%nat in
    let month := num 4%nat 2%nat in
    let day := num 6%nat 2%nat in
    if (month <? 1) || (12 <? month) || (31 <? day) || (day <? 1) then false
    else
      let leap := (year mod 4 =? 0) && (negb (year mod 100 =? 0) || (year mod 400 =? 0)) in
      (day <=? nth (Z.to_nat (month - 1)) days_in_month 0) || ((month =? 2) && leap && (day =? 29)).

(** ** asm_instr_class.cpp *)

(** 28-44: operands_size_corresponding; a maximum of None is -1. *)
Definition sizes (mn : nat) (mx : option nat) (ops : list op) (stmt : rng) : res :=
  let n := List.length ops in
  if ((mn <=? n) && match mx with Some m => n <=? m | None => true end)%nat then ok
  else match mx with
       | None => fail "A010" stmt
       | Some m => if (mn =? m)%nat then fail "A011" stmt
                   else if (m =? mn + 1)%nat then fail "A013" stmt
                   else fail "A012" stmt
       end.

(** a simple operand with one of the given texts *)
Definition keyword (ks : list string) (o : op) : bool :=
  match o with Simple id _ _ _ => mem id ks | _ => false end.

Open Scope string_scope.

(** 47-79: check_compat_operands *)
Definition compat_words : list string :=
  [ "NOCASE"; "NOLITTYPE"; "NOMACROCASE"; "NOSYSLIST"; "NOTRANSDT"; "NOLIT"; "NOMC"; "NOSYSL"; "NOTRS";
    "CASE"; "LITTYPE"; "MACROCASE"; "SYSLIST"; "TRANSDT"; "LIT"; "MC"; "SYSL"; "TRS" ].
Definition check_compat (ps : list op) : res :=
  each (fun o => need (keyword compat_words o) "A209" (op_range o)) ps.

(** 81-119: check_flag_operand *)
Definition flag_words : list string :=
  [ "NOALIGN"; "NOCONT"; "NOEXLITW"; "NOIMPLEN"; "NOPAGE0"; "NOSUBSTR"; "NOUSING0"; "NOAL"; "NOSUB"; "NOUS0";
    "ALIGN"; "CONT"; "EXLITW"; "IMPLEN"; "PAGE0"; "SUBSTR"; "USING0"; "AL"; "SUB"; "US0" ].
Definition check_flag_operand (id : string) (dflt : bool) (v : Z) (r : rng) : res :=
  if mem id flag_words then ok
  else if has_all_digits id && negb dflt then need (negb ((v <? 0)%Z || (255 <? v)%Z)) "A210" r
  else fail "A211" r.

(** 121-141: check_process_flag_parameters. A failed check_flag_operand has already
    reported when the text turns out to be one of the other options. *)
Definition other_pairs : list string :=
  [ "NOPUSH"; "NORECORD"; "NOPU"; "NORC"; "PUSH"; "RECORD"; "PU"; "RC" ].
Definition check_process_flag (ps : list op) : res :=
  each (fun o => match o with
                 | Simple id d v r =>
                   match check_flag_operand id d v r with
                   | (Yes, ds) => (Yes, ds)
                   | (w, ds) => if mem id other_pairs then (Yes, ds) else (w, ds)
                   end
                 | _ => fail "A211" (op_range o)
                 end) ps.

(** 143-172: check_optable_operands. The array has thirteen elements and twelve
    initialisers. *)
Definition optable_words : list string :=
  [ "DOS"; "ESA"; "XA"; "370"; "YOP"; "ZOP"; "ZS3"; "ZS4"; "ZS5"; "ZS6"; "ZS7"; "ZS8"; "" ].
Definition check_optable (ps : list op) : res :=
  match ps with
  | [] => (Undefined, [])
  | [a] => need (keyword optable_words a) "A212" (op_range a)
  | a :: b :: _ =>
    need (keyword optable_words a) "A212" (op_range a) ;;
    (if (List.length ps =? 2)%nat then need (keyword ["LIST"; "NOLIST"] b) "A213" (op_range b) else ok)
  end.

(** 174-194: check_typecheck_operands *)
Definition typecheck_words : list string :=
  [ "MAGNITUDE"; "REGISTER"; "MAG"; "REG"; "NOMAGNITUDE"; "NOREGISTER"; "NOMAG"; "NOREG" ].
Definition check_typecheck (ps : list op) : res :=
  each (fun o => need (keyword typecheck_words o) "A214" (op_range o)) ps.

(** [quoted l]: the characters of l between the second and the last, when the second
    and the last are apostrophes and there are three at least. *)
Definition enclosed (l : list ascii) : option (list ascii) :=
  match l with
  | _ :: q :: t =>
    match rev t with
    | q' :: m => if Ascii.eqb q quote && Ascii.eqb q' quote then Some (rev m) else None
    | [] => None
    end
  | _ => None
  end.

(** 197-247: check_codepage_parameter. The argument is a string, converted to an
    operand without a range. front() of an empty string is undefined; std::stoi may
    throw; an exception of std::stoul is caught and meets an assertion. *)
Definition check_codepage (id : string) : res :=
  match chars id with
  | [] => (Undefined, [])
  | c :: _ =>
    if Ascii.eqb c "X" then
      match enclosed (chars id) with
      | None => fail "A215" no_range
      | Some h =>
        need (forallb is_xdigit h) "A215" no_range ;;
        match stoul16 h with
        | None => (Undefined, [])
        | Some u => let v := to_int u in need (negb ((v <? 1140)%Z || (1148 <? v)%Z)) "A216" no_range
        end
      end
    else
      need (has_all_digits id) "A215" no_range ;;
      match stoi id with
      | None => (Thrown, [])
      | Some v => need (negb ((v <? 1140)%Z || (1148 <? v)%Z)) "A216" no_range
      end
  end.

(** 249-327: check_fail_parameters *)
Definition check_fail (ps : list op) : res :=
  each (fun o =>
    match o with
    | Simple id _ _ r => need (String.eqb id "NOMSG" || String.eqb id "NOMNOTE") "A233" r
    | Complex id qs r =>
      need (negb ((negb (String.eqb id "MNOTE") && negb (String.eqb id "MSG"))
                  || (negb (String.eqb id "MAXERRS") && negb (String.eqb id "NOMAXERRS")))) "A233" r ;;
      need (List.length qs =? 1)%nat "A016" r ;;
      match qs with
      | Simple n _ _ r' :: _ =>
        match stoi n with
        | None => fail "A235" r'
        | Some v =>
          if String.eqb id "MNOTE" || String.eqb id "MSG"
          then need (negb ((v <? 0)%Z || (7 <? v)%Z)) "A237" r'
          else if String.eqb id "MAXERRS" || String.eqb id "NOMAXERRS"
          then need (negb ((v <? 32)%Z || (65535 <? v)%Z)) "A236" r'
          else fail "A233" r
        end
      | _ => fail "A234" r
      end
    | Empty r => fail "A021" r
    end) ps.

(** 329-353: check_first_machine_operand *)
Definition machine_words : list string :=
  [ "S370"; "S370XA"; "S370ESA"; "S390"; "S390E"; "ZSERIES"; "ZS"; "ZSERIES-2"; "ZS-2"; "ZSERIES-3"; "ZS-3";
    "ZSERIES-4"; "ZS-4"; "ZSERIES-5"; "ZS-5"; "ZSERIES-6"; "ZS-6"; "ZSERIES-7"; "ZS-7"; "ZSERIES-8"; "ZS-8" ].

(** 355-389: check_pcontrol_parameters *)
Definition pcontrol_words : list string :=
  [ "DATA"; "GEN"; "MCALL"; "MSOURCE"; "UHEAD"; "MC"; "MS"; "UHD"; "NODATA"; "NOGEN"; "NOMCALL"; "NOMSOURCE";
    "NOUHEAD"; "NOMC"; "NOMS"; "NOUHD"; "ON"; "OFF" ].
Definition check_pcontrol (ps : list op) : res :=
  each (fun o => need (keyword pcontrol_words o) "A223" (op_range o)) ps.

(** 391-496: check_using_parameters. The std::stoul of the hexadecimal form is not
    inside a try block. *)
Definition check_using (ps : list op) : res :=
  each (fun o =>
    match o with
    | Simple id _ _ r => need (mem id ["MAP"; "NOMAP"; "NOWARN"; "NOLIMIT"]) "A227" r
    | Complex id qs r =>
      need (String.eqb id "WARN" || String.eqb id "LIMIT") "A227" r ;;
      match qs with
      | [Simple n _ _ r'] =>
        if String.eqb id "WARN" then
          match stoi n with
          | None => fail "A228" r'
          | Some v => need (is_byte v) "A229" r'
          end
        else
          let hex := match chars n with
                     | c :: _ => if Ascii.eqb c "X"
                                 then match enclosed (chars n) with
                                      | Some h => if is_value_hexa h then Some h else None
                                      | None => None
                                      end
                                 else None
                     | [] => None
                     end in
          match hex with
          | Some h => match stoul16 h with
                      | None => (Thrown, [])
                      | Some u => need (negb (4095 <? u)%Z) "A232" r
                      end
          | None => match stoi n with
                    | None => fail "A230" r
                    | Some v => need (negb (4095 <? v)%Z) "A231" r
                    end
          end
      | _ => fail "A228" r
      end
    | Empty r => fail "A021" r
    end) ps.

(** 498-521: check_xref_parameters *)
Definition check_xref (ps : list op) : res :=
  match ps with
  | [] => (Undefined, [])
  | o :: t =>
    match o with
    | Simple id _ _ _ =>
      if match t with [] => String.eqb id "FULL" | _ => false end then ok
      else each (fun p => need (keyword ["SHORT"; "UNREFS"] p) "A224" (op_range p)) ps
    | _ => fail "A224" (op_range o)
    end
  end.

(** 523-551: check_suprwarn_parameters *)
Definition check_suprwarn (ps : list op) : res :=
  each (fun o =>
    match o with
    | Simple id _ _ r =>
      need (has_all_digits id) "A225" r ;;
      need (negb ((4 <? String.length id) || (String.length id =? 0))%nat) "A226" r
    | _ => fail "A225" (op_range o)
    end) ps.

(** 553-842: check_assembler_process_operand *)
Definition process_simple : list string :=
  [ "ALIGN"; "BATCH"; "DBCS"; "DXREF"; "DX"; "ERASE"; "ESD"; "FOLD"; "ILMA"; "PROFILE"; "PROF"; "INFO"; "LIBMAC";
    "LMAC"; "PRINT"; "PR"; "RA2"; "RENT"; "RLD"; "RXREF"; "RX"; "SEG"; "TEST"; "THREAD"; "THR"; "WORKFILE"; "MXREF";
    "MX"; "NOALIGN"; "NOBATCH"; "NODBCS"; "NODXREF"; "NODX"; "NOERASE"; "NOESD"; "NOFOLD"; "NOILMA"; "NOPROFILE";
    "NOPROF"; "NOINFO"; "NOLIBMAC"; "NOLMAC"; "NOPRINT"; "NOPR"; "NORA2"; "NORENT"; "NORLD"; "NORXREF"; "NORX";
    "NOSEG"; "NOTEST"; "NOTHREAD"; "NOTHR"; "NOWORKFILE"; "NOMXREF"; "NOMX";
    "NOCOMPAT"; "NOCPAT"; "DISK"; "DI"; "NOFAIL"; "NOPCONTROL"; "NOPC"; "NOTYPECHECK"; "NOTC"; "NOUSING"; "NOUS";
    "NOXREF"; "PESTOP=YES"; "PESTOP=NO"; "NOSUPRWARN"; "NOSUP" ].
Definition one_simple_param : list string :=
  [ "CODEPAGE"; "CP"; "INFO"; "MXREF"; "MX"; "SECTALGN"; "PROFILE"; "PROF" ].
Definition two_simple_param : list string := [ "MACHINE"; "MAC"; "OPTABLE"; "OP" ].
Definition one_plus_params : list string :=
  [ "COMPAT"; "CPAT"; "FLAG"; "PCONTROL"; "PC"; "XREF"; "SUPRWARN"; "SUP"; "NOSUPRWARN"; "NOSUP"; "TYPECHECK"; "TC" ].
Definition complex_params : list string := [ "US"; "FAIL"; "USING" ].

Definition check_process_operand (o : op) : res :=
  match o with
  | Simple id _ _ r => need (mem id process_simple) "A162" r
  | Complex id ps r =>
    need (mem id one_simple_param || mem id one_plus_params || mem id two_simple_param || mem id complex_params)
         "A162" r ;;
    if String.eqb id "FAIL" then check_fail ps
    else if String.eqb id "USING" || String.eqb id "US" then check_using ps
    else if mem id one_simple_param then
      match ps with
      | [p] =>
        if String.eqb id "CODEPAGE" || String.eqb id "CP" then
          match p with
          | Simple i _ _ _ => check_codepage i
          | _ => fail "A215" (op_range p)
          end
        else if String.eqb id "INFO" then
          need match p with Simple i d _ _ => negb d && is_date i | _ => false end "A217" (op_range p)
        else if String.eqb id "MXREF" || String.eqb id "MX" then
          need (keyword ["FULL"; "SOURCE"; "XREF"] p) "A218" (op_range p)
        else if String.eqb id "SECTALGN" then
          match p with
          | Simple i d v r' =>
            need (has_all_digits i && negb d) "A219" r' ;;
            need (is_power_of_two v && negb (v <? 8)%Z && negb (4096 <? v)%Z) "A220" r'
          | _ => fail "A219" (op_range p)
          end
        else ok
      | _ => if String.eqb id "INFO" then fail "A018" r else fail "A016" r
      end
    else if mem id two_simple_param then
      need (negb ((List.length ps =? 0) || (2 <? List.length ps))%nat) "A018" r ;;
      if String.eqb id "MACHINE" || String.eqb id "MAC" then
        match ps with
        | [] => (Undefined, [])
        | a :: t =>
          need (keyword machine_words a) "A222" (op_range a) ;;
          match t with
          | [b] => need (keyword ["LIST"; "NOLIST"] b) "A221" (op_range b)
          | _ => ok
          end
        end
      else check_optable ps
    else
      need (negb (List.length ps =? 0)%nat) "A015" r ;;
      (if String.eqb id "COMPAT" || String.eqb id "CPAT" then check_compat ps
       else if String.eqb id "TYPECHECK" || String.eqb id "TC" then check_typecheck ps
       else if String.eqb id "PCONTROL" || String.eqb id "PC" then check_pcontrol ps
       else if String.eqb id "XREF" then check_xref ps
       else if mem id ["SUPRWARN"; "SUP"; "NOSUPRWARN"; "NOSUP"] then check_suprwarn ps
       else if String.eqb id "FLAG" then check_process_flag ps
       else (Undefined, []))
  | Empty r => fail "A021" r
  end.

(** ** asm_instr_check.cpp *)

Definition head_range (ops : list op) : rng := match ops with o :: _ => op_range o | [] => no_range end.
Definition back (ops : list op) : op := last ops (Empty no_range).

(** 19-21 *)
Definition rmode_options : list string := [ "24"; "31"; "64"; "ANY" ].

(** 25-142: xattr::check *)
Definition xattr_words : list string :=
  [ "ATTRIBUTES"; "ATTR"; "LINK"; "LINKAGE"; "SCOPE"; "PSECT"; "REFERENCE"; "REF" ].
Definition scope_words : list string :=
  [ "SECTION"; "MODULE"; "LIBRARY"; "IMPORT"; "EXPORT"; "S"; "M"; "L"; "X" ].
(** the loop over the parameters of REFERENCE, 90-130 *)
Fixpoint ref_params (cd di : bool) (ps : list op) : res :=
  match ps with
  | [] => ok
  | Simple id _ _ r :: t =>
    if String.eqb id "DIRECT" || String.eqb id "INDIRECT" then
      if di then fail "A202" r else ref_params cd true t
    else if String.eqb id "DATA" || String.eqb id "CODE" then
      if cd then fail "A203" r else ref_params true di t
    else fail "A238" r
  | o :: _ => fail "A238" (op_range o)
  end.
Definition xattr_operand (stmt : rng) (o : op) : res :=
  match o with
  | Complex id ps r =>
    need (mem id xattr_words) "A100" r ;;
    if mem id ["ATTRIBUTES"; "ATTR"; "LINKAGE"; "LINK"; "SCOPE"; "PSECT"] then
      match ps with
      | [p] =>
        if String.eqb id "SCOPE" then need (keyword scope_words p) "A200" (op_range p)
        else if String.eqb id "LINKAGE" || String.eqb id "LINK" then need (keyword ["OS"; "XPLINK"] p) "A201" (op_range p)
        else ok
      | _ => fail "A016" stmt
      end
    else
      need (negb ((List.length ps =? 0) || (2 <? List.length ps))%nat) "A018" stmt ;;
      ref_params false false ps
  | _ => fail "A001" (op_range o)
  end.
Definition check_xattr (ops : list op) (stmt : rng) : res :=
  sizes 1 None ops stmt ;; each (xattr_operand stmt) ops.

(** 144-227: using_instr::check; the rest of it is commented out. *)
Definition check_using_instr (ops : list op) (stmt : rng) : res := sizes 2 None ops stmt.

(** 229-258: title::check *)
Definition first_char (s : string) : ascii := hd zero (chars s).
Definition last_char (s : string) : ascii := last (chars s) zero.
Definition quoted (s : string) : bool := Ascii.eqb (first_char s) quote && Ascii.eqb (last_char s) quote.
Definition check_title (ops : list op) (stmt : rng) : res :=
  sizes 1 (Some 1%nat) ops stmt ;;
  match ops with
  | Simple id _ _ r :: _ =>
    need (negb ((102 <? String.length id) || (String.length id <? 3))%nat) "A106" r ;;
    need (quoted id) "A300" r
  | _ => fail "A106" (head_range ops)
  end.

(** 260-277: rmode::check *)
Definition check_rmode (ops : list op) (stmt : rng) : res :=
  sizes 1 (Some 1%nat) ops stmt ;;
  match ops with
  | o :: _ => need (keyword rmode_options o) "A107" (op_range o)
  | [] => (Undefined, [])
  end.

(** 279-316: punch::check; the loop of 300-311 *)
Fixpoint punch_size (l : list ascii) : nat :=
  match l with
  | a :: ((b :: t) as r) =>
    if (Ascii.eqb a amp && Ascii.eqb b amp) || (Ascii.eqb a quote && Ascii.eqb b quote)
    then S (punch_size t) else S (punch_size r)
  | _ => O
  end.
Definition check_punch (ops : list op) (stmt : rng) : res :=
  sizes 1 (Some 1%nat) ops stmt ;;
  match ops with
  | Simple id _ _ r :: _ =>
    need (negb (String.length id <? 2)%nat && quoted id) "A300" r ;;
    need (punch_size (chars id) <=? 80)%nat "A108" r
  | _ => fail "A244" (head_range ops)
  end.

(** 318-343: print::check *)
Definition print_words : list string :=
  [ "GEN"; "DATA"; "MCALL"; "MSOURCE"; "UHEAD"; "NOGEN"; "NODATA"; "NOMCALL"; "NOMSOURCE"; "NOUHEAD";
    "ON"; "OFF"; "NOPRINT" ].
Definition check_print (ops : list op) (stmt : rng) : res :=
  sizes 1 None ops stmt ;; each (fun o => need (keyword print_words o) "A109" (op_range o)) ops.

(** 345-431: stack_instr::check (PUSH and POP) *)
Fixpoint stack_ops (stmt : rng) (n : nat) (i : nat) (ac pr us : bool) (ops : list op) : res :=
  match ops with
  | [] => ok
  | Simple id _ _ r :: t =>
    if String.eqb id "ACONTROL" then
      if ac then fail "A112" stmt else stack_ops stmt n (S i) true pr us t
    else if String.eqb id "PRINT" then
      if pr then fail "A112" stmt else stack_ops stmt n (S i) ac true us t
    else if String.eqb id "USING" then
      if us then fail "A112" stmt else stack_ops stmt n (S i) ac pr true t
    else if String.eqb id "NOPRINT" then
      if negb (S i =? n)%nat then fail "A113" r
      else if (n =? 1)%nat then fail "A114" stmt
      else stack_ops stmt n (S i) ac pr us t
    else if (S i =? n)%nat then fail "A110" r else fail "A111" r
  | o :: _ => if (S i =? n)%nat then fail "A110" (op_range o) else fail "A111" (op_range o)
  end.
Definition check_stack (ops : list op) (stmt : rng) : res :=
  sizes 1 (Some 4%nat) ops stmt ;; stack_ops stmt (List.length ops) 0 false false false ops.

(** 433-491: org::check *)
Definition org_operand (i : nat) (o : op) : res :=
  match o with
  | Empty r => if (i =? 1)%nat then ok else if (i =? 0)%nat then fail "A245" r else fail "A020" r
  | Complex _ _ r => if (i =? 0)%nat then fail "A245" r else fail "A020" r
  | Simple _ d _ r => need (negb d) "A115" r
  end.
Definition one_comma (ops : list op) : bool :=
  match ops with [Empty _; Empty _] => true | _ => false end.
Definition check_org (ops : list op) (stmt : rng) : res :=
  sizes 0 (Some 3%nat) ops stmt ;;
  if one_comma ops then ok
  else
    each_i org_operand 0 ops ;;
    match ops with
    | _ :: Simple _ _ v r :: _ =>
      need (is_power_of_two v && negb (4096 <? v)%Z && negb (v <? 2)%Z) "A116" r
    | _ => ok
    end.

(** 493-512: opsyn::check *)
Definition check_opsyn (ops : list op) (stmt : rng) : res :=
  sizes 0 (Some 1%nat) ops stmt ;;
  match ops with
  | [Complex _ _ r] => fail "A246" r
  | _ => ok
  end.

(** 514-578: mnote::check *)
Definition mnote_first (stmt : rng) (msg : string) (o : op) : res :=
  match o with
  | Simple id d v r =>
    need (negb (1024 <? String.length id + String.length msg)%nat) "A118" stmt ;;
    if String.eqb id "*" then ok
    else need (has_all_digits id) "A119" r ;; need (negb d && is_byte v) "A119" r
  | _ => ok
  end.
Definition check_mnote (ops : list op) (stmt : rng) : res :=
  sizes 1 (Some 2%nat) ops stmt ;;
  match back ops with
  | Simple msg _ _ r =>
    match ops with
    | [Complex _ _ r0; _] => fail "A119" r0
    | _ => ok
    end ;;
    need (negb (String.length msg <? 2)%nat && quoted msg) "A300" r ;;
    need (negb (1020 <? String.length msg)%nat) "A117" r ;;
    match ops with
    | [o; _] => mnote_first stmt msg o
    | _ => ok
    end
  | o => fail "A117" (op_range o)
  end.

(** 580-613: iseq::check *)
Definition check_iseq (ops : list op) (stmt : rng) : res :=
  match ops with
  | [] => ok
  | [a; b] =>
    match a, b with
    | Simple _ false l _, Simple _ false r _ =>
      if ((1 <=? l) && (l <=? 80) && (1 <=? r) && (r <=? 80) && (l <=? r))%Z then ok
      else if (r <? l)%Z then fail "A121" stmt
      else fail "A120" stmt
    | _, _ => fail "A120" stmt
    end
  | _ => fail "A013" stmt
  end.

(** 615-681: ictl::check. The ranges of the second and third operands are read by
    subscript: without such an operand that is undefined. *)
Definition ictl_number (o : op) : bool :=
  match o with Simple id d _ _ => has_all_digits id && negb d | _ => false end.
Definition value_of (o : op) : Z := match o with Simple _ _ v _ => v | _ => 0%Z end.
Definition fail_at (c : string) (o : option op) : res :=
  match o with Some p => fail c (op_range p) | None => (Undefined, []) end.
Definition check_ictl (ops : list op) (stmt : rng) : res :=
  sizes 1 (Some 3%nat) ops stmt ;;
  match ops with
  | Empty r :: _ => fail "A021" r
  | _ => ok
  end ;;
  each_i (fun i o => if ictl_number o then ok
                     else if (i =? 0)%nat then fail "A122" (op_range o) else fail "A242" (op_range o)) 0 ops ;;
  match ops with
  | a :: t =>
    let b := value_of a in
    let e := match t with x :: _ => value_of x | [] => 72%Z end in
    let c := match t with _ :: x :: _ => value_of x | _ => 16%Z end in
    let c := if (List.length ops =? 2)%nat || (e =? 80)%Z then (-1)%Z else c in
    if ((b <? 1) || (40 <? b))%Z then fail "A123" (op_range a)
    else if ((e <? 41) || (80 <? e))%Z then fail_at "A124" (nth_error ops 1)
    else if (e <? b + 5)%Z then
      match nth_error ops 1 with
      | Some x => fail "A125" (fst (op_range a), snd (op_range x))
      | None => (Undefined, [])
      end
    else if (c =? -1)%Z then ok
    else if ((c <? 2) || (40 <? c))%Z then fail_at "A126" (nth_error ops 2)
    else if (c <=? b)%Z then fail "A127" stmt
    else ok
  | [] => (Undefined, [])
  end.

(** 683-727: external::check (EXTRN and WXTRN) *)
Definition external_operand (o : op) : res :=
  match o with
  | Complex id ps r =>
    need (String.eqb id "PART") "A129" r ;;
    each (fun p => match p with
                   | Simple i _ _ _ => need (negb (String.eqb i "")) "A129" r
                   | _ => fail "A129" r
                   end) ps
  | Simple id _ _ r => need (negb (String.eqb id "")) "A129" r
  | Empty r => fail "A021" r
  end.
Definition check_external (ops : list op) (stmt : rng) : res :=
  sizes 1 None ops stmt ;; each external_operand ops.

(** 729-767: exitctl::check *)
Definition exit_types : list string :=
  [ "SOURCE"; "LIBRARY"; "LISTING"; "PUNCH"; "ADATA"; "TERM"; "OBJECT" ].
Definition exit_value (o : op) : res :=
  match o with
  | Empty _ => ok
  | Simple _ d _ r => need (negb d) "A131" r
  | Complex _ _ r => fail "A020" r
  end.
Definition check_exitctl (ops : list op) (stmt : rng) : res :=
  sizes 2 (Some 5%nat) ops stmt ;;
  match ops with
  | a :: t => need (keyword exit_types a) "A130" (op_range a) ;; each exit_value t
  | [] => (Undefined, [])
  end.

(** 769-775: equ::check *)
Definition check_equ (ops : list op) (stmt : rng) : res := ok.

(** 777-801: entry::check *)
Definition check_entry (ops : list op) (stmt : rng) : res :=
  sizes 1 None ops stmt ;;
  need (negb (Z.of_nat (List.length ops) >? 65535)%Z) "A014" stmt ;;
  each (fun o => match o with
                 | Simple id _ _ r => need (negb (String.eqb id "")) "A136" r
                 | _ => fail "A136" (op_range o)
                 end) ops.

(** 803-872: end::check *)
Definition end_language (stmt : rng) (o : op) : res :=
  match o with
  | Empty _ => ok
  | Simple _ _ _ r => fail "A001" r
  | Complex id ps r =>
    need (List.length ps =? 3)%nat "A016" stmt ;;
    need (String.eqb id "") "A137" r ;;
    each (fun p => need match p with Simple _ _ _ _ => true | _ => false end "A248" (op_range p)) ps ;;
    match ps with
    | [Simple a _ _ ra; Simple b _ _ rb; Simple c _ _ rc] =>
      need (negb ((String.length a =? 0) || (10 <? String.length a))%nat) "A138" ra ;;
      need (String.length b =? 4)%nat "A139" rb ;;
      need ((String.length c =? 5)%nat && has_all_digits c) "A140" rc
    | _ => (Undefined, [])
    end
  end.
Definition check_end (ops : list op) (stmt : rng) : res :=
  sizes 0 (Some 2%nat) ops stmt ;;
  match ops with
  | Complex _ _ r :: _ => fail "A243" r
  | _ => ok
  end ;;
  match ops with
  | [_; l] => end_language stmt l
  | _ => ok
  end.

(** 874-908: drop::check *)
Definition drop_operand (o : op) : res :=
  match o with
  | Simple id d v r =>
    if negb d then need (is_byte v) "A141" r
    else match is_ord_symbol id with
         | None => (Undefined, [])
         | Some true => ok
         | Some false => match is_var_symbol id with
                         | None => (Undefined, [])
                         | Some b => need b "A141" r
                         end
         end
  | _ => fail "A141" (op_range o)
  end.
Definition check_drop (ops : list op) (stmt : rng) : res :=
  if one_comma ops then ok else each drop_operand ops.

(** 910-930: copy::check *)
Definition check_copy (ops : list op) (stmt : rng) : res :=
  sizes 1 (Some 1%nat) ops stmt ;;
  match ops with
  | Simple id d _ r :: _ => need (d && negb ((1 <? String.length id)%nat && quoted id)) "A142" r
  | _ => fail "A142" (head_range ops)
  end.

(** 932-974: cnop::check *)
Definition check_cnop (ops : list op) (stmt : rng) : res :=
  sizes 2 (Some 2%nat) ops stmt ;;
  match ops with
  | [a; b] =>
    match a with
    | Simple _ false byte ra =>
      match b with
      | Simple _ false bound rb =>
        if ((byte <? 0) || (Z.rem byte 2 =? 1))%Z then fail "A144" ra
        else if ((bound <? 0) || (4096 <? bound))%Z || negb (is_power_of_two bound) then fail "A145" rb
        else if (bound - 2 <? byte)%Z then fail "A146" ra
        else ok
      | _ => fail "A143" (op_range b)
      end
    | _ => fail "A143" (op_range a)
    end
  | _ => (Undefined, [])
  end.

(** 976-1006: ccw::check *)
Definition check_ccw (ops : list op) (stmt : rng) : res :=
  sizes 4 (Some 4%nat) ops stmt ;;
  each_i (fun i o => match o with
                     | Empty r => fail "A147" r
                     | Complex _ _ r => if (i =? 1)%nat then fail "A247" r else fail "A143" r
                     | Simple _ _ _ _ => ok
                     end) 0 ops.

(** 1010-1037: expression_instruction::check (SPACE, CEJECT, START) *)
Definition check_expr (ops : list op) (stmt : rng) : res :=
  match ops with
  | [] => ok
  | _ =>
    if one_comma ops then ok
    else
      sizes 0 (Some 1%nat) ops stmt ;;
      match ops with
      | Simple _ d v r :: _ => need (negb (d || negb (is_positive v))) "A148" r
      | o :: _ => fail "A240" (op_range o)
      | [] => (Undefined, [])
      end
  end.

(** 1039-1144: cattr::check *)
Definition cattr_simple : list string :=
  [ "DEFLOAD"; "EXECUTABLE"; "MOVABLE"; "NOLOAD"; "NOTEXECUTABLE"; "NOTREUS"; "READONLY"; "REFR"; "REMOVABLE";
    "RENT"; "REUS" ].
Definition cattr_complex : list string := [ "RMODE"; "ALIGN"; "FILL"; "PART"; "PRIORITY" ].
Definition align_options : list string := [ "0"; "1"; "2"; "3"; "4"; "12" ].
Definition cattr_operand (stmt : rng) (o : op) : res :=
  match o with
  | Simple id _ _ r => need (mem id cattr_simple) "A149" r
  | Complex id ps r =>
    need (mem id cattr_complex) "A149" r ;;
    match ps with
    | [p] =>
      if String.eqb id "RMODE" then need (keyword rmode_options p) "A204" (op_range p)
      else if String.eqb id "ALIGN" then need (keyword align_options p) "A205" (op_range p)
      else if String.eqb id "FILL" then
        need match p with Simple i d v _ => has_all_digits i && negb d && is_byte v | _ => false end "A206" (op_range p)
      else if String.eqb id "PART" then
        need match p with
             | Simple i _ _ _ => negb ((String.length i =? 0) || (63 <? String.length i))%nat
             | _ => false
             end "A207" (op_range p)
      else if String.eqb id "PRIORITY" then
        need match p with Simple i d v _ => has_all_digits i && negb d && is_positive v | _ => false end "A208" (op_range p)
      else ok
    | _ => fail "A016" stmt
    end
  | Empty r => fail "A021" r
  end.
Definition check_cattr (ops : list op) (stmt : rng) : res :=
  sizes 1 None ops stmt ;; each (cattr_operand stmt) ops.

(** 1146-1163: amode::check *)
Definition amode_options : list string := [ "24"; "31"; "64"; "ANY"; "ANY31"; "ANY64" ].
Definition check_amode (ops : list op) (stmt : rng) : res :=
  sizes 1 (Some 1%nat) ops stmt ;;
  match ops with
  | o :: _ => need (keyword amode_options o) "A150" (op_range o)
  | [] => (Undefined, [])
  end.

(** 1165-1236: alias::check. The characters of the regular expression of 1186; the
    four that are not ASCII are in the class byte by byte. *)
Definition alias_class : list nat :=
  [46; 60; 40; 43; 124; 38; 33; 36; 42; 41; 59; 45; 47; 44; 37; 95; 62; 63; 96; 58; 35; 64; 61; 34; 126; 91; 93; 123;
   125; 94; 92; 194; 162; 172; 166; 177]%nat.
Definition alias_char (c : ascii) : bool :=
  is_alnum c || existsb (Nat.eqb (code c)) alias_class.
(** the loop of 1204-1227 over the characters that follow the first apostrophe; the
    last of them is the closing one *)
Fixpoint alias_pairs (r : rng) (l : list ascii) : res :=
  match l with
  | a :: b :: t =>
    if (code a =? 48)%nat && ((code b =? 120)%nat || (code b =? 88)%nat) then fail "A153" r
    else match stoul16 [a; b] with
         | None => fail "A153" r
         | Some u => let v := to_int u in
                     if ((v <? 66) || (254 <? v))%Z then fail "A155" r else alias_pairs r t
         end
  | _ => ok
  end.
Definition check_alias (ops : list op) (stmt : rng) : res :=
  sizes 1 (Some 1%nat) ops stmt ;;
  match ops with
  | Simple id _ _ r :: _ =>
    need (negb (String.length id <? 3)%nat) "A151" r ;;
    match chars id, enclosed (chars id) with
    | c :: q :: t, Some body =>
      if Ascii.eqb c "C" then need (forallb alias_char body) "A152" r
      else if Ascii.eqb c "X" then
        need (negb (String.length id mod 2 =? 1)%nat) "A154" r ;; alias_pairs r t
      else (No, [])
    | _, _ => fail "A151" r
    end
  | _ => fail "A151" (head_range ops)
  end.

(** 1238-1276: ainsert::check *)
Definition check_ainsert (ops : list op) (stmt : rng) : res :=
  sizes 2 (Some 2%nat) ops stmt ;;
  match ops with
  | a :: b :: _ =>
    match a with
    | Simple id _ _ r =>
      need (negb ((String.length id <? 2) || (80 <? String.length id))%nat) "A157" r ;;
      need (quoted id) "A301" r ;;
      need (negb (String.length id =? 2)%nat) "A021" r ;;
      need (keyword ["BACK"; "FRONT"] b) "A156" (op_range b)
    | _ => fail "A157" (op_range a)
    end
  | _ => (Undefined, [])
  end.

(** 1278-1319: adata::check *)
Definition adata_value (o : op) : res :=
  match o with
  | Empty _ => ok
  | Simple _ d _ r => need (negb d) "A158" r
  | Complex _ _ r => fail "A158" r
  end.
Definition check_adata (ops : list op) (stmt : rng) : res :=
  sizes 5 (Some 5%nat) ops stmt ;;
  each adata_value (removelast ops) ;;
  match back ops with
  | Empty _ => ok
  | Complex _ _ r => fail "A239" r
  | Simple id _ _ r =>
    let warn := if ((String.length id =? 1)%nat || ((1 <? String.length id)%nat && negb (quoted id)))%bool
                then [D "A300" r] else [] in
    (Yes, warn) ;; need (is_character_string id) "A160" r
  end.

(** 1321-1329: no_operands::check *)
Definition check_none (ops : list op) (stmt : rng) : res := sizes 0 (Some 0%nat) ops stmt.

(** 1331-1355: process::check *)
Definition check_process (ops : list op) (stmt : rng) : res :=
  sizes 1 None ops stmt ;;
  match ops with
  | [Complex id ps _] => if String.eqb id "OVERRIDE" then each check_process_operand ps else each check_process_operand ops
  | _ => each check_process_operand ops
  end.

(** 1357-1453: acontrol::check *)
Definition acontrol_simple : list string :=
  [ "AFPR"; "LIBMAC"; "RA2"; "LMAC"; "NOAFPR"; "NOLIBMAC"; "NORA2"; "NOLMAC"; "NOCOMPAT"; "NOTYPECHECK"; "NOCPAT"; "NOTC" ].
Definition acontrol_complex : list string := [ "CPAT"; "COMPAT"; "FLAG"; "TC"; "TYPECHECK"; "OPTABLE" ].
Definition acontrol_operand (stmt : rng) (o : op) : res :=
  match o with
  | Simple id _ _ r => need (mem id acontrol_simple) "A161" r
  | Complex id ps r =>
    need (mem id acontrol_complex) "A161" r ;;
    need (negb (List.length ps =? 0)%nat) "A015" stmt ;;
    if String.eqb id "COMPAT" || String.eqb id "CPAT" then check_compat ps
    else if String.eqb id "FLAG" then
      each (fun p => match p with
                     | Simple i d v r' => check_flag_operand i d v r'
                     | _ => fail "A211" (op_range p)
                     end) ps
    else if String.eqb id "OPTABLE" then
      need (negb (2 <? List.length ps)%nat) "A018" stmt ;; check_optable ps
    else check_typecheck ps
  | Empty r => fail "A021" r
  end.
Definition check_acontrol (ops : list op) (stmt : rng) : res :=
  sizes 1 None ops stmt ;; each (acontrol_operand stmt) ops.

(** data_instruction.cpp 33-71: check_data on operands that are not data definitions;
    the diagnostic has no range. *)
Definition check_dxd (ops : list op) (stmt : rng) : res :=
  sizes 1 None ops stmt ;;
  match ops with
  | [] => ok
  | _ => (No, map (fun _ => D "A004" no_range) ops)
  end.

(** ** instruction_checker.cpp *)

(** 42-425: initialize_assembler_map, without DC and DS *)
Definition checkers : list (string * (list op -> rng -> res)) :=
  [ ("*PROCESS", check_process); ("ACONTROL", check_acontrol); ("ADATA", check_adata); ("AINSERT", check_ainsert);
    ("ALIAS", check_alias); ("AMODE", check_amode); ("CATTR", check_cattr); ("CCW", check_ccw); ("CCW0", check_ccw);
    ("CCW1", check_ccw); ("CEJECT", check_expr); ("CNOP", check_cnop); ("COM", check_none); ("COPY", check_copy);
    ("CSECT", check_none); ("CXD", check_none); ("DROP", check_drop); ("DSECT", check_none); ("DXD", check_dxd);
    ("EJECT", check_none); ("END", check_end); ("ENTRY", check_entry); ("EQU", check_equ); ("EXITCTL", check_exitctl);
    ("EXTRN", check_external); ("ICTL", check_ictl); ("ISEQ", check_iseq); ("LOCTR", check_none); ("LTORG", check_none);
    ("MNOTE", check_mnote); ("OPSYN", check_opsyn); ("ORG", check_org); ("POP", check_stack); ("PRINT", check_print);
    ("PUNCH", check_punch); ("PUSH", check_stack); ("REPRO", check_none); ("RMODE", check_rmode); ("RSECT", check_none);
    ("SPACE", check_expr); ("START", check_expr); ("TITLE", check_title); ("USING", check_using_instr);
    ("WXTRN", check_external); ("XATTR", check_xattr) ].

Fixpoint lookup {A} (name : string) (l : list (string * A)) : option A :=
  match l with
  | [] => None
  | (n, a) :: t => if String.eqb n name then Some a else lookup name t
  end.

(** 23-39: assembler_checker::check. An exception, also that of a name that is not in
    the table, rejects the statement. *)
Definition asm_check (name : string) (ops : list op) (stmt : rng) : res :=
  match lookup name checkers with
  | None => (No, [])
  | Some f => match f ops stmt with
              | (Thrown, ds) => (No, ds)
              | r => r
              end
  end.

(** ** From the operands of the source to the operands of the check *)

(** operand_impls.h 230-287: parts of a complex operand *)
Inductive part : Type :=
| PInt (v : Z) (r : rng)
| PText (s : string) (r : rng)
| PComposite (id : string) (ps : list part) (r : rng).

(** values of expressions: symbol_value_kind UNDEF, ABS, RELOC *)
Inductive value : Type := VUndef | VAbs (z : Z) | VReloc.

(** assembler_operand_rules.g4: what an operand can be. [deps]: has_dependencies. *)
Inductive src : Type :=
| SExpr (text : string) (symbol deps : bool) (v : value) (r : rng)
| SString (text : string) (r : rng)
| SComplex (id : string) (ps : list part) (r : rng)
| SBaseEnd (deps : bool) (r : rng)
| SEmpty (r : rng).

Definition src_range (s : src) : rng :=
  match s with
  | SExpr _ _ _ _ r => r | SString _ r => r | SComplex _ _ r => r | SBaseEnd _ r => r | SEmpty r => r
  end.

Section Decimal.
(** std::to_string of an [int] *)
Variable to_string : Z -> string.

(** operand_impls.h 245-287: create_operand. A composite part does not pass its range on. *)
Fixpoint create (p : part) : op :=
  match p with
  | PInt v r => Simple (to_string v) false v r
  | PText s r => Simple s true 0 r
  | PComposite id ps r => Complex id (map create ps) no_range
  end.

(** context/instruction.cpp 124-183: has_ord_symbols *)
Definition ord_symbols : list string :=
  [ "*PROCESS"; "CCW"; "CCW0"; "CCW1"; "CEJECT"; "CNOP"; "DC"; "DROP"; "DS"; "DXD"; "END"; "ENTRY"; "EQU"; "ORG";
    "SPACE"; "START"; "USING" ].

Definition has_deps (s : src) : bool :=
  match s with SExpr _ _ d _ _ => d | SBaseEnd d _ => d | _ => false end.

(** operand_impls.cpp 281-300, 346-356, 372-375, 576-579 (get_operand_value), with the
    range set by low_language_processor.cpp 275 *)
Definition operand_value (ord : bool) (s : src) : op :=
  match s with
  | SExpr t sym _ v r =>
    if negb ord && sym then Simple t true 0 r
    else match v with
         | VUndef => Simple t true 0 r
         | VAbs z => Simple t false z r
         | VReloc => Simple "0" false 0 r
         end
  | SString t r => Simple (String quote (t ++ String quote EmptyString)) true 0 r
  | SComplex id ps r => Complex id (map create ps) r
  | SBaseEnd _ r => Complex "" [] r
  | SEmpty r => Empty r
  end.

(** low_language_processor.cpp 255-280, 282-300, 331-365: the operands are turned into
    values from left to right; one that depends on undefined symbols is reported. *)
Fixpoint transform (ord : bool) (l : list src) : list op + diag :=
  match l with
  | [] => inl []
  | s :: t =>
    if ord && has_deps s then inr (D "E010" (src_range s))
    else match transform ord t with
         | inl os => inl (operand_value ord s :: os)
         | inr d => inr d
         end
  end.
Definition check_statement (name : string) (l : list src) (stmt : rng) : res :=
  match transform (mem name ord_symbols) l with
  | inl os => asm_check name os stmt
  | inr d => (No, [d])
  end.

(** asm_processor.cpp 506-531: an instruction that has no processing of its own. With a
    dependency in any operand nothing is checked: None. *)
Definition process_other (name : string) (l : list src) (stmt : rng) : option res :=
  if mem name ord_symbols && existsb has_deps l then None
  else Some (check_statement name l stmt).

End Decimal.

(** context/instruction.cpp 124-183: the number of operands of the instruction table
    (a second table, used for completion) *)
Definition operand_table : list (string * (nat * option nat)) :=
  [ ("*PROCESS", (1, None)); ("ACONTROL", (1, None)); ("ADATA", (5, Some 5)); ("AINSERT", (2, Some 2));
    ("ALIAS", (1, Some 1)); ("AMODE", (1, Some 1)); ("CATTR", (1, None)); ("CCW", (4, Some 4)); ("CCW0", (4, Some 4));
    ("CCW1", (4, Some 4)); ("CEJECT", (0, Some 1)); ("CNOP", (2, Some 2)); ("COM", (0, Some 0)); ("COPY", (1, Some 1));
    ("CSECT", (0, Some 0)); ("CXD", (0, Some 0)); ("DC", (1, None)); ("DROP", (0, None)); ("DS", (1, None));
    ("DSECT", (0, Some 0)); ("DXD", (1, None)); ("EJECT", (0, Some 0)); ("END", (0, Some 2)); ("ENTRY", (1, None));
    ("EQU", (1, Some 5)); ("EXITCTL", (2, Some 5)); ("EXTRN", (1, None)); ("ICTL", (1, Some 3)); ("ISEQ", (0, Some 2));
    ("LOCTR", (0, Some 0)); ("LTORG", (0, Some 0)); ("MNOTE", (1, Some 2)); ("OPSYN", (0, Some 1)); ("ORG", (0, Some 3));
    ("POP", (1, Some 4)); ("PRINT", (1, None)); ("PUNCH", (1, Some 1)); ("PUSH", (1, Some 4)); ("REPRO", (0, Some 0));
    ("RMODE", (1, Some 1)); ("RSECT", (0, Some 0)); ("SPACE", (0, Some 1)); ("START", (0, Some 1)); ("TITLE", (1, Some 1));
    ("USING", (2, None)); ("WXTRN", (1, None)); ("XATTR", (1, None)) ]%nat.
