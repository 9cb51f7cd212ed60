(** * Mbr_Model: the statements of macros and copy members, stored and read again

    Modelled (parser_library/src):
      processing/statement_processors/macrodef_processor.cpp lines 25-69, 71-103, 142-205, 228-241,
        351-387, 436-455 (the definition of a macro, its name, body and labels),
      processing/statement_processors/copy_processor.cpp lines 22-93,
      processing/processing_manager.cpp lines 97-124 (the loop), 169-181 and 226-233 (the results),
      context/statement_cache.cpp, statement_providers/members_statement_provider.cpp lines 30-125,
      macrodef_processor.cpp lines 107-138 (get_macro_processing_status),
      processing/statement_processors/ordinary_processor.cpp lines 41-71, 122-196,
      processing/statement_processors/lookahead_processor.cpp lines 24-44,
      parsing/parser_impl.cpp lines 114-186 (parse_operand_field: which reading is taken).

    Simplifications.
    - A statement is given with its operation, its sequence symbol and a number that
      stands for all the rest; the statements of a COPY follow it in the list.
    - Parameters are in [Mac_Model], scopes and copy nests in [Nav_Model].
    - How one operand field is read in one form is a parameter. *)
From Coq Require Import List NArith ZArith Bool Arith.
From Verif Require Import Common.
Import ListNotations.

Definition id := bytes.

Inductive opk := KMacro | KMend | KCopy | KOther.
Record stmt := Stmt {
  op : opk;
  opname : option id;   (* the operation field; [None]: empty *)
  seq : option id;      (* the sequence symbol *)
  key : nat }.

(** ** Macro definitions *)
Inductive item := Anop | Kept (s : stmt).
Inductive report := E042 | E044 (line : nat) | E046 | E059 | E060 | E061.

Record mdef := Mdef {
  external : option id;         (* start_ *)
  expecting_MACRO : bool;
  expecting_prototype : bool;
  nest : nat;                   (* macro_nest_ *)
  line : nat;                   (* curr_line_ *)
  finished : bool;
  invalid : bool;
  macro_name : id;
  body : list item;             (* result_.definition *)
  labels : list (id * nat);     (* result_.sequence_symbols *)
  reports : list report }.

(** 25-44 *)
Definition start (external : option id) : mdef :=
  Mdef external (match external with Some _ => true | None => false end) true 1 0 false false
       (match external with Some n => n | None => [] end) [] [] [].

Definition ASPACE : id := s2b "ASPACE".

(** 46-69, 228-241: an empty operation field gives the name ASPACE *)
Definition prototype (d : mdef) (s : stmt) : mdef :=
  let (n, r) := match opname s with Some n => (n, []) | None => (ASPACE, [E042]) end in
  match external d with
  | Some e =>
      if bytes_eqb n e
      then Mdef (external d) false false (nest d) (line d) (finished d) (invalid d) n (body d) (labels d) (reports d ++ r)
      else Mdef (external d) false false (nest d) (line d) true true (macro_name d) (body d) (labels d) (reports d ++ r ++ [E060])
  | None => Mdef (external d) false false (nest d) (line d) (finished d) (invalid d) n (body d) (labels d) (reports d ++ r)
  end.

Fixpoint lookup (n : id) (l : list (id * nat)) : option nat :=
  match l with
  | [] => None
  | (m, k) :: l => if bytes_eqb n m then Some k else lookup n l
  end.

(** 436-455 *)
Definition sequence_symbol (d : mdef) (s : stmt) : mdef :=
  match seq s with
  | Some n =>
      if nest d =? 1 then
        match lookup n (labels d) with
        | Some _ => Mdef (external d) (expecting_MACRO d) (expecting_prototype d) (nest d) (line d) (finished d) (invalid d)
                         (macro_name d) (body d) (labels d) (reports d ++ [E044 (line d)])
        | None => Mdef (external d) (expecting_MACRO d) (expecting_prototype d) (nest d) (line d) (finished d) (invalid d)
                       (macro_name d) (body d) (labels d ++ [(n, line d)]) (reports d)
        end
      else d
  | None => d
  end.

(** 351-387: MACRO and MEND; COPY leaves an ANOP in the body *)
Definition operate (d : mdef) (s : stmt) : mdef :=
  let nest' := match op s with KMacro => S (nest d) | KMend => nest d - 1 | _ => nest d end in
  let over := match op s with KMend => nest d - 1 =? 0 | _ => false end in
  let stored := match op s with KCopy => Anop | _ => Kept s end in
  Mdef (external d) (expecting_MACRO d) (expecting_prototype d) nest' (S (line d)) (finished d || over) (invalid d)
       (macro_name d) (body d ++ [stored]) (labels d) (reports d).

(** 71-82, 142-192 *)
Definition process (d : mdef) (s : stmt) : mdef :=
  if expecting_MACRO d then
    match op s with
    | KMacro => Mdef (external d) false (expecting_prototype d) (nest d) (line d) (finished d) (invalid d)
                     (macro_name d) (body d) (labels d) (reports d)
    | _ => Mdef (external d) (expecting_MACRO d) (expecting_prototype d) (nest d) (line d) true true
                (macro_name d) (body d) (labels d) (reports d ++ [E059])
    end
  else if expecting_prototype d then prototype d s
  else operate (sequence_symbol d s) s.

(** 84-97: what has no MEND is finished at the end of the text *)
Definition end_processing (d : mdef) : mdef :=
  if finished d then d
  else Mdef (external d) (expecting_MACRO d) (expecting_prototype d) (nest d) (line d) true (invalid d)
            (macro_name d) (body d) (labels d) (reports d ++ [E046]).

(** processing_manager.cpp:97-124; the rest is what is left for others *)
Fixpoint run (d : mdef) (ts : list stmt) : mdef * list stmt :=
  if finished d then (d, ts)
  else match ts with
       | [] => (end_processing d, [])
       | s :: ts => run (process d s) ts
       end.

(** processing_manager.cpp:169-181 *)
Record macro := Macro { m_name : id; m_body : list item; m_labels : list (id * nat) }.
Definition result (d : mdef) : option macro :=
  if invalid d then None else Some (Macro (macro_name d) (body d) (labels d)).
Definition define (external : option id) (ts : list stmt) : option macro * list report * list stmt :=
  let (d, rest) := run (start external) ts in (result d, reports d, rest).

(** ** Copy members: copy_processor.cpp:22-93, processing_manager.cpp:226-233 *)
Record cdef := Cdef { c_nest : Z; c_invalid : bool; c_stmts : list stmt; c_reports : list report }.
Definition copy_statement (c : cdef) (s : stmt) : cdef :=
  match op s with
  | KMacro => Cdef (c_nest c + 1) (c_invalid c) (c_stmts c ++ [s]) (c_reports c)
  | KMend =>
      let n := (c_nest c - 1)%Z in
      if (n <? 0)%Z then Cdef n true (c_stmts c ++ [s]) (c_reports c ++ [E061])
      else Cdef n (c_invalid c) (c_stmts c ++ [s]) (c_reports c)
  | _ => Cdef (c_nest c) (c_invalid c) (c_stmts c ++ [s]) (c_reports c)
  end.
Definition copy_end (c : cdef) : cdef :=
  if (0 <? c_nest c)%Z then Cdef (c_nest c) true (c_stmts c) (c_reports c ++ [E061]) else c.
Definition copy_member (ts : list stmt) : list stmt * list report :=
  let c := copy_end (fold_left copy_statement ts (Cdef 0 false [] [])) in
  (if c_invalid c then [] else c_stmts c, c_reports c).

(** ** Operation codes and forms *)
Inductive form := MACH | ASM | MAC | CA | DAT | IGNORED | DEFERRED | UNKNOWN.
Inductive occurence := PRESENT | ABSENT.
Inductive itype := TCA | TMAC | TASM | TMACH | TUNDEF.
Definition form_eqb (a b : form) : bool :=
  match a, b with
  | MACH, MACH | ASM, ASM | MAC, MAC | CA, CA | DAT, DAT | IGNORED, IGNORED | DEFERRED, DEFERRED | UNKNOWN, UNKNOWN => true
  | _, _ => false
  end.

(** The instruction tables say for each operation whether it takes operands. *)
Inductive detail := DMacro | DAsm (takes : bool) | DMach (takes : bool) | DMnemo (takes : bool) | DCa (takes : bool).
Record status := Status { s_form : form; s_occ : occurence; s_op : id; s_type : itype }.

Definition occ (takes : bool) : occurence := if takes then PRESENT else ABSENT.
Definition DC : id := s2b "DC". Definition DS : id := s2b "DS". Definition COPY : id := s2b "COPY".

(** hlasm_context::get_operation_code as a function: the operation that a name stands for.  The
    operation of [DMacro] is not used. *)
Definition table := id -> option (id * detail).
Inductive instruction := Name (n : id) | Conc (n : id) | NoInstr.  (* [Conc]: with its text after substitution *)

(** macrodef_processor.cpp:107-138 *)
Definition member_status (t : table) (i : instruction) : status :=
  match i with
  | Name n =>
      match t n with
      | Some (o, DCa takes) => Status CA (occ takes) o TCA
      | Some (o, _) => if bytes_eqb o COPY then Status ASM PRESENT o TASM else Status DEFERRED PRESENT [] TUNDEF
      | None => Status DEFERRED PRESENT [] TUNDEF
      end
  | NoInstr => Status CA ABSENT [] TCA
  | Conc _ => Status DEFERRED PRESENT [] TUNDEF
  end.

(** ordinary_processor.cpp:122-196 *)
Definition instruction_status (t : table) (n : id) : option status :=
  match t n with
  | Some (_, DMacro) => Some (Status MAC PRESENT n TMAC)
  | Some (o, DAsm takes) =>
      Some (Status (if bytes_eqb o DC || bytes_eqb o DS then DAT else ASM) (occ takes) o TASM)
  | Some (o, DMach takes) | Some (o, DMnemo takes) => Some (Status MACH (occ takes) o TMACH)
  | Some (o, DCa takes) => Some (Status CA (occ takes) o TCA)
  | None => match n with [] => Some (Status CA ABSENT [] TCA) | _ => None end
  end.

(** 41-71; [library]: whether the member is found, and whether it defines the macro *)
Definition ordinary_status (t : table) (library : id -> option bool) (i : instruction) : status :=
  let n := match i with Name n | Conc n => n | NoInstr => [] end in
  match instruction_status t n with
  | Some s => s
  | None =>
      match library n with
      | Some defined => Status MAC PRESENT n (if defined then TMAC else TUNDEF)
      | None => Status UNKNOWN PRESENT n TUNDEF
      end
  end.

(** lookahead_processor.cpp:24-44 *)
Definition lookahead_status (t : table) (i : instruction) : status :=
  let ignored := Status IGNORED PRESENT [] TUNDEF in
  match i with
  | Name n =>
      match instruction_status t n with
      | Some s => match s_type s with
                  | TCA | TMAC => Status IGNORED (s_occ s) (s_op s) (s_type s)
                  | _ => s
                  end
      | None => ignored
      end
  | _ => ignored
  end.

(** ** Reading the operands of a stored statement *)
Section Read.
Variable operand : Type.
(** The operands of a text, read in one form. *)
Variable read : form -> bytes -> list operand.

(** parser_impl.cpp:114-186 *)
Definition parse_operand_field (f : form) (o : occurence) (text : bytes) : list operand :=
  match o, f with
  | ABSENT, _ | _, UNKNOWN => []
  | _, (MAC | ASM | MACH | DAT) => read f text
  | _, _ => []
  end.

(** statement_cache.cpp: the readings so far *)
Definition cache := list (form * list operand).
Fixpoint get (f : form) (c : cache) : option (list operand) :=
  match c with
  | [] => None
  | (g, ops) :: c => if form_eqb g f then Some ops else get f c
  end.

(** members_statement_provider.cpp:76-104 *)
Definition fill (f : form) (o : occurence) (text : bytes) (c : cache) : cache :=
  let ops := match o, f with
             | ABSENT, _ | _, UNKNOWN | _, IGNORED => []
             | _, _ => parse_operand_field f o text
             end in
  c ++ [(f, ops)].

(** 106-125; [None]: the deferred statement itself *)
Definition preprocess (s : status) (text : bytes) (c : cache) : option (status * list operand) * cache :=
  match s_form s with
  | DEFERRED => (None, c)
  | f =>
    let c' := match get f c with Some _ => c | None => fill f (s_occ s) text c end in
    match get f c' with Some ops => (Some (s, ops), c') | None => (None, c') end
  end.

(** The uses of one stored statement, one after the other. *)
Fixpoint uses (text : bytes) (c : cache) (l : list status) : list (option (status * list operand)) :=
  match l with
  | [] => []
  | s :: l => let (r, c') := preprocess s text c in r :: uses text c' l
  end.
End Read.
Arguments preprocess {operand}. Arguments uses {operand}. Arguments get {operand}. Arguments fill {operand}.
Arguments parse_operand_field {operand}.
