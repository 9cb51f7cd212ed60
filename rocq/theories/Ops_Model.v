(** Operation codes: macros, instructions and their renaming by OPSYN.

    Modelled: context/hlasm_context.cpp:249-252, 489-535, 665-701 (operation codes, macro
    definitions); processing/instruction_sets/asm_processor.cpp:453-494 (OPSYN);
    processing/statement_processors/ordinary_processor.cpp:41-71, 122-196 (what a statement runs).

    Simplifications: a macro definition is a number; the library is a function that tells
    whether a member is found and which macro of its own name it defines, if any (other
    definitions a member may contain are left out); the fields
    of the instruction tables other than the kind of the instruction are left out. *)
From Coq Require Import List NArith Bool.
From Verif Require Import Common.
Import ListNotations.
Open Scope N_scope.

Definition id := bytes.
Definition definition := N.
Inductive kind := CA | ASM | MACH | MNEMO.

(** operation_code.h:27-40; [Mono] is std::monostate. *)
Inductive detail := Mono | Instr (k : kind) | Mac (d : definition).
Record opcode_t := { opcode : option id; opcode_detail : detail }.
Definition no_opcode : opcode_t := {| opcode := None; opcode_detail := Mono |}.
Definition is_some (o : opcode_t) : bool := match opcode_detail o with Mono => false | _ => true end.

Fixpoint find {A} (n : id) (l : list (id * A)) : option A :=
  match l with
  | [] => None
  | (m, a) :: l => if bytes_eqb n m then Some a else find n l
  end.
(** insert_or_assign *)
Definition assign {A} (n : id) (a : A) (l : list (id * A)) : list (id * A) := (n, a) :: l.

Record context := { opcode_mnemo : list (id * opcode_t); macros : list (id * definition) }.
Definition initial : context := {| opcode_mnemo := []; macros := [] |}.

Section Tables.
Variable instruction_map : id -> option kind.
Variable library : id -> option (option definition).

(** 522-535 *)
Definition get_operation_code (c : context) (symbol : id) : opcode_t :=
  match find symbol (opcode_mnemo c) with
  | Some o => o
  | None =>
      match find symbol (macros c) with
      | Some d => {| opcode := Some symbol; opcode_detail := Mac d |}
      | None =>
          match instruction_map symbol with
          | Some k => {| opcode := Some symbol; opcode_detail := Instr k |}
          | None => no_opcode
          end
      end
  end.
(** 489-512; [None]: std::invalid_argument *)
Definition add_mnemonic (c : context) (mnemo op_code : id) : option context :=
  let set o := Some {| opcode_mnemo := assign mnemo o (opcode_mnemo c); macros := macros c |} in
  match find op_code (opcode_mnemo c) with
  | Some o => if is_some o then set o else None
  | None =>
      match find op_code (macros c) with
      | Some d => set {| opcode := Some op_code; opcode_detail := Mac d |}
      | None =>
          match instruction_map op_code with
          | Some k => set {| opcode := Some op_code; opcode_detail := Instr k |}
          | None => None
          end
      end
  end.
(** 249-252 *)
Definition is_opcode (c : context) (symbol : id) : bool :=
  match find symbol (macros c), instruction_map symbol with None, None => false | _, _ => true end.
(** 514-520 *)
Definition remove_mnemonic (c : context) (mnemo : id) : option context :=
  if match find mnemo (opcode_mnemo c) with Some _ => true | None => false end || is_opcode c mnemo then
    Some {| opcode_mnemo := assign mnemo no_opcode (opcode_mnemo c); macros := macros c |}
  else None.
(** 665-683 *)
Definition add_macro (c : context) (name : id) (d : definition) : context :=
  {| opcode_mnemo := opcode_mnemo c; macros := assign name d (macros c) |}.
(** 687-701 *)
Definition get_macro_definition (c : context) (name : id) : option definition :=
  match find name (opcode_mnemo c) with
  | Some {| opcode_detail := Mac d |} => Some d
  | _ => find name (macros c)
  end.

(** asm_processor.cpp:453-494, with at most one operand.  [Other]: an operand that is not just a
    symbol.  An empty label stands for a label that is missing or no ordinary symbol. *)
Inductive opsyn_operand := Omitted | Symbol (s : id) | Other.
Inductive error := NoLabel | E049 | A246.
Inductive result := Done (c : context) (e : option error) | Throws.
Definition operand_id (op : opsyn_operand) : id := match op with Symbol s => s | _ => [] end.
Definition process_OPSYN (c : context) (label : id) (op : opsyn_operand) : result :=
  match label with
  | [] => Done c (Some NoLabel)
  | _ =>
      match operand_id op with
      | [] =>
          if is_some (get_operation_code c label) then
            match remove_mnemonic c label with Some c' => Done c' None | None => Throws end
          else Done c (Some E049)
      | operand =>
          if is_some (get_operation_code c operand) then
            match add_mnemonic c label operand with Some c' => Done c' None | None => Throws end
          else Done c (Some A246)
      end
  end.

(** What a statement with this operation code does: ordinary_processor.cpp:41-71, 170-196 and
    hlasm_context::enter_macro. *)
Inductive action := Calls (d : definition) | Runs (name : id) (k : kind) | Undefined | Blank | Fails.
Definition run_statement (c : context) (instruction : id) : context * action :=
  let code := get_operation_code c instruction in
  match opcode_detail code with
  | Mac _ => (c, match get_macro_definition c instruction with Some d => Calls d | None => Fails end)
  | detail =>
      match opcode code with
      | Some name => (c, match detail with Instr k => Runs name k | _ => Fails end)
      | None =>
          match instruction with
          | [] => (c, Blank)
          | _ =>
              match library instruction with
              | Some member =>
                  let c := match member with Some d => add_macro c instruction d | None => c end in
                  (c, match find instruction (macros c) with
                      | Some _ =>
                          match get_macro_definition c instruction with Some d => Calls d | None => Fails end
                      | None => Undefined
                      end)
              | None => (c, Undefined)
              end
          end
      end
  end.
End Tables.

(** The statements of a program that define operation codes. *)
Inductive event := Opsyn (label : id) (op : opsyn_operand) | Macro (name : id) (d : definition) | Statement (instruction : id).
Section Run.
Variable instruction_map : id -> option kind.
Variable library : id -> option (option definition).
Definition step (c : context) (e : event) : option context :=
  match e with
  | Opsyn label op => match process_OPSYN instruction_map c label op with Done c' _ => Some c' | Throws => None end
  | Macro name d => Some (add_macro c name d)
  | Statement i => Some (fst (run_statement instruction_map library c i))
  end.
Fixpoint run (c : context) (l : list event) : option context :=
  match l with
  | [] => Some c
  | e :: l => match step c e with Some c => run c l | None => None end
  end.
End Run.
