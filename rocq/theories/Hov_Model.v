(** Completion requests and hover texts.

    Modelled code: parser_library/src/lsp/lsp_context.cpp: 169-204 (which completion is made), 222-305
    (macro signatures and documentation); lsp/completion_item.cpp 38-219 (instruction items);
    checking/instr_operand.cpp 344-395 (texts of operand formats); context/instruction.cpp 21-183
    (names of formats, conditional assembly and assembler instructions); lsp_context.cpp 449-467 (hover
    over an instruction).

    The text of a document is read with the functions of Text_Model.v; [None] from there is an
    exception, the outcome [Throws] here.  [std::regex] is modelled by derivatives of its expression.
    Line numbers are natural numbers: [size_t] counting below 0 is described where it happens. *)
From Coq Require Import String.
From Coq Require Import List NArith ZArith Bool Arith Ascii.
From Verif Require Import Common Text_Model Mach_Model.
Import ListNotations.

(** * Regular expressions *)
Inductive re := Emp | Eps | Cls (f : N -> bool) | Cat (a b : re) | Alt (a b : re) | Star (a : re).
Fixpoint nullable (r : re) : bool :=
  match r with
  | Emp | Cls _ => false
  | Eps | Star _ => true
  | Cat a b => nullable a && nullable b
  | Alt a b => nullable a || nullable b
  end.
Fixpoint deriv (c : N) (r : re) : re :=
  match r with
  | Emp | Eps => Emp
  | Cls f => if f c then Eps else Emp
  | Cat a b => if nullable a then Alt (Cat (deriv c a) b) (deriv c b) else Cat (deriv c a) b
  | Alt a b => Alt (deriv c a) (deriv c b)
  | Star a => Cat (deriv c a) (Star a)
  end.
Fixpoint regex_match (r : re) (s : bytes) : bool :=
  match s with [] => nullable r | c :: s' => regex_match (deriv c r) s' end.

(** isspace of the "C" locale, also [\s] *)
Definition isspace (c : N) : bool := (c =? 32)%N || ((9 <=? c) && (c <=? 13))%N.
Definition not_star (c : N) : bool := negb (c =? 42)%N.
Definition plus (a : re) : re := Cat a (Star a).
(** 183 ^([^*][^*]\S*\s+\S+|\s+\S* ) *)
Definition instruction_regex : re :=
  let sp := Cls isspace in
  let ns := Cls (fun c => negb (isspace c)) in
  let st := Cls not_star in
  Alt (Cat st (Cat st (Cat (Star ns) (Cat (plus sp) (plus ns))))) (Cat (plus sp) (Star ns)).

(** * Which completion *)

(** 170-175 *)
Definition is_continued_line (l : bytes) : bool :=
  match nth_error l 71 with Some c => negb (isspace c) | None => false end.

Inductive answer := Variables | Sequence_symbols | Instructions | Nothing | Throws.
(** 177-185 *)
Definition should_complete_instr (t : bytes) (line col : nat) : option bool :=
  match (match line with O => Some false | S l => option_map is_continued_line (get_line t l) end) with
  | None => None
  | Some continued =>
      match get_line_beginning t line col with
      | None => None
      | Some so_far => Some (negb continued && regex_match instruction_regex so_far)
      end
  end.
(** 187-210, for a document that is known; [trigger] is the character if the request was triggered by one *)
Definition completion (t : bytes) (line col : nat) (trigger : option N) : answer :=
  match (match trigger with Some c => Some c | None => get_character_before t line col end) with
  | None => Throws
  | Some last =>
      if (last =? 38)%N then Variables
      else if (last =? 46)%N then Sequence_symbols
      else match should_complete_instr t line col with
           | None => Throws
           | Some true => Instructions
           | Some false => Nothing
           end
  end.

(** * Macros *)

(** 239-268; the label parameter is empty if there is none; positional parameters from number 1 on may be
    missing (commas in the prototype) *)
Record macro := { m_id : bytes; m_label : bytes; m_positional : list (option bytes); m_keyword : list (bytes * bytes) }.
Fixpoint commas (first : bool) (l : list bytes) : bytes :=
  match l with
  | [] => []
  | x :: r => (if first then [] else [44%N]) ++ x ++ commas false r
  end.
Fixpoint present (l : list (option bytes)) : list bytes :=
  match l with [] => [] | None :: r => present r | Some x :: r => x :: present r end.
Definition signature (m : macro) : bytes :=
  (match m_label m with [] => [] | l => 38%N :: l ++ [32%N] end) ++ m_id m ++ [32%N] ++
  commas true (map (fun x => 38%N :: x) (present (m_positional m)) ++
               map (fun p => 38%N :: fst p ++ [61%N] ++ snd p) (m_keyword m)).

(** 271 *)
Definition is_comment (l : bytes) : bool := starts_with [42%N] l || starts_with [46; 42]%N l.

(** 284-289: [n] is the number of the line behind the one looked at; [size_t] -1 ends the loop *)
Fixpoint before_begin (t : bytes) (n : nat) : option nat :=
  match n with
  | O => Some O
  | S n' => match get_line t n' with
            | None => None
            | Some l => if is_comment l then before_begin t n' else Some n
            end
  end.
(** 294-296 and 304-305 *)
Fixpoint run_to (p : bytes -> bool) (t : bytes) (fuel n : nat) : option nat :=
  match fuel with
  | O => Some n
  | S f => if n <? length (create_line_indices t)
           then match get_line t n with
                | None => None
                | Some l => if p l then run_to p t f (S n) else Some n
                end
           else Some n
  end.
Definition fence : bytes := s2b "```" ++ [10%N].
(** 274-315; [line] is the line of the prototype.  If that is line 0, MACRO_line wraps around to a line
    behind the text, which is empty. *)
Definition documentation (t : bytes) (line : nat) : option bytes :=
  let count := length (create_line_indices t) in
  match (match line with
         | O => Some []
         | S macro_line =>
             match before_begin t macro_line with
             | None => None
             | Some b => get_range_content t b 0 macro_line 0
             end
         end) with
  | None => None
  | Some doc_before =>
      match run_to is_continued_line t count line with
      | None => None
      | Some last =>
          let stop := S last in
          match get_range_content t line 0 stop 0 with
          | None => None
          | Some def =>
              match run_to is_comment t count stop with
              | None => None
              | Some stop' =>
                  match get_range_content t stop 0 stop' 0 with
                  | None => None
                  | Some doc_after => Some (fence ++ def ++ doc_before ++ doc_after ++ [10%N] ++ fence)
                  end
              end
          end
      end
  end.

(** * Instruction items *)
Local Open Scope string_scope.

(** instr_operand.cpp 344-384 *)
Definition parameter_text (p : parameter) : bytes :=
  let sized (s : string) :=
    (s2b s ++ dec (Z.to_N (p_size p)) ++ s2b (if p_signed p then "S" else "U"))%list in
  match p_type p with
  | MASK => s2b "M" | REG => s2b "R" | NONE => [] | BASE => s2b "B" | VEC_REG => s2b "V" | DIS_REG => s2b "X"
  | REG_IMM => sized "RI" | IMM => sized "I" | DISPLC => sized "D" | LENGTH => sized "L"
  end.
(** 386-395 *)
Definition operand_text (f : op_format) : bytes :=
  (if is_empty (f_first f) && is_empty (f_second f) then parameter_text (f_id f)
   else if is_empty (f_first f) then parameter_text (f_id f) ++ s2b "(" ++ parameter_text (f_second f) ++ s2b ")"
   else parameter_text (f_id f) ++ s2b "(" ++ parameter_text (f_first f) ++ s2b "," ++ parameter_text (f_second f) ++ s2b ")")%list.

(** instruction.cpp 21-100 *)
Definition format_name (f : mach_format) : string :=
  match f with
  | F_E => "E" | F_I => "I" | F_RR => "RR" | F_IE => "IE" | F_RRD => "RRD" | F_RRE => "RRE" | F_RRF_a => "RRF-a"
  | F_RRF_b => "RRF-b" | F_RRF_c => "RRF-c" | F_RRF_d => "RRF-d" | F_RRF_e => "RRF-e" | F_RI_a => "RI-a"
  | F_RI_b => "RI-b" | F_RI_c => "RI-c" | F_RS_a => "RS-a" | F_RS_b => "RS-b" | F_RSI => "RSI" | F_RX_a => "RX-a"
  | F_RX_b => "RX-b" | F_S => "S" | F_SI => "SI" | F_MII => "MII" | F_RIE_a => "RIE-a" | F_RIE_b => "RIE-b"
  | F_RIE_c => "RIE-c" | F_RIE_d => "RIE-d" | F_RIE_e => "RIE-e" | F_RIE_f => "RIE-f" | F_RIE_g => "RIE-g"
  | F_RIL_a => "RIL-a" | F_RIL_b => "RIL-b" | F_RIL_c => "RIL-c" | F_RIS => "RIS" | F_RRS => "RRS"
  | F_RSL_a => "RSL-a" | F_RSL_b => "RSL-b" | F_RSY_a => "RSY-a" | F_RSY_b => "RSY-b" | F_RXE => "RXE" | F_RXF => "RXF"
  | F_RXY_a => "RXY-a" | F_RXY_b => "RXY-b" | F_SIL => "SIL" | F_SIY => "SIY" | F_SMI => "SMI" | F_SS_a => "SS-a"
  | F_SS_b => "SS-b" | F_SS_c => "SS-c" | F_SS_d => "SS-d" | F_SS_e => "SS-e" | F_SS_f => "SS-f" | F_SSE => "SSE"
  | F_SSF => "SSF" | F_VRI_a => "VRI-a" | F_VRI_b => "VRI-b" | F_VRI_c => "VRI-c" | F_VRI_d => "VRI-d"
  | F_VRI_e => "VRI-e" | F_VRI_f => "VRI-f" | F_VRR_a => "VRR-a" | F_VRR_b => "VRR-b" | F_VRR_c => "VRR-c"
  | F_VRR_d => "VRR-d" | F_VRR_e => "VRR-e" | F_VRR_f => "VRR-f" | F_VRS_a => "VRS-a" | F_VRS_b => "VRS-b"
  | F_VRS_c => "VRS-c" | F_VRV => "VRV" | F_VRX => "VRX" | F_VRI_g => "VRI-g" | F_VRI_h => "VRI-h" | F_VRI_i => "VRI-i"
  | F_VRR_g => "VRR-g" | F_VRR_h => "VRR-h" | F_VRR_i => "VRR-i" | F_VRS_d => "VRS-d" | F_VSI => "VSI"
  end.

Inductive item_kind := mach_item | asm_item | ca_item.
Record item := { label : string; detail : bytes; insert_text : bytes; doc : bytes; kind : item_kind }.

(** completion_item.cpp 48-97: [i] is the index of the first operand of [ops]; the two texts are that for
    hovering and that for completing *)
Local Open Scope list_scope.
Fixpoint operand_list (optional i : nat) (ops : list op_format) : bytes * bytes :=
  match ops with
  | [] => ([], [])
  | op :: rest =>
      let left := length ops in
      let x := operand_text op in
      let comma := if (i =? 0)%nat then [] else [44%N] in
      let (d, a) := operand_list optional (S i) rest in
      if (optional =? 1)%nat && (left =? 1)%nat then (91%N :: comma ++ x ++ [93%N] ++ d, 32%N :: 91%N :: comma ++ x ++ [93%N] ++ a)
      else if (optional =? 2)%nat && (left =? 2)%nat then
        (91%N :: comma ++ x ++ [93%N] ++ d, 32%N :: 91%N :: comma ++ x ++ [91; 44]%N ++ a)
      else if (optional =? 2)%nat && (left =? 1)%nat then (x ++ [93; 93]%N ++ d, x ++ [93; 93]%N ++ a)
      else (comma ++ x ++ d, comma ++ x ++ a)
  end.
Definition nl : bytes := [10%N].
Definition machine_item (m : instr) : item :=
  let (d, a) := operand_list (i_optional m) 0 (i_ops m) in
  {| label := i_name m; detail := s2b "Operands: " ++ d; insert_text := s2b (i_name m) ++ s2b "   " ++ a;
     doc := s2b "Machine instruction " ++ nl ++ s2b "Instruction format: " ++ s2b (format_name (i_format m)); kind := mach_item |}.

(** 99-114 *)
Definition assembler_item (p : string * string) : item :=
  {| label := fst p; detail := s2b (fst p) ++ s2b "   " ++ s2b (snd p); insert_text := s2b (fst p) ++ s2b "   ";
     doc := s2b "Assembler instruction"; kind := asm_item |}.

(** A stringstream constructed with one blank: what is written replaces the blank. *)
Definition blank_stream (s : bytes) : bytes := match s with [] => [32%N] | _ => s end.
(** std::to_string of a non-negative or negative number *)
Definition z_text (z : Z) : bytes := if (z <? 0)%Z then 45%N :: dec (Z.to_N (- z)) else dec (Z.to_N z).

(** 119-203: [prev] is the operand before; the texts are that with and that without the replaced operands *)
Definition omitted (name : string) : bool := existsb (String.eqb name) ["VNOT"; "NOTR"; "NOTGR"].
Fixpoint mnemonic_list (name : string) (optional i : nat) (prev : bytes) (first : bool) (replaces : list (nat * Z))
    (ops : list op_format) : bytes * bytes :=
  match ops with
  | [] => ([], [])
  | op :: rest =>
      let left := length ops in
      let x := operand_text op in
      let comma := if (i =? 0)%nat then [] else [44%N] in
      let comma' := if first then [] else [44%N] in
      let keep (_ : unit) :=
        let (w, wo) := mnemonic_list name optional (S i) x false replaces rest in
        if (optional =? 0)%nat then (comma ++ x ++ w, comma' ++ x ++ wo)
        else if (optional =? 1)%nat && (left =? 1)%nat then
          (91%N :: comma ++ x ++ [93%N] ++ w, 91%N :: comma' ++ x ++ [93%N] ++ wo)
        else if (optional =? 2)%nat && (left =? 1)%nat then (x ++ [93; 93]%N ++ w, x ++ [93; 93]%N ++ wo)
        else if (optional =? 2)%nat && (left =? 2)%nat then
          (91%N :: comma ++ x ++ [91; 44]%N ++ w, 91%N :: comma' ++ x ++ [91; 44]%N ++ wo)
        else (w, wo) in
      match replaces with
      | (position, value) :: replaces' =>
          if (position =? i)%nat then
            if (optional =? 1)%nat && (left =? 1)%nat then
              let (w, wo) := mnemonic_list name optional (S i) x first replaces rest in
              (91%N :: comma ++ z_text value ++ [93%N] ++ w, wo)
            else
              let (w, wo) := mnemonic_list name optional (S i) x first replaces' rest in
              (comma ++ (if omitted name then prev else z_text value) ++ w, wo)
          else keep tt
      | [] => keep tt
      end
  end.
Definition mnemonic_item (m : mnem) (i : instr) : item :=
  let (w, wo) := mnemonic_list (m_name m) (i_optional i) 0 [] true (m_replaced m) (i_ops i) in
  {| label := m_name m; detail := s2b "Operands: " ++ blank_stream wo;
     insert_text := s2b (m_name m) ++ s2b "   " ++ blank_stream wo;
     doc := s2b "Mnemonic code for " ++ s2b (i_name i) ++ s2b " instruction" ++ nl ++ s2b "Substituted operands: " ++
            blank_stream w ++ nl ++ s2b "Instruction format: " ++ s2b (format_name (i_format i)); kind := mach_item |}.

(** 215-218 *)
Definition ca_item_of (n : string) : item :=
  {| label := n; detail := []; insert_text := s2b n; doc := s2b "Conditional Assembly"; kind := ca_item |}.

(** instruction.cpp 102-122 *)
Definition ca_names : list string :=
  ["AIF"; "AGO"; "ACTR"; "SETA"; "SETB"; "SETC"; "ANOP"; "LCLA"; "LCLB"; "LCLC"; "GBLA"; "GBLB"; "GBLC"; "MACRO"; "MEND";
   "MEXIT"; "AEJECT"; "AREAD"; "ASPACE"]%string.
(** 124-183: names and descriptions *)
Definition asm_names : list (string * string) :=
  [("*PROCESS", ""); ("ACONTROL", "<selection>+"); ("ADATA", "value1,value2,value3,value4,character_string");
   ("AINSERT", "'record',BACK|FRONT"); ("ALIAS", "alias_string"); ("AMODE", "amode_option"); ("CATTR", "attribute+");
   ("CCW", "command_code,data_address,flags,data_count"); ("CCW0", "command_code,data_address,flags,data_count");
   ("CCW1", "command_code,data_address,flags,data_count"); ("CEJECT", "?number_of_lines"); ("CNOP", "byte,boundary");
   ("COM", ""); ("COPY", "member"); ("CSECT", ""); ("CXD", ""); ("DC", "<operand>+");
   ("DROP", "?<<base_register|label>+>"); ("DS", "<operand>+"); ("DSECT", ""); ("DXD", "<operand>+"); ("EJECT", "");
   ("END", "?expression,?language"); ("ENTRY", "entry_point+");
   ("EQU", "value,?<length_attribute_value>,?<type_attribute_value>,?<program_type_value>,?<assembler_type_value>");
   ("EXITCTL", "exit_type,control_value+"); ("EXTRN", "<external_symbol>+|PART(<external_symbol>+)");
   ("ICTL", "begin,?<end>,?<continue>"); ("ISEQ", "?<left,right>"); ("LOCTR", ""); ("LTORG", "");
   ("MNOTE", "?<<severity|*|>,>message"); ("OPSYN", "?operation_code_2"); ("ORG", "expression?<,boundary?<,offset>>");
   ("POP", "<PRINT|USING|ACONTROL>+,?NOPRINT"); ("PRINT", "operand+"); ("PUNCH", "string");
   ("PUSH", "<PRINT|USING|ACONTROL>+,?NOPRINT"); ("REPRO", ""); ("RMODE", "rmode_option"); ("RSECT", "");
   ("SPACE", "?number_of_lines"); ("START", "?expression"); ("TITLE", "title_string"); ("USING", "operand+");
   ("WXTRN", "<external_symbol>+|PART(<external_symbol>+)"); ("XATTR", "attribute+")]%string.

(** std::map::insert keeps the first entry of a name *)
Fixpoint firsts {A} (name : A -> string) (seen : list string) (l : list A) : list A :=
  match l with
  | [] => []
  | x :: r => if existsb (String.eqb (name x)) seen then firsts name seen r else x :: firsts name (name x :: seen) r
  end.
(** 42-219.  The maps are walked in the order of names here left out: no two items have the same label
    (Hov_Props.v). *)
Definition items (ms : list instr) (mns : list mnem) : list item :=
  map machine_item (firsts i_name [] ms) ++
  map assembler_item asm_names ++
  flat_map (fun m => match find_instr ms (m_instr m) with Some i => [mnemonic_item m i] | None => [] end)
           (firsts m_name [] mns) ++
  map ca_item_of ca_names.
(** lsp_context.cpp 456-466 *)
Definition hover_instruction (l : list item) (name : string) : bytes :=
  match find (fun i => String.eqb (label i) name) l with
  | None => []
  | Some i => detail i ++ [32; 32; 10]%N ++ doc i
  end.
