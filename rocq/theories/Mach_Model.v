(** Checking of machine instructions.
    parser_library/src/checking/instr_operand.cpp and .h, context/instruction.h and .cpp,
    semantics/operand_impls.cpp (machine operands),
    processing/instruction_sets/low_language_processor.cpp (193-366), mach_processor.cpp.

    Simplifications.  Expressions are represented by the value they evaluate to and by whether they
    still have unresolved dependencies; the diagnostics of the evaluation itself are left out.
    [int] is unbounded: values are those of absolute symbols, which are 32-bit, and are only compared
    here.  Ranges in the text are replaced by the number of the operand the diagnostic points to
    ([None]: the whole statement). *)
From Coq Require Import ZArith Bool Arith String List.
Import ListNotations.
Local Open Scope Z_scope.

(** instr_operand.h:66-78. *)
Inductive op_type := MASK | REG | REG_IMM | IMM | NONE | DISPLC | BASE | LENGTH | VEC_REG | DIS_REG.
Definition op_type_eqb (a b : op_type) : bool :=
  match a, b with
  | MASK, MASK | REG, REG | REG_IMM, REG_IMM | IMM, IMM | NONE, NONE | DISPLC, DISPLC | BASE, BASE
  | LENGTH, LENGTH | VEC_REG, VEC_REG | DIS_REG, DIS_REG => true
  | _, _ => false
  end.
(** instr_operand.h:81-90. *)
Record parameter := mkP { p_signed : bool; p_size : Z; p_type : op_type }.
(** instr_operand.h:95-111. *)
Record op_format := mkF { f_id : parameter; f_first : parameter; f_second : parameter }.

(** instr_operand.cpp:342. *)
Definition is_empty (p : parameter) : bool := negb (p_signed p) && op_type_eqb (p_type p) NONE && (p_size p =? 0).
(** instr_operand.cpp:43-52. *)
Definition size_signed (v size : Z) : bool := let b := Z.shiftl 1 (size - 1) in (v <? b) && (- b <=? v).
Definition size_unsigned (v size : Z) : bool := (0 <=? v) && (v <=? Z.shiftl 1 size - 1).
(** instr_operand.cpp:34-41. *)
Definition corresponds (v : Z) (p : parameter) : bool :=
  if p_signed p && size_signed v (p_size p) then true
  else if negb (p_signed p) && size_unsigned v (p_size p) then true else false.
(** instr_operand.cpp:54-59. *)
Definition is_simple (f : op_format) : bool := is_empty (f_first f) && is_empty (f_second f).
(** instr_operand.cpp:195-202. *)
Definition length_corresponds (v size : Z) : bool := negb ((v >? Z.shiftl 1 size) || (v <? 0)).

(** Diagnostics: the numbers are those of diagnostic.cpp ([D 110] is M110); [DRange] also names the
    range of values in the message; [Internal] is I999 (after a failing assertion); [Blank] is a
    diagnostic left at its default (after a failing assertion). *)
Inductive diag := D (code : Z) | DRange (code lo hi : Z) | Internal | Blank.

(** instr_operand.h:33-52: how the parentheses of an address operand are filled. *)
Inductive op_state := FIRST_OMITTED | SECOND_OMITTED | PRESENT | ONE_OP.
(** Operands to check: instr_operand.h:135-199.  The state of an address is always UNRES (nothing
    constructs an address operand with another state outside the tests). *)
Inductive cop := One (v : Z) | Address (d first second : Z) (st : op_state) | Nothing.

(** instr_operand.cpp:75-95. *)
Definition first_error (t : op_type) (lo hi : Z) : diag :=
  match t with
  | LENGTH => DRange 132 lo hi
  | DIS_REG => DRange 135 lo hi
  | REG => DRange 133 lo hi
  | VEC_REG => DRange 134 lo hi
  | _ => Internal
  end.
(** instr_operand.cpp:204-222. *)
Definition simple_expected (f : op_format) : diag :=
  match p_type (f_id f) with
  | REG => D 110 | MASK => D 111 | IMM => D 112 | REG_IMM => D 113 | VEC_REG => D 114
  | _ => Internal
  end.
(** instr_operand.cpp:125-131 and 279-285. *)
Definition displacement_error (p : parameter) : diag :=
  if p_signed p then let b := Z.shiftl 1 (p_size p - 1) in DRange 130 (- b) (b - 1)
  else DRange 130 0 (Z.shiftl 1 (p_size p) - 1).
(** instr_operand.cpp:97-193; [None]: no error.  In the last part the code computes which of the two
    values was written (166-170) and then checks [first_op] all the same. *)
Definition check_address (f : op_format) (d first second : Z) (st : op_state) : option diag :=
  if is_simple f then Some (simple_expected f)
  else match st with
  | SECOND_OMITTED => Some (D 4)
  | _ =>
    if negb (corresponds d (f_id f)) then Some (displacement_error (f_id f))
    else if is_empty (f_first f) then
      match st with
      | ONE_OP => if negb (corresponds second (f_second f)) then Some (D 131) else None
      | _ => Some (D 104)
      end
    else
      let base_bad :=
        match st with
        | FIRST_OMITTED | PRESENT => negb (corresponds second (f_second f))
        | _ => false
        end in
      if base_bad then Some (D 131)
      else match st with
      | FIRST_OMITTED => None
      | _ =>
        if op_type_eqb (p_type (f_first f)) LENGTH && negb (length_corresponds first (p_size (f_first f))) then
          Some (first_error (p_type (f_first f)) 0 (Z.shiftl 1 (p_size (f_first f))))
        else if negb (op_type_eqb (p_type (f_first f)) LENGTH) && negb (corresponds first (f_first f)) then
          Some (first_error (p_type (f_first f)) 0 (Z.shiftl 1 (p_size (f_first f)) - 1))
        else None
      end
  end.
(** instr_operand.cpp:269-331. *)
Definition check_one (f : op_format) (v : Z) : option diag :=
  let i := f_id f in
  if negb (is_simple f) then
    if negb (corresponds v i) then Some (displacement_error i) else None
  else if p_signed i && negb (size_signed v (p_size i)) then
    let b := Z.shiftl 1 (p_size i - 1) in
    match p_type i with
    | IMM => Some (DRange 122 (- b) (b - 1))
    | REG_IMM => Some (DRange 123 (- b) (b - 1))
    | _ => Some Blank
    end
  else if negb (p_signed i) && negb (size_unsigned v (p_size i)) then
    let b := Z.shiftl 1 (p_size i) - 1 in
    match p_type i with
    | REG => Some (D 120)
    | MASK => Some (D 121)
    | IMM => Some (DRange 122 0 b)
    | VEC_REG => Some (D 124)
    | _ => Some Blank
    end
  else None.
(** The virtual [check]; instr_operand.cpp:335-340 for an empty operand. *)
Definition check_op (f : op_format) (o : cop) : option diag :=
  match o with
  | One v => check_one f v
  | Address d a b st => check_address f d a b st
  | Nothing => Some (D 3)
  end.

(** context/instruction.h:31-117, in the order of the enumeration. *)
Inductive mach_format :=
| F_E | F_I | F_RR
| F_IE | F_RRD | F_RRE | F_RRF_a | F_RRF_b | F_RRF_c | F_RRF_d | F_RRF_e | F_RI_a | F_RI_b | F_RI_c
| F_RS_a | F_RS_b | F_RSI | F_RX_a | F_RX_b | F_S | F_SI
| F_MII | F_RIE_a | F_RIE_b | F_RIE_c | F_RIE_d | F_RIE_e | F_RIE_f | F_RIE_g | F_RIL_a | F_RIL_b | F_RIL_c
| F_RIS | F_RRS | F_RSL_a | F_RSL_b | F_RSY_a | F_RSY_b | F_RXE | F_RXF | F_RXY_a | F_RXY_b | F_SIL | F_SIY
| F_SMI | F_SS_a | F_SS_b | F_SS_c | F_SS_d | F_SS_e | F_SS_f | F_SSE | F_SSF
| F_VRI_a | F_VRI_b | F_VRI_c | F_VRI_d | F_VRI_e | F_VRI_f | F_VRR_a | F_VRR_b | F_VRR_c | F_VRR_d | F_VRR_e
| F_VRR_f | F_VRS_a | F_VRS_b | F_VRS_c | F_VRV | F_VRX | F_VRI_g | F_VRI_h | F_VRI_i | F_VRR_g | F_VRR_h
| F_VRR_i | F_VRS_d | F_VSI.
(** context/instruction.h:211-221 [get_length_by_format], in bits: the enumerators before [IE] are
    the 16-bit formats, those before [MII] the 32-bit ones. *)
Definition length_by_format (f : mach_format) : Z :=
  match f with
  | F_E | F_I | F_RR => 16
  | F_IE | F_RRD | F_RRE | F_RRF_a | F_RRF_b | F_RRF_c | F_RRF_d | F_RRF_e | F_RI_a | F_RI_b | F_RI_c
  | F_RS_a | F_RS_b | F_RSI | F_RX_a | F_RX_b | F_S | F_SI => 32
  | _ => 48
  end.

(** context/instruction.h:119-171: the formats of operands. *)
Definition p_empty := mkP false 0 NONE.
Definition p_reg := mkP false 4 REG.
Definition p_dis_reg := mkP false 4 DIS_REG.
Definition p_dis_reg_r := mkP false 4 REG.
Definition p_mask := mkP false 4 MASK.
Definition p_dis_12u := mkP false 12 DISPLC.
Definition p_dis_20s := mkP true 20 DISPLC.
Definition p_base := mkP false 4 BASE.
Definition p_length_8 := mkP false 8 LENGTH.
Definition p_length_4 := mkP false 4 LENGTH.
Definition p_imm_4u := mkP false 4 IMM.
Definition p_imm_8s := mkP true 8 IMM.
Definition p_imm_8u := mkP false 8 IMM.
Definition p_imm_12s := mkP true 12 IMM.
Definition p_imm_16s := mkP true 16 IMM.
Definition p_imm_16u := mkP false 16 IMM.
Definition p_imm_32s := mkP true 32 IMM.
Definition p_imm_32u := mkP false 32 IMM.
Definition p_vec_reg := mkP false 4 VEC_REG.
Definition p_reg_imm_12s := mkP true 12 REG_IMM.
Definition p_reg_imm_16s := mkP true 16 REG_IMM.
Definition p_reg_imm_24s := mkP true 24 REG_IMM.
Definition p_reg_imm_32s := mkP true 32 REG_IMM.
Definition simple (p : parameter) := mkF p p_empty p_empty.
Definition db_12_4_U := mkF p_dis_12u p_empty p_base.
Definition db_20_4_S := mkF p_dis_20s p_empty p_base.
Definition drb_12_4x4_U := mkF p_dis_12u p_dis_reg_r p_base.
Definition dxb_12_4x4_U := mkF p_dis_12u p_dis_reg p_base.
Definition dxb_20_4x4_S := mkF p_dis_20s p_dis_reg p_base.
Definition dvb_12_4x4_U := mkF p_dis_12u p_vec_reg p_base.
Definition reg_4_U := simple p_reg.
Definition mask_4_U := simple p_mask.
Definition imm_4_U := simple p_imm_4u.
Definition imm_8_S := simple p_imm_8s.
Definition imm_8_U := simple p_imm_8u.
Definition imm_16_U := simple p_imm_16u.
Definition imm_12_S := simple p_imm_12s.
Definition imm_16_S := simple p_imm_16s.
Definition imm_32_S := simple p_imm_32s.
Definition imm_32_U := simple p_imm_32u.
Definition vec_reg_4_U := simple p_vec_reg.
Definition db_12_8x4L_U := mkF p_dis_12u p_length_8 p_base.
Definition db_12_4x4L_U := mkF p_dis_12u p_length_4 p_base.
Definition reg_imm_12_S := simple p_reg_imm_12s.
Definition reg_imm_16_S := simple p_reg_imm_16s.
Definition reg_imm_24_S := simple p_reg_imm_24s.
Definition reg_imm_32_S := simple p_reg_imm_32s.

(** context/instruction.h:174-229 (without the page number) and 238-251; an extended mnemonic names
    its machine instruction instead of pointing to it. *)
Record instr := mkI { i_name : string; i_format : mach_format; i_ops : list op_format; i_optional : nat }.
Record mnem := mkM { m_name : string; m_instr : string; m_replaced : list (nat * Z) }.
(** [std::map::insert] keeps the first of several entries with the same name. *)
Fixpoint find_instr (t : list instr) (n : string) : option instr :=
  match t with [] => None | i :: t' => if String.eqb (i_name i) n then Some i else find_instr t' n end.
Fixpoint find_mnem (t : list mnem) (n : string) : option mnem :=
  match t with [] => None | m :: t' => if String.eqb (m_name m) n then Some m else find_mnem t' n end.

(** What a statement leads to: a verdict and diagnostics (with the number of the operand they are
    about), [std::map::at] throwing, or a write behind the end of a vector. *)
Inductive outcome := Checked (ok : bool) (ds : list (diag * option nat)) | Throws | Corrupts.

(** diagnostic.cpp:1520-1529 [error_optional_number_of_operands]. *)
Definition wrong_number (optional n : Z) : diag :=
  if optional =? 0 then DRange 0 n n
  else if optional =? 1 then DRange 1 (n - 1) n
  else DRange 2 (n - optional) n.
(** context/instruction.cpp:189-217 [machine_instruction::check].  A null operand ([None]) is
    dereferenced. *)
Fixpoint check_ops (fs : list op_format) (os : list (option cop)) (k : nat) : option (list (diag * option nat)) :=
  match os, fs with
  | [], _ => Some []
  | Some o :: os', f :: fs' =>
      match check_ops fs' os' (S k) with
      | None => None
      | Some r => Some (match check_op f o with Some d => (d, Some k) :: r | None => r end)
      end
  | _, _ => None
  end.
Definition check_instr (i : instr) (os : list (option cop)) : outcome :=
  let diff := Z.of_nat (length (i_ops i)) - Z.of_nat (length os) in
  if (diff >? Z.of_nat (i_optional i)) || (diff <? 0) then
    Checked false [(wrong_number (Z.of_nat (i_optional i)) (Z.of_nat (length (i_ops i))), None)]
  else match check_ops (i_ops i) os 0 with
       | None => Corrupts
       | Some ds => Checked (match ds with [] => true | _ => false end) ds
       end.

(** Written operands.  Values: absolute, or anything else (relocatable or undefined). *)
Inductive val := Abs (z : Z) | Other.
Inductive wop :=
| WEmpty
| WExpr (v : val)
| WBase (d b : val)             (* D(B) *)
| WBoth (d x b : val)           (* D(X,B) *)
| WSecond (d b : val)           (* D(,B) *)
| WFirst (d x : val).           (* D(X,) *)
(** An operand with its unresolved dependencies. *)
Record operand := mkO { o_pending : bool; o_what : wop }.

Definition abs_or_0 (v : val) : Z := match v with Abs z => z | Other => 0 end.
(** operand_impls.cpp:84-105 [make_check_operand]; 146-211 [address_machine_operand]; the operand
    states come from parsing/grammar/machine_operand_rules.g4:20-41. *)
Definition get_value (o : wop) (hint : option op_type) : cop :=
  match o with
  | WEmpty => Nothing
  | WExpr (Abs z) => One z
  | WExpr Other => match hint with Some REG_IMM => One 0 | _ => Address 0 0 0 ONE_OP end
  | WBase d b => Address (abs_or_0 d) 0 (abs_or_0 b) ONE_OP
  | WBoth d x b => Address (abs_or_0 d) (abs_or_0 x) (abs_or_0 b) PRESENT
  | WSecond d b => Address (abs_or_0 d) 0 (abs_or_0 b) FIRST_OMITTED
  | WFirst d x => Address (abs_or_0 d) (abs_or_0 x) 0 SECOND_OMITTED
  end.
(** low_language_processor.cpp:282-330 [get_check_op] for machine operands: [None] after E010. *)
Definition get_check_op (i : instr) (o : operand) (pos : nat) : option cop :=
  if o_pending o then None
  else Some (get_value (o_what o) (match nth_error (i_ops i) pos with Some f => Some (p_type (f_id f)) | None => None end)).
Definition E010 : diag := D 10010.

(** An empty operand is never asked for dependencies. *)
Definition is_wempty (o : operand) : bool := match o_what o with WEmpty => true | _ => false end.
(** low_language_processor.cpp:257-280 [transform_default]: the operands, or the number of the one
    that has dependencies. *)
Fixpoint transform_default (i : instr) (os : list operand) (k : nat) : list (option cop) + nat :=
  match os with
  | [] => inl []
  | o :: os' =>
      match (if is_wempty o then Some Nothing else get_check_op i o k) with
      | None => inr k
      | Some c => match transform_default i os' (S k) with inl r => inl (Some c :: r) | inr e => inr e end
      end
  end.

(** 224-230: null operands, then the substituted ones; [None]: a write outside the vector. *)
Fixpoint set_nth (l : list (option cop)) (n : nat) (c : cop) : option (list (option cop)) :=
  match l, n with
  | [], _ => None
  | _ :: l', O => Some (Some c :: l')
  | x :: l', S n' => match set_nth l' n' c with Some r => Some (x :: r) | None => None end
  end.
Fixpoint substitute (l : list (option cop)) (rs : list (nat * Z)) : option (list (option cop)) :=
  match rs with
  | [] => Some l
  | (p, v) :: rs' => match set_nth l p (One v) with Some l' => substitute l' rs' | None => None end
  end.
(** 231-253: the written operands go to the places left; [k] counts them, [j] the places. *)
Fixpoint fill (i : instr) (l : list (option cop)) (os : list operand) (j k : nat) : list (option cop) + nat :=
  match l with
  | [] => inl []
  | Some c :: l' => match fill i l' os (S j) k with inl r => inl (Some c :: r) | inr e => inr e end
  | None :: l' =>
      match os with
      | [] => inl l
      | o :: os' =>
          match (if is_wempty o then Some Nothing else get_check_op i o j) with
          | None => inr k
          | Some c => match fill i l' os' (S j) (S k) with inl r => inl (Some c :: r) | inr e => inr e end
          end
      end
  end.

Section Tables.
  Variable instrs : list instr.
  Variable mnems : list mnem.

  (** low_language_processor.cpp:193-255 [transform_mnemonic] followed by 359-365 and
      checking/instruction_checker.cpp:419-443 [machine_checker::check].  In that last step the operand
      numbers of the diagnostics are places of the machine instruction. *)
  Definition check_mnemonic (m : mnem) (i : instr) (os : list operand) : outcome :=
    let n := length (i_ops i) in
    let diff := Z.of_nat n - Z.of_nat (length os) - Z.of_nat (length (m_replaced m)) in
    if Z.abs diff >? Z.of_nat (i_optional i) then
      Checked false [(wrong_number (Z.of_nat (i_optional i)) (Z.of_nat n - Z.of_nat (length (m_replaced m))), None)]
    else match substitute (repeat None (n + i_optional i)) (m_replaced m) with
         | None => Corrupts
         | Some l =>
             match fill i l os 0 0 with
             | inr k => Checked false [(E010, Some k)]
             | inl v => check_instr i v
             end
         end.
  Definition check_default (i : instr) (os : list operand) : outcome :=
    match transform_default i os 0 with
    | inr k => Checked false [(E010, Some k)]
    | inl v => check_instr i v
    end.
  (** low_language_processor.cpp:332-366 [check]; mnemonics are looked up first. *)
  Definition check (name : string) (os : list operand) : outcome :=
    match find_mnem mnems name with
    | Some m => match find_instr instrs (m_instr m) with Some i => check_mnemonic m i os | None => Throws end
    | None => match find_instr instrs name with Some i => check_default i os | None => Throws end
    end.

  (** mach_processor.cpp:36-42: the machine instruction of a statement. *)
  Definition instr_of (name : string) : option instr :=
    match find_mnem mnems name with Some m => find_instr instrs (m_instr m) | None => find_instr instrs name end.
  (** mach_processor.cpp:60,84: the number of bytes. *)
  Definition bytes_of (i : instr) : Z := length_by_format (i_format i) / 8.
End Tables.
