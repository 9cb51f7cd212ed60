(** What the operands of machine instructions have to look like. *)
From Coq Require Import ZArith Bool Arith String List.
From Verif Require Import Mach_Model.
Import ListNotations.
Local Open Scope Z_scope.

(** The values a field can hold; a length field also takes the value one above its greatest. *)
Definition in_field (p : parameter) (z : Z) : Prop :=
  if p_signed p then - 2 ^ (p_size p - 1) <= z < 2 ^ (p_size p - 1) else 0 <= z < 2 ^ p_size p.
Definition in_first (p : parameter) (z : Z) : Prop :=
  match p_type p with LENGTH => 0 <= z <= 2 ^ p_size p | _ => in_field p z end.
(** Only absolute values are checked. *)
Definition val_in (P : Z -> Prop) (v : val) : Prop := match v with Abs z => P z | Other => True end.
Definition absent (p : parameter) : Prop := p = mkP false 0 NONE.
(** Operands without parentheses: registers, masks, immediates. *)
Definition plain (f : op_format) : Prop := absent (f_first f) /\ absent (f_second f).

(** An operand is right for a format. *)
Inductive fits (f : op_format) : wop -> Prop :=
| fits_abs z : in_field (f_id f) z -> fits f (WExpr (Abs z))
| fits_relative : plain f -> p_type (f_id f) = REG_IMM -> fits f (WExpr Other)
| fits_symbol : ~ plain f -> fits f (WExpr Other)
| fits_base d b : ~ plain f -> absent (f_first f) ->
    val_in (in_field (f_id f)) d -> val_in (in_field (f_second f)) b -> fits f (WBase d b)
| fits_single d x : ~ absent (f_first f) ->
    val_in (in_field (f_id f)) d -> val_in (in_first (f_first f)) x -> fits f (WBase d x)
| fits_both d x b : ~ absent (f_first f) ->
    val_in (in_field (f_id f)) d -> val_in (in_first (f_first f)) x -> val_in (in_field (f_second f)) b ->
    fits f (WBoth d x b)
| fits_second d b : ~ absent (f_first f) ->
    val_in (in_field (f_id f)) d -> val_in (in_field (f_second f)) b -> fits f (WSecond d b).
(** The one thing that is let through: an index or length written alone, D(X), of any value. *)
Definition slips (f : op_format) (o : wop) : Prop :=
  exists d x, o = WBase d x /\ ~ absent (f_first f) /\ val_in (in_field (f_id f)) d /\
    ~ val_in (in_first (f_first f)) x.

(** What a diagnostic about an operand says, and when it is true. *)
Definition bounds (p : parameter) : Z * Z :=
  if p_signed p then (- 2 ^ (p_size p - 1), 2 ^ (p_size p - 1) - 1) else (0, 2 ^ p_size p - 1).
Definition bad (P : Z -> Prop) (v : val) : Prop := exists z, v = Abs z /\ ~ P z.
Definition parenthesised (o : wop) : Prop := match o with WEmpty | WExpr _ => False | _ => True end.
Definition displ (o : wop) : val :=
  match o with WExpr v | WBase v _ | WBoth v _ _ | WSecond v _ | WFirst v _ => v | WEmpty => Other end.
Definition base_of (f : op_format) (o : wop) (b : val) : Prop :=
  o = WSecond (displ o) b \/ (exists x, o = WBoth (displ o) x b) \/ (o = WBase (displ o) b /\ absent (f_first f)).
(** A plain operand of each kind, as the messages call it. *)
Definition expected (t : op_type) : option Z :=
  match t with REG => Some 110 | MASK => Some 111 | IMM => Some 112 | REG_IMM => Some 113 | VEC_REG => Some 114
  | _ => None end.
Inductive reports (f : op_format) (o : wop) : diag -> Prop :=
(* operand missing *)
| rep_missing : o = WEmpty -> reports f o (D 3)
(* D(X,) *)
| rep_no_base d x : ~ plain f -> o = WFirst d x -> reports f o (D 4)
(* a register, mask, immediate, ... was expected instead of an address *)
| rep_plain c : plain f -> (parenthesised o \/ o = WExpr Other) -> expected (p_type (f_id f)) = Some c ->
    reports f o (D c)
(* register, mask, vector register out of range *)
| rep_reg z : plain f -> o = WExpr (Abs z) -> ~ in_field (f_id f) z -> p_type (f_id f) = REG -> reports f o (D 120)
| rep_mask z : plain f -> o = WExpr (Abs z) -> ~ in_field (f_id f) z -> p_type (f_id f) = MASK -> reports f o (D 121)
| rep_vec z : plain f -> o = WExpr (Abs z) -> ~ in_field (f_id f) z -> p_type (f_id f) = VEC_REG -> reports f o (D 124)
(* immediate, relative immediate out of the range named *)
| rep_imm z lo hi : plain f -> o = WExpr (Abs z) -> ~ lo <= z <= hi -> p_type (f_id f) = IMM ->
    (lo, hi) = bounds (f_id f) -> reports f o (DRange 122 lo hi)
| rep_rel z lo hi : plain f -> o = WExpr (Abs z) -> ~ lo <= z <= hi -> p_type (f_id f) = REG_IMM ->
    (lo, hi) = bounds (f_id f) -> reports f o (DRange 123 lo hi)
(* displacement out of the range named *)
| rep_displ z lo hi : ~ plain f -> displ o = Abs z -> ~ lo <= z <= hi -> (lo, hi) = bounds (f_id f) ->
    reports f o (DRange 130 lo hi)
(* D(X,B) or D(,B) where only D(B) can be written *)
| rep_no_index : ~ plain f -> absent (f_first f) -> parenthesised o -> (forall d b, o <> WBase d b) -> reports f o (D 104)
(* base register out of range *)
| rep_base b : ~ plain f -> base_of f o b -> bad (in_field (f_second f)) b -> reports f o (D 131)
(* index, length, register or vector register in front of the base out of the range named *)
| rep_first d x b lo hi c : ~ absent (f_first f) -> o = WBoth d x b -> bad (in_first (f_first f)) x ->
    lo = 0 -> hi = (if op_type_eqb (p_type (f_first f)) LENGTH then 2 ^ p_size (f_first f)
                    else 2 ^ p_size (f_first f) - 1) ->
    (p_type (f_first f), c) = (LENGTH, 132) \/ (p_type (f_first f), c) = (DIS_REG, 135) \/
    (p_type (f_first f), c) = (REG, 133) \/ (p_type (f_first f), c) = (VEC_REG, 134) ->
    reports f o (DRange c lo hi).

(** Formats a table may contain. *)
Definition sane (f : op_format) : Prop :=
  0 < p_size (f_id f) /\
  (plain f /\ (p_signed (f_id f) = true /\ In (p_type (f_id f)) [IMM; REG_IMM] \/
               p_signed (f_id f) = false /\ In (p_type (f_id f)) [REG; MASK; IMM; VEC_REG]) \/
   0 < p_size (f_second f) /\ ~ absent (f_second f) /\
   (absent (f_first f) \/
    p_signed (f_first f) = false /\ 0 < p_size (f_first f) /\
    In (p_type (f_first f)) [LENGTH; DIS_REG; REG; VEC_REG])).

(** The operands of the machine instruction that an extended mnemonic with these operands stands for:
    the fixed values at their places, and what was written, in order, at the others. *)
Fixpoint others (places : list nat) (k : nat) (l : list wop) : list wop :=
  match l with
  | [] => []
  | o :: l' => (if existsb (Nat.eqb k) places then [] else [o]) ++ others places (S k) l'
  end.
Definition stands_for (m : mnem) (os full : list wop) : Prop :=
  (forall p v, In (p, v) (m_replaced m) -> nth_error full p = Some (WExpr (Abs v))) /\
  others (map fst (m_replaced m)) 0 full = os.

(** A number of operands an instruction can have. *)
Definition right_number (i : instr) (n : nat) : Prop :=
  (n <= length (i_ops i) /\ length (i_ops i) <= n + i_optional i)%nat.
(** An omitted operand depends on nothing. *)
Definition settled (o : operand) : Prop := o_pending o = false \/ o_what o = WEmpty.
Definition resolved (os : list operand) : Prop := Forall settled os.

(** Accepted operands of an instruction, and the diagnostics about the others: one each, in the order
    of the operands, with the number of the operand. *)
Definition accepted (f : op_format) (o : wop) : Prop := fits f o \/ slips f o.
Inductive faults : list op_format -> list wop -> nat -> list (diag * option nat) -> Prop :=
| faults_nil fs k : faults fs [] k []
| faults_ok f fs o os k ds : accepted f o -> faults fs os (S k) ds -> faults (f :: fs) (o :: os) k ds
| faults_bad f fs o os k d ds : ~ accepted f o -> reports f o d -> faults fs os (S k) ds ->
    faults (f :: fs) (o :: os) k ((d, Some k) :: ds).
Fixpoint all_accepted (fs : list op_format) (os : list wop) : Prop :=
  match os, fs with
  | [], _ => True
  | o :: os', f :: fs' => accepted f o /\ all_accepted fs' os'
  | _, [] => False
  end.

(** * Encoding *)

(** The bits of a field in the instruction; a vector register has one more among the RXB bits. *)
Definition width (p : parameter) : Z := match p_type p with VEC_REG => 5 | _ => p_size p end.
Definition op_bits (f : op_format) : Z := width (f_id f) + width (f_first f) + width (f_second f).
(** The bits of the operation code in each format (Principles of Operation, chapter 5). *)
Definition opcode_bits (f : mach_format) : Z :=
  match f with
  | F_I | F_RR | F_RS_a | F_RS_b | F_RSI | F_RX_a | F_RX_b | F_SI | F_MII | F_SMI
  | F_SS_a | F_SS_b | F_SS_c | F_SS_d | F_SS_e | F_SS_f => 8
  | F_RI_a | F_RI_b | F_RI_c | F_RIL_a | F_RIL_b | F_RIL_c | F_SSF => 12
  | _ => 16
  end.
Definition needed_bits (i : instr) : Z := opcode_bits (i_format i) + fold_right (fun f s => op_bits f + s) 0 (i_ops i).

(** The kinds of operands, and the operands that each format has in assembler language. *)
Inductive inner := iNone | iX | iR | iV | iL (bits : Z).
Inductive kind := kR | kM | kV | kI (bits : Z) | kRel (bits : Z) | kD (bits : Z) (i : inner).
Definition inner_of (p : parameter) : option inner :=
  match p with
  | mkP false 0 NONE => Some iNone
  | mkP false 4 DIS_REG => Some iX
  | mkP false 4 REG => Some iR
  | mkP false 4 VEC_REG => Some iV
  | mkP false n LENGTH => Some (iL n)
  | _ => None
  end.
Definition kind_of (f : op_format) : option kind :=
  match f with
  | mkF (mkP false 4 REG) (mkP false 0 NONE) (mkP false 0 NONE) => Some kR
  | mkF (mkP false 4 MASK) (mkP false 0 NONE) (mkP false 0 NONE) => Some kM
  | mkF (mkP false 4 VEC_REG) (mkP false 0 NONE) (mkP false 0 NONE) => Some kV
  | mkF (mkP _ n IMM) (mkP false 0 NONE) (mkP false 0 NONE) => Some (kI n)
  | mkF (mkP true n REG_IMM) (mkP false 0 NONE) (mkP false 0 NONE) => Some (kRel n)
  | mkF (mkP s n DISPLC) p (mkP false 4 BASE) =>
      if Bool.eqb s (n =? 20) then match inner_of p with Some i => Some (kD n i) | None => None end else None
  | _ => None
  end.
Definition kinds (i : instr) : list (option kind) := map kind_of (i_ops i).
Definition DB := kD 12 iNone.
Definition DBL := kD 20 iNone.
Definition shapes (f : mach_format) : list (list kind) :=
  match f with
  | F_E => [[]] | F_I => [[kI 8]] | F_RR => [[kR; kR]; [kM; kR]; [kR]]
  | F_IE => [[kI 4; kI 4]] | F_RRD => [[kR; kR; kR]] | F_RRE => [[kR; kR]; [kR]; []]
  | F_RRF_a | F_RRF_b => [[kR; kR; kR]; [kR; kR; kR; kM]]
  | F_RRF_c | F_RRF_d => [[kR; kR; kM]]
  | F_RRF_e => [[kR; kM; kR]; [kR; kM; kR; kM]]
  | F_RI_a => [[kR; kI 16]] | F_RI_b => [[kR; kRel 16]] | F_RI_c => [[kM; kRel 16]]
  | F_RS_a => [[kR; kR; DB]; [kR; DB]] | F_RS_b => [[kR; kM; DB]] | F_RSI => [[kR; kR; kRel 16]]
  | F_RX_a => [[kR; kD 12 iX]] | F_RX_b => [[kM; kD 12 iX]]
  | F_S => [[DB]; []] | F_SI => [[DB; kI 8]; [DB]]
  | F_MII => [[kM; kRel 12; kRel 24]]
  | F_RIE_a | F_RIE_g => [[kR; kI 16; kM]] | F_RIE_b => [[kR; kR; kM; kRel 16]] | F_RIE_c => [[kR; kI 8; kM; kRel 16]]
  | F_RIE_d => [[kR; kR; kI 16]] | F_RIE_e => [[kR; kR; kRel 16]] | F_RIE_f => [[kR; kR; kI 8; kI 8; kI 8]]
  | F_RIL_a => [[kR; kI 32]] | F_RIL_b => [[kR; kRel 32]] | F_RIL_c => [[kM; kRel 32]]
  | F_RIS => [[kR; kI 8; kM; DB]] | F_RRS => [[kR; kR; kM; DB]]
  | F_RSL_a => [[kD 12 (iL 4)]] | F_RSL_b => [[kR; kD 12 (iL 8); kM]]
  | F_RSY_a => [[kR; kR; DBL]] | F_RSY_b => [[kR; kM; DBL]; [kR; DBL; kM]]
  | F_RXE => [[kR; kD 12 iX]; [kR; kD 12 iX; kM]] | F_RXF => [[kR; kR; kD 12 iX]]
  | F_RXY_a => [[kR; kD 20 iX]] | F_RXY_b => [[kM; kD 20 iX]]
  | F_SIL => [[DB; kI 16]] | F_SIY => [[DBL; kI 8]] | F_SMI => [[kM; kRel 16; DB]]
  | F_SS_a => [[kD 12 (iL 8); DB]] | F_SS_b => [[kD 12 (iL 4); kD 12 (iL 4)]]
  | F_SS_c => [[kD 12 (iL 4); DB; kI 4]] | F_SS_d => [[kD 12 iR; DB; kR]]
  | F_SS_e => [[kR; kR; DB; DB]; [kR; DB; kR; DB]] | F_SS_f => [[DB; kD 12 (iL 8)]]
  | F_SSE => [[DB; DB]] | F_SSF => [[DB; DB; kR]; [kR; DB; DB]]
  | F_VRI_a => [[kV; kI 16; kM]; [kV; kI 16]] | F_VRI_b => [[kV; kI 8; kI 8; kM]] | F_VRI_c => [[kV; kV; kI 16; kM]]
  | F_VRI_d => [[kV; kV; kV; kI 8]; [kV; kV; kV; kI 8; kM]] | F_VRI_e => [[kV; kV; kI 12; kM; kM]]
  | F_VRI_f => [[kV; kV; kV; kI 8; kM]] | F_VRI_g => [[kV; kV; kI 8; kI 8; kM]] | F_VRI_h => [[kV; kI 16; kI 4]]
  | F_VRI_i => [[kV; kR; kI 8; kM]]
  | F_VRR_a => [[kV; kV]; [kV; kV; kM]; [kV; kV; kM; kM]; [kV; kV; kM; kM; kM]]
  | F_VRR_b => [[kV; kV; kV; kM; kM]]
  | F_VRR_c => [[kV; kV; kV]; [kV; kV; kV; kM]; [kV; kV; kV; kM; kM]; [kV; kV; kV; kM; kM; kM]]
  | F_VRR_d => [[kV; kV; kV; kV; kM]; [kV; kV; kV; kV; kM; kM]]
  | F_VRR_e => [[kV; kV; kV; kV]; [kV; kV; kV; kV; kM; kM]]
  | F_VRR_f => [[kV; kR; kR]] | F_VRR_g => [[kV]] | F_VRR_h => [[kV; kV; kM]] | F_VRR_i => [[kR; kV; kM]]
  | F_VRS_a => [[kV; kV; DB; kM]] | F_VRS_b => [[kV; kR; DB]; [kV; kR; DB; kM]] | F_VRS_c => [[kR; kV; DB; kM]]
  | F_VRS_d => [[kV; kR; DB]]
  | F_VRV => [[kV; kD 12 iV; kM]] | F_VRX => [[kV; kD 12 iX; kM]] | F_VSI => [[kV; DB; kI 8]]
  end.
Definition conforms (i : instr) : Prop := exists ks, In ks (shapes (i_format i)) /\ kinds i = map Some ks.
