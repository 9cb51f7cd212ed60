(** * Data definition operands (DC, DS): types, checks, lengths and attributes

    Modelled files of /repo/parser_library/src:
    - checking/data_definition/data_def_type_base.{h,cpp} (all);
    - checking/data_definition/data_def_types_{string,fixed_point,floating_point,address}.cpp (all);
    - checking/data_definition/data_definition_operand.{h,cpp} (all) and data_instruction.cpp (check_data);
    - checking/checker_helper.h 141-215 (check_number, check_exponent);
    - checking/instr_operand.cpp 43-52 (is_size_corresponding_signed and _unsigned);
    - expressions/data_definition.cpp 72-123 (alignment, type attribute) and 238-347 (evaluation of the fields);
    - processing/instruction_sets/data_def_postponed_statement.h (get_operands_length);
    - processing/instruction_sets/asm_processor.cpp 175-298 (process_data_instruction), see [process].

    Simplifications.  Ranges are left out and a diagnostic is its code.  Machine expressions are any type [E]
    with any function giving the outcome of evaluating one; a symbol with unresolved dependencies makes the
    outcome [Unresolved].  The location counter is a number.  What is done with a postponed statement is in
    Dep_Model; here a pending length is the outcome [Pending].
    [std::get] on the wrong alternative throws std::bad_variant_access: [Throw].  Dereferencing a null pointer and
    signed overflow are [Undef]. *)
From Coq Require Import List ZArith NArith Bool Ascii.
Import ListNotations.
Open Scope Z_scope.

Inductive res (A : Type) := Val (a : A) | Throw | Undef.
Arguments Val {A} a. Arguments Throw {A}. Arguments Undef {A}.
Definition bind {A B} (r : res A) (f : A -> res B) : res B :=
  match r with Val a => f a | Throw => Throw | Undef => Undef end.
Notation "'let!' x := a 'in' b" := (bind a (fun x => b)) (at level 200, x name, a at level 100, b at level 200).

Definition text := list ascii.

(** ** Machine integers *)
Definition u64 (z : Z) : Z := z mod 2 ^ 64.
Definition u32 (z : Z) : Z := z mod 2 ^ 32.
Definition i32 (z : Z) : Z := (z + 2 ^ 31) mod 2 ^ 32 - 2 ^ 31.
Definition i16 (z : Z) : Z := (z + 2 ^ 15) mod 2 ^ 16 - 2 ^ 15.
Definition INT32_MAX : Z := 2 ^ 31 - 1.

(** ** The fields of an operand after evaluation: data_def_fields.h, data_definition_operand.h 24-42 *)
Inductive expr_kind := ABS | RELOC | COMPLEX.
Inductive item :=
  | Expr (value : Z) (k : expr_kind) (ignored : bool)
  | Address (base displacement : option Z).   (* a missing field makes it ignored *)
Inductive nominal := NStr (s : text) | NExprs (l : list item).
Record operand := Operand {
  dup : option Z; typ : ascii; ext : option ascii;
  len : option Z; bitlen : bool; scale : option Z; expo : option Z; nom : option nominal
}.
(** a field that is not present holds a default string *)
Definition nom_value (o : option nominal) : nominal := match o with Some n => n | None => NStr [] end.

(** ** The types: data_def_type_base.cpp 428-471 and the constructors of the types *)
Inductive dtype :=
  | B | C | CA | CE | CU | G | X | H | F | FD | P | Z_ | A | AD | Y | R | RD | S_ | SY | V | VD | Q | QD | QY | J | JD
  | E | EH | ED | EB | D | DH | DD | DB | L | LH | LQ | LD | LB.

Local Open Scope char_scope.
Definition types_and_extensions : list ((ascii * option ascii) * dtype) :=
  [ (("B", None), B); (("C", None), C); (("C", Some "A"), CA); (("C", Some "E"), CE); (("C", Some "U"), CU);
    (("G", None), G); (("X", None), X); (("H", None), H); (("F", None), F); (("F", Some "D"), FD); (("P", None), P);
    (("Z", None), Z_); (("A", None), A); (("A", Some "D"), AD); (("Y", None), Y); (("R", None), R);
    (("R", Some "D"), RD); (("S", None), S_); (("S", Some "Y"), SY); (("V", None), V); (("V", Some "D"), VD);
    (("Q", None), Q); (("Q", Some "D"), QD); (("Q", Some "Y"), QY); (("J", None), J); (("J", Some "D"), JD);
    (("E", None), E); (("E", Some "H"), EH); (("E", Some "D"), ED); (("E", Some "B"), EB); (("D", None), D);
    (("D", Some "H"), DH); (("D", Some "D"), DD); (("D", Some "B"), DB); (("L", None), L); (("L", Some "H"), LH);
    (("L", Some "Q"), LQ); (("L", Some "D"), LD); (("L", Some "B"), LB) ].
Local Close Scope char_scope.

Definition oascii_eqb (a b : option ascii) : bool :=
  match a, b with None, None => true | Some x, Some y => Ascii.eqb x y | _, _ => false end.
Fixpoint lookup (l : list ((ascii * option ascii) * dtype)) (t : ascii) (e : option ascii) : option dtype :=
  match l with
  | [] => None
  | ((t', e'), d) :: l' => if Ascii.eqb t t' && oascii_eqb e e' then Some d else lookup l' t e
  end.
(** data_def_type_base.cpp 473-477 *)
Definition access (t : ascii) (e : option ascii) : option dtype := lookup types_and_extensions t e.

Inductive spec := Bound (min max : Z) | NA | NoCheck | Ignored.
Inductive nom_type := STRING | EXPRESSIONS | ADDRESS_OR_EXPRESSION.
Inductive implicit := Fixed (n : Z) | AsNeeded.
Record tdesc := Desc {
  bit_spec : spec; len_spec : spec; ds_bit_spec : spec; ds_len_spec : spec; scale_spec : spec; exp_spec : spec;
  nom_t : nom_type; boundary : Z; implicit_length : implicit
}.
(** the two constructors of data_def_type, data_def_type_base.cpp 32-81 *)
Definition same (bit ln sc ex : spec) (n : nom_type) (al : Z) (im : implicit) : tdesc :=
  Desc bit ln bit ln sc ex n al im.
Definition diff (bit ln : spec) (mx : Z) (sc ex : spec) (n : nom_type) (al : Z) (im : implicit) : tdesc :=
  Desc bit ln (Bound 1 (mx * 8)) (Bound 1 mx) sc ex n al im.

(** the constructors of the families *)
Definition d_HF (word : Z) : tdesc :=                                     (* data_def_types_fixed_point.cpp 27-37 *)
  same (Bound 1 64) (Bound 1 8) (Bound (-187) 346) (Bound (-85) 75) STRING word (Fixed word).
Definition d_PZ : tdesc := same (Bound 1 128) (Bound 1 16) NA NA STRING 1 AsNeeded.             (* ibid. 121-131 *)
Definition d_C : tdesc := diff (Bound 1 2048) (Bound 1 256) 65535 NA NA STRING 1 AsNeeded.      (* _string 117-128 *)
Definition d_A (al n : Z) : tdesc := same NoCheck NoCheck NA NA EXPRESSIONS al (Fixed n).       (* _address 27-30 *)
Definition d_S (size : Z) : tdesc :=                                                           (* ibid. 127-137 *)
  same NA (Bound size size) NA NA ADDRESS_OR_EXPRESSION 2 (Fixed size).
Definition d_sym (ln : spec) (al n : Z) : tdesc := same NA ln NA NA EXPRESSIONS al (Fixed n).   (* ibid. 226-230 *)
Definition d_EDL (bit ln sc : spec) (al n : Z) : tdesc :=                    (* _floating_point.cpp 25-42 *)
  same bit ln sc (Bound (-85) 75) STRING al (Fixed n).

Definition desc (t : dtype) : tdesc :=
  match t with
  | B => same (Bound 1 2048) (Bound 1 256) NA NA STRING 1 AsNeeded
  | C | CA | CE => d_C
  | CU => same NA (Bound 1 256) NA NA STRING 1 AsNeeded
  | G => diff NA (Bound 1 256) 65534 NA NA STRING 1 AsNeeded
  | X => diff (Bound 1 2048) (Bound 1 256) 65535 NA NA STRING 1 AsNeeded
  | H => d_HF 2 | F => d_HF 4 | FD => d_HF 8
  | P | Z_ => d_PZ
  | A => d_A 4 4 | AD => d_A 8 8 | Y => d_A 2 2
  | S_ => d_S 2 | SY => d_S 3
  | R => d_sym (Bound 3 4) 4 4 | RD => d_sym NoCheck 8 8
  | V => d_sym (Bound 3 4) 4 4 | VD => d_sym NoCheck 8 8
  | Q => d_sym (Bound 1 4) 4 4 | QD => d_sym (Bound 1 8) 16 8 | QY => d_sym (Bound 3 3) 2 3
  | J => d_sym NoCheck 4 4 | JD => d_sym NoCheck 8 8
  | E => d_EDL (Bound 1 64) (Bound 1 8) (Bound 0 5) 4 4
  | EH => d_EDL (Bound 12 64) (Bound 1 8) (Bound 0 5) 4 4
  | ED | EB => d_EDL (Bound 32 32) (Bound 4 4) Ignored 4 4
  | D => d_EDL (Bound 1 64) (Bound 1 8) (Bound 0 13) 8 8
  | DH => d_EDL (Bound 12 64) (Bound 1 8) (Bound 0 13) 8 8
  | DD | DB => d_EDL (Bound 64 64) (Bound 8 8) Ignored 8 8
  | L => d_EDL (Bound 1 128) (Bound 1 16) (Bound 0 27) 8 16
  | LH => d_EDL (Bound 12 128) (Bound 1 16) (Bound 0 27) 8 16
  | LQ => d_EDL (Bound 12 128) (Bound 1 16) (Bound 0 27) 16 16
  | LD | LB => d_EDL (Bound 128 128) (Bound 16 16) Ignored 8 16
  end.

(** ** Characters *)
Definition ch_between (lo hi c : ascii) : bool :=
  (N_of_ascii lo <=? N_of_ascii c)%N && (N_of_ascii c <=? N_of_ascii hi)%N.
Notation "a =c b" := (Ascii.eqb a b) (at level 70).
Definition digit (c : ascii) : bool := ch_between "0" "9" c.
Definition hex_digit (c : ascii) : bool := digit c || ch_between "a" "f" c || ch_between "A" "F" c.
Definition is_sign (c : ascii) : bool := (c =c "-") || (c =c "+").

(** ** Numbers in nominal values: checker_helper.h 141-215 *)
Record numspec := Num { is_end_char : ascii -> bool; is_sign_char : ascii -> bool }.

Fixpoint number_loop (sp : numspec) (found_digit prev_digit found_dot prev_dot : bool) (l : text) : option text :=
  let finish := if negb found_digit then None else if negb prev_digit && negb prev_dot then None else Some l in
  match l with
  | [] => finish
  | c :: l' =>
    if is_end_char sp c then finish
    else if c =c "." then (if found_dot then None else number_loop sp found_digit false true true l')
    else if digit c then number_loop sp true true found_dot false l'
    else if negb (c =c " ") then None
    else number_loop sp found_digit prev_digit found_dot prev_dot l'
  end.
Definition check_number (sp : numspec) (l : text) : option text :=
  match l with
  | c :: l' =>
    if c =c "," then None
    else if is_sign_char sp c then number_loop sp false false false false l'
    else number_loop sp false false false false l
  | [] => number_loop sp false false false false []
  end.

Fixpoint skip_digits (found : bool) (l : text) : option text :=
  match l with
  | c :: l' => if digit c then skip_digits true l' else if found then Some l else None
  | [] => if found then Some [] else None
  end.
(** [l] is what follows the letter E *)
Definition check_exponent (l : text) : option text :=
  match l with
  | c :: l' => if is_sign c then skip_digits false l' else skip_digits false l
  | [] => skip_digits false []
  end.

(** ** Diagnostics *)
Inductive diag :=
  | D007 | D008 | D009 | D010 | D011 | D012 | D013 | D014 | D016 | D017 | D018 | D020 | D021 | D022 | D023 | D024
  | D025 | D026 | D028 | D029 | A004 | A010.
(** D025 is the only warning among them *)
Definition is_error (d : diag) : bool := match d with D025 => false | _ => true end.

(** a check returns whether all is well, and the diagnostics *)
Definition checked := (bool * list diag)%type.
Definition ok : checked := (true, []).
Definition bad (d : diag) : checked := (false, [d]).
(** [ret &= ...] *)
Definition both (a b : checked) : checked := (fst a && fst b, snd a ++ snd b).

(** ** Comma separated values: data_def_types_string.cpp 52-75 *)
Fixpoint comma_separated (valid : ascii -> bool) (last_valid : bool) (l : text) : bool :=
  match l with
  | [] => last_valid
  | c :: l' =>
    if c =c " " then comma_separated valid last_valid l'
    else if c =c "," then (if last_valid then comma_separated valid false l' else false)
    else if valid c then comma_separated valid true l' else false
  end.

(** ** The nominal values of the numeric types.  The loops are given one step per character; [None] would be
    a loop that has not ended by then. *)
Definition HF_num : numspec :=
  Num (fun c => (c =c ",") || (c =c "E")) (fun c => (c =c "U") || (c =c "+") || (c =c "-")).
Definition PZ_num : numspec := Num (fun c => c =c ",") (fun c => (c =c "+") || (c =c "-")).
Definition EDL_num : numspec :=
  Num (fun c => (c =c ",") || (c =c "E") || (c =c "R")) (fun c => (c =c "+") || (c =c "-")).

Definition back_is_comma (s : text) : bool := match rev s with c :: _ => c =c "," | [] => false end.

(** data_def_types_fixed_point.cpp 59-89 *)
Fixpoint HF_loop (fuel : nat) (nomv l : text) : option bool :=
  match l with
  | [] => Some (negb (back_is_comma nomv))
  | _ :: _ =>
    match fuel with
    | O => None
    | S f =>
      match check_number HF_num l with
      | None => Some false
      | Some [] => Some true
      | Some (c :: r) =>
        let rest := if c =c "E" then check_exponent r else Some (c :: r) in
        match rest with
        | None => Some false
        | Some [] => Some true
        | Some (c2 :: r2) => if c2 =c "," then HF_loop f nomv r2 else Some false
        end
      end
    end
  end.
Definition HF_nominal (s : text) : option bool :=
  match s with [] => Some false | _ => HF_loop (length s) s s end.

(** data_def_types_fixed_point.cpp 142-165 *)
Fixpoint PZ_loop (fuel : nat) (nomv l : text) : option bool :=
  match l with
  | [] => Some (negb (back_is_comma nomv))
  | _ :: _ =>
    match fuel with
    | O => None
    | S f =>
      match check_number PZ_num l with
      | None => Some false
      | Some r => PZ_loop f nomv (tl r)
      end
    end
  end.
Definition PZ_nominal (s : text) : option bool :=
  match s with [] => Some false | _ => PZ_loop (length s) s s end.

(** data_def_types_floating_point.cpp 44-48 *)
Definition allowed_round_modes (e : option ascii) : list text :=
  match e with
  | Some e =>
    if (e =c "B") || (e =c "H") then [["1"]; ["4"]; ["5"]; ["6"]; ["7"]]
    else if e =c "D" then
      [["8"]; ["9"]; ["1"; "0"]; ["1"; "1"]; ["1"; "2"]; ["1"; "3"]; ["1"; "4"]; ["1"; "5"]]
    else []
  | None => []
  end%char.
Fixpoint text_eqb (a b : text) : bool :=
  match a, b with
  | [], [] => true
  | x :: a', y :: b' => (x =c y) && text_eqb a' b'
  | _, _ => false
  end.
Fixpoint span_digits (l : text) : text * text :=
  match l with
  | c :: l' => if digit c then let (a, b) := span_digits l' in (c :: a, b) else ([], l)
  | [] => ([], [])
  end.

(** data_def_types_floating_point.cpp 60-126; the flag tells a wrong rounding mode from other errors *)
Inductive verdict := Good | BadValue | BadRound.
Fixpoint EDL_loop (fuel : nat) (e : option ascii) (l : text) : option verdict :=
  match l with
  | [] => Some Good
  | _ :: _ =>
    match fuel with
    | O => None
    | S f =>
      match check_number EDL_num l with
      | None => Some BadValue
      | Some r =>
        let ended := match r with c :: r' => if c =c "E" then (true, check_exponent r') else (false, Some r)
                                | [] => (false, Some r) end in
        match ended with
        | (_, None) => Some BadValue
        | (true, Some []) => Some Good
        | (_, Some r2) =>
          let rounded := match r2 with
                         | c :: r' => if c =c "R" then
                                        let (m, r3) := span_digits r' in
                                        if existsb (text_eqb m) (allowed_round_modes e) then Some r3 else None
                                      else Some r2
                         | [] => Some r2 end in
          match rounded with
          | None => Some BadRound
          | Some r3 =>
            match r3 with
            | c :: r4 => if c =c "," then EDL_loop f e r4 else Some BadValue
            | [] => Some Good
            end
          end
        end
      end
    end
  end.
Definition EDL_nominal (e : option ascii) (s : text) : option verdict :=
  match s with
  | [] => Some BadValue
  | _ => if back_is_comma s then Some BadValue else EDL_loop (length s) e s
  end.

(** ** The checks that each type adds *)

(** instr_operand.cpp 43-52 *)
Definition fits_signed (v size : Z) : bool := (v <? 2 ^ (size - 1)) && (- 2 ^ (size - 1) <=? v).
Definition fits_unsigned (v size : Z) : bool := (0 <=? v) && (v <=? 2 ^ size - 1).

(** data_def_types_address.cpp 36-84 *)
Definition is_symbolic (i : item) : bool :=
  match i with Expr _ ABS _ => false | Expr _ _ ig => negb ig | Address _ _ => false end.
Definition is_address (i : item) : bool := match i with Address _ _ => true | _ => false end.
Definition check_A_length (o : operand) (mna mxa mns mxs mnb mxb : Z) : res checked :=
  match len o with
  | None => Val ok
  | Some v =>
    match nom_value (nom o) with
    | NStr _ => Throw
    | NExprs l =>
      (* the loop stops at the first symbolic value; std::get throws at an address before it *)
      let fix scan l := match l with
                        | [] => Val true
                        | i :: l' => if is_address i then Throw else if is_symbolic i then Val false else scan l'
                        end in
      let! absolute := scan l in
      Val (if absolute then
             if bitlen o then (if (v <? mnb) || (mxb <? v) then bad D008 else ok)
             else (if (v <? mna) || (mxa <? v) then bad D008 else ok)
           else
             if bitlen o then bad D007
             else (if (v <? mns) || (mxs <? v) then bad D008 else ok))
    end
  end.

(** data_def_types_address.cpp 146-206 *)
Definition check_S_item (size : Z) (signed : bool) (i : item) : checked :=
  let fits v := if signed then fits_signed v size else fits_unsigned v size in
  match i with
  | Address (Some b) (Some d) => both (if fits d then ok else bad D022) (if fits_unsigned b 4 then ok else bad D023)
  | Address _ _ => ok
  | Expr v _ ig => if ig then ok else if fits v then ok else bad D022
  end.
Definition check_S (o : operand) (size : Z) (signed : bool) : res checked :=
  match nom_value (nom o) with
  | NStr _ => Throw
  | NExprs l => Val (fold_left (fun a i => both a (check_S_item size signed i)) l ok)
  end.

Definition odd_length (o : operand) : res checked :=
  match len o with Some v => Val (if Z.rem v 2 =? 1 then bad D014 else ok) | None => Val ok end.
Definition length_in (l : list Z) (d : diag) (o : operand) : res checked :=
  match len o with Some v => Val (if existsb (Z.eqb v) l then ok else bad d) | None => Val ok end.
(** a loop of the model that runs out of steps cannot happen (DD_Check); it is given the outcome [Undef] *)
Definition on_string (o : operand) (f : text -> option (option diag)) : res checked :=
  match nom_value (nom o) with
  | NStr s => match f s with Some None => Val ok | Some (Some d) => Val (bad d) | None => Undef end
  | NExprs _ => Throw
  end.
Definition d010 (b : option bool) : option (option diag) :=
  match b with Some true => Some None | Some false => Some (Some D010) | None => None end.

Definition check_type (t : dtype) (o : operand) (check_nominal : bool) : res checked :=
  match t with
  | B => if check_nominal then
           on_string o (fun s => d010 (Some (comma_separated (fun c => (c =c "0") || (c =c "1")) false s)))
         else Val ok
  | X => if check_nominal then on_string o (fun s => d010 (Some (comma_separated hex_digit false s))) else Val ok
  | C | CA | CE => Val ok
  | CU | G => odd_length o
  | H | F | FD => if check_nominal then on_string o (fun s => d010 (HF_nominal s)) else Val ok
  | P | Z_ => if check_nominal then on_string o (fun s => d010 (PZ_nominal s)) else Val ok
  | E | EH | ED | EB | D | DH | DD | DB | L | LH | LQ | LD | LB =>
    if check_nominal then
      on_string o (fun s => match EDL_nominal (ext o) s with
                            | Some Good => Some None | Some BadValue => Some (Some D010)
                            | Some BadRound => Some (Some D026) | None => None end)
    else Val ok
  | A => if check_nominal then check_A_length o 1 8 2 4 1 128 else Val ok
  | AD => if check_nominal then check_A_length o 1 8 2 8 1 128 else Val ok
  | Y => if check_nominal then check_A_length o 1 2 2 2 1 16 else Val ok
  | S_ => if check_nominal then check_S o 12 false else Val ok
  | SY => if check_nominal then check_S o 20 true else Val ok
  | RD | VD => length_in [3; 4; 8] D021 o
  | J | JD => length_in [2; 3; 4; 8] D024 o
  | R | V | Q | QD | QY => Val ok
  end.

(** ** The checks common to all types: data_def_type_base.cpp 121-336 *)
Inductive instr := DC_ | DS_.

Definition check_modifier (m : option Z) (s : spec) : checked :=
  match m, s with
  | None, _ | _, NoCheck => ok
  | Some _, Ignored => (true, [D025])
  | Some _, NA => bad D009
  | Some v, Bound mn mx => if (v <? mn) || (mx <? v) then bad D008 else ok
  end.
Definition check_dup (o : operand) : checked :=
  match dup o with Some v => if v <? 0 then bad D011 else ok | None => ok end.
Definition check_length (i : instr) (t : dtype) (o : operand) : checked :=
  let d := desc t in
  if bitlen o && match bit_spec d with NA => true | _ => false end then bad D007
  else check_modifier (len o) (match bitlen o, i with
                               | true, DC_ => bit_spec d | true, DS_ => ds_bit_spec d
                               | false, DC_ => len_spec d | false, DS_ => ds_len_spec d end).
(** whether all is well, and whether the nominal value is to be looked at *)
Definition check_nominal_present (i : instr) (o : operand) : checked * bool :=
  match i with
  | DC_ => match nom o with
           | Some _ => (ok, true)
           | None => if match dup o with Some v => v =? 0 | None => false end then (ok, false) else (bad D016, false)
           end
  | DS_ => (ok, match nom o with Some _ => true | None => false end)
  end.
Definition check_nominal_type (t : dtype) (o : operand) : checked :=
  match nom_t (desc t), nom_value (nom o) with
  | STRING, NStr _ => ok
  | STRING, NExprs _ => bad D018
  | EXPRESSIONS, NStr _ | ADDRESS_OR_EXPRESSION, NStr _ => bad D017
  | EXPRESSIONS, NExprs l =>
    let addresses := filter is_address l in (match addresses with [] => true | _ => false end, map (fun _ => D020) addresses)
  | ADDRESS_OR_EXPRESSION, NExprs _ => ok
  end.
Definition check_base (i : instr) (t : dtype) (o : operand) : checked * bool :=
  let c := both (both (both (check_dup o) (check_length i t o)) (check_modifier (scale o) (scale_spec (desc t))))
                (check_modifier (expo o) (exp_spec (desc t))) in
  let (present, check_nom) := check_nominal_present i o in
  let c := both c present in
  if check_nom then let nt := check_nominal_type t o in (both c nt, fst nt) else (c, false).

(** ** Lengths: data_def_type_base.cpp 346-408, get_nominal_length of the types *)
Fixpoint count (f : ascii -> bool) (l : text) : Z :=
  match l with [] => 0 | c :: l' => (if f c then 1 else 0) + count f l' end.
Definition size (l : text) : Z := Z.of_nat (length l).

(** data_def_types_string.cpp 25-41 *)
Fixpoint XB_length (frac length one : Z) (l : text) : Z :=
  match l with
  | [] => length + (one + frac - 1) / frac
  | c :: l' => if c =c "," then XB_length frac (length + (one + frac - 1) / frac) 0 l'
               else if negb (c =c " ") then XB_length frac length (one + 1) l'
               else XB_length frac length one l'
  end.
(** data_def_types_fixed_point.cpp 197-218 *)
Fixpoint P_length (bytes half : Z) (l : text) : Z :=
  match l with
  | [] => bytes + (half + 1) / 2
  | c :: l' => if c =c "," then P_length (bytes + (half + 1) / 2) 1 l'
               else if digit c then P_length bytes (half + 1) l' else P_length bytes half l'
  end.
Definition not_quote (c : ascii) : bool := negb (c =c "<") && negb (c =c ">").

(** [Val 0] for the types that do not override the function (assert(false) in a debug build) *)
Definition nominal_length (t : dtype) (n : option nominal) : res Z :=
  match t with
  | B | X | C | CA | CE | CU | G | P | Z_ =>
    match n with
    | None => Val (match t with CU | G => 2 | _ => 1 end)
    | Some (NExprs _) => Throw
    | Some (NStr s) =>
      Val (match t with
           | B => XB_length 8 0 0 s
           | X => XB_length 2 0 0 s
           | CU => 2 * size s
           | G => count not_quote s
           | P => P_length 0 1 s
           | Z_ => count digit s
           | _ => size s
           end)
    end
  | _ => Val 0
  end.

Definition values_in_nominal (t : ascii) (n : option nominal) : Z :=
  if (t =c "C") || (t =c "G") then 1
  else match nom_value n with NStr s => count (fun c => c =c ",") s + 1 | NExprs l => Z.of_nat (length l) end.

(** the length in bits *)
Definition get_length_of (t : dtype) (o : operand) : res Z :=
  let! bits :=
    match len o with
    | Some v => let b := u64 (values_in_nominal (typ o) (nom o) * v) in Val (if bitlen o then b else u64 (b * 8))
    | None =>
      match implicit_length (desc t) with
      | AsNeeded => let! n := nominal_length t (nom o) in Val (u64 (n * 8))
      | Fixed n => match nom o with
                   | None => Val (n * 8)
                   | Some _ => Val (u64 (values_in_nominal (typ o) (nom o) * n * 8))
                   end
      end
    end in
  Val (match dup o with Some d => u64 (bits * d) | None => bits end).
Definition get_length (o : operand) : res Z :=
  match access (typ o) (ext o) with Some t => get_length_of t o | None => Val 0 end.

(** context::alignment; [present] is whether a length modifier is present *)
Definition get_alignment (t : ascii) (e : option ascii) (present : bool) : Z :=
  match access t e with Some d => if present then 1 else boundary (desc d) | None => 1 end.

(** data_def_type_base.cpp 90-105 *)
Definition check_with (i : instr) (t : dtype) (o : operand) : res checked :=
  let (base, check_nom) := check_base i t o in
  let! c := check_type t o check_nom in
  let c := both base c in
  if negb (fst c) then Val c
  else let! n := get_length_of t o in
       Val (if 2 ^ 31 * 8 <=? n then both c (bad D028) else c).
(** data_definition_operand.h 93-103, data_definition_operand.cpp 25-44 *)
Definition check (i : instr) (o : operand) : res checked :=
  match access (typ o) (ext o) with
  | Some t => check_with i t o
  | None => match ext o with
            | Some _ => match access (typ o) None with Some _ => Val (bad D013) | None => Val (bad D012) end
            | None => Val (bad D012)
            end
  end.

Definition round_up (n m : Z) : Z := (n + m - 1) / m * m.
(** data_definition_operand.h 59-91: [None] when an operand is in error and the function gives 0 *)
Fixpoint operands_bits (i : instr) (bits : Z) (l : list operand) : res (option Z) :=
  match l with
  | [] => Val (Some bits)
  | o :: l' =>
    let! c := check i o in
    if negb (fst c) then Val None
    else
      let bits :=
        if bitlen o then bits
        else round_up (round_up bits 8)
                      (get_alignment (typ o) (ext o) (match len o with Some _ => true | None => false end) * 8) in
      let! n := get_length o in
      operands_bits i (u64 (bits + n)) l'
  end.
(** the length in bytes *)
Definition operands_length (i : instr) (l : list operand) : res Z :=
  let! bits := operands_bits i 0 l in
  Val (match bits with Some b => round_up b 8 / 8 | None => 0 end).

(** data_instruction.cpp 31-68; [None] is an operand that is not a data definition *)
Definition definitions (l : list (option operand)) : list operand :=
  flat_map (fun o => match o with Some o => [o] | None => [] end) l.
Fixpoint check_each (i : instr) (l : list (option operand)) : res checked :=
  match l with
  | [] => Val ok
  | o :: l' => let! c := match o with Some o => check i o | None => Val (bad A004) end in
               let! r := check_each i l' in Val (both c r)
  end.
Definition check_data (i : instr) (l : list (option operand)) : res checked :=
  match l with
  | [] => Val (bad A010)
  | _ =>
    let! c := check_each i l in
    if negb (fst c) then Val c
    else let! n := operands_length i (definitions l) in
         Val (if INT32_MAX <? n then both c (bad D029) else c)
  end.

(** ** Attributes *)

(** data_def_types_string.cpp 43-49 *)
Fixpoint up_to_comma (l : text) : text :=
  match l with [] => [] | c :: l' => if c =c "," then [] else c :: up_to_comma l' end.
Definition XB_length_attr (frac : Z) (s : text) : Z := (size (up_to_comma s) + frac - 1) / frac.
Definition nominal_length_attr (t : dtype) (n : option nominal) : res Z :=
  match t with
  | B | X | C | CA | CE | CU | G =>
    match n with
    | None => Val (match t with CU | G => 2 | _ => 1 end)
    | Some (NExprs _) => Val 0
    | Some (NStr s) =>
      Val (u32 (match t with
           | B => XB_length_attr 8 s
           | X => XB_length_attr 2 s
           | CU => 2 * size s
           | G => count not_quote s
           | _ => size s
           end))
    end
  | P | Z_ =>
    match n with
    | None => Val 1
    | Some (NExprs _) => Throw
    | Some (NStr s) =>
      let d := count digit (up_to_comma s) in
      Val (match t with P => u32 (1 + d + 1) / 2 | _ => u32 d end)
    end
  | _ => Val 0
  end.

(** data_def_type_base.cpp 410-427; the sum inside round_up is of signed integers *)
Definition get_length_attr (t : dtype) (o : operand) : res Z :=
  match len o with
  | Some v => if bitlen o then (if INT32_MAX <? v + 7 then Undef else Val (u32 (Z.quot (v + 7) 8 * 8) / 8))
              else Val (u32 v)
  | None => match implicit_length (desc t) with AsNeeded => nominal_length_attr t (nom o) | Fixed n => Val n end
  end.

(** data_def_types_fixed_point.cpp 167-187 *)
Fixpoint count_scale (counting : bool) (n : Z) (l : text) : Z :=
  match l with
  | [] => n
  | c :: l' => if c =c "," then n
               else if c =c "." then count_scale true n l'
               else count_scale counting (if counting then n + 1 else n) l'
  end.
Definition implicit_scale (t : dtype) (n : option nominal) : Z :=
  match t with
  | P | Z_ => match n with Some (NStr s) => i16 (count_scale false 0 s) | _ => 0 end
  | _ => 0
  end.
Definition get_scale_attr (t : dtype) (o : operand) : Z :=
  match scale o with Some v => v | None => implicit_scale t (nom o) end.

(** get_integer_attribute_impl of the types; computed in uint32_t *)
Definition integer_impl (t : dtype) (e : option ascii) (ln sc : Z) : Z :=
  match t with
  | H | F | FD => i32 (8 * ln - sc - 1)
  | P => i32 (2 * ln - sc - 1)
  | Z_ => i32 (ln - sc)
  | E | EH | D | DH | L | LH | LQ => if 8 <? ln then i32 (2 * (ln - 1) - sc - 2) else i32 (2 * (ln - 1) - sc)
  | _ => 0
  end.
Definition get_integer_attr (t : dtype) (o : operand) : res Z :=
  let! n := get_length_attr t o in Val (integer_impl t (ext o) n (get_scale_attr t o)).

(** data_definition_operand.cpp 64-90 *)
Definition length_attribute (o : operand) : res Z :=
  match access (typ o) (ext o) with Some t => get_length_attr t o | None => Val 0 end.
Definition scale_attribute (o : operand) : Z :=
  match access (typ o) (ext o) with Some t => get_scale_attr t o | None => 0 end.
Definition integer_attribute (o : operand) : res Z :=
  match access (typ o) (ext o) with Some t => get_integer_attr t o | None => Val 0 end.

(** expressions/data_definition.cpp 81-136 *)
Definition one_of (l : list ascii) (c : ascii) : bool := existsb (Ascii.eqb c) l.
Definition type_attribute (t : ascii) (length_given : bool) : ascii :=
  if one_of ["B"; "C"; "P"; "X"; "Z"]%char t then t
  else if t =c "G" then "@"%char
  else if negb length_given then
    if one_of ["A"; "J"]%char t then "A"%char
    else if one_of ["D"; "E"; "F"; "H"; "L"; "Q"; "S"; "V"; "Y"]%char t then t
    else if t =c "R" then "V"%char else "U"%char
  else
    if one_of ["F"; "H"]%char t then "G"%char
    else if one_of ["E"; "D"; "L"]%char t then "K"%char
    else if one_of ["A"; "S"; "Q"; "J"; "R"; "V"; "Y"]%char t then "R"%char
    else "U"%char.

(** ** A data definition as parsed, and its evaluation: expressions/data_definition.cpp 238-347 *)
Inductive outcome := Unresolved | IsAbs (v : Z) | IsReloc | IsComplex | IsUndef.
Inductive amount (Ex : Type) := Const (z : Z) | Exp (e : Ex).
Arguments Const {Ex} z. Arguments Exp {Ex} e.
Inductive pitem (Ex : Type) := PExpr (e : Ex) | PAddress (base displacement : Ex).
Arguments PExpr {Ex} e. Arguments PAddress {Ex} base displacement.
Inductive pnominal (Ex : Type) := PStr (s : text) | PExprs (l : list (pitem Ex)).
Arguments PStr {Ex} s. Arguments PExprs {Ex} l.
Record definition (Ex : Type) := Definition_ {
  d_dup : option (amount Ex); d_type : ascii; d_ext : option ascii; d_prog : option (amount Ex);
  d_len : option (amount Ex); d_bit : bool; d_scale : option (amount Ex); d_exp : option (amount Ex);
  d_nom : option (pnominal Ex)
}.
Arguments Definition_ {Ex}. Arguments d_dup {Ex}. Arguments d_type {Ex}. Arguments d_ext {Ex}. Arguments d_prog {Ex}.
Arguments d_len {Ex}. Arguments d_bit {Ex}. Arguments d_scale {Ex}. Arguments d_exp {Ex}. Arguments d_nom {Ex}.

Section Evaluation.
  Context {Ex : Type}.
  (** the outcome of evaluating an expression, and whether its evaluation reports an error
      (dependency_collector::has_error) *)
  Variable eval : Ex -> outcome.
  Variable has_error : Ex -> bool.

  Definition eval_amount (a : amount Ex) : outcome := match a with Const z => IsAbs z | Exp e => eval e end.
  Definition unresolved (a : option (amount Ex)) : bool :=
    match a with Some a => match eval_amount a with Unresolved => true | _ => false end | None => false end.
  (** set_data_def_field *)
  Definition value_of (r : outcome) : option Z :=
    match r with Unresolved => None | IsAbs v => Some v | _ => Some 0 end.
  Definition field (a : option (amount Ex)) : option Z :=
    match a with Some a => value_of (eval_amount a) | None => None end.
  Definition eval_item (i : pitem Ex) : item :=
    match i with
    | PExpr e =>
      match eval e with
      | IsAbs v => Expr v ABS (has_error e)
      | IsReloc => Expr 0 RELOC (has_error e)
      | IsComplex => Expr 0 COMPLEX (has_error e)
      | IsUndef | Unresolved => Expr 0 ABS true
      end
    | PAddress b d => Address (value_of (eval b)) (value_of (eval d))
    end.
  Definition eval_nominal (n : option (pnominal Ex)) : option nominal :=
    match n with
    | Some (PStr s) => Some (NStr s)
    | Some (PExprs l) => Some (NExprs (map eval_item l))
    | None => None
    end.
  (** semantics/operand_impls.cpp 544-560 *)
  Definition evaluate (d : definition Ex) : operand :=
    {| dup := field (d_dup d); typ := d_type d; ext := d_ext d; len := field (d_len d); bitlen := d_bit d;
       scale := match field (d_scale d) with Some v => Some (i16 v) | None => None end;
       expo := field (d_exp d); nom := eval_nominal (d_nom d) |}.

  (** expressions/data_definition.cpp 46-66 *)
  Definition item_unresolved (i : pitem Ex) : bool :=
    match i with
    | PExpr e => unresolved (Some (Exp e))
    | PAddress b d => unresolved (Some (Exp b)) || unresolved (Some (Exp d))
    end.
  Definition nominal_unresolved (n : option (pnominal Ex)) : bool :=
    match n with Some (PExprs l) => existsb item_unresolved l | _ => false end.
  Definition has_dependencies (d : definition Ex) : bool :=
    (negb (d_type d =c "V") && nominal_unresolved (d_nom d))
    || unresolved (d_dup d) || unresolved (d_len d) || unresolved (d_scale d) || unresolved (d_exp d).
  Definition has_length_dependencies (d : definition Ex) : bool := unresolved (d_dup d) || unresolved (d_len d).

  Definition given {T} (o : option T) : bool := match o with Some _ => true | None => false end.

  (** asm_processor.cpp 175-298.  An operand that is [None] is an empty one. *)
  Record attributes := Attr {
    a_type : ascii; a_length : option Z; a_scale : option Z; a_integer : Z   (* [None] is undefined *)
  }.
  Inductive storage := Known (n : Z) | Pending.
  Record effect := Effect {
    at_ : Z;                                (* where the statement begins *)
    symbol : option attributes;             (* the attributes its label gets *)
    reserved : storage;                     (* what it reserves, from there *)
    report : option checked                 (* the result of the checks; [None] when they wait for a symbol *)
  }.
  Definition all_definitions (l : list (option (definition Ex))) : list (definition Ex) :=
    flat_map (fun o => match o with Some o => [o] | None => [] end) l.
  (** data_def_postponed_statement.h 46-64 *)
  Definition statement_length (i : instr) (l : list (option (definition Ex))) : res Z :=
    let! n := operands_length i (map evaluate (all_definitions l)) in
    Val (if INT32_MAX <? n then 0 else n).
  Definition first_alignment (l : list (option (definition Ex))) : Z :=
    match l with Some d :: _ => get_alignment (d_type d) (d_ext d) (given (d_len d)) | _ => 1 end.
  Definition label_attributes (d : definition Ex) : res attributes :=
    let o := evaluate d in
    let! ln := if unresolved (d_len d) then Val None else let! n := length_attribute o in Val (Some n) in
    let! it := integer_attribute o in
    Val (Attr (type_attribute (d_type d) (given (d_len d)))
              (match ln with Some n => if n =? 2 ^ 32 - 1 then None else Some n | None => None end)
              (if given (d_scale d) && negb (unresolved (d_scale d)) && negb (scale_attribute o =? 2 ^ 15 - 1)
               then Some (scale_attribute o) else None)
              it).
  Definition process (i : instr) (labelled : bool) (ops : list (option (definition Ex))) (location : Z) : res effect :=
    let at_ := round_up location (first_alignment ops) in
    let defs := all_definitions ops in
    let dependent := existsb (fun d => negb (d_type d =c "V") && has_dependencies d) defs in
    let! sym := match labelled, ops with
                | true, Some d :: _ => let! a := label_attributes d in Val (Some a)
                | _, _ => Val None
                end in
    if dependent then
      let! st := if existsb has_length_dependencies defs then Val Pending
                 else let! n := statement_length i ops in Val (Known n) in
      (* lines 269-283: the first operand is looked at again *)
      match labelled, ops with
      | true, None :: _ => Undef
      | _, _ => Val (Effect at_ sym st None)
      end
    else
      let! n := statement_length i ops in
      let! c := check_data i (map (option_map evaluate) ops) in
      Val (Effect at_ sym (Known n) (Some c)).

  (** symbol_attributes.cpp 176-191: what L', S' and I' of the symbol are *)
  Definition L_of (a : attributes) : Z := match a_length a with Some n => n | None => 1 end.
  Definition S_of (a : attributes) : Z := match a_scale a with Some n => n | None => 0 end.
  Definition I_of (a : attributes) : Z := a_integer a.
End Evaluation.
