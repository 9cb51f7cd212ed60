(** Resolving and evaluating whole conditional assembly expressions:
    parser_library/src/expressions/conditional_assembly - ca_expression.cpp,
    ca_operator_unary.cpp, ca_operator_binary.cpp, ca_expr_policy.cpp and terms/.

    An expression is first resolved ([resolve_expression_tree(kind)]: the kind the context asks
    for is passed down and mismatches are reported) and later evaluated to a [SET_t], which
    carries a number, a truth value and a string together with the name of the one that counts;
    reading one of the other two is not an error.

    Simplifications:
    - single operators and functions are those of Ca_Model.v; the tree of a parenthesised list is
      given per kind, or its absence, since grouping is Grp_Model.v ([Lst]);
    - variable symbols, absolute symbols and attributes are read through oracles
      (Var_Model.v, Attr_Model.v); the symbol of an attribute has no expression in it here;
    - resolving sets [expr_kind] of some nodes; as it is silent only if every node got the kind
      its context asks for, evaluation is given the kind along the way ([want], [kind_after]);
    - duplication factors, substrings, subscripts and function parameters are resolved by the
      parser when it reads them (ca_expr_rules.g4:114,168,293,303-310); here this happens
      together with the resolution of the whole;
    - operands of an operator are evaluated from left to right;
    - ranges of diagnostics are left out. *)
From Coq Require Import List NArith ZArith Bool.
From Verif Require Import Common Ca_Model Grp_Model.
Import ListNotations.
Open Scope Z_scope.

(** What evaluation may report: the codes of Ca_Model.v and some more. [Rd n] stands for
    diagnostic [n] given when a variable symbol or an attribute is read. *)
Inductive xdiag := Ca (d : diag) | CE003 | CE005 | CE006 | CE012 | E065 | Rd (n : nat).

(** context/common_types.h:30-36,94-110 and common_types.cpp:35-68 [SET_t]. *)
Inductive ty := UNDEF | TYPE (k : kind).
Record SET_t := SET { a_value : Z; b_value : bool; c_value : bytes; type : ty }.
Definition SET_A (z : Z) : SET_t := SET z (negb (z =? 0)) [] (TYPE KA).
Definition SET_B (b : bool) : SET_t := SET (if b then 1 else 0) b [] (TYPE KB).
Definition SET_C (s : bytes) : SET_t := SET 0 false s (TYPE KC).
Definition SET_default (t : ty) : SET_t := SET 0 false [] t.
Definition with_type (v : SET_t) (t : ty) : SET_t := SET (a_value v) (b_value v) (c_value v) t.

(** ca_expr_policy.h: [ca_expr_funcs]. *)
Inductive func :=
  | fB2A | fC2A | fD2A | fDCLEN | fFIND | fINDEX | fISBIN | fISDEC | fISHEX | fISSYM | fX2A
  | fA2B | fA2C | fA2D | fA2X | fB2C | fB2D | fB2X | fBYTE | fC2B | fC2D | fC2X | fD2B | fD2C | fD2X
  | fDCVAL | fDEQUOTE | fDOUBLE | fESYM | fLOWER | fSIGNED | fSYSATTRA | fSYSATTRP | fUPPER
  | fX2B | fX2C | fX2D | fUNKNOWN.

Inductive basic := ADD | SUB | MUL | DIV | CONC.

(** The expressions. [Text], [Dot] and [VarSym] also are the points of a concatenation, in
    strings and in the names of created variable symbols; other expressions never are. *)
Inductive expr :=
  | Const (z : Z)
  | OrdSym (n : bytes)
  | VarSym (basic_name : option bytes) (created_name : list expr) (subscript : list expr)
  | Str (value : list expr) (dupl : option expr) (start count : option expr)
  | AttrRef (character : bool) (i : nat)                     (* T' and O' are characters *)
  | Fun (f : func) (parameters : list expr) (dupl : option expr)
  | Lst (as_A as_B as_C : option expr)
  | Un (o : op) (k : kind) (e : expr)
  | Plus (e : expr)
  | Minus (e : expr)
  | Par (e : expr)
  | Bas (o : basic) (l r : expr)
  | Bin (o : op) (k : kind) (l r : expr)
  | Text (s : bytes)
  | Dot.

Definition kind_eqb (a b : kind) : bool :=
  match a, b with KA, KA | KB, KB | KC, KC => true | _, _ => false end.

(** ** The policies: ca_expr_policy.cpp *)

(** 56-76 and 78-114. *)
Definition A_function (f : func) : bool :=
  match f with
  | fB2A | fC2A | fD2A | fDCLEN | fFIND | fINDEX | fISBIN | fISDEC | fISHEX | fISSYM | fX2A => true
  | _ => false
  end.
Definition C_function (f : func) : bool :=
  match f with
  | fA2B | fA2C | fA2D | fA2X | fB2C | fB2D | fB2X | fBYTE | fC2B | fC2D | fC2X | fD2B | fD2C | fD2X
  | fDCVAL | fDEQUOTE | fDOUBLE | fESYM | fLOWER | fSIGNED | fSYSATTRA | fSYSATTRP | fUPPER
  | fX2B | fX2C | fX2D => true
  | _ => false
  end.
(** 330-339 [get_function_type]; [None] is [UNDEF_TYPE]. *)
Definition get_function_type (f : func) : option kind :=
  if A_function f then Some KA else if C_function f then Some KC else None.
(** 166-213 [get_function_param_info]. *)
Definition get_function_param_info (f : func) (k : kind) : nat * option kind :=
  match k with
  | KA => match f with
          | fFIND | fINDEX => (2%nat, Some KC)
          | _ => if A_function f then (1%nat, Some KC) else (0%nat, None)
          end
  | KB => (0%nat, None)
  | KC => match f with
          | fA2B | fA2C | fA2D | fA2X | fBYTE | fSIGNED => (1%nat, Some KA)
          | fB2C | fB2D | fB2X | fC2B | fC2D | fC2X | fD2B | fD2C | fD2X | fDCVAL | fDEQUOTE | fDOUBLE
          | fESYM | fLOWER | fSYSATTRA | fSYSATTRP | fUPPER | fX2A | fX2B | fX2C | fX2D => (1%nat, Some KC)
          | _ => (0%nat, None)
          end
  end.
(** 215-258 [get_operands_type]; [is_operator] is that of Grp_Model.v. *)
Definition get_operands_type (o : op) (k : kind) : option kind :=
  match k with
  | KA => match o with
          | FIND_op | INDEX_op => Some KC
          | NOT | AND | OR | XOR | SLA | SLL | SRA | SRL => Some KA
          | _ => None
          end
  | KB => if is_operator KB o then Some KB else None
  | KC => match o with
          | BYTE_op | SIGNED_op => Some KA
          | DOUBLE_op | LOWER_op | UPPER_op => Some KC
          | _ => None
          end
  end.

(** ca_operator_binary.cpp:244-258 *)
Definition is_relational (o : op) : bool :=
  match o with EQ | NE | LE | LT | GE | GT => true | _ => false end.

(** [is_character_expression]: ca_string.cpp:64, ca_symbol_attribute.cpp:122-125,
    ca_operator_binary.cpp:57; false elsewhere. *)
Fixpoint is_character_expression (e : expr) : bool :=
  match e with
  | Str _ None _ _ => true
  | AttrRef c _ => c
  | Bas _ l _ => is_character_expression l
  | Bin _ _ l _ => is_character_expression l
  | _ => false
  end.

Definition basic_kind (o : basic) : kind := match o with CONC => KC | _ => KA end.

Definition CE4 : xdiag := Ca CE004.

(** ca_operator_binary.cpp:80-92: the kind the operands of a binary operator are resolved as. *)
Definition operands_kind (o : op) (k : kind) (l : expr) : option kind :=
  if is_relational o then Some (if is_character_expression l then KC else KA)
  else get_operands_type o k.

Definition opt {A} (f : A -> list xdiag) (o : option A) : list xdiag :=
  match o with Some x => f x | None => [] end.

(** ** [resolve_expression_tree]: the diagnostics. *)
Fixpoint resolve (k : kind) (e : expr) {struct e} : list xdiag :=
  match e with
  | Const _ | OrdSym _ => if kind_eqb k KC then [CE4] else []      (* ca_constant.cpp:29-33, ca_symbol.cpp:29-33 *)
  | VarSym _ nm sub =>                                        (* ca_var_sym.cpp:58-62; the parser *)
      flat_map (resolve KA) nm ++ flat_map (resolve KA) sub
  | Str v d st cn =>                                          (* ca_string.cpp:48-52; the parser *)
      flat_map (resolve KA) v ++
      (match d with Some x => resolve KA x | None => [] end) ++
      (match st with Some x => resolve KA x | None => [] end) ++
      (match cn with Some x => resolve KA x | None => [] end) ++
      (if kind_eqb KC k then [] else [CE4])
  | AttrRef c _ => if kind_eqb k KC && negb c then [CE4] else []   (* ca_symbol_attribute.cpp:104-110 *)
  | Fun f ps d =>                                             (* ca_function.cpp:59-77 *)
      (match d with Some x => resolve KA x | None => [] end) ++
      match get_function_type f with
      | None => [CE4]
      | Some fk =>
          if negb (kind_eqb k fk) then [CE4]
          else if (match d with Some _ => true | None => false end) && negb (kind_eqb fk KC) then [CE005]
          else
            let (n, pk) := get_function_param_info f fk in
            if negb (Nat.eqb (length ps) n) then [CE006]
            else match pk with Some q => flat_map (resolve q) ps | None => [] end
      end
  | Lst ta tb tc =>                                           (* ca_expr_list.cpp:45-60 *)
      match (match k with KA => ta | KB => tb | KC => tc end) with
      | None => [CE003]
      | Some t => resolve k t
      end
  | Un o k' x =>                                              (* ca_operator_unary.cpp:62-68 *)
      if negb (kind_eqb k' k) then [CE4]
      else match get_operands_type o k with Some q => resolve q x | None => [] end
  | Plus x | Minus x =>                                       (* 36-42 *)
      if negb (kind_eqb KA k) then [CE4] else resolve k x
  | Par x => resolve k x                                      (* 124-128 *)
  | Bas o l r =>                                              (* ca_operator_binary.cpp:40-49 *)
      if negb (kind_eqb (basic_kind o) k) then [CE4] else resolve k l ++ resolve k r
  | Bin o k' l r =>                                           (* 78-100 *)
      if negb (kind_eqb k' k) then [CE4]
      else if (match o with FIND_op | INDEX_op => true | _ => false end) && negb (is_character_expression l)
      then [CE4]
      else match operands_kind o k l with
           | Some q => resolve q l ++ resolve q r
           | None => []
           end
  | Text _ | Dot => []
  end.

(** [expr_kind] of an expression resolved as [k]. *)
Fixpoint kind_after (k : kind) (e : expr) : option kind :=
  match e with
  | Const _ | OrdSym _ => Some KA
  | VarSym _ _ _ => Some k
  | Str _ _ _ _ => Some KC
  | AttrRef c _ => Some (if c then KC else KA)
  | Fun f _ _ => get_function_type f
  | Lst _ _ _ => Some k
  | Un _ k' _ => Some k'
  | Plus _ | Minus _ => Some KA
  | Par x => kind_after k x
  | Bas o _ _ => Some (basic_kind o)
  | Bin _ k' _ _ => Some k'
  | Text _ | Dot => None
  end.

(** ** Evaluation: a value and diagnostics, or undefined behaviour ([None]). *)
Definition M (A : Type) : Type := option (A * list xdiag).
Definition ret {A} (x : A) : M A := Some (x, []).
Definition report {A} (x : A) (d : xdiag) : M A := Some (x, [d]).
Definition bind {A B} (m : M A) (f : A -> M B) : M B :=
  match m with
  | None => None
  | Some (x, ds) => match f x with None => None | Some (y, es) => Some (y, ds ++ es) end
  end.
Definition lift {A B} (f : A -> B) (default : B) (o : out A) : M B :=
  match o with Ok v => ret (f v) | Fail d => report default (Ca d) | Bad => None end.

(** What a function computes, and from what: [access_a] or [access_c] of its parameters
    (ca_function.cpp:88-199). *)
Inductive sem :=
  | N_C (g : bytes -> out Z)
  | N_CC (g : bytes -> bytes -> Z)
  | C_N (g : Z -> out bytes)
  | C_C (g : bytes -> out bytes).
Definition implementation (f : func) : option sem :=
  match f with
  | fB2A => Some (N_C B2A) | fC2A => Some (N_C C2A) | fD2A => Some (N_C D2A)
  | fDCLEN => Some (N_C (fun s => Ok (DCLEN s)))
  | fFIND => Some (N_CC FIND) | fINDEX => Some (N_CC INDEX)
  | fISBIN => Some (N_C ISBIN) | fISDEC => Some (N_C ISDEC) | fISHEX => Some (N_C ISHEX)
  | fISSYM => Some (N_C ISSYM) | fX2A => Some (N_C X2A)
  | fA2B => Some (C_N (fun n => Ok (A2B n))) | fA2C => Some (C_N (fun n => Ok (A2C n)))
  | fA2D => Some (C_N (fun n => Ok (A2D n))) | fA2X => Some (C_N (fun n => Ok (A2X n)))
  | fB2C => Some (C_C B2C) | fB2D => Some (C_C B2D) | fB2X => Some (C_C B2X)
  | fBYTE => Some (C_N BYTE)
  | fC2B => Some (C_C C2B) | fC2D => Some (C_C C2D) | fC2X => Some (C_C C2X)
  | fD2B => Some (C_C D2B) | fD2C => Some (C_C D2C) | fD2X => Some (C_C D2X)
  | fDCVAL => Some (C_C (fun s => Ok (DCVAL s))) | fDEQUOTE => Some (C_C (fun s => Ok (DEQUOTE s)))
  | fDOUBLE => Some (C_C DOUBLE)
  | fESYM => Some (C_C (fun _ => Ok [])) | fLOWER => Some (C_C (fun s => Ok (LOWER s)))
  | fSIGNED => Some (C_N (fun n => Ok (SIGNED n)))
  | fSYSATTRA => Some (C_C (fun _ => Ok [])) | fSYSATTRP => Some (C_C (fun _ => Ok []))
  | fUPPER => Some (C_C (fun s => Ok (UPPER s)))
  | fX2B => Some (C_C X2B) | fX2C => Some (C_C X2C) | fX2D => Some (C_C X2D)
  | fUNKNOWN => None
  end.

(** ca_operator_unary.cpp:70-106 *)
Definition unary_operation (o : op) (k : kind) (v : SET_t) : M SET_t :=
  match k, o with
  | KA, NOT => ret (SET_A (bitwise_not (a_value v)))
  | KB, NOT => ret (SET_B (negb (b_value v)))
  | KC, BYTE_op => lift SET_C (SET_default UNDEF) (BYTE (a_value v))
  | KC, DOUBLE_op => lift SET_C (SET_default UNDEF) (DOUBLE (c_value v))
  | KC, LOWER_op => ret (SET_C (LOWER (c_value v)))
  | KC, SIGNED_op => ret (SET_C (SIGNED (a_value v)))
  | KC, UPPER_op => ret (SET_C (UPPER (c_value v)))
  | _, _ => ret (SET_default (TYPE k))
  end.

(** ca_operator_binary.cpp:230-242 [compare_relational] *)
Definition compare_relational (x y : SET_t) (t : option kind) : M Z :=
  match t with
  | Some KA => lift (fun c => c) 0 (compare_a (a_value x) (a_value y))
  | Some KC => lift (fun c => c) 0 (compare_string (c_value x) (c_value y))
  | _ => ret 0
  end.
(** 155-218 *)
Definition binary_operation (o : op) (k : kind) (left_kind : option kind) (x y : SET_t) : M SET_t :=
  match k with
  | KA =>
      match o with
      | SLA | SLL | SRA | SRL => ret (SET_A (shift_operands (a_value x) (a_value y) o))
      | FIND_op => ret (SET_A (FIND (c_value x) (c_value y)))
      | INDEX_op => ret (SET_A (INDEX (c_value x) (c_value y)))
      | AND | OR | XOR => ret (SET_A (bitwise o (a_value x) (a_value y)))
      | _ => ret (SET_default (TYPE KA))
      end
  | KB =>
      if is_relational o then
        bind (compare_relational x y left_kind) (fun comp => ret (SET_B (relation o comp)))
      else match o with
           | AND | OR | XOR | AND_NOT | OR_NOT | XOR_NOT => ret (SET_B (boolean o (b_value x) (b_value y)))
           | _ => ret (SET_default (TYPE KB))
           end
  | KC => ret (SET_default (TYPE KC))
  end.
(** 276-314 *)
Definition basic_operation (o : basic) (x y : SET_t) : M SET_t :=
  match o with
  | ADD => lift SET_A (SET_A 0) (ca_add (a_value x) (a_value y))
  | SUB => lift SET_A (SET_A 0) (ca_sub (a_value x) (a_value y))
  | MUL => lift SET_A (SET_A 0) (ca_mul (a_value x) (a_value y))
  | DIV => lift SET_A (SET_A 0) (ca_div (a_value x) (a_value y))
  | CONC => lift (fun s => SET (a_value x) (b_value x) s (type x)) (SET_C []) (ca_conc (c_value x) (c_value y))
  end.

(** ca_var_sym.cpp:77-111 [convert_return_types] *)
Definition convert_variable (v : SET_t) (k : kind) : M SET_t :=
  match type v with
  | TYPE KC =>
      match k with
      | KA => match c_value v with
              | [] => ret (SET_A 0)
              | s => lift SET_A (SET_A 0) (self_defining_term s)
              end
      | KB => lift SET_A (SET_A 0) (self_defining_term (c_value v))
      | KC => ret v
      end
  | TYPE KB => ret (if kind_eqb k KA then with_type v (TYPE KA) else v)
  | TYPE KA => ret (if kind_eqb k KB then with_type v (TYPE KB) else v)
  | UNDEF => ret v
  end.

(** ca_expression.cpp:26-39 [convert_return_types]; [expr_kind] gives the default. *)
Definition convert_return_types (v : SET_t) (k : kind) (expr_kind : option kind) : M SET_t :=
  match type v with
  | TYPE t =>
      if kind_eqb k t then ret v
      else if kind_eqb t KA && kind_eqb k KB && ((a_value v =? 0) || (a_value v =? 1))
      then ret (SET_B (a_value v =? 1))
      else report (SET_default (match expr_kind with Some q => TYPE q | None => UNDEF end)) CE4
  | UNDEF => report (SET_default (match expr_kind with Some q => TYPE q | None => UNDEF end)) CE4
  end.

(** semantics/concatenation_term.cpp:41-55: a variable symbol in a concatenation;
    [std::abs(INT_MIN)] is undefined. *)
Definition var_text (v : SET_t) : M bytes :=
  match type v with
  | TYPE KA => if a_value v =? INT_MIN then None else ret (to_string (Z.abs (a_value v)))
  | TYPE KB => ret (if b_value v then [49%N] else [48%N])
  | TYPE KC => ret (c_value v)
  | UNDEF => ret []
  end.

(** processing/context_manager.cpp:91-109: the name of a created symbol. *)
Definition valid_name (s : bytes) : bool :=
  match s with
  | [] => false
  | c :: _ => negb ((size s >? 63) || is_digit c) && forallb ord_char s
  end.
Definition get_symbol_name (s : bytes) : M bytes :=
  if valid_name s then ret s else report [] E065.

(** semantics/concatenation.cpp:57-88 [concatenation_point::evaluate]: a dot after a variable
    symbol is not part of the value. *)
Definition concatenate (f : expr -> M bytes) : bool -> list expr -> M bytes :=
  fix go (was_var : bool) (l : list expr) : M bytes :=
    match l with
    | [] => ret []
    | p :: r =>
        match p with
        | Dot => if was_var then go false r else bind (go false r) (fun t => ret (46%N :: t))
        | VarSym _ _ _ => bind (f p) (fun s => bind (go true r) (fun t => ret (s ++ t)))
        | Text s => bind (go false r) (fun t => ret (s ++ t))
        | _ => go was_var r
        end
    end.

Fixpoint sequence {A} (l : list (M A)) : M (list A) :=
  match l with
  | [] => ret []
  | m :: r => bind m (fun x => bind (sequence r) (fun xs => ret (x :: xs)))
  end.

(** What reading gives: a value of the type the symbol has, or a diagnostic. *)
Inductive val := VNum (z : Z) | VBool (b : bool) | VChar (s : bytes).
Record world := World {
  variable : bytes -> list Z -> val + nat;             (* context_manager.cpp:34-89 *)
  absolute : bytes -> option Z;                        (* ca_symbol.cpp:44-56 *)
  num_attribute : nat -> Z + nat;                      (* ca_symbol_attribute.cpp *)
  char_attribute : nat -> bytes + nat }.

Definition SET_of (v : val) : SET_t :=
  match v with VNum z => SET_A z | VBool b => SET_B b | VChar s => SET_C s end.

(** The kind an expression was resolved as; [Raw] is the bare value of a variable symbol in a
    concatenation. *)
Inductive want := Raw | As (k : kind).

Definition a_of (m : M SET_t) : M Z := bind m (fun v => ret (a_value v)).

Section Evaluate.
Variable w : world.

(** ca_string.cpp:107-138 [duplicate] *)
Definition duplicated (factor : option (M Z)) (s : bytes) : M bytes :=
  match factor with
  | None => ret s
  | Some m => bind m (fun n => lift (fun r => r) [] (duplicate n s))
  end.

Fixpoint evaluate (want_ : want) (e : expr) {struct e} : M SET_t :=
  match e with
  | Const z => ret (SET_A z)                                            (* ca_constant.cpp:44 *)
  | OrdSym n =>                                                         (* ca_symbol.cpp:44-56 *)
      match absolute w n with Some z => ret (SET_A z) | None => report (SET_A 0) CE012 end
  | VarSym basic_name created subscript =>
      (* variable_symbol.cpp:26,36-43: the name *)
      bind (match basic_name with
            | Some n => ret n
            | None => bind (concatenate (fun p => bind (evaluate Raw p) var_text) false created) get_symbol_name
            end) (fun n =>
      (* 66-77: the subscripts, by evaluate<A_t> *)
      bind (sequence (map (fun x => bind (evaluate (As KA) x) (fun v =>
                                    a_of (convert_return_types v KA (kind_after KA x)))) subscript)) (fun zs =>
      (* 79-88 *)
      bind (match variable w n zs with
            | inl v => ret (SET_of v)
            | inr d => report (SET_default UNDEF) (Rd d)
            end) (fun v =>
      match want_ with
      | Raw => ret v                                                    (* concatenation_term.cpp:34-39 *)
      | As k => convert_variable v k                                    (* ca_var_sym.cpp:72-75 *)
      end)))
  | Str value dupl start count =>                                       (* ca_string.cpp:68-105 *)
      bind (concatenate (fun p => bind (evaluate Raw p) var_text) false value) (fun s =>
      if size s >? MAX_STR_SIZE then report (SET_C []) (Ca CE011)
      else
        let dup := match dupl with Some x => Some (a_of (evaluate (As KA) x)) | None => None end in
        match start with
        | None => bind (duplicated dup s) (fun r => ret (SET_C r))
        | Some x =>
            bind (a_of (evaluate (As KA) x)) (fun st =>
            bind (match count with
                  | Some y => bind (a_of (evaluate (As KA) y)) (fun n => ret (Some n))
                  | None => ret None
                  end) (fun n =>
            match substring s st n with
            | Ok r => bind (duplicated dup r) (fun r' => ret (SET_C r'))
            | Fail d => report (SET_C []) (Ca d)
            | Bad => None
            end))
        end)
  | AttrRef c i =>
      if c then match char_attribute w i with inl s => ret (SET_C s) | inr d => report (SET_C []) (Rd d) end
      else match num_attribute w i with inl z => ret (SET_A z) | inr d => report (SET_A 0) (Rd d) end
  | Fun f ps dupl =>                                                    (* ca_function.cpp:88-199 *)
      let pk := match get_function_type f with
                | Some fk => match snd (get_function_param_info f fk) with Some q => As q | None => Raw end
                | None => Raw
                end in
      let dup := match dupl with Some x => Some (a_of (evaluate (As KA) x)) | None => None end in
      match implementation f, map (evaluate pk) ps with
      | Some (N_C g), p :: _ =>
          bind p (fun v => lift SET_A (SET_default UNDEF) (g (c_value v)))
      | Some (N_CC g), p :: q :: _ =>
          bind p (fun v => bind q (fun u => ret (SET_A (g (c_value v) (c_value u)))))
      | Some (C_N g), p :: _ =>
          bind p (fun v => bind (lift (fun s => s) [] (g (a_value v))) (fun s =>
          bind (duplicated dup s) (fun r => ret (SET_C r))))
      | Some (C_C g), p :: _ =>
          bind p (fun v => bind (lift (fun s => s) [] (g (c_value v))) (fun s =>
          bind (duplicated dup s) (fun r => ret (SET_C r))))
      | None, _ => ret (SET_default UNDEF)                              (* 195-196 *)
      | _, _ => None                                                    (* a parameter that is not there *)
      end
  | Lst ta tb tc =>                                                     (* ca_expr_list.cpp:72-79 *)
      match want_ with
      | Raw => ret (SET_default UNDEF)
      | As k =>
          match (match k with KA => ta | KB => tb | KC => tc end) with
          | Some t => evaluate (As k) t
          | None => ret (SET_default (TYPE k))
          end
      end
  | Un o k x =>
      bind (match get_operands_type o k with Some q => evaluate (As q) x | None => evaluate Raw x end)
           (unary_operation o k)
  | Plus x => bind (evaluate (As KA) x) (fun v => lift SET_A (SET_A 0) (ca_plus (a_value v)))   (* ca_operator_unary.cpp:108-116 *)
  | Minus x => bind (evaluate (As KA) x) (fun v => lift SET_A (SET_A 0) (ca_minus (a_value v)))
  | Par x => evaluate want_ x
  | Bas o l r =>                                                        (* ca_operator_binary.cpp:65-68 *)
      bind (evaluate (As (basic_kind o)) l) (fun x => bind (evaluate (As (basic_kind o)) r) (fun y =>
      basic_operation o x y))
  | Bin o k l r =>
      let q := match operands_kind o k l with Some q => As q | None => Raw end in
      bind (evaluate q l) (fun x => bind (evaluate q r) (fun y =>
      binary_operation o k (match q with As t => kind_after t l | Raw => None end) x y))
  | Text _ | Dot => ret (SET_default UNDEF)
  end.

(** ca_expression.h:66-80 [evaluate<T>], by which instructions read their operands. *)
Definition evaluate_as (k : kind) (e : expr) : M SET_t :=
  bind (evaluate (As k) e) (fun v => convert_return_types v k (kind_after k e)).

End Evaluate.
