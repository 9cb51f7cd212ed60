(** Attribute references in conditional assembly: T', L', S', I', K', N', D' and O' of ordinary
    symbols and of variable symbols.

    Modelled code (parser_library/src/):
      expressions/conditional_assembly/terms/ca_symbol_attribute.cpp:26-43, 61-102, 129-316,
      context/ordinary_assembly/symbol_attributes.cpp:74-111, 149-191,
      context/hlasm_context.cpp:537-663 (get_attribute_value_ca, get_type_attr, get_opcode_attr),
      processing/context_manager.cpp:34-89 (get_var_sym_value), 99-161 (try_get_symbol_name,
      test_symbol_for_read),
      context/variables/macro_param.cpp:41-86, system_variable.cpp:25-65,
      expressions/conditional_assembly/terms/ca_constant.cpp:80-88 (through Ca_Model).

    Simplifications.  A variable symbol is given by its name and the values of its subscripts
    (their evaluation, and that of created names, is not modelled here).  What the context holds
    is given by functions ([env]).  A type attribute is kept as the character it is shown as
    (ebcdic_encoding::e2a of the stored byte).  The values of L', S' and I' are numbers of at most
    32 bits in the code; they are unbounded here.  Names are looked up in upper case
    (id_storage::add).  Reading the first character of an empty string (164) has undefined
    behaviour: the outcome [Bad]. *)
From Coq Require Import String List NArith ZArith Bool.
From Verif Require Import Common Var_Model Sub_Model Ca_Model.
Import ListNotations.
Open Scope Z_scope.

Inductive kind := T | L | S_ | I_ | K | N_ | D | O_.

(** symbol_attributes: [None] are the undef_ constants.  [o_dat]: the origin is DAT. *)
Record osym := { o_dat : bool; o_type : N; o_length : option Z; o_scale : option Z; o_integer : Z }.

(** symbol_attributes.cpp:80-84 *)
Definition is_ordinary (a : kind) : bool := match a with L | I_ | S_ | T => true | _ => false end.
(** 74-78 *)
Definition requires_ordinary (a : kind) : bool := match a with D | L | O_ | S_ | I_ => true | _ => false end.
(** 86-97, not for T *)
Definition default_value (a : kind) : Z := match a with L => 1 | _ => 0 end.
Definition U : bytes := [85%N].
(** 99-111 *)
Definition default_ca (a : kind) : val :=
  match a with T | O_ => VC U | L => VA 1 | _ => VA 0 end.
(** 149-164 *)
Definition is_defined (a : kind) (s : osym) : bool :=
  match a with
  | T => true
  | L => match o_length s with Some _ => true | None => false end
  | S_ => match o_scale s with Some _ => true | None => false end
  | I_ => match o_scale s, o_length s with Some _, Some _ => true | _, _ => false end
  | _ => false
  end.
(** 166-174 *)
Definition can_have_SI (s : osym) : bool :=
  o_dat s && existsb (N.eqb (o_type s)) [68; 69; 70; 71; 72; 75; 76; 80; 90]%N.
(** 176-191, not for T *)
Definition attribute_value (a : kind) (s : osym) : Z :=
  match a with
  | L => match o_length s with Some n => n | None => 1 end
  | S_ => match o_scale s with Some n => n | None => 0 end
  | I_ => o_integer s
  | _ => 0
  end.

(** A variable: a SET symbol, a macro parameter, or a system variable that is one (SYSLIST, SYSMAC). *)
Inductive var := VSet (s : sym) | VParam (d : data) | VSys (d : data).
(** instruction_map_ *)
Inductive instr := Assembler | Ca | Mnemonic | Machine.

Record env := {
  symbols : bytes -> option osym;      (* ord_ctx.get_symbol *)
  references : bytes -> option osym;   (* ord_ctx.get_symbol_reference: what lookaheads found *)
  variables : bytes -> option var;     (* get_var_sym *)
  macros : bytes -> bool;
  instructions : bytes -> option instr;
  library : bytes -> bool              (* lib_provider.has_library *)
}.

(** The codes; each is reported at the reference or at the variable symbol in it. *)
Inductive place := AtReference | AtVariable.
Inductive code := W013 | E066 | E065 | E010 | E012 | E013 | E020.
Definition diag := (code * place)%type.
Inductive out := Res (v : val) (ds : list diag) | Bad.

Definition char (c : N) : val := VC [c].

(** ** ca_symbol_attribute.cpp:175-236 *)
Definition get_ordsym (e : env) (n : bytes) : option osym :=
  match symbols e n with Some s => Some s | None => references e n end.
Definition retrieve_value (a : kind) (o : option osym) : val * list diag :=
  match a with
  | T => (match o with Some s => char (o_type s) | None => VC U end, [])
  | _ =>
      match o with
      | None => (VA (default_value a), [(W013, AtReference)])
      | Some s =>
          if match a with S_ | I_ => negb (can_have_SI s) | _ => false end
          then (VA (default_value a), [(E066, AtReference)])
          else if negb (is_defined a s) then (VA (default_value a), [(W013, AtReference)])
          else (VA (attribute_value a s), [])
      end
  end.
(** hlasm_context.cpp:634-663 *)
Definition get_opcode_attr (e : env) (n : bytes) : bytes :=
  if macros e n then [77%N]
  else match instructions e n with
       | Some Assembler | Some Ca => [65%N]
       | Some Mnemonic => [69%N]
       | Some Machine => [79%N]
       | None => U
       end.
Definition evaluate_ordsym (e : env) (a : kind) (n : bytes) : val * list diag :=
  if is_ordinary a then retrieve_value a (get_ordsym e n)
  else match a with
       | D => (VA (match symbols e n with Some _ => 1 | None => 0 end), [])
       | O_ => let t := get_opcode_attr e n in
               (VC (if bytes_eqb t U && library e n then [83%N] else t), [])
       | _ => (default_ca a, [(E066, AtReference)])
       end.

(** ** Macro parameters *)
Definition ith (d : data) (i : Z) : data :=
  match d with
  | Dummy => Dummy
  | Single _ => if i =? 0 then d else Dummy
  | Composite l => if i <? Z.of_nat (length l) then nth (Z.to_nat i) l Dummy else Dummy
  end.
(** macro_param.cpp:43-48; the subscripts are int, made size_t (ca_symbol_attribute.cpp:238-244). *)
Definition below (d : data) (subs : list Z) : data :=
  fold_left (fun d o => ith d (size_t (size_t o - 1))) subs d.
(** system_variable.cpp:31-41 *)
Definition sys_below (d : data) (subs : list Z) : data :=
  match subs with
  | [] => d
  | o :: r => below (ith d (size_t o)) r
  end.
Definition var_data (v : var) (subs : list Z) : data :=
  match v with VSet _ => Dummy | VParam d => below d subs | VSys d => sys_below d subs end.
(** N': set_symbol.h:114-117, macro_param.cpp:66-75, system_variable.cpp:43-52 *)
Definition var_number (v : var) (subs : list Z) : Z :=
  match v with
  | VSet s => Var_Model.number s
  | VParam d => as_int (Z.of_nat (Sub_Model.number (below d subs)))
  | VSys d =>
      match subs with
      | [] => as_int (Z.of_nat (Sub_Model.number d)) - 1
      | o :: r => as_int (Z.of_nat (Sub_Model.number (below d (size_t o + 1 :: r))))
      end
  end.
(** K': set_symbol.h:149-167, macro_param.cpp:77-86, system_variable.cpp:54-65 *)
Definition text_length (d : data) : Z := as_int (Z.of_nat (length (Sub_Model.get_value d))).
Definition var_count (to_string : Z -> bytes) (v : var) (subs : list Z) : Z :=
  match v with
  | VSet s => Var_Model.count to_string s subs
  | VParam d => text_length (below d subs)
  | VSys d => match subs with [] => text_length (ith d 1) | _ => text_length (sys_below d subs) end
  end.

(** ** context_manager.cpp *)
(** 143-158 *)
Fixpoint test_params (sys first : bool) (subs : list Z) : option code :=
  match subs with
  | [] => None
  | o :: r => if (o <? 1) && negb (sys && first && (o =? 0)) then Some E012 else test_params sys false r
  end.
(** 111-161; the code reported. *)
Definition test_for_read (v : var) (subs : list Z) : option code :=
  match v with
  | VSet s =>
      match subs with
      | _ :: _ :: _ => Some E020
      | [] => if s_scalar s then None else Some E013
      | [o] => if s_scalar s then Some E013 else if o <? 1 then Some E012 else None
      end
  | VParam _ => test_params false true subs
  | VSys _ => test_params true true subs
  end.
(** 34-89; [inl]: SET_t() and the code reported. *)
Definition var_value (v : option var) (subs : list Z) : code + val :=
  match v with
  | None => inl E010
  | Some v =>
      match test_for_read v subs with
      | Some c => inl c
      | None =>
          inr (match v with
               | VSet s => match subs with
                           | [] => Var_Model.get_value s
                           | o :: _ => get_value_at s (size_t (o - 1))
                           end
               | _ => VC (Sub_Model.get_value (var_data v subs))
               end)
      end
  end.
(** 99-109 *)
Definition valid_name (s : bytes) : bool :=
  match s with
  | [] => false
  | c :: _ => negb (63 <? Z.of_nat (length s)) && negb (is_digit c) && forallb ord_char s
  end.

(** ** try_extract_leading_symbol (ca_symbol_attribute.cpp:144-173) *)
(** 149-150, on the text and its reverse *)
Fixpoint pairs (s r : bytes) : nat :=
  match s, r with
  | 40%N :: s', 41%N :: r' => S (pairs s' r')
  | _, _ => O
  end.
(** 154-161; [best] is what follows the last qualifier seen. *)
Fixpoint unqualify (best s : bytes) : bytes :=
  match s with
  | [] => best
  | c :: r =>
      if (c =? 46)%N && match r with [] => false | _ => true end then unqualify r r
      else if ord_char c then unqualify best r
      else best
  end.
Definition delimiter (c : N) : bool := existsb (N.eqb c) [43; 45; 42; 47; 40; 41]%N.
(** 166-172 *)
Fixpoint cut (s : bytes) : bytes :=
  match s with
  | [] => []
  | c :: r => if delimiter c then [] else if ord_char c then c :: cut r else s
  end.
Definition extract (s : bytes) : option bytes :=
  let k := pairs s (rev s) in
  let s1 := skipn k (firstn (length s - k) s) in
  let s2 := unqualify s1 s1 in
  match s2 with
  | [] => None
  | c :: _ => Some (if is_digit c then s2 else cut s2)
  end.

(** ** hlasm_context::get_type_attr (hlasm_context.cpp:588-632); [None]: undefined behaviour *)
Fixpoint leftmost (d : data) : data :=
  match d with
  | Composite l => match l with d' :: _ => leftmost d' | [] => Dummy end
  | _ => d
  end.
Definition is_self_defining (s : bytes) : option bool :=
  match self_defining_term s with
  | Ca_Model.Ok _ => Some true
  | Ca_Model.Fail _ => Some false
  | Ca_Model.Bad => None
  end.
Definition type_of_text (e : env) (value : bytes) : option bytes :=
  match value with
  | [] => Some [79%N]
  | _ =>
      match extract value with
      | None => None
      | Some x =>
          match is_self_defining x with
          | None => None
          | Some true => Some [78%N]
          | Some false => Some (match symbols e (UPPER x) with Some s => [o_type s] | None => U end)
          end
      end
  end.
Definition get_type_attr (e : env) (v : var) (subs : list Z) : option bytes :=
  match v with
  | VSet s =>
      match s_type s with
      | TC =>
          let value := match subs with [] => Var_Model.get_value s | o :: _ => get_value_at s (size_t o) end in
          match value with VC t => type_of_text e t | _ => None end
      | _ => Some [78%N]
      end
  | _ => type_of_text e (Sub_Model.get_value (leftmost (var_data v subs)))
  end.

(** ** 246-316 *)
Definition quiet (a : kind) : bool := match a with O_ | T => true | _ => false end.
Definition evaluate_substituted (e : env) (a : kind) (v : option var) (subs : list Z) : out :=
  let fail c := Res (default_ca a) (if quiet a then [] else [(c, AtReference)]) in
  match var_value v subs with
  | inl c => Res (default_ca a) ((c, AtVariable) :: if quiet a then [] else [(E066, AtReference)])
  | inr (VC t) =>
      match extract t with
      | None => Bad
      | Some x =>
          if valid_name x then let (r, ds) := evaluate_ordsym e a (UPPER x) in Res r ds
          else fail E065
      end
  | inr _ => fail E066
  end.
Definition evaluate_varsym (to_string : Z -> bytes) (e : env) (a : kind) (n : bytes) (subs : list Z) : out :=
  match variables e n with
  | None => Res (default_ca a) [(E010, AtVariable)]
  | Some v =>
      match a with
      | T =>
          match test_for_read v subs with
          | Some c => Res (VC U) [(c, AtVariable)]
          | None =>
              match get_type_attr e v subs with
              | None => Bad
              | Some t => if bytes_eqb t U then evaluate_substituted e a (Some v) subs else Res (VC t) []
              end
          end
      | K =>
          match test_for_read v subs with
          | Some c => Res (default_ca a) [(c, AtVariable)]
          | None => Res (VA (var_count to_string v subs)) []
          end
      | N_ => Res (VA (var_number v subs)) []
      | _ => evaluate_substituted e a (Some v) subs
      end
  end.
Inductive reference := Name (n : bytes) | VarSym (n : bytes) (subs : list Z).
(** 129-142 *)
Definition evaluate (to_string : Z -> bytes) (e : env) (a : kind) (r : reference) : out :=
  match r with
  | Name n => let (v, ds) := evaluate_ordsym e a n in Res v ds
  | VarSym n subs => evaluate_varsym to_string e a n subs
  end.

(** ** get_undefined_attributed_symbols (61-102): the names a lookahead is started for.
    The subscripts themselves are taken to need none. *)
Definition unknown (e : env) (n : bytes) : list bytes :=
  match get_ordsym e n with Some _ => [] | None => [n] end.
Definition needs (e : env) (a : kind) (r : reference) : list bytes :=
  if negb (is_ordinary a) then []
  else match r with
       | Name n => unknown e n
       | VarSym n subs =>
           match var_value (variables e n) subs with
           | inr (VC t) => if valid_name t then unknown e (UPPER t) else []
           | _ => []
           end
       end.
