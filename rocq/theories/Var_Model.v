(** Variable symbols: SET symbols and arrays, local and global declarations, scopes.

    Modelled: context/variables/set_symbol.h; create_global_variable, create_local_variable
    (context/hlasm_context.h:206-243); get_var_sym, enter_macro, leave_macro,
    add_system_vars_to_scope, add_global_system_vars (context/hlasm_context.cpp:57-247, 424-442,
    705-720); process_SET, process_GBL_LCL, test_symbol_for_assignment, prepare_* of
    processing/instruction_sets/ca_processor.{h,cpp}; get_var_sym_value and
    test_symbol_for_read of processing/context_manager.cpp.

    Not modelled: the grammar of operand expressions (they are arbitrary procedures that read
    variable symbols; subscripts are the values they evaluate to), the values of macro parameters (only whether a
    name is one), sequence symbols on the statements, names created from text (a name that is not valid is the empty name and is
    then treated like any other), and memory management: shared pointers are addresses in a
    heap that is never freed. *)
From Coq Require Import List NArith ZArith Bool.
From Verif Require Import Common.
Import ListNotations.
Open Scope Z_scope.

Definition name := bytes.

(** common_types.h:23-90 *)
Inductive ty := TA | TB | TC.
Inductive val := VA (n : Z) | VB (b : bool) | VC (s : bytes).
Definition default_v (t : ty) : val :=
  match t with TA => VA 0 | TB => VB false | TC => VC [] end.
Definition ty_eqb (a b : ty) : bool :=
  match a, b with TA, TA | TB, TB | TC, TC => true | _, _ => false end.

(** ** set_symbol.h *)
(** [std::map<size_t, T>]: pairs in the order of their keys. *)
Definition map := list (Z * val).
Fixpoint insert_or_assign (k : Z) (v : val) (m : map) : map :=
  match m with
  | [] => [(k, v)]
  | (k', v') :: m' =>
      if k <? k' then (k, v) :: m
      else if k =? k' then (k, v) :: m'
      else (k', v') :: insert_or_assign k v m'
  end.
Fixpoint find (k : Z) (m : map) : option val :=
  match m with
  | [] => None
  | (k', v) :: m' => if k =? k' then Some v else find k m'
  end.
Fixpoint rbegin (m : map) : option Z :=
  match m with
  | [] => None
  | [(k, _)] => Some k
  | _ :: m' => rbegin m'
  end.

(** 60-73; [is_global] is recorded but nothing here reads it. *)
Record sym := { s_type : ty; s_scalar : bool; s_data : map }.
Definition new_sym (t : ty) (scalar : bool) : sym := {| s_type := t; s_scalar := scalar; s_data := [] |}.

Definition size_t (z : Z) : Z := z mod 2 ^ 64.
(** (A_t) of a size_t *)
Definition as_int (z : Z) : Z := let r := z mod 2 ^ 32 in if r <? 2 ^ 31 then r else r - 2 ^ 32.

(** 77-86 *)
Definition get_value_at (s : sym) (idx : Z) : val :=
  if s_scalar s then default_v (s_type s)
  else match find idx (s_data s) with Some v => v | None => default_v (s_type s) end.
(** 89-98 *)
Definition get_value (s : sym) : val :=
  if negb (s_scalar s) then default_v (s_type s)
  else match find 0 (s_data s) with Some v => v | None => default_v (s_type s) end.
(** 105-111; 101 is the scalar case. *)
Definition set_value (s : sym) (v : val) (idx : Z) : sym :=
  {| s_type := s_type s; s_scalar := s_scalar s;
     s_data := insert_or_assign (if s_scalar s then 0 else idx) v (s_data s) |}.
(** 114-117 *)
Definition number (s : sym) : Z :=
  if s_scalar s then 0 else match rbegin (s_data s) with Some k => as_int (k + 1) | None => 0 end.
(** 134-145 *)
Definition get_data (s : sym) (offset : list Z) : option val :=
  match s_scalar s, offset with
  | true, [] => find 0 (s_data s)
  | false, [o] => find (size_t (size_t o - 1)) (s_data s)
  | _, _ => None
  end.
(** 149-167 *)
Definition count (to_string : Z -> bytes) (s : sym) (offset : list Z) : Z :=
  match s_type s, get_data s offset with
  | TA, Some (VA n) => Z.of_nat (length (to_string n))
  | TA, _ => 1
  | TB, _ => 1
  | TC, Some (VC t) => as_int (Z.of_nat (length t))
  | TC, _ => 0
  end.

(** ** Contexts *)
Definition addr := nat.
Definition table := list (name * addr).
Fixpoint lookup (n : name) (t : table) : option addr :=
  match t with
  | [] => None
  | (m, a) :: t' => if bytes_eqb n m then Some a else lookup n t'
  end.
(** [unordered_map::insert]: an existing entry stays. *)
Definition insert (n : name) (a : addr) (t : table) : table :=
  match lookup n t with Some _ => t | None => (n, a) :: t end.

(** code_scope.h:26-59.  [params]: the names in [system_variables] (SYSMAC) and in
    [this_macro->named_params]. *)
Record scope := { variables : table; params : list name }.
(** The scopes, the current one first; [scope_stack_] is never empty. *)
Record ctx := { heap : list sym; globals : table; current : scope; outer : list scope; SYSNDX_ : N }.

Definition scopes (c : ctx) : list scope := current c :: outer c.
Definition is_in_macro (c : ctx) : bool := match outer c with [] => false | _ => true end.

Fixpoint set_nth {A} (n : nat) (x : A) (l : list A) : list A :=
  match l, n with
  | [], _ => []
  | _ :: l', O => x :: l'
  | y :: l', S n' => y :: set_nth n' x l'
  end.

(** A new object in the heap, in the current scope's table and perhaps in the globals. *)
Definition make_shared (s : sym) (c : ctx) : addr * ctx :=
  (length (heap c),
   {| heap := heap c ++ [s]; globals := globals c; current := current c; outer := outer c; SYSNDX_ := SYSNDX_ c |}).
Definition insert_variable (n : name) (a : addr) (c : ctx) : ctx :=
  {| heap := heap c; globals := globals c;
     current := {| variables := insert n a (variables (current c)); params := params (current c) |};
     outer := outer c; SYSNDX_ := SYSNDX_ c |}.
Definition insert_global (n : name) (a : addr) (c : ctx) : ctx :=
  {| heap := heap c; globals := insert n a (globals c); current := current c; outer := outer c; SYSNDX_ := SYSNDX_ c |}.
Definition store (a : addr) (s : sym) (c : ctx) : ctx :=
  {| heap := set_nth a s (heap c); globals := globals c; current := current c; outer := outer c; SYSNDX_ := SYSNDX_ c |}.

(** hlasm_context.h:206-227 *)
Definition create_global_variable (t : ty) (n : name) (scalar : bool) (c : ctx) : addr * ctx :=
  match lookup n (variables (current c)) with
  | Some a => (a, c)
  | None =>
      match lookup n (globals c) with
      | Some a => (a, insert_variable n a c)
      | None => let (a, c') := make_shared (new_sym t scalar) c in
                (a, insert_variable n a (insert_global n a c'))
      end
  end.
(** 230-243 *)
Definition create_local_variable (t : ty) (n : name) (scalar : bool) (c : ctx) : addr * ctx :=
  match lookup n (variables (current c)) with
  | Some a => (a, c)
  | None => let (a, c') := make_shared (new_sym t scalar) c in (a, insert_variable n a c')
  end.

(** hlasm_context.cpp:424-442 *)
Inductive var_kind := SetSymbol (a : addr) | MacroParam.
Definition get_var_sym (n : name) (c : ctx) : option var_kind :=
  match lookup n (variables (current c)) with
  | Some a => Some (SetSymbol a)
  | None => if existsb (bytes_eqb n) (params (current c)) then Some MacroParam else None
  end.
Definition deref (a : addr) (c : ctx) : sym := nth a (heap c) (new_sym TA true).

(** ** Diagnostics *)
Inductive vdiag := E010 | E012_subscript | E012_operand | E013_type | E013_subscript | E020 | E022 | E030 | E051 | E052.

(** ca_processor.cpp:92-147.  The result: the diagnostic, or the index (-1 without subscript)
    and the symbol if there is one. *)
Definition test_symbol_for_assignment (t : ty) (n : name) (subscript : list Z) (c : ctx)
  : vdiag + (Z * option addr) :=
  match get_var_sym n c with
  | Some MacroParam => inl E030
  | v =>
      match
        match subscript with
        | [] => inr (-1)
        | [i] => if i <? 1 then inl E012_subscript else inr i
        | _ => inl E020
        end with
      | inl d => inl d
      | inr idx =>
          match v with
          | Some (SetSymbol a) =>
              let s := deref a c in
              if negb (ty_eqb (s_type s) t) then inl E013_type
              else if (s_scalar s && (length subscript =? 1)%nat) || (negb (s_scalar s) && (length subscript =? 0)%nat)
              then inl E013_subscript
              else inr (idx, Some a)
          | _ => inr (idx, None)
          end
      end
  end.

(** context_manager.cpp:34-89, 111-161 for SET symbols; the value of a macro parameter is not
    modelled ([Param]). *)
Inductive read_result := Value (v : val) | Param | Undef (d : vdiag).
Definition get_var_sym_value (n : name) (subscript : list Z) (c : ctx) : read_result :=
  match get_var_sym n c with
  | None => Undef E010
  | Some MacroParam => Param
  | Some (SetSymbol a) =>
      let s := deref a c in
      match subscript with
      | _ :: _ :: _ => Undef E020
      | [] => if s_scalar s then Value (get_value s) else Undef E013_subscript
      | [i] => if s_scalar s then Undef E013_subscript
               else if i <? 1 then Undef E012_subscript
               else Value (get_value_at s (i - 1))    (* i is an int, at least 1 *)
      end
  end.
(** N' (ca_symbol_attribute.cpp:284-285) *)
Definition get_number (n : name) (c : ctx) : option Z :=
  match get_var_sym n c with
  | Some (SetSymbol a) => Some (number (deref a c))
  | _ => None
  end.

(** An expression, as far as variable symbols are concerned: it reads symbols (and N' of
    symbols) and computes a value from what it finds. *)
Inductive ex :=
  | Ret (v : val)
  | Read (n : name) (subscript : list Z) (k : read_result -> ex)
  | Num (n : name) (k : option Z -> ex).
Fixpoint eval (e : ex) (c : ctx) : val :=
  match e with
  | Ret v => v
  | Read n sub k => eval (k (get_var_sym_value n sub c)) c
  | Num n k => eval (k (get_number n c)) c
  end.

(** An operand: omitted, something that is not an expression, or an expression. *)
Inductive operand := Omitted | NotExpr | Expr (e : ex).

(** 168-197 *)
Fixpoint prepare_SET_operands (ops : list operand) : vdiag + list ex :=
  match ops with
  | [] => inr []
  | Omitted :: r => prepare_SET_operands r
  | NotExpr :: _ => inl E012_operand
  | Expr e :: r => match prepare_SET_operands r with inl d => inl d | inr l => inr (e :: l) end
  end.

(** ca_processor.h:120-121; the index is negative (a huge size_t) only for scalars, which
    ignore it. *)
Fixpoint set_values (a : addr) (idx : Z) (es : list ex) (c : ctx) : ctx :=
  match es with
  | [] => c
  | e :: r => set_values a (idx + 1) r (store a (set_value (deref a c) (eval e c) idx) c)
  end.

(** 100-122 *)
Definition process_SET (t : ty) (n : name) (subscript : list Z) (ops : list operand) (c : ctx) : list vdiag * ctx :=
  match test_symbol_for_assignment t n subscript c with
  | inl d => ([d], c)
  | inr (index, symbol) =>
      let (a, c') := match symbol with
                     | Some a => (a, c)
                     | None => create_local_variable t n (index =? -1) c
                     end in
      match prepare_SET_operands ops with
      | inl d => ([d], c')
      | inr [] => ([E022], c')
      | inr es => ([], set_values a (index - 1) es c')
      end
  end.

(** Operands of GBLx and LCLx: omitted, not a variable symbol, or one with its subscript. *)
Inductive declared := DOmitted | DOther | DVar (n : name) (subscript : list Z).

(** ca_processor.cpp:199-254: the diagnostics, and unless an operand is wrong the names and
    whether they are scalar. *)
Fixpoint prepare_GBL_LCL (ops : list declared) (ids : list (name * bool)) (c : ctx)
  : list vdiag * option (list (name * bool)) :=
  match ops with
  | [] => ([], Some ids)
  | DOmitted :: r => prepare_GBL_LCL r ids c
  | DOther :: _ => ([E010], None)
  | DVar [] _ :: r => prepare_GBL_LCL r ids c
  | DVar n sub :: r =>
      match get_var_sym n c with
      | Some (SetSymbol _) => let (ds, x) := prepare_GBL_LCL r ids c in (E051 :: ds, x)
      | Some MacroParam => let (ds, x) := prepare_GBL_LCL r ids c in (E052 :: ds, x)
      | None =>
          if existsb (fun p => bytes_eqb n (fst p)) ids
          then let (ds, x) := prepare_GBL_LCL r ids c in (E051 :: ds, x)
          else prepare_GBL_LCL r (ids ++ [(n, match sub with [] => true | _ => false end)]) c
      end
  end.
Fixpoint create_all (global : bool) (t : ty) (ids : list (name * bool)) (c : ctx) : ctx :=
  match ids with
  | [] => c
  | (n, scalar) :: r =>
      create_all global t r
        (snd (if global then create_global_variable t n scalar c else create_local_variable t n scalar c))
  end.
(** ca_processor.h:124-143 *)
Definition is_omitted (o : declared) : bool := match o with DOmitted => true | _ => false end.
Definition process_GBL_LCL (global : bool) (t : ty) (ops : list declared) (c : ctx) : list vdiag * ctx :=
  match prepare_GBL_LCL ops [] c with
  | (ds, None) => (ds, c)
  | (ds, Some ids) =>
      if forallb is_omitted ops then (ds ++ [E022], c)
      else (ds, create_all global t ids c)
  end.

(** ** Macro calls *)
(** hlasm_context.cpp:75-79 *)
Definition sysndx_value (n : N) : bytes := repeat 48%N (4 - length (dec n)) ++ dec n.
(** A system variable of the scope: a new SET symbol with a value (57-131). *)
Definition add_system_var (n : name) (t : ty) (v : option val) (c : ctx) : ctx :=
  let (a, c') := make_shared match v with
                             | Some v => set_value (new_sym t true) v 0
                             | None => new_sym t true
                             end c in
  insert_variable n a c'.
(** 237-246 *)
Definition add_global_var (c : ctx) (n : name) : ctx :=
  match lookup n (globals c) with Some a => insert_variable n a c | None => c end.
Definition system_globals : list name :=
  [s2b "SYSDATC"; s2b "SYSDATE"; s2b "SYSTIME"; s2b "SYSPARM"; s2b "SYSOPT_RENT"].

(** What the section at the time of the call contributes (64-121); [None] where no value is set. *)
Record call_info := { sect : bytes; styp : option bytes; loc : option bytes }.

(** 57-156 in a macro, then 237-246 *)
Definition add_system_vars_to_scope (i : call_info) (c : ctx) : ctx :=
  let c := add_system_var (s2b "SYSECT") TC (Some (VC (sect i))) c in
  let c := add_system_var (s2b "SYSNDX") TC (Some (VC (sysndx_value (SYSNDX_ c)))) c in
  let c := add_system_var (s2b "SYSSTYP") TC (option_map VC (styp i)) c in
  let c := add_system_var (s2b "SYSLOC") TC (option_map VC (loc i)) c in
  let c := add_system_var (s2b "SYSNEST") TA (Some (VA (as_int (Z.of_nat (length (scopes c)) - 1)))) c in
  fold_left add_global_var system_globals c.

(** 705-718; [named]: the names of the call's parameters, SYSLIST and SYSMAC among them. *)
Definition enter_macro (named : list name) (i : call_info) (c : ctx) : ctx :=
  let c' := add_system_vars_to_scope i
              {| heap := heap c; globals := globals c;
                 current := {| variables := []; params := named |}; outer := scopes c; SYSNDX_ := SYSNDX_ c |} in
  {| heap := heap c'; globals := globals c'; current := current c'; outer := outer c'; SYSNDX_ := (SYSNDX_ c' + 1)%N |}.
(** 720; the callers check that a macro is active (ca_processor.cpp:451-457,
    macro_statement_provider.cpp:34-39). *)
Definition leave_macro (c : ctx) : ctx :=
  match outer c with
  | [] => c
  | s :: r => {| heap := heap c; globals := globals c; current := s; outer := r; SYSNDX_ := SYSNDX_ c |}
  end.

(** 158-247 in open code: the values depend on the clock and the options. *)
Definition add_system_global (c : ctx) (p : name * sym) : ctx :=
  let (a, c') := make_shared (snd p) c in insert_global (fst p) a c'.
Record start_info := { datc : bytes; date : bytes; time : bytes; sysparm : bytes }.
Definition initial (i : start_info) : ctx :=
  let c := {| heap := []; globals := []; current := {| variables := []; params := [] |}; outer := []; SYSNDX_ := 0%N |} in
  let str s := set_value (new_sym TC true) (VC s) 0 in
  let c := fold_left add_system_global
             [(s2b "SYSDATC", str (datc i)); (s2b "SYSDATE", str (date i)); (s2b "SYSTIME", str (time i));
              (s2b "SYSPARM", str (sysparm i)); (s2b "SYSOPT_RENT", new_sym TB true)] c in
  fold_left add_global_var system_globals c.

(** ** Runs *)
Inductive step :=
  | SET (t : ty) (n : name) (subscript : list Z) (ops : list operand)
  | DECL (global : bool) (t : ty) (ops : list declared)
  | CALL (named : list name) (i : call_info)
  | RETURN.
Definition exec (c : ctx) (s : step) : list vdiag * ctx :=
  match s with
  | SET t n sub ops => process_SET t n sub ops c
  | DECL g t ops => process_GBL_LCL g t ops c
  | CALL named i => ([], enter_macro named i c)
  | RETURN => ([], leave_macro c)
  end.
Fixpoint run (c : ctx) (l : list step) : ctx :=
  match l with [] => c | s :: r => run (snd (exec c s)) r end.
