(** * Prg_Model: programs of conditional assembly, from the characters of their lines to the values of their variables

    parser_library/src/processing/instruction_sets/ca_processor.h lines 100-122 (process_SET);
    ca_processor.cpp lines 92-147 (prepare_SET_symbol, test_symbol_for_assignment), 168-197 (prepare_SET_operands),
    256-260 (ANOP), 296-371 (AGO), 373-443 (AIF);
    context/hlasm_context.h lines 230-243 (create_local_variable); processing/context_manager.cpp lines 34-89 (values).

    A statement has a name field, an operation and the characters of its operands.  The operands are read as in
    [Caf_Model] and [Cal_Model], evaluated as in [Exp_Model] with the variables of [Var_Model], and control is that of
    [Br_Model]: here they are put together.

    Simplifications: open code of SETA, SETB, AIF, AGO and ANOP; the operation is known and not part of the text; the
    variable symbol in a name field is read by the rule for operands (in the source both are var_symbol); the
    subscript of a name field is evaluated once (in the source twice, with the same value); attributes and what
    [Caf_Model.term_of] leaves out have no outcome ([None]), just as undefined behaviour has none. *)
From Coq Require Import String List NArith ZArith Bool Arith.
From Verif Require Import Common Cag_Model Caf_Model Cal_Model.
From Verif Require Lex_Model Grp_Model Exp_Model Var_Model Br_Model.
Import ListNotations.
Open Scope list_scope.
Import Exp_Model.

Inductive opcode := SETA | SETB | AIF | AGO | ANOP.
Record source := Src { name_field : list N; code : opcode; operands : list N; column : nat }.
Inductive message := Of_expression (d : xdiag) | Of_variable (d : Var_Model.vdiag).

Section Program.
Variable wide : N -> bool.
Variable symbols : bytes -> option Z.                      (* ordinary symbols with an absolute value *)

(** context_manager.cpp:34-89 *)
Definition number_of_diag (d : Var_Model.vdiag) : nat :=
  match d with
  | Var_Model.E010 => 10 | Var_Model.E012_subscript | Var_Model.E012_operand => 12
  | Var_Model.E013_type | Var_Model.E013_subscript => 13 | Var_Model.E020 => 20 | Var_Model.E022 => 22
  | Var_Model.E030 => 30 | Var_Model.E051 => 51 | Var_Model.E052 => 52
  end.
Definition value_of (r : Var_Model.read_result) : val + nat :=
  match r with
  | Var_Model.Value (Var_Model.VA z) => inl (VNum z)
  | Var_Model.Value (Var_Model.VB b) => inl (VBool b)
  | Var_Model.Value (Var_Model.VC s) => inl (VChar s)
  | Var_Model.Param => inr 0%nat
  | Var_Model.Undef d => inr (number_of_diag d)
  end.
Definition variables (c : Var_Model.ctx) : world :=
  World (fun n zs => value_of (Var_Model.get_var_sym_value n zs c)) symbols (fun _ => inr 0%nat) (fun _ => inr 0%nat).

(** ** SETA and SETB *)
Definition kind_of (t : Var_Model.ty) : Grp_Model.kind :=
  match t with Var_Model.TA => Grp_Model.KA | Var_Model.TB => Grp_Model.KB | Var_Model.TC => Grp_Model.KC end.
Definition stored (t : Var_Model.ty) (v : SET_t) : Var_Model.val :=
  match t with
  | Var_Model.TA => Var_Model.VA (a_value v)
  | Var_Model.TB => Var_Model.VB (b_value v)
  | Var_Model.TC => Var_Model.VC (c_value v)
  end.
(** The variable symbol in the name field. *)
Definition target (s : source) : option (bytes * list cexpr) :=
  match ca_field wide (32%N :: name_field s) 1 false with
  | Some [Value (XVar n subs)] => Some (n, subs)
  | _ => None
  end.
(** ca_processor.cpp:102-116: evaluate<A_t> of a subscript *)
Definition subscript (c : Var_Model.ctx) (x : expr) : M Z :=
  bind (evaluate (variables c) (As Grp_Model.KA) x) (fun v => a_of (convert_return_types v Grp_Model.KA (kind_after Grp_Model.KA x))).
(** ca_processor.cpp:168-197 *)
Fixpoint expressions (ops : list operand) : Var_Model.vdiag + list cexpr :=
  match ops with
  | [] => inr []
  | Empty :: r => expressions r
  | Value e :: r => match expressions r with inl d => inl d | inr l => inr (e :: l) end
  | _ :: _ => inl Var_Model.E012_operand
  end.
(** ca_processor.h:120-121 *)
Fixpoint set_all (t : Var_Model.ty) (a : Var_Model.addr) (idx : Z) (es : list expr) (c : Var_Model.ctx)
  : option (Var_Model.ctx * list message) :=
  match es with
  | [] => Some (c, [])
  | e :: r =>
    match evaluate_as (variables c) (kind_of t) e with
    | None => None
    | Some (v, ds) =>
      match set_all t a (idx + 1) r (Var_Model.store a (Var_Model.set_value (Var_Model.deref a c) (stored t v) idx) c) with
      | None => None
      | Some (c', ms) => Some (c', map Of_expression ds ++ ms)
      end
    end
  end.
Definition set_values (t : Var_Model.ty) (a : Var_Model.addr) (idx : Z) (s : source) (c : Var_Model.ctx)
  : option (Var_Model.ctx * list message) :=
  match ca_field wide (operands s) (column s) false with
  | None => None
  | Some ops =>
    match expressions ops with
    | inl d => Some (c, [Of_variable d])
    | inr [] => Some (c, [Of_variable Var_Model.E022])
    | inr es =>
      match all (map term_of es) with
      | None => None
      | Some xs =>
        match set_all t a idx xs c with
        | None => None
        | Some (c', ms) => Some (c', map Of_expression (flat_map (resolve (kind_of t)) xs) ++ ms)
        end
      end
    end
  end.
(** ca_processor.h:100-122: the new state of the variables and what is reported. *)
Definition process_SET (t : Var_Model.ty) (s : source) (c : Var_Model.ctx) : option (Var_Model.ctx * list message) :=
  match target s with
  | None => Some (c, [Of_variable Var_Model.E010])
  | Some (n, subs) =>
    match all (map term_of subs) with
    | None => None
    | Some xs =>
      match sequence (map (subscript c) xs) with
      | None => None
      | Some (zs, ds) =>
        let ds := flat_map (resolve Grp_Model.KA) xs ++ ds in
        match Var_Model.test_symbol_for_assignment t n zs c with
        | inl d => Some (c, map Of_expression ds ++ [Of_variable d])
        | inr (index, symbol) =>
          let (a, c') := match symbol with
                         | Some a => (a, c)
                         | None => Var_Model.create_local_variable t n (index =? -1)%Z c
                         end in
          match set_values t a (index - 1) s c' with
          | None => None
          | Some (c'', ms) => Some (c'', map Of_expression ds ++ ms)
          end
        end
      end
    end
  end.

(** ** AIF and AGO *)
Definition branch_operand {V} (f : expr -> Var_Model.ctx -> V) (d : V) (o : operand) : Br_Model.operand Var_Model.ctx V :=
  match o with
  | Empty => Br_Model.OEmpty
  | Seq t => Br_Model.OSeq t
  | Branch e t => Br_Model.OBranch (match term_of e with Some x => f x | None => fun _ => d end) t
  | _ => Br_Model.OOther
  end.
Definition truth (x : expr) (c : Var_Model.ctx) : bool :=
  match evaluate_as (variables c) Grp_Model.KB x with Some (v, _) => b_value v | None => false end.
Definition number (x : expr) (c : Var_Model.ctx) : Z :=
  match evaluate_as (variables c) Grp_Model.KA x with Some (v, _) => a_value v | None => 0%Z end.
Definition branch_operands {V} (f : expr -> Var_Model.ctx -> V) (d : V) (s : source) : list (Br_Model.operand Var_Model.ctx V) :=
  match ca_field wide (operands s) (column s) false with
  | Some ops => map (branch_operand f d) ops
  | None => []
  end.

(** ** Statements *)
Definition label_of (s : source) : option bytes :=
  match name_field s with 46%N :: n => Some (map Lex_Model.upper n) | _ => None end.
Definition after (t : Var_Model.ty) (s : source) (c : Var_Model.ctx) : Var_Model.ctx :=
  match process_SET t s c with Some (c', _) => c' | None => c end.
Definition statement (s : source) : Br_Model.stmt Var_Model.ctx :=
  {| Br_Model.label := label_of s;
     Br_Model.operation :=
       match code s with
       | SETA => Br_Model.Plain false (after Var_Model.TA s)
       | SETB => Br_Model.Plain false (after Var_Model.TB s)
       | AIF => Br_Model.Aif (branch_operands truth false s)
       | AGO => Br_Model.Ago (branch_operands number 0%Z s)
       | ANOP => Br_Model.Plain true (fun c => c)
       end |}.
Definition no_macro (_ : Var_Model.ctx) (_ : Br_Model.id) : option (list (Br_Model.stmt Var_Model.ctx)) := None.
Definition state := Br_Model.state Var_Model.ctx.
(** The state after [k] statements. *)
Definition run (k : nat) (prog : list source) (c : Var_Model.ctx) : state :=
  Br_Model.steps no_macro k (Br_Model.initial c (map statement prog)).
Definition next_step (st : state) : option state := Br_Model.step no_macro st.

(** What the statement [s] reports when it is processed; [None] if it has no outcome.  What AIF and AGO report of
    their operands' form and of their targets is in the log of [Br_Model]. *)
Definition omitted (o : operand) : bool := match o with Empty => true | _ => false end.
Definition ago_reports (c : Var_Model.ctx) (ops : list operand) : option (list message) :=
  match ops with
  | Branch e _ :: _ =>
    match term_of e with
    | None => None
    | Some x =>
      if existsb omitted ops then Some (map Of_expression (resolve Grp_Model.KA x))
      else
      match evaluate_as (variables c) Grp_Model.KA x with
      | Some (_, ds) => Some (map Of_expression (resolve Grp_Model.KA x ++ ds))
      | None => None
      end
    end
  | _ => Some []
  end.
Definition says (s : source) (c : Var_Model.ctx) : option (list message) :=
  match code s with
  | SETA => option_map snd (process_SET Var_Model.TA s c)
  | SETB => option_map snd (process_SET Var_Model.TB s c)
  | AIF =>
    match aif wide (variables c) (operands s) (column s) with
    | Some (ds, Some (_, es)) => Some (map Of_expression (ds ++ es))
    | _ => None
    end
  | AGO =>
    match ca_field wide (operands s) (column s) false with
    | Some ops => ago_reports c ops
    | None => None
    end
  | ANOP => Some []
  end.
Definition position (st : state) : nat := Br_Model.next (Br_Model.base st).
Definition data (st : state) : Var_Model.ctx := Br_Model.store st.
(** What the next statement of a state will report. *)
Definition announced (prog : list source) (st : state) : option (list message) :=
  match nth_error prog (position st) with Some s => says s (data st) | None => Some [] end.
End Program.
