(** What the debugger shows of variables, symbols and the call stack, and the references by which
    the client asks for it.

    Modelled code (parser_library/src/debugging/):
      macro_param_variable.cpp, set_symbol_variable.cpp, ordinary_symbol_variable.cpp,
      attribute_variable.cpp, variable.cpp (all of them),
      debugger.cpp:113-122 (add_variable), 182-190 (what a stop resets), 258-372 (stack_frames,
      scopes, variables);
      context/hlasm_context.cpp:424-443 (get_var_sym), protocol.cpp:124-172 (copies);
      language_server/src/dap/dap_feature.cpp:179-286 (stackTrace, scopes, variables).

    Simplifications.  The hash tables are association lists in any order.  [id_index] is the name.
    The frames a stop finds are given ([context::processing_stack]), and so are the ordinary
    symbols.  Threads and the mutex are in Dbg_Model.v; here the analysis stands still between
    [stop] and [finish].  [variables_] is a hash table of nodes: the iterator of 359 is still used
    behind an insertion (371), which the standard allows only if the table was not rehashed; the
    nodes do not move, which is what is modelled.  Type attributes are kept as characters
    (as in Attr_Model.v). *)
From Coq Require Import String.
From Coq Require Import List NArith ZArith Bool Arith.
From Verif Require Import Common Var_Model Sub_Model Attr_Model.
Import ListNotations.
Open Scope Z_scope.

(** std::to_string of an integer *)
Definition to_string (z : Z) : bytes := if z <? 0 then 45%N :: dec (Z.to_N (- z)) else dec (Z.to_N z).

(** ** code_scope.h:26-63 *)
(** A macro parameter; [true]: a system variable (SYSLIST, SYSMAC). *)
Definition mparam := (bool * data)%type.
Record cscope := {
  c_params : option (list (bytes * mparam));         (* this_macro, its named_params *)
  c_variables : list (bytes * (bool * sym));         (* with is_global *)
  c_system : list (bytes * (bool * data))            (* with is_global *)
}.
Fixpoint lookup {A} (n : bytes) (l : list (bytes * A)) : option A :=
  match l with
  | [] => None
  | (k, x) :: r => if bytes_eqb n k then Some x else lookup n r
  end.
Definition param_var (p : mparam) : var := if fst p then VSys (snd p) else VParam (snd p).
(** hlasm_context.cpp:424-443, in a given scope *)
Definition get_var_sym (s : cscope) (n : bytes) : option var :=
  match lookup n (c_variables s) with
  | Some (_, y) => Some (VSet y)
  | None =>
      match lookup n (c_system s) with
      | Some (_, d) => Some (VSys d)
      | None => match c_params s with
                | Some l => match lookup n l with Some p => Some (param_var p) | None => None end
                | None => None
                end
      end
  end.

(** ** The variables of the debugger *)
Inductive sval := Absolute (z : Z) | Relocatable (complex : bool) | Unknown.
Record ordinary := { y_name : bytes; y_value : sval; y_attrs : osym }.
Inductive dvar :=
| MacroVar (n : bytes) (p : mparam) (index : list Z)
| SetVar (n : bytes) (s : sym) (index : option Z)
| OrdVar (y : ordinary)
| AttrVar (n v : bytes).

Definition AMP : N := 38.
(** macro_param_variable.cpp:23-31, set_symbol_variable.cpp:34-48, ordinary_symbol_variable.cpp:56, attribute_variable.cpp:23-27 *)
Definition dname (v : dvar) : bytes :=
  match v with
  | MacroVar n _ [] => AMP :: n
  | MacroVar _ _ index => to_string (last index 0)
  | SetVar n _ None => AMP :: n
  | SetVar _ _ (Some i) => to_string (i + 1)
  | OrdVar y => y_name y
  | AttrVar n _ => n
  end.

(** macro_param_data.cpp:41, 50, 81; macro_param.cpp:88-97, system_variable.cpp:67-77 *)
Definition data_size (d : data) : nat := match d with Composite l => length l | _ => 0%nat end.
Definition msize (p : mparam) (index : list Z) : nat := data_size (var_data (param_var p) index).

(** is_scalar: macro_param_variable.cpp:42, set_symbol_variable.cpp:60-67, ordinary_symbol_variable.cpp:58-64 *)
Definition dscalar (v : dvar) : bool :=
  match v with
  | MacroVar _ p index => (msize p index =? 0)%nat
  | SetVar _ s (Some _) => true
  | SetVar _ s None => s_scalar s
  | OrdVar y => negb (is_defined L (y_attrs y) || is_defined I_ (y_attrs y) || is_defined S_ (y_attrs y)
                      || is_defined T (y_attrs y))
  | AttrVar _ _ => true
  end.

(** set_symbol_variable.cpp:82-91; the index is an int, made size_t *)
Definition set_get (s : sym) (index : option Z) : val :=
  if s_scalar s then Var_Model.get_value s
  else match index with
       | Some i => get_value_at s (size_t i)
       | None => Var_Model.get_value s
       end.
(** macro_param_variable.cpp:33, set_symbol_variable.cpp:23-31, 50, ordinary_symbol_variable.cpp:29-52 *)
Definition dvalue (v : dvar) : bytes :=
  match v with
  | MacroVar _ p index => Sub_Model.get_value (var_data (param_var p) index)
  | SetVar _ s index =>
      if negb (dscalar v) then []
      else match set_get s index with
           | VA z => to_string z
           | VB b => s2b (if b then "TRUE" else "FALSE")
           | VC t => t
           end
  | OrdVar y =>
      match y_value y with
      | Absolute z => to_string z
      | Relocatable true => s2b "COMPLEX"
      | Relocatable false => s2b "RELOC"
      | Unknown => s2b "UNDEF"
      end
  | AttrVar _ t => t
  end.
(** type; [None]: UNDEF_TYPE *)
Definition dtype (v : dvar) : option ty :=
  match v with
  | MacroVar _ _ _ => Some TC
  | SetVar _ s _ => Some (s_type s)
  | _ => None
  end.

(** (int) of a size_t and the sum index + 1, which must not overflow: [None] *)
Definition set_child (n : bytes) (s : sym) (k : Z) : option dvar :=
  let i := as_int k in if i =? 2 ^ 31 - 1 then None else Some (SetVar n s (Some i)).
Fixpoint all_some {A} (l : list (option A)) : option (list A) :=
  match l with
  | [] => Some []
  | Some x :: r => match all_some r with Some r' => Some (x :: r') | None => None end
  | None :: _ => None
  end.
Definition attr_child (a : kind) (n : string) (y : ordinary) : list dvar :=
  if is_defined a (y_attrs y) then
    [AttrVar (s2b n) (match a with T => [o_type (y_attrs y)] | _ => to_string (attribute_value a (y_attrs y)) end)]
  else [].
(** values: macro_param_variable.cpp:44-68, set_symbol_variable.cpp:69-78, ordinary_symbol_variable.cpp:66-85,
    attribute_variable.cpp:33; [None]: an int overflows *)
Definition dvalues (v : dvar) : option (list dvar) :=
  match v with
  | MacroVar n p index =>
      let first := if fst p && match index with [] => true | _ => false end then 0 else 1 in
      Some (List.map (fun k => MacroVar n p (index ++ [first + Z.of_nat k])) (seq 0 (msize p index)))
  | SetVar n s _ => all_some (List.map (fun e => set_child n s (fst e)) (s_data s))
  | OrdVar y => Some (attr_child L "L" y ++ attr_child I_ "I" y ++ attr_child S_ "S" y ++ attr_child T "T" y)
  | AttrVar _ _ => Some []
  end.

(** ** The debugger *)
Inductive fkind := Opencode | Macro | Copy.
Record frame := { f_line : N; f_file : bytes; f_kind : fkind; f_scope : cscope }.
(** [stored]: variables_, each variable with its var_reference *)
Record dbg := {
  stored : list (N * list (dvar * N)); next_ref : N; proc_stack : list frame;
  symbols_ : list ordinary; ended : bool }.
Definition initial : dbg := {| stored := []; next_ref := 1; proc_stack := []; symbols_ := []; ended := false |}.

Fixpoint find_ref {A} (r : N) (l : list (N * A)) : option A :=
  match l with
  | [] => None
  | (k, x) :: l' => if (r =? k)%N then Some x else find_ref r l'
  end.
(** 118-122 *)
Definition add_variable (vs : list dvar) (d : dbg) : N * dbg :=
  (next_ref d, {| stored := (next_ref d, List.map (fun v => (v, 0%N)) vs) :: stored d; next_ref := next_ref d + 1;
                  proc_stack := proc_stack d; symbols_ := symbols_ d; ended := ended d |}).

(** 258-291, one frame as the client sees it: id, name, line, file *)
Record frame_view := { v_id : nat; v_name : string; v_line : N; v_file : bytes }.
Definition kind_name (k : fkind) : string := match k with Opencode => "OPENCODE" | Macro => "MACRO" | Copy => "COPY" end.
Fixpoint views_from (i : nat) (l : list frame) : list frame_view :=
  match l with
  | [] => []
  | f :: r => {| v_id := i; v_name := kind_name (f_kind f); v_line := f_line f; v_file := f_file f |} :: views_from (S i) r
  end.
Definition stack_frames (d : dbg) : list frame_view :=
  if ended d then [] else rev (views_from 0 (proc_stack d)).

(** 306-333 *)
Definition nonempty (n : bytes) : bool := match n with [] => false | _ => true end.
Definition param_vars (s : cscope) : list dvar :=
  match c_params s with
  | Some l => List.map (fun e => MacroVar (fst e) (snd e) []) (filter (fun e => nonempty (fst e)) l)
  | None => []
  end.
Definition set_vars (global : bool) (s : cscope) : list dvar :=
  List.map (fun e => SetVar (fst e) (snd (snd e)) None) (filter (fun e => Bool.eqb (fst (snd e)) global) (c_variables s)).
Definition system_vars (global : bool) (s : cscope) : list dvar :=
  List.map (fun e => MacroVar (fst e) (true, snd (snd e)) []) (filter (fun e => Bool.eqb (fst (snd e)) global) (c_system s)).
(** 293-348: the three references *)
Definition scopes (id : nat) (d : dbg) : list (string * N) * dbg :=
  if ended d then ([], d)
  else match nth_error (proc_stack d) id with
       | None => ([], d)
       | Some f =>
           let s := f_scope f in
           let (g, d1) := add_variable (set_vars true s ++ system_vars true s) d in
           let (l, d2) := add_variable (param_vars s ++ set_vars false s ++ system_vars false s) d1 in
           let (o, d3) := add_variable (List.map OrdVar (symbols_ d)) d2 in
           ([("Globals"%string, g); ("Locals"%string, l); ("Ordinary symbols"%string, o)], d3)
       end.

(** 362-369 *)
Fixpoint refer (l : list (dvar * N)) (d : dbg) : option (list (dvar * N) * dbg) :=
  match l with
  | [] => Some ([], d)
  | (v, old) :: l' =>
      if dscalar v then
        match refer l' d with Some (r, d') => Some ((v, old) :: r, d') | None => None end
      else match dvalues v with
           | None => None
           | Some vs =>
               let (n, d1) := add_variable vs d in
               match refer l' d1 with Some (r, d') => Some ((v, n) :: r, d') | None => None end
           end
  end.
Definition put {A} (r : N) (x : A) : list (N * A) -> list (N * A) :=
  fix go l := match l with
              | [] => []
              | (k, y) :: l' => if (r =? k)%N then (k, x) :: l' else (k, y) :: go l'
              end.
(** 350-372; [None]: an int overflows *)
Definition variables (ref : N) (d : dbg) : option (list (dvar * N) * dbg) :=
  if ended d then Some ([], d)
  else match find_ref ref (stored d) with
       | None => Some ([], d)
       | Some l =>
           match refer l d with
           | None => None
           | Some (l', d') =>
               Some (l', {| stored := put ref l' (stored d'); next_ref := next_ref d'; proc_stack := proc_stack d';
                            symbols_ := symbols_ d'; ended := ended d' |})
           end
       end.
(** What the client is sent of a variable (protocol.cpp:161-166, dap_feature.cpp:251-283) *)
Record entry := { e_name : bytes; e_value : bytes; e_type : option ty; e_ref : N }.
Definition view (x : dvar * N) : entry :=
  {| e_name := dname (fst x); e_value := dvalue (fst x); e_type := dtype (fst x); e_ref := snd x |}.

(** 186-190: the next statement to stop at *)
Definition stop (frames : list frame) (symbols : list ordinary) (d : dbg) : dbg :=
  {| stored := []; next_ref := next_ref d; proc_stack := frames; symbols_ := symbols; ended := ended d |}.
(** 147 *)
Definition finish (d : dbg) : dbg :=
  {| stored := stored d; next_ref := next_ref d; proc_stack := proc_stack d; symbols_ := symbols_ d; ended := true |}.

(** ** Sending the answer *)
(** nlohmann::json::dump with the default error handler throws for texts that are not UTF-8
    (base_protocol_channel.cpp:53-55); dap_server.cpp:84-88 catches that and the request stays
    unanswered. *)
Definition between (a c b : N) : bool := (a <=? c)%N && (c <? b)%N.
Definition tailb (c : N) : bool := between 128 c 192.
Fixpoint dumpable (s : bytes) : bool :=
  match s with
  | [] => true
  | b :: r =>
      if (b <? 128)%N then dumpable r
      else match r with
           | [] => false
           | c :: r2 =>
               if between 194 b 224 then tailb c && dumpable r2
               else match r2 with
                    | [] => false
                    | e :: r3 =>
                        if (b =? 224)%N then between 160 c 192 && tailb e && dumpable r3
                        else if (b =? 237)%N then between 128 c 160 && tailb e && dumpable r3
                        else if between 225 b 240 then tailb c && tailb e && dumpable r3
                        else match r3 with
                             | [] => false
                             | g :: r4 =>
                                 if (b =? 240)%N then between 144 c 192 && tailb e && tailb g && dumpable r4
                                 else if (b =? 244)%N then between 128 c 144 && tailb e && tailb g && dumpable r4
                                 else between 241 b 244 && tailb c && tailb e && tailb g && dumpable r4
                             end
                    end
           end
  end.
Definition response (l : list entry) : option (list entry) :=
  if forallb (fun e => dumpable (e_name e) && dumpable (e_value e)) l then Some l else None.
