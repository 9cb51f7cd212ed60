(** Hovering over ordinary symbols, variable symbols and everything else that is recorded at a place.

    Modelled code (parser_library/src/):
      lsp/lsp_context.cpp:27-75 (hover_text of ordinary symbols and of definitions of variable
      symbols), 157-165 (hover), 207-221 (details of completed variable symbols), 429-476 (find_hover);
      context/ordinary_assembly/address.cpp:105-118 (to_string; the offset is in Addr_Model.v);
      processing/statement_analyzers/lsp_analyzer.cpp:207-254, 273-316 (the definitions of variable
      symbols in open code).

    Simplifications.  Sections are numbers (Addr_Model.v); their names are given by a function.  Type
    attributes are kept as the bytes of the character they are shown as (ebcdic_encoding::to_ascii),
    here one byte.  The texts of macros and instructions (Hov_Model.v) are given by functions, and so is the definition
    of a variable symbol as far as Nav_Model.v does not keep it.  Statements that declare or set variable
    symbols are the steps of Var_Model.v with the mark whether the symbol is written or created. *)
From Coq Require Import String.
From Coq Require Import List NArith ZArith Bool Arith.
From Verif Require Import Common Attr_Model Addr_Model Dvar_Model.
From Verif Require Var_Model Nav_Model.
Import ListNotations.
Open Scope string_scope.
Open Scope list_scope.
Open Scope Z_scope.

Definition nl : bytes := [10%N].
(** The texts of the C++ literals, with each new line written as | *)
Definition lit (s : string) : bytes := List.map (fun c => if N.eqb c 124 then 10%N else c) (s2b s).

(** ** Ordinary symbols *)

(** address.cpp:105-118 *)
Definition base_text (nm : nat -> bytes) (b : bentry) : bytes :=
  match nm (fst b) with
  | [] => []
  | n => if snd b =? 0 then []
         else (if 1 <? snd b then to_string (snd b) ++ lit "*" else []) ++ n ++ lit " + "
  end.
Definition address_text (nm : nat -> bytes) (a : address) : bytes :=
  flat_map (base_text nm) (bases a) ++ to_string (offset a).

(** lsp_context.cpp:44-52 *)
Definition attribute_line (a : Attr_Model.kind) (c : string) (y : osym) : bytes :=
  if is_defined a y then
    lit c ++ lit ": " ++ (match a with T => [o_type y] | _ => to_string (attribute_value a y) end) ++ lit "  |"
  else [].
Definition attribute_lines (y : osym) : bytes :=
  attribute_line L "L" y ++ attribute_line I_ "I" y ++ attribute_line S_ "S" y ++ attribute_line T "T" y.
(** 27-55 *)
Definition symbol_text (nm : nat -> bytes) (v : value) (y : osym) : bytes :=
  match v with
  | Undefined => []
  | Abs z => to_string z ++ lit "||---||Absolute Symbol||---||" ++ attribute_lines y
  | Reloc a => address_text nm a ++ lit "||---||Relocatable Symbol||---||" ++ attribute_lines y
  end.

(** ** Variable symbols *)
(** macro_info.h:24-71: what a definition tells; UNDEF_TYPE does not occur *)
Inductive vkind := MacroParameter | SetVariable (t : Var_Model.ty).
(** 57-75 *)
Definition variable_text (k : vkind) : bytes :=
  match k with
  | MacroParameter => lit "MACRO parameter"
  | SetVariable Var_Model.TA => lit "SETA variable"
  | SetVariable Var_Model.TB => lit "SETB variable"
  | SetVariable Var_Model.TC => lit "SETC variable"
  end.

(** lsp_analyzer.cpp:242-254, 273-316.  A statement of open code as the analyzer sees it: operands of
    declarations with the mark [true] of created names. *)
Inductive ostatement :=
| Assign (created : bool) (t : Var_Model.ty) (n : bytes) (subscript : list Z) (ops : list Var_Model.operand)
| Declare (global : bool) (t : Var_Model.ty) (ops : list (bool * Var_Model.declared)).
Record odef := { d_name : bytes; d_type : Var_Model.ty; d_global : bool }.
Definition add_def (created : bool) (n : bytes) (t : Var_Model.ty) (g : bool) (ds : list odef) : list odef :=
  if created then ds
  else if existsb (fun d => bytes_eqb (d_name d) n) ds then ds
  else ds ++ [{| d_name := n; d_type := t; d_global := g |}].
Definition add_declared (g : bool) (t : Var_Model.ty) (ds : list odef) (o : bool * Var_Model.declared) : list odef :=
  match snd o with
  | Var_Model.DVar n _ => add_def (fst o) n t g ds
  | _ => ds
  end.
Definition collect_definition (ds : list odef) (s : ostatement) : list odef :=
  match s with
  | Assign created t n _ _ => add_def created n t false ds
  | Declare g t ops => fold_left (add_declared g t) ops ds
  end.

(** What happens in the order of the analysis: statements of open code, and the steps of the macros
    called there (which are collected with their definitions, Nav_Model.v). *)
Inductive event := Open (s : ostatement) | Inner (s : Var_Model.step).
Definition as_step (e : event) : Var_Model.step :=
  match e with
  | Open (Assign _ t n sub ops) => Var_Model.SET t n sub ops
  | Open (Declare g t ops) => Var_Model.DECL g t (List.map snd ops)
  | Inner s => s
  end.
Fixpoint collect_definitions (ds : list odef) (es : list event) : list odef :=
  match es with
  | [] => ds
  | Open s :: r => collect_definitions (collect_definition ds s) r
  | Inner _ :: r => collect_definitions ds r
  end.
(** std::find_if over the definitions (lsp_context.cpp:446) *)
Definition definition_of (n : bytes) (ds : list odef) : option odef :=
  List.find (fun d => bytes_eqb (d_name d) n) ds.
Definition open_variable_text (n : bytes) (ds : list odef) : bytes :=
  match definition_of n ds with
  | Some d => variable_text (SetVariable (d_type d))
  | None => []
  end.

(** ** find_hover (429-476) and hover (157-165) *)
(** What is not kept in Nav_Model.v. *)
Record texts := {
  ordinary_text : Nav_Model.name -> option bytes;     (* the text of the symbol, if it is known *)
  macro_variable : Nav_Model.mac -> Nav_Model.vardef -> vkind;
  open_variable : Nav_Model.name -> vkind;            (* the kind of the first definition *)
  macro_doc : Nav_Model.macro_info -> bytes;
  instruction_doc : Nav_Model.name -> bytes
}.
Section Hover.
Context (x : texts).
(** [None]: the end of the map is dereferenced, or a null pointer *)
Definition find_hover (c : Nav_Model.context) (o : Nav_Model.occ) (scope : option Nav_Model.mac) : option bytes :=
  match Nav_Model.kind_of o with
  | Nav_Model.ORD =>
      match Nav_Model.opencode_ c with
      | None => None
      | Some _ => Some (match ordinary_text x (Nav_Model.symbol o) with Some t => t | None => [] end)
      end
  | Nav_Model.SEQ => Some (lit "Sequence symbol")
  | Nav_Model.VAR =>
      match scope with
      | Some k =>
          match Nav_Model.get_macro k (Nav_Model.macros c) with
          | None => None
          | Some m =>
              Some (match List.find (fun v => Nat.eqb (Nav_Model.vname v) (Nav_Model.symbol o)) (Nav_Model.vars (Nav_Model.body m)) with
                    | Some v => variable_text (macro_variable x k v)
                    | None => []
                    end)
          end
      | None =>
          match Nav_Model.opencode_ c with
          | None => None
          | Some oc =>
              Some (match Nav_Model.lookup (Nav_Model.symbol o) (Nav_Model.open_vars oc) with
                    | Some _ => variable_text (open_variable x (Nav_Model.symbol o))
                    | None => []
                    end)
          end
      end
  | Nav_Model.INSTR =>
      match Nav_Model.opcode o with
      | Some k => option_map (macro_doc x) (Nav_Model.get_macro k (Nav_Model.macros c))
      | None => Some (instruction_doc x (Nav_Model.symbol o))
      end
  | Nav_Model.COPY_OP => Some []
  end.
Definition hover (c : Nav_Model.context) (f : Nav_Model.file) (p : Nav_Model.pos) : option bytes :=
  match Nav_Model.find_occ c f p with
  | None => Some []
  | Some (o, scope) => find_hover c o scope
  end.
(** 207-221: the details of the variable symbols that are offered *)
Definition complete_var_details (c : Nav_Model.context) (f : Nav_Model.file) (p : Nav_Model.pos)
  : option (list (Nav_Model.name * bytes)) :=
  match Nav_Model.lookup f (Nav_Model.files c) with
  | None => Some []
  | Some i =>
      match Nav_Model.find_scope (Nav_Model.line p) (Nav_Model.slices i) with
      | Some k => option_map (fun m => List.map (fun v => (Nav_Model.vname v, variable_text (macro_variable x k v)))
                                         (Nav_Model.vars (Nav_Model.body m)))
                             (Nav_Model.get_macro k (Nav_Model.macros c))
      | None => option_map (fun oc => List.map (fun e => (fst e, variable_text (open_variable x (fst e)))) (Nav_Model.open_vars oc))
                           (Nav_Model.opencode_ c)
      end
  end.
End Hover.
