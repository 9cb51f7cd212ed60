(** * Navigation: the scopes of macro definitions, and definition, references and completion

    Modelled files of /repo/parser_library/src:
    - processing/statement_processors/macrodef_processor.cpp 20-43, 71-82, 142-187, 369-496 (what a macro
      definition records about its body: copy nests, slices, variable and sequence symbols);
    - lsp/file_info.{h,cpp} (slices and occurrences of a file);
    - lsp/lsp_context.cpp 76-160, 206-236, 335-425 (add_*, definition, references, completion of
      variable and sequence symbols);
    - processing/statement_analyzers/lsp_analyzer.cpp 38-137 (which occurrences are recorded where).

    Simplifications.  File names, identifiers and macro definitions (compared by address in the code)
    are natural numbers.  The unordered maps of files are association lists; the iteration order of
    the macros is arbitrary, the theorems hold for every order of the list.  What a statement contains
    (its symbols, its operation code) is given with it; how symbols are collected from its operands is
    modelled in Occ_Model.v.  Reading past the end of a vector, the null file and the null open code
    are the outcome [None]. *)
From Coq Require Import List Arith Bool Lia.
Import ListNotations.

Definition file := nat.
Definition name := nat.
Definition mac := nat.

Record pos := Pos { line : nat; column : nat }.
Record loc := Loc { position : pos; in_file : file }.

(** ** Association lists *)
Fixpoint lookup {A} (k : nat) (m : list (nat * A)) : option A :=
  match m with
  | [] => None
  | (k', a) :: r => if k =? k' then Some a else lookup k r
  end.
Fixpoint assign {A} (k : nat) (a : A) (m : list (nat * A)) : list (nat * A) :=
  match m with
  | [] => [(k, a)]
  | (k', b) :: r => if k =? k' then (k, a) :: r else (k', b) :: assign k a r
  end.

(** ** The macro definition (macrodef_processor.cpp) *)

(** macro_slice_t (macro_info.h 76-94). *)
Record slice := Slice { first : nat; after : nat; inner : bool }.

(** variable_symbol_definition of a macro (macro_info.h 24-71): the name, the number of the
    statement and the position. *)
Record vardef := Vardef { vname : name; vstmt : nat; vpos : pos }.

Inductive operation := OpMacro | OpMend | OpCopy | OpOther.

(** A statement of the body as the processor gets it. [members]: the copy members entered since the
    definition began, outermost first, each with the position of its current statement (the loop of
    [add_correct_copy_nest], 453-459).  [at_]: the position of the statement.  [seq]: its sequence
    symbol with the position.  [sets]: the variable symbols it declares or sets (386-434, not the
    created ones). *)
Record stmt := Stmt {
  members : list loc; at_ : pos; seq : option (name * pos); sets : list (name * pos); op : operation
}.

(** macrodef_processing_result and the state of the processor. *)
Record mdef := Mdef {
  home : file;                          (* result_.definition_location.file *)
  depth : nat;                          (* macro_nest_ *)
  count : nat;                          (* curr_line_ *)
  outer : pos;                          (* curr_outer_position_ *)
  was_inner : bool;                     (* last_in_inner_macro_ *)
  over : bool;                          (* finished_flag_ *)
  nests : list (list loc);              (* result_.nests *)
  scopes : list (file * list slice);    (* result_.file_scopes *)
  vars : list vardef;                   (* result_.variable_symbols *)
  labels : list (name * loc)            (* result_.sequence_symbols *)
}.

(** The state after the prototype (142-187, 198-291): [params] are its variable symbols. *)
Definition after_prototype (f : file) (params : list (name * pos)) : mdef :=
  Mdef f 1 0 (Pos 0 0) false false [] [] (map (fun p => Vardef (fst p) 0 (snd p)) params) [].

(** The last element of a nest, [result_.nests.back().back()]; a nest is never empty. *)
Fixpoint back (l : loc) (ls : list loc) : loc :=
  match ls with [] => l | x :: r => back x r end.
Definition top (nest : list loc) : option loc :=
  match nest with [] => None | l :: r => Some (back l r) end.

(** The last element of a list replaced (the update of [last_scope], 488-489). *)
Fixpoint set_end (e : nat) (ss : list slice) : list slice :=
  match ss with
  | [] => []
  | [s] => [Slice (first s) e (inner s)]
  | s :: r => s :: set_end e r
  end.

(** add_correct_copy_nest (450-494). *)
Definition add_nest (x : stmt) (d : mdef) : mdef :=
  let here := Loc (outer d) (home d) in
  let f := in_file (back here (members x)) in
  let in_inner := 1 <? depth d in
  let old := match lookup f (scopes d) with Some ss => ss | None => [] end in
  let new :=
    match old with
    | [] => if count d =? 1 then [Slice 0 (count d) in_inner] else [Slice (count d) (count d) in_inner]
    | _ :: _ =>
        if was_inner d && negb in_inner then old ++ [Slice (count d) (count d) in_inner]
        else if negb in_inner || (negb (was_inner d) && in_inner) then set_end (count d) old
        else old
    end in
  Mdef (home d) (depth d) (count d) (outer d) in_inner (over d) (nests d ++ [here :: members x])
       (assign f new (scopes d)) (vars d) (labels d).

(** add_SET_sym_to_res (419-434). *)
Definition add_var (d : mdef) (v : name * pos) : mdef :=
  if 1 <? depth d then d
  else if existsb (fun w => vname w =? fst v) (vars d) then d
  else Mdef (home d) (depth d) (count d) (outer d) (was_inner d) (over d) (nests d) (scopes d)
            (vars d ++ [Vardef (fst v) (count d) (snd v)]) (labels d).

(** process_sequence_symbol (436-448); the file is that of the current statement. *)
Definition add_label (x : stmt) (d : mdef) : mdef :=
  match seq x with
  | None => d
  | Some (n, p) =>
      if (depth d =? 1) && match lookup n (labels d) with None => true | Some _ => false end
      then Mdef (home d) (depth d) (count d) (outer d) (was_inner d) (over d) (nests d) (scopes d) (vars d)
                (labels d ++ [(n, Loc p (in_file (back (Loc (outer d) (home d)) (members x))))])
      else d
  end.

(** process_MACRO, process_MEND and process_COPY (369-403); [sets] stands for process_SET and
    process_LCL_GBL (405-417). *)
Definition operate (x : stmt) (d : mdef) : mdef :=
  match op x with
  | OpMacro => Mdef (home d) (S (depth d)) (count d) (outer d) (was_inner d) (over d) (nests d) (scopes d) (vars d) (labels d)
  | OpMend => Mdef (home d) (depth d - 1) (count d) (outer d) (was_inner d) (over d || (depth d - 1 =? 0))
                   (nests d) (scopes d) (vars d) (labels d)
  | OpCopy => add_nest x d
  | OpOther => fold_left add_var (sets x) d
  end.

(** process_statement (71-82, 142-187): COPY has added its nest itself and is not added again. *)
Definition process (d : mdef) (x : stmt) : mdef :=
  let d := match members x with
           | [] => Mdef (home d) (depth d) (count d) (at_ x) (was_inner d) (over d) (nests d) (scopes d) (vars d) (labels d)
           | _ :: _ => d
           end in
  let d := operate x (add_label x d) in
  let d := Mdef (home d) (depth d) (S (count d)) (outer d) (was_inner d) (over d) (nests d) (scopes d) (vars d) (labels d) in
  match op x with OpCopy => d | _ => add_nest x d end.

(** The manager asks the processor for [finished] before each statement (processing_manager.cpp 98-121),
    the statements after the closing MEND are not processed; at the end of the text the definition is
    finished all the same (macrodef_processor.cpp 84-97). *)
Fixpoint define (d : mdef) (xs : list stmt) : mdef :=
  match xs with
  | [] => d
  | x :: r => if over d then d else define (process d x) r
  end.

(** ** Occurrences (symbol_occurence.h) *)
Inductive kind := ORD | VAR | SEQ | INSTR | COPY_OP.
Definition kind_eqb (a b : kind) : bool :=
  match a, b with
  | ORD, ORD | VAR, VAR | SEQ, SEQ | INSTR, INSTR | COPY_OP, COPY_OP => true
  | _, _ => false
  end.
Record occ := Occ { kind_of : kind; symbol : name; opcode : option mac; from : pos; upto : pos }.

Definition same_opcode (a b : option mac) : bool :=
  match a, b with Some x, Some y => x =? y | None, None => true | _, _ => false end.
(** is_similar (symbol_occurence.h 60-63). *)
Definition similar (a b : occ) : bool :=
  kind_eqb (kind_of a) (kind_of b) && (symbol a =? symbol b) && same_opcode (opcode a) (opcode b).
(** is_scoped (58). *)
Definition scoped (o : occ) : bool := match kind_of o with SEQ | VAR => true | _ => false end.

(** std::tie comparison and is_in_range (file_info.cpp 49-53). *)
Definition pos_leb (a b : pos) : bool := (line a <? line b) || ((line a =? line b) && (column a <=? column b)).
Definition in_range (p : pos) (o : occ) : bool := pos_leb (from o) p && pos_leb p (upto o).

(** ** The context (lsp_context.h, macro_info.h, opencode_info.h) *)
Record macro_info := Minfo {
  mac_id : mac; external : bool; named : loc; body : mdef; mac_occs : list (file * list occ)
}.

(** file_slice_t (file_info.h 42-55); [lines] is the key of the map of slices. *)
Record file_slice := Fslice { begins : nat; ends : nat; owner : mac }.

Inductive file_type := MacroFile | CopyFile (member : name) (defined : loc) | OpenFile.
Record file_info := Finfo { ftype : file_type; slices : list file_slice; occs : list occ }.

(** [sequence] and [symbols] are what the context of the analysis holds at its end. *)
Record opencode_info := Ocode {
  open_vars : list (name * loc); open_occs : list (file * list occ);
  sequence : list (name * loc); symbols : name -> option loc
}.

Record context := Ctx {
  files : list (file * file_info); macros : list macro_info; opencode_ : option opencode_info
}.

Definition empty_context : context := Ctx [] [] None.

(** add_file (76-80): an existing file is kept. *)
Definition add_file (f : file) (t : file_type) (c : context) : context :=
  match lookup f (files c) with
  | Some _ => c
  | None => Ctx (files c ++ [(f, Finfo t [] [])]) (macros c) (opencode_ c)
  end.

(** transform_slice (file_info.cpp 99-120). *)
Definition line_at (m : macro_info) (i : nat) : option nat :=
  match nth_error (nests (body m)) i with
  | Some nest => option_map (fun l => line (position l)) (top nest)
  | None => None
  end.
Definition transform (m : macro_info) (s : slice) : option file_slice :=
  let size := length (nests (body m)) in
  match (if first s =? 0 then Some (line (position (named m))) else line_at m (first s)),
        (if after s =? size then option_map S (line_at m (size - 1)) else line_at m (after s)) with
  | Some b, Some e => Some (Fslice b e (mac_id m))
  | _, _ => None
  end.
Fixpoint transform_all (m : macro_info) (ss : list slice) : option (list file_slice) :=
  match ss with
  | [] => Some []
  | s :: r => match transform m s, transform_all m r with
              | Some a, Some b => Some (a :: b)
              | _, _ => None
              end
  end.

(** update_slices (85-97): the map is ordered by the line ranges; an equal range is overwritten. *)
Definition key_ltb (a b : file_slice) : bool :=
  (begins a <? begins b) || ((begins a =? begins b) && (ends a <? ends b)).
Definition key_eqb (a b : file_slice) : bool := (begins a =? begins b) && (ends a =? ends b).
Fixpoint insert (s : file_slice) (ss : list file_slice) : list file_slice :=
  match ss with
  | [] => [s]
  | t :: r => if key_eqb s t then s :: r else if key_ltb s t then s :: t :: r else t :: insert s r
  end.
Definition update_slices (new : list file_slice) (f : file_info) : file_info :=
  Finfo (ftype f) (fold_left (fun acc s => insert s acc) new (slices f)) (occs f).
(** update_occurences (79-83). *)
Definition update_occs (new : list occ) (f : file_info) : file_info :=
  Finfo (ftype f) (slices f) (occs f ++ new).

Definition fmap := list (file * file_info).
(** distribute_file_occurences (lsp_context.cpp 356-362) *)
Definition spread_occs (fs : fmap) (e : file * list occ) : option fmap :=
  match lookup (fst e) fs with
  | Some i => Some (assign (fst e) (update_occs (snd e) i) fs)
  | None => None
  end.
Definition spread_slices (m : macro_info) (fs : fmap) (e : file * list slice) : option fmap :=
  match lookup (fst e) fs, transform_all m (snd e) with
  | Some i, Some ts => Some (assign (fst e) (update_slices ts i) fs)
  | _, _ => None
  end.
Fixpoint each {A B} (step : B -> A -> option B) (l : list A) (b : B) : option B :=
  match l with
  | [] => Some b
  | a :: r => match step b a with Some b' => each step r b' | None => None end
  end.
(** distribute_macro_i (346-354) *)
Definition spread_macro (fs : fmap) (m : macro_info) : option fmap :=
  match each (spread_slices m) (scopes (body m)) fs with
  | Some fs' => each spread_occs (mac_occs m) fs'
  | None => None
  end.

(** add_copy, add_macro (82-93); macros are keyed by the address of the definition. *)
Definition add_copy (f : file) (member : name) (d : loc) (c : context) : context := add_file f (CopyFile member d) c.
Fixpoint set_macro (m : macro_info) (ms : list macro_info) : list macro_info :=
  match ms with
  | [] => [m]
  | n :: r => if mac_id n =? mac_id m then m :: r else n :: set_macro m r
  end.
Definition add_macro (m : macro_info) (c : context) : context :=
  let c := if external m then add_file (in_file (named m)) MacroFile c else c in
  Ctx (files c) (set_macro m (macros c)) (opencode_ c).
(** add_opencode (95-105) *)
Definition add_opencode (f : file) (o : opencode_info) (c : context) : option context :=
  let c := add_file f OpenFile (Ctx (files c) (macros c) (Some o)) in
  match each spread_macro (macros c) (files c) with
  | Some fs => match each spread_occs (open_occs o) fs with
               | Some fs' => Some (Ctx fs' (macros c) (opencode_ c))
               | None => None
               end
  | None => None
  end.

(** find_scope (file_info.cpp 76-82). *)
Fixpoint find_scope (l : nat) (ss : list file_slice) : option mac :=
  match ss with
  | [] => None
  | s :: r => if (begins s <=? l) && (l <? ends s) then Some (owner s) else find_scope l r
  end.
(** find_occurence_with_scope (55-74, lsp_context.cpp 364-369) *)
Definition find_occ (c : context) (f : file) (p : pos) : option (occ * option mac) :=
  match lookup f (files c) with
  | None => None
  | Some i => match find (in_range p) (occs i) with
              | None => None
              | Some o => Some (o, find_scope (line p) (slices i))
              end
  end.

Fixpoint get_macro (k : mac) (ms : list macro_info) : option macro_info :=
  match ms with
  | [] => None
  | m :: r => if mac_id m =? k then Some m else get_macro k r
  end.

(** collect_references (119-127) *)
Definition collect (o : occ) (fo : list (file * list occ)) : list loc :=
  flat_map (fun e => map (fun x => Loc (from x) (fst e)) (filter (similar o) (snd e))) fo.

(** references (129-160).  [None]: the null open code or the null macro is used. *)
Definition references (c : context) (f : file) (p : pos) : option (list loc) :=
  match find_occ c f p with
  | None => Some []
  | Some (o, scope) =>
      if scoped o then
        match scope with
        | Some k => option_map (fun m => collect o (mac_occs m)) (get_macro k (macros c))
        | None => option_map (fun oc => collect o (open_occs oc)) (opencode_ c)
        end
      else option_map (fun oc => flat_map (fun m => collect o (mac_occs m)) (macros c) ++ collect o (open_occs oc))
                      (opencode_ c)
  end.

(** find_definition_location (371-425).  The outer [None]: undefined behaviour; the inner: nothing is
    found.  The macro found as scope is the one the slice points to. *)
Definition definition_of (c : context) (o : occ) (scope : option mac) : option (option loc) :=
  match opencode_ c with
  | None => None
  | Some oc =>
      match kind_of o with
      | ORD => Some (symbols oc (symbol o))
      | SEQ =>
          match scope with
          | Some k => option_map (fun m => lookup (symbol o) (labels (body m))) (get_macro k (macros c))
          | None => Some (lookup (symbol o) (sequence oc))
          end
      | VAR =>
          match scope with
          | Some k =>
              match get_macro k (macros c) with
              | None => None
              | Some m =>
                  match find (fun v => vname v =? symbol o) (vars (body m)) with
                  | None => Some None
                  | Some v => match nth_error (nests (body m)) (vstmt v) with
                              | None => None
                              | Some nest => option_map (fun l => Some (Loc (vpos v) (in_file l))) (top nest)
                              end
                  end
              end
          | None => Some (lookup (symbol o) (open_vars oc))
          end
      | INSTR =>
          match opcode o with
          | None => Some None
          | Some k => Some (option_map named (get_macro k (macros c)))
          end
      | COPY_OP =>
          Some (match find (fun e => match ftype (snd e) with CopyFile n _ => n =? symbol o | _ => false end) (files c) with
                | Some (_, i) => match ftype i with CopyFile _ d => Some d | _ => None end
                | None => None
                end)
      end
  end.

(** definition (107-117) *)
Definition definition (c : context) (f : file) (p : pos) : option loc :=
  match find_occ c f p with
  | None => Some (Loc p f)
  | Some (o, scope) =>
      match definition_of c o scope with
      | None => None
      | Some None => Some (Loc p f)
      | Some (Some l) => Some l
      end
  end.

(** complete_var (206-220) and complete_seq (222-236): the names offered. *)
Definition scope_at (c : context) (f : file) (p : pos) : option mac :=
  match lookup f (files c) with None => None | Some i => find_scope (line p) (slices i) end.
Definition complete_var (c : context) (f : file) (p : pos) : option (list name) :=
  match lookup f (files c) with
  | None => Some []
  | Some i =>
      match find_scope (line p) (slices i) with
      | Some k => option_map (fun m => map vname (vars (body m))) (get_macro k (macros c))
      | None => option_map (fun oc => map fst (open_vars oc)) (opencode_ c)
      end
  end.
Definition complete_seq (c : context) (f : file) (p : pos) : option (list name) :=
  match lookup f (files c) with
  | None => Some []
  | Some i =>
      match find_scope (line p) (slices i) with
      | Some k => option_map (fun m => map fst (labels (body m))) (get_macro k (macros c))
      | None => option_map (fun oc => map fst (sequence oc)) (opencode_ c)
      end
  end.

(** ** What the analyser records (lsp_analyzer.cpp) *)

(** [file_occs.insert(end, ...)] (124-137): the entry of the file is made if there is none. *)
Definition put (f : file) (os : list occ) (m : list (file * list occ)) : list (file * list occ) :=
  assign f ((match lookup f m with Some old => old | None => [] end) ++ os) m.

(** update_macro_nest (328-338). *)
Definition nest_after (x : stmt) (n : nat) : nat :=
  match op x with OpMacro => S n | OpMend => n - 1 | _ => n end.

(** A statement of a macro definition with the variable symbols, sequence symbols and copy operand
    found in it. *)
Definition noted := (stmt * list occ)%type.

(** analyze (38-70) for the statements of a definition, MACRO kind: those of nested definitions are
    left out.  They are recorded under the file of the current statement. *)
Fixpoint note (f : file) (n : nat) (xs : list noted) (m : list (file * list occ)) : list (file * list occ) :=
  match xs with
  | [] => m
  | (x, os) :: r =>
      let n' := nest_after x n in
      note f n' r (put (in_file (back (Loc (at_ x) f) (members x))) (if 1 <? n' then [] else os) m)
  end.

(** macrodef_finished (83-107).  [proto]: the occurrences in the prototype (and before it). *)
Definition macro_record (k : mac) (ext : bool) (n : name) (where_ upto_ : pos) (f : file)
    (params : list (name * pos)) (proto : list occ) (xs : list noted) : macro_info :=
  Minfo k ext (Loc where_ f) (define (after_prototype f params) (map fst xs))
        (put f [Occ INSTR n (Some k) where_ upto_] (note f 1 xs [(f, proto)])).

(** A statement of the ordinary processing: where it stands, whether the macro provider gave it, what is
    in it. *)
Record ostmt := Ostmt {
  o_file : file; from_macro : bool; o_ords : list occ; o_instrs : list occ; o_vars : list occ; o_seqs : list occ;
  o_copy : option occ
}.

Definition same_place (a b : occ) : bool :=
  let eqp p q := (line p =? line q) && (column p =? column q) in
  eqp (from a) (from b) && eqp (upto a) (upto b).
(** add_copy_operand (315-326): the ordinary symbol at the place of the operand is turned into a copy
    operand. *)
Fixpoint turn (o : occ) (os : list occ) : list occ :=
  match os with
  | [] => [Occ COPY_OP (symbol o) None (from o) (upto o)]
  | x :: r => if kind_eqb (kind_of x) ORD && (symbol x =? symbol o) && same_opcode (opcode x) None && same_place x o
              then Occ COPY_OP (symbol x) (opcode x) (from x) (upto x) :: r
              else x :: turn o r
  end.
(** analyze (38-70), ORDINARY kind *)
Definition found (x : ostmt) : list occ :=
  let base := o_ords x ++ o_instrs x in
  if from_macro x then base
  else let all := base ++ o_vars x ++ o_seqs x in
       match o_copy x with Some o => turn o all | None => all end.
Definition open_record (xs : list ostmt) : list (file * list occ) :=
  fold_left (fun m x => put (o_file x) (found x) m) xs [].
