(** Where statements come from: open code, COPY members and macros, and the lookaheads that read
    ahead in open code for the attributes of ordinary symbols and for sequence symbols.

    Modelled: processing/processing_manager.cpp:97-154 (loop, choice of the provider), 183-216
    (start and end of a lookahead), 246-316 (jumps, registration of sequence symbols);
    processing/statement_processors/lookahead_processor.cpp:46-117, 271-329;
    processing/statement_processors/macrodef_processor.cpp:73-104, 143-192, 351-387 (only what it
    reads); processing/statement_providers/{copy,macro,members}_statement_provider.cpp;
    statement_provider.cpp:26-77; processing/instruction_sets/asm_processor.cpp:310-322, 533-574
    (COPY); context/hlasm_context.cpp:267-313, 404-413, 744-776; context/processing_context.cpp:27-38;
    context/sequence_symbol.cpp:45-48; parsing/parser_impl.cpp:56-61, 334-404, 510-539,
    616-640; parsing/grammar/lookahead_rules.g4:18-59.

    Everything that is not about the source (variables, symbols, storage) is one abstract value of
    the type [data].  Which attributes a statement refers to, what it changes, which branch it takes
    and the attributes that a definition gives are functions of it.

    Simplifications: open code is a list of statements and a byte offset is an index into it, but
    lines are counted, since a statement can be continued; the instruction is on the first line of
    its statement; a library member is the list of statements that the library gives for a name
    ([None]: there is no such member), always the same for one name; limits of nesting and
    branching are those of Br_Model; AREAD and AINSERT are left out; the members of a library are
    read before they are used and a lookahead in them is the one in open code. *)
From Coq Require Import List Arith ZArith Bool.
Import ListNotations.

Definition id := nat.

(** semantics/label_si: the name field; [LNone]: also a name that is no valid symbol, a variable, ... *)
Inductive lab := LNone | LOrd (n : id) | LSeq (n : id).

(** The operand of COPY: a name; another expression; an operand of another kind (a string, ...);
    not exactly one operand. *)
Inductive copied := CName (n : id) | CExpr | COther | CBad.

Section Look.
Variable attr : Type.
Variable data : Type.
(** symbol_attributes(symbol_origin::UNKNOWN) *)
Variable unknown_attr : attr.
(** ordinary_assembly_context::get_symbol *)
Variable defined : data -> id -> bool.

Inductive kind :=
| KCopy (o : copied)
| KMacro
| KMend
| KGo (f : data -> option id)              (* AIF, AGO *)
| KCall (n : id)
| KPlain (f : data -> data).

(** [s_lines]: the number of lines minus one; [s_wants1], [s_wants2]: the symbols whose attributes
    are referred to in the instruction, and in the operands and the name, given the attributes that are
    known; [s_attr]: what the lookahead finds out when the statement is named by a symbol, [None]: it
    returns without an answer; [s_reg]: the processor of the instruction registers the sequence
    symbol of the name field. *)
Record stmt := mkStmt {
  s_lab : lab;
  s_kind : kind;
  s_lines : nat;
  s_wants1 : data -> (id -> option attr) -> list id;
  s_wants2 : data -> (id -> option attr) -> list id;
  s_attr : data -> option attr;
  s_reg : bool
}.

(** the statements of open code, the library *)
Variable program : list stmt.
Variable lib : id -> option (list stmt).
(** the statements of a macro *)
Variable macro_of : data -> id -> option (list stmt).
(** what a macro definition does, given the statements of its body *)
Variable define : list stmt -> data -> data.

(** context/copy_member.h: copy_member_invocation; current_statement is an int. *)
Record frame := mkF { f_name : id; f_cur : Z }.

(** source_snapshot.h; [n_line]: instruction.pos.line. *)
Record snapshot := mkN { n_line : nat; n_begin : nat; n_end : nat; n_eline : nat; n_frames : list frame }.

(** processing_context.h: source_context, and the state of the lexer: [pos], [line]: what it reads
    next; [eof]: parser_impl::finished_flag.  [frames]: innermost first. *)
Record source := mkS { iline : nat; begin : nat; end_ : nat; eline : nat; frames : list frame;
                       pos : nat; line : nat; eof : bool }.

(** macro_invocation: the statements, current_statement + 1 *)
Record mframe := mkM { m_body : list stmt; m_next : nat }.

Inductive action := AOrd | ASeq (target : id).
Inductive mode :=
| MOrd
| MDef (nest : nat) (prototype : bool) (body : list stmt)
| MLook (a : action) (todo : list id) (nest : nat) (fin found : bool) (back : nat * nat) (saved : snapshot).

Inductive event :=
| Did (s : stmt)          (* the statement was processed *)
| Searched (l : list id)  (* a lookahead for attributes began *)
| E045 (n : id) | E047 (n : id) | E058 | E062 | Checked.

Record state := mk {
  st_data : data; src : source; macros : list mframe; refs : list (id * attr);
  seqs : list (id * ((nat * nat) * snapshot)); stop : snapshot; st_mode : mode; log : list event }.

Inductive outcome := Next (st : state) | Done (st : state) | Out_of_bounds | Null_operand | No_member.

Definition set_src (s : source) (st : state) : state :=
  mk (st_data st) s (macros st) (refs st) (seqs st) (stop st) (st_mode st) (log st).
Definition set_mode (m : mode) (st : state) : state :=
  mk (st_data st) (src st) (macros st) (refs st) (seqs st) (stop st) m (log st).
Definition set_macros (l : list mframe) (st : state) : state :=
  mk (st_data st) (src st) l (refs st) (seqs st) (stop st) (st_mode st) (log st).
Definition set_data (d : data) (st : state) : state :=
  mk d (src st) (macros st) (refs st) (seqs st) (stop st) (st_mode st) (log st).
Definition set_stop (n : snapshot) (st : state) : state :=
  mk (st_data st) (src st) (macros st) (refs st) (seqs st) n (st_mode st) (log st).
Definition set_seqs (l : list (id * ((nat * nat) * snapshot))) (st : state) : state :=
  mk (st_data st) (src st) (macros st) (refs st) l (stop st) (st_mode st) (log st).
Definition set_refs (l : list (id * attr)) (st : state) : state :=
  mk (st_data st) (src st) (macros st) l (seqs st) (stop st) (st_mode st) (log st).
Definition tell (e : event) (st : state) : state :=
  mk (st_data st) (src st) (macros st) (refs st) (seqs st) (stop st) (st_mode st) (e :: log st).

Definition set_frames (l : list frame) (s : source) : source :=
  mkS (iline s) (begin s) (end_ s) (eline s) l (pos s) (line s) (eof s).

Fixpoint lookup {V} (n : id) (l : list (id * V)) : option V :=
  match l with [] => None | (m, v) :: l => if Nat.eqb n m then Some v else lookup n l end.

(** processing_context.cpp:27-38: the last frame is one statement back. *)
Definition back_one (l : list frame) : list frame :=
  match l with [] => [] | f :: l => mkF (f_name f) (f_cur f - 1) :: l end.
Definition create_snapshot (s : source) : snapshot := mkN (iline s) (begin s) (end_ s) (eline s) (back_one (frames s)).

(** hlasm_context.cpp:276-299; a position is (line, offset). *)
Definition begin_snapshot (ignore_macros : bool) (st : state) : (nat * nat) * snapshot :=
  let s := src st in
  let in_macros := if ignore_macros then false else match macros st with [] => false | _ => true end in
  let p := match in_macros, frames s with
           | false, [] => (iline s, begin s)
           | _, _ => (eline s + 1, end_ s)
           end in
  let n := create_snapshot s in
  (p, if in_macros then mkN (n_line n) (n_begin n) (n_end n) (n_eline n) (frames s) else n).
(** hlasm_context.cpp:301-313 *)
Definition end_snapshot (st : state) : (nat * nat) * snapshot :=
  let s := src st in
  ((eline s + 1, end_ s), mkN (iline s) (begin s) (end_ s) (eline s) (frames s)).

(** processing_manager.cpp:310-316, parser_impl.cpp:56-61, hlasm_context.cpp:759-776. *)
Definition perform_jump (p : nat * nat) (n : snapshot) (s : source) : source :=
  mkS (n_line n) (n_begin n) (n_end n) (n_eline n) (n_frames n) (snd p) (fst p) false.

Definition frame_eqb (a b : frame) : bool := Nat.eqb (f_name a) (f_name b) && Z.eqb (f_cur a) (f_cur b).
Fixpoint frames_eqb (a b : list frame) : bool :=
  match a, b with
  | [], [] => true
  | x :: a, y :: b => frame_eqb x y && frames_eqb a b
  | _, _ => false
  end.
(** source_snapshot::operator== *)
Definition snapshot_eqb (a b : snapshot) : bool :=
  Nat.eqb (n_eline a) (n_eline b) && Nat.eqb (n_begin a) (n_begin b) && Nat.eqb (n_end a) (n_end b)
    && frames_eqb (n_frames a) (n_frames b).

Definition attr_lookahead (st : state) : bool :=
  match st_mode st with MLook AOrd _ _ _ _ _ _ => true | _ => false end.
(** processing_manager.cpp:281-308 *)
Definition register (n : id) (st : state) : state :=
  if negb (attr_lookahead st) && match macros st with [] => false | _ => true end then st
  else
    let '(p, sn) := begin_snapshot (attr_lookahead st) st in
    match lookup n (seqs st) with
    | None => set_seqs ((n, (p, sn)) :: seqs st) st
    | Some (_, old) => if snapshot_eqb old sn then st else tell (E045 n) st
    end.
Definition register_label (s : stmt) (st : state) : state :=
  match s_lab s with LSeq n => register n st | _ => st end.

(** ordinary_assembly_context::add_symbol_reference: try_emplace *)
Definition add_ref (n : id) (a : attr) (st : state) : state :=
  match lookup n (refs st) with Some _ => st | None => set_refs ((n, a) :: refs st) st end.

(** asm_processor.cpp:533-574; [loud]: there is someone to report to.  *)
Definition report (loud : bool) (e : event) (st : state) : state := if loud then tell e st else st.
Definition process_copy (loud : bool) (o : copied) (st : state) : state + outcome :=
  match o with
  | COther => inr Null_operand                     (* access_expr() is null *)
  | CBad | CExpr => inl (report loud E058 st)
  | CName n =>
      match lib n with
      | None => inl (report loud E058 st)
      | Some _ =>
          if existsb (fun f => Nat.eqb (f_name f) n) (frames (src st)) then inl (report loud E062 st)
          else inl (set_src (set_frames (mkF n (-1) :: frames (src st)) (src st)) st)
      end
  end.

(** A provider: [inl (Some ...)]: a statement, and the provider was open code or not; [inl None]:
    there was none (a member or a macro ended). *)
Definition read_open (st : state) : option (stmt * bool) * state :=
  let s := src st in
  match nth_error program (pos s) with
  | None => (None, set_src (mkS (iline s) (begin s) (end_ s) (eline s) (frames s) (pos s) (line s) true) st)
  | Some x => (Some (x, true),
               set_src (mkS (iline s) (pos s) (S (pos s)) (line s + s_lines x) (frames s) (S (pos s)) (line s + s_lines x + 1) false) st)
  end.
(** copy_statement_provider.cpp:28-40; the vector of statements is indexed without a check. *)
Definition read_copy (f : frame) (rest : list frame) (st : state) : (option (stmt * bool) * state) + outcome :=
  match lib (f_name f) with
  | None => inr No_member                          (* copy_members_.at throws *)
  | Some body =>
      let c := (f_cur f + 1)%Z in
      if Z.eqb c (Z.of_nat (length body)) then inl (None, set_src (set_frames rest (src st)) st)
      else if Z.ltb c 0 then inr Out_of_bounds
      else match nth_error body (Z.to_nat c) with
           | None => inr Out_of_bounds
           | Some x => inl (Some (x, false), set_src (set_frames (mkF (f_name f) c :: rest) (src st)) st)
           end
  end.
(** copy_statement_provider and the open code. *)
Definition read_text (st : state) : (option (stmt * bool) * state) + outcome :=
  match frames (src st) with
  | f :: rest => read_copy f rest st
  | [] => inl (read_open st)
  end.
(** macro_statement_provider.cpp:28-43, processing_manager.cpp:137-154 *)
Definition read_any (st : state) : (option (stmt * bool) * state) + outcome :=
  match macros st with
  | m :: rest =>
      match nth_error (m_body m) (m_next m) with
      | None => inl (None, set_macros rest st)
      | Some x => inl (Some (x, false), set_macros (mkM (m_body m) (S (m_next m)) :: rest) st)
      end
  | [] => read_text st
  end.
(** open code ended, and nothing else is left *)
Definition at_end (st : state) : bool :=
  match macros st, frames (src st) with [], [] => eof (src st) | _, _ => false end.

(** What the lookahead sees of a statement: in open code only the name of a statement that begins with a
    sequence symbol (lookahead_rules.g4:19-25). *)
Definition seen_kind (open : bool) (s : stmt) : kind :=
  match open, s_lab s with true, LSeq _ => KPlain (fun d => d) | _, _ => s_kind s end.

(** lookahead_processor.cpp:271-285 and 287-324; [todo] without the name. *)
Definition remove (n : id) (l : list id) : list id := filter (fun m => negb (Nat.eqb m n)) l.
Definition no_todo (l : list id) : bool := match l with [] => true | _ => false end.
Definition find_label (s : stmt) (st : state) : state :=
  match st_mode st with
  | MLook a todo nest fin found bk sv =>
      match s_lab s with
      | LNone => st
      | LSeq n =>
          let st' := register n st in
          match a with
          | ASeq t => if Nat.eqb n t then set_mode (MLook a todo nest true true bk sv) st' else st'
          | AOrd => st'
          end
      | LOrd n =>
          let st' := match s_attr s (st_data st) with Some v => add_ref n v st | None => st end in
          let todo' := remove n todo in
          set_mode (MLook a todo' nest (match a with AOrd => no_todo todo' | ASeq _ => false end) found bk sv) st'
      end
  | _ => st
  end.

(** lookahead_processor.cpp:46-68, 109-117 *)
Definition set_nest (f : nat -> nat) (st : state) : state :=
  match st_mode st with
  | MLook a todo nest fin found bk sv => set_mode (MLook a todo (f nest) fin found bk sv) st
  | _ => st
  end.
Definition look_statement (s : stmt) (open : bool) (nest : nat) (st : state) : outcome :=
  let st1 := if Nat.eqb nest 0 then find_label s st else st in
  match seen_kind open s with
  | KMacro => Next (set_nest S st1)
  | KMend => Next (set_nest pred st1)
  | KCopy CBad => Next st1
  | KCopy o => if Nat.eqb nest 0 then match process_copy false o st1 with inl st2 => Next st2 | inr e => e end else Next st1
  | _ => Next st1
  end.

(** processing_manager.cpp:246-279; in open code, when the symbol is known *)
Fixpoint label_index (l : list stmt) (t : id) : option nat :=
  match l with
  | [] => None
  | s :: l => match s_lab s with
              | LSeq n => if Nat.eqb n t then Some 0 else option_map S (label_index l t)
              | _ => option_map S (label_index l t)
              end
  end.
(** processing_manager.cpp:183-192 *)
Definition start_lookahead (a : action) (todo : list id) (bk : nat * nat) (sv : snapshot) (st : state) : state :=
  let st1 := if Nat.ltb (end_ (src st)) (n_end (stop st))
             then set_src (perform_jump (n_eline (stop st) + 1, n_end (stop st)) (stop st) (src st)) st
             else st in
  set_mode (MLook a todo 0 (match a with AOrd => no_todo todo | ASeq _ => false end) false bk sv) st1.
Definition jump_in_statements (t : id) (st : state) : state :=
  match macros st with
  | m :: rest =>
      match label_index (m_body m) t with
      | Some i => set_macros (mkM (m_body m) i :: rest) st
      | None => tell (E047 t) st
      end
  | [] =>
      match lookup t (seqs st) with
      | Some (p, sn) => set_src (perform_jump p sn (src st)) st
      | None => let '(p, sn) := end_snapshot st in start_lookahead (ASeq t) [] p sn st
      end
  end.

(** processing_manager.cpp:194-216, lookahead_processor.cpp:70-80 *)
Definition finish_lookahead (a : action) (todo : list id) (found : bool) (bk : nat * nat) (sv : snapshot) (st : state) : state :=
  let st1 := fold_left (fun x n => add_ref n unknown_attr x) todo st in
  let st2 := set_mode MOrd (set_stop (create_snapshot (src st1)) st1) in
  match a with
  | ASeq t =>
      if found then jump_in_statements t st2
      else tell (E047 t) (set_src (perform_jump bk sv (src st2)) st2)
  | AOrd =>
      let st3 := match macros st2 with m :: rest => set_macros (mkM (m_body m) (pred (m_next m)) :: rest) st2 | [] => st2 end in
      set_src (perform_jump bk sv (src st3)) st3
  end.

(** statement_provider.cpp:26-77 *)
Definition unknown (st : state) (n : id) : bool :=
  negb (defined (st_data st) n) && match lookup n (refs st) with None => true | Some _ => false end.
Definition wanted (w : data -> (id -> option attr) -> list id) (st : state) : list id :=
  filter (unknown st) (w (st_data st) (fun n => lookup n (refs st))).
Definition trigger (l : list id) (st : state) : state :=
  let '(p, sn) := begin_snapshot false st in tell (Searched l) (start_lookahead AOrd l p sn st).

(** ordinary_processor.cpp:74-104 *)
Definition ordinary_statement (s : stmt) (st : state) : outcome :=
  let st := tell (Did s) st in
  match s_kind s with
  | KCopy o =>
      let st1 := register_label s st in
      match o with
      | COther | CBad => Next (tell Checked st1)
      | _ => match process_copy true o st1 with inl st2 => Next st2 | inr e => e end
      end
  | KMacro => Next (set_mode (MDef 1 true []) (register_label s st))
  | KMend => Next st
  | KGo f => let st1 := register_label s st in
             match f (st_data st1) with Some t => Next (jump_in_statements t st1) | None => Next st1 end
  | KCall n => match macro_of (st_data st) n with Some b => Next (set_macros (mkM b 0 :: macros st) st) | None => Next st end
  | KPlain f => let st1 := if s_reg s then register_label s st else st in Next (set_data (f (st_data st1)) st1)
  end.

Definition set_iline (n : nat) (s : source) : source :=
  mkS n (begin s) (end_ s) (eline s) (frames s) (pos s) (line s) (eof s).

Definition step_ordinary (st : state) : outcome :=
  if at_end st then Done st
  else match read_any st with
       | inr e => e
       | inl (None, st1) => Next st1
       | inl (Some (s, open), st1) =>
           match wanted (s_wants1 s) st1 with
           | (_ :: _) as l => Next (trigger l st1)
           | [] =>
               let st2 := if open then set_src (set_iline (line (src st)) (src st1)) st1 else st1 in
               match wanted (s_wants2 s) st2 with
               | (_ :: _) as l => Next (trigger l st2)
               | [] => ordinary_statement s st2
               end
           end
       end.

(** macrodef_processor.cpp:86-104, 143-192, 351-387 *)
Definition finish_definition (body : list stmt) (st : state) : state :=
  set_mode MOrd (set_data (define (rev body) (st_data st)) st).
Definition step_definition (nest : nat) (prototype : bool) (body : list stmt) (st : state) : outcome :=
  if at_end st then Next (finish_definition body st)
  else match read_any st with
       | inr e => e
       | inl (None, st1) => Next st1
       | inl (Some (s, open), st0) =>
           let st1 := if open then set_src (set_iline (line (src st)) (src st0)) st0 else st0 in
           if prototype then Next (set_mode (MDef nest false (s :: body)) st1)
           else match s_kind s with
                | KMacro => Next (set_mode (MDef (S nest) false (s :: body)) st1)
                | KMend => match nest with
                           | S (S k) => Next (set_mode (MDef (S k) false (s :: body)) st1)
                           | _ => Next (finish_definition (s :: body) st1)
                           end
                | KCopy o => match process_copy true o (set_mode (MDef nest false (s :: body)) st1) with
                             | inl st2 => Next st2
                             | inr e => e
                             end
                | _ => Next (set_mode (MDef nest false (s :: body)) st1)
                end
       end.

Definition look_end (st : state) : bool := match frames (src st) with [] => eof (src st) | _ => false end.
Definition step_look (a : action) (todo : list id) (nest : nat) (fin found : bool) (bk : nat * nat) (sv : snapshot) (st : state) : outcome :=
  if look_end st || fin then Next (finish_lookahead a todo found bk sv st)
  else match read_text st with
       | inr e => e
       | inl (None, st1) => Next st1
       | inl (Some (s, open), st1) => look_statement s open nest (if open then set_src (set_iline (line (src st)) (src st1)) st1 else st1)
       end.

Definition step (st : state) : outcome :=
  match st_mode st with
  | MOrd => step_ordinary st
  | MDef nest p body => step_definition nest p body st
  | MLook a todo nest fin found bk sv => step_look a todo nest fin found bk sv st
  end.

Fixpoint steps (n : nat) (st : state) : outcome :=
  match n with
  | O => Next st
  | S n => match step st with Next st' => steps n st' | o => o end
  end.

Definition no_stop : snapshot := mkN 0 0 0 0 [].
Definition initial (d : data) : state := mk d (mkS 0 0 0 0 [] 0 0 false) [] [] [] no_stop MOrd [].
End Look.

Arguments KCopy {data}. Arguments KMacro {data}. Arguments KMend {data}. Arguments KGo {data}. Arguments KCall {data}. Arguments KPlain {data}.
Arguments mkStmt {attr data}. Arguments s_lab {attr data}. Arguments s_kind {attr data}. Arguments s_lines {attr data}.
Arguments s_wants1 {attr data}. Arguments s_wants2 {attr data}. Arguments s_attr {attr data}. Arguments s_reg {attr data}.
Arguments mkM {attr data}. Arguments m_body {attr data}. Arguments m_next {attr data}.
Arguments MOrd {attr data}. Arguments MDef {attr data}. Arguments MLook {attr data}.
Arguments Did {attr data}. Arguments Searched {attr data}. Arguments E045 {attr data}. Arguments E047 {attr data}. Arguments E058 {attr data}. Arguments E062 {attr data}. Arguments Checked {attr data}.
Arguments mk {attr data}. Arguments st_data {attr data}. Arguments src {attr data}. Arguments macros {attr data}. Arguments refs {attr data}.
Arguments seqs {attr data}. Arguments stop {attr data}. Arguments st_mode {attr data}. Arguments log {attr data}.
Arguments Next {attr data}. Arguments Done {attr data}. Arguments Out_of_bounds {attr data}. Arguments Null_operand {attr data}. Arguments No_member {attr data}.
Arguments set_src {attr data}. Arguments set_mode {attr data}. Arguments set_macros {attr data}. Arguments set_data {attr data}. Arguments set_stop {attr data}.
Arguments set_seqs {attr data}. Arguments set_refs {attr data}. Arguments tell {attr data}. Arguments begin_snapshot {attr data}. Arguments end_snapshot {attr data}.
Arguments attr_lookahead {attr data}. Arguments register {attr data}. Arguments register_label {attr data}. Arguments add_ref {attr data}. Arguments report {attr data}.
Arguments process_copy {attr data}. Arguments read_open {attr data}. Arguments read_copy {attr data}. Arguments read_text {attr data}. Arguments read_any {attr data}.
Arguments at_end {attr data}. Arguments seen_kind {attr data}. Arguments find_label {attr data}. Arguments set_nest {attr data}. Arguments look_statement {attr data}.
Arguments label_index {attr data}. Arguments start_lookahead {attr data}. Arguments jump_in_statements {attr data}. Arguments finish_lookahead {attr data}.
Arguments unknown {attr data}. Arguments wanted {attr data}. Arguments trigger {attr data}. Arguments ordinary_statement {attr data}. Arguments step_ordinary {attr data}.
Arguments finish_definition {attr data}. Arguments step_definition {attr data}. Arguments look_end {attr data}. Arguments step_look {attr data}. Arguments step {attr data}. Arguments steps {attr data}. Arguments initial {attr data}.
