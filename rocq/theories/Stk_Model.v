(** Which statement is read next, and the stack of places that diagnostics, symbols and the debugger get for it.

    Modelled code (parser_library/src/):
      context/hlasm_context.cpp:267 (set_source_position), 276-334 (snapshots, sources), 340-388
      (processing_stack, current_statement_location), 705-720 (enter_macro, leave_macro), 744-776
      (copy members, apply_source_snapshot);
      context/processing_context.cpp:27-38, copy_member.h, macro.cpp:171-184;
      processing/processing_manager.cpp:97-152 (the loop and find_provider), 38-62 (the providers of a
      manager), 193-224, 249-326 (lookaheads, jumps);
      processing/statement_providers/copy_statement_provider.cpp, macro_statement_provider.cpp (all);
      processing/statement_processors/macrodef_processor.cpp:31, 40, 82, 175-176, 457-467 (copy nests);
      diagnosable_ctx.h:34-68, checking/diagnostic_collector.cpp (what is reported where).

    Simplifications.  What statements do is not modelled: the operations [op] are the ways in which they
    change the stacks, in any order.  The vectors are lists with the last element first.  A member or a macro is
    given with its statements' places.  A library file is read by a manager of its own (38-62), which has no macro
    provider; the source pushed for it is popped when it has been read.  ACTR, the end of open code and the
    positions in the text (Look_Model.v) are left out: the place of the next statement of open code is given. *)
From Coq Require Import String.
From Coq Require Import List NArith ZArith Bool.
From Verif Require Import Common.
Import ListNotations.
Open Scope Z_scope.

Definition pos := (N * N)%type.
Record loc := Loc { l_pos : pos; l_file : bytes }.
(** copy_member.h: a member, a use of it *)
Record member := { m_file : bytes; m_stmts : list pos }.
Record invo := Invo { i_member : member; i_cur : Z }.
(** source_context *)
Record source := Source { s_file : bytes; s_pos : pos; s_copies : list invo }.
(** macro_invocation: copy_nests and current_statement; the definition has as many statements as nests *)
Record minvo := Minvo { v_nests : list (list loc); v_cur : Z }.
(** source_snapshot *)
Record snapshot := Snap { n_pos : pos; n_copies : list invo }.
(** for an attribute, for a sequence symbol *)
Inductive lookahead := ORD | SEQ.
Record ctx := Ctx {
  sources : list source;
  macros : list minvo;
  looking : option (lookahead * snapshot);       (* a lookahead runs; where it returns to *)
  marks : list snapshot }.         (* opencode sequence symbols *)

Definition start (file : bytes) : ctx := Ctx [Source file (0%N, 0%N) []] [] None [].

(** The element of a vector at an int made size_t; [None]: outside of the vector. *)
Definition at_ {A} (l : list A) (k : Z) : option A := if k <? 0 then None else nth_error l (Z.to_nat k).
Definition bind {A B} (o : option A) (f : A -> option B) : option B := match o with Some x => f x | None => None end.
Fixpoint each {A B} (f : A -> option B) (l : list A) : option (list B) :=
  match l with
  | [] => Some []
  | x :: r => bind (f x) (fun y => bind (each f r) (fun ys => Some (y :: ys)))
  end.

(** ** processing_stack *)
Inductive ptype := OPENCODE | MACRO | COPY.
Record frame := Frame { f_loc : loc; f_type : ptype }.
Definition copy_loc (i : invo) : option loc :=
  bind (at_ (m_stmts (i_member i)) (i_cur i)) (fun p => Some (Loc p (m_file (i_member i)))).
Definition source_frames (s : source) : option (list frame) :=
  bind (each copy_loc (rev (s_copies s))) (fun ls =>
  Some (Frame (Loc (s_pos s) (s_file s)) OPENCODE :: map (fun l => Frame l COPY) ls)).
Definition nest_frames (nest : list loc) : list frame :=
  match nest with
  | [] => []
  | l :: r => Frame l MACRO :: map (fun l => Frame l COPY) r
  end.
Definition macro_frames (v : minvo) : option (list frame) :=
  bind (at_ (v_nests v) (v_cur v)) (fun nest => Some (nest_frames nest)).
Definition processing_stack (c : ctx) : option (list frame) :=
  match rev (sources c) with
  | [] => Some []
  | s0 :: r =>
      bind (source_frames s0) (fun a =>
      bind (each macro_frames (rev (macros c))) (fun b =>
      bind (each source_frames r) (fun d => Some (a ++ List.concat b ++ List.concat d))))
  end.
(** 369-388 *)
Definition last_loc (l : list loc) : option loc := match rev l with [] => None | x :: _ => Some x end.
Definition current_statement_location (c : ctx) : option loc :=
  match sources c, macros c with
  | [], _ => None
  | s :: r, ms =>
      match r, ms with
      | [], m :: _ => bind (at_ (v_nests m) (v_cur m)) last_loc
      | _, _ => match s_copies s with
                | i :: _ => copy_loc i
                | [] => Some (Loc (s_pos s) (s_file s))
                end
      end
  end.

(** ** Diagnostics: file, place and the chain of "While compiling" *)
Record related := Related { r_file : bytes; r_pos : pos; r_text : bytes }.
Definition while_compiling (l : loc) : related :=
  Related (l_file l) (l_pos l) (s2b "While compiling " ++ l_file l ++ s2b "(" ++ dec (fst (l_pos l) + 1) ++ s2b ")").
(** [None]: back() of an empty vector *)
Definition report (stack : list frame) : option (bytes * list related) :=
  match rev stack with
  | [] => None
  | f :: r => Some (l_file (f_loc f), map (fun f => while_compiling (f_loc f)) r)
  end.
(** A diagnostic of a statement that was put off is reported for the place saved with it. *)
Definition collect (saved : list frame) (c : ctx) : option (bytes * list related) :=
  match saved with
  | [] => bind (processing_stack c) report
  | _ => report saved
  end.

(** ** The statements *)
Definition set_last (s : source) (c : ctx) : ctx := Ctx (s :: tl (sources c)) (macros c) (looking c) (marks c).
Definition set_macros (ms : list minvo) (c : ctx) : ctx := Ctx (sources c) ms (looking c) (marks c).

Definition copy_next (s : source) (c : ctx) : option (ctx * option loc) :=
  match s_copies s with
  | [] => None
  | i :: r =>
      let k := i_cur i + 1 in
      if k =? Z.of_nat (List.length (m_stmts (i_member i)))
      then Some (set_last (Source (s_file s) (s_pos s) r) c, None)
      else let i' := Invo (i_member i) k in
           bind (copy_loc i') (fun l => Some (set_last (Source (s_file s) (s_pos s) (i' :: r)) c, Some l))
  end.
Definition open_next (p : pos) (s : source) (c : ctx) : option (ctx * option loc) :=
  Some (set_last (Source (s_file s) p (s_copies s)) c, Some (Loc p (s_file s))).
Definition macro_next (m : minvo) (r : list minvo) (c : ctx) : option (ctx * option loc) :=
  let k := v_cur m + 1 in
  if k =? Z.of_nat (List.length (v_nests m)) then Some (set_macros r c, None)
  else let m' := Minvo (v_nests m) k in
       bind (at_ (v_nests m) k) (fun nest => bind (last_loc nest) (fun l => Some (set_macros (m' :: r) c, Some l))).
Definition attr_lookahead_active (c : ctx) : bool := match looking c with Some (ORD, _) => true | _ => false end.
(** find_provider, get_next; [p]: the place of the next statement of the text *)
Definition next (p : pos) (c : ctx) : option (ctx * option loc) :=
  match sources c with
  | [] => None
  | s :: r =>
      let from_text := match s_copies s with [] => open_next p s c | _ => copy_next s c end in
      match r, attr_lookahead_active c, macros c with
      | [], false, m :: ms => macro_next m ms c
      | _, _, _ => from_text
      end
  end.

Definition pred_top (l : list invo) : list invo :=
  match l with [] => [] | i :: r => Invo (i_member i) (i_cur i - 1) :: r end.
(** create_snapshot *)
Definition create_snapshot (s : source) : snapshot := Snap (s_pos s) (pred_top (s_copies s)).
(** get_begin_snapshot *)
Definition begin_snapshot (ignore_macros : bool) (s : source) (c : ctx) : snapshot :=
  match ignore_macros, macros c with
  | false, _ :: _ => Snap (s_pos s) (s_copies s)      (* decremented and incremented *)
  | _, _ => create_snapshot s
  end.
(** get_end_snapshot *)
Definition end_snapshot (s : source) : snapshot := Snap (s_pos s) (s_copies s).
Definition apply (n : snapshot) (s : source) : source := Source (s_file s) (n_pos n) (n_copies n).

Inductive op :=
| Next (p : pos)
| EnterCopy (m : member)
| EnterMacro (nests : list (list loc))
| PushSource (file : bytes)
| PopSource
| BranchMacro (k : nat)            (* AIF, AGO in a macro: the label stands at statement k *)
| Mark                              (* a sequence symbol is met in open code *)
| Jump (n : nat)                    (* AIF, AGO to one met before *)
| LookStart (a : lookahead)
| LookEnd.

Definition step (o : op) (c : ctx) : option (ctx * option loc) :=
  match sources c with
  | [] => None
  | s :: r =>
      match o with
      | Next p => next p c
      | EnterCopy m => Some (set_last (Source (s_file s) (s_pos s) (Invo m (-1) :: s_copies s)) c, None)
      | EnterMacro nests => Some (set_macros (Minvo nests (-1) :: macros c) c, None)
      | PushSource f => Some (Ctx (Source f (0%N, 0%N) [] :: sources c) (macros c) (looking c) (marks c), None)
      | PopSource => Some (Ctx r (macros c) (looking c) (marks c), None)
      | BranchMacro k =>
          match macros c with
          | [] => None
          | m :: ms => Some (set_macros (Minvo (v_nests m) (Z.of_nat k - 1) :: ms) c, None)
          end
      | Mark => Some (Ctx (sources c) (macros c) (looking c)
                          (begin_snapshot (attr_lookahead_active c) s c :: marks c), None)
      | Jump n => bind (nth_error (marks c) n) (fun m => Some (set_last (apply m s) c, None))
      | LookStart a =>
          Some (Ctx (sources c) (macros c)
                    (Some (a, match a with ORD => begin_snapshot false s c | SEQ => end_snapshot s end)) (marks c), None)
      | LookEnd =>
          bind (looking c) (fun n =>
          Some (Ctx (apply (snd n) s :: r)
                    (match fst n, macros c with
                     | ORD, m :: ms => Minvo (v_nests m) (v_cur m - 1) :: ms
                     | _, ms => ms
                     end)
                    None (marks c), None))
      end
  end.

(** ** The copy nests of a macro definition *)
Record defining := Defining { d_initial : nat; d_file : bytes; d_outer : pos; d_nests : list (list loc) }.
(** 31, 40 *)
Definition start_definition (c : ctx) : option defining :=
  match sources c with
  | [] => None
  | s :: _ => bind (processing_stack c) (fun st =>
              match rev st with
              | [] => None
              | f :: _ => Some (Defining (List.length (s_copies s)) (l_file (f_loc f)) (0%N, 0%N) [])
              end)
  end.
(** 175-176, 457-467: a statement of the body, standing at [l] *)
Definition define (l : loc) (c : ctx) (d : defining) : option defining :=
  match sources c with
  | [] => None
  | s :: _ =>
      let outer := if Nat.eqb (List.length (s_copies s)) (d_initial d) then l_pos l else d_outer d in
      bind (each copy_loc (skipn (d_initial d) (rev (s_copies s)))) (fun ls =>
      Some (Defining (d_initial d) (d_file d) outer (d_nests d ++ [Loc outer (d_file d) :: ls])))
  end.
