(** Sections, location counters and the definition of ordinary symbols.
    parser_library/src/context/ordinary_assembly/ordinary_assembly_context.cpp, section.cpp;
    processing/instruction_sets/asm_processor.cpp (process_sect, process_LOCTR, process_EQU,
    process_data_instruction, process_EXTRN, process_ORG) and mach_processor.cpp.

    Simplifications.  Identifiers are interned and represented by numbers, [0] being
    [id_storage::empty_id] (no label, or an invalid one).  The state of a location counter is of any
    type [L] and storage operations are any functions on it (they are modelled in Loctr_Model.v);
    addresses are of any type [A].  Operand expressions are functions from the state to what the code
    asks about them.  The tables of dependencies are not kept (Dep_Model.v): values and lengths that are
    not known when a symbol is defined may be filled in after any statement ([settle]).  The checks of
    operands that change nothing are left out. *)
From Coq Require Import ZArith Bool Arith List.
Import ListNotations.

Definition name := nat.
(** section.h:25-31. *)
Inductive skind := DUMMY | COMMON | EXECUTABLE | READONLY.
Definition skind_eqb (a b : skind) : bool :=
  match a, b with DUMMY, DUMMY | COMMON, COMMON | EXECUTABLE, EXECUTABLE | READONLY, READONLY => true | _, _ => false end.
(** symbol_attributes.h:40-47; the type attribute as the letter it stands for or as a number. *)
Inductive origin := SECT | MACH | EQU | DAT.
Inductive type_attr := TJ | TI | TT | TU | TNum (z : Z).
Record attrs := mkAttrs { t_origin : origin; t_type : type_attr; t_length : option Z }.
Inductive diag := E031 | E033 | E053 | A133 | A134 | A115 | A116 | A245 | Other (n : nat).

(** [std::vector] access by position. *)
Fixpoint upd {X} (l : list X) (i : nat) (f : X -> X) : list X :=
  match l, i with
  | [], _ => []
  | x :: l', O => f x :: l'
  | x :: l', S i' => x :: upd l' i' f
  end.
Fixpoint index {X} (p : X -> bool) (l : list X) : option nat :=
  match l with
  | [] => None
  | x :: l' => if p x then Some 0%nat else option_map S (index p l')
  end.

Section Sect.
  Variable L : Type.
  Variable fresh : bool -> L.                  (* location_counter.cpp:29-42; [true]: STARTING *)
  Variable A : Type.
  Variable here : nat -> nat -> L -> A.        (* current_address: section, counter, its state *)

  Record ctr := mkC { c_name : name; c_at : L }.
  Record sec := mkS { s_name : name; s_kind : skind; s_ctrs : list ctr; s_cur : nat }.
  Inductive value := VUndef | VAbs (z : Z) | VReloc (a : A).
  (** symbol.h; [e_place] is where the definition is. *)
  Record entry := mkE { e_value : value; e_attrs : attrs; e_place : nat }.
  (** ordinary_assembly_context.h:36-42. *)
  Record st := mk { secs : list sec; cur : option nat; syms : list (name * entry) }.

  Fixpoint find_sym (l : list (name * entry)) (n : name) : option entry :=
    match l with [] => None | (m, e) :: l' => if Nat.eqb m n then Some e else find_sym l' n end.
  (** 190 *)
  Definition symbol_defined (n : name) (x : st) : bool := match find_sym (syms x) n with Some _ => true | None => false end.
  (** 192-197 *)
  Definition is_section (n : name) (k : skind) (s : sec) : bool := Nat.eqb (s_name s) n && skind_eqb (s_kind s) k.
  Definition section_defined (n : name) (k : skind) (x : st) : bool := existsb (is_section n k) (secs x).
  (** section.cpp:24-31 *)
  Definition new_section (n : name) (k : skind) : sec := mkS n k [mkC n (fresh true)] 0.
  (** 25-29, and the guard in front of each use of the current section *)
  Definition ensure (x : st) : st :=
    match cur x with
    | Some _ => x
    | None => mk (secs x ++ [new_section 0 EXECUTABLE]) (Some (length (secs x))) (syms x)
    end.
  (** section.cpp:47-52 *)
  Definition has_counter (n : name) (s : sec) : bool := existsb (fun c => Nat.eqb (c_name c) n) (s_ctrs s).
  (** 199-210: also creates the private section. *)
  Definition counter_defined (n : name) (x : st) : bool := existsb (has_counter n) (secs (ensure x)).
  (** 42-45: [create_symbol]; [None]: throws. *)
  Definition emplace (n : name) (e : entry) (x : st) : option st :=
    if symbol_defined n x then None else Some (mk (secs x) (cur x) ((n, e) :: syms x)).

  Definition section_attrs := mkAttrs SECT TJ (Some 1%Z).
  Definition extrn_attrs := mkAttrs SECT TT (Some 1%Z).
  Definition org_attrs := mkAttrs SECT TU None.
  Definition machine_attrs (len : Z) := mkAttrs MACH TI (Some len).

  (** 83-102 [set_section]; [None]: throws. *)
  Definition set_section (n : name) (k : skind) (p : nat) (x : st) : option st :=
    match index (is_section n k) (secs x) with
    | Some i => Some (mk (secs x) (Some i) (syms x))
    | None =>
        if symbol_defined n x then None
        else Some (mk (secs x ++ [new_section n k]) (Some (length (secs x)))
                      ((n, mkE (VReloc (here (length (secs x)) 0 (fresh true))) section_attrs p) :: syms x))
    end.
  (** section.cpp:33-45 *)
  Definition set_counter (n : name) (s : sec) : sec :=
    match index (fun c => Nat.eqb (c_name c) n) (s_ctrs s) with
    | Some i => mkS (s_name s) (s_kind s) (s_ctrs s) i
    | None => mkS (s_name s) (s_kind s) (s_ctrs s ++ [mkC n (fresh false)]) (length (s_ctrs s))
    end.
  (** 109-118: the last section that has the counter. *)
  Fixpoint last_with (n : name) (l : list sec) (i : nat) : option nat :=
    match l with
    | [] => None
    | s :: l' => match last_with n l' (S i) with Some j => Some j | None => if has_counter n s then Some i else None end
    end.
  (** the address of the current location: [current_address] of the current counter *)
  Definition address_in (x : st) : option A :=
    match cur x with
    | None => None
    | Some i => match nth_error (secs x) i with
                | None => None
                | Some s => match nth_error (s_ctrs s) (s_cur s) with
                            | None => None
                            | Some c => Some (here i (s_cur s) (c_at c))
                            end
                end
    end.
  (** 104-131 [set_location_counter]; [None]: throws. *)
  Definition set_location_counter (n : name) (p : nat) (x : st) : option st :=
    let x := ensure x in
    match last_with n (secs x) 0 with
    | Some i => Some (mk (upd (secs x) i (set_counter n)) (Some i) (syms x))
    | None =>
        match cur x with
        | None => None
        | Some i =>
            let y := mk (upd (secs x) i (set_counter n)) (Some i) (syms x) in
            match address_in y with
            | None => None
            | Some a => emplace n (mkE (VReloc a) section_attrs p) y
            end
        end
    end.
  (** 212-225, 249-264, 142-188: a storage operation on the current counter. *)
  Definition use (f : L -> L) (x : st) : st :=
    let x := ensure x in
    match cur x with
    | None => x
    | Some i => mk (upd (secs x) i (fun s => mkS (s_name s) (s_kind s)
                       (upd (s_ctrs s) (s_cur s) (fun c => mkC (c_name c) (f (c_at c)))) (s_cur s))) (cur x) (syms x)
    end.

  (** What the code asks an operand expression, dependency_collector.h: whether there are undefined
      symbols, undefined attributes or unresolved spaces among the factors, the [unresolved_address]
      with whether it has bases and unresolved spaces, the value, and the symbol that is its leftmost
      term. *)
  Record expr := mkX { x_syms : bool; x_refs : bool; x_unres : option A; x_based : bool; x_spaces : bool;
                       x_val : value; x_left : option name }.
  Definition has_unres (e : expr) : bool := match x_unres e with Some _ => true | None => false end.
  (** dependency_collector.cpp:64-68 *)
  Definition x_pending (e : expr) : bool := x_syms e || x_refs e || (has_unres e && x_spaces e).
  (** 58-61 *)
  Definition x_is_addr (e : expr) : bool := negb (x_syms e) && has_unres e && x_based e.
  (** asm_processor.cpp:398-399 *)
  Definition x_parts (e : expr) : bool := x_syms e || x_refs e.
  Inductive operand := OEmpty | ONoExpr | OExpr (f : st -> expr).

  (** Statements.  Storage operations: the alignment in front and the area itself. *)
  Inductive stmt :=
  | SSect (k : skind) (n : name) (p : nat)
  | SLoctr (n : name) (p : nat)
  | SEqu (labelled : bool) (n : name) (ops : list operand) (p : nat)
  | SMach (n : name) (len : Z) (al re : L -> L) (p : nat)
  | SData (n : name) (first : bool) (a : attrs) (al re : L -> L) (p : nat)
  | SOrg (n : name) (ops : list operand) (p : nat)
  | SExtrn (ns : list (option name)) (p : nat)     (* operands; [None]: not a symbol *)
  | SOther.

  Inductive result := Ok (x : st) (ds : list diag) | Throws.

  (** symbol_dependency_tables.cpp [check_loctr_cycle], for relocatable values (47-50) ... *)
  Variable cycle : st -> bool.
  (** ... [add_dependency] of a symbol, ... *)
  Variable dep_cycle : name -> st -> bool.
  (** ... low_language_processor.cpp:134-154 [check_address_for_ORG], and the movements of ORG. *)
  Variable org_check : A -> A -> Z -> Z -> option nat.
  Variable org_to : A -> Z -> Z -> bool -> L -> L.
  Variable org_max : Z -> Z -> L -> L.
  Variable no_align : L -> L.

  (** low_language_processor.cpp:54-65 [create_symbol] *)
  Definition create (n : name) (v : value) (a : attrs) (p : nat) (x : st) (ds : list diag) : result :=
    match emplace n (mkE v a p) x with
    | None => Throws
    | Some y => Ok y (ds ++ match v with VReloc _ => if cycle y then [E033] else [] | _ => [] end)
    end.
  (** 27-42 *)
  Definition proc_sect (k : skind) (n : name) (p : nat) (x : st) : result :=
    if symbol_defined n x && negb (section_defined n k x) then Ok x [E031]
    else match set_section n k p x with Some y => Ok y [] | None => Throws end.
  (** 44-62 *)
  Definition proc_loctr (n : name) (p : nat) (x : st) : result :=
    let d := if Nat.eqb n 0 then [E053] else [] in
    if symbol_defined n x then
      if counter_defined n x then match set_location_counter n p (ensure x) with Some y => Ok y d | None => Throws end
      else Ok (ensure x) (d ++ [E031])
    else match set_location_counter n p x with Some y => Ok y d | None => Throws end.
  (** 80-118: an operand that gives an attribute *)
  Definition attr_operand (o : option operand) (hi : Z) (bad : diag) (x : st) : option Z * list diag :=
    match o with
    | None | Some OEmpty => (None, [])
    | Some ONoExpr => (None, [bad])
    | Some (OExpr f) =>
        let e := f x in
        if x_pending e then (None, [bad])
        else match x_val e with
             | VAbs z => if (0 <=? z)%Z && (z <=? hi)%Z then (Some z, []) else (None, [bad])
             | _ => (None, [bad])
             end
    end.
  (** 130-144: the length attribute of the leftmost term; a length that is not known yet stays so *)
  Definition left_length (e : expr) (x : st) : option Z :=
    match x_left e with
    | None => Some 1%Z
    | Some m => match find_sym (syms x) m with
                | Some y => match e_value y with VUndef => Some 1%Z | _ => t_length (e_attrs y) end
                | None => Some 1%Z
                end
    end.
  (** 64-173 *)
  Definition proc_equ (labelled : bool) (n : name) (ops : list operand) (p : nat) (x : st) : result :=
    if Nat.eqb n 0 then Ok x (if labelled then [] else [E053])
    else if symbol_defined n x then Ok x [E031]
    else
      let '(t, d1) := attr_operand (nth_error ops 2) 255 A134 x in
      let '(l, d2) := attr_operand (nth_error ops 1) 65535 A133 x in
      let ds := d1 ++ d2 in
      match nth_error ops 0 with
      | Some (OExpr f) =>
          let e := f x in
          let a := mkAttrs EQU (match t with Some z => TNum z | None => TU end)
                     (match l with Some z => Some z | None => left_length e x end) in
          if negb (x_pending e) then create n (x_val e) a p x ds
          else if negb (x_is_addr e) then
            match create n VUndef a p x ds with
            | Ok y ds' => Ok y (ds' ++ if dep_cycle n y then [E033] else [])
            | Throws => Throws
            end
          else match x_unres e with Some u => create n (VReloc u) a p x ds | None => Throws end
      | _ => Ok x ds
      end.
  (** The address of the current location after a storage operation. *)
  Definition align (f : L -> L) (x : st) : st * option A := let y := use f x in (y, address_in y).
  Definition define_at (n : name) (a : attrs) (p : nat) (o : option A) (x : st) : result :=
    match o with None => Throws | Some v => create n (VReloc v) a p x [] end.
  Definition after (r : result) (f : st -> st) : result := match r with Ok x ds => Ok (f x) ds | Throws => Throws end.
  (** mach_processor.cpp:44-84 *)
  Definition proc_mach (n : name) (len : Z) (al re : L -> L) (p : nat) (x : st) : result :=
    after (if Nat.eqb n 0 then Ok x []
           else if symbol_defined n x then Ok x [E031]
           else let '(y, o) := align al x in define_at n (machine_attrs len) p o y) (use re).
  (** 178-298 *)
  Definition proc_data (n : name) (first : bool) (a : attrs) (al re : L -> L) (p : nat) (x : st) : result :=
    let '(y, o) := align al x in
    after (if negb (Nat.eqb n 0) && first then
             if symbol_defined n y then Ok y [E031] else define_at n a p o y
           else Ok y []) (use re).
  (** 344-354 *)
  Definition abs_value (e : expr) : option Z :=
    if x_pending e then None else match x_val e with VAbs z => Some z | _ => None end.
  Definition boundary_ok (z : Z) : bool :=
    (2 <=? z)%Z && (z <=? 4096)%Z && (Z.land z (z - 1) =? 0)%Z.
  (** 378-428: [inl]: the loop came to its end or was left by [break]; [inr]: returned. *)
  Inductive looped := Left (first : option expr) (b o : Z) (ds : list diag) | Returned (ds : list diag).
  Fixpoint org_loop (i : nat) (ops : list operand) (x : st) (first : option expr) (b o : Z) : looped :=
    match ops with
    | [] => Left first b o []
    | OEmpty :: ops' => org_loop (S i) ops' x first b o
    | ONoExpr :: _ => Left first b o [if Nat.eqb i 0 then A245 else A115]
    | OExpr f :: ops' =>
        let e := f x in
        match i with
        | 0 => match x_unres e with None => Returned [A245] | Some _ => org_loop (S i) ops' x (Some e) b o end
        | 1 => match abs_value e with
               | Some z => if boundary_ok z then org_loop (S i) ops' x first z o else Returned [A116]
               | None => Returned [A116]
               end
        | 2 => match abs_value e with Some z => org_loop (S i) ops' x first b z | None => Returned [A115] end
        | _ => org_loop (S i) ops' x first b o
        end
    end.
  (** 356-451 *)
  Definition proc_org (n : name) (ops : list operand) (p : nat) (x : st) : result :=
    let r := if Nat.eqb n 0 then Ok x []
             else if symbol_defined n x then Ok x [E031]
             else let '(y, o) := align no_align x in define_at n org_attrs p o y in
    match r with
    | Throws => Throws
    | Ok x d1 =>
        match org_loop 0 ops x None 0 0 with
        | Returned ds => Ok x (d1 ++ ds)
        | Left None b o ds => Ok (use (org_max b o) x) (d1 ++ ds)
        | Left (Some e) b o ds =>
            match (if x_parts e then x_unres e else match x_val e with VReloc a => Some a | _ => None end) with
            | None => Throws     (* std::get of a value that is not an address *)
            | Some a =>
                let '(y, here) := align no_align x in
                match here with
                | None => Throws
                | Some h =>
                    match org_check a h b o with
                    | Some d => Ok y (d1 ++ ds ++ [Other d])
                    | None => Ok (use (org_to a b o (x_parts e)) y) (d1 ++ ds)
                    end
                end
            end
        end
    end.
  (** 324-342: only the first operand, without a test whether the symbol is defined. *)
  Definition proc_extrn (ns : list (option name)) (p : nat) (x : st) : result :=
    match ns with
    | Some m :: _ => let '(y, o) := align no_align x in define_at m extrn_attrs p o y
    | _ => Ok x []
    end.

  Definition proc (s : stmt) (x : st) : result :=
    match s with
    | SSect k n p => proc_sect k n p x
    | SLoctr n p => proc_loctr n p x
    | SEqu b n ops p => proc_equ b n ops p x
    | SMach n len al re p => proc_mach n len al re p x
    | SData n first a al re p => proc_data n first a al re p x
    | SOrg n ops p => proc_org n ops p x
    | SExtrn ns p => proc_extrn ns p x
    | SOther => Ok x []
    end.
  (** low_language_processor.cpp:106-120: an operand that is an expression makes the statement ask for
      the current location first, whether the expression refers to it or not. *)
  Record line := mkL { l_expr : bool; l_stmt : stmt }.
  Definition asked (l : line) (x : st) : st := if l_expr l then use no_align x else x.

  (** symbol_dependency_tables.cpp:68-112, 138-168: values and lengths that become known. *)
  Variable late_value : st -> name -> value.
  Variable late_length : st -> name -> option Z.
  Definition settle_entry (x : st) (n : name) (e : entry) : entry :=
    let a := e_attrs e in
    mkE (match e_value e with VUndef => late_value x n | v => v end)
        (mkAttrs (t_origin a) (t_type a) (match t_length a with None => late_length x n | l => l end)) (e_place e).
  Definition settle (x : st) : st :=
    mk (secs x) (cur x) (map (fun q => (fst q, settle_entry x (fst q) (snd q))) (syms x)).

  Definition step (l : line) (x : st) : result := after (proc (l_stmt l) (asked l x)) settle.
  Fixpoint run (ss : list line) (x : st) : result :=
    match ss with
    | [] => Ok x []
    | s :: ss' => match step s x with
                  | Throws => Throws
                  | Ok y ds => match run ss' y with Ok z ds' => Ok z (ds ++ ds') | Throws => Throws end
                  end
    end.
  Definition init : st := mk [] None [].
End Sect.
Arguments mkC {L}. Arguments c_name {L}. Arguments c_at {L}.
Arguments mkS {L}. Arguments s_name {L}. Arguments s_kind {L}. Arguments s_ctrs {L}. Arguments s_cur {L}.
Arguments VUndef {A}. Arguments VAbs {A}. Arguments VReloc {A}.
Arguments mkE {A}. Arguments e_value {A}. Arguments e_attrs {A}. Arguments e_place {A}.
Arguments mk {L A}. Arguments secs {L A}. Arguments cur {L A}. Arguments syms {L A}.
Arguments find_sym {A}. Arguments symbol_defined {L A}. Arguments is_section {L}. Arguments section_defined {L A}.
Arguments new_section {L}. Arguments ensure {L} fresh {A}. Arguments has_counter {L}. Arguments counter_defined {L} fresh {A}.
Arguments emplace {L A}. Arguments set_section {L} fresh {A}. Arguments set_counter {L}. Arguments last_with {L}.
Arguments address_in {L A}. Arguments set_location_counter {L} fresh {A}. Arguments use {L} fresh {A}.
Arguments mkX {A}. Arguments x_syms {A}. Arguments x_refs {A}. Arguments x_unres {A}. Arguments x_based {A}.
Arguments x_spaces {A}. Arguments x_val {A}. Arguments x_left {A}. Arguments has_unres {A}. Arguments x_pending {A}.
Arguments x_is_addr {A}. Arguments x_parts {A}.
Arguments OEmpty {L A}. Arguments ONoExpr {L A}. Arguments OExpr {L A}.
Arguments SSect {L A}. Arguments SLoctr {L A}. Arguments SEqu {L A}. Arguments SMach {L A}. Arguments SData {L A}.
Arguments SOrg {L A}. Arguments SExtrn {L A}. Arguments SOther {L A}.
Arguments Ok {L A}. Arguments Throws {L A}. Arguments create {L A}. Arguments proc_sect {L} fresh {A}.
Arguments proc_loctr {L} fresh {A}. Arguments attr_operand {L A}. Arguments left_length {L A}. Arguments proc_equ {L A}.
Arguments align {L} fresh {A}. Arguments define_at {L A}. Arguments after {L A}. Arguments proc_mach {L} fresh {A}.
Arguments proc_data {L} fresh {A}. Arguments abs_value {A}. Arguments Left {A}. Arguments Returned {A}.
Arguments org_loop {L A}. Arguments proc_org {L} fresh {A}. Arguments proc_extrn {L} fresh {A}. Arguments proc {L} fresh {A}.
Arguments mkL {L A}. Arguments l_expr {L A}. Arguments l_stmt {L A}. Arguments asked {L} fresh {A}.
Arguments settle_entry {L A}. Arguments settle {L A}. Arguments step {L} fresh {A}. Arguments run {L} fresh {A}.
Arguments init {L A}.
