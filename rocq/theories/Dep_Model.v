(** Forward references: dependencies of symbols, attributes and spaces and their resolution.
    parser_library/src/context/ordinary_assembly/symbol_dependency_tables.cpp,
    dependency_collector.cpp, address_resolver.cpp; parser_library/src/expressions/mach_expr_term.cpp,
    mach_operator.h, mach_expression.cpp.

    Simplifications.  Addresses are kept normalized: a space that is resolved is added to the offset
    when the address is looked up (once per entry, whatever its count, as in address.cpp:124-142), so
    only pending spaces are listed.  Integers are unbounded (an overflow is undefined behaviour in the
    code).  Sets are lists.  The hash table is a list; whatever order it is iterated in is covered by
    the relation below.  Spaces are resolved to lengths: spaces of kind LOCTR_UNKNOWN (an ORG to an
    address not yet known), and with them [adjust_address], are not modelled.  The length expression of
    a DS or DC statement is one expression.  [I'], [T'] and the check of line 183 of
    mach_expr_term.cpp are not modelled. *)
From Coq Require Import List ZArith Bool Arith.
From Verif Require Import Addr_Model Loctr_Model.
Import ListNotations.
Local Open Scope Z_scope.

(** dependant.h, attr_ref in dependency_collector.h. *)
Inductive akind := KL | KS.
Inductive dependant := DSym (id : nat) | DAttr (k : akind) (id : nat) | DSp (id : nat).
Definition akind_eqb (a b : akind) : bool := match a, b with KL, KL | KS, KS => true | _, _ => false end.
Definition dep_eqb (a b : dependant) : bool :=
  match a, b with
  | DSym i, DSym j | DSp i, DSp j => Nat.eqb i j
  | DAttr k i, DAttr k' j => akind_eqb k k' && Nat.eqb i j
  | _, _ => false
  end.

Record addr := mkA { ab : list (nat * Z); ao : Z; asp : list (nat * Z) }.
Inductive val := VUndef | VAbs (z : Z) | VRel (a : addr).

(** What is defined: symbols, attributes, spaces. *)
Record state := mkSt { sy : nat -> option val; att : akind -> nat -> option Z; spl : nat -> option Z }.

(** address.cpp:136-192: the address as it is seen now. *)
Definition pending (s : state) (e : nat * Z) : bool := match spl s (fst e) with Some _ => false | None => true end.
Definition len_of (s : state) (k : nat) : Z := match spl s k with Some l => l | None => 0 end.
Fixpoint offsets (s : state) (l : list (nat * Z)) : Z :=
  match l with [] => 0 | (k, _) :: l' => len_of s k + offsets s l' end.
Definition view (s : state) (a : addr) : addr := mkA (ab a) (ao a + offsets s (asp a)) (filter (pending s) (asp a)).

(** address.cpp:270-291. *)
Definition aadd (a b : addr) : addr := mkA (merge ADD (ab a) (ab b)) (ao a + ao b) (merge ADD (asp a) (asp b)).
Definition asub (a b : addr) : addr := mkA (merge SUB (ab a) (ab b)) (ao a - ao b) (merge SUB (asp a) (asp b)).
Definition aneg (a : addr) : addr := mkA (merge SUB [] (ab a)) (- ao a) (merge SUB [] (asp a)).
Definition ashift (a : addr) (z : Z) : addr := mkA (ab a) (ao a + z) (asp a).
(** symbol.cpp:33-127. *)
Definition fold_addr (a : addr) : val :=
  match ab a, asp a with [], [] => VAbs (ao a) | _, _ => VRel a end.
Definition val_add (x y : val) : val :=
  match x, y with
  | VAbs a, VAbs b => VAbs (a + b)
  | VAbs a, VRel b => VRel (ashift b a)
  | VRel a, VAbs b => VRel (ashift a b)
  | VRel a, VRel b => fold_addr (aadd a b)
  | _, _ => VUndef
  end.
Definition val_sub (x y : val) : val :=
  match x, y with
  | VAbs a, VAbs b => VAbs (a - b)
  | VAbs a, VRel b => VRel (ashift b (- a))
  | VRel a, VAbs b => VRel (ashift a (- b))
  | VRel a, VRel b => fold_addr (asub a b)
  | _, _ => VUndef
  end.
Definition val_mul (x y : val) : val := match x, y with VAbs a, VAbs b => VAbs (a * b) | _, _ => VUndef end.
Definition val_div (x y : val) : val :=
  match x, y with VAbs a, VAbs b => VAbs (if b =? 0 then 0 else Z.quot a b) | _, _ => VUndef end.
Definition val_neg (x : val) : val :=
  match x with VAbs a => VAbs (- a) | VRel a => VRel (aneg a) | VUndef => VUndef end.

(** mach_expr_term.cpp, mach_operator.h; [ELoc] is the location counter filled in at the statement. *)
Inductive bop := OpAdd | OpSub | OpMul | OpDiv.
Inductive expr :=
| EConst (z : Z)
| ESym (id : nat)
| EAttr (k : akind) (id : nat)
| ELoc (a : addr)
| EBin (o : bop) (l r : expr)
| ENeg (e : expr).
Definition default_attr (k : akind) : Z := match k with KL => 1 | KS => 0 end.
(** mach_expr_term.cpp:48, 77-85, 122-128, 175-195; mach_operator.h:129-188. *)
Definition look (s : state) (id : nat) : val :=
  match sy s id with Some (VRel a) => VRel (view s a) | Some v => v | None => VUndef end.
Fixpoint eval (s : state) (e : expr) : val :=
  match e with
  | EConst z => VAbs z
  | ESym id => look s id
  | EAttr k id => VAbs (match att s k id with Some z => z | None => default_attr k end)
  | ELoc a => VRel (view s a)
  | EBin OpAdd l r => val_add (eval s l) (eval s r)
  | EBin OpSub l r => val_sub (eval s l) (eval s r)
  | EBin OpMul l r => val_mul (eval s l) (eval s r)
  | EBin OpDiv l r => val_div (eval s l) (eval s r)
  | ENeg e => val_neg (eval s e)
  end.

(** dependency_collector.h:32-46. *)
Record coll := mkC {
  c_err : bool; c_syms : list nat; c_attrs : list (akind * nat); c_spaces : list nat; c_addr : option addr }.
Definition c_none := mkC false [] [] [] None.
(** dependency_collector.cpp:58-61. *)
Definition is_address (c : coll) : bool :=
  match c_syms c, c_addr c with [], Some a => match ab a with [] => false | _ => true end | _, _ => false end.
(** 69-83 [merge_undef]. *)
Definition merge_undef (c h : coll) : coll * bool :=
  if c_err h then (mkC true (c_syms c) (c_attrs c) (c_spaces c) (c_addr c), true)
  else
    let c' := mkC false (c_syms c ++ c_syms h) (c_attrs c ++ c_attrs h) (c_spaces c ++ c_spaces h) (c_addr c) in
    (c', match c_syms c' with [] => false | _ => true end).
(** 85-109 [add_sub]. *)
Definition add_sub (plus : bool) (c h : coll) : coll :=
  let '(c', fin) := merge_undef c h in
  if fin then c'
  else
    mkC (c_err c') (c_syms c') (c_attrs c') (c_spaces c')
      (match c_addr c', c_addr h with
       | Some a, Some b => Some (if plus then aadd a b else asub a b)
       | None, Some b => Some (if plus then b else aneg b)
       | x, None => x
       end).
(** 111-131 [div_mul]. *)
Definition addr_spaces (x : option addr) : list nat := match x with Some a => map fst (asp a) | None => [] end.
Definition div_mul (c h : coll) : coll :=
  let '(c', fin) := merge_undef c h in
  if fin then c'
  else if is_address c' || is_address h then mkC true (c_syms c') (c_attrs c') (c_spaces c') (c_addr c')
  else mkC (c_err c') (c_syms c') (c_attrs c') (c_spaces c' ++ addr_spaces (c_addr c') ++ addr_spaces (c_addr h)) (c_addr c').
(** mach_expr_term.cpp:43-46, 65-75, 114-120, 163-173; mach_operator.h:190-230. *)
Definition combine (o : bop) (a b : coll) : coll :=
  match o with OpAdd => add_sub true a b | OpSub => add_sub false a b | OpMul | OpDiv => div_mul a b end.
Fixpoint collect (s : state) (e : expr) : coll :=
  match e with
  | EConst _ => c_none
  | ESym id => match look s id with
               | VUndef => mkC false [id] [] [] None
               | VRel a => mkC false [] [] [] (Some a)
               | VAbs _ => c_none
               end
  | EAttr k id => match att s k id with Some _ => c_none | None => mkC false [] [(k, id)] [] None end
  | ELoc a => mkC false [] [] [] (Some (view s a))
  | EBin o l r => combine o (collect s l) (collect s r)
  | ENeg e => add_sub false c_none (collect s e)
  end.

(** What a dependant is resolved from: an expression, or for spaces addresses (address_resolver.cpp):
    an alignment's address, an ORG's current address, target, boundary and displacement, or the
    candidates of an ORG without address. *)
Inductive source :=
| SExpr (e : expr)
| SAlign (a : addr)
| SSet (cur tgt : addr) (b o : Z)
| SMax (cs : list addr) (b o : Z).

(** Kind and alignment of each space (fixed when it is created). *)
Definition kinds := nat -> skind * alignment.
Definition breaks (ks : kinds) (k : nat) : bool :=
  match fst (ks k) with Alignment | LoctrSet | LoctrMax => true | _ => false end.
(** address_resolver.cpp:41-53 [extract_dep_address]: the spaces from the end up to the last one that
    itself waits for the ones before. *)
Fixpoint upto (ks : kinds) (l : list nat) : list nat :=
  match l with
  | [] => []
  | k :: l' => if breaks ks k then [k] else k :: upto ks l'
  end.
Definition dep_spaces (ks : kinds) (s : state) (a : addr) : list nat := upto ks (rev (map fst (asp (view s a)))).

(** symbol_dependency_tables.cpp:176-207 [extract_dependencies]. *)
Definition extract_coll (c : coll) : list dependant :=
  match c_syms c with
  | _ :: _ => map DSym (c_syms c)
  | [] =>
      match c_spaces c with
      | _ :: _ => map DSp (c_spaces c)
      | [] => map (fun r => DAttr (fst r) (snd r)) (c_attrs c) ++ map DSp (addr_spaces (c_addr c))
      end
  end.
Definition extract (ks : kinds) (s : state) (src : source) : list dependant :=
  match src with
  | SExpr e => extract_coll (collect s e)
  | SAlign a => map DSp (dep_spaces ks s a)
  | SSet cur _ _ _ => map DSp (dep_spaces ks s cur)
  | SMax cs _ _ => map DSp (dep_spaces ks s (last cs (mkA [] 0 [])))
  end.

(** mach_expression.cpp:34-42 and address_resolver.cpp:33-39, 63-69, 100-114. *)
Definition undef_zero (v : val) : val := match v with VUndef => VAbs 0 | _ => v end.
Definition aligned (v b o : Z) : Z := v + pad v b + o.
Definition resolve (s : state) (src : source) : val :=
  match src with
  | SExpr e => undef_zero (eval s e)
  | SAlign a => match ab a with [] => VAbs (ao (view s a)) | _ => VRel (view s a) end
  | SSet _ tgt b o => VAbs (aligned (ao (view s tgt)) b o)
  | SMax cs b o => let vs := map (fun a => ao (view s a)) cs in VAbs (aligned (first_greatest vs (-1) (hd 0 vs)) b o)
  end.

(** symbol_dependency_tables.cpp:64-111 [resolve_dependant].  Attributes are stored in an unsigned 32-bit
    and a signed 16-bit field; the values -1 and 32767 mean "not defined" (symbol_attributes.cpp:27-29). *)
Definition wrap (b z : Z) : Z := (z + 2 ^ (b - 1)) mod 2 ^ b - 2 ^ (b - 1).
Definition attr_value (k : akind) (v : val) : option Z :=
  let z := match v with VAbs z => z | _ => default_attr k end in
  match k with
  | KL => let w := wrap 32 z in if w =? -1 then None else Some w
  | KS => let w := wrap 16 z in if w =? 32767 then None else Some w
  end.
Definition space_value (ks : kinds) (k : nat) (v : val) : Z :=
  match fst (ks k) with
  | Ordinary | LoctrMax | LoctrSet => match v with VAbs z => if 0 <=? z then z else 0 | _ => 0 end
  | Alignment => alignment_length (snd (ks k)) (match v with VRel a => ao a | _ => 0 end)
  | _ => 0
  end.
Definition upd {A} (f : nat -> A) (k : nat) (v : A) : nat -> A := fun j => if Nat.eqb j k then v else f j.
Definition assign (ks : kinds) (s : state) (t : dependant) (v : val) : state :=
  match t with
  | DSym id => mkSt (upd (sy s) id (Some v)) (att s) (spl s)
  | DAttr k id => mkSt (sy s) (fun k' => if akind_eqb k' k then upd (att s k') id (attr_value k v) else att s k') (spl s)
  | DSp id => mkSt (sy s) (att s) (upd (spl s) id (Some (space_value ks id v)))
  end.
(** 113-138 [resolve_dependant_default]. *)
Definition assign_default (ks : kinds) (s : state) (t : dependant) : state :=
  match t with
  | DSym id => mkSt (upd (sy s) id (Some (VAbs 0))) (att s) (spl s)
  | DAttr k id => assign ks s t (VAbs (default_attr k))
  | DSp id =>
      mkSt (sy s) (att s)
        (upd (spl s) id (Some (match fst (ks id) with Alignment => alignment_length (snd (ks id)) 1 | _ => 1 end)))
  end.

(** 140-174 [resolve]: one iteration picks some entry that depends on nothing, in whatever order the
    hash table is iterated; without a resolver, spaces are left alone. *)
Definition table := list (dependant * source).
Definition allowed (with_spaces : bool) (t : dependant) : bool :=
  match t with DSp _ => with_spaces | _ => true end.
Inductive pick (ks : kinds) (w : bool) : state * table -> state * table -> Prop :=
| Pick s t1 t src t2 : allowed w t = true -> extract ks s src = [] ->
    pick ks w (s, t1 ++ (t, src) :: t2) (assign ks s t (resolve s src), t1 ++ t2).
Inductive picks (ks : kinds) (w : bool) : state * table -> state * table -> Prop :=
| PNil c : picks ks w c c
| PCons a b c : pick ks w a b -> picks ks w b c -> picks ks w a c.
(** The loop ends when nothing can be picked. *)
Definition finished (ks : kinds) (w : bool) (c : state * table) : Prop := forall c', ~ pick ks w c c'.

(** 29-62 [check_cycle]: depth first, without marking what was visited; [None]: still running after
    [n] rounds. *)
Fixpoint find (t : table) (d : dependant) : option source :=
  match t with [] => None | (k, src) :: t' => if dep_eqb k d then Some src else find t' d end.
Definition mem (d : dependant) (l : list dependant) : bool := existsb (dep_eqb d) l.
Fixpoint search (n : nat) (ks : kinds) (s : state) (t : table) (target : dependant) (stack : list dependant) : option bool :=
  match n with
  | O => None
  | S n' =>
      match stack with
      | [] => Some true
      | top :: rest =>
          match find t top with
          | None => search n' ks s t target rest
          | Some src =>
              let ds := extract ks s src in
              if mem target ds then Some false
              else search n' ks s t target (rev ds ++ rest)
          end
      end
  end.
Definition check_cycle (n : nat) (ks : kinds) (s : state) (t : table) (target : dependant) (ds : list dependant) : option bool :=
  if mem target ds then Some false else search n ks s t target (rev ds).

(** 246-268 [add_dependency]; on a cycle the target gets its default value, after which symbols are
    resolved as far as possible (the caller of this definition runs [picks]). *)
Inductive added := AThrow | ARunning | ACycle (s : state) (t : table) | AAdded (t : table).
Definition add_dependency (n : nat) (ks : kinds) (s : state) (t : table) (target : dependant) (src : source) (check : bool) : added :=
  match find t target with
  | Some _ => AThrow
  | None =>
      if check then
        match check_cycle n ks s t target (extract ks s src) with
        | None => ARunning
        | Some false => ACycle (assign_default ks s target) t
        | Some true => AAdded (t ++ [(target, src)])
        end
      else AAdded (t ++ [(target, src)])
  end.
