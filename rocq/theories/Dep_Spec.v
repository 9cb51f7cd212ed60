(** What resolution of forward references should do. *)
From Coq Require Import List ZArith Bool Arith.
From Verif Require Import Addr_Model Addr_Spec Loctr_Model Dep_Model.
Import ListNotations.
Local Open Scope Z_scope.

(** [s'] defines everything that [s] defines, in the same way. *)
Definition extends (s s' : state) : Prop :=
  (forall id v, sy s id = Some v -> v <> VUndef -> sy s' id = Some v) /\
  (forall k id z, att s k id = Some z -> att s' k id = Some z) /\
  (forall id z, spl s id = Some z -> spl s' id = Some z).
Definition undefined (s : state) (t : dependant) : Prop :=
  match t with
  | DSym id => look s id = VUndef
  | DAttr k id => att s k id = None
  | DSp id => spl s id = None
  end.

(** Stored relocatable values are labels: they have a section, and each pending space once. *)
Definition single (a : addr) : Prop := forall e, In e (asp a) -> snd e = 1.
Definition state_ok (s : state) : Prop := forall id a, sy s id = Some (VRel a) -> ab a <> [] /\ single a.

(** The sections and pending spaces of a value. *)
Definition shape (v : val) : list (nat * Z) * list (nat * Z) := match v with VRel a => (ab a, asp a) | _ => ([], []) end.
(** Differences the code computes right: sections and spaces on both sides occur equally often, and if
    the left side has no section, neither has the right side, which then has no further spaces. *)
Definition sub_ok (x y : val) : Prop :=
  same_counts (fst (shape x)) (fst (shape y)) /\ same_counts (snd (shape x)) (snd (shape y)) /\
  (fst (shape x) = [] -> fst (shape y) = [] /\ forall k, In k (map fst (snd (shape y))) -> In k (map fst (snd (shape x)))).
(** No address is multiplied or divided, and all differences are of that form. *)
Fixpoint tame (s : state) (e : expr) : Prop :=
  match e with
  | EConst _ | ESym _ | EAttr _ _ => True
  | ELoc a => ab a <> [] /\ single a
  | EBin o l r =>
      tame s l /\ tame s r /\ c_err (collect s e) = false /\
      match o with OpSub => sub_ok (eval s l) (eval s r) | _ => True end
  | ENeg e => tame s e
  end.
Definition settled (s : state) (a : addr) : Prop := forall e, In e (asp a) -> spl s (fst e) <> None.
(** For spaces resolved from addresses: nothing in those addresses is pending any more. *)
Definition sound_source (s : state) (src : source) : Prop :=
  match src with
  | SExpr e => tame s e
  | SAlign a => settled s a
  | SSet cur tgt _ _ => settled s cur /\ settled s tgt
  | SMax cs _ _ => forall a, In a cs -> settled s a
  end.
Inductive sound_picks (ks : kinds) (w : bool) : state * table -> state * table -> Prop :=
| SNil c : sound_picks ks w c c
| SCons s t1 t src t2 c :
    allowed w t = true -> extract ks s src = [] -> sound_source s src ->
    sound_picks ks w (assign ks s t (resolve s src), t1 ++ t2) c ->
    sound_picks ks w (s, t1 ++ (t, src) :: t2) c.

(** The target has got the value. *)
Definition has_value (ks : kinds) (s : state) (t : dependant) (v : val) : Prop :=
  match t with
  | DSym id => sy s id = Some v
  | DAttr k id => att s k id = attr_value k v
  | DSp id => spl s id = Some (space_value ks id v)
  end.
Definition same_state (s s' : state) : Prop :=
  (forall id, look s id = look s' id) /\ (forall k id, att s k id = att s' k id) /\ (forall id, spl s id = spl s' id).

(** The dependency graph and reachability by at least one edge. *)
Definition edge (ks : kinds) (s : state) (t : table) (x y : dependant) : Prop :=
  exists src, find t x = Some src /\ In y (extract ks s src).
Inductive reach (ks : kinds) (s : state) (t : table) : dependant -> dependant -> Prop :=
| REdge x y : edge ks s t x y -> reach ks s t x y
| RStep x y z : edge ks s t x y -> reach ks s t y z -> reach ks s t x z.
Definition acyclic (ks : kinds) (s : state) (t : table) : Prop := forall x, ~ reach ks s t x x.

(** What is waiting is not defined yet, and waits once. *)
Definition inv (c : state * table) : Prop :=
  state_ok (fst c) /\ NoDup (map fst (snd c)) /\ forall t src, In (t, src) (snd c) -> undefined (fst c) t.
(** Symbols are resolved from expressions. *)
Definition expr_symbols (t : table) : Prop := forall id src, In (DSym id, src) t -> exists e, src = SExpr e.

(** * Symbols only: no attributes of symbols defined later, no pending lengths *)
Fixpoint plain (s : state) (e : expr) : Prop :=
  match e with
  | EConst _ | ESym _ => True
  | EAttr k id => att s k id <> None
  | ELoc a => settled s a
  | EBin _ l r => plain s l /\ plain s r
  | ENeg e => plain s e
  end.
Definition plain_state (s : state) : Prop := forall id a, sy s id = Some (VRel a) -> settled s a.
Definition plain_table (s : state) (t : table) : Prop :=
  forall d src, In (d, src) t -> (exists id, d = DSym id) /\ exists e, src = SExpr e /\ plain s e.

(** Histories of symbol definitions: a definition is added, found to be cyclic, or resolved. *)
Inductive history (ks : kinds) : state * table -> Prop :=
| HStart s : plain_state s -> history ks (s, [])
| HAdd n s t id e t' : history ks (s, t) -> look s id = VUndef -> plain s e ->
    add_dependency n ks s t (DSym id) (SExpr e) true = AAdded t' -> history ks (s, t')
| HCycle n s t id e s' t' : history ks (s, t) -> look s id = VUndef -> plain s e ->
    add_dependency n ks s t (DSym id) (SExpr e) true = ACycle s' t' -> history ks (s', t')
| HPick w c c' : history ks c -> pick ks w c c' -> history ks c'.


(** The number a value stands for, once sections and areas have their places. *)
Definition weigh (f : nat -> Z) (l : list (nat * Z)) : Z := sum (map (fun e => snd e * f (fst e)) l).
Definition number (base len : nat -> Z) (v : val) : Z :=
  match v with VUndef => 0 | VAbs z => z | VRel a => ao a + weigh base (ab a) + weigh len (asp a) end.
(** Ordinary arithmetic with the final values of symbols and attributes; division truncates, and by zero
    gives zero. *)
Fixpoint arith (base len : nat -> Z) (s : state) (e : expr) : Z :=
  match e with
  | EConst z => z
  | ESym id => number base len (look s id)
  | EAttr k id => match att s k id with Some z => z | None => 0 end
  | ELoc a => number base len (VRel (view s a))
  | EBin OpAdd l r => arith base len s l + arith base len s r
  | EBin OpSub l r => arith base len s l - arith base len s r
  | EBin OpMul l r => arith base len s l * arith base len s r
  | EBin OpDiv l r => if arith base len s r =? 0 then 0 else Z.quot (arith base len s l) (arith base len s r)
  | ENeg e => - arith base len s e
  end.
