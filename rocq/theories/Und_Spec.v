(** What C107 claims, in terms of the text of a statement. *)
From Coq Require Import List NArith Bool Arith.
From Verif Require Import Common Und_Model.
Import ListNotations.
Open Scope nat_scope.

Definition opt (o : option node) : list node := match o with Some e => [e] | None => [] end.
(** The immediate parts of a term, without and with the variable symbols in the text of a string. *)
Definition parts (n : node) : list node :=
  match n with
  | Var _ c s => c ++ s
  | Str _ d s c => opt d ++ opt s ++ opt c
  | AttrV _ v => [v]
  | Fun ps d => ps ++ opt d
  | Lst l => l
  | Un e => [e]
  | Bin l r => [l; r]
  | Sub l => concat l
  | _ => []
  end.
Definition all_parts (n : node) : list node :=
  parts n ++ match n with Str v _ _ _ => v | _ => [] end.
Inductive within (x : node) : node -> Prop :=
| W_here : within x x
| W_part y z : In y (parts z) -> within x y -> within x z.
Inductive anywhere (x : node) : node -> Prop :=
| A_here : anywhere x x
| A_part y z : In y (all_parts z) -> anywhere x y -> anywhere x z.

(** Names of created variable symbols consist of text and variable symbols
    (ca_expr_rules.g4:186-206), and only variable symbols have attributes besides names
    (ca_expr_rules.g4:237-242). *)
Definition regular (n : node) : Prop :=
  forall x, within x n ->
    (forall b c s, x = Var b c s ->
       Forall (fun p => (exists t, p = Text t) \/ p = Dot \/ exists b c s, p = Var b c s) c) /\
    (forall a v, x = AttrV a v -> exists b c s, v = Var b c s).

(** A symbol: 1 to 63 letters, digits and _ @ $ #, not starting with a digit. *)
Definition letter (c : N) : Prop :=
  (65 <= c <= 90 \/ 97 <= c <= 122 \/ c = 95 \/ c = 64 \/ c = 36 \/ c = 35)%N.
Definition decimal (c : N) : Prop := (48 <= c <= 57)%N.
Definition symbol (t : bytes) : Prop :=
  1 <= length t <= 63 /\ (forall c, In c t -> letter c \/ decimal c) /\
  (forall c r, t = c :: r -> letter c).
Definition folds (c d : N) : Prop :=
  ((97 <= c <= 122 /\ c = d + 32) \/ (~ 97 <= c <= 122 /\ c = d))%N.

(** T', L', S' and I' of a symbol, or of a variable symbol whose text is one, need it. *)
Definition depends (a : attr) : Prop := a = AT \/ a = AL \/ a = AS \/ a = AI.
Inductive needs (value : node -> option bytes) : node -> bytes -> Prop :=
| N_name a s : depends a -> needs value (AttrS a s) s
| N_var a v t s : depends a -> value v = Some t -> symbol t -> Forall2 folds t s ->
    needs value (AttrV a v) s.

(** What a reference stands in: its own variable symbol comes first. *)
Definition inner (r : node) : list node := match r with AttrV _ v => [v] | _ => [] end.

(** The fields of a statement that are substituted or evaluated. *)
Definition instruction_terms (s : statement) : list node :=
  match instr s with IConc c => c | IOther => [] end.
Definition operand_terms (o : operand) : list node :=
  match o with
  | OModel c | OMacChain c => c
  | OCa (CVar e) | OCa (CExpr e) | OCa (CBranch e) => [e]
  | OCa CSeq | OOther => []
  end.
Definition other_terms (s : statement) : list node :=
  match lab s with LConc c => c | LVar v => [v] | LOther => [] end ++
  if deferred s then [] else concat (map operand_terms (operands s)).
Definition terms (s : statement) : list node := instruction_terms s ++ other_terms s.

(** Reference [r] stands in one of [l], outside the texts of strings. *)
Definition refers (l : list node) (r : node) : Prop := exists n, In n l /\ within r n.

(** How deep attribute references stand in the variable symbols of others. *)
Fixpoint nest (n : node) : nat :=
  let maybe := fun o => match o with Some e => nest e | None => 0 end in
  let most := fun l => list_max (map nest l) in
  match n with
  | Const | Sym _ | Text _ | Dot | Equals => 0
  | Var _ c s => Nat.max (most c) (most s)
  | Str _ d s c => Nat.max (maybe d) (Nat.max (maybe s) (maybe c))
  | AttrS _ _ => 1
  | AttrV _ v => S (nest v)
  | Fun ps d => Nat.max (most ps) (maybe d)
  | Lst l => most l
  | Un e => nest e
  | Bin l r => Nat.max (nest l) (nest r)
  | Sub l => list_max (map (fun c => most c) l)
  end.
Definition deepest (l : list node) : nat := list_max (map nest l).

(** The text of a variable symbol does not change any more when the symbols that the references in
    it need are known. *)
Definition settled (value : list bytes -> node -> option bytes) : Prop :=
  forall k k' v, regular v -> incl k k' ->
    (forall r s, within r v -> needs (value k) r s -> In s k) -> value k' v = value k v.
