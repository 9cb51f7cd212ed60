(** * Where a symbol occurs in a statement

    The relations say that a symbol of a kind stands at a place of a tree, whatever the collector does.
    The first index tells whether the way to it leads through the text of a string, its substring
    or the subscript of a variable symbol. *)
From Coq Require Import List Arith NArith Bool.
From Verif Require Import Occ_Model.
Import ListNotations.

Inductive var_has : bool -> kind -> name -> place -> var -> Prop :=
  | vh_self : forall n s r, var_has false VAR n r (Basic n s r)
  | vh_sub : forall h k n r m s p, exprs_has h k n r s -> var_has true k n r (Basic m s p)
  | vh_name : forall h k n r c s p, chain_has h k n r c -> var_has h k n r (Created c s p)
  | vh_sub' : forall h k n r c s p, exprs_has h k n r s -> var_has true k n r (Created c s p)
with expr_has : bool -> kind -> name -> place -> expr -> Prop :=
  | eh_list : forall h k n r es, exprs_has h k n r es -> expr_has h k n r (ExprList es)
  | eh_dupl : forall h k n r d ps, exprs_has h k n r d -> expr_has h k n r (Function_ d ps)
  | eh_par : forall h k n r d ps, exprs_has h k n r ps -> expr_has h k n r (Function_ d ps)
  | eh_str : forall h k n r v d s, chain_has h k n r v -> expr_has true k n r (String_ v d s)
  | eh_sdupl : forall h k n r v d s, exprs_has h k n r d -> expr_has h k n r (String_ v d s)
  | eh_substr : forall h k n r v d s, exprs_has h k n r s -> expr_has true k n r (String_ v d s)
  | eh_sym : forall n r, expr_has false ORD n r (Symbol n r)
  | eh_attr : forall n r, expr_has false ORD n r (Attribute n r)
  | eh_attrv : forall h k n r v, var_has h k n r v -> expr_has h k n r (AttributeOf v)
  | eh_var : forall h k n r v, var_has h k n r v -> expr_has h k n r (Variable_ v)
  | eh_left : forall h k n r a b, expr_has h k n r a -> expr_has h k n r (Binary a b)
  | eh_right : forall h k n r a b, expr_has h k n r b -> expr_has h k n r (Binary a b)
  | eh_un : forall h k n r a, expr_has h k n r a -> expr_has h k n r (Unary a)
with exprs_has : bool -> kind -> name -> place -> exprs -> Prop :=
  | es_here : forall h k n r e l, expr_has h k n r e -> exprs_has h k n r (ECons e l)
  | es_later : forall h k n r e l, exprs_has h k n r l -> exprs_has h k n r (ECons e l)
with chain_has : bool -> kind -> name -> place -> chain -> Prop :=
  | ch_here : forall h k n r p c, point_has h k n r p -> chain_has h k n r (Add p c)
  | ch_later : forall h k n r p c, chain_has h k n r c -> chain_has h k n r (Add p c)
with point_has : bool -> kind -> name -> place -> point -> Prop :=
  | ph_var : forall h k n r v, var_has h k n r v -> point_has h k n r (Var v)
  | ph_sub : forall h k n r l, chains_has h k n r l -> point_has h k n r (Sublist l)
with chains_has : bool -> kind -> name -> place -> chains -> Prop :=
  | cs_here : forall h k n r c l, chain_has h k n r c -> chains_has h k n r (LCons c l)
  | cs_later : forall h k n r c l, chains_has h k n r l -> chains_has h k n r (LCons c l).

Inductive mexpr_has : name -> place -> mexpr -> Prop :=
  | mh_attr : forall n r, mexpr_has n r (MAttribute n r)
  | mh_sym : forall n r, mexpr_has n r (MSymbol n r)
  | mh_left : forall n r a b, mexpr_has n r a -> mexpr_has n r (MBinary a b)
  | mh_right : forall n r a b, mexpr_has n r b -> mexpr_has n r (MBinary a b)
  | mh_un : forall n r a, mexpr_has n r a -> mexpr_has n r (MUnary a).
Definition omexpr_has (n : name) (r : place) (e : option mexpr) : Prop := exists a, e = Some a /\ mexpr_has n r a.

Section Spec.
Variable intern : list N -> name.
Variable ord_char : N -> bool.
Variable is_digit : N -> bool.

(** An ordinary symbol: 1 to 63 characters, no digit first. *)
Definition ordinary (t : list N) : Prop :=
  exists c r, t = c :: r /\ is_digit c = false /\ length t <= 63 /\ forall x, In x t -> ord_char x = true.

(** Words of the text of a field (not of the name of a created symbol) are ordinary symbols. *)
Inductive word_in : name -> place -> chain -> Prop :=
  | w_here : forall t r c, ordinary t -> word_in (intern t) r (Add (Text t r) c)
  | w_list : forall n r l c, words_in n r l -> word_in n r (Add (Sublist l) c)
  | w_later : forall n r p c, word_in n r c -> word_in n r (Add p c)
with words_in : name -> place -> chains -> Prop :=
  | ws_here : forall n r c l, word_in n r c -> words_in n r (LCons c l)
  | ws_later : forall n r c l, words_in n r l -> words_in n r (LCons c l).
Definition field_has (h : bool) (k : kind) (n : name) (r : place) (c : chain) : Prop :=
  chain_has h k n r c \/ (h = false /\ k = ORD /\ word_in n r c).

Definition operand_has (h : bool) (k : kind) (n : name) (r : place) (o : operand) : Prop :=
  match o with
  | EmptyOp | AsmString | MacString => False
  | AsmComplex l => h = true /\ k = ORD /\ In (n, r) l
  | Model c | MacChain c => field_has h k n r c
  | MachExpr e | AsmExpr e => h = false /\ k = ORD /\ omexpr_has n r e
  | MachAddress d a b => h = false /\ k = ORD /\ (omexpr_has n r d \/ omexpr_has n r a \/ omexpr_has n r b)
  | AsmUsing b e => h = false /\ k = ORD /\ (omexpr_has n r b \/ omexpr_has n r e)
  | DataDef d => h = false /\ k = ORD /\
      (omexpr_has n r (dupl_factor d) \/ omexpr_has n r (program_type d) \/ omexpr_has n r (length_ d) \/
       omexpr_has n r (scale d) \/ omexpr_has n r (exponent d) \/
       exists x, In x (nominal_exprs d) /\ match x with NExpr e => mexpr_has n r e | NAddress a b => mexpr_has n r a \/ mexpr_has n r b end)
  | CaVar v => var_has h k n r v
  | CaExpr e => exprs_has h k n r e
  | CaSeq m p => h = false /\ k = SEQ /\ m = n /\ p = r
  | CaBranch e m p => expr_has h k n r e \/ (h = false /\ k = SEQ /\ m = n /\ p = r)
  end.

(** [h]: the symbol stands in a string, a subscript or a list in an assembler operand. *)
Definition statement_has (h : bool) (k : kind) (n : name) (r : place) (s : statement) : Prop :=
  match label_of s with
  | LNone => False
  | LConc c => field_has h k n r c
  | LOrd m p => h = false /\ k = ORD /\ m = n /\ p = r
  | LSeq m p => h = false /\ k = SEQ /\ m = n /\ p = r
  | LVar v => var_has h k n r v
  end \/
  match instruction_of s with IConc c => field_has h k n r c | _ => False end \/
  match operands_of s with
  | Resolved l => exists o, In o l /\ operand_has h k n r o
  | Deferred l => exists v, In v l /\ var_has h k n r v
  end.
End Spec.

(** No null variable symbol stands where the collector looks. *)
Inductive null_var : var -> Prop := nv_null : null_var NoVar | nv_name : forall c s r, null_chain c -> null_var (Created c s r)
with null_chain : chain -> Prop :=
  | nc_here : forall p c, null_point p -> null_chain (Add p c) | nc_later : forall p c, null_chain c -> null_chain (Add p c)
with null_point : point -> Prop :=
  | np_var : forall v, null_var v -> null_point (Var v) | np_list : forall l, null_chains l -> null_point (Sublist l)
with null_chains : chains -> Prop :=
  | nl_here : forall c l, null_chain c -> null_chains (LCons c l) | nl_later : forall c l, null_chains l -> null_chains (LCons c l).
Inductive null_expr : expr -> Prop :=
  | ne_list : forall es, null_exprs es -> null_expr (ExprList es)
  | ne_fun : forall d ps, null_exprs d \/ null_exprs ps -> null_expr (Function_ d ps)
  | ne_str : forall v d s, null_exprs d -> null_expr (String_ v d s)
  | ne_attr : forall v, null_var v -> null_expr (AttributeOf v)
  | ne_var : forall v, null_var v -> null_expr (Variable_ v)
  | ne_bin : forall a b, null_expr a \/ null_expr b -> null_expr (Binary a b)
  | ne_un : forall a, null_expr a -> null_expr (Unary a)
with null_exprs : exprs -> Prop :=
  | nx_here : forall e l, null_expr e -> null_exprs (ECons e l) | nx_later : forall e l, null_exprs l -> null_exprs (ECons e l).
Definition null_operand (o : operand) : Prop :=
  match o with
  | Model c | MacChain c => null_chain c
  | CaVar v => null_var v
  | CaExpr e => null_exprs e
  | CaBranch e _ _ => null_expr e
  | _ => False
  end.
Definition null_statement (s : statement) : Prop :=
  match label_of s with LConc c => null_chain c | LVar v => null_var v | _ => False end \/
  match instruction_of s with IConc c => null_chain c | _ => False end \/
  match operands_of s with
  | Resolved l => exists o, In o l /\ null_operand o
  | Deferred l => exists v, In v l /\ null_var v
  end.
