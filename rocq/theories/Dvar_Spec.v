(** How the debugger is to be used, and what it is to show. *)
From Coq Require Import String.
From Coq Require Import List NArith ZArith Bool.
From Verif Require Import Common Text_Spec Var_Model Sub_Model Attr_Model Dvar_Model.
Import ListNotations.
Open Scope Z_scope.

(** ** The text of a value *)
Definition is_decimal (z : Z) (t : bytes) : Prop :=
  (0 <= z /\ t = dec (Z.to_N z)) \/ (z < 0 /\ t = 45%N :: dec (Z.to_N (- z))).
(** What is shown where a statement would read this; an array as a whole cannot be read. *)
Inductive shown_as : code + val -> bytes -> Prop :=
| sh_number z t : is_decimal z t -> shown_as (inr (VA z)) t
| sh_true : shown_as (inr (VB true)) (s2b "TRUE")
| sh_false : shown_as (inr (VB false)) (s2b "FALSE")
| sh_text t : shown_as (inr (VC t)) t
| sh_array : shown_as (inl E013) [].

(** ** The variables of a scope *)
(** No name stands in two of the tables, or twice in one. *)
Definition names (s : cscope) : list bytes :=
  List.map fst (c_variables s) ++ List.map fst (c_system s) ++
  match c_params s with Some l => List.map fst l | None => [] end.
(** Elements of arrays that a subscript (an int) can name. *)
Definition keys_ok (s : cscope) : Prop :=
  forall n g y, In (n, (g, y)) (c_variables s) -> Forall (fun e => 0 <= fst e < 2 ^ 31 - 1) (s_data y).
(** [item d subs x]: [x] is the item of [d] with these subscripts. *)
Inductive item : data -> list Z -> data -> Prop :=
| it_all d : item d [] d
| it_item l i r x y : 1 <= i -> nth_error l (Z.to_nat (i - 1)) = Some x -> item x r y -> item (Composite l) (i :: r) y.
(** The first subscript of SYSLIST and SYSMAC starts from 0. *)
Inductive var_item : var -> list Z -> data -> Prop :=
| vi_param d subs x : item d subs x -> var_item (VParam d) subs x
| vi_system d : var_item (VSys d) [] d
| vi_numbered l i r x y : 0 <= i -> nth_error l (Z.to_nat i) = Some x -> item x r y -> var_item (VSys (Composite l)) (i :: r) y.
(** [holds v subs]: the variable has that element: it was assigned, or it is an item of a sublist. *)
Inductive holds : var -> list Z -> Prop :=
| h_variable y : holds (VSet y) []
| h_assigned y i : s_scalar y = false -> In (i - 1) (List.map fst (s_data y)) -> holds (VSet y) [i]
| h_item v subs x : var_item v subs x -> holds v subs.
(** What can be unfolded: arrays, and sublists with an item. *)
Inductive expandable : var -> list Z -> Prop :=
| ex_array y : s_scalar y = false -> expandable (VSet y) []
| ex_list v subs l : var_item v subs (Composite l) -> l <> [] -> expandable v subs.
(** Sublists are so short that an int can name each item. *)
Definition short (v : var) : Prop := forall subs l, var_item v subs (Composite l) -> Z.of_nat (length l) < 2 ^ 31 - 1.
Definition lists_ok (s : cscope) : Prop := forall n v, get_var_sym s n = Some v -> short v.
Definition var_type (v : var) : ty := match v with VSet y => s_type y | _ => TC end.
Definition is_global (s : cscope) (n : bytes) : Prop :=
  (exists y, In (n, (true, y)) (c_variables s)) \/ (exists d, In (n, (true, d)) (c_system s)).

(** ** The client *)
(** Requests while the program stands still. *)
Inductive asked : dbg -> dbg -> Prop :=
| a_scopes id d : asked d (snd (scopes id d))
| a_variables ref d l d' : variables ref d = Some (l, d') -> asked d d'.
Inductive later : dbg -> dbg -> Prop :=
| later_0 d : later d d
| later_1 d d' d'' : asked d d' -> later d' d'' -> later d d''.
(** All that can happen to a debugger. *)
Inductive reach : dbg -> Prop :=
| r_initial : reach initial
| r_asked d d' : reach d -> asked d d' -> reach d'
| r_stop frames symbols d : reach d -> ended d = false -> reach (stop frames symbols d)
| r_finish d : reach d -> reach (finish d).

(** Unfolding: the client asks for a reference, picks one of the variables it is sent, asks for the reference of
    that one, and so on, with other requests in between; [names] are those of the variables it picks, [e] is the
    last one. *)
Inductive browse : dbg -> N -> list bytes -> entry -> Prop :=
| br_here d ref l d' x : variables ref d = Some (l, d') -> In x l -> browse d ref [e_name (view x)] (view x)
| br_into d ref l d' x d2 ns e : variables ref d = Some (l, d') -> In x l -> later d' d2 ->
    browse d2 (e_ref (view x)) ns e -> browse d ref (e_name (view x) :: ns) e.
(** A reference that the client was sent since the program stopped. *)
Definition handed (d : dbg) (ref : N) : Prop := exists d0 d1, reach d0 /\
  ((exists id a nm, scopes id d0 = (a, d1) /\ In (nm, ref) a) \/
   (exists r l x, variables r d0 = Some (l, d1) /\ In x l /\ e_ref (view x) = ref /\ ref <> 0%N)) /\ later d1 d.

(** Whatever happens next. *)
Inductive onward : dbg -> dbg -> Prop :=
| on_here d : onward d d
| on_asked d d' d'' : asked d d' -> onward d' d'' -> onward d d''
| on_stop frames symbols d d' : onward (stop frames symbols d) d' -> onward d d'
| on_finish d d' : onward (finish d) d' -> onward d d'.

(** ** Ordinary symbols *)
Inductive symbol_shown : sval -> bytes -> Prop :=
| ss_absolute z t : is_decimal z t -> symbol_shown (Absolute z) t
| ss_relocatable : symbol_shown (Relocatable false) (s2b "RELOC")
| ss_complex : symbol_shown (Relocatable true) (s2b "COMPLEX")
| ss_unknown : symbol_shown Unknown (s2b "UNDEF").
Inductive attr_name : kind -> bytes -> Prop :=
| an_length : attr_name L (s2b "L")
| an_integer : attr_name I_ (s2b "I")
| an_scale : attr_name S_ (s2b "S")
| an_type : attr_name T (s2b "T").
(** Attributes that a symbol has: the type always, the length and the scale once they are known. *)
Inductive has_attr (s : osym) : kind -> Prop :=
| ha_type : has_attr s T
| ha_length n : o_length s = Some n -> has_attr s L
| ha_scale n : o_scale s = Some n -> has_attr s S_
| ha_integer n m : o_scale s = Some n -> o_length s = Some m -> has_attr s I_.

(** ** Answers that can be sent *)
Definition sendable (e : entry) : Prop := strict_utf8 (e_name e) /\ strict_utf8 (e_value e).
