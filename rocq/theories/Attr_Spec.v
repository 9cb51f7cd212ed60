(** What attribute references mean, said without the evaluator of Attr_Model.v. *)
From Coq Require Import String List NArith ZArith Bool Lia.
From Verif Require Import Common Var_Model Sub_Model Ca_Model Attr_Model.
Import ListNotations.
Open Scope Z_scope.

(** ** Names *)
Definition name_char (c : N) : Prop :=
  (65 <= c <= 90)%N \/ (97 <= c <= 122)%N \/ (48 <= c <= 57)%N \/ In c (s2b "_@$#").
Definition digit (c : N) : Prop := (48 <= c <= 57)%N.
(** One to 63 letters and digits, no digit first. *)
Definition symbol_name (s : bytes) : Prop :=
  (1 <= length s <= 63)%nat /\ Forall name_char s /\ forall c r, s = c :: r -> ~ digit c.

(** ** Attributes of an ordinary symbol *)
(** The symbol is defined, or not yet defined but found by a lookahead. *)
Definition known (e : env) (n : bytes) (s : osym) : Prop :=
  symbols e n = Some s \/ symbols e n = None /\ references e n = Some s.
Definition not_known (e : env) (n : bytes) : Prop := symbols e n = None /\ references e n = None.
(** Constants that have a scale and an integer attribute. *)
Definition scaled (s : osym) : Prop := o_dat s = true /\ In (o_type s) (s2b "DEFGHKLPZ").

Definition W13 : diag := (W013, AtReference).
Definition E66 : diag := (E066, AtReference).
Definition E65 : diag := (E065, AtReference).

Inductive operation_letter (e : env) (n : bytes) : bytes -> Prop :=
| op_macro : macros e n = true -> operation_letter e n (s2b "M")
| op_asm : macros e n = false -> instructions e n = Some Assembler -> operation_letter e n (s2b "A")
| op_ca : macros e n = false -> instructions e n = Some Ca -> operation_letter e n (s2b "A")
| op_mnemonic : macros e n = false -> instructions e n = Some Mnemonic -> operation_letter e n (s2b "E")
| op_machine : macros e n = false -> instructions e n = Some Machine -> operation_letter e n (s2b "O")
| op_library : macros e n = false -> instructions e n = None -> library e n = true -> operation_letter e n (s2b "S")
| op_unknown : macros e n = false -> instructions e n = None -> library e n = false -> operation_letter e n (s2b "U").

Inductive attribute (e : env) (n : bytes) : kind -> val -> list diag -> Prop :=
| a_T s : known e n s -> attribute e n T (VC [o_type s]) []
| a_T_unknown : not_known e n -> attribute e n T (VC (s2b "U")) []
| a_L s v : known e n s -> o_length s = Some v -> attribute e n L (VA v) []
| a_L_none s : known e n s -> o_length s = None -> attribute e n L (VA 1) [W13]
| a_L_unknown : not_known e n -> attribute e n L (VA 1) [W13]
| a_S s v : known e n s -> scaled s -> o_scale s = Some v -> attribute e n S_ (VA v) []
| a_S_none s : known e n s -> scaled s -> o_scale s = None -> attribute e n S_ (VA 0) [W13]
| a_S_not s : known e n s -> ~ scaled s -> attribute e n S_ (VA 0) [E66]
| a_S_unknown : not_known e n -> attribute e n S_ (VA 0) [W13]
| a_I s v l : known e n s -> scaled s -> o_scale s = Some v -> o_length s = Some l ->
    attribute e n I_ (VA (o_integer s)) []
| a_I_none s : known e n s -> scaled s -> o_scale s = None \/ o_length s = None ->
    attribute e n I_ (VA 0) [W13]
| a_I_not s : known e n s -> ~ scaled s -> attribute e n I_ (VA 0) [E66]
| a_I_unknown : not_known e n -> attribute e n I_ (VA 0) [W13]
| a_D s : symbols e n = Some s -> attribute e n D (VA 1) []
| a_D_not : symbols e n = None -> attribute e n D (VA 0) []
| a_O x : operation_letter e n x -> attribute e n O_ (VC x) []
| a_K : attribute e n K (VA 0) [E66]
| a_N : attribute e n N_ (VA 0) [E66].

(** The value that stands for an attribute nothing is known of. *)
Inductive default_of : kind -> val -> Prop :=
| d_T : default_of T (VC (s2b "U"))
| d_O : default_of O_ (VC (s2b "U"))
| d_L : default_of L (VA 1)
| d_S : default_of S_ (VA 0)
| d_I : default_of I_ (VA 0)
| d_K : default_of K (VA 0)
| d_N : default_of N_ (VA 0)
| d_D : default_of D (VA 0).

(** ** The symbol a text begins with *)
Definition wrapped (k : nat) (body : bytes) : bytes := repeat 40%N k ++ body ++ repeat 41%N k.
(** [qualified s t]: [t] is [s] after any number of qualifiers, each ended by a period. *)
Inductive qualified (s : bytes) : bytes -> Prop :=
| q_none : qualified s s
| q_one q t : Forall name_char q -> qualified s t -> qualified s (q ++ 46%N :: t).
Definition ends_symbol (rest : bytes) : Prop :=
  rest = [] \/ exists c r, rest = c :: r /\ In c (s2b "+-*/()").
(** In parentheses or not, qualified or not, the text starts with the symbol [s]; the symbol is
    all of it or an operator or a parenthesis follows. *)
Definition leads (text s : bytes) : Prop :=
  symbol_name s /\
  exists k t rest, text = wrapped k t /\ qualified (s ++ rest) t /\ ends_symbol rest.
(** What the evaluator looks at when a text is given: parentheses around all of it and qualifiers
    are left out, and what follows a symbol is. *)
Definition peeled (text body : bytes) : Prop :=
  exists k, text = wrapped k body /\ forall b, body <> wrapped 1 b.
Definition unqualified (body s : bytes) : Prop :=
  qualified s body /\ ~ exists q u, u <> [] /\ Forall name_char q /\ s = q ++ 46%N :: u.
Inductive head : bytes -> bytes -> Prop :=
| h_number c r : digit c -> head (c :: r) (c :: r)
| h_symbol x rest : (forall c r, x = c :: r -> ~ digit c) -> Forall name_char x -> ends_symbol rest ->
    x ++ rest <> [] -> head (x ++ rest) x
| h_other p c r : (forall d q, p = d :: q -> ~ digit d) -> Forall name_char p ->
    ~ name_char c -> ~ In c (s2b "+-*/()") -> head (p ++ c :: r) (p ++ c :: r).
Definition front (text x : bytes) : Prop :=
  exists body s, peeled text body /\ unqualified body s /\ head s x.
Definition only_parens (text : bytes) : Prop := exists k, text = wrapped k [].

(** ** What a variable symbol with subscripts stands for *)
Inductive selects : data -> list Z -> data -> Prop :=
| sel_all d : selects d [] d
| sel_element l i r x d : 1 <= i -> nth_error l (Z.to_nat (i - 1)) = Some x -> selects x r d ->
    selects (Composite l) (i :: r) d
| sel_missing l i r d : Z.of_nat (length l) < i -> selects Dummy r d -> selects (Composite l) (i :: r) d
| sel_one s r d : selects (Single s) r d -> selects (Single s) (1 :: r) d
| sel_more s i r d : 1 < i -> selects Dummy r d -> selects (Single s) (i :: r) d
| sel_omitted i r d : 1 <= i -> selects Dummy r d -> selects Dummy (i :: r) d.
(** SYSLIST and SYSMAC: elements are numbered from 0. *)
Inductive sys_selects : data -> list Z -> data -> Prop :=
| sys_all d : sys_selects d [] d
| sys_element l i r x d : 0 <= i -> nth_error l (Z.to_nat i) = Some x -> selects x r d ->
    sys_selects (Composite l) (i :: r) d
| sys_missing l i r d : Z.of_nat (length l) <= i -> selects Dummy r d -> sys_selects (Composite l) (i :: r) d.

Definition stored (s : sym) (k : Z) : val :=
  match find k (s_data s) with
  | Some v => v
  | None => match s_type s with TA => VA 0 | TB => VB false | TC => VC [] end
  end.
Inductive stands_for : var -> list Z -> val -> Prop :=
| for_scalar s : s_scalar s = true -> stands_for (VSet s) [] (stored s 0)
| for_element s i : s_scalar s = false -> 1 <= i -> stands_for (VSet s) [i] (stored s (i - 1))
| for_param d subs d' : selects d subs d' -> stands_for (VParam d) subs (VC (Sub_Model.get_value d'))
| for_system d subs d' : sys_selects d subs d' -> stands_for (VSys d) subs (VC (Sub_Model.get_value d')).

(** The reports for subscripts that do not fit the variable. *)
Inductive misread : var -> list Z -> code -> Prop :=
| mis_many s i j r : misread (VSet s) (i :: j :: r) E020
| mis_missing s : s_scalar s = false -> misread (VSet s) [] E013
| mis_scalar s i : s_scalar s = true -> misread (VSet s) [i] E013
| mis_low s i : s_scalar s = false -> i < 1 -> misread (VSet s) [i] E012
| mis_param d subs : Exists (fun i => i < 1) subs -> misread (VParam d) subs E012
| mis_sys d i r : i < 0 \/ Exists (fun i => i < 1) r -> misread (VSys d) (i :: r) E012.

(** Numbers of 32 bits. *)
Definition ints (subs : list Z) : Prop := Forall (fun i => - 2 ^ 31 <= i < 2 ^ 31) subs.
(** The values in a SET symbol are of its type. *)
Definition typed (s : sym) : Prop :=
  forall k v, find k (s_data s) = Some v ->
    match s_type s, v with TA, VA _ | TB, VB _ | TC, VC _ => True | _, _ => False end.
Definition var_typed (v : var) : Prop := match v with VSet s => typed s | _ => True end.
(** SYSLIST and SYSMAC are lists. *)
Definition sys_list (v : var) : Prop := match v with VSys d => exists l, d = Composite l | _ => True end.

(** ** The type attribute of a text *)
Inductive type_letter (e : env) (t : bytes) : bytes -> Prop :=
| ty_omitted : t = [] -> type_letter e t (s2b "O")
| ty_number x : t <> [] -> front t x -> (exists z, self_defining_term x = Ca_Model.Ok z) ->
    type_letter e t (s2b "N")
| ty_symbol x s : t <> [] -> front t x -> (exists m, self_defining_term x = Ca_Model.Fail m) ->
    symbols e (UPPER x) = Some s -> type_letter e t [o_type s]
| ty_found x s : t <> [] -> front t x -> (exists m, self_defining_term x = Ca_Model.Fail m) ->
    symbols e (UPPER x) = None -> symbol_name x -> references e (UPPER x) = Some s -> type_letter e t [o_type s]
| ty_unknown x : t <> [] -> front t x -> (exists m, self_defining_term x = Ca_Model.Fail m) ->
    symbols e (UPPER x) = None -> ~ symbol_name x \/ references e (UPPER x) = None -> type_letter e t (s2b "U").

(** ** More found by lookaheads *)
Definition found_more (e e' : env) : Prop :=
  (forall n s, references e n = Some s -> references e' n = Some s) /\
  (forall n, symbols e' n = symbols e n) /\
  (forall n, variables e' n = variables e n) /\
  (forall n, macros e' n = macros e n) /\
  (forall n, instructions e' n = instructions e n) /\
  (forall n, library e' n = library e n).
