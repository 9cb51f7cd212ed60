(** What the text shown on hovering says, and which definition it is about. *)
From Coq Require Import String.
From Coq Require Import List NArith ZArith Bool.
From Verif Require Import Common.
From Verif Require Var_Model Addr_Model Addr_Spec Attr_Model Hvs_Model Nav_Model.
Import ListNotations.
Open Scope Z_scope.

(** ** Ordinary symbols *)

(** Decimal numbers. *)
Definition digit (c : N) : Prop := (48 <= c <= 57)%N.
Definition numeral (ds : bytes) : Z := fold_left (fun a d => 10 * a + (Z.of_N d - 48)) ds 0.
Inductive number_text : bytes -> Z -> Prop :=
| plain : forall ds, ds <> [] -> Forall digit ds -> number_text ds (numeral ds)
| minus : forall ds, ds <> [] -> Forall digit ds -> number_text (45%N :: ds) (- numeral ds).

(** Names of sections: no blank, star or new line in them, and no digit or sign in front. *)
Definition name_char (c : N) : Prop := c <> 32%N /\ c <> 42%N /\ c <> 10%N.
Definition section_name (n : bytes) : Prop :=
  match n with
  | [] => False
  | c :: _ => ~ digit c /\ c <> 45%N /\ Forall name_char n
  end.

(** A sum of sections and a number: [2*A + B + 16]. *)
Inductive sum_text : bytes -> list (Z * bytes) -> Z -> Prop :=
| just : forall t z, number_text t z -> sum_text t [] z
| once : forall n t l z, section_name n -> sum_text t l z ->
    sum_text (n ++ [32; 43; 32]%N ++ t) ((1, n) :: l) z
| times : forall k c n t l z, number_text k c -> section_name n -> sum_text t l z ->
    sum_text (k ++ [42%N] ++ n ++ [32; 43; 32]%N ++ t) ((c, n) :: l) z.
(** Its value, when each section has its address. *)
Definition sum_value (at_ : bytes -> Z) (l : list (Z * bytes)) (z : Z) : Z :=
  fold_right (fun e acc => fst e * at_ (snd e) + acc) z l.

(** A line of an attribute, if there is one. *)
Inductive line_text (c : N) : bytes -> option Z -> Prop :=
| no_line : line_text c [] None
| a_line : forall t z, number_text t z -> line_text c ([c; 58; 32]%N ++ t ++ [32; 32; 10]%N) (Some z).

Record reading := {
  r_absolute : bool; r_terms : list (Z * bytes); r_number : Z;
  r_length : option Z; r_integer : option Z; r_scale : option Z; r_type : N
}.
Definition heading (absolute : bool) : bytes :=
  Hvs_Model.lit (if absolute then "||---||Absolute Symbol||---||" else "||---||Relocatable Symbol||---||").
Inductive says : bytes -> reading -> Prop :=
| reads : forall v l i s r,
    sum_text v (r_terms r) (r_number r) ->
    line_text 76 l (r_length r) -> line_text 73 i (r_integer r) -> line_text 83 s (r_scale r) ->
    says (v ++ heading (r_absolute r) ++ l ++ i ++ s ++ [84; 58; 32]%N ++ [r_type r] ++ [32; 32; 10]%N) r.

(** A space that is given up to its length. *)
Fixpoint placed (s : Addr_Model.space) : bool :=
  match s with
  | Addr_Model.Unres _ => false
  | Addr_Model.Res _ ptrs => forallb (fun e => placed (fst e)) ptrs
  end.
Definition all_placed (a : Addr_Model.address) : Prop := forallb (fun e => placed (fst e)) (Addr_Model.spaces a) = true.
(** A section has a name or is the unnamed one, and none is subtracted. *)
Definition sections_added (nm : nat -> bytes) (a : Addr_Model.address) : Prop :=
  Forall (fun b => (nm (fst b) = [] \/ section_name (nm (fst b))) /\ 0 <= snd b) (Addr_Model.bases a).
(** The places of sections by their names. *)
Definition by_name (nm : nat -> bytes) (p : Addr_Spec.placement) (at_ : bytes -> Z) : Prop :=
  at_ [] = 0 /\ forall s, Addr_Spec.base_at p s = at_ (nm s).

(** ** Variable symbols of open code *)
Import Hvs_Model.
(** A statement declares or sets a symbol that is written in it. *)
Definition defines (s : ostatement) (n : bytes) (t : Var_Model.ty) : Prop :=
  match s with
  | Assign created t' n' _ _ => created = false /\ n' = n /\ t' = t
  | Declare _ t' ops => t' = t /\ exists sub, In (false, Var_Model.DVar n sub) ops
  end.
(** The first statement of open code that does. *)
Definition first_definition (es : list event) (n : bytes) (t : Var_Model.ty) : Prop :=
  exists before s after, es = before ++ Open s :: after /\ defines s n t /\
    forall s' t', In (Open s') before -> ~ defines s' n t'.

(** The statements of open code are accepted: they are executed in open code without a report; those of
    macros are executed in macros. *)
Fixpoint accepted (c : Var_Model.ctx) (es : list event) : Prop :=
  match es with
  | [] => True
  | e :: r =>
      match e with
      | Open _ => Var_Model.outer c = [] /\ fst (Var_Model.exec c (as_step e)) = []
      | Inner (Var_Model.SET _ _ _ _) | Inner (Var_Model.DECL _ _ _) => Var_Model.outer c <> []
      | Inner _ => True
      end /\ accepted (snd (Var_Model.exec c (as_step e))) r
  end.
(** Everything that declares the name as global declares it with this type. *)
Definition global_as (es : list event) (n : bytes) (t : Var_Model.ty) : Prop :=
  forall e t' ops sub, In e es -> as_step e = Var_Model.DECL true t' ops -> In (Var_Model.DVar n sub) ops -> t' = t.
(** The variables of open code. *)
Definition open_scope (c : Var_Model.ctx) : Var_Model.scope := last (Var_Model.outer c) (Var_Model.current c).
Definition variable_type (c : Var_Model.ctx) (n : bytes) : option Var_Model.ty :=
  option_map (fun a => Var_Model.s_type (Var_Model.deref a c)) (Var_Model.lookup n (Var_Model.variables (open_scope c))).
