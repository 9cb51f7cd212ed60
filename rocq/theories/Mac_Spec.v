(** What the text of an operand and the parameters of a call are. *)
From Coq Require Import List NArith ZArith Bool.
From Verif Require Import Common Sub_Model Sub_Spec Mac_Model.
Import ListNotations.
Open Scope N_scope.

(** The text that stands for a value: digits without sign and leading zeros for a number. *)
Inductive shows : value -> bytes -> Prop :=
| shows_A : forall z t, t <> [] -> forallb is_digit t = true -> (hd 0 t = 48 -> t = [48]) ->
    Z.of_N (dec_val t) = Z.abs z -> z <> (-2147483648)%Z -> shows (AVal z) t
| shows_true : shows (BVal true) (s2b "1")
| shows_false : shows (BVal false) (s2b "0")
| shows_C : forall s, shows (CVal s) s
| shows_none : shows NoVal [].

(** The text that is generated: a variable symbol gives its value and takes a dot that follows
    away, anything else stands for itself. *)
Inductive generates_point : point -> bytes -> Prop :=
| gp_str : forall s, generates_point (Str s) s
| gp_equ : generates_point Equ (s2b "=")
| gp_dot : generates_point Dot (s2b ".")
| gp_var : forall v t, shows (holds v) t -> generates_point (Var v) t
| gp_sub : forall l ts, generates_all l ts -> generates_point (Sub l) (s2b "(" ++ commas ts ++ s2b ")")
with generates : chain -> bytes -> Prop :=
| g_nil : generates [] []
| g_var_dot : forall v c t u, shows (holds v) t -> generates c u -> generates (Var v :: Dot :: c) (t ++ u)
| g_other : forall p c t u, ~ (exists v c', p = Var v /\ c = Dot :: c') ->
    generates_point p t -> generates c u -> generates (p :: c) (t ++ u)
with generates_all : list chain -> list bytes -> Prop :=
| ga_nil : generates_all [] []
| ga_cons : forall c l t ts, generates c t -> generates_all l ts -> generates_all (c :: l) (t :: ts).

(** ** Prototype and call *)
Definition param_names (l : list param) : list id :=
  flat_map (fun p => match fst p with Some n => [n] | None => [] end) l.
(** The positional parameters, unnamed ones included. *)
Definition positionals (l : list param) : list (option id) :=
  flat_map (fun p => match snd p with None => [fst p] | Some _ => [] end) l.
Definition keyword_in (l : list param) (n : id) (default : data) : Prop := In (Some n, Some default) l.

(** The positional operands, and the first one given for a keyword. *)
Definition operands (args : list arg) : list data :=
  flat_map (fun a => match fst a with None => [snd a] | Some _ => [] end) args.
Fixpoint assigned (n : id) (args : list arg) : option data :=
  match args with
  | [] => None
  | (Some m, v) :: args => if bytes_eqb n m then Some v else assigned n args
  | (None, _) :: args => assigned n args
  end.

(** The item of a value at a path of positions from 1. *)
Definition item (d : data) (path : list nat) : data := fold_left (fun d i => get_ith d (pred i)) path d.
