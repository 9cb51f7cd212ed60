(** * Prg_Spec: programs of SETA, SETB, AIF, AGO and ANOP, how they are written and what they do

    The variables are those of [Var_Spec]: what was assigned to them, without scopes' tables and pointers. *)
From Coq Require Import String List NArith ZArith Bool Arith.
From Verif Require Import Common.
From Verif Require Fld_Spec Exp_Model Var_Model Var_Spec.
From Verif Require Import Caf_Spec Cal_Spec Prg_Model.
Import ListNotations.
Open Scope list_scope.
Open Scope nat_scope.

Inductive action :=
| Number (n : list N) (subs : list wexpr) (e : wexpr)          (* &n or &n(subscript) SETA e *)
| Logical (n : list N) (subs : list wexpr) (c : cond)          (* SETB *)
| Test (l : list (cond * list N))                              (* AIF *)
| Go (n : list N)                                              (* AGO .n *)
| Choose (e : wexpr) (n : list N) (ns : list (list N))         (* AGO (e).n,.n,... *)
| Nothing.                                                     (* ANOP *)
Record sline := Line { mark : option (list N); act : action }.

(** ** How a line is written *)
Definition marked (m : option (list N)) (t : list N) : Prop :=
  match m with Some n => Fld_Spec.symbol n /\ t = 46%N :: n | None => t = [] end.
Definition variable_written (n : list N) (subs : list wexpr) (t : list N) : Prop :=
  t = written (WVariable n subs) /\ regular (WVariable n subs) /\ List.length t <= 69.
(** The operand field has the text [f], with blanks in front of it and maybe a remark behind. *)
Definition field_written (f : list N) (s : source) : Prop :=
  0 < column s /\ column s + List.length (operands s) <= 71 /\
  exists k r, Fld_Spec.remark r /\ operands s = repeat 32%N (S k) ++ f ++ r.
Definition line_written (l : sline) (s : source) : Prop :=
  match act l with
  | Number n subs e =>
      mark l = None /\ code s = SETA /\ variable_written n subs (name_field s) /\ regular e /\ field_written (written e) s
  | Logical n subs c =>
      mark l = None /\ code s = SETB /\ variable_written n subs (name_field s) /\ operand_form c /\ sound c /\
      exists t, text c t /\ field_written t s
  | Test bs =>
      marked (mark l) (name_field s) /\ code s = AIF /\ bs <> [] /\ Forall branch_sound bs /\
      exists ts, Forall2 branch_text bs ts /\ field_written (separated ts) s
  | Go n => marked (mark l) (name_field s) /\ code s = AGO /\ Fld_Spec.symbol n /\ field_written (46%N :: n) s
  | Choose e n ns =>
      marked (mark l) (name_field s) /\ code s = AGO /\ regular e /\ plain e /\ Forall Fld_Spec.symbol (n :: ns) /\
      exists p q, pad p /\ pad q /\
        field_written (separated ((40%N :: p ++ written e ++ q ++ 41%N :: 46%N :: n) :: map (cons 46%N) ns)) s
  | Nothing => marked (mark l) (name_field s) /\ code s = ANOP
  end.

(** ** What a program does *)
(** Reading variables, with the absolute symbols [abs]. *)
Definition seen (abs : bytes -> option Z) (w : Var_Spec.world) : Exp_Model.world :=
  Exp_Model.World (fun n zs =>
    match Var_Spec.reads w n zs with
    | Var_Model.Value (Var_Model.VA z) => inl (Exp_Model.VNum z)
    | Var_Model.Value (Var_Model.VB b) => inl (Exp_Model.VBool b)
    | Var_Model.Value (Var_Model.VC s) => inl (Exp_Model.VChar s)
    | Var_Model.Param => inr 0
    | Var_Model.Undef d => inr (number_of_diag d)
    end) abs (fun _ => inr 0) (fun _ => inr 0).
(** The variable gets the value, it is new or of this type, and fits the subscript. *)
Definition gets (t : Var_Model.ty) (n : list N) (zs : list Z) (v : Var_Model.val) (w w' : Var_Spec.world) : Prop :=
  Forall (fun i => i + 1 < 2 ^ 31)%Z zs /\
  Var_Spec.assigns t (map Fld_Spec.big n) zs [Var_Model.Expr (Var_Model.Ret v)] w = ([], w').
(** The first line with the mark [t], capital or small letters aside. *)
Definition at_mark (prog : list sline) (t : list N) (i : nat) : Prop :=
  (exists l n, nth_error prog i = Some l /\ mark l = Some n /\ map Fld_Spec.big n = t) /\
  forall j l n, j < i -> nth_error prog j = Some l -> mark l = Some n -> map Fld_Spec.big n <> t.

(** Variables and line, one line done; the flag: with a jump. *)
Inductive does (abs : bytes -> option Z) (prog : list sline) : Var_Spec.world * nat -> bool -> Var_Spec.world * nat -> Prop :=
| d_number : forall w w' i l n subs e zs z, nth_error prog i = Some l -> act l = Number n subs e ->
    outcomes (seen abs w) subs (map Some zs) -> worth (seen abs w) e (Some z) -> gets Var_Model.TA n zs (Var_Model.VA z) w w' ->
    does abs prog (w, i) false (w', S i)
| d_logical : forall w w' i l n subs c zs b, nth_error prog i = Some l -> act l = Logical n subs c ->
    outcomes (seen abs w) subs (map Some zs) -> holds (seen abs w) c (Some b) -> gets Var_Model.TB n zs (Var_Model.VB b) w w' ->
    does abs prog (w, i) false (w', S i)
| d_stay : forall w i l bs os, nth_error prog i = Some l -> act l = Test bs ->
    Forall2 (fun b o => holds (seen abs w) (fst b) o) bs os -> decided (combine os (map snd bs)) = Some None ->
    does abs prog (w, i) false (w, S i)
| d_jump : forall w i l bs os t j, nth_error prog i = Some l -> act l = Test bs ->
    Forall2 (fun b o => holds (seen abs w) (fst b) o) bs os -> decided (combine os (map snd bs)) = Some (Some t) ->
    at_mark prog t j -> does abs prog (w, i) true (w, j)
| d_go : forall w i l n j, nth_error prog i = Some l -> act l = Go n -> at_mark prog (map Fld_Spec.big n) j ->
    does abs prog (w, i) true (w, j)
| d_choose : forall w i l e n ns k m j, nth_error prog i = Some l -> act l = Choose e n ns ->
    worth (seen abs w) e (Some (Z.of_nat (S k))) -> nth_error (n :: ns) k = Some m -> at_mark prog (map Fld_Spec.big m) j ->
    does abs prog (w, i) true (w, j)
| d_outside : forall w i l e n ns z, nth_error prog i = Some l -> act l = Choose e n ns ->
    worth (seen abs w) e (Some z) -> (z <= 0 \/ z > Z.of_nat (List.length (n :: ns)))%Z ->
    does abs prog (w, i) false (w, S i)
| d_nothing : forall w i l, nth_error prog i = Some l -> act l = Nothing -> does abs prog (w, i) false (w, S i).

(** [k] lines done, with [j] jumps. *)
Inductive ran (abs : bytes -> option Z) (prog : list sline) (start : Var_Spec.world * nat) : nat -> nat -> Var_Spec.world * nat -> Prop :=
| ran_none : ran abs prog start 0 0 start
| ran_more : forall k j c b c', ran abs prog start k j c -> does abs prog c b c' ->
    ran abs prog start (S k) (if b then S j else j) c'.

(** No two lines have the same mark. *)
Definition distinct (prog : list sline) : Prop :=
  forall i j l l' n n', nth_error prog i = Some l -> nth_error prog j = Some l' -> mark l = Some n -> mark l' = Some n' ->
    map Fld_Spec.big n = map Fld_Spec.big n' -> i = j.

(** The line [i] asks to go on at the mark [t]. *)
Inductive heads (abs : bytes -> option Z) (prog : list sline) : Var_Spec.world * nat -> list N -> Prop :=
| to_test : forall w i l bs os t, nth_error prog i = Some l -> act l = Test bs ->
    Forall2 (fun b o => holds (seen abs w) (fst b) o) bs os -> decided (combine os (map snd bs)) = Some (Some t) ->
    heads abs prog (w, i) t
| to_go : forall w i l n, nth_error prog i = Some l -> act l = Go n -> heads abs prog (w, i) (map Fld_Spec.big n)
| to_choose : forall w i l e n ns k m, nth_error prog i = Some l -> act l = Choose e n ns ->
    worth (seen abs w) e (Some (Z.of_nat (S k))) -> nth_error (n :: ns) k = Some m ->
    heads abs prog (w, i) (map Fld_Spec.big m).

(** A line in error: a subscript, an operand, a condition that is reached, or a variable of another type or shape. *)
Definition assignment (a : action) (t : Var_Model.ty) (n : list N) (subs : list wexpr) : Prop :=
  match a with
  | Number m l _ => t = Var_Model.TA /\ m = n /\ l = subs
  | Logical m l _ => t = Var_Model.TB /\ m = n /\ l = subs
  | _ => False
  end.
Inductive wrong (abs : bytes -> option Z) (prog : list sline) : Var_Spec.world * nat -> Prop :=
| x_subscript : forall w i l t n subs os, nth_error prog i = Some l -> assignment (act l) t n subs ->
    outcomes (seen abs w) subs os -> In None os -> wrong abs prog (w, i)
| x_variable : forall w i l t n subs zs v d ds, nth_error prog i = Some l -> assignment (act l) t n subs ->
    outcomes (seen abs w) subs (map Some zs) -> Forall (fun i => i + 1 < 2 ^ 31)%Z zs ->
    fst (Var_Spec.assigns t (map Fld_Spec.big n) zs [Var_Model.Expr (Var_Model.Ret v)] w) = d :: ds -> wrong abs prog (w, i)
| x_number : forall w i l n subs e zs, nth_error prog i = Some l -> act l = Number n subs e ->
    outcomes (seen abs w) subs (map Some zs) -> Var_Spec.here w (map Fld_Spec.big n) <> None -> worth (seen abs w) e None ->
    wrong abs prog (w, i)
| x_logical : forall w i l n subs c zs, nth_error prog i = Some l -> act l = Logical n subs c ->
    outcomes (seen abs w) subs (map Some zs) -> Var_Spec.here w (map Fld_Spec.big n) <> None -> holds (seen abs w) c None ->
    wrong abs prog (w, i)
| x_test : forall w i l bs os, nth_error prog i = Some l -> act l = Test bs ->
    Forall2 (fun b o => holds (seen abs w) (fst b) o) bs os -> decided (combine os (map snd bs)) = None -> wrong abs prog (w, i)
| x_choose : forall w i l e n ns, nth_error prog i = Some l -> act l = Choose e n ns -> worth (seen abs w) e None ->
    wrong abs prog (w, i).
