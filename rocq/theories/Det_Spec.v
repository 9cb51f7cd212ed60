(** * Det_Spec: when a document is HLASM *)
From Coq Require Import String List NArith Arith.
From Verif Require Import Common Wild_Spec.
Import ListNotations.
Open Scope list_scope.

(** A line break of JavaScript's. *)
Definition plain_name (n : list N) : Prop := forall c, In c n -> ~ In c [10; 13; 8232; 8233]%N.

(** ** Lines *)
Inductive lines_of : list N -> list (list N) -> Prop :=
| lo_last : forall l, ~ In 10%N l -> lines_of l [l]
| lo_more : forall l s ls, ~ In 10%N l -> lines_of s ls -> lines_of (l ++ 10%N :: s) (l :: ls).

Definition white (c : N) : Prop :=
  (9 <= c <= 13 \/ 8192 <= c <= 8202)%N \/ In c [32; 160; 5760; 8232; 8233; 8239; 8287; 12288; 65279]%N.
Definition blanks (s : list N) : Prop := s <> [] /\ forall c, In c s -> c = 32%N \/ c = 9%N.
(** label, operation of the list, something behind *)
Definition has_operation (ops : list (list N)) (s : list N) : Prop :=
  exists w b i b' r, s = w ++ b ++ i ++ b' ++ r /\ (forall c, In c w -> ~ white c) /\ blanks b /\ In i ops /\ blanks b'.
Definition macro_line (s : list N) : Prop := exists b r, s = b ++ s2b "MACRO" ++ r /\ blanks b.

Definition comment (l : list N) : Prop := (exists r, l = s2b "*" ++ r) \/ exists r, l = s2b ".*" ++ r.
Definition statement (l : list N) : Prop := l <> [] /\ ~ comment l.
Definition goes_on (l : list N) : Prop := exists a c r, l = a ++ c :: r /\ List.length a = 71 /\ c <> 32%N.
Definition fits (l : list N) : Prop := List.length l <= 80.

(** The lines that speak for HLASM: statements of at most 80 characters with a common operation,
    and what continues them. *)
Inductive counted (op : list N -> Prop) (ls : list (list N)) : nat -> Prop :=
| ct_op : forall i l, nth_error ls i = Some l -> statement l -> fits l -> op l -> counted op ls i
| ct_on : forall i j l m, nth_error ls j = Some l -> statement l -> fits l ->
    counted op ls i -> i < j -> nth_error ls i = Some m -> goes_on m ->
    (forall k x, i < k < j -> nth_error ls k = Some x -> ~ (statement x /\ fits x)) ->
    counted op ls j.
Definition amount (P : nat -> Prop) (n : nat) : Prop :=
  exists l, NoDup l /\ List.length l = n /\ forall i, In i l <-> P i.
(** More than two fifths of the statements. *)
Definition looks_hlasm (op : list N -> Prop) (ls : list (list N)) : Prop :=
  exists k n, amount (counted op ls) k /\ amount (fun i => exists l, nth_error ls i = Some l /\ statement l) n /\ 2 * n < 5 * k.
