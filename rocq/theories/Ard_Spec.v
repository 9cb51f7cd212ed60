(** What C108 claims about AREAD. *)
From Coq Require Import String List NArith ZArith Bool.
From Verif Require Import Common Var_Model Ard_Model.
Import ListNotations.
Open Scope list_scope.
Open Scope Z_scope.

(** The operands that AREAD takes; what stands behind the first one does not matter. *)
Inductive asks : list operand -> variant -> Prop :=
| K_none : asks [] reader
| K_omitted : asks [OEmpty; OEmpty] reader
| K_nostmt r : asks (OSymbol (s2b "NOSTMT") :: r) reader
| K_noprint r : asks (OSymbol (s2b "NOPRINT") :: r) reader
| K_clockb r : asks (OSymbol (s2b "CLOCKB") :: r) clockb
| K_clockd r : asks (OSymbol (s2b "CLOCKD") :: r) clockd.

(** The statement that assigns [t]. *)
Definition SETC (n : name) (sub : list Z) (t : bytes) (c : ctx) : list vdiag * ctx :=
  process_SET TC n sub [Expr (Ret (VC t))] c.

(** A number in exactly [k] decimal digits. *)
Definition figure (k : nat) (s : bytes) (n : Z) : Prop :=
  length s = k /\ Forall (fun c => 48 <= c <= 57)%N s /\
  fold_left (fun a c => a * 10 + (Z.of_N c - 48)) s 0 = n.
Definition hundredths (d : Z) : Z := d / 10000000.
Definition day : Z := 24 * 60 * 60 * 1000000000.

(** A record of 80 bytes: the line, cut off or with blanks behind it. *)
Definition card (line r : bytes) : Prop :=
  length r = 80%nat /\
  ((length line <= 80)%nat /\ (exists b, r = line ++ b /\ Forall (eq 32%N) b) \/
   (80 < length line)%nat /\ exists rest, line = r ++ rest).
