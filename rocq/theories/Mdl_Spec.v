(** * Mdl_Spec: what the fields of statements with variable symbols are to be

    The text of a field is read from its tokens alone, left to right: a variable symbol stands for its value, a full
    stop right behind a variable symbol only ends it, and everything else stands for itself. *)
From Coq Require Import List NArith Bool Arith.
From Verif Require Import Common Mdl_Model.
Import ListNotations.

(** [v]: a variable symbol stands right before. *)
Fixpoint substituted (value : bytes -> bytes) (v : bool) (ts : list tok) : bytes :=
  match ts with
  | [] => []
  | TVar x :: r => value x ++ substituted value true r
  | TDot :: r => if v then substituted value false r else 46%N :: substituted value false r
  | t :: r => text t ++ substituted value false r
  end.
Definition written (ts : list tok) : bytes := concat (map text ts).

Definition var (t : tok) : Prop := exists v, t = TVar v.
Definition space (t : tok) : Prop := exists s, t = TSpace s.
Definition apo (t : tok) : bool := match t with TApo | TAttr => true | _ => false end.

(** Tokens have texts. *)
Definition lexed (ts : list tok) : Prop := Forall (fun t => text t <> []) ts.
(** No two apostrophes side by side, no two ampersands *)
Fixpoint tame (ts : list tok) : bool :=
  match ts with
  | [] => true
  | t :: r => negb (match t with TAmps => true | _ => false end) && negb (apo t && match r with u :: _ => apo u | [] => false end)
              && tame r
  end.
Definition no_attr (ts : list tok) : Prop := ~ In TAttr ts.

(** Where a field ends: before the first blanks that are not between apostrophes.  [q]: an apostrophe is open *)
Fixpoint until_space (q : bool) (ts : list tok) : list tok :=
  match ts with
  | [] => []
  | TSpace s :: r => if q then TSpace s :: until_space q r else []
  | TApo :: r => TApo :: until_space (negb q) r
  | t :: r => t :: until_space q r
  end.
(** No apostrophe is left open, and there is no attribute between apostrophes. *)
Fixpoint closed (q : bool) (ts : list tok) : bool :=
  match ts with
  | [] => negb q
  | TApo :: r => closed (negb q) r
  | TAttr :: r => negb q && closed q r
  | _ :: r => closed q r
  end.
Definition field_end (ts : list tok) : Prop := match ts with [] | TSpace _ :: _ => True | _ => False end.

(** Labels and operations: up to the first blanks *)
Fixpoint word (ts : list tok) : list tok :=
  match ts with [] => [] | TSpace _ :: _ => [] | t :: r => t :: word r end.
Fixpoint rest (ts : list tok) : list tok :=
  match ts with [] => [] | TSpace _ :: _ => ts | _ :: r => rest r end.
Fixpoint apostrophes (ts : list tok) : nat :=
  match ts with [] => 0 | t :: r => (if apo t then 1 else 0) + apostrophes r end.
Definition has_var (ts : list tok) : Prop := exists v, In (TVar v) ts.

(** The longest start without blanks and apostrophes *)
Fixpoint run (ts : list tok) : list tok :=
  match ts with [] => [] | TSpace _ :: _ => [] | t :: r => if apo t then [] else t :: run r end.

(** The text a label stands for, given the values *)
Definition label_text (value : bytes -> bytes) (l : label_si) : bytes :=
  match l with
  | LEmpty => []
  | LOrd s | LMac s => s
  | LSeq s => 46%N :: s
  | LVar v => value v
  | LConc c => evaluate value false c
  end.

(** Labels without variable symbols: a sequence symbol, an ordinary symbol, or some text only macros can use *)
Inductive plain_label : list tok -> label_si -> Prop :=
| plain_none : plain_label [] LEmpty
| plain_seq : forall w c n, written w = 46%N :: c :: n -> plain_label w (LSeq (c :: n))
| plain_ord : forall s, (forall c n, s <> 46%N :: c :: n) -> plain_label [TOrd s] (LOrd s)
| plain_text : forall w, w <> [] -> (forall s, w <> [TOrd s]) -> (forall c n, written w <> 46%N :: c :: n) -> plain_label w (LMac (written w)).

(** Names of ordinary symbols, HLASM: letters, digits and @ $ # _, no digit first, at most 63 *)
Definition letter (c : N) : Prop :=
  (65 <= c <= 90 \/ 97 <= c <= 122 \/ c = 95 \/ c = 64 \/ c = 36 \/ c = 35)%N.
Definition symbol_name (s : bytes) : Prop :=
  length s <= 63 /\ exists c r, s = c :: r /\ letter c /\ Forall (fun c => letter c \/ (48 <= c <= 57)%N) r.

(** [m] is [s] without the blanks at its ends. *)
Definition trimmed (s m : bytes) : Prop :=
  exists i j, s = repeat 32%N i ++ m ++ repeat 32%N j /\
    (forall c r, m = c :: r -> c <> 32%N) /\ (forall c r, m = r ++ [c] -> c <> 32%N).
