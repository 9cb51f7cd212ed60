(** * Pth_Spec: directories as lists of names, the ways to write them, and going along names *)
From Coq Require Import String List NArith Bool.
From Verif Require Import Common Uri_Spec.
Import ListNotations.
Open Scope list_scope.
Open Scope N_scope.

Definition slash (c : N) : Prop := c = 47.
Definition either (c : N) : Prop := c = 47 \/ c = 92.
(** [text sep steps t]: [t] is the steps, any of which may be empty, with separators between them. *)
Inductive text (sep : N -> Prop) : list bytes -> bytes -> Prop :=
| TextOne n : (forall c, In c n -> ~ sep c) -> text sep [n] n
| TextMore n c r t : (forall c, In c n -> ~ sep c) -> sep c -> text sep r t -> text sep (n :: r) (n ++ c :: t).
Definition begins_with (P : N -> Prop) (t : bytes) : Prop := match t with c :: _ => P c | [] => False end.

(** ** Linux: a directory and its name, with or without the separator at its end *)
Definition directory (names : list bytes) : bytes := spelled names ++ [47].
Definition names_directory (names : list bytes) (t : bytes) : Prop := t = directory names \/ t = spelled names /\ names <> [].

(** ** Windows *)
Definition w_name (n : bytes) : Prop := a_name n /\ ~ In 92 n /\ ~ In 58 n.
Inductive root := Drive (letter : N) | Share (server share : bytes).
Definition letter (c : N) : Prop := 65 <= c <= 90 \/ 97 <= c <= 122.
Definition a_root (r : root) : Prop := match r with Drive c => letter c | Share s h => w_name s /\ w_name h end.
Definition w_spelled (names : list bytes) : bytes := flat_map (fun n => 92 :: n) names.
Definition w_root (r : root) : bytes := match r with Drive c => [c; 58] | Share s h => 92 :: w_spelled [s; h] end.
Definition w_directory (r : root) (names : list bytes) : bytes := w_root r ++ w_spelled names ++ [92].
Definition w_names_directory (r : root) (names : list bytes) (t : bytes) : Prop :=
  t = w_directory r names \/ t = w_root r ++ w_spelled names.
(** a root written with either separator *)
Definition writes_root (r : root) (t : bytes) : Prop :=
  match r with
  | Drive c => t = [c; 58]
  | Share s h => exists a b c, either a /\ either b /\ either c /\ t = a :: b :: s ++ c :: h
  end.
(** [walk] of [Uri_Spec], never going above where it began or what it went down. *)
Inductive inside : list bytes -> list bytes -> list bytes -> Prop :=
| InStop d : inside d [] d
| InStay d n r d' : n = [] \/ n = [46] -> inside d r d' -> inside d (n :: r) d'
| InUp d r d' : d <> [] -> inside (removelast d) r d' -> inside d ([46; 46] :: r) d'
| InDown d n r d' : a_name n -> inside (d ++ [n]) r d' -> inside d (n :: r) d'.
