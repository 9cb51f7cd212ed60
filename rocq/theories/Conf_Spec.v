(** What the configuration files promise. *)
From Coq Require Import List NArith Arith.
From Verif Require Import Common Wild_Spec.
Import ListNotations.

(** The first element of a list with a property. *)
Definition first_such {A} (P : A -> Prop) (l : list A) (x : A) : Prop :=
  exists pre post, l = pre ++ x :: post /\ P x /\ forall y, In y pre -> ~ P y.

(** An entry (program, group) is usable if the group is configured. *)
Definition usable (groups : list bytes) (e : bytes * bytes) : Prop := In (snd e) groups.
(** A program without '*' and '?' names one file. *)
Definition plain (p : bytes) : Prop := ~ In 42%N p /\ ~ In 63%N p.

(** The group configured for a file; [None] = no entry applies. *)
Inductive configured (groups : list bytes) (entries : list (bytes * bytes)) (file : bytes)
  : option bytes -> Prop :=
| by_name : forall e,
    first_such (fun e => usable groups e /\ plain (fst e) /\ fst e = file) entries e ->
    configured groups entries file (Some (snd e))
| by_pattern : forall e,
    (forall e', In e' entries -> ~ (usable groups e' /\ plain (fst e') /\ fst e' = file)) ->
    first_such (fun e => usable groups e /\ ~ plain (fst e) /\ denotes_plus (fst e) file) entries e ->
    configured groups entries file (Some (snd e))
| by_default :
    (forall e', In e' entries -> ~ (usable groups e' /\ plain (fst e') /\ fst e' = file)) ->
    (forall e', In e' entries -> ~ (usable groups e' /\ ~ plain (fst e') /\ denotes_plus (fst e') file)) ->
    configured groups entries file None.

(** Upper case of a member name. *)
Definition upper (s : bytes) : bytes :=
  map (fun c => if (97 <=? c)%N && (c <=? 122)%N then (c - 32)%N else c)%bool s.

(** An extension as configured, with or without its dot. *)
Definition with_dot (e : bytes) : bytes :=
  match e with [] => [] | c :: _ => if (c =? 46)%N then e else 46%N :: e end.

(** The member a file provides: the file name without the longest configured extension it
    (properly) ends with; without configured extensions the file name itself. *)
Definition provides (exts : list bytes) (filename member : bytes) : Prop :=
  match exts with
  | [] => member = upper filename
  | _ => exists stem e,
      filename = stem ++ with_dot e /\ stem <> [] /\ In e exts /\ member = upper stem
      /\ forall stem' e', filename = stem' ++ with_dot e' -> stem' <> [] -> In e' exts ->
           (length (with_dot e') <= length (with_dot e))%nat
  end.
