(** * Ems_Spec: messages on the wire, and how they may arrive *)
From Coq Require Import String List NArith.
From Verif Require Import Common.
Import ListNotations.
Open Scope list_scope.

(** A message: Content-Length, other header lines, an empty line, the body. *)
Record letter := Letter { headers : list bytes; body : bytes }.
Definition header (h : bytes) : Prop := h <> [] /\ ~ In 13%N h /\ ~ In 10%N h.
Definition proper (f : letter) : Prop := Forall header (headers f).
Definition on_wire (f : letter) : bytes :=
  s2b "Content-Length: " ++ dec (N.of_nat (List.length (body f))) ++ [13; 10]%N
  ++ concat (map (fun h => h ++ [13; 10]%N) (headers f)) ++ [13; 10]%N ++ body f.
Definition all_on_wire (fs : list letter) : bytes := concat (map on_wire fs).
Definition prefix {A} (a b : list A) : Prop := exists r, b = a ++ r.
(** [fs1] are the messages of [fs] that are complete in [a]. *)
Definition complete_in (a : bytes) (fs fs1 : list letter) : Prop :=
  exists fs2, fs = fs1 ++ fs2 /\ prefix (all_on_wire fs1) a /\
    forall f r, fs2 = f :: r -> List.length a < List.length (all_on_wire (fs1 ++ [f])).
