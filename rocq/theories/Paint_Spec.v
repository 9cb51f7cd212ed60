(** * Paint_Spec: what should be seen in an editor: the tokens of the last answer, by the meaning the protocol gives
    them ([Tok_Spec.client_tokens]). *)
From Coq Require Import String List NArith.
From Verif Require Import Common Tok_Spec Paint_Model.
Import ListNotations.
Open Scope list_scope.

Definition colour_of (legend : list bytes) (t : abs_tok) : colour := nth_error legend (N.to_nat (a_type t)).
Definition place_of (t : abs_tok) : range := Range (a_line t) (a_start t) (a_start t + a_len t).
Definition coloured (legend : list bytes) (data : list N) (c : colour) (r : range) : Prop :=
  exists toks t, client_tokens data = Some toks /\ In t toks /\ colour_of legend t = c /\ place_of t = r.
(** The last answer with tokens since the document was last opened. *)
Definition newer (u : bytes) (last : list N) (e : ev) : list N :=
  match e with
  | Answer v (x :: d) => if bytes_eqb v u then x :: d else last
  | Close v | Relanguage v _ => if bytes_eqb v u then [] else last
  | _ => last
  end.
Definition latest (u : bytes) (es : list ev) : list N := fold_left (newer u) es [].
Definition keeps_languages (es : list ev) : Prop := forall u l, ~ In (Relanguage u l) es.
