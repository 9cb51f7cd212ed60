(** C07: semantic tokens. *)
From Coq Require Import List NArith Sorting.Permutation Sorting.Sorted Lia.
From Coq Require Import ZifyBool ZifyN.
From Verif Require Import Tok_Model Tok_Spec Tok_Proof.
Import ListNotations.
Local Open Scope N_scope.

(** Decoding the array of any position-ordered list of single-line tokens gives the tokens, one
    per start position (the first of those sharing a start). *)
Theorem C07_array_decodes_to_tokens : forall ts,
  LocallySorted le_start ts -> Forall in_range ts -> Forall (fun t => sc t <= ec t) ts ->
  client_tokens (convert ts) = Some (first_per_start None (map shown ts)).
Proof. exact convert_shown. Qed.
Print Assumptions C07_array_decodes_to_tokens.

(** With pairwise different starts nothing is dropped. *)
Theorem C07_distinct_tokens_all_shown : forall ts,
  StronglySorted (fun a b => before (sl a) (sc a) (sl b) (sc b)) ts ->
  Forall in_range ts -> Forall (fun t => sc t <= ec t) ts ->
  client_tokens (convert ts) = Some (map shown ts).
Proof. exact convert_distinct. Qed.
Print Assumptions C07_distinct_tokens_all_shown.

(** End to end, from the symbols highlighted during parsing, in any order and possibly continued
    over several lines, through splitting, any correct [std::sort], and the array: the client's
    tokens are strictly ordered, non-empty, and each lies inside a symbol of its type; every line
    part of every symbol starts a token; and if symbols do not overlap, a character is coloured
    with a type exactly when a symbol of that type contains it. *)
Theorem C07_highlighting_reaches_client : forall syms out,
  Forall wf_symbol syms ->
  Permutation (collect true syms) out -> LocallySorted (fun a b => tok_lt b a = false) out ->
  exists toks, client_tokens (convert out) = Some toks /\
    StronglySorted abs_before toks /\
    (forall t, In t toks -> a_mods t = 0 /\ 0 < a_len t /\
       exists s, In s syms /\ a_type t = scope s /\ forall l c, covers t l c -> sym_cell s l c) /\
    (forall s l c, In s syms -> sym_cell s l c -> (c = if l =? sl s then sc s else 15) ->
       exists t, In t toks /\ a_line t = l /\ a_start t = c) /\
    (ForallOrdPairs disjoint syms -> forall l c ty,
       (exists t, In t toks /\ covers t l c /\ a_type t = ty) <->
       (exists s, In s syms /\ sym_cell s l c /\ scope s = ty)).
Proof.
  intros syms out Hw Hp Hs. apply symbols_to_client; auto.
  clear Hp Hw. induction Hs; constructor; auto. now apply le_start_tok_lt.
Qed.
Print Assumptions C07_highlighting_reaches_client.

(** Nothing is collected for a file that is not open in the editor. *)
Theorem C07_closed_files_have_no_tokens : forall syms out,
  Permutation (collect false syms) out -> client_tokens (convert out) = Some [].
Proof. intros syms out H. apply Permutation_nil in H. now subst. Qed.
Print Assumptions C07_closed_files_have_no_tokens.

Example C07_ex :
  let syms := [Tok 3 9 5 20 11; Tok 3 0 3 4 0; Tok 0 0 0 8 4] in
  Forall wf_symbol syms /\ ForallOrdPairs disjoint syms /\
  convert [Tok 0 0 0 8 4; Tok 3 0 3 4 0; Tok 3 9 3 71 11; Tok 4 15 4 71 11; Tok 5 15 5 20 11]
  = [0;0;8;4;0; 3;0;4;0;0; 0;9;62;11;0; 1;15;56;11;0; 1;15;5;11;0].
Proof.
  split; [|split].
  - repeat constructor; vm_compute; try discriminate; intros; try discriminate; try reflexivity.
  - repeat (apply FOP_cons || apply FOP_nil || apply Forall_cons || apply Forall_nil);
      intros l c [(A1 & A2 & A3) (B1 & B2 & B3)]; cbn [sl sc el ec] in *;
      repeat match goal with H : context [?a =? ?b] |- _ => destruct (N.eqb_spec a b) end; lia.
  - reflexivity.
Qed.
