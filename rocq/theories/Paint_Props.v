(** * Paint_Props (C122): the colours in the editors are those of the server's last answer *)
From Coq Require Import String List NArith Bool Arith Lia Sorting.Permutation Sorting.Sorted.
From Verif Require Import Common Lts.
From Verif Require Import Tok_Spec Paint_Model Paint_Spec Paint_Proof.
From Verif Require Tok_Model Tok_Proof Tok_Props.
Import ListNotations.
Open Scope list_scope.

(** After any events, an editor of an HLASM document shows exactly the tokens of the last answer for its document. *)
Theorem C122_colours : forall legend es s e, keeps_languages es -> run (step legend) start es = Some s ->
  In e (visible (scr s)) -> language e = s2b "hlasm" ->
  forall c r, seen s e c r <-> coloured legend (latest (e_uri e) es) c r.
Proof.
  intros legend es s e K R Ie Lg c r. pose proof (run_inv legend es start s _ K (start_inv legend) R) as I.
  change (fold_left _ es []) with (latest (e_uri e) es). rewrite <- (i_held _ _ _ I (e_uri e) c r). unfold seen. split.
  - intros (t & L & Sh). apply (i_shown _ _ _ I e Ie Lg) in Sh as (D & d & E & Id & Et & Rr). exists D. split; [exact E|].
    exists d. split; [exact Id|]. split; [|exact Rr]. destruct (i_order _ _ _ I _ _ E) as (A & _). destruct (A d Id) as (_ & A').
    subst t. congruence.
  - intros (D & E & d & Id & K' & Rr). exists (tid d). destruct (i_order _ _ _ I _ _ E) as (A & _). destruct (A d Id) as (_ & A'). split; [congruence|].
    apply (i_shown _ _ _ I e Ie Lg). now exists D, d.
Qed.
Print Assumptions C122_colours.
(** Editors of other languages show none. *)
Theorem C122_others : forall legend es s e, keeps_languages es -> run (step legend) start es = Some s ->
  In e (visible (scr s)) -> language e <> s2b "hlasm" -> forall c r, ~ seen s e c r.
Proof.
  intros legend es s e K R Ie Lg c r (t & _ & Sh). pose proof (run_inv legend es start s _ K (start_inv legend) R) as I.
  rewrite (i_plain _ _ _ I e Ie Lg) in Sh. destruct Sh.
Qed.
Print Assumptions C122_others.
(** From the symbols highlighted in the server to the characters coloured in the editor. *)
Theorem C122_characters : forall legend syms out es s e,
  Forall wf_symbol syms -> ForallOrdPairs disjoint syms ->
  Permutation (Tok_Model.collect true syms) out -> LocallySorted (fun a b => Tok_Model.tok_lt b a = false) out ->
  keeps_languages es -> run (step legend) start es = Some s ->
  In e (visible (scr s)) -> language e = s2b "hlasm" -> latest (e_uri e) es = Tok_Model.convert out ->
  forall l k c,
    (exists r, seen s e c r /\ r_line r = l /\ (r_from r <= k < r_to r)%N) <->
    exists y, In y syms /\ sym_cell y l k /\ nth_error legend (N.to_nat (Tok_Model.scope y)) = c.
Proof.
  intros legend syms out es s e W Dj P So K R Ie Lg La l k c.
  destruct (Tok_Props.C07_highlighting_reaches_client syms out W P So) as (toks & Ct & _ & _ & _ & H). specialize (H Dj). split.
  - intros (r & Sn & El & Ek). apply (C122_colours legend es s e K R Ie Lg) in Sn as (toks' & t & Ct' & It & C & Pl).
    rewrite La in Ct'. assert (toks' = toks) as -> by congruence. subst r. cbn [place_of r_line r_from r_to] in El, Ek.
    destruct (proj1 (H l k (a_type t))) as (y & Iy & Sy & Ty).
    { exists t. split; [exact It|]. split; [|reflexivity]. split; [exact El|exact Ek]. }
    exists y. split; [exact Iy|]. split; [exact Sy|]. now rewrite Ty.
  - intros (y & Iy & Sy & C). destruct (proj2 (H l k (Tok_Model.scope y))) as (t & It & (El & Ek) & Ty); [now exists y|].
    exists (place_of t). split; [|split; [exact El|exact Ek]]. apply (C122_colours legend es s e K R Ie Lg). rewrite La.
    exists toks, t. split; [exact Ct|]. split; [exact It|]. split; [|reflexivity]. unfold colour_of. now rewrite Ty.
Qed.
Print Assumptions C122_characters.
(** Every answer of the server's form is applied, at any time. *)
Theorem C122_applied : forall legend s u data toks, client_tokens data = Some toks -> step legend s (Answer u data) <> None.
Proof.
  intros legend s u data toks C.
  assert (T : forall n data line char D w toks, List.length data <= n -> decode line char data = Some toks -> tokens legend line char data D w <> None).
  { clear. induction n as [|n IH]; intros data line char D w toks L C.
    - destruct data; [discriminate|cbn in L; lia].
    - destruct data as [|d0 [|d1 [|d2 [|d3 [|d4 data]]]]]; try discriminate. cbn [tokens]. destruct (add _ _ D w) as [D1 w1].
      cbn [decode] in C. rewrite (N.add_comm line d0), (N.add_comm char d1) in C.
      destruct (decode _ _ data) as [ts|] eqn:E; [|discriminate]. eapply IH; [cbn in L; lia|exact E]. }
  cbn [step]. destruct data as [|x data]; [discriminate|]. destruct (reset _ (scr s)) as [D w].
  pose proof (T _ (x :: data) 0%N 0%N D w toks (le_n _) C) as N. destruct (tokens _ _ _ _ D w) as [[D' w']|]; [discriminate|now destruct N].
Qed.
Print Assumptions C122_applied.

Definition names : list bytes := [s2b "label"; s2b "instruction"; s2b "remark"].
Definition A := s2b "file:///a". Definition B := s2b "file:///b".
Definition in_hlasm := s2b "hlasm". Definition in_text := s2b "plaintext".
Definition blank : editor := Ed 9 [] [] (fun _ => []).
Definition after (es : list ev) : st := match run (step names) start es with Some s => s | None => start end.
Definition first (s : st) : editor := match visible (scr s) with e :: _ => e | [] => blank end.
Lemma after_run : forall es, match run (step names) start es with Some _ => true | None => false end = true -> run (step names) start es = Some (after es).
Proof. intros es H. unfold after. now destruct (run (step names) start es). Qed.
Lemma first_in : forall s, match visible (scr s) with [] => false | _ => true end = true -> In (first s) (visible (scr s)).
Proof. intros s H. unfold first. destruct (visible (scr s)); [discriminate|now left]. Qed.
Lemma first_seen : forall s t c r rs, live (scr s) t = Some c -> shown (first s) t = r :: rs -> seen s (first s) c r.
Proof. intros s t c r rs L S. exists t. split; [exact L|]. rewrite S. now left. Qed.
(** Two editors of one document, one of another, one of plain text; the second answer drops the remark. *)
Definition session : list ev :=
  [Show [(0, A, in_hlasm); (1, B, in_hlasm); (2, B, in_text)]; Answer A [0;0;3;0;0; 0;9;2;1;0; 1;0;5;2;0]%N; Answer B [4;0;1;2;0]%N;
   Show [(0, A, in_hlasm); (3, A, in_hlasm); (1, B, in_hlasm)]; Answer A [0;0;3;0;0; 1;9;2;1;0]%N].
Example ex_session : exists s, run (step names) start session = Some s /\ keeps_languages session /\
  List.length (visible (scr s)) = 3 /\ Forall (fun e => language e = s2b "hlasm") (visible (scr s)) /\
  latest A session = [0;0;3;0;0; 1;9;2;1;0]%N /\ latest B session = [4;0;1;2;0]%N /\
  coloured names (latest A session) (Some (s2b "instruction")) (Range 1 9 11) /\
  ~ coloured names (latest A session) (Some (s2b "remark")) (Range 1 0 5).
Proof.
  exists (after session). split; [apply after_run; vm_compute; reflexivity|].
  split; [|split; [vm_compute; reflexivity|split; [|split; [vm_compute; reflexivity|split; [vm_compute; reflexivity|split]]]]].
  - intros u l J. cbn in J. intuition discriminate.
  - apply Forall_forall. intros e I. assert (H : forallb (fun e => bytes_eqb (language e) (s2b "hlasm")) (visible (scr (after session))) = true) by (vm_compute; reflexivity).
    rewrite forallb_forall in H. apply bytes_eqb_eq. exact (H e I).
  - eexists _, _. split; [reflexivity|]. split; [right; now left|]. now split.
  - intros (toks & t & E & I & C & P). injection E as <-. destruct I as [<-|[<-|[]]]; discriminate.
Qed.
(** An answer without tokens (the text was deleted) leaves the colours of the one before. *)
Theorem C122_empty_refuted : exists es s e c r, keeps_languages es /\ run (step names) start (es ++ [Answer A []]) = Some s /\
  In e (visible (scr s)) /\ e_uri e = A /\ client_tokens [] = Some [] /\ seen s e c r.
Proof.
  set (es := [Show [(0, A, in_hlasm)]; Answer A [0;0;3;0;0]%N]).
  exists es, (after (es ++ [Answer A []])), (first (after (es ++ [Answer A []]))), (Some (s2b "label")), (Range 0 0 3).
  split; [intros u l J; cbn in J; intuition discriminate|]. split; [apply after_run; vm_compute; reflexivity|].
  split; [apply first_in; vm_compute; reflexivity|]. split; [vm_compute; reflexivity|]. split; [reflexivity|].
  apply first_seen with (t := 0) (rs := []); vm_compute; reflexivity.
Qed.
Print Assumptions C122_empty_refuted.
(** A document taken to another language keeps its colours, and when it comes back the old ones stay among the new. *)
Theorem C122_language_refuted :
  (exists es s e c r, run (step names) start (es ++ [Relanguage A in_text]) = Some s /\ In e (visible (scr s)) /\ language e = in_text /\ seen s e c r) /\
  (exists es s e c r data, run (step names) start (es ++ [Relanguage A in_text; Relanguage A in_hlasm; Answer A data]) = Some s /\
     In e (visible (scr s)) /\ e_uri e = A /\ language e = in_hlasm /\ data <> [] /\ seen s e c r /\ ~ coloured names data c r).
Proof.
  set (es := [Show [(0, A, in_hlasm)]; Answer A [0;0;3;0;0]%N]). split.
  - exists es, (after (es ++ [Relanguage A in_text])), (first (after (es ++ [Relanguage A in_text]))), (Some (s2b "label")), (Range 0 0 3).
    split; [apply after_run; vm_compute; reflexivity|]. split; [apply first_in; vm_compute; reflexivity|]. split; [vm_compute; reflexivity|].
    apply first_seen with (t := 0) (rs := []); vm_compute; reflexivity.
  - set (es' := es ++ [Relanguage A in_text; Relanguage A in_hlasm; Answer A [0;0;7;2;0]%N]).
    exists es, (after es'), (first (after es')), (Some (s2b "label")), (Range 0 0 3), [0;0;7;2;0]%N.
    split; [apply after_run; vm_compute; reflexivity|]. split; [apply first_in; vm_compute; reflexivity|]. split; [vm_compute; reflexivity|].
    split; [vm_compute; reflexivity|]. split; [discriminate|]. split.
    + apply first_seen with (t := 0) (rs := []); vm_compute; reflexivity.
    + intros (toks & t & E & I & C & P). injection E as <-. destruct I as [<-|[]]; discriminate.
Qed.
Print Assumptions C122_language_refuted.
