(** Messages about syntax errors: C105. *)

From Coq Require Import String List Arith ZArith Bool Lia.
Import ListNotations.
From Verif Require Import Err_Model Err_Spec Err_Proof.
Open Scope string_scope.
Open Scope list_scope.
Open Scope nat_scope.

(** The tokens of a file: EOF comes last and only there. *)
Definition file_tokens (s : state) : Prop :=
  exists body, all s = body ++ [EOF_] /\ ~ In EOF_ body /\ current s <= length body.

Definition text (substituted : option string) (c : code) : string :=
  match substituted with
  | Some t => String.append "While substituting to '" (String.append t (String.append "' => " (message c)))
  | None => message c
  end.

(** A statement that fits no rule is reported with exactly one message, at the
    place of the error: the first of the messages, in their order, that is true
    of the part of the statement at hand -- however much of it had been looked
    at. *)
Theorem C105_message : forall s start part a c0 pos sub adjust,
  recovering s = false -> file_tokens s -> start <= current s ->
  part_of (all s) start part -> part <> [] \/ (0 < start /\ In EOLLN (skipn start (all s))) ->
  exists c s', report_error s (NoViableAlternative start a c0) pos sub adjust
               = (Reported [Diag c (text sub c) (adjust pos)], s')
  /\ first_claim part a c0 c.
Proof.
  intros s start part a c0 pos sub adjust NR (body & E & NB & CL) SC PO NZ.
  unfold report_error. rewrite NR, E in *.
  destruct (consume_until_ok (body ++ [EOF_]) (current s)) as (i & t & CU & CI & NI & EI & B).
  { exists (length body), EOF_. split; [exact CL|]. split; [|right; reflexivity].
    rewrite nth_error_app2, Nat.sub_diag by lia. reflexivity. }
  rewrite CU.
  set (n := Nat.max (fetched s) (S i)).
  assert (LN : i < n) by (unfold n; lia).
  assert (IL : i < length (body ++ [EOF_])) by (apply nth_error_Some; rewrite NI; discriminate).
  pose proof (part_fetched body start part (current s) i t n PO NB SC CI NI EI B LN) as PF.
  destruct (diagnosed (firstn n (body ++ [EOF_])) start part a c0 PF) as (c & NV & FC).
  - rewrite firstn_length. lia.
  - destruct NZ as [NZ|[NZ IN]]; [left; exact NZ|].
    destruct part as [|x part]; [|left; discriminate]. right. split; [exact NZ|].
    split; [apply nth_error_Some; rewrite firstn_length; lia|].
    destruct PF as (sp & A & _ & _ & R).
    assert (TS : firstn n (body ++ [EOF_]) = firstn start (firstn n (body ++ [EOF_])) ++ skipn start (firstn n (body ++ [EOF_])))
      by (symmetry; apply firstn_skipn).
    assert (LP : length (firstn start (firstn n (body ++ [EOF_]))) = start) by (rewrite !firstn_length; lia).
    destruct R as [[r R]|R].
    + exists (start + length sp). split; [|lia]. rewrite TS. rewrite nth_error_app2 by lia.
      rewrite LP, R. cbn [app]. replace (start + length sp - start) with (length sp) by lia.
      rewrite nth_error_app2, Nat.sub_diag by lia. reflexivity.
    + (* all spaces to the end: but an EOLLN or the EOF is there *)
      exfalso. rewrite app_nil_r in R.
      assert (nth_error (firstn n (body ++ [EOF_])) i = Some t) as K.
      { rewrite <- NI. rewrite <- (firstn_skipn n (body ++ [EOF_])) at 2.
        rewrite nth_error_app1; [reflexivity|]. rewrite firstn_length. lia. }
      rewrite TS in K. rewrite nth_error_app2 in K by lia. rewrite LP, R in K.
      apply nth_error_In in K. apply A in K. subst t. destruct EI; discriminate.
  - cbn [syntax_error]. rewrite NV. exists c. eexists. split; [|exact FC].
    unfold text. destruct sub; reflexivity.
Qed.
Print Assumptions C105_message.

(** There is only one such message. *)
Theorem C105_unique : forall part a c0 c d, first_claim part a c0 c -> first_claim part a c0 d -> c = d.
Proof.
  intros part a c0 c d (x & y & E1 & C1 & B1) (u & v & E2 & C2 & B2).
  assert (ND : NoDup order) by (unfold order; repeat constructor; cbn; intuition discriminate).
  destruct (Nat.lt_trichotomy (length x) (length u)) as [L|[L|L]].
  - exfalso. apply (B2 c); [|exact C1]. rewrite E1 in E2.
    assert (nth_error (u ++ d :: v) (length x) = Some c) as K.
    { rewrite <- E2. rewrite nth_error_app2, Nat.sub_diag by lia. reflexivity. }
    rewrite nth_error_app1 in K by exact L. exact (nth_error_In _ _ K).
  - rewrite E1 in E2. assert (nth_error (u ++ d :: v) (length x) = Some c) as K.
    { rewrite <- E2. rewrite nth_error_app2, Nat.sub_diag by lia. reflexivity. }
    rewrite L in K. rewrite nth_error_app2, Nat.sub_diag in K by lia. cbn in K. congruence.
  - exfalso. apply (B1 d); [|exact C2]. rewrite E1 in E2.
    assert (nth_error (x ++ c :: y) (length u) = Some d) as K.
    { rewrite E2. rewrite nth_error_app2, Nat.sub_diag by lia. reflexivity. }
    rewrite nth_error_app1 in K by exact L. exact (nth_error_In _ _ K).
Qed.
Print Assumptions C105_unique.

(** Every statement has a part at each of its tokens. *)
Theorem C105_part : forall ts start, exists part, part_of ts start part.
Proof.
  intros ts start. unfold part_of. generalize (skipn start ts). clear. intros l.
  assert (LINE : forall l, exists part, ~ In EOLLN part /\ ((exists r, l = part ++ EOLLN :: r) \/ l = part)).
  { clear. induction l as [|x l IH].
    - exists []. split; [intros []|]. right. reflexivity.
    - destruct (tok_eq_dec x EOLLN) as [->|N].
      + exists []. split; [intros []|]. left. exists l. reflexivity.
      + destruct IH as (p & NE & R). exists (x :: p). split; [intros [K|K]; [congruence|exact (NE K)]|].
        destruct R as [[r ->]| ->]; [left; exists r; reflexivity|right; reflexivity]. }
  destruct (LINE l) as (p & NE & R).
  assert (SP : exists sp q, p = sp ++ q /\ (forall x, In x sp -> x = SPACE) /\ (forall r, q <> SPACE :: r)).
  { clear. induction p as [|x p IH].
    - exists [], []. split; [reflexivity|]. split; [intros x []|discriminate].
    - destruct (tok_eq_dec x SPACE) as [->|N].
      + destruct IH as (sp & q & -> & A & B). exists (SPACE :: sp), q. split; [reflexivity|]. split; [|exact B].
        intros y [<-|K]; [reflexivity|exact (A y K)].
      + exists [], (x :: p). split; [reflexivity|]. split; [intros y []|]. intros r K. congruence. }
  destruct SP as (sp & q & -> & A & B). exists q, sp. split; [exact A|]. split; [exact B|].
  split; [intros K; apply NE; apply in_or_app; right; exact K|].
  destruct R as [[r ->]| ->]; [left; exists r; rewrite <- app_assoc; reflexivity|right; reflexivity].
Qed.
Print Assumptions C105_part.

(** Other errors: one message, too. *)
Theorem C105_mismatch : forall s t pos sub adjust, recovering s = false -> file_tokens s ->
  exists s', report_error s (InputMismatch t) pos sub adjust
             = (Reported [Diag (if tok_eq_dec t EOLLN then S0003 else S0002)
                               (text sub (if tok_eq_dec t EOLLN then S0003 else S0002)) (adjust pos)], s')
  /\ exists s2, report_error s OtherException pos sub adjust = (Reported [Diag S0001 (text sub S0001) (adjust pos)], s2).
Proof.
  intros s t pos sub adjust NR (body & E & NB & CL). unfold report_error. rewrite NR, E.
  destruct (consume_until_ok (body ++ [EOF_]) (current s)) as (i & u & CU & _).
  { exists (length body), EOF_. split; [exact CL|]. split; [|right; reflexivity].
    rewrite nth_error_app2, Nat.sub_diag by lia. reflexivity. }
  rewrite CU. eexists. split.
  - cbn [syntax_error]. destruct (tok_eq_dec t EOLLN) as [->|N]; unfold text; destruct sub; try reflexivity;
      destruct t; try reflexivity; contradiction.
  - eexists. cbn [syntax_error]. unfold text. destruct sub; reflexivity.
Qed.
Print Assumptions C105_mismatch.

(** After an error the parser goes on at the end of the statement, and says
    nothing more until it has recovered. *)
Theorem C105_once : forall s e pos sub adjust, recovering s = false -> file_tokens s ->
  let s' := snd (report_error s e pos sub adjust) in
  all s' = all s
  /\ (exists t, nth_error (all s) (current s') = Some t /\ (t = EOLLN \/ t = EOF_))
  /\ current s <= current s'
  /\ (forall j t, current s <= j < current s' -> nth_error (all s) j = Some t -> t <> EOLLN /\ t <> EOF_)
  /\ forall e2 pos2 sub2 adjust2, report_error s' e2 pos2 sub2 adjust2 = (Reported [], s').
Proof.
  intros s e pos sub adjust NR (body & E & NB & CL). unfold report_error at 1. cbn zeta. rewrite NR, E.
  destruct (consume_until_ok (body ++ [EOF_]) (current s)) as (i & u & CU & CI & NI & EI & B).
  { exists (length body), EOF_. split; [exact CL|]. split; [|right; reflexivity].
    rewrite nth_error_app2, Nat.sub_diag by lia. reflexivity. }
  rewrite CU. cbn [snd all current]. split; [reflexivity|].
  split; [exists u; split; [exact NI|exact EI]|]. split; [exact CI|]. split.
  - intros j t L N. pose proof (B j t L N) as K. unfold ends_statement in K. intuition.
  - intros. reflexivity.
Qed.
Print Assumptions C105_once.

(** Not every message is right: a sign before a number counts as a sign that is
    not followed by an expression. *)
Theorem C105_sign_refuted : exists s start part,
  recovering s = false /\ file_tokens s /\ start <= current s /\ part_of (all s) start part
  /\ part = [ORDSYMBOL; PLUS; NUM; COMMA; DOT]
  /\ fst (report_error s (NoViableAlternative start false false) (3, 10) None (fun p => p))
     = Reported [Diag S0009 "A sign has to be followed by an expression" (3, 10)].
Proof.
  exists (State [ORDSYMBOL; SPACE; ORDSYMBOL; SPACE; ORDSYMBOL; PLUS; NUM; COMMA; DOT; EOLLN; EOF_] 9 8 false), 3,
    [ORDSYMBOL; PLUS; NUM; COMMA; DOT].
  split; [reflexivity|]. split.
  { exists [ORDSYMBOL; SPACE; ORDSYMBOL; SPACE; ORDSYMBOL; PLUS; NUM; COMMA; DOT; EOLLN]. split; [reflexivity|].
    split; [cbn; intuition discriminate|cbn; lia]. }
  split; [cbn; lia|]. split.
  { exists [SPACE]. split; [intros x [<-|[]]; reflexivity|]. split; [discriminate|].
    split; [cbn; intuition discriminate|]. left. exists [EOF_]. reflexivity. }
  split; [reflexivity|]. vm_compute. reflexivity.
Qed.
Print Assumptions C105_sign_refuted.

(** If nothing is left of the statement, the message speaks of parentheses. *)
Theorem C105_empty_refuted : exists s start,
  recovering s = false /\ file_tokens s /\ start <= current s /\ part_of (all s) start []
  /\ ~ In LPAR (all s) /\ ~ In RPAR (all s)
  /\ fst (report_error s (NoViableAlternative start false false) (0, 5) None (fun p => p))
     = Reported [Diag S0010 "Only left and right paranthesis present" (0, 5)].
Proof.
  exists (State [ORDSYMBOL; SPACE; ORDSYMBOL; SPACE; EOLLN; EOF_] 4 3 false), 3.
  split; [reflexivity|]. split.
  { exists [ORDSYMBOL; SPACE; ORDSYMBOL; SPACE; EOLLN]. split; [reflexivity|].
    split; [cbn; intuition discriminate|cbn; lia]. }
  split; [cbn; lia|]. split.
  { exists [SPACE]. split; [intros x [<-|[]]; reflexivity|]. split; [discriminate|].
    split; [intros []|]. left. exists [EOF_]. reflexivity. }
  split; [cbn; intuition discriminate|]. split; [cbn; intuition discriminate|]. vm_compute. reflexivity.
Qed.
Print Assumptions C105_empty_refuted.

(** What ANTLR reports without an exception (tokens that do not belong into a
    repetition) is not reported at all; and an error right behind them is not
    reported either. *)
Theorem C105_silent_refuted : forall s i pos sub adjust,
  fst (report_unwanted s i pos sub adjust) = Reported []
  /\ forall e pos2 sub2 adjust2,
     fst (report_error (snd (report_unwanted s i pos sub adjust)) e pos2 sub2 adjust2) = Reported [].
Proof.
  intros s i pos sub adjust. unfold report_unwanted. destruct (recovering s) eqn:R.
  - split; [reflexivity|]. intros. unfold report_error. cbn [snd]. rewrite R. reflexivity.
  - split; reflexivity.
Qed.
Print Assumptions C105_silent_refuted.

(** "LR  1,(2" and "LR 1)": parentheses. *)
Example parentheses :
  let s ts n := State ts n n false in
  fst (report_error (s [SPACE; ORDSYMBOL; SPACE; NUM; COMMA; LPAR; NUM; EOLLN; EOF_] 5)
         (NoViableAlternative 3 false false) (0, 9) (Some "x") (fun p => (fst p + 1, snd p)))
  = Reported [Diag S0011 "While substituting to 'x' => Left parenthesis has no right match" (1, 9)]
  /\ fst (report_error (s [SPACE; ORDSYMBOL; SPACE; NUM; RPAR; EOLLN; EOF_] 3)
         (NoViableAlternative 2 false false) (0, 9) None (fun p => p))
  = Reported [Diag S0012 "Right parenthesis has no left match" (0, 9)]
  /\ part_of [SPACE; ORDSYMBOL; SPACE; NUM; RPAR; EOLLN; EOF_] 2 [NUM; RPAR].
Proof.
  split; [vm_compute; reflexivity|]. split; [vm_compute; reflexivity|].
  exists [SPACE]. split; [intros x [<-|[]]; reflexivity|]. split; [discriminate|].
  split; [cbn; intuition discriminate|]. left. exists [EOF_]. reflexivity.
Qed.
