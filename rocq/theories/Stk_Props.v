(** C95-C97: which statement is read next, where it and what is said of it is placed. *)
From Coq Require Import String.
From Coq Require Import List NArith ZArith Bool Lia.
From Coq Require Import ZifyBool ZifyNat ZifyN.
From Verif Require Import Common Stk_Model Stk_Spec Stk_Proof Stk_Frames Stk_Nests.
Import ListNotations.
Open Scope nat_scope.

(** ** C95: the chain of places *)

(** At a statement the stack is defined, and it is the chain of everything that has been entered and not left. *)
Theorem C95_stack : forall file os c x out, runs file os c x out -> at_stmt (acts x) -> ~ looking_from_macro x ->
  processing_stack c = Some (rev (chain (acts x))).
Proof. intros file os c x out H A N. destruct (runs_inv _ _ _ _ _ H) as (rest & s0 & IV). apply (stack_ok _ _ _ _ _ IV A N). Qed.
Print Assumptions C95_stack.

(** Its innermost place is the statement that has been read, and so is current_statement_location. *)
Theorem C95_innermost : forall file os c x out p c' x' q l',
  runs file os c x out -> step (Next p) c = Some (c', Some q) -> spec_step (Next p) x = Some (x', l') ->
  ~ looking_from_macro x' ->
  exists r f, processing_stack c' = Some (r ++ [f]) /\ f_loc f = q /\ current_statement_location c' = Some q.
Proof.
  intros file os c x out p c' x' q l' H S1 S2 N. destruct (runs_inv _ _ _ _ _ H) as (rest & s0 & IV).
  destruct (step_sound _ _ _ _ _ (Next p) _ _ _ _ IV Logic.I S1 S2) as (<- & (r' & s' & IV') & AT).
  specialize (AT ltac:(discriminate)). pose proof S2 as S2'.
  rewrite spec_step_next in S2. destruct (spec_next p (acts x)) as [[la oa]|] eqn:SN; [|discriminate]. injection S2 as <- ->.
  destruct (next_place _ _ _ _ (iv_wf _ _ _ _ _ IV) SN) as (f & r & CH & FL).
  destruct (current_ok _ _ _ _ _ IV' AT N) as (f2 & r2 & CH2 & CL). cbn [acts] in CH2. rewrite CH in CH2. injection CH2 as <- <-.
  pose proof (stack_ok _ _ _ _ _ IV' AT N) as ST. cbn [acts] in ST. rewrite CH in ST. cbn [rev] in ST.
  exists (rev r), f. rewrite <- FL. auto.
Qed.
Print Assumptions C95_innermost.

(** A diagnostic has the file of the innermost place and says of each other place, innermost first, that it was being
    compiled. *)
Theorem C95_report : forall file os c x out f r, runs file os c x out -> at_stmt (acts x) -> ~ looking_from_macro x ->
  chain (acts x) = f :: r ->
  collect [] c = Some (l_file (f_loc f), map (fun g => said (f_loc g)) r).
Proof.
  intros file os c x out f r H A N E. unfold collect. rewrite (C95_stack _ _ _ _ _ H A N). cbn [bind]. unfold report.
  rewrite rev_involutive, E. f_equal. f_equal. apply map_ext. intros [[[p q] g] t]. unfold while_compiling, said. cbn.
  replace (p + 1)%N with (N.succ p) by lia. reflexivity.
Qed.
Print Assumptions C95_report.

(** There is always such a place. *)
Theorem C95_some_place : forall file os c x out, runs file os c x out -> at_stmt (acts x) ->
  exists f r, chain (acts x) = f :: r.
Proof.
  intros file os c x out H A. destruct (runs_inv _ _ _ _ _ H) as (rest & s0 & IV). pose proof (iv_wf _ _ _ _ _ IV) as W.
  destruct (acts x) as [|a l] eqn:E; [contradiction|]. apply chain_ne. pose proof (wf_all _ W A) as G. inversion G; assumption.
Qed.
Print Assumptions C95_some_place.

(** What is said later of a statement that was put off is said of the places it had. *)
Theorem C95_postponed : forall file os c x out st c', runs file os c x out -> at_stmt (acts x) -> ~ looking_from_macro x ->
  processing_stack c = Some st -> collect st c' = collect [] c.
Proof.
  intros file os c x out st c' H A N E. unfold collect at 2. rewrite E. cbn [bind].
  destruct (C95_some_place _ _ _ _ _ H A) as (f & r & CH). rewrite (C95_stack _ _ _ _ _ H A N), CH in E. injection E as <-.
  unfold collect. cbn [rev]. destruct (rev r ++ [f]) eqn:Q; [destruct (rev r); discriminate|reflexivity].
Qed.
Print Assumptions C95_postponed.

(** A called macro's statement has the caller's places, then its own. *)
Theorem C95_call : forall file os c x out nests p c1 c2 q st, runs file os c x out -> legal (EnterMacro nests) x ->
  processing_stack c = Some st -> step (EnterMacro nests) c = Some (c1, None) -> step (Next p) c1 = Some (c2, Some q) ->
  exists nest own, nth_error nests 0 = Some nest /\ map f_loc own = nest /\ processing_stack c2 = Some (st ++ own) /\
    map f_type own = MACRO :: repeat COPY (List.length nest - 1).
Proof.
  intros file os c x out nests p c1 c2 q st H LG E S1 S2. pose proof LG as LG'. destruct LG' as (AT & T1 & SV & NN).
  assert (NL : ~ looking_from_macro x) by (intros (l & L & _); congruence).
  destruct (runs_inv _ _ _ _ _ H) as (rest & s0 & IV).
  destruct (step_sound _ _ _ _ _ (EnterMacro nests) _ _ _ _ IV LG S1 eq_refl) as (_ & (r1 & s1 & IV1) & _).
  assert (exists nest, nth_error nests 0 = Some nest) as (nest & NT).
  { destruct nests; [|eexists; reflexivity]. exfalso.
    destruct (step_ok _ _ _ _ _ (Next p) IV1 Logic.I) as (a & b & l & rr & ss & E1 & E2 & _). rewrite S2 in E1. injection E1 as <- <-.
    cbn in E2. discriminate. }
  destruct (step_sound _ _ _ _ _ (Next p) _ (Sp (AMacro nests 1 :: acts x) (saved x) (smarks x)) _ (Some (last nest (Loc (0%N, 0%N) []))) IV1 Logic.I S2) as (_ & (r2 & s2 & IV2) & A2).
  { cbn [spec_step acts]. rewrite NT. reflexivity. }
  pose proof (stack_ok _ _ _ _ _ IV2 (A2 ltac:(discriminate)) ltac:(intros (l & L & _); cbn in L; congruence)) as ST.
  cbn [acts] in ST. rewrite (C95_stack _ _ _ _ _ H AT NL) in E. injection E as <-.
  cbn [chain] in ST. rewrite rev_app_distr, rev_involutive in ST.
  exists nest, (frames (AMacro nests 1)). split; [exact NT|]. split; [|split; [exact ST|]].
  - cbn [frames]. rewrite NT. destruct nest; [apply nth_error_In in NT; apply (proj1 (Forall_forall _ _) NN) in NT; congruence|].
    cbn. f_equal. rewrite map_map. apply map_id.
  - cbn [frames]. rewrite NT. destruct nest as [|a nest]; [apply nth_error_In in NT; apply (proj1 (Forall_forall _ _) NN) in NT; congruence|].
    cbn. f_equal. rewrite map_map, Nat.sub_0_r. cbn. clear. induction nest; [reflexivity|]. cbn. f_equal. assumption.
Qed.
Print Assumptions C95_call.

(** *** A run with a member and a macro *)
Definition main := s2b "main".
Definition mem : member := {| m_file := s2b "lib/MEM"; m_stmts := [(0, 0); (3, 0)]%N |}.
Definition mac : list (list loc) := [[Loc (1, 0)%N main]; [Loc (2, 0)%N main; Loc (0, 5)%N (s2b "lib/X")]].
Definition ops1 : list op := [Next (10, 0)%N; EnterCopy mem; Next (0, 0)%N; Next (0, 0)%N; EnterMacro mac; Next (0, 0)%N; Next (0, 0)%N].
Lemma goes_runs : forall os c x ls c' x', goes c x os ls c' x' -> forall file os0 out, runs file os0 c x out ->
  runs file (os0 ++ os) c' x' (out ++ ls).
Proof.
  intros os c x ls c' x' H. induction H as [|c x o l l' c1 x1 os ls c2 x2 LG S1 S2 _ IH]; intros file os0 out R.
  - rewrite !app_nil_r. exact R.
  - change (o :: os) with ([o] ++ os). change (l :: ls) with ([l] ++ ls). rewrite !app_assoc. apply IH.
    eapply runs_step; eassumption.
Qed.
Ltac go := eapply goes_cons; [cbn; try tauto; intuition (try discriminate; try lia; repeat constructor; try discriminate)|reflexivity|reflexivity|].
Example ops1_runs : exists c x out, runs main ops1 c x out /\
  (exists a, does ops1 (start main) = Some (c, a)) /\ at_stmt (acts x) /\ ~ looking_from_macro x /\
  processing_stack c = Some [Frame (Loc (10, 0)%N main) OPENCODE; Frame (Loc (3, 0)%N (s2b "lib/MEM")) COPY;
                             Frame (Loc (2, 0)%N main) MACRO; Frame (Loc (0, 5)%N (s2b "lib/X")) COPY] /\
  collect [] c = Some (s2b "lib/X",
    [Related main (2, 0)%N (s2b "While compiling main(3)");
     Related (s2b "lib/MEM") (3, 0)%N (s2b "While compiling lib/MEM(4)");
     Related main (10, 0)%N (s2b "While compiling main(11)")]).
Proof.
  eexists. eexists. eexists. split.
  { change ops1 with ([] ++ ops1). eapply goes_runs; [|constructor]. unfold ops1. do 7 go. apply goes_nil. }
  split; [eexists; reflexivity|]. split; [cbn; lia|]. split; [intros (l & L & _); discriminate|].
  split; [reflexivity|vm_compute; reflexivity].
Qed.

(** Finding: an attribute is looked for from within a macro.  Statements of open code are read, but the innermost place
    remains the macro's. *)
Theorem C95_lookahead_refuted : exists os c x out p c' x' q l',
  runs main os c x out /\ step (Next p) c = Some (c', Some q) /\ spec_step (Next p) x = Some (x', l') /\
  q = Loc (11, 0)%N main /\
  exists st f, processing_stack c' = Some (st ++ [f]) /\ f_loc f = Loc (0, 5)%N (s2b "lib/X") /\
  current_statement_location c' = Some (f_loc f) /\
  exists rel, collect [] c' = Some (s2b "lib/X", rel).
Proof.
  exists [Next (10, 0)%N; EnterMacro mac; Next (0, 0)%N; Next (0, 0)%N; LookStart ORD].
  eexists. eexists. eexists. exists (11, 0)%N. eexists. eexists. eexists. eexists.
  split.
  { match goal with |- runs _ ?o _ _ _ => change o with ([] ++ o) end. eapply goes_runs; [|constructor]. do 5 go. apply goes_nil. }
  split; [reflexivity|]. split; [reflexivity|]. split; [reflexivity|].
  exists [Frame (Loc (11, 0)%N main) OPENCODE; Frame (Loc (2, 0)%N main) MACRO]. eexists.
  split; [reflexivity|]. split; [reflexivity|]. split; [reflexivity|]. eexists. vm_compute. reflexivity.
Qed.
Print Assumptions C95_lookahead_refuted.

(** Finding: COPY as an operation made in a macro's statement by substitution.  The member is entered below the macro,
    whose statements go on being read; the stack then reads the member's statement -1. *)
Theorem C95_copy_in_macro_refuted : exists os c x out c1 c2 q,
  runs main os c x out /\ at_stmt (acts x) /\ in_macro (acts x) /\
  step (EnterCopy mem) c = Some (c1, None) /\ processing_stack c1 = None /\
  step (Next (0, 0)%N) c1 = Some (c2, Some q) /\ l_file q = s2b "lib/X" /\ processing_stack c2 = None /\ collect [] c2 = None.
Proof.
  exists [Next (10, 0)%N; EnterMacro mac; Next (0, 0)%N].
  eexists. eexists. eexists. eexists. eexists. eexists. split.
  { match goal with |- runs _ ?o _ _ _ => change o with ([] ++ o) end. eapply goes_runs; [|constructor]. do 3 go. apply goes_nil. }
  split; [cbn; lia|]. split; [exact Logic.I|]. repeat (split; [reflexivity|]). reflexivity.
Qed.
Print Assumptions C95_copy_in_macro_refuted.

(** ** C96: which statement is read next *)

(** Whatever statements do, nothing outside of a member or macro is read, the statement read next is the next one of what
    was entered last, and the run goes on. *)
Theorem C96_next : forall file os c x out o, runs file os c x out -> legal o x ->
  exists c' x' l, step o c = Some (c', l) /\ spec_step o x = Some (x', l) /\ runs file (os ++ [o]) c' x' (out ++ [l]) /\
    (l <> None -> at_stmt (acts x')).
Proof.
  intros file os c x out o H LG. destruct (runs_inv _ _ _ _ _ H) as (rest & s0 & IV).
  destruct (step_ok _ _ _ _ _ _ IV LG) as (c' & x' & l & r' & s' & E1 & E2 & _ & A).
  exists c', x', l. split; [exact E1|]. split; [exact E2|]. split; [|exact A]. eapply runs_step; eassumption.
Qed.
Print Assumptions C96_next.

Lemma skipn_nth : forall A (l : list A) k x, nth_error l k = Some x -> skipn k l = x :: skipn (S k) l.
Proof. induction l as [|y l IH]; intros [|k] x E; cbn in *; try discriminate; [congruence|]. apply IH. exact E. Qed.
(** A macro's statements are read one after another, then everything is as it was at the call. *)
Lemma macro_rest : forall nests done ps c ms, done + List.length ps = S (List.length nests) -> 0 < List.length ps ->
  Forall (fun n => n <> []) nests -> attr_lookahead_active c = false -> (exists s, sources c = [s]) ->
  does (map Next ps) (set_macros (Minvo nests (Z.of_nat done - 1)%Z :: ms) c) =
  Some (set_macros ms c, map (fun n => Some (last n (Loc (0%N, 0%N) []))) (skipn done nests) ++ [None]).
Proof.
  intros nests done ps. revert done. induction ps as [|p ps IH]; intros done c ms L P NN A (s & SS); [cbn in P; lia|].
  cbn [map does List.length] in *. unfold step, next. cbn [set_macros sources macros attr_lookahead_active looking].
  unfold attr_lookahead_active in *. cbn [looking set_macros]. rewrite SS, A.
  destruct (Nat.eq_dec (List.length ps) 0) as [Z|NZ].
  - destruct ps; [|discriminate]. unfold macro_next. cbn [v_cur v_nests List.length] in *.
    replace (Z.of_nat done - 1 + 1 =? Z.of_nat (List.length nests))%Z with true by (symmetry; apply Z.eqb_eq; lia).
    cbn [map does]. replace (skipn done nests) with (@nil (list loc)); [reflexivity|]. symmetry. apply skipn_all2. lia.
  - unfold macro_next. cbn [v_cur v_nests].
    replace (Z.of_nat done - 1 + 1 =? Z.of_nat (List.length nests))%Z with false by (symmetry; apply Z.eqb_neq; lia).
    assert (NT : nth_error nests done = Some (nth done nests [])) by (apply nth_error_nth'; lia).
    unfold at_. replace (Z.of_nat done - 1 + 1 <? 0)%Z with false by (symmetry; apply Z.ltb_ge; lia).
    replace (Z.to_nat (Z.of_nat done - 1 + 1)) with done by lia. rewrite NT. cbn [bind].
    assert (NE : nth done nests [] <> []) by (apply (proj1 (Forall_forall _ _) NN); apply (nth_error_In _ _ NT)).
    set (nest := nth done nests []) in *. unfold last_loc. destruct (exists_last NE) as [a [b EQ]]. rewrite EQ, rev_app_distr. cbn [rev app bind].
    pose proof (IH (S done) c ms ltac:(lia) ltac:(lia) NN A (ex_intro _ s SS)) as I1.
    replace (Z.of_nat (S done) - 1)%Z with (Z.of_nat done - 1 + 1)%Z in I1 by lia.
    change (set_macros (Minvo nests (Z.of_nat done - 1 + 1)%Z :: ms) (set_macros (Minvo nests (Z.of_nat done - 1)%Z :: ms) c))
      with (set_macros (Minvo nests (Z.of_nat done - 1 + 1)%Z :: ms) c).
    rewrite I1. f_equal. f_equal.
    rewrite (skipn_nth _ _ _ _ NT). cbn [map app]. rewrite EQ, last_last. reflexivity.
Qed.
Theorem C96_macro : forall file os c x out nests ps, runs file os c x out -> legal (EnterMacro nests) x ->
  List.length ps = S (List.length nests) ->
  does (EnterMacro nests :: map Next ps) c = Some (c, None :: map (fun n => Some (last n (Loc (0%N, 0%N) []))) nests ++ [None]).
Proof.
  intros file os c x out nests ps H (AT & T1 & SV & NN) L. destruct (runs_inv _ _ _ _ _ H) as (rest & s0 & IV).
  pose proof (inv_texts _ _ _ _ _ IV) as TX. assert (rest = []) by (destruct rest; [reflexivity|cbn in TX; lia]). subst rest.
  pose proof (inv_saved _ _ _ _ _ IV SV) as LK. pose proof (iv_sources _ _ _ _ _ IV) as SS. cbn [app] in SS.
  cbn [does]. unfold step at 1. rewrite SS.
  pose proof (macro_rest nests 0 ps c (macros c) ltac:(lia) ltac:(lia) NN) as M. cbn [Z.of_nat skipn] in M.
  replace (0 - 1)%Z with (-1)%Z in M by lia. rewrite M; [|unfold attr_lookahead_active; rewrite LK; reflexivity|eauto].
  destruct c. reflexivity.
Qed.
Print Assumptions C96_macro.

(** A member's statements, likewise. *)
Lemma member_rest : forall m done ps c f q cs r, done + List.length ps = S (List.length (m_stmts m)) -> 0 < List.length ps ->
  (r = [] -> attr_lookahead_active c = true \/ macros c = []) ->
  sources c = Source f q (Invo m (Z.of_nat done - 1)%Z :: cs) :: r ->
  does (map Next ps) c =
  Some (Ctx (Source f q cs :: r) (macros c) (looking c) (marks c),
        map (fun p => Some (Loc p (m_file m))) (skipn done (m_stmts m)) ++ [None]).
Proof.
  intros m done ps. revert done. induction ps as [|p ps IH]; intros done c f q cs r L P NM SS; [cbn in P; lia|].
  cbn [map does List.length] in *. unfold step, next. rewrite SS. cbn [s_copies].
  assert (NX : match r, attr_lookahead_active c, macros c with
               | [], false, m0 :: ms => macro_next m0 ms c
               | _, _, _ => copy_next (Source f q (Invo m (Z.of_nat done - 1)%Z :: cs)) c
               end = copy_next (Source f q (Invo m (Z.of_nat done - 1)%Z :: cs)) c).
  { destruct r; [|reflexivity]. destruct (NM eq_refl) as [->| ->]; [reflexivity|]. destruct (attr_lookahead_active c); reflexivity. }
  rewrite NX. unfold copy_next. cbn [s_copies i_cur i_member s_file s_pos].
  destruct (Nat.eq_dec (List.length ps) 0) as [Z|NZ].
  - destruct ps; [|discriminate]. cbn [List.length] in *.
    replace (Z.of_nat done - 1 + 1 =? Z.of_nat (List.length (m_stmts m)))%Z with true by (symmetry; apply Z.eqb_eq; lia).
    cbn [map does]. replace (skipn done (m_stmts m)) with (@nil pos); [|symmetry; apply skipn_all2; lia].
    unfold set_last. rewrite SS. reflexivity.
  - replace (Z.of_nat done - 1 + 1 =? Z.of_nat (List.length (m_stmts m)))%Z with false by (symmetry; apply Z.eqb_neq; lia).
    assert (NT : nth_error (m_stmts m) done = Some (nth done (m_stmts m) (0%N, 0%N))) by (apply nth_error_nth'; lia).
    unfold copy_loc. cbn [i_member i_cur]. unfold at_. replace (Z.of_nat done - 1 + 1 <? 0)%Z with false by (symmetry; apply Z.ltb_ge; lia).
    replace (Z.to_nat (Z.of_nat done - 1 + 1)) with done by lia. rewrite NT. cbn [bind].
    set (q1 := nth done (m_stmts m) (0%N, 0%N)) in *.
    rewrite (IH (S done) (set_last (Source f q (Invo m (Z.of_nat done - 1 + 1)%Z :: cs)) c) f q cs r ltac:(lia) ltac:(lia) NM).
    2: { unfold set_last. cbn [sources]. rewrite SS. cbn [tl]. replace (Z.of_nat (S done) - 1)%Z with (Z.of_nat done - 1 + 1)%Z by lia. reflexivity. }
    cbn [macros looking marks set_last]. f_equal. f_equal.
    rewrite (skipn_nth _ _ _ _ NT). reflexivity.
Qed.
Theorem C96_member : forall file os c x out m ps, runs file os c x out -> legal (EnterCopy m) x ->
  List.length ps = S (List.length (m_stmts m)) ->
  does (EnterCopy m :: map Next ps) c = Some (c, None :: map (fun p => Some (Loc p (m_file m))) (m_stmts m) ++ [None]).
Proof.
  intros file os c x out m ps H (AT & NM) L. destruct (runs_inv _ _ _ _ _ H) as (rest & s0 & IV).
  pose proof (inv_acts _ _ _ _ _ IV) as AC.
  destruct (source_top rest s0) as (s & r & ST & RN). pose proof (iv_sources _ _ _ _ _ IV) as SS. rewrite ST in SS.
  cbn [does]. unfold step at 1. rewrite SS.
  rewrite (member_rest m 0 ps (set_last (Source (s_file s) (s_pos s) (Invo m (-1)%Z :: s_copies s)) c) (s_file s) (s_pos s) (s_copies s) r ltac:(lia) ltac:(lia)).
  - cbn [skipn set_last macros looking marks]. destruct c, s. cbn in *. subst. reflexivity.
  - intros RR. destruct (RN RR) as [-> ->]. rewrite AC in NM. apply not_in_macro in NM. unfold shown in NM.
    unfold attr_lookahead_active. cbn [set_last looking macros]. destruct IV. destruct (looking c) as [[[|] n]|]; [left; reflexivity| |right; exact NM].
    destruct (saved x) as [[a l]|]; [|contradiction]. right. destruct iv_acts as (_ & _ & M & _). exact (M eq_refl).
  - unfold set_last. cbn [sources]. rewrite SS. reflexivity.
Qed.
Print Assumptions C96_member.

(** A lookahead, whatever it reads, goes back: for an attribute to before the statement that asked, for a sequence symbol
    to after it. *)
Lemma goes_saved : forall c x os ls c' x' s, goes c x os ls c' x' -> saved x = Some s -> ~ In LookEnd os -> saved x' = Some s.
Proof.
  intros c x os ls c' x' s H. induction H as [|c x o l l' c1 x1 os ls c2 x2 LG S1 S2 _ IH]; intros SV N; [exact SV|].
  apply IH; [|intros I; apply N; right; exact I].
  destruct o; cbn [spec_step legal] in *;
    try (rewrite spec_step_next in S2; destruct (spec_next p (acts x)) as [[? ?]|]; [|discriminate]; injection S2 as <- <-; exact SV);
    try (injection S2 as <- <-; exact SV).
  - change (spec_step (Next p) x = Some (x1, l')) in S2. rewrite spec_step_next in S2.
    destruct (spec_next p (acts x)) as [[? ?]|]; [|discriminate]. injection S2 as <- <-; exact SV.
  - destruct (acts x) as [|[] ?]; try discriminate. injection S2 as <- <-. exact SV.
  - destruct (nth_error (smarks x) n); [|discriminate]. injection S2 as <- <-. exact SV.
  - destruct LG as (_ & _ & SN & _). congruence.
  - elim N. left. reflexivity.
Qed.
Lemma goes_app : forall c x a b ls c' x', goes c x (a ++ b) ls c' x' -> exists c1 x1 l1 l2, goes c x a l1 c1 x1 /\ goes c1 x1 b l2 c' x'.
Proof.
  intros c x a. revert c x. induction a as [|o a IH]; intros c x b ls c' x' H.
  - exists c, x, [], ls. split; [constructor|exact H].
  - inversion H; subst. match goal with G : goes _ _ (a ++ b) _ _ _ |- _ => destruct (IH _ _ _ _ _ _ G) as (c2 & x2 & l1 & l2 & G1 & G2) end.
    exists c2, x2. eexists. exists l2. split; [eapply goes_cons; eassumption|exact G2].
Qed.
Theorem C96_lookahead : forall c x a mid ls c' x', goes c x (LookStart a :: mid ++ [LookEnd]) ls c' x' -> ~ In LookEnd mid ->
  acts x' = match a with ORD => again (acts x) | SEQ => acts x end.
Proof.
  intros c x a mid ls c' x' H N. inversion H as [|? ? ? ? ? c1 x1 ? ls1 ? ? LG S1 S2 G]; subst.
  destruct (goes_app _ _ _ _ _ _ _ G) as (c2 & x2 & l1 & l2 & G1 & G2).
  assert (SV : saved x1 = Some (a, match a with ORD => again (acts x) | SEQ => acts x end)).
  { destruct a; cbn in S2; injection S2 as <- <-; reflexivity. }
  pose proof (goes_saved _ _ _ _ _ _ _ G1 SV N) as SV2. inversion G2 as [|? ? ? ? ? c3 x3 ? ls3 ? ? LG3 S3 S4 G3]; subst.
  inversion G3; subst. cbn [spec_step] in S4. rewrite SV2 in S4. injection S4 as <- <-. reflexivity.
Qed.
Print Assumptions C96_lookahead.
Lemma read_again : forall l q f r x2 o, wf l -> at_stmt l -> chain l = f :: r -> q = f_loc f ->
  spec_next (l_pos q) (again l) = Some (x2, o) -> o = Some q.
Proof.
  intros l q f r x2 o W AT CH QF S2. pose proof (wf_all _ W AT) as GD. destruct l as [|a rr]; [contradiction|].
  inversion GD as [|? ? GA _]; subst. destruct GA as [GA1 GA2].
  destruct a as [g p|m [|k]|n [|k]]; cbn [again spec_next here inside at_stmt] in *; try lia.
  - injection S2 as <- <-. cbn in CH. injection CH as <- _. reflexivity.
  - cbn [Nat.sub] in S2. rewrite ?Nat.sub_0_r in S2.
    cbn [chain frames] in CH. destruct (nth_error (m_stmts m) k) eqn:Q; [|apply nth_error_None in Q; lia].
    injection S2 as <- <-. cbn in CH. injection CH as <- _. reflexivity.
  - cbn [Nat.sub] in S2. rewrite ?Nat.sub_0_r in S2. cbn [chain frames] in CH. destruct GA1 as [GA1 GN].
    destruct (nth_error n k) as [nest|] eqn:Q; [|apply nth_error_None in Q; lia]. injection S2 as <- <-.
    destruct nest as [|a nest]; [apply nth_error_In in Q; apply (proj1 (Forall_forall _ _) GN) in Q; congruence|].
    destruct nest as [|b nest] using rev_ind; [cbn in CH; injection CH as <- _; reflexivity|]. clear IHnest.
    rewrite map_app in CH. cbn [map rev] in CH. rewrite !rev_app_distr in CH. cbn [rev app] in CH. injection CH as <- _.
    cbn [f_loc]. rewrite app_comm_cons, last_last. reflexivity.
Qed.
(** The statement that asked is the one read next. *)
Theorem C96_read_again : forall file os c x out mid ls c' x' q, runs file os c x out ->
  goes c x (LookStart ORD :: mid ++ [LookEnd]) ls c' x' -> ~ In LookEnd mid ->
  current_statement_location c = Some q ->
  exists c2, step (Next (l_pos q)) c' = Some (c2, Some q).
Proof.
  intros file os c x out mid ls c' x' q H G N CL. pose proof (C96_lookahead _ _ _ _ _ _ _ G N) as AG. cbn in AG.
  pose proof (goes_runs _ _ _ _ _ _ G file os out H) as H'.
  destruct (C96_next _ _ _ _ _ (Next (l_pos q)) H' Logic.I) as (c2 & x2 & l & S1 & S2 & _ & _). exists c2. rewrite S1.
  inversion G as [|? ? ? ? ? c1 x1 ? ls1 ? ? LG _ _ _]; subst. destruct LG as (AT & _ & SV & _).
  destruct (runs_inv _ _ _ _ _ H) as (rest & s0 & IV).
  destruct (current_ok _ _ _ _ _ IV AT) as (f & r & CH & CL2). { intros (lz & L0 & _). congruence. }
  rewrite CL in CL2. injection CL2 as QF. 
  rewrite spec_step_next, AG in S2. destruct (spec_next (l_pos q) (again (acts x))) as [[la oa]|] eqn:SN; [|discriminate].
  injection S2 as <- <-. rewrite (read_again _ _ _ _ _ _ (iv_wf _ _ _ _ _ IV) AT CH QF SN). reflexivity.
Qed.
Print Assumptions C96_read_again.

(** AGO and AIF in open code: the statement with the label is the one read next. *)
Lemma goes_marks : forall c x os ls c' x', goes c x os ls c' x' ->
  exists new, smarks x' = new ++ smarks x /\ List.length new = List.length (filter (fun o => match o with Mark => true | _ => false end) os).
Proof.
  intros c x os ls c' x' H. induction H as [|c x o l l' c1 x1 os ls c2 x2 LG S1 S2 _ (new & IH1 & IH2)]; [exists []; auto|].
  assert (smarks x1 = smarks x \/ (o = Mark /\ exists e, smarks x1 = e :: smarks x)) as [E|[-> (e & E)]].
  { destruct o; cbn [spec_step] in S2; try (injection S2 as <- <-; left; reflexivity).
    - change (spec_step (Next p) x = Some (x1, l')) in S2. rewrite spec_step_next in S2.
      destruct (spec_next p (acts x)) as [[? ?]|]; [|discriminate]. injection S2 as <- <-. left. reflexivity.
    - destruct (acts x) as [|[] ?]; try discriminate. injection S2 as <- <-. left. reflexivity.
    - injection S2 as <- <-. right. split; [reflexivity|]. eexists. reflexivity.
    - destruct (nth_error (smarks x) n); [|discriminate]. injection S2 as <- <-. left. reflexivity.
    - destruct a; injection S2 as <- <-; left; reflexivity.
    - destruct (saved x) as [[? ?]|]; [|discriminate]. injection S2 as <- <-. left. reflexivity. }
  - destruct o; cbn [filter List.length]; try (exists new; split; [rewrite IH1, E; reflexivity|exact IH2]).
    exfalso. cbn in S2. injection S2 as <- <-. cbn in E. apply (f_equal (@List.length (list act))) in E. cbn in E. lia.
  - exists (new ++ [e]). split; [rewrite IH1, E, <- app_assoc; reflexivity|]. rewrite app_length, IH2. cbn. lia.
Qed.
Theorem C96_jump : forall file os c x out mid ls c1 x1 n q, runs file os c x out ->
  ~ looking_from_macro x -> current_statement_location c = Some q -> goes c x (Mark :: mid) ls c1 x1 ->
  n = List.length (filter (fun o => match o with Mark => true | _ => false end) mid) -> legal (Jump n) x1 ->
  exists c2 c3, step (Jump n) c1 = Some (c2, None) /\ step (Next (l_pos q)) c2 = Some (c3, Some q).
Proof.
  intros file os c x out mid ls c1 x1 n q H NL CL G NN LG.
  pose proof (goes_runs _ _ _ _ _ _ G file os out H) as H1.
  inversion G as [|? ? ? ? ? cm xm ? lsm ? ? LM SM1 SM2 GM]; subst.
  cbn [spec_step] in SM2. injection SM2 as <- <-.
  destruct (goes_marks _ _ _ _ _ _ GM) as (new & E1 & E2). cbn [smarks] in E1.
  destruct (C96_next _ _ _ _ _ _ H1 LG) as (c2 & x2 & l2 & S1 & S2 & H2 & _). cbn [spec_step] in S2.
  rewrite E1, <- E2, nth_error_app2, Nat.sub_diag in S2 by lia. cbn [nth_error] in S2. injection S2 as <- <-.
  destruct (C96_next _ _ _ _ _ (Next (l_pos q)) H2 Logic.I) as (c3 & x3 & l3 & S3 & S4 & _ & _).
  exists c2, c3. split; [exact S1|]. rewrite S3. f_equal. f_equal.
  destruct LM as (AT & _ & _). destruct (runs_inv _ _ _ _ _ H) as (rest & s0 & IV).
  destruct (current_ok _ _ _ _ _ IV AT NL) as (f & r & CH & CL2). rewrite CL in CL2. injection CL2 as QF.
  rewrite spec_step_next in S4. cbn [acts] in S4.
  destruct (spec_next (l_pos q) (again (acts x))) as [[la oa]|] eqn:SN; [|discriminate]. injection S4 as <- <-.
  apply (read_again _ _ _ _ _ _ (iv_wf _ _ _ _ _ IV) AT CH QF SN).
Qed.
Print Assumptions C96_jump.

(** A label met in a member, a jump to it from after the member; an attribute looked for in a macro. *)
Example jump_runs : exists c c1 q, does [Next (10, 0)%N; EnterCopy mem; Next (0, 0)%N; Next (0, 0)%N; Mark; Next (0, 0)%N; Next (11, 0)%N; Jump 0] (start main) = Some (c, q) /\
  step (Next (0, 0)%N) c = Some (c1, Some (Loc (3, 0)%N (s2b "lib/MEM"))) /\
  processing_stack c1 = Some [Frame (Loc (10, 0)%N main) OPENCODE; Frame (Loc (3, 0)%N (s2b "lib/MEM")) COPY].
Proof. eexists. eexists. eexists. split; [reflexivity|]. split; [reflexivity|]. reflexivity. Qed.
Example look_runs : exists c c1 q, does [Next (10, 0)%N; EnterCopy mem; Next (0, 0)%N; EnterMacro mac; Next (0, 0)%N; LookStart ORD; Next (0, 0)%N; Next (0, 0)%N; Next (11, 0)%N; Next (12, 0)%N; LookEnd] (start main) = Some (c, q) /\
  step (Next (0, 0)%N) c = Some (c1, Some (Loc (1, 0)%N main)) /\
  processing_stack c1 = Some [Frame (Loc (10, 0)%N main) OPENCODE; Frame (Loc (0, 0)%N (s2b "lib/MEM")) COPY; Frame (Loc (1, 0)%N main) MACRO].
Proof. eexists. eexists. eexists. split; [reflexivity|]. split; [reflexivity|]. reflexivity. Qed.

(** ** C97: the places of the statements of a macro definition *)

(** A definition is started in open code or in a member.  As long as the file or member with the MACRO statement is not
    left, the places recorded for each statement are the statement with which the file or member went on and the members
    entered since, with their statements. *)
Theorem C97_nests : forall file os c0 x0 out d p q c x l' c1 x1 d1 e b r,
  runs file os c0 x0 out -> at_stmt (acts x0) -> ~ looking_from_macro x0 ->
  acts x0 = b :: r -> ~ in_macro (acts x0) ->
  start_definition c0 = Some d ->
  step (Next p) c0 = Some (c, Some q) -> spec_step (Next p) x0 = Some (x, l') ->       (* the prototype *)
  body (texts (acts x0)) (List.length r) c x d c1 x1 d1 e ->
  d_nests d1 = e.
Proof.
  intros file os c0 x0 out d p q c x l' c1 x1 d1 e b r H AT NL AC NM SD S1 S2 B.
  destruct (runs_inv _ _ _ _ _ H) as (rest & s0 & IV).
  assert (PB : plain b) by (rewrite AC in NM; destruct b; cbn in *; [reflexivity|reflexivity|tauto]).
  destruct (top_source _ _ _ _ _ IV) as (s & rs & R & SR & AR & OK). { rewrite AC. exact PB. }
  destruct (step_sound _ _ _ _ _ (Next p) _ _ _ _ IV Logic.I S1 S2) as (<- & IV1 & AT1).
  pose proof (wf_all _ (iv_wf _ _ _ _ _ IV) AT) as G.
  assert (D : d = Defining (List.length (s_copies s)) (file_of b) (0%N, 0%N) []).
  { unfold start_definition in SD. rewrite SR, (C95_stack _ _ _ _ _ H AT NL), AC in SD. cbn [bind] in SD. rewrite rev_involutive in SD.
    rewrite AC in G. inversion G as [|? ? GB _]; subst. destruct (plain_frames b PB GB) as (l & F1 & F2).
    cbn [chain] in SD. rewrite F1 in SD. cbn [rev app f_loc] in SD. rewrite <- F2. congruence. }
  subst d.
  refine (proj2 (body_during file (texts (acts x0)) b r (List.length (s_copies s)) c x
                   (Defining (List.length (s_copies s)) (file_of b) (0%N, 0%N) []) c1 x1 d1 e IV1 _ _ _ _ _ B)).
  - rewrite AC. reflexivity.
  - split; reflexivity.
  - rewrite <- AC, AR. unfold text. rewrite without_text_opened, app_length. unfold opened. rewrite app_length, map_length. cbn. lia.
  - rewrite spec_step_next, AC in S2. destruct (spec_next p (b :: r)) as [[la oa]|] eqn:SN; [|discriminate]. injection S2 as <- ->.
    destruct b as [f t|m k|n k]; cbn [spec_next] in SN; [| |discriminate PB].
    + injection SN as <- <-. eexists. split; [reflexivity|]. reflexivity.
    + destruct (nth_error (m_stmts m) k); [|discriminate]. injection SN as <- <-. eexists. split; [reflexivity|]. reflexivity.
  - reflexivity.
Qed.
Print Assumptions C97_nests.

(** The innermost of them is the statement itself. *)
Theorem C97_own : forall file os c x out p c' x' q l' below dflt, runs file os c x out ->
  step (Next p) c = Some (c', Some q) -> spec_step (Next p) x = Some (x', l') -> below < List.length (acts x') ->
  last (places (entered below (acts x'))) dflt = q.
Proof.
  intros file os c x out p c' x' q l' below dflt H S1 S2 LT. destruct (runs_inv _ _ _ _ _ H) as (rest & s0 & IV).
  destruct (step_sound _ _ _ _ _ (Next p) _ _ _ _ IV Logic.I S1 S2) as (<- & _ & _).
  rewrite spec_step_next in S2. destruct (spec_next p (acts x)) as [[la oa]|] eqn:SN; [|discriminate]. injection S2 as <- ->.
  destruct (next_place _ _ _ _ (iv_wf _ _ _ _ _ IV) SN) as (f & r & CH & FL). cbn [acts] in *.
  unfold entered, places. destruct la as [|a la]; [cbn in LT; lia|]. cbn [List.length] in *.
  replace (S (List.length la) - below) with (S (List.length la - below)) by lia. cbn [firstn chain] in *.
  assert (FA : exists f' r', rev (frames a) = f' :: r' /\ f_loc f' = q).
  { clear - SN IV. pose proof (iv_wf _ _ _ _ _ IV) as W.
    destruct (next_place _ _ _ _ W SN) as (f & r & CH & FL). cbn [chain] in CH.
    destruct (rev (frames a)) as [|g gs] eqn:RV; [|exists g, gs; cbn in CH; injection CH as <- _; auto].
    exfalso. destruct (spec_next_wf _ _ _ _ W SN ltac:(discriminate)) as [W2 A2].
    pose proof (wf_all _ W2 (A2 ltac:(discriminate))) as GG. inversion GG as [|? ? GA _]; subst.
    destruct (chain_ne a [] GA) as (f2 & r2 & C2). cbn [chain] in C2. rewrite RV in C2. discriminate. }
  destruct FA as (f' & r' & RV & FQ). rewrite RV. cbn [app rev]. rewrite map_app. cbn [map]. rewrite last_last. exact FQ.
Qed.
Print Assumptions C97_own.

(** A macro in open code whose body copies a member *)
Definition at_macro : list op := [Next (1, 0)%N].
Example nests_example : exists d c x c1 x1 d1,
  runs main at_macro c x [Some (Loc (1, 0)%N main)] /\ start_definition c = Some d /\
  (exists c' x' , step (Next (2, 0)%N) c = Some (c', Some (Loc (2, 0)%N main)) /\ spec_step (Next (2, 0)%N) x = Some (x', Some (Loc (2, 0)%N main)) /\
     exists e, body 1 0 c' x' d c1 x1 d1 e /\ e =
       [[Loc (3, 0)%N main]; [Loc (3, 0)%N main; Loc (0, 0)%N (s2b "lib/MEM")]; [Loc (3, 0)%N main; Loc (3, 0)%N (s2b "lib/MEM")]; [Loc (4, 0)%N main]]) /\
  d_nests d1 = [[Loc (3, 0)%N main]; [Loc (3, 0)%N main; Loc (0, 0)%N (s2b "lib/MEM")]; [Loc (3, 0)%N main; Loc (3, 0)%N (s2b "lib/MEM")]; [Loc (4, 0)%N main]].
Proof.
  eexists. eexists. eexists. eexists. eexists. eexists. split.
  { change at_macro with ([] ++ at_macro). change [Some (Loc (1, 0)%N main)] with ([] ++ [Some (Loc (1, 0)%N main)]).
    eapply goes_runs; [|constructor]. unfold at_macro. go. apply goes_nil. }
  split; [reflexivity|]. split.
  - eexists. eexists. split; [reflexivity|]. split; [reflexivity|].
    eexists. split.
    { eapply (body_stmt _ _ _ _ _ _ _ _ _ (4, 0)%N).
      { eapply (body_other _ _ _ _ _ _ _ _ _ (Next (0, 0)%N)).
        { eapply (body_stmt _ _ _ _ _ _ _ _ _ (0, 0)%N).
          { eapply (body_stmt _ _ _ _ _ _ _ _ _ (0, 0)%N).
            { eapply (body_other _ _ _ _ _ _ _ _ _ (EnterCopy mem)).
              { eapply (body_first _ _ _ _ _ (3, 0)%N); [reflexivity|reflexivity|reflexivity|cbn; lia]. }
              { exact Logic.I. } { cbn; tauto. } { reflexivity. } { reflexivity. } { cbn; lia. } { cbn; lia. } }
            { reflexivity. } { reflexivity. } { reflexivity. } { reflexivity. } { cbn; lia. } }
          { reflexivity. } { reflexivity. } { reflexivity. } { reflexivity. } { cbn; lia. } }
        { left; reflexivity. } { exact Logic.I. } { reflexivity. } { reflexivity. } { cbn; lia. } { cbn; lia. } }
      { reflexivity. } { reflexivity. } { reflexivity. } { reflexivity. } { cbn; lia. } }
    reflexivity.
  - reflexivity.
Qed.

(** Finding: a macro is defined by a macro, and statements of its body came into the outer macro by COPY.  Their positions
    are recorded with the file of the inner MACRO statement. *)
Theorem C97_inner_refuted : exists os c x out d c1 c2 q1 q2 d1,
  runs main os c x out /\ in_macro (acts x) /\ start_definition c = Some d /\
  step (Next (0, 0)%N) c = Some (c1, Some q1) /\
  step (Next (0, 0)%N) c1 = Some (c2, Some q2) /\ q2 = Loc (0, 5)%N (s2b "lib/X") /\
  define q2 c2 d = Some d1 /\ d_nests d1 = [[Loc (0, 5)%N main]].
Proof.
  exists [Next (10, 0)%N; EnterMacro [[Loc (1, 0)%N main]; [Loc (2, 0)%N main]; [Loc (3, 0)%N main; Loc (0, 5)%N (s2b "lib/X")]]; Next (0, 0)%N].
  eexists. eexists. eexists. eexists. eexists. eexists. eexists. eexists. eexists. split.
  { match goal with |- runs _ ?o _ _ _ => change o with ([] ++ o) end. eapply goes_runs; [|constructor]. do 3 go. apply goes_nil. }
  split; [exact Logic.I|]. repeat (split; [reflexivity|]). reflexivity.
Qed.
Print Assumptions C97_inner_refuted.

(** Finding: a definition that starts in a member and goes on after the member's end. *)
Theorem C97_left_refuted : exists os c x out d c1 c2 c3 q1 q3 d1,
  runs main os c x out /\ ~ in_macro (acts x) /\ start_definition c = Some d /\
  step (Next (0, 0)%N) c = Some (c1, Some q1) /\
  step (Next (0, 0)%N) c1 = Some (c2, None) /\                        (* the member ends after the prototype *)
  step (Next (11, 0)%N) c2 = Some (c3, Some q3) /\ q3 = Loc (11, 0)%N main /\
  define q3 c3 d = Some d1 /\ d_nests d1 = [[Loc (0, 0)%N (s2b "lib/MEM")]].
Proof.
  exists [Next (10, 0)%N; EnterCopy mem; Next (0, 0)%N].
  eexists. eexists. eexists. eexists. eexists. eexists. eexists. eexists. eexists. eexists. split.
  { match goal with |- runs _ ?o _ _ _ => change o with ([] ++ o) end. eapply goes_runs; [|constructor]. do 3 go. apply goes_nil. }
  split; [cbn; tauto|]. repeat (split; [reflexivity|]). reflexivity.
Qed.
Print Assumptions C97_left_refuted.
