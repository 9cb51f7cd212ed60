From Coq Require Import List NArith ZArith Bool Lia Wellfounded.
From Coq Require Import ZifyBool ZifyNat ZifyN.
From Verif Require Import Common Var_Proof Br_Model Br_Spec.
Import ListNotations.

Section Machine.
Variable data : Type.
Variable macro_of : data -> id -> option (list (stmt data)).
Notation stmt := (stmt data).
Notation state := (state data).
Notation scope := (scope data).

(** ** What leaves the control alone *)
Definition only_diags (l : list event) : Prop := Forall (fun e => exists d, e = Diag d) l.
Definition quiet (st st' : state) : Prop :=
  store st' = store st /\ base st' = base st /\ stack st' = stack st /\ finished st' = finished st
  /\ exists l, log st' = l ++ log st /\ only_diags l.
Lemma quiet_refl st : quiet st st.
Proof. refine (conj eq_refl (conj eq_refl (conj eq_refl (conj eq_refl _)))). exists []. split; [reflexivity|constructor]. Qed.
Lemma quiet_trans a b c : quiet a b -> quiet b c -> quiet a c.
Proof.
  intros (A1 & A2 & A3 & A4 & l1 & A5 & A6) (B1 & B2 & B3 & B4 & l2 & B5 & B6).
  refine (conj _ (conj _ (conj _ (conj _ _)))); try congruence.
  exists (l2 ++ l1). split; [rewrite B5, A5, app_assoc; reflexivity|]. apply Forall_app. split; assumption.
Qed.
Lemma quiet_tell st d : quiet st (tell st (Diag d)).
Proof.
  refine (conj eq_refl (conj eq_refl (conj eq_refl (conj eq_refl _)))). exists [Diag d]. split; [reflexivity|].
  constructor; [eauto|constructor].
Qed.
Lemma quiet_symbols st l : quiet st (set_symbols st l).
Proof. refine (conj eq_refl (conj eq_refl (conj eq_refl (conj eq_refl _)))). exists []. split; [reflexivity|constructor]. Qed.
Lemma quiet_stop st l : quiet st (set_stop st l).
Proof. refine (conj eq_refl (conj eq_refl (conj eq_refl (conj eq_refl _)))). exists []. split; [reflexivity|constructor]. Qed.
Lemma quiet_register_symbol (st : state) n i : quiet st (register_symbol st n i).
Proof.
  unfold register_symbol. destruct (find n (symbols st)); [|apply quiet_symbols].
  destruct (Nat.eqb _ i); [apply quiet_refl|apply quiet_tell].
Qed.
Lemma quiet_register st s : quiet st (register st s).
Proof.
  unfold register. destruct (stack st); [|apply quiet_refl]. destruct (label s); [apply quiet_register_symbol|apply quiet_refl].
Qed.
Lemma quiet_complain st e : quiet st (complain st e).
Proof. destruct e; [apply quiet_tell|apply quiet_refl]. Qed.
Lemma quiet_lookahead l : forall st i t st' b, lookahead st l i t = (st', b) -> quiet st st'.
Proof.
  induction l as [|s l IH]; intros st i t st' b H; cbn [lookahead] in H.
  - injection H as <- <-. apply quiet_stop.
  - destruct (label s) as [n|]; [|eapply IH; exact H].
    destruct (bytes_eqb n t).
    + injection H as <- <-. eapply quiet_trans; [apply quiet_register_symbol|apply quiet_stop].
    + eapply quiet_trans; [apply quiet_register_symbol|eapply IH; exact H].
Qed.
Lemma quiet_current st st' : quiet st st' -> current st' = current st.
Proof. intros (_ & B & S & _). unfold current. rewrite B, S. reflexivity. Qed.

(** All scopes, the innermost first. *)
Definition full (st : state) : list scope := stack st ++ [base st].
Lemma full_quiet st st' : quiet st st' -> full st' = full st.
Proof. intros (_ & B & S & _). unfold full. rewrite B, S. reflexivity. Qed.
Lemma full_current st : full st = current st :: tl (full st).
Proof. unfold full, current. destruct (stack st); reflexivity. Qed.
Lemma full_set_current (st : state) s : full (set_current st s) = s :: tl (full st).
Proof. unfold full, set_current. destruct (stack st); reflexivity. Qed.
Lemma current_set_current (st : state) (s : scope) : current (set_current st s) = s.
Proof. unfold current, set_current. destruct (stack st); reflexivity. Qed.
Lemma full_length st : length (full st) = S (length (stack st)).
Proof. unfold full. rewrite app_length. cbn. lia. Qed.
Lemma stack_set_current (st : state) (s : scope) : length (stack (set_current st s)) = length (stack st).
Proof. unfold set_current. destruct (stack st); reflexivity. Qed.
Lemma finished_set_current (st : state) (s : scope) : finished (set_current st s) = finished st.
Proof. unfold set_current. destruct (stack st); reflexivity. Qed.

Inductive effect (st : state) : state -> Prop :=
| Quiet st' : full st' = full st -> effect st st'
| Moved st' i : full st' = moved (current st) i :: tl (full st) -> effect st st'
| Counted st' v : full st' = {| body := body (current st); next := next (current st); counter := v; changes := S (changes (current st)) |} :: tl (full st) -> effect st st'
| Popped st' : stack st <> [] -> full st' = tl (full st) -> effect st st'
| Pushed st' b : full st' = new_scope b :: full st -> effect st st'.

Lemma jump_effect st t :
  (exists st1 i, jump_in_statements st t = go st1 t i /\ quiet st st1)
  \/ (exists st1, jump_in_statements st t = missing st1 t /\ quiet st st1)
  \/ quiet st (jump_in_statements st t).
Proof.
  unfold jump_in_statements. destruct (stack st) as [|s r] eqn:E.
  - destruct (find t (symbols st)) as [i|].
    + left. exists st, i. split; [reflexivity|apply quiet_refl].
    + destruct (lookahead _ _ _ _) as [st' b] eqn:El. apply quiet_lookahead in El. destruct b.
      * destruct (find t (symbols st')) as [i|]; [left; exists st', i; split; [reflexivity|exact El]|right; right; exact El].
      * right. left. exists st'. split; [reflexivity|exact El].
  - destruct (label_index (body s) t) as [i|].
    + left. exists st, i. split; [reflexivity|apply quiet_refl].
    + right. left. exists st. split; [reflexivity|apply quiet_refl].
Qed.
Lemma go_full st t i : full (go st t i) = moved (current st) i :: tl (full st).
Proof. unfold go. change (full (tell ?x ?e)) with (full x). rewrite full_set_current. reflexivity. Qed.

Lemma jump_effect' st t : effect st (jump_in_statements st t) /\ finished (jump_in_statements st t) = finished st.
Proof.
  destruct (jump_effect st t) as [(st1 & i & -> & Q)|[(st1 & -> & Q)|Q]].
  - split.
    + apply (Moved _ _ i). rewrite go_full, (quiet_current _ _ Q), (full_quiet _ _ Q). reflexivity.
    + unfold go. cbn [finished tell]. rewrite finished_set_current. apply Q.
  - split; [apply Quiet; exact (full_quiet _ _ Q)|apply Q].
  - split; [apply Quiet; exact (full_quiet _ _ Q)|apply Q].
Qed.
Lemma effect_quiet st st1 st2 : quiet st st1 -> effect st1 st2 -> effect st st2.
Proof.
  intros Q E. pose proof (full_quiet _ _ Q) as F. pose proof (quiet_current _ _ Q) as C. destruct Q as (_ & _ & S & _).
  destruct E as [st' H|st' i H|st' v H|st' N H|st' b H]; rewrite ?F, ?C in H.
  - apply Quiet; assumption. - eapply Moved; eassumption. - eapply Counted; eassumption.
  - apply Popped; [rewrite <- S; exact N|exact H].
  - eapply Pushed; eassumption.
Qed.

Lemma leave_full st : stack st <> [] -> full (leave_macro st) = tl (full st).
Proof. unfold full, leave_macro. cbn [stack set_stack base]. destruct (stack st); [contradiction|reflexivity]. Qed.

Lemma execute_effect st s : effect st (execute macro_of st s) /\ finished (execute macro_of st s) = finished st.
Proof.
  unfold execute. destruct (operation s) as [r f|e|ops|ops| | |n f].
  - cbn zeta. split; [|destruct r; [apply (quiet_register st s)|reflexivity]].
    apply Quiet. change (full (set_store ?x ?d)) with (full x). destruct r; [apply full_quiet, quiet_register|reflexivity].
  - pose proof (quiet_register st s) as Q. split; [apply (effect_quiet _ _ _ Q)|].
    + unfold process_ACTR. destruct e as [e|]; [|apply Quiet; reflexivity].
      cbn zeta. eapply Counted. change (full (tell ?x ?e)) with (full x). apply full_set_current.
    + unfold process_ACTR. destruct e as [e|]; [|apply Q]. cbn [finished tell]. rewrite finished_set_current. apply Q.
  - pose proof (quiet_register st s) as Q. unfold process_AGO. destruct (prepare_AGO ops (store (register st s))) as [e|[k ts]].
    + assert (Q2 := quiet_trans _ _ _ Q (quiet_complain (register st s) e)).
      split; [apply Quiet, full_quiet, Q2|apply Q2].
    + destruct (_ && _)%bool; [|split; [apply Quiet, full_quiet, Q|apply Q]].
      destruct (nth_error ts _); [|split; [apply Quiet, full_quiet, Q|apply Q]].
      destruct (jump_effect' (register st s) i) as (J1 & J2). split; [exact (effect_quiet _ _ _ Q J1)|]. rewrite J2. apply Q.
  - pose proof (quiet_register st s) as Q. unfold process_AIF. destruct (prepare_AIF ops (store (register st s))) as [e|[t|]].
    + assert (Q2 := quiet_trans _ _ _ Q (quiet_complain (register st s) e)).
      split; [apply Quiet, full_quiet, Q2|apply Q2].
    + destruct (jump_effect' (register st s) t) as (J1 & J2). split; [exact (effect_quiet _ _ _ Q J1)|]. rewrite J2. apply Q.
    + split; [apply Quiet, full_quiet, Q|apply Q].
  - destruct (stack st) eqn:E.
    + split; [apply Quiet; reflexivity|reflexivity].
    + split; [|reflexivity]. apply Popped; [congruence|]. apply leave_full. congruence.
  - destruct (stack st) eqn:E; (split; [apply Quiet; reflexivity|reflexivity]).
  - destruct (macro_of (store st) n) as [b|].
    + split; [|reflexivity]. eapply Pushed. reflexivity.
    + split; [apply Quiet; reflexivity|reflexivity].
Qed.

(** ** Termination *)
Definition m1 (s : scope) : nat := 102 - changes s.
Definition m2 (s : scope) : nat := Z.to_nat (counter s + 1).
Definition m3 (s : scope) : nat := length (body s) - next s.
Definition less (a b : scope) : Prop :=
  (m1 a < m1 b)%nat \/ (m1 a = m1 b /\ ((m2 a < m2 b)%nat \/ (m2 a = m2 b /\ (m3 a < m3 b)%nat))).
Lemma less_wf : well_founded less.
Proof.
  intros s. remember (m1 s) as a eqn:Ea. revert s Ea. induction a as [a IHa] using lt_wf_ind. intros s Ea.
  remember (m2 s) as b eqn:Eb. revert s Ea Eb. induction b as [b IHb] using lt_wf_ind. intros s Ea Eb.
  remember (m3 s) as c eqn:Ec. revert s Ea Eb Ec. induction c as [c IHc] using lt_wf_ind. intros s Ea Eb Ec.
  constructor. intros y [H|(H1 & [H|(H2 & H)])].
  - apply (IHa (m1 y)); [lia|reflexivity].
  - apply (IHb (m2 y)); [lia|lia|reflexivity].
  - apply (IHc (m3 y)); [lia|lia|lia|reflexivity].
Qed.

Inductive progress (st : state) : state -> Prop :=
| Ends st' : finished st' = true -> progress st st'
| Drops st' k : full st' = skipn (S k) (full st) -> progress st st'
| Advances st' s' : full st' = s' :: tl (full st) -> less s' (current st) -> progress st st'
| Grows st' n s' : full st' = n :: s' :: tl (full st) -> less s' (current st) -> (length (stack st) < 100)%nat -> progress st st'.

Lemma fetched_less s x : nth_error (body s) (next s) = Some x -> less (fetched s) s.
Proof.
  intros H. right. split; [reflexivity|]. right. split; [reflexivity|]. unfold m3. cbn.
  assert (next s < length (body s))%nat by (apply nth_error_Some; congruence). lia.
Qed.
Lemma less_trans a b c : less a b -> less b c -> less a c.
Proof. unfold less. lia. Qed.

Lemma step_progress st st' : step macro_of st = Some st' -> progress st st'.
Proof.
  unfold step. destruct (finished st) eqn:Ef; [discriminate|].
  destruct (nth_error (body (current st)) (next (current st))) as [s|] eqn:En.
  2:{ destruct (stack st) eqn:Es; [discriminate|]. intros [= <-]. apply (Drops _ _ 0). rewrite leave_full by congruence.
      destruct (full st); reflexivity. }
  pose proof (fetched_less _ _ En) as L1. intros [= <-].
  set (st1 := set_current st (fetched (current st))).
  assert (F1 : full st1 = fetched (current st) :: tl (full st)) by apply full_set_current.
  assert (C1 : current st1 = fetched (current st)) by apply current_set_current.
  unfold process_statement. unfold st1 at 1 2. rewrite stack_set_current. fold st1.
  destruct (Nat.ltb_spec NEST_LIMIT (S (length (stack st)))) as [Hn|Hn].
  { apply (Drops _ _ (length (stack st) - 1)).
    assert (base st1 = base st) as Hb.
    { unfold st1, set_current. unfold NEST_LIMIT in Hn. destruct (stack st); [cbn in Hn; lia|reflexivity]. }
    unfold full at 1. cbn [stack tell set_stack base app]. rewrite Hb. unfold full. unfold NEST_LIMIT in Hn.
    replace (S (length (stack st) - 1)) with (length (stack st)) by lia.
    rewrite skipn_app, skipn_all, Nat.sub_diag. reflexivity. }
  unfold NEST_LIMIT in Hn. rewrite C1. cbn [counter changes fetched].
  destruct (Z.ltb_spec (counter (current st)) 0) as [Hc|Hc].
  { cbn zeta. change (stack (tell st1 ?e)) with (stack st1). destruct (stack st1) eqn:Es1.
    - apply Ends. reflexivity.
    - apply (Drops _ _ 0). rewrite leave_full by (cbn [stack tell]; congruence). change (full (tell st1 ?e)) with (full st1).
      rewrite F1. destruct (full st); reflexivity. }
  destruct (Nat.ltb_spec ACTR_LIMIT (changes (current st))) as [Ha|Ha]; [apply Ends; reflexivity|].
  unfold ACTR_LIMIT in Ha. destruct (execute_effect st1 s) as (E & _).
  assert (TF : tl (full st1) = tl (full st)) by (rewrite F1; reflexivity).
  destruct E as [st' H|st' i H|st' v H|st' N H|st' b H]; rewrite ?TF, ?C1 in H.
  - rewrite F1 in H. eapply Advances; [exact H|exact L1].
  - eapply Advances; [exact H|]. right. split; [reflexivity|]. left. unfold m2. cbn [counter moved fetched]. lia.
  - eapply Advances; [exact H|]. left. unfold m1. cbn [changes fetched]. lia.
  - apply (Drops _ _ 0). rewrite H. destruct (full st); reflexivity.
  - rewrite F1 in H. eapply Grows; [exact H|exact L1|lia].
Qed.

Lemma halts_finished st : finished st = true -> halts macro_of st.
Proof. intros H. apply halted. unfold step. rewrite H. reflexivity. Qed.

Lemma halts_over r :
  (forall st k, skipn k r <> [] -> full st = skipn k r -> halts macro_of st) ->
  forall s st, full st = s :: r -> halts macro_of st.
Proof.
  remember (100 - length r)%nat as fuel eqn:Ef. revert r Ef.
  induction fuel as [fuel IHf] using lt_wf_ind. intros r Ef Hr s.
  induction s as [s IHs] using (well_founded_ind less_wf). intros st F.
  destruct (step macro_of st) as [st'|] eqn:E; [|apply halted; exact E].
  apply (halting data macro_of st st' E). pose proof (step_progress _ _ E) as P.
  assert (Hc : current st = s) by (rewrite full_current in F; congruence).
  assert (HF : forall st2, full st2 <> []) by (intros st2; unfold full; destruct (stack st2); discriminate).
  destruct P as [st' P|st' k P|st' s' P Pl|st' n s' P Pl Pn].
  - apply halts_finished. exact P.
  - rewrite F in P. cbn [skipn] in P. apply (Hr st' k); [rewrite <- P; apply HF|exact P].
  - rewrite F in P. cbn [tl] in P. rewrite Hc in Pl. exact (IHs s' Pl st' P).
  - rewrite F in P. cbn [tl] in P. rewrite Hc in Pl.
    pose proof (full_length st) as HL. rewrite F in HL. cbn [length] in HL.
    refine (IHf (100 - length (s' :: r))%nat _ (s' :: r) eq_refl _ n st' P); [cbn [length]; lia|].
    intros st2 k Hk Fk. destruct k as [|k]; cbn [skipn] in *.
    + exact (IHs s' Pl st2 Fk).
    + exact (Hr st2 k Hk Fk).
Qed.
Lemma halts_list L : forall k st, skipn k L <> [] -> full st = skipn k L -> halts macro_of st.
Proof.
  induction L as [|s L IH]; intros k st Hk F; [destruct k; contradiction|].
  destruct k as [|k]; cbn [skipn] in *; [|exact (IH k st Hk F)].
  apply (halts_over L) with (s := s); [|exact F]. intros st2 k. apply IH.
Qed.
Theorem always_halts st : halts macro_of st.
Proof.
  apply (halts_list (full st) 0 st); [|reflexivity]. unfold full. cbn. destruct (stack st); discriminate.
Qed.
Lemma halts_steps st : halts macro_of st -> exists n, step macro_of (steps macro_of n st) = None.
Proof.
  induction 1 as [st E|st st' E _ (n & IH)].
  - exists 0%nat. exact E.
  - exists (S n). cbn [steps]. rewrite E. exact IH.
Qed.
Lemma steps_stuck n : forall st, step macro_of st = None -> steps macro_of n st = st.
Proof. destruct n; intros st H; [reflexivity|]. cbn [steps]. rewrite H. reflexivity. Qed.
Lemma steps_S n : forall st, steps macro_of (S n) st = match step macro_of (steps macro_of n st) with Some s => s | None => steps macro_of n st end.
Proof.
  induction n as [|n IH]; intros st.
  - cbn. destruct (step macro_of st); reflexivity.
  - cbn [steps]. cbn [steps] in IH. destruct (step macro_of st) as [st'|] eqn:E; [apply IH|]. rewrite E. reflexivity.
Qed.
End Machine.
