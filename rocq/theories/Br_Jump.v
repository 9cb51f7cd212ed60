(** Where jumps land, and that the registered sequence symbols are the right ones. *)
From Coq Require Import List NArith ZArith Bool Lia.
From Coq Require Import ZifyBool ZifyNat ZifyN.
From Verif Require Import Common Var_Proof Br_Model Br_Spec Br_Proof.
Import ListNotations.

Section Machine.
Variable data : Type.
Variable macro_of : data -> id -> option (list (stmt data)).
Notation stmt := (stmt data).
Notation state := (state data).
Notation scope := (scope data).
Notation quiet := (quiet data).

(** ** Labels *)
Lemma label_index_some (b : list stmt) t : forall i, label_index b t = Some i <-> first_labelled b i t.
Proof.
  induction b as [|s b IH]; intros i; cbn [label_index].
  - split; [discriminate|]. intros ((x & H & _) & _). destruct i; discriminate.
  - destruct (match label s with Some n => bytes_eqb n t | None => false end) eqn:E.
    + assert (HL : label s = Some t) by (destruct (label s); [apply bytes_eqb_eq in E; congruence|discriminate]).
      split.
      * intros [= <-]. split; [exists s; split; [reflexivity|exact HL]|]. intros j Hj. lia.
      * intros (H1 & H2). destruct i as [|i]; [reflexivity|]. exfalso. apply (H2 0%nat); [lia|]. exists s. auto.
    + assert (HL : label s <> Some t) by (intros X; rewrite X, bytes_eqb_refl in E; discriminate).
      split.
      * destruct (label_index b t) as [j|] eqn:El; [|discriminate]. intros [= <-].
        destruct (proj1 (IH j) eq_refl) as (H1 & H2). split; [exact H1|].
        intros [|k] Hk (x & Hx & Hl); [cbn in Hx; congruence|]. apply (H2 k); [lia|]. exists x. auto.
      * intros ((x & Hx & Hl) & H2). destruct i as [|i]; [cbn in Hx; congruence|].
        rewrite (proj2 (IH i)); [reflexivity|]. split; [exists x; auto|].
        intros k Hk (y & Hy & Hyl). apply (H2 (S k)); [lia|]. exists y. auto.
Qed.
Lemma label_index_none (b : list stmt) t : label_index b t = None -> forall i, ~ labelled b i t.
Proof.
  intros H. induction b as [|s b IH]; intros i (x & Hx & Hl); [destruct i; discriminate|].
  cbn [label_index] in H. destruct (match label s with Some n => bytes_eqb n t | None => false end) eqn:E; [discriminate|].
  destruct i as [|i].
  - cbn in Hx. injection Hx as ->. rewrite Hl, bytes_eqb_refl in E. discriminate.
  - destruct (label_index b t) eqn:El; [discriminate|]. apply (IH eq_refl i). exists x. auto.
Qed.
Lemma first_exists (b : list stmt) t i : labelled b i t -> exists j, (j <= i)%nat /\ first_labelled b j t.
Proof.
  intros H. destruct (label_index b t) as [j|] eqn:E.
  - exists j. apply label_index_some in E. split; [|exact E].
    destruct (le_lt_dec j i); [assumption|]. destruct (proj2 E i); assumption.
  - destruct (label_index_none b t E i H).
Qed.
Lemma first_unique (b : list stmt) t i j : first_labelled b i t -> first_labelled b j t -> i = j.
Proof. intros H1 H2. apply label_index_some in H1, H2. congruence. Qed.

(** ** The registered symbols are the first labels of the part that was seen. *)
Definition known (program : list stmt) (syms : list (id * nat)) (F : nat) : Prop :=
  forall n i, find n syms = Some i <-> first_labelled program i n /\ (i < F)%nat.

Lemma known_none program syms F n i : known program syms F -> find n syms = None -> (i < F)%nat -> ~ labelled program i n.
Proof.
  intros K E Hi L. destruct (first_exists _ _ _ L) as (j & Hj & HF).
  assert (find n syms = Some j) by (apply K; split; [exact HF|lia]). congruence.
Qed.
Lemma known_skip program syms i s : known program syms i -> nth_error program i = Some s -> label s = None ->
  known program syms (S i).
Proof.
  intros K Hs Hl n j. rewrite (K n j). split; intros (H1 & H2); (split; [exact H1|]); [lia|].
  destruct (Nat.eq_dec j i) as [->|]; [|lia]. destruct H1 as ((x & Hx & Hxl) & _). congruence.
Qed.
Lemma known_register program (st : state) F i s n :
  known program (symbols st) F -> (i <= F)%nat -> nth_error program i = Some s -> label s = Some n ->
  known program (symbols (register_symbol st n i)) (Nat.max F (S i)).
Proof.
  intros K Hi Hs Hl. unfold register_symbol. destruct (find n (symbols st)) as [p|] eqn:E.
  - assert (known program (symbols st) (Nat.max F (S i))) as R.
    { intros m j. rewrite (K m j). split; intros (H1 & H2); (split; [exact H1|]); [lia|].
      destruct (le_lt_dec F j); [|assumption]. assert (j = i) as -> by lia.
      destruct H1 as ((x & Hx & Hxl) & H1). assert (m = n) as -> by congruence.
      apply K in E. destruct E as ((E1 & _) & E2). destruct (H1 p); [lia|exact E1]. }
    destruct (Nat.eqb p i); exact R.
  - assert (i = F) as ->.
    { destruct (Nat.eq_dec i F); [assumption|]. destruct (known_none _ _ _ _ i K E ltac:(lia)). exists s. auto. }
    replace (Nat.max F (S F)) with (S F) by lia.
    cbn [symbols set_symbols]. intros m j. cbn [find]. destruct (bytes_eqb m n) eqn:Eb.
    + apply bytes_eqb_eq in Eb. subst m. split.
      * intros [= <-]. split; [|lia]. split; [exists s; auto|]. intros k Hk. exact (known_none _ _ _ _ k K E Hk).
      * intros (H1 & H2). f_equal. destruct (le_lt_dec F j); [lia|]. destruct H1 as (H1 & _).
        destruct (known_none _ _ _ _ j K E ltac:(lia) H1).
    + rewrite (K m j). split; intros (H1 & H2); (split; [exact H1|]); [lia|].
      destruct (Nat.eq_dec j F) as [->|]; [|lia]. destruct H1 as ((x & Hx & Hxl) & _).
      assert (m = n) by congruence. subst m. rewrite bytes_eqb_refl in Eb. discriminate.
Qed.
Lemma known_register' program (st : state) F i s :
  known program (symbols st) F -> (i <= F)%nat -> nth_error program i = Some s ->
  known program (symbols (match label s with Some n => register_symbol st n i | None => st end)) (Nat.max F (S i)).
Proof.
  intros K Hi Hs. destruct (label s) as [n|] eqn:El; [eapply known_register; eauto|].
  destruct (Nat.eq_dec i F) as [->|].
  - replace (Nat.max F (S F)) with (S F) by lia. eapply known_skip; eauto.
  - replace (Nat.max F (S i)) with F by lia. exact K.
Qed.

Lemma register_symbol_stop (st : state) n i : stop (register_symbol st n i) = stop st.
Proof. unfold register_symbol. destruct (find n (symbols st)); [destruct (Nat.eqb n0 i)|]; reflexivity. Qed.

Lemma lookahead_known program t : forall l i st F st' b,
  l = skipn i program -> known program (symbols st) F -> (i <= F)%nat -> (F <= length program)%nat ->
  (stop st <= F)%nat ->
  lookahead st l i t = (st', b) ->
  exists F', (F <= F' /\ F' <= length program /\ stop st' <= F')%nat /\ known program (symbols st') F'
  /\ (b = true -> exists j, (j < F')%nat /\ labelled program j t)
  /\ (b = false -> forall j, (i <= j)%nat -> ~ labelled program j t).
Proof.
  induction l as [|s l IH]; intros i st F st' b Hl K Hi HF Hs E; cbn [lookahead] in E.
  - injection E as <- <-. exists F. split; [cbn [stop set_stop]; lia|]. split; [exact K|]. split; [discriminate|].
    intros _ j Hj (x & Hx & _). assert (length program <= i)%nat.
    { destruct (le_lt_dec (length program) i); [assumption|]. apply (f_equal (@length _)) in Hl. rewrite skipn_length in Hl. cbn in Hl. lia. }
    assert (nth_error program j = None) by (apply nth_error_None; lia). congruence.
  - assert (Hn : nth_error program i = Some s).
    { rewrite <- (firstn_skipn i program), <- Hl. 
      assert (i < length program)%nat.
      { destruct (le_lt_dec (length program) i) as [G|]; [|assumption]. rewrite skipn_all2 in Hl by exact G. discriminate. }
      rewrite nth_error_app2 by (rewrite firstn_length; lia). rewrite firstn_length. replace (i - Nat.min i (length program))%nat with 0%nat by lia. reflexivity. }
    assert (Hl' : l = skipn (S i) program).
    { replace (S i) with (1 + i)%nat by lia. change (skipn (1 + i) program) with (skipn (S i) program).
      clear - Hl. revert i Hl. induction program as [|x p IHp]; intros i Hl; [destruct i; discriminate|].
      destruct i; cbn [skipn] in *; [congruence|]. exact (IHp i Hl). }
    assert (i < length program)%nat by (apply nth_error_Some; congruence).
    pose proof (known_register' program st F i s K Hi Hn) as K'.
    destruct (label s) as [n|] eqn:El.
    + destruct (bytes_eqb n t) eqn:Eb.
      * apply bytes_eqb_eq in Eb. subst n. injection E as <- <-. exists (Nat.max F (S i)).
        split; [cbn [stop set_stop]; lia|]. split; [exact K'|]. split; [|discriminate].
        intros _. exists i. split; [lia|]. exists s. auto.
      * destruct (IH (S i) _ (Nat.max F (S i)) st' b Hl' K' ltac:(lia) ltac:(lia)
          ltac:(rewrite register_symbol_stop; lia) E) as (F' & H1 & H2 & H3 & H4).
        exists F'. split; [lia|]. split; [exact H2|]. split; [exact H3|]. intros Hb j Hj.
        destruct (Nat.eq_dec j i) as [->|]; [|apply H4; [exact Hb|lia]].
        intros (x & Hx & Hxl). assert (n = t) by congruence. subst. rewrite bytes_eqb_refl in Eb. discriminate.
    + destruct (IH (S i) _ (Nat.max F (S i)) st' b Hl' K' ltac:(lia) ltac:(lia) ltac:(lia) E) as (F' & H1 & H2 & H3 & H4).
      exists F'. split; [lia|]. split; [exact H2|]. split; [exact H3|]. intros Hb j Hj.
      destruct (Nat.eq_dec j i) as [->|]; [|apply H4; [exact Hb|lia]].
      intros (x & Hx & Hxl). congruence.
Qed.

(** ** One jump *)
Definition frontier (program : list stmt) (st : state) : Prop :=
  exists F, (next (base st) <= F)%nat /\ (stop st <= F)%nat /\ (F <= length program)%nat /\ known program (symbols st) F.

(** relative to the state in which the jumping statement was fetched *)
Definition jumps (st : state) (t : id) (st' : state) : Prop :=
  let b := body (current st) in
  (exists i, first_labelled b i t /\ same_rest st st' /\ next (current st') = i
             /\ counter (current st') = (counter (current st) - 1)%Z)
  \/ ((forall i, ~ labelled b i t) /\ same_rest st st' /\ next (current st') = next (current st)
      /\ counter (current st') = counter (current st)
      /\ exists a r, log st' = Missing (length (stack st)) a t :: r).

Lemma same_rest_refl (st : state) : finished st = false -> same_rest st st.
Proof. unfold same_rest. intros H. repeat split; try reflexivity; assumption. Qed.
Lemma same_rest_missing (st : state) t : finished st = false -> same_rest st (missing st t).
Proof. exact (same_rest_refl st). Qed.
Lemma same_rest_trans (a b c : state) : same_rest a b -> same_rest b c -> same_rest a c.
Proof.
  intros (A1 & A2 & A3 & A4 & A5 & A6 & A7) (B1 & B2 & B3 & B4 & B5 & B6 & B7).
  refine (conj _ (conj _ (conj _ (conj _ (conj _ (conj _ _)))))); try congruence.
  intros H. rewrite B4, A4; [reflexivity|exact H|]. intros X. apply H. apply length_zero_iff_nil. rewrite <- A2, X. reflexivity.
Qed.
Lemma quiet_same_rest (a b : state) : quiet a b -> finished a = false -> same_rest a b.
Proof.
  intros Q H. pose proof (quiet_current _ _ _ Q) as C. destruct Q as (Q1 & Q2 & Q3 & Q4 & _).
  unfold same_rest. rewrite C, Q1, Q3, Q4. repeat split; try reflexivity; [intros _; exact Q2|exact H].
Qed.
Lemma go_same_rest (st : state) t i : finished st = false -> same_rest st (go st t i).
Proof.
  intros H. unfold same_rest, go. cbn [store stack base finished tell].
  change (current (tell ?x ?e)) with (current x). rewrite current_set_current.
  unfold set_current. destruct (stack st); cbn; repeat split; auto; intros X; contradiction.
Qed.
Lemma go_current (st : state) t i : current (go st t i) = moved (current st) i.
Proof. unfold go. change (current (tell ?x ?e)) with (current x). apply current_set_current. Qed.

Lemma jump_macro (st : state) t s r : stack st = s :: r -> finished st = false -> jumps st t (jump_in_statements st t).
Proof.
  intros E Hf. unfold jump_in_statements. rewrite E. unfold jumps.
  assert (C : current st = s) by (unfold current; rewrite E; reflexivity).
  destruct (label_index (body s) t) as [i|] eqn:El.
  - left. exists i. apply label_index_some in El. rewrite C. split; [exact El|]. split; [apply go_same_rest; exact Hf|].
    rewrite go_current, C. split; reflexivity.
  - right. rewrite C. split; [exact (label_index_none _ _ El)|]. split; [apply same_rest_missing; exact Hf|].
    change (current (missing st t)) with (current st). rewrite C. split; [reflexivity|]. split; [reflexivity|].
    eexists _, _. reflexivity.
Qed.

Lemma jump_open program (st : state) t : stack st = [] -> finished st = false -> body (base st) = program ->
  frontier program st ->
  jumps st t (jump_in_statements st t) /\ body (base (jump_in_statements st t)) = program
  /\ frontier program (jump_in_statements st t).
Proof.
  intros Es Hf Hb (F & F1 & F2 & F3 & K). unfold jump_in_statements. rewrite Es.
  assert (C : current st = base st) by (unfold current; rewrite Es; reflexivity).
  assert (G : forall st1 i F', quiet st st1 -> known program (symbols st1) F' -> (F' <= length program)%nat -> (stop st1 <= F')%nat ->
    find t (symbols st1) = Some i -> 
    jumps st t (go st1 t i) /\ body (base (go st1 t i)) = program /\ frontier program (go st1 t i)).
  { intros st1 i F' Q K' HF' Hs' Ei. apply K' in Ei. destruct Ei as (E1 & E2).
    pose proof (quiet_current _ _ _ Q) as C1. pose proof Q as (Q1 & Q2 & Q3 & Q4 & _).
    assert (Hbase : base (go st1 t i) = moved (base st) i).
    { unfold go. cbn [base tell]. unfold set_current. rewrite Q3, Es. cbn [base]. rewrite C1, C. reflexivity. }
    assert (Hsym : symbols (go st1 t i) = symbols st1 /\ stop (go st1 t i) = stop st1).
    { unfold go. cbn [symbols stop tell]. unfold set_current. destruct (stack st1); split; reflexivity. }
    split.
    - left. exists i. rewrite C, Hb. split; [exact E1|]. split.
      + eapply same_rest_trans; [apply quiet_same_rest; eassumption|]. apply go_same_rest. congruence.
      + rewrite go_current, C1, C. split; reflexivity.
    - rewrite Hbase. split; [exact Hb|]. exists F'. rewrite Hbase, (proj1 Hsym), (proj2 Hsym). cbn [next moved].
      split; [lia|]. split; [lia|]. split; [lia|]. exact K'. }
  destruct (find t (symbols st)) as [i|] eqn:Ei; [exact (G st i F (quiet_refl data st) K F3 F2 Ei)|].
  set (start := if Nat.ltb (next (base st)) (stop st) then stop st else next (base st)).
  assert (Hst : (start <= F)%nat) by (unfold start; destruct (Nat.ltb _ _); lia).
  destruct (lookahead st (skipn start (body (base st))) start t) as [st1 b] eqn:El.
  pose proof (quiet_lookahead _ _ _ _ _ _ _ El) as Q.
  rewrite Hb in El.
  destruct (lookahead_known program t _ start st F st1 b eq_refl K Hst F3 F2 El) as (F' & (H1 & H1b & H1c) & H2 & H3 & H4).
  destruct b.
  - destruct (H3 eq_refl) as (j & Hj & HL). destruct (first_exists _ _ _ HL) as (j0 & Hj0 & HF0).
    assert (E2 : find t (symbols st1) = Some j0) by (apply H2; split; [exact HF0|lia]). rewrite E2.
    exact (G st1 j0 F' Q H2 H1b H1c E2).
  - assert (HN : forall i, ~ labelled program i t).
    { intros i. destruct (le_lt_dec start i) as [|]; [apply (H4 eq_refl); assumption|].
      exact (known_none _ _ _ _ i K Ei ltac:(lia)). }
    pose proof Q as (Q1 & Q2 & Q3 & Q4 & _). pose proof (quiet_current _ _ _ Q) as C1.
    assert (Q' : same_rest st (missing st1 t)).
    { apply (same_rest_trans st st1); [apply quiet_same_rest; assumption|].
      apply same_rest_missing. congruence. }
    split; [|split].
    + right. rewrite C, Hb. split; [exact HN|]. split; [exact Q'|].
      change (current (missing st1 t)) with (current st1). rewrite C1, C. split; [reflexivity|]. split; [reflexivity|].
      eexists _, _. cbn [log missing tell]. rewrite Q3. reflexivity.
    + cbn [base missing tell]. rewrite Q2. exact Hb.
    + exists F'. cbn [base missing tell symbols stop]. rewrite Q2. split; [lia|]. split; [lia|]. split; [lia|]. exact H2.
Qed.

(** ** Steps keep the registered symbols right. *)
Definition inv (program : list stmt) (st : state) : Prop :=
  body (base st) = program /\ (finished st = false -> frontier program st).

(** inside a macro the state of open code does not change *)
Lemma macro_outer (st : state) s : stack st <> [] ->
  base (execute macro_of st s) = base st /\ symbols (execute macro_of st s) = symbols st /\ stop (execute macro_of st s) = stop st.
Proof.
  intros H. assert (R : register st s = st) by (unfold register; destruct (stack st); [contradiction|reflexivity]).
  assert (J : forall t, base (jump_in_statements st t) = base st /\ symbols (jump_in_statements st t) = symbols st /\ stop (jump_in_statements st t) = stop st).
  { intros t. unfold jump_in_statements. destruct (stack st) eqn:E; [contradiction|].
    destruct (label_index (body s0) t); [|repeat split; reflexivity]. unfold go. cbn [base symbols stop tell].
    unfold set_current. rewrite E. repeat split; reflexivity. }
  unfold execute. destruct (operation s) as [r f|e|ops|ops| | |n f]; rewrite ?R.
  - destruct r; repeat split; reflexivity.
  - unfold process_ACTR. destruct e; [|repeat split; reflexivity]. cbn [base symbols stop tell]. unfold set_current.
    destruct (stack st); [contradiction|]. repeat split; reflexivity.
  - unfold process_AGO. destruct (prepare_AGO ops (store st)) as [[e|]|[k ts]]; try (repeat split; reflexivity).
    destruct (_ && _)%bool; [|repeat split; reflexivity]. destruct (nth_error ts _); [apply J|repeat split; reflexivity].
  - unfold process_AIF. destruct (prepare_AIF ops (store st)) as [[e|]|[t|]]; try (repeat split; reflexivity). apply J.
  - destruct (stack st); repeat split; reflexivity.
  - destruct (stack st); repeat split; reflexivity.
  - destruct (macro_of (store st) n); repeat split; reflexivity.
Qed.

Lemma frontier_eq program (a b : state) : base a = base b -> symbols a = symbols b -> stop a = stop b ->
  frontier program a -> frontier program b.
Proof. intros H1 H2 H3. unfold frontier. rewrite H1, H2, H3. exact (fun x => x). Qed.

Lemma register_frontier program (st : state) s : stack st = [] -> body (base st) = program ->
  nth_error program (next (base st) - 1) = Some s -> (1 <= next (base st))%nat ->
  (exists F, (next (base st) - 1 <= F)%nat /\ (stop st <= F)%nat /\ (F <= length program)%nat /\ known program (symbols st) F) ->
  frontier program (register st s).
Proof.
  intros Es Hb Hn H1 (F & F1 & F2 & F3 & K).
  pose proof (known_register' program st F (next (base st) - 1) s K F1 Hn) as K'.
  assert (next (base st) - 1 < length program)%nat by (apply nth_error_Some; congruence).
  unfold register. rewrite Es. exists (Nat.max F (S (next (base st) - 1))).
  destruct (label s) as [n|].
  - pose proof (quiet_register_symbol data st n (next (base st) - 1)) as (_ & Q2 & _). rewrite Q2, register_symbol_stop.
    split; [lia|]. split; [lia|]. split; [lia|]. exact K'.
  - split; [lia|]. split; [lia|]. split; [lia|]. exact K'.
Qed.

Lemma inv_step program st st' : registered_labels program ->
  inv program st -> step macro_of st = Some st' -> inv program st'.
Proof.
  intros HR (Hb & HF) E. unfold step in E. destruct (finished st) eqn:Ef; [discriminate|]. specialize (HF eq_refl).
  destruct (nth_error (body (current st)) (next (current st))) as [s|] eqn:En.
  2:{ destruct (stack st); [discriminate|]. injection E as <-. split; [exact Hb|]. intros _.
      apply (frontier_eq program st); try reflexivity. exact HF. }
  injection E as <-. destruct (stack st) as [|s0 r] eqn:Es.
  - (* open code *)
    assert (C : current st = base st) by (unfold current; rewrite Es; reflexivity). rewrite C in *.
    set (st1 := set_current st (fetched (base st))).
    assert (S1 : stack st1 = []) by (unfold st1, set_current; rewrite Es; reflexivity).
    assert (B1 : base st1 = fetched (base st)) by (unfold st1, set_current; rewrite Es; reflexivity).
    assert (Y1 : symbols st1 = symbols st /\ stop st1 = stop st /\ finished st1 = false).
    { unfold st1, set_current. rewrite Es. repeat split; try reflexivity. exact Ef. }
    destruct Y1 as (Y1 & Y2 & Y3).
    assert (Hb1 : body (base st1) = program) by (rewrite B1; exact Hb).
    unfold process_statement. rewrite S1. cbn [length]. change (Nat.ltb NEST_LIMIT 1) with false. cbn match.
    destruct (counter (current st1) <? 0)%Z.
    { cbn zeta. cbn [stack tell]. rewrite S1. split; [exact Hb1|discriminate]. }
    destruct (Nat.ltb ACTR_LIMIT (changes (current st1))); [split; [exact Hb1|discriminate]|].
    rewrite Hb in En.
    assert (RF : frontier program (register st1 s)).
    { apply register_frontier; try assumption; rewrite B1; cbn [next fetched]; [|lia|].
      - replace (S (next (base st)) - 1)%nat with (next (base st)) by lia. exact En.
      - destruct HF as (F & F1 & F2 & F3 & K). exists F. rewrite Y1, Y2. split; [lia|]. split; [lia|]. split; [lia|]. exact K. }
    pose proof (quiet_register data st1 s) as (Q1 & Q2 & Q3 & Q4 & _).
    assert (NF : label s = None -> frontier program st1).
    { intros HL. unfold register in RF. rewrite S1, HL in RF. exact RF. }
    pose proof (HR s) as HRs. specialize (HRs) with (1 := nth_error_In _ _ En).
    assert (J : forall t, inv program (jump_in_statements (register st1 s) t)).
    { intros t. destruct (jump_open program (register st1 s) t) as (_ & H1 & H2); try congruence.
      split; [exact H1|]. intros _. exact H2. }
    assert (R0 : inv program (register st1 s)) by (split; [congruence|intros _; exact RF]).
    assert (NL : match operation s with Plain r _ => r = false | Mexit | Mend | Call _ _ => True | _ => False end -> label s = None).
    { intros X. destruct (label s) as [n|]; [|reflexivity]. specialize (HRs n eq_refl). destruct (operation s); congruence || contradiction. }
    unfold execute. destruct (operation s) as [rg f|e|ops|ops| | |n f] eqn:Eo.
    + cbn zeta. destruct rg.
      * split; [exact (proj1 R0)|]. intros _. apply (frontier_eq program (register st1 s)); try reflexivity. exact RF.
      * split; [exact Hb1|]. intros _. apply (frontier_eq program st1); try reflexivity. apply NF, NL. reflexivity.
    + unfold process_ACTR. destruct e as [e|]; [|split; [exact (proj1 R0)|intros _; apply (frontier_eq program (register st1 s)); try reflexivity; exact RF]].
      assert (C1 : current (register st1 s) = base (register st1 s)) by (unfold current; rewrite Q3, S1; reflexivity).
      rewrite C1. unfold set_current. rewrite Q3, S1. split; [exact (proj1 R0)|]. intros _.
      destruct RF as (F & F1 & F2 & F3 & K). exists F. cbn. split; [exact F1|]. split; [exact F2|]. split; [exact F3|exact K].
    + unfold process_AGO. destruct (prepare_AGO ops (store (register st1 s))) as [[e|]|[k ts]]; [exact R0|exact R0|].
      destruct (_ && _)%bool; [|exact R0]. destruct (nth_error ts _); [apply J|exact R0].
    + unfold process_AIF. destruct (prepare_AIF ops (store (register st1 s))) as [[e|]|[t|]]; try exact R0. apply J.
    + rewrite S1. split; [exact Hb1|]. intros _. apply (frontier_eq program st1); try reflexivity. apply NF, NL. exact Logic.I.
    + rewrite S1. split; [exact Hb1|]. intros _. apply (frontier_eq program st1); try reflexivity. apply NF, NL. exact Logic.I.
    + assert (frontier program st1) as X by (apply NF, NL; exact Logic.I).
      destruct (macro_of (store st1) n); (split; [exact Hb1|]); intros _; apply (frontier_eq program st1); try reflexivity; exact X.
  - (* in a macro *)
    set (st1 := set_current st (fetched (current st))).
    assert (B1 : base st1 = base st /\ symbols st1 = symbols st /\ stop st1 = stop st /\ stack st1 <> []).
    { unfold st1, set_current. rewrite Es. cbn. repeat split; discriminate. }
    destruct B1 as (B1 & B2 & B3 & B4).
    assert (X : forall st2 : state, base st2 = base st1 /\ symbols st2 = symbols st1 /\ stop st2 = stop st1 -> inv program st2).
    { intros st2 (X1 & X2 & X3). split; [congruence|]. intros _. apply (frontier_eq program st); congruence. }
    unfold process_statement. destruct (Nat.ltb NEST_LIMIT (S (length (stack st1)))); [apply X; repeat split; reflexivity|].
    destruct (counter (current st1) <? 0)%Z.
    { cbn zeta. cbn [stack tell]. destruct (stack st1); [contradiction|]. apply X. repeat split; reflexivity. }
    destruct (Nat.ltb ACTR_LIMIT (changes (current st1))); [apply X; repeat split; reflexivity|].
    apply X. apply macro_outer. exact B4.
Qed.
Lemma inv_steps program n d : registered_labels program -> inv program (steps macro_of n (initial d program)).
Proof.
  intros HR. induction n as [|n IH].
  - split; [reflexivity|]. intros _. exists 0%nat. cbn. split; [lia|]. split; [lia|]. split; [lia|].
    intros m i. split; [discriminate|]. intros (_ & H). lia.
  - rewrite steps_S. destruct (step macro_of _) as [st'|] eqn:E; [|exact IH]. exact (inv_step _ _ _ HR IH E).
Qed.

(** ** Operands *)
Lemma aif_scan d : forall ops acc has,
  match aif_operands ops d acc has with
  | inl _ => ~ (exists bs tail, ops = bs ++ tail /\ (has = true \/ bs <> []) /\ Forall is_branch bs /\ (tail = [] \/ tail = [OEmpty]))
  | inr r => (exists bs tail, ops = bs ++ tail /\ (has = true \/ bs <> []) /\ Forall is_branch bs /\ (tail = [] \/ tail = [OEmpty]))
      /\ match acc with
         | Some t => r = Some t
         | None => match r with
                   | Some t => aif_takes (data := data) ops d t
                   | None => forall e t, In (OBranch e t) ops -> e d = false
                   end
         end
  end.
Proof.
  induction ops as [|o ops IH]; intros acc has; cbn [aif_operands].
  - destruct has.
    + split; [exists [], []; repeat split; auto|]. destruct acc; [reflexivity|]. intros e t [].
    + intros (bs & tail & E & [H|H] & _); [discriminate|]. symmetry in E. apply app_eq_nil in E. destruct E; contradiction.
  - destruct o as [|t|e t|].
    + destruct ops as [|o2 ops].
      * cbn [aif_operands]. destruct has.
        -- split; [exists [], [OEmpty]; repeat split; auto|]. destruct acc; [reflexivity|]. intros e t [X|[]]. discriminate.
        -- intros (bs & tail & E & [H|H] & HB & _); [discriminate|]. destruct bs as [|x bs]; [contradiction|].
           injection E as <- _. inversion HB as [|? ? (e & t & X) _]. discriminate.
      * intros (bs & tail & E & _ & HB & HT). destruct bs as [|x bs].
        -- cbn in E. destruct HT as [->| ->]; discriminate.
        -- injection E as <- _. inversion HB as [|? ? (e & t & X) _]. discriminate.
    + intros (bs & tail & E & _ & HB & HT). destruct bs as [|x bs].
      * cbn in E. destruct HT as [->| ->]; discriminate.
      * injection E as <- _. inversion HB as [|? ? (e & t' & X) _]. discriminate.
    + specialize (IH (match acc with Some _ => acc | None => if e d then Some t else None end) true).
      destruct (aif_operands ops d _ true) as [er|r].
      * intros (bs & tail & E & _ & HB & HT). apply IH. destruct bs as [|x bs].
        -- cbn in E. destruct HT as [->| ->]; discriminate.
        -- injection E as <- ->. exists bs, tail. inversion HB; subst. auto.
      * destruct IH as ((bs & tail & E & _ & HB & HT) & IH). split.
        -- exists (OBranch e t :: bs), tail. rewrite E. split; [reflexivity|]. split; [right; discriminate|]. split; [|exact HT].
           constructor; [exists e, t; reflexivity|exact HB].
        -- destruct acc as [t0|]; [exact IH|]. destruct (e d) eqn:Ee.
           ++ subst r. exists [], e, ops. split; [reflexivity|]. split; [exact Ee|]. intros e' t' [].
           ++ destruct r as [t1|].
              ** destruct IH as (l1 & e1 & l2 & H1 & H2 & H3). exists (OBranch e t :: l1), e1, l2. rewrite H1.
                 split; [reflexivity|]. split; [exact H2|]. intros e' t' [X|X]; [injection X as <- <-; exact Ee|eapply H3; exact X].
              ** intros e' t' [X|X]; [injection X as <- <-; exact Ee|eapply IH; exact X].
    + intros (bs & tail & E & _ & HB & HT). destruct bs as [|x bs].
      * cbn in E. destruct HT as [->| ->]; discriminate.
      * injection E as <- _. inversion HB as [|? ? (e & t' & X) _]. discriminate.
Qed.
Lemma aif_takes_unique (ops : list (operand data bool)) d t u : Forall (fun o => is_branch o \/ o = OEmpty) ops ->
  aif_takes ops d t -> aif_takes ops d u -> t = u.
Proof.
  intros HB (l1 & e1 & r1 & H1 & H2 & H3) (l2 & e2 & r2 & K1 & K2 & K3). subst ops. clear HB.
  revert l2 K1 K3. induction l1 as [|x l1 IH]; intros l2 K1 K3.
  - destruct l2 as [|y l2]; [injection K1 as <- <- <-; reflexivity|]. injection K1 as <- ->.
    rewrite (K3 e1 t (or_introl eq_refl)) in H2. discriminate.
  - destruct l2 as [|y l2].
    + injection K1 as -> <-. rewrite (H3 e2 u (or_introl eq_refl)) in K2. discriminate.
    + injection K1 as <- K1. refine (IH _ l2 K1 _); [intros e' t' X; eapply H3; right; exact X|intros e' t' X; eapply K3; right; exact X].
Qed.

Lemma seq_targets_map (ts : list id) : seq_targets (map (OSeq (data := data)) ts) = Some ts.
Proof. induction ts as [|t ts IH]; [reflexivity|]. cbn. rewrite IH. reflexivity. Qed.
Lemma seq_targets_inv (l : list (operand data Z)) ts : seq_targets l = Some ts -> l = map OSeq ts.
Proof.
  revert ts. induction l as [|o l IH]; intros ts H; cbn in H; [injection H as <-; reflexivity|].
  destruct o; try discriminate. destruct (seq_targets l); [|discriminate]. injection H as <-. cbn. rewrite (IH _ eq_refl). reflexivity.
Qed.
Lemma no_empty_seqs (ts : list id) : existsb is_empty (map (OSeq (data := data) (value := Z)) ts) = false.
Proof. induction ts; [reflexivity|]. cbn. assumption. Qed.
Lemma prepare_AGO_form (ops : list (operand data Z)) e ts d : ago_form ops e ts -> prepare_AGO ops d = inr (e d, ts).
Proof.
  intros [t|e' t ts'].
  - reflexivity.
  - unfold prepare_AGO. cbn [existsb is_empty orb]. rewrite no_empty_seqs, seq_targets_map. reflexivity.
Qed.
Lemma prepare_AGO_inv (ops : list (operand data Z)) d k ts : prepare_AGO ops d = inr (k, ts) ->
  exists e, ago_form ops e ts /\ k = e d.
Proof.
  unfold prepare_AGO. destruct ops as [|o ops]; [discriminate|]. destruct (existsb is_empty (o :: ops)); [discriminate|].
  destruct o as [|t|e t|]; try discriminate.
  - destruct ops; [|discriminate]. intros [= <- <-]. exists (fun _ => 1%Z). split; [constructor|reflexivity].
  - destruct (seq_targets ops) eqn:E; [|discriminate]. intros [= <- <-]. exists e. apply seq_targets_inv in E. subst ops.
    split; [constructor|reflexivity].
Qed.

(** ** One step with AIF or AGO *)
Lemma step_proceeds st s : proceeds st s ->
  step macro_of st = Some (execute macro_of (set_current st (fetched (current st))) s).
Proof.
  intros (H1 & H2 & H3 & H4 & H5). unfold step. rewrite H1, H2. f_equal. unfold process_statement.
  rewrite stack_set_current, current_set_current. cbn [counter changes fetched].
  destruct (Nat.ltb_spec NEST_LIMIT (S (length (stack st)))) as [G|_]; [unfold NEST_LIMIT in G; lia|].
  destruct (Z.ltb_spec (counter (current st)) 0); [lia|].
  destruct (Nat.ltb_spec ACTR_LIMIT (changes (current st))) as [G|_]; [unfold ACTR_LIMIT in G; lia|]. reflexivity.
Qed.
Lemma fetched_rest (st : state) : finished st = false -> same_rest st (set_current st (fetched (current st))).
Proof.
  intros H. unfold same_rest. rewrite current_set_current. unfold set_current. destruct (stack st); cbn; repeat split; auto.
  intros X. contradiction.
Qed.
Lemma jumps_branches st s t st' : proceeds st s ->
  jumps (register (set_current st (fetched (current st))) s) t st' -> branches st t st'.
Proof.
  intros (H1 & _) J. set (st1 := set_current st (fetched (current st))) in *.
  pose proof (quiet_register data st1 s) as Q.
  assert (R1 : same_rest st st1) by (apply fetched_rest; exact H1).
  assert (H2 : finished st1 = false) by (unfold st1; rewrite finished_set_current; exact H1).
  assert (R2 : same_rest st (register st1 s)) by (eapply same_rest_trans; [exact R1|apply quiet_same_rest; assumption]).
  assert (C : current (register st1 s) = fetched (current st)).
  { rewrite (quiet_current _ _ _ Q). apply current_set_current. }
  assert (SL : length (stack (register st1 s)) = length (stack st)) by apply R2.
  unfold jumps in J. rewrite C in J. cbn [body fetched next counter] in J. unfold branches, falls_through.
  destruct J as [(i & J1 & J2 & J3 & J4)|(J1 & J2 & J3 & J4 & J5)].
  - left. exists i. split; [exact J1|]. split; [eapply same_rest_trans; eassumption|]. split; assumption.
  - right. split; [exact J1|]. split.
    + split; [eapply same_rest_trans; eassumption|]. split; assumption.
    + rewrite SL in J5. exact J5.
Qed.
Lemma quiet_falls st s st' : proceeds st s -> quiet (set_current st (fetched (current st))) st' -> falls_through st st'.
Proof.
  intros (H1 & _) Q. set (st1 := set_current st (fetched (current st))) in *.
  assert (R1 : same_rest st st1) by (apply fetched_rest; exact H1).
  assert (H2 : finished st1 = false) by (unfold st1; rewrite finished_set_current; exact H1).
  split; [eapply same_rest_trans; [exact R1|apply quiet_same_rest; assumption]|].
  rewrite (quiet_current _ _ _ Q). unfold st1. rewrite current_set_current. split; reflexivity.
Qed.
Lemma jump_from_fetched program n d st s t : registered_labels program ->
  st = steps macro_of n (initial d program) -> proceeds st s ->
  match operation s with Ago _ | Aif _ => True | _ => False end ->
  branches st t (jump_in_statements (register (set_current st (fetched (current st))) s) t).
Proof.
  intros HR Hst HP Ho. apply (jumps_branches st s t _ HP). pose proof HP as (H1 & H2 & _).
  set (st1 := set_current st (fetched (current st))).
  assert (Y3 : finished st1 = false) by (unfold st1; rewrite finished_set_current; exact H1).
  pose proof (quiet_register data st1 s) as (Q1 & Q2 & Q3 & Q4 & _).
  destruct (stack st) as [|s0 r] eqn:Es.
  - pose proof (inv_steps program n d HR) as (Hb & HF). rewrite <- Hst in Hb, HF. specialize (HF H1).
    assert (C : current st = base st) by (unfold current; rewrite Es; reflexivity). rewrite C in *.
    assert (S1 : stack st1 = []) by (unfold st1, set_current; rewrite Es; reflexivity).
    assert (B1 : base st1 = fetched (base st)) by (unfold st1, set_current; rewrite Es; cbn [base]; rewrite C; reflexivity).
    assert (Y1 : symbols st1 = symbols st /\ stop st1 = stop st) by (unfold st1, set_current; rewrite Es; split; reflexivity).
    destruct Y1 as (Y1 & Y2). rewrite Hb in H2.
    apply (jump_open program (register st1 s) t); try congruence.
    + rewrite Q2, B1. exact Hb.
    + apply register_frontier; try assumption; rewrite B1; cbn [next fetched body]; [exact Hb| |lia|].
      * replace (S (next (base st)) - 1)%nat with (next (base st)) by lia. exact H2.
      * destruct HF as (F & F1 & F2 & F3 & K). exists F. rewrite Y1, Y2. split; [lia|]. split; [lia|]. split; [lia|]. exact K.
  - assert (stack st1 = fetched (current st) :: r) as S1 by (unfold st1, set_current; rewrite Es; reflexivity).
    eapply jump_macro; [rewrite Q3; exact S1|congruence].
Qed.
End Machine.
