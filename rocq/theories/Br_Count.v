(** The branch counters, read off the log. *)
From Coq Require Import List NArith ZArith Bool Lia.
From Coq Require Import ZifyBool ZifyNat ZifyN.
From Verif Require Import Common Var_Proof Br_Model Br_Spec Br_Proof.
Import ListNotations.

Section Machine.
Variable data : Type.
Variable macro_of : data -> id -> option (list (stmt data)).
Notation stmt := (stmt data).
Notation state := (state data).
Notation scope := (scope data).
Notation quiet := (quiet data).
Notation full := (full data).

Fixpoint counted (L : list scope) (l : list event) : Prop :=
  match L with
  | [] => True
  | s :: r =>
      counter s = (snd (since (length r) l) - Z.of_nat (fst (since (length r) l)))%Z
      /\ (fst (since (length r) l) <> 0%nat -> (-1 <= counter s)%Z) /\ counted r l
  end.
Definition bounded (l : list event) : Prop :=
  forall depth, (Z.of_nat (fst (since depth l)) <= Z.max 0 (snd (since depth l) + 1))%Z.
Definition good (st : state) : Prop := counted (full st) (log st) /\ bounded (log st).

Lemma since_diags d l l2 : only_diags l -> since d (l ++ l2) = since d l2.
Proof. induction 1 as [|e l (x & ->) _ IH]; [reflexivity|exact IH]. Qed.
Lemma counted_ext L : forall l l2, (forall d, (d < length L)%nat -> since d l2 = since d l) -> counted L l -> counted L l2.
Proof.
  induction L as [|s L IH]; intros l l2 H; [auto|]. cbn [counted]. rewrite (H (length L)) by (cbn; lia).
  intros (H1 & H2 & H3). split; [exact H1|]. split; [exact H2|]. apply (IH l); [|exact H3]. intros d Hd. apply H. cbn. lia.
Qed.
Lemma good_diags (st st' : state) l : full st' = full st -> log st' = l ++ log st -> only_diags l -> good st -> good st'.
Proof.
  intros F E D (C & B). split.
  - rewrite F, E. apply (counted_ext _ (log st)); [|exact C]. intros d _. apply since_diags; exact D.
  - intros d. rewrite E, since_diags by exact D. apply B.
Qed.
Lemma good_quiet st st' : quiet st st' -> good st -> good st'.
Proof.
  intros Q G. pose proof (full_quiet _ _ _ Q) as F. destruct Q as (_ & _ & _ & _ & l & E & D). exact (good_diags _ _ l F E D G).
Qed.
Lemma good_suffix st st' l k : full st' = skipn k (full st) -> log st' = l ++ log st -> only_diags l -> good st -> good st'.
Proof.
  intros F E D (C & B). split.
  - rewrite F, E. apply (counted_ext _ (log st)); [intros d _; apply since_diags; exact D|]. clear - C. revert k.
    induction (full st) as [|s L IH]; intros [|k]; cbn [skipn]; try exact C. apply IH. apply C.
  - intros d. rewrite E, since_diags by exact D. apply B.
Qed.

Lemma good_go st t i : good st -> (0 <= counter (current st))%Z -> good (go st t i).
Proof.
  intros (C & B) H. assert (E : log (go st t i) = Jump (length (stack st)) (next (current st) - 1) t i :: log st).
  { unfold go. cbn [log tell]. unfold set_current. destruct (stack st); reflexivity. }
  pose proof (full_length data st) as HL. rewrite full_current in C, HL. cbn [length] in HL.
  assert (HT : length (tl (full st)) = length (stack st)) by lia.
  cbn [counted] in C. rewrite HT in C. destruct C as (C1 & C2 & C3).
  assert (D : forall d, since d (Jump (length (stack st)) (next (current st) - 1) t i :: log st)
     = if Nat.eqb (length (stack st)) d then (S (fst (since d (log st))), snd (since d (log st))) else since d (log st)).
  { intros d. cbn [since]. destruct (since d (log st)). destruct (Nat.eqb _ d); reflexivity. }
  split.
  - rewrite go_full, E. cbn [counted]. rewrite HT, D, Nat.eqb_refl. cbn [fst snd counter moved]. split; [lia|]. split; [lia|].
    apply (counted_ext _ (log st)); [|exact C3]. intros d Hd. rewrite D.
    destruct (Nat.eqb_spec (length (stack st)) d); [lia|reflexivity].
  - intros d. rewrite E, D. specialize (B d). destruct (Nat.eqb_spec (length (stack st)) d) as [<-|]; [|exact B].
    cbn [fst snd]. lia.
Qed.
Lemma good_jump st t : good st -> (0 <= counter (current st))%Z -> good (jump_in_statements st t).
Proof.
  intros G H. destruct (jump_effect data st t) as [(st1 & i & -> & Q)|[(st1 & -> & Q)|Q]].
  - apply good_go; [exact (good_quiet _ _ Q G)|]. rewrite (quiet_current _ _ _ Q). exact H.
  - apply (good_quiet _ _ Q) in G. destruct G as (C & B). split.
    + apply (counted_ext _ (log st1)); [reflexivity|exact C].
    + intros d. exact (B d).
  - exact (good_quiet _ _ Q G).
Qed.

Lemma good_set_store (st : state) d : good st -> good (set_store st d).
Proof. exact (fun G => G). Qed.

Lemma good_execute st s : good st -> (0 <= counter (current st))%Z -> good (execute macro_of st s).
Proof.
  intros G H. pose proof (quiet_register data st s) as Q. pose proof (good_quiet _ _ Q G) as GR.
  assert (HR : (0 <= counter (current (register st s)))%Z) by (rewrite (quiet_current _ _ _ Q); exact H).
  unfold execute. destruct (operation s) as [r f|e|ops|ops| | |n f].
  - cbn zeta. apply good_set_store. destruct r; [exact GR|exact G].
  - unfold process_ACTR. destruct e as [e|]; [|exact (good_quiet _ _ (quiet_tell data (register st s) E020) GR)].
    revert GR. generalize (register st s) as st1. clear. intros st1 (C & B). cbn zeta. set (v := e (store st1)).
    pose proof (full_length data st1) as HL. rewrite full_current in C, HL. cbn [length] in HL.
    assert (HT : length (tl (full st1)) = length (stack st1)) by lia. destruct C as (C1 & C2 & C3).
    assert (D : forall d, since d (Set_counter (length (stack st1)) v :: log st1)
     = if Nat.eqb (length (stack st1)) d then (0%nat, v) else since d (log st1)) by reflexivity.
    split.
    + change (full (tell ?x ?e)) with (full x). rewrite full_set_current. cbn [log tell].
      replace (log (set_current st1 _)) with (log st1) by (unfold set_current; destruct (stack st1); reflexivity).
      cbn [counted]. rewrite HT, D, Nat.eqb_refl. cbn [fst snd counter]. split; [lia|]. split; [congruence|].
      apply (counted_ext _ (log st1)); [|exact C3]. intros d Hd. rewrite D. destruct (Nat.eqb_spec (length (stack st1)) d); [lia|reflexivity].
    + intros d. cbn [log tell].
      replace (log (set_current st1 _)) with (log st1) by (unfold set_current; destruct (stack st1); reflexivity).
      rewrite D. destruct (Nat.eqb_spec (length (stack st1)) d); [cbn; lia|apply B].
  - unfold process_AGO. destruct (prepare_AGO ops (store (register st s))) as [e|[k ts]]; [exact (good_quiet _ _ (quiet_complain data _ e) GR)|].
    destruct (_ && _)%bool; [|exact GR]. destruct (nth_error ts _); [|exact GR]. apply good_jump; assumption.
  - unfold process_AIF. destruct (prepare_AIF ops (store (register st s))) as [e|[t|]]; [exact (good_quiet _ _ (quiet_complain data _ e) GR)| |exact GR].
    apply good_jump; assumption.
  - destruct (stack st) eqn:E; [exact (good_quiet _ _ (quiet_tell data st E054) G)|].
    apply (good_suffix st _ [] 1); [|reflexivity|constructor|exact G]. rewrite leave_full by congruence. destruct (full st); reflexivity.
  - destruct (stack st) eqn:E; [exact (good_quiet _ _ (quiet_tell data st E054) G)|exact G].
  - destruct (macro_of (store st) n) as [b|]; [|exact (good_quiet _ _ (quiet_tell data st E049) G)].
    pose proof (full_length data st) as HL. destruct G as (C & B).
    change (counted (new_scope b :: full st) (Enter (S (length (stack st))) :: log st) /\ bounded (Enter (S (length (stack st))) :: log st)).
    split.
    + cbn [counted]. rewrite HL. cbn [since]. rewrite Nat.eqb_refl. cbn [fst snd new_scope counter]. split; [lia|]. split; [congruence|].
      apply (counted_ext _ (log st)); [|exact C]. intros d Hd. cbn [since]. destruct (Nat.eqb_spec (S (length (stack st))) d); [lia|reflexivity].
    + intros d. cbn [since]. destruct (Nat.eqb (S (length (stack st))) d); [cbn; lia|apply B].
Qed.

Lemma good_step st st' : good st -> step macro_of st = Some st' -> good st'.
Proof.
  intros G E. unfold step in E. destruct (finished st); [discriminate|].
  destruct (nth_error (body (current st)) (next (current st))) as [s|] eqn:En.
  2:{ destruct (stack st) eqn:Es; [discriminate|]. injection E as <-.
      apply (good_suffix st _ [] 1); [|reflexivity|constructor|exact G]. rewrite leave_full by congruence. destruct (full st); reflexivity. }
  injection E as <-. set (st1 := set_current st (fetched (current st))).
  assert (G1 : good st1).
  { destruct G as (C & B). rewrite full_current in C.
    assert (El : log st1 = log st) by (unfold st1, set_current; destruct (stack st); reflexivity).
    split; [unfold st1; rewrite full_set_current; fold st1; rewrite El; exact C|rewrite El; exact B]. }
  unfold process_statement. destruct (Nat.ltb NEST_LIMIT (S (length (stack st1)))).
  { apply (good_suffix st1 _ [Diag E055] (length (stack st1))); [|reflexivity|constructor; [eauto|constructor]|exact G1].
    unfold Br_Proof.full. cbn [stack tell set_stack base app]. rewrite skipn_app, skipn_all, Nat.sub_diag. reflexivity. }
  destruct (Z.ltb_spec (counter (current st1)) 0).
  { cbn zeta. change (stack (tell st1 ?e)) with (stack st1). destruct (stack st1) eqn:Es.
    - exact (good_quiet _ _ (quiet_tell data st1 E056) G1).
    - apply (good_suffix st1 _ [Diag E056] 1); [|reflexivity|constructor; [eauto|constructor]|exact G1].
      rewrite leave_full by (cbn [stack tell]; congruence). change (full (tell st1 ?e)) with (full st1). destruct (full st1); reflexivity. }
  destruct (Nat.ltb ACTR_LIMIT (changes (current st1))); [exact (good_quiet _ _ (quiet_tell data st1 E063) G1)|].
  apply good_execute; assumption.
Qed.
Lemma good_steps n d program : good (steps macro_of n (initial d program)).
Proof.
  induction n as [|n IH].
  - split; [split; [reflexivity|split; [cbn; congruence|exact Logic.I]]|]. intros depth. cbn. lia.
  - rewrite steps_S. destruct (step macro_of _) as [st'|] eqn:E; [exact (good_step _ _ IH E)|exact IH].
Qed.

(** Macro calls are never nested deeper than the limit. *)
Lemma nest_step st st' : (length (stack st) <= 100)%nat -> step macro_of st = Some st' -> (length (stack st') <= 100)%nat.
Proof.
  intros H E. unfold step in E. destruct (finished st); [discriminate|].
  destruct (nth_error (body (current st)) (next (current st))) as [s|].
  2:{ destruct (stack st) eqn:Es; [discriminate|]. injection E as <-. cbn. rewrite Es. cbn. cbn in H. lia. }
  injection E as <-. set (st1 := set_current st (fetched (current st))).
  assert (L1 : length (stack st1) = length (stack st)) by apply stack_set_current.
  unfold process_statement. destruct (Nat.ltb_spec NEST_LIMIT (S (length (stack st1)))) as [Hn|Hn]; [cbn; lia|]. unfold NEST_LIMIT in Hn.
  destruct (counter (current st1) <? 0)%Z.
  { cbn zeta. change (stack (tell st1 ?e)) with (stack st1). destruct (stack st1) eqn:Es; [cbn; rewrite Es; cbn; lia|].
    cbn. rewrite Es. cbn. cbn in Hn. lia. }
  destruct (Nat.ltb ACTR_LIMIT (changes (current st1))); [cbn; lia|].
  destruct (execute_effect data macro_of st1 s) as (X & _). pose proof (full_length data st1) as HL.
  assert (Y : length (stack (execute macro_of st1 s)) = (length (full (execute macro_of st1 s)) - 1)%nat) by (rewrite full_length; lia).
  rewrite Y. destruct X as [st' F|st' i F|st' v F|st' N F|st' b F]; rewrite F; cbn [length]; destruct (full st1); cbn [length tl] in *; lia.
Qed.
End Machine.
