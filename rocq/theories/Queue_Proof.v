From Coq Require Import List Arith Bool Lia.
From Verif Require Import Lts Queue_Model Queue_Spec.
Import ListNotations.

Section P.
Variable T : Type.
Variable pol : policy.
Notation st := (st T).
Notation step := (step T pol).

Lemma fifo_step : forall (s : st) e s', accepted s = popped s ++ queue s -> step s e = Some s' ->
  accepted s' = popped s' ++ queue s'.
Proof.
  intros s e s' H R. destruct e as [t| |w|c|c]; simpl in R.
  - destruct (terminated s); injection R as <-; [exact H|]. simpl. rewrite H, <- app_assoc. reflexivity.
  - injection R as <-. exact H.
  - destruct (pending s); [discriminate|]. destruct w as [c|].
    + destruct (nth_error _ c) as [[]|]; try discriminate. injection R as <-. exact H.
    + destruct (existsb _ _); [discriminate|]. injection R as <-. exact H.
  - destruct (nth_error _ c) as [[]|]; try discriminate. injection R as <-. exact H.
  - assert (G : accepted (pop_step T pol s c) = popped (pop_step T pol s c) ++ queue (pop_step T pol s c)).
    { unfold pop_step. destruct (queue s) as [|t q] eqn:Q, (terminated s), pol; simpl; try rewrite Q; rewrite H;
        try rewrite <- app_assoc; reflexivity. }
    destruct (nth_error _ c) as [[]|]; try discriminate; injection R as <-; exact G.
Qed.

Lemma fifo : forall n es s, run step (init T n) es = Some s -> accepted s = popped s ++ queue s.
Proof.
  intros n es s R. refine (run_inv _ _ step (fun s => accepted s = popped s ++ queue s) _ es (init T n) s _ R).
  - intros. eapply fifo_step; eauto.
  - reflexivity.
Qed.

Lemma terminated_stays : forall es (s s' : st), terminated s = true -> run step s es = Some s' ->
  accepted s' = accepted s.
Proof.
  induction es as [|e es IH]; simpl; intros s s' Ht R; [now injection R as <-|].
  destruct (step s e) as [s1|] eqn:E; [|discriminate].
  assert (G : terminated s1 = true /\ accepted s1 = accepted s).
  { destruct e as [t| |w|c|c]; simpl in E.
    - rewrite Ht in E. injection E as <-. auto.
    - injection E as <-. auto.
    - destruct (pending s); [discriminate|]. destruct w as [c|].
      + destruct (nth_error _ c) as [[]|]; try discriminate. injection E as <-. auto.
      + destruct (existsb _ _); [discriminate|]. injection E as <-. auto.
    - destruct (nth_error _ c) as [[]|]; try discriminate. injection E as <-. auto.
    - assert (G : terminated (pop_step T pol s c) = true /\ accepted (pop_step T pol s c) = accepted s).
      { unfold pop_step. rewrite Ht. destruct (queue s), pol; simpl; auto. }
      destruct (nth_error _ c) as [[]|]; try discriminate; injection E as <-; auto. }
  destruct G as [G1 G2]. rewrite <- G2. now apply IH with (1 := G1).
Qed.

Lemma accepted_pushed : forall es (s s' : st), terminated s = false -> run step s es = Some s' ->
  accepted s' = accepted s ++ pushed T es.
Proof.
  induction es as [|e es IH]; intros s s' Ht R.
  - simpl in R. injection R as <-. simpl. now rewrite app_nil_r.
  - cbn [run] in R. destruct (step s e) as [s1|] eqn:E; [|discriminate].
    destruct e as [t| |w|c|c]; simpl in E.
    + rewrite Ht in E. injection E as <-. apply IH in R; [|reflexivity]. rewrite R. simpl.
      now rewrite <- app_assoc.
    + injection E as <-. apply terminated_stays in R; [|reflexivity]. rewrite R. simpl. now rewrite app_nil_r.
    + destruct (pending s); [discriminate|]. destruct w as [c|].
      * destruct (nth_error _ c) as [[]|]; try discriminate. injection E as <-. now apply IH in R.
      * destruct (existsb _ _); [discriminate|]. injection E as <-. now apply IH in R.
    + destruct (nth_error _ c) as [[]|]; try discriminate. injection E as <-. now apply IH in R.
    + assert (G : terminated (pop_step T pol s c) = false /\ accepted (pop_step T pol s c) = accepted s).
      { unfold pop_step. rewrite Ht. destruct (queue s), pol; simpl; auto. }
      simpl. rewrite <- (proj2 G).
      destruct (nth_error _ c) as [[]|]; try discriminate; injection E as <-; apply IH in R; tauto.
Qed.

Lemma fifo_pushed : forall n es s, run step (init T n) es = Some s -> pushed T es = popped s ++ queue s.
Proof.
  intros n es s R. rewrite <- (fifo _ _ _ R). now rewrite (accepted_pushed es (init T n) s eq_refl R).
Qed.

(* --------------------------------------------------------- one consumer: no lost wake-up *)
Definition good1 (s : st) : Prop :=
  exists c, consumers s = [c] /\
    (c = CWaiting -> (queue s <> [] \/ terminated s = true) -> 1 <= pending s).

Lemma good1_step : forall s e s', good1 s -> step s e = Some s' -> good1 s'.
Proof.
  intros s e s' (c & Hc & Hw) R. unfold good1.
  destruct e as [t| |w|k|k]; simpl in R.
  - destruct (terminated s) eqn:Ht; injection R as <-.
    + exists c. rewrite Ht. auto.
    + exists c. simpl. split; [exact Hc|]. intros Hcw _. destruct (queue s) eqn:Q; [lia|].
      apply Hw; [exact Hcw|]. left. discriminate.
  - injection R as <-. exists c. simpl. split; [exact Hc|]. lia.
  - destruct (pending s) as [|p] eqn:Pn; [discriminate|]. rewrite Hc in R. destruct w as [k|].
    + destruct k as [|k]; simpl in R; [|destruct k; discriminate].
      destruct c; try discriminate. injection R as <-. exists CWoken. simpl. split; [reflexivity|]. discriminate.
    + simpl in R. destruct c; simpl in R; try discriminate; injection R as <-; eexists; (split; [reflexivity|]);
        discriminate.
  - rewrite Hc in R. destruct k as [|k]; simpl in R; [|destruct k; discriminate].
    destruct c; try discriminate. injection R as <-. exists CWoken. simpl. split; [reflexivity|]. discriminate.
  - rewrite Hc in R. destruct k as [|k]; simpl in R; [|destruct k; discriminate].
    assert (G : exists c0, consumers (pop_step T pol s 0) = [c0] /\
      (c0 = CWaiting -> queue (pop_step T pol s 0) <> [] \/ terminated (pop_step T pol s 0) = true ->
       1 <= pending (pop_step T pol s 0))).
    { unfold pop_step. rewrite Hc. destruct (queue s) as [|t q] eqn:Q, (terminated s) eqn:Ht, pol; simpl;
        eexists; (split; [reflexivity|]); try discriminate; rewrite ?Q; intros _ [A|A]; try easy; congruence. }
    destruct c; try discriminate; injection R as <-; exact G.
Qed.

Lemma no_lost_wakeup : forall es s, run step (init T 1) es = Some s ->
  consumers s = [CWaiting] -> queue s <> [] \/ terminated s = true -> 1 <= pending s.
Proof.
  intros es s R Hc Hq.
  assert (G : good1 s).
  { eapply (run_inv _ _ step good1); [| |exact R].
    - intros. eapply good1_step; eauto.
    - exists CIdle. split; [reflexivity|discriminate]. }
  destruct G as (c & Hc' & Hw). apply Hw; [|exact Hq]. congruence.
Qed.

Lemma asleep_wakes : forall es s,
  run step (init T 1) es = Some s ->
  consumers s = [CWaiting] -> (queue s <> [] \/ terminated s = true) ->
  1 <= pending s /\
  exists s1 s2, step s (ENotify (Some 0)) = Some s1 /\ step s1 (EPop 0) = Some s2 /\
    consumers s2 = [CIdle] /\
    (length (popped s2) = S (length (popped s)) \/ nulls s2 = S (nulls s)).
Proof.
  intros es s R Hc Hq. pose proof (no_lost_wakeup es s R Hc Hq) as Hp. split; [exact Hp|].
  simpl. destruct (pending s) as [|p]; [lia|]. rewrite Hc. simpl. eexists. eexists.
  split; [reflexivity|]. simpl. split; [reflexivity|].
  unfold pop_step. simpl. destruct (queue s) as [|t q], (terminated s), pol; simpl;
    try (exfalso; destruct Hq; congruence);
    (split; [reflexivity|]); rewrite ?app_length; simpl;
    try (left; lia); try (right; lia).
Qed.

End P.

(** With the queue processed to the end, [nullopt] is only returned when nothing is left. *)
Lemma process_null_empty : forall T (s s' : st T) c, step T process_elements s (EPop c) = Some s' ->
  nulls s' <> nulls s -> queue s = [] /\ terminated s = true.
Proof.
  intros T s s' c R Hn. simpl in R.
  assert (G : nulls (pop_step T process_elements s c) <> nulls s -> queue s = [] /\ terminated s = true).
  { unfold pop_step. destruct (queue s), (terminated s) eqn:Ht; simpl; auto; try easy. }
  destruct (nth_error _ c) as [[]|]; try discriminate; injection R as <-; auto.
Qed.

Lemma drop_null_terminated : forall T (s s' : st T) c, step T drop_elements s (EPop c) = Some s' ->
  (nulls s' <> nulls s -> terminated s = true) /\ (popped s' <> popped s -> terminated s = false).
Proof.
  intros T s s' c R. simpl in R.
  assert (G : (nulls (pop_step T drop_elements s c) <> nulls s -> terminated s = true) /\
              (popped (pop_step T drop_elements s c) <> popped s -> terminated s = false)).
  { unfold pop_step. destruct (queue s), (terminated s) eqn:Ht; simpl; auto; try easy. }
  destruct (nth_error _ c) as [[]|]; try discriminate; injection R as <-; auto.
Qed.
