(** No state in which neither thread can move although there is something to do. *)
From Coq Require Import List NArith Bool Lia Arith.
From Verif Require Import Common Lts Dbg_Model Dbg_Spec Dbg_Proof Dbg_Live Dbg_Exit.
Import ListNotations.

Section Program.
Variable program : list stmt.
Local Notation steps := (run (step program)).
Local Notation stuck := (stuck program).

Definition sane (s : state) : Prop :=
  mutexes s /\ within program (apc s) /\
  (c_disc (client s) = true -> quiet_pc (apc s) = true) /\
  (match client s with DiscCancel | DiscUnlock | DiscNotify | DiscJoin | Gone => continue_ s = true | _ => True end) /\
  (match client s with DiscJoin | Gone => is_asleep (apc s) = false | _ => True end) /\
  (client s = Gone -> settled (apc s) = true).

Lemma sane_step : forall s l s', sane s -> step program s l = Some s' -> sane s'.
Proof.
  intros s l s' (M & Wi & Q & Co & As & Gn) H.
  pose proof (mutexes_step program _ _ _ M H) as MS. pose proof (within_step program _ _ _ Wi H) as WS.
  unfold sane. refine (conj MS (conj WS _)). clear MS WS Wi.
  destruct M as (M1 & M2 & _ & _ & _ & M6).
  split_state s. cbn in *. unfold step in H. cbn in H. destruct br; [discriminate|].
  destruct l as [ | |d|c].
  - unfold analysis in H. cbn in H.
    destruct ap; cbn in *; try discriminate;
      repeat match type of H with
             | context [match ?x with _ => _ end] => let E := fresh "E" in destruct x eqn:E; cbn in H; try discriminate
             end; injection H as <-; cbn in *;
      refine (conj _ (conj _ (conj _ _))); auto;
      try (intros Y; specialize (Gn Y); discriminate);
      try (intros Y; specialize (Q Y); discriminate);
      try (intros Y; apply M6 in Y; congruence);
      try (destruct cl; cbn in *; auto; try discriminate; try congruence; intuition (try discriminate; try congruence)).
  - unfold spurious in H. cbn in H. destruct ap; try discriminate. injection H as <-. cbn in *. refine (conj _ (conj _ (conj _ _))); auto; try (intros Y; specialize (Gn Y); discriminate); destruct cl; auto.
  - unfold command_step in H. cbn in H. rewrite ?notify_all_eq in H. cbn in H.
    destruct cl; cbn in *; try discriminate;
      repeat match type of H with
             | context [match ?x with _ => _ end] =>
                 first [is_var x | unify x (ctx ap)]; let E := fresh "E" in destruct x eqn:E; cbn in H; try discriminate
             end; injection H as <-; cbn in *;
      refine (conj _ (conj _ (conj _ _))); auto; try (intros; discriminate);
      try (destruct ap; cbn in *; intuition (try discriminate; try congruence); fail).
  - unfold receive in H. cbn in H. destruct cl; try discriminate. injection H as <-.
    destruct c; cbn in *; auto; try (refine (conj _ (conj _ (conj _ _))); auto; discriminate).
    destruct ap; cbn in *; refine (conj _ (conj _ (conj _ _))); auto; discriminate.
Qed.
Lemma sane_run : forall ls s, steps initial ls = Some s -> sane s.
Proof.
  intros ls s. apply (run_inv state label (step program) sane sane_step).
  refine (conj mutexes_initial (conj Logic.I (conj _ (conj _ (conj _ _))))); cbn; auto.
Qed.

(** The only standstills: the client has nothing to do, and the analysis has not started, is over, or sleeps. *)
Lemma standstill : forall ls s, steps initial ls = Some s -> broken s = None -> stuck s ->
  (client s = Idle /\ (settled (apc s) = true \/ is_asleep (apc s) = true)) \/ (client s = Gone /\ settled (apc s) = true).
Proof.
  intros ls s R B (K1 & K2). specialize (K2 0%N). destruct (sane_run ls s R) as (M & Wi & Q & Co & As & Gn). clear R.
  destruct M as (M1 & M2 & M3 & M4 & M5 & M6).
  split_state s. cbn in *. subst br. unfold step, analysis, command_step in *. cbn in *.
  destruct ap; cbn in *; try discriminate;
    try (destruct (nth_error program i) eqn:En; [|apply nth_error_None in En; lia]);
    repeat match type of K1 with
           | context [match ?x with _ => _ end] => let E := fresh "E" in destruct x eqn:E; cbn in K1; try discriminate
           end;
    destruct cl; cbn in *; try discriminate; try congruence;
    repeat match type of K2 with
           | context [match ?x with _ => _ end] => let E := fresh "E" in destruct x eqn:E; cbn in K2; try discriminate
           end; intuition (try discriminate; try congruence).
Qed.
End Program.
