(** A client that disconnects ends the analysis. *)
From Coq Require Import List NArith Bool Lia Arith.
From Verif Require Import Common Lts Dbg_Model Dbg_Spec Dbg_Proof Dbg_Stops Dbg_Live.
Import ListNotations.

Section Program.
Variable program : list stmt.
Local Notation steps := (run (step program)).
Local Notation stuck := (stuck program).
Local Notation inevitable := (inevitable program).

(** ** Disconnecting *)
Definition within (p : pc) : Prop :=
  match p with
  | Fetch i => (i <= length program)%nat
  | Enter i | Look i | Flag i _ | Over i | Depth i | Clear i | Lock i | Recheck i | Reset i | Unset i | Notify i
  | Test i | Sleep i | Asleep i | Woken i | Relock i => (i < length program)%nat
  | _ => True
  end.
Lemma within_step : forall s l s', within (apc s) -> step program s l = Some s' -> within (apc s').
Proof.
  intros s l s' M H. split_state s. cbn [apc] in M.
  unfold step in H. cbn [broken] in H. destruct br; [discriminate|].
  destruct l as [ | |d|c].
  - unfold analysis in H. cbn in H.
    destruct ap; cbn in *; try discriminate;
      repeat match type of H with
             | context [match ?x with _ => _ end] => let E := fresh "E" in destruct x eqn:E; cbn in H; try discriminate
             end; injection H as <-; cbn in *; try lia; try exact Logic.I; auto.
    apply nth_error_Some. congruence.
  - unfold spurious in H. cbn in H. destruct ap; try discriminate. injection H as <-. exact M.
  - unfold command_step in H. cbn in H. rewrite ?notify_all_eq in H. cbn in H.
    destruct cl; cbn in *; try discriminate;
      repeat match type of H with
             | context [match ?x with _ => _ end] =>
                 first [is_var x | unify x (ctx ap)]; let E := fresh "E" in destruct x eqn:E; cbn in H; try discriminate
             end; injection H as <-; cbn; try exact M; destruct ap; exact M.
  - unfold receive in H. cbn in H. destruct cl; try discriminate. injection H as <-.
    destruct c; cbn in *; try exact M; try (destruct ap; exact M).
Qed.
Lemma within_run : forall ls s, steps initial ls = Some s -> within (apc s).
Proof.
  intros ls s. apply (run_inv state label (step program) (fun s => within (apc s)) within_step). exact Logic.I.
Qed.

Definition a_total (p : pc) : nat :=
  let n := length program in
  match p with
  | NotStarted | Done => 0
  | Starting => 20 * n + 21
  | Fetch i => 20 * (n - i) + 20
  | Enter i => 20 * (n - i) + 19 | Look i => 20 * (n - i) + 18 | Flag i _ => 20 * (n - i) + 17
  | Over i => 20 * (n - i) + 16 | Depth i => 20 * (n - i) + 15 | Clear i => 20 * (n - i) + 14
  | Lock i => 20 * (n - i) + 13 | Recheck i => 20 * (n - i) + 12 | Reset i => 20 * (n - i) + 11
  | Unset i => 20 * (n - i) + 10 | Notify i => 20 * (n - i) + 9 | Woken i => 20 * (n - i) + 8
  | Test i => 20 * (n - i) + 7 | Sleep i => 20 * (n - i) + 6 | Relock i => 20 * (n - i) + 6
  | Asleep i => 20 * (n - i) + 5
  | Finish => 3 | Ending => 2 | Leaving => 1
  end.
Definition total (s : state) : nat :=
  10 * c_left (client s) + a_total (apc s) + match broken s with None => 1 | Some _ => 0 end.

Definition disc (p : cpc) : bool :=
  match p with DiscLock | DiscFlag | DiscContinue | DiscCancel | DiscUnlock | DiscNotify | DiscJoin | Gone => true | _ => false end.
Definition settled (p : pc) : bool := match p with NotStarted | Done => true | _ => false end.
Definition quiet_pc (p : pc) : bool := match p with Reset _ | Unset _ | Notify _ | Sleep _ => false | _ => true end.
Definition leaving (s : state) : Prop :=
  mutexes s /\ within (apc s) /\ disc (client s) = true /\
  (c_disc (client s) = true -> quiet_pc (apc s) = true) /\
  (match client s with DiscCancel | DiscUnlock | DiscNotify | DiscJoin | Gone => continue_ s = true | _ => True end) /\
  (match client s with DiscJoin | Gone => is_asleep (apc s) = false | _ => True end) /\
  (broken s = None \/ broken s = Some BadUnlock).
Definition finished (s : state) : Prop := client s = Gone /\ settled (apc s) = true \/ broken s = Some BadUnlock.

Lemma leaving_finishes : forall s, leaving s /\ (client s = Gone -> settled (apc s) = true) -> finished s \/
  ~ stuck s /\ forall l s', thread l = true -> step program s l = Some s' ->
    (leaving s' /\ (client s' = Gone -> settled (apc s') = true)) /\ (total s' < total s)%nat.
Proof.
  intros s ((M & Wi & D & Q & Co & As & B) & Gn). unfold finished.
  destruct B as [B|B]; [|auto].
  assert (F : client s = Gone \/ client s <> Gone) by (destruct (client s); auto; right; discriminate).
  destruct F as [F|F]; [left; left; auto|]. right. clear Gn.
  assert (MS : forall l s', step program s l = Some s' -> mutexes s') by (intros; eapply mutexes_step; eassumption).
  assert (WS : forall l s', step program s l = Some s' -> within (apc s')) by (intros; eapply within_step; eassumption).
  split.
  - intros (K1 & K2). specialize (K2 0%N). clear MS WS. split_state s. unfold mutexes in M. cbn in *. subst br.
    unfold step, analysis, command_step in *. cbn in *.
    destruct M as (M1 & M2 & M3 & M4 & M5 & M6).
    destruct ap; cbn in *; try discriminate;
      try (destruct (nth_error program i) eqn:En; [|apply nth_error_None in En; lia]);
      repeat match type of K1 with
             | context [match ?x with _ => _ end] => let E := fresh "E" in destruct x eqn:E; cbn in K1; try discriminate
             end;
      destruct cl; cbn in *; try discriminate; try congruence;
      repeat match type of K2 with
             | context [match ?x with _ => _ end] => let E := fresh "E" in destruct x eqn:E; cbn in K2; try discriminate
             end; intuition (try discriminate; try congruence).
  - intros l s' T H. specialize (MS l s' H). specialize (WS l s' H). unfold leaving, total.
    split_state s. unfold mutexes in M. cbn in *. subst br. unfold step in H. cbn in H.
    destruct M as (M1 & M2 & M3 & M4 & M5 & M6).
    destruct l; try discriminate.
    + unfold analysis in H. cbn in H.
      destruct ap; cbn in *; try discriminate;
        repeat match type of H with
               | context [match ?x with _ => _ end] => let E := fresh "E" in destruct x eqn:E; cbn in H; try discriminate
               end; injection H as <-; cbn in *;
        (split; [|lia]); (split; [|intros; congruence]);
        (refine (conj MS (conj WS (conj D (conj _ (conj _ (conj _ _)))))));
        try exact Co; try exact As; try (left; reflexivity); try (right; reflexivity); try exact Q; try reflexivity;
        try (destruct cl; auto; fail);
        try (intros Y; specialize (Q Y); discriminate);
        try (intros Y; apply M6 in Y; congruence);
        try (destruct cl; cbn in *; auto; try discriminate; try congruence; intuition (try discriminate; try congruence)).
    + unfold command_step in H. cbn in H. rewrite ?notify_all_eq in H. cbn in H.
      destruct cl; cbn in *; try discriminate; try congruence;
        repeat match type of H with
               | context [match ?x with _ => _ end] => is_var x; let E := fresh "E" in destruct x eqn:E; cbn in H; try discriminate
               end; injection H as <-; cbn in *;
        (split; [|try (destruct ap; cbn; lia)]);
        (split; [|try (intros; reflexivity); try (intros; discriminate)]);
        (refine (conj MS (conj WS (conj eq_refl (conj _ (conj _ (conj _ _)))))));
        try (left; reflexivity); try exact Q; try exact Co; try exact Logic.I; try reflexivity; try (intros; discriminate);
        try (destruct ap; cbn in *; intuition (try discriminate; try congruence); fail).
Qed.

Lemma exits : forall s n, leaving s -> (client s = Gone -> settled (apc s) = true) -> (total s < n)%nat -> inevitable finished n s.
Proof. intros s n L G. apply (inevitable_by program (fun s => leaving s /\ (client s = Gone -> settled (apc s) = true)) finished total leaving_finishes). auto. Qed.

(** However the analysis stands when the client disconnects, it comes to its end. *)
Lemma disconnect_ends : forall ls s s', steps initial ls = Some s -> step program s (Cmd Disconnect) = Some s' ->
  inevitable finished (20 * length program + 100) s'.
Proof.
  intros ls s s' R H. pose proof (mutexes_run program ls s R) as M. pose proof (within_run ls s R) as Wi.
  pose proof (mutexes_step program _ _ _ M H) as M'. pose proof (within_step _ _ _ Wi H) as Wi'.
  unfold step in H. destruct (broken s) eqn:B; [discriminate|]. unfold receive in H.
  destruct (client s) eqn:Cl; try discriminate. injection H as <-.
  apply exits.
  - refine (conj M' (conj Wi' (conj eq_refl (conj _ (conj _ (conj _ _)))))); cbn; auto; discriminate.
  - cbn. discriminate.
  - unfold total. cbn. rewrite B. destruct (apc s); cbn in *; lia.
Qed.


(** ** Disconnecting while the analysis is stopped *)
Definition passing (p : pc) : bool := match p with Fetch _ | Enter _ | Finish | Ending | Leaving => true | _ => false end.
Definition closing (s : state) : Prop :=
  leaving s /\ broken s = None /\
  (match client s with DiscLock | DiscFlag | DiscContinue => continue_ s = false | _ => True end) /\
  (match client s with
   | DiscLock | DiscFlag | DiscContinue => match apc s with Test _ | Sleep _ | Asleep _ | Woken _ => True | _ => False end
   | _ => match apc s with Test _ | Sleep _ | Asleep _ | Woken _ | Relock _ | Done => True
                      | Fetch _ | Enter _ | Finish | Ending | Leaving => vars s = Analysis | _ => False end
   end).
Lemma closing_step : forall s l s', closing s -> (thread l = true -> leaving s') -> thread l = true -> step program s l = Some s' -> closing s'.
Proof.
  intros s l s' (L & B & C & P) L' T H. specialize (L' T). unfold closing. refine (conj L' _). clear L'.
  destruct L as ((M1 & M2 & M3 & M4 & M5 & M6) & _ & D & _).
  split_state s. cbn in *. subst br. unfold step in H. cbn in H.
  destruct l; try discriminate.
  - unfold analysis in H. cbn in H.
    destruct ap; cbn in *; try discriminate; try (destruct cl; contradiction);
      repeat match type of H with
             | context [match ?x with _ => _ end] => let E := fresh "E" in destruct x eqn:E; cbn in H; try discriminate
             end; injection H as <-; cbn in *;
      destruct cl; cbn in *; try discriminate; try contradiction; try congruence;
      intuition (try discriminate; try congruence).
  - unfold command_step in H. cbn in H. rewrite ?notify_all_eq in H. cbn in H.
    destruct cl; cbn in *; try discriminate;
      repeat match type of H with
             | context [match ?x with _ => _ end] => is_var x; let E := fresh "E" in destruct x eqn:E; cbn in H; try discriminate
             end; injection H as <-; cbn in *;
      destruct ap; cbn in *; try contradiction; intuition (try discriminate; try congruence).
Qed.

Definition closed (s : state) : Prop := client s = Gone /\ apc s = Done /\ broken s = None.
Lemma closing_finishes : forall s, closing s /\ (client s = Gone -> settled (apc s) = true) -> closed s \/
  ~ stuck s /\ forall l s', thread l = true -> step program s l = Some s' ->
    (closing s' /\ (client s' = Gone -> settled (apc s') = true)) /\ (total s' < total s)%nat.
Proof.
  intros s (Cl & G). pose proof Cl as (L & B & C & P). destruct (leaving_finishes s (conj L G)) as [[(F1 & F2)|F]|(S1 & S2)].
  - left. unfold closed. refine (conj F1 (conj _ B)). rewrite F1 in P. destruct (apc s); try discriminate; try reflexivity; contradiction.
  - congruence.
  - right. refine (conj S1 _). intros l s' T E. destruct (S2 l s' T E) as ((L' & G') & N').
    refine (conj (conj (closing_step s l s' Cl _ T E) G') N'). auto.
Qed.
Lemma disconnect_closes : forall ls s s', steps initial ls = Some s -> disciplined (log s) -> awaiting (log s) = true ->
  step program s (Cmd Disconnect) = Some s' -> inevitable closed (20 * length program + 100) s'.
Proof.
  intros ls s s' R Di Aw H. pose proof (mutexes_run program ls s R) as M. pose proof (within_run ls s R) as Wi.
  pose proof (mutexes_step program _ _ _ M H) as M'. pose proof (within_step _ _ _ Wi H) as Wi'.
  pose proof (inv_run program ls s R Di) as I.
  unfold step in H. destruct (broken s) eqn:B; [discriminate|]. unfold receive in H.
  destruct (client s) eqn:Cl; try discriminate. injection H as <-.
  destruct I as (_ & _ & I). destruct (I eq_refl) as (_ & _ & _ & Ph).
  apply (inevitable_by program (fun s => closing s /\ (client s = Gone -> settled (apc s) = true)) closed total closing_finishes).
  - refine (conj _ _); [|cbn; discriminate].
    destruct (awaiting_waiting _ _ Ph Aw) as (i & Wa & Wt).
    assert (Co : continue_ s = false) by (destruct Wt as (x & _ & _ & Wt); rewrite Aw in Wt; apply Wt).
    unfold closing. refine (conj _ (conj B (conj Co _))).
    + refine (conj M' (conj Wi' (conj eq_refl (conj _ (conj _ (conj _ _)))))); cbn; auto; discriminate.
    + cbn. destruct (apc s); try discriminate; try exact Logic.I.
  - unfold total. cbn. rewrite B. destruct (apc s); cbn in *; lia.
Qed.

(** ** After the client has disconnected it is told nothing *)
Definition told (e : event) : bool := match e with Stopped _ | Exited => true | _ => false end.
Definition mute_pc (p : pc) : bool := match p with Reset _ | Unset _ | Notify _ => false | _ => true end.
Definition mute (s : state) : Prop := mutexes s /\ (c_disc (client s) = true -> mute_pc (apc s) = true).
Lemma mute_step : forall s l s', mute s -> step program s l = Some s' ->
  mute s' /\ (c_disc (client s) = true -> c_disc (client s') = true /\
              (log s' = log s \/ exists e, told e = false /\ log s' = e :: log s)).
Proof.
  intros s l s' (M & Q) H. pose proof (mutexes_step program _ _ _ M H) as M'. unfold mute. rewrite and_assoc. refine (conj M' _). clear M'.
  destruct M as (M1 & M2 & M3 & M4 & M5 & M6).
  split_state s. cbn in *. unfold step in H. cbn in H. destruct br; [discriminate|].
  destruct l as [ | |d|c].
  - unfold analysis in H. cbn in H.
    destruct ap; cbn in *; try discriminate;
      repeat match type of H with
             | context [match ?x with _ => _ end] => let E := fresh "E" in destruct x eqn:E; cbn in H; try discriminate
             end; injection H as <-; cbn in *; (split; [auto|intros K; split; [exact K|auto]]);
      try (intros K; apply M6 in K; congruence);
      try (right; eexists; split; [|reflexivity]; reflexivity);
      try (specialize (Q K); discriminate);
      try (apply M6 in K; congruence).
    all: try (intros K; destruct cl; cbn in *; intuition (try discriminate; try congruence)).
  - unfold spurious in H. cbn in H. destruct ap; try discriminate. injection H as <-. cbn. auto.
  - unfold command_step in H. cbn in H. rewrite ?notify_all_eq in H. cbn in H.
    destruct cl; cbn in *; try discriminate;
      repeat match type of H with
             | context [match ?x with _ => _ end] =>
                 first [is_var x | unify x (ctx ap)]; let E := fresh "E" in destruct x eqn:E; cbn in H; try discriminate
             end; injection H as <-; cbn in *; (split; [try (intros; discriminate); auto|try (intros; discriminate); auto]).
    all: try (intros _; destruct ap; cbn in *; intuition (try discriminate; try congruence)).
  - unfold receive in H. cbn in H. destruct cl; try discriminate. injection H as <-.
    destruct c; cbn in *; (split; [try (intros; discriminate)|intros; discriminate]); destruct ap; cbn; intros; discriminate.
Qed.

Lemma mute_run : forall ls s, steps initial ls = Some s -> mute s.
Proof.
  intros ls s. apply (run_inv state label (step program) mute).
  - intros s0 l s1 M H. apply (mute_step s0 l s1 M H).
  - split; [apply mutexes_initial|cbn; discriminate].
Qed.
Lemma disconnected_mute : forall ls s ms s', steps initial ls = Some s -> c_disc (client s) = true ->
  steps s ms = Some s' -> exists a, log s' = a ++ log s /\ forall e, In e a -> told e = false.
Proof.
  intros ls s ms s' R C. pose proof (mute_run ls s R) as M. clear R ls. revert s M C. induction ms as [|l ms IH]; cbn; intros s M C H.
  - injection H as <-. exists []. split; [reflexivity|intros e []].
  - destruct (step program s l) as [s1|] eqn:E; [|discriminate].
    destruct (mute_step s l s1 M E) as (M1 & K). destruct (K C) as (C1 & L).
    destruct (IH s1 M1 C1 H) as (a & La & Na).
    destruct L as [L|(e & Te & L)]; rewrite L in La.
    + exists a. auto.
    + exists (a ++ [e]). rewrite <- app_assoc. split; [exact La|]. intros e' [H'|[<-|[]]]%in_app_iff; auto.
Qed.
End Program.
