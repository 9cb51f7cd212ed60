(** What holds under every interleaving, whatever the client does. *)
From Coq Require Import List NArith Bool Lia Arith.
From Verif Require Import Common Lts Dbg_Model Dbg_Spec Dbg_Proof Dbg_Stops.
Import ListNotations.
Open Scope N_scope.

Section Program.
Variable program : list stmt.
Local Notation steps := (run (step program)).
Local Notation at_stmt := (at_stmt program).
Definition never_looked (l : list event) : Prop := forall i, ~ In (Looked i) l.

Definition uncovered (p : list event) (i : nat) : Prop :=
  at_stmt i (fun x => visible x = true /\ ~ covers x (lines_set (since_look p) (file x))).
Definition sound (e : event) (p : list event) : Prop :=
  match e with
  | Looked i => at_stmt i (fun x => visible x = true)
  | Passed i => uncovered p i
  | Stopped i => at_statement p = Some i
  | Viewed (Some i) => at_statement p = Some i
  | Viewed None => never_looked p \/ In Exited p
  | _ => True
  end.
Fixpoint all_sound (l : list event) : Prop := match l with [] => True | e :: p => sound e p /\ all_sound p end.

Definition place (s : state) : Prop :=
  match apc s with
  | NotStarted | Starting => snapshot s = None /\ never_looked (log s)
  | Flag i hit =>
      at_statement (log s) = Some i /\
      at_stmt i (fun x => visible x = true /\ (hit = true <-> covers x (lines_set (since_look (log s)) (file x))))
  | Over i | Depth i => at_statement (log s) = Some i /\ uncovered (log s) i
  | Clear i => at_statement (log s) = Some i
  | Lock i | Recheck i | Reset i | Unset i | Notify i | Test i | Sleep i | Asleep i | Woken i | Relock i =>
      at_statement (log s) = Some i /\ snapshot s = Some i
  | Ending => In Exited (log s) \/ disconnected s = true
  | Leaving | Done => (In Exited (log s) \/ disconnected s = true) /\ debug_ended s = true
  | _ => True
  end.
Definition ended_late (s : state) : Prop := debug_ended s = true -> match apc s with Leaving | Done => True | _ => False end.
Definition general (s : state) : Prop := table s /\ all_sound (log s) /\ place s /\ ended_late s.

(** Events of the client's side. *)
Lemma place_client : forall s s' (e : option event),
  place s -> apc s' = wake (apc s) \/ apc s' = apc s -> snapshot s' = snapshot s ->
  (disconnected s = true -> disconnected s' = true) -> debug_ended s' = debug_ended s ->
  log s' = match e with Some e => e :: log s | None => log s end ->
  match e with Some (Received _) | Some (Viewed _) | None => True | _ => False end ->
  place s'.
Proof.
  intros s s' e P Ea Es Ed Ee El Ek.
  assert (F : at_statement (log s') = at_statement (log s) /\ since_look (log s') = since_look (log s) /\
              (never_looked (log s) -> never_looked (log s')) /\ (In Exited (log s) -> In Exited (log s'))).
  { destruct e as [[]|]; try contradiction; rewrite El; cbn; repeat split; auto;
      intros N j [K|K]; try discriminate; exact (N j K). }
  destruct F as (F1 & F2 & F3 & F4).
  unfold place in *. unfold uncovered in *.
  assert (Ew : forall p, apc s = p -> apc s' = wake p \/ apc s' = p) by (intros p <-; exact Ea).
  destruct (apc s) eqn:A; destruct (Ew _ eq_refl) as [->| ->]; cbn [wake]; rewrite ?F1, ?F2, ?Es, ?Ee; tauto.
Qed.

Lemma general_step : forall s l s', general s -> mutexes s -> step program s l = Some s' -> general s'.
Proof.
  intros s l s' (T & G & P & L) M H. split; [exact (table_step program _ _ _ T H)|].
  unfold step in H. destruct (broken s) eqn:B; [discriminate|].
  destruct l as [ | |d|c].
  - clear M. unfold analysis in H. split_state s. cbn [broken] in B. subst br.
    unfold place in P. cbn [apc log snapshot disconnected debug_ended] in P. unfold ended_late in L. cbn [apc debug_ended] in L.
    cbn [log] in G. unfold table in T. cbn [breakpoints log] in T.
    destruct ap; cbn [apc vars cancel control disconnected stop_on_next step_over step_over_depth continue_ breakpoints] in H; try discriminate.
    + destruct va; try discriminate. injection H as <-. exact (conj G (conj Logic.I L)).
    + destruct ca; [injection H as <-; exact (conj G (conj Logic.I L))|].
      destruct (nth_error program i); injection H as <-; exact (conj G (conj Logic.I L)).
    + injection H as <-. split; [exact G|]. unfold place, ended_late. cbn. destruct di; auto.
    + destruct (nth_error program i) as [x|] eqn:E; [|discriminate].
      destruct (negb (ordinary x) || blank x) eqn:V; injection H as <-.
      * exact (conj G (conj Logic.I L)).
      * assert (Vx : visible x = true) by (unfold visible; destruct (ordinary x), (blank x); try discriminate; reflexivity).
        split; [split; [exists x; auto|exact G]|]. split; [|exact L]. split; [reflexivity|]. exists x. split; [exact E|].
        split; [exact Vx|]. cbn. rewrite <- T. apply breakpoint_hit_covers.
    + injection H as <-. split; [exact G|]. unfold place, ended_late. cbn.
      destruct P as (P1 & x & E & V & Hc). destruct sn; cbn; [auto|]. destruct hit; cbn; [auto|].
      split; [|exact L]. split; [exact P1|]. exists x. repeat split; auto. rewrite <- Hc. discriminate.
    + destruct P as (P1 & P2). destruct so; injection H as <-.
      * exact (conj G (conj (conj P1 P2) L)).
      * refine (conj (conj P2 G) (conj Logic.I L)).
    + destruct (nth_error program i) as [x|] eqn:E; [|discriminate]. destruct P as (P1 & P2).
      destruct (depth x <=? sd); injection H as <-.
      * exact (conj G (conj P1 L)).
      * refine (conj (conj P2 G) (conj Logic.I L)).
    + injection H as <-. exact (conj G (conj (conj P eq_refl) L)).
    + destruct ct; try discriminate. injection H as <-. exact (conj G (conj P L)).
    + destruct di; injection H as <-; [exact (conj G (conj Logic.I L))|exact (conj G (conj P L))].
    + injection H as <-. exact (conj G (conj P L)).
    + injection H as <-. exact (conj G (conj P L)).
    + injection H as <-. destruct P as (P1 & P2). exact (conj (conj P1 G) (conj (conj P1 P2) L)).
    + injection H as <-. split; [exact G|]. unfold place, ended_late. destruct co; cbn; auto.
    + injection H as <-. exact (conj G (conj P L)).
    + destruct ct; try discriminate. injection H as <-. exact (conj G (conj P L)).
    + destruct va; try discriminate. injection H as <-. exact (conj G (conj Logic.I L)).
    + injection H as <-. destruct di.
      * exact (conj G (conj (or_intror eq_refl) L)).
      * refine (conj (conj Logic.I G) (conj _ L)). left. left. reflexivity.
    + injection H as <-. refine (conj G (conj (conj P eq_refl) _)). intros _. exact Logic.I.
    + destruct va; injection H as <-.
      * exact (conj G (conj P L)).
      * refine (conj G (conj P _)). intros _; exact Logic.I.
      * exact (conj G (conj P L)).
  - unfold spurious in H. destruct (apc s) eqn:Ea; try discriminate. injection H as <-. split; [exact G|]. split.
    + eapply (place_client _ _ None) with (1 := P); cbn; rewrite ?Ea; auto.
    + unfold ended_late in *. cbn. rewrite Ea in L. exact L.
  - assert (V : client s = ViewRead -> sound (Viewed (if debug_ended s then None else snapshot s)) (log s)).
    { intros C. destruct M as (_ & _ & M3 & _ & M5 & M6). rewrite C in M3, M6. cbn in M3, M6.
      assert (W : works (apc s) = false).
      { destruct (works (apc s)); [|reflexivity]. destruct (M5 eq_refl) as [K|K].
        - destruct M3 as [_ M3]. rewrite (M3 eq_refl) in K. discriminate.
        - apply M6 in K. discriminate. }
      unfold ended_late in L. unfold place in P. destruct (debug_ended s) eqn:De.
      - specialize (L eq_refl). destruct (apc s); try contradiction; try discriminate.
        destruct P as ([P|P] & _); [right; exact P|]. apply M6 in P. discriminate.
      - destruct (apc s); try discriminate; destruct P as (P1 & P2);
          try (rewrite P1; left; exact P2); try (rewrite P2; exact P1); try discriminate. }
    unfold command_step in H. rewrite ?notify_all_eq in H. unfold ended_late in *.
    assert (U : forall e : option event, forall s1, s' = s1 ->
              (apc s1 = wake (apc s) \/ apc s1 = apc s) -> snapshot s1 = snapshot s ->
              (disconnected s = true -> disconnected s1 = true) -> debug_ended s1 = debug_ended s ->
              log s1 = match e with Some e => e :: log s | None => log s end ->
              match e with Some (Received _) | Some (Viewed _) | None => True | _ => False end ->
              match e with Some e => sound e (log s) | None => True end -> 
              all_sound (log s') /\ place s' /\ (debug_ended s' = true -> match apc s' with Leaving | Done => True | _ => False end)).
    { intros e s1 -> Ea Es Ed Ee El Ek Ev. split; [|split].
      - rewrite El. destruct e; [split; assumption|exact G].
      - eapply place_client; eassumption.
      - rewrite Ee. intro K. specialize (L K). destruct (apc s); try contradiction; destruct Ea as [->| ->]; exact Logic.I. }
    destruct (client s) eqn:Cl; try discriminate;
      repeat match type of H with
             | context [match ?x with _ => _ end] =>
                 first [unify x (control s) | unify x (vars s) | unify x (ctx (apc s)) | unify x (apc s)];
                 let E := fresh "E" in destruct x eqn:E; try discriminate
             end; injection H as <-;
      try (apply (U None _ eq_refl); cbn; auto; fail).
    apply (U (Some (Viewed (if debug_ended s then None else snapshot s))) _ eq_refl); cbn [apc with_client tell snapshot disconnected debug_ended log]; auto.
  - unfold receive in H. destruct (client s) eqn:Cl; try discriminate. injection H as <-.
    unfold ended_late in *.
    destruct c.
    + cbn [apc tell]; destruct (apc s) eqn:Ea;
        try (split; [exact (conj Logic.I G)|]; split;
           [apply (place_client s _ (Some (Received (Launch stop_on_entry)))); auto|cbn; rewrite Ea; exact L]; fail).
      split; [exact (conj Logic.I G)|]. unfold place in P. rewrite Ea in P. destruct P as (P1 & P2). split.
      * unfold place. cbn. split; [exact P1|]. intros j [K|K]; [discriminate|exact (P2 j K)].
      * cbn. exact L.
    + split; [exact (conj Logic.I G)|]; split; [|exact L].
      apply (place_client s _ (Some (Received (Breakpoints source lines)))); auto.
    + split; [exact (conj Logic.I G)|]; split; [|exact L]. apply (place_client s _ (Some (Received Next))); auto.
    + split; [exact (conj Logic.I G)|]; split; [|exact L]. apply (place_client s _ (Some (Received StepIn))); auto.
    + split; [exact (conj Logic.I G)|]; split; [|exact L]. apply (place_client s _ (Some (Received Continue))); auto.
    + split; [exact (conj Logic.I G)|]; split; [|exact L]. apply (place_client s _ (Some (Received View))); auto.
    + split; [exact (conj Logic.I G)|]; split; [|exact L]. apply (place_client s _ (Some (Received Disconnect))); auto.
Qed.

Lemma general_run : forall ls s, steps initial ls = Some s -> general s /\ mutexes s.
Proof.
  intros ls s H.
  apply (run_inv state label (step program) (fun s => general s /\ mutexes s)) with (es := ls) (s := initial) in H; [exact H| |].
  - intros s0 e s1 [I M] E. split; [eapply general_step; eassumption|eapply mutexes_step; eassumption].
  - split; [|apply mutexes_initial]. split; [intro f; reflexivity|]. split; [exact Logic.I|]. split.
    + split; [reflexivity|]. intros i [].
    + intro K. discriminate K.
Qed.
Lemma sound_split : forall a e p, all_sound (a ++ e :: p) -> sound e p.
Proof. induction a; cbn; intros e p H; [apply H|]. apply IHa. apply H. Qed.
Lemma run_sound : forall ls s a e p, steps initial ls = Some s -> log s = a ++ e :: p -> sound e p.
Proof.
  intros ls s a e p H E. destruct (general_run _ _ H) as ((_ & G & _) & _). rewrite E in G. exact (sound_split _ _ _ G).
Qed.
Lemma passed_uncovered : forall ls s a i p, steps initial ls = Some s -> log s = a ++ Passed i :: p ->
  exists x, nth_error program i = Some x /\ visible x = true /\ ~ covers x (lines_set (since_look p) (file x)).
Proof. intros ls s a i p H E. exact (run_sound _ _ _ _ _ H E). Qed.
Lemma looked_visible : forall ls s a i p, steps initial ls = Some s -> log s = a ++ Looked i :: p ->
  exists x, nth_error program i = Some x /\ visible x = true.
Proof. intros ls s a i p H E. exact (run_sound _ _ _ _ _ H E). Qed.
Lemma stopped_at : forall ls s a i p, steps initial ls = Some s -> log s = a ++ Stopped i :: p -> at_statement p = Some i.
Proof. intros ls s a i p H E. exact (run_sound _ _ _ _ _ H E). Qed.
Lemma viewed_at : forall ls s a i p, steps initial ls = Some s -> log s = a ++ Viewed (Some i) :: p -> at_statement p = Some i.
Proof. intros ls s a i p H E. exact (run_sound _ _ _ _ _ H E). Qed.
Lemma viewed_none : forall ls s a p, steps initial ls = Some s -> log s = a ++ Viewed None :: p ->
  (forall i, ~ In (Looked i) p) \/ In Exited p.
Proof. intros ls s a p H E. exact (run_sound _ _ _ _ _ H E). Qed.
Lemma exclusive : forall ls s, steps initial ls = Some s -> client s = ViewRead \/ client s = ViewUnlock -> works (apc s) = false.
Proof.
  intros ls s H C. destruct (general_run _ _ H) as (_ & _ & _ & M3 & _ & M5 & M6).
  destruct (works (apc s)) eqn:W; [|reflexivity]. destruct (M5 eq_refl) as [K|K].
  - assert (V : vars s = Client) by (apply M3; destruct C as [->| ->]; reflexivity). congruence.
  - apply M6 in K. destruct C as [C|C]; rewrite C in K; discriminate.
Qed.
(** A view that is under way does not see the analysis move: it keeps waiting until the view is over. *)
Lemma view_stable : forall ls s s', steps initial ls = Some s -> client s = ViewRead \/ client s = ViewUnlock ->
  step program s A = Some s' -> works (apc s') = false.
Proof.
  intros ls s s' H C St.
  pose proof (exclusive _ _ H C) as W.
  destruct (general_run _ _ H) as (_ & _ & _ & M3 & _ & _ & M6).
  assert (V : vars s = Client) by (apply M3; destruct C as [->| ->]; reflexivity).
  assert (D : disconnected s = false).
  { destruct (disconnected s); [|reflexivity]. destruct C as [C|C]; rewrite C in M6; cbn in M6; destruct M6 as [M6 _]; discriminate (M6 eq_refl). }
  unfold step in St. destruct (broken s); [discriminate|]. unfold analysis in St.
  destruct (apc s); try discriminate; rewrite ?V, ?D in St; try discriminate;
    repeat match type of St with context [match ?x with _ => _ end] => destruct x; try discriminate end;
    injection St as <-; reflexivity.
Qed.
End Program.
