(** C37: branching is bounded and processing ends; C38: where AIF and AGO go. *)
From Coq Require Import List NArith ZArith Bool Lia.
From Coq Require Import ZifyBool ZifyNat ZifyN.
From Verif Require Import Common Var_Proof Br_Model Br_Spec Br_Proof Br_Jump Br_Count.
Import ListNotations.

(** ** C37 *)
(** Whatever the statements, macros and values are, processing ends from every state. *)
Theorem C37_terminates : forall data (macro_of : data -> id -> option (list (stmt data))) st, halts macro_of st.
Proof. exact always_halts. Qed.
Print Assumptions C37_terminates.

Theorem C37_program_ends : forall data (macro_of : data -> id -> option (list (stmt data))) d program,
  exists n, step macro_of (steps macro_of n (initial d program)) = None.
Proof. intros. apply halts_steps, always_halts. Qed.
Print Assumptions C37_program_ends.

(** In every scope, at most v + 1 jumps are taken after the counter was set to v (4096 at first). *)
Theorem C37_limit : forall data (macro_of : data -> id -> option (list (stmt data))) d program n depth,
  (Z.of_nat (fst (since depth (log (steps macro_of n (initial d program)))))
   <= Z.max 0 (snd (since depth (log (steps macro_of n (initial d program)))) + 1))%Z.
Proof. intros data macro_of d program n. exact (proj2 (good_steps data macro_of n d program)). Qed.
Print Assumptions C37_limit.

(** The counter of the running scope is the value it was set to less the jumps taken since, in
    this scope alone. *)
Theorem C37_counter : forall data (macro_of : data -> id -> option (list (stmt data))) d program n,
  let st := steps macro_of n (initial d program) in
  let (k, v) := since (length (stack st)) (log st) in
  counter (current st) = (v - Z.of_nat k)%Z.
Proof.
  intros data macro_of d program n st. destruct (good_steps data macro_of n d program) as (C & _). fold st in C.
  pose proof (full_length data st) as HL. rewrite full_current in C, HL. cbn [length counted] in C, HL.
  replace (length (tl (full data st))) with (length (stack st)) in C by lia.
  destruct (since (length (stack st)) (log st)) as [k v]. apply C.
Qed.
Print Assumptions C37_counter.

(** When the counter is used up, the macro is left (in open code, processing ends) with E056. *)
Theorem C37_exhausted : forall data (macro_of : data -> id -> option (list (stmt data))) st s,
  finished st = false -> nth_error (body (current st)) (next (current st)) = Some s ->
  (length (stack st) < 100)%nat -> (counter (current st) < 0)%Z ->
  exists st', step macro_of st = Some st' /\ log st' = Diag E056 :: log st /\ store st' = store st
  /\ match stack st with [] => finished st' = true | _ :: r => stack st' = r /\ base st' = base st /\ finished st' = false end.
Proof.
  intros data macro_of st s Hf Hs Hl Hc. unfold step. rewrite Hf, Hs. eexists. split; [reflexivity|].
  unfold process_statement. rewrite stack_set_current, current_set_current. cbn [counter fetched].
  destruct (Nat.ltb_spec NEST_LIMIT (S (length (stack st)))) as [G|_]; [unfold NEST_LIMIT in G; lia|].
  destruct (Z.ltb_spec (counter (current st)) 0); [|lia]. unfold set_current. destruct (stack st) eqn:E; cbn; auto.
Qed.
Print Assumptions C37_exhausted.

(** Macro calls are never nested deeper than 100 levels; a call beyond is given up. *)
Theorem C37_nesting : forall data (macro_of : data -> id -> option (list (stmt data))) d program n,
  (length (stack (steps macro_of n (initial d program))) <= 100)%nat.
Proof.
  intros data macro_of d program n. induction n as [|n IH]; [cbn; lia|]. rewrite steps_S.
  destruct (step macro_of _) as [st'|] eqn:E; [exact (nest_step data macro_of _ _ IH E)|exact IH].
Qed.
Print Assumptions C37_nesting.

(** ** C38 *)
(** Inside a macro always; in open code for programs whose labels are on statements that register
    them. *)
Definition sound {data} (macro_of : data -> id -> option (list (stmt data))) (st : state data) : Prop :=
  stack st <> [] \/ exists program n d, registered_labels program /\ st = steps macro_of n (initial d program).

Lemma sound_jump data macro_of (st : state data) s t : sound macro_of st -> proceeds st s ->
  match operation s with Ago _ | Aif _ => True | _ => False end ->
  branches st t (jump_in_statements (register (set_current st (fetched (current st))) s) t).
Proof.
  intros [H|(program & n & d & HR & E)] HP Ho.
  - apply (jumps_branches data st s t _ HP). pose proof HP as (H1 & _).
    set (st1 := set_current st (fetched (current st))). pose proof (quiet_register data st1 s) as (_ & _ & Q3 & Q4 & _).
    assert (finished st1 = false) by (unfold st1; rewrite finished_set_current; exact H1).
    destruct (stack (register st1 s)) as [|s1 r] eqn:Es.
    + exfalso. apply H. apply length_zero_iff_nil. rewrite <- (stack_set_current data st (fetched (current st))). fold st1.
      rewrite <- Q3. reflexivity.
    + refine (jump_macro data macro_of _ _ s1 r Es _). congruence.
  - exact (jump_from_fetched data macro_of program n d st s t HR E HP Ho).
Qed.

Theorem C38_aif : forall data (macro_of : data -> id -> option (list (stmt data))) st s ops,
  sound macro_of st -> proceeds st s -> operation s = Aif ops -> aif_form ops ->
  exists st', step macro_of st = Some st'
  /\ (forall t, aif_takes ops (store st) t -> branches st t st')
  /\ ((forall e t, In (OBranch e t) ops -> e (store st) = false) -> falls_through st st').
Proof.
  intros data macro_of st s ops HS HP Ho HF. rewrite (step_proceeds data macro_of st s HP). eexists. split; [reflexivity|].
  set (st1 := set_current st (fetched (current st))).
  pose proof (quiet_register data st1 s) as Q.
  assert (Hst : store (register st1 s) = store st).
  { destruct Q as (-> & _). unfold st1, set_current. destruct (stack st); reflexivity. }
  unfold execute. rewrite Ho. unfold process_AIF. rewrite Hst.
  assert (HP2 : prepare_AIF ops (store st) = aif_operands ops (store st) None false).
  { destruct HF as (bs & tail & -> & Hb & _). destruct bs; [contradiction|reflexivity]. }
  rewrite HP2. pose proof (aif_scan data (store st) ops None false) as A.
  destruct (aif_operands ops (store st) None false) as [e|r].
  - exfalso. apply A. destruct HF as (bs & tail & H1 & H2 & H3 & H4). exists bs, tail. auto.
  - destruct A as (_ & A). split.
    + intros t Ht. destruct r as [u|].
      * assert (t = u) as ->.
        { apply (aif_takes_unique data ops (store st)); [|exact Ht|exact A].
          destruct HF as (bs & tail & -> & _ & HB & HT). apply Forall_app. split; [eapply Forall_impl; [|exact HB]; auto|].
          destruct HT as [->| ->]; [constructor|constructor; [right; reflexivity|constructor]]. }
        apply (sound_jump data macro_of); [exact HS|exact HP|rewrite Ho; exact Logic.I].
      * destruct Ht as (l1 & e & l2 & E1 & E2 & _). rewrite (A e t) in E2; [discriminate|]. rewrite E1. apply in_or_app. right. left. reflexivity.
    + intros HN. destruct r as [u|].
      * destruct A as (l1 & e & l2 & E1 & E2 & _). rewrite (HN e u) in E2; [discriminate|]. rewrite E1. apply in_or_app. right. left. reflexivity.
      * apply (quiet_falls data st s _ HP). exact Q.
Qed.
Print Assumptions C38_aif.

(** Any other operand list is an error and control goes on with the next statement. *)
Theorem C38_aif_error : forall data (macro_of : data -> id -> option (list (stmt data))) st s ops,
  proceeds st s -> operation s = Aif ops -> ~ aif_form ops ->
  exists st', step macro_of st = Some st' /\ falls_through st st'
  /\ exists r, log st' = Diag E010 :: r \/ log st' = Diag E022 :: r.
Proof.
  intros data macro_of st s ops HP Ho HF. rewrite (step_proceeds data macro_of st s HP). eexists. split; [reflexivity|].
  set (st1 := set_current st (fetched (current st))). pose proof (quiet_register data st1 s) as Q.
  unfold execute. rewrite Ho. unfold process_AIF, prepare_AIF.
  assert (X : exists e, (e = E010 \/ e = E022) /\ match ops with [] => inl (Some E022) | _ => aif_operands ops (store (register st1 s)) None false end = inl (Some e)).
  { destruct ops as [|o ops]; [exists E022; auto|].
    pose proof (aif_scan data (store (register st1 s)) (o :: ops) None false) as A.
    assert (Y : forall ops acc has e, aif_operands (data := data) ops (store (register st1 s)) acc has = inl e -> e = Some E010 \/ e = Some E022).
    { clear. induction ops as [|o ops IH]; intros acc has e H; cbn [aif_operands] in H; [destruct has; [discriminate|injection H as <-; auto]|].
      destruct o as [|t|e' t|]; try (injection H as <-; auto; fail); [|eapply IH; exact H].
      destruct ops; [eapply IH; exact H|injection H as <-; auto]. }
    destruct (aif_operands (o :: ops) (store (register st1 s)) None false) as [e|r] eqn:E.
    - destruct (Y _ _ _ _ E) as [-> | ->]; eexists; (split; [|reflexivity]); auto.
    - exfalso. apply HF. destruct A as ((bs & tail & H1 & [H2|H2] & H3 & H4) & _); [discriminate|]. exists bs, tail. auto. }
  destruct X as (e & He & ->). cbn [complain]. split.
  - apply (quiet_falls data st s _ HP). eapply quiet_trans; [exact Q|apply quiet_tell].
  - exists (log (register st1 s)). cbn [log tell]. destruct He as [-> | ->]; auto.
Qed.
Print Assumptions C38_aif_error.

Theorem C38_ago : forall data (macro_of : data -> id -> option (list (stmt data))) st s ops e ts,
  sound macro_of st -> proceeds st s -> operation s = Ago ops -> ago_form ops e ts ->
  exists st', step macro_of st = Some st'
  /\ (forall k t, e (store st) = Z.of_nat (S k) -> nth_error ts k = Some t -> branches st t st')
  /\ ((e (store st) <= 0 \/ Z.of_nat (length ts) < e (store st))%Z -> falls_through st st').
Proof.
  intros data macro_of st s ops e ts HS HP Ho HF. rewrite (step_proceeds data macro_of st s HP). eexists. split; [reflexivity|].
  set (st1 := set_current st (fetched (current st))). pose proof (quiet_register data st1 s) as Q.
  assert (Hst : store (register st1 s) = store st).
  { destruct Q as (-> & _). unfold st1, set_current. destruct (stack st); reflexivity. }
  unfold execute. rewrite Ho. unfold process_AGO. rewrite Hst, (prepare_AGO_form data ops e ts (store st) HF).
  split.
  - intros k t Hk Ht. assert (k < length ts)%nat by (apply nth_error_Some; congruence).
    destruct (Z.ltb_spec 0 (e (store st))); [|lia]. destruct (Z.leb_spec (e (store st)) (Z.of_nat (length ts))); [|lia]. cbn [andb].
    replace (Z.to_nat (e (store st) - 1)) with k by lia. rewrite Ht.
    apply (sound_jump data macro_of); [exact HS|exact HP|rewrite Ho; exact Logic.I].
  - intros H. destruct (Z.ltb_spec 0 (e (store st))); destruct (Z.leb_spec (e (store st)) (Z.of_nat (length ts))); cbn [andb];
      try (apply (quiet_falls data st s _ HP); exact Q). lia.
Qed.
Print Assumptions C38_ago.

(** Any other operand list takes no jump. *)
Theorem C38_ago_error : forall data (macro_of : data -> id -> option (list (stmt data))) st s ops,
  proceeds st s -> operation s = Ago ops -> (forall e ts, ~ ago_form ops e ts) ->
  exists st', step macro_of st = Some st' /\ falls_through st st'.
Proof.
  intros data macro_of st s ops HP Ho HF. rewrite (step_proceeds data macro_of st s HP). eexists. split; [reflexivity|].
  set (st1 := set_current st (fetched (current st))). pose proof (quiet_register data st1 s) as Q.
  unfold execute. rewrite Ho. unfold process_AGO.
  destruct (prepare_AGO ops (store (register st1 s))) as [e|[k ts]] eqn:E.
  - apply (quiet_falls data st s _ HP). eapply quiet_trans; [exact Q|apply quiet_complain].
  - destruct (prepare_AGO_inv data _ _ _ _ E) as (e & He & _). destruct (HF e ts He).
Qed.
Print Assumptions C38_ago_error.

Section Examples.
Let A : id := [65%N]. Let B : id := [66%N]. Let M : id := [77%N].
Let plain : op Z := Plain true (fun x => (x + 1)%Z).
Let st (l : option id) (o : op Z) : stmt Z := {| label := l; operation := o |}.
Let mac (b : list (stmt Z)) (d : Z) (n : id) : option (list (stmt Z)) := if bytes_eqb n M then Some b else None.

(** .A plain; AIF (value < 3).A: three rounds. *)
Let loop : list (stmt Z) := [st (Some A) plain; st None (Aif [OBranch (fun x => (x <? 3)%Z) A])].
Example C38_case :
  let s := steps (mac []) 1 (initial 0%Z loop) in
  sound (mac []) s /\ proceeds s (st None (Aif [OBranch (fun x => (x <? 3)%Z) A]))
  /\ aif_form [OBranch (fun x => (x <? 3)%Z) A] /\ aif_takes [OBranch (fun x => (x <? 3)%Z) A] (store s) A.
Proof.
  cbn zeta. split; [right; exists loop, 1%nat, 0%Z; split; [|reflexivity]|].
  - intros s t [<-|[<-|[]]]; cbn; auto.
  - split; [refine (conj eq_refl (conj eq_refl (conj _ (conj _ _)))); cbn; lia|]. split.
    + eexists _, []. rewrite app_nil_r. split; [reflexivity|]. split; [discriminate|]. split; [|auto].
      constructor; [eexists _, _; reflexivity|constructor].
    + exists [], (fun x => (x <? 3)%Z), []. split; [reflexivity|]. split; [reflexivity|]. intros e t [].
Qed.
Example C37_case : store (steps (mac []) 6 (initial 0%Z loop)) = 3%Z /\ step (mac []) (steps (mac []) 6 (initial 0%Z loop)) = None.
Proof. split; reflexivity. Qed.
(** An endless loop ends after 4097 jumps. *)
Example C37_endless : 
  let s := steps (mac []) 8196 (initial 0%Z [st (Some A) plain; st None (Ago [OSeq A])]) in
  hd_error (log s) = Some (Diag E056) /\ fst (since 0 (log s)) = 4097%nat /\ step (mac []) s = None.
Proof. vm_compute. auto. Qed.
(** A computed AGO with a forward label in open code. *)
Example C38_ago_case :
  let p := [st None (Ago [OBranch (fun x => x) A; OSeq B]); st None plain; st (Some A) plain; st (Some B) plain] in
  next (base (steps (mac []) 1 (initial 2%Z p))) = 3%nat /\ next (base (steps (mac []) 1 (initial 3%Z p))) = 1%nat.
Proof. split; reflexivity. Qed.
Example C38_ago_form_case : ago_form [OBranch (fun x : Z => x) A; OSeq B] (fun x => x) [A; B].
Proof. exact (ago_computed Z (fun x => x) A [B]). Qed.

(** A label on a macro call in open code is not registered: jumping back to it is an error. *)
Theorem C38_label_refuted : exists (program : list (stmt Z)) macro_of n s t,
  let st := steps macro_of n (initial 0%Z program) in
  proceeds st s /\ operation s = Ago [OSeq t] /\ labelled program 0 t
  /\ exists st', step macro_of st = Some st' /\ hd_error (log st') = Some (Missing 0 1 t).
Proof.
  exists [st (Some A) (Call M (fun x => x)); st None (Ago [OSeq A])], (mac []), 2%nat. eexists _, A. cbn zeta.
  split; [refine (conj eq_refl (conj eq_refl (conj _ (conj _ _)))); cbn; lia|]. split; [reflexivity|]. split; [eexists; split; reflexivity|].
  eexists. split; reflexivity.
Qed.
Print Assumptions C38_label_refuted.
End Examples.
