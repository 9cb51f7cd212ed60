From Coq Require Import List NArith ZArith Bool Lia Arith.
From Verif Require Import Common Json Lsp_Model Lsp_Spec.
Import ListNotations.

Lemma beq_refl : forall k, bytes_eqb k k = true.
Proof. intros. now apply bytes_eqb_eq. Qed.
Lemma beq_false : forall a b, bytes_eqb a b = false <-> a <> b.
Proof.
  intros. split.
  - intros H ->. now rewrite beq_refl in H.
  - intros H. destruct (bytes_eqb a b) eqn:E; [|easy]. apply bytes_eqb_eq in E. easy.
Qed.

Lemma assoc_remove_same : forall A k (l : list (bytes * A)), assoc k (remove_key k l) = None.
Proof.
  induction l as [|[k' v] l IH]; simpl; [easy|].
  destruct (bytes_eqb k k') eqn:E; [easy|]. simpl. now rewrite E.
Qed.
Lemma assoc_remove_other : forall A k k' (l : list (bytes * A)), k' <> k ->
  assoc k' (remove_key k l) = assoc k' l.
Proof.
  induction l as [|[k2 v] l IH]; simpl; intros H; [easy|].
  destruct (bytes_eqb k k2) eqn:E.
  - apply bytes_eqb_eq in E. subst. rewrite IH by easy.
    destruct (bytes_eqb k' k2) eqn:E2; [|easy]. apply bytes_eqb_eq in E2. easy.
  - simpl. destruct (bytes_eqb k' k2); [easy|]. now apply IH.
Qed.

Lemma requests_sent_app : forall k a b, requests_sent k (a ++ b) = requests_sent k a + requests_sent k b.
Proof. induction a as [|[| |] a IH]; simpl; intros; rewrite ?IH; lia. Qed.
Lemma response_ids_app : forall a b, response_ids (a ++ b) = response_ids a ++ response_ids b.
Proof. induction a as [|[| |] a IH]; simpl; intros; rewrite ?IH; easy. Qed.
Lemma times_app : forall k a b, times k (a ++ b) = times k a + times k b.
Proof. induction a as [|x a IH]; simpl; intros; rewrite ?IH; lia. Qed.

(** A handler in the table stands for a request that was sent and not answered. *)
Definition has (k : bytes) (s : srv) : nat := match assoc k (hands s) with Some _ => 1 | None => 0 end.
Definition hinv (s : srv) : Prop := forall k, times k (ran s) + has k s <= requests_sent k (sent s).

Lemma hinv_say : forall o s, (forall k m, o <> ORequest k m) -> hinv s -> hinv (say o s).
Proof.
  intros o s Ho H k. specialize (H k). unfold say, has in *. simpl. rewrite requests_sent_app.
  destruct o; simpl; lia.
Qed.
Lemma hinv_req : forall id m h s, hinv s -> hinv (send_request id m h s).
Proof.
  intros id m h s H k. specialize (H k). unfold send_request, has in *. simpl.
  rewrite requests_sent_app. simpl.
  destruct (assoc id (hands s)) eqn:E; [lia|]. simpl.
  destruct (bytes_eqb k id) eqn:E2; [|lia].
  apply bytes_eqb_eq in E2. subst. rewrite E in H. lia.
Qed.
Lemma hinv_conf : forall s, hinv s -> hinv (send_configuration_request s).
Proof. intros s H. exact (hinv_req (config_id (nconf s)) (s2b "workspace/configuration") HConfiguration s H). Qed.
Lemma hinv_notes : forall ns s, hinv s -> hinv (fold_left (fun s n => say (ONotify n) s) ns s).
Proof. induction ns as [|n ns IH]; simpl; intros; [easy|]. apply IH, hinv_say; [easy|assumption]. Qed.

Section P.
  Variable answer : bytes -> json -> res json.
  Variable sync : bytes -> json -> list bytes * res unit.
  Variable init_rest : json -> res unit.
  Notation call := (call_method answer sync init_rest).
  Notation recv := (message_received answer sync init_rest).
  Notation serve := (serve answer sync init_rest).

  Ltac dm H := match type of H with
    | context [match ?x with _ => _ end] => destruct x eqn:?; try discriminate H
    end.

  Lemma call_hinv : forall m id p s s', hinv s -> call m id p s = Done s' -> hinv s'.
  Proof.
    intros m id p s s' H R. unfold call_method in R.
    repeat dm R; injection R as <-; auto using hinv_conf, hinv_notes;
      try (apply hinv_say; [easy|assumption]);
      try (apply hinv_conf, hinv_req, hinv_say; [easy|assumption]).
  Qed.

  Lemma recv_hinv : forall j s s', hinv s -> recv j s = Done s' -> hinv s'.
  Proof.
    intros j s s' H R. unfold message_received in R.
    repeat dm R; try (injection R as <-; assumption); try (now apply call_hinv in R).
    all: injection R as <-; intros k; specialize (H k); unfold has in *; simpl; rewrite times_app; simpl;
      destruct (bytes_eqb k _) eqn:E.
    all: try (apply bytes_eqb_eq in E; subst; rewrite assoc_remove_same;
      match goal with A : assoc _ _ = Some _ |- _ => rewrite A in H end; lia).
    all: apply beq_false in E; rewrite assoc_remove_other by assumption; lia.
  Qed.

  Lemma serve_ind : forall (P : srv -> Prop),
    (forall j s s', P s -> recv j s = Done s' -> P s') ->
    forall js s s', P s -> serve js s = Done s' -> P s'.
  Proof.
    intros P Hs. induction js as [|j js IH]; simpl; intros s s' H R.
    - now injection R as <-.
    - destruct (recv j s) eqn:E; try discriminate. eapply IH; [|exact R]. eauto.
  Qed.

  Lemma handler_bound : forall js s, serve js srv0 = Done s ->
    forall k, times k (ran s) <= requests_sent k (sent s).
  Proof.
    intros js s R k. assert (H : hinv s).
    { refine (serve_ind hinv _ js srv0 s _ R); [intros; eapply recv_hinv; eauto|].
      intros k'. cbn. lia. }
    specialize (H k). lia.
  Qed.

  (** Configuration request ids are never reused. *)
  Definition cinv (s : srv) : Prop :=
    forall n, requests_sent (config_id n) (sent s) = if (n <? nconf s)%N then 1 else 0.
  Lemma config_id_inj : forall a b, config_id a = config_id b -> a = b.
  Proof.
    intros a b H. unfold config_id in H. apply app_inv_head in H.
    rewrite <- (dec_value a), <- (dec_value b). congruence.
  Qed.
  Lemma cinv_say : forall o s, (forall k m, o <> ORequest k m) -> cinv s -> cinv (say o s).
  Proof.
    intros o s Ho H k. specialize (H k). unfold say in *. simpl. rewrite requests_sent_app.
    destruct o; simpl; rewrite ?Nat.add_0_r; try exact H. now destruct (Ho id meth).
  Qed.
  Lemma cinv_conf : forall s, cinv s -> cinv (send_configuration_request s).
  Proof.
    intros s H n. specialize (H n). unfold send_configuration_request, send_request.
    cbn [nconf sent]. rewrite requests_sent_app. cbn [requests_sent]. rewrite H.
    destruct (bytes_eqb (config_id n) (config_id (nconf s))) eqn:E.
    - apply bytes_eqb_eq, config_id_inj in E. subst.
      rewrite N.ltb_irrefl. replace (nconf s <? nconf s + 1)%N with true; [easy|].
      symmetry. apply N.ltb_lt. lia.
    - assert (n <> nconf s) by (intros ->; rewrite beq_refl in E; discriminate).
      destruct (n <? nconf s)%N eqn:E1, (n <? nconf s + 1)%N eqn:E2; try easy;
        rewrite ?N.ltb_lt, ?N.ltb_ge in *; lia.
  Qed.
  Lemma cinv_notes : forall ns s, cinv s -> cinv (fold_left (fun s n => say (ONotify n) s) ns s).
  Proof. induction ns as [|n ns IH]; simpl; intros; [easy|]. apply IH, cinv_say; [easy|assumption]. Qed.

  Lemma cinv_reg : forall s, cinv s ->
    cinv (send_request (s2b "register1") (s2b "client/registerCapability") HEmpty s).
  Proof.
    intros s H n. specialize (H n). unfold send_request. cbn [nconf sent].
    rewrite requests_sent_app. cbn [requests_sent].
    replace (bytes_eqb (config_id n) (s2b "register1")) with false by reflexivity. rewrite H. lia.
  Qed.

  Lemma call_cinv : forall m id p s s', cinv s -> call m id p s = Done s' -> cinv s'.
  Proof.
    intros m id p s s' H R. unfold call_method in R.
    repeat dm R; injection R as <-; auto using cinv_conf, cinv_notes;
      try (apply cinv_say; [easy|assumption]);
      try (apply cinv_conf, cinv_reg, cinv_say; [easy|assumption]).
  Qed.

  Lemma recv_cinv : forall j s s', cinv s -> recv j s = Done s' -> cinv s'.
  Proof.
    intros j s s' H R. unfold message_received in R.
    repeat dm R; try (injection R as <-; assumption); try (now apply call_cinv in R).
  Qed.

  Lemma config_once : forall js s, serve js srv0 = Done s ->
    forall n, times (config_id n) (ran s) <= 1.
  Proof.
    intros js s R n. pose proof (handler_bound js s R (config_id n)).
    assert (C : cinv s).
    { refine (serve_ind cinv _ js srv0 s _ R); [intros; eapply recv_cinv; eauto|].
      intros k. cbn. now destruct k. }
    specialize (C n). destruct (n <? nconf s)%N; lia.
  Qed.

  (** Responses. *)
  Lemma notes_ids : forall ns s,
    response_ids (sent (fold_left (fun s n => say (ONotify n) s) ns s)) = response_ids (sent s).
  Proof.
    induction ns as [|n ns IH]; simpl; intros; [easy|]. rewrite IH. simpl.
    rewrite response_ids_app. simpl. apply app_nil_r.
  Qed.

  Lemma mem_spec : forall m l, mem m l = true <-> In m l.
  Proof.
    intros. unfold mem. rewrite existsb_exists. split.
    - intros (x & I & E). apply bytes_eqb_eq in E. now subst.
    - intros I. exists m. split; [exact I|apply beq_refl].
  Qed.

  Lemma recv_ids : forall j s s', notification_only j -> recv j s = Done s' ->
    response_ids (sent s') = response_ids (sent s) ++ (if servable answer j then [id_of j] else []).
  Proof.
    intros j s s' NO R. unfold message_received in R. unfold servable, request_of.
    destruct (jfind (s2b "result") j) as [rs|] eqn:Er.
    { rewrite app_nil_r. repeat dm R; injection R as <-; reflexivity. }
    destruct (jfind (s2b "error") j) as [er|] eqn:Ee.
    { rewrite app_nil_r. repeat dm R; injection R as <-; reflexivity. }
    destruct (jfind (s2b "params") j) as [p|] eqn:Ep.
    2:{ injection R as <-. destruct (jfind (s2b "id") j), (jfind (s2b "method") j) as [[]|];
        now rewrite app_nil_r. }
    destruct (jfind (s2b "method") j) as [mm|] eqn:Em.
    2:{ injection R as <-. destruct (jfind (s2b "id") j); now rewrite app_nil_r. }
    destruct mm as [| | |m| |]; cbn [get_string] in R;
      try (injection R as <-; destruct (jfind (s2b "id") j); now rewrite app_nil_r).
    set (idv := match jfind (s2b "id") j with Some i => i | None => JStr [] end) in R.
    assert (K : forall (Q : bool), Q = (mem m (m_initialize :: m_shutdown :: query_methods)) ->
              (if Q then id_of j = idv /\ jfind (s2b "id") j <> None else True)).
    { intros Q ->. destruct (mem m (m_initialize :: m_shutdown :: query_methods)) eqn:Q; [|easy].
      unfold id_of, idv. destruct (jfind (s2b "id") j) eqn:Ei; [easy|].
      specialize (NO Ei m Em). congruence. }
    specialize (K _ eq_refl).
    unfold call_method in R.
    destruct (bytes_eqb m m_initialize) eqn:E1.
    { apply bytes_eqb_eq in E1. subst m. cbn [mem existsb] in *. rewrite beq_refl in *. cbn [orb] in *.
      destruct K as [-> K]. destruct (jfind (s2b "id") j); [|easy].
      repeat dm R; injection R as <-; unfold send_configuration_request, send_request, say; cbn [sent];
        rewrite !response_ids_app; cbn [response_ids]; now rewrite !app_nil_r. }
    destruct (bytes_eqb m m_shutdown) eqn:E2.
    { apply bytes_eqb_eq in E2. subst m. cbn [mem existsb] in *. rewrite beq_refl in *. rewrite orb_true_r in *. cbn [orb] in *.
      destruct K as [-> K]. destruct (jfind (s2b "id") j); [|easy].
      injection R as <-. cbn [say sent]. now rewrite response_ids_app. }
    assert (M1 : mem m [m_initialize; m_shutdown] = false).
    { cbn [mem existsb]. now rewrite E1, E2. }
    destruct (bytes_eqb m m_exit) eqn:E3.
    { apply bytes_eqb_eq in E3. subst m. injection R as <-.
      destruct (jfind (s2b "id") j); rewrite ?M1, ?E5; cbn [orb andb]; now rewrite app_nil_r. }
    destruct (bytes_eqb m m_config_changed) eqn:E4.
    { apply bytes_eqb_eq in E4. subst m. injection R as <-.
      unfold send_configuration_request, send_request. cbn [sent]. rewrite response_ids_app. cbn [response_ids].
      destruct (jfind (s2b "id") j); rewrite ?M1; cbn [orb andb]; now rewrite !app_nil_r. }
    destruct (mem m query_methods) eqn:E5.
    { assert (Q : mem m (m_initialize :: m_shutdown :: query_methods) = true).
      { unfold mem in *. cbn [existsb]. rewrite E5. now rewrite !orb_true_r. }
      rewrite Q in K. destruct K as [-> K]. destruct (jfind (s2b "id") j); [|easy]. rewrite M1, E5. cbn [orb].
      destruct (answer m p); cbn [andb]; try discriminate; injection R as <-;
        [cbn [say sent]; now rewrite response_ids_app|now rewrite app_nil_r]. }
    replace (response_ids (sent s')) with (response_ids (sent s)).
    { destruct (jfind (s2b "id") j); rewrite ?M1, ?E5; cbn [orb andb]; now rewrite app_nil_r. }
    destruct (mem m sync_methods).
    - destruct (sync m p) as [ns [| |]]; try discriminate; injection R as <-; now rewrite notes_ids.
    - now injection R as <-.
  Qed.

  Lemma serve_ids : forall js s s', Forall notification_only js -> serve js s = Done s' ->
    response_ids (sent s') = response_ids (sent s) ++ map id_of (filter (servable answer) js).
  Proof.
    induction js as [|j js IH]; simpl; intros s s' F R.
    - injection R as <-. now rewrite app_nil_r.
    - inversion F; subst. destruct (recv j s) as [s1| |] eqn:E; try discriminate.
      rewrite (IH _ _ H2 R), (recv_ids _ _ _ H1 E), <- app_assoc.
      destruct (servable answer j); reflexivity.
  Qed.

  (** No crash for protocol-conforming input. *)
  Lemma good_config_ok : forall h r, good_config r -> run_handler h r = Ret tt.
  Proof.
    intros [|] r G; [easy|]. unfold run_handler.
    destruct r as [| | | |l|l]; unfold good_config in G; try easy.
    destruct l as [|c l]; [easy|]. cbn [jsize length Nat.eqb jindex_0 bind].
    destruct (jfind (s2b "diagnosticsSuppressLimit") c) as [[| | | | |]|]; easy.
  Qed.


  Hypothesis A_ok : forall m p, answer m p <> Undef.
  Hypothesis S_ok : forall m p, snd (sync m p) <> Undef.
  Hypothesis I_ok : forall p, init_rest p <> Undef.

  Lemma recv_total : forall j s, well_formed j -> exists s', recv j s = Done s'.
  Proof.
    intros j s (W1 & W2 & W3). unfold message_received.
    destruct (jfind (s2b "result") j) as [r|] eqn:Er.
    { destruct (jfind (s2b "id") j) as [[| | |k| |]|]; eauto.
      destruct (assoc k (hands s)); eauto. rewrite good_config_ok by auto. eauto. }
    destruct (jfind (s2b "error") j) as [e|] eqn:Ee.
    { specialize (W1 e eq_refl).
      destruct (jfind (s2b "message") e), (jfind (s2b "id") j); eauto. now destruct W1. }
    destruct (jfind (s2b "params") j) as [p|] eqn:Ep; [|eauto].
    destruct (jfind (s2b "method") j) as [[| | |m| |]|] eqn:Em; cbn [get_string]; eauto.
    unfold call_method.
    destruct (bytes_eqb m m_initialize) eqn:E1.
    { apply bytes_eqb_eq in E1. subst. specialize (W3 p eq_refl eq_refl).
      destruct p as [| | | | |l]; cbn in W3; try easy. cbn [jindex_const].
      destruct (assoc _ l); [|easy]. cbn [bind]. destruct (init_rest (JObj l)) eqn:I; eauto. now apply I_ok in I. }
    destruct (bytes_eqb m m_shutdown); eauto. destruct (bytes_eqb m m_exit); eauto.
    destruct (bytes_eqb m m_config_changed); eauto.
    destruct (mem m query_methods).
    { destruct (answer m p) eqn:A; eauto. now apply A_ok in A. }
    destruct (mem m sync_methods); eauto.
    destruct (sync m p) as [ns r] eqn:Y. pose proof (S_ok m p) as Q. rewrite Y in Q.
    destruct r; eauto. now destruct Q.
  Qed.

  Lemma serve_total : forall js s, Forall well_formed js -> exists s', serve js s = Done s'.
  Proof.
    induction js as [|j js IH]; simpl; intros s F; [eauto|].
    inversion F; subst. destruct (recv_total j s H1) as [s1 E]. rewrite E. auto.
  Qed.
End P.
