(** Which messages the LSP server answers, and which take it down - exactly. *)
From Coq Require Import List NArith ZArith Bool Lia Arith.
From Verif Require Import Common Json Lsp_Model Lsp_Spec Lsp_Proof.
Import ListNotations.

Section P.
  Variable answer : bytes -> json -> res json.
  Variable sync : bytes -> json -> list bytes * res unit.
  Variable init_rest : json -> res unit.
  Notation call := (call_method answer sync init_rest).
  Notation recv := (message_received answer sync init_rest).
  Notation serve := (serve answer sync init_rest).

  Ltac dm H := match type of H with
    | context [match ?x with _ => _ end] => destruct x eqn:?; try discriminate H
    end.

  Lemma recv_replies : forall j s s', recv j s = Done s' ->
    response_ids (sent s') = response_ids (sent s) ++ (if answered answer j then [reply_id j] else []).
  Proof.
    intros j s s' R. unfold message_received in R. unfold answered, reply_id.
    destruct (jfind (s2b "result") j) as [rs|] eqn:Er.
    { rewrite app_nil_r. repeat dm R; injection R as <-; reflexivity. }
    destruct (jfind (s2b "error") j) as [er|] eqn:Ee.
    { rewrite app_nil_r. repeat dm R; injection R as <-; reflexivity. }
    destruct (jfind (s2b "params") j) as [p|] eqn:Ep.
    2:{ injection R as <-. destruct (jfind (s2b "method") j) as [[]|]; now rewrite app_nil_r. }
    destruct (jfind (s2b "method") j) as [[| | |m| |]|] eqn:Em; cbn [get_string] in R;
      try (injection R as <-; now rewrite app_nil_r).
    set (idv := match jfind (s2b "id") j with Some i => i | None => JStr [] end) in *.
    fold query_methods. fold m_initialize m_shutdown. fold (mem m query_methods).
    unfold call_method in R. cbn [existsb].
    destruct (bytes_eqb m m_initialize) eqn:E1.
    { cbn [orb]. repeat dm R; injection R as <-; unfold send_configuration_request, send_request, say; cbn [sent];
        rewrite !response_ids_app; cbn [response_ids]; now rewrite !app_nil_r. }
    destruct (bytes_eqb m m_shutdown) eqn:E2.
    { cbn [orb]. injection R as <-. cbn [say sent]. now rewrite response_ids_app. }
    cbn [orb].
    destruct (bytes_eqb m m_exit) eqn:E3.
    { apply bytes_eqb_eq in E3. subst m. injection R as <-. cbn. now rewrite app_nil_r. }
    destruct (bytes_eqb m m_config_changed) eqn:E4.
    { apply bytes_eqb_eq in E4. subst m. injection R as <-.
      unfold send_configuration_request, send_request. cbn [sent]. rewrite response_ids_app. cbn [response_ids].
      replace (mem m_config_changed query_methods) with false by reflexivity. now rewrite !app_nil_r. }
    destruct (mem m query_methods) eqn:E5.
    { destruct (answer m p); try discriminate; injection R as <-;
        [cbn [say sent]; now rewrite response_ids_app|now rewrite app_nil_r]. }
    rewrite app_nil_r. destruct (mem m sync_methods).
    - destruct (sync m p) as [ns [| |]]; try discriminate; injection R as <-; now rewrite notes_ids.
    - now injection R as <-.
  Qed.

  Lemma serve_replies : forall js s s', serve js s = Done s' ->
    response_ids (sent s') = response_ids (sent s) ++ map reply_id (filter (answered answer) js).
  Proof.
    induction js as [|j js IH]; simpl; intros s s' R.
    - injection R as <-. now rewrite app_nil_r.
    - destruct (recv j s) as [s1| |] eqn:E; try discriminate.
      rewrite (IH _ _ R), (recv_replies _ _ _ E), <- app_assoc.
      destruct (answered answer j); reflexivity.
  Qed.

  (** The handler table holds a configuration handler exactly for the awaited ids. *)
  Definition wc := s2b "workspace/configuration".
  Definition winv (s : srv) : Prop :=
    hinv s /\ cinv s /\
    (forall k, In (ORequest k wc) (sent s) -> exists n, k = config_id n) /\
    (forall k, assoc k (hands s) = Some HConfiguration <-> awaited k s).

  Lemma times_zero : forall k l, times k l = 0 <-> ~ In k l.
  Proof.
    induction l as [|a l IH]; cbn [times In]; [easy|]. destruct (bytes_eqb k a) eqn:E.
    - apply bytes_eqb_eq in E. subst. split; [lia|]. intros H. destruct H. auto.
    - apply beq_false in E. cbn [Nat.add]. rewrite IH. split; [|tauto]. intros H [->|I]; auto.
  Qed.

  Lemma winv_say : forall o s, (forall k m, o <> ORequest k m) -> winv s -> winv (say o s).
  Proof.
    intros o s Ho (H1 & H2 & H3 & H4). refine (conj _ (conj _ (conj _ _))).
    - now apply hinv_say.
    - now apply cinv_say.
    - intros k I. apply H3. cbn [say sent] in I. apply in_app_iff in I as [I|[E|[]]]; [exact I|].
      now apply Ho in E.
    - intros k. unfold awaited in *. cbn [say sent hands ran]. rewrite H4, in_app_iff. fold wc.
      split; intros [A B]; split; auto. destruct A as [A|[E|[]]]; auto. now apply Ho in E.
  Qed.

  Lemma winv_flags : forall a b s, winv s ->
    winv (mkSrv a b (hands s) (nconf s) (sent s) (ran s)).
  Proof. intros a b s H. exact H. Qed.

  Lemma winv_notes : forall ns s, winv s -> winv (fold_left (fun s n => say (ONotify n) s) ns s).
  Proof. induction ns as [|n ns IH]; simpl; intros; [easy|]. apply IH, winv_say; [easy|assumption]. Qed.

  Lemma winv_reg : forall s, winv s ->
    winv (send_request (s2b "register1") (s2b "client/registerCapability") HEmpty s).
  Proof.
    intros s (H1 & H2 & H3 & H4). refine (conj _ (conj _ (conj _ _))).
    - now apply hinv_req.
    - now apply cinv_reg.
    - intros k I. apply H3. cbn [send_request sent] in I. apply in_app_iff in I as [I|[E|[]]]; [exact I|].
      discriminate E.
    - intros k. unfold awaited in *. cbn [send_request sent hands ran]. rewrite in_app_iff. fold wc.
      assert (K : (In (ORequest k wc) (sent s) \/ In (ORequest k wc) [ORequest (s2b "register1") (s2b "client/registerCapability")])
                  <-> In (ORequest k wc) (sent s)).
      { split; [|auto]. intros [A|[E|[]]]; [exact A|]. discriminate E. }
      rewrite K. destruct (assoc (s2b "register1") (hands s)) eqn:E; [exact (H4 k)|].
      cbn [assoc]. destruct (bytes_eqb k (s2b "register1")) eqn:E2; [|exact (H4 k)].
      apply bytes_eqb_eq in E2. subst k. split; [discriminate|]. intros [A _]. apply H3 in A as (n & A). discriminate A.
  Qed.

  Lemma winv_conf : forall s, winv s -> winv (send_configuration_request s).
  Proof.
    intros s (H1 & H2 & H3 & H4).
    assert (Z : times (config_id (nconf s)) (ran s) = 0 /\ has (config_id (nconf s)) s = 0).
    { specialize (H1 (config_id (nconf s))). rewrite (H2 (nconf s)), N.ltb_irrefl in H1. lia. }
    destruct Z as [Z1 Z2]. apply times_zero in Z1. unfold has in Z2.
    refine (conj _ (conj _ (conj _ _))).
    - now apply hinv_conf.
    - now apply cinv_conf.
    - intros k I. cbn [send_configuration_request send_request sent] in I. apply in_app_iff in I as [I|[E|[]]]; [auto|].
      injection E as <-. eauto.
    - intros k. unfold awaited in *. cbn [send_configuration_request send_request sent hands ran].
      destruct (assoc (config_id (nconf s)) (hands s)) eqn:E; [discriminate|].
      cbn [assoc]. rewrite in_app_iff. fold wc. destruct (bytes_eqb k (config_id (nconf s))) eqn:E2.
      + apply bytes_eqb_eq in E2. subst k. split; [|reflexivity]. intros _. split; [|exact Z1].
        right. now left.
      + rewrite H4. fold wc. apply beq_false in E2. split; intros [A B]; split; auto.
        destruct A as [A|[Q|[]]]; [exact A|]. injection Q as Q. congruence.
  Qed.

  Lemma call_winv : forall m id p s s', winv s -> call m id p s = Done s' -> winv s'.
  Proof.
    intros m id p s s' H R. unfold call_method in R.
    repeat dm R; injection R as <-; auto using winv_conf, winv_notes;
      try (apply winv_say; [easy|assumption]);
      try (apply winv_conf, winv_reg, winv_say; [easy|assumption]).
  Qed.

  Lemma recv_winv : forall j s s', winv s -> recv j s = Done s' -> winv s'.
  Proof.
    intros j s s' H R. pose proof H as (H1 & H2 & H3 & H4).
    assert (G1 : hinv s') by (eapply recv_hinv; eauto).
    assert (G2 : cinv s') by (eapply recv_cinv; eauto).
    unfold message_received in R.
    repeat dm R; try (injection R as <-; exact H); try (now apply call_winv in R).
    all: injection R as <-; refine (conj G1 (conj G2 (conj H3 _))).
    all: intros k; unfold awaited in *; cbn [hands sent ran]; rewrite in_app_iff.
    all: match goal with |- context [remove_key ?z _] => destruct (bytes_eqb k z) eqn:E end.
    all: try (apply bytes_eqb_eq in E; subst k; rewrite assoc_remove_same; split; [discriminate|];
              intros [_ B]; destruct B; right; now left).
    all: apply beq_false in E; rewrite assoc_remove_other by assumption; rewrite (H4 k);
      split; intros [A B]; split; auto; intros [C|[C|[]]]; auto; congruence.
  Qed.

  Lemma serve_winv : forall js s, serve js srv0 = Done s -> winv s.
  Proof.
    intros js s R. refine (serve_ind answer sync init_rest winv _ js srv0 s _ R).
    - intros; eapply recv_winv; eauto.
    - refine (conj _ (conj _ (conj _ _))).
      + intros k. cbn. lia.
      + intros k. cbn. now destruct k.
      + intros k [].
      + intros k. cbn. split; [discriminate|]. intros [[] _].
  Qed.

  Lemma run_handler_config : forall r,
    run_handler HConfiguration r = Ret tt \/ unreadable r.
  Proof.
    intros r. unfold run_handler, unreadable.
    destruct r as [| | | |[|c l]|[|c l]]; auto. cbn [jsize length Nat.eqb jindex_0 bind].
    destruct (jfind (s2b "diagnosticsSuppressLimit") c) as [[| | | | |]|]; cbn; auto.
  Qed.
  Lemma run_handler_unreadable : forall r, unreadable r -> run_handler HConfiguration r <> Ret tt.
  Proof.
    intros r U. unfold run_handler, unreadable in *.
    destruct r as [| | | |[|c l]|[|c l]]; cbn [jsize length Nat.eqb jindex_0 bind]; try easy.
    destruct (jfind (s2b "diagnosticsSuppressLimit") c) as [[| | | | |]|]; easy.
  Qed.

  Hypothesis A_ok : forall m p, answer m p <> Undef.
  Hypothesis S_ok : forall m p, snd (sync m p) <> Undef.
  Hypothesis I_ok : forall p, init_rest p <> Undef.

  Lemma recv_exactly : forall j s, winv s ->
    (exists s', recv j s = Done s') <-> ~ takes_down s j.
  Proof.
    intros j s (_ & _ & _ & H4). unfold message_received, takes_down.
    destruct (jfind (s2b "result") j) as [r|] eqn:Er.
    { destruct (jfind (s2b "id") j) as [i|] eqn:Ei.
      2:{ split; [|eauto]. intros _ [(r0 & k & _ & E & _)|[(E & _)|(E & _)]]; discriminate. }
      destruct i as [| | |k| |];
        try (split; [|eauto]; intros _ [(r0 & k & _ & E & _)|[(E & _)|(E & _)]]; discriminate).
      destruct (assoc k (hands s)) as [[|]|] eqn:Ek; cbn [run_handler].
      - split; [|eauto]. intros _ [(r0 & k0 & _ & E & W & _)|[(E & _)|(E & _)]]; try discriminate.
        injection E as <-. apply H4 in W. congruence.
      - split.
        + intros [s' D] [(r0 & k0 & E0 & E & W & U)|[(E & _)|(E & _)]]; try discriminate.
          injection E0 as <-. apply run_handler_unreadable in U. unfold run_handler in U.
          cbn [run_handler] in D.
          destruct (run_handler HConfiguration r) as [[]| |] eqn:Q; unfold run_handler in Q; rewrite Q in D;
            try discriminate. now rewrite Q in U.
        + intros N. destruct (run_handler_config r) as [Q|Q].
          * unfold run_handler in Q. rewrite Q. eauto.
          * destruct N. left. exists r, k. repeat split; auto; now apply H4.
      - split; [|eauto]. intros _ [(r0 & k0 & _ & E & W & _)|[(E & _)|(E & _)]]; try discriminate.
        injection E as <-. apply H4 in W. congruence. }
    destruct (jfind (s2b "error") j) as [e|] eqn:Ee.
    { destruct (jfind (s2b "message") e) eqn:Em.
      - split; [|eauto]. intros _ [(r0 & k & E & _)|[(_ & e0 & E0 & E1 & _)|(_ & E & _)]]; try discriminate.
        injection E0 as <-. congruence.
      - destruct (jfind (s2b "id") j) eqn:Ei.
        + split; [|eauto]. intros _ [(r0 & k & E & _)|[(_ & e0 & E0 & E1 & E2)|(_ & E & _)]]; discriminate.
        + split; [intros [s' D]; discriminate|]. intros N. destruct N. right. left. split; [reflexivity|].
          exists e. auto. }
    assert (T : forall (P : Prop), (~ (jfind (s2b "method") j = Some (JStr (s2b "initialize")) /\
        exists l, jfind (s2b "params") j = Some (JObj l) /\ jfind (s2b "capabilities") (JObj l) = None) <-> P) ->
      (~ ((exists r k, @None json = Some r /\ jfind (s2b "id") j = Some (JStr k) /\ awaited k s /\ unreadable r) \/
          (@None json = None /\ exists e, @None json = Some e /\ jfind (s2b "message") e = None /\ jfind (s2b "id") j = None) \/
          (@None json = None /\ @None json = None /\ jfind (s2b "method") j = Some (JStr (s2b "initialize")) /\
           exists l, jfind (s2b "params") j = Some (JObj l) /\ jfind (s2b "capabilities") (JObj l) = None)) <-> P)).
    { intros P <-. split.
      - intros N Q. apply N. right. right. auto.
      - intros N [(r & k & E & _)|[(_ & e & E & _)|(_ & _ & E)]]; try discriminate. now apply N. }
    symmetry. apply T.
    destruct (jfind (s2b "params") j) as [p|] eqn:Ep.
    2:{ split; [|intros _ (_ & l & E & _); discriminate]. intros _. destruct (jfind (s2b "method") j); eauto. }
    destruct (jfind (s2b "method") j) as [[| | |m| |]|] eqn:Em; cbn [get_string];
      try (split; [eauto|intros _ (E & _); discriminate]).
    unfold call_method.
    destruct (bytes_eqb m m_initialize) eqn:E1.
    { apply bytes_eqb_eq in E1. subst m. destruct p as [| | | | |l];
        try (cbn [jindex_const bind]; split; [eauto|intros _ (_ & l0 & E & _); discriminate]).
      cbn [jindex_const bind jfind]. destruct (assoc (s2b "capabilities") l) eqn:C; cbn [bind].
      - split.
        + intros _. destruct (init_rest (JObj l)) eqn:I; eauto. now apply I_ok in I.
        + intros _ (_ & l0 & E & C0). injection E as <-. cbn [jfind] in C0. congruence.
      - split; [|intros [s' D]; discriminate]. intros N. destruct N. split; [reflexivity|]. eauto. }
    assert (NI : ~ (Some (JStr m) = Some (JStr (s2b "initialize")) /\
        exists l, Some p = Some (JObj l) /\ jfind (s2b "capabilities") (JObj l) = None)).
    { intros (E & _). injection E as ->. vm_compute in E1. discriminate. }
    split; [|intros _; exact NI]. intros _.
    destruct (bytes_eqb m m_shutdown); eauto. destruct (bytes_eqb m m_exit); eauto.
    destruct (bytes_eqb m m_config_changed); eauto.
    destruct (mem m query_methods).
    { destruct (answer m p) eqn:A; eauto. now apply A_ok in A. }
    destruct (mem m sync_methods); eauto.
    destruct (sync m p) as [ns r] eqn:Y. pose proof (S_ok m p) as Q. rewrite Y in Q.
    destruct r; eauto. now destruct Q.
  Qed.

  Lemma serve_app : forall a b s, serve (a ++ b) s = match serve a s with Done s' => serve b s' | o => o end.
  Proof.
    induction a as [|j a IH]; intros b s; [reflexivity|]. cbn [app Lsp_Model.serve].
    destruct (recv j s); auto.
  Qed.

  Lemma serve_exactly : forall js,
    (exists s, serve js srv0 = Done s) <->
    (forall a j b s, js = a ++ j :: b -> serve a srv0 = Done s -> ~ takes_down s j).
  Proof.
    intros js. split.
    - intros [s' D] a j b s -> R. rewrite serve_app, R in D. cbn [Lsp_Model.serve] in D.
      apply (recv_exactly j s (serve_winv a s R)). destruct (recv j s) eqn:E; try discriminate. eauto.
    - induction js as [|j js IH] using rev_ind; intros H; [cbn; eauto|].
      destruct IH as [s R].
      { intros a j0 b s E. apply (H a j0 (b ++ [j]) s). rewrite E. now rewrite <- app_assoc. }
      rewrite serve_app, R. cbn [Lsp_Model.serve].
      destruct (proj2 (recv_exactly j s (serve_winv js s R)) (H js j [] s eq_refl R)) as [s' ->]. eauto.
  Qed.
End P.
