From Coq Require Import List NArith ZArith Bool Lia Arith.
From Verif Require Import Common Lts Json Lsp_Model Lsp_Spec Lsp_Proof Req_Model Sys_Model Sys_Spec.
Import ListNotations.

Section P.
  Variable answer : bytes -> json -> res json.
  Variable sync : bytes -> json -> list bytes * res unit.
  Variable init_rest : json -> res unit.
  Notation call := (call_method answer sync init_rest).
  Notation recv := (message_received answer sync init_rest).
  Notation step := (sstep answer sync init_rest).
  Notation deliver := (deliver answer sync init_rest).

  Ltac dm H := match type of H with
    | context [match ?x with _ => _ end] => destruct x eqn:?; try discriminate H
    end.

  Lemma notes_flags : forall ns s,
    shut (fold_left (fun s n => say (ONotify n) s) ns s) = shut s /\
    exited (fold_left (fun s n => say (ONotify n) s) ns s) = exited s.
  Proof. induction ns; simpl; intros; [easy|]. destruct (IHns (say (ONotify a) s)) as [-> ->]. easy. Qed.

  Lemma recv_flags : forall j s s', recv j s = Done s' ->
    shut s' = shut s || asks m_shutdown j /\ exited s' = exited s || asks m_exit j.
  Proof.
    intros j s s' R. unfold message_received in R. unfold asks.
    destruct (jfind (s2b "result") j).
    { repeat dm R; injection R as <-; cbn; now rewrite !orb_false_r. }
    destruct (jfind (s2b "error") j).
    { repeat dm R; injection R as <-; cbn; now rewrite !orb_false_r. }
    destruct (jfind (s2b "params") j) as [p|]; [|injection R as <-; now rewrite !orb_false_r].
    destruct (jfind (s2b "method") j) as [[| | |m| |]|]; cbn [get_string] in R;
      try (injection R as <-; now rewrite !orb_false_r).
    unfold call_method in R.
    destruct (bytes_eqb m m_initialize) eqn:E1.
    { apply bytes_eqb_eq in E1. subst. repeat dm R; injection R as <-; cbn; now rewrite !orb_false_r. }
    destruct (bytes_eqb m m_shutdown) eqn:E2.
    { apply bytes_eqb_eq in E2. subst. injection R as <-. cbn. now rewrite orb_true_r, orb_false_r. }
    destruct (bytes_eqb m m_exit) eqn:E3.
    { apply bytes_eqb_eq in E3. subst. injection R as <-. cbn. now rewrite orb_true_r, orb_false_r. }
    assert (N1 : bytes_eqb m_shutdown m = false) by (apply beq_false; apply beq_false in E2; congruence).
    assert (N2 : bytes_eqb m_exit m = false) by (apply beq_false; apply beq_false in E3; congruence).
    rewrite N1, N2, !orb_false_r.
    destruct (bytes_eqb m m_config_changed); [injection R as <-; easy|].
    destruct (mem m query_methods); [repeat dm R; injection R as <-; easy|].
    destruct (mem m sync_methods); [|injection R as <-; easy].
    repeat dm R; injection R as <-; apply notes_flags.
  Qed.

  Lemma not_orderly : forall L p r, L = p ++ r -> existsb (asks m_exit) p = true ->
    existsb (asks m_shutdown) p = false -> ~ orderly L.
  Proof.
    intros L p r -> E S O. apply existsb_exists in E as (j & I & A).
    apply in_split in I as (a & b & ->). rewrite <- app_assoc in O.
    specialize (O a j (b ++ r) eq_refl A). rewrite existsb_app, O in S. discriminate.
  Qed.

  (** Number of accepted messages that took effect, as long as no server is being finished. *)
  Definition effective (x : sys) : nat :=
    length (started (rq x)) -
    match wrk (rq x) with WRunning _ => if handled x then 0 else 1 | _ => 0 end.

  Definition early (p : lpc) : Prop :=
    match p with LFinishing _ | LReturned | LFailed => False | _ => True end.
  Definition value (p : lpc) : Z := match p with LFinish v | LFinishing v => v | _ => 0 end.
  Definition held (p : lpc) : list json := match p with LGot j => [j] | _ => [] end.

  Definition flow (L : list json) (x : sys) : Prop :=
    pc x <> LFailed -> acc x ++ held (pc x) ++ q x ++ lsp_part (inp x) = L.

  Definition order (x : sys) : Prop :=
    early (pc x) ->
    fin (rq x) = FNone /\
    map rid (reqs (rq x)) = seq (length (started (rq x))) (length (reqs (rq x))) /\
    naccepted (rq x) = length (acc x) /\
    length (started (rq x)) + length (reqs (rq x)) = length (acc x) /\
    (forall r, wrk (rq x) = WRunning r -> S (rid r) = length (started (rq x))) /\
    (dead x = false ->
     shut (sv x) = existsb (asks m_shutdown) (firstn (effective x) (acc x)) /\
     exited (sv x) = existsb (asks m_exit) (firstn (effective x) (acc x))).

  Definition result (L : list json) (x : sys) : Prop :=
    (pc x = LCheckShut -> dead x = false -> exited (sv x) = true) /\
    (code x = None -> ret x <> 0%Z \/ value (pc x) <> 0%Z -> ~ orderly L) /\
    (forall c, code x = Some c -> c <> 0%Z -> ~ orderly L) /\
    (code x = None -> term x = false).

  Lemma deliver_frame : forall i x, let y := deliver i x in
    inp y = inp x /\ code y = code x /\ term y = term x /\ q y = q x /\ pc y = pc x /\ rq y = rq x /\
    handled y = handled x /\ acc y = acc x /\ ret y = ret x.
  Proof.
    intros. unfold y, Sys_Model.deliver. destruct (nth_error (acc x) i); [|easy]. destruct (recv j (sv x)); easy.
  Qed.

  Lemma deliver_flags : forall i x, nth_error (acc x) i <> None -> dead (deliver i x) = false -> 
    exists j, nth_error (acc x) i = Some j /\
    shut (sv (deliver i x)) = shut (sv x) || asks m_shutdown j /\
    exited (sv (deliver i x)) = exited (sv x) || asks m_exit j.
  Proof.
    intros i x N D. unfold Sys_Model.deliver in *. destruct (nth_error (acc x) i) as [j|]; [|easy].
    exists j. split; [easy|]. destruct (recv j (sv x)) eqn:E; try discriminate. now apply recv_flags in E.
  Qed.

  Lemma flow_step : forall L x e y, flow L x -> step x e = Some y -> flow L y.
  Proof.
    intros L x e y F S. unfold flow, sstep in *. destruct (dead x); [discriminate|].
    destruct e as [| | | | |e].
    - repeat dm S; injection S as <-; cbn [acc held pc q inp] in *; intros NF; specialize (F NF);
        try (match goal with H : inp _ = _ |- _ => rewrite H in F end); unfold lsp_part in *; cbn [filter] in F;
        match goal with H : is_dap _ = _ |- _ => rewrite H in F end; cbn [negb] in F; [exact F|].
      rewrite <- app_assoc. exact F.
    - repeat dm S; injection S as <-; cbn in *. try rewrite Heql in F. exact F.
    - repeat dm S; injection S as <-; cbn in *. exact F.
    - destruct (pc x) eqn:P; try discriminate S.
      + destruct (q x) eqn:Q.
        * destruct (term x); [|discriminate]. injection S as <-. cbn. rewrite Q. intros _. apply F. discriminate.
        * injection S as <-. cbn. intros _. apply F. discriminate.
      + repeat dm S; injection S as <-; cbn [pc set_pc acc q inp held] in *.
        * intros _. rewrite <- F by discriminate. cbn [held]. now rewrite <- app_assoc.
        * intros Z; now destruct Z.
      + injection S as <-. cbn [pc set_pc acc q inp held] in *. intros _. rewrite <- F by discriminate.
        now destruct (exited (sv x)).
      + injection S as <-. cbn [pc set_pc acc q inp held] in *. intros _. now rewrite <- F by discriminate.
      + dm S; injection S as <-. cbn. intros _. now rewrite <- F by discriminate.
      + dm S; injection S as <-. cbn. intros _. now rewrite <- F by discriminate.
    - dm S. dm S. injection S as <-.
      destruct (deliver_frame (rid r) x) as (E1 & E2 & E3 & E4 & E5 & E6 & E7 & E8 & E9).
      cbn [set_handled inp pc q acc]. rewrite E1, E4, E5, E8. exact F.
    - destruct e; try discriminate S; repeat dm S; injection S as <-; try exact F;
        try (cbn [set_rq pc acc q inp]; match goal with H : pc _ = _ |- _ => rewrite H end; exact F).
      match goal with |- context [deliver ?i ?z] =>
        destruct (deliver_frame i z) as (E1 & E2 & E3 & E4 & E5 & E6 & E7 & E8 & E9) end.
      rewrite E1, E4, E5, E8. exact F.
  Qed.

  Lemma firstn_S_existsb : forall (f : json -> bool) l i j, nth_error l i = Some j ->
    existsb f (firstn (S i) l) = existsb f (firstn i l) || f j.
  Proof.
    intros f. induction l as [|a l IH]; intros i j H; [destruct i; discriminate|].
    destruct i as [|i]; cbn in *.
    - injection H as ->. now rewrite orb_false_r.
    - rewrite <- orb_assoc. f_equal. apply (IH i j H).
  Qed.

  Lemma firstn_le_app : forall (A : Type) n (l l2 : list A), n <= length l -> firstn n (l ++ l2) = firstn n l.
  Proof. intros. rewrite firstn_app. replace (n - length l) with 0 by lia. now rewrite app_nil_r. Qed.

  Lemma effective_le : forall x, effective x <= length (started (rq x)).
  Proof. intros. unfold effective. destruct (wrk (rq x)); try lia; destruct (handled x); lia. Qed.

  Lemma map_rid_inv : forall f l, map rid (map (invalidate f) l) = map rid l.
  Proof. intros. rewrite map_map. apply map_ext. intros a. unfold invalidate. now destruct (bytes_eqb _ _). Qed.

  Lemma order_step : forall x e y, order x -> step x e = Some y -> order y.
  Proof.
    intros x e y F S. unfold order, sstep in *. destruct (dead x) eqn:D; [discriminate|].
    destruct e as [| | | | |e].
    - repeat dm S; injection S as <-; exact F.
    - repeat dm S; injection S as <-; exact F.
    - repeat dm S; injection S as <-; exact F.
    - destruct (pc x) eqn:P; try discriminate S; cbn [early] in F.
      + specialize (F I). repeat dm S; injection S as <-; cbn; intros _; rewrite ?D; exact F.
      + specialize (F I). destruct F as (F1 & F2 & F3 & F4 & F5 & F6). specialize (F6 eq_refl).
        destruct (to_msg j); [|injection S as <-; cbn; easy].
        cbn [Req_Model.step] in S. rewrite F1 in S.
        set (hit := bytes_eqb _ _ && _ && _) in S. injection S as <-.
        cbn. intros _. rewrite app_length. cbn [length].
        assert (ML : forall (b : bool), length (if b then map (invalidate (get_request_file m)) (reqs (rq x)) else reqs (rq x)) = length (reqs (rq x)))
          by (intros []; now rewrite ?map_length).
        assert (MR : forall (b : bool), map rid (if b then map (invalidate (get_request_file m)) (reqs (rq x)) else reqs (rq x)) = map rid (reqs (rq x)))
          by (intros []; now rewrite ?map_rid_inv).
        rewrite map_app, !app_length, ML, MR, F2. cbn [map rid length].
        repeat split; auto.
        * rewrite Nat.add_1_r, seq_S, F3, <- F4. easy.
        * lia.
        * lia.
        * destruct F6 as [-> _]. unfold effective. cbn [rq started wrk]. 
          rewrite firstn_le_app; [reflexivity|]. pose proof (effective_le x). unfold effective in *. lia.
        * destruct F6 as [_ ->]. unfold effective. cbn [rq started wrk]. 
          rewrite firstn_le_app; [reflexivity|]. pose proof (effective_le x). unfold effective in *. lia.
      + injection S as <-. specialize (F I). cbn. intros _. rewrite ?D. exact F.
      + injection S as <-. specialize (F I). cbn. intros _. rewrite ?D. exact F.
      + dm S. injection S as <-. cbn. easy.
      + dm S. injection S as <-. cbn. easy.
    - destruct (wrk (rq x)) eqn:W; try discriminate S. destruct (handled x) eqn:Hd; [discriminate|].
      injection S as <-.
      destruct (deliver_frame (rid r) x) as (E1 & E2 & E3 & E4 & E5 & E6 & E7 & E8 & E9).
      cbn [set_handled inp pc q acc rq sv dead]. rewrite E5, E6, E8. intros Ea. rewrite ?D.
      destruct (F Ea) as (F1 & F2 & F3 & F4 & F5 & F6). rewrite W. repeat split; auto.
      all: destruct (F6 eq_refl) as [F6a F6b].
      all: assert (N : nth_error (acc x) (rid r) <> None)
             by (apply nth_error_Some; specialize (F5 r eq_refl); lia).
      all: destruct (deliver_flags (rid r) x N H) as (j & Nj & G1 & G2).
      all: unfold effective in *; cbn [set_handled rq handled]; rewrite E6, W; rewrite W, Hd in F6a, F6b.
      all: specialize (F5 r eq_refl); rewrite <- F5 in *; rewrite Nat.sub_0_r; cbn [Nat.sub] in F6a, F6b;
        rewrite Nat.sub_0_r in F6a, F6b; rewrite (firstn_S_existsb _ _ _ j) by assumption; congruence.
    - destruct e; try discriminate S.
      + dm S. injection S as <-. cbn [set_rq pc acc rq sv dead]. intros Ea. rewrite ?D.
        destruct (F Ea) as (F1 & F2 & F3 & F4 & F5 & F6). specialize (F6 eq_refl).
        cbn in Heqo. destruct (pending (rq x)); [discriminate|]. injection Heqo as <-. cbn.
        unfold effective in *. cbn [rq set_rq started wrk handled].
        destruct (wrk (rq x)) eqn:W; repeat split; auto; try apply F6; try easy.
      + dm S. injection S as <-. cbn [set_rq pc acc rq sv dead]. intros Ea. rewrite ?D.
        destruct (F Ea) as (F1 & F2 & F3 & F4 & F5 & F6). specialize (F6 eq_refl).
        cbn in Heqo. destruct (wrk (rq x)) eqn:W; try discriminate. injection Heqo as <-. cbn.
        unfold effective in *. cbn [rq set_rq started wrk handled]. rewrite W in F6.
        repeat split; auto; try apply F6; try easy.
      + dm S. injection S as <-. cbn [set_rq set_handled pc acc rq sv dead]. intros Ea. rewrite ?D.
        destruct (F Ea) as (F1 & F2 & F3 & F4 & F5 & F6). specialize (F6 eq_refl).
        cbn in Heqo. rewrite F1 in Heqo. destruct (wrk (rq x)) eqn:W; try discriminate.
        unfold effective in *. rewrite W in F6.
        destruct (ending (rq x)).
        * injection Heqo as <-. cbn. repeat split; auto; try apply F6; try easy.
        * destruct (reqs (rq x)) as [|r rs] eqn:Q.
          -- injection Heqo as <-. cbn. cbn [length] in *. repeat split; auto; try apply F6; try easy.
          -- injection Heqo as <-. cbn. cbn [length map seq] in *. injection F2 as F2a F2b.
             rewrite app_length. cbn [length].
             replace (length (started (rq x)) + 1 - 1) with (length (started (rq x)) - 0) by lia.
             repeat split; auto; try apply F6.
             ++ rewrite F2b. f_equal. lia.
             ++ lia.
             ++ intros r0 E. injection E as <-. lia.
      + destruct (handled x) eqn:Hd; [|discriminate].
        dm S. injection S as <-. cbn [set_rq set_handled pc acc rq sv dead]. intros Ea. rewrite ?D.
        destruct (F Ea) as (F1 & F2 & F3 & F4 & F5 & F6). specialize (F6 eq_refl).
        cbn in Heqo. destruct (wrk (rq x)) eqn:W; try discriminate. injection Heqo as <-. cbn.
        unfold effective in *. rewrite W, Hd in F6. cbn.
        repeat split; auto; try apply F6; try easy.
      + dm S; dm S; injection S as <-; cbn [set_rq pc early]; rewrite Heql; easy.
      + dm S. injection S as <-. cbn [set_rq set_handled pc acc rq sv dead]. intros Ea. rewrite ?D.
        destruct (F Ea) as (F1 & F2 & F3 & F4 & F5 & F6). cbn in Heqo. rewrite F1 in Heqo. discriminate.
      + destruct (fin (rq x)) eqn:Q; try discriminate. destruct todo; [discriminate|]. dm S. injection S as <-.
        match goal with |- context [deliver ?i ?z] =>
          destruct (deliver_frame i z) as (E1 & E2 & E3 & E4 & E5 & E6 & E7 & E8 & E9) end.
        rewrite E5. cbn [set_rq pc]. intros Ea. rewrite ?D. destruct (F Ea) as (F1 & _). congruence.
      + dm S. injection S as <-. cbn [set_rq set_handled pc acc rq sv dead]. intros Ea. rewrite ?D.
        destruct (F Ea) as (F1 & F2 & F3 & F4 & F5 & F6). cbn in Heqo. rewrite F1 in Heqo. discriminate.
  Qed.

  Lemma recv_exited : forall j s s', recv j s = Done s' -> exited s = true -> exited s' = true.
  Proof. intros j s s' R E. apply recv_flags in R as [_ R]. now rewrite R, E. Qed.

  Lemma deliver_exited : forall i x, exited (sv x) = true -> exited (sv (deliver i x)) = true.
  Proof.
    intros i x E. unfold Sys_Model.deliver. destruct (nth_error (acc x) i); [|exact E].
    destruct (recv j (sv x)) eqn:R; try exact E. exact (recv_exited _ _ _ R E).
  Qed.

  Lemma result_step : forall L x e y, flow L x -> order x -> result L x -> step x e = Some y -> result L y.
  Proof.
    intros L x e y FL O (R1 & R2 & R3 & R4) S. unfold result, sstep in *. destruct (dead x) eqn:D; [discriminate|].
    destruct e as [| | | | |e].
    - repeat dm S; injection S as <-; cbn in *; rewrite ?D; auto.
    - repeat dm S; injection S as <-; cbn in *. repeat split; auto; try discriminate.
      intros c E. injection E as <-. intros; apply R2; auto.
    - repeat dm S; injection S as <-; cbn in *. repeat split; auto. discriminate.
    - destruct (pc x) eqn:P; try discriminate S.
      + repeat dm S; injection S as <-; cbn in *; repeat split; auto; try discriminate.
        all: intros C; discriminate (R4 C).
      + repeat dm S; injection S as <-; cbn in *; repeat split; auto; try discriminate.
      + injection S as <-. cbn in *. destruct (exited (sv x)); cbn; repeat split; auto; try discriminate.
      + injection S as <-. cbn in *. repeat split; auto; try discriminate.
        intros C [V|V]; [apply R2; auto|].
        unfold order in O. rewrite P in O. destruct (O I) as (_ & _ & _ & _ & _ & F6).
        destruct (F6 D) as [Fa Fb]. specialize (R1 eq_refl eq_refl).
        destruct (shut (sv x)) eqn:Sh; [easy|].
        unfold flow in FL. rewrite P in FL. cbn [held app] in FL.
        rewrite <- FL by discriminate.
        eapply not_orderly with (p := firstn (effective x) (acc x)) (r := skipn (effective x) (acc x) ++ q x ++ lsp_part (inp x)).
        * rewrite <- (firstn_skipn (effective x) (acc x)) at 1. now rewrite <- app_assoc.
        * congruence.
        * congruence.
      + dm S. injection S as <-. cbn in *. repeat split; auto. discriminate.
      + dm S. injection S as <-. cbn in *. repeat split; auto; try discriminate.
        intros C [V|V]; [|easy]. apply R2; auto.
    - dm S. dm S. injection S as <-.
      destruct (deliver_frame (rid r) x) as (E1 & E2 & E3 & E4 & E5 & E6 & E7 & E8 & E9).
      cbn [set_handled pc sv code ret term dead]. rewrite E2, E3, E5, E9. repeat split; auto.
      intros Q1 _. apply deliver_exited, R1; auto.
    - destruct e; try discriminate S; repeat dm S; injection S as <-; cbn in *; rewrite ?D; auto; try (repeat split; auto; fail).
      all: try (rewrite Heql in *; repeat split; auto; fail).
      match goal with |- context [deliver ?i ?z] =>
        destruct (deliver_frame i z) as (E1 & E2 & E3 & E4 & E5 & E6 & E7 & E8 & E9) end.
      rewrite E2, E3, E5, E9. cbn [set_rq pc code ret term]. repeat split; auto.
      intros Q1 _. apply deliver_exited. cbn. auto.
  Qed.

  Definition sinv L x := flow L x /\ order x /\ result L x.
  Lemma sinv_run : forall input es x, run step (sys0 input) es = Some x -> sinv (lsp_part input) x.
  Proof.
    intros input es x R. refine (run_inv _ _ step (sinv (lsp_part input)) _ es (sys0 input) x _ R).
    - intros s e s' (F & O & Rs) S. split; [|split].
      + eapply flow_step; eauto.
      + eapply order_step; eauto.
      + eapply result_step; eauto.
    - split; [easy|split].
      + intros _. cbn. repeat split; discriminate.
      + repeat split; cbn; auto; try discriminate. intros _ [H|H]; now destruct H.
  Qed.

  Lemma exit_code : forall input es x c, run step (sys0 input) es = Some x -> code x = Some c ->
    orderly (lsp_part input) -> c = 0%Z.
  Proof.
    intros input es x c R C O. destruct (sinv_run input es x R) as (_ & _ & _ & _ & R3 & _).
    destruct (Z.eq_dec c 0); [easy|]. destruct (R3 c C n O).
  Qed.

  (** Once the LSP thread has been left by an exception nothing is accepted any more. *)
  Lemma failed_forever : forall es x y, pc x = LFailed -> run step x es = Some y ->
    pc y = LFailed /\ acc y = acc x.
  Proof.
    intros es x y P R.
    refine (run_inv _ _ step (fun z => pc z = LFailed /\ acc z = acc x) _ es x y (conj P eq_refl) R).
    intros s e s' [Q A] S. unfold sstep in S. destruct (dead s); [discriminate|].
    destruct e as [| | | | |e].
    1-3: repeat dm S; injection S as <-; easy.
    - rewrite Q in S. discriminate.
    - dm S. dm S. injection S as <-.
      destruct (deliver_frame (rid r) s) as (E1 & E2 & E3 & E4 & E5 & E6 & E7 & E8 & E9).
      cbn. rewrite E5, E8. easy.
    - destruct e; try discriminate S; repeat dm S; injection S as <-; try easy.
      match goal with |- context [deliver ?i ?z] =>
        destruct (deliver_frame i z) as (E1 & E2 & E3 & E4 & E5 & E6 & E7 & E8 & E9) end.
      rewrite E5, E8. easy.
  Qed.

  Hypothesis A_ok : forall m p, answer m p <> Undef.
  Hypothesis S_ok : forall m p, snd (sync m p) <> Undef.
  Hypothesis I_ok : forall p, init_rest p <> Undef.

  Lemma to_msg_total : forall j, names_document j -> to_msg j <> None.
  Proof.
    intros j N. unfold to_msg, td_prefix. destruct (jfind (s2b "method") j) as [m|] eqn:E; [|easy].
    destruct (N m E) as (s & -> & K). cbn [get_string].
    destruct (starts_with (s2b "textDocument") s); [|easy].
    destruct (K eq_refl) as (p & d & u & P1 & P2 & P3).
    assert (G : forall k x v, jfind k x = Some v -> jindex k x = Ret v).
    { intros k x v H. destruct x; cbn in *; try discriminate. now rewrite H. }
    rewrite (G _ _ _ P1). cbn [bind]. rewrite (G _ _ _ P2). cbn [bind]. rewrite (G _ _ _ P3). easy.
  Qed.

  Definition alive (x : sys) : Prop :=
    dead x = false /\ pc x <> LFailed /\
    Forall (fun j => well_formed j) (acc x) /\
    Forall (fun j => well_formed j /\ names_document j) (held (pc x) ++ q x ++ inp x).

  Lemma deliver_alive : forall i x, dead x = false -> Forall well_formed (acc x) -> dead (deliver i x) = false.
  Proof.
    intros i x D F. unfold Sys_Model.deliver. destruct (nth_error (acc x) i) as [j|] eqn:N; [|exact D].
    apply nth_error_In in N. rewrite Forall_forall in F. specialize (F j N).
    destruct (recv_total answer sync init_rest A_ok S_ok I_ok j (sv x) F) as [s ->]. exact D.
  Qed.

  Lemma alive_step : forall x e y, alive x -> step x e = Some y -> alive y.
  Proof.
    intros x e y (D & P & A & B) S. unfold sstep in S. rewrite D in S.
    destruct e as [| | | | |e].
    - repeat dm S; injection S as <-; unfold alive; cbn; repeat split; auto;
        try rewrite Heql in B; rewrite !Forall_app in *; destruct B as (B1 & B2 & B3); inversion B3; subst; auto.
    - repeat dm S; injection S as <-; unfold alive; cbn; repeat split; auto.
    - repeat dm S; injection S as <-; unfold alive; cbn; auto.
    - destruct (pc x) eqn:Q; try discriminate S.
      + repeat dm S; injection S as <-; unfold alive; cbn in *; repeat split; auto; discriminate || (rewrite ?Heql; exact B).
      + cbn [held app] in B. inversion B; subst. destruct H1 as [W N].
        destruct (to_msg j) eqn:T; [|now apply to_msg_total in N].
        repeat dm S; injection S as <-; unfold alive; cbn; repeat split; auto; [discriminate|].
        apply Forall_app. auto.
      + injection S as <-. unfold alive. cbn. repeat split; auto; destruct (exited (sv x)); easy.
      + injection S as <-. unfold alive. cbn. repeat split; auto; destruct (exited (sv x)); easy.
      + dm S. injection S as <-. unfold alive. cbn. repeat split; auto. discriminate.
      + dm S. injection S as <-. unfold alive. cbn. repeat split; auto. discriminate.
    - dm S. dm S. injection S as <-.
      destruct (deliver_frame (rid r) x) as (E1 & E2 & E3 & E4 & E5 & E6 & E7 & E8 & E9).
      unfold alive. cbn [set_handled dead pc acc q inp]. rewrite E1, E4, E5, E8. repeat split; auto.
      now apply deliver_alive.
    - destruct e; try discriminate S; repeat dm S; injection S as <-;
        try (unfold alive; cbn; repeat split; auto; fail).
      all: try (now destruct P).
      all: try (unfold alive; cbn; match goal with H : pc _ = _ |- _ => rewrite H end; repeat split; auto; fail).
      match goal with |- context [deliver ?i ?z] =>
        destruct (deliver_frame i z) as (E1 & E2 & E3 & E4 & E5 & E6 & E7 & E8 & E9) end.
      unfold alive. rewrite E1, E4, E5, E8. repeat split; auto. now apply deliver_alive.
  Qed.

  Lemma alive_run : forall input es x,
    Forall (fun j => well_formed j /\ names_document j) input ->
    run step (sys0 input) es = Some x -> dead x = false /\ pc x <> LFailed.
  Proof.
    intros input es x F R. assert (H : alive x).
    { refine (run_inv _ _ step alive _ es (sys0 input) x _ R).
      - intros; eapply alive_step; eauto.
      - repeat split; cbn; auto. discriminate. }
    destruct H as (H1 & H2 & _). auto.
  Qed.
End P.
