(** The exit code exactly, and that the server loop goes on accepting messages. *)
From Coq Require Import List NArith ZArith Bool Lia Arith.
From Verif Require Import Common Lts Json Lsp_Model Lsp_Spec Lsp_Proof Req_Model Sys_Model Sys_Spec Sys_Proof.
Import ListNotations.

Section P.
  Variable answer : bytes -> json -> res json.
  Variable sync : bytes -> json -> list bytes * res unit.
  Variable init_rest : json -> res unit.
  Notation step := (sstep answer sync init_rest).
  Notation deliver := (deliver answer sync init_rest).

  Ltac dm H := match type of H with
    | context [match ?x with _ => _ end] => destruct x eqn:?; try discriminate H
    end.

  (** What each kind of step does to code, result and position of the loop. *)
  Lemma step_other : forall x e y, step x e = Some y -> e <> SEof -> e <> SLsp -> e <> STerm ->
    code y = code x /\ ret y = ret x /\ pc y = pc x /\ term y = term x /\
    (exited (sv x) = true -> exited (sv y) = true).
  Proof.
    intros x e y S N1 N2 N3. unfold sstep in S. destruct (dead x); [discriminate|].
    destruct e as [| | | | |e]; try easy.
    - repeat dm S; injection S as <-; cbn; rewrite ?Heqo; auto.
    - dm S. dm S. injection S as <-.
      destruct (deliver_frame answer sync init_rest (rid r) x) as (E1 & E2 & E3 & E4 & E5 & E6 & E7 & E8 & E9).
      cbn [set_handled code ret pc term sv]. rewrite E2, E3, E5, E9. repeat split; auto. apply deliver_exited.
    - destruct e; try discriminate S; repeat dm S; injection S as <-; cbn; auto.
      match goal with |- context [deliver ?i ?z] =>
        destruct (deliver_frame answer sync init_rest i z) as (E1 & E2 & E3 & E4 & E5 & E6 & E7 & E8 & E9) end.
      rewrite E2, E3, E5, E9. cbn [set_rq code ret pc term]. repeat split; auto.
      intros H. now apply deliver_exited.
  Qed.

  Lemma step_eof : forall x y, step x SEof = Some y ->
    code x = None /\ code y = Some (ret x) /\ ret y = ret x /\ pc y = pc x /\ term y = term x /\ sv y = sv x.
  Proof.
    intros x y S. unfold sstep in S. destruct (dead x); [discriminate|].
    destruct (code x) eqn:C; [discriminate|]. destruct (inp x); [|discriminate]. injection S as <-. cbn. auto 8.
  Qed.

  Lemma step_term : forall x y, step x STerm = Some y ->
    code x <> None /\ code y = code x /\ ret y = ret x /\ pc y = pc x /\ term y = true /\ sv y = sv x.
  Proof.
    intros x y S. unfold sstep in S. destruct (dead x); [discriminate|].
    destruct (code x) eqn:C; [|discriminate]. injection S as <-. cbn. repeat split; auto. discriminate.
  Qed.

  (** The loop's own step. *)
  Lemma step_lsp : forall x y, step x SLsp = Some y ->
    code y = code x /\ term y = term x /\ sv y = sv x /\ dead x = false /\
    match pc x with
    | LRead => ret y = ret x /\ (pc y = LFinish 1 /\ term x = true \/ exists j, pc y = LGot j)
    | LGot _ => ret y = ret x /\ (pc y = LFailed \/ pc y = LCheckExit)
    | LCheckExit => ret y = ret x /\ pc y = if exited (sv x) then LCheckShut else LRead
    | LCheckShut => ret y = ret x /\ pc y = LFinish (if shut (sv x) then 0 else 1)
    | LFinish v => ret y = ret x /\ pc y = LFinishing v
    | LFinishing v => ret y = v /\ pc y = LReturned
    | _ => False
    end.
  Proof.
    intros x y S. unfold sstep in S. destruct (dead x) eqn:D; [discriminate|].
    destruct (pc x) eqn:P; try discriminate S; repeat dm S; injection S as <-; cbn [set_pc set_rq code ret pc term sv]; eauto 10.
  Qed.

  Definition value (p : lpc) : Z := match p with LFinish v | LFinishing v => v | _ => 0 end.

  (** The loop has seen an exit handled and no shutdown. *)
  Definition saw (input : list json) (a : list sev) : Prop :=
    exists y, run step (sys0 input) a = Some y /\ pc y = LCheckShut /\
      exited (sv y) = true /\ shut (sv y) = false.

  Definition hist (input : list json) (es : list sev) (x : sys) : Prop :=
    (code x = None -> term x = false) /\
    (ret x = 0 \/ ret x = 1)%Z /\ (value (pc x) = 0 \/ value (pc x) = 1)%Z /\
    (pc x <> LReturned -> ret x = 0%Z) /\
    (pc x = LCheckShut -> dead x = false -> exited (sv x) = true) /\
    (code x = None -> (value (pc x) = 1 \/ ret x = 1)%Z -> exists a b, es = a ++ SLsp :: b /\ saw input a) /\
    (forall c, code x = Some c -> exists a b z, es = a ++ SEof :: b /\
       run step (sys0 input) a = Some z /\ code z = None /\ c = ret z).

  Lemma hist_run : forall input es x, run step (sys0 input) es = Some x -> hist input es x.
  Proof.
    intros input. induction es as [|e es IH] using rev_ind; intros x R.
    - injection R as <-. unfold hist. cbn. repeat split; auto; try discriminate. intros _ [H|H]; discriminate.
    - rewrite run_app in R. destruct (run step (sys0 input) es) as [y|] eqn:E; [|discriminate].
      cbn [run] in R. destruct (step y e) as [z|] eqn:Q; [|discriminate]. injection R as <-.
      destruct (IH y eq_refl) as (T & Rt & V & NR & CS & H1 & H2).
      assert (G1 : code z = None -> (exists a b, es = a ++ SLsp :: b /\ saw input a) ->
                   exists a b, es ++ [e] = a ++ SLsp :: b /\ saw input a).
      { intros _ (a & b & -> & K). exists a, (b ++ [e]). split; [now rewrite <- app_assoc|exact K]. }
      assert (G2 : forall c, code y = Some c -> exists a b w, es ++ [e] = a ++ SEof :: b /\
                   run step (sys0 input) a = Some w /\ code w = None /\ c = ret w).
      { intros c C. destruct (H2 c C) as (a & b & w & -> & K). exists a, (b ++ [e]), w.
        split; [now rewrite <- app_assoc|exact K]. }
      destruct (sinv_run answer sync init_rest input (es ++ [e]) z) as (_ & _ & RS & _).
      { rewrite run_app, E. cbn [run]. now rewrite Q. }
      assert (EL : e = SEof \/ e = SLsp \/ e = STerm \/ (e <> SEof /\ e <> SLsp /\ e <> STerm)).
      { destruct e; auto 6; right; right; right; repeat split; discriminate. }
      destruct EL as [->|[->|[->|(N1 & N2 & N3)]]].
      + destruct (step_eof _ _ Q) as (A1 & A2 & A3 & A4 & A5 & A6).
        unfold hist. rewrite A2, A3, A4, A5. refine (conj _ (conj Rt (conj V (conj NR (conj _ (conj _ _)))))).
        * discriminate.
        * intros P D. rewrite <- A4 in P. auto.
        * discriminate.
        * intros c C. injection C as <-. exists es, [], y. auto.
      + destruct (step_lsp _ _ Q) as (A1 & A2 & A3 & A0 & A4).
        unfold hist. rewrite A1, A2.
        refine (conj T (conj _ (conj _ (conj _ (conj RS (conj _ G2)))))).
        * destruct (pc y) eqn:P; try (destruct A4 as [-> _]; assumption); try contradiction. 
        * destruct (pc y) eqn:P; try contradiction; destruct A4 as [_ A4].
          -- destruct A4 as [[-> _]|[j ->]]; cbn; auto.
          -- destruct A4 as [->| ->]; cbn; auto.
          -- rewrite A4. destruct (exited (sv y)); cbn; auto.
          -- rewrite A4. destruct (shut (sv y)); cbn; auto.
          -- rewrite A4. exact V.
          -- rewrite A4. cbn. auto.
        * intros N. destruct (pc y) eqn:P; try contradiction; destruct A4 as [A4 A5];
            try (rewrite A4; apply NR; discriminate). congruence.
        * intros C W. rewrite A1 in G1.
          assert (OLD : (value (pc y) = 1 \/ ret y = 1)%Z -> exists a b, es ++ [SLsp] = a ++ SLsp :: b /\ saw input a) by auto.
          destruct (pc y) eqn:P; try contradiction; destruct A4 as [A4 A5].
          -- rewrite A4 in W. destruct A5 as [[A5 A6]|[j A5]].
             ++ rewrite T in A6 by assumption. discriminate.
             ++ rewrite A5 in W. apply OLD. destruct W as [W|W]; [discriminate W|auto].
          -- rewrite A4 in W. apply OLD. destruct W as [W|W]; [destruct A5 as [A5|A5]; rewrite A5 in W; discriminate W|auto].
          -- rewrite A4 in W. apply OLD. destruct W as [W|W]; [rewrite A5 in W; destruct (exited (sv y)); discriminate W|auto].
          -- rewrite A4, A5 in W. destruct (shut (sv y)) eqn:SH.
             ++ apply OLD. destruct W as [W|W]; [discriminate W|auto].
             ++ exists es, []. split; [reflexivity|]. exists y. auto.
          -- rewrite A4, A5 in W. apply OLD. exact W.
          -- rewrite A4, A5 in W. apply OLD. destruct W as [W|W]; [discriminate W|auto].
      + destruct (step_term _ _ Q) as (A0 & A1 & A2 & A3 & A4 & A5).
        unfold hist. rewrite A1, A2, A3. refine (conj _ (conj Rt (conj V (conj NR (conj _ (conj _ G2)))))).
        * contradiction.
        * intros P D. rewrite <- A3 in P. auto.
        * contradiction.
      + destruct (step_other _ _ _ Q N1 N2 N3) as (A1 & A2 & A3 & A4 & A5).
        unfold hist. rewrite A1, A2, A3, A4.
        refine (conj T (conj Rt (conj V (conj NR (conj _ (conj _ G2)))))).
        * intros P D. rewrite <- A3 in P. auto.
        * intros C W. rewrite A1 in G1. auto.
  Qed.

  (** Code and result never change once set. *)
  Lemma code_stays : forall es x y c, run step x es = Some y -> code x = Some c -> code y = Some c.
  Proof.
    intros es x y c R C. refine (run_inv _ _ step (fun z => code z = Some c) _ es x y C R).
    intros s e s' H Q.
    assert (EL : e = SEof \/ e = SLsp \/ e = STerm \/ (e <> SEof /\ e <> SLsp /\ e <> STerm)).
    { destruct e; auto 6; right; right; right; repeat split; discriminate. }
    destruct EL as [->|[->|[->|(N1 & N2 & N3)]]].
    - apply step_eof in Q as (A1 & _). congruence.
    - apply step_lsp in Q as (A1 & _). congruence.
    - apply step_term in Q as (_ & A1 & _). congruence.
    - apply step_other in Q as (A1 & _); auto. congruence.
  Qed.

  Definition leaving (x : sys) : Prop :=
    pc x = LFinish 1 \/ pc x = LFinishing 1 \/ (pc x = LReturned /\ ret x = 1%Z).
  Lemma leaving_stays : forall es x y, run step x es = Some y -> leaving x -> leaving y.
  Proof.
    intros es x y R C. refine (run_inv _ _ step leaving _ es x y C R).
    intros s e s' H Q. unfold leaving in *.
    assert (EL : e = SEof \/ e = SLsp \/ e = STerm \/ (e <> SEof /\ e <> SLsp /\ e <> STerm)).
    { destruct e; auto 6; right; right; right; repeat split; discriminate. }
    destruct EL as [->|[->|[->|(N1 & N2 & N3)]]].
    - apply step_eof in Q as (_ & _ & -> & -> & _). exact H.
    - apply step_lsp in Q as (_ & _ & _ & _ & A). destruct H as [H|[H|[H _]]]; rewrite H in A.
      + right. left. apply A.
      + right. right. split; apply A.
      + contradiction.
    - apply step_term in Q as (_ & _ & -> & -> & _). exact H.
    - apply step_other in Q as (_ & -> & -> & _); auto.
  Qed.

  Lemma code_exactly : forall input es x c,
    run step (sys0 input) es = Some x -> code x = Some c ->
    (c = 0 \/ c = 1)%Z /\
    (c = 1%Z <-> exists a b d z, es = a ++ SLsp :: b ++ SEof :: d /\ saw input a /\
       run step (sys0 input) (a ++ SLsp :: b) = Some z /\ pc z = LReturned).
  Proof.
    intros input es x c R C.
    destruct (hist_run input es x R) as (_ & _ & _ & _ & _ & _ & H2).
    destruct (H2 c C) as (a & d & z & E & Rz & Cz & ->).
    destruct (hist_run input a z Rz) as (_ & Rt & _ & NR & _ & H1 & _).
    split; [exact Rt|]. split.
    - intros One. destruct (H1 Cz (or_intror One)) as (a1 & b & Ea & S). subst a.
      exists a1, b, d, z. split; [rewrite E, <- app_assoc; reflexivity|]. split; [exact S|]. split; [exact Rz|].
      destruct (pc z) eqn:P; try reflexivity; exfalso; rewrite NR in One by discriminate; discriminate.
    - intros (a' & b & d' & z' & E' & (y & Ry & Py & Ey & Sy) & Rz' & Pz').
      assert (L : leaving z').
      { rewrite run_app, Ry in Rz'. cbn [run] in Rz'. destruct (step y SLsp) as [y1|] eqn:Q; [|discriminate].
        refine (leaving_stays _ _ _ Rz' _). apply step_lsp in Q as (_ & _ & _ & _ & A). rewrite Py, Sy in A.
        left. apply A. }
      destruct L as [L|[L|[_ L]]]; try congruence.
      assert (K : code x = Some (ret z')).
      { replace es with ((a' ++ SLsp :: b) ++ SEof :: d') in R by (rewrite E', <- app_assoc; reflexivity).
        rewrite run_app, Rz' in R. cbn [run] in R. destruct (step z' SEof) as [z2|] eqn:Q; [|discriminate].
        apply step_eof in Q as (_ & Q & _). exact (code_stays _ _ _ _ R Q). }
      congruence.
  Qed.

  (** The loop leaves only after an exit was handled or the queue was closed. *)
  Definition told (x : sys) : Prop :=
    match pc x with LCheckShut | LFinish _ | LFinishing _ | LReturned => True | _ => False end ->
    exited (sv x) = true \/ term x = true.
  Lemma told_run : forall input es x, run step (sys0 input) es = Some x -> told x.
  Proof.
    intros input es x R. refine (run_inv _ _ step told _ es (sys0 input) x _ R); [|intros []].
    intros s e s' H Q. unfold told in *.
    assert (EL : e = SEof \/ e = SLsp \/ e = STerm \/ (e <> SEof /\ e <> SLsp /\ e <> STerm)).
    { destruct e; auto 6; right; right; right; repeat split; discriminate. }
    destruct EL as [->|[->|[->|(N1 & N2 & N3)]]].
    - apply step_eof in Q as (_ & _ & _ & -> & -> & ->). exact H.
    - apply step_lsp in Q as (_ & -> & -> & _ & A). destruct (pc s) eqn:P; try contradiction; destruct A as [_ A].
      + destruct A as [[-> A]|[j ->]]; auto.
      + destruct A as [->| ->]; intros [].
      + rewrite A. destruct (exited (sv s)); auto.
      + rewrite A. auto.
      + rewrite A. auto.
      + rewrite A. auto.
    - apply step_term in Q as (_ & _ & _ & _ & -> & _). auto.
    - apply step_other in Q as (_ & _ & -> & -> & A); auto. intros K. destruct (H K); auto.
  Qed.

  Hypothesis A_ok : forall m p, answer m p <> Undef.
  Hypothesis S_ok : forall m p, snd (sync m p) <> Undef.
  Hypothesis I_ok : forall p, init_rest p <> Undef.

  Lemma accept_got : forall x j m, dead x = false -> pc x = LGot j -> to_msg j = Some m -> fin (rq x) = FNone ->
    exists y, step x SLsp = Some y /\ acc y = acc x ++ [j] /\ pc y = LCheckExit /\ q y = q x /\
      sv y = sv x /\ dead y = false /\ fin (rq y) = FNone.
  Proof.
    intros x j m D P T F. unfold sstep. rewrite D, P, T. cbn [Req_Model.step]. rewrite F.
    eexists. split; [reflexivity|]. cbn. auto 8.
  Qed.

  Lemma accepts_next : forall input es x j rest,
    Forall (fun j => well_formed j /\ names_document j) input ->
    run step (sys0 input) es = Some x -> exited (sv x) = false -> term x = false -> q x = j :: rest ->
    exists n y, n <= 4 /\ run step x (repeat SLsp n) = Some y /\
      acc y = acc x ++ (match pc x with LGot i => [i] | _ => [] end) ++ [j] /\ q y = rest.
  Proof.
    intros input es x j rest F R X T Q.
    pose proof (told_run input es x R) as TO. unfold told in TO.
    destruct (sinv_run answer sync init_rest input es x R) as (_ & O & _). unfold order in O.
    assert (AL : alive x).
    { refine (run_inv _ _ step alive _ es (sys0 input) x _ R).
      - intros; eapply alive_step; eauto.
      - repeat split; cbn; auto. discriminate. }
    destruct AL as (D & NF & _ & B). rewrite Q in B.
    assert (READ : forall z, dead z = false -> pc z = LRead -> q z = j :: rest -> fin (rq z) = FNone ->
      exists y, run step z [SLsp; SLsp] = Some y /\ acc y = acc z ++ [j] /\ q y = rest).
    { intros z Dz Pz Qz Fz.
      assert (S0 : exists z1, step z SLsp = Some z1 /\ pc z1 = LGot j /\ q z1 = rest /\ acc z1 = acc z /\
                   dead z1 = false /\ fin (rq z1) = FNone).
      { unfold sstep. rewrite Dz, Pz, Qz. eexists. split; [reflexivity|]. cbn. auto 8. }
      destruct S0 as (z1 & T1 & T2 & T3 & T4 & T5 & T6).
      assert (NJ : to_msg j <> None).
      { apply Forall_app in B as [_ B]. apply Forall_app in B as [B _]. inversion B; subst. now apply to_msg_total. }
      destruct (to_msg j) as [m|] eqn:TM; [|easy].
      destruct (accept_got z1 j m T5 T2 TM T6) as (y & S1 & S2 & S3 & S4 & _).
      exists y. cbn [run]. rewrite T1, S1. split; [reflexivity|]. split; congruence. }
    destruct (pc x) eqn:P; try (destruct TO; [exact Logic.I|congruence|congruence]); try (now destruct NF).
    - destruct (O Logic.I) as (O1 & _). destruct (READ x D P Q O1) as (y & Y1 & Y2 & Y3). exists 2, y. cbn [repeat]. auto.
    - destruct (O Logic.I) as (O1 & _).
      assert (NJ : to_msg j0 <> None).
      { cbn [held app] in B. inversion B; subst. now apply to_msg_total. }
      destruct (to_msg j0) as [m|] eqn:TM; [|easy].
      destruct (accept_got x j0 m D P TM O1) as (y1 & S1 & S2 & S3 & S4 & S5 & S6 & S7).
      assert (S8 : step y1 SLsp = Some (set_pc LRead y1)).
      { unfold sstep. rewrite S6, S3, S5, X. reflexivity. }
      destruct (READ (set_pc LRead y1) S6 eq_refl) as (y & Y1 & Y2 & Y3); [cbn; congruence|exact S7|].
      exists 4, y. split; [lia|]. split.
      { change (repeat SLsp 4) with ([SLsp] ++ [SLsp] ++ [SLsp; SLsp]). cbn [app run]. rewrite S1, S8. exact Y1. }
      split; [|exact Y3]. rewrite Y2. cbn [set_pc acc]. rewrite S2. now rewrite <- app_assoc.
    - destruct (O Logic.I) as (O1 & _).
      assert (S8 : step x SLsp = Some (set_pc LRead x)).
      { unfold sstep. rewrite D, P, X. reflexivity. }
      destruct (READ (set_pc LRead x) D eq_refl Q O1) as (y & Y1 & Y2 & Y3).
      exists 3, y. split; [lia|]. split; [cbn [repeat run]; rewrite S8; exact Y1|]. auto.
  Qed.
End P.
