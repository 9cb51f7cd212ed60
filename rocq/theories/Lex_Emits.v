(** Tokens given one after another. *)
From Coq Require Import List NArith Bool Arith Lia ZifyBool ZifyNat ZifyN.
From Verif Require Import Common Lex_Model Lex_Spec Lex_Proof Lex_Funs Lex_Words Lex_Main Lex_Insert.
Import ListNotations.

Set Default Proof Using "All".
Section Emits.
Variable unlimited : bool.
Variable text : list char.
Variable wide_space : char -> bool.
Notation size := (length text).
Notation plain := (plain text).
Notation pos s := (index (file s)).
Notation fits := (fits text wide_space).
Notation ready := (ready text wide_space).
Notation next := (next_token wide_space unlimited).
Notation emits := (emits wide_space unlimited).

Lemma plain_initial : plain (initial text).
Proof.
  unfold Lex_Proof.plain. refine (conj eq_refl (conj eq_refl (conj eq_refl (conj (here_initial text) (conj (or_introl eq_refl) (conj _ _)))))); constructor.
Qed.
Lemma ready_initial : ready (initial text).
Proof. left. right. split; reflexivity. Qed.

(** What holds when [ts] have been given. *)
Definition given (ts : list token) (s : lexer) : Prop :=
  plain s /\ chain 0 (ts ++ queue s) (pos s) /\ Forall (tok_ok text) ts /\
  (unlimited = false -> ready s /\ Forall fits (ts ++ queue s)).
Lemma given_initial : given [] (initial text).
Proof. split; [exact plain_initial|]. split; [constructor|]. split; [constructor|]. intros _. split; [exact ready_initial|constructor]. Qed.
Lemma with_queue_plain : forall t q s, plain s -> queue s = t :: q -> plain (with_queue q s) /\ tok_ok text t.
Proof.
  intros t q s (A & B & C & D & E & F & G) Q. rewrite Q in F. pose proof (Forall_inv F). apply Forall_inv_tail in F.
  split; [|assumption]. unfold Lex_Proof.plain. cbn. exact (conj A (conj B (conj C (conj D (conj E (conj F G)))))).
Qed.
Lemma given_pop : forall ts t q s, given ts s -> queue s = t :: q -> given (ts ++ [t]) (with_queue q s).
Proof.
  intros ts t q s (P & Ch & T & L) Q. destruct (with_queue_plain t q s P Q) as [P' T']. rewrite Q in Ch, L.
  split; [exact P'|]. rewrite <- app_assoc. cbn [with_queue queue file app]. split; [exact Ch|]. split; [|exact L].
  apply Forall_app. split; [exact T|]. constructor; [exact T'|constructor].
Qed.
Lemma given_lex : forall ts s, given ts s -> exists s' us, lex wide_space unlimited s = Some s' /\ lexes unlimited text wide_space s s' us /\ given ts s'.
Proof.
  intros ts s (P & Ch & T & L). destruct (lex_main unlimited text wide_space s P) as (s' & us & W & X).
  exists s', us. split; [exact W|]. split; [exact X|]. destruct X as (P' & Q & Ch' & _ & _ & R).
  split; [exact P'|]. rewrite Q, app_assoc. split; [eapply chain_app; eassumption|]. split; [exact T|].
  intros U. destruct (L U) as [L1 L2]. destruct (R U L1) as [R1 R2]. split; [exact R1|]. apply Forall_app. auto.
Qed.
Lemma given_next : forall n ts s t s', given ts s -> next n s = Some (t, s') -> given (ts ++ [t]) s'.
Proof.
  induction n as [|n IH]; intros ts s t s' G H; cbn in H; destruct (queue s) as [|u q] eqn:Q; try discriminate.
  - injection H as -> <-. now apply given_pop.
  - destruct (given_lex ts s G) as (s1 & us & W & _ & G1). rewrite W in H. eapply IH; eassumption.
  - injection H as -> <-. now apply given_pop.
Qed.
Lemma emits_given : forall s0 ts s, emits s0 ts s -> forall us, given us s0 -> given (us ++ ts) s.
Proof.
  intros s0 ts s H. induction H as [s0|s0 ts s1 n t s2 H IH N]; intros us G.
  - now rewrite app_nil_r.
  - rewrite app_assoc. eapply given_next; [|exact N]. now apply IH.
Qed.
Lemma emits_initial : forall ts s, emits (initial text) ts s -> given ts s.
Proof. intros ts s H. exact (emits_given _ _ _ H [] given_initial). Qed.

(** One more piece always is enough. *)
Lemma next_one : forall ts s, given ts s -> exists t s', next 1 s = Some (t, s').
Proof.
  intros ts s G. cbn. destruct (queue s) as [|u q] eqn:Q; [|eauto].
  destruct (given_lex ts s G) as (s1 & us & W & (P' & Q' & Ch & En & Mo & _) & _). rewrite W. rewrite Q in Q'. cbn in Q'. rewrite Q'.
  destruct us as [|t us]; [|eauto]. exfalso. destruct (c s) as [x|] eqn:C.
  - destruct Mo as (_ & X & _); congruence.
  - destruct (En eq_refl) as (_ & u & v & X & _). discriminate X.
Qed.

(** ** The end comes *)
Lemma emits_trans : forall a ts b us d, emits a ts b -> emits b us d -> emits a (ts ++ us) d.
Proof.
  intros a ts b us d H K. induction K as [|b us s' n t s'' K IH N]; [now rewrite app_nil_r|]. rewrite app_assoc. eapply emits_snoc; [now apply IH|exact N].
Qed.
Lemma drain : forall s, exists s', emits s (queue s) s' /\ queue s' = [] /\ file s' = file s /\ c s' = c s.
Proof.
  intros s. remember (queue s) as q eqn:Q. revert s Q. induction q as [|t q IH]; intros s Q.
  - exists s. split; [constructor|]. auto.
  - destruct (IH (with_queue q s) eq_refl) as (s' & E & Q' & F & C). exists s'. split; [|split; [exact Q'|split; [exact F|exact C]]].
    change (t :: q) with ([t] ++ q). eapply emits_trans; [|exact E]. change [t] with ([] ++ [t]). eapply (emits_snoc _ _ s [] s 0); [constructor|]. cbn. now rewrite <- Q.
Qed.
(** Lexing a piece and giving its tokens. *)
Lemma emits_piece : forall s s' us, queue s = [] -> us <> [] -> queue s' = us -> lex wide_space unlimited s = Some s' ->
  exists s'', emits s us s'' /\ queue s'' = [] /\ file s'' = file s' /\ c s'' = c s'.
Proof.
  intros s s' us Q N Q' W. destruct us as [|t us]; [congruence|].
  destruct (drain (with_queue us s')) as (s'' & E & A & B & C). exists s''. split; [|split; [exact A|split; [exact B|exact C]]].
  change (t :: us) with ([t] ++ us). eapply emits_trans; [|exact E]. change [t] with ([] ++ [t]).
  eapply (emits_snoc _ _ s [] s 1); [constructor|]. cbn. rewrite Q, W, Q'. reflexivity.
Qed.
Definition visible_eof (t : token) : Prop := hidden t = false /\ ty t = EOF.
Lemma reaches_end : forall n ts s, given ts s -> queue s = [] -> size - pos s <= n ->
  exists us t s', emits s (us ++ [t]) s' /\ visible_eof t /\ Forall (fun u => ~ visible_eof u) us /\ queue s' = [] /\ pos s' = size /\ c s' = None /\ start t = size /\ stop t = size.
Proof.
  induction n as [n IH] using lt_wf_ind. intros ts s G Q Hn.
  destruct (given_lex ts s G) as (s1 & us & W & X & G1). pose proof X as (P1 & Q1 & Ch & En & Mo & _). rewrite Q in Q1. cbn in Q1.
  pose proof G as (P & _). destruct (c s) as [x|] eqn:C.
  - destruct (Mo ltac:(congruence)) as (L & Ne & F). destruct (plain_some text s x P C) as [_ Z].
    destruct (emits_piece s s1 us Q Ne Q1 W) as (s2 & E & Q2 & F2 & C2).
    pose proof (plain_size text s1 P1) as Z1.
    assert (G2 : given (ts ++ us) s2) by (apply (emits_given s us s2 E ts G)).
    destruct (IH (size - pos s1) ltac:(lia) (ts ++ us) s2 G2 Q2 ltac:(rewrite F2; lia)) as (vs & t & s3 & E3 & T & F3 & R).
    exists (us ++ vs), t, s3. split; [rewrite <- app_assoc; eapply emits_trans; eassumption|]. split; [exact T|]. split; [|exact R].
    apply Forall_app. split; [|exact F3]. eapply Forall_impl; [|exact F]. intros u Hu [V1 V2]. now apply Hu.
  - destruct (En eq_refl) as (Ep & u & v & Eu & T1 & T2 & T3).
    destruct (emits_piece s s1 us Q ltac:(congruence) Q1 W) as (s2 & E & Q2 & F2 & C2).
    exists [u], v, s2. rewrite Eu in E. split; [exact E|]. split; [split; assumption|]. split; [constructor; [|constructor]; intros [_ Y]; congruence|].
    split; [exact Q2|]. rewrite (plain_c text s P) in C. apply nth_error_None in C. pose proof (plain_size text s P).
    rewrite F2, Ep. split; [lia|]. split; [rewrite C2, (plain_c text s1 P1), Ep; apply nth_error_None; lia|].
    destruct (chain_range _ _ _ Ch) as [_ Rg]. rewrite Eu, Ep in Rg. apply Forall_inv_tail, Forall_inv in Rg. lia.
Qed.

(** The end of the file is given at the end only. *)
Definition ends_well (t : token) : Prop := visible_eof t -> start t = size.
Lemma lexes_eof : forall s s' us, plain s -> lexes unlimited text wide_space s s' us -> Forall ends_well us.
Proof.
  intros s s' us P (_ & _ & Ch & En & Mo & _). destruct (c s) as [x|] eqn:C.
  - destruct (Mo ltac:(congruence)) as (_ & _ & F). eapply Forall_impl; [|exact F]. intros u Hu [V1 V2]. exfalso. now apply Hu.
  - destruct (En eq_refl) as (Ep & _). rewrite (plain_c text s P) in C. apply nth_error_None in C. pose proof (plain_size text s P).
    destruct (chain_range _ _ _ Ch) as [_ R]. eapply Forall_impl; [|exact R]. cbn. intros u Hu _. lia.
Qed.
Lemma next_eof : forall n ts s t s', given ts s -> Forall ends_well (queue s) -> next n s = Some (t, s') -> ends_well t /\ Forall ends_well (queue s').
Proof.
  induction n as [|n IH]; intros ts s t s' G F H; cbn in H; destruct (queue s) as [|u q] eqn:Q; try discriminate.
  - injection H as -> <-. split; [exact (Forall_inv F)|exact (Forall_inv_tail F)].
  - destruct (given_lex ts s G) as (s1 & us & W & X & G1). rewrite W in H. eapply (IH ts s1); [exact G1| |exact H].
    pose proof G as (P & _). pose proof (lexes_eof s s1 us P X) as Y. destruct X as (_ & Q1 & _). rewrite Q1, Q. exact Y.
  - injection H as -> <-. split; [exact (Forall_inv F)|exact (Forall_inv_tail F)].
Qed.
Lemma emits_eof : forall ts s, emits (initial text) ts s -> Forall ends_well ts /\ Forall ends_well (queue s).
Proof.
  intros ts s H. remember (initial text) as s0 eqn:E0. induction H as [s0|s0 ts s1 n t s2 H IH N].
  - subst s0. split; constructor.
  - destruct (IH E0) as [A B]. subst s0. destruct (next_eof n ts s1 t s2 (emits_initial ts s1 H) B N) as [C D].
    split; [|exact D]. apply Forall_app. split; [exact A|]. constructor; [exact C|constructor].
Qed.
Lemma chain_before : forall a us b, chain a us b -> forall l1 t l2, us = l1 ++ t :: l2 -> forall p, a <= p < start t -> exists u, In u l1 /\ start u <= p < stop u.
Proof.
  intros a us b H. induction H as [a|v ts b L H IH|v u ts b L T1 T2 S1 S2 H IH]; intros l1 t l2 E p Hp.
  - destruct l1; discriminate.
  - destruct l1 as [|w l1]; cbn in E; injection E as -> E; [lia|].
    destruct (lt_dec p (stop w)); [exists w; split; [now left|lia]|]. destruct (IH l1 t l2 E p ltac:(lia)) as (y & I & Y). exists y. split; [now right|exact Y].
  - destruct l1 as [|w l1]; cbn in E; injection E as -> E; [lia|]. destruct l1 as [|w' l1]; cbn in E; injection E as -> E; [lia|].
    destruct (lt_dec p (stop w)); [exists w; split; [now left|lia]|]. destruct (IH l1 t l2 E p ltac:(lia)) as (y & I & Y). exists y. split; [right; now right|exact Y].
Qed.
Lemma chain_once : forall a us b, chain a us b -> forall i j t u p, i < j -> nth_error us i = Some t -> nth_error us j = Some u ->
  start t <= p < stop t -> start u <= p < stop u -> j = S i /\ ty t = EOLLN /\ ty u = IGNORED /\ start u = start t /\ stop u = stop t.
Proof.
  intros a us b H. induction H as [a|v ts b L H IH|v u' ts b L T1 T2 S1 S2 H IH]; intros i j t u p Lt Hi Hj Pt Pu.
  - destruct i; discriminate.
  - destruct (chain_range _ _ _ H) as [_ R]. rewrite Forall_forall in R. destruct j as [|j]; [lia|]. cbn in Hj.
    destruct i as [|i]; cbn in Hi.
    + injection Hi as ->. specialize (R u (nth_error_In _ _ Hj)). lia.
    + destruct (IH i j t u p ltac:(lia) Hi Hj Pt Pu) as (X & Y). split; [lia|exact Y].
  - destruct (chain_range _ _ _ H) as [_ R]. rewrite Forall_forall in R. destruct j as [|[|j]]; [lia| |]; cbn in Hj.
    + destruct i; [|lia]. cbn in Hi. injection Hi as ->. injection Hj as ->. auto.
    + destruct i as [|[|i]]; cbn in Hi.
      * injection Hi as ->. specialize (R u (nth_error_In _ _ Hj)). lia.
      * injection Hi as ->. specialize (R u (nth_error_In _ _ Hj)). lia.
      * destruct (IH i j t u p ltac:(lia) Hi Hj Pt Pu) as (X & Y). split; [lia|exact Y].
Qed.
(** Nothing is left out when it was given. *)
Lemma all_covered : forall ts s t, emits (initial text) ts s -> In t ts -> visible_eof t -> forall p, p < size -> exists u, In u ts /\ start u <= p < stop u.
Proof.
  intros ts s t E I V p L. destruct (emits_eof ts s E) as [A _]. rewrite Forall_forall in A. pose proof (A t I V) as St.
  destruct (emits_initial ts s E) as (_ & Ch & _). destruct (in_split t ts I) as (l1 & l2 & ->). rewrite <- app_assoc in Ch. cbn in Ch.
  destruct (chain_before _ _ _ Ch l1 t _ eq_refl p ltac:(lia)) as (u & Iu & U). exists u. split; [apply in_or_app; now left|exact U].
Qed.

(** ** Reading while lexing *)
Lemma column_index : forall k, k <= size -> column_of text k <= k /\ (0 < column_of text k -> nth_error text (k - 1) <> Some LF).
Proof.
  induction k as [|k IH]; intros L; [change (column_of text 0) with 0; lia|].
  destruct (nth_error text k) as [x|] eqn:E; [|apply nth_error_None in E; lia].
  rewrite (column_of_S _ _ _ E). replace (S k - 1) with k by lia. rewrite E. destruct (IH ltac:(lia)) as [A _].
  destruct (x =? LF)%N eqn:X; [lia|]. split; [lia|]. intros _ Y. injection Y as ->. discriminate.
Qed.
Lemma plain_reads : forall s, plain s -> reads_as text {| records := []; source := source_lines (skipn (pos s - column_of text (pos s)) text) |} s.
Proof.
  intros s (_ & Pe & B & (D & Ix & _ & Co & _) & _). unfold reads_as. rewrite D, B, Pe, Co. cbn.
  destruct (column_index (pos s) Ix) as [A A']. repeat split; auto.
Qed.

Lemma chain_covers : forall a ts b, chain a ts b -> forall p, a <= p < b -> exists t, In t ts /\ start t <= p < stop t.
Proof.
  intros a ts b H. induction H as [a|t ts b L H IH|t u ts b L T1 T2 S1 S2 H IH]; intros p Hp; [lia| |].
  - destruct (lt_dec p (stop t)); [exists t; split; [now left|lia]|]. destruct (IH p ltac:(lia)) as (v & I & V). exists v. split; [now right|exact V].
  - destruct (lt_dec p (stop t)); [exists t; split; [now left|lia]|]. destruct (IH p ltac:(lia)) as (v & I & V). exists v. split; [right; now right|exact V].
Qed.
End Emits.
