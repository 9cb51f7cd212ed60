(** * Mdl_Proof: readings keep the text *)
From Coq Require Import List NArith Bool Arith Lia.
From Verif Require Import Common Mdl_Model Mdl_Spec.
Import ListNotations.

(** ** What a reading says, and when there is one *)
Section Comb.
Variable R : Type.
Notation P := (P R).

Definition Sound {A} (p : P A) (W : A -> list tok -> Prop) : Prop := forall ts k x, p ts k = Some x ->
  exists a q r, ts = q ++ r /\ W a q /\ k a r = Some x.
Definition Acc {A} (p : P A) (q : list tok) : Prop := forall r k, (forall a, k a r <> None) -> p (q ++ r) k <> None.

Lemma sound_weaken : forall A (p : P A) (W V : A -> list tok -> Prop), Sound p W -> (forall a q, W a q -> V a q) -> Sound p V.
Proof. intros A p W V Hp HV ts k x E. destruct (Hp _ _ _ E) as (a & q & r & E1 & HW & E2). eauto 8. Qed.
Lemma one_s : forall A (f : tok -> option A), Sound (one R f) (fun a q => exists t, q = [t] /\ f t = Some a).
Proof.
  intros A f ts k x E. destruct ts as [|t r]; cbn in E; [discriminate|]. destruct (f t) as [a|] eqn:F; [|discriminate].
  exists a, [t], r. eauto.
Qed.
Lemma bind_s : forall A B (p : P A) (f : A -> P B) W (U : B -> list tok -> Prop),
  Sound p W -> (forall a l, W a l -> Sound (f a) (fun b l' => U b (l ++ l'))) -> Sound (bind R p f) U.
Proof.
  intros A B p f W U Hp Hf ts k x E. unfold bind in E. destruct (Hp _ _ _ E) as (a & q & r & -> & HW & E2).
  destruct (Hf _ _ HW _ _ _ E2) as (b & q' & r' & -> & HU & E3). exists b, (q ++ q'), r'. rewrite app_assoc. auto.
Qed.
Lemma ret_s : forall A (a : A) (U : A -> list tok -> Prop), U a [] -> Sound (ret R a) U.
Proof. intros A a U H ts k x E. exists a, [], ts. auto. Qed.
Lemma alt_s : forall A (p q : P A) W, Sound p W -> Sound q W -> Sound (alt R p q) W.
Proof.
  intros A p q W Hp Hq ts k x E. unfold alt, orelse in E. destruct (p ts k) as [y|] eqn:F.
  - injection E as <-. eauto.
  - eauto.
Qed.
Definition Many {A} (W : A -> list tok -> Prop) (l : list A) (q : list tok) : Prop :=
  exists qs, q = concat qs /\ Forall2 W l qs.
Lemma star_s : forall A (p : P A) W, Sound p W -> forall n, Sound (star R n p) (Many W).
Proof.
  intros A p W Hp. induction n as [|n IH]; intros ts k x E; cbn in E.
  - exists [], [], ts. split; [reflexivity|]. split; [exists []; auto|assumption].
  - unfold orelse in E. destruct (p ts _) as [y|] eqn:F.
    + injection E as <-. destruct (Hp _ _ _ F) as (a & q & r & -> & HW & E2).
      destruct (IH _ _ _ E2) as (l & q' & r' & -> & (qs & -> & HF) & E3).
      exists (a :: l), (q ++ concat qs), r'. rewrite app_assoc. split; [reflexivity|]. split; [|assumption].
      exists (q :: qs). auto.
    + exists [], [], ts. split; [reflexivity|]. split; [exists []; auto|assumption].
Qed.
Lemma many_s : forall A (p : P A) W, Sound p W -> Sound (many R p) (Many W).
Proof. intros A p W Hp ts k x E. exact (star_s _ _ _ Hp _ _ _ _ E). Qed.

Lemma ret_a : forall A (a : A), Acc (ret R a) [].
Proof. intros A a r k H. cbn. apply H. Qed.
Lemma one_a : forall A (f : tok -> option A) t, f t <> None -> Acc (one R f) [t].
Proof. intros A f t H r k Hk. cbn. destruct (f t); [apply Hk|congruence]. Qed.
Lemma bind_a : forall A B (p : P A) (f : A -> P B) q1 q2, Acc p q1 -> (forall a, Acc (f a) q2) -> Acc (bind R p f) (q1 ++ q2).
Proof.
  intros A B p f q1 q2 Hp Hf r k Hk. unfold bind. rewrite <- app_assoc. apply Hp. intro a. apply Hf. assumption.
Qed.
Lemma bind_a0 : forall A B (p : P A) (f : A -> P B) q, Acc p q -> (forall a, Acc (f a) []) -> Acc (bind R p f) q.
Proof. intros. rewrite <- (app_nil_r q). apply bind_a; assumption. Qed.
Lemma alt_al : forall A (p q : P A) l, Acc p l -> Acc (alt R p q) l.
Proof. intros A p q l H r k Hk. unfold alt, orelse. specialize (H r k Hk). destruct (p (l ++ r) k); congruence. Qed.
Lemma alt_ar : forall A (p q : P A) l, Acc q l -> Acc (alt R p q) l.
Proof. intros A p q l H r k Hk. unfold alt, orelse. destruct (p (l ++ r) k); [congruence|]. apply H. assumption. Qed.
Lemma star_a : forall A (p : P A) qs n, length (concat qs) <= n -> Forall (fun q => q <> [] /\ Acc p q) qs ->
  forall r k, (forall l, k l r <> None) -> star R n p (concat qs ++ r) k <> None.
Proof.
  induction qs as [|q qs IH]; intros n Hn HF r k Hk.
  - cbn [concat app]. destruct n; cbn; [apply Hk|]. unfold orelse. destruct (p r _); [congruence|apply Hk].
  - inversion HF as [|? ? [H1 H2] HF']; subst. cbn [concat] in *. rewrite app_length in Hn.
    destruct n; [destruct q; [congruence|cbn in Hn; lia]|]. cbn [star]. unfold orelse.
    match goal with |- match ?X with _ => _ end <> None => assert (HX : X <> None) end.
    { rewrite <- app_assoc. apply H2. intro a. apply IH; [|assumption|intro l; apply Hk].
      destruct q; [congruence|cbn in Hn; lia]. }
    match goal with |- match ?X with _ => _ end <> None => destruct X end; congruence.
Qed.
Lemma many_a : forall A (p : P A) qs, Forall (fun q => q <> [] /\ Acc p q) qs -> Acc (many R p) (concat qs).
Proof. intros A p qs HF r k Hk. apply star_a; auto. rewrite app_length. lia. Qed.
Lemma many_one_a : forall A (f : tok -> option A) q, Forall (fun t => f t <> None) q -> Acc (many R (one R f)) q.
Proof.
  intros A f q H. replace q with (concat (map (fun t => [t]) q)).
  - apply many_a. apply Forall_map. eapply Forall_impl; [|exact H]. intros t Ht. split; [discriminate|]. apply one_a. assumption.
  - induction q; cbn; [reflexivity|]. inversion H; subst. rewrite IHq by assumption. reflexivity.
Qed.

Lemma many_one_s : forall A (f : tok -> option A),
  Sound (many R (one R f)) (fun l q => Forall2 (fun a t => f t = Some a) l q).
Proof.
  intros A f. eapply sound_weaken; [apply many_s; apply one_s|]. intros l q (qs & -> & HF).
  induction HF as [|a q l qs (t & -> & H) HF IH]; cbn; constructor; assumption.
Qed.
Lemma texts_s : forall (f : tok -> option bytes),
  Sound (texts R f) (fun s q => exists l, s = concat l /\ Forall2 (fun a t => f t = Some a) l q).
Proof.
  intro f. unfold texts. eapply bind_s; [apply many_one_s|]. intros l q H. apply ret_s. cbn beta. rewrite app_nil_r. eauto.
Qed.
Lemma texts_a : forall (f : tok -> option bytes) q, Forall (fun t => f t <> None) q -> Acc (texts R f) q.
Proof. intros f q H. apply bind_a0; [apply many_one_a; assumption|]. intro a. apply ret_a. Qed.
Lemma many_nil_a : forall A (p : P A), Acc (many R p) [].
Proof. intros A p. apply (many_a _ _ []). constructor. Qed.
End Comb.

Arguments Sound {R A}. Arguments Acc {R A}.

(** ** Texts of tokens *)
Lemma common_ch_text : forall t s, common_ch t = Some s -> s = text t.
Proof. destruct t; cbn; congruence. Qed.
Lemma l_ch_text : forall t s, l_ch t = Some s -> s = text t.
Proof. destruct t; cbn; congruence. Qed.
Lemma l_sp_ch_text : forall t s, l_sp_ch t = Some s -> s = text t.
Proof. destruct t; cbn; congruence. Qed.
Lemma op_ch_text : forall t s, op_ch t = Some s -> s = text t.
Proof. destruct t; cbn; congruence. Qed.

Definition nonvar (t : tok) : Prop := is_var t = None.
Definition nonspace (t : tok) : Prop := match t with TSpace _ => False | _ => True end.
Definition nonapo (t : tok) : Prop := apo t = false.

Lemma written_app : forall p q, written (p ++ q) = written p ++ written q.
Proof. intros. unfold written. rewrite map_app, concat_app. reflexivity. Qed.
Lemma all_text : forall f, (forall t s, f t = Some s -> s = text t) -> forall l q,
  Forall2 (fun a t => f t = Some a) l q -> concat l = written q /\ Forall (fun t => f t <> None) q.
Proof.
  intros f Hf l q H. induction H as [|a t l q H HF [IH1 IH2]]; [split; [reflexivity|constructor]|].
  split.
  - unfold written in *. cbn. rewrite (Hf _ _ H), IH1. reflexivity.
  - constructor; [congruence|assumption].
Qed.
Lemma l_ch_kind : forall t, l_ch t <> None <-> nonvar t /\ nonspace t /\ nonapo t.
Proof. destruct t; unfold nonvar, nonspace, nonapo; cbn; split; intros; repeat split; try congruence; try tauto; try (destruct H as (?&?&?); congruence). Qed.
Lemma l_ch_v_kind : forall t, l_ch_v t <> None <-> nonspace t /\ nonapo t.
Proof. destruct t; unfold nonspace, nonapo; cbn; split; intros; repeat split; try congruence; try tauto; try (destruct H as (?&?); congruence). Qed.
Lemma l_sp_ch_kind : forall t, l_sp_ch t <> None <-> nonvar t /\ nonapo t.
Proof. destruct t; unfold nonvar, nonapo; cbn; split; intros; repeat split; try congruence; try tauto; try (destruct H as (?&?); congruence). Qed.
Lemma l_sp_ch_v_kind : forall t, l_sp_ch_v t <> None <-> nonapo t.
Proof. destruct t; unfold nonapo; cbn; split; intros; try congruence; try tauto. Qed.

Fixpoint after (b : bool) (q : list tok) : bool :=
  match q with [] => b | t :: r => after (match t with TVar _ => true | _ => false end) r end.
Fixpoint afterc (b : bool) (c : chain) : bool :=
  match c with [] => b | p :: r => afterc (match p with Var _ => true | _ => false end) r end.
Lemma substituted_app : forall value q b r, substituted value b (q ++ r) = substituted value b q ++ substituted value (after b q) r.
Proof.
  induction q as [|t q IH]; intros b r; [reflexivity|]. cbn [app after].
  destruct t; cbn [substituted]; rewrite ?IH, ?app_assoc; try reflexivity. destruct b; reflexivity.
Qed.
Lemma evaluate_app : forall value c b d, evaluate value b (c ++ d) = evaluate value b c ++ evaluate value (afterc b c) d.
Proof.
  induction c as [|t q IH]; intros b r; [reflexivity|]. cbn [app afterc].
  destruct t; cbn [evaluate]; rewrite ?IH, ?app_assoc; try reflexivity.
Qed.
Lemma after_app : forall q b r, after b (q ++ r) = after (after b q) r.
Proof. induction q; intros; cbn; auto. Qed.
Lemma afterc_app : forall q b r, afterc b (q ++ r) = afterc (afterc b q) r.
Proof. induction q; intros; cbn; auto. Qed.
Lemma clear_app : forall c d, clear_concat_chain (c ++ d) = clear_concat_chain c ++ clear_concat_chain d.
Proof. intros. unfold clear_concat_chain. apply filter_app. Qed.
Lemma clear_idem : forall c, clear_concat_chain (clear_concat_chain c) = clear_concat_chain c.
Proof.
  unfold clear_concat_chain. induction c as [|p c IH]; [reflexivity|]. destruct p as [[|]| | |]; cbn; rewrite ?IH; reflexivity.
Qed.

(** ** Chains that keep the text, wherever [G] holds *)
Section Keep.
Variable G : list tok -> Prop.
Hypothesis G_app : forall p q, G (p ++ q) -> G p /\ G q.
Hypothesis G_lexed : forall q, G q -> lexed q.

Definition W (b : bool) (c : chain) (q : list tok) : Prop := G q ->
  (forall value, evaluate value b (clear_concat_chain c) = substituted value b q) /\
  afterc b (clear_concat_chain c) = after b q.
Definition W1 (c : chain) (q : list tok) : Prop := forall b, W b c q.

Lemma W_nil : forall b, W b [] [].
Proof. intros b _. split; reflexivity. Qed.
Lemma W_app : forall b c d p q, W b c p -> W (after b p) d q -> W b (c ++ d) (p ++ q).
Proof.
  intros b c d p q H1 H2 HG. destruct (G_app _ _ HG) as [Gp Gq]. destruct (H1 Gp) as [E1 A1]. destruct (H2 Gq) as [E2 A2].
  rewrite clear_app. split.
  - intro value. rewrite evaluate_app, substituted_app, E1, A1, E2. reflexivity.
  - rewrite afterc_app, after_app, A1. assumption.
Qed.
Lemma W_clear : forall b c q, W b c q -> W b (clear_concat_chain c) q.
Proof. intros b c q H HG. rewrite clear_idem. exact (H HG). Qed.
Lemma written_substituted : forall value q, Forall nonvar q -> substituted value false q = written q.
Proof.
  induction q as [|t q IH]; intro H; [reflexivity|]. inversion H as [|? ? H1 H2]; subst.
  unfold written in *. destruct t; cbn in *; rewrite ?IH by assumption; try reflexivity. discriminate H1.
Qed.
Lemma after_nonvar : forall q b, Forall nonvar q -> q <> [] -> after b q = false.
Proof.
  induction q as [|t q IH]; intros b H Hq; [congruence|]. inversion H as [|? ? H1 H2]; subst. cbn.
  destruct q as [|u q]; [cbn; destruct t; cbn in *; [reflexivity..|discriminate]|]. apply IH; [assumption|discriminate].
Qed.
Definition starts (b : bool) (q : list tok) : Prop := b = false \/ forall r, q <> TDot :: r.
Lemma substituted_starts : forall value b q, starts b q -> substituted value b q = substituted value false q.
Proof.
  intros value b q [->|H]; [reflexivity|]. destruct q as [|t q]; [reflexivity|]. destruct t; try reflexivity.
  exfalso. exact (H _ eq_refl).
Qed.
Lemma W_str : forall b q, Forall nonvar q -> starts b q -> W b [Str (written q)] q.
Proof.
  intros b q H Hs HG. apply G_lexed in HG. destruct q as [|t q].
  - split; reflexivity.
  - assert (Hw : written (t :: q) <> []).
    { unfold written. cbn. inversion HG as [|? ? Ht ?]; subst. destruct (text t); [congruence|discriminate]. }
    cbn [clear_concat_chain filter]. destruct (written (t :: q)) as [|c w] eqn:E; [congruence|]. split.
    + intro value. cbn [evaluate]. rewrite app_nil_r, substituted_starts, written_substituted, E by assumption. reflexivity.
    + rewrite after_nonvar by (assumption || discriminate). reflexivity.
Qed.
Lemma W_apo : forall b t, apo t = true -> W b [Str [APO]] [t].
Proof. intros b t H _. destruct t; try discriminate; split; reflexivity. Qed.
Lemma W_var : forall b v, W b [Var v] [TVar v].
Proof. intros b v _. split; reflexivity. Qed.
Lemma W_point : forall b p t, op_ch_v t = Some p -> W b [p] [t].
Proof.
  intros b p t H HG. apply G_lexed in HG. inversion HG as [|? ? Ht _]; subst.
  destruct t as [w|w|w| | | | | | | | |w|w]; cbn in *; try discriminate; injection H as <-; try (split; destruct b; reflexivity);
    destruct w; try congruence; split; reflexivity.
Qed.
Lemma l_ch_v_op : forall t p, l_ch_v t = Some p -> op_ch_v t = Some p.
Proof. destruct t; cbn; congruence. Qed.
Lemma W_sp_point : forall b p t, l_sp_ch_v t = Some p -> W b [p] [t].
Proof.
  intros b p t H. destruct t as [| | | | | | | | | | |s|]; try (apply W_point; apply l_ch_v_op; exact H).
  cbn in H. injection H as <-. intro HG. apply G_lexed in HG. inversion HG as [|? ? Ht _]; subst. cbn in Ht.
  destruct s; [congruence|]. split; reflexivity.
Qed.
Lemma W_points : forall f, (forall b p t, f t = Some p -> W b [p] [t]) ->
  forall c q, Forall2 (fun p t => f t = Some p) c q -> forall b, W b c q.
Proof.
  intros f Hf c q H. induction H as [|p t c q H HF IH]; intro b; [apply W_nil|].
  change (p :: c) with ([p] ++ c). change (t :: q) with ([t] ++ q). apply W_app; auto.
Qed.
Lemma W_many : forall l q, Many W1 l q -> W1 (concat l) q.
Proof.
  intros l q (qs & -> & HF). induction HF as [|c q l qs H HF IH]; intro b; [apply W_nil|].
  cbn. apply W_app; [apply H|apply IH].
Qed.
Lemma W_str' : forall b s q, Forall nonvar q -> starts b q -> s = written q -> W b [Str s] q.
Proof. intros; subst; apply W_str; assumption. Qed.
End Keep.
