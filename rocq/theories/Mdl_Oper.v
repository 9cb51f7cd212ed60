(** * Mdl_Oper: operand fields with variable symbols *)
From Coq Require Import List NArith Bool Arith Lia.
From Verif Require Import Common Mdl_Model Mdl_Spec Mdl_Proof Mdl_Label Mdl_First.
Import ListNotations.

Definition G (q : list tok) : Prop := lexed q /\ tame q = true.
Lemma tame_app : forall p q, tame (p ++ q) = true -> tame p = true /\ tame q = true.
Proof.
  induction p as [|t p IH]; intros q H; [auto|]. cbn in H. apply andb_true_iff in H. destruct H as [H1 H2]. destruct (IH _ H2) as [P Q].
  split; [|assumption]. cbn. rewrite P. apply andb_true_iff in H1. destruct H1 as [H0 H1]. rewrite H0. cbn.
  destruct p; [cbn; rewrite andb_false_r; reflexivity|]. cbn in H1. rewrite H1. reflexivity.
Qed.
Lemma G_app : forall p q, G (p ++ q) -> G p /\ G q.
Proof. intros p q [H1 H2]. apply lexed_app in H1. apply tame_app in H2. unfold G. tauto. Qed.
Lemma G_lexed : forall q, G q -> lexed q.
Proof. intros q H. apply H. Qed.
Notation WG := (W G).
Definition wg_app := W_app G G_app.
Definition wg_str := W_str' G G_lexed.
Definition wg_points := W_points G G_app.
Definition wg_many := W_many G G_app.
Lemma tame_pair : forall t u q, apo t = true -> apo u = true -> tame (t :: u :: q) = false.
Proof. intros t u q Ht Hu. cbn. rewrite Ht, Hu. cbn. rewrite andb_false_r. reflexivity. Qed.
Lemma tame_cons : forall t q, tame (t :: q) = true -> tame q = true /\ t <> TAmps.
Proof. intros t q H. cbn in H. apply andb_true_iff in H. destruct H as [H1 H2]. split; [assumption|]. intros ->. discriminate. Qed.

Definition Reg (q : list tok) : Prop := no_attr q -> forall r,
  until_space false (q ++ r) = q ++ until_space false r /\ closed false (q ++ r) = closed false r.
Definition RegIn (q : list tok) : Prop := no_attr q -> forall r,
  until_space true (q ++ r) = q ++ until_space true r /\ closed true (q ++ r) = closed true r.
Lemma no_attr_app : forall p q, no_attr (p ++ q) -> no_attr p /\ no_attr q.
Proof. intros p q H. split; intro K; apply H; apply in_or_app; auto. Qed.
Lemma reg_nil : Reg [].
Proof. intros _ r. auto. Qed.
Lemma regin_nil : RegIn [].
Proof. intros _ r. auto. Qed.
Lemma reg_app : forall p q, Reg p -> Reg q -> Reg (p ++ q).
Proof.
  intros p q Hp Hq Hn r. apply no_attr_app in Hn. destruct Hn as [N1 N2]. rewrite <- !app_assoc.
  destruct (Hp N1 (q ++ r)) as [E1 E2]. destruct (Hq N2 r) as [F1 F2]. rewrite E1, E2, F1, F2. auto.
Qed.
Lemma regin_app : forall p q, RegIn p -> RegIn q -> RegIn (p ++ q).
Proof.
  intros p q Hp Hq Hn r. apply no_attr_app in Hn. destruct Hn as [N1 N2]. rewrite <- !app_assoc.
  destruct (Hp N1 (q ++ r)) as [E1 E2]. destruct (Hq N2 r) as [F1 F2]. rewrite E1, E2, F1, F2. auto.
Qed.
Lemma reg_one : forall t, nonspace t -> t <> TApo -> Reg [t].
Proof.
  intros t H1 H2 Hn r. destruct t; try contradiction; try congruence; cbn; auto.
Qed.
Lemma regin_one : forall t, nonapo t -> RegIn [t].
Proof. intros t H1 Hn r. unfold nonapo in H1. destruct t; try discriminate; cbn; auto. Qed.
Lemma regin_pair : forall t u, apo t = true -> apo u = true -> RegIn [t; u].
Proof.
  intros t u Ht Hu Hn r. destruct t; try discriminate; destruct u; try discriminate; try (exfalso; apply Hn; cbn; auto; fail). cbn. auto.
Qed.
Lemma reg_quoted : forall t u q, apo t = true -> apo u = true -> RegIn q -> Reg (t :: q ++ [u]).
Proof.
  intros t u q Ht Hu H Hn r. change (t :: q ++ [u]) with ([t] ++ q ++ [u]) in *. apply no_attr_app in Hn. destruct Hn as [N1 N2].
  apply no_attr_app in N2. destruct N2 as [N2 N3].
  assert (t = TApo) as -> by (destruct t; try discriminate; [reflexivity|exfalso; apply N1; left; reflexivity]).
  assert (u = TApo) as -> by (destruct u; try discriminate; [reflexivity|exfalso; apply N3; left; reflexivity]).
  cbn [app until_space closed negb]. rewrite <- app_assoc. destruct (H N2 ([TApo] ++ r)) as [E1 E2]. rewrite E1, E2. cbn.
  rewrite <- app_assoc. auto.
Qed.

Section L.
Variable R : Type.
Lemma pair_s : forall A (a : A), Sound (pair_apo R a) (fun x q => x = a /\ exists t u, q = [t; u] /\ apo t = true /\ apo u = true).
Proof.
  intros A a. unfold pair_apo. eapply bind_s; [apply l_apo_s|]. intros _ ? (t & -> & Ht). eapply bind_s; [apply l_apo_s|].
  intros _ ? (u & -> & Hu). apply ret_s. split; [reflexivity|]. exists t, u. auto.
Qed.

(** Texts between apostrophes *)
Definition body (s : bytes) (q : list tok) : Prop := Forall nonvar q /\ (tame q = true -> s = written q /\ Forall nonapo q) /\ RegIn q.
Lemma body_app : forall s s' q q', body s q -> body s' q' -> body (s ++ s') (q ++ q').
Proof.
  intros s s' q q' (A1 & A2 & A3) (B1 & B2 & B3). split; [apply Forall_app; auto|]. split; [|apply regin_app; assumption].
  intro H. apply tame_app in H. destruct H as [H1 H2]. destruct (A2 H1) as [-> ?], (B2 H2) as [-> ?]. rewrite written_app. split; [reflexivity|].
  apply Forall_app. auto.
Qed.
Lemma body_many : forall l q, Many body l q -> body (concat l) q.
Proof.
  intros l q (qs & -> & HF). induction HF as [|s q l qs H HF IH]; cbn.
  - split; [constructor|]. split; [intros _; split; [reflexivity|constructor]|apply regin_nil].
  - apply body_app; assumption.
Qed.
Lemma body_ch : forall f, (forall t s, f t = Some s -> (t <> TAmps -> s = text t) /\ nonvar t /\ nonapo t) ->
  Sound (one R f) body.
Proof.
  intros f Hf. eapply sound_weaken; [apply one_s|]. intros s q (t & -> & H). destruct (Hf _ _ H) as (H1 & H2 & H3). split; [|split].
  - constructor; [assumption|constructor].
  - intro K. apply tame_cons in K. split; [|constructor; [assumption|constructor]]. unfold written. cbn. rewrite app_nil_r. apply H1. tauto.
  - apply regin_one. assumption.
Qed.
Lemma body_pair : forall s, Sound (pair_apo R s) body.
Proof.
  intro s. eapply sound_weaken; [apply pair_s|]. intros x q (-> & t & u & -> & Ht & Hu). split; [|split].
  - repeat constructor; apply nonvar_apo; assumption.
  - intro K. rewrite tame_pair in K by assumption. discriminate.
  - apply regin_pair; assumption.
Qed.
Lemma string_s : Sound (string R) (fun s q => exists t u s' q', q = t :: q' ++ [u] /\ apo t = true /\ apo u = true /\ body s' q' /\ s = s').
Proof.
  unfold string. eapply bind_s; [apply one_s|]. intros [] ? (t & -> & Ht). eapply bind_s.
  { apply many_s with (W := body). apply alt_s; [|apply body_pair]. apply body_ch. intros t0 s H.
    destruct t0; cbn in H; try discriminate; injection H as <-; unfold nonvar, nonapo; cbn; repeat split; congruence. }
  intros l q Hl. eapply bind_s; [apply l_apo_s|]. intros _ ? (u & -> & Hu). apply ret_s. exists t, u, (concat l), q.
  split; [reflexivity|]. split; [destruct t; try discriminate; reflexivity|]. split; [assumption|]. split; [apply body_many; assumption|reflexivity].
Qed.
Definition before (s : bytes) (q : list tok) : Prop := Forall nonvar q /\ (tame q = true -> s = written q) /\ Reg q.
Lemma before_many : forall l q, Many before l q -> before (concat l) q.
Proof.
  intros l q (qs & -> & HF). induction HF as [|s q l qs (H1 & H2 & H3) HF (I1 & I2 & I3)]; cbn.
  - split; [constructor|]. split; [reflexivity|apply reg_nil].
  - split; [apply Forall_app; auto|]. split; [|apply reg_app; assumption]. intro H. apply tame_app in H. destruct H as [T1 T2].
    rewrite written_app, H2, I2 by assumption. reflexivity.
Qed.
Lemma op_ch_kind : forall t, op_ch t <> None <-> nonvar t /\ nonspace t /\ t <> TApo.
Proof. destruct t; unfold nonvar, nonspace; cbn; split; intros; repeat split; try congruence; try tauto; try (destruct H as (?&?&?); congruence). Qed.
Lemma op_ch_v_kind : forall t, op_ch_v t <> None <-> nonspace t /\ t <> TApo.
Proof. destruct t; unfold nonspace; cbn; split; intros; repeat split; try congruence; try tauto; try (destruct H as (?&?); congruence). Qed.
Lemma before_s : Sound (before_var_sym_model R) before.
Proof.
  unfold before_var_sym_model. eapply bind_s.
  - apply many_s with (W := before). apply alt_s.
    + eapply sound_weaken; [apply one_s|]. intros s q (t & -> & H). assert (K : op_ch t <> None) by congruence. apply op_ch_kind in K.
      destruct K as (K1 & K2 & K3). split; [repeat constructor; assumption|]. split; [|apply reg_one; assumption]. intros _.
      unfold written. cbn. rewrite app_nil_r. apply op_ch_text. assumption.
    + eapply bind_s; [apply string_s|]. intros s q (t & u & s' & q' & -> & Ht & Hu & (H1 & H2 & H3) & ->). apply ret_s. rewrite app_nil_r.
      split; [|split].
      * constructor; [apply nonvar_apo; assumption|]. apply Forall_app. split; [assumption|]. repeat constructor. apply nonvar_apo. assumption.
      * intro K. rewrite <- (quote_written t u) by assumption. f_equal. apply H2. apply tame_cons in K. apply tame_app with (q := [u]). tauto.
      * apply reg_quoted; assumption.
  - intros l q Hl. apply ret_s. rewrite app_nil_r. apply before_many. assumption.
Qed.

Definition inner (c : chain) (q : list tok) : Prop := (forall b, WG b c q) /\ RegIn q.
Lemma inner_points : forall a, Sound (alt R (one R l_sp_ch_v) (pair_apo R (Str a))) (fun p q => inner [p] q).
Proof.
  intro a. apply alt_s.
  - eapply sound_weaken; [apply one_s|]. intros p q (t & -> & H). split; [intro b; apply W_sp_point; [exact G_lexed|assumption]|].
    apply regin_one. apply l_sp_ch_v_kind. congruence.
  - eapply sound_weaken; [apply pair_s|]. intros p q (-> & t & u & -> & Ht & Hu). split; [|apply regin_pair; assumption].
    intros b [_ HG]. rewrite tame_pair in HG by assumption. discriminate.
Qed.
Lemma inner_many : forall c q, Many (fun p q => inner [p] q) c q -> inner c q.
Proof.
  intros c q (qs & -> & HF). induction HF as [|p q c qs [H1 H2] HF [I1 I2]]; cbn.
  - split; [intro b; apply W_nil|apply regin_nil].
  - split; [|apply regin_app; assumption]. intro b. change (p :: c) with ([p] ++ c). apply wg_app; auto.
Qed.
Definition outer (c : chain) (q : list tok) : Prop := (forall b, WG b c q) /\ Reg q.
Lemma outer_app : forall c d p q, outer c p -> outer d q -> outer (c ++ d) (p ++ q).
Proof. intros c d p q [A1 A2] [B1 B2]. split; [intro b; apply wg_app; auto|apply reg_app; assumption]. Qed.
Lemma outer_many : forall l q, Many outer l q -> outer (concat l) q.
Proof.
  intros l q (qs & -> & HF). induction HF as [|c q l qs H HF IH]; cbn; [split; [intro; apply W_nil|apply reg_nil]|].
  apply outer_app; assumption.
Qed.
Lemma outer_quoted : forall c q t u, apo t = true -> apo u = true -> inner c q -> outer ([Str [APO]] ++ c ++ [Str [APO]]) ([t] ++ q ++ [u]).
Proof.
  intros c q t u Ht Hu [H1 H2]. split; [|apply reg_quoted; assumption]. intro b. apply wg_app; [apply W_apo; assumption|].
  apply wg_app; [apply H1|apply W_apo; assumption].
Qed.
Lemma after_points_s : Sound (after_var_sym_model R) outer.
Proof.
  unfold after_var_sym_model. eapply bind_s.
  - apply many_s with (W := outer). apply alt_s.
    + eapply bind_s; [apply one_s|]. intros p q (t & -> & H). apply ret_s. rewrite app_nil_r.
      assert (K : op_ch_v t <> None) by congruence. apply op_ch_v_kind in K. split; [|apply reg_one; tauto].
      intro b. apply W_point; [exact G_lexed|assumption].
    + unfold model_string_v. eapply bind_s; [apply l_apo_s|]. intros _ ? (t & -> & Ht). eapply bind_s; [apply many_s, inner_points|].
      intros c q Hc. apply inner_many in Hc. eapply bind_s; [apply l_apo_s|]. intros _ ? (u & -> & Hu). apply ret_s. rewrite app_nil_r.
      apply (outer_quoted (clear_concat_chain c) q t u); auto. destruct Hc as [C1 C2]. split; [|assumption]. intro b. apply W_clear. apply C1.
  - intros l q Hl. apply ret_s. rewrite app_nil_r. apply outer_many. assumption.
Qed.
Lemma var_sym_model_s : Sound (var_sym_model R) (fun c q => outer c q /\ has_var q).
Proof.
  unfold var_sym_model. apply alt_s.
  - eapply bind_s; [apply var_s|]. intros v ? ->. apply ret_s. split; [|exists v; left; reflexivity].
    split; [intro b; apply W_var|]. apply reg_one; [exact I|discriminate].
  - unfold string_v_actual. eapply bind_s; [apply l_apo_s|]. intros _ ? (t & -> & Ht). eapply bind_s.
    { apply many_s with (W := body). apply alt_s; [|apply body_pair]. apply body_ch. intros t0 s H. split; [intros _; apply l_sp_ch_text; assumption|].
      apply l_sp_ch_kind. congruence. }
    intros l q Hl. apply body_many in Hl. eapply bind_s; [apply var_s|]. intros v ? ->.
    eapply bind_s; [apply many_s, inner_points|]. intros c q2 Hc. apply inner_many in Hc.
    eapply bind_s; [apply l_apo_s|]. intros _ ? (u & -> & Hu). apply ret_s. rewrite app_nil_r.
    split; [|exists v; apply in_or_app; right; apply in_or_app; right; apply in_or_app; left; left; reflexivity].
    destruct Hl as (B1 & B2 & B3). destruct Hc as [C1 C2].
    replace ([t] ++ q ++ [TVar v] ++ q2 ++ [u]) with ([t] ++ (q ++ [TVar v] ++ q2) ++ [u]) by (rewrite <- !app_assoc; reflexivity).
    split.
    + intro b. change (Str [APO] :: Str (concat l) :: Var v :: c ++ [Str [APO]]) with ([Str [APO]] ++ ([Str (concat l)] ++ [Var v] ++ c) ++ [Str [APO]]).
      apply wg_app; [apply W_apo; assumption|]. rewrite after_apo by assumption. apply wg_app; [|apply W_apo; assumption].
      intro HG. destruct (G_app _ _ HG) as [[_ T] _].
      assert (HW : WG false ([Str (concat l)] ++ [Var v] ++ c) (q ++ [TVar v] ++ q2)); [|exact (HW HG)].
      apply wg_app; [apply wg_str; [assumption|left; reflexivity|apply B2; assumption]|]. apply wg_app; [apply W_var|apply C1].
    + apply reg_quoted; [assumption..|]. apply regin_app; [assumption|]. apply regin_app; [|assumption]. apply regin_one. reflexivity.
Qed.
Lemma model_op_s : Sound (model_op R) (fun c q => has_var q /\ Reg q /\
  (lexed q -> tame q = true -> forall value, evaluate value false c = substituted value false q)).
Proof.
  unfold model_op. eapply bind_s; [apply before_s|]. intros s p (P1 & P2 & P3). eapply bind_s; [apply var_sym_model_s|].
  intros c q ([Q1 Q2] & Qv). eapply bind_s; [apply after_points_s|]. intros d r [R1 R2]. apply ret_s. rewrite app_nil_r. split; [|split].
  - apply hv_r, hv_l. assumption.
  - apply reg_app; [assumption|]. apply reg_app; assumption.
  - intros HL HT. assert (HG : G (p ++ q ++ r)) by (split; assumption). destruct (G_app _ _ HG) as [[_ T] _].
    assert (HW : WG false ([Str s] ++ c ++ d) (p ++ q ++ r)).
    { apply wg_app; [apply wg_str; [assumption|left; reflexivity|apply P2; assumption]|]. apply wg_app; auto. }
    exact (proj1 (HW HG)).
Qed.
End L.

(** ** Readings exist *)
Section A.
Variable R : Type.
Inductive piece : list tok -> Prop :=
| piece_one : forall t, nonspace t -> t <> TApo -> piece [t]
| piece_quoted : forall q, Forall nonapo q -> piece (TApo :: q ++ [TApo]).
Lemma split_apo : forall q, closed true q = true -> exists x r, q = x ++ TApo :: r /\ Forall nonapo x /\ closed false r = true.
Proof.
  induction q as [|t q IH]; intro H; [discriminate|]. unfold nonapo in *.
  destruct t; cbn in H; try discriminate;
    try (destruct (IH H) as (x & r & -> & H1 & H2); eexists (_ :: x), r; split; [reflexivity|]; split; [constructor; [reflexivity|assumption]|assumption]).
  exists [], q. repeat split; auto.
Qed.
Lemma until_true_app : forall x r, Forall nonapo x -> until_space true (x ++ TApo :: r) = x ++ TApo :: until_space false r.
Proof.
  induction 1 as [|t x H HF IH]; [reflexivity|]. cbn [app]. unfold nonapo in H. destruct t; try discriminate; cbn; rewrite IH; reflexivity.
Qed.
Lemma until_len : forall q b, length (until_space b q) <= length q.
Proof.
  induction q as [|t q IH]; intro b; [apply le_n|]. destruct t; cbn; try (specialize (IH b); lia); try (specialize (IH (negb b)); lia).
  destruct b; cbn; [specialize (IH true)|]; lia.
Qed.
Lemma split_pieces : forall n q, length q <= n -> until_space false q = q -> closed false q = true -> exists qs, q = concat qs /\ Forall piece qs.
Proof.
  induction n as [|n IH]; intros q Hn Hu Hc.
  - destruct q; [|cbn in Hn; lia]. exists []. auto.
  - destruct q as [|t q]; [exists []; auto|]. cbn in Hn.
    assert (D : t = TApo \/ (nonspace t /\ t <> TApo /\ until_space false q = q /\ closed false q = true)).
    { destruct t; cbn in Hu, Hc; try (right; split; [exact I|]; split; [discriminate|]; split; [congruence|assumption]).
      - left. reflexivity.
      - discriminate Hu. }
    destruct D as [->|(D1 & D2 & D3 & D4)].
    + cbn in Hc, Hu. destruct (split_apo q Hc) as (x & r & -> & Hx & Hr). rewrite until_true_app in Hu by assumption.
      injection Hu as Hu. apply app_inv_head in Hu. injection Hu as Hu.
      destruct (IH r) as (qs & -> & HF); [rewrite app_length in Hn; cbn in Hn; lia|assumption..|].
      exists ((TApo :: x ++ [TApo]) :: qs). split; [cbn; rewrite <- app_assoc; reflexivity|]. constructor; [constructor; assumption|assumption].
    + destruct (IH q) as (qs & -> & HF); [lia|assumption..|]. exists ([t] :: qs). split; [reflexivity|]. constructor; [constructor; assumption|assumption].
Qed.
Lemma piece_nil : forall q, piece q -> q <> [].
Proof. intros q []; discriminate. Qed.
Lemma many_alt_one_a : forall A (f : tok -> option A) g q, Forall (fun t => f t <> None) q -> Acc (many R (alt R (one R f) g)) q.
Proof.
  intros A f g q H. replace q with (concat (map (fun t => [t]) q)).
  - apply many_a. apply Forall_map. eapply Forall_impl; [|exact H]. intros t Ht. split; [discriminate|]. apply alt_al, one_a. assumption.
  - clear. induction q; cbn; [reflexivity|]. rewrite IHq. reflexivity.
Qed.
Lemma piece_before : forall q, piece q -> Forall nonvar q -> Acc (alt R (one R op_ch) (bind R (string R) (fun s => ret R (quote s)))) q.
Proof.
  intros q [t H1 H2|x Hx] Hn.
  - apply alt_al, one_a. apply op_ch_kind. inversion Hn; subst. auto.
  - apply alt_ar. apply bind_a0; [|intro; apply ret_a]. unfold string. inversion Hn as [|? ? _ Hn']; subst. apply Forall_app in Hn'. destruct Hn' as [Hn' _].
    apply (bind_a R _ _ _ _ [TApo]); [apply one_a; discriminate|]. intros _. apply bind_a.
    + apply many_alt_one_a. rewrite Forall_forall in *. intros t Ht. specialize (Hx t Ht). specialize (Hn' t Ht). unfold nonapo, nonvar in *.
      destruct t; cbn in *; congruence.
    + intro l. apply bind_a0; [apply l_apo_a; reflexivity|]. intro. apply ret_a.
Qed.
Lemma piece_var : forall q, piece q -> has_var q -> Acc (var_sym_model R) q.
Proof.
  intros q [t H1 H2|x Hx] Hv.
  - destruct Hv as [v [->|[]]]. apply alt_al. apply bind_a0; [apply one_a; discriminate|]. intro. apply ret_a.
  - apply alt_ar. unfold string_v_actual.
    assert (Hv' : has_var x). { destruct Hv as [v [H|H]]; [discriminate|]. apply in_app_or in H. destruct H as [H|[H|[]]]; [exists v; assumption|discriminate]. }
    destruct (split_var x Hv') as (x1 & v & x2 & -> & H1). apply Forall_app in Hx. destruct Hx as [X1 X2]. inversion X2 as [|? ? _ X3]; subst.
    apply (bind_a R _ _ _ _ [TApo]); [apply l_apo_a; reflexivity|]. intros _. rewrite <- app_assoc. apply bind_a.
    + apply many_alt_one_a. rewrite Forall_forall in *. intros t Ht. apply l_sp_ch_kind. auto.
    + intro l. cbn [app]. apply (bind_a R _ _ _ _ [TVar v]); [apply one_a; discriminate|]. intro w. apply bind_a.
      * apply many_alt_one_a. rewrite Forall_forall in *. intros t Ht. apply l_sp_ch_v_kind. auto.
      * intro c. apply bind_a0; [apply l_apo_a; reflexivity|]. intro. apply ret_a.
Qed.
Lemma piece_after : forall q, piece q -> Acc (alt R (bind R (one R op_ch_v) (fun p => ret R [p])) (model_string_v R)) q.
Proof.
  intros q [t H1 H2|x Hx].
  - apply alt_al. apply bind_a0; [|intro; apply ret_a]. apply one_a. apply op_ch_v_kind. auto.
  - apply alt_ar. unfold model_string_v. apply (bind_a R _ _ _ _ [TApo]); [apply l_apo_a; reflexivity|]. intros _. apply bind_a.
    + apply many_alt_one_a. rewrite Forall_forall in *. intros t Ht. apply l_sp_ch_v_kind. auto.
    + intro c. apply bind_a0; [apply l_apo_a; reflexivity|]. intro. apply ret_a.
Qed.
Lemma model_op_a : forall q, until_space false q = q -> closed false q = true -> has_var q -> Acc (model_op R) q.
Proof.
  intros q Hu Hc Hv. destruct (split_pieces _ q (le_n _) Hu Hc) as (qs & -> & HF).
  destruct (split_units qs Hv) as (qs1 & u & qs2 & -> & H1 & H2). apply Forall_app in HF. destruct HF as [F1 F2]. inversion F2 as [|? ? F3 F4]; subst.
  rewrite concat_app. cbn [concat]. unfold model_op. apply bind_a.
  - unfold before_var_sym_model. apply bind_a0; [|intro; apply ret_a]. apply many_a. clear -F1 H1. induction F1 as [|q qs F FF IH]; constructor.
    + cbn in H1. apply Forall_app in H1. split; [apply piece_nil; assumption|]. apply piece_before; tauto.
    + apply IH. cbn in H1. apply Forall_app in H1. tauto.
  - intro s. apply bind_a; [apply piece_var; assumption|]. intro c. apply bind_a0; [|intro; apply ret_a].
    unfold after_var_sym_model. apply bind_a0; [|intro; apply ret_a]. apply many_a. eapply Forall_impl; [|exact F4]. intros w Hw.
    split; [apply piece_nil; assumption|]. apply piece_after. assumption.
Qed.
End A.

Lemma field_split : forall ts b, exists r, ts = until_space b ts ++ r /\ field_end r.
Proof.
  induction ts as [|t ts IH]; intro b; [exists []; split; [reflexivity|exact I]|].
  destruct t; cbn; try (destruct (IH b) as (r & E & H); exists r; split; [f_equal; exact E|assumption]).
  - destruct (IH (negb b)) as (r & E & H). exists r. split; [f_equal; exact E|assumption].
  - destruct b.
    + destruct (IH true) as (r & E & H). exists r. split; [cbn; f_equal; exact E|assumption].
    + exists (TSpace s :: ts). split; [reflexivity|exact I].
Qed.
Lemma until_idem : forall ts b, until_space b (until_space b ts) = until_space b ts.
Proof.
  induction ts as [|t ts IH]; intro b; [reflexivity|]. destruct t; cbn; try (rewrite IH; reflexivity). destruct b; cbn; [rewrite IH|]; reflexivity.
Qed.
Lemma until_end : forall r, field_end r -> until_space false r = [].
Proof. intros r H. destruct r as [|t r]; [reflexivity|]. destruct t; try contradiction. reflexivity. Qed.
Lemma field_s : forall ts c, model_field ts = Some c -> exists q r, ts = q ++ r /\ field_end r /\ has_var q /\
  (no_attr q -> q = until_space false ts /\ closed false q = true) /\
  (lexed q -> tame q = true -> forall value, evaluate value false c = substituted value false q).
Proof.
  intros ts c E. unfold model_field in E. destruct (model_op_s _ _ _ _ E) as (c' & q & r & -> & (H1 & H2 & H3) & E2).
  assert (K : c' = c /\ field_end r). { destruct r as [|t r]; [|destruct t; try discriminate]; injection E2 as <-; split; try reflexivity; exact I. }
  destruct K as [-> K]. exists q, r. split; [reflexivity|]. split; [assumption|]. split; [assumption|]. split; [|assumption].
  intro Hn. destruct (H2 Hn r) as [E1 _]. destruct (H2 Hn []) as [_ E3]. rewrite app_nil_r in E3. rewrite E1, until_end, app_nil_r by assumption. auto.
Qed.
Lemma field_a : forall ts, closed false (until_space false ts) = true -> has_var (until_space false ts) -> model_field ts <> None.
Proof.
  intros ts Hc Hv. destruct (field_split ts false) as (r & E & He). unfold model_field. rewrite E. apply model_op_a.
  - apply until_idem.
  - assumption.
  - assumption.
  - intro a. destruct r as [|t r]; [discriminate|]. destruct t; try contradiction; discriminate.
Qed.
