(** * Mdl_Label: labels *)
From Coq Require Import List NArith Bool Arith Lia.
From Verif Require Import Common Mdl_Model Mdl_Spec Mdl_Proof.
Import ListNotations.

Lemma lexed_app : forall p q, lexed (p ++ q) -> lexed p /\ lexed q.
Proof. intros p q H. apply Forall_app in H. assumption. Qed.
Notation WL := (W lexed).
Definition wl_app := W_app lexed lexed_app.
Definition wl_str := W_str' lexed (fun q H => H).
Definition wl_points := W_points lexed lexed_app.
Definition wl_many := W_many lexed lexed_app.

Lemma apostrophes_app : forall p q, apostrophes (p ++ q) = apostrophes p + apostrophes q.
Proof. induction p; intros; cbn; rewrite ?IHp; lia. Qed.
Lemma apostrophes_none : forall q, Forall nonapo q -> apostrophes q = 0.
Proof. induction 1 as [|t q H HF IH]; cbn; [reflexivity|]. unfold nonapo in H. rewrite H. assumption. Qed.
Lemma starts_apo : forall b t q, apo t = true -> starts b (t :: q).
Proof. intros b t q H. right. intros r E. destruct t; discriminate. Qed.
Lemma apo_nonvar : forall t, apo t = true -> nonvar t /\ nonspace t.
Proof. destruct t; cbn; intro; try discriminate; split; unfold nonvar; cbn; auto. Qed.
Lemma after_false : forall b t q, nonvar t -> after b (q ++ [t]) = false.
Proof. intros b t q H. rewrite after_app. destruct t; cbn in *; try reflexivity. discriminate. Qed.
Lemma nonspace_apo : forall t, apo t = true -> nonspace t.
Proof. intros t H. apply apo_nonvar. assumption. Qed.
Lemma nonvar_apo : forall t, apo t = true -> nonvar t.
Proof. intros t H. apply apo_nonvar. assumption. Qed.

Lemma after_apo : forall b t, apo t = true -> after b [t] = false.
Proof. intros b t H. destruct t; try discriminate; reflexivity. Qed.

Lemma hv_l : forall p q, has_var p -> has_var (p ++ q).
Proof. intros p q [v H]. exists v. apply in_or_app. auto. Qed.
Lemma hv_r : forall p q, has_var q -> has_var (p ++ q).
Proof. intros p q [v H]. exists v. apply in_or_app. auto. Qed.

Section L.
Variable R : Type.

Definition plain (s : bytes) (q : list tok) : Prop := s = written q /\ Forall nonvar q /\ Forall nonspace q /\ Forall nonapo q.
Lemma l_string_o_s : Sound (l_string_o R) plain.
Proof.
  eapply sound_weaken; [apply texts_s|]. cbn beta. intros s q (l & -> & HF). destruct (all_text _ l_ch_text _ _ HF) as [E H].
  split; [assumption|]. repeat split; (eapply Forall_impl; [|exact H]); intros t Ht; apply l_ch_kind in Ht; tauto.
Qed.
Lemma l_string_s : Sound (l_string R) (fun s q => plain s q /\ q <> []).
Proof.
  unfold l_string. eapply bind_s; [apply one_s|]. intros a l (t & -> & Ht). eapply bind_s; [apply l_string_o_s|].
  intros s q (-> & H1 & H2 & H3). apply ret_s. split; [|discriminate].
  assert (K : l_ch t <> None) by congruence. apply l_ch_kind in K. destruct K as (K1 & K2 & K3).
  rewrite (l_ch_text _ _ Ht), app_nil_r. split; [reflexivity|]. repeat split; constructor; assumption.
Qed.
Lemma l_apo_s : Sound (l_apo R) (fun _ q => exists t, q = [t] /\ apo t = true).
Proof. eapply sound_weaken; [apply one_s|]. intros [] q (t & -> & H). exists t. split; [reflexivity|]. destruct t; cbn in *; congruence. Qed.
Lemma var_s : Sound (one R is_var) (fun v q => q = [TVar v]).
Proof. eapply sound_weaken; [apply one_s|]. intros v q (t & -> & H). destruct t; cbn in H; try discriminate. congruence. Qed.

Definition model (c : chain) (q : list tok) : Prop := WL false c q /\ Forall nonspace q /\ Forall nonapo q /\ has_var q.
Lemma l_string_v_s : Sound (l_string_v R) model.
Proof.
  unfold l_string_v. eapply bind_s; [apply l_string_o_s|]. intros s q (-> & H1 & H2 & H3).
  eapply bind_s; [apply var_s|]. intros v q' ->. unfold l_str_v. eapply bind_s; [apply many_one_s|]. intros c q2 HF. cbn beta in HF.
  apply ret_s. rewrite app_nil_r. rewrite app_assoc.
  assert (K : Forall nonspace q2 /\ Forall nonapo q2).
  { split; clear -HF; induction HF as [|p t c q H HF IH]; constructor; try assumption;
      (assert (K : l_ch_v t <> None) by congruence; apply l_ch_v_kind in K; tauto). }
  destruct K as [K1 K2]. split; [|split; [|split]].
  - apply W_clear. change (Str (written q) :: Var v :: c) with (([Str (written q)] ++ [Var v]) ++ c).
    apply wl_app; [apply wl_app|].
    + apply wl_str; [assumption|left; reflexivity|reflexivity].
    + apply W_var.
    + eapply wl_points; [|exact HF]. intros b p t H. apply W_point; [auto|]. apply l_ch_v_op. assumption.
  - repeat (apply Forall_app; split); auto; repeat constructor.
  - repeat (apply Forall_app; split); auto; repeat constructor.
  - exists v. apply in_or_app. left. apply in_or_app. right. left. reflexivity.
Qed.

(** Runs of words between apostrophes, no blanks *)
Definition head_apo (q : list tok) : Prop := exists t r, q = t :: r /\ apo t = true.
Definition ctext (s : bytes) (q : list tok) : Prop :=
  s = written q /\ Forall nonvar q /\ Forall nonspace q /\ Nat.even (apostrophes q) = true /\ head_apo q.
Definition cchain (c : chain) (q : list tok) : Prop :=
  (forall b, WL b c q) /\ Forall nonspace q /\ Nat.even (apostrophes q) = true /\ head_apo q.

Lemma quoted_s : forall body (V : bytes -> list tok -> Prop), Sound body V ->
  Sound (l_quoted R body) (fun s q => exists t u s' q', q = t :: q' ++ [u] /\ apo t = true /\ apo u = true /\ V s' q' /\ s = quote s').
Proof.
  intros body V H. unfold l_quoted. eapply bind_s; [apply l_apo_s|]. intros _ ? (t & -> & Ht).
  eapply bind_s; [exact H|]. intros s q HV. eapply bind_s; [apply l_apo_s|]. intros _ ? (u & -> & Hu). apply ret_s.
  exists t, u, s, q. auto.
Qed.
Lemma quote_written : forall t u q, apo t = true -> apo u = true -> quote (written q) = written (t :: q ++ [u]).
Proof.
  intros t u q Ht Hu. unfold quote. change (t :: q ++ [u]) with ([t] ++ q ++ [u]). rewrite !written_app. unfold written at 2 4.
  cbn [map concat]. rewrite !app_nil_r. destruct t; try discriminate; destruct u; try discriminate; reflexivity.
Qed.
Lemma no_space_c1_s : Sound (no_space_c1 R) ctext.
Proof.
  unfold no_space_c1. eapply bind_s; [apply quoted_s, l_string_o_s|].
  intros s q (t & u & s' & q' & -> & Ht & Hu & (-> & H1 & H2 & H3) & ->).
  eapply bind_s; [apply l_string_o_s|]. intros s2 q2 (-> & K1 & K2 & K3). apply ret_s.
  rewrite (quote_written t u) by assumption. rewrite app_nil_r. split; [|split; [|split; [|split]]].
  - rewrite written_app. reflexivity.
  - apply Forall_app. split; [|assumption]. constructor; [apply nonvar_apo; assumption|]. apply Forall_app. split; [assumption|].
    constructor; [apply nonvar_apo; assumption|constructor].
  - apply Forall_app. split; [|assumption]. constructor; [apply nonspace_apo; assumption|]. apply Forall_app. split; [assumption|].
    constructor; [apply nonspace_apo; assumption|constructor].
  - cbn. rewrite !apostrophes_app, Ht. cbn. rewrite Hu, !apostrophes_none by assumption. reflexivity.
  - exists t; eexists; split; [reflexivity|assumption].
Qed.
Lemma ctext_app : forall s q s' q', ctext s q -> ctext s' q' -> ctext (s ++ s') (q ++ q').
Proof.
  intros s q s' q' (-> & A1 & A2 & A3 & t & r & -> & A4) (-> & B1 & B2 & B3 & _). split; [|split; [|split; [|split]]].
  - rewrite written_app. reflexivity.
  - apply Forall_app. auto.
  - apply Forall_app. auto.
  - rewrite apostrophes_app, Nat.even_add, A3, B3. reflexivity.
  - exists t, (r ++ q'). auto.
Qed.
Lemma many1_s : forall A (p : P R A) V, Sound p V ->
  Sound (many1 R p) (fun l q => exists a l' q1 q2, l = a :: l' /\ q = q1 ++ q2 /\ V a q1 /\ Many V l' q2).
Proof.
  intros A p V H. unfold many1. eapply bind_s; [exact H|]. intros a q1 Ha. eapply bind_s; [apply many_s; exact H|].
  intros l q2 Hl. apply ret_s. exists a, l, q1, q2. rewrite app_nil_r. auto.
Qed.
Lemma many1_app : forall (V : bytes -> list tok -> Prop), (forall s q s' q', V s q -> V s' q' -> V (s ++ s') (q ++ q')) ->
  forall l a q1 q2, V a q1 -> Many V l q2 -> V (a ++ concat l) (q1 ++ q2).
Proof.
  intros V HV. induction l as [|b l IH]; intros a q1 q2 Ha (qs & -> & HF); inversion HF as [|? q ? qs' Hb HF']; subst; cbn.
  - rewrite !app_nil_r. assumption.
  - rewrite !app_assoc. apply IH; [apply HV; assumption|]. exists qs'. auto.
Qed.
Lemma l_string_no_space_c_s : Sound (l_string_no_space_c R) ctext.
Proof.
  unfold l_string_no_space_c. eapply bind_s; [apply many1_s, no_space_c1_s|].
  intros l q (a & l' & q1 & q2 & -> & -> & Ha & Hl). apply ret_s. rewrite app_nil_r. cbn. apply many1_app; [exact ctext_app|assumption..].
Qed.
Lemma ctext_chain : forall s q, ctext s q -> cchain [Str s] q.
Proof.
  intros s q (-> & H1 & H2 & H3 & t & r & -> & Ht). split; [|split; [|split]]; auto.
  - intro b. apply wl_str; [assumption|apply starts_apo; assumption|reflexivity].
  - exists t, r. auto.
Qed.
Lemma ctext_str : forall b s q, Forall nonvar q -> starts b q -> s = written q -> WL b [Str s] q.
Proof. intros. apply wl_str; assumption. Qed.

Ltac fa := repeat first [assumption | apply Forall_app; split | constructor; [first [assumption | apply nonspace_apo; assumption | apply nonvar_apo; assumption] |] | constructor].

Lemma quoted_word : forall b t u q, apo t = true -> apo u = true -> Forall nonvar q ->
  WL b [Str (quote (written q))] (t :: q ++ [u]).
Proof.
  intros b t u q Ht Hu H. apply wl_str; [fa|apply starts_apo; assumption|apply quote_written; assumption].
Qed.
Lemma l_string_no_space_v_s : Sound (l_string_no_space_v R) (fun c q => cchain c q /\ has_var q).
Proof.
  unfold l_string_no_space_v. apply alt_s; [|apply alt_s].
  - eapply bind_s; [apply quoted_s, l_string_o_s|]. intros s q (t & u & s' & q' & -> & Ht & Hu & (-> & H1 & H2 & H3) & ->).
    eapply bind_s; [apply l_string_v_s|]. intros c q2 (K1 & K2 & K3 & Kv). apply ret_s. rewrite app_nil_r. split; [|apply hv_r; assumption]. split; [|split; [|split]].
    + intro b. change (Str (quote (written q')) :: c) with ([Str (quote (written q'))] ++ c). apply wl_app; [apply quoted_word; assumption|].
      rewrite app_comm_cons, after_false by (apply nonvar_apo; assumption). assumption.
    + fa.
    + cbn. rewrite Ht, !apostrophes_app. cbn. rewrite Hu, !apostrophes_none by assumption. reflexivity.
    + exists t; eexists; split; [reflexivity|assumption].
  - eapply bind_s; [apply l_apo_s|]. intros _ ? (t & -> & Ht). eapply bind_s; [apply l_string_v_s|]. intros c q (H1 & H2 & H3 & Hv).
    eapply bind_s; [apply l_apo_s|]. intros _ ? (u & -> & Hu). eapply bind_s; [apply l_string_o_s|]. intros s q2 (-> & K0 & K1 & K2).
    apply ret_s. rewrite app_nil_r. cbn [app]. split; [|apply (hv_r [t]), hv_l; assumption]. split; [|split; [|split]].
    + intro b. change (Str [APO] :: c ++ [Str [APO]; Str (written q2)]) with ([Str [APO]] ++ c ++ [Str [APO]] ++ [Str (written q2)]).
      change (t :: q ++ u :: q2) with ([t] ++ q ++ [u] ++ q2).
      apply wl_app; [apply W_apo; assumption|]. rewrite after_apo by assumption.
      apply wl_app; [assumption|]. apply wl_app; [apply W_apo; assumption|].
      apply wl_str; [assumption| |reflexivity]. left. apply after_apo. assumption.
    + fa.
    + cbn. rewrite Ht, !apostrophes_app. cbn. rewrite Hu, !apostrophes_none by assumption. reflexivity.
    + exists t; eexists; split; [reflexivity|assumption].
  - eapply bind_s; [apply l_apo_s|]. intros _ ? (t & -> & Ht). eapply bind_s; [apply l_string_v_s|]. intros c q (H1 & H2 & H3 & Hv).
    eapply bind_s; [apply l_apo_s|]. intros _ ? (u & -> & Hu). eapply bind_s; [apply l_string_v_s|]. intros d q2 (K0 & K1 & K2 & _).
    apply ret_s. rewrite app_nil_r. cbn [app]. split; [|apply (hv_r [t]), hv_l; assumption]. split; [|split; [|split]].
    + intro b. change (Str [APO] :: c ++ Str [APO] :: d) with ([Str [APO]] ++ c ++ [Str [APO]] ++ d).
      change (t :: q ++ u :: q2) with ([t] ++ q ++ [u] ++ q2).
      apply wl_app; [apply W_apo; assumption|]. rewrite after_apo by assumption.
      apply wl_app; [assumption|]. apply wl_app; [apply W_apo; assumption|].
      rewrite after_apo by assumption. assumption.
    + fa.
    + cbn. rewrite Ht, !apostrophes_app. cbn. rewrite Hu, !apostrophes_none by assumption. reflexivity.
    + exists t; eexists; split; [reflexivity|assumption].
Qed.
Lemma cchain_app : forall s q s' q', cchain s q -> cchain s' q' -> cchain (s ++ s') (q ++ q').
Proof.
  intros s q s' q' (A1 & A2 & A3 & t & r & -> & A4) (B1 & B2 & B3 & _). split; [|split; [|split]].
  - intro b. apply wl_app; [apply A1|apply B1].
  - apply Forall_app. auto.
  - rewrite apostrophes_app, Nat.even_add, A3, B3. reflexivity.
  - exists t, (r ++ q'). auto.
Qed.
Lemma cchain_many : forall l c q1 q2, cchain c q1 -> Many cchain l q2 -> cchain (c ++ concat l) (q1 ++ q2).
Proof.
  induction l as [|b l IH]; intros a q1 q2 Ha (qs & -> & HF); inversion HF as [|? q ? qs' Hb HF']; subst; cbn.
  - rewrite !app_nil_r. assumption.
  - rewrite !app_assoc. apply IH; [apply cchain_app; assumption|]. exists qs'. auto.
Qed.
Lemma l_string_v_apo_s : Sound (l_string_v_apo R) (fun c q => cchain c q /\ has_var q).
Proof.
  unfold l_string_v_apo. eapply bind_s.
  { apply alt_s with (W := fun s q => ctext s q \/ s = [] /\ q = []).
    - eapply sound_weaken; [apply l_string_no_space_c_s|]. auto.
    - apply ret_s. auto. }
  intros s q Hs. eapply bind_s; [apply l_string_no_space_v_s|]. intros c q2 (Hc & Hv). eapply bind_s.
  { apply many_s with (W := cchain). unfold l_string_no_space_u. apply alt_s; [eapply sound_weaken; [apply l_string_no_space_v_s|]; intros ? ? H; apply H|].
    eapply bind_s; [apply no_space_c1_s|]. intros s' q' H. apply ret_s. rewrite app_nil_r. apply ctext_chain. assumption. }
  intros l q3 Hl. apply ret_s. rewrite app_nil_r. pose proof (cchain_many _ _ _ _ Hc Hl) as H.
  split; [|apply hv_r, hv_l; assumption]. destruct Hs as [Hs|[-> ->]].
  - change (Str s :: c ++ concat l) with ([Str s] ++ (c ++ concat l)). apply cchain_app; [apply ctext_chain; assumption|assumption].
  - destruct H as (H1 & H2 & H3 & H4). split; [|auto]. intro b. specialize (H1 b). intro HG. exact (H1 HG).
Qed.

(** With blanks *)
Definition stext (s : bytes) (q : list tok) : Prop := s = written q /\ Forall nonvar q /\ head_apo q.
Definition schain (c : chain) (q : list tok) : Prop := (forall b, WL b c q) /\ (forall b, after b q = false) /\ head_apo q.
Lemma l_sp_string_s : Sound (l_sp_string R) (fun s q => s = written q /\ Forall nonvar q).
Proof.
  eapply sound_weaken; [apply texts_s|]. cbn beta. intros s q (l & -> & HF). destruct (all_text _ l_sp_ch_text _ _ HF) as [E H].
  split; [assumption|]. eapply Forall_impl; [|exact H]. intros t Ht. apply l_sp_ch_kind in Ht. tauto.
Qed.
Lemma l_sp_string_v_s : Sound (l_sp_string_v R) (fun c q => WL false c q).
Proof.
  unfold l_sp_string_v. eapply bind_s; [apply l_sp_string_s|]. intros s q (-> & H1).
  eapply bind_s; [apply var_s|]. intros v q' ->. eapply bind_s; [apply many_one_s|]. intros c q2 HF. cbn beta in HF.
  apply ret_s. rewrite app_nil_r, app_assoc.
  change (Str (written q) :: Var v :: c) with (([Str (written q)] ++ [Var v]) ++ c).
  apply wl_app; [apply wl_app|].
  - apply wl_str; [assumption|left; reflexivity|reflexivity].
  - apply W_var.
  - eapply wl_points; [|exact HF]. intros b p t H. apply W_sp_point; auto.
Qed.
Lemma quoted_sp_s : Sound (l_quoted R (l_sp_string R)) stext.
Proof.
  eapply sound_weaken; [apply quoted_s, l_sp_string_s|]. intros s q (t & u & s' & q' & -> & Ht & Hu & (-> & H) & ->).
  split; [apply quote_written; assumption|]. split; [fa|]. exists t; eexists; split; [reflexivity|assumption].
Qed.
Lemma stext_app : forall s q s' q', stext s q -> stext s' q' -> stext (s ++ s') (q ++ q').
Proof.
  intros s q s' q' (-> & A1 & t & r & -> & A4) (-> & B1 & _). split; [|split].
  - rewrite written_app. reflexivity.
  - apply Forall_app. auto.
  - exists t, (r ++ q'). auto.
Qed.
Lemma l_string_poss_space_c_s : Sound (l_string_poss_space_c R) stext.
Proof.
  unfold l_string_poss_space_c. eapply bind_s; [apply many1_s, quoted_sp_s|].
  intros l q (a & l' & q1 & q2 & -> & -> & Ha & Hl). apply ret_s. rewrite app_nil_r. cbn. apply many1_app; [exact stext_app|assumption..].
Qed.
Lemma stext_chain : forall s q, stext s q -> schain [Str s] q.
Proof.
  intros s q (-> & H1 & t & r & -> & Ht). split; [|split].
  - intro b. apply wl_str; [assumption|apply starts_apo; assumption|reflexivity].
  - intro b. apply after_nonvar; [assumption|discriminate].
  - exists t, r. auto.
Qed.
Lemma schain_app : forall s q s' q', schain s q -> schain s' q' -> schain (s ++ s') (q ++ q').
Proof.
  intros s q s' q' (A1 & A2 & t & r & -> & A4) (B1 & B2 & _). split; [|split].
  - intro b. apply wl_app; [apply A1|apply B1].
  - intro b. rewrite after_app. apply B2.
  - exists t, (r ++ q'). auto.
Qed.
Lemma schain_many : forall l c q1 q2, schain c q1 -> Many schain l q2 -> schain (c ++ concat l) (q1 ++ q2).
Proof.
  induction l as [|b l IH]; intros a q1 q2 Ha (qs & -> & HF); inversion HF as [|? q ? qs' Hb HF']; subst; cbn.
  - rewrite !app_nil_r. assumption.
  - rewrite !app_assoc. apply IH; [apply schain_app; assumption|]. exists qs'. auto.
Qed.
Lemma quoted_model : forall c q t u, apo t = true -> apo u = true -> WL false c q ->
  schain ([Str [APO]] ++ c ++ [Str [APO]]) ([t] ++ q ++ [u]).
Proof.
  intros c q t u Ht Hu H. split; [|split].
  - intro b. apply wl_app; [apply W_apo; assumption|]. rewrite after_apo by assumption.
    apply wl_app; [assumption|apply W_apo; assumption].
  - intro b. rewrite app_assoc. apply after_false, nonvar_apo. assumption.
  - exists t; eexists; split; [reflexivity|assumption].
Qed.
Lemma l_string_v_apo_sp_s : Sound (l_string_v_apo_sp R) schain.
Proof.
  unfold l_string_v_apo_sp. eapply bind_s.
  { apply alt_s with (W := fun s q => stext s q \/ s = [] /\ q = []).
    - eapply sound_weaken; [apply l_string_poss_space_c_s|]. auto.
    - apply ret_s. auto. }
  intros s q Hs. eapply bind_s; [apply l_apo_s|]. intros _ ? (t & -> & Ht). eapply bind_s; [apply l_sp_string_v_s|]. intros c q2 Hc.
  eapply bind_s; [apply l_apo_s|]. intros _ ? (u & -> & Hu). eapply bind_s.
  { apply many_s with (W := schain). unfold l_string_poss_space_u. apply alt_s.
    - eapply bind_s; [apply quoted_sp_s|]. intros s' q' H. apply ret_s. rewrite app_nil_r. apply stext_chain. assumption.
    - eapply bind_s; [apply l_apo_s|]. intros _ ? (t' & -> & Ht'). eapply bind_s; [apply l_sp_string_v_s|]. intros c' q2' Hc'.
      eapply bind_s; [apply l_apo_s|]. intros _ ? (u' & -> & Hu'). apply ret_s. rewrite app_nil_r.
      apply (quoted_model c' q2' t' u'); assumption. }
  intros l q3 Hl. apply ret_s. rewrite app_nil_r.
  pose proof (schain_many _ _ _ _ (quoted_model c q2 t u Ht Hu Hc) Hl) as H.
  destruct H as (H1 & H2 & t0 & r0 & E0 & H3). destruct Hs as [(-> & Hs1 & ts & rs & -> & Hs2)|[-> ->]].
  - split; [|split].
    + intro b.
      assert (E : (ts :: rs) ++ [t] ++ q2 ++ [u] ++ q3 = ((ts :: rs) ++ [t]) ++ (q2 ++ [u] ++ q3)) by (rewrite <- app_assoc; reflexivity).
      rewrite E.
      rewrite <- (app_assoc c).
      change (Str (written (ts :: rs) ++ [APO]) :: c ++ [Str [APO]] ++ concat l)
        with ([Str (written (ts :: rs) ++ [APO])] ++ c ++ [Str [APO]] ++ concat l).
      apply wl_app.
      * apply wl_str; [fa|apply starts_apo; assumption|]. rewrite written_app. f_equal. destruct t; try discriminate; reflexivity.
      * rewrite after_false by (apply nonvar_apo; assumption). apply wl_app; [assumption|]. apply wl_app; [apply W_apo; assumption|].
        apply wl_many. destruct Hl as (qs & -> & HF). exists qs. split; [reflexivity|].
        clear -HF. induction HF as [|c' q' l' qs' Hx HF IH]; [constructor|]. constructor; [exact (proj1 Hx)|assumption].
    + intro b. replace ((ts :: rs) ++ [t] ++ q2 ++ [u] ++ q3) with ((ts :: rs) ++ ([t] ++ q2 ++ [u]) ++ q3) by (rewrite <- !app_assoc; reflexivity).
      rewrite after_app. apply H2.
    + exists ts; eexists; split; [reflexivity|assumption].
  - split; [|split].
    + intro b. specialize (H1 b). rewrite <- !app_assoc in H1. cbn [app] in *. rewrite <- app_assoc. exact H1.
    + intro b. specialize (H2 b). rewrite <- !app_assoc in H2. exact H2.
    + exists t; eexists; split; [reflexivity|assumption].
Qed.
Lemma l_string_chain : forall b s q, plain s q -> b = false -> WL b [Str s] q.
Proof. intros b s q (-> & H & _) ->. apply wl_str; [assumption|left; reflexivity|reflexivity]. Qed.

Definition sp_label (c : chain) (q : list tok) : Prop := WL false c q /\ head_apo q.
Lemma head_apo_app : forall p q, head_apo p -> head_apo (p ++ q).
Proof. intros p q (t & r & -> & H). exists t, (r ++ q). auto. Qed.
Lemma l_common_rules_s : Sound (l_common_rules R) sp_label.
Proof.
  unfold l_common_rules. apply alt_s; [|apply alt_s].
  - eapply bind_s; [apply l_string_v_apo_sp_s|]. intros a q (H1 & H2 & H3). eapply bind_s; [apply l_string_v_s|].
    intros c q2 (K1 & _). apply ret_s. rewrite app_nil_r. split; [|apply head_apo_app; assumption]. apply wl_app; [apply H1|]. rewrite H2. assumption.
  - eapply bind_s; [apply l_string_poss_space_c_s|]. intros a q Ha. apply stext_chain in Ha. destruct Ha as (H1 & H2 & H3).
    eapply bind_s; [apply l_string_v_s|]. intros c q2 (K1 & _). apply ret_s. rewrite app_nil_r. split; [|apply head_apo_app; assumption].
    change (Str a :: c) with ([Str a] ++ c). apply wl_app; [apply H1|]. rewrite H2. assumption.
  - eapply bind_s; [apply l_string_v_apo_sp_s|]. intros a q (H1 & H2 & H3). eapply bind_s; [apply l_string_s|].
    intros c q2 (K1 & _). apply ret_s. rewrite app_nil_r. split; [|apply head_apo_app; assumption]. apply wl_app; [apply H1|].
    apply l_string_chain; auto.
Qed.
Lemma l_model_sp_s : Sound (l_model_sp R) (fun c q => sp_label c q /\ clear_concat_chain c = c).
Proof.
  unfold l_model_sp. eapply bind_s with (W := sp_label).
  2:{ intros c q (H1 & H2). apply ret_s. rewrite app_nil_r. split; [split; [apply W_clear|]; assumption|apply clear_idem]. }
  apply alt_s; [|apply alt_s; [|apply alt_s; [|apply alt_s]]].
  - eapply sound_weaken; [apply l_string_v_apo_sp_s|]. intros c q (H1 & H2 & H3). split; auto.
  - apply l_common_rules_s.
  - eapply bind_s; [apply l_common_rules_s|]. intros c q (H1 & H2). eapply bind_s; [apply l_string_v_apo_s|].
    intros d q2 ((K1 & _) & _). apply ret_s. rewrite app_nil_r. split; [apply wl_app; auto|apply head_apo_app; assumption].
  - eapply bind_s; [apply l_common_rules_s|]. intros c q (H1 & H2). eapply bind_s; [apply l_string_no_space_c_s|].
    intros d q2 K. apply ctext_chain in K. destruct K as (K1 & _).
    apply ret_s. rewrite app_nil_r. split; [apply wl_app; auto|apply head_apo_app; assumption].
  - eapply bind_s; [apply l_string_poss_space_c_s|]. intros a q Ha. apply stext_chain in Ha. destruct Ha as (H1 & H2 & H3).
    eapply bind_s; [apply l_string_s|]. intros s q2 (K & _). eapply bind_s; [apply l_string_v_apo_s|]. intros d q3 ((M1 & _) & _).
    apply ret_s. rewrite app_nil_r. split; [|apply head_apo_app; assumption].
    change (Str a :: Str s :: d) with ([Str a] ++ [Str s] ++ d). apply wl_app; [apply H1|]. rewrite H2.
    apply wl_app; [apply l_string_chain; auto|auto].
Qed.
Definition ns_label (c : chain) (q : list tok) : Prop :=
  WL false c q /\ Forall nonspace q /\ Nat.even (apostrophes q) = true /\ (exists t r, q = t :: r /\ nonapo t) /\ has_var q.
Lemma model_head : forall q : list tok, Forall nonapo q -> q <> [] -> exists t r, q = t :: r /\ nonapo t.
Proof. intros q H Hq. destruct H; [congruence|eauto]. Qed.
Lemma l_model_s : Sound (l_model R) (fun c q => ns_label c q /\ clear_concat_chain c = c).
Proof.
  unfold l_model. eapply bind_s with (W := ns_label).
  2:{ intros c q (H1 & H2). apply ret_s. rewrite app_nil_r. split; [split; [apply W_clear|]; assumption|apply clear_idem]. }
  assert (NE : forall q, has_var q -> q <> []) by (intros q [v Hv] ->; destruct Hv).
  apply alt_s; [|apply alt_s; [|apply alt_s]].
  - eapply sound_weaken; [apply l_string_v_s|]. intros c q (H1 & H2 & H3 & H4). split; [assumption|]. split; [assumption|].
    rewrite apostrophes_none by assumption. split; [reflexivity|]. split; [apply model_head; auto|assumption].
  - eapply bind_s; [apply l_string_s|]. intros s q (K & Hq). pose proof K as (_ & _ & K2 & K3). eapply bind_s; [apply l_string_v_apo_s|].
    intros d q2 ((M1 & M2 & M3 & _) & Mv). apply ret_s. rewrite app_nil_r. split; [|split; [|split; [|split]]]; [| | | |apply hv_r; assumption].
    + change (Str s :: d) with ([Str s] ++ d). apply wl_app; [apply l_string_chain; auto|auto].
    + apply Forall_app. auto.
    + rewrite apostrophes_app, (apostrophes_none q) by assumption. assumption.
    + destruct (model_head _ K3 Hq) as (t & r & -> & H). exists t, (r ++ q2). auto.
  - eapply bind_s; [apply l_string_v_s|]. intros s q (K1 & K2 & K3 & K4). eapply bind_s; [apply l_string_v_apo_s|].
    intros d q2 ((M1 & M2 & M3 & _) & Mv). apply ret_s. rewrite app_nil_r. split; [|split; [|split; [|split]]]; [| | | |apply hv_r; assumption].
    + apply wl_app; auto.
    + apply Forall_app. auto.
    + rewrite apostrophes_app, (apostrophes_none q) by assumption. assumption.
    + destruct (model_head _ K3 (NE _ K4)) as (t & r & -> & H). exists t, (r ++ q2). auto.
  - eapply bind_s; [apply l_string_v_s|]. intros s q (K1 & K2 & K3 & K4). eapply bind_s; [apply l_string_no_space_c_s|].
    intros d q2 Hd. pose proof (ctext_chain _ _ Hd) as (M1 & M2 & M3 & _). apply ret_s. rewrite app_nil_r. split; [|split; [|split; [|split]]]; [| | | |apply hv_l; assumption].
    + apply wl_app; auto.
    + apply Forall_app. auto.
    + rewrite apostrophes_app, (apostrophes_none q) by assumption. assumption.
    + destruct (model_head _ K3 (NE _ K4)) as (t & r & -> & H). exists t, (r ++ q2). auto.
Qed.
End L.
