(** * Mdl_First: the label and the operation of a line *)
From Coq Require Import List NArith Bool Arith Lia.
From Verif Require Import Common Mdl_Model Mdl_Spec Mdl_Proof Mdl_Label.
Import ListNotations.

Definition lone (q : list tok) : bool := match q with [TOrd _] => true | _ => false end.
Inductive Lab : label_si -> list tok -> Prop :=
| lab_text : forall q, Forall nonvar q -> Forall nonspace q -> (exists t r, q = t :: r /\ nonapo t) ->
    Lab (text_label (written q) (lone q)) q
| lab_quoted : forall q, Forall nonvar q -> head_apo q -> Lab (LMac (written q)) q
| lab_model : forall c q, ns_label c q -> clear_concat_chain c = c -> Lab (chain_label c) q
| lab_model_sp : forall c q, sp_label c q -> clear_concat_chain c = c -> Lab (chain_label c) q
| lab_none : Lab LEmpty [].

Section L.
Variable R : Type.
Definition la (t : tok) : option bytes :=
  match l_ch t with Some s => Some s | None => match is_apo t with Some _ => Some [APO] | None => None end end.
Lemma la_text : forall t s, la t = Some s -> s = text t.
Proof. destruct t; cbn; congruence. Qed.
Lemma la_kind : forall t, la t <> None <-> nonvar t /\ nonspace t.
Proof. destruct t; unfold nonvar, nonspace; cbn; split; intros; repeat split; try congruence; try tauto; try (destruct H as (?&?); congruence). Qed.

Lemma l_char_string_s : Sound (l_char_string R) (fun x q => x = (written q, lone q) /\ Forall nonvar q /\ Forall nonspace q /\
  exists t r, q = t :: r /\ nonapo t).
Proof.
  intros ts k x E. unfold l_char_string in E. destruct ts as [|t ts]; [discriminate|]. cbn in E.
  destruct (l_ch t) as [s|] eqn:Ht; [|discriminate].
  destruct (many_one_s R _ la ts _ _ E) as (l & q & r & -> & HF & E2). cbn in E2.
  destruct (all_text _ la_text _ _ HF) as [Ew Hq].
  assert (K : l_ch t <> None) by congruence. apply l_ch_kind in K. destruct K as (K1 & K2 & K3).
  exists (written (t :: q), lone (t :: q)), (t :: q), r. split; [reflexivity|]. split; [split; [reflexivity|split; [|split]]|].
  - constructor; [assumption|]. eapply Forall_impl; [|exact Hq]. intros u Hu. apply la_kind in Hu. tauto.
  - constructor; [assumption|]. eapply Forall_impl; [|exact Hq]. intros u Hu. apply la_kind in Hu. tauto.
  - eauto.
  - rewrite Ew, (l_ch_text _ _ Ht) in E2. unfold written in *. cbn [map concat].
    replace (lone (t :: q)) with (match t with TOrd _ => match l with [] => true | _ :: _ => false end | _ => false end); [exact E2|].
    destruct HF; destruct t; reflexivity.
Qed.
Lemma label_s : Sound (label R) Lab.
Proof.
  unfold label. apply alt_s; [|apply alt_s; [|apply alt_s; [|apply alt_s]]].
  - eapply bind_s; [apply l_char_string_s|]. intros x q (-> & H1 & H2 & H3). apply ret_s. rewrite app_nil_r. constructor; assumption.
  - eapply bind_s; [apply (l_string_poss_space_c_s R)|]. intros s q (-> & H1 & H2).
    eapply bind_s.
    { apply alt_s with (W := fun x q => fst x = written q /\ Forall nonvar q).
      - eapply sound_weaken; [apply l_char_string_s|]. intros x q' (-> & K1 & _). auto.
      - apply ret_s. split; [reflexivity|constructor]. }
    intros [s2 o] q2 (E & K). cbn in E. subst s2. apply ret_s. rewrite app_nil_r. cbn [fst]. rewrite <- written_app.
    apply lab_quoted; [apply Forall_app; auto|apply head_apo_app; assumption].
  - eapply bind_s; [apply l_model_s|]. intros c q (H1 & H2). apply ret_s. rewrite app_nil_r. apply lab_model; assumption.
  - eapply bind_s; [apply l_model_sp_s|]. intros c q (H1 & H2). apply ret_s. rewrite app_nil_r. apply lab_model_sp; assumption.
  - apply ret_s. constructor.
Qed.

(** ** Readings exist *)
Lemma l_string_o_a : forall q, Forall nonvar q -> Forall nonspace q -> Forall nonapo q -> Acc (l_string_o R) q.
Proof.
  intros q H1 H2 H3. apply texts_a. rewrite Forall_forall in *. intros t Ht. apply l_ch_kind. auto.
Qed.
Lemma l_string_a : forall q, q <> [] -> Forall nonvar q -> Forall nonspace q -> Forall nonapo q -> Acc (l_string R) q.
Proof.
  intros q Hq H1 H2 H3. destruct q as [|t q]; [congruence|]. inversion H1; inversion H2; inversion H3; subst.
  unfold l_string. apply (bind_a R _ _ _ _ [t] q); [apply one_a; apply l_ch_kind; auto|]. intro a.
  apply bind_a0; [apply (l_string_o_a q); assumption|]. intro. apply ret_a.
Qed.
Lemma split_var : forall q, has_var q -> exists q1 v q2, q = q1 ++ TVar v :: q2 /\ Forall nonvar q1.
Proof.
  induction q as [|t q IH]; intros [v Hv]; [destruct Hv|]. destruct (is_var t) as [w|] eqn:E.
  - destruct t; try discriminate. exists [], v0, q. auto.
  - destruct Hv as [->|Hv]; [discriminate|]. destruct IH as (q1 & w & q2 & -> & H); [eexists; eassumption|].
    exists (t :: q1), w, q2. split; [reflexivity|]. constructor; assumption.
Qed.
Lemma l_string_v_a : forall q, has_var q -> Forall nonspace q -> Forall nonapo q -> Acc (l_string_v R) q.
Proof.
  intros q Hv H2 H3. destruct (split_var q Hv) as (q1 & v & q2 & -> & H1). apply Forall_app in H2, H3. destruct H2 as [A1 A2], H3 as [B1 B2].
  inversion A2; inversion B2; subst. unfold l_string_v. apply bind_a; [apply l_string_o_a; assumption|]. intro s.
  apply (bind_a R _ _ _ _ [TVar v] q2); [apply one_a; discriminate|]. intro w. apply bind_a0.
  - apply many_one_a. rewrite Forall_forall in *. intros t Ht. apply l_ch_v_kind. auto.
  - intro c. apply ret_a.
Qed.
Lemma l_apo_a : forall t, apo t = true -> Acc (l_apo R) [t].
Proof. intros t H. apply one_a. destruct t; cbn in *; congruence. Qed.
Definition word_of (q : list tok) : Prop := Forall nonspace q /\ Forall nonapo q.
Lemma quoted_a : forall p t u q, apo t = true -> apo u = true -> Acc p q -> Acc (l_quoted R p) (t :: q ++ [u]).
Proof.
  intros p t u q Ht Hu H. unfold l_quoted. apply (bind_a R _ _ _ _ [t]); [apply l_apo_a; assumption|]. intros _.
  apply bind_a; [assumption|]. intro s. apply bind_a0; [apply l_apo_a; assumption|]. intros _. apply ret_a.
Qed.
Inductive unit_of : list tok -> Prop :=
| mk_unit : forall t x u y, apo t = true -> apo u = true -> word_of x -> word_of y -> unit_of (t :: x ++ u :: y).
Lemma has_var_dec : forall q, Forall nonvar q \/ has_var q.
Proof.
  induction q as [|t q [IH|[v Hv]]]; [left; constructor| |right; exists v; right; assumption].
  destruct (is_var t) eqn:E; [right|left; constructor; assumption]. destruct t; try discriminate. eexists. left. reflexivity.
Qed.
Lemma unit_c : forall q, unit_of q -> Forall nonvar q -> Acc (no_space_c1 R) q.
Proof.
  intros q [t x u y Ht Hu [X1 X2] [Y1 Y2]] H. inversion H as [|? ? _ H']; subst. apply Forall_app in H'. destruct H' as [Hx Hy].
  inversion Hy; subst. replace (t :: x ++ u :: y) with ((t :: x ++ [u]) ++ y) by (cbn; rewrite <- app_assoc; reflexivity).
  unfold no_space_c1. apply bind_a.
  - apply quoted_a; auto. apply l_string_o_a; assumption.
  - intro a. apply bind_a0; [apply l_string_o_a; assumption|]. intro. apply ret_a.
Qed.
Lemma unit_v : forall q, unit_of q -> has_var q -> Acc (l_string_no_space_v R) q.
Proof.
  intros q [t x u y Ht Hu [X1 X2] [Y1 Y2]] H. unfold l_string_no_space_v.
  destruct (has_var_dec x) as [Hx|Hx]; destruct (has_var_dec y) as [Hy|Hy].
  - destruct H as [v Hv]. exfalso. destruct Hv as [->|Hv]; [discriminate|]. apply in_app_or in Hv.
    rewrite Forall_forall in Hx, Hy. destruct Hv as [Hv|[->|Hv]]; [apply Hx in Hv; discriminate|discriminate|apply Hy in Hv; discriminate].
  - apply alt_al. replace (t :: x ++ u :: y) with ((t :: x ++ [u]) ++ y) by (cbn; rewrite <- app_assoc; reflexivity). apply bind_a.
    + apply quoted_a; auto. apply l_string_o_a; assumption.
    + intro a. apply bind_a0; [apply l_string_v_a; assumption|]. intro. apply ret_a.
  - apply alt_ar, alt_al. apply (bind_a R _ _ _ _ [t]); [apply l_apo_a; assumption|]. intros _.
    apply bind_a; [apply l_string_v_a; assumption|]. intro c. apply (bind_a R _ _ _ _ [u]); [apply l_apo_a; assumption|]. intros _.
    apply bind_a0; [apply l_string_o_a; assumption|]. intro. apply ret_a.
  - apply alt_ar, alt_ar. apply (bind_a R _ _ _ _ [t]); [apply l_apo_a; assumption|]. intros _.
    apply bind_a; [apply l_string_v_a; assumption|]. intro c. apply (bind_a R _ _ _ _ [u]); [apply l_apo_a; assumption|]. intros _.
    apply bind_a0; [apply l_string_v_a; assumption|]. intro. apply ret_a.
Qed.
Lemma unit_nil : forall q, unit_of q -> q <> [].
Proof. intros q []; discriminate. Qed.
Lemma many1_a : forall A (p : P R A) q qs, Acc p q -> Forall (fun q => q <> [] /\ Acc p q) qs -> Acc (many1 R p) (concat (q :: qs)).
Proof.
  intros A p q qs H HF. unfold many1. cbn [concat]. apply bind_a; [assumption|]. intro a. apply bind_a0; [apply many_a; assumption|].
  intro. apply ret_a.
Qed.
Lemma units_c : forall us, us <> [] -> Forall unit_of us -> Forall nonvar (concat us) -> Acc (l_string_no_space_c R) (concat us).
Proof.
  intros us Hu HF Hn. unfold l_string_no_space_c. apply bind_a0; [|intro; apply ret_a]. destruct us as [|u us]; [congruence|].
  cbn in Hn. apply Forall_app in Hn. destruct Hn as [N1 N2]. inversion HF as [|? ? F1 F2]; subst. apply many1_a; [apply unit_c; assumption|].
  clear -F2 N2. induction F2 as [|u us F FF IH]; constructor.
  - cbn in N2. apply Forall_app in N2. split; [apply unit_nil; assumption|]. apply unit_c; tauto.
  - apply IH. cbn in N2. apply Forall_app in N2. tauto.
Qed.
Lemma split_units : forall us, has_var (concat us) -> exists us1 u us2, us = us1 ++ u :: us2 /\ Forall nonvar (concat us1) /\ has_var u.
Proof.
  induction us as [|u us IH]; intros Hv; [destruct Hv as [v []]|]. destruct (has_var_dec u) as [Hu|Hu].
  - destruct IH as (us1 & w & us2 & -> & H1 & H2).
    + destruct Hv as [v Hv]. cbn in Hv. apply in_app_or in Hv. destruct Hv as [Hv|Hv].
      * rewrite Forall_forall in Hu. apply Hu in Hv. discriminate.
      * exists v. assumption.
    + exists (u :: us1), w, us2. split; [reflexivity|]. split; [|assumption]. cbn. apply Forall_app. auto.
  - exists [], u, us. repeat split; auto. constructor.
Qed.
Lemma units_v : forall us, Forall unit_of us -> has_var (concat us) -> Acc (l_string_v_apo R) (concat us).
Proof.
  intros us HF Hv. destruct (split_units us Hv) as (us1 & u & us2 & -> & H1 & H2). apply Forall_app in HF. destruct HF as [F1 F2].
  inversion F2 as [|? ? F3 F4]; subst. rewrite concat_app. cbn [concat]. unfold l_string_v_apo. apply bind_a.
  - destruct us1 as [|u1 us1]; [apply alt_ar, ret_a|]. apply alt_al. apply units_c; [discriminate|assumption..].
  - intro s. apply bind_a; [apply unit_v; assumption|]. intro c. apply bind_a0; [|intro; apply ret_a]. apply many_a.
    eapply Forall_impl; [|exact F4]. intros w Hw. split; [apply unit_nil; assumption|]. unfold l_string_no_space_u.
    destruct (has_var_dec w) as [Hn|Hn].
    + apply alt_ar. apply bind_a0; [apply unit_c; assumption|]. intro. apply ret_a.
    + apply alt_al. apply unit_v; assumption.
Qed.

(** A word is a start without apostrophes, then units. *)
Lemma split_word : forall q, Forall nonspace q -> exists a r, q = a ++ r /\ word_of a /\ (r = [] \/ head_apo r).
Proof.
  induction q as [|t q IH]; intro H.
  - exists [], []. repeat split; auto; constructor.
  - inversion H as [|? ? H1 H2]; subst. destruct (apo t) eqn:E.
    + exists [], (t :: q). split; [reflexivity|]. split; [split; constructor|]. right. exists t, q. auto.
    + destruct (IH H2) as (a & r & -> & [A1 A2] & Hr). exists (t :: a), r. split; [reflexivity|]. split; [|assumption].
      split; constructor; assumption.
Qed.
Lemma split_unit : forall n q, length q <= n -> Forall nonspace q -> q = [] \/ head_apo q -> Nat.even (apostrophes q) = true ->
  exists us, q = concat us /\ Forall unit_of us.
Proof.
  induction n as [|n IH]; intros q Hn H Hh He.
  - destruct q; [|cbn in Hn; lia]. exists []. auto.
  - destruct Hh as [->|(t & r & -> & Ht)]; [exists []; auto|]. inversion H as [|? ? H1 H2]; subst.
    destruct (split_word r H2) as (x & r1 & -> & Hx & [->|(u & r2 & -> & Hu)]).
    + exfalso. cbn in He. rewrite app_nil_r, Ht, apostrophes_none in He by apply Hx. discriminate.
    + apply Forall_app in H2. destruct H2 as [_ H2]. inversion H2 as [|? ? H3 H4]; subst.
      destruct (split_word r2 H4) as (y & r3 & -> & Hy & Hr).
      destruct (IH r3) as (us & -> & HF).
      * cbn in Hn. rewrite app_length in Hn. cbn in Hn. rewrite app_length in Hn. lia.
      * apply Forall_app in H4. tauto.
      * assumption.
      * cbn in He. rewrite !apostrophes_app, Ht in He. cbn in He. rewrite apostrophes_app, Hu, (apostrophes_none x), (apostrophes_none y) in He by (apply Hx || apply Hy).
        assumption.
      * exists ((t :: x ++ u :: y) :: us). split; [cbn; rewrite <- app_assoc; reflexivity|]. constructor; [|assumption]. constructor; assumption.
Qed.
Lemma l_model_a : forall q, Forall nonspace q -> has_var q -> Nat.even (apostrophes q) = true -> (exists t r, q = t :: r /\ nonapo t) ->
  Acc (l_model R) q.
Proof.
  intros q H Hv He (t & r & Eq & Ht). unfold l_model. apply bind_a0; [|intro; apply ret_a].
  destruct (split_word q H) as (a & r' & -> & [A1 A2] & Hr).
  assert (Ha : a <> []). { intros ->. destruct Hr as [->|(t' & r2 & -> & Ht')]; [discriminate|]. cbn in Eq. injection Eq as -> ->. unfold nonapo in Ht. congruence. }
  apply Forall_app in H. destruct H as [_ H]. rewrite apostrophes_app, (apostrophes_none a) in He by assumption. cbn in He.
  destruct (split_unit _ r' (le_n _) H Hr He) as (us & -> & HF).
  destruct us as [|u us].
  - apply alt_al. cbn in *. rewrite app_nil_r in *. apply l_string_v_a; assumption.
  - destruct (has_var_dec a) as [Na|Va].
    + apply alt_ar, alt_al. apply bind_a; [apply l_string_a; assumption|]. intro s. apply bind_a0; [|intro; apply ret_a]. apply units_v; [assumption|].
      destruct Hv as [v Hv]. apply in_app_or in Hv. destruct Hv as [Hv|Hv]; [|exists v; assumption].
      rewrite Forall_forall in Na. apply Na in Hv. discriminate.
    + destruct (has_var_dec (concat (u :: us))) as [Nu|Vu].
      * apply alt_ar, alt_ar, alt_ar. apply bind_a; [apply l_string_v_a; assumption|]. intro s. apply bind_a0; [|intro; apply ret_a].
        apply units_c; [discriminate|assumption..].
      * apply alt_ar, alt_ar, alt_al. apply bind_a; [apply l_string_v_a; assumption|]. intro s. apply bind_a0; [|intro; apply ret_a].
        apply units_v; assumption.
Qed.
Lemma l_char_string_a : forall q, Forall nonvar q -> Forall nonspace q -> (exists t r, q = t :: r /\ nonapo t) -> Acc (l_char_string R) q.
Proof.
  intros q H1 H2 (t & q' & -> & Ht) r k Hk. inversion H1; inversion H2; subst. unfold l_char_string. cbn [app one]. unfold bind at 1. cbn [one].
  assert (K : l_ch t <> None) by (apply l_ch_kind; auto). destruct (l_ch t) as [s|]; [|congruence].
  unfold bind. apply (many_one_a R _ la q').
  - rewrite Forall_forall in *. intros u Hu. apply la_kind. auto.
  - intro l. cbn. apply Hk.
Qed.
End L.

(** ** The operation *)
Lemma star_det : forall R A (f : tok -> option A) l q r n (k : list A -> list tok -> option R),
  Forall2 (fun a t => f t = Some a) l q -> match r with [] => True | t :: _ => f t = None end -> k l r <> None ->
  length q <= n -> star R n (one R f) (q ++ r) k = k l r.
Proof.
  intros R A f l q r n k HF. revert n k. induction HF as [|a t l q H HF IH]; intros n k Hr Hk Hn.
  - destruct n; [reflexivity|]. cbn [app star]. unfold one. destruct r as [|t r]; [reflexivity|]. rewrite Hr. reflexivity.
  - destruct n; [cbn in Hn; lia|]. cbn [app star one]. rewrite H. rewrite (IH n (fun l0 => k (a :: l0))); [|assumption|assumption|cbn in Hn; lia].
    unfold orelse. destruct (k (a :: l) r); [reflexivity|congruence].
Qed.
Lemma many_det : forall R A (f : tok -> option A) l q r (k : list A -> list tok -> option R),
  Forall2 (fun a t => f t = Some a) l q -> match r with [] => True | t :: _ => f t = None end -> k l r <> None ->
  many R (one R f) (q ++ r) k = k l r.
Proof. intros. apply star_det; auto. rewrite app_length. lia. Qed.
Fixpoint values {A} (f : tok -> option A) (q : list tok) : list A :=
  match q with [] => [] | t :: r => match f t with Some a => a :: values f r | None => values f r end end.
Lemma values_all : forall A (f : tok -> option A) q, Forall (fun t => f t <> None) q -> Forall2 (fun a t => f t = Some a) (values f q) q.
Proof.
  induction 1 as [|t q H HF IH]; cbn; [constructor|]. destruct (f t) eqn:E; [|congruence]. constructor; assumption.
Qed.
Lemma values_text : forall f, (forall t s, f t = Some s -> s = text t) -> forall q, Forall (fun t => f t <> None) q ->
  concat (values f q) = written q.
Proof. intros f Hf q H. apply (all_text f Hf). apply values_all. assumption. Qed.

Definition behind (ts : list tok) : list tok := skipn (length (run ts)) ts.
Lemma run_app : forall ts, ts = run ts ++ behind ts.
Proof.
  unfold behind. induction ts as [|t ts IH]; [reflexivity|]. destruct t; cbn; try reflexivity; f_equal; exact IH.
Qed.
Lemma run_word : forall ts, word_of (run ts).
Proof.
  induction ts as [|t ts [IH1 IH2]]; [split; constructor|]. destruct t; cbn; split; repeat constructor; assumption.
Qed.
Lemma behind_head : forall ts, match behind ts with [] => True | t :: _ => l_ch_v t = None /\ l_ch t = None end.
Proof.
  unfold behind. induction ts as [|t ts IH]; [exact I|]. destruct t; cbn; auto.
Qed.
Lemma run_prefix : forall q r, word_of q -> exists q', run (q ++ r) = q ++ q' /\ r = q' ++ behind (q ++ r).
Proof.
  intros q r [H1 H2]. induction q as [|t q IH].
  - exists (run r). split; [reflexivity|]. apply run_app.
  - inversion H1; inversion H2; subst. destruct IH as (q' & E1 & E2); try assumption. exists q'.
    unfold nonapo in *. unfold behind in *. destruct t; cbn in *; try contradiction; try discriminate; rewrite E1 in *; cbn in *; auto.
Qed.

Lemma l_string_v_none : forall A ts (k : chain -> list tok -> option A), ~ has_var (run ts) -> l_string_v A ts k = None.
Proof.
  intros A ts k H. destruct (l_string_v A ts k) as [x|] eqn:E; [|reflexivity]. exfalso. apply H.
  destruct (l_string_v_s A _ _ _ E) as (c & q & r & -> & (_ & H1 & H2 & [v Hv]) & _).
  destruct (run_prefix q r) as (q' & -> & _); [split; assumption|]. exists v. apply in_or_app. auto.
Qed.
Lemma l_string_v_det : forall ts, has_var (run ts) ->
  exists c, (forall A (k : chain -> list tok -> option A), (forall c r, k c r <> None) -> l_string_v A ts k = k c (behind ts)) /\ (lexed ts -> forall value, evaluate value false c = substituted value false (run ts)).
Proof.
  intros ts Hv. destruct (split_var _ Hv) as (q1 & v & q2 & E & Hq1).
  pose proof (run_word ts) as [N1 N2]. pose proof (behind_head ts) as Hb. rewrite E in N1, N2. apply Forall_app in N1, N2.
  destruct N1 as [A1 A2], N2 as [B1 B2]. inversion A2 as [|? ? _ A3]; inversion B2 as [|? ? _ B3]; subst.
  assert (F1 : Forall (fun t => l_ch t <> None) q1) by (rewrite Forall_forall in *; intros t Ht; apply l_ch_kind; auto).
  assert (F2 : Forall (fun t => l_ch_v t <> None) q2) by (rewrite Forall_forall in *; intros t Ht; apply l_ch_v_kind; auto).
  set (c := clear_concat_chain (Str (concat (values l_ch q1)) :: Var v :: values l_ch_v q2)).
  exists c. split.
  - intros A k Hk. rewrite (run_app ts) at 1. rewrite E, <- app_assoc. cbn [app]. unfold l_string_v, l_string_o, texts, bind, ret, l_str_v.
    rewrite (many_det A _ l_ch (values l_ch q1) q1).
    + cbn [one is_var]. rewrite (many_det A _ l_ch_v (values l_ch_v q2) q2); [reflexivity|apply values_all; assumption| |apply Hk].
      destruct (behind ts); [exact I|apply Hb].
    + apply values_all. assumption.
    + reflexivity.
    + cbn [one is_var]. rewrite (many_det A _ l_ch_v (values l_ch_v q2) q2); [apply Hk|apply values_all; assumption| |apply Hk].
      destruct (behind ts); [exact I|apply Hb].
  - intros HL val. rewrite (run_app ts) in HL. apply lexed_app in HL. destruct HL as [HL _].
    rewrite E in *. subst c. rewrite (values_text l_ch l_ch_text q1 F1).
    change (Str (written q1) :: Var v :: values l_ch_v q2) with ([Str (written q1)] ++ [Var v] ++ values l_ch_v q2).
    assert (HW : WL false ([Str (written q1)] ++ [Var v] ++ values l_ch_v q2) (q1 ++ [TVar v] ++ q2)).
    { apply wl_app; [apply wl_str; [assumption|left; reflexivity|reflexivity]|]. apply wl_app; [apply W_var|].
      eapply wl_points; [|apply values_all; exact F2]. intros b p t H. apply W_point; [auto|]. apply l_ch_v_op. assumption. }
    apply HW. exact HL.
Qed.

Inductive reads : list tok -> instr_si -> list tok -> Prop :=
| reads_model : forall ts c, has_var (run ts) -> (lexed ts -> forall value, evaluate value false c = substituted value false (run ts)) ->
    reads ts (IConc c) (behind ts)
| reads_name : forall s ts, ~ has_var (run (TOrd s :: ts)) -> reads (TOrd s :: ts) (IName (written (run (TOrd s :: ts)))) (behind (TOrd s :: ts))
| reads_bad : forall s ts, ~ has_var (run (TIdent s :: ts)) -> reads (TIdent s :: ts) (IName (written (word (TIdent s :: ts)))) (rest (TIdent s :: ts)).

Lemma nonvar_run : forall q, ~ has_var q -> Forall nonvar q.
Proof. intros q H. destruct (has_var_dec q) as [?|K]; [assumption|contradiction]. Qed.
Lemma word_rest : forall ts, ts = word ts ++ rest ts /\ Forall nonspace (word ts) /\ field_end (rest ts).
Proof.
  induction ts as [|t ts (IH1 & IH2 & IH3)]; [repeat split; constructor|].
  destruct t; cbn; (split; [congruence|]); (split; [first [constructor; [exact I|assumption] | constructor]|]); try assumption; exact I.
Qed.
Lemma instruction_det : forall ts,
  (exists i r, reads ts i r /\ forall A (k : instr_si -> list tok -> option A), (forall i r, k i r <> None) -> instruction A ts k = k i r) \/
  (~ has_var (run ts) /\ (forall s r, ts <> TOrd s :: r) /\ (forall s r, ts <> TIdent s :: r) /\
   forall A (k : instr_si -> list tok -> option A), instruction A ts k = None).
Proof.
  intro ts. destruct (has_var_dec (run ts)) as [Hn|Hv].
  - assert (Hnv : ~ has_var (run ts)). { intros [v Hv]. rewrite Forall_forall in Hn. apply Hn in Hv. discriminate. }
    destruct ts as [|t ts]; [right; split; [assumption|]; split; [discriminate|]; split; [discriminate|]; reflexivity|].
    destruct t as [s|s|s| | | | | | | | |s|s];
      try (right; split; [assumption|]; split; [discriminate|]; split; [discriminate|]; intros A k; unfold instruction, alt; unfold bind at 1;
           rewrite l_string_v_none by assumption; reflexivity).
    + left. eexists _, _. split; [apply reads_name; assumption|]. intros A k Hk.
      unfold instruction, alt. unfold bind at 1. rewrite l_string_v_none by assumption. cbn [orelse].
      pose proof (run_app ts) as Er. pose proof (run_word ts) as [N1 N2]. pose proof (behind_head ts) as Hb.
      cbn in Hn. inversion Hn as [|? ? _ Hn']; subst.
      assert (F1 : Forall (fun t => l_ch t <> None) (run ts)) by (rewrite Forall_forall in *; intros t Ht; apply l_ch_kind; auto).
      unfold bind, one at 1. cbn [is_ord]. unfold ret.
      change (behind (TOrd s :: ts)) with (behind ts). change (run (TOrd s :: ts)) with (TOrd s :: run ts).
      destruct (run ts) as [|u w] eqn:Ew.
      * (* the name alone *)
        unfold l_string, bind. assert (K : forall k', one A l_ch ts k' = None).
        { intro k'. rewrite Er. cbn [app]. destruct (behind ts); [reflexivity|]. unfold one. destruct Hb as [_ ->]. reflexivity. }
        rewrite K. cbn [orelse]. unfold one at 1. cbn [is_ord]. unfold written. cbn. rewrite app_nil_r.
        cbn in Er. rewrite <- Er. specialize (Hk (IName s) ts). destruct (k (IName s) ts); [reflexivity|congruence].
      * unfold l_string, bind. rewrite Er at 1. cbn [app]. unfold one at 1. inversion F1 as [|? ? F2 F3]; subst.
        destruct (l_ch u) as [x|] eqn:Ex; [|congruence]. unfold texts, bind, ret.
        rewrite (many_det A _ l_ch (values l_ch w) w).
        -- rewrite (values_text l_ch l_ch_text w F3), (l_ch_text _ _ Ex). unfold written. cbn [map concat text].
           match goal with |- orelse _ ?X _ = _ => pose proof (Hk (IName (s ++ text u ++ concat (map text w))) (behind ts)); destruct X; [reflexivity|congruence] end.
        -- apply values_all. assumption.
        -- destruct (behind ts); [exact I|apply Hb].
        -- apply Hk.
    + left. eexists _, _. split; [apply reads_bad; assumption|]. intros A k Hk.
      unfold instruction, alt. unfold bind at 1. rewrite l_string_v_none by assumption. cbn [orelse].
      unfold bind at 1, one at 1. cbn [is_ord orelse]. unfold bind at 1, one at 1. cbn [is_ord orelse].
      unfold bind at 1, one at 1. cbn [is_ident]. unfold texts, bind, ret. cbn [word rest].
      destruct (word_rest ts) as (Ew & Hw & He). rewrite Ew at 1.
      assert (F1 : Forall (fun t => not_space t <> None) (word ts)).
      { eapply Forall_impl; [|exact Hw]. intros t Ht. destruct t; cbn in *; try discriminate. contradiction. }
      rewrite (many_det A _ not_space (values not_space (word ts)) (word ts)).
      * rewrite values_text; [reflexivity| |assumption]. intros t x Hx. destruct t; cbn in *; congruence.
      * apply values_all. assumption.
      * destruct (rest ts) as [|t r]; [exact I|]. destruct t; try contradiction He; reflexivity.
      * apply Hk.
  - left. destruct (l_string_v_det ts Hv) as (c & Hd & Hc).
    exists (IConc c), (behind ts). split; [apply reads_model; assumption|]. intros A k Hk. unfold instruction, alt. unfold bind at 1, ret at 1.
    rewrite Hd by (intros; apply Hk). specialize (Hk (IConc c) (behind ts)). destruct (k (IConc c) (behind ts)); [reflexivity|congruence].
Qed.
