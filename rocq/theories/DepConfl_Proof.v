From Coq Require Import List ZArith Bool Arith Lia.
From Verif Require Import Addr_Model Addr_Spec Addr_Proof Loctr_Model Dep_Model Dep_Spec Dep_Proof.
Import ListNotations.
Local Open Scope Z_scope.

(** * The collector later *)
Definition later (s' : state) (c c' : coll) : Prop :=
  c_syms c = [] /\ c_syms c' = [] /\ c_attrs c = [] /\ c_attrs c' = [] /\ c_err c' = c_err c /\
  (c_spaces c = [] -> c_spaces c' = []) /\
  oshape (c_addr c') = (fst (oshape (c_addr c)), filter (pending s') (snd (oshape (c_addr c)))).

Lemma is_address_shape : forall c, c_syms c = [] -> is_address c = match fst (oshape (c_addr c)) with [] => false | _ => true end.
Proof. intros c H. unfold is_address. rewrite H. destruct (c_addr c) as [a|]; reflexivity. Qed.
Lemma later_is_address : forall s' c c', later s' c c' -> is_address c' = is_address c.
Proof.
  intros s' c c' (H1 & H2 & _ & _ & _ & _ & H). rewrite !is_address_shape by assumption. now rewrite H.
Qed.
Lemma later_combine : forall s' o a a' b b', later s' a a' -> later s' b b' -> later s' (Dep_Model.combine o a b) (Dep_Model.combine o a' b').
Proof.
  intros s' o a a' b b' HA HB. pose proof (later_is_address _ _ _ HA) as IA. pose proof (later_is_address _ _ _ HB) as IB.
  destruct HA as (A1 & A2 & A3 & A4 & A5 & A6 & A7). destruct HB as (B1 & B2 & B3 & B4 & B5 & B6 & B7).
  assert (AS : forall plus, later s' (add_sub plus a b) (add_sub plus a' b')).
  { intros plus. unfold add_sub, merge_undef. rewrite B5. destruct (c_err b) eqn:E.
    - cbn. repeat split; auto.
    - rewrite A1, A2, B1, B2, A3, A4, B3, B4. cbn [c_syms app c_err c_attrs c_spaces c_addr]. repeat split; auto.
      + intros H. apply app_nil in H as [H1 H2]. now rewrite (A6 H1), (B6 H2).
      + pose proof (addsub_shape plus a b E A1 B1) as [_ S]. pose proof (addsub_shape plus a' b' ltac:(congruence) A2 B2) as [_ S'].
        unfold add_sub, merge_undef in S, S'. rewrite B5, A2, B2 in S'. rewrite E in S. rewrite A1, B1 in S. cbn [c_syms app c_err c_attrs c_spaces c_addr] in *.
        rewrite S, S', A7, B7. cbn [fst snd]. f_equal. symmetry. apply filter_merge. apply pending_key. }
  assert (DM : later s' (div_mul a b) (div_mul a' b')).
  { unfold div_mul, merge_undef. rewrite B5. destruct (c_err b) eqn:E.
    - cbn. repeat split; auto.
    - rewrite A1, A2, B1, B2, A3, A4, B3, B4. cbn [c_syms app c_err c_attrs c_spaces c_addr].
      rewrite !is_address_shape by (cbn; assumption || reflexivity). cbn [c_addr].
      rewrite (is_address_shape a A1), (is_address_shape a' A2) in IA. rewrite (is_address_shape b B1), (is_address_shape b' B2) in IB.
      rewrite IA, IB. destruct (_ || _).
      + repeat split; auto. cbn [c_spaces]. intros H. apply app_nil in H as [H1 H2]. now rewrite (A6 H1), (B6 H2).
      + repeat split; auto. cbn [c_spaces]. intros H. apply app_nil in H as [H1 H2]. apply app_nil in H1 as [H1 H1'].
        apply app_nil in H2 as [H2 H3]. rewrite (A6 H1), (B6 H1'). cbn [app].
        apply addr_spaces_nil in H2, H3. rewrite H2 in A7. rewrite H3 in B7.
        assert (Q : forall x, snd (oshape x) = [] -> addr_spaces x = []).
        { intros [q|] K; [|reflexivity]. cbn in *. now rewrite K. }
        rewrite !Q; [reflexivity|rewrite B7; reflexivity|rewrite A7; reflexivity]. }
  destruct o; cbn [Dep_Model.combine]; auto.
Qed.
Lemma collect_later : forall s s' e, extends s s' -> state_ok s -> tame s e -> defined s e -> later s' (collect s e) (collect s' e).
Proof.
  intros s s' e He Hs. induction e as [z|id|k id|a|o l IHl r IHr|e IH]; intros T D; cbn [collect defined] in *.
  - repeat split; auto.
  - destruct (look_ext s s' id He Hs D) as [E P]. rewrite E. destruct (look s id) as [|z|a] eqn:L; [congruence| |].
    + cbn. repeat split; auto.
    + assert (ab a <> []).
      { unfold look in L. destruct (sy s id) as [[|z|q]|] eqn:S; try discriminate. injection L as <-. cbn [view ab].
        now destruct (Hs _ _ S). }
      cbn [pushv]. rewrite fold_rel; [|cbn; intros [K _]; auto]. repeat split; auto.
  - destruct (att s k id) as [z|] eqn:E; [|congruence]. destruct He as (_ & H & _). rewrite (H _ _ _ E). repeat split; auto.
  - destruct T as [T1 T2]. rewrite (view_push s s' a He T2). repeat split; auto.
  - destruct T as (T1 & T2 & _). destruct D as [D1 D2]. apply later_combine; auto.
  - exact (later_combine s' OpSub c_none c_none _ _ ltac:(repeat split; auto) (IH T D)).
Qed.

(** * Sources *)
Lemma view_settled : forall s s' a, extends s s' -> settled s a -> view s' a = view s a /\ asp (view s a) = [].
Proof.
  intros s s' a (_ & _ & H) Ha. unfold view. cbn [asp]. unfold settled in Ha.
  assert (G : offsets s' (asp a) = offsets s (asp a) /\ filter (pending s') (asp a) = [] /\ filter (pending s) (asp a) = []).
  { induction (asp a) as [|[k n] l IH]; [auto|]. destruct IH as (I1 & I2 & I3); [intros e He; apply Ha; now right|].
    specialize (Ha (k, n) (or_introl eq_refl)). cbn [fst] in Ha. destruct (spl s k) as [z|] eqn:E; [|congruence].
    pose proof (H _ _ E) as E'. cbn [offsets filter].
    assert (P : pending s (k, n) = false) by (unfold pending; cbn [fst]; now rewrite E).
    assert (P' : pending s' (k, n) = false) by (unfold pending; cbn [fst]; now rewrite E').
    rewrite P, P', I1. unfold len_of. rewrite E, E'. auto. }
  destruct G as (-> & -> & ->). auto.
Qed.
Lemma extract_coll_nil : forall c, extract_coll c = [] ->
  c_syms c = [] /\ c_spaces c = [] /\ c_attrs c = [] /\ snd (oshape (c_addr c)) = [].
Proof.
  intros c H. unfold extract_coll in H. destruct (c_syms c); [|discriminate]. destruct (c_spaces c); [|discriminate].
  apply app_nil in H as [H1 H2]. apply map_eq_nil in H1, H2. apply addr_spaces_nil in H2. auto.
Qed.
Lemma nil_extract_coll : forall c, c_syms c = [] -> c_spaces c = [] -> c_attrs c = [] -> snd (oshape (c_addr c)) = [] -> extract_coll c = [].
Proof.
  intros c H1 H2 H3 H4. unfold extract_coll. rewrite H1, H2, H3. destruct (c_addr c) as [a|]; [|reflexivity]. cbn in *. now rewrite H4.
Qed.
Theorem stable : forall ks s s' src, extends s s' -> state_ok s -> extract ks s src = [] -> sound_source s src ->
  resolve s' src = resolve s src /\ extract ks s' src = [].
Proof.
  intros ks s s' src He Hs Hx Hg. destruct src as [e|a|cur tgt b o|cs b o]; cbn [extract resolve sound_source] in *.
  - apply extract_coll_nil in Hx as (X1 & X2 & X3 & X4).
    pose proof (empty_defined s e Hg X1 X3) as D.
    destruct (collect_factors s e Hs Hg D) as (_ & _ & C). destruct (C X2) as [F Sh].
    destruct (eval_push s s' e He Hs D F Hg) as [E P]. rewrite E. split.
    + f_equal. rewrite pushv_as_addr by exact P. rewrite Sh, shape_as_addr in X4. cbn [snd] in X4.
      transitivity (fold_addr (as_addr (eval s e))); [|apply fold_as_addr; exact P]. f_equal.
      unfold push. rewrite X4. cbn [filter].
      destruct (as_addr (eval s e)) as [x y z] eqn:Q. cbn [ab ao asp] in *. subst z. f_equal. unfold wsum; cbn; lia.
    + destruct (collect_later s s' e He Hs Hg D) as (_ & L1 & _ & L2 & _ & L3 & L4).
      apply nil_extract_coll; auto. rewrite L4, X4. reflexivity.
  - destruct (view_settled s s' a He Hg) as [-> E]. split; [reflexivity|]. unfold dep_spaces.
    rewrite (proj1 (view_settled s s' a He Hg)), E. reflexivity.
  - destruct Hg as [G1 G2]. rewrite (proj1 (view_settled s s' tgt He G2)). split; [reflexivity|]. unfold dep_spaces.
    destruct (view_settled s s' cur He G1) as [-> ->]. reflexivity.
  - assert (E : map (fun a => ao (view s' a)) cs = map (fun a => ao (view s a)) cs).
    { apply map_ext_in. intros a Ha. now rewrite (proj1 (view_settled s s' a He (Hg a Ha))). }
    rewrite E. split; [reflexivity|]. unfold dep_spaces.
    assert (S : settled s (last cs (mkA [] 0 []))).
    { destruct cs as [|c cs]; [intros e []|]. apply Hg.
      destruct (@exists_last _ (c :: cs)) as (l & x & ->); [discriminate|]. rewrite last_last. apply in_or_app. right. now left. }
    destruct (view_settled s s' _ He S) as [-> ->]. reflexivity.
Qed.

(** * Runs *)
Lemma dep_eqb_spec : forall a b, reflect (a = b) (dep_eqb a b).
Proof.
  intros [i|k i|i] [j|k' j|j]; cbn [dep_eqb]; try (constructor; discriminate).
  - destruct (Nat.eqb_spec i j); constructor; congruence.
  - destruct k, k'; cbn [akind_eqb andb]; try (constructor; discriminate); destruct (Nat.eqb_spec i j); constructor; congruence.
  - destruct (Nat.eqb_spec i j); constructor; congruence.
Qed.

Lemma assign_value : forall ks s t v, has_value ks (assign ks s t v) t v.
Proof.
  intros ks s [id|k id|id] v; cbn [assign has_value sy att spl]; unfold upd.
  - now rewrite Nat.eqb_refl.
  - destruct k; cbn [akind_eqb]; now rewrite Nat.eqb_refl.
  - now rewrite Nat.eqb_refl.
Qed.
Lemma assign_extends : forall ks s t v, undefined s t -> extends s (assign ks s t v).
Proof.
  intros ks s [id|k id|id] v U; cbn [assign undefined] in *; split; [|split| |split| |split]; cbn [sy att spl]; auto.
  - intros j w E N. unfold upd. destruct (Nat.eqb_spec j id) as [->|]; [|assumption]. unfold look in U. rewrite E in U.
    destruct w; congruence.
  - intros k' j z E. destruct (akind_eqb k' k) eqn:K; [|assumption]. unfold upd. destruct (Nat.eqb_spec j id) as [->|]; [|assumption].
    destruct k, k'; try discriminate; congruence.
  - intros j z E. unfold upd. destruct (Nat.eqb_spec j id) as [->|]; [congruence|assumption].
Qed.
Lemma look_other_space : forall s sp', (forall id, look s id = VUndef -> look (mkSt (sy s) (att s) sp') id = VUndef).
Proof. intros s sp' id. unfold look. cbn [sy]. destruct (sy s id) as [[| |]|]; congruence. Qed.
Lemma assign_undefined : forall ks s t v t', t <> t' -> undefined s t' -> undefined (assign ks s t v) t'.
Proof.
  intros ks s [id|k id|id] v [jd|k' jd|jd] N U; cbn [assign undefined] in *; auto.
  - unfold look in *. cbn [sy]. unfold upd. destruct (Nat.eqb_spec jd id) as [->|]; [congruence|].
    destruct (sy s jd) as [[| |]|]; congruence.
  - unfold look in *. cbn [sy]. destruct (sy s jd) as [[| |]|]; congruence.
  - cbn [att]. destruct (akind_eqb k' k) eqn:K; [|assumption]. unfold upd. destruct (Nat.eqb_spec jd id) as [->|]; [|assumption].
    destruct k, k'; try discriminate; congruence.
  - unfold look in *. cbn [sy]. destruct (sy s jd) as [[| |]|]; congruence.
  - cbn [spl]. unfold upd. destruct (Nat.eqb_spec jd id) as [->|]; [congruence|assumption].
Qed.
Lemma resolve_ok : forall ks s src, state_ok s -> extract ks s src = [] -> sound_source s src ->
  match resolve s src with VUndef => False | VRel a => (match src with SExpr _ => ab a <> [] | _ => True end) /\ asp a = [] | _ => True end.
Proof.
  intros ks s src Hs Hx Hg. destruct src as [e|a|cur tgt b o|cs b o]; cbn [extract resolve sound_source] in *; auto.
  - apply extract_coll_nil in Hx as (X1 & X2 & X3 & X4).
    pose proof (empty_defined s e Hg X1 X3) as D.
    destruct (collect_factors s e Hs Hg D) as (_ & _ & C). destruct (C X2) as [F Sh].
    destruct (eval_push s s e (extends_refl s) Hs D F Hg) as [_ P]. destruct (eval s e) as [|z|a]; [destruct P|exact Logic.I|].
    cbn [undef_zero]. rewrite Sh in X4. cbn in X4. split; [|exact X4]. intros K. apply P. auto.
  - destruct (ab a) eqn:E; [exact Logic.I|]. split; [exact Logic.I|]. now destruct (view_settled s s a (extends_refl s) Hg).
Qed.

Lemma assign_ok : forall ks s t src, state_ok s -> extract ks s src = [] -> sound_source s src ->
  (forall id, t = DSym id -> exists e, src = SExpr e) -> state_ok (assign ks s t (resolve s src)).
Proof.
  intros ks s t src Hs Hx Hg Ht id a. destruct t as [jd|k jd|jd]; cbn [assign sy]; try apply Hs.
  unfold upd. destruct (Nat.eqb id jd) eqn:E; [|apply Hs]. intros K. injection K as K.
  pose proof (resolve_ok ks s src Hs Hx Hg) as R. rewrite K in R. destruct (Ht jd eq_refl) as [e ->].
  destruct R as [R1 R2]. split; [exact R1|]. intros x Hx'. rewrite R2 in Hx'. destruct Hx'.
Qed.
Lemma pick_inv : forall ks s t1 t src t2, inv (s, t1 ++ (t, src) :: t2) -> expr_symbols (t1 ++ (t, src) :: t2) ->
  extract ks s src = [] -> sound_source s src -> inv (assign ks s t (resolve s src), t1 ++ t2) /\ expr_symbols (t1 ++ t2) /\
  extends s (assign ks s t (resolve s src)).
Proof.
  intros ks s t1 t src t2 (I1 & I2 & I3) HE Hx Hg. cbn [fst snd] in *.
  assert (Hin : In (t, src) (t1 ++ (t, src) :: t2)) by (apply in_or_app; right; now left).
  assert (Sub : forall x, In x (t1 ++ t2) -> In x (t1 ++ (t, src) :: t2)).
  { intros x Hx'. apply in_app_or in Hx' as [?|?]; apply in_or_app; [now left|right; now right]. }
  split; [split; [|split]|split]; cbn [fst snd].
  - apply (assign_ok ks); auto. intros id ->. now apply (HE id).
  - rewrite map_app in *. cbn [map fst] in I2. now apply NoDup_remove_1 in I2.
  - intros t' src' Hin'. apply assign_undefined.
    + intros ->. rewrite map_app in I2. cbn [map fst] in I2. apply NoDup_remove_2 in I2. apply I2. rewrite <- map_app.
      apply (in_map fst _ (t', src')). exact Hin'.
    + eapply I3. apply Sub. exact Hin'.
  - intros id src' Hin'. apply (HE id). now apply Sub.
  - apply assign_extends. eapply I3. exact Hin.
Qed.

(** What a sound run from [(s, T)] has done. *)
Record done (ks : kinds) (w : bool) (c0 c : state * table) : Prop := {
  d_ext : extends (fst c0) (fst c);
  d_inv : inv c;
  d_sub : forall x, In x (snd c) -> In x (snd c0);
  d_res : forall t src, In (t, src) (snd c0) -> In (t, src) (snd c) \/
    (allowed w t = true /\ exists s, extends s (fst c) /\ state_ok s /\ extract ks s src = [] /\ sound_source s src /\
     has_value ks (fst c) t (resolve s src)) }.
Lemma assign_keeps : forall ks s t v t' v', t <> t' -> has_value ks s t v -> has_value ks (assign ks s t' v') t v.
Proof.
  intros ks s [id|k id|id] v [jd|k' jd|jd] v' N H; cbn [assign has_value sy att spl] in *; auto.
  - unfold upd. destruct (Nat.eqb_spec id jd) as [->|]; [congruence|assumption].
  - destruct (akind_eqb k k') eqn:K; [|assumption]. unfold upd. destruct (Nat.eqb_spec id jd) as [->|]; [|assumption].
    destruct k, k'; try discriminate; congruence.
  - unfold upd. destruct (Nat.eqb_spec id jd) as [->|]; [congruence|assumption].
Qed.
Lemma run_keeps : forall ks w c0 c, sound_picks ks w c0 c -> forall t v, ~ In t (map fst (snd c0)) ->
  has_value ks (fst c0) t v -> has_value ks (fst c) t v.
Proof.
  intros ks w c0 c H. induction H as [c|s t1 t src t2 c Ha Hx Hg R IH]; intros t' v N V; [exact V|].
  cbn [fst snd] in *. apply IH.
  - intros K. apply N. rewrite map_app in *. cbn [map]. apply in_app_or in K as [K|K]; apply in_or_app; [now left|right; now right].
  - apply assign_keeps; [|exact V]. intros ->. apply N. rewrite map_app. apply in_or_app. right. now left.
Qed.
Lemma run_done : forall ks w c0 c, sound_picks ks w c0 c -> inv c0 -> expr_symbols (snd c0) -> done ks w c0 c.
Proof.
  intros ks w c0 c H. induction H as [c|s t1 t src t2 c Ha Hx Hg R IH]; intros I HE.
  - constructor; auto. apply extends_refl.
  - cbn [snd] in HE. destruct (pick_inv ks s t1 t src t2 I HE Hx Hg) as (I' & HE' & X).
    destruct (IH I' HE') as [D1 D2 D3 D4]. cbn [fst snd] in *. constructor; cbn [fst snd].
    + eapply extends_trans; eauto.
    + exact D2.
    + intros x Hin. apply D3 in Hin. apply in_app_or in Hin as [?|?]; apply in_or_app; [now left|right; now right].
    + intros t' src' Hin. apply in_app_or in Hin as [Hin|[Hin|Hin]].
      * apply D4. apply in_or_app. now left.
      * injection Hin as <- <-. right. split; [exact Ha|]. exists s.
        split; [eapply extends_trans; eauto|]. split; [apply I|]. split; [exact Hx|]. split; [exact Hg|].
           apply (run_keeps ks w _ _ R); cbn [fst snd]; [|apply assign_value].
           destruct I as (_ & I2 & _). cbn [snd] in I2. rewrite map_app in *. cbn [map fst] in I2. now apply NoDup_remove_2 in I2.
      * apply D4. apply in_or_app. now right.
Qed.

Lemma assign_below : forall ks s s1 t v, extends s s1 -> has_value ks s1 t v -> extends (assign ks s t v) s1.
Proof.
  intros ks s s1 [id|k id|id] v (H1 & H2 & H3) V; cbn [assign has_value] in *; split; [|split| |split| |split]; cbn [sy att spl]; auto.
  - intros j w. unfold upd. destruct (Nat.eqb_spec j id) as [->|]; [intros E _; congruence|apply H1].
  - intros k' j z. destruct (akind_eqb k' k) eqn:K; [|apply H2]. unfold upd. destruct (Nat.eqb_spec j id) as [->|]; [|apply H2].
    destruct k, k'; try discriminate; congruence.
  - intros j z. unfold upd. destruct (Nat.eqb_spec j id) as [->|]; [congruence|apply H3].
Qed.
(** Whatever one run finds out, a finished run has found out too. *)
Lemma run_below : forall ks w c0 c1, done ks w c0 c1 -> finished ks w c1 ->
  forall a b, sound_picks ks w a b -> inv a -> expr_symbols (snd a) -> (forall x, In x (snd a) -> In x (snd c0)) -> extends (fst a) (fst c1) ->
  extends (fst b) (fst c1).
Proof.
  intros ks w c0 c1 D F a b H. induction H as [c|s t1 t src t2 c Ha Hx Hg R IH]; intros I HE HS X; [exact X|].
  cbn [fst snd] in *. destruct (pick_inv ks s t1 t src t2 I HE Hx Hg) as (I' & HE' & X').
  apply IH; auto.
  - intros x Hin. apply HS. apply in_app_or in Hin as [?|?]; apply in_or_app; [now left|right; now right].
  - destruct I as (I1 & _ & _). cbn [fst] in I1. destruct (stable ks s (fst c1) src X I1 Hx Hg) as [E1 E2].
    apply assign_below; [exact X|]. rewrite <- E1.
    destruct (d_res _ _ _ _ D t src (HS _ (in_elt (t, src) t1 t2))) as [Hin|(_ & s0 & X0 & O0 & Hx0 & Hg0 & V)].
    + exfalso. apply in_split in Hin as (l1 & l2 & E). destruct c1 as [s1 T1]. cbn [fst snd] in *. subst T1.
      eapply F. apply Pick; eassumption.
    + destruct (stable ks s0 (fst c1) src X0 O0 Hx0 Hg0) as [-> _]. exact V.
Qed.
Lemma both_below : forall s s', extends s s' -> extends s' s -> same_state s s'.
Proof.
  intros s s' (H1 & H2 & H3) (K1 & K2 & K3).
  assert (S : forall id, spl s id = spl s' id).
  { intros id. destruct (spl s id) as [z|] eqn:E; [now rewrite (H3 _ _ E)|]. destruct (spl s' id) as [z|] eqn:E'; [|reflexivity].
    rewrite (K3 _ _ E') in E. discriminate. }
  split; [|split; [|exact S]].
  - assert (V : forall a, view s a = view s' a).
    { intros a. unfold view. f_equal.
      - f_equal. induction (asp a) as [|[k n] l IH]; [reflexivity|]. cbn [offsets]. rewrite IH. unfold len_of. now rewrite S.
      - apply filter_ext. intros [k n]. unfold pending. cbn [fst]. now rewrite S. }
    intros id. unfold look. destruct (sy s id) as [v|] eqn:E.
    + destruct v as [|z|a].
      * destruct (sy s' id) as [v'|] eqn:E'; [|reflexivity]. destruct v' as [|z|a]; [reflexivity| |].
        -- rewrite (K1 _ _ E') in E; [discriminate|discriminate].
        -- rewrite (K1 _ _ E') in E; [discriminate|discriminate].
      * rewrite (H1 _ _ E) by discriminate. reflexivity.
      * rewrite (H1 _ _ E) by discriminate. now rewrite V.
    + destruct (sy s' id) as [v'|] eqn:E'; [|reflexivity]. destruct v' as [|z|a]; [reflexivity| |].
      * rewrite (K1 _ _ E') in E; [discriminate|discriminate].
      * rewrite (K1 _ _ E') in E; [discriminate|discriminate].
  - intros k id. destruct (att s k id) as [z|] eqn:E; [now rewrite (H2 _ _ _ E)|]. destruct (att s' k id) as [z|] eqn:E'; [|reflexivity].
    rewrite (K2 _ _ _ E') in E. discriminate.
Qed.
Theorem confluent : forall ks w c0 c1 c2, inv c0 -> expr_symbols (snd c0) ->
  sound_picks ks w c0 c1 -> finished ks w c1 -> sound_picks ks w c0 c2 -> finished ks w c2 ->
  same_state (fst c1) (fst c2) /\ forall x, In x (snd c1) <-> In x (snd c2).
Proof.
  intros ks w c0 c1 c2 I HE R1 F1 R2 F2.
  pose proof (run_done _ _ _ _ R1 I HE) as D1. pose proof (run_done _ _ _ _ R2 I HE) as D2.
  assert (X12 : extends (fst c1) (fst c2)) by (apply (run_below ks w c0 c2 D2 F2 c0 c1 R1 I HE); [auto|apply (d_ext _ _ _ _ D2)]).
  assert (X21 : extends (fst c2) (fst c1)) by (apply (run_below ks w c0 c1 D1 F1 c0 c2 R2 I HE); [auto|apply (d_ext _ _ _ _ D1)]).
  split; [now apply both_below|].
  assert (G : forall d1 d2, done ks w c0 d1 -> done ks w c0 d2 -> extends (fst d1) (fst d2) -> finished ks w d2 ->
              forall x, In x (snd d2) -> In x (snd d1)).
  { intros d1 d2 E1 E2 X F [t src] Hin. destruct (d_res _ _ _ _ E1 t src (d_sub _ _ _ _ E2 _ Hin)) as [?|(Ha & s & X0 & O0 & Hx0 & Hg0 & _)]; [assumption|].
    exfalso. destruct (stable ks s (fst d2) src (extends_trans _ _ _ X0 X) O0 Hx0 Hg0) as [_ E].
    apply in_split in Hin as (l1 & l2 & Q). destruct d2 as [s2 T2]. cbn [fst snd] in *. subst T2. eapply F. apply Pick; eassumption. }
  intros x. split; intros H; [apply (G c2 c1 D2 D1 X21 F1); exact H|apply (G c1 c2 D1 D2 X12 F2); exact H].
Qed.
