(** * Mdl_Det: the reading that is taken, for operand fields with attributes *)
From Coq Require Import List NArith Bool Arith Lia.
From Verif Require Import Common Mdl_Model Mdl_Spec Mdl_Proof Mdl_Label Mdl_First Mdl_Oper.
Import ListNotations.

Definition par (A : Type) := forall R, P R A.
Definition Det {A} (p : par A) (a : A) (q r : list tok) : Prop := forall R (k : A -> list tok -> option R), k a r <> None -> p R (q ++ r) k = k a r.
Definition Fail {A} (p : par A) (ts : list tok) : Prop := forall R (k : A -> list tok -> option R), p R ts k = None.

Lemma det_ret : forall A (a : A) r, Det (fun R => ret R a) a [] r.
Proof. intros A a r R k _. reflexivity. Qed.
Lemma det_one : forall A (f : tok -> option A) t a r, f t = Some a -> Det (fun R => one R f) a [t] r.
Proof. intros A f t a r H R k _. cbn. rewrite H. reflexivity. Qed.
Lemma det_bind : forall A B (p : par A) (f : forall R, A -> P R B) a b q1 q2 r,
  Det p a q1 (q2 ++ r) -> Det (fun R => f R a) b q2 r -> Det (fun R => bind R (p R) (f R)) b (q1 ++ q2) r.
Proof.
  intros A B p f a b q1 q2 r H1 H2 R k Hk. unfold bind. rewrite <- app_assoc. rewrite H1; [apply H2; assumption|]. rewrite H2; assumption.
Qed.
Lemma det_map : forall A B (p : par A) (g : A -> B) a q r, Det p a q r -> Det (fun R => bind R (p R) (fun x => ret R (g x))) (g a) q r.
Proof. intros A B p g a q r H. intros R k Hk. unfold bind, ret. apply H. assumption. Qed.
Lemma det_l : forall A (p p' : par A) a q r, Det p a q r -> Det (fun R => alt R (p R) (p' R)) a q r.
Proof. intros A p p' a q r H R k Hk. unfold alt. rewrite H by assumption. unfold orelse. destruct (k a r); congruence. Qed.
Lemma det_r : forall A (p p' : par A) a q r, Fail p (q ++ r) -> Det p' a q r -> Det (fun R => alt R (p R) (p' R)) a q r.
Proof. intros A p p' a q r H H' R k Hk. unfold alt. rewrite H. apply H'. assumption. Qed.
Lemma fail_alt : forall A (p p' : par A) ts, Fail p ts -> Fail p' ts -> Fail (fun R => alt R (p R) (p' R)) ts.
Proof. intros A p p' ts H H' R k. unfold alt. rewrite H. apply H'. Qed.
Lemma fail_bind : forall A B (p : par A) (f : forall R, A -> P R B) ts, Fail p ts -> Fail (fun R => bind R (p R) (f R)) ts.
Proof. intros A B p f ts H R k. unfold bind. apply H. Qed.
Lemma fail_one : forall A (f : tok -> option A) ts, match ts with [] => True | t :: _ => f t = None end -> Fail (fun R => one R f) ts.
Proof. intros A f ts H R k. destruct ts as [|t ts]; [reflexivity|]. cbn. rewrite H. reflexivity. Qed.

Inductive Dets {A} (p : par A) : list A -> list (list tok) -> list tok -> Prop :=
| dets_nil : forall r, Fail p r -> Dets p [] [] r
| dets_cons : forall a l q qs r, q <> [] -> Det p a q (concat qs ++ r) -> Dets p l qs r -> Dets p (a :: l) (q :: qs) r.
Lemma det_many : forall A (p : par A) l qs r, Dets p l qs r -> Det (fun R => many R (p R)) l (concat qs) r.
Proof.
  intros A p l qs r H R k Hk. unfold many.
  assert (G : forall n k, length (concat qs) <= n -> k l r <> None -> star R n (p R) (concat qs ++ r) k = k l r).
  { clear k Hk. induction H as [r HF|a l q qs r Hq HD H IH]; intros n k Hn Hk.
    - destruct n; cbn; [reflexivity|]. rewrite HF. reflexivity.
    - cbn [concat] in *. rewrite app_length in Hn. destruct n; [destruct q; [congruence|cbn in Hn; lia]|]. cbn [star]. rewrite <- app_assoc.
      assert (Hn' : length (concat qs) <= n) by (destruct q; [congruence|cbn in Hn; lia]).
      rewrite HD; rewrite (IH n (fun l0 => k (a :: l0))) by assumption; [|assumption]. unfold orelse. destruct (k (a :: l) r); congruence. }
  apply G; [rewrite app_length; lia|assumption].
Qed.

Definition quiet (r : list tok) : Prop := match r with t :: _ => apo t = false | [] => True end.
Lemma fail_pair : forall A (a : A) r, quiet r -> Fail (fun R => pair_apo R a) (TApo :: r).
Proof.
  intros A a r H R k. unfold pair_apo, bind, l_apo. cbn. destruct r as [|t r]; [reflexivity|]. cbn in H. destruct t; cbn in *; try discriminate; reflexivity.
Qed.
Definition singles (q : list tok) : list (list tok) := map (fun t => [t]) q.
Lemma concat_singles : forall q, concat (singles q) = q.
Proof. induction q; cbn; [reflexivity|]. f_equal. assumption. Qed.
Lemma dets_chars : forall A (f : tok -> option A) (g : par A) x r, Forall (fun t => f t <> None) x ->
  Fail (fun R => alt R (one R f) (g R)) r -> Dets (fun R => alt R (one R f) (g R)) (values f x) (singles x) r.
Proof.
  intros A f g x r H HF. induction H as [|t x H HX IH]; cbn; [constructor; assumption|]. destruct (f t) as [a|] eqn:E; [|congruence].
  constructor; [discriminate| |assumption]. apply (det_l _ (fun R => one R f) g). apply det_one. assumption.
Qed.
Lemma det_chars : forall A (f : tok -> option A) (a : A) x r, Forall (fun t => f t <> None) x -> f TApo = None -> quiet r ->
  Det (fun R => many R (alt R (one R f) (pair_apo R a))) (values f x) x (TApo :: r).
Proof.
  intros A f a x r H Hf Hr. rewrite <- (concat_singles x) at 2. apply (det_many _ (fun R => alt R (one R f) (pair_apo R a))).
  apply (dets_chars _ f (fun R => pair_apo R a)); [assumption|].
  apply (fail_alt _ (fun R => one R f) (fun R => pair_apo R a)); [apply fail_one; assumption|apply fail_pair; assumption].
Qed.
Lemma det_string : forall x r, Forall (fun t => string_ch t <> None) x -> quiet r ->
  Det string (concat (values string_ch x)) (TApo :: x ++ [TApo]) r.
Proof.
  intros x r H Hr R k Hk. unfold string. unfold bind at 1. cbn [app one is_apostrophe]. rewrite <- app_assoc. cbn [app].
  unfold bind at 1.
  assert (D : forall (k' : list bytes -> list tok -> option R), k' (values string_ch x) (TApo :: r) <> None ->
    many R (alt R (one R string_ch) (pair_apo R [APO])) (x ++ TApo :: r) k' = k' (values string_ch x) (TApo :: r)).
  { intros k' Hk'. apply (det_chars _ string_ch [APO] x r H eq_refl Hr). assumption. }
  rewrite D; cbn; [reflexivity|exact Hk].
Qed.
Lemma apart : forall x1 v z q' u r', Forall nonapo x1 -> Forall nonvar q' -> apo u = true -> x1 ++ TVar v :: z = q' ++ u :: r' -> False.
Proof.
  induction x1 as [|t x1 IH]; intros v z q' u r' H1 H2 Hu E; destruct q' as [|t' q']; cbn in E; injection E as E1 E2; subst.
  - discriminate.
  - inversion H2 as [|? ? K _]; subst. discriminate.
  - inversion H1 as [|? ? K _]; subst. unfold nonapo in K. congruence.
  - inversion H1; inversion H2; subst. eauto.
Qed.
Lemma fail_string : forall x1 v z, Forall nonapo x1 -> Fail string (TApo :: x1 ++ TVar v :: z).
Proof.
  intros x1 v z Hx R k. destruct (string R _ k) as [y|] eqn:E; [|reflexivity]. exfalso.
  destruct (string_s R _ _ _ E) as (s & q & r & Eq & (t & u & s' & q' & -> & Ht & Hu & (B1 & _ & _) & ->) & _).
  cbn in Eq. injection Eq as <- Eq. rewrite <- app_assoc in Eq. cbn in Eq. exact (apart _ _ _ _ _ _ Hx B1 Hu Eq).
Qed.

(** ** Pieces *)
Definition before_b : par bytes := fun R => alt R (one R op_ch) (bind R (string R) (fun s => ret R (quote s))).
Definition after_b : par chain := fun R => alt R (bind R (one R op_ch_v) (fun p => ret R [p])) (model_string_v R).
Lemma fail_op_ch : forall r, Fail (fun R => one R op_ch) (TApo :: r).
Proof. intro r. apply fail_one. reflexivity. Qed.
Lemma det_before : forall q r, piece q -> Forall nonvar q -> ((forall t, q <> [t]) -> quiet r) -> exists s, Det before_b s q r.
Proof.
  intros q r [t H1 H2|x Hx] Hn Hr.
  - assert (K : op_ch t <> None) by (apply op_ch_kind; inversion Hn; auto). destruct (op_ch t) as [s|] eqn:E; [|congruence].
    exists s. apply (det_l _ (fun R => one R op_ch)). apply det_one. assumption.
  - eexists. apply (det_r _ (fun R => one R op_ch) (fun R => bind R (string R) (fun s => ret R (quote s)))); [apply fail_op_ch|].
    apply (det_map _ _ string quote). apply det_string.
    + inversion Hn as [|? ? _ Hn']; subst. apply Forall_app in Hn'. destruct Hn' as [Hn' _].
      rewrite Forall_forall in *. intros t Ht. specialize (Hx t Ht). specialize (Hn' t Ht). unfold nonapo, nonvar in *. destruct t; cbn in *; congruence.
    + apply Hr. intro t. destruct x; discriminate.
Qed.
Lemma det_after : forall q r, piece q -> ((forall t, q <> [t]) -> quiet r) -> exists c, Det after_b c q r.
Proof.
  intros q r [t H1 H2|x Hx] Hr.
  - assert (K : op_ch_v t <> None) by (apply op_ch_v_kind; auto). destruct (op_ch_v t) as [p|] eqn:E; [|congruence].
    exists [p]. apply (det_l _ (fun R => bind R (one R op_ch_v) (fun p => ret R [p]))). apply (det_map _ _ (fun R => one R op_ch_v) (fun p => [p])).
    apply det_one. assumption.
  - exists (Str [APO] :: clear_concat_chain (values l_sp_ch_v x) ++ [Str [APO]]).
    apply (det_r _ (fun R => bind R (one R op_ch_v) (fun p => ret R [p])) model_string_v).
    + apply fail_bind with (p := fun R => one R op_ch_v). apply fail_one. reflexivity.
    + intros R k Hk. unfold model_string_v. unfold bind at 1. cbn [l_apo one app is_apo]. rewrite <- app_assoc. cbn [app].
      unfold bind at 1.
      assert (F : Forall (fun t => l_sp_ch_v t <> None) x) by (rewrite Forall_forall in *; intros t Ht; apply l_sp_ch_v_kind; auto).
      assert (D : forall (k' : chain -> list tok -> option R), k' (values l_sp_ch_v x) (TApo :: r) <> None ->
        many R (alt R (one R l_sp_ch_v) (pair_apo R (Str [APO]))) (x ++ TApo :: r) k' = k' (values l_sp_ch_v x) (TApo :: r)).
      { intros k' Hk'. apply (det_chars _ l_sp_ch_v (Str [APO]) x r F eq_refl); [apply Hr; intro t; destruct x; discriminate|assumption]. }
      rewrite D; cbn; [reflexivity|exact Hk].
Qed.
Lemma det_var : forall q r, piece q -> has_var q -> ((forall t, q <> [t]) -> quiet r) -> exists c, Det var_sym_model c q r.
Proof.
  intros q r [t H1 H2|x Hx] Hv Hr.
  - destruct Hv as [v [->|[]]]. exists [Var v]. intros R k Hk. unfold var_sym_model, alt, bind, ret. cbn. unfold orelse. destruct (k [Var v] r); congruence.
  - assert (Hv' : has_var x). { destruct Hv as [v [H|H]]; [discriminate|]. apply in_app_or in H. destruct H as [H|[H|[]]]; [exists v; assumption|discriminate]. }
    destruct (split_var x Hv') as (x1 & v & x2 & -> & H1). apply Forall_app in Hx. destruct Hx as [X1 X2]. inversion X2 as [|? ? _ X3]; subst.
    assert (F1 : Forall (fun t => l_sp_ch t <> None) x1) by (rewrite Forall_forall in *; intros t Ht; apply l_sp_ch_kind; auto).
    assert (F2 : Forall (fun t => l_sp_ch_v t <> None) x2) by (rewrite Forall_forall in *; intros t Ht; apply l_sp_ch_v_kind; auto).
    exists (Str [APO] :: Str (concat (values l_sp_ch x1)) :: Var v :: values l_sp_ch_v x2 ++ [Str [APO]]).
    assert (Hq : quiet r) by (apply Hr; intro t; destruct x1; discriminate).
    apply (det_r _ (fun R => bind R (one R is_var) (fun v => ret R [Var v])) string_v_actual).
    + apply fail_bind with (p := fun R => one R is_var). apply fail_one. reflexivity.
    + intros R k Hk. unfold string_v_actual. unfold bind at 1. cbn [l_apo one app is_apo]. rewrite <- !app_assoc. cbn [app].
      assert (D2 : forall (k' : chain -> list tok -> option R), k' (values l_sp_ch_v x2) (TApo :: r) <> None ->
        many R (alt R (one R l_sp_ch_v) (pair_apo R (Str [APO; APO]))) (x2 ++ TApo :: r) k' = k' (values l_sp_ch_v x2) (TApo :: r)).
      { intros k' Hk'. apply (det_chars _ l_sp_ch_v (Str [APO; APO]) x2 r F2 eq_refl Hq). assumption. }
      assert (D1 : forall (k' : list bytes -> list tok -> option R), k' (values l_sp_ch x1) (TVar v :: x2 ++ TApo :: r) <> None ->
        many R (alt R (one R l_sp_ch) (pair_apo R [APO; APO])) (x1 ++ TVar v :: x2 ++ TApo :: r) k' = k' (values l_sp_ch x1) (TVar v :: x2 ++ TApo :: r)).
      { intros k' Hk'. rewrite <- (concat_singles x1) at 1.
        apply (det_many _ (fun R => alt R (one R l_sp_ch) (pair_apo R [APO; APO])) _ _ (TVar v :: x2 ++ TApo :: r)); [|assumption].
        apply (dets_chars _ l_sp_ch (fun R => pair_apo R [APO; APO])); [assumption|].
        apply (fail_alt _ (fun R => one R l_sp_ch) (fun R => pair_apo R [APO; APO])); [apply fail_one; reflexivity|].
        intros R' k''. reflexivity. }
      unfold bind at 1. rewrite D1.
      * unfold bind at 1. cbn [one is_var]. unfold bind at 1. rewrite D2; cbn; [reflexivity|exact Hk].
      * unfold bind at 1. cbn [one is_var]. unfold bind at 1. rewrite D2; cbn; exact Hk.
Qed.

Lemma quiet_next : forall q r, piece q -> tame (q ++ r) = true -> (forall t, q <> [t]) -> quiet r.
Proof.
  intros q r [t H1 H2|x Hx] HT Hq; [exfalso; apply (Hq t); reflexivity|].
  destruct r as [|u r]; [exact I|]. cbn. destruct (apo u) eqn:E; [|reflexivity]. exfalso.
  replace ((TApo :: x ++ [TApo]) ++ u :: r) with ((TApo :: x) ++ (TApo :: u :: r)) in HT by (cbn; rewrite <- app_assoc; reflexivity).
  apply tame_app in HT. destruct HT as [_ HT]. rewrite tame_pair in HT by auto. discriminate.
Qed.
Lemma dets_pieces : forall A (p : par A) (Q : list tok -> Prop) (Hp : forall q r, piece q -> Q q -> ((forall t, q <> [t]) -> quiet r) -> exists a, Det p a q r) qs r,
  Forall piece qs -> Forall Q qs -> tame (concat qs ++ r) = true -> Fail p r -> exists l, Dets p l qs r.
Proof.
  intros A p Q Hp qs r HF. induction HF as [|q qs H HF IH]; intros HQ HT Hr; [exists []; constructor; assumption|].
  inversion HQ as [|? ? Q1 Q2]; subst. cbn in HT. rewrite <- app_assoc in HT.
  destruct IH as (l & Hl); [assumption|apply tame_app in HT; tauto|assumption|].
  destruct (Hp q (concat qs ++ r) H Q1) as (a & Ha); [intro; eapply quiet_next; eassumption|].
  exists (a :: l). constructor; [apply piece_nil; assumption|assumption|assumption].
Qed.
Lemma model_op_det : forall q r, until_space false q = q -> closed false q = true -> has_var q -> tame (q ++ r) = true -> field_end r ->
  exists c, Det model_op c q r.
Proof.
  intros q r Hu Hc Hv HT He. destruct (split_pieces _ q (le_n _) Hu Hc) as (qs & -> & HF).
  destruct (split_units qs Hv) as (qs1 & u & qs2 & -> & H1 & H2). apply Forall_app in HF. destruct HF as [F1 F2]. inversion F2 as [|? ? F3 F4]; subst.
  rewrite concat_app in HT |- *. cbn [concat] in HT |- *. rewrite <- !app_assoc in HT.
  destruct (dets_pieces _ after_b (fun _ => True) (fun q r H _ => det_after q r H) qs2 r) as (l2 & D2).
  { assumption. }
  { clear. induction qs2; constructor; auto. }
  { apply tame_app in HT. destruct HT as [_ HT]. apply tame_app in HT. tauto. }
  { apply (fail_alt _ (fun R => bind R (one R op_ch_v) (fun p => ret R [p])) model_string_v).
    - apply fail_bind with (p := fun R => one R op_ch_v). apply fail_one. destruct r as [|t r]; [exact I|]. destruct t; try contradiction; reflexivity.
    - intros R k. unfold model_string_v, bind, l_apo. destruct r as [|t r]; [reflexivity|]. destruct t; try contradiction; reflexivity. }
  destruct (det_var u (concat qs2 ++ r) F3 H2) as (c & Dc).
  { intro. eapply quiet_next; [exact F3| |assumption]. apply tame_app in HT. tauto. }
  destruct (dets_pieces _ before_b (Forall nonvar) det_before qs1 (u ++ concat qs2 ++ r)) as (l1 & D1).
  { assumption. }
  { clear -H1. induction qs1; constructor; cbn in H1; apply Forall_app in H1; tauto. }
  { assumption. }
  { apply (fail_alt _ (fun R => one R op_ch) (fun R => bind R (string R) (fun s => ret R (quote s)))).
    - apply fail_one. destruct F3 as [t T1 T2|x Hx]; cbn; [|reflexivity]. destruct H2 as [v [->|[]]]. reflexivity.
    - apply (fail_bind _ _ string). destruct F3 as [t T1 T2|x Hx].
      + destruct H2 as [v [->|[]]]. intros R k. reflexivity.
      + assert (Hv' : has_var x). { destruct H2 as [v [K|K]]; [discriminate|]. apply in_app_or in K. destruct K as [K|[K|[]]]; [exists v; assumption|discriminate]. }
        destruct (split_var x Hv') as (x1 & v & x2 & -> & N1). apply Forall_app in Hx. destruct Hx as [X1 _].
        apply tame_app in HT. destruct HT as [_ HT]. cbn [app] in HT |- *. rewrite <- !app_assoc in HT |- *. cbn [app] in HT |- *.
        apply fail_string; assumption. }
  exists (clear_concat_chain (Str (concat l1) :: c ++ concat l2)).
  assert (E1 : Det before_var_sym_model (concat l1) (concat qs1) (u ++ concat qs2 ++ r)).
  { apply (det_map _ _ (fun R => many R (before_b R)) (@concat N)). apply det_many. assumption. }
  assert (E2 : Det after_var_sym_model (concat l2) (concat qs2) r).
  { apply (det_map _ _ (fun R => many R (after_b R)) (@concat point)). apply det_many. assumption. }
  intros R k Hk. unfold model_op. rewrite <- !app_assoc. unfold bind at 1.
  assert (K2 : forall (k' : chain -> list tok -> option R), k' (concat l2) r <> None -> after_var_sym_model R (concat qs2 ++ r) k' = k' (concat l2) r).
  { intros k' Hk'. apply E2. assumption. }
  assert (K1 : forall (k' : chain -> list tok -> option R), k' c (concat qs2 ++ r) <> None -> var_sym_model R (u ++ concat qs2 ++ r) k' = k' c (concat qs2 ++ r)).
  { intros k' Hk'. apply Dc. assumption. }
  rewrite E1; unfold bind at 1; rewrite K1; unfold bind, ret; rewrite ?K2; first [reflexivity | exact Hk].
Qed.
Theorem field_exact : forall ts, tame ts = true -> closed false (until_space false ts) = true -> has_var (until_space false ts) ->
  exists c, model_field ts = Some c /\ (lexed ts -> forall value, evaluate value false c = substituted value false (until_space false ts)).
Proof.
  intros ts HT Hc Hv. destruct (field_split ts false) as (r & E & He). set (q := until_space false ts) in *.
  assert (HT' : tame (q ++ r) = true) by congruence.
  destruct (model_op_det q r (until_idem ts false) Hc Hv HT' He) as (c & D). exists c. split.
  - unfold model_field. rewrite E. rewrite D; destruct r as [|t r]; try (destruct t; try contradiction); cbn; congruence.
  - intros HL value.
    pose proof (D _ (fun a r' => Some (a, r')) ltac:(discriminate)) as D'. cbn beta in D'.
    destruct (model_op_s _ _ _ _ D') as (c' & q' & r' & Eq & (_ & _ & W) & Ek). injection Ek as -> ->. apply app_inv_tail in Eq. subst q'.
    apply W.
    + rewrite E in HL. apply lexed_app in HL. tauto.
    + apply tame_app in HT'. tauto.
Qed.
