From Coq Require Import List ZArith Bool Arith Lia.
From Verif Require Import Addr_Model Addr_Spec Addr_Proof Loctr_Model Dep_Model Dep_Spec Dep_Proof DepConfl_Proof.
Import ListNotations.
Local Open Scope Z_scope.

Definition addr_number (base len : nat -> Z) (a : addr) : Z := ao a + wsum base (ab a) + wsum len (asp a).
Lemma number_as : forall base len v, proper v -> number base len v = addr_number base len (as_addr v).
Proof.
  intros base len [|z|a] H; [destruct H| |reflexivity]. unfold addr_number. cbn. unfold wsum. cbn. lia.
Qed.
Lemma number_fold : forall base len a, number base len (fold_addr a) = addr_number base len a.
Proof.
  intros base len a. destruct (fold_cases a) as [(E1 & E2 & ->)|(_ & ->)]; [|reflexivity].
  unfold addr_number. rewrite E1, E2. cbn. unfold wsum. cbn. lia.
Qed.
Lemma number_add : forall base len x y, proper x -> proper y -> number base len (val_add x y) = number base len x + number base len y.
Proof.
  intros base len x y Hx Hy. rewrite add_as, number_fold, !number_as by assumption. unfold addr_number, aadd. cbn [ao ab asp].
  rewrite !merge_add. lia.
Qed.
Lemma number_sub : forall base len x y, proper x -> proper y -> sub_ok x y ->
  number base len (val_sub x y) = number base len x - number base len y.
Proof.
  intros base len x y Hx Hy Hs. rewrite sub_as, number_fold, !number_as by assumption. unfold addr_number, asub. cbn [ao ab asp].
  destruct Hs as (H1 & H2 & _). rewrite !shape_as_addr in *. cbn [fst snd] in *. rewrite !merge_sub by assumption. lia.
Qed.
Lemma number_neg : forall base len x, proper x -> number base len (val_neg x) = - number base len x.
Proof.
  intros base len x Hx. rewrite neg_as, number_fold, !number_as by assumption. unfold addr_number, aneg. cbn [ao ab asp].
  rewrite !merge_sub by (intros ? ? ? []). unfold wsum at 1 3. cbn. lia.
Qed.
Lemma eval_arith : forall base len s e, state_ok s -> defined s e -> factors s e -> tame s e ->
  number base len (eval s e) = arith base len s e.
Proof.
  intros base len s e Hs. induction e as [z|id|k id|a|o l IHl r IHr|e IH]; intros D F T; cbn [eval arith]; auto.
  - cbn [defined] in D. destruct (att s k id); [reflexivity|congruence].
  - destruct D as [D1 D2]. destruct F as (F1 & F2 & F3). destruct T as (T1 & T2 & _ & T3).
    destruct (eval_push s s l (extends_refl s) Hs D1 F1 T1) as [_ PL].
    destruct (eval_push s s r (extends_refl s) Hs D2 F2 T2) as [_ PR].
    specialize (IHl D1 F1 T1). specialize (IHr D2 F2 T2). destruct o; rewrite <- IHl, <- IHr.
    + now apply number_add.
    + now apply number_sub.
    + destruct F3 as [[x ->] [y ->]]. reflexivity.
    + destruct F3 as [[x ->] [y ->]]. reflexivity.
  - destruct (eval_push s s e (extends_refl s) Hs D F T) as [_ P]. rewrite number_neg by assumption. now rewrite IH.
Qed.
(** The value of an expression that waits for nothing. *)
Lemma resolve_arith : forall base len ks s e, state_ok s -> tame s e -> extract ks s (SExpr e) = [] ->
  resolve s (SExpr e) <> VUndef /\ number base len (resolve s (SExpr e)) = arith base len s e.
Proof.
  intros base len ks s e Hs T Hx. cbn [extract] in Hx. apply extract_coll_nil in Hx as (X1 & X2 & X3 & X4).
  pose proof (empty_defined s e T X1 X3) as D.
  destruct (collect_factors s e Hs T D) as (_ & _ & C). destruct (C X2) as [F _].
  destruct (eval_push s s e (extends_refl s) Hs D F T) as [_ P]. pose proof (eval_arith base len s e Hs D F T) as E.
  cbn [resolve]. destruct (eval s e); [destruct P| |]; cbn [undef_zero]; (split; [discriminate|exact E]).
Qed.
(** Later lookups give the same number, in a placement that agrees with the lengths known by then. *)
Definition places (s : state) (len : nat -> Z) : Prop := forall k z, spl s k = Some z -> len k = z.
Lemma push_number : forall base len s' a, places s' len -> addr_number base len (push s' a) = addr_number base len a.
Proof.
  intros base len s' a H. unfold addr_number, push. cbn [ao ab asp].
  assert (G : forall l, wsum (len_of s') l + wsum len (filter (pending s') l) = wsum len l).
  { induction l as [|[k n] l IH]; [reflexivity|]. rewrite !wsum_cons. cbn [filter fst snd].
    destruct (pending s' (k, n)) eqn:P; unfold pending, len_of in *; cbn [fst] in *.
    - rewrite wsum_cons. cbn [fst snd]. destruct (spl s' k) eqn:E; [discriminate|]. lia.
    - destruct (spl s' k) as [z|] eqn:E; [|discriminate]. rewrite <- (H _ _ E). lia. }
  specialize (G (asp a)). lia.
Qed.
Lemma pushv_number : forall base len s' v, proper v -> places s' len -> number base len (pushv s' v) = number base len v.
Proof.
  intros base len s' v P H. rewrite pushv_as_addr by exact P. rewrite number_fold, push_number by exact H. symmetry. now apply number_as.
Qed.
Lemma arith_later : forall base len s s' e, extends s s' -> state_ok s -> defined s e -> tame s e -> places s' len ->
  arith base len s' e = arith base len s e.
Proof.
  intros base len s s' e X Hs D T P. induction e as [z|id|k id|a|o l IHl r IHr|e IH]; cbn [arith]; auto.
  - destruct (look_ext s s' id X Hs D) as [-> Pr]. now apply pushv_number.
  - cbn [defined] in D. destruct X as (_ & X & _). destruct (att s k id) as [z|] eqn:E; [|congruence]. now rewrite (X _ _ _ E).
  - destruct T as [T1 T2]. rewrite (view_push s s' a X T2).
    change (addr_number base len (push s' (view s a)) = addr_number base len (view s a)). now apply push_number.
  - destruct D as [D1 D2]. destruct T as (T1 & T2 & _). rewrite (IHl D1 T1), (IHr D2 T2). reflexivity.
  - now rewrite IH.
Qed.
Lemma symbol_arith : forall base len ks w c0 c id e, inv c0 -> expr_symbols (snd c0) -> sound_picks ks w c0 c ->
  In (DSym id, SExpr e) (snd c0) -> ~ In (DSym id, SExpr e) (snd c) -> places (fst c) len ->
  look (fst c) id <> VUndef /\ number base len (look (fst c) id) = arith base len (fst c) e.
Proof.
  intros base len ks w c0 c id e I HE R Hin N P.
  destruct (d_res _ _ _ _ (run_done _ _ _ _ R I HE) _ _ Hin) as [?|(_ & s & X & O & Hx & Hg & V)]; [contradiction|].
  pose proof (resolve_ok ks s (SExpr e) O Hx Hg) as RO. destruct (resolve_arith base len ks s e O Hg Hx) as [R1 R2].
  cbn [sound_source] in Hg. assert (D : defined s e).
  { cbn [extract] in Hx. apply extract_coll_nil in Hx as (X1 & _ & X3 & _). now apply empty_defined. }
  rewrite (arith_later base len s (fst c) e X O D Hg P), <- R2. cbn [has_value] in V. unfold look. rewrite V.
  destruct (resolve s (SExpr e)) as [|z|a]; [congruence|split; [discriminate|reflexivity]|]. split; [discriminate|].
  destruct RO as [_ RO]. cbn [number]. unfold view. cbn [ao ab asp]. rewrite RO. cbn [offsets filter]. f_equal. f_equal. lia.
Qed.
