From Coq Require Import List ZArith Bool Arith Lia.
From Verif Require Import Addr_Model Addr_Spec Addr_Proof Loctr_Model Dep_Model Dep_Spec.
Import ListNotations.
Local Open Scope Z_scope.

(** * Merging and filtering by key *)
Lemma merge_nil_r : forall o l, merge o l [] = l.
Proof. intros o l. induction l as [|[k n] l IH]; cbn [merge take]; [now destruct o|now rewrite IH]. Qed.

Section Filter.
Variable P : nat * Z -> bool.
Hypothesis HP : forall k n m, P (k, n) = P (k, m).

Lemma take_filter_in : forall k r, P (k, 0) = true ->
  take k (filter P r) = match take k r with Some (x, r') => Some (x, filter P r') | None => None end.
Proof.
  intros k r Hk. induction r as [|[j m] r IH]; [reflexivity|]. cbn [filter take].
  destruct (Nat.eqb_spec k j) as [->|N].
  - rewrite (HP j m 0), Hk. cbn [take]. now rewrite Nat.eqb_refl.
  - destruct (P (j, m)) eqn:E.
    + cbn [take]. apply Nat.eqb_neq in N. rewrite N, IH. destruct (take k r) as [[x r']|]; [|reflexivity]. cbn [filter]. now rewrite E.
    + rewrite IH. destruct (take k r) as [[x r']|]; [|reflexivity]. cbn [filter]. now rewrite E.
Qed.
Lemma take_filter_out : forall k r x r', P (k, 0) = false -> take k r = Some (x, r') -> filter P r' = filter P r.
Proof.
  intros k r. induction r as [|[j m] r IH]; intros x r' Hk H; cbn [take] in H; [discriminate|].
  destruct (Nat.eqb_spec k j) as [->|N].
  - injection H as <- <-. cbn [filter]. now rewrite (HP j m 0), Hk.
  - destruct (take k r) as [[y q]|]; [|discriminate]. injection H as <- <-. cbn [filter]. now rewrite (IH _ _ Hk eq_refl).
Qed.
Lemma filter_merge : forall o l r, filter P (merge o l r) = merge o (filter P l) (filter P r).
Proof.
  intros o l. induction l as [|[k n] l IH]; intros r; cbn [merge filter].
  - destruct o; [reflexivity|]. induction r as [|[j m] r IHr]; [reflexivity|]. cbn [map filter fst snd].
    rewrite (HP j (- m) m). destruct (P (j, m)); cbn [map fst snd]; now rewrite IHr.
  - destruct (P (k, n)) eqn:E.
    + assert (E0 : P (k, 0) = true) by (rewrite <- E; apply HP). cbn [merge]. rewrite take_filter_in by exact E0.
      destruct (take k r) as [[m r']|].
      * cbv zeta. destruct (_ =? 0); [apply IH|]. cbn [filter]. rewrite (HP k _ 0), E0. f_equal. apply IH.
      * cbn [filter]. rewrite E. f_equal. apply IH.
    + assert (E0 : P (k, 0) = false) by (rewrite <- E; apply HP).
      destruct (take k r) as [[m r']|] eqn:T.
      * cbv zeta. destruct (_ =? 0).
        -- rewrite IH. f_equal. now apply (take_filter_out k r m r').
        -- cbn [filter]. rewrite (HP k _ 0), E0, IH. f_equal. now apply (take_filter_out k r m r').
      * cbn [filter]. rewrite E. apply IH.
Qed.
End Filter.

(** * Seeing a value later *)
Definition push (s : state) (a : addr) : addr :=
  mkA (ab a) (ao a + wsum (len_of s) (asp a)) (filter (pending s) (asp a)).
Definition pushv (s : state) (v : val) : val := match v with VRel a => fold_addr (push s a) | _ => v end.
Lemma pending_key : forall s k n m, pending s (k, n) = pending s (k, m).
Proof. reflexivity. Qed.
Lemma extends_trans : forall a b c, extends a b -> extends b c -> extends a c.
Proof.
  intros a b c (H1 & H2 & H3) (K1 & K2 & K3). repeat split; intros.
  - apply K1; [apply H1|]; assumption.
  - auto.
  - auto.
Qed.
Lemma extends_refl : forall a, extends a a.
Proof. intros a. repeat split; auto. Qed.

Lemma wsum_cons : forall f e l, wsum f (e :: l) = snd e * f (fst e) + wsum f l.
Proof. reflexivity. Qed.
Lemma view_push : forall s s' a, extends s s' -> single a -> view s' a = push s' (view s a).
Proof.
  intros s s' a (_ & _ & H) Hs. unfold view, push. cbn [ab ao asp].
  assert (G : offsets s' (asp a) = offsets s (asp a) + wsum (len_of s') (filter (pending s) (asp a)) /\
              filter (pending s') (asp a) = filter (pending s') (filter (pending s) (asp a))).
  { unfold single in Hs. induction (asp a) as [|[k n] l IH]; [split; [cbn; reflexivity|reflexivity]|].
    destruct IH as [IH1 IH2]; [intros e He; apply Hs; now right|].
    assert (Hn : n = 1) by (apply (Hs (k, n)); now left). subst n. cbn [offsets filter].
    destruct (pending s (k, 1)) eqn:E; cbn [filter].
    - rewrite wsum_cons. cbn [fst snd]. assert (L : len_of s k = 0).
      { unfold pending in E. cbn [fst] in E. unfold len_of. now destruct (spl s k). }
      split; [lia|]. destruct (pending s' (k, 1)); [now f_equal|assumption].
    - unfold pending in E. cbn [fst] in E. destruct (spl s k) as [z|] eqn:Z; [|discriminate].
      assert (Z' := H _ _ Z). assert (E' : pending s' (k, 1) = false) by (unfold pending; cbn [fst]; now rewrite Z').
      rewrite E'. split; [|assumption].
      assert (len_of s k = z) by (unfold len_of; now rewrite Z). assert (len_of s' k = z) by (unfold len_of; now rewrite Z'). lia. }
  destruct G as [-> ->]. f_equal. lia.
Qed.

Definition proper (v : val) : Prop :=
  match v with VUndef => False | VAbs _ => True | VRel a => ~ (ab a = [] /\ asp a = []) end.
Lemma fold_proper : forall a, proper (fold_addr a).
Proof.
  intros a. unfold fold_addr. destruct (ab a) eqn:E1, (asp a) eqn:E2; cbn [proper]; auto; rewrite E1, E2;
  intros [? ?]; discriminate.
Qed.
Lemma fold_cases : forall a, (ab a = [] /\ asp a = [] /\ fold_addr a = VAbs (ao a)) \/ (~ (ab a = [] /\ asp a = []) /\ fold_addr a = VRel a).
Proof.
  intros a. unfold fold_addr. destruct (ab a), (asp a); auto; right; (split; [intros [? ?]; discriminate|reflexivity]).
Qed.
Lemma push_fold : forall s a, pushv s (fold_addr a) = fold_addr (push s a).
Proof.
  intros s a. destruct (fold_cases a) as [(E1 & E2 & ->)|(_ & ->)]; [|reflexivity].
  cbn [pushv]. unfold fold_addr, push. cbn [ab asp ao]. rewrite E1, E2. cbn. f_equal. lia.
Qed.
Lemma fold_rel : forall a, ~ (ab a = [] /\ asp a = []) -> fold_addr a = VRel a.
Proof. intros a H. destruct (fold_cases a) as [(E1 & E2 & _)|(_ & E)]; [exfalso; auto|exact E]. Qed.

(** Operations on addresses, seen through [fold_addr]. *)
Lemma add_fold : forall c d, val_add (fold_addr c) (fold_addr d) = fold_addr (aadd c d).
Proof.
  intros c d.
  destruct (fold_cases c) as [(E1 & E2 & ->)|(N & ->)], (fold_cases d) as [(F1 & F2 & ->)|(M & ->)]; cbn [val_add].
  - unfold fold_addr, aadd. cbn [ab asp ao]. now rewrite E1, E2, F1, F2.
  - unfold aadd. rewrite E1, E2. cbn [merge]. rewrite fold_rel by exact M. unfold ashift. do 2 f_equal. lia.
  - unfold aadd. rewrite F1, F2, !merge_nil_r. rewrite fold_rel by exact N. reflexivity.
  - reflexivity.
Qed.
Lemma sub_fold : forall c d, (ab c = [] /\ asp c = [] -> ab d = [] /\ asp d = []) ->
  val_sub (fold_addr c) (fold_addr d) = fold_addr (asub c d).
Proof.
  intros c d H.
  destruct (fold_cases c) as [(E1 & E2 & ->)|(N & ->)], (fold_cases d) as [(F1 & F2 & ->)|(M & ->)]; cbn [val_sub].
  - unfold fold_addr, asub. cbn [ab asp ao]. now rewrite E1, E2, F1, F2.
  - exfalso. auto.
  - unfold asub. rewrite F1, F2, !merge_nil_r. rewrite fold_rel by exact N. reflexivity.
  - reflexivity.
Qed.
Lemma neg_fold : forall c, val_neg (fold_addr c) = fold_addr (aneg c).
Proof.
  intros c. destruct (fold_cases c) as [(E1 & E2 & ->)|(N & ->)]; cbn [val_neg].
  - unfold fold_addr, aneg. cbn [ab asp ao]. now rewrite E1, E2.
  - rewrite fold_rel; [reflexivity|]. unfold aneg. cbn [ab asp merge]. intros [E1 E2]. apply map_eq_nil in E1, E2. auto.
Qed.
Lemma push_aadd : forall s a b, push s (aadd a b) = aadd (push s a) (push s b).
Proof.
  intros s a b. unfold push, aadd. cbn [ab ao asp]. rewrite merge_add, filter_merge by apply pending_key. f_equal. lia.
Qed.
Lemma push_asub : forall s a b, same_counts (asp a) (asp b) -> push s (asub a b) = asub (push s a) (push s b).
Proof.
  intros s a b H. unfold push, asub. cbn [ab ao asp]. rewrite merge_sub, filter_merge by (exact H || apply pending_key). f_equal. lia.
Qed.
Lemma push_aneg : forall s a, push s (aneg a) = aneg (push s a).
Proof.
  intros s a. unfold push, aneg. cbn [ab ao asp]. rewrite merge_sub by (intros ? ? ? []).
  rewrite filter_merge by apply pending_key. f_equal. unfold wsum at 1. cbn. lia.
Qed.

(** The address a value amounts to. *)
Definition as_addr (v : val) : addr := match v with VRel a => a | VAbs z => mkA [] z [] | VUndef => mkA [] 0 [] end.
Lemma fold_as_addr : forall v, proper v -> fold_addr (as_addr v) = v.
Proof. intros [|z|a] H; cbn [as_addr]; [destruct H|reflexivity|now apply fold_rel]. Qed.
Lemma shape_as_addr : forall v, shape v = (ab (as_addr v), asp (as_addr v)).
Proof. now intros [|z|a]. Qed.
Lemma pushv_as_addr : forall s v, proper v -> pushv s v = fold_addr (push s (as_addr v)).
Proof. intros s v H. rewrite <- (fold_as_addr v H) at 1. apply push_fold. Qed.
Lemma add_as : forall x y, proper x -> proper y -> val_add x y = fold_addr (aadd (as_addr x) (as_addr y)).
Proof. intros x y Hx Hy. rewrite <- add_fold, !fold_as_addr; auto. Qed.
Lemma sub_as : forall x y, proper x -> proper y -> sub_ok x y -> val_sub x y = fold_addr (asub (as_addr x) (as_addr y)).
Proof.
  intros x y Hx Hy (H1 & H2 & H3). rewrite <- sub_fold, !fold_as_addr; auto.
  rewrite !shape_as_addr in H3. cbn [fst snd] in H3. intros [E1 E2]. destruct (H3 E1) as [F1 F2]. split; [exact F1|].
  rewrite E2 in F2. destruct (asp (as_addr y)) as [|e l]; [reflexivity|]. destruct (F2 (fst e)). now left.
Qed.
Lemma neg_as : forall x, proper x -> val_neg x = fold_addr (aneg (as_addr x)).
Proof. intros x Hx. rewrite <- neg_fold, fold_as_addr; auto. Qed.

Lemma push_add : forall s x y, proper x -> proper y -> val_add (pushv s x) (pushv s y) = pushv s (val_add x y).
Proof.
  intros s x y Hx Hy. rewrite (add_as x y), push_fold, push_aadd, <- add_fold, !pushv_as_addr; auto.
Qed.
Lemma push_sub : forall s x y, proper x -> proper y -> sub_ok x y -> val_sub (pushv s x) (pushv s y) = pushv s (val_sub x y).
Proof.
  intros s x y Hx Hy Hs. rewrite (sub_as x y), push_fold by assumption. destruct Hs as (H1 & H2 & H3).
  rewrite !shape_as_addr in *. cbn [fst snd] in *. rewrite push_asub by exact H2.
  rewrite <- sub_fold; [rewrite !pushv_as_addr by assumption; reflexivity|].
  unfold push. cbn [ab asp]. intros [E1 E2]. destruct (H3 E1) as [F1 F2]. split; [exact F1|].
  destruct (filter (pending s) (asp (as_addr y))) as [|e l] eqn:E; [reflexivity|exfalso].
  assert (He : In e (filter (pending s) (asp (as_addr y)))) by (rewrite E; now left).
  apply filter_In in He as [He Hp]. specialize (F2 (fst e) (in_map fst _ _ He)). apply in_map_iff in F2 as (e' & Ek & He').
  assert (K : In e' (filter (pending s) (asp (as_addr x)))).
  { apply filter_In. split; [exact He'|]. unfold pending in *. now rewrite Ek. }
  rewrite E2 in K. destruct K.
Qed.
Lemma push_neg : forall s x, proper x -> val_neg (pushv s x) = pushv s (val_neg x).
Proof. intros s x Hx. rewrite (neg_as x), push_fold, push_aneg, <- neg_fold, pushv_as_addr; auto. Qed.

(** * Expressions *)
Fixpoint defined (s : state) (e : expr) : Prop :=
  match e with
  | EConst _ | ELoc _ => True
  | ESym id => look s id <> VUndef
  | EAttr k id => att s k id <> None
  | EBin _ l r => defined s l /\ defined s r
  | ENeg e => defined s e
  end.
(** Operands of products are absolute. *)
Fixpoint factors (s : state) (e : expr) : Prop :=
  match e with
  | EBin o l r =>
      factors s l /\ factors s r /\
      match o with OpMul | OpDiv => (exists a, eval s l = VAbs a) /\ (exists b, eval s r = VAbs b) | _ => True end
  | ENeg e => factors s e
  | _ => True
  end.
Lemma look_ext : forall s s' id, extends s s' -> state_ok s -> look s id <> VUndef ->
  look s' id = pushv s' (look s id) /\ proper (look s id).
Proof.
  intros s s' id H Hs Hl. unfold look in *. destruct (sy s id) as [[|z|a]|] eqn:E; try congruence.
  - destruct H as [H _]. rewrite (H _ _ E) by discriminate. split; [reflexivity|exact Logic.I].
  - destruct (Hs _ _ E) as [Hb Hi]. pose proof H as (H1 & _). rewrite (H1 _ _ E) by discriminate.
    rewrite (view_push s s' a H Hi). split; [|cbn; intros [K _]; auto].
    cbn [pushv]. rewrite fold_rel; [reflexivity|]. intros [K _]. cbn in K. auto.
Qed.
Lemma eval_push : forall s s' e, extends s s' -> state_ok s -> defined s e -> factors s e -> tame s e ->
  eval s' e = pushv s' (eval s e) /\ proper (eval s e).
Proof.
  intros s s' e He Hs. induction e as [z|id|k id|a|o l IHl r IHr|e IH]; intros D F T.
  - split; [reflexivity|exact Logic.I].
  - now apply look_ext.
  - cbn [defined] in D. cbn [eval]. destruct He as (_ & H & _). destruct (att s k id) as [z|] eqn:E; [|congruence].
    rewrite (H _ _ _ E). split; [reflexivity|exact Logic.I].
  - cbn [eval]. destruct T as [T1 T2]. rewrite (view_push s s' a He T2). split; [|cbn; intros [K _]; auto].
    cbn [pushv]. rewrite fold_rel; [reflexivity|]. intros [K _]. cbn in K. auto.
  - destruct D as [D1 D2]. destruct F as (F1 & F2 & F3). destruct T as (T1 & T2 & _ & T3).
    destruct (IHl D1 F1 T1) as [L1 L2]. destruct (IHr D2 F2 T2) as [R1 R2]. cbn [eval]. destruct o; cbn [eval] in *.
    + rewrite L1, R1. split; [now apply push_add|]. rewrite add_as by assumption. apply fold_proper.
    + rewrite L1, R1. split; [now apply push_sub|]. rewrite sub_as by assumption. apply fold_proper.
    + destruct F3 as [[x Ex] [y Ey]]. rewrite L1, R1, Ex, Ey. split; [reflexivity|exact Logic.I].
    + destruct F3 as [[x Ex] [y Ey]]. rewrite L1, R1, Ex, Ey. split; [reflexivity|exact Logic.I].
  - destruct (IH D F T) as [L1 L2]. cbn [eval]. rewrite L1. split; [now apply push_neg|].
    rewrite neg_as by assumption. apply fold_proper.
Qed.

(** * The collector *)
Definition oshape (x : option addr) : list (nat * Z) * list (nat * Z) := match x with Some a => (ab a, asp a) | None => ([], []) end.
Lemma app_nil : forall {A} (a b : list A), a ++ b = [] -> a = [] /\ b = [].
Proof. intros A a b H. now apply app_eq_nil in H. Qed.

Lemma tame_err : forall s e, tame s e -> c_err (collect s e) = false.
Proof.
  intros s e. induction e as [z|id|k id|a|o l IHl r IHr|e IH]; intros T; cbn [collect]; try reflexivity.
  - now destruct (look s id).
  - now destruct (att s k id).
  - destruct T as (_ & _ & T & _). exact T.
  - specialize (IH T). unfold add_sub, merge_undef. rewrite IH. cbn [c_syms c_none app].
    destruct (c_syms (collect s e)); reflexivity.
Qed.
(** What is undefined. *)
Lemma combine_lists : forall o a b, c_err b = false ->
  c_syms (Dep_Model.combine o a b) = c_syms a ++ c_syms b /\ c_attrs (Dep_Model.combine o a b) = c_attrs a ++ c_attrs b.
Proof.
  intros o a b E. unfold Dep_Model.combine, add_sub, div_mul, merge_undef. rewrite E. cbn [c_syms c_attrs].
  destruct o; destruct (c_syms a ++ c_syms b) eqn:F; cbn [c_syms c_attrs]; try (now rewrite ?F);
  destruct (_ || _); cbn [c_syms c_attrs]; now rewrite ?F.
Qed.
Lemma neg_lists : forall c, c_err c = false -> c_syms (add_sub false c_none c) = c_syms c /\ c_attrs (add_sub false c_none c) = c_attrs c.
Proof. intros c E. exact (combine_lists OpSub c_none c E). Qed.
Lemma empty_defined : forall s e, tame s e -> c_syms (collect s e) = [] -> c_attrs (collect s e) = [] -> defined s e.
Proof.
  intros s e. induction e as [z|id|k id|a|o l IHl r IHr|e IH]; intros T H1 H2; cbn [defined collect] in *; auto.
  - intros E. rewrite E in H1. discriminate.
  - intros E. rewrite E in H2. discriminate.
  - destruct T as (T1 & T2 & _). destruct (combine_lists o (collect s l) (collect s r) (tame_err s r T2)) as [C1 C2].
    rewrite C1 in H1. rewrite C2 in H2. apply app_nil in H1 as [? ?]. apply app_nil in H2 as [? ?]. split; auto.
  - destruct (neg_lists _ (tame_err s e T)) as [C1 C2]. rewrite C1 in H1. rewrite C2 in H2. auto.
Qed.

Lemma addsub_shape : forall plus a b, c_err b = false -> c_syms a = [] -> c_syms b = [] ->
  c_spaces (add_sub plus a b) = c_spaces a ++ c_spaces b /\
  oshape (c_addr (add_sub plus a b)) =
    (merge (if plus then ADD else SUB) (fst (oshape (c_addr a))) (fst (oshape (c_addr b))),
     merge (if plus then ADD else SUB) (snd (oshape (c_addr a))) (snd (oshape (c_addr b)))).
Proof.
  intros plus a b E Ha Hb. unfold add_sub, merge_undef. rewrite E, Ha, Hb. cbn [c_syms app]. cbn [c_spaces c_addr].
  split; [reflexivity|]. destruct (c_addr a) as [x|], (c_addr b) as [y|]; destruct plus; cbn [oshape aadd asub aneg ab asp fst snd];
  rewrite ?merge_nil_r; reflexivity.
Qed.
Lemma divmul_shape : forall a b, c_err b = false -> c_syms a = [] -> c_syms b = [] -> c_err (div_mul a b) = false ->
  c_spaces (div_mul a b) = (c_spaces a ++ c_spaces b) ++ addr_spaces (c_addr a) ++ addr_spaces (c_addr b) /\
  c_addr (div_mul a b) = c_addr a /\ fst (oshape (c_addr a)) = [] /\ fst (oshape (c_addr b)) = [].
Proof.
  intros a b E Ha Hb. unfold div_mul, merge_undef. rewrite E, Ha, Hb. cbn [c_syms app].
  unfold is_address. cbn [c_syms c_addr]. rewrite Hb.
  assert (G : forall x, match x with Some q => match ab q with [] => false | _ :: _ => true end | None => false end = false ->
                        fst (oshape x) = []).
  { intros [q|] K; [|reflexivity]. cbn [oshape fst]. now destruct (ab q). }
  destruct (match c_addr a with Some q => match ab q with [] => false | _ :: _ => true end | None => false end) eqn:E1.
  - cbn. discriminate.
  - destruct (match c_addr b with Some q => match ab q with [] => false | _ :: _ => true end | None => false end) eqn:E2.
    + cbn. discriminate.
    + cbn. intros _. auto.
Qed.
Lemma addr_spaces_nil : forall x, addr_spaces x = [] -> snd (oshape x) = [].
Proof. intros [a|] H; [|reflexivity]. cbn in *. now apply map_eq_nil in H. Qed.

Lemma collect_factors : forall s e, state_ok s -> tame s e -> defined s e ->
  c_syms (collect s e) = [] /\ c_attrs (collect s e) = [] /\
  (c_spaces (collect s e) = [] -> factors s e /\ oshape (c_addr (collect s e)) = shape (eval s e)).
Proof.
  intros s e Hs. induction e as [z|id|k id|a|o l IHl r IHr|e IH]; intros T D; cbn [factors].
  - cbn. auto.
  - cbn [defined collect eval] in *. destruct (look s id); [congruence|cbn; auto|cbn; auto].
  - cbn [defined collect eval] in *. destruct (att s k id); [cbn; auto|congruence].
  - cbn. auto.
  - destruct T as (T1 & T2 & TE & T3). destruct D as [D1 D2].
    destruct (IHl T1 D1) as (L1 & L2 & L3). destruct (IHr T2 D2) as (R1 & R2 & R3).
    pose proof (tame_err _ _ T2) as Er. cbn [collect] in *.
    destruct (combine_lists o (collect s l) (collect s r) Er) as [C1 C2]. rewrite C1, C2, L1, R1, L2, R2.
    split; [reflexivity|]. split; [reflexivity|].
    assert (X : forall plus, c_spaces (add_sub plus (collect s l) (collect s r)) = [] -> (if plus then True else sub_ok (eval s l) (eval s r)) ->
       (factors s l /\ factors s r) /\ oshape (c_addr (add_sub plus (collect s l) (collect s r))) =
        shape (if plus then val_add (eval s l) (eval s r) else val_sub (eval s l) (eval s r))).
    { intros plus H Hok. destruct (addsub_shape plus _ _ Er L1 R1) as [S1 S2]. rewrite S1 in H. apply app_nil in H as [H1 H2].
      destruct (L3 H1) as [FL SL]. destruct (R3 H2) as [FR SR]. split; [auto|]. rewrite S2, SL, SR.
      destruct (eval_push s s l (extends_refl s) Hs D1 FL T1) as [_ PL].
      destruct (eval_push s s r (extends_refl s) Hs D2 FR T2) as [_ PR].
      rewrite !shape_as_addr. cbn [fst snd]. rewrite <- shape_as_addr. destruct plus.
      - rewrite add_as by assumption. rewrite shape_as_addr. set (q := aadd _ _).
        assert (as_addr (fold_addr q) = q \/ (ab q = [] /\ asp q = [])) as [->|[E1 E2]].
        { destruct (fold_cases q) as [(? & ? & _)|(_ & ->)]; auto. }
        + reflexivity.
        + assert (E3 : ab (as_addr (fold_addr q)) = [] /\ asp (as_addr (fold_addr q)) = []).
          { unfold fold_addr. rewrite E1, E2. auto. }
          destruct E3 as [-> ->]. unfold q, aadd in E1, E2. cbn [ab asp] in E1, E2. now rewrite E1, E2.
      - rewrite sub_as by assumption. rewrite shape_as_addr. set (q := asub _ _).
        assert (as_addr (fold_addr q) = q \/ (ab q = [] /\ asp q = [])) as [->|[E1 E2]].
        { destruct (fold_cases q) as [(? & ? & _)|(_ & ->)]; auto. }
        + reflexivity.
        + assert (E3 : ab (as_addr (fold_addr q)) = [] /\ asp (as_addr (fold_addr q)) = []).
          { unfold fold_addr. rewrite E1, E2. auto. }
          destruct E3 as [-> ->]. unfold q, asub in E1, E2. cbn [ab asp] in E1, E2. now rewrite E1, E2. }
    assert (Y : c_err (div_mul (collect s l) (collect s r)) = false -> c_spaces (div_mul (collect s l) (collect s r)) = [] ->
       (factors s l /\ factors s r) /\ ((exists a, eval s l = VAbs a) /\ (exists b, eval s r = VAbs b)) /\
       oshape (c_addr (div_mul (collect s l) (collect s r))) = ([], [])).
    { intros E H. destruct (divmul_shape _ _ Er L1 R1 E) as (S1 & S2 & B1 & B2). rewrite S1 in H.
      apply app_nil in H as [H H']. apply app_nil in H as [H1 H2]. apply app_nil in H' as [H3 H4].
      destruct (L3 H1) as [FL SL]. destruct (R3 H2) as [FR SR]. split; [auto|].
      apply addr_spaces_nil in H3, H4.
      destruct (eval_push s s l (extends_refl s) Hs D1 FL T1) as [_ PL].
      destruct (eval_push s s r (extends_refl s) Hs D2 FR T2) as [_ PR].
      assert (Z : forall x v, oshape x = shape v -> fst (oshape x) = [] -> snd (oshape x) = [] -> proper v -> exists a, v = VAbs a).
      { intros x v E0 E1 E2 P. destruct v as [|z|q]; [destruct P|eauto|]. exfalso. apply P. rewrite E0 in E1, E2. auto. }
      split; [split; [now apply (Z (c_addr (collect s l)))|now apply (Z (c_addr (collect s r)))]|].
      rewrite S2. destruct (oshape (c_addr (collect s l))). cbn in *. congruence. }
    intros H. destruct o; cbn [Dep_Model.combine eval] in *.
    + destruct (X true H Logic.I) as ((? & ?) & ?). auto.
    + destruct (X false H T3) as ((? & ?) & ?). auto.
    + destruct (Y TE H) as ((? & ?) & ((a & Ea) & (b & Eb)) & E). split; [split; [auto|split; [auto|split; eauto]]|].
      rewrite E, Ea, Eb. reflexivity.
    + destruct (Y TE H) as ((? & ?) & ((a & Ea) & (b & Eb)) & E). split; [split; [auto|split; [auto|split; eauto]]|].
      rewrite E, Ea, Eb. reflexivity.
  - cbn [tame defined] in T, D. destruct (IH T D) as (L1 & L2 & L3). pose proof (tame_err _ _ T) as Er. cbn [collect].
    destruct (neg_lists _ Er) as [C1 C2]. rewrite C1, C2. split; [exact L1|]. split; [exact L2|]. intros H.
    destruct (addsub_shape false c_none _ Er eq_refl L1) as [S1 S2]. rewrite S1 in H. cbn [c_none c_spaces app] in H.
    destruct (L3 H) as [F S]. split; [exact F|]. rewrite S2, S. cbn [c_none c_addr oshape fst snd eval].
    destruct (eval_push s s e (extends_refl s) Hs D F T) as [_ P]. rewrite neg_as by assumption.
    rewrite !shape_as_addr. cbn [fst snd]. set (q := aneg _).
    assert (as_addr (fold_addr q) = q \/ (ab q = [] /\ asp q = [])) as [->|[E1 E2]].
    { destruct (fold_cases q) as [(? & ? & _)|(_ & ->)]; auto. }
    + reflexivity.
    + assert (E3 : ab (as_addr (fold_addr q)) = [] /\ asp (as_addr (fold_addr q)) = []).
      { unfold fold_addr. rewrite E1, E2. auto. }
      destruct E3 as [-> ->]. unfold q, aneg in E1, E2. cbn [ab asp] in E1, E2. apply f_equal2; assumption.
Qed.
