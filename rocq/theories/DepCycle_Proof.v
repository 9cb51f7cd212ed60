From Coq Require Import List ZArith Bool Arith Lia.
From Verif Require Import Addr_Model Addr_Spec Addr_Proof Loctr_Model Dep_Model Dep_Spec Dep_Proof DepConfl_Proof.
Import ListNotations.
Local Open Scope Z_scope.

Lemma dep_eqb_refl : forall d, dep_eqb d d = true.
Proof. intros d. destruct (dep_eqb_spec d d); congruence. Qed.
Lemma mem_In : forall d l, mem d l = true <-> In d l.
Proof.
  intros d l. unfold mem. rewrite existsb_exists. split.
  - intros (x & Hx & E). destruct (dep_eqb_spec d x); [now subst|discriminate].
  - intros H. exists d. split; [exact H|apply dep_eqb_refl].
Qed.
Lemma find_In : forall t d src, find t d = Some src -> In (d, src) t.
Proof.
  induction t as [|[k s] t IH]; intros d src H; [discriminate|]. cbn [find] in H. destruct (dep_eqb_spec k d).
  - subst. injection H as ->. now left.
  - right. now apply IH.
Qed.
Lemma find_app : forall t d src x, find (t ++ [(d, src)]) x =
  match find t x with Some q => Some q | None => if dep_eqb d x then Some src else None end.
Proof.
  induction t as [|[k s] t IH]; intros d src x; cbn [app find]; [reflexivity|]. destruct (dep_eqb k x); auto.
Qed.

Lemma NoDup_app_intro_single : forall (l : list dependant) x, NoDup l -> ~ In x l -> NoDup (l ++ [x]).
Proof. intros l x ND N. apply NoDup_Add with (a := x) (l := l); [|auto]. rewrite <- (app_nil_r l) at 1. apply Add_app. Qed.

(** * Reachability *)
Lemma reach_trans : forall ks s t x y z, reach ks s t x y -> reach ks s t y z -> reach ks s t x z.
Proof. intros ks s t x y z H. induction H; intros K; [eapply RStep|eapply RStep]; eauto. Qed.
Lemma reach_inv : forall ks s t x z, reach ks s t x z -> exists y, edge ks s t x y /\ (y = z \/ reach ks s t y z).
Proof. intros ks s t x z [a b H|a b c H R]; eauto. Qed.

Lemma edge_dom : forall ks s t x y, edge ks s t x y -> In x (map fst t).
Proof. intros ks s t x y (src & F & _). apply find_In in F. apply (in_map fst) in F. exact F. Qed.
Lemma acyclic_Acc : forall ks s t, acyclic ks s t -> forall x, Acc (fun y x => edge ks s t x y) x.
Proof.
  intros ks s t A.
  assert (G : forall n vs x, NoDup vs -> incl vs (map fst t) -> (forall v, In v vs -> reach ks s t v x) ->
              (length (map fst t) - length vs <= n)%nat -> Acc (fun y x => edge ks s t x y) x).
  { induction n as [|n IH]; intros vs x ND Hi Hr Hl; constructor; intros y E.
    - exfalso. assert (N : ~ In x vs) by (intros K; apply (A x); auto).
      assert (L : (length (x :: vs) <= length (map fst t))%nat).
      { apply NoDup_incl_length; [now constructor|]. intros v [<-|Hv]; [eapply edge_dom; eassumption|auto]. }
      cbn [length] in L. lia.
    - apply (IH (x :: vs)).
      + constructor; [|exact ND]. intros K. apply (A x). auto.
      + intros v [<-|Hv]; [eapply edge_dom; eassumption|auto].
      + intros v [<-|Hv]; [now apply REdge|]. apply (reach_trans _ _ _ _ x); [auto|now apply REdge].
      + cbn [length]. lia. }
  intros x. apply (G (length (map fst t)) [] x); [constructor|intros v []|intros v []|cbn; lia].
Qed.

(** * The search *)
Lemma search_correct : forall n ks s t target stack b, search n ks s t target stack = Some b ->
  (b = false <-> exists x, In x stack /\ reach ks s t x target).
Proof.
  induction n as [|n IH]; intros ks s t target stack b H; [discriminate|]. cbn [search] in H.
  destruct stack as [|top rest].
  - injection H as <-. split; [discriminate|]. intros (x & [] & _).
  - destruct (find t top) as [src|] eqn:F.
    + destruct (mem target (extract ks s src)) eqn:M.
      * injection H as <-. split; [|reflexivity]. intros _. exists top. split; [now left|]. apply REdge. exists src.
        split; [exact F|]. now apply mem_In.
      * rewrite (IH _ _ _ _ _ _ H). split.
        -- intros (x & Hx & R). apply in_app_or in Hx as [Hx|Hx].
           ++ exists top. split; [now left|]. apply (RStep _ _ _ _ x); [|exact R]. exists src. split; [exact F|]. now apply in_rev.
           ++ exists x. split; [now right|exact R].
        -- intros (x & [<-|Hx] & R).
           ++ apply reach_inv in R as (y & (src' & F' & Hy) & [->|R]); rewrite F in F'; injection F' as <-.
              ** apply mem_In in Hy. congruence.
              ** exists y. split; [|exact R]. apply in_or_app. left. rewrite <- in_rev. exact Hy.
           ++ exists x. split; [|exact R]. apply in_or_app. now right.
    + rewrite (IH _ _ _ _ _ _ H). split.
      * intros (x & Hx & R). exists x. split; [now right|exact R].
      * intros (x & [<-|Hx] & R); [|eauto]. apply reach_inv in R as (y & (src' & F' & _) & _). congruence.
Qed.
Lemma search_more : forall n ks s t target stack b, search n ks s t target stack = Some b -> forall m, (n <= m)%nat ->
  search m ks s t target stack = Some b.
Proof.
  induction n as [|n IH]; intros ks s t target stack b H m L; [discriminate|]. destruct m as [|m]; [lia|]. cbn [search] in *.
  destruct stack as [|top rest]; [exact H|]. destruct (find t top) as [src|].
  - destruct (mem _ _); [exact H|]. apply (IH _ _ _ _ _ _ H). lia.
  - apply (IH _ _ _ _ _ _ H). lia.
Qed.
Definition ends (ks : kinds) (s : state) (t : table) (target : dependant) (stack : list dependant) : Prop :=
  exists n b, search n ks s t target stack = Some b.
Lemma ends_push : forall ks s t target x, Acc (fun y x => edge ks s t x y) x -> forall rest, ends ks s t target rest ->
  ends ks s t target (x :: rest).
Proof.
  intros ks s t target x H. induction H as [x _ IH]. intros rest R. destruct (find t x) as [src|] eqn:F.
  - destruct (mem target (extract ks s src)) eqn:M.
    + exists 1%nat, false. cbn [search]. now rewrite F, M.
    + assert (G : forall l, (forall y, In y l -> In y (extract ks s src)) -> ends ks s t target (l ++ rest)).
      { induction l as [|y l IHl]; intros Hl; [exact R|]. cbn [app]. apply IH.
        - exists src. split; [exact F|]. apply Hl. now left.
        - apply IHl. intros z Hz. apply Hl. now right. }
      destruct (G (rev (extract ks s src))) as (n & b & E); [intros y Hy; now apply in_rev|].
      exists (S n), b. cbn [search]. now rewrite F, M.
  - destruct R as (n & b & E). exists (S n), b. cbn [search]. now rewrite F.
Qed.
Lemma search_ends : forall ks s t target, acyclic ks s t -> forall stack, ends ks s t target stack.
Proof.
  intros ks s t target A. induction stack as [|x l IH].
  - exists 1%nat, true. reflexivity.
  - apply ends_push; [now apply acyclic_Acc|exact IH].
Qed.

(** * A new dependency *)
Lemma edge_old : forall ks s t target src x y, find t target = None ->
  edge ks s (t ++ [(target, src)]) x y -> edge ks s t x y \/ (x = target /\ In y (extract ks s src)).
Proof.
  intros ks s t target src x y F (q & E & Hy). rewrite find_app in E. destruct (find t x) as [q'|] eqn:F'.
  - injection E as ->. left. exists q. auto.
  - destruct (dep_eqb_spec target x) as [->|]; [|discriminate]. injection E as <-. auto.
Qed.
Lemma edge_new : forall ks s t target src x y, edge ks s t x y -> edge ks s (t ++ [(target, src)]) x y.
Proof. intros ks s t target src x y (q & E & Hy). exists q. split; [|exact Hy]. rewrite find_app. now rewrite E. Qed.
Lemma reach_new : forall ks s t target src x y, reach ks s t x y -> reach ks s (t ++ [(target, src)]) x y.
Proof. intros ks s t target src x y H. induction H; [apply REdge|eapply RStep; [|eassumption]]; now apply edge_new. Qed.
Lemma path_split : forall ks s t target src, find t target = None -> forall x y, reach ks s (t ++ [(target, src)]) x y ->
  reach ks s t x y \/ ((x = target \/ reach ks s t x target) /\ reach ks s (t ++ [(target, src)]) target y).
Proof.
  intros ks s t target src F x y H. induction H as [x y E|x y z E R IH].
  - destruct (edge_old _ _ _ _ _ _ _ F E) as [E'|[-> Hy]]; [left; now apply REdge|right].
    split; [now left|]. now apply REdge.
  - destruct (edge_old _ _ _ _ _ _ _ F E) as [E'|[-> Hy]].
    + destruct IH as [R'|[[->|R'] R'']].
      * left. eapply RStep; eassumption.
      * right. split; [right; now apply REdge|exact R''].
      * right. split; [right; eapply RStep; eassumption|exact R''].
    + right. split; [now left|]. eapply RStep; eassumption.
Qed.
Lemma new_cycle : forall ks s t target src, find t target = None ->
  (reach ks s (t ++ [(target, src)]) target target <->
   In target (extract ks s src) \/ exists d, In d (extract ks s src) /\ reach ks s t d target).
Proof.
  intros ks s t target src F.
  assert (E : forall d, In d (extract ks s src) -> edge ks s (t ++ [(target, src)]) target d).
  { intros d Hd. exists src. split; [|exact Hd]. rewrite find_app, F, dep_eqb_refl. reflexivity. }
  split.
  - intros H. apply reach_inv in H as (d & Ed & Hd).
    destruct (edge_old _ _ _ _ _ _ _ F Ed) as [E'|[_ Hin]]; [destruct E' as (q & Eq & _); congruence|].
    destruct Hd as [->|R]; [now left|]. destruct (path_split _ _ _ _ _ F _ _ R) as [R'|[[->|R'] _]]; [|now left|]; right; eauto.
  - intros [H|(d & Hd & R)]; [apply REdge; auto|]. apply (RStep _ _ _ _ d); [auto|]. now apply reach_new.
Qed.
Lemma added_acyclic : forall ks s t target src, find t target = None -> acyclic ks s t ->
  ~ reach ks s (t ++ [(target, src)]) target target -> acyclic ks s (t ++ [(target, src)]).
Proof.
  intros ks s t target src F A N x R. destruct (path_split _ _ _ _ _ F _ _ R) as [R'|[[->|R'] R'']].
  - now apply (A x).
  - auto.
  - apply N. eapply reach_trans; [exact R''|]. now apply reach_new.
Qed.
Lemma check_cycle_correct : forall n ks s t target src b, find t target = None ->
  check_cycle n ks s t target (extract ks s src) = Some b ->
  (b = false <-> reach ks s (t ++ [(target, src)]) target target).
Proof.
  intros n ks s t target src b F H. rewrite (new_cycle _ _ _ _ _ F). unfold check_cycle in H.
  destruct (mem target (extract ks s src)) eqn:M.
  - injection H as <-. apply mem_In in M. tauto.
  - rewrite (search_correct _ _ _ _ _ _ _ H). split.
    + intros (x & Hx & R). right. exists x. split; [now apply in_rev|exact R].
    + intros [K|(d & Hd & R)]; [apply mem_In in K; congruence|]. exists d. split; [now rewrite <- in_rev|exact R].
Qed.
Lemma check_cycle_ends : forall ks s t target ds, acyclic ks s t -> exists n, forall m, (n <= m)%nat ->
  check_cycle m ks s t target ds <> None.
Proof.
  intros ks s t target ds A. destruct (search_ends ks s t target A (rev ds)) as (n & b & E). exists n. intros m L.
  unfold check_cycle. destruct (mem target ds); [discriminate|]. rewrite (search_more _ _ _ _ _ _ _ E m L). discriminate.
Qed.

Lemma settled_ext : forall s s' a, extends s s' -> settled s a -> settled s' a.
Proof.
  intros s s' a (_ & _ & H) Ha e He. specialize (Ha e He). destruct (spl s (fst e)) as [z|] eqn:E; [|congruence].
  rewrite (H _ _ E). discriminate.
Qed.
Lemma plain_ext : forall s s' e, extends s s' -> plain s e -> plain s' e.
Proof.
  intros s s' e X. induction e; cbn [plain]; auto.
  - intros H. destruct (att s k id) as [z|] eqn:E; [|congruence]. destruct X as (_ & X & _). rewrite (X _ _ _ E). discriminate.
  - apply settled_ext; exact X.
  - intros [H1 H2]. auto.
Qed.
Lemma look_same : forall s s' id, extends s s' -> plain_state s -> look s id <> VUndef -> look s' id = look s id.
Proof.
  intros s s' id X P N. unfold look in *. destruct (sy s id) as [[|z|a]|] eqn:E; try congruence.
  - destruct X as (X & _). now rewrite (X _ _ E).
  - pose proof X as (X' & _). rewrite (X' _ _ E) by discriminate. f_equal. apply view_settled; [exact X|]. now apply (P id).
Qed.

Definition shrinks (c c' : coll) : Prop :=
  (c_syms c = [] -> c' = c) /\ (c_err c = true -> c_err c' = true) /\ incl (c_syms c') (c_syms c) /\
  c_attrs c = [] /\ c_attrs c' = [].
Lemma merge_syms : forall c h, c_syms (fst (merge_undef c h)) = if c_err h then c_syms c else c_syms c ++ c_syms h.
Proof. intros c h. unfold merge_undef. now destruct (c_err h). Qed.
Lemma add_sub_parts : forall p c h,
  c_err (add_sub p c h) = c_err h /\ c_syms (add_sub p c h) = (if c_err h then c_syms c else c_syms c ++ c_syms h) /\
  (c_attrs c = [] -> c_attrs h = [] -> c_attrs (add_sub p c h) = []).
Proof.
  intros p c h. unfold add_sub, merge_undef. destruct (c_err h); cbn [c_err c_syms c_attrs]; [auto|].
  destruct (c_syms c ++ c_syms h); cbn [c_err c_syms c_attrs]; repeat split; auto; intros -> ->; reflexivity.
Qed.
Lemma div_mul_parts : forall c h,
  c_syms (div_mul c h) = (if c_err h then c_syms c else c_syms c ++ c_syms h) /\
  (c_attrs c = [] -> c_attrs h = [] -> c_attrs (div_mul c h) = []) /\
  (c_err (div_mul c h) = true -> c_err h = true \/ (c_syms c = [] /\ c_syms h = [])) /\
  (c_err h = true -> c_err (div_mul c h) = true).
Proof.
  intros c h. unfold div_mul, merge_undef. destruct (c_err h); cbn [c_err c_syms c_attrs]; [auto|].
  destruct (c_syms c) as [|a l]; [destruct (c_syms h) as [|b l']|]; cbn [app c_err c_syms c_attrs].
  - destruct (_ || _); cbn [c_err c_syms c_attrs]; repeat split; auto; try (intros -> ->; reflexivity); discriminate.
  - repeat split; auto; try (intros -> ->; reflexivity); discriminate.
  - repeat split; auto; try (intros -> ->; reflexivity); discriminate.
Qed.
Lemma shrinks_syms : forall a a' b b', shrinks a a' -> shrinks b b' ->
  incl (if c_err b' then c_syms a' else c_syms a' ++ c_syms b') (if c_err b then c_syms a else c_syms a ++ c_syms b).
Proof.
  intros a a' b b' (A1 & A2 & A3 & _) (B1 & B2 & B3 & _) x. destruct (c_err b) eqn:E.
  - rewrite (B2 eq_refl). apply A3.
  - destruct (c_err b'); rewrite ?in_app_iff; intros H; [left; now apply A3|]. destruct H as [H|H]; [left; now apply A3|right; now apply B3].
Qed.
Lemma shrinks_combine : forall o a a' b b', shrinks a a' -> shrinks b b' ->
  (c_err b = true -> c_syms a = [] -> Dep_Model.combine o a' b' = Dep_Model.combine o a b) ->
  shrinks (Dep_Model.combine o a b) (Dep_Model.combine o a' b').
Proof.
  intros o a a' b b' HA HB HE. pose proof (shrinks_syms _ _ _ _ HA HB) as HS.
  destruct HA as (A1 & A2 & A3 & A4 & A5). destruct HB as (B1 & B2 & B3 & B4 & B5).
  assert (G : (if c_err b then c_syms a else c_syms a ++ c_syms b) = [] -> Dep_Model.combine o a' b' = Dep_Model.combine o a b).
  { intros H. destruct (c_err b) eqn:E; [auto|]. apply app_nil in H as [H1 H2]. now rewrite (A1 H1), (B1 H2). }
  assert (S1 : c_syms (Dep_Model.combine o a b) = if c_err b then c_syms a else c_syms a ++ c_syms b)
    by (destruct o; cbn [Dep_Model.combine]; apply add_sub_parts || apply div_mul_parts).
  assert (S2 : c_syms (Dep_Model.combine o a' b') = if c_err b' then c_syms a' else c_syms a' ++ c_syms b')
    by (destruct o; cbn [Dep_Model.combine]; apply add_sub_parts || apply div_mul_parts).
  split; [rewrite S1; exact G|]. split; [|split; [rewrite S1, S2; exact HS|split]].
  - destruct o; cbn [Dep_Model.combine].
    + destruct (add_sub_parts true a b) as (-> & _). destruct (add_sub_parts true a' b') as (-> & _). exact B2.
    + destruct (add_sub_parts false a b) as (-> & _). destruct (add_sub_parts false a' b') as (-> & _). exact B2.
    + intros H. destruct (div_mul_parts a b) as (_ & _ & P & _). destruct (P H) as [K|[K1 K2]].
      * apply (div_mul_parts a' b'). auto.
      * now rewrite (A1 K1), (B1 K2).
    + intros H. destruct (div_mul_parts a b) as (_ & _ & P & _). destruct (P H) as [K|[K1 K2]].
      * apply (div_mul_parts a' b'). auto.
      * now rewrite (A1 K1), (B1 K2).
  - destruct o; cbn [Dep_Model.combine]; apply add_sub_parts || apply div_mul_parts; assumption.
  - destruct o; cbn [Dep_Model.combine]; apply add_sub_parts || apply div_mul_parts; assumption.
Qed.
Lemma combine_error : forall o a b b', c_err b = true -> c_err b' = true -> Dep_Model.combine o a b' = Dep_Model.combine o a b.
Proof.
  intros o a b b' E E'. destruct o; cbn [Dep_Model.combine]; unfold add_sub, div_mul, merge_undef; rewrite E, E'; reflexivity.
Qed.
Lemma collect_shrinks : forall s s' e, extends s s' -> plain_state s -> plain s e -> shrinks (collect s e) (collect s' e).
Proof.
  intros s s' e X P. assert (R : forall c, c_attrs c = [] -> shrinks c c) by (intros c H; repeat split; auto; apply incl_refl).
  induction e as [z|id|k id|a|o l IHl r IHr|e IH]; cbn [plain collect]; intros H.
  - apply R. reflexivity.
  - destruct (look s id) as [|z|a] eqn:L.
    + assert (G : forall c, incl (c_syms c) [id] -> c_attrs c = [] -> shrinks (mkC false [id] [] [] None) c).
      { intros c H1 H2. split; [discriminate|]. split; [discriminate|]. split; [exact H1|]. split; [reflexivity|exact H2]. }
      destruct (look s' id); apply G; cbn [c_syms c_attrs]; try reflexivity; try apply incl_refl; apply incl_nil_l.
    + rewrite (look_same _ _ _ X P) by congruence. rewrite L. apply R. reflexivity.
    + rewrite (look_same _ _ _ X P) by congruence. rewrite L. apply R. reflexivity.
  - destruct (att s k id) as [z|] eqn:E; [|congruence]. destruct X as (_ & X & _). rewrite (X _ _ _ E). apply R. reflexivity.
  - rewrite (proj1 (view_settled s s' a X H)). apply R. reflexivity.
  - destruct H as [H1 H2]. specialize (IHl H1). specialize (IHr H2). apply shrinks_combine; auto.
    intros E1 E2. destruct IHl as (L1 & _). destruct IHr as (_ & R2 & _). rewrite (L1 E2). apply combine_error; auto.
  - specialize (IH H). apply (shrinks_combine OpSub c_none c_none); auto.
    intros E1 E2. destruct IH as (_ & R2 & _). apply combine_error; auto.
Qed.
Lemma noattr : forall s e, plain_state s -> plain s e -> addr_spaces (c_addr (collect s e)) = [] /\ c_spaces (collect s e) = [] /\ c_attrs (collect s e) = [].
Proof.
  intros s e P H.
  assert (V : forall a, settled s a -> asp (view s a) = []) by (intros a Ha; apply (view_settled s s a (extends_refl s) Ha)).
  assert (G : addr_spaces (c_addr (collect s e)) = [] /\ c_spaces (collect s e) = []).
  { assert (M : forall o x y, addr_spaces (c_addr x) = [] /\ c_spaces x = [] -> addr_spaces (c_addr y) = [] /\ c_spaces y = [] ->
            addr_spaces (c_addr (Dep_Model.combine o x y)) = [] /\ c_spaces (Dep_Model.combine o x y) = []).
    { intros o x y [X1 X2] [Y1 Y2].
      assert (Q : forall (pl : bool) a b, addr_spaces (Some a) = [] -> addr_spaces (Some b) = [] -> addr_spaces (Some (if pl then aadd a b else asub a b)) = []).
      { intros pl [a1 a2 a3] [b1 b2 b3] Ka Kb. cbn in *. apply map_eq_nil in Ka, Kb. subst. now destruct pl. }
      assert (A : forall p, addr_spaces (c_addr (add_sub p x y)) = [] /\ c_spaces (add_sub p x y) = []).
      { intros p. unfold add_sub, merge_undef. destruct (c_err y); cbn [c_addr c_spaces]; [auto|].
        destruct (c_syms x ++ c_syms y); cbn [c_addr c_spaces c_err c_syms c_attrs]; rewrite X2, Y2; split; auto.
        destruct (c_addr x) as [a|], (c_addr y) as [b|]; auto.
        destruct p; auto. destruct b as [b1 b2 b3]. cbn in *. apply map_eq_nil in Y1. now subst. }
      assert (D : addr_spaces (c_addr (div_mul x y)) = [] /\ c_spaces (div_mul x y) = []).
      { unfold div_mul, merge_undef. destruct (c_err y); cbn [c_addr c_spaces]; [auto|].
        destruct (c_syms x ++ c_syms y); cbn [c_addr c_spaces c_err c_syms c_attrs]; [|rewrite X2, Y2; auto].
        destruct (_ || _); cbn [c_addr c_spaces]; rewrite X2, Y2; auto. rewrite X1, Y1. auto. }
      destruct o; cbn [Dep_Model.combine]; auto. }
    induction e as [z|id|k id|a|o l IHl r IHr|e IH]; cbn [plain collect] in *; auto.
    - unfold look. destruct (sy s id) as [[|z|a]|] eqn:E; auto. cbn [c_addr c_spaces addr_spaces]. rewrite V; auto. now apply (P id).
    - destruct (att s k id); auto.
    - cbn [c_addr c_spaces addr_spaces]. rewrite V; auto.
    - destruct H as [H1 H2]. apply M; auto.
    - apply (M OpSub c_none); auto. }
  destruct G as [G1 G2]. repeat split; auto. apply (collect_shrinks s s e (extends_refl s) P H).
Qed.
Lemma extract_plain : forall ks s e, plain_state s -> plain s e -> extract ks s (SExpr e) = map DSym (c_syms (collect s e)).
Proof.
  intros ks s e P H. cbn [extract]. unfold extract_coll. destruct (noattr s e P H) as (-> & -> & ->).
  now destruct (c_syms (collect s e)).
Qed.
Lemma reach_mono : forall ks s s' t t', (forall x y, edge ks s' t' x y -> edge ks s t x y) ->
  forall x y, reach ks s' t' x y -> reach ks s t x y.
Proof. intros ks s s' t t' H x y R. induction R; [apply REdge|eapply RStep]; eauto. Qed.
Lemma plain_edges : forall ks s s' t t', extends s s' -> plain_state s -> plain_state s' -> plain_table s t ->
  (forall x src, find t' x = Some src -> find t x = Some src) ->
  forall x y, edge ks s' t' x y -> edge ks s t x y.
Proof.
  intros ks s s' t t' X P P' PT Sub x y (src & F & Hy). exists src. apply Sub in F. split; [exact F|].
  destruct (PT _ _ (find_In _ _ _ F)) as (_ & e & -> & He).
  rewrite (extract_plain ks s e P He). rewrite (extract_plain ks s' e P' (plain_ext _ _ _ X He)) in Hy.
  apply in_map_iff in Hy as (id & <- & Hid). apply in_map. apply (collect_shrinks s s' e X P He). exact Hid.
Qed.

(** Values of plain expressions wait for nothing. *)
Definition no_spaces (v : val) : Prop := match v with VRel a => asp a = [] | _ => True end.
Lemma fold_no_spaces : forall a, asp a = [] -> no_spaces (fold_addr a).
Proof. intros [b o l] H. cbn in *. subst. unfold fold_addr. cbn. now destruct b. Qed.
Lemma eval_plain : forall s e, plain_state s -> plain s e -> no_spaces (eval s e).
Proof.
  intros s e P. assert (V : forall a, settled s a -> asp (view s a) = []) by (intros a Ha; apply (view_settled s s a (extends_refl s) Ha)).
  induction e as [z|id|k id|a|o l IHl r IHr|e IH]; cbn [plain eval]; intros H; try exact Logic.I.
  - unfold look. destruct (sy s id) as [[|z|a]|] eqn:E; try exact Logic.I. cbn [no_spaces]. apply V. now apply (P id).
  - cbn [no_spaces]. now apply V.
  - destruct H as [H1 H2]. specialize (IHl H1). specialize (IHr H2).
    destruct o; destruct (eval s l) as [|z|a], (eval s r) as [|z'|a']; cbn [val_add val_sub val_mul val_div]; try exact Logic.I;
      cbn [no_spaces] in *; try assumption; apply fold_no_spaces; unfold aadd, asub; cbn [asp]; rewrite IHl, IHr; reflexivity.
  - specialize (IH H). destruct (eval s e) as [|z|a]; cbn [val_neg no_spaces] in *; try exact Logic.I. unfold aneg. cbn [asp]. now rewrite IH.
Qed.

Definition hinv (ks : kinds) (c : state * table) : Prop :=
  plain_state (fst c) /\ plain_table (fst c) (snd c) /\ acyclic ks (fst c) (snd c) /\
  NoDup (map fst (snd c)) /\ forall d src, In (d, src) (snd c) -> undefined (fst c) d.
Lemma find_none : forall t d, find t d = None -> ~ In d (map fst t).
Proof.
  induction t as [|[k src] t IH]; intros d H; [intros []|]. cbn [find map fst] in *. destruct (dep_eqb_spec k d); [discriminate|].
  intros [K|K]; [congruence|]. now apply (IH d).
Qed.
Lemma find_sub : forall t1 t src t2 x q, NoDup (map fst (t1 ++ (t, src) :: t2)) -> find (t1 ++ t2) x = Some q ->
  find (t1 ++ (t, src) :: t2) x = Some q.
Proof.
  induction t1 as [|[k s] t1 IH]; intros t src t2 x q ND F; cbn [app find map fst] in *.
  - destruct (dep_eqb_spec t x) as [->|]; [|exact F]. exfalso. inversion ND as [|? ? N _]. apply N.
    apply find_In in F. now apply (in_map fst) in F.
  - destruct (dep_eqb k x); [exact F|]. apply IH; [|exact F]. now inversion ND.
Qed.
Lemma plain_state_assign : forall ks s id v, undefined s (DSym id) -> plain_state s -> no_spaces v -> plain_state (assign ks s (DSym id) v).
Proof.
  intros ks s id v U P N jd a. cbn [assign sy]. unfold upd. destruct (Nat.eqb jd id).
  - intros E. injection E as ->. cbn in N. intros x Hx. rewrite N in Hx. destruct Hx.
  - intros E x Hx. apply (P jd a E x Hx).
Qed.
Lemma history_inv : forall ks c, history ks c -> hinv ks c.
Proof.
  intros ks c H. induction H as [s P|n s t id e t' _ IH U He A|n s t id e s' t' _ IH U He A|w c c' _ IH K].
  - split; [exact P|]. split; [intros ? ? []|]. split; [|split; [constructor|intros ? ? []]].
    intros x R. apply reach_inv in R as (y & (q & F & _) & _). discriminate.
  - destruct IH as (P & PT & AC & ND & UN). cbn [fst snd] in *. unfold add_dependency in A.
    destruct (find t (DSym id)) eqn:F; [discriminate|].
    destruct (check_cycle n ks s t (DSym id) (extract ks s (SExpr e))) as [[|]|] eqn:C; try discriminate.
    injection A as <-. split; [exact P|]. split; [|split; [|split]].
    + intros d src Hin. apply in_app_or in Hin as [Hin|[Hin|[]]]; [now apply PT|]. injection Hin as <- <-. eauto.
    + apply added_acyclic; auto. intros R. apply (check_cycle_correct _ _ _ _ _ _ _ F C) in R. discriminate.
    + cbn [fst snd]. rewrite map_app. cbn [map fst snd]. apply NoDup_app_intro_single; [exact ND|]. now apply find_none.
    + intros d src Hin. apply in_app_or in Hin as [Hin|[Hin|[]]]; [now apply (UN d src)|]. injection Hin as <- <-. exact U.
  - destruct IH as (P & PT & AC & ND & UN). cbn [fst snd] in *. unfold add_dependency in A.
    destruct (find t (DSym id)) eqn:F; [discriminate|].
    destruct (check_cycle n ks s t (DSym id) (extract ks s (SExpr e))) as [[|]|] eqn:C; try discriminate.
    injection A as <- <-.
    assert (X : extends s (assign_default ks s (DSym id))) by (apply (assign_extends ks s (DSym id) (VAbs 0)); exact U).
    assert (P' : plain_state (assign_default ks s (DSym id))) by (apply (plain_state_assign ks s id (VAbs 0)); auto; exact Logic.I).
    split; [exact P'|]. split; [|split; [|split]].
    + intros d src Hin. destruct (PT d src Hin) as (H1 & e' & H2 & H3). split; [exact H1|]. exists e'. split; [exact H2|]. now apply (plain_ext s).
    + intros x R. apply (AC x). revert R. apply reach_mono. apply plain_edges; auto.
    + exact ND.
    + intros d src Hin. apply (assign_undefined ks s (DSym id) (VAbs 0)); [|now apply (UN d src)]. intros <-.
      apply (find_none _ _ F). now apply (in_map fst) in Hin.
  - destruct K as [s t1 t src t2 Ha Hx]. destruct IH as (P & PT & AC & ND & UN). cbn [fst snd] in *.
    assert (Hin : In (t, src) (t1 ++ (t, src) :: t2)) by apply in_elt.
    destruct (PT _ _ Hin) as ((id & ->) & e & -> & He).
    assert (U : undefined s (DSym id)) by (apply (UN _ _ Hin)).
    set (v := resolve s (SExpr e)).
    assert (N : no_spaces v).
    { unfold v. cbn [resolve]. pose proof (eval_plain s e P He) as N. now destruct (eval s e). }
    assert (X : extends s (assign ks s (DSym id) v)) by (apply assign_extends; exact U).
    assert (P' : plain_state (assign ks s (DSym id) v)) by (now apply plain_state_assign).
    assert (Sub : forall x, In x (t1 ++ t2) -> In x (t1 ++ (DSym id, SExpr e) :: t2)).
    { intros x Hx'. apply in_app_or in Hx' as [?|?]; apply in_or_app; [now left|right; now right]. }
    split; [exact P'|]. split; [|split; [|split]].
    + intros d src Hd. destruct (PT d src (Sub _ Hd)) as (H1 & e' & H2 & H3). split; [exact H1|]. exists e'. split; [exact H2|].
      now apply (plain_ext s).
    + intros x R. apply (AC x). revert R. apply reach_mono. apply plain_edges; auto. intros y q. apply find_sub. exact ND.
    + cbn [snd]. rewrite map_app in *. cbn [map fst] in ND. now apply NoDup_remove_1 in ND.
    + intros d src Hd. apply assign_undefined; [|apply (UN d src), Sub; exact Hd]. intros <-.
      rewrite map_app in ND. cbn [map fst] in ND. apply NoDup_remove_2 in ND. apply ND. rewrite <- map_app.
      now apply (in_map fst) in Hd.
Qed.
