(** C20, C21: forward references. *)
From Coq Require Import List ZArith Bool Arith Lia.
From Coq Require Import ZifyBool.
From Verif Require Import Addr_Model Addr_Spec Addr_Proof Loctr_Model Loctr_Spec Loctr_Proof Org_Proof.
From Verif Require Import Dep_Model Dep_Spec Dep_Proof DepConfl_Proof DepCycle_Proof DepArith_Proof.
Import ListNotations.
Local Open Scope Z_scope.

(** * C20 *)

(** Whatever order the waiting definitions are visited in, two complete resolutions define the same
    symbols, attributes and lengths with the same values and leave the same definitions waiting. *)
Theorem C20_confluent : forall ks w c0 c1 c2, Dep_Spec.inv c0 -> expr_symbols (snd c0) ->
  sound_picks ks w c0 c1 -> finished ks w c1 -> sound_picks ks w c0 c2 -> finished ks w c2 ->
  same_state (fst c1) (fst c2) /\ forall x, In x (snd c1) <-> In x (snd c2).
Proof. exact confluent. Qed.
Print Assumptions C20_confluent.

(** Sound resolutions are resolutions of the code. *)
Theorem C20_sound_runs_are_runs : forall ks w c c', sound_picks ks w c c' -> picks ks w c c'.
Proof.
  intros ks w c c' H. induction H as [c|s t1 t src t2 c Ha Hx Hg R IH]; [constructor|]. eapply PCons; [apply Pick|]; eassumption.
Qed.
Print Assumptions C20_sound_runs_are_runs.

(** Every definition that has been resolved has the value that its expression has in the final state. *)
Theorem C20_values_are_definitions : forall ks w c0 c, Dep_Spec.inv c0 -> expr_symbols (snd c0) -> sound_picks ks w c0 c ->
  forall t src, In (t, src) (snd c0) -> ~ In (t, src) (snd c) -> has_value ks (fst c) t (resolve (fst c) src).
Proof.
  intros ks w c0 c I HE R t src Hin N. destruct (d_res _ _ _ _ (run_done _ _ _ _ R I HE) t src Hin) as [?|(_ & s & X & O & Hx & Hg & V)]; [contradiction|].
  destruct (stable ks s (fst c) src X O Hx Hg) as [-> _]. exact V.
Qed.
Print Assumptions C20_values_are_definitions.

(** The value of a resolved symbol is the number that ordinary arithmetic gives for its definition from
    the final values of the symbols in it, wherever sections and areas are placed. *)
Theorem C20_symbols_are_arithmetic : forall base len ks w c0 c id e, Dep_Spec.inv c0 -> expr_symbols (snd c0) -> sound_picks ks w c0 c ->
  In (DSym id, SExpr e) (snd c0) -> ~ In (DSym id, SExpr e) (snd c) -> (forall k z, spl (fst c) k = Some z -> len k = z) ->
  look (fst c) id <> VUndef /\ number base len (look (fst c) id) = arith base len (fst c) e.
Proof. exact symbol_arith. Qed.
Print Assumptions C20_symbols_are_arithmetic.

(** A resolved length or scale attribute is its expression's value, if that fits the field. *)
Lemma wrap_id : forall b z, 1 < b -> - 2 ^ (b - 1) <= z < 2 ^ (b - 1) -> wrap b z = z.
Proof.
  intros b z Hb Hz. unfold wrap. assert (E : 2 ^ b = 2 * 2 ^ (b - 1)) by (rewrite <- Z.pow_succ_r by lia; f_equal; lia).
  rewrite Z.mod_small by lia. lia.
Qed.
Theorem C20_attributes : forall ks w c0 c k id e z, Dep_Spec.inv c0 -> expr_symbols (snd c0) -> sound_picks ks w c0 c ->
  In (DAttr k id, SExpr e) (snd c0) -> ~ In (DAttr k id, SExpr e) (snd c) -> resolve (fst c) (SExpr e) = VAbs z ->
  match k with KL => - 2 ^ 31 <= z < 2 ^ 31 /\ z <> -1 | KS => - 2 ^ 15 <= z < 2 ^ 15 - 1 end ->
  att (fst c) k id = Some z.
Proof.
  intros ks w c0 c k id e z I HE R Hin N E Hz. pose proof (C20_values_are_definitions ks w c0 c I HE R _ _ Hin N) as V.
  cbn [has_value] in V. rewrite V, E. unfold attr_value. destruct k.
  - rewrite wrap_id by (try exact (proj1 Hz); lia). destruct (Z.eqb_spec z (-1)); [lia|reflexivity].
  - rewrite wrap_id by lia. destruct (Z.eqb_spec z 32767); [lia|reflexivity].
Qed.
Print Assumptions C20_attributes.

(** A resolved area has the length of its expression (never negative), a resolved alignment the distance
    to the next boundary, a resolved ORG the aligned and displaced target. *)
Theorem C20_lengths : forall ks w c0 c id src, Dep_Spec.inv c0 -> expr_symbols (snd c0) -> sound_picks ks w c0 c ->
  In (DSp id, src) (snd c0) -> ~ In (DSp id, src) (snd c) ->
  match fst (ks id), src with
  | Ordinary, SExpr e => forall z, resolve (fst c) (SExpr e) = VAbs z -> spl (fst c) id = Some (Z.max 0 z)
  | Alignment, SAlign a => ab a <> [] -> 0 < boundary (snd (ks id)) ->
      spl (fst c) id = Some (skip (ao (view (fst c) a)) (byte (snd (ks id))) (boundary (snd (ks id))))
  | LoctrSet, SSet cur tgt b o => b = 0 \/ 0 < b ->
      spl (fst c) id = Some (Z.max 0 (align_up (ao (view (fst c) tgt)) b + o))
  | LoctrMax, SMax cs b o => b = 0 \/ 0 < b -> forall h, 0 <= h -> In h (map (fun a => ao (view (fst c) a)) cs) ->
      (forall x, In x (map (fun a => ao (view (fst c) a)) cs) -> x <= h) ->
      spl (fst c) id = Some (Z.max 0 (align_up h b + o))
  | _, _ => True
  end.
Proof.
  intros ks w c0 c id src I HE R Hin N. pose proof (C20_values_are_definitions ks w c0 c I HE R _ _ Hin N) as V.
  cbn [has_value] in V. unfold Dep_Model.space_value in V.
  assert (M : forall z, (if 0 <=? z then z else 0) = Z.max 0 z) by (intros z; destruct (Z.leb_spec 0 z); lia).
  destruct (fst (ks id)); destruct src as [e|a|cur tgt b o|cs b o]; try exact Logic.I.
  - intros z E. rewrite V, E, M. reflexivity.
  - intros Ha Hb. rewrite V. cbn [resolve]. destruct (ab a) eqn:E; [congruence|]. now rewrite alignment_length_skip.
  - intros Hb. rewrite V. cbn [resolve]. rewrite M. unfold aligned. now rewrite pad_up.
  - intros Hb h H0 H1 H2. rewrite V. cbn [resolve]. rewrite (greatest _ h) by assumption. rewrite M. unfold aligned.
    now rewrite pad_up.
Qed.
Print Assumptions C20_lengths.

(** What was defined before keeps its definition. *)
Theorem C20_definitions_are_kept : forall ks w c0 c, Dep_Spec.inv c0 -> expr_symbols (snd c0) -> sound_picks ks w c0 c ->
  extends (fst c0) (fst c) /\ (forall x, In x (snd c) -> In x (snd c0)).
Proof.
  intros ks w c0 c I HE R. destruct (run_done _ _ _ _ R I HE) as [D1 _ D3 _]. auto.
Qed.
Print Assumptions C20_definitions_are_kept.

(** Resolution ends, after at most as many rounds as definitions are waiting, whatever the expressions
    are. *)
Lemma pick_length : forall ks w c c', pick ks w c c' -> length (snd c) = S (length (snd c')).
Proof. intros ks w c c' [s t1 t src t2 Ha Hx]. cbn [snd]. rewrite !app_length. cbn [length]. lia. Qed.
Theorem C20_resolution_ends : forall ks w c, Acc (fun c' c => pick ks w c c') c.
Proof.
  intros ks w c. remember (length (snd c)) as n eqn:E. assert (L : (length (snd c) <= n)%nat) by lia. clear E.
  revert c L. induction n as [|n IH]; intros c L; constructor; intros c' P; apply pick_length in P; [lia|apply IH; lia].
Qed.
Print Assumptions C20_resolution_ends.

(** [X EQU Y+1], [Y EQU L'A*B], [A DS CL(B)], [B EQU 3]: symbols 0 (X), 1 (Y), 2 (A), 3 (B). *)
Definition kd : kinds := fun _ => (Ordinary, no_align).
Definition s_ex : state := mkSt (fun i => if Nat.eqb i 3 then Some (VAbs 3) else None) (fun _ _ => None) (fun _ => None).
Definition t_ex : table :=
  [(DSym 0, SExpr (EBin OpAdd (ESym 1) (EConst 1))); (DSym 1, SExpr (EBin OpMul (EAttr KL 2) (ESym 3)));
   (DAttr KL 2, SExpr (ESym 3))].
Example C20_ex : Dep_Spec.inv (s_ex, t_ex) /\ expr_symbols t_ex /\
  exists s, sound_picks kd true (s_ex, t_ex) (s, []) /\ finished kd true (s, []) /\
            look s 0 = VAbs 10 /\ look s 1 = VAbs 9 /\ att s KL 2 = Some 3.
Proof.
  split; [|split].
  - split; [|split]; cbn [fst snd].
    + intros id a. cbn. destruct (Nat.eqb id 3); discriminate.
    + cbn. repeat constructor; cbn; intuition discriminate.
    + intros t src [H|[H|[H|[]]]]; injection H as <- <-; reflexivity.
  - intros id src [H|[H|[H|[]]]]; try discriminate; injection H as _ <-; eauto.
  - eexists. split.
    + apply (SCons kd true s_ex [_; _] (DAttr KL 2) _ []); [reflexivity|reflexivity|cbn; auto|]. cbn [app].
      apply (SCons kd true _ [_] (DSym 1) _ []); [reflexivity|reflexivity|cbn; auto|]. cbn [app].
      apply (SCons kd true _ [] (DSym 0) _ []); [reflexivity|reflexivity|cbn; auto|]. apply SNil.
    + split; [|split; [reflexivity|split; reflexivity]].
      intros c' P. inversion P as [s t1 t src t2 Ha Hx E]. destruct t1; discriminate.
Qed.

(** Without the restriction on differences the order matters.  Symbols 1 (A) and 2 (B) are labels behind
    an area whose length, like [X EQU U+((A+A)-B)+B], waits for the symbol U: the count of the area in
    [(A+A)-B] is computed as -1 (see C16), so that X does not seem to depend on the length. *)
Definition s_ord : state :=
  mkSt (fun i => match i with
                 | 1%nat => Some (VRel (mkA [(0%nat, 1)] 0 [(0%nat, 1)]))
                 | 2%nat => Some (VRel (mkA [(0%nat, 1)] 8 [(0%nat, 1)]))
                 | 3%nat => Some (VAbs 5) | _ => None end) (fun _ _ => None) (fun _ => None).
Definition x_ord : expr := EBin OpAdd (EBin OpAdd (ESym 3) (EBin OpSub (EBin OpAdd (ESym 1) (ESym 1)) (ESym 2))) (ESym 2).
Definition t_ord : table := [(DSym 0, SExpr x_ord); (DSp 0, SExpr (ESym 3))].
Theorem C20_order_matters_refuted : Dep_Spec.inv (s_ord, t_ord) /\ expr_symbols t_ord /\
  exists s1 s2, picks kd true (s_ord, t_ord) (s1, []) /\ picks kd true (s_ord, t_ord) (s2, []) /\
    look s1 0 = VAbs 5 /\ look s2 0 = VAbs 15 /\ spl s1 0 = Some 5 /\ spl s2 0 = Some 5.
Proof.
  split; [|split].
  - split; [|split]; cbn [fst snd].
    + intros id a. cbn. destruct id as [|[|[|[|id]]]]; try discriminate; intros E; injection E as <-; split; try discriminate;
        intros e [<-|[]]; reflexivity.
    + cbn. repeat constructor; cbn; intuition discriminate.
    + intros t src [H|[H|[]]]; injection H as <- <-; reflexivity.
  - intros id src [H|[H|[]]]; try discriminate; injection H as _ <-; eauto.
  - eexists _, _. split.
    { eapply PCons; [apply (Pick kd true s_ord [] (DSym 0) _ [_]); reflexivity|]. cbn [app].
      eapply PCons; [apply (Pick kd true _ [] (DSp 0) _ []); reflexivity|]. apply PNil. }
    split.
    { eapply PCons; [apply (Pick kd true s_ord [_] (DSp 0) _ []); reflexivity|]. cbn [app].
      eapply PCons; [apply (Pick kd true _ [] (DSym 0) _ []); reflexivity|]. apply PNil. }
    vm_compute. repeat split; reflexivity.
Qed.
Print Assumptions C20_order_matters_refuted.

(** * C21 *)

(** When the check of a new definition ends, it reports a cycle exactly if the definition would make its
    target depend on itself. *)
Theorem C21_reports_exactly_cycles : forall n ks s t target src r, find t target = None ->
  add_dependency n ks s t target src true = r -> r <> ARunning ->
  (r = ACycle (assign_default ks s target) t /\ reach ks s (t ++ [(target, src)]) target target) \/
  (r = AAdded (t ++ [(target, src)]) /\ ~ reach ks s (t ++ [(target, src)]) target target).
Proof.
  intros n ks s t target src r F H N. unfold add_dependency in H. rewrite F in H.
  destruct (check_cycle n ks s t target (extract ks s src)) as [b|] eqn:C; [|congruence].
  pose proof (check_cycle_correct _ _ _ _ _ _ _ F C) as K. destruct b.
  - right. split; [auto|]. intros R. apply K in R. discriminate.
  - left. split; [auto|]. now apply K.
Qed.
Print Assumptions C21_reports_exactly_cycles.

(** The check ends as long as the definitions already waiting do not depend on each other in a cycle. *)
Theorem C21_check_ends : forall ks s t target src, acyclic ks s t ->
  exists n, forall m, (n <= m)%nat -> add_dependency m ks s t target src true <> ARunning.
Proof.
  intros ks s t target src A. destruct (check_cycle_ends ks s t target (extract ks s src) A) as [n H]. exists n. intros m L.
  unfold add_dependency. destruct (find t target); [discriminate|]. specialize (H m L).
  destruct (check_cycle m ks s t target (extract ks s src)) as [[|]|]; congruence.
Qed.
Print Assumptions C21_check_ends.

(** A definition that passes leaves the waiting definitions free of cycles. *)
Theorem C21_stays_acyclic : forall n ks s t target src t', acyclic ks s t ->
  add_dependency n ks s t target src true = AAdded t' -> acyclic ks s t'.
Proof.
  intros n ks s t target src t' A H. unfold add_dependency in H. destruct (find t target) eqn:F; [discriminate|].
  destruct (check_cycle n ks s t target (extract ks s src)) as [[|]|] eqn:C; try discriminate. injection H as <-.
  apply added_acyclic; auto. intros R. apply (check_cycle_correct _ _ _ _ _ _ _ F C) in R. discriminate.
Qed.
Print Assumptions C21_stays_acyclic.

(** A symbol whose definition is cyclic becomes 0 and nothing else changes. *)
Theorem C21_cyclic_symbol_is_zero : forall n ks s t id src s' t',
  add_dependency n ks s t (DSym id) src true = ACycle s' t' ->
  t' = t /\ look s' id = VAbs 0 /\ (forall j, j <> id -> sy s' j = sy s j) /\ att s' = att s /\ spl s' = spl s.
Proof.
  intros n ks s t id src s' t' H. unfold add_dependency in H. destruct (find t (DSym id)); [discriminate|].
  destruct (check_cycle n ks s t (DSym id) (extract ks s src)) as [[|]|]; try discriminate. injection H as <- <-.
  split; [reflexivity|]. unfold look. cbn [assign_default sy att spl]. unfold upd. rewrite Nat.eqb_refl. split; [reflexivity|].
  split; [|split; reflexivity]. intros j N. destruct (Nat.eqb_spec j id); [congruence|reflexivity].
Qed.
Print Assumptions C21_cyclic_symbol_is_zero.

(** Programs of symbol definitions without attributes of later symbols and without pending lengths: at
    every moment the check of the next definition ends and reports exactly the cycles. *)
Theorem C21_symbol_programs : forall ks s t, history ks (s, t) -> acyclic ks s t /\
  forall id src, exists n, forall m, (n <= m)%nat -> add_dependency m ks s t (DSym id) src true <> ARunning.
Proof.
  intros ks s t H. destruct (history_inv ks _ H) as (_ & _ & A & _). split; [exact A|]. intros id src. now apply C21_check_ends.
Qed.
Print Assumptions C21_symbol_programs.

(** [X EQU Y+1], [Y EQU Z], [Z EQU X]: the third is reported. *)
Definition s_none : state := mkSt (fun _ => None) (fun _ _ => None) (fun _ => None).
Definition t_xy : table := [(DSym 0, SExpr (EBin OpAdd (ESym 1) (EConst 1))); (DSym 1, SExpr (ESym 2))].
Example C21_ex : history kd (s_none, t_xy) /\
  add_dependency 5 kd s_none t_xy (DSym 2) (SExpr (ESym 0)) true = ACycle (assign_default kd s_none (DSym 2)) t_xy /\
  reach kd s_none (t_xy ++ [(DSym 2, SExpr (ESym 0))]) (DSym 2) (DSym 2).
Proof.
  split; [|split; [reflexivity|]].
  - assert (P : plain_state s_none) by (intros id a H; discriminate).
    apply (HAdd kd 5 s_none [(DSym 0, SExpr (EBin OpAdd (ESym 1) (EConst 1)))] 1 (ESym 2)); [|reflexivity|exact Logic.I|reflexivity].
    apply (HAdd kd 5 s_none [] 0 (EBin OpAdd (ESym 1) (EConst 1))); [|reflexivity|cbn; auto|reflexivity]. now apply HStart.
  - apply (RStep _ _ _ _ (DSym 0)); [eexists; split; [reflexivity|now left]|].
    apply (RStep _ _ _ _ (DSym 1)); [eexists; split; [reflexivity|now left]|].
    apply REdge; eexists; split; [reflexivity|now left].
Qed.

(** A cycle through a pending length is not noticed, and the next check never ends:
    [A DS 0C], [X EQU B-A], [DS (X)C], [B DS 0C], [Y EQU X]; symbols 0 (X), 1 (A), 2 (B), 3 (Y). *)
Definition s_h0 : state :=
  mkSt (fun i => if Nat.eqb i 1 then Some (VRel (mkA [(0%nat, 1)] 0 [])) else None) (fun _ _ => None) (fun _ => None).
Definition t_h1 : table := [(DSym 0, SExpr (EBin OpSub (ESym 2) (ESym 1)))].
Definition t_h2 : table := t_h1 ++ [(DSp 0, SExpr (ESym 0))].
Definition s_h1 : state := assign kd s_h0 (DSym 2) (VRel (mkA [(0%nat, 1)] 0 [(0%nat, 1)])).
Theorem C21_length_cycle_refuted :
  add_dependency 5 kd s_h0 [] (DSym 0) (SExpr (EBin OpSub (ESym 2) (ESym 1))) true = AAdded t_h1 /\
  add_dependency 5 kd s_h0 t_h1 (DSp 0) (SExpr (ESym 0)) false = AAdded t_h2 /\
  forall n, add_dependency n kd s_h1 t_h2 (DSym 3) (SExpr (ESym 0)) true = ARunning.
Proof.
  split; [reflexivity|]. split; [reflexivity|].
  assert (G : forall n, search n kd s_h1 t_h2 (DSym 3) [DSym 0] = None /\ search n kd s_h1 t_h2 (DSym 3) [DSp 0] = None).
  { induction n as [|n [I1 I2]]; [split; reflexivity|]. split; [exact I2|exact I1]. }
  intros n. unfold add_dependency. change (find t_h2 (DSym 3)) with (@None source). cbn iota.
  change (check_cycle n kd s_h1 t_h2 (DSym 3) (extract kd s_h1 (SExpr (ESym 0)))) with (search n kd s_h1 t_h2 (DSym 3) [DSym 0]).
  destruct (G n) as [-> _]. reflexivity.
Qed.
Print Assumptions C21_length_cycle_refuted.

(** Attributes are not followed while a symbol of the same expression is undefined:
    [X EQU U+L'Y], [Y DS CL(X)], [U EQU 5], [Z EQU X]; symbols 0 (X), 1 (U), 2 (Y), 3 (Z). *)
Definition t_a1 : table := [(DSym 0, SExpr (EBin OpAdd (ESym 1) (EAttr KL 2)))].
Definition t_a2 : table := t_a1 ++ [(DAttr KL 2, SExpr (ESym 0))].
Definition s_a1 : state := assign kd s_none (DSym 1) (VAbs 5).
Theorem C21_attribute_cycle_refuted :
  add_dependency 5 kd s_none [] (DSym 0) (SExpr (EBin OpAdd (ESym 1) (EAttr KL 2))) true = AAdded t_a1 /\
  add_dependency 5 kd s_none t_a1 (DAttr KL 2) (SExpr (ESym 0)) true = AAdded t_a2 /\
  forall n, add_dependency n kd s_a1 t_a2 (DSym 3) (SExpr (ESym 0)) true = ARunning.
Proof.
  split; [reflexivity|]. split; [reflexivity|].
  assert (G : forall n, search n kd s_a1 t_a2 (DSym 3) [DSym 0] = None /\ search n kd s_a1 t_a2 (DSym 3) [DAttr KL 2] = None).
  { induction n as [|n [I1 I2]]; [split; reflexivity|]. split; [exact I2|exact I1]. }
  intros n. unfold add_dependency. change (find t_a2 (DSym 3)) with (@None source). cbn iota.
  change (check_cycle n kd s_a1 t_a2 (DSym 3) (extract kd s_a1 (SExpr (ESym 0)))) with (search n kd s_a1 t_a2 (DSym 3) [DSym 0]).
  destruct (G n) as [-> _]. reflexivity.
Qed.
Print Assumptions C21_attribute_cycle_refuted.

(** A second [A DS CL(X)] is reported as redefinition but still registered
    (asm_processor.cpp:267-281), and the registration throws. *)
Theorem C21_duplicate_label_refuted : forall n ks s t id src src' check, find t (DAttr KL id) = Some src ->
  add_dependency n ks s t (DAttr KL id) src' check = AThrow.
Proof. intros n ks s t id src src' check H. unfold add_dependency. now rewrite H. Qed.
Print Assumptions C21_duplicate_label_refuted.
