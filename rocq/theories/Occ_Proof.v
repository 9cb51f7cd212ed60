(** * The collector finds exactly what stands outside of strings and subscripts *)
From Coq Require Import List Arith NArith Bool Lia.
From Verif Require Import Occ_Model Occ_Spec.
Import ListNotations.

Scheme var_i := Induction for var Sort Prop
  with expr_i := Induction for expr Sort Prop
  with exprs_i := Induction for exprs Sort Prop
  with chain_i := Induction for chain Sort Prop
  with point_i := Induction for point Sort Prop
  with chains_i := Induction for chains Sort Prop.
Combined Scheme tree_i from var_i, expr_i, exprs_i, chain_i, point_i, chains_i.

Lemma both_some : forall a b l, both a b = Some l -> exists x y, a = Some x /\ b = Some y /\ l = x ++ y.
Proof. intros [x|] [y|] l H; try discriminate. injection H as <-. eauto. Qed.
Lemma both_none : forall a b, both a b = None <-> a = None \/ b = None.
Proof. intros [x|] [y|]; cbn; split; intros H; auto; try discriminate; destruct H; discriminate. Qed.
Lemma kind_eqb_eq : forall a b, kind_eqb a b = true <-> a = b.
Proof. intros [] []; cbn; split; congruence. Qed.
Lemma kind_eqb_refl : forall a, kind_eqb a a = true.
Proof. intros []; reflexivity. Qed.

(** Outside of strings and subscripts variable symbols and chains have only variable symbols. *)
Lemma plain_var :
  (forall v k n r, var_has false k n r v -> k = VAR) /\ (forall e : expr, True) /\ (forall e : exprs, True) /\
  (forall c k n r, chain_has false k n r c -> k = VAR) /\ (forall p k n r, point_has false k n r p -> k = VAR) /\
  (forall l k n r, chains_has false k n r l -> k = VAR).
Proof.
  apply tree_i; auto; intros;
    match goal with H : _ |- ?x = VAR => inversion H; subst; clear H; eauto end.
Qed.

Section Exact.
Variable intern : list N -> name.
Variable ord_char : N -> bool.
Variable is_digit : N -> bool.
Variable k : kind.
Notation of_var := (of_var intern ord_char is_digit k).
Notation of_chain := (of_chain intern ord_char is_digit k).
Notation of_point := (of_point intern ord_char is_digit k).
Notation of_chains := (of_chains intern ord_char is_digit k).
Notation of_expr := (of_expr intern ord_char is_digit k).
Notation of_exprs := (of_exprs intern ord_char is_digit k).
Notation field_has := (field_has intern ord_char is_digit).

(** The result [l] lists the symbols that have [P]. *)
Definition lists (res : result) (P : name -> place -> Prop) : Prop :=
  forall l, res = Some l -> forall o, In o l <-> kind_of o = k /\ P (symbol o) (at_ o).

Lemma lists_iff : forall res P Q, lists res P -> (forall n r, P n r <-> Q n r) -> lists res Q.
Proof. intros res P Q H E l R o. rewrite (H l R o), E. reflexivity. Qed.
Lemma lists_both : forall a b P Q, lists a P -> lists b Q -> lists (both a b) (fun n r => P n r \/ Q n r).
Proof.
  intros a b P Q A B l E o. apply both_some in E. destruct E as (x & y & -> & -> & ->).
  rewrite in_app_iff, (A x eq_refl o), (B y eq_refl o). tauto.
Qed.
Lemma lists_nil : forall (P : name -> place -> Prop), (forall n r, ~ P n r) -> lists (Some []) P.
Proof. intros P N l E o. injection E as <-. split; [intros []|]. intros [_ H]. destruct (N _ _ H). Qed.
Lemma lists_none : forall P, lists None P.
Proof. intros P l E. discriminate. Qed.
Lemma lists_single : forall kd m p, lists (single k kd m p) (fun n r => k = kd /\ m = n /\ p = r).
Proof.
  intros kd m p l E o. unfold single in E. injection E as <-. destruct (kind_eqb k kd) eqn:K.
  - apply kind_eqb_eq in K. subst kd. split.
    + intros [<-|[]]. cbn. auto.
    + intros (A & _ & B & C). left. destruct o. cbn in *. subst. reflexivity.
  - split; [intros []|]. intros (_ & A & _). subst kd. rewrite kind_eqb_refl in K. discriminate.
Qed.

Lemma name_ordinary : forall t n, symbol_name intern ord_char is_digit t = Some n <-> ordinary ord_char is_digit t /\ n = intern t.
Proof.
  intros [|c r] n; cbn [symbol_name].
  - split; [discriminate|]. intros [(x & y & E & _) _]. discriminate.
  - destruct ((63 <? length (c :: r)) || is_digit c) eqn:E.
    + split; [discriminate|]. intros [(x & y & Q & D & L & _) _]. injection Q as <- <-. rewrite D, orb_false_r in E.
      apply Nat.ltb_lt in E. lia.
    + apply orb_false_iff in E. destruct E as [E1 E2]. apply Nat.ltb_ge in E1. destruct (forallb ord_char (c :: r)) eqn:F.
      * split.
        -- intros H. injection H as <-. split; [|reflexivity]. exists c, r. rewrite forallb_forall in F. auto.
        -- intros [_ ->]. reflexivity.
      * split; [discriminate|]. intros [(x & y & _ & _ & _ & A) _]. rewrite (proj2 (forallb_forall _ _) A) in F. discriminate.
Qed.

Definition own_words (n : name) (r : place) (p : point) : Prop :=
  match p with Text t q => ordinary ord_char is_digit t /\ n = intern t /\ r = q | Sublist l => words_in intern ord_char is_digit n r l | _ => False end.

Lemma of_created : forall c s r, of_var (Created c s r) = if kind_eqb k VAR then of_chain c else Some [].
Proof. reflexivity. Qed.
Lemma of_add : forall p c, of_chain (Add p c) = both (of_point p) (of_chain c).
Proof. reflexivity. Qed.
Lemma of_variable : forall v, of_point (Var v) = if kind_eqb k VAR then of_var v else Some [].
Proof. reflexivity. Qed.
Lemma of_sublist : forall l, of_point (Sublist l) = of_chains l.
Proof. reflexivity. Qed.
Lemma of_cons : forall c l, of_chains (LCons c l) = both (of_chain c) (of_chains l).
Proof. reflexivity. Qed.

Lemma tree_exact :
  (forall v, lists (of_var v) (fun n r => var_has false k n r v)) /\
  (forall e, lists (of_expr e) (fun n r => expr_has false k n r e)) /\
  (forall e, lists (of_exprs e) (fun n r => exprs_has false k n r e)) /\
  (forall c, lists (of_chain c) (fun n r => field_has false k n r c)) /\
  (forall p, lists (of_point p) (fun n r => point_has false k n r p \/ (k = ORD /\ own_words n r p))) /\
  (forall l, lists (of_chains l) (fun n r => chains_has false k n r l \/ (k = ORD /\ words_in intern ord_char is_digit n r l))).
Proof.
  destruct plain_var as (PV & _ & _ & PC & PP & PL).
  apply tree_i; intros; rewrite ?of_created, ?of_add, ?of_variable, ?of_sublist, ?of_cons; cbn [Occ_Model.of_expr Occ_Model.of_exprs].
  - cbn [Occ_Model.of_var]. eapply lists_iff; [apply lists_single|]. intros m p. split.
    + intros (-> & -> & ->). constructor.
    + intros H1. inversion H1; subst. auto.
  - destruct (kind_eqb k VAR) eqn:K.
    + apply kind_eqb_eq in K. eapply lists_iff; [exact H|]. intros m p. split.
      * intros [A|(_ & A & _)]; [constructor; exact A|congruence].
      * intros A. inversion A; subst. left. assumption.
    + apply lists_nil. intros n p A. pose proof (PV _ _ _ _ A) as E. rewrite E in K. discriminate.
  - apply lists_none.
  - apply lists_nil. intros n p A. inversion A.
  - eapply lists_iff; [exact H|]. intros n p. split; intros A; [constructor; exact A|inversion A; subst; assumption].
  - eapply lists_iff; [apply lists_both; [exact H|exact H0]|]. intros n p. split.
    + intros [A|A]; [apply eh_dupl|apply eh_par]; exact A.
    + intros A. inversion A; subst; auto.
  - eapply lists_iff; [exact H0|]. intros n p. split; intros A; [apply eh_sdupl; exact A|inversion A; subst; assumption].
  - eapply lists_iff; [apply lists_single|]. intros m p. split; [intros (-> & -> & ->); constructor|intros A; inversion A; subst; auto].
  - eapply lists_iff; [apply lists_single|]. intros m p. split; [intros (-> & -> & ->); constructor|intros A; inversion A; subst; auto].
  - eapply lists_iff; [exact H|]. intros n p. split; intros A; [constructor; exact A|inversion A; subst; assumption].
  - eapply lists_iff; [exact H|]. intros n p. split; intros A; [constructor; exact A|inversion A; subst; assumption].
  - eapply lists_iff; [apply lists_both; [exact H|exact H0]|]. intros n p. split.
    + intros [A|A]; [apply eh_left|apply eh_right]; exact A.
    + intros A. inversion A; subst; auto.
  - eapply lists_iff; [exact H|]. intros n p. split; intros A; [constructor; exact A|inversion A; subst; assumption].
  - apply lists_nil. intros n p A. inversion A.
  - eapply lists_iff; [apply lists_both; [exact H|exact H0]|]. intros n p. split.
    + intros [A|A]; [apply es_here|apply es_later]; exact A.
    + intros A. inversion A; subst; auto.
  - apply lists_nil. intros n p [A|(_ & _ & A)]; inversion A.
  - eapply lists_iff; [apply lists_both; [exact H|exact H0]|]. intros n q. unfold Occ_Spec.field_has. split.
    + intros [[A|[-> A]]|[A|(_ & -> & A)]].
      * left. apply ch_here. exact A.
      * right. repeat split. destruct p; cbn in A; try contradiction.
        -- destruct A as (A & -> & ->). constructor. exact A.
        -- apply w_list. exact A.
      * left. apply ch_later. exact A.
      * right. repeat split. apply w_later. exact A.
    + intros [A|(_ & -> & A)].
      * inversion A; subst; auto.
      * inversion A; subst; auto; left; right; cbn; auto.
  - cbn [Occ_Model.of_point]. destruct (symbol_name intern ord_char is_digit t) as [m|] eqn:S.
    + apply name_ordinary in S. destruct S as [S ->]. eapply lists_iff; [apply lists_single|]. intros n p. split.
      * intros (-> & <- & <-). right. cbn. auto.
      * intros [A|(-> & _ & -> & ->)]; [inversion A|auto].
    + apply lists_nil. intros n p [A|(_ & A & _)]; [inversion A|].
      assert (B : symbol_name intern ord_char is_digit t = Some (intern t)) by (apply name_ordinary; auto). congruence.
  - destruct (kind_eqb k VAR) eqn:K.
    + eapply lists_iff; [exact H|]. intros n p. split.
      * intros A. left. constructor. exact A.
      * intros [A|(_ & [])]. inversion A; subst; assumption.
    + apply lists_nil. intros n p [A|(_ & [])]. pose proof (PP _ _ _ _ A) as E. rewrite E in K. discriminate.
  - eapply lists_iff; [exact H|]. intros n p. cbn. split.
    + intros [A|A]; [left; constructor; exact A|auto].
    + intros [A|A]; [left; inversion A; subst; assumption|auto].
  - apply lists_nil. intros n p [A|(_ & [])]. inversion A.
  - apply lists_nil. intros n p [A|(_ & [])]. inversion A.
  - apply lists_nil. intros n p [A|(_ & A)]; inversion A.
  - eapply lists_iff; [apply lists_both; [exact H|exact H0]|]. intros n p. unfold Occ_Spec.field_has. split.
    + intros [[A|(_ & E & A)]|[A|[E A]]].
      * left. apply cs_here. exact A.
      * right. split; [exact E|]. apply ws_here. exact A.
      * left. apply cs_later. exact A.
      * right. split; [exact E|]. apply ws_later. exact A.
    + intros [A|[E A]]; inversion A; subst; auto.
Qed.

Lemma mexpr_exact : forall e, lists (of_mexpr k e) (fun n r => k = ORD /\ mexpr_has n r e).
Proof.
  induction e; cbn [of_mexpr]; try (apply lists_nil; intros x y [_ A]; inversion A).
  - eapply lists_iff; [apply lists_single|]. intros m p. split; [intros (-> & -> & ->); split; [reflexivity|constructor]|].
    intros [-> A]. inversion A; subst; auto.
  - eapply lists_iff; [apply lists_single|]. intros m p. split; [intros (-> & -> & ->); split; [reflexivity|constructor]|].
    intros [-> A]. inversion A; subst; auto.
  - eapply lists_iff; [apply lists_both; [exact IHe1|exact IHe2]|]. intros m p. split.
    + intros [[-> A]|[-> A]]; (split; [reflexivity|]); [apply mh_left|apply mh_right]; exact A.
    + intros [-> A]. inversion A; subst; auto.
  - eapply lists_iff; [exact IHe|]. intros m p. split; intros [-> A]; (split; [reflexivity|]); [apply mh_un; exact A|inversion A; subst; assumption].
Qed.
Lemma omexpr_exact : forall e, lists (of_omexpr k e) (fun n r => k = ORD /\ omexpr_has n r e).
Proof.
  intros [e|]; cbn.
  - eapply lists_iff; [apply mexpr_exact|]. intros n r. unfold omexpr_has. split; [intros [-> A]; eauto|].
    intros [-> (a & E & A)]. injection E as <-. auto.
  - apply lists_nil. intros n r [_ (a & E & _)]. discriminate.
Qed.
Lemma all_exact : forall {A} (f : A -> result) (P : name -> place -> A -> Prop) l, (forall a, lists (f a) (fun n r => P n r a)) ->
  lists (all f l) (fun n r => exists a, In a l /\ P n r a).
Proof.
  intros A f P l H. induction l as [|a l IH]; cbn [all].
  - apply lists_nil. intros n r (a & [] & _).
  - eapply lists_iff; [apply lists_both; [apply H|exact IH]|]. intros n r. cbn. split.
    + intros [B|(b & I & B)]; eauto.
    + intros (b & [<-|I] & B); eauto.
Qed.

Lemma operand_exact : forall o, lists (of_operand intern ord_char is_digit k o) (fun n r => operand_has intern ord_char is_digit false k n r o).
Proof.
  destruct tree_exact as (EV & EE & EX & EC & _ & _).
  intros []; cbn [of_operand operand_has]; auto.
  - apply lists_nil. tauto.
  - eapply lists_iff; [apply omexpr_exact|]. intros n r. tauto.
  - eapply lists_iff; [apply lists_both; [apply omexpr_exact|apply lists_both; apply omexpr_exact]|]. intros n r. cbv beta. tauto.
  - eapply lists_iff; [apply omexpr_exact|]. intros n r. tauto.
  - eapply lists_iff; [apply lists_both; apply omexpr_exact|]. intros n r. cbv beta. tauto.
  - apply lists_nil. intros n r [E _]. discriminate.
  - apply lists_nil. tauto.
  - eapply lists_iff.
    + apply lists_both; [apply omexpr_exact|]. apply lists_both; [apply omexpr_exact|]. apply lists_both; [apply omexpr_exact|].
      apply lists_both; [apply omexpr_exact|]. apply lists_both; [apply omexpr_exact|].
      apply (all_exact (of_nominal k) (fun n r x => k = ORD /\ match x with NExpr e => mexpr_has n r e | NAddress a b => mexpr_has n r a \/ mexpr_has n r b end)).
      intros []; cbn [of_nominal]; [apply mexpr_exact|]. eapply lists_iff; [apply lists_both; apply mexpr_exact|]. intros n r. cbv beta. tauto.
    + intros n r. cbv beta. split.
      * intros [A|[A|[A|[A|[A|(x & I & -> & A)]]]]]; try (destruct A as [-> A]); repeat split; try tauto. do 5 right. eauto.
      * intros (_ & -> & [A|[A|[A|[A|[A|(x & I & A)]]]]]); try tauto. do 5 right. eauto.
  - eapply lists_iff; [apply lists_single|]. intros m p. tauto.
  - eapply lists_iff; [apply lists_both; [apply EE|apply lists_single]|]. intros m p. cbv beta. tauto.
  - apply lists_nil. tauto.
Qed.

Lemma statement_exact : forall s, lists (of_statement intern ord_char is_digit k s) (fun n r => statement_has intern ord_char is_digit false k n r s).
Proof.
  destruct tree_exact as (EV & EE & EX & EC & _ & _). intros s. unfold of_statement, statement_has.
  apply lists_both; [|apply lists_both].
  - destruct (label_of s); cbn [of_label]; auto.
    + apply lists_nil. tauto.
    + eapply lists_iff; [apply lists_single|]. intros m p. tauto.
    + eapply lists_iff; [apply lists_single|]. intros m p. tauto.
  - destruct (instruction_of s); cbn [of_instruction]; auto; apply lists_nil; tauto.
  - destruct (operands_of s); cbn [of_operands].
    + apply (all_exact _ (fun n r o => operand_has intern ord_char is_digit false k n r o)). apply operand_exact.
    + apply (all_exact _ (fun n r v => var_has false k n r v)). exact EV.
Qed.

(** ** Undefined behaviour *)
Lemma chain_null :
  (forall v, of_var v = None -> null_var v) /\ (forall e, of_expr e = None -> null_expr e) /\ (forall e, of_exprs e = None -> null_exprs e) /\
  (forall c, of_chain c = None -> null_chain c) /\ (forall p, of_point p = None -> null_point p) /\ (forall l, of_chains l = None -> null_chains l).
Proof.
  apply tree_i; intros; rewrite ?of_created, ?of_add, ?of_variable, ?of_sublist, ?of_cons in *; cbn [Occ_Model.of_expr Occ_Model.of_exprs] in *;
    repeat match goal with
    | H : context [both _ _] |- _ => apply both_none in H; destruct H
    | H : context [kind_eqb k ?x] |- _ => destruct (kind_eqb k x)
    | H : context [symbol_name ?a ?b ?c ?d] |- _ => destruct (symbol_name a b c d)
    end; try discriminate; try (cbn in *; destruct (symbol_name intern ord_char is_digit t); discriminate); eauto using null_var, null_chain, null_point, null_chains, null_expr, null_exprs; constructor; auto.
Qed.
Lemma mexpr_some : forall e, of_mexpr k e <> None.
Proof.
  induction e; cbn [of_mexpr]; try discriminate; auto. intros H. apply both_none in H. destruct H; auto.
Qed.
Lemma omexpr_some : forall e, of_omexpr k e <> None.
Proof. intros [e|]; [apply mexpr_some|discriminate]. Qed.
Lemma all_none : forall {A} (f : A -> result) l, all f l = None -> exists a, In a l /\ f a = None.
Proof.
  induction l as [|a l IH]; cbn [all]; [discriminate|]. intros H. apply both_none in H. destruct H as [H|H].
  - exists a. cbn. auto.
  - destruct (IH H) as (b & I & E). exists b. cbn. auto.
Qed.
Lemma operand_null : forall o, of_operand intern ord_char is_digit k o = None -> null_operand o.
Proof.
  destruct chain_null as (NV & NE & NX & NC & _ & _).
  intros [] H; cbn [of_operand null_operand] in *; auto; try discriminate H;
    repeat match type of H with both _ _ = None => apply both_none in H; destruct H as [H|H] end;
    try (destruct (omexpr_some _ H)); auto; try discriminate H.
  apply all_none in H. destruct H as (x & _ & H). destruct x; cbn in H; [destruct (mexpr_some _ H)|].
  apply both_none in H. destruct H as [H|H]; destruct (mexpr_some _ H).
Qed.
Lemma statement_null : forall s, of_statement intern ord_char is_digit k s = None -> null_statement s.
Proof.
  destruct chain_null as (NV & NE & NX & NC & _ & _).
  intros s H. unfold of_statement in H. unfold null_statement. apply both_none in H. destruct H as [H|H]; [|apply both_none in H; destruct H as [H|H]].
  - left. destruct (label_of s); cbn in H; auto; discriminate.
  - right; left. destruct (instruction_of s); cbn in H; auto; discriminate.
  - right; right. destruct (operands_of s); cbn in H; apply all_none in H; destruct H as (x & I & E); exists x; split; auto using operand_null.
Qed.
End Exact.
