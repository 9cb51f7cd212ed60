(** * Mdl_Props: statements with variable symbols *)
From Coq Require Import List NArith Bool Arith Lia ZifyBool ZifyN.
From Verif Require Import Common Mdl_Model Mdl_Spec Mdl_Proof Mdl_Label Mdl_First Mdl_Line Mdl_Oper Mdl_Det.
Import ListNotations.

(** ** C89: operands *)
Theorem C89_exact : forall ts, lexed ts -> tame ts = true -> closed false (until_space false ts) = true -> has_var (until_space false ts) ->
  exists c, model_field ts = Some c /\ forall value, evaluate value false c = substituted value false (until_space false ts).
Proof. intros ts HL HT Hc Hv. destruct (field_exact ts HT Hc Hv) as (c & E & H). exists c. auto. Qed.
Print Assumptions C89_exact.

Theorem C89_text : forall ts c, lexed ts -> tame ts = true -> model_field ts = Some c ->
  exists field remark, ts = field ++ remark /\ field_end remark /\ has_var field /\
    forall value, evaluate value false c = substituted value false field.
Proof.
  intros ts c HL HT E. destruct (field_s ts c E) as (q & r & -> & He & Hv & _ & HW). exists q, r. repeat split; auto.
  apply HW; [apply lexed_app in HL; tauto|apply tame_app in HT; tauto].
Qed.
Print Assumptions C89_text.

Theorem C89_accepted : forall ts, no_attr ts ->
  (model_field ts <> None <-> closed false (until_space false ts) = true /\ has_var (until_space false ts)).
Proof.
  intros ts Hn. split.
  - intro H. destruct (model_field ts) as [c|] eqn:E; [|congruence]. destruct (field_s ts c E) as (q & r & Eq & He & Hv & HR & _).
    destruct HR as [Hq Hc]; [intro K; apply Hn; rewrite Eq; apply in_or_app; auto|]. rewrite <- Hq. auto.
  - intros [H1 H2]. apply field_a; assumption.
Qed.
Print Assumptions C89_accepted.

Local Open Scope N_scope.
Definition C_ := TOrd [67].
Definition X_ : bytes := [38; 88].
Definition sevens (_ : bytes) : bytes := [55; 56].
(** C'&X.',L'&X REMARK'S *)
Example C89_ex : exists c,
  model_field [C_; TApo; TVar X_; TDot; TApo; TComma; TOrd [76]; TAttr; TVar X_; TSpace [32]; TOrd [82]; TApo; TOrd [83]] = Some c /\
  evaluate sevens false c = [67; 39; 55; 56; 39; 44; 76; 39; 55; 56].
Proof. eexists. vm_compute. split; reflexivity. Qed.
(** C'&X',C'IT''S' loses an apostrophe: the operands are then read as C'78',C'IT'S'. *)
Theorem C89_apostrophes_refuted : exists ts c value, lexed ts /\ no_attr ts /\ ts = until_space false ts /\ closed false ts = true /\
  model_field ts = Some c /\ substituted value false ts = [67; 39; 55; 56; 39; 44; 67; 39; 73; 84; 39; 39; 83; 39] /\
  evaluate value false c = [67; 39; 55; 56; 39; 44; 67; 39; 73; 84; 39; 83; 39].
Proof.
  exists [C_; TApo; TVar X_; TApo; TComma; C_; TApo; TOrd [73; 84]; TApo; TApo; TOrd [83]; TApo]. eexists. exists sevens.
  split; [repeat constructor; discriminate|]. split; [intro H; repeat destruct H as [H|H]; discriminate || destruct H|].
  vm_compute. repeat split; reflexivity.
Qed.
Print Assumptions C89_apostrophes_refuted.
(** So does C'IT''S',C'&X', and C'A&&B',C'&X' loses an ampersand. *)
Theorem C89_before_refuted : exists ts ts' c c' value, lexed ts /\ lexed ts' /\
  model_field ts = Some c /\ model_field ts' = Some c' /\
  substituted value false ts = [67; 39; 73; 84; 39; 39; 83; 39; 44; 67; 39; 55; 56; 39] /\
  evaluate value false c = [67; 39; 73; 84; 39; 83; 39; 44; 67; 39; 55; 56; 39] /\
  substituted value false ts' = [67; 39; 65; 38; 38; 66; 39; 44; 67; 39; 55; 56; 39] /\
  evaluate value false c' = [67; 39; 65; 38; 66; 39; 44; 67; 39; 55; 56; 39].
Proof.
  exists [C_; TApo; TOrd [73; 84]; TApo; TApo; TOrd [83]; TApo; TComma; C_; TApo; TVar X_; TApo].
  exists [C_; TApo; TOrd [65]; TAmps; TOrd [66]; TApo; TComma; C_; TApo; TVar X_; TApo]. eexists. eexists. exists sevens.
  split; [repeat constructor; discriminate|]. split; [repeat constructor; discriminate|]. vm_compute. repeat split; reflexivity.
Qed.
Print Assumptions C89_before_refuted.
Local Close Scope N_scope.

(** ** C90: labels *)
Theorem C90_text : forall ts l i r, lexed ts -> first_part ts = Some (l, i, r) ->
  exists field s more, ts = field ++ TSpace s :: more /\ forall value, label_text value l = substituted value false field.
Proof.
  intros ts l i r HL E. destruct (first_part_s ts l i r E) as (q & s & r' & -> & Hl & _). exists q, s, r'. split; [reflexivity|].
  apply lab_label_text; [assumption|]. apply lexed_app in HL. tauto.
Qed.
Print Assumptions C90_text.

Lemma plain_text_label : forall w, lexed w -> w <> [] -> plain_label w (text_label (written w) (lone w)).
Proof.
  intros w HL Hw.
  assert (D : (lone w = true /\ exists s, w = [TOrd s]) \/ (lone w = false /\ forall s, w <> [TOrd s])).
  { destruct w as [|[] [|]]; try (right; split; [reflexivity|]; intros s' K; discriminate). left. eauto. }
  assert (N : (forall d n, written w <> 46%N :: d :: n) -> plain_label w (if lone w then LOrd (written w) else LMac (written w))).
  { intro K. destruct D as [(-> & s & ->)|(-> & D)].
    - unfold written in *. cbn in *. rewrite app_nil_r in *. apply plain_ord. assumption.
    - apply plain_text; assumption. }
  destruct (written w) as [|c [|d n]] eqn:E; cbn; try (apply N; discriminate).
  destruct (N.eqb_spec c DOT) as [->|Hc].
  - apply plain_seq. assumption.
  - apply N. intros d' n' K. injection K as ->. apply Hc. reflexivity.
Qed.
Theorem C90_label : forall ts l i r, lexed ts -> ~ starts_apo ts -> first_part ts = Some (l, i, r) ->
  (exists s more, rest ts = TSpace s :: more) /\
  (~ has_var (word ts) -> plain_label (word ts) l) /\
  (has_var (word ts) -> Nat.even (apostrophes (word ts)) = true /\
     ((exists v, l = LVar v /\ word ts = [TVar v]) \/
      (exists c, l = LConc c /\ (forall v, word ts <> [TVar v]) /\ forall value, evaluate value false c = substituted value false (word ts)))).
Proof.
  intros ts l i r HL Ha E. destruct (first_part_s ts l i r E) as (q & s & r' & -> & Hl & _).
  destruct (lab_word _ _ _ _ Hl Ha) as [-> ->]. apply lexed_app in HL. destruct HL as [HL _].
  assert (Ha' : ~ starts_apo q) by (destruct q; [intros []|exact Ha]).
  split; [eauto|]. split.
  - intro Hn. destruct (has_var_dec q) as [Hn'|]; [|contradiction]. destruct q as [|t q].
    + rewrite (lab_nil _ Hl). constructor.
    + rewrite (lab_novar _ _ Hl Ha' Hn' ltac:(discriminate)). apply plain_text_label; [assumption|discriminate].
  - intro Hv. split; [exact (lab_even _ _ Hl Ha' Hv)|]. destruct (lab_var _ _ Hl HL Hv) as [H|(c & -> & H)]; [left; exact H|].
    right. exists c. split; [reflexivity|]. split; [exact H|]. exact (lab_label_text _ _ Hl HL).
Qed.
Print Assumptions C90_label.

Theorem C90_accepted : forall ts, lexed ts -> ~ starts_apo ts ->
  (first_part ts <> None <->
   (has_var (word ts) -> Nat.even (apostrophes (word ts)) = true) /\
   exists s more, rest ts = TSpace s :: more /\
     (has_var (run more) \/ (exists n m, more = TOrd n :: m) \/ (exists n m, more = TIdent n :: m))).
Proof.
  intros ts HL Ha. split.
  - intro H. destruct (first_part ts) as [[[l i] r]|] eqn:E; [|congruence].
    destruct (C90_label ts l i r HL Ha E) as (_ & _ & Hv). split; [intro K; apply Hv; assumption|].
    destruct (first_part_s ts l i r E) as (q & s & r' & -> & Hl & Hr). destruct (lab_word _ _ _ _ Hl Ha) as [_ ->].
    exists s, r'. split; [reflexivity|]. exact (reads_readable _ _ _ Hr).
  - intros [H1 (s & more & H2 & H3)]. exact (first_part_a ts s more Ha H2 H1 H3).
Qed.
Print Assumptions C90_accepted.

(** The label of a machine or assembler instruction *)
Theorem C90_symbol : forall ts l i r value, lexed ts -> ~ starts_apo ts -> first_part ts = Some (l, i, r) -> has_var (word ts) ->
  (forall v, word ts = [TVar v] -> low_label_of value l =
     (match value v with [] => NoLabel | c :: _ => if (c =? 32)%N then NoLabel else SymbolText (value v) end)) /\
  ((forall v, word ts <> [TVar v]) -> low_label_of value l = SymbolText (substituted value false (word ts))).
Proof.
  intros ts l i r value HL Ha E Hv. destruct (C90_label ts l i r HL Ha E) as (_ & _ & H). destruct (H Hv) as (_ & [(v & -> & Ew)|(c & -> & Ew & Ec)]).
  - split; [|intro K; exfalso; exact (K _ Ew)]. intros v' Ev. rewrite Ew in Ev. injection Ev as <-. reflexivity.
  - split; [intros v Ev; exfalso; exact (Ew _ Ev)|]. intros _. cbn. rewrite Ec. reflexivity.
Qed.
Print Assumptions C90_symbol.

Theorem C90_name : forall s, try_get_symbol_name s = true <-> symbol_name s.
Proof.
  intro s. unfold symbol_name, letter. destruct s as [|c s].
  - split; [discriminate|]. intros (_ & c & r & K & _). discriminate.
  - unfold try_get_symbol_name. cbn [forallb]. split.
    + intro H. apply andb_true_iff in H. destruct H as [H1 H2]. apply andb_true_iff in H2. destruct H2 as [H2 H3].
      apply negb_true_iff, orb_false_iff in H1. destruct H1 as [H0 H1]. apply Nat.ltb_ge in H0. split; [assumption|].
      exists c, s. split; [reflexivity|]. unfold ord_char, digit in *. split; [lia|].
      rewrite forallb_forall in H3. apply Forall_forall. intros x Hx. specialize (H3 x Hx). lia.
    + intros (H0 & c' & r & K & H1 & H2). injection K as <- <-. apply andb_true_iff. split; [|apply andb_true_iff; split].
      * apply negb_true_iff, orb_false_iff. split; [apply Nat.ltb_ge; assumption|unfold digit; lia].
      * unfold ord_char. lia.
      * apply forallb_forall. intros x Hx. rewrite Forall_forall in H2. specialize (H2 x Hx). unfold ord_char. lia.
Qed.
Print Assumptions C90_name.

(** The label as an argument of a macro *)
Theorem C90_argument : forall ts l i r value, lexed ts -> ~ starts_apo ts -> first_part ts = Some (l, i, r) ->
  macro_label value l = None /\ (word ts = [] \/ exists c n, written (word ts) = 46%N :: c :: n) \/
  macro_label value l = Some (substituted value false (word ts)).
Proof.
  intros ts l i r value HL Ha E. destruct (C90_label ts l i r HL Ha E) as (_ & Hn & Hv).
  assert (HL' : lexed (word ts)). { destruct (word_rest ts) as (K & _). rewrite K in HL. apply lexed_app in HL. tauto. }
  destruct (has_var_dec (word ts)) as [N|V].
  - assert (K : ~ has_var (word ts)). { intros [v Hx]. rewrite Forall_forall in N. apply N in Hx. discriminate. }
    rewrite (written_substituted value _ N). destruct (Hn K) as [|w c n Ew|s Hs|w Hw Hs Hd]; cbn; eauto 6.
    right. unfold written. cbn. rewrite app_nil_r. reflexivity.
  - right. destruct (Hv V) as (_ & [(v & -> & ->)|(c & -> & Ew & Ec)]); cbn; [rewrite app_nil_r; reflexivity|]. rewrite Ec. reflexivity.
Qed.
Print Assumptions C90_argument.

Local Open Scope N_scope.
(** A&X. LR : the label is A followed by the value *)
Example C90_ex : exists i r l, first_part [TOrd [65]; TVar X_; TDot; TSpace [32]; TOrd [76; 82]; TSpace [32]; TText [49]] = Some (l, i, r) /\
  low_label_of sevens l = SymbolText [65; 55; 56] /\ i = IName [76; 82] /\ r = [TSpace [32]; TText [49]].
Proof. eexists _, _, _. vm_compute. repeat split; reflexivity. Qed.
(** Variable symbols that leave nothing: one alone is no label, with a full stop it is a bad name. *)
Theorem C90_empty_refuted : exists ts ts' l l' i i' r r' value, lexed ts /\ lexed ts' /\
  first_part ts = Some (l, i, r) /\ first_part ts' = Some (l', i', r') /\
  substituted value false (word ts) = [] /\ substituted value false (word ts') = [] /\
  low_label_of value l = NoLabel /\ low_label_of value l' = SymbolText [] /\ try_get_symbol_name [] = false.
Proof.
  exists [TVar X_; TSpace [32]; TOrd [76; 82]]. exists [TVar X_; TDot; TSpace [32]; TOrd [76; 82]]. eexists _, _, _, _, _, _. exists (fun _ => []).
  split; [repeat constructor; discriminate|]. split; [repeat constructor; discriminate|]. vm_compute. repeat split; reflexivity.
Qed.
Print Assumptions C90_empty_refuted.
Local Close Scope N_scope.

(** ** C91: the operation *)
Theorem C91_read : forall ts l i r, lexed ts -> ~ starts_apo ts -> first_part ts = Some (l, i, r) ->
  exists s more, rest ts = TSpace s :: more /\
  ((has_var (run more) /\ more = run more ++ r /\ exists c, i = IConc c /\ forall value, evaluate value false c = substituted value false (run more)) \/
   (~ has_var (run more) /\ (exists n m, more = TOrd n :: m) /\ i = IName (written (run more)) /\ more = run more ++ r) \/
   (~ has_var (run more) /\ (exists n m, more = TIdent n :: m) /\ i = IName (written (word more)) /\ more = word more ++ r)).
Proof.
  intros ts l i r HL Ha E. destruct (first_part_s ts l i r E) as (q & s & r' & -> & Hl & Hr). destruct (lab_word _ _ _ _ Hl Ha) as [_ ->].
  exists s, r'. split; [reflexivity|]. apply lexed_app in HL. destruct HL as [_ HL]. inversion HL as [|? ? _ HL']; subst.
  destruct Hr as [ts c Hv Hc|n ts Hn|n ts Hn].
  - left. split; [assumption|]. split; [apply run_app|]. exists c. auto.
  - right. left. split; [assumption|]. split; [eauto|]. split; [reflexivity|]. apply run_app.
  - right. right. split; [assumption|]. split; [eauto|]. split; [reflexivity|]. apply word_rest.
Qed.
Print Assumptions C91_read.

Theorem C91_resolved : forall value c s, evaluate value false c = s ->
  exists m, trimmed s m /\
    (In 32%N m -> resolve_instruction value (IConc c) = None) /\ (~ In 32%N m -> resolve_instruction value (IConc c) = Some m).
Proof.
  intros value c s E. cbn. rewrite E. exists (trim_left (trim_right s)). split; [apply trim_spec|].
  destruct (existsb (N.eqb BLANK) (trim_left (trim_right s))) eqn:X.
  - split; [reflexivity|]. intro K. exfalso. apply K. apply existsb_exists in X. destruct X as (x & Hx & Hb). apply N.eqb_eq in Hb. subst. exact Hx.
  - split; [|reflexivity]. intro K. exfalso. assert (existsb (N.eqb BLANK) (trim_left (trim_right s)) = true); [|congruence].
    apply existsb_exists. exists 32%N. split; [exact K|reflexivity].
Qed.
Print Assumptions C91_resolved.
Lemma blanks_first : forall i j (m m' : bytes), repeat 32%N i ++ m = repeat 32%N j ++ m' ->
  (forall c r, m = c :: r -> c <> 32%N) -> (forall c r, m' = c :: r -> c <> 32%N) -> i = j /\ m = m'.
Proof.
  induction i as [|i IH]; intros j m m' E H H'; destruct j as [|j]; cbn in E.
  - auto.
  - exfalso. exact (H _ _ E eq_refl).
  - exfalso. symmetry in E. exact (H' _ _ E eq_refl).
  - injection E as E. destruct (IH _ _ _ E H H') as [-> ->]. auto.
Qed.
(** What is left between the blanks is one text. *)
Theorem C91_trimmed_one : forall s m m', trimmed s m -> trimmed s m' -> m = m'.
Proof.
  intros s m m' (i & j & E & H1 & H2) (i' & j' & E' & H1' & H2'). rewrite E in E'.
  destruct m as [|c m]; destruct m' as [|c' m'].
  - reflexivity.
  - exfalso. cbn in E'. rewrite <- repeat_app in E'.
    assert (K : In c' (repeat 32%N (i + j))) by (rewrite E'; apply in_or_app; right; left; reflexivity).
    apply repeat_spec in K. exact (H1' _ _ eq_refl K).
  - exfalso. cbn in E'. rewrite <- repeat_app in E'.
    assert (K : In c (repeat 32%N (i' + j'))) by (rewrite <- E'; apply in_or_app; right; left; reflexivity).
    apply repeat_spec in K. exact (H1 _ _ eq_refl K).
  - destruct (blanks_first i i' ((c :: m) ++ repeat 32%N j) ((c' :: m') ++ repeat 32%N j') E') as [_ E2].
    { intros x r K. injection K as <- _. exact (H1 _ _ eq_refl). }
    { intros x r K. injection K as <- _. exact (H1' _ _ eq_refl). }
    apply (f_equal (@rev N)) in E2. rewrite !rev_app_distr, !rev_repeat in E2.
    destruct (blanks_first j j' _ _ E2) as [_ E3].
    { intros x r K. apply (H2 x (rev r)). rewrite <- (rev_involutive (c :: m)), K. reflexivity. }
    { intros x r K. apply (H2' x (rev r)). rewrite <- (rev_involutive (c' :: m')), K. reflexivity. }
    apply (f_equal (@rev N)) in E3. rewrite !rev_involutive in E3. exact E3.
Qed.
Print Assumptions C91_trimmed_one.
Example C91_ex : exists c, first_part [TSpace [32%N]; TOrd [77%N]; TVar X_; TSpace [32%N]] = Some (LEmpty, IConc c, [TSpace [32%N]]) /\
  resolve_instruction sevens (IConc c) = Some [77; 55; 56]%N /\ resolve_instruction (fun _ => [32; 55; 32]%N) (IConc c) = None.
Proof. eexists. vm_compute. repeat split; reflexivity. Qed.
