(** C106: what a conditional assembly expression is worth. *)
From Coq Require Import String List NArith ZArith Bool Lia.
From Verif Require Import Common Ca_Model Grp_Model Exp_Model Exp_Spec Exp_Proof.
Import ListNotations.
Open Scope Z_scope.

(** What an instruction takes out of the record: the field its type names. *)
Definition taken (k : kind) (v : SET_t) : val :=
  match k with KA => VNum (a_value v) | KB => VBool (b_value v) | KC => VChar (c_value v) end.

(** An operand resolved without a message, evaluated for an instruction that wants kind [k]:
    if the expression has a value, the instruction gets that value and no message; if it is wrong,
    there is a message. *)
Theorem C106_value : forall w k e, resolve k e = [] -> sound w k e ->
  match operand_value w k e with
  | Is x => exists v, evaluate_as w k e = Some (v, []) /\ taken k v = x
  | Wrong => evaluate_as w k e = None \/ exists v d ds, evaluate_as w k e = Some (v, d :: ds)
  | Undefined => evaluate_as w k e = None
  end.
Proof.
  intros w k e HR HS.
  assert (H : agrees (fun x v => rel k x v /\ type v = TYPE k) (operand_value w k e) (evaluate_as w k e)).
  { unfold operand_value, evaluate_as. apply (agrees_bind _ _ _ _ (rel k)).
    - apply (proj1 (all_ok w e)); assumption.
    - intros x v HV. apply (convert_return_agrees k (kind_after k e) x v HV). }
  destruct (operand_value w k e) as [x| |]; cbn [agrees] in H; [|assumption|assumption].
  destruct H as (v & HE & HV & HT). exists v. split; [assumption|].
  destruct HV as [HS' HV]. destruct k, x as [z|b|s]; cbn [shape] in HS'; try contradiction;
    cbn [relv] in HV; cbn [taken]; try (f_equal; tauto).
  destruct HV as [T _]. rewrite T in HT. discriminate HT.
Qed.
Print Assumptions C106_value.

(** So a value that comes without a message is the value of the expression. *)
Theorem C106_silent : forall w k e v, resolve k e = [] -> sound w k e ->
  evaluate_as w k e = Some (v, []) -> operand_value w k e = Is (taken k v).
Proof.
  intros w k e v HR HS HE. pose proof (C106_value w k e HR HS) as H. rewrite HE in H.
  destruct (operand_value w k e) as [x| |].
  - destruct H as (v' & E & <-). injection E as <-. reflexivity.
  - destruct H as [H|(y & d & ds & H)]; [discriminate H|injection H as _ H; discriminate H].
  - discriminate H.
Qed.
Print Assumptions C106_silent.

(** The same for the parts of an expression, where a number may stand for a truth value. *)
Theorem C106_part : forall w k e, resolve k e = [] -> sound w k e ->
  match value w (Some k) e with
  | Is x => exists v, evaluate w (As k) e = Some (v, []) /\
              match k with KA => a_value v = number x | KB => b_value v = truth x | KC => c_value v = chars x end
  | Wrong => evaluate w (As k) e = None \/ exists v d ds, evaluate w (As k) e = Some (v, d :: ds)
  | Undefined => evaluate w (As k) e = None
  end.
Proof.
  intros w k e HR HS. pose proof (proj1 (all_ok w e) k HR HS) as H.
  destruct (value w (Some k) e) as [x| |]; cbn [agrees] in H; [|assumption|assumption].
  destruct H as (v & HE & HV). exists v. split; [assumption|].
  destruct k; [apply rel_a|apply rel_b|apply rel_c]; assumption.
Qed.
Print Assumptions C106_part.

(** Resolving asks for the right kinds: an expression whose kind cannot be the one wanted is
    reported before it is evaluated. *)
Theorem C106_kinds : forall e k,
  match e with
  | Const _ | OrdSym _ => k = KC
  | Str _ _ _ _ => k <> KC
  | AttrRef c _ => c = false /\ k = KC
  | Fun f ps d => exists m, meaning_of f = Some m /\
      (k <> result_kind m \/ (d <> None /\ result_kind m = KA)
       \/ length ps <> match m with num_char_char _ => 2%nat | _ => 1%nat end)
  | Un _ q _ | Bin _ q _ _ => k <> q
  | Plus _ | Minus _ => k <> KA
  | Bas o _ _ => k <> match o with CONC => KC | _ => KA end
  | _ => False
  end -> resolve k e <> [].
Proof.
  assert (NE : forall a b, a <> b -> kind_eqb a b = false) by (intros [] [] H; congruence || reflexivity).
  intros e k H. destruct e; try contradiction; cbn [resolve].
  - subst k. discriminate.
  - subst k. discriminate.
  - rewrite NE by congruence. intros E.
    apply app_eq_nil in E as [_ E]. apply app_eq_nil in E as [_ E].
    apply app_eq_nil in E as [_ E]. apply app_eq_nil in E as [_ E]. discriminate E.
  - destruct H as [-> ->]. discriminate.
  - destruct H as (m & HM & H). destruct (functions_alike f m HM) as (_ & ET & EP). rewrite ET.
    intros E. apply app_eq_nil in E as [_ E].
    destruct (kind_eqb k (result_kind m)) eqn:EK; [|discriminate E]. apply kind_eqb_eq in EK. cbn [negb] in E.
    destruct H as [H|[[HD HK]|H]]; [congruence| |].
    + rewrite HK in E. destruct dupl; [discriminate E|congruence].
    + match type of E with (if ?b then _ else _) = _ => destruct b; [discriminate E|] end.
      rewrite EP in E. apply Nat.eqb_neq in H. rewrite H in E. discriminate E.
  - rewrite NE by congruence. discriminate.
  - rewrite NE by congruence. discriminate.
  - rewrite NE by congruence. discriminate.
  - rewrite (NE (basic_kind o) k) by (intros E; apply H; rewrite <- E; reflexivity). discriminate.
  - rewrite NE by congruence. discriminate.
Qed.
Print Assumptions C106_kinds.

(** ** What goes wrong *)

Definition world0 : world :=
  World (fun n zs => if bytes_eqb n (s2b "N") then inl (VNum 5)
                     else if bytes_eqb n (s2b "C") then
                       match zs with [i] => if i =? 2 then inl (VChar (s2b "X")) else inr 1%nat | _ => inr 2%nat end
                     else inr 0%nat)
        (fun n => if bytes_eqb n (s2b "ABS") then Some 7 else None)
        (fun _ => inl 4) (fun _ => inl (s2b "F")).
Definition var (n : bytes) : expr := VarSym (Some n) [] [].
Definition str (l : list expr) : expr := Str l None None None.

(** A SETA or SETB symbol as the right operand of a comparison of strings, as the parameter of a
    function or in a concatenation counts as the empty string; nothing is reported. *)
Theorem C106_numeric_refuted :
  let e := Bin EQ KB (str []) (var (s2b "N")) in
  variable world0 (s2b "N") [] = inl (VNum 5) /\ resolve KB e = [] /\
  evaluate_as world0 KB e = Some (SET_B true, []) /\ operand_value world0 KB e = Wrong.
Proof. repeat split; vm_compute; reflexivity. Qed.
Print Assumptions C106_numeric_refuted.

(** A T' or O' attribute in arithmetic counts as 0; nothing is reported. *)
Theorem C106_attribute_refuted : forall w i z s, char_attribute w i = inl s -> ca_add 0 z = Ok z ->
  let e := Bas ADD (AttrRef true i) (Const z) in
  resolve KA e = [] /\ evaluate_as w KA e = Some (SET_A z, []) /\ operand_value w KA e = Wrong.
Proof.
  intros w i z s HA HZ e. subst e. repeat split.
  unfold evaluate_as. cbn [evaluate]. rewrite HA. unfold ret. cbn [bind basic_operation SET_C SET_A a_value].
  rewrite HZ. reflexivity.
Qed.
Print Assumptions C106_attribute_refuted.

(** ESYM, SYSATTRA and SYSATTRP give the empty string, whatever the parameter is. *)
Theorem C106_functions_refuted : forall w f e, f = fESYM \/ f = fSYSATTRA \/ f = fSYSATTRP ->
  resolve KC e = [] -> sound w KC e -> operand_value w KC e <> Wrong -> operand_value w KC e <> Undefined ->
  resolve KC (Fun f [e] None) = [] /\ evaluate_as w KC (Fun f [e] None) = Some (SET_C [], []).
Proof.
  intros w f e HF HR HS HW HU. pose proof (C106_part w KC e HR HS) as H.
  assert (exists x, value w (Some KC) e = Is x) as [x HX].
  { unfold operand_value in HW, HU. destruct (value w (Some KC) e) as [x| |]; [eauto|elim HW; reflexivity|elim HU; reflexivity]. }
  rewrite HX in H. destruct H as (v & HE & _).
  split.
  - destruct HF as [->|[->| ->]]; cbn; rewrite HR; reflexivity.
  - unfold evaluate_as. destruct HF as [->|[->| ->]]; cbn [evaluate]; cbn; rewrite HE; reflexivity.
Qed.
Print Assumptions C106_functions_refuted.

(** A number other than 0 and 1 is no truth value as a whole operand, but is true as a part of
    one. *)
Theorem C106_truth_refuted : forall w n, n <> 0 -> n <> 1 ->
  (exists v, evaluate_as w KB (Const n) = Some (v, [Ca CE004])) /\
  evaluate_as w KB (Bin AND KB (Const n) (Const 1)) = Some (SET_B true, []) /\
  resolve KB (Bin AND KB (Const n) (Const 1)) = [].
Proof.
  intros w n H0 H1. apply Z.eqb_neq in H0, H1. repeat split.
  - eexists. unfold evaluate_as. cbn [evaluate]. unfold ret. cbn [bind].
    unfold convert_return_types. cbn [SET_A type kind_eqb andb a_value]. rewrite H0, H1. reflexivity.
  - unfold evaluate_as. cbn [evaluate]. unfold ret.
    cbn [bind operands_kind is_relational get_operands_type is_operator is_unary is_binary orb].
    cbn [bind app binary_operation is_relational boolean SET_A b_value]. rewrite H0. reflexivity.
Qed.
Print Assumptions C106_truth_refuted.

(** A function that gives characters and a repeated string cannot be the left operand of a
    comparison, although either can be the right one. *)
Theorem C106_left_refuted : forall o r e, is_relational o = true ->
  match e with
  | Fun f _ _ => get_function_type f = Some KC
  | Str _ d _ _ => d <> None
  | _ => False
  end -> resolve KB (Bin o KB e r) <> [].
Proof.
  intros o r e HO H. cbn [resolve kind_eqb negb].
  assert (E : match o with FIND_op | INDEX_op => true | _ => false end = false) by (destruct o; easy).
  rewrite E. cbn [andb]. unfold operands_kind. rewrite HO.
  destruct e; try contradiction; cbn [is_character_expression].
  - destruct dupl; [|congruence]. intros A. apply app_eq_nil in A as [A _]. cbn [resolve] in A.
    apply app_eq_nil in A as [_ A]. apply app_eq_nil in A as [_ A].
    apply app_eq_nil in A as [_ A]. apply app_eq_nil in A as [_ A]. discriminate A.
  - intros A. apply app_eq_nil in A as [A _]. cbn [resolve] in A. rewrite H in A.
    apply app_eq_nil in A as [_ A]. discriminate A.
Qed.
Print Assumptions C106_left_refuted.

(** ** A case: [('&C(&N-3).1' EQ (UPPER 'x').'1' AND ABS GT L'A)] is true. *)
Definition case : expr :=
  Bin AND KB
    (Bin EQ KB (str [VarSym (Some (s2b "C")) [] [Bas SUB (var (s2b "N")) (Const 3)]; Dot; Text (s2b "1")])
               (Bas CONC (Lst None None (Some (Un UPPER_op KC (str [Text (s2b "x")])))) (str [Text (s2b "1")])))
    (Bin GT KB (OrdSym (s2b "ABS")) (AttrRef false 0)).
Example a_case :
  resolve KB case = [] /\ sound world0 KB case /\ evaluate_as world0 KB case = Some (SET_B true, []).
Proof.
  split; [vm_compute; reflexivity|]. split; [|vm_compute; reflexivity].
  cbn. repeat split; try discriminate; intros; discriminate.
Qed.
