(** C118: arithmetic operands of conditional assembly instructions, from their characters to their values. *)
From Coq Require Import String Ascii List NArith ZArith Bool Arith Lia ZifyBool ZifyNat ZifyN.
From Verif Require Import Common Fld_Model Fld_Terms.
From Verif Require Fld_Spec Ca_Spec Ca_Model Grp_Model Exp_Model.
From Verif Require Import Cag_Model Caf_Model Caf_Spec Caf_Proof Caf_Eval Caf_Field.
Import ListNotations.
Open Scope list_scope.
Notation length := List.length.
Notation KA := Grp_Model.KA.
Import Exp_Model.
Open Scope nat_scope.

(** The answer to an operand that is omitted, that has a value, that is in error: nothing is reported and the number is
    the value, or evaluation does not go by in silence. *)
Inductive answers : option (option Z) -> answer -> Prop :=
| a_omitted : answers None Omitted
| a_value : forall z, answers (Some (Some z)) (Answer [] (Some (SET_A z, [])))
| a_error : forall m, (forall v, m <> Some (v, [])) -> answers (Some None) (Answer [] m).

Lemma op_read : forall w o oz, op_worth w o oz -> op_regular o ->
  exists op a, reads o op /\ answer_of w KA op = Some a /\ answers oz a.
Proof.
  intros w o oz H R. destruct H as [|e o H].
  - exists Empty, Omitted. split; [constructor|]. split; [reflexivity|constructor].
  - destruct (proj1 (eval_ok w) e o H R) as (cx & a & x & T & X & Rx & G). exists (Value cx). eexists.
    split; [econstructor; exact T|]. cbn [answer_of]. rewrite X. split; [reflexivity|]. rewrite Rx.
    apply (answered _ _ (kind_after KA x)) in G. change (bind _ _) with (evaluate_as w KA x) in G.
    destruct o as [z|]; cbn [good] in G; [rewrite G; constructor|constructor; exact G].
Qed.
Lemma ops_read : forall w l ws, Forall2 (op_worth w) l ws -> Forall op_regular l ->
  exists ops an, Forall2 reads l ops /\ Forall2 (fun op a => answer_of w KA op = Some a) ops an /\ Forall2 answers ws an.
Proof.
  intros w l ws F. induction F as [|o oz l ws H F IH]; intros R.
  - exists [], []. repeat split; constructor.
  - inversion R; subst. destruct (op_read w o oz H) as (op & a & A & B & C); [assumption|].
    destruct IH as (ops & an & As & Bs & Cs); [assumption|]. exists (op :: ops), (a :: an). repeat split; constructor; assumption.
Qed.

(** ** Every operand has the value it is written to have *)
Theorem C118_values : forall wide w col k l r ws, l <> [] -> l <> [None] -> Forall op_regular l -> Fld_Spec.remark r ->
  0 < col -> col + length (repeat 32%N (S k) ++ field l ++ r) <= 71 -> Forall2 (op_worth w) l ws ->
  exists an, set_operands wide w KA (repeat 32%N (S k) ++ field l ++ r) col = Some an /\ Forall2 answers ws an.
Proof.
  intros wide w col k l r ws N M R Rm C Ln F. destruct (ops_read w l ws F R) as (ops & an & A & B & D).
  exists an. split; [|exact D]. unfold set_operands. rewrite (operands_read wide col k l r ops N M R Rm C Ln A).
  apply all_map, B.
Qed.
Print Assumptions C118_values.

(** How many blanks stand before the field, where it begins and what the remark says makes no difference. *)
Theorem C118_remark : forall wide w col k r col' k' r' l ws, l <> [] -> l <> [None] -> Forall op_regular l ->
  Fld_Spec.remark r -> Fld_Spec.remark r' -> 0 < col -> 0 < col' ->
  col + length (repeat 32%N (S k) ++ field l ++ r) <= 71 -> col' + length (repeat 32%N (S k') ++ field l ++ r') <= 71 ->
  Forall2 (op_worth w) l ws ->
  set_operands wide w KA (repeat 32%N (S k) ++ field l ++ r) col =
  set_operands wide w KA (repeat 32%N (S k') ++ field l ++ r') col'.
Proof.
  intros wide w col k r col' k' r' l ws N M R Rm Rm' C C' Ln Ln' F. destruct (ops_read w l ws F R) as (ops & an & A & _).
  unfold set_operands. rewrite (operands_read wide col k l r ops N M R Rm C Ln A), (operands_read wide col' k' l r' ops N M R Rm' C' Ln' A).
  reflexivity.
Qed.
Print Assumptions C118_remark.

(** ** Errors are reported *)
Definition unsignedL (l : list wexpr) : Prop := fold_right (fun e P => unsigned e /\ P) True l.
Lemma bind_defined : forall A B (m : M A) (f : A -> M B), m <> None -> (forall x, f x <> None) -> bind m f <> None.
Proof. intros A B m f Hm Hf. unfold bind. destruct m as [(x & ds)|]; [|congruence]. specialize (Hf x). destruct (f x) as [(y & es)|]; [discriminate|congruence]. Qed.
Lemma lift_defined : forall A B (f : A -> B) d o, o <> Ca_Model.Bad -> lift f d o <> None.
Proof. intros A B f d [] H; cbn; (discriminate || congruence). Qed.
Lemma converted : forall v k x, convert_return_types v k x <> None.
Proof. intros v k x. unfold convert_return_types. destruct (type v); [discriminate|]. destruct (kind_eqb k k0); [discriminate|]. destruct (_ && _); discriminate. Qed.
Theorem defined : forall w, steady w ->
  (forall e cx a, as_tokens e cx a -> unsigned e -> forall x, term_of cx = Some x -> evaluate w (As KA) x <> None) /\
  (forall e es cs b, as_list e es cs b -> unsignedL (e :: es) -> forall xs, all (map term_of cs) = Some xs ->
     sequence (map (subscript_value w) xs) <> None).
Proof.
  intros w St.
  assert (V : forall n xs, sequence (map (subscript_value w) xs) <> None -> evaluate w (As KA) (VarSym (Some n) [] xs) <> None).
  { intros n xs H. rewrite evaluate_variable. apply bind_defined; [exact H|]. intros zs.
    destruct (variable w n zs) as [v|d] eqn:E.
    - destruct (St _ _ _ E) as (z & Hz). unfold ret. rewrite bind_some, (held_value v z Hz). discriminate.
    - discriminate. }
  apply tokens_ind.
  - intros d v _ _ x E. injection E as <-. discriminate.
  - intros t s v _ _ x E. injection E as <-. discriminate.
  - intros n _ x E. injection E as <-. cbn [evaluate]. destruct (absolute w (map big n)); discriminate.
  - intros n _ x E. injection E as <-. apply V. discriminate.
  - intros n e subs l a _ IH U x E. cbn [term_of] in E. destruct (all (map term_of l)) as [xs|] eqn:A; [|discriminate]. injection E as <-.
    apply V, IH; [exact U|reflexivity].
  - intros m e cx a _ IH (-> & U) x E. cbn [term_of] in E. destruct (term_of cx) as [y|]; [|discriminate]. injection E as <-. cbn [evaluate].
    apply bind_defined; [now apply IH|]. intros v. discriminate.
  - intros e cx a _ IH U x E. cbn [term_of] in E. destruct (items_of 0 [cx]) as [its|] eqn:I; [|discriminate].
    cbn [map all fold_right] in E. destruct (term_of cx) as [y|] eqn:Y; [|discriminate]. injection E as <-. cbn [evaluate].
    destruct (grouped KA its [y]) as [t|] eqn:G; [|discriminate].
    assert (t = y); [|subst t; now apply IH].
    unfold items_of in I. destruct (item_of 0 cx) as [it|] eqn:It; [|discriminate]. injection I as <-.
    unfold grouped, Grp_Model.resolve_expression_tree, Grp_Model.resolve in G. cbn [Grp_Model.retrieve_term] in G.
    destruct (Grp_Model.unary_at KA it); [discriminate|]. cbn [Grp_Model.loop List.length] in G.
    destruct cx; cbn in It, Y; try discriminate; injection It as <-; cbn in G; congruence.
  - intros o l r cx cy a b _ IHl _ IHr (Ul & Ur) x E. cbn [term_of] in E.
    destruct (term_of cx) as [x1|]; [|discriminate]. destruct (term_of cy) as [y1|]; [|discriminate]. injection E as <-.
    assert (K : basic_kind (match xop o with OAdd => ADD | OSub => SUB | OMul => MUL | ODiv => DIV end) = KA) by (destruct o; reflexivity).
    cbn [evaluate]. rewrite K. apply bind_defined; [now apply IHl|]. intros v. apply bind_defined; [now apply IHr|]. intros u.
    assert (O : forall z, Ca_Model.overflow_transform z <> Ca_Model.Bad).
    { intros z. unfold Ca_Model.overflow_transform. destruct (_ >? _)%Z; [discriminate|]. destruct (_ <? _)%Z; discriminate. }
    destruct o; cbn [xop basic_operation]; apply lift_defined; try apply O. unfold Ca_Model.ca_div. destruct (_ =? _)%Z; [discriminate|apply O].
  - intros e cx a _ IH (U & _) xs E. cbn [map all fold_right] in E. destruct (term_of cx) as [x|]; [|discriminate]. injection E as <-.
    cbn [map sequence]. apply bind_defined; [|discriminate]. unfold subscript_value. apply bind_defined; [now apply IH|].
    intros v. unfold a_of. apply bind_defined; [apply converted|discriminate].
  - intros e cx a e2 es l b _ IH _ IHl (U & Ul) xs E. cbn [map all fold_right] in E. destruct (term_of cx) as [x|]; [|discriminate].
    fold (all (map term_of l)) in E. unfold all in IHl. cbn [map] in E.
    match type of E with (match ?m with _ => _ end) = _ => destruct m as [ys|] eqn:A; [|discriminate] end. injection E as <-.
    cbn [map sequence]. apply bind_defined.
    + unfold subscript_value. apply bind_defined; [now apply IH|]. intros v. unfold a_of. apply bind_defined; [apply converted|discriminate].
    + intros z. apply bind_defined; [apply IHl; [exact Ul|exact A]|discriminate].
Qed.

(** Without a minus sign, and if all variable symbols have numbers, an operand in error has a message. *)
Theorem C118_reported : forall wide w col k l r ws, steady w -> l <> [] -> l <> [None] -> Forall op_regular l -> Fld_Spec.remark r ->
  0 < col -> col + length (repeat 32%N (S k) ++ field l ++ r) <= 71 -> Forall2 (op_worth w) l ws -> Forall op_unsigned l ->
  exists an, set_operands wide w KA (repeat 32%N (S k) ++ field l ++ r) col = Some an /\
    Forall2 (fun oz a => oz = Some None -> exists v d ds, a = Answer [] (Some (v, d :: ds))) ws an.
Proof.
  intros wide w col k l r ws St N M R Rm C Ln F U. destruct (ops_read w l ws F R) as (ops & an & A & B & D).
  exists an. split.
  - unfold set_operands. rewrite (operands_read wide col k l r ops N M R Rm C Ln A). apply all_map, B.
  - clear -St A B D U. revert ops an A B D U. revert l. induction ws as [|oz ws IH]; intros l ops an A B D U; inversion D; subst; constructor.
    + intros ->. inversion B as [|op a' ? ? Ea Bt]; subst. inversion A as [|o op' ? ? Ro At]; subst. inversion U as [|? ? Uo Ut]; subst.
      match goal with H : answers (Some None) _ |- _ => inversion H as [| |m Hm]; subst end.
      destruct Ro as [|e x a T]; [discriminate|]. cbn [answer_of] in Ea. destruct (term_of x) as [t|] eqn:Tt; [|discriminate].
      injection Ea as Er Em. assert (Nn : m <> None).
      { rewrite <- Em. unfold evaluate_as. apply bind_defined; [|intros v; apply converted]. eapply (proj1 (defined w St)); eassumption. }
      destruct m as [(v & [|d ds])|]; [destruct (Hm v eq_refl)| |congruence]. exists v, d, ds. reflexivity.
    + inversion B; subst. inversion A; subst. inversion U; subst. eapply IH; eassumption.
Qed.
Print Assumptions C118_reported.

(** ** What is not so *)
(** In parentheses the symbol NOT has no value. *)
Theorem C118_not_refuted : exists w, absolute w (s2b "NOT") = Some 5%Z /\
  set_operands (fun _ => false) w KA (s2b " (NOT)") 10 = Some [Answer [CE003] (Some (SET_default (TYPE KA), []))] /\
  set_operands (fun _ => false) w KA (s2b " (NOT+0)") 10 = Some [Answer [] (Some (SET_A 5, []))].
Proof.
  exists (World (fun _ _ => inr 0) (fun _ => Some 5%Z) (fun _ => inr 0) (fun _ => inr 0)).
  split; [reflexivity|]. split; vm_compute; reflexivity.
Qed.
Print Assumptions C118_not_refuted.

(** The smallest number with a minus sign has no defined value. *)
Theorem C118_minus_refuted : forall w,
  set_operands (fun _ => false) w KA (s2b " -X'80000000'") 10 = Some [Answer [] None].
Proof. intros w. vm_compute. reflexivity. Qed.
Print Assumptions C118_minus_refuted.

(** ** Cases *)
Definition w0 : world := World
  (fun n zs => if bytes_eqb n (s2b "A") then match zs with [] => inl (VNum 5) | _ => inr 1 end
    else if bytes_eqb n (s2b "N") then match zs with [2%Z] => inl (VChar (s2b "-12")) | [3%Z] => inl (VBool true) | _ => inr 2 end
    else inr 0)
  (fun n => if bytes_eqb n (s2b "SYM") then Some 4%Z else None) (fun _ => inr 0) (fun _ => inr 0).
Definition num (n : string) := WNumber (s2b n).
Definition l0 : list (option wexpr) :=
  [Some (WBinary Add (num "2") (WBinary Mul (num "3") (WVariable (s2b "a") [])));
   None;
   Some (WBinary Div (WSign true (WTerm 88 (s2b "F"))) (WParen (WBinary Sub (WSymbol (s2b "sym")) (num "1"))));
   Some (WBinary Sub (WBinary Sub (num "10") (num "4")) (num "3"));
   Some (WVariable (s2b "N") [WBinary Add (num "1") (num "1")]);
   Some (WVariable (s2b "N") [num "9"])].
Example C118_case_text : field l0 = s2b "2+3*&a,,-X'F'/(sym-1),10-4-3,&N(1+1),&N(9)".
Proof. reflexivity. Qed.
Example C118_case : set_operands (fun _ => false) w0 KA (s2b "  2+3*&a,,-X'F'/(sym-1),10-4-3,&N(1+1),&N(9) It's (a remark") 10 =
  Some [Answer [] (Some (SET_A 17, [])); Omitted; Answer [] (Some (SET_A (-5), [])); Answer [] (Some (SET_A 3, []));
        Answer [] (Some (SET_A (-12), [])); Answer [] (Some (SET_default (TYPE KA), [Rd 2; CE4]))].
Proof. vm_compute. reflexivity. Qed.
(** It meets the hypotheses. *)
Definition ws0 : list (option (option Z)) := [Some (Some 17); None; Some (Some (-5)); Some (Some 3); Some (Some (-12)); Some None]%Z.
Lemma num_worth : forall n ds, Forall2 Ca_Spec.dec_digit (s2b n) ds -> (Ca_Spec.numeral 10 ds < 2147483648)%Z -> length (s2b n) <= 11 ->
  worth w0 (num n) (Some (Ca_Spec.numeral 10 ds)).
Proof. intros. now apply w_number. Qed.
Ltac digits := repeat constructor; cbv; (discriminate || reflexivity || lia).
Ltac number d := apply (num_worth _ d); digits.
Ltac binary o a b := apply (w_binary w0 o _ _ a b).
Example C118_case_regular : Forall op_regular l0.
Proof.
  unfold l0. repeat match goal with
  | |- Forall op_regular (_ :: _) => constructor; [cbn -[Nat.le Nat.lt N.le]|]
  | |- Forall _ [] => constructor
  end; unfold num.
  all: repeat match goal with |- _ /\ _ => split | |- Forall _ _ => constructor end; try exact I; try discriminate.
  all: unfold Fld_Spec.digit, Fld_Spec.on_the_line, Fld_Spec.letter, Fld_Spec.national. all: try lia.
  all: cbn [Fld_Spec.symbol]; split; [split; [|repeat constructor]|cbn; lia]; unfold Fld_Spec.letter, Fld_Spec.national, Fld_Spec.digit; lia.
Qed.
Example C118_case_worth : Forall2 (op_worth w0) l0 ws0.
Proof.
  constructor; [|constructor; [|constructor; [|constructor; [|constructor; [|constructor; [|constructor]]]]]].
  - constructor. binary Add 2%Z 15%Z; [number [2%Z]|]. binary Mul 3%Z 5%Z; [number [3%Z]|].
    apply (w_variable w0 _ [] [] (VNum 5)); [constructor|reflexivity|constructor].
  - constructor.
  - constructor. binary Div (-15)%Z 3%Z.
    + apply (w_minus w0 _ 15%Z); [|discriminate]. apply w_term. apply (Fld_Spec.v_hex 88 (s2b "F") [15%Z]); [reflexivity|discriminate|digits|cbn; lia].
    + apply w_paren. binary Sub 4%Z 1%Z; [apply (w_symbol w0 (s2b "sym"))|number [1%Z]].
  - constructor. binary Sub 6%Z 3%Z; [binary Sub 10%Z 4%Z; [number [1%Z; 0%Z]|number [4%Z]]|number [3%Z]].
  - constructor. apply (w_variable w0 _ _ [2%Z] (VChar (s2b "-12"))).
    + apply o_more; [|apply o_none]. binary Add 1%Z 1%Z; number [1%Z].
    + reflexivity.
    + apply (held_digits (s2b "-12")); [|lia|cbn; lia]. apply (Ca_Spec.dec_minus (s2b "12") [1%Z; 2%Z]); [discriminate|digits].
  - constructor. apply (w_unknown w0 _ _ [9%Z] 2); [apply o_more; [number [9%Z]|apply o_none]|reflexivity].
Qed.
Example C118_case_remark : Fld_Spec.remark (s2b " It's (a remark").
Proof. split; [reflexivity|]. repeat constructor; discriminate. Qed.
