(** C119: AIF and SETB, from the characters of their conditions to the branch and to the value. *)
From Coq Require Import String Ascii List NArith ZArith Bool Arith Lia ZifyBool ZifyNat ZifyN.
From Verif Require Import Common Fld_Model Fld_Terms.
From Verif Require Fld_Spec Ca_Spec Ca_Model Grp_Model Exp_Model.
From Verif Require Import Cag_Model Caf_Model Caf_Spec Caf_Proof Caf_Eval Caf_Field.
From Verif Require Import Cal_Spec Cal_Model Cal_Group Cal_Proof Cal_Field.
Import ListNotations.
Open Scope list_scope.
Notation length := List.length.
Import Exp_Model.
Open Scope nat_scope.

(** ** AIF *)
Definition announces (d : option (option (list N))) (m : M decision) : Prop :=
  match d with
  | Some (Some n) => m = Some (Jump n, [])
  | Some None => m = Some (Stay, [])
  | None => forall x, m <> Some (x, [])
  end.
(** The operand of a condition, whatever way it is written. *)
Definition branch_op (w : world) (b : cond * list N) (o : option bool) (op : operand) : Prop :=
  (forall t, branch_text b t -> piece t op) /\ reported op = Some [] /\
  exists e, op = Branch e (map big (snd b)) /\ exists x, term_of e = Some x /\
    match o with
    | Some v => exists u, evaluate_as w KB x = Some (u, []) /\ b_value u = v
    | None => forall u, evaluate_as w KB x <> Some (u, [])
    end.
Lemma branch_read : forall w b o, branch_sound b -> holds w (fst b) o -> exists op, branch_op w b o op.
Proof.
  intros w (c & n) o (S & Sn) H. cbn [fst snd] in *. destruct (cond_ok w c o H S) as (p & Hp & R & G).
  destruct (list_term p (proj1 (P_ok c p Hp S))) as (ta & tc & E). exists (Branch (XList (cells p)) (map big n)).
  split; [|split].
  - intros t (u & T & ->). apply branch_piece; [|exact Sn]. eapply paren_shown; eassumption.
  - cbn [reported]. rewrite E. cbn [resolve]. rewrite R. reflexivity.
  - eexists. split; [reflexivity|]. eexists. split; [exact E|].
    apply (final_cond _ _ (kind_after KB (Lst ta (Some (expr_of p)) tc))) in G. destruct o as [v|].
    + destruct G as (u & Eu & B & _). exists u. split; [exact Eu|exact B].
    + exact G.
Qed.
Lemma branches_read : forall w l os, Forall branch_sound l -> Forall2 (fun b o => holds w (fst b) o) l os ->
  exists ops, Forall2 (fun bo op => branch_op w (fst bo) (snd bo) op) (combine l os) ops /\ length ops = length l.
Proof.
  intros w l os S F. revert S. induction F as [|b o l os H F IH]; intros S; [exists []; split; [constructor|reflexivity]|].
  inversion S; subst. destruct (branch_read w b o) as (op & Ho); [assumption..|]. destruct IH as (ops & Fo & L); [assumption|].
  exists (op :: ops). split; [constructor; assumption|cbn; lia].
Qed.
Lemma taken_skips : forall w l os ops t, Forall2 (fun bo op => branch_op w (fst bo) (snd bo) op) (combine l os) ops ->
  decide w ops (Some t) true = ret (Jump t).
Proof.
  intros w l os ops t F. induction F as [|bo op bl ops (_ & _ & e & -> & _) F IH]; [reflexivity|]. cbn [decide]. exact IH.
Qed.
Lemma decide_ok : forall w l os ops, length os = length l -> Forall2 (fun bo op => branch_op w (fst bo) (snd bo) op) (combine l os) ops ->
  forall has, has = true \/ l <> [] -> announces (decided (combine os (map snd l))) (decide w ops None has).
Proof.
  intros w l. induction l as [|b l IH]; intros [|o os] ops L F has Hh; try discriminate.
  - inversion F; subst. destruct Hh as [->|Hh]; [reflexivity|congruence].
  - cbn [combine map decided] in *. inversion F as [|? op ? ops' (_ & _ & e & Eop & x & Ex & V) F']; subst. cbn [fst snd] in *.
    injection L as L. cbn [decide]. rewrite Ex. destruct o as [v|].
    + destruct V as (u & -> & B). rewrite bind_some, B. destruct v.
      * rewrite (taken_skips w l os ops' _ F'). reflexivity.
      * apply IH; [exact L|exact F'|left; reflexivity].
    + intros z Bz. apply bind_silent in Bz as (u & Eu & _). exact (V u Eu).
Qed.
Lemma branch_pieces : forall w l os ops ts, length os = length l -> Forall2 (fun bo op => branch_op w (fst bo) (snd bo) op) (combine l os) ops ->
  Forall2 branch_text l ts -> Forall2 piece ts ops.
Proof.
  intros w l os ops ts L F T. revert os ops L F. induction T as [|b t l ts Hb T IH]; intros [|o os] ops L F; try discriminate.
  - inversion F. constructor.
  - cbn [combine] in F. inversion F as [|? op ? ops' (Hp & _) F']; subst. injection L as L. constructor; [now apply Hp|]. eapply IH; eassumption.
Qed.
Lemma branch_reports : forall w bl ops, Forall2 (fun bo op => branch_op w (fst bo) (snd bo) op) bl ops ->
  exists ds, all (map reported ops) = Some ds /\ concat ds = [].
Proof.
  intros w bl ops F. induction F as [|bo op bl ops (_ & R & _) F (ds & E & C)]; [exists []; split; reflexivity|].
  exists ([] :: ds). split; [cbn [map all fold_right]; unfold all in E; rewrite R, E; reflexivity|exact C].
Qed.
Lemma text_nonempty : forall A B (R : A -> B -> Prop) l ts, Forall2 R l ts -> l <> [] -> ts <> [].
Proof. intros A B R l ts F N. destruct F; [congruence|discriminate]. Qed.

Lemma Forall2_length : forall A B (R : A -> B -> Prop) l ts, Forall2 R l ts -> length l = length ts.
Proof. intros A B R l ts F. induction F; cbn; congruence. Qed.

(** Conditions are tried in order; the first that is true gives the target, and if all are false there is no branch.
    Nothing is reported.  If one in error is reached, evaluation does not go by in silence. *)
Theorem C119_branch : forall wide w col k l ts r os, l <> [] -> Forall branch_sound l -> Forall2 branch_text l ts -> Fld_Spec.remark r ->
  0 < col -> col + length (repeat 32%N (S k) ++ separated ts ++ r) <= 71 -> Forall2 (fun b o => holds w (fst b) o) l os ->
  exists m, aif wide w (repeat 32%N (S k) ++ separated ts ++ r) col = Some ([], m) /\ announces (decided (combine os (map snd l))) m.
Proof.
  intros wide w col k l ts r os N S T R C Ln H. destruct (branches_read w l os S H) as (ops & F & _).
  assert (L : length os = length l) by (symmetry; eapply Forall2_length; exact H).
  exists (decide w ops None false). split.
  - unfold aif. rewrite (pieces_read wide col k ts r ops (text_nonempty _ _ _ _ _ T N) R C Ln (branch_pieces _ _ _ _ _ L F T)).
    destruct (branch_reports _ _ _ F) as (ds & -> & ->). reflexivity.
  - apply decide_ok; [exact L|exact F|right; exact N].
Qed.
Print Assumptions C119_branch.

(** Small or capital letters, the number of blanks, the column and the remark make no difference. *)
Theorem C119_spelling : forall wide w col k ts r col' k' ts' r' l os, l <> [] -> Forall branch_sound l ->
  Forall2 branch_text l ts -> Forall2 branch_text l ts' -> Fld_Spec.remark r -> Fld_Spec.remark r' -> 0 < col -> 0 < col' ->
  col + length (repeat 32%N (S k) ++ separated ts ++ r) <= 71 -> col' + length (repeat 32%N (S k') ++ separated ts' ++ r') <= 71 ->
  Forall2 (fun b o => holds w (fst b) o) l os ->
  aif wide w (repeat 32%N (S k) ++ separated ts ++ r) col = aif wide w (repeat 32%N (S k') ++ separated ts' ++ r') col'.
Proof.
  intros wide w col k ts r col' k' ts' r' l os N S T T' R R' C C' Ln Ln' H. destruct (branches_read w l os S H) as (ops & F & _).
  assert (L : length os = length l) by (symmetry; eapply Forall2_length; exact H). unfold aif.
  rewrite (pieces_read wide col k ts r ops (text_nonempty _ _ _ _ _ T N) R C Ln (branch_pieces _ _ _ _ _ L F T)).
  rewrite (pieces_read wide col' k' ts' r' ops (text_nonempty _ _ _ _ _ T' N) R' C' Ln' (branch_pieces _ _ _ _ _ L F T')). reflexivity.
Qed.
Print Assumptions C119_spelling.

(** An AIF is refused, and does not branch, exactly if its operands are not branches (at least one), behind which one
    comma with nothing after it may stand. *)
Definition only_branches (l : list operand) : Prop :=
  exists bs e, l = map (fun b => Branch (fst b) (snd b)) bs ++ e /\ bs <> [] /\ (e = [] \/ e = [Empty]).
Fixpoint branches_from (has : bool) (l : list operand) : bool :=
  match l with
  | [] | [Empty] => has
  | Branch _ _ :: r => branches_from true r
  | _ => false
  end.
Lemma branches_from_iff : forall l has, branches_from has l = true <->
  exists bs e, l = map (fun b => Branch (fst b) (snd b)) bs ++ e /\ (has = true \/ bs <> []) /\ (e = [] \/ e = [Empty]).
Proof.
  induction l as [|o r IH]; intros has.
  - cbn. split; [intros ->; exists [], []; auto|]. intros ([|b bs] & e & E & [H|H] & _); try exact H; try discriminate E. now destruct H.
  - assert (K : (exists bs e, o :: r = map (fun b => Branch (fst b) (snd b)) bs ++ e /\ (has = true \/ bs <> []) /\ (e = [] \/ e = [Empty])) ->
      (o = Empty /\ r = [] /\ has = true) \/ (exists e t, o = Branch e t)).
    { intros ([|[c t] bs] & e & E & H & G).
      - cbn in E. destruct G as [->| ->]; [discriminate|]. injection E as -> ->. left. destruct H as [H|H]; [auto|now destruct H].
      - cbn in E. injection E as -> _. right. eauto. }
    destruct o as [|c t|t|c|v z].
    + split.
      * destruct r; [|discriminate]. cbn. intros ->. exists [], [Empty]. auto.
      * intros X. apply K in X as [(_ & -> & ->)|(e & t & X)]; [reflexivity|discriminate].
    + cbn [branches_from]. rewrite IH. split.
      * intros (bs & e & -> & _ & G). exists ((c, t) :: bs), e. split; [reflexivity|]. split; [right; discriminate|exact G].
      * intros ([|[c' t'] bs] & e & E & H & G); cbn in E.
        -- destruct G as [->| ->]; discriminate.
        -- injection E as -> -> ->. exists bs, e. auto.
    + split; [discriminate|]. intros X. apply K in X as [(X & _)|(? & ? & X)]; discriminate.
    + split; [discriminate|]. intros X. apply K in X as [(X & _)|(? & ? & X)]; discriminate.
    + split; [discriminate|]. intros X. apply K in X as [(X & _)|(? & ? & X)]; discriminate.
Qed.
Lemma decide_refused : forall w l taken has d es, decide w l taken has = Some (d, es) -> (d = Refused <-> branches_from has l = false).
Proof.
  intros w l. induction l as [|o r IH]; intros taken has d es D.
  - cbn in D. injection D as <- <-. cbn. destruct has; [destruct taken|]; split; congruence.
  - destruct o as [|c t|t|c|v z]; cbn [decide] in D; cbn [branches_from].
    + destruct r; [exact (IH _ _ _ _ D)|]. injection D as <- <-. split; reflexivity.
    + destruct taken; [exact (IH _ _ _ _ D)|]. unfold bind in D.
      destruct (match term_of c with Some x => _ | None => _ end) as [[v ds]|]; [|discriminate].
      destruct (decide w r _ true) as [[d' es']|] eqn:E; [|discriminate]. injection D as <- _. exact (IH _ _ _ _ E).
    + injection D as <- <-. split; reflexivity.
    + injection D as <- <-. split; reflexivity.
    + injection D as <- <-. split; reflexivity.
Qed.
Theorem C119_refused : forall wide w text col l ds d es,
  ca_field wide text col false = Some l -> aif wide w text col = Some (ds, Some (d, es)) -> (d = Refused <-> ~ only_branches l).
Proof.
  intros wide w text col l ds d es F A. unfold aif in A. rewrite F in A. destruct (all _); [|discriminate]. injection A as _ A.
  rewrite (decide_refused _ _ _ _ _ _ A). rewrite <- not_true_iff_false, branches_from_iff. unfold only_branches.
  split; intros H X; apply H.
  - destruct X as (bs & e & E & N & G). exists bs, e. auto.
  - destruct X as (bs & e & E & [N|N] & G); [discriminate|]. exists bs, e. auto.
Qed.
Print Assumptions C119_refused.
Example C119_refused_case : forall w, exists l,
  ca_field (fun _ => false) (s2b " (1).X,,(1).Y") 10 false = Some l /\
  aif (fun _ => false) w (s2b " (1).X,,(1).Y") 10 = Some ([], Some (Refused, [])).
Proof. intros w. eexists. split; vm_compute; reflexivity. Qed.

(** ** SETB *)
Inductive answered_b : option bool -> answer -> Prop :=
| ab_value : forall v b, b_value v = b -> type v = TYPE KB -> answered_b (Some b) (Answer [] (Some (v, [])))
| ab_error : forall m, (forall v, m <> Some (v, [])) -> answered_b None (Answer [] m).
Lemma cond_read : forall w c o t, operand_form c -> sound c -> holds w c o -> text c t ->
  exists op a, piece t op /\ answer_of w KB op = Some a /\ answered_b o a.
Proof.
  intros w c o t Fo S H T. destruct (cond_ok w c o H S) as (p & Hp & R & G).
  assert (X : exists cx x, p = PLeaf cx x /\ piece t (Value cx) /\ term_of cx = Some x).
  { destruct c as [e| | | |c]; try destruct Fo.
    - inversion Hp; subst. inversion T; subst. destruct S as (_ & Rg & _). eexists. eexists. split; [reflexivity|]. split; [|eassumption].
      eapply plain_piece; eassumption.
    - inversion Hp; subst. eexists. eexists. split; [reflexivity|]. split; [|eassumption]. apply value_piece. eapply paren_shown; eassumption. }
  destruct X as (cx & x & -> & Pc & E). cbn [expr_of] in *. exists (Value cx). eexists. split; [exact Pc|]. cbn [answer_of]. rewrite E, R.
  split; [reflexivity|]. apply (final_cond _ _ (kind_after KB x)) in G. destruct o as [b|].
  - destruct G as (u & Eu & B & Ty). replace (evaluate_as w KB x) with (Some (u, @nil xdiag)) by (symmetry; exact Eu). now constructor.
  - constructor. exact G.
Qed.
(** Every operand has its truth value; nothing is reported.  One in error does not go by in silence. *)
Theorem C119_values : forall wide w col k l ts r os, l <> [] -> Forall operand_form l -> Forall sound l -> Forall2 text l ts ->
  Fld_Spec.remark r -> 0 < col -> col + length (repeat 32%N (S k) ++ separated ts ++ r) <= 71 -> Forall2 (holds w) l os ->
  exists an, set_operands wide w KB (repeat 32%N (S k) ++ separated ts ++ r) col = Some an /\ Forall2 answered_b os an.
Proof.
  intros wide w col k l ts r os N Fo S T R C Ln H.
  assert (X : exists ops an, Forall2 piece ts ops /\ Forall2 (fun op a => answer_of w KB op = Some a) ops an /\ Forall2 answered_b os an).
  { clear N Ln. revert ts T. induction H as [|c o l os Hc H IH]; intros ts T; inversion T; subst.
    - exists [], []. split; [|split]; constructor.
    - inversion Fo; inversion S; subst. destruct (cond_read w c o y) as (op & a & A & B & D); [assumption..|].
      destruct (IH ltac:(assumption) ltac:(assumption) _ ltac:(eassumption)) as (ops & an & As & Bs & Ds).
      exists (op :: ops), (a :: an). split; [|split]; constructor; assumption. }
  destruct X as (ops & an & A & B & D). exists an. split; [|exact D]. unfold set_operands.
  rewrite (pieces_read wide col k ts r ops (text_nonempty _ _ _ _ _ T N) R C Ln A). apply all_map, B.
Qed.
Print Assumptions C119_values.

(** ** What is not so *)
Definition world_of (f : list N -> option val) : world :=
  World (fun n _ => match f n with Some v => inl v | None => inr 0 end) (fun _ => None) (fun _ => inr 0) (fun _ => inr 0).
(** On the right of OR, AND does not always bind before it: 1 OR 0 is true, and no branch is taken. *)
Theorem C119_grouping_refuted : forall w,
  aif (fun _ => false) w (s2b " (1 OR 0 AND 1 AND 0).X") 10 = Some ([], Some (Stay, [])) /\
  aif (fun _ => false) w (s2b " (0 AND 1 AND 0 OR 1).X") 10 = Some ([], Some (Jump (s2b "X"), [])).
Proof. intros w. split; vm_compute; reflexivity. Qed.
Print Assumptions C119_grouping_refuted.
(** Comparing numbers far apart has no defined outcome. *)
Theorem C119_compare_refuted : exists w,
  aif (fun _ => false) w (s2b " (&M LT 1).X") 10 = Some ([], None).
Proof. exists (world_of (fun _ => Some (VNum (-2147483648)))). vm_compute. reflexivity. Qed.
Print Assumptions C119_compare_refuted.
(** A number that is neither 0 nor 1 is refused as a condition but not as a part of one. *)
Theorem C119_number_refuted : forall w,
  aif (fun _ => false) w (s2b " (5).X") 10 = Some ([], Some (Stay, [Ca Ca_Model.CE004])) /\
  aif (fun _ => false) w (s2b " (5 AND 1).X") 10 = Some ([], Some (Jump (s2b "X"), [])).
Proof. intros w. split; vm_compute; reflexivity. Qed.
Print Assumptions C119_number_refuted.
(** An empty text is 0 in a comparison and an error as a condition. *)
Theorem C119_empty_refuted : exists w,
  aif (fun _ => false) w (s2b " (&E EQ 0).X") 10 = Some ([], Some (Jump (s2b "X"), [])) /\
  aif (fun _ => false) w (s2b " (&E).X") 10 = Some ([], Some (Stay, [Ca Ca_Model.CE015])).
Proof. exists (world_of (fun _ => Some (VChar []))). split; vm_compute; reflexivity. Qed.
Print Assumptions C119_empty_refuted.

(** ** Cases *)
Definition wb : world := world_of (fun n => if bytes_eqb n (s2b "A") then Some (VNum 5) else if bytes_eqb n (s2b "B") then Some (VBool true) else None).
Definition va : wexpr := WVariable (s2b "A") [].
Definition n1 (n : string) := WNumber (s2b n).
Definition c1 : cond := Join Either true (Compare More va (n1 "7")) (Truth (WVariable (s2b "b") [])).
Definition c2 : cond := Join Both false (Compare Equal (WBinary Add va (n1 "1")) (n1 "6")) (Paren (Not (Compare Less (n1 "2") (n1 "1")))).
Definition lb : list (cond * list N) := [(c1, s2b "far"); (c2, s2b "Near"); (Truth (WVariable (s2b "Q") []), s2b "X")].
Definition tb : list (list N) := [s2b "(&A gt 7 OR  NOT &b).far"; s2b "( &A+1 EQ 6 and (NOT 2 LT 1)).Near"; s2b "(&Q).X"].
Example C119_case : aif (fun _ => false) wb (s2b " (&A gt 7 OR  NOT &b).far,( &A+1 EQ 6 and (NOT 2 LT 1)).Near,(&Q).X rem") 10 =
  Some ([], Some (Jump (s2b "NEAR"), [])).
Proof. vm_compute. reflexivity. Qed.
Example C119_case_text : s2b " (&A gt 7 OR  NOT &b).far,( &A+1 EQ 6 and (NOT 2 LT 1)).Near,(&Q).X rem" =
  repeat 32%N 1 ++ separated tb ++ s2b " rem".
Proof. reflexivity. Qed.
Ltac ok_symbol := cbn [Fld_Spec.symbol]; split; [split; [|repeat (apply Forall_cons || apply Forall_nil)]|cbn; lia]; unfold Fld_Spec.letter, Fld_Spec.national, Fld_Spec.digit; cbn; lia.
Lemma ok_number : forall n, s2b n <> [] -> Forall Fld_Spec.digit (s2b n) -> regular (n1 n).
Proof. intros n A B. split; assumption. Qed.
Ltac reg := first [apply ok_number; [discriminate|repeat (apply Forall_cons || apply Forall_nil); unfold Fld_Spec.digit; cbn; lia] | split; [ok_symbol|exact I]].
Example C119_case_sound : Forall branch_sound lb.
Proof.
  constructor; [split; [split; [cbn; lia|]; split; [exact I|]; split; [split; split; [reg|exact I|reg|exact I]|split; [exact I|split; [reg|exact I]]]|ok_symbol]|].
  constructor; [|constructor; [split; [split; [exact I|split; [reg|exact I]]|ok_symbol]|constructor]].
  split; [|ok_symbol]. split; [cbn; lia|]. split; [exact I|]. split.
  - split; [split; [|exact I]|split; [reg|exact I]]. split; [cbn; lia|]. split; reg.
  - split; [reflexivity|]. split; split; [reg|exact I|reg|exact I].
Qed.
Example C119_case_texts : Forall2 branch_text lb tb.
Proof.
  constructor; [|constructor; [|constructor; [|constructor]]].
  - exists (s2b "(&A gt 7 OR  NOT &b)"). split; [|reflexivity].
    apply (t_paren c1 (s2b "&A gt 7 OR  NOT &b") [] []); [exists 0; reflexivity|exists 0; reflexivity|].
    apply (t_join_not Either _ _ (s2b "&A gt 7") (s2b "&b") (s2b " ") (s2b "OR") (s2b "  ") (s2b "NOT") (s2b " "));
      [exists 0; reflexivity|exists 1; reflexivity|exists 0; reflexivity|reflexivity|reflexivity| |].
    + apply (t_compare More va (n1 "7") (s2b " ") (s2b "gt") (s2b " ")); [exists 0; reflexivity|exists 0; reflexivity|reflexivity].
    + apply (t_truth (WVariable (s2b "b") [])).
  - exists (s2b "( &A+1 EQ 6 and (NOT 2 LT 1))"). split; [|reflexivity].
    apply (t_paren c2 (s2b "&A+1 EQ 6 and (NOT 2 LT 1)") (s2b " ") []); [exists 1; reflexivity|exists 0; reflexivity|].
    apply (t_join Both _ _ (s2b "&A+1 EQ 6") (s2b "(NOT 2 LT 1)") (s2b " ") (s2b "and") (s2b " ")); [exists 0; reflexivity|exists 0; reflexivity|reflexivity| |].
    + apply (t_compare Equal (WBinary Add va (n1 "1")) (n1 "6") (s2b " ") (s2b "EQ") (s2b " ")); [exists 0; reflexivity|exists 0; reflexivity|reflexivity].
    + apply (t_paren (Not (Compare Less (n1 "2") (n1 "1"))) (s2b "NOT 2 LT 1") [] []); [exists 0; reflexivity|exists 0; reflexivity|].
      apply (t_not _ (s2b "NOT") (s2b " ") (s2b "2 LT 1")); [exists 0; reflexivity|reflexivity|].
      apply (t_compare Less (n1 "2") (n1 "1") (s2b " ") (s2b "LT") (s2b " ")); [exists 0; reflexivity|exists 0; reflexivity|reflexivity].
  - exists (s2b "(&Q)"). split; [|reflexivity]. apply (t_paren _ (s2b "&Q") [] []); [exists 0; reflexivity|exists 0; reflexivity|].
    apply (t_truth (WVariable (s2b "Q") [])).
Qed.
Lemma n1_worth : forall n d, Forall2 Ca_Spec.dec_digit (s2b n) [d] -> (d < 10)%Z -> worth wb (n1 n) (Some d).
Proof.
  intros n d D L. pose proof (w_number wb (s2b n) [d] D) as Q. assert (V : Ca_Spec.numeral 10 [d] = d) by (unfold Ca_Spec.numeral; cbn; lia). rewrite V in Q.
  apply Q; [lia|]. inversion D as [|? ? ? ? ? D']; subst. inversion D'; subst. cbn. lia.
Qed.
Ltac num1 := apply n1_worth; [repeat constructor; cbv; (discriminate || reflexivity)|lia].
Lemma va_worth : worth wb va (Some 5%Z).
Proof. apply (w_variable wb _ [] [] (VNum 5)); [constructor|reflexivity|constructor]. Qed.
Example C119_case_holds : Forall2 (fun b o => holds wb (fst b) o) lb [Some false; Some true; None].
Proof.
  constructor; [|constructor; [|constructor; [|constructor]]].
  - apply (h_join wb Either true _ _ false true).
    + apply (h_compare wb More va (n1 "7") 5 7); [apply va_worth|num1|lia].
    + apply (h_variable wb (s2b "b") [] [] (VBool true) 1); [constructor|reflexivity|apply (held_truth true)|discriminate|auto].
  - apply (h_join wb Both false _ _ true true).
    + apply (h_compare wb Equal _ _ 6 6); [apply (w_binary wb Add _ _ 5 1); [apply va_worth|num1]|num1|lia].
    + apply h_paren. apply (h_not wb _ (Some false)). apply (h_compare wb Less _ _ 2 1); [num1|num1|lia].
  - apply (h_unknown wb (s2b "Q") [] [] 0); [constructor|reflexivity].
Qed.
Example C119_case_decided : decided (combine [Some false; Some true; None] (map snd lb)) = Some (Some (s2b "NEAR")).
Proof. reflexivity. Qed.
Example C119_case_setb : set_operands (fun _ => false) wb KB (s2b " (&A EQ 5 AND NOT &B),1,&B,(&Q OR 1)") 10 =
  Some [Answer [] (Some (SET_B false, [])); Answer [] (Some (SET_B true, [])); Answer [] (Some (SET_B true, []));
        Answer [] (Some (SET_B true, [Rd 0]))].
Proof. vm_compute. reflexivity. Qed.
