(** Evaluating arithmetic operands of conditional assembly. *)
From Coq Require Import String Ascii List NArith ZArith Bool Arith Lia ZifyBool ZifyNat ZifyN.
From Verif Require Import Common Fld_Model Fld_Terms.
From Verif Require Fld_Spec Ca_Spec CaNum_Proof Grp_Model Exp_Model.
From Verif Require Import Cag_Model Caf_Model Caf_Spec Caf_Proof.
Import ListNotations.
Open Scope list_scope.
Notation length := List.length.
Import Exp_Model.
Notation KA := Grp_Model.KA.

Definition good (o : option Z) (m : M SET_t) : Prop :=
  match o with Some z => m = Some (SET_A z, []) | None => forall v, m <> Some (v, []) end.
Lemma bind_silent : forall A B (m : M A) (f : A -> M B) y, bind m f = Some (y, []) ->
  exists x, m = Some (x, []) /\ f x = Some (y, []).
Proof.
  intros A B m f y H. unfold bind in H. destruct m as [(x & ds)|]; [|discriminate].
  destruct (f x) as [(z & es)|] eqn:F; [|discriminate]. injection H as <- H. apply app_eq_nil in H as (-> & ->). exists x. auto.
Qed.
Lemma bind_some : forall A B (x : A) (f : A -> M B), bind (Some (x, [])) f = f x.
Proof. intros. cbn. destruct (f x) as [(y & es)|]; reflexivity. Qed.

Lemma not_name : forall n, Grp_Model.get_operator n = Ca_Model.NOT -> n = s2b "NOT".
Proof.
  intros n H. unfold Grp_Model.get_operator, Grp_Model.operator_names in H. cbn [Grp_Model.lookup] in H.
  repeat (match type of H with (if bytes_eqb n ?k then _ else _) = _ =>
    destruct (bytes_eqb n k) eqn:?; [try discriminate; apply bytes_eqb_eq; assumption|] end).
  discriminate.
Qed.
Lemma single : forall it, (forall n, it = Grp_Model.Sym n -> n <> s2b "NOT") ->
  Grp_Model.resolve_expression_tree KA [it] = Some (inl (Grp_Model.Leaf it)).
Proof.
  intros it H. unfold Grp_Model.resolve_expression_tree, Grp_Model.resolve. cbn [Grp_Model.retrieve_term].
  replace (Grp_Model.unary_at KA it) with (@None Ca_Model.op); [reflexivity|].
  unfold Grp_Model.unary_at. destruct it as [nm|?|?|?]; try reflexivity. destruct (Grp_Model.get_operator nm) eqn:G; try reflexivity.
  apply not_name in G. destruct (H nm eq_refl G).
Qed.

Lemma last_digit : forall s ds c, s <> [] -> Forall2 Ca_Spec.dec_digit s ds -> (List.last (c ++ s) 0%N =? Ca_Model.quote)%N = false.
Proof.
  intros s ds c N D.
  assert (I : In (List.last (c ++ s) 0%N) s).
  { induction c as [|a c IH]; cbn [app].
    - clear D. destruct s as [|x s]; [congruence|]. clear N. revert x. induction s as [|a s IH]; intros x; [left; reflexivity|]. right. apply IH.
    - destruct (c ++ s) eqn:E; [destruct c; [cbn in E; congruence|discriminate]|]. exact IH. }
  revert I. generalize (List.last (c ++ s) 0%N). intros x I.
  assert (X : exists d, Ca_Spec.dec_digit x d).
  { clear - D I. induction D as [|a b l l' R D IH]; [destruct I|]. destruct I as [<-|I]; [eauto|auto]. }
  destruct X as (d & Hd). unfold Ca_Spec.dec_digit in Hd. unfold Ca_Model.quote. lia.
Qed.
Lemma held_value : forall v z, held v z -> convert_variable (SET_of v) KA = Some (SET_A z, []).
Proof.
  intros v z H. destruct H as [z|b| |s z D M L].
  - reflexivity.
  - destruct b; reflexivity.
  - reflexivity.
  - unfold convert_variable. cbn [SET_of type SET_C c_value].
    assert (Q : Ca_Model.self_defining_term s = Ca_Model.Ok z).
    { unfold Ca_Model.self_defining_term.
      replace (List.last s 0%N =? Ca_Model.quote)%N with false.
      2: { symmetry. destruct D as [s ds N D|s ds N D|s ds N D]; [apply (last_digit s ds [] N D)|apply (last_digit s ds [43%N] N D)|apply (last_digit s ds [45%N] N D)]. }
      rewrite andb_false_r. replace (Ca_Model.self_defining 68 s) with (Ca_Model.D2A s).
      - apply CaNum_Proof.D2A_digits; [exact D|unfold Ca_Spec.int32; lia|exact L].
      - destruct D as [s ds N D|s ds N D|s ds N D]; [|reflexivity|reflexivity]. destruct s; [congruence|reflexivity]. }
    destruct s; [exfalso; inversion D; congruence|]. rewrite Q. reflexivity.
Qed.

Lemma fits_op : forall o a b, good (computed o a b)
  (basic_operation (match xop o with OAdd => ADD | OSub => SUB | OMul => MUL | ODiv => DIV end) (SET_A a) (SET_A b)).
Proof.
  assert (F : forall z, good (fits z) (lift SET_A (SET_A 0) (Ca_Model.overflow_transform z))).
  { intros z. unfold fits, Ca_Model.overflow_transform. unfold Ca_Model.INT_MIN, Ca_Model.INT_MAX.
    destruct ((-2147483648 <=? z) && (z <=? 2147483647)) eqn:B, (z >? 2147483647) eqn:C, (z <? -2147483648) eqn:E; try lia.
    all: cbn; try reflexivity; intros v; discriminate. }
  intros o a b. destruct o; cbn [computed xop basic_operation a_value SET_A]; try apply F.
  unfold Ca_Model.ca_div. destruct (b =? 0)%Z; [reflexivity|apply F].
Qed.

Section World.
Variable w : world.
Definition subscript_value (x : expr) : M Z :=
  bind (evaluate w (As KA) x) (fun v => a_of (convert_return_types v KA (kind_after KA x))).
Definition represents (e : wexpr) (o : option Z) : Prop :=
  exists cx a x, as_tokens e cx a /\ term_of cx = Some x /\ resolve KA x = [] /\ good o (evaluate w (As KA) x).
Definition represent (l : list wexpr) (os : list (option Z)) : Prop :=
  exists cs xs, match l with [] => cs = [] | e :: es => exists a, as_list e es cs a end /\
    all (map term_of cs) = Some xs /\ flat_map (resolve KA) xs = [] /\
    (forall zs, os = map Some zs -> sequence (map subscript_value xs) = Some (zs, [])) /\
    (In None os -> forall v, sequence (map subscript_value xs) <> Some (v, [])).

Lemma variable_term : forall n subs o cs xs,
  match subs with [] => cs = [] | e :: es => exists a, as_list e es cs a end ->
  all (map term_of cs) = Some xs -> flat_map (resolve KA) xs = [] ->
  good o (evaluate w (As KA) (VarSym (Some (map big n)) [] xs)) -> represents (WVariable n subs) o.
Proof.
  intros n subs o cs xs S A R G.
  assert (T : exists a, as_tokens (WVariable n subs) (XVar (map big n) cs) a).
  { destruct subs as [|e es]; [subst cs; eexists; apply at_variable|]. destruct S as (a & S). eexists. apply at_element. exact S. }
  destruct T as (a & T). exists (XVar (map big n) cs), a. eexists. split; [exact T|]. cbn [term_of]. rewrite A.
  split; [reflexivity|]. split; [cbn [resolve flat_map app]; exact R|exact G].
Qed.
Lemma evaluate_variable : forall n xs, evaluate w (As KA) (VarSym (Some n) [] xs) =
  bind (sequence (map subscript_value xs)) (fun zs => bind (match variable w n zs with
     inl v => ret (SET_of v) | inr d => report (SET_default UNDEF) (Rd d) end) (fun v => convert_variable v KA)).
Proof. intros n xs. cbn [evaluate]. unfold ret at 1. rewrite bind_some. reflexivity. Qed.

Scheme worth_m := Minimality for worth Sort Prop with outcomes_m := Minimality for outcomes Sort Prop.
Combined Scheme worth_ind2 from worth_m, outcomes_m.

Theorem eval_ok :
  (forall e o, worth w e o -> regular e -> represents e o) /\
  (forall l os, outcomes w l os -> fold_right (fun e P => regular e /\ P) True l -> represent l os).
Proof.
  apply worth_ind2.
  - intros d ds D M L (N & _). exists (XConst (Ca_Spec.numeral 10 ds)). eexists. eexists.
    split; [apply at_number, number_self; auto|]. repeat split.
  - intros t s v V _. exists (XConst v). eexists. eexists. split; [apply at_term, valued_self, V|]. repeat split.
  - intros n _. exists (XSym (map big n)). eexists. eexists. split; [apply at_symbol|]. split; [reflexivity|]. split; [reflexivity|].
    cbn [evaluate]. unfold good. destruct (absolute w (map big n)); [reflexivity|]. intros v. discriminate.
  - intros n subs zs v z _ IH Hv Hh (_ & R). destruct (IH R) as (cs & xs & S & A & Rs & G & _).
    eapply variable_term; try eassumption. rewrite evaluate_variable, (G zs eq_refl), bind_some, Hv. unfold ret. rewrite bind_some.
    apply held_value, Hh.
  - intros n subs zs d _ IH Hv (_ & R). destruct (IH R) as (cs & xs & S & A & Rs & G & _).
    eapply variable_term; try eassumption. rewrite evaluate_variable, (G zs eq_refl), bind_some, Hv. intros v. discriminate.
  - intros n subs os _ IH I (_ & R). destruct (IH R) as (cs & xs & S & A & Rs & _ & G).
    eapply variable_term; try eassumption. rewrite evaluate_variable. intros v B. apply bind_silent in B as (zs & B & _). exact (G I zs B).
  - intros e o _ IH (_ & R). destruct (IH R) as (cx & a & x & T & X & Rx & G). exists (XUn UPlus cx). eexists. eexists.
    split; [apply (at_sign false), T|]. cbn [term_of]. rewrite X. split; [reflexivity|]. split; [exact Rx|]. cbn [evaluate].
    destruct o as [z|]; cbn [good] in *.
    + rewrite G, bind_some. reflexivity.
    + intros v B. apply bind_silent in B as (y & B & _). exact (G y B).
  - intros e z _ IH Nz (_ & R). destruct (IH R) as (cx & a & x & T & X & Rx & G). exists (XUn UMinus cx). eexists. eexists.
    split; [apply (at_sign true), T|]. cbn [term_of]. rewrite X. split; [reflexivity|]. split; [exact Rx|]. cbn [evaluate good] in *.
    rewrite G, bind_some. unfold Ca_Model.ca_minus. cbn [a_value SET_A]. unfold Ca_Model.INT_MIN.
    match goal with |- context [if ?b then _ else _] => destruct b eqn:B end; [lia|reflexivity].
  - intros e _ IH (_ & R). destruct (IH R) as (cx & a & x & T & X & Rx & G). exists (XUn UMinus cx). eexists. eexists.
    split; [apply (at_sign true), T|]. cbn [term_of]. rewrite X. split; [reflexivity|]. split; [exact Rx|]. cbn [evaluate good] in *.
    intros v B. apply bind_silent in B as (y & B & _). exact (G y B).
  - intros e o _ IH (Pl & R). destruct (IH R) as (cx & a & x & T & X & Rx & G). exists (XList [cx]). eexists.
    assert (I : exists it, item_of 0 cx = Some it /\ (forall n, it = Grp_Model.Sym n -> n <> s2b "NOT") /\
      planted KA [x] (Grp_Model.Leaf it) = Some x).
    { inversion T; subst; cbn [item_of].
      all: try (eexists; split; [reflexivity|]; split; [intros ? ?; discriminate|reflexivity]).
      eexists. split; [reflexivity|]. split; [intros ? E; injection E as <-; exact Pl|]. cbn [planted]. symmetry. symmetry in X. cbn in X. congruence. }
    destruct I as (it & I & Ni & Pi). eexists. split; [apply at_paren, T|]. cbn [term_of map items_of]. rewrite I. cbn [all fold_right]. rewrite X.
    split; [reflexivity|]. cbn [resolve evaluate]. replace (grouped KA [it] [x]) with (Some x) by (unfold grouped; rewrite (single it Ni), Pi; reflexivity). split; [exact Rx|exact G].
  - intros o l r a b _ IHl _ IHr (_ & Rl & Rr). destruct (IHl Rl) as (cx & al & x & T & X & Rx & G). destruct (IHr Rr) as (cy & ar & y & T2 & Y & Ry & G2).
    exists (XBin (xop o) cx cy). eexists. eexists. split; [apply at_binary; eassumption|]. cbn [term_of]. rewrite X, Y. split; [reflexivity|].
    assert (K : basic_kind (match xop o with OAdd => ADD | OSub => SUB | OMul => MUL | ODiv => DIV end) = KA) by (destruct o; reflexivity).
    cbn [resolve evaluate]. rewrite K. cbn [kind_eqb negb]. rewrite Rx, Ry. split; [reflexivity|].
    cbn [good] in G, G2. rewrite G, bind_some, G2, bind_some. apply fits_op.
  - intros o l r b _ IHl _ IHr (_ & Rl & Rr). destruct (IHl Rl) as (cx & al & x & T & X & Rx & G). destruct (IHr Rr) as (cy & ar & y & T2 & Y & Ry & G2).
    exists (XBin (xop o) cx cy). eexists. eexists. split; [apply at_binary; eassumption|]. cbn [term_of]. rewrite X, Y. split; [reflexivity|].
    assert (K : basic_kind (match xop o with OAdd => ADD | OSub => SUB | OMul => MUL | ODiv => DIV end) = KA) by (destruct o; reflexivity).
    cbn [resolve evaluate]. rewrite K. cbn [kind_eqb negb]. rewrite Rx, Ry. split; [reflexivity|].
    intros v B. apply bind_silent in B as (u & B & _). exact (G u B).
  - intros o l r b _ IHl _ IHr (_ & Rl & Rr). destruct (IHl Rl) as (cx & al & x & T & X & Rx & G). destruct (IHr Rr) as (cy & ar & y & T2 & Y & Ry & G2).
    exists (XBin (xop o) cx cy). eexists. eexists. split; [apply at_binary; eassumption|]. cbn [term_of]. rewrite X, Y. split; [reflexivity|].
    assert (K : basic_kind (match xop o with OAdd => ADD | OSub => SUB | OMul => MUL | ODiv => DIV end) = KA) by (destruct o; reflexivity).
    cbn [resolve evaluate]. rewrite K. cbn [kind_eqb negb]. rewrite Rx, Ry. split; [reflexivity|].
    intros v B. apply bind_silent in B as (u & _ & B). apply bind_silent in B as (u2 & B & _). exact (G2 u2 B).
  - intros _. exists [], []. split; [reflexivity|]. split; [reflexivity|]. split; [reflexivity|]. split.
    + intros zs E. destruct zs; [reflexivity|discriminate].
    + intros [].
  - intros e l o os _ IH _ IHl (R & Rl). destruct (IH R) as (cx & a & x & T & X & Rx & G). destruct (IHl Rl) as (cs & xs & S & A & Rs & Gs & Ns).
    exists (cx :: cs), (x :: xs). split.
    { destruct l as [|e2 es]; [subst cs; eexists; apply al_one, T|]. destruct S as (b & S). eexists. apply al_more; eassumption. }
    split; [cbn [map all fold_right]; unfold all in A; rewrite X, A; reflexivity|].
    split; [cbn [flat_map]; rewrite Rx, Rs; reflexivity|]. cbn [map sequence]. split.
    + intros zs E. destruct zs as [|z zs]; [discriminate|]. cbn [map] in E. injection E as -> ->. cbn [good] in G.
      unfold subscript_value at 1. rewrite G, bind_some.
      replace (a_of (convert_return_types (SET_A z) KA (kind_after KA x))) with (Some (z, @nil xdiag)) by reflexivity.
      rewrite bind_some, (Gs zs eq_refl), bind_some. reflexivity.
    + intros I v B. apply bind_silent in B as (z & B1 & B). apply bind_silent in B as (zs & B2 & _). destruct I as [->|I].
      * unfold subscript_value in B1. apply bind_silent in B1 as (u & B1 & _). exact (G u B1).
      * exact (Ns I zs B2).
Qed.

Lemma answered : forall o m x, good o m -> good o (bind m (fun v => convert_return_types v KA x)).
Proof.
  intros o m x G. destruct o as [z|]; cbn [good] in *.
  - rewrite G, bind_some. reflexivity.
  - intros v B. apply bind_silent in B as (u & B & _). exact (G u B).
Qed.
End World.
