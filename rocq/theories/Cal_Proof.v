(** Conditions: from their characters to their words, and their evaluation. *)
From Coq Require Import String Ascii List NArith ZArith Bool Arith Lia ZifyBool ZifyNat ZifyN.
From Verif Require Import Common Lex_Model Fld_Model Fld_Lex Fld_Proof Fld_Terms Fld_Expr Fld_Props.
From Verif Require Fld_Spec Ca_Spec Ca_Model Grp_Model Exp_Model.
From Verif Require Import Cag_Model Cag_Spec Cag_Props.
From Verif Require Import Caf_Model Caf_Spec Caf_Proof Caf_Eval Caf_Field.
From Verif Require Import Cal_Spec Cal_Model Cal_Group.
Import ListNotations.
Open Scope list_scope.
Notation length := List.length.
Notation KA := Grp_Model.KA.
Notation KB := Grp_Model.KB.
Notation Expr := Exp_Model.expr.

Inductive P : cond -> pc -> Prop :=
| p_truth : forall e cx x a, as_tokens e cx a -> term_of cx = Some x -> P (Truth e) (PLeaf cx x)
| p_compare : forall r e1 e2 cx x a cy y b, as_tokens e1 cx a -> term_of cx = Some x -> as_tokens e2 cy b -> term_of cy = Some y ->
    P (Compare r e1 e2) (PRel r cx x cy y)
| p_not : forall c p, P c p -> P (Not c) (PNot p)
| p_join : forall o n l r pl pr, P l pl -> P r pr -> P (Join o n l r) (PJoin o n pl pr)
| p_paren : forall c p ta tc, P c p -> term_of (XList (cells p)) = Some (Exp_Model.Lst ta (Some (expr_of p)) tc) ->
    P (Paren c) (PLeaf (XList (cells p)) (Exp_Model.Lst ta (Some (expr_of p)) tc)).

Lemma plain_leaf : forall e cx x a, as_tokens e cx a -> term_of cx = Some x -> plain e -> leaf_ok cx x.
Proof.
  intros e cx x a T X Pl. split; [exact X|]. intros ->. inversion T; subst. exact (Pl H1).
Qed.
Lemma P_ok : forall c p, P c p -> sound c -> ok p /\ (plevel p = Z.of_nat (level c)) /\ (simple c -> psimple p).
Proof.
  intros c p H. induction H as [e cx x a T X|r e1 e2 cx x a cy y b T X T2 Y|c p H IH|o n l r pl pr Hl IHl Hr IHr|c p ta tc H IH E]; cbn [sound].
  - intros (_ & _ & Pl). split; [eapply plain_leaf; eassumption|]. split; reflexivity.
  - intros ((_ & P1) & _ & P2). split; [split; eapply plain_leaf; eassumption|]. split; reflexivity.
  - intros (L & S). destruct (IH S) as (O & V & _). split; [split; [lia|exact O]|]. split; [reflexivity|intros []].
  - intros (L & Si & Sl & Sr). destruct (IHl Sl) as (Ol & Vl & _). destruct (IHr Sr) as (Or & _ & Sm).
    split; [|split; [destruct o; reflexivity|intros []]]. cbn [ok]. split; [|split; [auto|split; assumption]].
    rewrite Vl. destruct o; cbn in *; lia.
  - intros S. split; [split; [exact E|discriminate]|]. split; reflexivity.
Qed.

(** ** Evaluation *)
Import Exp_Model.
Definition truth_of (b : bool) (v : SET_t) : Prop :=
  b_value v = b /\ (type v = TYPE KB \/ type v = TYPE KA /\ a_value v = if b then 1%Z else 0%Z).
Definition goodb (o : option bool) (m : M SET_t) : Prop :=
  match o with Some b => exists v, m = Some (v, []) /\ truth_of b v | None => forall v, m <> Some (v, []) end.
Lemma number_truth : forall z, z = 0%Z \/ z = 1%Z -> truth_of (z =? 1)%Z (SET_A z).
Proof. intros z [->| ->]; (split; [reflexivity|right; split; reflexivity]). Qed.
Lemma not_character : forall cx x, term_of cx = Some x -> is_character_expression x = false.
Proof.
  fix IH 1. intros cx x H. destruct cx; cbn [term_of] in H; try discriminate.
  all: repeat match type of H with
    | match ?u with UPlus => _ | UMinus => _ end = _ => destruct u
    | match term_of ?e with Some _ => _ | None => _ end = _ => destruct (term_of e) eqn:?; try discriminate
    | match all ?e with Some _ => _ | None => _ end = _ => destruct (all e); try discriminate
    | match items_of ?k ?e with Some _ => _ | None => _ end = _ => destruct (items_of k e); try discriminate
    end; injection H as <-; cbn [is_character_expression]; try reflexivity; eapply IH; eassumption.
Qed.
Lemma numeric_kind : forall e cx a x, as_tokens e cx a -> term_of cx = Some x -> kind_after KA x = Some KA.
Proof.
  intros e cx a x T H. destruct T; cbn [term_of] in H.
  - injection H as <-. reflexivity.
  - injection H as <-. reflexivity.
  - injection H as <-. reflexivity.
  - injection H as <-. reflexivity.
  - destruct (all (map term_of l)); [|discriminate]. injection H as <-. reflexivity.
  - destruct m; cbn [term_of] in H; destruct (term_of x0); try discriminate; injection H as <-; reflexivity.
  - destruct (items_of 0 [x0]); [|discriminate]. destruct (all (map term_of [x0])); [|discriminate]. injection H as <-. reflexivity.
  - destruct (term_of x0); [|discriminate]. destruct (term_of y); [|discriminate]. injection H as <-. destruct o; reflexivity.
Qed.
Lemma rel_kind : forall r, is_relational (relop r) = true.
Proof. intros []; reflexivity. Qed.
Lemma join_kind : forall o n l, operands_kind (joinop o n) KB l = Some KB.
Proof. intros [] [] l; reflexivity. Qed.

Section World.
Variable w : world.
Definition means (c : cond) (o : option bool) : Prop :=
  exists p, P c p /\ resolve KB (expr_of p) = [] /\ goodb o (evaluate w (As KB) (expr_of p)).

Lemma atom_means : forall e o cx a x, variable_name e = false -> atom e -> as_tokens e cx a -> term_of cx = Some x ->
  good o (evaluate w (As KA) x) -> (forall z, o = Some z -> z = 0%Z \/ z = 1%Z) ->
  means (Truth e) (option_map (fun z => (z =? 1)%Z) o).
Proof.
  intros e o cx a x V A T X G Z. exists (PLeaf cx x). split; [econstructor; eassumption|]. cbn [expr_of].
  assert (Q : resolve KB x = [] /\ evaluate w (As KB) x = evaluate w (As KA) x).
  { destruct e; try discriminate; try destruct A; inversion T; subst; cbn in X; injection X as <-; split; reflexivity. }
  destruct Q as (Q & E). split; [exact Q|]. rewrite E. destruct o as [z|]; cbn [good goodb option_map] in *; [|exact G].
  rewrite G. eexists. split; [reflexivity|]. apply number_truth, Z. reflexivity.
Qed.
Lemma evaluate_variable_B : forall n xs, evaluate w (As KB) (VarSym (Some n) [] xs) =
  bind (sequence (map (subscript_value w) xs)) (fun zs => bind (match variable w n zs with
     inl v => ret (SET_of v) | inr d => report (SET_default UNDEF) (Rd d) end) (fun v => convert_variable v KB)).
Proof. intros n xs. cbn [evaluate]. unfold ret at 1. rewrite bind_some. reflexivity. Qed.
Lemma variable_means : forall n subs o cs xs,
  match subs with [] => cs = [] | e :: es => exists a, as_list e es cs a end ->
  all (map term_of cs) = Some xs -> flat_map (resolve KA) xs = [] ->
  goodb o (evaluate w (As KB) (VarSym (Some (map big n)) [] xs)) -> means (Truth (WVariable n subs)) o.
Proof.
  intros n subs o cs xs S A R G.
  assert (T : exists a, as_tokens (WVariable n subs) (XVar (map big n) cs) a).
  { destruct subs as [|e es]; [subst cs; eexists; apply at_variable|]. destruct S as (a & S). eexists. apply at_element. exact S. }
  destruct T as (a & T). exists (PLeaf (XVar (map big n) cs) (VarSym (Some (map big n)) [] xs)).
  split; [econstructor; [exact T|cbn [term_of]; rewrite A; reflexivity]|]. cbn [expr_of].
  split; [cbn [resolve flat_map app]; exact R|exact G].
Qed.
Lemma held_truth_value : forall v z, held v z -> v <> VChar [] -> z = 0%Z \/ z = 1%Z ->
  exists u, convert_variable (SET_of v) KB = Some (u, []) /\ truth_of (z =? 1)%Z u.
Proof.
  intros v z H Ne Hz. destruct H as [z|b| |s z D M L].
  - eexists. split; [reflexivity|]. destruct Hz as [->| ->]; (split; [reflexivity|left; reflexivity]).
  - eexists. split; [reflexivity|]. destruct b; (split; [reflexivity|left; reflexivity]).
  - congruence.
  - exists (SET_A z). split; [|now apply number_truth]. assert (held (VChar s) z) by now constructor.
    pose proof (held_value _ _ H) as Q. unfold convert_variable in *. cbn [SET_of type SET_C c_value] in *. destruct s; [congruence|exact Q].
Qed.
Lemma test_relation : forall r a b, Ca_Model.relation (relop r) (a - b) = test r a b.
Proof. intros [] a b; cbn [Ca_Model.relation relop test]; lia. Qed.
Lemma compare_means : forall r e1 e2 o1 o2, represents w e1 o1 -> represents w e2 o2 ->
  (forall a b, o1 = Some a -> o2 = Some b -> (-2147483648 <= a - b <= 2147483647)%Z) ->
  means (Compare r e1 e2) (match o1, o2 with Some a, Some b => Some (test r a b) | _, _ => None end).
Proof.
  intros r e1 e2 o1 o2 (cx & a & x & T & X & Rx & G) (cy & b & y & T2 & Y & Ry & G2) L.
  exists (PRel r cx x cy y). split; [econstructor; eassumption|]. cbn [expr_of].
  assert (K : operands_kind (relop r) KB x = Some KA).
  { unfold operands_kind. rewrite rel_kind, (not_character cx x X). reflexivity. }
  assert (F : (match relop r with Ca_Model.FIND_op | Ca_Model.INDEX_op => true | _ => false end) = false) by (destruct r; reflexivity).
  split.
  - cbn [resolve kind_eqb negb]. rewrite F. cbn [andb]. rewrite K, Rx, Ry. reflexivity.
  - cbn [evaluate]. rewrite K. destruct o1 as [u|], o2 as [v|]; cbn [good goodb] in *.
    + rewrite G, bind_some, G2, bind_some. cbn [binary_operation]. rewrite rel_kind, (numeric_kind e1 cx a x T X). cbn [compare_relational a_value SET_A].
      assert (C : Ca_Model.compare_a u v = Ca_Model.Ok (u - v)%Z).
      { specialize (L u v eq_refl eq_refl). unfold Ca_Model.compare_a, Ca_Model.INT_MIN, Ca_Model.INT_MAX.
        match goal with |- (if ?c then _ else _) = _ => destruct c eqn:Q end; [reflexivity|lia]. }
      rewrite C. cbn [lift]. unfold ret at 1. rewrite bind_some, test_relation. eexists. split; [reflexivity|]. split; [reflexivity|left; reflexivity].
    + intros z B. apply bind_silent in B as (q & _ & B). apply bind_silent in B as (q2 & B & _). exact (G2 q2 B).
    + intros z B. apply bind_silent in B as (q & B & _). exact (G q B).
    + intros z B. apply bind_silent in B as (q & B & _). exact (G q B).
Qed.
Lemma join_means : forall o n l r a b, means l a -> means r b ->
  means (Join o n l r) (match a, b with Some a, Some b => Some (combined o a (xorb n b)) | _, _ => None end).
Proof.
  intros o n l r a b (pl & Hl & Rl & Gl) (pr & Hr & Rr & Gr). exists (PJoin o n pl pr). split; [now constructor|]. cbn [expr_of].
  assert (F : (match joinop o n with Ca_Model.FIND_op | Ca_Model.INDEX_op => true | _ => false end) = false) by (destruct o, n; reflexivity).
  split; [cbn [resolve kind_eqb negb]; rewrite F; cbn [andb]; rewrite join_kind, Rl, Rr; reflexivity|].
  cbn [evaluate]. rewrite join_kind. destruct a as [a|], b as [b|]; cbn [goodb] in *.
  - destruct Gl as (u & -> & (Bu & _)). destruct Gr as (v & -> & (Bv & _)). rewrite bind_some, bind_some. rewrite <- Bu, <- Bv.
    destruct o, n; cbn; (eexists; split; [reflexivity|]); (split; [|left; reflexivity]); destruct (b_value u), (b_value v); reflexivity.
  - intros z B. apply bind_silent in B as (q & _ & B). apply bind_silent in B as (q2 & B & _). exact (Gr q2 B).
  - intros z B. apply bind_silent in B as (q & B & _). exact (Gl q B).
  - intros z B. apply bind_silent in B as (q & B & _). exact (Gl q B).
Qed.

Theorem cond_ok : forall c o, holds w c o -> sound c -> means c o.
Proof.
  intros c o H. induction H as [e z V W Z|e V W|n subs zs v z Os Hv Hh Ne Z|n subs zs d Os Hv|n subs os Os I
    |r e1 e2 a b W1 W2 L|r e1 e2 b W1 W2|r e1 e2 a W1 W2|c o H IH|o n l r a b Hl IHl Hr IHr|o n l r b Hl IHl Hr IHr|o n l r a Hl IHl Hr IHr|c o H IH]; cbn [sound].
  - intros (A & R & _). destruct (proj1 (eval_ok w) e _ W R) as (cx & a & x & T & X & _ & G).
    apply (atom_means e (Some z) cx a x); try assumption. intros y E. injection E as <-. exact Z.
  - intros (A & R & _). destruct (proj1 (eval_ok w) e _ W R) as (cx & a & x & T & X & _ & G).
    apply (atom_means e None cx a x); try assumption. discriminate.
  - intros (_ & (_ & R) & _). destruct (proj2 (eval_ok w) _ _ Os R) as (cs & xs & S & A & Rs & G & _).
    eapply variable_means; try eassumption. rewrite evaluate_variable_B, (G zs eq_refl), bind_some, Hv. unfold ret. rewrite bind_some.
    now apply held_truth_value.
  - intros (_ & (_ & R) & _). destruct (proj2 (eval_ok w) _ _ Os R) as (cs & xs & S & A & Rs & G & _).
    eapply variable_means; try eassumption. rewrite evaluate_variable_B, (G zs eq_refl), bind_some, Hv. intros v. discriminate.
  - intros (_ & (_ & R) & _). destruct (proj2 (eval_ok w) _ _ Os R) as (cs & xs & S & A & Rs & _ & G).
    eapply variable_means; try eassumption. rewrite evaluate_variable_B. intros v B. apply bind_silent in B as (zs & B & _). exact (G I zs B).
  - intros ((R1 & _) & R2 & _). apply (compare_means r e1 e2 (Some a) (Some b)); try (now apply (proj1 (eval_ok w))).
    intros x y E1 E2. injection E1 as <-. injection E2 as <-. exact L.
  - intros ((R1 & _) & R2 & _). pose proof (compare_means r e1 e2 None b (proj1 (eval_ok w) _ _ W1 R1) (proj1 (eval_ok w) _ _ W2 R2)) as Q.
    apply Q. discriminate.
  - intros ((R1 & _) & R2 & _). pose proof (compare_means r e1 e2 a None (proj1 (eval_ok w) _ _ W1 R1) (proj1 (eval_ok w) _ _ W2 R2)) as Q.
    destruct a; apply Q; discriminate.
  - intros (_ & S). destruct (IH S) as (p & Hp & Rp & G). exists (PNot p). split; [now constructor|]. cbn [expr_of].
    split; [cbn; exact Rp|]. cbn [evaluate]. change (get_operands_type Ca_Model.NOT KB) with (Some KB). cbv iota.
    destruct o as [b|]; cbn [goodb option_map] in *.
    + destruct G as (v & -> & (B & _)). rewrite bind_some. cbn. eexists. split; [reflexivity|]. rewrite B. split; [reflexivity|left; reflexivity].
    + intros v B. apply bind_silent in B as (q & B & _). exact (G q B).
  - intros (_ & _ & Sl & Sr). exact (join_means o n l r (Some a) (Some b) (IHl Sl) (IHr Sr)).
  - intros (_ & _ & Sl & Sr). exact (join_means o n l r None b (IHl Sl) (IHr Sr)).
  - intros (_ & _ & Sl & Sr). pose proof (join_means o n l r a None (IHl Sl) (IHr Sr)) as Q. destruct a; exact Q.
  - intros S. destruct (IH S) as (p & Hp & Rp & G). destruct (list_term p (proj1 (P_ok c p Hp S))) as (ta & tc & E).
    exists (PLeaf (XList (cells p)) (Lst ta (Some (expr_of p)) tc)). split; [now constructor|]. cbn [expr_of resolve evaluate]. split; assumption.
Qed.
Lemma final_truth : forall b v x, truth_of b v -> exists u, convert_return_types v KB x = Some (u, []) /\ b_value u = b /\ type u = TYPE KB.
Proof.
  intros b v x (B & [T|(T & A)]); unfold convert_return_types; rewrite T.
  - exists v. split; [reflexivity|]. split; assumption.
  - cbn [kind_eqb andb]. rewrite A. destruct b; cbn; eexists; (split; [reflexivity|split; reflexivity]).
Qed.
Lemma final_cond : forall o m x, goodb o m -> match o with
  | Some b => exists u, bind m (fun v => convert_return_types v KB x) = Some (u, []) /\ b_value u = b /\ type u = TYPE KB
  | None => forall v, bind m (fun v => convert_return_types v KB x) <> Some (v, []) end.
Proof.
  intros [b|] m x G; cbn [goodb] in G.
  - destruct G as (v & -> & T). rewrite bind_some. now apply final_truth.
  - intros v B. apply bind_silent in B as (q & B & _). exact (G q B).
Qed.
End World.
