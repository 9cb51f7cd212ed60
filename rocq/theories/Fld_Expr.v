(** The expressions and operands of fields. *)
From Coq Require Import String Ascii List NArith ZArith Bool Arith Lia ZifyBool ZifyNat ZifyN.
From Verif Require Import Common Lex_Model Fld_Model Fld_Spec Fld_Lex Fld_Proof Fld_Terms.
From Verif Require Import Gram_Model Gram_Spec Gram_Proof.
From Verif Require Ca_Spec.
Import ListNotations.
Open Scope list_scope.
Notation length := List.length.

Definition leaf (e : wexpr) : Prop := match e with WSign _ _ | WParen _ | WBinary _ _ _ => False | _ => True end.

Lemma T_plain : forall p x t r ts, punctuation x = Some t -> x <> 38%N -> Toks false p (x :: r) ts ->
  exists ts', ts = Lx t [x] p (S p) :: ts' /\ Toks false (S p) r ts'.
Proof.
  intros p x t r ts Hp N H. destruct (T_mark _ _ _ _ _ _ Hp H) as (ts' & -> & T). exists ts'. split; [reflexivity|].
  replace (is_ty t AMPERSAND) with false in T; [exact T|]. clear - Hp N. unfold punctuation in Hp. destruct x as [|x]; [discriminate|].
  repeat (match type of Hp with context[match ?x with _ => _ end] => destruct x; try discriminate Hp end; cbn in Hp); injection Hp as <-; try reflexivity; congruence.
Qed.

Lemma leaf_lexeme : forall e p m r ts, leaf e -> regular e -> reading p e m -> follows r -> Toks false p (written e ++ r) ts ->
  exists k ts', lexeme ts = Some (Tok k p (p + size e), ts') /\ term_kind k /\ leaf_means k (p, p + size e) m /\
    Toks false (p + size e) r ts'.
Proof.
  intros e p m r ts Lf Rg Rd F H. destruct (follow_no r F) as (Nw & Nq). destruct e; try destruct Lf; cbn [written] in *.
  - inversion Rd; subst. destruct (id_symbol p n r ts Rg F H) as (ts' & Hi & T & -> & _). exists (KId (named n)), ts'.
    split; [|split; [constructor|split; [constructor|exact T]]].
    destruct (T_follow _ _ _ _ F T) as (t & t2 & -> & St). unfold lexeme. cbn [lt l_lo]. rewrite Hi. destruct (lt t); try discriminate; reflexivity.
  - destruct Rg as (Rq & Rn). inversion Rd; subst. rewrite <- app_assoc in H. cbn [app] in H.
    destruct (symbol_class q Rq) as (N & W & C).
    assert (Q46 : no_quote (46%N :: n ++ r)) by (cbn; discriminate).
    destruct (T_word p q (46%N :: n ++ r) ts N W eq_refl (or_intror Q46) H) as (t1 & -> & T). rewrite C.
    destruct (T_plain _ 46%N DOT _ _ eq_refl ltac:(discriminate) T) as (t2 & -> & T2).
    destruct (id_symbol _ n r t2 Rn F T2) as (ts' & Hi & T3 & -> & Hd).
    match type of T3 with Toks _ ?a _ _ => assert (Hp : a = p + length (q ++ 46%N :: n)) by place; rewrite Hp in * end. exists (KId (named n)), ts'.
    split; [|split; [constructor|split; [constructor|exact T3]]].
    unfold lexeme. cbn [lt l_lo]. unfold id. unfold id_no_dot at 1. cbn [lt l_hi ltx more is_word].
    rewrite Hd. reflexivity.
  - destruct Rg as (N & D). inversion Rd as [| |? ? ds Hd Hm Hl| | | | | |]; subst.
    assert (W : forallb word_char d = true /\ class d = NUM).
    { assert (A : Forall (fun c => Lex_Model.is_digit c = true /\ word_char c = true) d).
      { eapply Forall_impl; [|exact D]. intros c Hc. split; [unfold Lex_Model.is_digit, Fld_Spec.digit in *; lia|]. apply ord_spec. auto. }
      split; [apply forallb_forall; rewrite Forall_forall in A; intros y I; apply A, I|].
      unfold class. replace (forallb Lex_Model.is_digit d) with true by (symmetry; apply forallb_forall; rewrite Forall_forall in A; intros y I; apply A, I).
      destruct d as [|c d]; [congruence|]. inversion A as [|? ? (Hc & _) _]; subst. rewrite Hc. cbn [negb]. rewrite andb_false_r. reflexivity. }
    destruct W as (W & C). destruct (T_word p d r ts N W Nw (or_intror Nq) H) as (ts' & -> & T). rewrite C.
    destruct (T_follow _ _ _ _ F T) as (t & t2 & -> & St).
    exists (KNum (name_of d) (Ca_Spec.numeral 10 ds)), (t :: t2).
    split; [|split; [constructor|split; [constructor|exact T]]].
    unfold lexeme. cbn [lt l_lo l_hi ltx]. rewrite more_stops; [|exact St|intros k Hk; destruct k; (discriminate || reflexivity)].
    rewrite app_nil_r, (number_self d ds N Hd Hm Hl). reflexivity.
  - destruct Rg as (Ht & _). inversion Rd as [| | |? ? ? v Hv| | | | |]; subst. rename s into s0.
    change (t :: 39%N :: flat_map doubled s0 ++ [39%N]) with ([t] ++ 39%N :: flat_map doubled s0 ++ [39%N]) in H.
    assert (Tt : word_char t = true /\ class [t] = ORDSYMBOL /\ letter_attr t = false).
    { unfold big in Ht. destruct ((97 <=? t) && (t <=? 122))%N eqn:Ll; cbn in Ht.
      - assert (X : t = 98%N \/ t = 99%N \/ t = 120%N) by lia. destruct X as [->|[->| ->]]; repeat split.
      - repeat destruct Ht as [<-|Ht]; try (split; [reflexivity|split; reflexivity]). destruct Ht. }
    destruct Tt as (W & C & La).
    rewrite <- app_assoc in H.
    assert (Nt : ~ (exists x, [t] = [x] /\ letter_attr x = true)) by (intros (x & Ex & Ax); injection Ex as <-; congruence).
    assert (Wt : forallb word_char [t] = true) by (cbn; now rewrite W).
    assert (Ne : [t] <> []) by discriminate.
    destruct (T_word p [t] (39%N :: (flat_map doubled s0 ++ [39%N]) ++ r) ts Ne Wt eq_refl (or_introl Nt) H) as (t1 & -> & T). rewrite C.
    cbn [app] in T. destruct (T_quote _ _ _ _ T) as (t2 & -> & T2). rewrite <- app_assoc in T2. cbn [app] in T2.
    destruct (T_string _ s0 _ _ _ _ (le_n _) Nq T2) as (ts' & Es & T3). cbn [length] in *.
    match type of T3 with Toks _ ?a _ _ => assert (Hp : a = p + S (S (length (flat_map doubled s0 ++ [39%N])))) by place; rewrite Hp in * end. exists (KSelf v), ts'.
    split; [|split; [constructor|split; [constructor|exact T3]]].
    unfold lexeme. cbn [lt l_lo ltx]. rewrite Es, (valued_self _ _ _ Hv). reflexivity.
  - destruct Rg as (Ha & Hn). inversion Rd; subst.
    assert (La : letter_attr a = true /\ is_data_attr (@cons char a (@nil char)) = true).
    { unfold attribute, big in Ha. unfold is_data_attr. cbn [map]. unfold upper. destruct ((97 <=? a) && (a <=? 122))%N eqn:Ll; cbn in Ha.
      - assert (X : a = 100%N \/ a = 111%N \/ a = 110%N \/ a = 115%N \/ a = 107%N \/ a = 105%N \/ a = 108%N \/ a = 116%N) by lia.
        repeat destruct X as [->|X]; try (split; reflexivity). subst a. split; reflexivity.
      - repeat destruct Ha as [<-|Ha]; try (split; reflexivity). destruct Ha. }
    destruct La as (La & Da). cbn [app] in H. destruct (T_attr _ _ _ _ La H) as (t1 & -> & T).
    destruct (id_symbol _ n r t1 Hn F T) as (ts' & Hi & T3 & -> & _). cbn [length].
    match type of T3 with Toks _ ?a _ _ => assert (Hp : a = p + S (S (length n))) by place; rewrite Hp in * end.
    exists (KAttr (named [a]) (named n)), ts'.
    split; [|split; [constructor|split; [constructor|exact T3]]].
    unfold lexeme. cbn [lt l_lo ltx]. rewrite Da, Hi. replace (name_of (map upper (@cons char a (@nil char)))) with (named [a]); [reflexivity|symmetry; apply (name_named [a])].
  - inversion Rd; subst. cbn [app] in H. destruct (T_plain _ 42%N ASTERISK _ _ eq_refl ltac:(discriminate) H) as (ts' & -> & T).
    cbn [length]. replace (p + 1) with (S p) by lia. exists KStar, ts'.
    split; [reflexivity|split; [constructor|split; [constructor|exact T]]].
Qed.

(** A punctuation mark is a lexeme of its own. *)
Lemma mark_lexeme : forall p x t k r ts, punctuation x = Some t -> x <> 38%N ->
  (forall lo hi y t2, lexeme (Lx t y lo hi :: t2) = Some (Tok k lo hi, t2)) -> k <> KSpace ->
  Toks false p (x :: r) ts -> exists ts', Toks false (p + 1) r ts' /\
    forall ks e, lexs ts' = Some (ks, e) -> lexs ts = Some (Tok k p (p + 1) :: ks, e).
Proof.
  intros p x t k r ts Hp N Hk Ns H. destruct (T_plain _ _ _ _ _ Hp N H) as (ts' & -> & T). exists ts'.
  replace (p + 1) with (S p) by lia. split; [exact T|]. intros ks e E. eapply lexs_cons; [apply Hk| |exact E].
  unfold is_space. destruct k; try reflexivity. congruence.
Qed.

Theorem expr_field : forall e p m, regular e -> reading p e m -> forall r ts, follows r -> Toks false p (written e ++ r) ts ->
  exists T ts', proper T /\ means T m /\ rank T = tight e /\ covers T = (p, p + size e) /\ Toks false (p + size e) r ts' /\
    forall ks x, lexs ts' = Some (ks, x) -> lexs ts = Some (text T ++ ks, x).
Proof.
  assert (Lf : forall e p m, leaf e -> regular e -> reading p e m -> forall r ts, follows r -> Toks false p (written e ++ r) ts ->
    exists T ts', proper T /\ means T m /\ rank T = tight e /\ covers T = (p, p + size e) /\ Toks false (p + size e) r ts' /\
      forall ks x, lexs ts' = Some (ks, x) -> lexs ts = Some (text T ++ ks, x)).
  { intros e p m L Rg Rd r ts F H. destruct (leaf_lexeme e p m r ts L Rg Rd F H) as (k & ts' & E & Tk & Lm & T).
    exists (Leaf (Tok k p (p + size e))), ts'. split; [exact Tk|]. split; [constructor; exact Lm|].
    split; [destruct e; try destruct L; reflexivity|]. split; [reflexivity|]. split; [exact T|].
    intros ks x Ek. cbn [text app]. eapply lexs_cons; [exact E| |exact Ek]. destruct Tk; reflexivity. }
  induction e as [n|q n|d|t s|a n| |b e IH|e IH|o l IHl rr IHr]; try (intros p m; apply (Lf _ p m); exact Logic.I); clear Lf.
  - intros p m (Tg & Rg) Rd r ts F H. inversion Rd as [| | | | | |? ? ? m' Rd'| |]; subst. cbn [written app] in H.
    assert (M : exists ts', Toks false (p + 1) (written e ++ r) ts' /\
      forall ks x, lexs ts' = Some (ks, x) -> lexs ts = Some (Tok (if b then KMinus else KPlus) p (p + 1) :: ks, x)).
    { destruct b; eapply mark_lexeme; try exact H; try reflexivity; discriminate. }
    destruct M as (t1 & T1 & L1). destruct (IH _ _ Rg Rd' r t1 F T1) as (T & ts' & Pr & Me & Rk & Cv & Tk & Lx).
    injection Cv as Cl Ch.
    exists (Sign (Tok (if b then KMinus else KPlus) p (p + 1)) T), ts'.
    assert (Hs : p + 1 + size e = p + size (WSign b e)) by (cbn [written length]; lia).
    assert (Hc : covers (Sign (Tok (if b then KMinus else KPlus) p (p + 1)) T) = (p, p + size (WSign b e))).
    { unfold covers. cbn [first_tok last_tok lo]. rewrite Ch, Hs. reflexivity. }
    split; [cbn; rewrite Rk; destruct b; auto|]. split.
    { rewrite <- Hc. constructor; [destruct b; constructor|exact Me]. }
    split; [reflexivity|]. split; [exact Hc|]. split; [rewrite <- Hs; exact Tk|].
    intros ks x E. cbn [text app]. apply L1, Lx, E.
  - intros p m Rg Rd r ts F H. inversion Rd as [| | | | | | |? ? m' Rd'|]; subst. cbn [written app] in H. rewrite <- app_assoc in H. cbn [app] in H.
    destruct (mark_lexeme p 40%N LPAR KLpar _ ts eq_refl ltac:(discriminate) ltac:(reflexivity) ltac:(discriminate) H) as (t1 & T1 & L1).
    destruct (IH _ _ Rg Rd' (41%N :: r) t1 ltac:(cbn; auto 9) T1) as (T & t2 & Pr & Me & Rk & Cv & Tk & Lx).
    destruct (mark_lexeme _ 41%N RPAR KRpar _ t2 eq_refl ltac:(discriminate) ltac:(reflexivity) ltac:(discriminate) Tk) as (t3 & T3 & L3).
    assert (Hs : p + 1 + size e + 1 = p + size (WParen e)) by (cbn [written length]; rewrite app_length; cbn [length]; lia).
    set (q := Tok KRpar (p + 1 + size e) (p + 1 + size e + 1)) in *.
    exists (Paren (Tok KLpar p (p + 1)) T q), t3.
    assert (Hc : covers (Paren (Tok KLpar p (p + 1)) T q) = (p, p + size (WParen e))).
    { unfold covers. cbn [first_tok last_tok lo hi q]. rewrite Hs. reflexivity. }
    split; [cbn; auto|]. split; [rewrite <- Hc; constructor; exact Me|].
    split; [reflexivity|]. split; [exact Hc|]. split; [rewrite <- Hs; exact T3|].
    intros ks x E. cbn [text app]. rewrite <- app_assoc. apply L1, Lx, L3, E.
  - intros p m (Tg & Rl & Rr) Rd r ts F H. inversion Rd as [| | | | | | | |? ? ? ? ml mr Rdl Rdr]; subst. cbn [written] in H. rewrite <- app_assoc in H. cbn [app] in H.
    destruct (IHl _ _ Rl Rdl (mark o :: written rr ++ r) ts ltac:(destruct o; cbn; auto 9) H) as (Tl & t1 & Pl & Ml & Kl & Cl & T1 & L1).
    set (k := match o with OAdd => KPlus | OSub => KMinus | OMul => KStar | ODiv => KSlash end).
    assert (M : exists ts', Toks false (p + size l + 1) (written rr ++ r) ts' /\
      forall ks x, lexs ts' = Some (ks, x) -> lexs t1 = Some (Tok k (p + size l) (p + size l + 1) :: ks, x)).
    { destruct o; eapply mark_lexeme; try exact T1; try reflexivity; discriminate. }
    destruct M as (t2 & T2 & L2).
    destruct (IHr _ _ Rr Rdr r t2 F T2) as (Tr & t3 & Pr & Mr & Kr & Cr & T3 & L3).
    injection Cl as Cll Clh. injection Cr as Crl Crh.
    assert (Hs : p + size l + 1 + size rr = p + size (WBinary o l rr)) by (cbn [written]; rewrite app_length; cbn [length]; lia).
    exists (Infix Tl (Tok k (p + size l) (p + size l + 1)) Tr), t3.
    assert (Hc : covers (Infix Tl (Tok k (p + size l) (p + size l + 1)) Tr) = (p, p + size (WBinary o l rr))).
    { unfold covers. cbn [first_tok last_tok]. rewrite Cll, Crh, Hs. reflexivity. }
    assert (Hk : rank_of k = tight (WBinary o l rr)) by (destruct o; reflexivity).
    split. { cbn [proper tk]. rewrite Hk, Kl, Kr. destruct Tg as (A & B). repeat split; try assumption. destruct o; cbn; lia. }
    split. { rewrite <- Hc. constructor; [destruct o; constructor|exact Ml|exact Mr]. }
    split; [exact Hk|]. split; [exact Hc|]. split; [rewrite <- Hs; exact T3|].
    intros ks x E. cbn [text]. rewrite <- app_assoc. cbn [app]. apply L1, L2, L3, E.
Qed.

(** ** Operands *)
Definition behind (r : list char) : Prop := match r with [] => True | x :: _ => x = 44%N \/ x = 32%N end.
Lemma behind_follows : forall r, behind r -> follows r.
Proof. intros [|x r] H; [exact Logic.I|]. cbn in *. destruct H as [->| ->]; auto 9. Qed.

Lemma fol : forall x r, existsb (N.eqb x) [43; 45; 42; 47; 40; 41; 44; 32]%N = true -> follows (x :: r).
Proof. intros x r H. apply existsb_exists in H as (y & I & E). apply N.eqb_eq in E. subst y. exact I. Qed.
Ltac mark_step x t k H t1 T1 L1 :=
  destruct (mark_lexeme _ x t k _ _ eq_refl ltac:(discriminate) ltac:(reflexivity) ltac:(discriminate) H) as (t1 & T1 & L1).

Theorem operand_field : forall o p m, o <> WNone -> op_regular o -> op_reading p o m -> forall r ts, behind r -> Toks false p (op_written o ++ r) ts ->
  exists T ts', oproper T /\ omeans T m /\ Toks false (p + osize o) r ts' /\
    forall ks x, lexs ts' = Some (ks, x) -> lexs ts = Some (otext T ++ ks, x).
Proof.
  assert (Ch : forall (a : pos * pos) b, a = b -> fst a = fst b) by (intros; now subst).
  intros o p m No Rg Rd r ts Bh H. destruct Rd as [|e m Rd|d b md mb Rd Rb|d x b md mx mb Rd Rx Rb|d b md mb Rd Rb|d x md mx Rd Rx];
    [congruence| | | | |]; cbn [op_written op_regular] in *.
  - destruct (expr_field e p m Rg Rd r ts (behind_follows _ Bh) H) as (T & ts' & Pr & Me & _ & Cv & Tk & Lx).
    exists (OtExpr T), ts'. split; [exact Pr|]. split; [rewrite <- Cv; constructor; exact Me|]. auto.
  - destruct Rg as (Gd & Gb). rewrite <- app_assoc in H. cbn [app] in H. rewrite <- app_assoc in H. cbn [app] in H.
    destruct (expr_field d p md Gd Rd _ ts (fol 40%N _ eq_refl) H) as (Td & t1 & Pd & Md & _ & Cd & T1 & L1). apply Ch in Cd. cbn in Cd.
    mark_step 40%N LPAR KLpar T1 t2 T2 L2.
    destruct (expr_field b _ mb Gb Rb _ t2 (fol 41%N _ eq_refl) T2) as (Tb & t3 & Pb & Mb & _ & _ & T3 & L3).
    mark_step 41%N RPAR KRpar T3 t4 T4 L4.
    match type of L4 with forall ks e, _ -> _ = Some (?q :: _, _) => set (Q := q) in * end.
    match type of L2 with forall ks e, _ -> _ = Some (?q :: _, _) => set (P := q) in * end.
    exists (OtB Td P Tb Q), t4.
    assert (Hs : p + size d + 1 + size b + 1 = p + length (written d ++ 40%N :: written b ++ [41%N])) by place.
    split; [cbn; auto|]. split; [|split].
    + rewrite <- Hs. pose proof (om_b Td P Tb Q md mb Md Mb) as X. rewrite Cd in X. exact X.
    + rewrite <- Hs. exact T4.
    + intros ks y E. cbn [otext]. rewrite <- app_assoc. cbn [app]. rewrite <- app_assoc. apply L1, L2, L3, L4, E.
  - destruct Rg as (Gd & Gx & Gb). repeat (rewrite <- app_assoc in H; cbn [app] in H).
    destruct (expr_field d p md Gd Rd _ ts (fol 40%N _ eq_refl) H) as (Td & t1 & Pd & Md & _ & Cd & T1 & L1). apply Ch in Cd. cbn in Cd.
    mark_step 40%N LPAR KLpar T1 t2 T2 L2.
    destruct (expr_field x _ mx Gx Rx _ t2 (fol 44%N _ eq_refl) T2) as (Tx & t3 & Px & Mx & _ & _ & T3 & L3).
    mark_step 44%N COMMA KComma T3 t4 T4 L4.
    replace (p + size d + size x + 2) with (p + size d + 1 + size x + 1) in Rb by lia.
    destruct (expr_field b _ mb Gb Rb _ t4 (fol 41%N _ eq_refl) T4) as (Tb & t5 & Pb & Mb & _ & _ & T5 & L5).
    mark_step 41%N RPAR KRpar T5 t6 T6 L6.
    match type of L6 with forall ks e, _ -> _ = Some (?q :: _, _) => set (Q := q) in * end.
    match type of L4 with forall ks e, _ -> _ = Some (?q :: _, _) => set (C := q) in * end.
    match type of L2 with forall ks e, _ -> _ = Some (?q :: _, _) => set (P := q) in * end.
    exists (OtXB Td P Tx C Tb Q), t6.
    assert (Hs : p + size d + 1 + size x + 1 + size b + 1 = p + length (written d ++ 40%N :: written x ++ 44%N :: written b ++ [41%N])) by place.
    split; [cbn; auto 9|]. split; [|split].
    + rewrite <- Hs. pose proof (om_xb Td P Tx C Tb Q md mx mb Md Mx Mb) as X. rewrite Cd in X. exact X.
    + rewrite <- Hs. exact T6.
    + intros ks y E. cbn [otext]. repeat (rewrite <- app_assoc; cbn [app]). apply L1, L2, L3, L4, L5, L6, E.
  - destruct Rg as (Gd & Gb). repeat (rewrite <- app_assoc in H; cbn [app] in H).
    destruct (expr_field d p md Gd Rd _ ts (fol 40%N _ eq_refl) H) as (Td & t1 & Pd & Md & _ & Cd & T1 & L1). apply Ch in Cd. cbn in Cd.
    mark_step 40%N LPAR KLpar T1 t2 T2 L2.
    mark_step 44%N COMMA KComma T2 t4 T4 L4.
    replace (p + size d + 2) with (p + size d + 1 + 1) in Rb by lia.
    destruct (expr_field b _ mb Gb Rb _ t4 (fol 41%N _ eq_refl) T4) as (Tb & t5 & Pb & Mb & _ & _ & T5 & L5).
    mark_step 41%N RPAR KRpar T5 t6 T6 L6.
    match type of L6 with forall ks e, _ -> _ = Some (?q :: _, _) => set (Q := q) in * end.
    match type of L4 with forall ks e, _ -> _ = Some (?q :: _, _) => set (C := q) in * end.
    match type of L2 with forall ks e, _ -> _ = Some (?q :: _, _) => set (P := q) in * end.
    exists (Ot_B Td P C Tb Q), t6.
    assert (Hs : p + size d + 1 + 1 + size b + 1 = p + length (written d ++ 40%N :: 44%N :: written b ++ [41%N])) by place.
    split; [cbn; auto 9|]. split; [|split].
    + rewrite <- Hs. pose proof (om__b Td P C Tb Q md mb Md Mb) as X. rewrite Cd in X. exact X.
    + rewrite <- Hs. exact T6.
    + intros ks y E. cbn [otext]. repeat (rewrite <- app_assoc; cbn [app]). apply L1, L2, L4, L5, L6, E.
  - destruct Rg as (Gd & Gx). repeat (rewrite <- app_assoc in H; cbn [app] in H).
    destruct (expr_field d p md Gd Rd _ ts (fol 40%N _ eq_refl) H) as (Td & t1 & Pd & Md & _ & Cd & T1 & L1). apply Ch in Cd. cbn in Cd.
    mark_step 40%N LPAR KLpar T1 t2 T2 L2.
    destruct (expr_field x _ mx Gx Rx _ t2 (fol 44%N _ eq_refl) T2) as (Tx & t3 & Px & Mx & _ & _ & T3 & L3).
    mark_step 44%N COMMA KComma T3 t4 T4 L4.
    mark_step 41%N RPAR KRpar T4 t6 T6 L6.
    match type of L6 with forall ks e, _ -> _ = Some (?q :: _, _) => set (Q := q) in * end.
    match type of L4 with forall ks e, _ -> _ = Some (?q :: _, _) => set (C := q) in * end.
    match type of L2 with forall ks e, _ -> _ = Some (?q :: _, _) => set (P := q) in * end.
    exists (OtX_ Td P Tx C Q), t6.
    assert (Hs : p + size d + 1 + size x + 1 + 1 = p + length (written d ++ 40%N :: written x ++ [44%N; 41%N])) by place.
    split; [cbn; auto 9|]. split; [|split].
    + rewrite <- Hs. pose proof (om_x_ Td P Tx C Q md mx Md Mx) as X. rewrite Cd in X. exact X.
    + rewrite <- Hs. exact T6.
    + intros ks y E. cbn [otext]. repeat (rewrite <- app_assoc; cbn [app]). apply L1, L2, L3, L4, L6, E.
Qed.

(** ** Fields *)
Lemma rest_lexs : forall p r ts, remark r -> Toks false p r ts ->
  exists ks x, lexs ts = Some (ks, x) /\ field_end ks /\ Gram_Spec.start x ks = p.
Proof.
  intros p [|c r] ts R H.
  - apply T_nil in H. subst ts. exists [], p. repeat split.
  - destruct R as (-> & _). destruct (T_blank _ _ _ _ H) as (y & h & ts' & ->).
    exists [Tok KSpace p h], p. repeat split.
Qed.

Theorem list_field : forall l o p ms, op_regular o -> Forall op_regular l -> field_reading p o l ms ->
  forall r ts, remark r -> Toks false p (field o l ++ r) ts ->
  exists ks x, lexs ts = Some (ks, x) /\ Listed otree mop otext oproper omeans OpEmpty x ks ms.
Proof.
  assert (Dn : forall o : woperand, o = WNone \/ o <> WNone) by (intros []; (now left) || (right; discriminate)).
  induction l as [|o2 l IH]; intros o p ms Go Gl Rd r ts Rm H.
  - inversion Rd as [? ? m Ro|]; subst. cbn [field] in H.
    destruct (Dn o) as [->|No].
    + inversion Ro; subst. cbn [op_written app] in H. destruct (rest_lexs _ _ _ Rm H) as (ks & x & E & Fe & St).
      exists ks, x. split; [exact E|]. rewrite <- St. now apply ls_omitted_last.
    + destruct (operand_field o p m No Go Ro r ts ltac:(destruct r as [|c r]; [exact Logic.I|right; apply Rm]) H) as (T & t1 & Pr & Me & Tk & Lx).
      destruct (rest_lexs _ _ _ Rm Tk) as (ks & x & E & Fe & St). exists (otext T ++ ks), x. split; [apply Lx, E|].
      now apply ls_last.
  - inversion Rd as [|? ? m ? ? ms' Ro Rl]; subst. inversion Gl as [|? ? G2 Gl']; subst. cbn [field] in H. rewrite <- app_assoc in H. cbn [app] in H.
    destruct (Dn o) as [->|No].
    + inversion Ro; subst. cbn [op_written app length] in *. mark_step 44%N COMMA KComma H t1 T1 L1.
      replace (p + 0 + 1) with (p + 1) in Rl by lia.
      destruct (IH o2 _ _ G2 Gl' Rl r t1 Rm T1) as (ks & x & E & Ls). eexists. exists x. split; [apply L1, E|].
      apply (ls_omitted otree mop otext oproper omeans OpEmpty x (Tok KComma p (p + 1))); [reflexivity|exact Ls].
    + destruct (operand_field o p m No Go Ro (44%N :: field o2 l ++ r) ts ltac:(cbn; auto) H) as (T & t1 & Pr & Me & Tk & Lx).
      mark_step 44%N COMMA KComma Tk t2 T2 L2.
      destruct (IH o2 _ _ G2 Gl' Rl r t2 Rm T2) as (ks & x & E & Ls). eexists. exists x. split; [apply Lx, L2, E|].
      apply ls_more; [exact Pr|exact Me|reflexivity|exact Ls].
Qed.
