(** From the characters of conditional assembly operands to lexemes and to the grammar. *)
From Coq Require Import String Ascii List NArith ZArith Bool Arith Lia ZifyBool ZifyNat ZifyN.
From Verif Require Import Common Lex_Model Fld_Model Fld_Lex Fld_Proof Fld_Terms Fld_Expr.
From Verif Require Fld_Spec Ca_Spec.
From Verif Require Import Cag_Model Cag_Spec.
From Verif Require Import Caf_Model Caf_Spec.
Import ListNotations.
Open Scope list_scope.
Notation length := List.length.
Notation big := Fld_Spec.big.

(** ** The name of a variable symbol *)
Lemma T_name : forall p n r ts, Fld_Spec.symbol n -> no_word r -> Toks true p (n ++ r) ts ->
  exists ts', ts = Lx ORDSYMBOL n p (p + length n) :: ts' /\ Toks false (p + length n) r ts'.
Proof.
  intros p n r ts S R H. destruct (symbol_class n S) as (N & W & C). toks_inv H.
  - destruct n; [congruence|discriminate].
  - symmetry in E0. pose proof (head_word _ _ _ _ N W E0) as X. rewrite (punct_word _ _ Hq) in X. discriminate.
  - symmetry in E0. pose proof (head_word _ _ _ _ N W E0) as X. discriminate.
  - symmetry in E0. pose proof (head_word _ _ _ _ N W E0) as X. discriminate.
  - destruct (split_unique n w0 r rest' W W0 R R0 E0) as (<- & <-). rewrite C.
    exists ts'. split; [reflexivity|]. apply (at_pos _ _ _ _ _ Tl). change (@List.length BinNums.N) with (@List.length char) in *. rewrite (app_length (A := char)). lia.
  - discriminate.
  - exfalso. subst rest'.
    assert (P : exists t, n = w0 ++ y0 :: t).
    { clear - W0 Y E0 R. revert n E0. induction w0 as [|a w IH]; intros n E0.
      - destruct n as [|b n]; cbn [app] in E0; [subst r; cbn in R; congruence|]. injection E0 as -> _. exists n. reflexivity.
      - cbn [forallb] in W0. apply andb_true_iff in W0 as (Wa & W0).
        destruct n as [|b n]; cbn [app] in E0; [subst r; cbn in R; congruence|]. injection E0 as -> E0.
        destruct (IH W0 n E0) as (t & ->). exists t. reflexivity. }
    destruct P as (t & ->). clear - S Cut N0. destruct w0 as [|a w]; [congruence|]. cbn [app] in *. destruct S as ((A & B) & _).
    assert (forallb ord_char (a :: w ++ [y0]) = true).
    { cbn [forallb]. rewrite (proj1 (ord_spec a ltac:(tauto))). cbn [andb]. apply forallb_forall. intros c I.
      apply in_app_iff in I. rewrite Forall_forall in B. apply ord_spec. apply B. apply in_app_iff. cbn in *. tauto. }
    rewrite H in Cut. cbn [andb] in Cut. unfold Lex_Model.is_digit, Fld_Spec.letter, Fld_Spec.national in *. lia.
Qed.

(** ** Lexemes *)
Lemma lexeme_shrinks : forall ts k r, lexeme ts = Some (k, r) -> length r < length ts.
Proof.
  intros [|t ts] k r E; [discriminate|]. unfold lexeme in E.
  destruct (lt t); try discriminate; try (injection E as <- <-; cbn [length]; lia).
  - destruct (string_rest ts) as [((x & h) & r1)|] eqn:M; [|discriminate]. injection E as <- <-. eapply string_shrinks in M; [|apply le_n]. cbn [length]. lia.
  - destruct ts as [|q ts]; [discriminate|]. destruct (lt q); try discriminate.
    destruct (more name_ch (l_hi q) ts) as ((x & h) & r1) eqn:M. injection E as <- <-. apply more_shrinks in M. cbn [length]. lia.
  - destruct (more is_word (l_hi t) ts) as ((x & h) & r1) eqn:M. apply more_shrinks in M.
    destruct ts as [|q ts]; [injection E as <- <-; cbn [length] in *; lia|].
    destruct (lt q); try (injection E as <- <-; cbn [length] in *; lia).
    destruct (string_rest ts) as [((y & h2) & r2)|] eqn:M2; [|discriminate]. destruct (self_def _ _); [|discriminate].
    injection E as <- <-. eapply string_shrinks in M2; [|apply le_n]. cbn [length]. lia.
  - destruct (more num_ch (l_hi t) ts) as ((x & h) & r1) eqn:M. apply more_shrinks in M. destruct (self_def _ _); [|discriminate].
    injection E as <- <-. cbn [length]. lia.
Qed.
Notation lexs d ts := (lexemes (S (length ts)) d ts).
Lemma lexemes_fuel : forall n m d ts, length ts < n -> length ts < m -> lexemes n d ts = lexemes m d ts.
Proof.
  induction n as [|n IH]; intros m d ts A B; [lia|]. destruct m as [|m]; [lia|]. cbn [lexemes].
  destruct ts as [|t ts]; [reflexivity|].
  destruct (lexeme (t :: ts)) as [(k & r)|] eqn:E; [|reflexivity]. apply lexeme_shrinks in E.
  rewrite (IH m _ r) by lia. reflexivity.
Qed.
Lemma lexs_cons : forall ts k r ks d, lexeme ts = Some (k, r) -> k <> TSpace ->
  lexs (deeper k d) r = Some ks -> lexs d ts = Some (k :: ks).
Proof.
  intros [|t ts] k r ks d E Nk Lr; [discriminate|]. remember (length (t :: ts)) as n eqn:En. cbn [lexemes].
  assert (Ne : is_eolln (lt t) = false) by (cbn in E; destruct (lt t); (reflexivity || discriminate)).
  pose proof (lexeme_shrinks _ _ _ E). rewrite E, Ne, (lexemes_fuel n (S (length r)) (deeper k d) r) by lia. rewrite Lr.
  replace (remark_begins k d) with false by (destruct k; (reflexivity || congruence)). reflexivity.
Qed.

(** ** Expressions as lexemes and as the trees of the parser *)
Definition xop (o : bop) : Cag_Model.bop := match o with Add => OAdd | Sub => OSub | Mul => OMul | Div => ODiv end.
Definition top (o : bop) : tok := match o with Add => TPlus | Sub => TMinus | Mul => TStar | Div => TSlash end.
Inductive as_tokens : wexpr -> cexpr -> list tok -> Prop :=
| at_number : forall d v, self_def [68%N] d = Some v -> as_tokens (WNumber d) (XConst v) [TConst v]
| at_term : forall t s v, self_def [t] s = Some v -> as_tokens (WTerm t s) (XConst v) [TConst v]
| at_symbol : forall n, as_tokens (WSymbol n) (XSym (map big n)) [TId (map big n)]
| at_variable : forall n, as_tokens (WVariable n []) (XVar (map big n) []) [TVar (map big n)]
| at_element : forall n e subs l a, as_list e subs l a ->
    as_tokens (WVariable n (e :: subs)) (XVar (map big n) l) (TVar (map big n) :: TLpar :: a ++ [TRpar])
| at_sign : forall m e x a, as_tokens e x a ->
    as_tokens (WSign m e) (XUn (if m then UMinus else UPlus) x) ((if m then TMinus else TPlus) :: a)
| at_paren : forall e x a, as_tokens e x a -> as_tokens (WParen e) (XList [x]) (TLpar :: a ++ [TRpar])
| at_binary : forall o l r x y a b, as_tokens l x a -> as_tokens r y b ->
    as_tokens (WBinary o l r) (XBin (xop o) x y) (a ++ top o :: b)
with as_list : wexpr -> list wexpr -> list cexpr -> list tok -> Prop :=
| al_one : forall e x a, as_tokens e x a -> as_list e [] [x] a
| al_more : forall e x a e2 es l b, as_tokens e x a -> as_list e2 es l b -> as_list e (e2 :: es) (x :: l) (a ++ TComma :: b).
Scheme at_m := Minimality for as_tokens Sort Prop with al_m := Minimality for as_list Sort Prop.
Combined Scheme tokens_ind from at_m, al_m.

(** ** Grammar *)
Lemma sums_snoc_add : forall d acc e a x b, sums false d acc e a -> prod false d x b -> sums false d acc (XBin OAdd e x) (a ++ TPlus :: b).
Proof.
  intros d acc e a x b H P. induction H.
  - cbn. rewrite <- (app_nil_r b). apply sums_add with x; [exact P|apply sums_nil].
  - cbn. rewrite <- app_assoc. apply sums_add with x0; auto.
  - cbn. rewrite <- app_assoc. apply sums_sub with x0; auto.
Qed.
Lemma sums_snoc_sub : forall d acc e a x b, sums false d acc e a -> prod false d x b -> sums false d acc (XBin OSub e x) (a ++ TMinus :: b).
Proof.
  intros d acc e a x b H P. induction H.
  - cbn. rewrite <- (app_nil_r b). apply sums_sub with x; [exact P|apply sums_nil].
  - cbn. rewrite <- app_assoc. apply sums_add with x0; auto.
  - cbn. rewrite <- app_assoc. apply sums_sub with x0; auto.
Qed.
Lemma prods_snoc_mul : forall d acc e a x b, prods false d acc e a -> unary false d x b -> prods false d acc (XBin OMul e x) (a ++ TStar :: b).
Proof.
  intros d acc e a x b H P. induction H.
  - cbn. rewrite <- (app_nil_r b). apply prods_mul with x; [exact P|apply prods_nil].
  - cbn. rewrite <- app_assoc. apply prods_mul with x0; auto.
  - cbn. rewrite <- app_assoc. apply prods_div with x0; auto.
Qed.
Lemma prods_snoc_div : forall d acc e a x b, prods false d acc e a -> unary false d x b -> prods false d acc (XBin ODiv e x) (a ++ TSlash :: b).
Proof.
  intros d acc e a x b H P. induction H.
  - cbn. rewrite <- (app_nil_r b). apply prods_div with x; [exact P|apply prods_nil].
  - cbn. rewrite <- app_assoc. apply prods_mul with x0; auto.
  - cbn. rewrite <- app_assoc. apply prods_div with x0; auto.
Qed.
Lemma prod_of_unary : forall d x a, unary false d x a -> prod false d x a.
Proof. intros. rewrite <- (app_nil_r a). apply prod_i with x; [assumption|apply prods_nil]. Qed.
Lemma sum_of_prod : forall d x a, prod false d x a -> sum false d x a.
Proof. intros. rewrite <- (app_nil_r a). apply sum_i with x; [assumption|apply sums_nil]. Qed.

Definition parses (e : wexpr) (x : cexpr) (a : list tok) : Prop :=
  forall d, sum false d x a /\ (2 <= tight e -> prod false d x a) /\ (3 <= tight e -> unary false d x a).
Lemma parses_unary : forall e x a, (forall d, unary false d x a) -> parses e x a.
Proof. intros e x a H d. split; [apply sum_of_prod, prod_of_unary, H|]. split; intros _; [apply prod_of_unary, H|apply H]. Qed.

Theorem grammar_ok :
  (forall e x a, as_tokens e x a -> regular e -> parses e x a) /\
  (forall e es l b, as_list e es l b -> regular e -> fold_right (fun e P => regular e /\ P) True es -> commas false l b).
Proof.
  apply tokens_ind.
  - intros. apply parses_unary. intros. apply unary_t, term_const.
  - intros. apply parses_unary. intros. apply unary_t, term_const.
  - intros. apply parses_unary. intros. apply unary_t, term_sym.
  - intros. apply parses_unary. intros. apply unary_t, term_var. constructor.
  - intros n e subs l a _ IH (_ & Re & Rs). apply parses_unary. intros. apply unary_t, term_var. constructor. auto.
  - intros m e x a _ IH (T & R). specialize (IH R). apply parses_unary. intros d. destruct (IH d) as (_ & _ & U). specialize (U ltac:(lia)).
    destruct m; constructor; exact U.
  - intros e x a _ IH (_ & R). specialize (IH R). apply parses_unary. intros d. apply unary_t, term_list.
    change (TLpar :: a ++ [TRpar]) with (TLpar :: blanks 0 ++ a ++ blanks 0 ++ [TRpar]). apply plist_i. apply items_one. apply IH.
  - intros o l r x y a b _ IHl _ IHr ((Tl & Tr) & Rl & Rr). specialize (IHl Rl). specialize (IHr Rr). intros d.
    destruct (IHl d) as (Sl & Pl & Ul), (IHr d) as (Sr & Pr & Ur). destruct o; cbn [tight xop top] in *.
    + split; [|split; lia]. inversion Sl; subst. rewrite <- app_assoc. eapply sum_i; [eassumption|]. apply sums_snoc_add; auto.
    + split; [|split; lia]. inversion Sl; subst. rewrite <- app_assoc. eapply sum_i; [eassumption|]. apply sums_snoc_sub; auto.
    + assert (P : prod false d (XBin OMul x y) (a ++ TStar :: b)).
      { specialize (Pl ltac:(lia)). inversion Pl; subst. rewrite <- app_assoc. eapply prod_i; [eassumption|]. apply prods_snoc_mul; auto. }
      split; [now apply sum_of_prod|split; [auto|lia]].
    + assert (P : prod false d (XBin ODiv x y) (a ++ TSlash :: b)).
      { specialize (Pl ltac:(lia)). inversion Pl; subst. rewrite <- app_assoc. eapply prod_i; [eassumption|]. apply prods_snoc_div; auto. }
      split; [now apply sum_of_prod|split; [auto|lia]].
  - intros e x a _ IH R _. constructor. apply IH, R.
  - intros e x a e2 es l b _ IH _ IH2 R (R2 & Rs). constructor; [apply IH, R|auto].
Qed.

(** ** Characters to lexemes *)
Definition lexed (p : nat) (r : list N) (ts : list lx) (a : list tok) : Prop :=
  exists p' ts', Toks false p' r ts' /\ forall d ks, lexs d ts' = Some ks -> lexs d ts = Some (a ++ ks).
Lemma mark_lexed : forall p x t k r ts, punctuation x = Some t -> x <> 38%N ->
  (forall lo hi y t2, lexeme (Lx t y lo hi :: t2) = Some (k, t2)) -> k <> TSpace -> Toks false p (x :: r) ts ->
  exists ts', Toks false (S p) r ts' /\ forall d ks, lexs (deeper k d) ts' = Some ks -> lexs d ts = Some (k :: ks).
Proof.
  intros p x t k r ts Hp N Hk Ns H. destruct (T_plain _ _ _ _ _ Hp N H) as (ts' & -> & T). exists ts'.
  split; [exact T|]. intros d ks E. eapply lexs_cons; [apply Hk|exact Ns|exact E].
Qed.
Lemma digits_word : forall d : list N, d <> [] -> Forall Fld_Spec.digit d -> forallb word_char d = true /\ class d = NUM.
Proof.
  intros d N D.
  assert (A : Forall (fun c => Lex_Model.is_digit c = true /\ word_char c = true) d).
  { eapply Forall_impl; [|exact D]. intros c Hc. split; [unfold Lex_Model.is_digit, Fld_Spec.digit in *; lia|]. apply ord_spec. auto. }
  split; [apply forallb_forall; rewrite Forall_forall in A; intros y I; apply A, I|].
  unfold class. replace (forallb Lex_Model.is_digit d) with true by (symmetry; apply forallb_forall; rewrite Forall_forall in A; intros y I; apply A, I).
  destruct d as [|c d]; [congruence|]. inversion A as [|? ? (Hc & _) _]; subst. rewrite Hc. cbn [negb]. rewrite andb_false_r. reflexivity.
Qed.
Lemma number_lexed : forall p d v r ts, d <> [] -> Forall Fld_Spec.digit d -> self_def [68%N] d = Some v -> follows r ->
  Toks false p (d ++ r) ts -> lexed p r ts [TConst v].
Proof.
  intros p d v r ts N D E F H. destruct (follow_no r F) as (Nw & Nq). destruct (digits_word d N D) as (W & C).
  destruct (T_word p d r ts N W Nw (or_intror Nq) H) as (ts' & -> & T). rewrite C.
  destruct (T_follow _ _ _ _ F T) as (t & t2 & -> & St).
  eexists. exists (t :: t2). split; [exact T|]. intros d0 ks Ek. eapply (lexs_cons _ (TConst v)); [|discriminate|exact Ek].
  unfold lexeme. cbn [lt l_lo l_hi ltx]. rewrite more_stops; [|exact St|intros k Hk; destruct k; (discriminate || reflexivity)].
  rewrite app_nil_r, E. reflexivity.
Qed.
Lemma term_lexed : forall p t s v r ts, In (big t) [66; 67; 88]%N -> self_def [t] s = Some v -> follows r ->
  Toks false p ((t :: 39%N :: flat_map Fld_Spec.doubled s ++ [39%N]) ++ r) ts -> lexed p r ts [TConst v].
Proof.
  intros p t s0 v r ts Ht Hv F H. destruct (follow_no r F) as (Nw & Nq).
  change ((t :: 39%N :: flat_map Fld_Spec.doubled s0 ++ [39%N]) ++ r) with ([t] ++ 39%N :: (flat_map Fld_Spec.doubled s0 ++ [39%N]) ++ r) in H.
  assert (Tt : word_char t = true /\ class [t] = ORDSYMBOL /\ letter_attr t = false).
  { unfold big in Ht. destruct ((97 <=? t) && (t <=? 122))%N eqn:Ll; cbn in Ht.
    - assert (X : t = 98%N \/ t = 99%N \/ t = 120%N) by lia. destruct X as [->|[->| ->]]; repeat split.
    - repeat destruct Ht as [<-|Ht]; try (split; [reflexivity|split; reflexivity]). destruct Ht. }
  destruct Tt as (W & C & La).
  assert (Nt : ~ (exists x, [t] = [x] /\ letter_attr x = true)) by (intros (x & Ex & Ax); injection Ex as <-; congruence).
  assert (Wt : forallb word_char [t] = true) by (cbn; now rewrite W).
  assert (Ne : [t] <> []) by discriminate.
  destruct (T_word p [t] (39%N :: (flat_map Fld_Spec.doubled s0 ++ [39%N]) ++ r) ts Ne Wt eq_refl (or_introl Nt) H) as (t1 & -> & T). rewrite C.
  destruct (T_quote _ _ _ _ T) as (t2 & -> & T2). rewrite <- app_assoc in T2. cbn [app] in T2.
  destruct (T_string _ s0 _ _ _ _ (le_n _) Nq T2) as (ts' & Es & T3).
  eexists. exists ts'. split; [exact T3|]. intros d ks Ek. eapply (lexs_cons _ (TConst v)); [|discriminate|exact Ek].
  unfold lexeme. cbn [lt l_lo ltx]. rewrite Es, Hv. reflexivity.
Qed.
Lemma upper_big : forall n, map upper n = map big n.
Proof. intros n. apply map_ext. intros c. reflexivity. Qed.
Lemma symbol_lexed : forall p n r ts, Fld_Spec.symbol n -> follows r -> Toks false p (n ++ r) ts -> lexed p r ts [TId (map big n)].
Proof.
  intros p n r ts S F H. destruct (symbol_class n S) as (N & W & C). destruct (follow_no r F) as (Nw & Nq).
  destruct (T_word p n r ts N W Nw (or_intror Nq) H) as (ts' & -> & T). rewrite C.
  destruct (T_follow _ _ _ _ F T) as (t & t2 & -> & St).
  eexists. exists (t :: t2). split; [exact T|]. intros d ks Ek. eapply (lexs_cons _ (TId (map big n))); [|discriminate|exact Ek].
  unfold lexeme. cbn [lt ltx l_hi]. rewrite more_stops by auto. rewrite app_nil_r, upper_big. destruct (lt t); try discriminate; reflexivity.
Qed.
Lemma name_lexed : forall p n r ts, Fld_Spec.symbol n -> follows r -> Toks false p (38%N :: n ++ r) ts -> lexed p r ts [TVar (map big n)].
Proof.
  intros p n r ts S F H. destruct (follow_no r F) as (Nw & Nq). destruct (T_mark _ _ 38%N AMPERSAND _ _ eq_refl H) as (t1 & -> & T1).
  destruct (T_name _ n r t1 S Nw T1) as (ts' & -> & T). destruct (T_follow _ _ _ _ F T) as (t & t2 & -> & St).
  eexists. exists (t :: t2). split; [exact T|]. intros d ks Ek. eapply (lexs_cons _ (TVar (map big n))); [|discriminate|exact Ek].
  unfold lexeme. cbn [lt ltx l_hi]. rewrite more_stops; [|exact St|intros k Hk; destruct k; (discriminate || reflexivity)].
  rewrite app_nil_r, upper_big. reflexivity.
Qed.

Lemma separated_cons : forall x y l, separated (x :: y :: l) = x ++ 44%N :: separated (y :: l).
Proof. reflexivity. Qed.
Theorem lex_ok :
  (forall e x a, as_tokens e x a -> regular e -> forall p r ts, follows r -> Toks false p (written e ++ r) ts -> lexed p r ts a) /\
  (forall e es l b, as_list e es l b -> regular e -> fold_right (fun e P => regular e /\ P) True es ->
    forall p r ts, follows r -> Toks false p (separated (map written (e :: es)) ++ r) ts -> lexed p r ts b).
Proof.
  apply tokens_ind.
  - intros d v E (N & D) p r ts F H. eapply number_lexed; eassumption.
  - intros t s v E (Ht & _) p r ts F H. eapply term_lexed; eassumption.
  - intros n Sn p r ts F H. eapply symbol_lexed; eassumption.
  - intros n (Sn & _) p r ts F H. eapply name_lexed; eassumption.
  - intros n e subs l a _ IH (Sn & Re & Rs) p r ts F H.
    change (written (WVariable n (e :: subs))) with (38%N :: n ++ 40%N :: separated (map written (e :: subs)) ++ [41%N]) in H.
    cbn [app] in H. rewrite <- app_assoc in H. cbn [app] in H. rewrite <- app_assoc in H. cbn [app] in H.
    destruct (name_lexed _ n _ _ Sn (fol 40%N _ eq_refl) H) as (p1 & t1 & T1 & L1).
    destruct (mark_lexed _ 40%N LPAR TLpar _ _ eq_refl ltac:(discriminate) ltac:(reflexivity) ltac:(discriminate) T1) as (t2 & T2 & L2).
    destruct (IH Re Rs _ _ _ (fol 41%N _ eq_refl) T2) as (p3 & t3 & T3 & L3).
    destruct (mark_lexed _ 41%N RPAR TRpar _ _ eq_refl ltac:(discriminate) ltac:(reflexivity) ltac:(discriminate) T3) as (t4 & T4 & L4).
    exists (S p3), t4. split; [exact T4|]. intros d ks Ek. cbn [app]. apply (L1 d (TLpar :: (a ++ [TRpar]) ++ ks)). apply L2. rewrite <- app_assoc. apply L3.
    cbn [app]. apply L4. exact Ek.
  - intros m e x a _ IH (_ & R) p r ts F H. cbn [written app] in H. destruct m.
    + destruct (mark_lexed _ 45%N MINUS TMinus _ _ eq_refl ltac:(discriminate) ltac:(reflexivity) ltac:(discriminate) H) as (t2 & T2 & L2).
      destruct (IH R _ _ _ F T2) as (p3 & t3 & T3 & L3). exists p3, t3. split; [exact T3|]. intros d ks Ek. apply L2, L3, Ek.
    + destruct (mark_lexed _ 43%N PLUS TPlus _ _ eq_refl ltac:(discriminate) ltac:(reflexivity) ltac:(discriminate) H) as (t2 & T2 & L2).
      destruct (IH R _ _ _ F T2) as (p3 & t3 & T3 & L3). exists p3, t3. split; [exact T3|]. intros d ks Ek. apply L2, L3, Ek.
  - intros e x a _ IH (_ & R) p r ts F H. cbn [written app] in H. rewrite <- app_assoc in H. cbn [app] in H.
    destruct (mark_lexed _ 40%N LPAR TLpar _ _ eq_refl ltac:(discriminate) ltac:(reflexivity) ltac:(discriminate) H) as (t2 & T2 & L2).
    destruct (IH R _ _ _ (fol 41%N _ eq_refl) T2) as (p3 & t3 & T3 & L3).
    destruct (mark_lexed _ 41%N RPAR TRpar _ _ eq_refl ltac:(discriminate) ltac:(reflexivity) ltac:(discriminate) T3) as (t4 & T4 & L4).
    exists (S p3), t4. split; [exact T4|]. intros d ks Ek. cbn [app]. apply L2. rewrite <- app_assoc. apply L3. cbn [app]. apply L4. exact Ek.
  - intros o l r x y a b _ IHl _ IHr (_ & Rl & Rr) p q ts F H. cbn [written] in H. rewrite <- app_assoc in H. cbn [app] in H.
    assert (Fm : follows (mark o :: written r ++ q)) by (destruct o; apply fol; reflexivity).
    destruct (IHl Rl _ _ _ Fm H) as (p1 & t1 & T1 & L1).
    assert (M : exists ts', Toks false (S p1) (written r ++ q) ts' /\ forall d ks, lexs (deeper (top o) d) ts' = Some ks -> lexs d t1 = Some (top o :: ks)).
    { destruct o; cbn [mark top] in *.
      - apply (mark_lexed _ 43%N PLUS TPlus _ _ eq_refl ltac:(discriminate) ltac:(reflexivity) ltac:(discriminate) T1).
      - apply (mark_lexed _ 45%N MINUS TMinus _ _ eq_refl ltac:(discriminate) ltac:(reflexivity) ltac:(discriminate) T1).
      - apply (mark_lexed _ 42%N ASTERISK TStar _ _ eq_refl ltac:(discriminate) ltac:(reflexivity) ltac:(discriminate) T1).
      - apply (mark_lexed _ 47%N SLASH TSlash _ _ eq_refl ltac:(discriminate) ltac:(reflexivity) ltac:(discriminate) T1). }
    destruct M as (t2 & T2 & L2). destruct (IHr Rr _ _ _ F T2) as (p3 & t3 & T3 & L3). exists p3, t3. split; [exact T3|].
    intros d ks Ek. rewrite <- app_assoc. apply L1. cbn [app]. apply L2. replace (deeper (top o) d) with d by (destruct o; reflexivity). apply L3, Ek.
  - intros e x a _ IH R _ p r ts F H. apply (IH R p r ts F). exact H.
  - intros e x a e2 es l b _ IH _ IH2 R (R2 & Rs) p r ts F H. cbn [map] in H. rewrite separated_cons, <- app_assoc in H. cbn [app] in H.
    destruct (IH R _ _ _ (fol 44%N _ eq_refl) H) as (p1 & t1 & T1 & L1).
    destruct (mark_lexed _ 44%N COMMA TComma _ _ eq_refl ltac:(discriminate) ltac:(reflexivity) ltac:(discriminate) T1) as (t2 & T2 & L2).
    destruct (IH2 R2 Rs _ _ _ F T2) as (p3 & t3 & T3 & L3). exists p3, t3. split; [exact T3|].
    intros d ks Ek. rewrite <- app_assoc. apply L1. cbn [app]. apply L2, L3, Ek.
Qed.
