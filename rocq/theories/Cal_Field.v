(** Whole operand fields with conditions. *)
From Coq Require Import String Ascii List NArith ZArith Bool Arith Lia ZifyBool ZifyNat ZifyN.
From Verif Require Import Common Lex_Model Fld_Model Fld_Lex Fld_Proof Fld_Terms Fld_Expr Fld_Props.
From Verif Require Fld_Spec Exp_Model Grp_Model.
From Verif Require Import Cag_Model Cag_Spec Cag_Props Caf_Model Caf_Spec Caf_Proof Caf_Eval Caf_Field.
From Verif Require Import Cal_Spec Cal_Model Cal_Group Cal_Proof.
Import ListNotations.
Open Scope list_scope.
Open Scope nat_scope.
Notation length := List.length.

(** ** Words and blanks in parentheses *)
Definition deep (t : list N) (a : list tok) : Prop := forall p r ts, follows r -> Toks false p (t ++ r) ts ->
  exists p' ts', Toks false p' r ts' /\ forall d ks, lexs (S d) ts' = Some ks -> lexs (S d) ts = Some (a ++ ks).
Definition starts (t : list N) : Prop := forall r, no_blank (t ++ r).
Lemma deep_of : forall t a, (forall p r ts, follows r -> Toks false p (t ++ r) ts -> lexed p r ts a) -> deep t a.
Proof. intros t a H p r ts F T. destruct (H p r ts F T) as (p' & ts' & T' & L). exists p', ts'. split; [exact T'|]. intros d ks. apply L. Qed.
Lemma lexs_space : forall x p h r ks d, lexs (S d) r = Some ks -> lexs (S d) (Lx SPACE x p h :: r) = Some (TSpace :: ks).
Proof. intros x p h r ks d H. cbn [length lexemes lt is_eolln lexeme remark_begins deeper] in *. rewrite H. reflexivity. Qed.
Definition few (g : list N) : nat := match g with [] => 0 | _ => 1 end.
Lemma pad_lexed : forall g p r ts, pad g -> no_blank r -> Toks false p (g ++ r) ts ->
  exists p' ts', Toks false p' r ts' /\ forall d ks, lexs (S d) ts' = Some ks -> lexs (S d) ts = Some (blanks (few g) ++ ks).
Proof.
  intros g p r ts (k & ->) B H. destruct k as [|k].
  - exists p, ts. split; [exact H|]. intros d ks E. exact E.
  - destruct (T_blanks _ _ _ _ B H) as (x & h & p' & ts' & -> & T). exists p', ts'. split; [exact T|]. intros d ks E. apply lexs_space, E.
Qed.
Lemma gap_pad : forall g, gap g -> pad g /\ few g = 1 /\ forall r, follows (g ++ r).
Proof. intros g (k & ->). split; [exists (S k); reflexivity|]. split; [reflexivity|]. intros r. apply fol. reflexivity. Qed.
Lemma starts_app : forall t u, starts t -> starts (t ++ u).
Proof. intros t u H r. rewrite <- app_assoc. apply H. Qed.
Lemma deep_join : forall t g u a b, gap g -> deep t a -> deep u b -> starts u -> deep (t ++ g ++ u) (a ++ blanks 1 ++ b).
Proof.
  intros t g u a b G A B S p r ts F H. destruct (gap_pad g G) as (Pd & Fw & Fo). rewrite <- !app_assoc in H.
  destruct (A _ _ _ (Fo _) H) as (p1 & t1 & T1 & L1). destruct (pad_lexed g _ _ _ Pd (S r) T1) as (p2 & t2 & T2 & L2).
  destruct (B _ _ _ F T2) as (p3 & t3 & T3 & L3). exists p3, t3. split; [exact T3|]. intros d ks E. rewrite <- !app_assoc. apply L1.
  rewrite Fw in L2. apply L2, L3, E.
Qed.
Lemma items_join : forall l a m b, items false l a -> items false m b -> items false (l ++ m) (a ++ blanks 1 ++ b).
Proof.
  induction l as [|e l IH]; intros a m b A B; inversion A; subst.
  - cbn [app]. apply items_more; [assumption|right; lia|exact B].
  - rewrite <- !app_assoc. cbn [app]. apply items_more; [assumption|assumption|]. apply IH; assumption.
Qed.
Lemma items_word : forall n, items false [XSym n] [TId n].
Proof. intros n. apply items_one, sum_of_prod, prod_of_unary, unary_t, term_sym. Qed.

Lemma big_letter : forall c x, big c = x -> (65 <= x <= 90)%N -> Fld_Spec.letter c.
Proof. intros c x E H. unfold big in E. unfold Fld_Spec.letter. destruct ((97 <=? c) && (c <=? 122))%N eqn:B; lia. Qed.
Lemma spelled_symbol : forall w s, spelled w s -> w <> [] -> Forall (fun x => 65 <= x <= 90)%N w -> length w <= 63 -> Fld_Spec.symbol s.
Proof.
  intros w s <- N F L. rewrite map_length in L. split; [|exact L].
  assert (A : Forall Fld_Spec.letter s).
  { clear N L. induction s as [|c s IH]; [constructor|]. cbn [map] in F. inversion F; subst. constructor; [eapply big_letter; [reflexivity|assumption]|auto]. }
  destruct s as [|c s]; [destruct (N eq_refl)|]. inversion A; subst. split; [left; assumption|]. eapply Forall_impl; [|eassumption]. intros y Hy. left. exact Hy.
Qed.
Definition word (w s : list N) : Prop := deep s [TId w] /\ starts s /\ Forall Fld_Spec.on_the_line s.
Lemma word_of : forall w s, spelled w s -> Fld_Spec.symbol s -> word w s.
Proof.
  intros w s E S. destruct (symbol_line' s S) as (L & B). split; [|split; [|exact L]].
  - apply deep_of. intros p r ts F T. rewrite <- E. now apply symbol_lexed.
  - intros r. destruct s as [|c s]; [destruct S as ([] & _)|exact B].
Qed.
Ltac capitals := repeat constructor; cbv; discriminate.
Lemma rel_spelled : forall r s, spelled (rel_word r) s -> word (rel_word r) s.
Proof. intros r s E. apply word_of; [exact E|]. apply (spelled_symbol _ _ E); [destruct r; discriminate|destruct r; capitals|destruct r; cbn; lia]. Qed.
Lemma joint_spelled : forall o s, spelled (joint_word o) s -> word (joint_word o) s.
Proof. intros r s E. apply word_of; [exact E|]. apply (spelled_symbol _ _ E); [destruct r; discriminate|destruct r; capitals|destruct r; cbn; lia]. Qed.
Lemma not_spelled : forall s, spelled not_word s -> word not_word s.
Proof. intros s E. apply word_of; [exact E|]. apply (spelled_symbol _ _ E); [discriminate|capitals|cbn; lia]. Qed.
Lemma blank_line : forall g, pad g -> Forall Fld_Spec.on_the_line g.
Proof. intros g (k & ->). apply Forall_forall. intros x Ix. apply repeat_spec in Ix. subst x. split; discriminate. Qed.
Lemma gap_line : forall g, gap g -> Forall Fld_Spec.on_the_line g.
Proof. intros g G. apply blank_line. now destruct (gap_pad g G). Qed.

(** ** Conditions *)
Definition shown (p : pc) (t : list N) : Prop :=
  starts t /\ Forall Fld_Spec.on_the_line t /\ exists a, items false (cells p) a /\ deep t a.
Definition enclosed (p : pc) (t : list N) : Prop :=
  starts t /\ Forall Fld_Spec.on_the_line t /\ exists a, plist false (cells p) a /\ forall q r ts, Toks false q (t ++ r) ts -> lexed q r ts a.
Lemma paren_enclosed : forall p t g h, shown p t -> pad g -> pad h -> enclosed p (40%N :: g ++ t ++ h ++ [41%N]).
Proof.
  intros p t g h (S & L & a & I & D) G H. split; [intros r; cbn; discriminate|]. split.
  { constructor; [split; discriminate|]. apply Forall_app. split; [now apply blank_line|]. apply Forall_app. split; [exact L|].
    apply Forall_app. split; [now apply blank_line|]. constructor; [split; discriminate|constructor]. }
  exists (TLpar :: blanks (few g) ++ a ++ blanks (few h) ++ [TRpar]). split; [constructor; exact I|]. intros q r ts T.
  cbn [app] in T. rewrite <- !app_assoc in T. cbn [app] in T.
  destruct (mark_lexed _ 40%N LPAR TLpar _ _ eq_refl ltac:(discriminate) ltac:(reflexivity) ltac:(discriminate) T) as (t1 & T1 & L1).
  destruct (pad_lexed g _ _ _ G (S _) T1) as (p2 & t2 & T2 & L2).
  assert (F : follows (h ++ 41%N :: r)) by (destruct H as ([|k] & ->); apply fol; reflexivity).
  destruct (D _ _ _ F T2) as (p3 & t3 & T3 & L3).
  assert (B : no_blank (41%N :: r)) by (cbn; discriminate).
  destruct (pad_lexed h _ _ _ H B T3) as (p4 & t4 & T4 & L4).
  destruct (mark_lexed _ 41%N RPAR TRpar _ _ eq_refl ltac:(discriminate) ltac:(reflexivity) ltac:(discriminate) T4) as (t5 & T5 & L5).
  eexists. exists t5. split; [exact T5|]. intros d ks E. cbn [app]. apply L1. cbn [deeper]. rewrite <- !app_assoc. apply L2, L3, L4, L5. exact E.
Qed.
Lemma shown_leaf : forall e cx x a, as_tokens e cx a -> regular e -> shown (PLeaf cx x) (written e).
Proof.
  intros e cx x a T R. split; [intros r; now apply written_starts|]. split; [exact (written_line' _ e (le_n _) R)|].
  exists a. split; [apply items_one; apply (proj1 grammar_ok e cx a T R)|]. apply deep_of. intros. eapply (proj1 lex_ok); eassumption.
Qed.
Lemma enclosed_leaf : forall p t x, enclosed p t -> shown (PLeaf (XList (cells p)) x) t.
Proof.
  intros p t x (S & L & a & I & D). split; [exact S|]. split; [exact L|]. exists a.
  split; [apply items_one, sum_of_prod, prod_of_unary, unary_t, term_list, I|]. apply deep_of. intros q r ts _ T. now apply D.
Qed.
Theorem cond_shown : forall c p, P c p -> sound c -> forall t, text c t -> shown p t.
Proof.
  intros c p H. induction H as [e cx x a T X|r e1 e2 cx x a cy y b T X T2 Y|c p H IH|o n l r pl pr Hl IHl Hr IHr|c p ta tc H IH E]; cbn [sound]; intros Sd t Tx.
  - destruct Sd as (_ & R & _). inversion Tx; subst. eapply shown_leaf; eassumption.
  - destruct Sd as ((R1 & _) & R2 & _). inversion Tx as [|? ? ? g s h G Hh Sp| | | |]; subst.
    destruct (shown_leaf e1 cx x a T R1) as (S1 & L1 & a1 & I1 & D1). destruct (shown_leaf e2 cy y b T2 R2) as (S2 & L2 & a2 & I2 & D2).
    destruct (rel_spelled r s Sp) as (Ds & Ss & Ls). split; [apply starts_app, S1|]. split.
    { apply Forall_app. split; [exact L1|]. apply Forall_app. split; [now apply gap_line|]. apply Forall_app. split; [exact Ls|].
      apply Forall_app. split; [now apply gap_line|exact L2]. }
    exists (a1 ++ blanks 1 ++ [TId (rel_word r)] ++ blanks 1 ++ a2). split.
    + cbn [cells]. apply (items_join [cx] a1 [XSym (rel_word r); cy]); [exact I1|]. apply (items_join [XSym (rel_word r)] [TId (rel_word r)] [cy]); [apply items_word|exact I2].
    + apply deep_join; [exact G|exact D1| |apply starts_app, Ss]. apply deep_join; assumption.
  - destruct Sd as (_ & Sd). inversion Tx as [| |? s g u G Sp Tu| | |]; subst. destruct (IH Sd u Tu) as (S1 & L1 & a1 & I1 & D1).
    destruct (not_spelled s Sp) as (Ds & Ss & Ls). split; [apply starts_app, Ss|]. split.
    { apply Forall_app. split; [exact Ls|]. apply Forall_app. split; [now apply gap_line|exact L1]. }
    exists ([TId not_word] ++ blanks 1 ++ a1). split.
    + cbn [cells]. apply (items_join [XSym not_word] [TId not_word]); [apply items_word|exact I1].
    + apply deep_join; assumption.
  - destruct Sd as (_ & _ & Sl & Sr). inversion Tx as [| | |? ? ? ta tb g s h G Hh Sp Ta Tb|? ? ? ta tb g s h nn i G Hh Hi Sp Sn Ta Tb|]; subst.
    + destruct (IHl Sl ta Ta) as (S1 & L1 & a1 & I1 & D1). destruct (IHr Sr tb Tb) as (S2 & L2 & a2 & I2 & D2).
      destruct (joint_spelled o s Sp) as (Ds & Ss & Ls). split; [apply starts_app, S1|]. split.
      { apply Forall_app. split; [exact L1|]. apply Forall_app. split; [now apply gap_line|]. apply Forall_app. split; [exact Ls|].
        apply Forall_app. split; [now apply gap_line|exact L2]. }
      exists (a1 ++ blanks 1 ++ [TId (joint_word o)] ++ blanks 1 ++ a2). split.
      * cbn [cells nots app]. apply items_join; [exact I1|]. apply (items_join [XSym (joint_word o)] [TId (joint_word o)]); [apply items_word|exact I2].
      * apply deep_join; [exact G|exact D1| |apply starts_app, Ss]. apply deep_join; assumption.
    + destruct (IHl Sl ta Ta) as (S1 & L1 & a1 & I1 & D1). destruct (IHr Sr tb Tb) as (S2 & L2 & a2 & I2 & D2).
      destruct (joint_spelled o s Sp) as (Ds & Ss & Ls). destruct (not_spelled nn Sn) as (Dn & Sn' & Ln). split; [apply starts_app, S1|]. split.
      { apply Forall_app. split; [exact L1|]. apply Forall_app. split; [now apply gap_line|]. apply Forall_app. split; [exact Ls|].
        apply Forall_app. split; [now apply gap_line|]. apply Forall_app. split; [exact Ln|]. apply Forall_app. split; [now apply gap_line|exact L2]. }
      exists (a1 ++ blanks 1 ++ [TId (joint_word o)] ++ blanks 1 ++ [TId not_word] ++ blanks 1 ++ a2). split.
      * cbn [cells nots app]. apply items_join; [exact I1|]. apply (items_join [XSym (joint_word o)] [TId (joint_word o)]); [apply items_word|].
        apply (items_join [XSym not_word] [TId not_word]); [apply items_word|exact I2].
      * apply deep_join; [exact G|exact D1| |apply starts_app, Ss]. apply deep_join; [exact Hh|exact Ds| |apply starts_app, Sn'].
        apply deep_join; assumption.
  - inversion Tx as [| | | | |? u g h G Hh Tu]; subst. apply enclosed_leaf. apply paren_enclosed; [now apply IH|exact G|exact Hh].
Qed.
Lemma paren_shown : forall c p t, P c p -> sound c -> text (Paren c) t -> enclosed p t.
Proof. intros c p t H S T. inversion T; subst. apply paren_enclosed; try assumption. eapply cond_shown; eassumption. Qed.

(** ** Fields *)
Definition piece (t : list N) (o : operand) : Prop :=
  starts t /\ Forall Fld_Spec.on_the_line t /\ exists a, writes false false o a /\
    forall p r ts, follows r -> Toks false p (t ++ r) ts -> lexed p r ts a.
Lemma pieces_lexed : forall l ops, Forall2 piece l ops -> l <> [] ->
  forall p r ts, Fld_Spec.remark r -> Toks false p (separated l ++ r) ts -> exists ks, lexs 0 ts = Some ks /\ line false false ops ks.
Proof.
  intros l ops F. induction F as [|t o l ops (_ & _ & a & W & Lx) F IH]; intros N p r ts R H; [congruence|]. clear N.
  destruct l as [|t2 l].
  - inversion F; subst. change (separated [t]) with t in H.
    assert (Fr : follows r) by (destruct r as [|c r]; [exact I|destruct R as (-> & _); apply fol; reflexivity]).
    destruct (Lx _ _ _ Fr H) as (p' & ts' & T' & L). destruct (remark_lexed _ _ _ R T') as (ks & E & En).
    exists (a ++ ks). split; [apply L, E|]. apply line_one; assumption.
  - rewrite separated_cons, <- app_assoc in H. cbn [app] in H. destruct (Lx _ _ _ (fol 44%N _ eq_refl) H) as (p' & ts' & T' & L).
    destruct (mark_lexed _ 44%N COMMA TComma _ _ eq_refl ltac:(discriminate) ltac:(reflexivity) ltac:(discriminate) T') as (t3 & T3 & L3).
    destruct (IH ltac:(discriminate) _ _ _ R T3) as (ks & E & Tl). exists (a ++ TComma :: ks). split; [apply L, L3, E|]. now apply line_more.
Qed.
Theorem pieces_read : forall wide col k l r ops, l <> [] -> Fld_Spec.remark r ->
  0 < col -> col + length (repeat 32%N (S k) ++ separated l ++ r) <= 71 -> Forall2 piece l ops ->
  ca_field wide (repeat 32%N (S k) ++ separated l ++ r) col false = Some ops.
Proof.
  intros wide col k l r ops N Rm C Ln F.
  assert (Ll : Forall (Forall Fld_Spec.on_the_line) l) by (clear -F; induction F as [|t o l ops (_ & L & _) F IH]; constructor; assumption).
  assert (St : no_blank (separated l ++ r)).
  { destruct F as [|t o l ops (S & _) F]; [congruence|]. destruct l as [|t2 l]; [apply S|]. rewrite separated_cons, <- app_assoc. apply S. }
  assert (Lt : Forall Fld_Spec.on_the_line (repeat 32%N (S k) ++ separated l ++ r)).
  { apply Forall_app. split; [apply Forall_forall; intros x Ix; apply repeat_spec in Ix; subst x; split; discriminate|].
    apply Forall_app. split; [now apply separated_line|now apply remark_line]. }
  destruct (field_tokens wide false _ col C Lt (or_intror Ln)) as (ts & E & T). unfold ca_field. rewrite E.
  destruct (T_blanks _ _ _ _ St T) as (x & h & p' & ts' & -> & T'). cbn [lt].
  destruct (pieces_lexed l ops F N _ _ _ Rm T') as (ks & Ek & Tl). rewrite Ek. f_equal. now apply C88_as_written.
Qed.
Lemma branch_piece : forall p t n, enclosed p t -> Fld_Spec.symbol n -> piece (t ++ 46%N :: n) (Branch (XList (cells p)) (map big n)).
Proof.
  intros p t n (S & L & a & I & D) Sn. split; [apply starts_app, S|]. split.
  { apply Forall_app. split; [exact L|]. constructor; [split; discriminate|]. now apply symbol_line'. }
  exists (a ++ [TDot; TId (map big n)]). split; [now apply w_branch|]. intros q r ts F T. rewrite <- app_assoc in T. cbn [app] in T.
  destruct (D _ _ _ T) as (p1 & t1 & T1 & L1).
  destruct (mark_lexed _ 46%N DOT TDot _ _ eq_refl ltac:(discriminate) ltac:(reflexivity) ltac:(discriminate) T1) as (t2 & T2 & L2).
  destruct (symbol_lexed _ n _ _ Sn F T2) as (p3 & t3 & T3 & L3). exists p3, t3. split; [exact T3|]. intros d ks E.
  rewrite <- app_assoc. apply L1. cbn [app]. apply L2. cbn [deeper]. apply L3, E.
Qed.
Lemma value_piece : forall p t, enclosed p t -> piece t (Value (XList (cells p))).
Proof.
  intros p t (S & L & a & I & D). split; [exact S|]. split; [exact L|]. exists a.
  split; [apply w_value, sum_of_prod, prod_of_unary, unary_t, term_list, I|]. intros q r ts _ T. now apply D.
Qed.
Lemma plain_piece : forall e cx a, as_tokens e cx a -> regular e -> piece (written e) (Value cx).
Proof.
  intros e cx a T R. split; [intros r; now apply written_starts|]. split; [exact (written_line' _ e (le_n _) R)|].
  exists a. split; [eapply writes_of; eassumption|]. intros. eapply (proj1 lex_ok); eassumption.
Qed.
