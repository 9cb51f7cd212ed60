(** * Gram_Props: properties C81 and C82 *)
From Coq Require Import String List ZArith Bool Lia.
From Verif Require Import Gram_Model Gram_Spec Gram_Proof Gram_Ops.
Import ListNotations.
Open Scope string_scope.
Open Scope list_scope.

(** ** C81: expressions and machine operands *)

(** Tokens are read as an expression exactly if they are the text of a proper
    tree; the result is what that tree means, with the positions of its parts. *)
Theorem C81_expression : forall ts e a z,
  expr ts = Some (e, a, z, []) <->
  exists s, text s = ts /\ proper s /\ means s e /\ first_tok s = a /\ last_tok s = z.
Proof.
  intros ts e a z. split.
  - intros H. apply expr_sound in H. destruct H as [s [-> H]]. exists s.
    rewrite app_nil_r. tauto.
  - intros [s [<- [Hp [Hm [<- <-]]]]].
    pose proof (expr_complete s e [] Hp Hm I) as X. rewrite app_nil_r in X. exact X.
Qed.
Print Assumptions C81_expression.

(** No text has two readings. *)
Theorem C81_one_reading : forall s1 s2, proper s1 -> proper s2 -> text s1 = text s2 -> s1 = s2.
Proof. exact tree_unique. Qed.
Print Assumptions C81_one_reading.

(** Operators of one rank are applied from left to right, for any number of
    them: s0 op1 s1 op2 s2 ... *)
Definition step_text (x : tok * tree) : list tok := fst x :: text (snd x).

Theorem C81_left_to_right : forall k l s0 m0 ops,
  proper s0 -> means s0 m0 -> (k <= rank s0)%nat ->
  Forall2 (fun (x : tok * tree) (y : bop * mexpr) =>
    infix_means (tk (fst x)) (fst y) /\ rank_of (tk (fst x)) = k /\
    proper (snd x) /\ (k < rank (snd x))%nat /\ means (snd x) (snd y)) l ops ->
  exists z, expr (text s0 ++ flat_map step_text l) =
    Some (fst (fold_left
            (fun (acc : mexpr * list (tok * tree)) (y : bop * mexpr) =>
               match snd acc with
               | x :: l' => (MBinary (fst y) (fst acc) (snd y)
                               (lo (first_tok s0), hi (last_tok (snd x))), l')
               | [] => acc
               end) ops (m0, l)),
          first_tok s0, z, []).
Proof.
  intros k l. induction l as [|[t r] l IH]; intros s0 m0 ops P0 M0 R0 F.
  - inversion F; subst. cbn. rewrite app_nil_r. exists (last_tok s0).
    pose proof (expr_complete s0 m0 [] P0 M0 I) as X. rewrite app_nil_r in X. exact X.
  - inversion F as [|x y l' ops' [Ho [Hr [Pr [Rr Mr]]]] F' E1 E2]; subst.
    destruct y as [o mr]. cbn [fst snd] in *.
    destruct (infix_good s0 t r o m0 mr Ho P0 Pr R0 Rr M0 Mr) as [Pi [Ri Mi]].
    destruct (IH (Infix s0 t r) _ ops' Pi Mi (Nat.eq_le_incl _ _ (eq_sym Ri)) F') as [z Hz].
    exists z. cbn [flat_map fold_left snd fst]. unfold step_text at 1. cbn [fst snd].
    cbn [text] in Hz. rewrite <- app_assoc in Hz. cbn [app] in Hz. cbn [app].
    exact Hz.
Qed.
Print Assumptions C81_left_to_right.

(** Multiplication and division come before addition and subtraction, on
    either side. *)
Theorem C81_precedence : forall a b c t1 t2 o1 o2 ma mb mc,
  proper a -> proper b -> proper c -> rank a = 3 -> rank b = 3 -> rank c = 3 ->
  means a ma -> means b mb -> means c mc ->
  infix_means (tk t1) o1 -> infix_means (tk t2) o2 ->
  expr (text a ++ t1 :: text b ++ t2 :: text c) =
  Some (if (rank_of (tk t1) <? rank_of (tk t2))%nat
        then MBinary o1 ma (MBinary o2 mb mc (lo (first_tok b), hi (last_tok c)))
               (lo (first_tok a), hi (last_tok c))
        else MBinary o2 (MBinary o1 ma mb (lo (first_tok a), hi (last_tok b))) mc
               (lo (first_tok a), hi (last_tok c)),
        first_tok a, last_tok c, []).
Proof.
  intros a b c t1 t2 o1 o2 ma mb mc Pa Pb Pc Ra Rb Rc Ma Mb Mc H1 H2.
  assert (Rg : forall t o, infix_means (tk t) o -> (1 <= rank_of (tk t) <= 2)%nat)
    by (intros t o H; inversion H; cbn; lia).
  pose proof (Rg t1 o1 H1) as R1. pose proof (Rg t2 o2 H2) as R2.
  destruct (rank_of (tk t1) <? rank_of (tk t2))%nat eqn:L.
  - apply Nat.ltb_lt in L.
    destruct (infix_good b t2 c o2 mb mc H2 Pb Pc) as [P2 [Q2 M2]]; try lia; auto.
    assert (A1 : (rank_of (tk t1) <= rank a)%nat) by lia.
    assert (A2 : (rank_of (tk t1) < rank (Infix b t2 c))%nat) by lia.
    destruct (infix_good a t1 (Infix b t2 c) o1 ma _ H1 Pa P2 A1 A2 Ma M2) as [P1 [Q1 M1]].
    pose proof (expr_complete _ _ [] P1 M1 I) as X. rewrite app_nil_r in X. exact X.
  - apply Nat.ltb_ge in L.
    destruct (infix_good a t1 b o1 ma mb H1 Pa Pb) as [P1 [Q1 M1]]; try lia; auto.
    assert (A1 : (rank_of (tk t2) <= rank (Infix a t1 b))%nat) by lia.
    assert (A2 : (rank_of (tk t2) < rank c)%nat) by lia.
    destruct (infix_good (Infix a t1 b) t2 c o2 _ mc H2 P1 Pc A1 A2 M1 Mc) as [P2 [Q2 M2]].
    pose proof (expr_complete _ _ [] P2 M2 I) as X. rewrite app_nil_r in X.
    cbn [text] in X. rewrite <- app_assoc in X. exact X.
Qed.
Print Assumptions C81_precedence.

(** The operand field of a machine instruction: operands at the commas outside
    parentheses, each a plain expression or one of D(B), D(X,B), D(,B), D(X,), or
    omitted; remarks follow a space.  Exactly the fields of this form are read,
    and to exactly these operands. *)
Theorem C81_operands : forall eof ts l, mach_ops eof ts = Some l <->
  Listed otree mop otext oproper omeans OpEmpty eof ts l.
Proof. exact mach_ops_iff. Qed.
Print Assumptions C81_operands.

(** One field, one list of operands. *)
Theorem C81_one_list : forall eof ts l1 l2,
  Listed otree mop otext oproper omeans OpEmpty eof ts l1 ->
  Listed otree mop otext oproper omeans OpEmpty eof ts l2 -> l1 = l2.
Proof.
  intros eof ts l1 l2 H1 H2. apply mach_ops_iff in H1, H2. rewrite H1 in H2.
  injection H2. auto.
Qed.
Print Assumptions C81_one_list.

(** A(1,B-*+2) and what is read: *)
Definition at_ (k : kind) (p : pos) : tok := Tok k p (S p).

Definition field_example : list tok :=
  [at_ (KId "A") 0; at_ KLpar 1; at_ (KNum "1" 1) 2; at_ KComma 3; at_ (KId "B") 4;
   at_ KMinus 5; at_ KStar 6; at_ KPlus 7; at_ (KNum "2" 2) 8; at_ KRpar 9;
   at_ KComma 10; at_ KComma 11; at_ KStar 12; at_ KStar 13; at_ KStar 14;
   at_ KSpace 15; at_ (KId "REMARK") 16].

Example C81_field : mach_ops 17 field_example = Some
  [OpAddress (MAtom (ASymbol "A") (0, 1)) (Some (MAtom (AConstant 1) (2, 3)))
     (Some (MBinary OAdd
        (MBinary OSub (MAtom (ASymbol "B") (4, 5)) (MLocation (6, 7)) (4, 7))
        (MAtom (AConstant 2) (8, 9)) (4, 9)))
     PRESENT (0, 10);
   OpEmpty 11;
   OpExpr (MBinary OMul (MLocation (12, 13)) (MLocation (14, 15)) (12, 15)) (12, 15)].
Proof. vm_compute. reflexivity. Qed.

(** The hypotheses of the theorems about operators hold for 1-2*3. *)
Example C81_precedence_meets :
  exists a b c t1 t2 ma mb mc,
    proper a /\ proper b /\ proper c /\ means a ma /\ means b mb /\ means c mc /\
    infix_means (tk t1) OSub /\ infix_means (tk t2) OMul /\
    text a ++ t1 :: text b ++ t2 :: text c =
      [at_ (KNum "1" 1) 0; at_ KMinus 1; at_ (KNum "2" 2) 2; at_ KStar 3; at_ (KNum "3" 3) 4] /\
    expr (text a ++ t1 :: text b ++ t2 :: text c) =
      Some (MBinary OSub (MAtom (AConstant 1) (0, 1))
              (MBinary OMul (MAtom (AConstant 2) (2, 3)) (MAtom (AConstant 3) (4, 5)) (2, 5))
              (0, 5), at_ (KNum "1" 1) 0, at_ (KNum "3" 3) 4, []).
Proof.
  exists (Leaf (at_ (KNum "1" 1) 0)), (Leaf (at_ (KNum "2" 2) 2)), (Leaf (at_ (KNum "3" 3) 4)),
    (at_ KMinus 1), (at_ KStar 3). do 3 eexists.
  do 3 (split; [constructor|]). do 3 (split; [repeat constructor|]).
  split; [constructor|]. split; [constructor|]. split; reflexivity.
Qed.

Example C81_one_reading_meets :
  exists s, proper s /\ text s =
    [at_ KMinus 0; at_ KLpar 1; at_ KStar 2; at_ KSlash 3; at_ KLit 4; at_ KRpar 5].
Proof.
  exists (Sign (at_ KMinus 0)
    (Paren (at_ KLpar 1)
       (Infix (Leaf (at_ KStar 2)) (at_ KSlash 3) (Leaf (at_ KLit 4))) (at_ KRpar 5))).
  split; [|reflexivity]. cbn.
  split; [auto|]. split; [reflexivity|]. split; [reflexivity|]. split; [reflexivity|].
  split; [auto|]. split; [lia|]. split; [lia|]. split; constructor.
Qed.

(** ** C82: assembler operands *)

(** The operand field of an assembler instruction: each operand is an
    expression, a string, name(components), (word,word,word), (base,end), or is
    omitted; components are strings, symbols, numbers, name(components), or
    omitted.  Exactly the fields of this form are read, and to exactly these
    operands. *)
Theorem C82_operands : forall eof ts l, asm_ops eof ts = Some l <->
  Listed atree aop atext aproper ameans AsEmpty eof ts l.
Proof. exact asm_ops_iff. Qed.
Print Assumptions C82_operands.

Theorem C82_one_list : forall eof ts l1 l2,
  Listed atree aop atext aproper ameans AsEmpty eof ts l1 ->
  Listed atree aop atext aproper ameans AsEmpty eof ts l2 -> l1 = l2.
Proof.
  intros eof ts l1 l2 H1 H2. apply asm_ops_iff in H1, H2. rewrite H1 in H2.
  injection H2. auto.
Qed.
Print Assumptions C82_one_list.

(** One operand alone: its reading is determined by its text. *)
Theorem C82_one_operand : forall t1 t2 o1 o2,
  aproper t1 -> aproper t2 -> ameans t1 o1 -> ameans t2 o2 -> atext t1 = atext t2 -> o1 = o2.
Proof.
  intros t1 t2 o1 o2 P1 P2 M1 M2 E.
  pose proof (asm_op_complete t1 o1 [] P1 M1 I) as X1.
  pose proof (asm_op_complete t2 o2 [] P2 M2 I) as X2.
  rewrite E in X1. rewrite X1 in X2. injection X2. auto.
Qed.
Print Assumptions C82_one_operand.

(** A parenthesised operand with two parts is a base and an end, with three
    words the language triplet of END, with one an expression. *)
Theorem C82_parentheses : forall p x c y c2 w q eof wx wy ww,
  tk p = KLpar -> tk c = KComma -> tk c2 = KComma -> tk q = KRpar ->
  tk x = KId wx -> tk y = KId wy -> tk w = KId ww ->
  asm_ops eof [p; x; q] =
    Some [AsExpr (MUnary UPar (MAtom (ASymbol wx) (lo x, hi x)) (lo p, hi q)) (lo p, hi q)] /\
  asm_ops eof [p; x; c; y; q] =
    Some [AsUsing (MAtom (ASymbol wx) (lo x, hi x)) (MAtom (ASymbol wy) (lo y, hi y)) (lo p, hi q)] /\
  asm_ops eof [p; x; c; y; c2; w; q] =
    Some [AsComplex "" [CStr wx (lo x, hi x); CStr wy (lo y, hi y); CStr ww (lo w, hi w)]
            (lo p, hi q)].
Proof.
  intros p x c y c2 w q eof wx wy ww Ep Ec Ec2 Eq Ex Ey Ew.
  assert (Lx : proper (Leaf x)) by (cbn; rewrite Ex; constructor).
  assert (Ly : proper (Leaf y)) by (cbn; rewrite Ey; constructor).
  assert (Mx : means (Leaf x) (MAtom (ASymbol wx) (lo x, hi x)))
    by (constructor; rewrite Ex; constructor).
  assert (My : means (Leaf y) (MAtom (ASymbol wy) (lo y, hi y)))
    by (constructor; rewrite Ey; constructor).
  split; [|split]; apply asm_ops_iff.
  - apply (ls_last _ _ atext aproper ameans AsEmpty eof (AtExpr (Paren p (Leaf x) q))
      _ []); [|exact (am_expr _ _ (me_paren p (Leaf x) q _ Mx))|exact I].
    cbn [aproper proper]. auto.
  - apply (ls_last _ _ atext aproper ameans AsEmpty eof (AtUsing p (Leaf x) c (Leaf y) q)
      _ []); [|exact (am_using p _ c _ q _ _ Mx My)|exact I].
    cbn [aproper]. auto.
  - apply (ls_last _ _ atext aproper ameans AsEmpty eof (AtTriple p x c y c2 w q)
      _ []); [|apply am_triple; rewrite ?Ex, ?Ey, ?Ew; constructor|exact I].
    cbn [aproper]. auto.
Qed.
Print Assumptions C82_parentheses.

Example C82_field : asm_ops 20
  [at_ (KId "ANY") 0; at_ KLpar 1; at_ KComma 2; at_ (KId "X") 3; at_ KLpar 4; at_ (KNum "1" 1) 5;
   at_ KRpar 6; at_ KRpar 7; at_ KComma 8; at_ (KStr "T") 9; at_ KComma 10] = Some
  [AsComplex "ANY" [CStr "" (2, 2); CComposite "X" [CInt 1 (5, 6)] (3, 7)] (0, 8);
   AsString "T" (9, 10); AsEmpty 20].
Proof. vm_compute. reflexivity. Qed.

Example C82_one_operand_meets :
  exists t o, aproper t /\ ameans t o /\
    atext t = [at_ KLpar 0; at_ KStar 1; at_ KComma 2; at_ (KId "B") 3; at_ KRpar 4].
Proof.
  exists (AtUsing (at_ KLpar 0) (Leaf (at_ KStar 1)) (at_ KComma 2) (Leaf (at_ (KId "B") 3))
    (at_ KRpar 4)). eexists. split; [|split; [|reflexivity]].
  - cbn. repeat (split; [first [reflexivity|constructor]|]). reflexivity.
  - apply am_using; repeat constructor.
Qed.
