(** * Gram_Ops: operands and operand lists are read as the specification says *)
From Coq Require Import String List ZArith Bool Lia.
From Verif Require Import Gram_Model Gram_Spec Gram_Proof.
Import ListNotations.
Open Scope list_scope.

Lemma is_lpar_iff : forall t, is_lpar t = true <-> tk t = KLpar.
Proof. intros t. unfold is_lpar. destruct (tk t); split; intros H; try discriminate; auto. Qed.
Lemma is_rpar_iff : forall t, is_rpar t = true <-> tk t = KRpar.
Proof. intros t. unfold is_rpar. destruct (tk t); split; intros H; try discriminate; auto. Qed.
Lemma is_comma_iff : forall t, is_comma t = true <-> tk t = KComma.
Proof. intros t. unfold is_comma. destruct (tk t); split; intros H; try discriminate; auto. Qed.
Lemma is_space_iff : forall t, is_space t = true <-> tk t = KSpace.
Proof. intros t. unfold is_space. destruct (tk t); split; intros H; try discriminate; auto. Qed.

Ltac kinds := repeat match goal with
  | H : is_lpar _ = true |- _ => apply is_lpar_iff in H
  | H : is_rpar _ = true |- _ => apply is_rpar_iff in H
  | H : is_comma _ = true |- _ => apply is_comma_iff in H
  | H : is_space _ = true |- _ => apply is_space_iff in H
  end.

Lemma lpar_t : forall t, tk t = KLpar -> is_lpar t = true. Proof. intros; now apply is_lpar_iff. Qed.
Lemma rpar_t : forall t, tk t = KRpar -> is_rpar t = true. Proof. intros; now apply is_rpar_iff. Qed.
Lemma comma_t : forall t, tk t = KComma -> is_comma t = true. Proof. intros; now apply is_comma_iff. Qed.
Lemma not_lpar : forall t, tk t <> KLpar -> is_lpar t = false.
Proof. intros t H. destruct (is_lpar t) eqn:E; [|reflexivity]. kinds. contradiction. Qed.
Lemma not_rpar : forall t, tk t <> KRpar -> is_rpar t = false.
Proof. intros t H. destruct (is_rpar t) eqn:E; [|reflexivity]. kinds. contradiction. Qed.
Lemma not_comma : forall t, tk t <> KComma -> is_comma t = false.
Proof. intros t H. destruct (is_comma t) eqn:E; [|reflexivity]. kinds. contradiction. Qed.
Lemma not_space : forall t, tk t <> KSpace -> is_space t = false.
Proof. intros t H. destruct (is_space t) eqn:E; [|reflexivity]. kinds. contradiction. Qed.

(** ** The first token of an expression *)
Lemma text_first : forall s, exists r, text s = first_tok s :: r.
Proof.
  induction s as [t|t s IH|p s IH q|l IHl t r IHr]; cbn [text first_tok].
  - eauto.
  - eauto.
  - eauto.
  - destruct IHl as [x ->]. cbn [app]. eauto.
Qed.

Lemma proper_first : forall s, proper s ->
  term_kind (tk (first_tok s)) \/ tk (first_tok s) = KPlus \/ tk (first_tok s) = KMinus \/
  tk (first_tok s) = KLpar.
Proof.
  induction s as [t|t s IH|p s IH q|l IHl t r IHr]; cbn [proper first_tok]; intros H.
  - tauto.
  - tauto.
  - tauto.
  - apply IHl. tauto.
Qed.

Lemma proper_first_not : forall s k, proper s ->
  (k = KComma \/ k = KSpace \/ k = KRpar \/ (exists x, k = KStr x) \/ (exists x, k = KWord x)) ->
  tk (first_tok s) <> k.
Proof.
  intros s k Hp Hk E. destruct (proper_first s Hp) as [T|[T|[T|T]]];
    [inversion T as [x Ex|x y Ex|x Ex|x y Ex|Ex|Ex]; rewrite <- Ex in E|..];
    try rewrite T in E; subst k;
    destruct Hk as [?|[?|[?|[[? ?]|[? ?]]]]]; discriminate.
Qed.

Lemma stops_at : forall t r, (tk t = KLpar \/ tk t = KRpar \/ tk t = KComma \/ tk t = KSpace) ->
  stops 1 (t :: r).
Proof. intros t r [H|[H|[H|H]]]; cbn; rewrite H; cbn; lia. Qed.

(** Where an operand can end. *)
Definition ends (ts : list tok) : Prop :=
  match ts with [] => True | t :: _ => tk t = KComma \/ tk t = KSpace end.

Lemma ends_stops : forall ts, ends ts -> stops 1 ts.
Proof. intros [|t r] H; [exact I|]. apply stops_at. cbn in H. tauto. Qed.

(** ** Machine operands *)
Lemma mach_op_sound : forall ts o rest, mach_op ts = Some (o, rest) ->
  exists t, ts = otext t ++ rest /\ oproper t /\ omeans t o.
Proof.
  intros ts o rest H. unfold mach_op in H.
  destruct (expr ts) as [[[[d a] z] r0]|] eqn:E0; [|discriminate].
  apply expr_sound in E0. destruct E0 as [sd [-> [Pd [Md [Fd Ld]]]]].
  assert (Plain : Some (OpExpr d (get_range a z), r0) = Some (o, rest) ->
    exists t, text sd ++ r0 = otext t ++ rest /\ oproper t /\ omeans t o).
  { intros X. injection X as <- <-. exists (OtExpr sd). cbn [otext oproper].
    split; [reflexivity|]. split; [exact Pd|]. subst. apply (om_expr sd d Md). }
  destruct r0 as [|p r1]; [apply Plain; exact H|].
  destruct (is_lpar p) eqn:Ep; [|apply Plain; exact H]. clear Plain.
  destruct r1 as [|c r2]; [discriminate|].
  destruct (is_comma c) eqn:Ec.
  - destruct (expr r2) as [[[[b a2] z2] [|q r3]]|] eqn:E1; try discriminate.
    destruct (is_rpar q) eqn:Eq; [|discriminate]. injection H as <- <-.
    apply expr_sound in E1. destruct E1 as [sb [-> [Pb [Mb _]]]]. kinds.
    exists (Ot_B sd p c sb q). cbn [otext oproper].
    split; [rewrite <- ?app_assoc; cbn; rewrite <- ?app_assoc; reflexivity|].
    split; [tauto|]. subst a. exact (om__b sd p c sb q d b Md Mb).
  - destruct (expr (c :: r2)) as [[[[x a2] z2] [|q r3]]|] eqn:E1; try discriminate.
    apply expr_sound in E1. destruct E1 as [sx [Ex [Px [Mx _]]]].
    destruct (is_rpar q) eqn:Eq.
    + injection H as <- <-. kinds. exists (OtB sd p sx q). cbn [otext oproper].
      split; [rewrite Ex; rewrite <- ?app_assoc; cbn; rewrite <- ?app_assoc; reflexivity|].
      split; [tauto|]. subst a. exact (om_b sd p sx q d x Md Mx).
    + destruct (is_comma q) eqn:Eq2; [|discriminate].
      destruct r3 as [|q2 r4]; [discriminate|].
      destruct (is_rpar q2) eqn:Eq3.
      * injection H as <- <-. kinds. exists (OtX_ sd p sx q q2). cbn [otext oproper].
        split; [rewrite Ex; rewrite <- ?app_assoc; cbn; rewrite <- ?app_assoc; reflexivity|].
        split; [tauto|]. subst a. exact (om_x_ sd p sx q q2 d x Md Mx).
      * destruct (expr (q2 :: r4)) as [[[[b a3] z3] [|q3 r5]]|] eqn:E2; try discriminate.
        destruct (is_rpar q3) eqn:Eq4; [|discriminate]. injection H as <- <-.
        apply expr_sound in E2. destruct E2 as [sb [Eb [Pb [Mb _]]]]. kinds.
        exists (OtXB sd p sx q sb q3). cbn [otext oproper].
        split; [rewrite Ex, Eb; rewrite <- ?app_assoc; cbn; rewrite <- ?app_assoc; cbn;
                rewrite <- ?app_assoc; reflexivity|].
        split; [tauto|]. subst a. exact (om_xb sd p sx q sb q3 d x b Md Mx Mb).
Qed.

Lemma mach_op_complete : forall t o rest, oproper t -> omeans t o -> ends rest ->
  mach_op (otext t ++ rest) = Some (o, rest).
Proof.
  intros t o rest Hp Hm He.
  inversion Hm as [e m Me|d p b q md mb Md Mb|d p x c b q md mx mb Md Mx Mb
    |d p c b q md mb Md Mb|d p x c q md mx Md Mx]; subst; cbn [otext oproper] in *.
  - unfold mach_op. rewrite (expr_complete e m rest Hp Me (ends_stops _ He)).
    destruct rest as [|t r]; [reflexivity|].
    rewrite not_lpar; [reflexivity|]. cbn in He. destruct He as [E|E]; rewrite E; discriminate.
  - destruct Hp as [Pd [Ep [Pb Eq]]].
    replace ((text d ++ p :: text b ++ [q]) ++ rest) with (text d ++ p :: text b ++ q :: rest)
      by (rewrite <- !app_assoc; cbn; rewrite <- !app_assoc; reflexivity).
    unfold mach_op. rewrite (expr_complete d md _ Pd Md) by (apply stops_at; auto).
    rewrite (lpar_t p Ep).
    pose proof (expr_complete b mb (q :: rest) Pb Mb (stops_at q rest (or_intror (or_introl Eq)))) as Xb.
    destruct (text_first b) as [rb Eb]. rewrite Eb in *. cbn [app] in *.
    rewrite not_comma by (apply proper_first_not; auto). rewrite Xb.
    rewrite (rpar_t q Eq). reflexivity.
  - destruct Hp as [Pd [Ep [Px [Ec [Pb Eq]]]]].
    replace ((text d ++ p :: text x ++ c :: text b ++ [q]) ++ rest)
      with (text d ++ p :: text x ++ c :: text b ++ q :: rest)
      by (rewrite <- !app_assoc; cbn; rewrite <- !app_assoc; cbn; rewrite <- !app_assoc; reflexivity).
    unfold mach_op. rewrite (expr_complete d md _ Pd Md) by (apply stops_at; auto).
    rewrite (lpar_t p Ep).
    pose proof (expr_complete x mx (c :: text b ++ q :: rest) Px Mx
      (stops_at c _ (or_intror (or_intror (or_introl Ec))))) as Xx.
    pose proof (expr_complete b mb (q :: rest) Pb Mb (stops_at q rest (or_intror (or_introl Eq)))) as Xb.
    destruct (text_first x) as [rx Ex]. rewrite Ex in *. cbn [app] in *.
    rewrite not_comma by (apply proper_first_not; auto). rewrite Xx.
    rewrite not_rpar by (rewrite Ec; discriminate). rewrite (comma_t c Ec).
    destruct (text_first b) as [rb Eb]. rewrite Eb in *. cbn [app] in *.
    rewrite not_rpar by (apply proper_first_not; auto). rewrite Xb.
    rewrite (rpar_t q Eq). reflexivity.
  - destruct Hp as [Pd [Ep [Ec [Pb Eq]]]].
    replace ((text d ++ p :: c :: text b ++ [q]) ++ rest)
      with (text d ++ p :: c :: text b ++ q :: rest)
      by (rewrite <- !app_assoc; cbn; rewrite <- !app_assoc; reflexivity).
    unfold mach_op. rewrite (expr_complete d md _ Pd Md) by (apply stops_at; auto).
    rewrite (lpar_t p Ep), (comma_t c Ec).
    rewrite (expr_complete b mb _ Pb Mb) by (apply stops_at; auto).
    rewrite (rpar_t q Eq). reflexivity.
  - destruct Hp as [Pd [Ep [Px [Ec Eq]]]].
    replace ((text d ++ p :: text x ++ [c; q]) ++ rest)
      with (text d ++ p :: text x ++ c :: q :: rest)
      by (rewrite <- !app_assoc; cbn; rewrite <- !app_assoc; reflexivity).
    unfold mach_op. rewrite (expr_complete d md _ Pd Md) by (apply stops_at; auto).
    rewrite (lpar_t p Ep).
    pose proof (expr_complete x mx (c :: q :: rest) Px Mx
      (stops_at c _ (or_intror (or_intror (or_introl Ec))))) as Xx.
    destruct (text_first x) as [rx Ex]. rewrite Ex in *. cbn [app] in *.
    rewrite not_comma by (apply proper_first_not; auto). rewrite Xx.
    rewrite not_rpar by (rewrite Ec; discriminate). rewrite (comma_t c Ec).
    rewrite (rpar_t q Eq). reflexivity.
Qed.

Definition starts_ok (ts : list tok) : Prop :=
  match ts with [] => False | t :: _ => tk t <> KComma /\ tk t <> KSpace end.

Lemma text_starts : forall s r, proper s -> starts_ok (text s ++ r).
Proof.
  intros s r Hp. destruct (text_first s) as [x ->]. cbn.
  split; apply proper_first_not; auto.
Qed.

Lemma otext_starts : forall t r, oproper t -> starts_ok (otext t ++ r).
Proof.
  intros [e|d p b q|d p x c b q|d p c b q|d p x c q] r Hp; cbn [otext oproper] in *;
    try rewrite <- app_assoc; apply text_starts; tauto.
Qed.

(** ** Lists *)
Section Lists.
  Variables (T A : Type).
  Variable txt : T -> list tok.
  Variable wf : T -> Prop.
  Variable mean : T -> A -> Prop.
  Variable none : pos -> A.
  Variable one : list tok -> option (A * list tok).
  Hypothesis one_sound : forall ts a rest, one ts = Some (a, rest) ->
    exists o, ts = txt o ++ rest /\ wf o /\ mean o a.
  Hypothesis one_complete : forall o a rest, wf o -> mean o a -> ends rest ->
    one (txt o ++ rest) = Some (a, rest).
  Hypothesis txt_starts : forall o a r, wf o -> mean o a -> starts_ok (txt o ++ r).

  Lemma list_sound : forall n eof ts l, op_list A one none n eof ts = Some l ->
    Listed T A txt wf mean none eof ts l.
  Proof.
    induction n; intros eof ts l H; [discriminate|]. cbn [op_list] in H.
    destruct (one_o A one none eof ts) as [[a rest]|] eqn:E; [|discriminate].
    assert (X : (ts = rest /\ a = none (start eof ts) /\
                 match ts with [] => True | t :: _ => tk t = KComma \/ tk t = KSpace end) \/
                (exists o, ts = txt o ++ rest /\ wf o /\ mean o a)).
    { unfold one_o in E. destruct ts as [|t ts'].
      - injection E as <- <-. left. cbn. auto.
      - destruct (is_comma t || is_space t) eqn:B.
        + injection E as <- <-. left. split; [reflexivity|]. split; [reflexivity|].
          apply orb_prop in B. destruct B; kinds; auto.
        + right. apply one_sound, E. }
    destruct rest as [|t rest'].
    - injection H as <-. destruct X as [[-> [-> _]]|[o [-> [Wo Mo]]]].
      + apply ls_omitted_last. exact I.
      + apply ls_last; auto. exact I.
    - destruct (is_comma t) eqn:Ec.
      + destruct (op_list A one none n eof rest') as [l'|] eqn:El; [|discriminate].
        injection H as <-. apply IHn in El. kinds.
        destruct X as [[-> [-> _]]|[o [-> [Wo Mo]]]].
        * cbn [start]. apply ls_omitted; auto.
        * apply ls_more; auto.
      + destruct (is_space t) eqn:Es; [|discriminate]. injection H as <-. kinds.
        destruct X as [[-> [-> _]]|[o [-> [Wo Mo]]]].
        * apply ls_omitted_last. exact Es.
        * apply ls_last; auto.
  Qed.

  Lemma one_o_some : forall eof ts, starts_ok ts -> one_o A one none eof ts = one ts.
  Proof.
    intros eof [|t r] H; cbn in *; [contradiction|]. destruct H as [Hc Hs].
    rewrite not_comma, not_space by auto. reflexivity.
  Qed.

  Lemma list_complete : forall eof ts l, Listed T A txt wf mean none eof ts l ->
    forall n, (List.length ts < n)%nat -> op_list A one none n eof ts = Some l.
  Proof.
    induction 1 as [o a rest Wo Mo He|rest He|o a c ts l Wo Mo Ec Hl IH|c ts l Ec Hl IH];
      intros n Hn; (destruct n; [lia|]); cbn [op_list].
    - rewrite one_o_some by (eapply txt_starts; eauto).
      rewrite (one_complete o a rest); auto.
      2: { destruct rest; cbn in *; auto. }
      destruct rest as [|t r]; [reflexivity|]. cbn in He.
      rewrite not_comma by (rewrite He; discriminate).
      rewrite (proj2 (is_space_iff t) He). reflexivity.
    - unfold one_o. destruct rest as [|t r]; [reflexivity|]. cbn in He.
      rewrite not_comma by (rewrite He; discriminate).
      rewrite (proj2 (is_space_iff t) He). cbn [start orb].
      rewrite (not_comma t) by (rewrite He; discriminate).
      rewrite (proj2 (is_space_iff t) He). reflexivity.
    - rewrite one_o_some by (eapply txt_starts; eauto).
      rewrite (one_complete o a (c :: ts)); auto. 2: { cbn. auto. }
      rewrite (comma_t c Ec). rewrite IH; [reflexivity|].
      rewrite app_length in Hn. cbn in Hn. lia.
    - unfold one_o. rewrite (comma_t c Ec). cbn [orb].
      rewrite (comma_t c Ec). rewrite IH; [reflexivity|]. cbn in Hn. lia.
  Qed.
End Lists.

Lemma mach_ops_iff : forall eof ts l, mach_ops eof ts = Some l <->
  Listed otree mop otext oproper omeans OpEmpty eof ts l.
Proof.
  intros eof ts l. split; intros H.
  - eapply list_sound; [|exact H]. apply mach_op_sound.
  - unfold mach_ops. eapply list_complete; [| |exact H|lia].
    + apply mach_op_complete.
    + intros o a r W _. apply otext_starts, W.
Qed.

(** ** Components *)
Scheme ctree_mut := Induction for ctree Sort Prop
  with clist_mut := Induction for clist Sort Prop.
Combined Scheme ctrees_ind from ctree_mut, clist_mut.

Definition next (ts : list tok) : pos := match ts with [] => 0 | t :: _ => lo t end.

Lemma inner_sound : forall n c ts l rest, inner n c ts = Some (l, rest) ->
  match c with
  | IOne => exists t m, l = [m] /\ ts = ctext t ++ rest /\ cmeans (next rest) t m
  | IMany => exists t, ts = cltext t ++ rest /\ clmeans (next rest) t l
  end.
Proof.
  induction n; intros c ts l rest H; [discriminate|]. destruct c; cbn [inner] in H.
  - destruct ts as [|t ts']; [discriminate|].
    assert (D : forall m, cmeans (next ts') (CtOne t) m -> Some ([m], ts') = Some (l, rest) ->
      exists t0 m, l = [m] /\ t :: ts' = ctext t0 ++ rest /\ cmeans (next rest) t0 m).
    { intros m Hm X. injection X as <- <-. exists (CtOne t), m. cbn. auto. }
    destruct (tk t) eqn:Et; try discriminate.
    + injection H as <- <-. exists CtNone, (CStr "" (lo t, lo t)). cbn.
      repeat (split; [reflexivity|]). constructor.
    + injection H as <- <-. exists CtNone, (CStr "" (lo t, lo t)). cbn.
      repeat (split; [reflexivity|]). constructor.
    + destruct ts' as [|p ts2]; [eapply D; [|exact H]; apply cm_id; exact Et|].
      destruct (is_lpar p) eqn:Ep; [|eapply D; [|exact H]; apply cm_id; exact Et].
      destruct (inner n IMany ts2) as [[l2 [|q r2]]|] eqn:E; try discriminate.
      destruct (is_rpar q) eqn:Eq; [|discriminate]. injection H as <- <-.
      apply IHn in E. destruct E as [cl [-> Hcl]]. kinds.
      exists (CtCall t p cl q), (CComposite name l2 (get_range t q)).
      split; [reflexivity|]. split; [cbn; rewrite <- app_assoc; reflexivity|].
      apply cm_call; auto.
    + eapply D; [|exact H]. eapply cm_num; exact Et.
    + eapply D; [|exact H]. eapply cm_str; exact Et.
  - destruct (inner n IOne ts) as [[l1 r1]|] eqn:E; [|discriminate].
    apply IHn in E. destruct E as [t [m [-> [-> Hm]]]].
    assert (D : Some ([m], r1) = Some (l, rest) ->
      exists t0, ctext t ++ r1 = cltext t0 ++ rest /\ clmeans (next rest) t0 l).
    { intros X. injection X as <- <-. exists (ClOne t). cbn. split; [reflexivity|].
      constructor. exact Hm. }
    destruct r1 as [|k r1]; [apply D, H|].
    destruct (is_comma k) eqn:Ek; [|apply D, H].
    destruct (inner n IMany r1) as [[l2 r2]|] eqn:E; [|discriminate].
    injection H as <- <-. apply IHn in E. destruct E as [cl [-> Hcl]]. kinds.
    exists (ClCons t k cl). cbn [cltext]. rewrite <- app_assoc. cbn. split; [reflexivity|].
    apply clm_cons; auto.
Qed.

Lemma inner_complete :
  (forall c m rest n, cmeans (next rest) c m ->
     (exists k r, rest = k :: r /\ (tk k = KComma \/ tk k = KRpar)) ->
     (2 * List.length (ctext c) + 1 <= n)%nat ->
     inner n IOne (ctext c ++ rest) = Some ([m], rest)) /\
  (forall l ms q r n, clmeans (lo q) l ms -> tk q = KRpar ->
     (2 * List.length (cltext l) + 2 <= n)%nat ->
     inner n IMany (cltext l ++ q :: r) = Some (ms, q :: r)).
Proof.
  apply ctrees_ind.
  - intros t m rest n Hm [k [r [-> Hk]]] Hn. destruct n; [lia|]. cbn [ctext app inner].
    inversion Hm; subst; match goal with E : tk t = _ |- _ => rewrite E end; try reflexivity.
    rewrite not_lpar by (destruct Hk as [E|E]; rewrite E; discriminate). reflexivity.
  - intros m rest n Hm [k [r [-> Hk]]] Hn. destruct n; [cbn in Hn; lia|]. cbn [ctext app inner].
    inversion Hm; subst. cbn [next]. destruct Hk as [E|E]; rewrite E; reflexivity.
  - intros t p l IH q m rest n Hm _ Hn. destruct n; [lia|].
    inversion Hm as [| | | |nx t' s p' l' q' ms Et Ep Eq Hl]; subst.
    cbn [ctext app inner]. rewrite Et. rewrite (lpar_t p Ep). rewrite <- app_assoc. cbn [app].
    rewrite (IH ms q rest n Hl Eq).
    2: { cbn [ctext List.length] in Hn. rewrite app_length in Hn. cbn in Hn. lia. }
    rewrite (rpar_t q Eq). reflexivity.
  - intros c IH ms q r n Hm Eq Hn. destruct n; [lia|]. cbn [cltext] in *.
    inversion Hm as [nx c' m Hc|]; subst. cbn [inner].
    rewrite (IH m (q :: r) n Hc) by (eauto || lia).
    rewrite not_comma by (rewrite Eq; discriminate). reflexivity.
  - intros c IHc k l IHl ms q r n Hm Eq Hn. destruct n; [lia|]. cbn [cltext] in *.
    inversion Hm as [|nx c' k' l' m ms' Hc Ek Hl]; subst. cbn [inner].
    rewrite <- app_assoc. cbn [app]. rewrite app_length in Hn. cbn [List.length] in Hn.
    rewrite (IHc m (k :: cltext l ++ q :: r) n Hc) by (eauto || lia).
    rewrite (comma_t k Ek). rewrite (IHl ms' q r n Hl Eq) by lia. reflexivity.
Qed.

(** ** Assembler operands *)
Lemma word_sound : forall t c, word t = Some c ->
  exists s, word_text (tk t) s /\ c = CStr s (lo t, hi t).
Proof.
  intros t c H. unfold word in H. destruct (tk t); try discriminate; injection H as <-;
    eexists; (split; [constructor|reflexivity]).
Qed.

Lemma word_complete : forall t s, word_text (tk t) s -> word t = Some (CStr s (lo t, hi t)).
Proof. intros t s H. unfold word. inversion H as [x E|x E|x v E]; reflexivity. Qed.

(** An expression that starts with a word is that word, if a comma follows. *)
Lemma expr_word : forall a s c r o, word_text (tk a) s -> tk c = KComma ->
  expr (a :: c :: r) = Some o -> exists m, o = (m, a, a, c :: r).
Proof.
  intros a s c r o Hw Hc H.
  assert (L : forall m, leaf_means (tk a) (covers (Leaf a)) m -> term_kind (tk a) ->
    exists m, o = (m, a, a, c :: r)).
  { intros m Hm Hk.
    pose proof (expr_complete (Leaf a) m (c :: r) Hk (me_leaf a m Hm)
      (stops_at c r (or_intror (or_intror (or_introl Hc))))) as X.
    cbn [text app first_tok last_tok] in X. rewrite X in H. injection H as <-. eauto. }
  inversion Hw as [x E|x E|x v E]; rewrite <- E in L.
  - eapply L; constructor.
  - destruct o as [[[e a0] z] rest]. apply expr_sound in H.
    destruct H as [t [Et [Pt _]]]. destruct (text_first t) as [y Ey]. rewrite Ey in Et.
    injection Et as Ea _. exfalso. eapply proper_first_not with (k := KWord x); [exact Pt| |].
    + right; right; right; right. eauto.
    + rewrite <- Ea. auto.
  - eapply L; constructor.
Qed.

(** An expression that starts with a parenthesis goes on up to its partner. *)
Lemma paren_inside : forall s, proper s -> tk (first_tok s) = KLpar ->
  exists e q r, text s = first_tok s :: text e ++ q :: r /\ proper e /\ tk q = KRpar.
Proof.
  induction s as [t|t s IH|p s IH q|l IHl t r IHr]; cbn [proper first_tok text]; intros Hp Hk.
  - rewrite Hk in Hp. inversion Hp.
  - destruct Hp as [[E|E] _]; rewrite E in Hk; discriminate.
  - exists s, q, []. tauto.
  - destruct Hp as [_ [_ [_ [Pl _]]]]. destruct (IHl Pl Hk) as [e [q [x [E [Pe Eq]]]]].
    exists e, q, (x ++ t :: text r). split; [|auto]. rewrite E. cbn. rewrite <- app_assoc. reflexivity.
Qed.

Lemma lpar_inside : forall s rest p ts1, proper s -> text s ++ rest = p :: ts1 -> tk p = KLpar ->
  exists m a z q r, expr ts1 = Some (m, a, z, q :: r) /\ tk q = KRpar.
Proof.
  intros s rest p ts1 Hp E Ep. destruct (text_first s) as [x Ex].
  assert (Ef : first_tok s = p) by (rewrite Ex in E; injection E; auto).
  destruct (paren_inside s Hp) as [e [q [r [Et [Pe Eq]]]]]; [rewrite Ef; exact Ep|].
  destruct (means_total e Pe) as [m Hm].
  exists m, (first_tok e), (last_tok e), q, (r ++ rest). split; [|exact Eq].
  rewrite Et in E. cbn in E. injection E as _ <-. rewrite <- app_assoc. cbn [app].
  apply expr_complete; auto. apply stops_at. auto.
Qed.

Lemma triplet_inv : forall ts o, triplet ts = Some o ->
  exists p a c1 b c2 c q rest sa sb sc, ts = p :: a :: c1 :: b :: c2 :: c :: q :: rest /\
    tk p = KLpar /\ tk c1 = KComma /\ tk c2 = KComma /\ tk q = KRpar /\
    word_text (tk a) sa /\ word_text (tk b) sb /\ word_text (tk c) sc /\
    o = (AsComplex "" [CStr sa (lo a, hi a); CStr sb (lo b, hi b); CStr sc (lo c, hi c)]
           (lo p, hi q), rest).
Proof.
  intros ts o H. unfold triplet in H.
  destruct ts as [|p [|a [|c1 [|b [|c2 [|c [|q rest]]]]]]]; try discriminate.
  destruct (is_lpar p && is_comma c1 && is_comma c2 && is_rpar q) eqn:B; [|discriminate].
  apply andb_prop in B. destruct B as [B B4]. apply andb_prop in B. destruct B as [B B3].
  apply andb_prop in B. destruct B as [B1 B2]. kinds.
  destruct (word a) as [wa|] eqn:Wa; [|discriminate].
  destruct (word b) as [wb|] eqn:Wb; [|discriminate].
  destruct (word c) as [wc|] eqn:Wc; [|discriminate]. injection H as <-.
  apply word_sound in Wa, Wb, Wc. destruct Wa as [sa [Ha ->]], Wb as [sb [Hb ->]], Wc as [sc [Hc ->]].
  exists p, a, c1, b, c2, c, q, rest, sa, sb, sc. repeat (split; [auto|]). reflexivity.
Qed.

Lemma asm_op_sound : forall ts o rest, asm_op ts = Some (o, rest) ->
  exists t, ts = atext t ++ rest /\ aproper t /\ ameans t o.
Proof.
  intros ts o rest H.
  assert (Ex : expr_op ts = Some (o, rest) ->
    exists t, ts = atext t ++ rest /\ aproper t /\ ameans t o).
  { unfold expr_op. destruct (expr ts) as [[[[e a] z] r]|] eqn:E; [|discriminate].
    intros X. injection X as <- <-. apply expr_sound in E.
    destruct E as [s [-> [Ps [Ms [Fs Ls]]]]]. exists (AtExpr s). cbn [atext aproper].
    split; [reflexivity|]. split; [exact Ps|]. subst. exact (am_expr s e Ms). }
  unfold asm_op in H. destruct ts as [|t ts']; [discriminate|].
  destruct (tk t) eqn:Et; try (apply Ex; exact H).
  - (* parenthesis *)
    destruct (triplet (t :: ts')) as [r|] eqn:Tr.
    + injection H as ->. apply triplet_inv in Tr.
      destruct Tr as (p & a & c1 & b & c2 & c & q & r & sa & sb & sc & -> & H1 & H2 & H3 & H4 & Wa & Wb & Wc & X).
      injection X as -> ->. exists (AtTriple p a c1 b c2 c q).
      split; [reflexivity|]. split; [cbn; auto|]. apply am_triple; auto.
    + destruct (using_op (t :: ts')) as [r|] eqn:U; [|apply Ex; exact H].
      injection H as ->. unfold using_op in U. destruct (is_lpar t) eqn:El; [|discriminate].
      destruct (expr ts') as [[[[b a1] z1] [|c ts2]]|] eqn:E1; try discriminate.
      destruct (is_comma c) eqn:Ec; [|discriminate].
      destruct (expr ts2) as [[[[e a2] z2] [|q r]]|] eqn:E2; try discriminate.
      destruct (is_rpar q) eqn:Eq; [|discriminate]. injection U as <- <-.
      apply expr_sound in E1, E2. destruct E1 as [sb [-> [Pb [Mb _]]]].
      destruct E2 as [se [-> [Pe [Me _]]]]. kinds. exists (AtUsing t sb c se q).
      split; [cbn; rewrite <- app_assoc; cbn; rewrite <- app_assoc; reflexivity|].
      split; [cbn; auto|]. exact (am_using t sb c se q b e Mb Me).
  - (* name *)
    destruct ts' as [|p ts2]; [apply Ex; exact H|].
    destruct (is_lpar p) eqn:Ep; [|apply Ex; exact H].
    destruct (inner (enough_inner ts2) IMany ts2) as [[l [|q r]]|] eqn:E; try discriminate.
    destruct (is_rpar q) eqn:Eq; [|discriminate]. injection H as <- <-.
    apply inner_sound in E. destruct E as [cl [-> Hcl]]. kinds.
    exists (AtCall t p cl q). split; [cbn; rewrite <- app_assoc; reflexivity|].
    split; [exact I|]. apply am_call; auto.
  - injection H as <- <-. exists (AtStr t). split; [reflexivity|]. split; [exact I|].
    apply am_str, Et.
Qed.

Lemma asm_op_complete : forall t o rest, aproper t -> ameans t o -> ends rest ->
  asm_op (atext t ++ rest) = Some (o, rest).
Proof.
  intros t o rest Hp Hm He.
  inversion Hm as [t0 s p l q ms Et Ep Eq Hl|p a c1 b c2 c q sa sb sc Wa Wb Wc
    |p b c e q mb me Mb Me|e m Me|t0 s Et]; subst; cbn [atext aproper] in *.
  - cbn [app asm_op]. unfold asm_op. rewrite Et, (lpar_t p Ep). rewrite <- app_assoc. cbn [app].
    destruct inner_complete as [_ IC]. rewrite (IC l ms q rest _ Hl Eq).
    + rewrite (rpar_t q Eq). reflexivity.
    + unfold enough_inner. rewrite app_length. cbn [List.length]. lia.
  - destruct Hp as [E1 [E2 [E3 E4]]]. cbn [app]. unfold asm_op. rewrite E1.
    unfold triplet. rewrite (lpar_t p E1), (comma_t c1 E2), (comma_t c2 E3), (rpar_t q E4).
    cbn [andb]. rewrite (word_complete a sa Wa), (word_complete b sb Wb), (word_complete c sc Wc).
    reflexivity.
  - destruct Hp as [Ep [Pb [Ec [Pe Eq]]]].
    replace ((p :: text b ++ c :: text e ++ [q]) ++ rest)
      with (p :: text b ++ c :: text e ++ q :: rest)
      by (cbn; rewrite <- !app_assoc; cbn; rewrite <- !app_assoc; reflexivity).
    pose proof (expr_complete b mb (c :: text e ++ q :: rest) Pb Mb
      (stops_at c _ (or_intror (or_intror (or_introl Ec))))) as Xb.
    pose proof (expr_complete e me (q :: rest) Pe Me (stops_at q rest (or_intror (or_introl Eq)))) as Xe.
    unfold asm_op. rewrite Ep.
    destruct (triplet (p :: text b ++ c :: text e ++ q :: rest)) as [r|] eqn:Tr.
    + exfalso. apply triplet_inv in Tr.
      destruct Tr as (p' & a & c1 & b' & c2 & c' & q' & r' & sa & sb & sc & E & H1 & H2 & H3 & H4 & Wa & Wb & Wc & X).
      injection E as _ E. rewrite E in Xb. apply (expr_word a sa) in Xb; auto.
      destruct Xb as [m X1]. injection X1 as _ _ _ _ X1.
      rewrite X1 in Xe. apply (expr_word b' sb) in Xe; auto.
      destruct Xe as [m2 X2]. injection X2 as _ _ _ X2 _.
      rewrite X2 in Eq. rewrite H3 in Eq. discriminate.
    + unfold using_op. rewrite (lpar_t p Ep), Xb, (comma_t c Ec), Xe, (rpar_t q Eq). reflexivity.
  - pose proof (expr_complete e m rest Hp Me (ends_stops _ He)) as Xe.
    assert (R : expr_op (text e ++ rest) = Some (AsExpr m (covers e), rest)).
    { unfold expr_op. rewrite Xe. reflexivity. }
    remember (text e ++ rest) as ts eqn:Ets.
    destruct (text_first e) as [x Ex].
    destruct ts as [|t ts']; [rewrite Ex in Ets; discriminate|].
    assert (Et : first_tok e = t) by (rewrite Ex in Ets; injection Ets; auto).
    unfold asm_op. destruct (tk t) eqn:Ek; try exact R.
    + destruct (lpar_inside e rest t ts' Hp (eq_sym Ets) Ek) as [m1 [a1 [z1 [q1 [r1 [X1 Eq1]]]]]].
      destruct (triplet (t :: ts')) as [r|] eqn:Tr.
      * exfalso. apply triplet_inv in Tr.
        destruct Tr as (p' & a & c1 & b' & c2 & c' & q' & r' & sa & sb & sc & E & H1 & H2 & H3 & H4 & Wa & Wb & Wc & X).
        injection E as _ E. rewrite E in X1. apply (expr_word a sa) in X1; auto.
        destruct X1 as [m2 X2]. injection X2 as _ _ _ X2 _. rewrite X2, H2 in Eq1. discriminate.
      * unfold using_op. rewrite (lpar_t t Ek), X1.
        rewrite not_comma by (rewrite Eq1; discriminate). exact R.
    + destruct ts' as [|p ts2]; [exact R|]. destruct (is_lpar p) eqn:Ep; [|exact R].
      exfalso. kinds.
      pose proof (expr_complete (Leaf t) (MAtom (ASymbol name) (covers (Leaf t))) (p :: ts2)) as X.
      cbn [text app proper] in X. rewrite Ek in X. rewrite X in Xe.
      * injection Xe as _ _ _ <-. cbn in He. rewrite Ep in He. destruct He; discriminate.
      * constructor.
      * apply me_leaf. rewrite Ek. constructor.
      * apply stops_at. auto.
    + exfalso. eapply proper_first_not with (k := KStr text); [exact Hp| |rewrite Et; exact Ek].
      right; right; right; left. eauto.
  - cbn [app]. unfold asm_op. rewrite Et. reflexivity.
Qed.

Lemma atext_starts : forall t o r, aproper t -> ameans t o -> starts_ok (atext t ++ r).
Proof.
  intros t o r Hp Hm.
  inversion Hm as [t0 s p l q ms Et Ep Eq Hl|p a c1 b c2 c q sa sb sc Wa Wb Wc
    |p b c e q mb me Mb Me|e m Me|t0 s Et]; subst; cbn [atext aproper app] in *.
  - cbn. rewrite Et. split; discriminate.
  - destruct Hp as [E1 _]. cbn. rewrite E1. split; discriminate.
  - destruct Hp as [E1 _]. cbn. rewrite E1. split; discriminate.
  - apply text_starts, Hp.
  - cbn. rewrite Et. split; discriminate.
Qed.

Lemma asm_ops_iff : forall eof ts l, asm_ops eof ts = Some l <->
  Listed atree aop atext aproper ameans AsEmpty eof ts l.
Proof.
  intros eof ts l. split; intros H.
  - eapply list_sound; [|exact H]. apply asm_op_sound.
  - unfold asm_ops. eapply list_complete; [| |exact H|lia].
    + apply asm_op_complete.
    + apply atext_starts.
Qed.
