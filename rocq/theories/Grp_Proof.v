(** Proofs about grouping. *)
From Coq Require Import List NArith ZArith Bool Lia.
From Coq Require Import ZifyBool ZifyNat ZifyN.
From Verif Require Import Common Ca_Model Grp_Model Grp_Spec.
Import ListNotations.
Open Scope Z_scope.

(** ** The tables *)
Lemma rank_iff : forall k o p, rank k o p <-> is_operator k o = true /\ get_priority k o = p.
Proof.
  intros k o p. split.
  - intros (Hp & ls & H1 & H2). remember (Z.to_nat p) as n eqn:En.
    assert (Hn : p = Z.of_nat n) by lia. subst p. clear En Hp.
    destruct k; destruct n as [|[|[|[|[|[|n]]]]]]; cbn in H1; try discriminate;
      try (destruct n; discriminate);
      injection H1 as <-; cbn [In] in H2;
      repeat (destruct H2 as [<-|H2]; [split; reflexivity|]); destruct H2.
  - intros [H1 <-]. destruct k; destruct o; cbn in H1; try discriminate; unfold rank; cbn;
      (split; [lia|eexists; split; [reflexivity|cbn; tauto]]).
Qed.

Lemma prefix_iff : forall k u, (exists p, rank k u p) /\ prefix u <-> is_unary k u = true.
Proof.
  intros k u. split.
  - intros [[p Hp] H]. apply rank_iff in Hp as [Ho _].
    unfold prefix in H. cbn [In] in H.
    destruct H as [<-|[<-|[<-|[<-|[<-|[<-|[]]]]]]]; destruct k; cbn in *; congruence.
  - intros H. split; [exists (get_priority k u); apply rank_iff; split; [|reflexivity]|].
    + unfold is_operator. now rewrite H.
    + destruct k; destruct u; cbn in H; try discriminate; unfold prefix; cbn; tauto.
Qed.

Lemma lookup_spec : forall n t o, lookup n t = o -> o <> UNKNOWN -> In (n, o) t.
Proof.
  induction t as [|[m o'] t IH]; intros o H Ho; cbn [lookup] in H; [congruence|].
  destruct (bytes_eqb n m) eqn:E.
  - apply bytes_eqb_eq in E. subst. left. reflexivity.
  - right. now apply IH.
Qed.
Lemma get_operator_iff : forall n o, o <> UNKNOWN -> (get_operator n = o <-> n = spelling o).
Proof.
  intros n o Ho. split.
  - intros H. apply lookup_spec in H; [|exact Ho]. unfold operator_names in H. cbn [In] in H.
    repeat (destruct H as [H|H]; [injection H as <- <-; reflexivity|]). destruct H.
  - intros ->. destruct o; try congruence; reflexivity.
Qed.
Lemma is_operator_known : forall k o, is_operator k o = true -> o <> UNKNOWN.
Proof. intros k o H ->. destruct k; discriminate. Qed.
Lemma is_unary_known : forall k o, is_unary k o = true -> o <> UNKNOWN.
Proof. intros k o H ->. destruct k; discriminate. Qed.

Lemma unary_at_iff : forall k i u, unary_at k i = Some u <-> prefix_word k i u.
Proof.
  intros k i u. unfold unary_at, prefix_word. split.
  - intros H. destruct i as [n| | |]; try discriminate.
    destruct (is_unary k (get_operator n)) eqn:E; [|discriminate]. injection H as <-.
    destruct (proj2 (prefix_iff k (get_operator n)) E) as [H1 H2].
    split; [exact H1|]. split; [exact H2|]. f_equal.
    apply get_operator_iff; [now apply (is_unary_known k)|reflexivity].
  - intros (H1 & H2 & ->). pose proof (proj1 (prefix_iff k u) (conj H1 H2)) as E.
    rewrite (proj2 (get_operator_iff (spelling u) u (is_unary_known k u E)) eq_refl).
    now rewrite E.
Qed.
Lemma unary_at_none : forall k i, unary_at k i = None <-> forall u, ~ prefix_word k i u.
Proof.
  intros k i. split.
  - intros H u Hu. apply unary_at_iff in Hu. congruence.
  - intros H. destruct (unary_at k i) as [u|] eqn:E; [|reflexivity].
    apply unary_at_iff in E. now apply H in E.
Qed.

Definition prio := get_priority.

Lemma stronger_iff : forall k a b, stronger k a b <->
  is_operator k a = true /\ is_operator k b = true /\ get_priority k a < get_priority k b.
Proof.
  intros k a b. split.
  - intros (p & q & H1 & H2 & H3). apply rank_iff in H1 as [H1 <-]. apply rank_iff in H2 as [H2 <-]. auto.
  - intros (H1 & H2 & H3). exists (get_priority k a), (get_priority k b).
    split; [apply rank_iff; auto|]. split; [apply rank_iff; auto|exact H3].
Qed.

Lemma joined_iff : forall o b, joined o b <->
  multiple_words KB o = true /\ get_operator (spelling o ++ s2b "_NOT") = b.
Proof.
  intros o b. unfold joined. cbn [In]. split.
  - intros [H|[H|[H|[]]]]; injection H as <- <-; split; reflexivity.
  - intros [H <-]. destruct o; try discriminate; cbn; tauto.
Qed.
Lemma is_not_iff : forall i, is_not i = true <-> i = Sym (s2b "NOT").
Proof.
  intros i. destruct i as [n| | |]; cbn [is_not]; try (split; discriminate).
  rewrite bytes_eqb_eq. split; [now intros ->|now intros [=]].
Qed.

(** Reading an operator at the front of a list. *)
Lemma operator_read : forall k o r b two, retrieve_binary_operator k o r = Got (b, two) ->
  is_operator k b = true /\
  exists wo, o :: r = wo ++ tails two r /\ operator_words k b wo (tails two r) /\ wo <> [] /\
    operator_word k o /\
    (two = true -> exists r', r = Sym (s2b "NOT") :: r' /\ k = KB).
Proof.
  intros k o r b two H. destruct o as [n| | |]; try discriminate. cbn [retrieve_binary_operator] in H.
  destruct (is_operator k (get_operator n)) eqn:E; [|discriminate]. cbn [negb] in H.
  pose proof (is_operator_known _ _ E) as Hk.
  pose proof (proj1 (get_operator_iff n (get_operator n) Hk) eq_refl) as Hn.
  set (o := get_operator n) in *. clearbody o. subst n.
  assert (Hrank : rank k o (get_priority k o)) by (apply rank_iff; auto).
  assert (How : operator_word k (Sym (spelling o))) by (exists o, (get_priority k o); auto).
  destruct (multiple_words k o && match r with n :: _ => is_not n | [] => false end) eqn:E2;
    injection H as <- <-.
  - apply andb_true_iff in E2 as [E2 E3]. destruct r as [|x r]; [discriminate|].
    apply is_not_iff in E3. subst x.
    assert (k = KB) by (destruct k; [discriminate|reflexivity|discriminate]). subst k.
    assert (Hj : joined o (get_operator (spelling o ++ s2b "_NOT"))) by (apply joined_iff; auto).
    split.
    { unfold joined in Hj. cbn [In] in Hj. destruct Hj as [H|[H|[H|[]]]]; injection H as <- <-; reflexivity. }
    exists [Sym (spelling o); Sym (s2b "NOT")]. cbn [tails].
    split; [reflexivity|]. split; [now apply two_words|]. split; [discriminate|].
    split; [exact How|]. intros _. eauto.
  - split; [exact E|]. exists [Sym (spelling o)]. cbn [tails].
    split; [reflexivity|]. split; [|split; [discriminate|split; [exact How|discriminate]]].
    apply one_word with (get_priority k o); [exact Hrank|].
    intros c next' -> Hj ->. apply joined_iff in Hj as [Hj _]. rewrite Hj in E2. discriminate.
Qed.
Lemma operator_unread : forall k o r d, retrieve_binary_operator k o r = Err d -> ~ operator_word k o.
Proof.
  intros k o r d H (b & p & H1 & ->). cbn [retrieve_binary_operator] in H.
  apply rank_iff in H1 as [H1 _].
  rewrite (proj2 (get_operator_iff (spelling b) b (is_operator_known _ _ H1)) eq_refl) in H.
  rewrite H1 in H. cbn [negb] in H. destruct (_ && _); discriminate.
Qed.

(** ** Runs: what [retrieve_term] produces *)
Inductive run (k : kind) : tree -> Prop :=
  | r_leaf : forall i, run k (Leaf i)
  | r_un : forall u t, is_operator k u = true -> run k t ->
      Forall (fun o => stronger k o u) (left_edge t) -> run k (Un u t)
  | r_bin : forall b i t, is_operator k b = true -> run k t ->
      Forall (fun o => stronger k o b) (left_edge t) -> run k (Bin b (Leaf i) t).

(** [starts p t]: the first operator of [t], if it is a binary one, has a priority below [p]. *)
Definition starts (k : kind) (p : Z) (t : tree) : Prop :=
  Forall (fun o => is_operator k o = true /\ get_priority k o < p) (left_edge t).

(** What may follow: nothing, or an operator that is not stronger than the last one ([p] when
    there is none). *)
Definition stops (k : kind) (p : Z) (t : tree) (r : list item) : Prop :=
  r = [] \/
  exists o r' b two, r = o :: r' /\ retrieve_binary_operator k o r' = Got (b, two) /\
    last (map (fun x => get_priority k (snd x)) (operators t)) p <= get_priority k b.

Lemma last_cons2 : forall {A} (x : A) l d d', last (x :: l) d = last (x :: l) d'.
Proof. intros A x l. revert x. induction l as [|y l IH]; intros x d d'; [reflexivity|cbn]. apply IH. Qed.
Lemma last_cons : forall {A} (x : A) l d, last (x :: l) d = last l x.
Proof.
  intros A x l d. destruct l as [|y l]; [reflexivity|]. cbn [last].
  change (last (y :: l) d = last (y :: l) x). apply last_cons2.
Qed.

Lemma starts_stronger : forall k b t, is_operator k b = true -> starts k (get_priority k b) t ->
  Forall (fun o => stronger k o b) (left_edge t).
Proof.
  intros k b t Hb H. eapply Forall_impl; [|exact H]. cbn. intros o [H1 H2].
  apply stronger_iff. auto.
Qed.

Lemma retrieve_term_spec : forall n k l p t r, (length l <= n)%nat ->
  retrieve_term k l p = Got (t, r) ->
  exists w, l = w ++ r /\ written k t w /\ w <> [] /\ run k t /\ starts k p t /\ stops k p t r /\
    (wants_term k l <-> wants_operator k r).
Proof.
  induction n as [|n IH]; intros k l p t r Hn H; [destruct l; [discriminate|cbn in Hn; lia]|].
  destruct l as [|curr r1]; [discriminate|]. cbn [length] in Hn. cbn [retrieve_term] in H.
  destruct (unary_at k curr) as [u|] eqn:Eu.
  - destruct (retrieve_term k r1 (get_priority k u)) as [[t' r']|d] eqn:E; [|discriminate].
    injection H as <- <-. apply IH in E; [|lia].
    destruct E as (w & -> & Hw & Hne & Hr & Hs & Hst & Hwf).
    pose proof (proj1 (unary_at_iff _ _ _) Eu) as Hp.
    assert (Hu : is_operator k u = true).
    { destruct Hp as ([p' Hp'] & _). now apply rank_iff in Hp' as [? _]. }
    exists (curr :: w). split; [reflexivity|]. split; [now apply w_un|]. split; [discriminate|].
    split; [apply r_un; auto using starts_stronger|]. split; [constructor|]. split.
    + destruct Hst as [->|(o & r2 & b & two & -> & E1 & E2)]; [now left|right].
      exists o, r2, b, two. split; [reflexivity|]. split; [exact E1|].
      cbn [operators map snd]. rewrite last_cons. exact E2.
    + split.
      * intros H. inversion H as [? ? ? ? H2|? ? H2 H3]; subst; [now apply Hwf|]. now apply H2 in Hp.
      * intros H. apply wt_prefix with u; [exact Hp|]. now apply Hwf.
  - pose proof (proj1 (unary_at_none _ _) Eu) as Hp.
    assert (Hwt : forall l, wants_term k (curr :: l) <-> wants_operator k l).
    { intros l. split; intros H'.
      - inversion H' as [? ? ? H2|]; subst; [now apply Hp in H2|assumption].
      - now apply wt_operand. }
    destruct r1 as [|o r2].
    + injection H as <- <-. exists [curr]. split; [reflexivity|]. split; [now apply w_leaf|].
      split; [discriminate|]. split; [constructor|]. split; [constructor|]. split; [now left|apply Hwt].
    + destruct (retrieve_binary_operator k o r2) as [[b two]|d] eqn:Eb; [|discriminate].
      destruct (p <=? get_priority k b) eqn:Ep.
      * injection H as <- <-. exists [curr]. split; [reflexivity|]. split; [now apply w_leaf|].
        split; [discriminate|]. split; [constructor|]. split; [constructor|]. split; [|apply Hwt].
        right. exists o, r2, b, two. split; [reflexivity|]. split; [exact Eb|]. cbn. lia.
      * pose proof (operator_read _ _ _ _ _ Eb) as (Hb & wo & Ewo & Hwo & Hwone & How & Htwo).
        replace (if two then match r2 with
                             | [] => retrieve_term k r2 (get_priority k b)
                             | _ :: r3 => retrieve_term k r3 (get_priority k b) end
                 else retrieve_term k r2 (get_priority k b))
          with (retrieve_term k (tails two r2) (get_priority k b)) in H
          by (destruct two, r2; reflexivity).
        destruct (retrieve_term k (tails two r2) (get_priority k b)) as [[t' r']|d] eqn:E; [|discriminate].
        injection H as <- <-.
        apply IH in E; [|destruct two, r2; cbn [tails length] in *; lia].
        destruct E as (w & Ew & Hw & Hne & Hr & Hs & Hst & Hwf).
        assert (Hww : written k (Bin b (Leaf curr) t') ([curr] ++ wo ++ w)).
        { apply w_bin; [now apply w_leaf|exact Hw|].
          rewrite Ew in Hwo. inversion Hwo as [p' next H1 H2|o' next H1 H2]; subst.
          - apply one_word with p'; [exact H1|]. intros c next' Hk Hj ->. 
            now apply (H2 c (next' ++ r') Hk Hj).
          - now apply two_words. }
        exists ([curr] ++ wo ++ w). split.
        { rewrite <- !app_assoc. cbn [app]. f_equal. now rewrite Ewo, Ew. }
        split; [exact Hww|]. split; [discriminate|].
        split; [apply r_bin; auto using starts_stronger|].
        split.
        { unfold starts. cbn [left_edge]. constructor; [split; [exact Hb|lia]|constructor]. }
        split.
        { destruct Hst as [->|(o' & r3 & b' & two' & -> & E1 & E2)]; [now left|right].
          exists o', r3, b', two'. split; [reflexivity|]. split; [exact E1|].
          cbn [operators app map snd]. rewrite last_cons. exact E2. }
        rewrite Hwt.
        assert (Hto : wants_operator k (o :: r2) <-> wants_term k (tails two r2)).
        { destruct two; cbn [tails].
          - destruct (Htwo eq_refl) as (r3 & -> & ->). split; intros H'.
            + inversion H' as [|? ? _ H2]; subst.
              inversion H2 as [? ? ? _ H3|? ? H3 _]; subst; [exact H3|]. exfalso. apply (H3 NOT).
              split; [exists 1; now apply rank_iff|]. split; [now left|reflexivity].
            + apply wo_operator; [exact How|]. apply wt_prefix with NOT; [|exact H'].
              split; [exists 1; now apply rank_iff|]. split; [now left|reflexivity].
          - split; intros H'; [now inversion H'|]. apply wo_operator; assumption. }
        rewrite Hto. exact Hwf.
Qed.

Lemma retrieve_term_err : forall n k l p d, (length l <= n)%nat ->
  retrieve_term k l p = Err d -> ~ wants_term k l.
Proof.
  induction n as [|n IH]; intros k l p d Hn H Hw.
  - destruct l; [inversion Hw|cbn in Hn; lia].
  - destruct l as [|curr r1]; [inversion Hw|]. cbn [length] in Hn. cbn [retrieve_term] in H.
    destruct (unary_at k curr) as [u|] eqn:Eu.
    + pose proof (proj1 (unary_at_iff _ _ _) Eu) as Hp.
      destruct (retrieve_term k r1 (get_priority k u)) as [[t' r']|d'] eqn:E; [discriminate|].
      apply IH in E; [|lia]. inversion Hw as [? ? ? ? H2|? ? H2 H3]; subst; [auto|]. now apply H2 in Hp.
    + pose proof (proj1 (unary_at_none _ _) Eu) as Hp.
      destruct r1 as [|o r2]; [discriminate|].
      assert (Ho : wants_operator k (o :: r2))
        by (inversion Hw as [? ? ? H2|]; subst; [now apply Hp in H2|assumption]).
      destruct (retrieve_binary_operator k o r2) as [[b two]|d'] eqn:Eb.
      2:{ apply operator_unread in Eb. inversion Ho; subst. contradiction. }
      destruct (p <=? get_priority k b); [discriminate|].
      pose proof (operator_read _ _ _ _ _ Eb) as (_ & _ & _ & _ & _ & _ & Htwo).
      replace (if two then match r2 with
                           | [] => retrieve_term k r2 (get_priority k b)
                           | _ :: r3 => retrieve_term k r3 (get_priority k b) end
               else retrieve_term k r2 (get_priority k b))
        with (retrieve_term k (tails two r2) (get_priority k b)) in H
        by (destruct two, r2; reflexivity).
      destruct (retrieve_term k (tails two r2) (get_priority k b)) as [[t' r']|d'] eqn:E; [discriminate|].
      apply IH in E; [|destruct two, r2; cbn [tails length] in *; lia]. apply E.
      inversion Ho as [|? ? _ H2]; subst. destruct two; [|exact H2]. cbn [tails].
      destruct (Htwo eq_refl) as (r3 & -> & ->).
      inversion H2 as [? ? ? _ H3|? ? H3 _]; subst; [exact H3|]. exfalso. apply (H3 NOT).
      split; [exists 1; now apply rank_iff|]. split; [now left|reflexivity].
Qed.

(** ** Facts about runs *)
Lemma run_edges : forall k t, run k t ->
  right_edge t = map snd (operators t) /\ grouped k t /\ falling k (operators t) /\
  Forall (fun x => is_operator k (snd x) = true) (operators t) /\
  (forall x os, operators t = (false, x) :: os -> left_edge t = [x]).
Proof.
  intros k t H. induction H as [i|u t Hu H IH Hl|b i t Hb H IH Hl].
  - cbn. repeat split; auto; try constructor. discriminate.
  - destruct IH as (I1 & I2 & I3 & I4 & I5). cbn [right_edge operators map snd].
    split; [now rewrite I1|]. split; [now apply g_un|]. split; [|split].
    + cbn [falling]. destruct (operators t) as [|[[] y] os] eqn:E; auto.
      split; [|exact I3]. right. cbn [snd]. specialize (I5 y os eq_refl). rewrite I5 in Hl.
      now inversion Hl.
    + now constructor.
    + discriminate.
  - destruct IH as (I1 & I2 & I3 & I4 & I5). cbn [right_edge operators app map snd].
    split; [now rewrite I1|]. split; [apply g_bin; auto; constructor|]. split; [|split].
    + cbn [falling]. destruct (operators t) as [|[[] y] os] eqn:E; auto.
      split; [|exact I3]. right. cbn [snd]. specialize (I5 y os eq_refl). rewrite I5 in Hl.
      now inversion Hl.
    + now constructor.
    + intros x os [=]. subst. reflexivity.
Qed.

(** ** The loop *)

(** The last run of the operators seen so far. *)
Definition last_run (k : kind) (F rn : list (bool * op)) : Prop :=
  (exists pre, F = pre ++ rn) /\ falling k rn /\
  forall a s, F = a ++ s -> s <> [] -> falling k s -> exists c, rn = c ++ s.

Lemma falling_app : forall k a b, falling k (a ++ b) -> falling k b.
Proof.
  induction a as [|x a IH]; intros b H; [exact H|]. apply IH. cbn [app] in H.
  destruct (a ++ b); [constructor|]. now destruct H.
Qed.
Lemma falling_join : forall k a x y b, falling k (a ++ x :: y :: b) ->
  fst y = true \/ stronger k (snd y) (snd x).
Proof. intros k a x y b H. apply falling_app in H. now destruct H. Qed.

Lemma app_split : forall {A} (a b c d : list A), a ++ b = c ++ d ->
  (exists m, c = a ++ m /\ b = m ++ d) \/ (exists m, m <> [] /\ a = c ++ m /\ d = m ++ b).
Proof.
  induction a as [|x a IH]; intros b c d H.
  - left. exists c. auto.
  - destruct c as [|y c].
    + right. exists (x :: a). split; [discriminate|]. auto.
    + cbn in H. injection H as -> H. destruct (IH _ _ _ H) as [(m & -> & ->)|(m & Hm & -> & ->)].
      * left. exists m. auto.
      * right. exists m. auto.
Qed.

Lemma last_app_ne : forall {A} (a b : list A) d, b <> [] -> last (a ++ b) d = last b d.
Proof.
  induction a as [|x a IH]; intros b d Hb; [reflexivity|]. cbn [app last].
  destruct (a ++ b) eqn:E; [destruct a; [contradiction|discriminate]|]. rewrite <- E. now apply IH.
Qed.
Lemma last_snoc : forall {A} (a : list A) (x d : A), last (a ++ [x]) d = x.
Proof. intros. now rewrite last_app_ne. Qed.

Lemma last_run_step : forall k F rn z R, last_run k F rn ->
  (F = [] \/ ~ stronger k z (snd (last F (false, z)))) -> falling k ((false, z) :: R) ->
  last_run k (F ++ (false, z) :: R) ((false, z) :: R).
Proof.
  intros k F rn z R (_ & _ & Hmax) Hz Hf. split; [eauto|]. split; [exact Hf|].
  intros a s E Hs Hfs. destruct (app_split _ _ _ _ E) as [(m & _ & E2)|(m & Hm & E1 & E2)].
  - eauto.
  - exfalso. destruct m as [|x m] using rev_ind; [now apply Hm|]. clear IHm.
    subst s. destruct Hz as [->|Hz]; [destruct a; [destruct m|]; discriminate|].
    rewrite E1 in Hz. rewrite app_assoc in Hz. rewrite last_snoc in Hz.
    rewrite <- app_assoc in Hfs. cbn [app] in Hfs.
    apply falling_join in Hfs as [H|H]; [discriminate|]. now apply Hz.
Qed.

Lemma dip_step : forall k F rn z R, last_run k F rn ->
  (F = [] \/ ~ stronger k z (snd (last F (false, z)))) -> falling k ((false, z) :: R) ->
  (dip k (F ++ (false, z) :: R) <-> dip k F \/ exists x, In x rn /\ stronger k z (snd x)).
Proof.
  intros k F rn z R ((pre & HF) & Hrn & Hmax) Hz Hf. split.
  - intros (a & x & r & z' & b & E & H1 & H2 & H3).
    rewrite app_assoc in E.
    destruct (app_split _ _ _ _ E) as [(m & E1 & E2)|(m & Hm & E1 & E2)].
    + (* z' at or behind z *)
      destruct m as [|y m]; cbn [app] in E2.
      * (* z' = z: the run is a suffix of F *)
        injection E2 as <- <-. rewrite app_nil_r in E1. right.
        symmetry in E1. destruct (Hmax _ _ E1 ltac:(discriminate) H1) as [c Hc].
        exists x. split; [rewrite Hc; apply in_or_app; right; now left|exact H3].
      * (* z' inside R *)
        exfalso. injection E2 as <- E2.
        assert (Hl : forall d, last (x :: r) x = last ((false, z) :: m) d).
        { intros d. transitivity (last (a ++ x :: r) x).
          - rewrite last_app_ne; [reflexivity|discriminate].
          - rewrite E1. rewrite last_app_ne by discriminate. apply last_cons2. }
        rewrite E2 in Hf.
        destruct (@exists_last _ ((false, z) :: m) ltac:(discriminate)) as (m' & y & Ey).
        rewrite (Hl x) in H2. rewrite Ey, last_snoc in H2.
        assert (Hf2 : falling k (m' ++ y :: (false, z') :: b)).
        { change ((false, z) :: m ++ (false, z') :: b) with (((false, z) :: m) ++ (false, z') :: b) in Hf.
          rewrite Ey in Hf. rewrite <- app_assoc in Hf. exact Hf. }
        apply falling_join in Hf2 as [H|H]; [discriminate|contradiction].
    + (* z' inside F *)
      left. destruct m as [|y m]; [contradiction|]. injection E2 as <- E2.
      exists a, x, r, z', m. split; [|auto]. rewrite E1. now rewrite <- app_assoc.
  - intros [(a & x & r & z' & b & E & H1 & H2 & H3)|(x & Hx & H3)].
    + exists a, x, r, z', (b ++ (false, z) :: R). split; [|auto]. rewrite E.
      rewrite <- !app_assoc. reflexivity.
    + apply in_split in Hx as (r1 & r2 & ->).
      exists (pre ++ r1), x, r2, z, R. split; [|split; [|split; [|exact H3]]].
      * rewrite HF. rewrite <- !app_assoc. reflexivity.
      * now apply falling_app in Hrn.
      * destruct Hz as [->|Hz]; [destruct pre; [destruct r1|]; discriminate|].
        assert (Hl : last (x :: r2) x = last F (false, z)).
        { rewrite HF. rewrite last_app_ne by (destruct r1; discriminate).
          rewrite last_app_ne by discriminate. apply last_cons2. }
        now rewrite Hl.
Qed.

Lemma grouped_bin : forall k b l r, grouped k (Bin b l r) <->
  grouped k l /\ grouped k r /\ Forall (fun o => ~ stronger k b o) (right_edge l) /\
  Forall (fun o => stronger k o b) (left_edge r).
Proof.
  intros. split; [intros H; inversion H; auto|]. intros (H1 & H2 & H3 & H4). now apply g_bin.
Qed.

Lemma last_map : forall {A B} (f : A -> B) l d, last (map f l) (f d) = f (last l d).
Proof.
  intros A B f l d. induction l as [|x l IH]; [reflexivity|]. cbn [map last].
  destruct l; [reflexivity|exact IH].
Qed.

Record state_ok (k : kind) (final : tree) (w : list item) : Prop := {
  so_written : written k final w;
  so_run : exists rn, last_run k (operators final) rn /\ right_edge final = map snd rn;
  so_iff : grouped k final <-> ~ dip k (operators final);
  so_ops : Forall (fun x => is_operator k (snd x) = true) (operators final) }.

Lemma stops_not_stronger : forall k p t o r' b two, stops k p t (o :: r') ->
  retrieve_binary_operator k o r' = Got (b, two) ->
  operators t = [] \/ ~ stronger k b (snd (last (operators t) (false, b))).
Proof.
  intros k p t o r' b two [H|(o' & r2 & b' & two' & E & E1 & E2)] Hb; [discriminate|].
  injection E as <- <-. rewrite Hb in E1. injection E1 as <- <-.
  destruct (operators t) as [|x os] eqn:Eo; [now left|right]. intros Hs.
  apply stronger_iff in Hs as (_ & _ & Hs).
  set (f := fun x : bool * op => get_priority k (snd x)) in *.
  assert (El : last (map f (x :: os)) p = f (last (x :: os) (false, b))).
  { rewrite <- (last_map f). cbn [map]. apply last_cons2. }
  rewrite El in E2. unfold f in E2. lia.
Qed.

Lemma loop_spec : forall n k final l w p t0, state_ok k final w -> (length l <= n)%nat ->
  (exists pre, operators final = pre ++ operators t0 /\ (operators t0 = [] -> operators final = [])) ->
  stops k p t0 l ->
  match loop n k final l with
  | None => False
  | Some (inl t) => state_ok k t (w ++ l) /\ wants_operator k l
  | Some (inr ds) => (exists d, ds = [d]) /\ ~ wants_operator k l
  end.
Proof.
  induction n as [|n IH]; intros k final l w p t0 Hok Hn Hpre Hst.
  - destruct l; [|cbn in Hn; lia]. cbn [loop]. rewrite app_nil_r. split; [exact Hok|constructor].
  - destruct l as [|o r]; [cbn [loop]; rewrite app_nil_r; split; [exact Hok|constructor]|].
    cbn [loop].
    destruct (retrieve_binary_operator k o r) as [[b two]|d] eqn:Eb.
    2:{ exfalso. destruct Hst as [H|(o' & r' & b' & two' & E & E1 & _)]; [discriminate|].
        injection E as <- <-. congruence. }
    pose proof (operator_read _ _ _ _ _ Eb) as (Hb & wo & Ewo & Hwo & Hwone & How & Htwo).
    assert (Hto : wants_operator k (o :: r) <-> wants_term k (tails two r)).
    { destruct two; cbn [tails].
      - destruct (Htwo eq_refl) as (r3 & -> & ->). split; intros H'.
        + inversion H' as [|? ? _ H2]; subst.
          inversion H2 as [? ? ? _ H3|? ? H3 _]; subst; [exact H3|]. exfalso. apply (H3 NOT).
          split; [exists 1; now apply rank_iff|]. split; [now left|reflexivity].
        + apply wo_operator; [exact How|]. apply wt_prefix with NOT; [|exact H'].
          split; [exists 1; now apply rank_iff|]. split; [now left|reflexivity].
      - split; intros H'; [now inversion H'|]. apply wo_operator; assumption. }
    destruct (retrieve_term k (tails two r) (get_priority k b)) as [[t r']|d] eqn:Et.
    2:{ split; [eauto|]. rewrite Hto. apply retrieve_term_err with (n := length (tails two r)) in Et; [exact Et|lia]. }
    apply retrieve_term_spec with (n := length (tails two r)) in Et; [|lia].
    destruct Et as (wt & Ewt & Hwt & Hne & Hr & Hs & Hst' & Hwf).
    destruct (run_edges k t Hr) as (R1 & R2 & R3 & R4 & R5).
    assert (Hz : operators final = [] \/ ~ stronger k b (snd (last (operators final) (false, b)))).
    { destruct (stops_not_stronger _ _ _ _ _ _ _ Hst Eb) as [H|H].
      - left. destruct Hpre as (pre & _ & Hpre). now apply Hpre.
      - destruct Hpre as (pre & Hpre & Hnil). destruct (operators t0) as [|x os] eqn:E0.
        + left. now apply Hnil.
        + right. rewrite Hpre. rewrite last_app_ne by discriminate. exact H. }
    assert (Hf : falling k ((false, b) :: operators t)).
    { cbn [falling]. destruct (operators t) as [|[[] y] os] eqn:E; auto.
      split; [|exact R3]. right. cbn [snd]. specialize (R5 y os eq_refl).
      apply starts_stronger in Hs; [|exact Hb]. rewrite R5 in Hs. now inversion Hs. }
    destruct Hok as [O1 (rn & O2 & O3) O4 O5].
    assert (Hok' : state_ok k (Bin b final t) (w ++ wo ++ wt)).
    { constructor.
      - apply w_bin; [exact O1|exact Hwt|]. rewrite Ewt in Hwo.
        inversion Hwo as [p' next H1 H2|o' next H1 H2]; subst.
        + apply one_word with p'; [exact H1|]. intros c next' Hk Hj ->.
          now apply (H2 c (next' ++ r') Hk Hj).
        + now apply two_words.
      - exists ((false, b) :: operators t). split; [|cbn [right_edge map snd]; now rewrite R1].
        cbn [operators]. now apply last_run_step with rn.
      - cbn [operators]. rewrite (dip_step k _ rn b _ O2 Hz Hf). rewrite grouped_bin, O4, O3.
        split.
        + intros (H1 & _ & H3 & _) [H|(x & Hx & H)]; [contradiction|].
          rewrite Forall_forall in H3. apply (H3 (snd x)); [now apply in_map|exact H].
        + intros H. split; [intros Hd; apply H; now left|]. split; [exact R2|]. split.
          * apply Forall_forall. intros x Hx Hxs. apply in_map_iff in Hx as (y & <- & Hy).
            apply H. right. eauto.
          * now apply starts_stronger.
      - cbn [operators]. apply Forall_app. split; [exact O5|]. constructor; [exact Hb|exact R4]. }
    assert (Hl : (length r' <= n)%nat).
    { assert (length (tails two r) = length wt + length r')%nat by (rewrite Ewt; apply app_length).
      cbn [length] in Hn. destruct two, r; cbn [tails length] in *; lia. }
    (* the new state ends in a run headed by b *)
    set (tb := Bin b (Leaf (Term 0)) t).
    assert (Hst2 : stops k (get_priority k b) tb r').
    { destruct Hst' as [->|(o' & r3 & b' & two' & -> & E1 & E2)]; [now left|right].
      exists o', r3, b', two'. split; [reflexivity|]. split; [exact E1|].
      unfold tb. cbn [operators app map snd]. rewrite last_cons. exact E2. }
    specialize (IH k (Bin b final t) r' (w ++ wo ++ wt) (get_priority k b) tb Hok' Hl).
    assert (Hpre2 : exists pre, operators (Bin b final t) = pre ++ operators tb /\
                      (operators tb = [] -> operators (Bin b final t) = [])).
    { exists (operators final). unfold tb. cbn [operators app]. split; [reflexivity|discriminate]. }
    specialize (IH Hpre2 Hst2).
    assert (El : (w ++ wo ++ wt) ++ r' = w ++ o :: r).
    { rewrite Ewo, Ewt. now rewrite <- !app_assoc. }
    destruct (loop n k (Bin b final t) r') as [[t'|ds]|]; [|  |exact IH].
    + rewrite El in IH. split; [tauto|]. rewrite Hto, Hwf. tauto.
    + rewrite Hto, Hwf. exact IH.
Qed.

Lemma run_operators : forall k t, run k t -> (exists rn, last_run k (operators t) rn /\ right_edge t = map snd rn).
Proof.
  intros k t H. destruct (run_edges k t H) as (R1 & _ & R3 & _). exists (operators t).
  split; [|exact R1]. split; [exists []; reflexivity|]. split; [exact R3|]. intros a s E _ _. eauto.
Qed.
Lemma falling_no_dip : forall k os, falling k os -> ~ dip k os.
Proof.
  intros k os H (a & x & r & z & b & -> & H1 & H2 & H3).
  destruct (@exists_last _ (x :: r) ltac:(discriminate)) as (m' & y & Ey).
  rewrite Ey in H2. rewrite last_snoc in H2.
  rewrite Ey in H. rewrite <- app_assoc in H. cbn [app] in H. rewrite app_assoc in H.
  apply falling_join in H as [H|H]; [discriminate|contradiction].
Qed.

Theorem resolve_spec : forall k l,
  match resolve k l with
  | None => False
  | Some (inl t) => state_ok k t l /\ wants_term k l
  | Some (inr ds) => (exists d, ds = [d]) /\ ~ wants_term k l
  end.
Proof.
  intros k l. unfold resolve. destruct l as [|i l]; [split; [eauto|intros H; inversion H]|].
  set (l0 := i :: l). clearbody l0. clear i l.
  destruct (retrieve_term k l0 0) as [[t r]|d] eqn:E.
  2:{ split; [eauto|]. now apply retrieve_term_err with (n := length l0) in E. }
  apply retrieve_term_spec with (n := length l0) in E; [|lia].
  destruct E as (w & -> & Hw & Hne & Hr & Hs & Hst & Hwf).
  destruct (run_edges k t Hr) as (R1 & R2 & R3 & R4 & R5).
  assert (Hok : state_ok k t w).
  { constructor; [exact Hw|now apply run_operators| |exact R4].
    split; [intros _; now apply falling_no_dip|intros _; exact R2]. }
  pose proof (loop_spec (length (w ++ r)) k t r w 0 t Hok) as L.
  rewrite app_length in L. specialize (L ltac:(lia)).
  rewrite app_length.
  specialize (L ltac:(exists []; split; [reflexivity|auto]) Hst).
  destruct (loop (length w + length r) k t r) as [[t'|ds]|]; [| |exact L].
  - rewrite Hwf. exact L.
  - rewrite Hwf. exact L.
Qed.
