(** * Det_Proof: lemmas on the detection of HLASM documents *)
From Coq Require Import String List NArith Arith Bool Lia.
From Verif Require Import Common Lts Wild_Model Wild_Spec Wild_Proof Det_Model Det_Spec.
Import ListNotations.
Open Scope list_scope.

(** ** Patterns *)
Lemma convert_same : forall w, convert w = 94%N :: wildcard2regex false w ++ [36%N].
Proof. reflexivity. Qed.
Lemma compile_same : forall w, compile (convert w) = re_parse (wildcard2regex false w).
Proof. intros w. rewrite convert_same. unfold compile. rewrite rev_app_distr. cbn [rev app]. now rewrite rev_involutive. Qed.
Lemma js_any_any : forall c, ~ In c [8232; 8233]%N -> js_any c = any_char c.
Proof.
  intros c H. unfold js_any, any_char. cbn [existsb]. f_equal.
  replace (c =? 8232)%N with false by (symmetry; apply N.eqb_neq; intros ->; apply H; now left).
  replace (c =? 8233)%N with false by (symmetry; apply N.eqb_neq; intros ->; apply H; right; now left).
  now rewrite !orb_false_r.
Qed.
Lemma js_match_re : forall ts n, (forall c, In c n -> ~ In c [8232; 8233]%N) -> js_match ts n = re_match ts n.
Proof.
  induction ts as [|t ts IH]; intros n H; [reflexivity|].
  destruct t as [c| | |].
  - destruct n as [|x n]; [reflexivity|]. cbn. rewrite IH; [reflexivity|]. intros y Hy. apply H. now right.
  - destruct n as [|x n]; [reflexivity|]. cbn [js_match re_match]. rewrite js_any_any by (apply H; now left).
    rewrite IH; [reflexivity|]. intros y Hy. apply H. now right.
  - induction n as [|x n IHn]; cbn [js_match re_match].
    + now rewrite IH.
    + rewrite IH by assumption. rewrite js_any_any by (apply H; now left). f_equal. f_equal.
      apply IHn. intros y Hy. apply H. now right.
  - induction n as [|x n IHn]; cbn [js_match re_match]; [reflexivity|].
    rewrite js_any_any by (apply H; now left). rewrite IH by (intros y Hy; apply H; now right). f_equal. f_equal.
    apply IHn. intros y Hy. apply H. now right.
Qed.
Lemma plain_one : forall n, plain_name n -> one_line n /\ forall c, In c n -> ~ In c [8232; 8233]%N.
Proof.
  intros n H. split.
  - split; intros X; apply (H _ X); cbn; tauto.
  - intros c Hc X. apply (H c Hc). cbn in *. tauto.
Qed.
Lemma convert_ok : forall w, exists e, compile (convert w) = Some e /\
  forall n, plain_name n -> (js_match e n = true <-> denotes_plus w n).
Proof.
  intros w. rewrite compile_same. destruct (re_parse (wildcard2regex false w)) as [e|] eqn:E.
  - exists e. split; [reflexivity|]. intros n H. apply plain_one in H as [H1 H2].
    destruct (pattern_match_plus w n H1) as (b & P & B). unfold pattern_match in P. rewrite E in P. injection P as P.
    now rewrite (js_match_re e n H2), P.
  - destruct (pattern_match_plus w [] (conj (fun x => x) (fun x => x))) as (b & P & _). unfold pattern_match in P. now rewrite E in P.
Qed.
Lemma compile_all_ok : forall ws n, plain_name n ->
  (existsb (fun e => js_match e n) (compile_all ws) = true <-> exists w, In w ws /\ denotes_plus w n).
Proof.
  intros ws n P. induction ws as [|w ws IH]; cbn [compile_all].
  - split; [discriminate|]. intros (w & [] & _).
  - destruct (convert_ok w) as (e & -> & M). cbn [existsb]. rewrite orb_true_iff, IH, (M n P). split.
    + intros [H|(v & I & H)]; [exists w; split; [now left|assumption]|exists v; split; [now right|assumption]].
    + intros (v & [->|I] & H); [now left|right; now exists v].
Qed.
Lemma compile_all_app : forall a b, compile_all (a ++ b) = compile_all a ++ compile_all b.
Proof. induction a as [|w a IH]; intros b; [reflexivity|]. cbn [app compile_all]. destruct (compile (convert w)); cbn [app]; now rewrite IH. Qed.

(** ** Lines *)
Lemma split_nonempty : forall s, split_lines s <> [].
Proof. intros [|c s]; cbn; [discriminate|]. destruct (split_lines s) as [|l ls]; [discriminate|]. now destruct (c =? 10)%N. Qed.
Lemma split_lines_of : forall s, lines_of s (split_lines s).
Proof.
  induction s as [|c s IH]; cbn [split_lines].
  - constructor. easy.
  - destruct (split_lines s) as [|l ls] eqn:E; [now elim (split_nonempty s)|].
    destruct (N.eqb_spec c 10) as [->|N].
    + change (10%N :: s) with ([] ++ 10%N :: s). constructor; [easy|assumption].
    + inversion IH as [l0 H|l0 s0 ls0 H H']; subst.
      * constructor. intros [X|X]; [congruence|now apply H].
      * change (c :: l ++ 10%N :: s0) with ((c :: l) ++ 10%N :: s0). constructor; [|assumption].
        intros [X|X]; [congruence|now apply H].
Qed.
Lemma lines_fun : forall s ls, lines_of s ls -> ls = split_lines s.
Proof.
  intros s ls H. induction H as [l H|l s ls H H' IH].
  - induction l as [|c l IH]; [reflexivity|]. cbn [split_lines]. rewrite <- IH by (intros X; apply H; now right).
    destruct (N.eqb_spec c 10) as [->|N]; [|reflexivity]. elim H. now left.
  - subst ls. induction l as [|c l IH]; cbn [app split_lines].
    + destruct (split_lines s) as [|x xs] eqn:E; [now elim (split_nonempty s)|]. reflexivity.
    + rewrite <- IH by (intros X; apply H; now right).
      destruct (N.eqb_spec c 10) as [->|N]; [|reflexivity]. elim H. now left.
Qed.

Lemma span_app : forall p s a b, span p s = (a, b) -> s = a ++ b.
Proof.
  intros p. induction s as [|c s IH]; intros a b; cbn.
  - now intros [= <- <-].
  - destruct (p c); [|now intros [= <- <-]]. destruct (span p s) as [u v]. intros [= <- <-]. cbn. f_equal. now apply IH.
Qed.
Lemma span_all : forall p s a b, span p s = (a, b) -> forall c, In c a -> p c = true.
Proof.
  intros p. induction s as [|c s IH]; intros a b; cbn.
  - intros [= <- <-]. easy.
  - destruct (p c) eqn:P; [|intros [= <- <-]; easy]. destruct (span p s) as [u v]. intros [= <- <-] x [<-|X]; [assumption|].
    now apply (IH u v).
Qed.
Lemma span_stop : forall p s a c b, span p s = (a, c :: b) -> p c = false.
Proof.
  intros p. induction s as [|x s IH]; intros a c b; cbn; [discriminate|].
  destruct (p x) eqn:P; [|intros [= <- <- <-]; assumption]. destruct (span p s) as [u v]. intros [= <- ->]. now apply (IH u c b).
Qed.
Lemma span_exact : forall p a b, (forall c, In c a -> p c = true) -> (forall c r, b = c :: r -> p c = false) -> span p (a ++ b) = (a, b).
Proof.
  intros p a b. induction a as [|c a IH]; intros H K; cbn.
  - destruct b as [|c b]; [reflexivity|]. cbn. now rewrite (K c b eq_refl).
  - rewrite (H c) by now left. rewrite IH; [reflexivity| |assumption]. intros x X. apply H. now right.
Qed.
Lemma js_space_white : forall c, js_space c = true <-> white c.
Proof.
  intros c. unfold js_space, white. rewrite !orb_true_iff, !andb_true_iff, !N.leb_le, existsb_exists.
  split.
  - intros [[H|H]|(x & I & H)]; [left; now left|left; now right|right]. apply N.eqb_eq in H as ->. assumption.
  - intros [[H|H]|H]; [left; now left|left; now right|right]. exists c. split; [assumption|apply N.eqb_refl].
Qed.
Lemma blank_eq : forall c, blank c = true <-> c = 32%N \/ c = 9%N.
Proof. intros c. unfold blank. rewrite orb_true_iff, !N.eqb_eq. reflexivity. Qed.
Lemma blank_space : forall c, blank c = true -> js_space c = true.
Proof. intros c H. apply blank_eq in H as [->| ->]; reflexivity. Qed.

Definition no_blank_ops : forallb (fun i => forallb (fun c => negb (blank c)) i && negb (bytes_eqb i [])) instructions = true.
Proof. vm_compute. reflexivity. Qed.
Lemma op_no_blank : forall i, In i instructions -> i <> [] /\ forall c, In c i -> blank c = false.
Proof.
  intros i H. pose proof (proj1 (forallb_forall _ _) no_blank_ops i H) as K. apply andb_true_iff in K as [K1 K2].
  split.
  - intros ->. discriminate.
  - intros c Hc. pose proof (proj1 (forallb_forall _ _) K1 c Hc) as X. now apply negb_true_iff in X.
Qed.
Lemma first_blank : forall b, blanks b -> exists c r, b = c :: r /\ blank c = true.
Proof. intros [|c r] [H K]; [easy|]. exists c, r. split; [reflexivity|]. apply blank_eq, K. now left. Qed.

Lemma reference_ok : forall s, reference s = true <-> has_operation instructions s.
Proof.
  intros s. unfold reference. split.
  - destruct (span _ s) as [w r1] eqn:E1. destruct (span blank r1) as [b r2] eqn:E2.
    destruct (span _ r2) as [i r3] eqn:E3. destruct b as [|c b]; [discriminate|]. destruct r3 as [|x r]; [discriminate|].
    intros H. apply existsb_exists in H as (i' & I & H). apply bytes_eqb_eq in H as <-.
    exists w, (c :: b), i, [x], r. split.
    { rewrite (span_app _ _ _ _ E1), (span_app _ _ _ _ E2), (span_app _ _ _ _ E3). reflexivity. }
    split. { intros y Hy X. apply js_space_white in X. pose proof (span_all _ _ _ _ E1 y Hy) as Z. cbn beta in Z. rewrite X in Z. discriminate. }
    split. { split; [discriminate|]. intros y Hy. apply blank_eq. now apply (span_all _ _ _ _ E2). }
    split; [assumption|]. split; [discriminate|]. intros y [<-|[]]. apply blank_eq.
    pose proof (span_stop _ _ _ _ _ E3) as Z. cbn beta in Z. now apply negb_false_iff in Z.
  - intros (w & b & i & b' & r & -> & W & B & I & B').
    destruct (op_no_blank i I) as [Ni Nb]. destruct (first_blank b B) as (c & bt & Eb & Cb). destruct (first_blank b' B') as (c' & bt' & Eb' & Cb').
    rewrite (span_exact _ w).
    + rewrite (span_exact _ b).
      * rewrite (span_exact _ i).
        -- rewrite Eb, Eb'. cbn [app]. apply existsb_exists. exists i. split; [assumption|]. now apply bytes_eqb_eq.
        -- intros x X. now rewrite Nb.
        -- intros x y E. rewrite Eb' in E. injection E as <- _. now rewrite Cb'.
      * intros x X. apply blank_eq. now apply B.
      * intros x y E. destruct i as [|z i]; [easy|]. injection E as <- _. apply Nb. now left.
    + intros x X. apply negb_true_iff. destruct (js_space x) eqn:E; [|reflexivity]. apply js_space_white in E. now elim (W x X).
    + intros x y E. rewrite Eb in E. injection E as <- _. now rewrite (blank_space _ Cb).
Qed.
Lemma macro_ok : forall s, macro s = true <-> macro_line s.
Proof.
  intros s. unfold macro. split.
  - destruct (span blank s) as [[|c b] r] eqn:E; [discriminate|]. intros H. apply starts_with_app in H as (t & ->).
    exists (c :: b), t. split; [now apply span_app in E|]. split; [discriminate|]. intros y Hy. apply blank_eq. now apply (span_all _ _ _ _ E).
  - intros (b & r & -> & B). rewrite (span_exact _ b).
    + destruct (first_blank b B) as (c & bt & -> & _). apply starts_with_app. eauto.
    + intros x X. apply blank_eq. now apply B.
    + intros x y [= <- _]. reflexivity.
Qed.

Lemma relevant_ok : forall l, relevant l = true <-> statement l.
Proof.
  intros l. unfold relevant, statement, comment. destruct l as [|c r].
  - split; [discriminate|]. intros [H _]. now elim H.
  - rewrite andb_true_iff, !negb_true_iff. split.
    + intros [H1 H2]. split; [discriminate|]. intros [(t & E)|(t & E)]; cbn in E.
      * injection E as -> _. discriminate.
      * injection E as -> ->. discriminate.
    + intros [_ H]. split.
      * apply N.eqb_neq. intros ->. apply H. left. now exists r.
      * destruct (N.eqb_spec c 46) as [->|]; [|reflexivity]. destruct r as [|x r]; [reflexivity|].
        apply N.eqb_neq. intros ->. apply H. right. now exists r.
Qed.
Lemma continued_ok : forall l, continued l = true <-> goes_on l.
Proof.
  intros l. unfold continued, goes_on. destruct (nth_error l 71) as [c|] eqn:E.
  - split.
    + intros H. apply nth_error_split in E as (a & r & -> & L). exists a, c, r. repeat split; try assumption.
      intros ->. discriminate.
    + intros (a & c' & r & -> & L & N). rewrite nth_error_app2 in E by lia. rewrite L, Nat.sub_diag in E. injection E as <-.
      apply negb_true_iff. now apply N.eqb_neq.
  - split; [discriminate|]. intros (a & c' & r & -> & L & N). rewrite nth_error_app2 in E by lia. rewrite L, Nat.sub_diag in E. discriminate.
Qed.

(** ** Counting *)
Section Count.
Variable upper : units -> units.
Definition op (l : units) : Prop := has_operation instructions (upper l).
Variable ls : list units.
Definition weighs (l : units) : Prop := statement l /\ fits l.
(** the last line of weight before [p] is counted and goes on *)
Definition pending (p : nat) : Prop :=
  exists i m, i < p /\ counted op ls i /\ nth_error ls i = Some m /\ goes_on m /\
    forall k x, i < k < p -> nth_error ls k = Some x -> ~ weighs x.

Lemma counted_weighs : forall i l, counted op ls i -> nth_error ls i = Some l -> weighs l.
Proof.
  intros i l H E. assert (K : exists l, nth_error ls i = Some l /\ weighs l).
  { destruct H as [i l' E' S F O|i j l' m E' S F _ _ _ _ _]; exists l'; (split; [assumption|now split]). }
  destruct K as (l' & E' & W). congruence.
Qed.
Lemma counted_iff : forall p l, nth_error ls p = Some l -> weighs l -> (counted op ls p <-> op l \/ pending p).
Proof.
  intros p l E [S F]. split.
  - intros H. assert (K : exists l', nth_error ls p = Some l' /\ (op l' \/ pending p)).
    { clear E S F. destruct H as [i l' E' _ _ O|i j l' m E' _ _ C L Em G N]; exists l'; (split; [assumption|]).
      - now left.
      - right. exists i, m. split; [assumption|]. split; [assumption|]. split; [assumption|]. split; [assumption|]. exact N. }
    destruct K as (l' & E' & K). assert (l' = l) by congruence. now subst.
  - intros [O|(i & m & L & C & Em & G & N)].
    + now apply (ct_op op ls p l).
    + apply (ct_on op ls i p l m); try assumption.
Qed.
Lemma pending_light : forall p l, nth_error ls p = Some l -> ~ weighs l -> (pending (S p) <-> pending p).
Proof.
  intros p l E W. split; intros (i & m & L & C & Em & G & N).
  - assert (i <> p) by (intros ->; apply W; now apply (counted_weighs p)).
    exists i, m. split; [lia|]. split; [assumption|]. split; [assumption|]. split; [assumption|]. intros k x K. apply N. lia.
  - exists i, m. split; [lia|]. split; [assumption|]. split; [assumption|]. split; [assumption|]. intros k x K Ek.
    destruct (Nat.eq_dec k p) as [->|]; [congruence|]. apply (N k x); [lia|assumption].
Qed.
Lemma pending_heavy : forall p l, nth_error ls p = Some l -> weighs l -> (pending (S p) <-> counted op ls p /\ goes_on l).
Proof.
  intros p l E W. split.
  - intros (i & m & L & C & Em & G & N). destruct (Nat.eq_dec i p) as [->|].
    + split; [assumption|congruence].
    + exfalso. apply (N p l); [lia|assumption|assumption].
  - intros [C G]. exists p, l. split; [lia|]. split; [assumption|]. split; [assumption|]. split; [assumption|]. intros k x K. lia.
Qed.
Definition state_at (i : nat) : Prop := exists l, nth_error ls i = Some l /\ statement l.

Lemma amount_snoc : forall (P : nat -> Prop) l p, NoDup l -> (forall i, In i l <-> i < p /\ P i) -> P p ->
  NoDup (l ++ [p]) /\ List.length (l ++ [p]) = S (List.length l) /\ forall i, In i (l ++ [p]) <-> i < S p /\ P i.
Proof.
  intros P l p D H Pp. split; [|split].
  - apply NoDup_rev in D. rewrite <- (rev_involutive (l ++ [p])). apply NoDup_rev. rewrite rev_app_distr. cbn. constructor; [|assumption].
    intros X. apply in_rev in X. apply H in X. lia.
  - rewrite app_length. cbn. lia.
  - intros i. rewrite in_app_iff, H. cbn. split.
    + intros [[L X]|[<-|[]]]; split; try lia; assumption.
    + intros [L X]. destruct (Nat.eq_dec i p) as [->|]; [right; now left|left; split; [lia|assumption]].
Qed.
Lemma amount_skip : forall (P : nat -> Prop) l p, (forall i, In i l <-> i < p /\ P i) -> ~ P p ->
  forall i, In i l <-> i < S p /\ P i.
Proof.
  intros P l p H N i. rewrite H. split; intros [L X]; split; try assumption; try lia.
  destruct (Nat.eq_dec i p) as [->|]; [easy|lia].
Qed.

Lemma tally_ok : forall r p lc a b, skipn p ls = r -> p <= List.length ls ->
  NoDup a -> (forall i, In i a <-> i < p /\ counted op ls i) ->
  NoDup b -> (forall i, In i b <-> i < p /\ state_at i) ->
  (lc = true <-> pending p) ->
  exists k n, tally upper r lc (List.length a) (List.length b) = (k, n) /\
    amount (counted op ls) k /\ amount state_at n.
Proof.
  induction r as [|l r IH]; intros p lc a b Sk Lp Da Ha Db Hb Hl.
  - exists (List.length a), (List.length b). split; [reflexivity|].
    assert (Lq : List.length ls <= p).
    { pose proof (skipn_length p ls) as X. rewrite Sk in X. cbn in X. lia. }
    split; [exists a|exists b]; (split; [assumption|]; split; [reflexivity|]); intros i; [rewrite Ha|rewrite Hb].
    + split; [tauto|]. intros C. split; [|assumption].
      assert (i < List.length ls); [|lia]. apply nth_error_Some. intros X. revert X. clear - C. destruct C as [i l' E'|i j l' m E'];
        intros X; discriminate (eq_trans (eq_sym X) E').
    + split; [tauto|]. intros C. split; [|assumption].
      assert (i < List.length ls); [|lia]. apply nth_error_Some. destruct C as (x & -> & _). discriminate.
  - assert (E : nth_error ls p = Some l).
    { rewrite <- (firstn_skipn p ls), Sk, nth_error_app2; rewrite firstn_length_le by assumption; [now rewrite Nat.sub_diag|lia]. }
    assert (Sk' : skipn (S p) ls = r).
    { clear - Sk. revert Sk. generalize ls. induction p as [|p IHp]; intros [|x t]; cbn; try discriminate; [now intros [= _ <-]|]. apply IHp. }
    assert (Lp' : S p <= List.length ls) by (apply nth_error_Some; congruence).
    cbn [tally]. destruct (relevant l) eqn:R.
    + apply relevant_ok in R.
      assert (St : state_at p) by (now exists l).
      destruct (amount_snoc state_at b p Db Hb St) as (Db' & Lb' & Hb').
      destruct ((reference (upper l) || lc) && (List.length l <=? 80)) eqn:C.
      * apply andb_true_iff in C as [C1 C2]. apply Nat.leb_le in C2.
        assert (W : weighs l) by (now split).
        assert (Cp : counted op ls p).
        { apply (counted_iff p l E W). apply orb_true_iff in C1 as [C1|C1]; [left; now apply reference_ok|right; now apply Hl]. }
        destruct (amount_snoc (counted op ls) a p Da Ha Cp) as (Da' & La' & Ha').
        rewrite <- Lb', <- La'. apply (IH (S p)); try assumption.
        rewrite continued_ok, (pending_heavy p l E W). tauto.
      * destruct (le_lt_dec (List.length l) 80) as [Sh|Lo].
        -- assert (W : weighs l) by (now split).
           rewrite (proj2 (Nat.leb_le _ _) Sh), andb_true_r in C. apply orb_false_iff in C as [C1 C2].
           assert (Cp : ~ counted op ls p).
           { rewrite (counted_iff p l E W). intros [O|O]; [apply reference_ok in O; congruence|apply Hl in O; congruence]. }
           rewrite <- Lb'. apply (IH (S p)); try assumption.
           ++ now apply amount_skip.
           ++ rewrite (pending_heavy p l E W), C2. split; [discriminate|tauto].
        -- assert (W : ~ weighs l) by (intros [_ F]; unfold fits in F; lia).
           rewrite <- Lb'. apply (IH (S p)); try assumption.
           ++ apply amount_skip; [assumption|]. intros Cp. now apply W, (counted_weighs p).
           ++ now rewrite (pending_light p l E W).
    + assert (Ns : ~ statement l) by (intros X; apply relevant_ok in X; congruence).
      assert (W : ~ weighs l) by (intros [X _]; easy).
      apply (IH (S p)); try assumption.
      * apply amount_skip; [assumption|]. intros Cp. now apply W, (counted_weighs p).
      * apply amount_skip; [assumption|]. intros (x & Ex & Sx). congruence.
      * now rewrite (pending_light p l E W).
Qed.
Lemma amount_fun : forall P n m, amount P n -> amount P m -> n = m.
Proof.
  intros P n m (a & Da & <- & Ha) (b & Db & <- & Hb). apply Nat.le_antisymm; apply NoDup_incl_length; try assumption; intros i Hi.
  - apply Hb, Ha, Hi.
  - apply Ha, Hb, Hi.
Qed.
Lemma score_ok : (let '(score, lines) := tally upper ls false 0 0 in 2 * lines <? 5 * score) = true <-> looks_hlasm op ls.
Proof.
  assert (Z : forall P : nat -> Prop, forall i, In i [] <-> i < 0 /\ P i) by (intros P i; split; [easy|lia]).
  assert (Hp : false = true <-> pending 0) by (split; [discriminate|intros (i & m & L & _); lia]).
  destruct (tally_ok ls 0 false [] [] eq_refl (Nat.le_0_l _) (NoDup_nil _) (Z _) (NoDup_nil _) (Z _) Hp) as (k & n & E & K & N).
  cbn [List.length] in E. rewrite E, Nat.ltb_lt. split.
  - intros H. now exists k, n.
  - intros (k' & n' & K' & N' & H). rewrite (amount_fun _ _ _ K K'), (amount_fun _ _ _ N N'). assumption.
Qed.
End Count.
