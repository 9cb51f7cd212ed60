(** Proofs about Attr_Model.v. *)
From Coq Require Import String List NArith ZArith Bool Lia.
From Coq Require Import ZifyBool ZifyNat ZifyN.
From Verif Require Import Common Var_Model Sub_Model Ca_Model Attr_Model Attr_Spec.
Import ListNotations.
Open Scope Z_scope.

(** ** Characters *)
Lemma ord_char_iff c : ord_char c = true <-> name_char c.
Proof.
  unfold ord_char, name_char. change (s2b "_@$#") with [95; 64; 36; 35]%N. cbn [In]. lia.
Qed.
Lemma ord_char_false c : ord_char c = false <-> ~ name_char c.
Proof. rewrite <- ord_char_iff. destruct (ord_char c); split; congruence. Qed.
Lemma delimiter_iff c : delimiter c = true <-> In c (s2b "+-*/()").
Proof.
  unfold delimiter. rewrite existsb_exists. change (s2b "+-*/()") with [43; 45; 42; 47; 40; 41]%N.
  split.
  - intros (x & I & E). apply N.eqb_eq in E. now subst.
  - intros I. exists c. split; [easy|apply N.eqb_refl].
Qed.
Lemma delimiter_false c : delimiter c = false <-> ~ In c (s2b "+-*/()").
Proof. rewrite <- delimiter_iff. destruct (delimiter c); split; congruence. Qed.
Lemma is_digit_iff c : is_digit c = true <-> digit c.
Proof. unfold is_digit, digit. lia. Qed.
Lemma is_digit_false c : is_digit c = false <-> ~ digit c.
Proof. rewrite <- is_digit_iff. destruct (is_digit c); split; congruence. Qed.
Lemma delim_not_ord c : delimiter c = true -> ord_char c = false.
Proof. rewrite delimiter_iff. change (s2b "+-*/()") with [43; 45; 42; 47; 40; 41]%N. cbn. unfold ord_char. lia. Qed.
Lemma dot_not_ord : ord_char 46 = false.
Proof. reflexivity. Qed.
Lemma forallb_ord s : forallb ord_char s = true <-> Forall name_char s.
Proof.
  rewrite forallb_forall, Forall_forall. split; intros H x I; [apply ord_char_iff|apply ord_char_iff]; auto.
Qed.

Lemma valid_name_iff s : valid_name s = true <-> symbol_name s.
Proof.
  unfold valid_name, symbol_name. destruct s as [|c r]; [cbn; split; [congruence|intros ((H & _) & _); lia]|].
  rewrite !andb_true_iff, !negb_true_iff, forallb_ord, is_digit_false.
  split.
  - intros ((H1 & H2) & H3). repeat split; [cbn; lia|cbn in *; lia|exact H3|].
    intros c' r' E. injection E as -> ->. exact H2.
  - intros (H1 & H2 & H3). repeat split; [cbn in *; lia|eapply H3; reflexivity|exact H2].
Qed.

(** ** Parentheses *)
Lemma pairs_spec s : forall r, exists s' r',
  s = repeat 40%N (pairs s r) ++ s' /\ r = repeat 41%N (pairs s r) ++ r' /\
  (forall a b, s' = 40%N :: a -> r' <> 41%N :: b).
Proof.
  induction s as [|c s IH]; intros r; [exists [], r; cbn; repeat split; congruence|].
  assert (dec : c = 40%N /\ (exists r', r = 41%N :: r') \/ pairs (c :: s) r = 0%nat /\ (c = 40%N -> forall b, r <> 41%N :: b)).
  { destruct (N.eq_dec c 40) as [->|Nc].
    - destruct r as [|d r]; [right; now split|].
      destruct (N.eq_dec d 41) as [->|Nd]; [left; eauto|right].
      split; [|congruence].
      cbn. destruct d as [|d]; [easy|].
      repeat (destruct d as [d|d|]; try reflexivity; try congruence).
    - right. split; [|congruence].
      cbn. destruct c as [|c]; [easy|].
      repeat (destruct c as [c|c|]; try reflexivity; try congruence). }
  destruct dec as [(-> & r' & ->)|(Z0 & H)].
  - cbn [pairs]. destruct (IH r') as (s1 & r1 & E1 & E2 & E3).
    exists s1, r1. cbn [repeat]. repeat split; [cbn; now f_equal|cbn; now f_equal|exact E3].
  - rewrite Z0. exists (c :: s), r. repeat split. intros a b E. injection E as -> ->. now apply H.
Qed.

Lemma wrapped_1 b : wrapped 1 b = 40%N :: b ++ [41%N].
Proof. reflexivity. Qed.
Lemma wrapped_length k b : length (wrapped k b) = (k + length b + k)%nat.
Proof. unfold wrapped. rewrite !app_length, !repeat_length. lia. Qed.
Lemma repeat_rev {A} (x : A) k : rev (repeat x k) = repeat x k.
Proof.
  induction k as [|k IH]; [easy|].
  cbn [repeat rev]. rewrite IH. clear IH.
  induction k as [|k IH]; [easy|]. cbn [repeat app]. now rewrite IH.
Qed.
Lemma wrapped_rev k b : rev (wrapped k b) = repeat 41%N k ++ rev b ++ repeat 40%N k.
Proof. unfold wrapped. rewrite !rev_app_distr, !repeat_rev, app_assoc. reflexivity. Qed.

Definition middle (s : bytes) : bytes :=
  skipn (pairs s (rev s)) (firstn (length s - pairs s (rev s)) s).

Lemma pairs_wrapped k b r : pairs (repeat 40%N k ++ b) (repeat 41%N k ++ r) = (k + pairs b r)%nat.
Proof. induction k as [|k IH]; [easy|]. cbn. now rewrite IH. Qed.

(** When a body is not itself in parentheses no further pair is found. *)
Lemma pairs_stop b k : (forall x, b <> wrapped 1 x) -> pairs (b ++ repeat 41%N k) (rev b ++ repeat 40%N k) = 0%nat.
Proof.
  intros H. destruct b as [|c b].
  - cbn. destruct k; reflexivity.
  - destruct (pairs_spec ((c :: b) ++ repeat 41%N k) (rev (c :: b) ++ repeat 40%N k)) as (s' & r' & E1 & E2 & _).
    set (p := pairs _ _) in *. destruct p as [|p]; [reflexivity|exfalso].
    cbn [repeat app] in E1. injection E1 as -> _.
    destruct b as [|d b] using rev_ind.
    + cbn [rev app] in E2. cbn in E2. discriminate.
    + clear IHb. rewrite app_comm_cons, rev_unit in E2. cbn [repeat app] in E2. injection E2 as -> _.
      apply (H b). reflexivity.
Qed.

Lemma middle_wrapped k b : (forall x, b <> wrapped 1 x) -> middle (wrapped k b) = b.
Proof.
  intros H. unfold middle. rewrite wrapped_rev, wrapped_length.
  unfold wrapped at 1 2. rewrite !pairs_wrapped, pairs_stop by exact H.
  replace (k + 0)%nat with k by lia. replace (k + length b + k - k)%nat with (k + length b)%nat by lia.
  unfold wrapped. rewrite app_assoc, firstn_app, firstn_all2, !app_length, !repeat_length by (rewrite app_length, repeat_length; lia).
  replace (k + length b - (k + length b))%nat with 0%nat by lia.
  cbn [firstn]. rewrite app_nil_r, skipn_app, repeat_length, skipn_all2 by (rewrite repeat_length; lia).
  now rewrite Nat.sub_diag.
Qed.

Lemma wrapped_S k b : wrapped (S k) b = wrapped k (wrapped 1 b).
Proof.
  unfold wrapped. cbn [repeat app].
  assert (C : forall (x : N) k, x :: repeat x k = repeat x k ++ [x]).
  { intros x n. induction n; [easy|]. cbn. now rewrite <- IHn. }
  rewrite <- !app_assoc. cbn [app].
  change (40%N :: repeat 40%N k ++ b ++ 41%N :: repeat 41%N k)
    with ((40%N :: repeat 40%N k) ++ b ++ 41%N :: repeat 41%N k).
  rewrite C, <- app_assoc. reflexivity.
Qed.

Lemma not_wrapped_dec b : (exists x, b = wrapped 1 x) \/ (forall x, b <> wrapped 1 x).
Proof.
  destruct b as [|c b]; [right; intros x; rewrite wrapped_1; discriminate|].
  destruct (N.eq_dec c 40) as [->|Nc].
  - destruct b as [|d b _] using rev_ind.
    + right. intros x. rewrite wrapped_1. intros E. injection E as E. destruct x; discriminate.
    + destruct (N.eq_dec d 41) as [->|Nd].
      * left. exists b. reflexivity.
      * right. intros x. rewrite wrapped_1. intros E. injection E as E.
        apply app_inj_tail in E as [_ E]. congruence.
  - right. intros x. rewrite wrapped_1. congruence.
Qed.
Lemma peel s : exists b, peeled s b.
Proof.
  remember (length s) as n eqn:En. revert s En.
  induction n as [n IH] using (well_founded_induction lt_wf). intros s ->.
  destruct (not_wrapped_dec s) as [(x & ->)|H].
  - destruct (IH (length x)) with (s := x) as (b & k & -> & Hb); [rewrite wrapped_length; lia|reflexivity|].
    exists b, (S k). split; [|exact Hb].
    unfold wrapped. cbn [repeat]. cbn [app]. rewrite <- !app_assoc.
    assert (C : forall (x : N) k, x :: repeat x k = repeat x k ++ [x]).
    { intros y m. induction m; [easy|]. cbn. now rewrite <- IHm. }
    now rewrite <- C.
  - exists s, 0%nat. split; [|exact H]. unfold wrapped. cbn. now rewrite app_nil_r.
Qed.
Lemma peeled_middle s b : peeled s b <-> b = middle s.
Proof.
  split.
  - intros (k & -> & H). symmetry. now apply middle_wrapped.
  - intros ->. destruct (peel s) as (b & k & -> & H). rewrite middle_wrapped by exact H. exists k. now split.
Qed.

(** ** Qualifiers *)
Definition qualifies (s : bytes) : Prop := exists q u, u <> [] /\ Forall name_char q /\ s = q ++ 46%N :: u.
Lemma unqualify_cases s : forall best,
  (~ qualifies s /\ unqualify best s = best) \/
  exists q u, u <> [] /\ Forall name_char q /\ s = q ++ 46%N :: u /\ unqualify best s = unqualify u u.
Proof.
  induction s as [|c r IH]; intros best.
  - left. split; [|easy]. intros (q & u & _ & _ & E). destruct q; discriminate.
  - cbn [unqualify]. destruct (N.eqb_spec c 46) as [->|Nc].
    + destruct r as [|d r].
      * left. cbn. split; [|easy]. intros (q & u & Hu & _ & E). destruct q; injection E; intros; subst; [easy|destruct q; discriminate].
      * right. exists [], (d :: r). cbn [andb]. repeat split; [easy|constructor].
    + cbn [andb]. destruct (ord_char c) eqn:Oc.
      * destruct (IH best) as [(H1 & H2)|(q & u & Hu & Hq & -> & H2)].
        -- left. split; [|exact H2]. intros (q & u & Hu & Hq & E). destruct q as [|d q].
           ++ injection E as -> ->. congruence.
           ++ injection E as -> ->. inversion Hq; subst. apply H1. exists q, u. now repeat split.
        -- right. exists (c :: q), u. repeat split; [exact Hu|constructor; [now apply ord_char_iff|exact Hq]|exact H2].
      * left. split; [|easy]. intros (q & u & Hu & Hq & E). destruct q as [|d q].
        -- injection E as -> ->. congruence.
        -- injection E as -> ->. inversion Hq; subst. apply ord_char_iff in H1. congruence.
Qed.
Lemma split_unique q : forall q' u u', Forall name_char q -> Forall name_char q' ->
  q ++ 46%N :: u = q' ++ 46%N :: u' -> q = q' /\ u = u'.
Proof.
  assert (N46 : ~ name_char 46) by (rewrite <- ord_char_iff; discriminate).
  induction q as [|c q IH]; intros [|d q'] u u' H H' E; cbn in E; injection E; intros.
  - now split.
  - subst d. inversion H'; subst; easy.
  - subst c. inversion H; subst; easy.
  - subst d. inversion H; inversion H'; subst. destruct (IH q' u u') as [-> ->]; auto.
Qed.
Lemma qualified_nil s t : qualified s t -> t = [] -> s = [].
Proof. intros [|q t' _ _] E; [exact E|destruct q; discriminate]. Qed.
Lemma unqualify_not s : ~ qualifies s -> unqualify s s = s.
Proof.
  intros H. destruct (unqualify_cases s s) as [(_ & E)|(q & u & Hu & Hq & E & _)]; [exact E|].
  exfalso. apply H. exists q, u. now repeat split.
Qed.
Lemma unqualify_step q u : u <> [] -> Forall name_char q -> unqualify (q ++ 46%N :: u) (q ++ 46%N :: u) = unqualify u u.
Proof.
  intros Hu Hq. destruct (unqualify_cases (q ++ 46%N :: u) (q ++ 46%N :: u)) as [(H & _)|(q' & u' & Hu' & Hq' & E & ->)].
  - exfalso. apply H. exists q, u. now repeat split.
  - apply split_unique in E as [-> ->]; [easy|exact Hq|exact Hq'].
Qed.
Lemma unqualified_iff body s : s <> [] -> unqualified body s <-> s = unqualify body body.
Proof.
  intros Hs. split.
  - intros (Q & N). induction Q as [|q t Hq Q IH]; [symmetry; now apply unqualify_not|].
    rewrite unqualify_step; [exact IH| |exact Hq]. intros ->. apply Hs. eapply qualified_nil; [exact Q|reflexivity].
  - remember (length body) as n eqn:En. revert body En.
    induction n as [n IH] using (well_founded_induction lt_wf). intros body -> E.
    destruct (unqualify_cases body body) as [(H & E')|(q & u & Hu & Hq & -> & E')].
    + rewrite E' in E. subst. split; [constructor|exact H].
    + rewrite E' in E. destruct (IH (length u)) with (body := u) as (Q & N); [rewrite app_length; cbn; lia|reflexivity|exact E|].
      split; [now constructor|exact N].
Qed.
Lemma unqualify_nil body : unqualify body body = [] -> body = [].
Proof.
  remember (length body) as n eqn:En. revert body En.
  induction n as [n IH] using (well_founded_induction lt_wf). intros body -> E.
  destruct (unqualify_cases body body) as [(H & E')|(q & u & Hu & Hq & -> & E')]; [congruence|].
  rewrite E' in E. exfalso. apply Hu. eapply IH; [|reflexivity|exact E]. rewrite app_length. cbn. lia.
Qed.

(** ** The head *)
Lemma cut_cases s :
  (exists x rest, s = x ++ rest /\ Forall name_char x /\ ends_symbol rest /\ cut s = x) \/
  (exists p c r, s = p ++ c :: r /\ Forall name_char p /\ ~ name_char c /\ ~ In c (s2b "+-*/()") /\ cut s = s).
Proof.
  induction s as [|c r IH]; [left; exists [], []; repeat split; [constructor|now left]|].
  cbn [cut]. destruct (delimiter c) eqn:Dc.
  - left. exists [], (c :: r). repeat split; [constructor|right; exists c, r; split; [easy|now apply delimiter_iff]].
  - destruct (ord_char c) eqn:Oc.
    + apply ord_char_iff in Oc. destruct IH as [(x & rest & -> & H1 & H2 & ->)|(p & d & q & -> & H1 & H2 & H3 & ->)].
      * left. exists (c :: x), rest. repeat split; [now constructor|exact H2].
      * right. exists (c :: p), d, q. repeat split; [now constructor|exact H2|exact H3].
    + right. exists [], c, r. repeat split; [constructor|now apply ord_char_false|now apply delimiter_false].
Qed.
Lemma cut_symbol x rest : Forall name_char x -> ends_symbol rest -> cut (x ++ rest) = x.
Proof.
  intros H He. induction H as [|c x Hc H IH].
  - destruct He as [->|(c & r & -> & I)]; [reflexivity|]. cbn [app cut]. apply delimiter_iff in I. now rewrite I.
  - cbn [app cut]. apply ord_char_iff in Hc. destruct (delimiter c) eqn:Dc.
    + apply delim_not_ord in Dc. congruence.
    + now rewrite Hc, IH.
Qed.
Lemma cut_other p c r : Forall name_char p -> ~ name_char c -> ~ In c (s2b "+-*/()") -> cut (p ++ c :: r) = p ++ c :: r.
Proof.
  intros H Hc Hd. induction H as [|d p Hp H IH].
  - cbn [app cut]. apply ord_char_false in Hc. apply delimiter_false in Hd. now rewrite Hc, Hd.
  - cbn [app cut]. apply ord_char_iff in Hp. destruct (delimiter d) eqn:Dc.
    + apply delim_not_ord in Dc. congruence.
    + now rewrite Hp, IH.
Qed.
Definition head_of (s : bytes) : option bytes :=
  match s with [] => None | c :: _ => Some (if is_digit c then s else cut s) end.
Lemma head_iff s x : head s x <-> head_of s = Some x.
Proof.
  split.
  - intros [c r Hd|x' rest Hd Hn He Hne|p c r Hd Hp Hc Hi].
    + cbn. apply is_digit_iff in Hd. now rewrite Hd.
    + assert (C := cut_symbol _ _ Hn He). unfold head_of. destruct (x' ++ rest) as [|c w] eqn:E; [easy|].
      assert (Dc : is_digit c = false).
      { destruct x' as [|d x'].
        - cbn in E. subst. destruct He as [He|(d & r & E & I)]; [discriminate|]. injection E as -> ->.
          apply delimiter_iff in I. revert I. unfold delimiter, is_digit. cbn. lia.
        - injection E as -> _. apply is_digit_false. eapply Hd. reflexivity. }
      now rewrite Dc, C.
    + assert (C := cut_other p c r Hp Hc Hi). unfold head_of. destruct (p ++ c :: r) as [|d w] eqn:E; [destruct p; discriminate|].
      assert (Dc : is_digit d = false).
      { destruct p as [|d' p].
        - injection E as -> _. destruct (is_digit d) eqn:Dd; [|easy]. exfalso. apply Hc.
          right. right. left. now apply is_digit_iff.
        - injection E as -> _. apply is_digit_false. eapply Hd. reflexivity. }
      now rewrite Dc, C.
  - destruct s as [|c r]; [discriminate|]. cbn [head_of]. destruct (is_digit c) eqn:Dc.
    + intros E. assert (x = c :: r) by congruence. subst x. constructor. now apply is_digit_iff.
    + intros E. assert (E' : x = cut (c :: r)) by congruence. clear E.
      apply is_digit_false in Dc.
      destruct (cut_cases (c :: r)) as [(y & rest & E & H1 & H2 & H3)|(p & d & q & E & H1 & H2 & H3 & H4)].
      * rewrite H3 in E'. subst y. rewrite E. constructor; [|exact H1|exact H2|rewrite <- E; discriminate].
        intros c' r' ->. cbn in E. injection E as -> _. exact Dc.
      * rewrite H4 in E'. subst x. rewrite E. constructor; [|exact H1|exact H2|exact H3].
        intros c' r' ->. cbn in E. injection E as -> _. exact Dc.
Qed.

Lemma extract_eq s : extract s = head_of (unqualify (middle s) (middle s)).
Proof. reflexivity. Qed.
Lemma extract_front s x : extract s = Some x <-> front s x.
Proof.
  rewrite extract_eq. split.
  - intros E. exists (middle s), (unqualify (middle s) (middle s)).
    assert (Ne : unqualify (middle s) (middle s) <> []) by (intros Z; rewrite Z in E; discriminate).
    split; [now apply peeled_middle|split; [now apply unqualified_iff|now apply head_iff]].
  - intros (b & u & P & Q & H). apply peeled_middle in P. subst b.
    assert (u <> []).
    { apply head_iff in H. destruct u; [discriminate|easy]. }
    apply unqualified_iff in Q; [|easy]. rewrite <- Q. now apply head_iff.
Qed.
Lemma extract_none s : extract s = None <-> only_parens s.
Proof.
  rewrite extract_eq. split.
  - intros E. assert (Z : unqualify (middle s) (middle s) = []).
    { destruct (unqualify (middle s) (middle s)); [easy|discriminate]. }
    apply unqualify_nil in Z. assert (P : peeled s (middle s)) by now apply peeled_middle.
    rewrite Z in P. destruct P as (k & -> & _). now exists k.
  - intros (k & ->). rewrite middle_wrapped; [easy|]. intros x. rewrite wrapped_1. discriminate.
Qed.

(** The symbol a text starts with. *)
Lemma symbol_head_char s rest : symbol_name s -> exists c r, s ++ rest = c :: r /\ name_char c.
Proof.
  intros (L & F & _). destruct s as [|c s]; [cbn in L; lia|]. inversion F; subst. exists c, (s ++ rest). now split.
Qed.
Lemma symbol_not_qualifies s rest : symbol_name s -> ends_symbol rest -> ~ qualifies (s ++ rest).
Proof.
  intros (L & F & _) He (q & u & Hu & Hq & E).
  revert q E Hq. clear L. induction F as [|c s Hc F IH]; intros q E Hq.
  - cbn in E. subst rest. destruct He as [He|(c & r & E & I)]; [destruct q; discriminate|].
    apply delimiter_iff in I. destruct q as [|d q].
    + injection E as <- _. discriminate.
    + injection E as <- _. inversion Hq; subst. apply delim_not_ord in I. apply ord_char_false in I. contradiction.
  - destruct q as [|d q]; cbn in E; injection E; intros.
    + subst c. apply ord_char_iff in Hc. discriminate.
    + inversion Hq; subst. eapply IH; eauto.
Qed.
Lemma qualified_head s t : qualified s t -> (exists c r, s = c :: r /\ name_char c) ->
  exists c r, t = c :: r /\ (name_char c \/ c = 46%N).
Proof.
  intros [|q t' Hq _] (c & r & E & Hc); [exists c, r; auto|].
  destruct q as [|d q]; [exists 46%N, t'; auto|]. inversion Hq; subst. exists d, (q ++ 46%N :: t'). auto.
Qed.
Lemma leads_front s x : leads s x <-> front s x /\ symbol_name x.
Proof.
  split.
  - intros (Hs & k & t & rest & -> & Q & He). split; [|exact Hs].
    exists t, (x ++ rest). split; [|split].
    + exists k. split; [easy|]. intros b E. rewrite wrapped_1 in E.
      destruct (qualified_head _ _ Q (symbol_head_char x rest Hs)) as (c & r & -> & [Hc|Hc]).
      * injection E as -> _. apply ord_char_iff in Hc. discriminate.
      * congruence.
    + split; [exact Q|]. now apply symbol_not_qualifies.
    + destruct Hs as (L & F & Hd). constructor; [exact Hd|exact F|exact He|].
      destruct x; [cbn in L; lia|discriminate].
  - intros ((b & u & (k & -> & _) & (Q & _) & H) & Hs). split; [exact Hs|].
    exists k, b. inversion H; subst.
    + exfalso. destruct Hs as (_ & _ & Hd). eapply Hd; [reflexivity|exact H0].
    + exists rest. auto.
    + exfalso. destruct Hs as (_ & F & _). apply Forall_app in F as [_ F]. inversion F; subst. contradiction.
Qed.
Lemma leads_extract s x : leads s x <-> extract s = Some x /\ valid_name x = true.
Proof. now rewrite leads_front, extract_front, valid_name_iff. Qed.

(** ** Ordinary symbols *)
Lemma scaled_iff s : can_have_SI s = true <-> scaled s.
Proof.
  unfold can_have_SI, scaled. rewrite andb_true_iff, existsb_exists.
  change (s2b "DEFGHKLPZ") with [68; 69; 70; 71; 72; 75; 76; 80; 90]%N.
  split; intros (H1 & H2); (split; [exact H1|]).
  - destruct H2 as (x & I & E). apply N.eqb_eq in E. now subst.
  - exists (o_type s). split; [exact H2|apply N.eqb_refl].
Qed.
Lemma scaled_not s : can_have_SI s = false <-> ~ scaled s.
Proof. rewrite <- scaled_iff. destruct (can_have_SI s); split; congruence. Qed.
Lemma known_iff e n s : known e n s <-> get_ordsym e n = Some s.
Proof.
  unfold known, get_ordsym. destruct (symbols e n) as [x|]; split; intros H.
  - destruct H as [H|[H _]]; congruence.
  - now left.
  - destruct H as [H|[_ H]]; congruence.
  - now right.
Qed.
Lemma not_known_iff e n : not_known e n <-> get_ordsym e n = None.
Proof.
  unfold not_known, get_ordsym. destruct (symbols e n) as [x|]; split; intros H; try easy.
Qed.
Lemma operation_iff e n x :
  operation_letter e n x <->
  x = (let t := get_opcode_attr e n in if bytes_eqb t U && library e n then [83%N] else t).
Proof.
  unfold get_opcode_attr. split.
  - intros [H|H H1|H H1|H H1|H H1|H H1 H2|H H1 H2]; rewrite H; try rewrite H1; try rewrite H2; reflexivity.
  - intros ->. destruct (macros e n) eqn:M; [now apply op_macro|].
    destruct (instructions e n) as [[]|] eqn:E; cbn.
    + now apply op_asm. + now apply op_ca. + now apply op_mnemonic. + now apply op_machine.
    + destruct (library e n) eqn:Li; [now apply op_library|now apply op_unknown].
Qed.

Lemma attribute_iff e n a v ds : attribute e n a v ds <-> evaluate_ordsym e a n = (v, ds).
Proof.
  split.
  - intros H; inversion H; subst; clear H; unfold evaluate_ordsym; cbn [is_ordinary retrieve_value];
      repeat match goal with
             | K : known _ _ _ |- _ => apply known_iff in K; rewrite K
             | K : not_known _ _ |- _ => apply not_known_iff in K; rewrite K
             | K : scaled _ |- _ => apply scaled_iff in K; rewrite K
             | K : ~ scaled _ |- _ => apply scaled_not in K; rewrite K
             | K : o_length _ = _ |- _ => cbn [is_defined attribute_value negb]; rewrite K
             | K : o_scale _ = _ |- _ => cbn [is_defined attribute_value negb]; rewrite K
             | K : _ \/ _ |- _ => destruct K as [K|K]
             | K : symbols _ _ = _ |- _ => rewrite K
             | K : operation_letter _ _ _ |- _ => apply operation_iff in K; rewrite K
             end; try reflexivity.
    destruct (o_scale s); reflexivity.
  - unfold evaluate_ordsym. intros E.
    destruct a; cbn [is_ordinary retrieve_value] in E;
      try (destruct (get_ordsym e n) as [s|] eqn:G; [apply known_iff in G|apply not_known_iff in G]);
      cbn [default_value is_defined attribute_value] in E.
    all: repeat match type of E with
           | context [can_have_SI ?s] =>
               let C := fresh "C" in destruct (can_have_SI s) eqn:C; [apply scaled_iff in C|apply scaled_not in C]
           | context [o_scale ?s] => let C := fresh "C" in destruct (o_scale s) eqn:C
           | context [o_length ?s] => let C := fresh "C" in destruct (o_length s) eqn:C
           end; cbn [negb] in E;
         try (injection E as <- <-).
    all: try solve [econstructor; eauto].
    all: try (destruct (symbols e n) eqn:Y; solve [econstructor; eauto]).
    all: econstructor; now apply operation_iff.
Qed.

Lemma default_iff a v : default_of a v <-> v = default_ca a.
Proof. split; [intros []; reflexivity|intros ->; destruct a; constructor]. Qed.

(** ** Variable symbols *)
Lemma size_t_small z : 0 <= z < 2 ^ 64 -> size_t z = z.
Proof. intros H. unfold size_t. now apply Z.mod_small. Qed.
Lemma less_one i : 1 <= i -> i < 2 ^ 31 -> size_t (size_t i - 1) = i - 1.
Proof. intros H1 H2. rewrite (size_t_small i) by lia. apply size_t_small. lia. Qed.
Lemma below_dummy subs : below Dummy subs = Dummy.
Proof. unfold below. induction subs as [|o r IH]; [easy|]. exact IH. Qed.
Lemma below_cons d i r : 1 <= i -> i < 2 ^ 31 -> below d (i :: r) = below (ith d (i - 1)) r.
Proof. intros H1 H2. unfold below. cbn [fold_left]. now rewrite less_one. Qed.
Lemma selects_dummy subs d : selects Dummy subs d -> d = Dummy.
Proof.
  remember Dummy as x eqn:E. intros H. revert E. induction H; intros E; try discriminate; auto.
Qed.
Lemma selects_below d subs d' : selects d subs d' -> ints subs -> below d subs = d'.
Proof.
  induction 1 as [d|l i r x d Hi Hn H IH|l i r d Hi H IH|s r d H IH|s i r d Hi H IH|i r d Hi H IH];
    intros F; [reflexivity|..]; inversion F as [|? ? R F']; subst; specialize (IH F').
  - rewrite below_cons by lia. cbn [ith].
    assert (B : (Z.to_nat (i - 1) < length l)%nat) by (apply nth_error_Some; congruence).
    destruct (Z.ltb_spec (i - 1) (Z.of_nat (length l))); [|lia].
    now rewrite (nth_error_nth _ _ Dummy Hn).
  - rewrite below_cons by lia. cbn [ith].
    destruct (Z.ltb_spec (i - 1) (Z.of_nat (length l))); [lia|exact IH].
  - rewrite below_cons by lia. cbn [ith]. exact IH.
  - rewrite below_cons by lia. cbn [ith]. destruct (Z.eqb_spec (i - 1) 0); [lia|exact IH].
  - rewrite below_cons by lia. cbn [ith]. exact IH.
Qed.
Lemma selects_total subs : Forall (fun i => 1 <= i) subs -> forall d, exists d', selects d subs d'.
Proof.
  induction 1 as [|i r Hi F IH]; intros d; [exists d; constructor|].
  destruct d as [|s|l].
  - destruct (IH Dummy) as (d' & H). exists d'. now constructor.
  - destruct (Z.eq_dec i 1) as [->|Ne].
    + destruct (IH (Single s)) as (d' & H). exists d'. now constructor.
    + destruct (IH Dummy) as (d' & H). exists d'. apply sel_more; [lia|exact H].
  - destruct (nth_error l (Z.to_nat (i - 1))) as [x|] eqn:E.
    + destruct (IH x) as (d' & H). exists d'. eapply sel_element; eauto.
    + apply nth_error_None in E. destruct (IH Dummy) as (d' & H). exists d'. apply sel_missing; [lia|exact H].
Qed.
Lemma selects_positive d subs d' : selects d subs d' -> Forall (fun i => 1 <= i) subs.
Proof. induction 1; constructor; auto; lia. Qed.
Lemma sys_selects_below d subs d' : sys_selects d subs d' -> ints subs -> sys_below d subs = d'.
Proof.
  intros [d0|l i r x d0 Hi Hn H|l i r d0 Hi H] F; [reflexivity|..]; inversion F as [|? ? R F']; subst; cbn [sys_below ith].
  - rewrite size_t_small by lia.
    assert (B : (Z.to_nat i < length l)%nat) by (apply nth_error_Some; congruence).
    destruct (Z.ltb_spec i (Z.of_nat (length l))); [|lia].
    rewrite (nth_error_nth _ _ Dummy Hn). now apply selects_below.
  - rewrite size_t_small by lia. destruct (Z.ltb_spec i (Z.of_nat (length l))); [lia|]. now apply selects_below.
Qed.
Lemma sys_selects_total l subs : match subs with [] => True | i :: r => 0 <= i /\ Forall (fun i => 1 <= i) r end ->
  exists d', sys_selects (Composite l) subs d'.
Proof.
  destruct subs as [|i r]; [intros _; eexists; constructor|]. intros (Hi & F).
  destruct (nth_error l (Z.to_nat i)) as [x|] eqn:E.
  - destruct (selects_total r F x) as (d' & H). exists d'. eapply sys_element; eauto.
  - apply nth_error_None in E. destruct (selects_total r F Dummy) as (d' & H). exists d'. apply sys_missing; [lia|exact H].
Qed.

Lemma test_params_later sys subs : test_params sys false subs = None <-> Forall (fun i => 1 <= i) subs.
Proof.
  induction subs as [|i r IH]; [split; constructor|]. cbn [test_params].
  rewrite andb_false_r. cbn [negb andb]. rewrite andb_true_r. destruct (Z.ltb_spec i 1).
  - split; [discriminate|]. intros F. inversion F; subst. lia.
  - rewrite IH. split; [intros F; constructor; assumption|intros F; now inversion F].
Qed.
Lemma test_params_first subs : test_params false true subs = None <-> Forall (fun i => 1 <= i) subs.
Proof.
  destruct subs as [|i r]; [split; constructor|]. cbn [test_params andb negb]. rewrite andb_true_r.
  destruct (Z.ltb_spec i 1).
  - split; [discriminate|]. intros F. inversion F; subst. lia.
  - rewrite test_params_later. split; [intros F; constructor; assumption|intros F; now inversion F].
Qed.
Lemma test_params_sys i r : test_params true true (i :: r) = None <-> 0 <= i /\ Forall (fun i => 1 <= i) r.
Proof.
  cbn [test_params]. destruct (Z.ltb_spec i 1) as [Hi|Hi]; destruct (Z.eqb_spec i 0) as [Hz|Hz]; cbn [andb negb];
    rewrite ?test_params_later; split; intros X; try discriminate X;
    first [split; [lia|exact X]|destruct X as [X1 X2]; first [exact X2|lia]].
Qed.
Lemma test_params_code sys first subs c : test_params sys first subs = Some c -> c = E012.
Proof.
  revert first. induction subs as [|i r IH]; intros first; [discriminate|]. cbn [test_params].
  destruct (_ && _); [congruence|apply IH].
Qed.
Lemma not_all subs : ~ Forall (fun i => 1 <= i) subs <-> Exists (fun i => i < 1) subs.
Proof.
  induction subs as [|i r IH].
  - split; [intros H; exfalso; apply H; constructor|intros H; inversion H].
  - split.
    + intros H. destruct (Z_lt_dec i 1); [now left|right]. apply IH. intros F. apply H. constructor; [lia|exact F].
    + intros H F. inversion F; subst. inversion H; subst; [lia|]. now apply IH.
Qed.
Lemma test_misread v subs c : test_for_read v subs = Some c <-> misread v subs c.
Proof.
  destruct v as [s|d|d]; cbn [test_for_read].
  - destruct subs as [|i [|j r]].
    + destruct (s_scalar s) eqn:Sc; split; intros H; try discriminate; try (inversion H; subst; congruence).
      injection H as <-. now constructor.
    + destruct (s_scalar s) eqn:Sc.
      * split; intros H; [injection H as <-; now constructor|inversion H; subst; congruence].
      * destruct (Z.ltb_spec i 1); split; intros K; try discriminate.
        -- injection K as <-. now constructor.
        -- inversion K; subst; congruence.
        -- inversion K; subst; [congruence|lia].
    + split; intros H; [injection H as <-; constructor|inversion H; subst; easy].
  - split; intros H.
    + assert (c = E012) by (eapply test_params_code; eauto). subst. constructor. apply not_all.
      rewrite <- test_params_first. congruence.
    + inversion H as [| | | |? ? Ex|]; subst. apply not_all in Ex. rewrite <- test_params_first in Ex.
      destruct (test_params false true subs) eqn:E; [|congruence].
      apply test_params_code in E. now subst.
  - destruct subs as [|i r]; [split; intros H; [discriminate|inversion H]|]. split; intros H.
    + assert (c = E012) by (eapply test_params_code; eauto). subst. constructor.
      destruct (Z_lt_dec i 0); [now left|right]. apply not_all. intros F.
      assert (X : 0 <= i /\ Forall (fun i => 1 <= i) r) by (split; [lia|exact F]).
      apply test_params_sys in X. congruence.
    + inversion H as [| | | | |? ? ? Ex]; subst.
      destruct (test_params true true (i :: r)) eqn:E; [apply test_params_code in E; now subst|].
      apply test_params_sys in E as (E1 & E2). exfalso. destruct Ex as [Ex|Ex]; [lia|]. apply not_all in Ex. contradiction.
Qed.

Lemma stored_get s : s_scalar s = true -> Var_Model.get_value s = stored s 0.
Proof. intros Sc. unfold Var_Model.get_value, stored. now rewrite Sc. Qed.
Lemma stored_at s k : s_scalar s = false -> get_value_at s k = stored s k.
Proof. intros Sc. unfold get_value_at, stored. now rewrite Sc. Qed.

Lemma stands_read v subs x : stands_for v subs x -> ints subs -> test_for_read v subs = None /\ var_value (Some v) subs = inr x.
Proof.
  intros H F. assert (T0 : test_for_read v subs = None).
  { destruct H as [s Sc|s i Sc Hi|d subs d' Sel|d subs d' Sel]; cbn [test_for_read].
    - now rewrite Sc.
    - rewrite Sc. destruct (Z.ltb_spec i 1); [lia|easy].
    - apply test_params_first. eapply selects_positive; eauto.
    - destruct subs as [|i r]; [easy|]. apply test_params_sys.
      inversion Sel as [|? ? ? ? ? Hi _ Sl|? ? ? ? Hi Sl]; subst; (split; [lia|eapply selects_positive; eauto]). }
  split; [exact T0|]. unfold var_value. rewrite T0. f_equal.
  destruct H as [s Sc|s i Sc Hi|d subs d' Sel|d subs d' Sel].
  - now apply stored_get.
  - inversion F; subst. rewrite size_t_small by lia. now apply stored_at.
  - cbn [var_data]. now rewrite (selects_below _ _ _ Sel F).
  - cbn [var_data]. now rewrite (sys_selects_below _ _ _ Sel F).
Qed.
Lemma read_stands v subs : sys_list v -> ints subs -> test_for_read v subs = None -> exists x, stands_for v subs x.
Proof.
  intros Hs F H. destruct v as [s|d|d]; cbn [test_for_read] in H.
  - destruct subs as [|i [|j r]]; [|destruct (s_scalar s) eqn:Sc; [discriminate|]|discriminate].
    + destruct (s_scalar s) eqn:Sc; [|discriminate]. eexists. now constructor.
    + destruct (Z.ltb_spec i 1); [discriminate|]. eexists. constructor; [exact Sc|lia].
  - apply test_params_first in H. destruct (selects_total _ H d) as (d' & Sl). eexists. constructor. exact Sl.
  - destruct Hs as (l & ->). destruct (sys_selects_total l subs) as (d' & Sl).
    + destruct subs; [easy|]. now apply test_params_sys.
    + eexists. constructor. exact Sl.
Qed.
