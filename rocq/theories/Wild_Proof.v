From Coq Require Import List NArith Arith Bool Lia.
From Verif Require Import Common Wild_Model Wild_Spec.
Import ListNotations.
Local Open Scope N_scope.

(** The token a pattern character compiles to. *)
Definition tok_of (c : N) : retok :=
  if c =? 42 then RStar else if c =? 43 then RPlus else if c =? 63 then RAny else RLit c.

Definition char_regex (c : N) : bytes :=
  replace_chars rep_nongreedy (replace_chars rep_question (rep_escape c)).

Lemma flat_map_flat_map : forall (f g : N -> bytes) s,
  flat_map g (flat_map f s) = flat_map (fun c => flat_map g (f c)) s.
Proof.
  intros f g s. induction s as [|c s IH]; [reflexivity|].
  cbn [flat_map]. rewrite flat_map_app, IH. reflexivity.
Qed.

Lemma wildcard2regex_chars : forall w, wildcard2regex false w = flat_map char_regex w.
Proof.
  intros w. unfold wildcard2regex, replace_chars. rewrite !flat_map_flat_map.
  induction w as [|c w IH]; [reflexivity|]. cbn [flat_map]. rewrite IH. f_equal.
  unfold char_regex, replace_chars. rewrite flat_map_flat_map. reflexivity.
Qed.

Lemma existsb_false_neq : forall c l, existsb (N.eqb c) l = false -> forall x, In x l -> c <> x.
Proof.
  intros c l H x Hx ->. assert (E : existsb (N.eqb x) l = true).
  { apply existsb_exists. exists x. split; [exact Hx|apply N.eqb_refl]. }
  congruence.
Qed.

(** The character's regex text, by kind of character. *)
Lemma char_regex_cases : forall c,
  (c = 42 /\ char_regex c = [46; 42; 63])
  \/ (c = 43 /\ char_regex c = [46; 43; 63])
  \/ (c = 63 /\ char_regex c = [46])
  \/ (c <> 42 /\ c <> 43 /\ c <> 63 /\ char_regex c = [92; c] /\ is_word c = false)
  \/ (c <> 42 /\ c <> 43 /\ c <> 63 /\ c <> 46 /\ c <> 92 /\ char_regex c = [c]
      /\ is_special c = false).
Proof.
  intros c.
  destruct (N.eqb_spec c 42) as [->|N1]; [left; split; reflexivity|].
  destruct (N.eqb_spec c 43) as [->|N2]; [right; left; split; reflexivity|].
  destruct (N.eqb_spec c 63) as [->|N3]; [right; right; left; split; reflexivity|].
  right; right; right.
  unfold char_regex, replace_chars.
  destruct (is_escaped c) eqn:E.
  - left. unfold rep_escape. rewrite E. repeat (split; [assumption|]).
    assert (H : c = 40 \/ c = 91 \/ c = 123 \/ c = 92 \/ c = 94 \/ c = 45 \/ c = 61 \/ c = 36
                \/ c = 33 \/ c = 124 \/ c = 93 \/ c = 125 \/ c = 41 \/ c = 46).
    { unfold is_escaped in E. apply existsb_exists in E as [x [Hx Hc]]. apply N.eqb_eq in Hc. subst x.
      cbn in Hx. intuition congruence. }
    repeat (destruct H as [->|H]; [split; reflexivity|]). subst c. split; reflexivity.
  - right. unfold rep_escape. rewrite E. cbn [flat_map app].
    pose proof (existsb_false_neq _ _ E) as HE.
    assert (H46 : c <> 46) by (apply HE; cbn; tauto).
    assert (H92 : c <> 92) by (apply HE; cbn; tauto).
    repeat (split; [assumption|]). split.
    + unfold rep_question. destruct (N.eqb_spec c 63) as [|_]; [contradiction|].
      cbn [flat_map app]. unfold rep_nongreedy.
      destruct (N.eqb_spec c 42) as [|_]; [contradiction|].
      destruct (N.eqb_spec c 43) as [|_]; [contradiction|]. reflexivity.
    + unfold is_special. apply not_true_is_false. intros T.
      apply existsb_exists in T as [x [Hx Hc]]. apply N.eqb_eq in Hc. subst x.
      cbn [In] in Hx.
      repeat (destruct Hx as [Hx|Hx]; [symmetry in Hx; first [contradiction | revert Hx; apply HE; cbn; tauto]|]).
      exact Hx.
Qed.

(** One step of the parser on a plain character. *)
Lemma re_parse_plain : forall c s, c <> 46 -> c <> 92 -> is_special c = false ->
  re_parse (c :: s) = match re_parse s with Some ts => Some (RLit c :: ts) | None => None end.
Proof.
  intros c s H1 H2 H3.
  assert (E : re_parse (c :: s) = if is_special c then None else match re_parse s with Some ts => Some (RLit c :: ts) | None => None end).
  { destruct c as [|p]; [reflexivity|].
    do 7 (destruct p as [p|p|]; try reflexivity; try (exfalso; congruence)). }
  rewrite E, H3. reflexivity.
Qed.

Lemma re_parse_any : forall s,
  (forall c s', s = c :: s' -> c <> 42 /\ c <> 43) ->
  re_parse (46 :: s) = match re_parse s with Some ts => Some (RAny :: ts) | None => None end.
Proof.
  intros s H. destruct s as [|c s']; [reflexivity|].
  destruct (H c s' eq_refl) as [H1 H2].
  destruct c as [|p]; [reflexivity|].
  do 6 (destruct p as [p|p|]; try reflexivity; try (exfalso; congruence)).
Qed.

Lemma char_regex_head : forall c, exists h t, char_regex c = h :: t /\ h <> 42 /\ h <> 43.
Proof.
  intros c. destruct (char_regex_cases c) as [[_ E]|[[_ E]|[[_ E]|[(_ & _ & _ & E & _)|(N1 & N2 & _ & _ & _ & E & _)]]]];
    rewrite E; eexists; eexists; (split; [reflexivity|]); split; try lia; congruence.
Qed.

Lemma re_parse_wild : forall w, re_parse (flat_map char_regex w) = Some (map tok_of w).
Proof.
  induction w as [|c w IH]; [reflexivity|].
  cbn [flat_map map]. unfold tok_of at 1.
  destruct (char_regex_cases c) as [[-> E]|[[-> E]|[[-> E]|[(N1 & N2 & N3 & E & W)|(N1 & N2 & N3 & N4 & N5 & E & W)]]]];
    rewrite E.
  - cbn [app re_parse]. rewrite IH. reflexivity.
  - cbn [app re_parse]. rewrite IH. reflexivity.
  - cbn [app]. rewrite re_parse_any, IH; [reflexivity|].
    intros c s' Hs. destruct w as [|c2 w]; [discriminate|].
    cbn [flat_map] in Hs. destruct (char_regex_head c2) as (h & t & Eh & H1 & H2).
    rewrite Eh in Hs. injection Hs as <- _. auto.
  - cbn [app re_parse]. rewrite W, IH.
    destruct (N.eqb_spec c 42); [contradiction|]. destruct (N.eqb_spec c 43); [contradiction|].
    destruct (N.eqb_spec c 63); [contradiction|]. reflexivity.
  - cbn [app]. rewrite re_parse_plain, IH by assumption.
    destruct (N.eqb_spec c 42); [contradiction|]. destruct (N.eqb_spec c 43); [contradiction|].
    destruct (N.eqb_spec c 63); [contradiction|]. reflexivity.
Qed.

Lemma any_char_true : forall x, x <> 10 -> x <> 13 -> any_char x = true.
Proof.
  intros x H1 H2. unfold any_char. destruct (N.eqb_spec x 10); [contradiction|].
  destruct (N.eqb_spec x 13); [contradiction|]. reflexivity.
Qed.

Lemma one_line_cons : forall x n, one_line (x :: n) -> any_char x = true /\ one_line n.
Proof.
  intros x n [H1 H2]. cbn in H1, H2. split; [apply any_char_true; intros ->; tauto|].
  split; tauto.
Qed.

Lemma match_star : forall ts n, one_line n ->
  (re_match (RStar :: ts) n = true <-> exists xs n', n = xs ++ n' /\ re_match ts n' = true).
Proof.
  intros ts. cbn [re_match]. induction n as [|x n IH]; intros Hl; split.
  - intros H. rewrite orb_false_r in H. exists [], []. auto.
  - intros (xs & n' & E & H). symmetry in E. apply app_eq_nil in E as [-> ->]. rewrite H. reflexivity.
  - intros H. destruct (one_line_cons _ _ Hl) as [Ha Hl']. rewrite Ha in H. cbn [andb] in H.
    apply orb_true_iff in H as [H|H]; [exists [], (x :: n); auto|].
    apply IH in H; [|exact Hl']. destruct H as (xs & n' & E & H). exists (x :: xs), n'.
    cbn [app]. split; [congruence|exact H].
  - intros (xs & n' & E & H). destruct (one_line_cons _ _ Hl) as [Ha Hl']. rewrite Ha. cbn [andb].
    destruct xs as [|y xs]; cbn [app] in E.
    + subst n'. rewrite H. reflexivity.
    + injection E as <- E. apply orb_true_iff. right. apply IH; [exact Hl'|]. exists xs, n'. auto.
Qed.

Lemma match_plus : forall ts n, one_line n ->
  (re_match (RPlus :: ts) n = true <-> exists x xs n', n = x :: xs ++ n' /\ re_match ts n' = true).
Proof.
  intros ts. cbn [re_match]. induction n as [|x n IH]; intros Hl; split.
  - discriminate.
  - intros (y & xs & n' & E & _). discriminate.
  - intros H. destruct (one_line_cons _ _ Hl) as [Ha Hl']. rewrite Ha in H. cbn [andb] in H.
    apply orb_true_iff in H as [H|H]; [exists x, [], n; auto|].
    apply IH in H; [|exact Hl']. destruct H as (y & xs & n' & E & H). exists x, (y :: xs), n'.
    cbn [app]. split; [congruence|exact H].
  - intros (y & xs & n' & E & H). injection E as <- E.
    destruct (one_line_cons _ _ Hl) as [Ha Hl']. rewrite Ha. cbn [andb].
    destruct xs as [|z xs]; cbn [app] in E.
    + subst n'. rewrite H. reflexivity.
    + apply orb_true_iff. right. apply IH; [exact Hl'|]. exists z, xs, n'. auto.
Qed.

Lemma one_line_app : forall a b, one_line (a ++ b) -> one_line b.
Proof. intros a b [H1 H2]. split; intros H; [apply H1|apply H2]; apply in_or_app; auto. Qed.

Lemma match_plus_spec : forall w n, one_line n ->
  (re_match (map tok_of w) n = true <-> denotes_plus w n).
Proof.
  induction w as [|c w IH]; intros n Hl.
  - cbn. destruct n; split; intros H; try discriminate; try constructor; try inversion H; reflexivity.
  - cbn [map]. unfold tok_of at 1.
    destruct (N.eqb_spec c 42) as [->|N1].
    { rewrite match_star by exact Hl. split.
      - intros (xs & n' & -> & H). constructor. apply IH; [eapply one_line_app; exact Hl|exact H].
      - intros H. inversion H; subst; try lia. eexists; eexists; split; [reflexivity|].
        apply IH; [eapply one_line_app; exact Hl|assumption]. }
    destruct (N.eqb_spec c 43) as [->|N2].
    { rewrite match_plus by exact Hl. split.
      - intros (x & xs & n' & -> & H). constructor. apply IH; [|exact H].
        apply one_line_cons in Hl as [_ Hl]. eapply one_line_app; exact Hl.
      - intros H. inversion H; subst; try lia. eexists; eexists; eexists; split; [reflexivity|].
        apply IH; [|assumption]. apply one_line_cons in Hl as [_ Hl]. eapply one_line_app; exact Hl. }
    destruct (N.eqb_spec c 63) as [->|N3].
    { cbn [re_match]. destruct n as [|x n]; split; intros H; try discriminate.
      - inversion H; subst; lia.
      - apply andb_true_iff in H as [_ H]. constructor. apply IH; [|exact H].
        apply one_line_cons in Hl as [_ Hl]; exact Hl.
      - apply one_line_cons in Hl as [Ha Hl]. rewrite Ha. cbn [andb]. apply IH; [exact Hl|].
        inversion H; subst; try lia. assumption. }
    cbn [re_match]. destruct n as [|x n]; split; intros H; try discriminate.
    + inversion H; subst; lia.
    + apply andb_true_iff in H as [E H]. apply N.eqb_eq in E. subst x. constructor; try assumption.
      apply IH; [|exact H]. apply one_line_cons in Hl as [_ Hl]; exact Hl.
    + inversion H; subst; try lia. rewrite N.eqb_refl. cbn [andb].
      apply IH; [|assumption]. apply one_line_cons in Hl as [_ Hl]; exact Hl.
Qed.

Lemma denotes_plus_denotes : forall w n, ~ In 43 w -> (denotes_plus w n <-> denotes w n).
Proof.
  intros w n Hp. split; intros H; induction H; cbn in Hp; try (constructor; try assumption; try (apply IHdenotes_plus); try (apply IHdenotes); tauto).
  exfalso. tauto.
Qed.

Lemma pattern_match_plus : forall w n, one_line n ->
  exists b, pattern_match false w n = Some b /\ (b = true <-> denotes_plus w n).
Proof.
  intros w n Hl. unfold pattern_match. rewrite wildcard2regex_chars, re_parse_wild.
  eexists. split; [reflexivity|]. apply match_plus_spec. exact Hl.
Qed.

Lemma pattern_match_ok : forall w n, ~ In 43 w -> one_line n ->
  exists b, pattern_match false w n = Some b /\ (b = true <-> denotes w n).
Proof.
  intros w n Hp Hl. destruct (pattern_match_plus w n Hl) as (b & E & H).
  exists b. split; [exact E|]. rewrite H. apply denotes_plus_denotes. exact Hp.
Qed.

(** On Windows the pattern is the same with '/' written as a backslash. *)
Lemma wildcard2regex_windows : forall w,
  wildcard2regex true w = wildcard2regex false (map (fun c => if c =? 47 then 92 else c) w).
Proof.
  intros w. unfold wildcard2regex.
  replace (replace_chars rep_slash w) with (map (fun c => if c =? 47 then 92 else c) w); [reflexivity|].
  unfold replace_chars. induction w as [|c w IH]; [reflexivity|].
  cbn [map flat_map]. rewrite IH. unfold rep_slash. destruct (c =? 47); reflexivity.
Qed.

(** A literal '+' still selects every name the pattern denotes. *)
Lemma denotes_denotes_plus : forall w n, denotes w n -> denotes_plus w n.
Proof.
  intros w n H. induction H.
  - constructor.
  - destruct (N.eqb_spec c 43) as [->|N3].
    + apply (p_some 43 [] w n). assumption.
    + constructor; assumption.
  - constructor. assumption.
  - constructor. assumption.
Qed.

Lemma pattern_never_misses : forall w n, one_line n -> denotes w n -> pattern_match false w n = Some true.
Proof.
  intros w n Hl H. destruct (pattern_match_plus w n Hl) as (b & E & Hb).
  rewrite E. f_equal. apply Hb. apply denotes_denotes_plus. exact H.
Qed.
