(** The tokens of statements. *)
From Coq Require Import List NArith Bool Arith Lia ZifyBool ZifyNat ZifyN.
From Verif Require Import Common Lex_Model Lex_Spec Lex_Proof Lex_Funs.
Import ListNotations.

Set Default Proof Using "Type".
Section Words.
Variable unlimited : bool.
Variable text : list char.
Notation size := (length text).
Notation plain := (plain text).
Notation began := (began text).
Notation pos s := (index (file s)).
Notation at_ p := (nth_error text p).
Notation before_end := (before_end unlimited).

Definition plain_char (r : nat) : Prop := exists x, at_ r = Some x /\ x <> LF /\ x <> CR.
Definition passes (e : nat) (a b : nat) : Prop :=
  a <= b <= size /\ (forall r, a <= r < b -> plain_char r) /\
  (unlimited = false -> column_of text a <= e -> column_of text b <= e).
Lemma passes_refl : forall e a, a <= size -> passes e a a.
Proof. intros e a L. split; [lia|]. split; [intros; lia|auto]. Qed.
Lemma passes_trans : forall e a b d, passes e a b -> passes e b d -> passes e a d.
Proof.
  intros e a b d (L1 & A & B) (L2 & C & D). split; [lia|]. split; [|auto]. intros r Hr. destruct (lt_dec r b); [apply A|apply C]; lia.
Qed.
Lemma passes_one : forall e p x, at_ p = Some x -> x <> LF -> x <> CR -> (unlimited = false -> column_of text p < e) -> passes e p (S p).
Proof.
  intros e p x A L C H. assert (p < size) by (apply nth_error_Some; congruence). split; [lia|]. split.
  - intros r Hr. replace r with p by lia. exists x. auto.
  - intros U _. rewrite (column_of_S _ _ _ A). specialize (H U). destruct (x =? LF)%N; lia.
Qed.
Lemma before_limited : forall e s, plain s -> before_end e s = true -> unlimited = false -> column_of text (pos s) < e.
Proof. intros e s P B U. rewrite (plain_before unlimited text e s P), U in B. cbn [andb] in B. rewrite orb_false_r in B. lia. Qed.

(** [s'] has passed some characters of the line and made tokens of them. *)
Definition lexed (e : nat) (s s' : lexer) : Prop :=
  plain s' /\ passes e (pos s) (pos s') /\
  exists ts, queue s' = queue s ++ ts /\ chain (pos s) ts (pos s') /\ Forall (fun u => seen u = true) ts.
Lemma lexed_trans : forall e a b d, lexed e a b -> lexed e b d -> lexed e a d.
Proof.
  intros e a b d (_ & P1 & ts & Q1 & C1 & F1) (P & P2 & us & Q2 & C2 & F2). split; [exact P|]. split; [eapply passes_trans; eassumption|].
  exists (ts ++ us). split; [now rewrite Q2, Q1, app_assoc|]. split; [eapply chain_app; eassumption|]. apply Forall_app. auto.
Qed.

(** The characters from [begun s] to here make a token. *)
Lemma token_made : forall t e s s1, plain s1 -> began s1 -> begun s1 = file s -> queue s1 = queue s -> passes e (pos s) (pos s1) ->
  seen {| ty := t; hidden := false; of_buffer := false; start := 0; stop := 0; t_line := 0; t_column := 0; t_column16 := 0; t_end16 := 0; t_index := 0 |} = true ->
  t <> IGNORED ->
  lexed e s (create_token t false s1) /\ file (create_token t false s1) = file s1 /\ c (create_token t false s1) = c s1
  /\ apostrophes (create_token t false s1) = apostrophes s1.
Proof.
  intros t e s s1 P1 B1 E1 Q1 Pa Sn Ti.
  destruct (create_plain text t false s1 P1 B1 ltac:(congruence)) as (P2 & B2 & E2 & F2 & C2 & A2 & L2 & D2).
  rewrite E1, Q1 in D2. split; [|auto]. unfold lexed. rewrite F2. split; [exact P2|]. split; [exact Pa|].
  destruct D2 as [(Q2 & X & _)|(u & Q2 & (U1 & U2 & U3 & U4 & _) & _)].
  - exists []. rewrite Q2, app_nil_r, X. repeat constructor.
  - exists [u]. rewrite E1 in U3. split; [exact Q2|]. split.
    + rewrite <- U3, <- U4. apply chain_cons; [|constructor]. rewrite U3, U4. apply Pa.
    + constructor; [|constructor]. unfold seen in *. rewrite U1, U2. exact Sn.
Qed.

Lemma lex_space_plain : forall e s, plain s -> began s -> begun s = file s ->
  exists s', lex_space unlimited e s = Some s' /\ lexed e s s' /\ apostrophes s' = apostrophes s /\
    (c s = Some BLANK -> before_end e s = true -> pos s < pos s').
Proof.
  intros e s P B E. unfold lex_space. set (cond := fun s => is BLANK (c s) && before_end e s && negb (eof s)).
  destruct (scan text cond (fun r => at_ r = Some BLANK /\ (unlimited = false -> column_of text r < e)) s P) as (s2 & W & P2 & S2 & N2 & K2 & I2 & G2).
  { intros s0 P0 H. unfold cond. now rewrite H. }
  { intros s0 y P0 S0 H Y. unfold cond in H. apply andb_true_iff in H. destruct H as [H _]. apply andb_true_iff in H. destruct H as [H1 H2].
    destruct (plain_some text s0 y P0 Y) as [A0 _]. rewrite Y in H1. unfold is in H1. split; [rewrite A0; f_equal; lia|].
    intros U. now apply before_limited. }
  rewrite W. eexists. split; [reflexivity|].
  assert (Pa : passes e (pos s) (pos s2)).
  { pose proof (plain_size text s2 P2). split; [lia|]. split.
    - intros r Hr. exists BLANK. split; [now apply I2|]. split; discriminate.
    - intros U L. apply (col_bound text e (pos s)); [lia| |exact L]. intros r Hr. destruct (I2 r Hr) as [X Y]. rewrite X. split; [discriminate|auto]. }
  destruct (token_made SPACE e s s2 P2) as (L3 & F3 & C3 & A3); auto; try discriminate.
  - eapply same_began; eassumption.
  - destruct S2 as (_ & X & _). congruence.
  - apply S2.
  - split; [exact L3|]. split; [rewrite A3; apply S2|]. intros C Be. rewrite F3. apply G2. unfold cond. rewrite C, Be, (plain_eof text s P), C. reflexivity.
Qed.

(** ** Words *)
Definition more (e : nat) (s : lexer) : bool := negb (is_space s) && negb (eof s) && negb (identifier_divider s) && before_end e s.
Lemma more_char : forall e s, plain s -> more e s = true -> exists x, c s = Some x /\ x <> LF /\ x <> CR /\ (unlimited = false -> column_of text (pos s) < e).
Proof.
  intros e s P H. unfold more in H. rewrite (plain_eof text s P) in H. destruct (c s) as [x|] eqn:C; [|rewrite andb_false_r in H; discriminate].
  apply andb_true_iff in H. destruct H as [H B]. apply andb_true_iff in H. destruct H as [H _]. apply andb_true_iff in H. destruct H as [H _].
  unfold is_space in H. rewrite C in H. unfold is in H. exists x. split; [reflexivity|]. split; [intros ->|split; [intros ->|]].
  - rewrite N.eqb_refl in H. rewrite orb_true_r in H. discriminate.
  - rewrite N.eqb_refl in H. rewrite orb_true_r in H. discriminate.
  - intros U. now apply before_limited.
Qed.
Lemma word_plain : forall e fuel ord num attr len s, plain s -> began s -> fuel = size - pos s ->
  exists s1 o n a l ret, word unlimited fuel e ord num attr len s = Some (if ret : bool then create_token ORDSYMBOL false s1 else s1, o, n, a, l, ret) /\
    plain s1 /\ same s s1 /\ passes e (pos s) (pos s1) /\ (len = 0 -> more e s = true -> pos s < pos s1).
Proof.
  intros e fuel. induction fuel as [|fuel IH]; intros ord num attr len s P B Hf.
  - cbn [word]. change (negb (is_space s) && negb (eof s) && negb (identifier_divider s) && before_end e s) with (more e s).
    destruct (more e s) eqn:M.
    { exfalso. destruct (more_char e s P M) as (x & C & _). destruct (plain_some text s x P C). lia. }
    exists s, ord, num, attr, len, false. conjs; auto using same_refl; try congruence. apply passes_refl. now apply plain_size.
  - cbn [word]. change (negb (is_space s) && negb (eof s) && negb (identifier_divider s) && before_end e s) with (more e s).
    destruct (more e s) eqn:M.
    + destruct (var_symbol s && negb (ord && is_ord_char s) && (0 <? len) && (len <=? 63)) eqn:V.
      * exists s, (ord && is_ord_char s), (num && is_num_char s), (is_data_attribute s), len, true. conjs; auto using same_refl.
        -- apply passes_refl. now apply plain_size.
        -- intros ->. rewrite andb_false_r in V. discriminate.
      * destruct (more_char e s P M) as (x & C & X1 & X2 & X3). destruct (plain_some text s x P C) as [A Z].
        destruct (consume_plain text s x P C) as (P2 & S2 & N2 & _).
        destruct (IH (ord && is_ord_char s) (num && is_num_char s) (is_data_attribute s) (S len) (consume s) P2
                    (same_began _ _ _ B S2 ltac:(lia)) ltac:(lia)) as (s1 & o & n & a & l & ret & W & P1 & S1 & Pa & _).
        exists s1, o, n, a, l, ret. rewrite N2 in Pa. conjs; auto.
        -- eapply same_trans; eassumption.
        -- eapply passes_trans; [|exact Pa]. eapply passes_one; eassumption.
        -- intros _ _. destruct Pa as [? _]. lia.
    + exists s, ord, num, attr, len, false. conjs; auto using same_refl; try congruence. apply passes_refl. now apply plain_size.
Qed.
Lemma with_attr_lexed : forall e b s s', lexed e s s' -> lexed e s (with_attr b s').
Proof. intros e b s s' H. exact H. Qed.
Lemma lex_word_plain : forall e s, plain s -> began s -> begun s = file s ->
  exists s', lex_word unlimited e s = Some s' /\ lexed e s s' /\ apostrophes s' = apostrophes s /\ (more e s = true -> pos s < pos s').
Proof.
  intros e s P B E. unfold lex_word. rewrite (plain_remaining text s P).
  destruct (word_plain e (size - pos s) (is_ord_char s && negb (is_num_char s)) (is_num_char s) false 0 s P B eq_refl)
    as (s1 & o & n & a & l & ret & W & P1 & S1 & Pa & G).
  rewrite W.
  assert (B1 : began s1) by (eapply same_began; [exact B|exact S1|destruct Pa; lia]).
  assert (E1 : begun s1 = file s) by (destruct S1 as (_ & X & _); congruence).
  assert (Q1 : queue s1 = queue s) by apply S1.
  assert (A1 : apostrophes s1 = apostrophes s) by apply S1.
  destruct ret.
  - destruct (token_made ORDSYMBOL e s s1 P1 B1 E1 Q1 Pa eq_refl ltac:(discriminate)) as (L2 & F2 & C2 & A2).
    eexists. split; [reflexivity|]. split; [exact L2|]. split; [congruence|]. rewrite F2. auto.
  - set (t := if o && (l <=? 63) then ORDSYMBOL else if n then NUM else IDENTIFIER).
    destruct (token_made t e s s1 P1 B1 E1 Q1 Pa) as (L2 & F2 & C2 & A2).
    { unfold t. destruct (o && (l <=? 63)), n; reflexivity. }
    { unfold t. destruct (o && (l <=? 63)), n; discriminate. }
    set (s2 := create_token t false s1) in *.
    destruct (is 39%N (c s2) && a && negb (var_symbol s1) && (l =? 1) && (unlimited || negb (column (current s2) =? e))) eqn:K.
    + eexists. split; [reflexivity|].
      assert (P2 : plain s2) by apply L2.
      assert (C3 : c s2 = Some 39%N).
      { assert (K' := K). do 4 (apply andb_true_iff in K'; destruct K' as [K' _]).
        destruct (c s2) as [y|]; [|discriminate]. unfold is in K'. f_equal. lia. }
      destruct (start_plain text s2 P2) as (P3 & B3 & E3 & F3 & Q3 & V3 & C3').
      rewrite C3 in C3'. destruct (consume_plain text _ _ P3 C3') as (P4 & S4 & N4 & _).
      destruct (plain_some text s2 _ P2 C3) as [At Z2].
      assert (Co : unlimited = false -> column_of text (pos s2) < e \/ column_of text (pos s2) <> e /\ e < column_of text (pos s2)).
      { intros U. rewrite U in K. cbn [orb] in K. rewrite (plain_column text s2 P2) in K.
        apply andb_true_iff in K. destruct K as [_ K]. lia. }
      assert (Pa3 : passes e (pos s) (S (pos s2))).
      { destruct L2 as (_ & Pa2 & _). rewrite F2 in *. destruct Pa2 as (X1 & X2 & X3). split; [lia|]. split.
        - intros r Hr. destruct (Nat.eq_dec r (pos s1)) as [->|]; [|apply X2; lia]. exists 39%N. split; [exact At|]. split; discriminate.
        - intros U L. specialize (X3 U L). specialize (Co U). rewrite (column_of_S _ _ _ At). cbn. lia. }
      assert (L5 : plain_char (pos s2)) by (exists 39%N; split; [exact At|split; discriminate]).
      destruct (token_made ATTR (S (column_of text (pos s2))) s2 (consume (start_token s2)) P4) as (L6 & F6 & C6 & A6); auto; try discriminate.
      * eapply same_began; [exact B3|exact S4|]. rewrite N4. lia.
      * destruct S4 as (_ & X & _). rewrite X. exact E3.
      * destruct S4 as (X & _). rewrite X. exact Q3.
      * rewrite N4, F3. eapply passes_one; [exact At|discriminate|discriminate|]. intros; lia.
      * split; [|split].
        -- apply with_attr_lexed. destruct L2 as (_ & _ & ts & T1 & T2 & T3), L6 as (P7 & _ & us & U1 & U2 & U3).
           split; [exact P7|]. rewrite F6, N4, F3. split; [exact Pa3|]. exists (ts ++ us). rewrite F6, N4, F3 in U2.
           split; [now rewrite U1, T1, app_assoc|]. split; [eapply chain_app; eassumption|]. apply Forall_app. auto.
        -- cbn [with_attr apostrophes]. rewrite A6. destruct S4 as (_ & _ & _ & _ & _ & _ & X & _). rewrite X. cbn. congruence.
        -- intros M. cbn [with_attr file]. rewrite F6, N4, F3. specialize (G eq_refl M). rewrite F2. lia.
    + eexists. split; [reflexivity|]. split; [apply with_attr_lexed; exact L2|]. split; [cbn; congruence|]. intros M. cbn [with_attr file]. rewrite F2. auto.
Qed.

(** ** One token *)
Definition line_token (s s' : lexer) : Prop :=
  plain s' /\ exists u, queue s' = queue s ++ [u] /\ ty u = EOLLN /\ start u = pos s /\ stop u = pos s' /\
   ((at_ (pos s) = Some LF /\ pos s' = S (pos s)) \/
    (at_ (pos s) = Some CR /\ pos s' = S (pos s) /\ at_ (pos s') <> Some LF) \/
    (at_ (pos s) = Some CR /\ at_ (S (pos s)) = Some LF /\ pos s' = S (S (pos s)))).
Lemma lex_token_plain : forall e s x, plain s -> began s -> begun s = file s -> c s = Some x -> before_end e s = true ->
  exists s', lex_token unlimited e s = Some s' /\ pos s < pos s' /\
    (if (x =? LF)%N || (x =? CR)%N then line_token s s' else lexed e s s').
Proof.
  intros e s x P B E C Be. unfold lex_token. rewrite C. destruct (plain_some text s x P C) as [At Z].
  destruct (consume_plain text s x P C) as (P2 & S2 & N2 & _).
  assert (B2 : began (consume s)) by (eapply same_began; [exact B|exact S2|lia]).
  assert (E2 : begun (consume s) = file s) by (destruct S2 as (_ & X & _); congruence).
  assert (Q2 : queue (consume s) = queue s) by apply S2.
  assert (Cl : unlimited = false -> column_of text (pos s) < e) by (intros; now apply before_limited).
  assert (One : x <> LF -> x <> CR -> passes e (pos s) (pos (consume s))) by (intros; rewrite N2; eapply passes_one; eassumption).
  destruct (x =? BLANK)%N eqn:X1.
  { apply N.eqb_eq in X1. subst x. destruct (lex_space_plain e s P B E) as (s' & W & L & _ & G). exists s'. rewrite W. auto. }
  destruct (x =? 39)%N eqn:X2.
  { apply N.eqb_eq in X2. subst x. eexists. split; [reflexivity|]. cbn [N.eqb LF CR orb Pos.eqb].
    destruct (attr_ref (consume s)).
    - destruct (token_made ATTR e s (consume s) P2 B2 E2 Q2 (One ltac:(discriminate) ltac:(discriminate)) eq_refl ltac:(discriminate)) as (L & F & _).
      rewrite F, N2. split; [lia|exact L].
    - destruct (token_made APOSTROPHE e s (with_apostrophes (S (apostrophes (consume s))) (consume s)) P2 B2 E2 Q2 (One ltac:(discriminate) ltac:(discriminate)) eq_refl ltac:(discriminate)) as (L & F & _).
      rewrite F. cbn [with_apostrophes file]. rewrite N2. split; [lia|exact L]. }
  destruct (x =? CR)%N eqn:X3.
  { apply N.eqb_eq in X3. subst x. cbn [N.eqb LF CR orb Pos.eqb]. eexists. split; [reflexivity|].
    destruct (is LF (c (consume s))) eqn:K.
    - assert (C2 : c (consume s) = Some LF) by (destruct (c (consume s)) as [y|]; [|discriminate]; unfold is in K; f_equal; lia).
      destruct (plain_some text _ _ P2 C2) as [A2 Z2]. rewrite N2 in A2.
      destruct (consume_plain text _ _ P2 C2) as (P3 & S3 & N3 & _).
      destruct (create_plain text EOLLN false (consume (consume s)) P3 (same_began _ _ _ B2 S3 ltac:(lia)) ltac:(discriminate))
        as (P4 & _ & _ & F4 & _ & _ & _ & [(_ & _ & _ & X)|(u & Q4 & (U1 & U2 & U3 & U4 & _) & _)]); [congruence|].
      rewrite F4, N3, N2. split; [lia|]. split; [exact P4|]. exists u.
      assert (E3 : begun (consume (consume s)) = file s) by (destruct S3 as (_ & X & _); congruence).
      assert (Q3 : queue (consume (consume s)) = queue s) by (destruct S3 as (X & _); congruence).
      rewrite E3 in U3. rewrite Q3 in Q4. rewrite F4, N3, N2 in *. conjs; auto.
    - destruct (create_plain text EOLLN false (consume s) P2 B2 ltac:(discriminate))
        as (P4 & _ & _ & F4 & _ & _ & _ & [(_ & _ & _ & X)|(u & Q4 & (U1 & U2 & U3 & U4 & _) & _)]); [congruence|].
      rewrite F4, N2. split; [lia|]. split; [exact P4|]. exists u. rewrite E2 in U3. rewrite Q2 in Q4. rewrite F4, N2 in *. conjs; auto.
      right. left. conjs; auto. intros Y. rewrite (plain_c text _ P2), N2, Y in K. discriminate K. }
  destruct (x =? LF)%N eqn:X4.
  { apply N.eqb_eq in X4. subst x. cbn [orb]. eexists. split; [reflexivity|].
    destruct (create_plain text EOLLN false (consume s) P2 B2 ltac:(discriminate))
      as (P4 & _ & _ & F4 & _ & _ & _ & [(_ & _ & _ & X)|(u & Q4 & (U1 & U2 & U3 & U4 & _) & _)]); [congruence|].
    rewrite F4, N2. split; [lia|]. split; [exact P4|]. exists u. rewrite E2 in U3. rewrite Q2 in Q4. rewrite F4, N2 in *. conjs; auto. }
  cbn [orb]. destruct (punctuation x) as [t|] eqn:Pu.
  - eexists. split; [reflexivity|].
    assert (T : t <> IGNORED /\ seen {| ty := t; hidden := false; of_buffer := false; start := 0; stop := 0; t_line := 0; t_column := 0; t_column16 := 0; t_end16 := 0; t_index := 0 |} = true).
    { revert Pu. unfold punctuation. repeat (match goal with |- context [match ?p with _ => _ end] => destruct p end; try discriminate);
        intros Pu; injection Pu as <-; split; discriminate || reflexivity. }
    destruct T as [T1 T2].
    destruct (token_made t e s (consume s) P2 B2 E2 Q2 (One ltac:(lia) ltac:(lia)) T2 T1) as (L & F & _).
    rewrite F, N2. split; [lia|exact L].
  - destruct (lex_word_plain e s P B E) as (s' & W & L & _ & G). exists s'. split; [exact W|]. split; [|exact L]. apply G.
    unfold more. rewrite Be, (plain_eof text s P), C. unfold is_space, identifier_divider. rewrite C. unfold is.
    assert (D : divider x = false).
    { unfold divider. apply not_true_is_false. intros D. apply existsb_exists in D. destruct D as (y & In & D). apply N.eqb_eq in D. subst y.
      cbn in In. repeat (destruct In as [In|In]; [subst x; discriminate|]). exact In. }
    rewrite D. replace (BLANK =? x)%N with false by lia. replace (LF =? x)%N with false by lia. replace (CR =? x)%N with false by lia. reflexivity.
Qed.
End Words.
