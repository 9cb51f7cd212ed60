(** The tokens of a field, described on its characters. *)
From Coq Require Import List NArith Bool Arith Lia ZifyBool ZifyNat ZifyN.
From Verif Require Import Common Lex_Model Fld_Model.
Import ListNotations.

Definition word_char (x : char) : bool := negb ((x =? 32) || (x =? 10) || (x =? 13))%N && negb (divider x).
Definition letter_attr (x : char) : bool :=
  existsb (N.eqb x) [68; 79; 78; 83; 75; 73; 76; 84; 100; 111; 110; 115; 107; 105; 108; 116]%N.
Definition class (w : list char) : ttype :=
  if forallb ord_char w && negb (match w with x :: _ => is_digit x | [] => true end) && (length w <=? 63) then ORDSYMBOL
  else if forallb is_digit w then NUM else IDENTIFIER.
Definition no_word (r : list char) : Prop := match r with x :: _ => word_char x = false | [] => True end.
Definition no_blank (r : list char) : Prop := match r with x :: _ => x <> 32%N | [] => True end.
Definition no_quote (r : list char) : Prop := match r with x :: _ => x <> 39%N | [] => True end.

Inductive step : bool -> nat -> list char -> list lx -> bool -> list char -> Prop :=
| s_mark : forall v p x t r, punctuation x = Some t -> step v p (x :: r) [Lx t [x] p (S p)] (is_ty t AMPERSAND) r
| s_quote : forall v p r, step v p (39%N :: r) [Lx APOSTROPHE [39%N] p (S p)] false r
| s_blank : forall v p k r, no_blank r ->
    step v p (@repeat char 32%N (S k) ++ r) [Lx SPACE (@repeat char 32%N (S k)) p (p + S k)] false r
| s_word : forall v p w r, w <> [] -> forallb word_char w = true -> no_word r ->
    (v = false -> ~ (exists x, w = [x] /\ letter_attr x = true) \/ no_quote r) ->
    step v p (w ++ r) [Lx (class w) w p (p + length w)] false r
| s_attr : forall p x r, letter_attr x = true ->
    step false p (x :: 39%N :: r) [Lx ORDSYMBOL [x] p (S p); Lx ATTR [39%N] (S p) (S (S p))] false r
| s_cut : forall p w y r, w <> [] -> forallb word_char w = true -> word_char y = true ->
    forallb ord_char (w ++ [y]) && negb (match w with x :: _ => is_digit x | [] => true end) = false ->
    step true p (w ++ y :: r) [Lx ORDSYMBOL w p (p + length w)] false (y :: r).

Inductive Toks : bool -> nat -> list char -> list lx -> Prop :=
| T_end : forall v p, Toks v p [] [Lx EOLLN [] p p]
| T_step : forall v p rest q v' rest' ts, step v p rest q v' rest' ->
    Toks v' (p + (length rest - length rest')) rest' ts -> Toks v p rest (q ++ ts).

Section Field.
Variable wide : char -> bool.
Variable u : bool.
Variable text : list char.
Variable col : nat.
Hypothesis Hcol : 0 < col.
Hypothesis Hline : Forall (fun x => x <> 10%N /\ x <> 13%N) text.
Hypothesis Hfits : u = true \/ col + length text <= 71.

(** The state between two tokens or within one that began at [b]. *)
Definition on (b : nat) (q : list lx) (v : bool) (rest : list char) (p : nat) (s : lexer) : Prop :=
  data (file s) = text /\ index (file s) = p /\ skipn p text = rest /\ p <= length text /\
  column (file s) = col + p /\
  from_buffer s = false /\ buffer s = input_of [] /\ pending s = [] /\ var_symbol s = v /\
  (attr_ref s = true -> rest = []) /\ index (begun s) = b /\ begun_buffer s = false /\
  map (seen text) (queue s) = q /\ Forall (fun t => hidden t = false) (queue s).

Ltac open H := destruct H as (Dt & Ix & Sk & Le & Cl & Fb & Bf & Pn & Vs & Ar & Bg & Bb & Qm & Qh).

Lemma on_current : forall b q v rest p s, on b q v rest p s -> current s = file s.
Proof. intros. open H. unfold current. now rewrite Fb. Qed.
Lemma skip_nth : forall (l : list char) p, nth_error l p = match skipn p l with x :: _ => Some x | [] => None end.
Proof. induction l as [|x l IH]; intros [|p]; cbn; auto. Qed.
Lemma on_c : forall b q v rest p s, on b q v rest p s -> c s = match rest with x :: _ => Some x | [] => None end.
Proof.
  intros. unfold c. rewrite (on_current _ _ _ _ _ _ H). open H. unfold LA. rewrite Dt, Ix. cbn [Nat.sub]. rewrite Nat.add_0_r.
  rewrite skip_nth. now rewrite Sk.
Qed.
Lemma on_eof : forall b q v rest p s, on b q v rest p s -> eof s = match rest with [] => true | _ => false end.
Proof.
  intros. pose proof (on_c _ _ _ _ _ _ H) as C. unfold c in C. rewrite (on_current _ _ _ _ _ _ H) in C.
  unfold eof. rewrite C. open H. rewrite Bf. destruct rest; reflexivity.
Qed.
Lemma on_line : forall b q v x r p s, on b q v (x :: r) p s -> x <> 10%N /\ x <> 13%N.
Proof.
  intros. open H. rewrite Forall_forall in Hline. apply Hline.
  rewrite <- (firstn_skipn p text), Sk. apply in_or_app. right. now left.
Qed.
Lemma on_len : forall b q v rest p s, on b q v rest p s -> length text = p + length rest.
Proof. intros. open H. rewrite <- Sk, skipn_length. lia. Qed.
Lemma on_before : forall b q v x r p s, on b q v (x :: r) p s -> before_end u END s = true.
Proof.
  intros. pose proof (on_len _ _ _ _ _ _ H) as L. pose proof (on_line _ _ _ _ _ _ _ H) as (N1 & N2).
  unfold before_end. rewrite (on_current _ _ _ _ _ _ H), (on_c _ _ _ _ _ _ H). open H. rewrite Cl.
  cbn [length] in L. cbn [is]. unfold END, CR, LF. destruct Hfits as [->|F].
  - replace (13 =? x)%N with false by lia. replace (10 =? x)%N with false by lia. cbn. now rewrite orb_true_r.
  - replace (col + p <? 71) with true by lia. reflexivity.
Qed.
Lemma skip_S : forall (l : list char) p x r, skipn p l = x :: r -> skipn (S p) l = r /\ p < length l.
Proof.
  induction l as [|y l IH]; intros [|p] x r H; cbn in *; try discriminate.
  - injection H as -> ->. split; [reflexivity|lia].
  - destruct (IH p x r H) as (A & B). split; [exact A|lia].
Qed.
Lemma on_consume : forall b q v x r p s, on b q v (x :: r) p s -> on b q v r (S p) (consume s).
Proof.
  intros. pose proof (on_c _ _ _ _ _ _ H) as C. pose proof (on_line _ _ _ _ _ _ _ H) as (N1 & N2).
  pose proof (on_current _ _ _ _ _ _ H) as Cu.
  unfold consume. rewrite C. rewrite Cu. unfold c in C. rewrite Cu in C.
  open H. unfold on, with_current. rewrite Fb. cbn [file buffer from_buffer pending begun begun_buffer queue var_symbol attr_ref].
  unfold advance. rewrite C. cbn [is]. unfold LF. replace (10 =? x)%N with false by lia. cbn [data index column].
  destruct (skip_S _ _ _ _ Sk) as (A & B). rewrite Ix. repeat split; auto; try lia.
  intros E. specialize (Ar E). discriminate.
Qed.
Lemma on_start : forall b q v rest p s, on b q v rest p s -> on p q v rest p (start_token s).
Proof. intros. pose proof (on_current _ _ _ _ _ _ H) as Cu. open H. unfold on, start_token. cbn. rewrite Cu. repeat split; auto. Qed.
Lemma on_switch : forall b q v rest p s, on b q v rest p s -> on b q v rest p (switch_input_streams s).
Proof.
  intros. open H. unfold switch_input_streams. rewrite Bf. cbn. rewrite Pn. unfold on. cbn. repeat split; auto.
Qed.
Lemma slice : forall p w r, skipn p text = w ++ r -> firstn (p + length w - p) (skipn p text) = w.
Proof. intros p w r ->. replace (p + length w - p) with (length w) by lia. rewrite firstn_app, firstn_all, Nat.sub_diag. cbn. apply app_nil_r. Qed.
Lemma on_create : forall b q v rest p s t, on b q v rest p s -> b < p -> is_ty t EOF = false ->
  on b (q ++ [Lx t (firstn (p - b) (skipn b text)) b p]) (is_ty t AMPERSAND) rest p (create_token t false s).
Proof.
  intros. pose proof (on_current _ _ _ _ _ _ H) as Cu. open H. unfold create_token. rewrite H1. cbv zeta. cbn [begun begun_buffer file buffer eof_generated orb].
  rewrite Bb, Bg, Ix. replace (b =? p) with false by lia. cbn [andb].
  unfold on, with_queue. cbn [file buffer from_buffer pending begun begun_buffer queue var_symbol attr_ref current].
  repeat split; auto.
  - intros E. apply andb_true_iff in E. apply Ar, E.
  - rewrite map_app. f_equal; [assumption|]. cbn. unfold seen. cbn. unfold current. cbn. rewrite ?Fb, ?Bg, ?Ix. reflexivity.
  - apply Forall_app. split; [assumption|]. repeat constructor.
Qed.
Lemma on_apos : forall b q v rest p n s, on b q v rest p s -> on b q v rest p (with_apostrophes n s).
Proof. intros. open H. unfold on. cbn. repeat split; auto. Qed.
Lemma on_attr : forall b q v rest p n s, on b q v rest p s -> (n = true -> rest = []) -> on b q v rest p (with_attr n s).
Proof. intros. open H. unfold on. cbn. repeat split; auto. Qed.

(** ** Loops *)
Lemma loop_run : forall cond w fuel b q v r p s, on b q v (w ++ r) p s -> length w <= fuel ->
  (forall x w' p' s', on b q v (x :: w' ++ r) p' s' -> In x w -> cond s' = true) ->
  (forall p' s', on b q v r p' s' -> cond s' = false) ->
  exists s', loop fuel cond s = Some s' /\ on b q v r (p + length w) s'.
Proof.
  intros cond. induction w as [|x w IH]; intros fuel b q v r p s O F T E.
  - exists s. rewrite Nat.add_0_r. split; [|exact O]. destruct fuel; cbn; now rewrite (E p s O).
  - cbn [app length] in *. destruct fuel as [|fuel]; [lia|]. cbn [loop].
    rewrite (T x w p s O (or_introl eq_refl)).
    destruct (IH fuel b q v r (S p) (consume s)) as (s' & L & O').
    + eapply on_consume; eassumption.
    + lia.
    + intros y w' p' s' H I. eapply T; [exact H|now right].
    + exact E.
    + exists s'. split; [exact L|]. now replace (p + S (length w)) with (S p + length w) by lia.
Qed.
Lemma on_remaining : forall b q v rest p s, on b q v rest p s -> remaining (current s) = length rest.
Proof. intros. pose proof (on_len _ _ _ _ _ _ H). rewrite (on_current _ _ _ _ _ _ H). open H. unfold remaining. rewrite Dt, Ix. lia. Qed.

Lemma words_on : forall x, word_char x = true <-> x <> 32%N /\ x <> 10%N /\ x <> 13%N /\ divider x = false.
Proof. intros x. unfold word_char. destruct (divider x); cbn; lia. Qed.
Lemma go_on : forall b q v x r p s, on b q v (x :: r) p s ->
  negb (is_space s) && negb (eof s) && negb (identifier_divider s) && before_end u END s = word_char x.
Proof.
  intros. unfold is_space, identifier_divider. rewrite (on_before _ _ _ _ _ _ _ H), (on_eof _ _ _ _ _ _ H), (on_c _ _ _ _ _ _ H).
  cbn [is]. unfold word_char, BLANK, LF, CR. rewrite (N.eqb_sym 32), (N.eqb_sym 10), (N.eqb_sym 13). now rewrite !andb_true_r.
Qed.
Lemma go_off : forall b q v r p s, on b q v r p s -> no_word r ->
  negb (is_space s) && negb (eof s) && negb (identifier_divider s) && before_end u END s = false.
Proof.
  intros. destruct r as [|x r].
  - rewrite (on_eof _ _ _ _ _ _ H). cbn. now rewrite andb_false_r.
  - rewrite (go_on _ _ _ _ _ _ _ H). exact H0.
Qed.

Lemma word_run : forall w fuel ord num attr len b q v r p s, on b q v (w ++ r) p s -> length w <= fuel ->
  forallb word_char w = true -> no_word r ->
  (exists s', word u fuel END ord num attr len s =
     Some (s', ord && forallb ord_char w, num && forallb is_digit w, match w with [] => attr | x :: w => letter_attr (last w x) end,
           len + length w, false) /\ on b q v r (p + length w) s') \/
  (v = true /\ exists w1 y w2 s' o n a, w = w1 ++ y :: w2 /\ 0 < len + length w1 /\ ord && forallb ord_char (w1 ++ [y]) = false /\
     word u fuel END ord num attr len s = Some (create_token ORDSYMBOL false s', o, n, a, len + length w1, true) /\
     on b q v (y :: w2 ++ r) (p + length w1) s').
Proof.
  induction w as [|x w IH]; intros fuel ord num attr len b q v r p s O F W R.
  - left. exists s. rewrite !Nat.add_0_r. cbn [forallb]. rewrite !andb_true_r. cbn [app] in O.
    destruct fuel; cbn [word]; rewrite (go_off _ _ _ _ _ _ O R); auto.
  - cbn [app length forallb] in *. apply andb_true_iff in W as (Wx & W). destruct fuel as [|fuel]; [lia|]. cbn [word].
    rewrite (go_on _ _ _ _ _ _ _ O), Wx. unfold is_ord_char, is_num_char, is_data_attribute. rewrite (on_c _ _ _ _ _ _ O).
    fold (letter_attr x). pose proof O as O'. open O'. rewrite Vs.
    destruct (v && negb (ord && ord_char x) && (0 <? len) && (len <=? 63)) eqn:B.
    + right. apply andb_true_iff in B as (B & _). apply andb_true_iff in B as (B & B2). apply andb_true_iff in B as (B & B0). split; [exact B|].
      exists [], x, w, s, (ord && ord_char x), (num && is_digit x), (letter_attr x).
      rewrite !Nat.add_0_r. apply negb_true_iff in B0. apply Nat.ltb_lt in B2. cbn [app forallb]. rewrite andb_true_r. auto 9.
    + apply on_consume in O. destruct (IH fuel (ord && ord_char x) (num && is_digit x) (letter_attr x) (S len) b q v r (S p) (consume s) O) as [(s' & E & Os)|(V & w1 & y & w2 & s' & o & n & a & E1 & E2 & E0 & E3 & Os)].
      * lia.
      * exact W.
      * exact R.
      * left. exists s'. rewrite E. split; [|now replace (p + S (length w)) with (S p + length w) by lia].
        rewrite !andb_assoc. replace (len + S (length w)) with (S len + length w) by lia.
        destruct w as [|y w]; [reflexivity|].
        replace (last (y :: w) x) with (last w y); [reflexivity|].
        { clear. revert y x. induction w as [|z w IH]; intros y x; [reflexivity|]. cbn [last] in *. destruct w; [reflexivity|]. apply (IH y x). }
      * right. split; [exact V|]. exists (x :: w1), y, w2, s', o, n, a. subst w. cbn [length].
        replace (len + S (length w1)) with (S len + length w1) by lia. replace (p + S (length w1)) with (S p + length w1) by lia.
        split; [reflexivity|]. split; [lia|]. split; [cbn [app forallb]; rewrite andb_assoc; exact E0|]. split; [exact E3|exact Os].
Qed.

Lemma split_word : forall r : list char, exists w t, r = w ++ t /\ forallb word_char w = true /\ no_word t.
Proof.
  induction r as [|x r (w & t & E & A & B)].
  - exists [], []. repeat split.
  - destruct (word_char x) eqn:X.
    + exists (x :: w), t. subst r. cbn. rewrite X. auto.
    + exists [], (x :: r). repeat split. exact X.
Qed.
Lemma split_blank : forall r : list char, exists k (t : list char), r = @repeat char 32%N k ++ t /\ no_blank t.
Proof.
  induction r as [|x r (k & t & E & A)].
  - exists 0, []. split; [reflexivity|exact Logic.I].
  - destruct (N.eq_dec x 32) as [->|X].
    + exists (S k), t. subst r. cbn. auto.
    + exists 0, (x :: r). split; [reflexivity|exact X].
Qed.

Lemma on_ty : forall b q v rest p s, on b q v rest p s -> var_symbol s = v /\ column (current s) = col + p.
Proof. intros. rewrite (on_current _ _ _ _ _ _ H). open H. auto. Qed.
Lemma on_begun : forall b q v rest p s, on b q v rest p s -> index (begun s) = b.
Proof. intros. open H. auto. Qed.
Lemma on_skip : forall b q v rest p s, on b q v rest p s -> skipn p text = rest.
Proof. intros. open H. auto. Qed.

Lemma attr_words : forall x, letter_attr x = true -> ord_char x = true /\ is_digit x = false.
Proof.
  intros x H. unfold letter_attr in H. apply existsb_exists in H as (y & I & E). apply N.eqb_eq in E. subst y.
  cbn in I. repeat destruct I as [<-|I]; try (split; reflexivity). destruct I.
Qed.

Lemma class_ty : forall w, is_ty (class w) EOF = false /\ is_ty (class w) AMPERSAND = false /\ is_eof (class w) = false.
Proof. intros w. unfold class. destruct (_ && _); [auto|]. destruct (forallb _ _); auto. Qed.

(** ** One call of the lexer *)
Lemma lex_word_on : forall v x w r p s, on p [] v ((x :: w) ++ r) p s -> forallb word_char (x :: w) = true -> no_word r ->
  exists s' q v' rest', lex_word u END s = Some s' /\ step v p ((x :: w) ++ r) q v' rest' /\ q <> [] /\
    on (index (begun s')) q v' rest' (p + (length ((x :: w) ++ r) - length rest')) s' /\ length rest' < length ((x :: w) ++ r).
Proof.
  intros v x w r p s O W R. unfold lex_word.
  rewrite (on_remaining _ _ _ _ _ _ O). unfold is_ord_char, is_num_char. rewrite (on_c _ _ _ _ _ _ O). cbn [app].
  destruct (word_run (x :: w) (length (x :: w ++ r)) (ord_char x && negb (is_digit x)) (is_digit x) false 0 p [] v r p s O) as
    [(s' & E & Os)|(V & w1 & y & w2 & s' & o & n & a & E1 & E2 & E0 & E3 & Os)].
  - cbn. rewrite app_length. lia.
  - exact W.
  - exact R.
  - cbn [app] in E. rewrite E. clear E. cbn [Nat.add].
    pose proof (on_ty _ _ _ _ _ _ Os) as (Vs & Cs). rewrite Vs.
    set (t := if ord_char x && negb (is_digit x) && forallb ord_char (x :: w) && (length (x :: w) <=? 63) then ORDSYMBOL
              else if is_digit x && forallb is_digit (x :: w) then NUM else IDENTIFIER).
    assert (Ht : t = class (x :: w)).
    { unfold t, class. cbn [forallb]. destruct (ord_char x), (is_digit x), (forallb ord_char w), (forallb is_digit w); reflexivity. }
    assert (He : is_ty t EOF = false) by (rewrite Ht; apply class_ty).
    assert (Hl : p < p + length (x :: w)) by (cbn; lia).
    pose proof (on_create _ _ _ _ _ _ t Os Hl He) as Oc.
    pose proof (on_skip _ _ _ _ _ _ O) as Sk.
    rewrite (slice p (x :: w) r) in Oc by exact Sk. cbn [List.app] in Oc.
    replace (is_ty t AMPERSAND) with false in Oc by (rewrite Ht; symmetry; apply class_ty).
    set (s1 := create_token t false s') in *.
    pose proof (on_ty _ _ _ _ _ _ Oc) as (V1 & C1).
    rewrite (on_c _ _ _ _ _ _ Oc), C1.
    assert (Hn : length ((x :: w) ++ r) - length r = length (x :: w)) by (rewrite app_length; lia).
    assert (Hm : length r < length ((x :: w) ++ r)) by (rewrite app_length; cbn; lia).
    destruct (is 39%N match r with [] => None | x :: _ => Some x end && letter_attr (last w x) && negb v && (length (x :: w) =? 1)
              && (u || negb (col + (p + length (x :: w)) =? END))) eqn:B.
    + apply andb_true_iff in B as (B & B5). apply andb_true_iff in B as (B & B4). apply andb_true_iff in B as (B & B3). apply andb_true_iff in B as (B1 & B2).
      destruct w as [|y w]; [|discriminate B4]. destruct r as [|z r]; [discriminate B1|]. cbn [is] in B1. apply N.eqb_eq in B1. subst z.
      destruct v; [discriminate B3|]. cbn [last] in B2. cbn [app length] in *. replace (p + 1) with (S p) in * by lia.
      pose proof (on_consume _ _ _ _ _ _ _ (on_start _ _ _ _ _ _ Oc)) as O2.
      pose proof (on_create _ _ _ _ _ _ ATTR O2 (Nat.lt_succ_diag_r _) eq_refl) as O3.
      assert (Sk2 : firstn (S (S p) - S p) (skipn (S p) text) = [39%N]).
      { replace (S (S p) - S p) with 1 by lia. pose proof (on_skip _ _ _ _ _ _ Oc) as K. rewrite K. reflexivity. }
      rewrite Sk2 in O3. cbn [List.app] in O3.
      eexists. exists [Lx ORDSYMBOL [x] p (S p); Lx ATTR [39%N] (S p) (S (S p))], false, r.
      split; [reflexivity|]. split; [now apply s_attr|]. split; [discriminate|].
      split; [|cbn; lia]. replace (S (S (length r)) - length r) with 2 by lia. replace (p + 2) with (S (S p)) by lia.
      assert (Hc : class [x] = ORDSYMBOL) by (destruct (attr_words x B2) as (Q1 & Q2); unfold class; cbn; now rewrite Q1, Q2).
      rewrite Ht, Hc in O3. cbn [is_ty] in O3.
      assert (Hb : forall n s2, index (begun (with_attr n s2)) = index (begun s2)) by reflexivity. rewrite Hb.
      assert (Hb2 : index (begun (create_token ATTR false (consume (start_token s1)))) = S p) by (apply (on_begun _ _ _ _ _ _ O3)).
      rewrite Hb2. apply on_attr; [exact O3|].
      intros Q. rewrite !andb_true_iff in Q. destruct Q as ((((Q1 & Q2) & _) & _) & _).
      destruct Hfits as [->|F]; [discriminate Q1|]. apply Nat.eqb_eq in Q2.
      pose proof (on_ty _ _ _ _ _ _ O3) as (_ & C3). rewrite C3 in Q2. pose proof (on_len _ _ _ _ _ _ O3) as L3.
      destruct r; [reflexivity|]. cbn [length] in L3. unfold END in Q2. lia.
    + eexists. exists [Lx t (x :: w) p (p + length (x :: w))], false, r. split; [reflexivity|]. rewrite Ht. split.
      { change (x :: w ++ r) with ((x :: w) ++ r). apply s_word; [discriminate|exact W|exact R|].
        intros ->. cbn [negb] in B. rewrite andb_true_r in B.
        destruct (letter_attr (last w x)) eqn:L; [|left; intros (z & Ez & Lz); injection Ez as -> ->; cbn [last] in L; congruence].
        destruct w as [|y w]; [|left; intros (z & Ez & _); discriminate Ez].
        right. destruct r as [|z r]; [exact Logic.I|]. cbn [no_quote]. intros ->. cbn in B.
        apply orb_false_iff in B as (B1 & B2). destruct Hfits as [F|F]; [congruence|].
        apply negb_false_iff, Nat.eqb_eq in B2. pose proof (on_len _ _ _ _ _ _ O) as L0. cbn [app length] in L0. unfold END in B2. lia. }
      split; [discriminate|]. change (x :: w ++ r) with ((x :: w) ++ r). rewrite Hn. split; [|exact Hm].
      rewrite <- Ht.
      assert (Hb : forall n s2, index (begun (with_attr n s2)) = index (begun s2)) by reflexivity. rewrite Hb.
      assert (Hb2 : index (begun s1) = p) by (apply (on_begun _ _ _ _ _ _ Oc)). rewrite Hb2.
      apply on_attr; [exact Oc|].
      intros Q. rewrite !andb_true_iff in Q. destruct Q as ((((Q1 & Q2) & _) & _) & _).
      destruct Hfits as [->|F]; [discriminate Q1|]. apply Nat.eqb_eq in Q2. rewrite C1 in Q2.
      pose proof (on_len _ _ _ _ _ _ Oc) as L3. destruct r; [reflexivity|]. cbn [length] in L3, Q2. unfold END in Q2. lia.
  - cbn [app] in E3. rewrite E3. subst v. destruct w1 as [|x' w1]; [cbn in E2; lia|]. cbn [app] in E1. injection E1 as <- ->.
    assert (Hl : p < p + length (x :: w1)) by (cbn; lia).
    pose proof (on_create _ _ _ _ _ _ ORDSYMBOL Os Hl eq_refl) as Oc.
    rewrite (slice p (x :: w1) (y :: w2 ++ r)) in Oc.
    2:{ rewrite (on_skip _ _ _ _ _ _ O). cbn. now rewrite <- app_assoc. }
    eexists. exists [Lx ORDSYMBOL (x :: w1) p (p + length (x :: w1))], false, (y :: w2 ++ r). split; [reflexivity|].
    cbn [app]. rewrite <- app_assoc. cbn [app].
    cbn [forallb] in W. apply andb_true_iff in W as (W1 & W2). rewrite forallb_app in W2. apply andb_true_iff in W2 as (W2 & W3).
    cbn [forallb] in W3. apply andb_true_iff in W3 as (W3 & W4).
    split; [change (x :: w1 ++ y :: w2 ++ r) with ((x :: w1) ++ y :: w2 ++ r); apply s_cut; [discriminate|cbn; now rewrite W1, W2|exact W3|]|].
    { cbn [app forallb] in *. clear - E0. destruct (ord_char x), (is_digit x), (forallb ord_char (w1 ++ [y])); (discriminate || reflexivity). }
    split; [discriminate|].
    replace (length (x :: w1 ++ y :: w2 ++ r) - length (y :: w2 ++ r)) with (length (x :: w1)) by (cbn; rewrite app_length; cbn; lia).
    split; [|cbn [length]; rewrite !app_length; cbn [length]; rewrite app_length; lia]. cbn [List.app is_ty] in Oc.
    assert (Hb2 : index (begun (create_token ORDSYMBOL false s')) = p) by (apply (on_begun _ _ _ _ _ _ Oc)). rewrite Hb2. exact Oc.
Qed.

Lemma not_word : forall x, word_char x = false -> x = 32%N \/ x = 10%N \/ x = 13%N \/ x = 39%N \/ exists t, punctuation x = Some t.
Proof.
  intros x H. unfold word_char in H. apply andb_false_iff in H as [H|H].
  - apply negb_false_iff in H. apply orb_true_iff in H as [H|H]; [apply orb_true_iff in H as [H|H]|]; apply N.eqb_eq in H; auto.
  - apply negb_false_iff in H. unfold divider in H. apply existsb_exists in H as (y & I & E). apply N.eqb_eq in E. subst y.
    cbn in I. repeat (destruct I as [<-|I]; [now (right; right; right; right; eexists; reflexivity) || now (right; right; right; left)|]). destruct I.
Qed.
Lemma punct_ty : forall x t, punctuation x = Some t -> is_ty t EOF = false /\ x <> 32%N /\ x <> 39%N /\ x <> 13%N /\ x <> 10%N.
Proof.
  intros x t H.
  assert (K : divider x = true /\ x <> 39%N).
  { unfold punctuation in H. destruct x as [|x]; [discriminate|].
    repeat (match type of H with context[match ?x with _ => _ end] => destruct x; try discriminate H end; cbn in H);
    try (injection H as <-); split; try discriminate; reflexivity. }
  destruct K as (K & K2). split.
  - unfold punctuation in H. destruct x as [|x]; [discriminate|].
    repeat (match type of H with context[match ?x with _ => _ end] => destruct x; try discriminate H end; cbn in H);
    injection H as <-; reflexivity.
  - repeat split; try exact K2; intros ->; discriminate K.
Qed.

Lemma lex_on : forall b v rest p s, on b [] v rest p s -> rest <> [] ->
  exists s' q v' rest', lex wide u s = Some s' /\ step v p rest q v' rest' /\ q <> [] /\
    on (index (begun s')) q v' rest' (p + (length rest - length rest')) s' /\ length rest' < length rest.
Proof.
  intros b v rest p s O N. unfold lex.
  pose proof (on_start _ _ _ _ _ _ (on_switch _ _ _ _ _ _ O)) as O1. set (s1 := start_token (switch_input_streams s)) in *.
  rewrite (on_eof _ _ _ _ _ _ O1). destruct rest as [|x r]; [congruence|]. clear N.
  pose proof (on_ty _ _ _ _ _ _ O1) as (V1 & C1). rewrite C1. pose proof (on_c _ _ _ _ _ _ O1) as Cc. rewrite Cc.
  pose proof (on_line _ _ _ _ _ _ _ O1) as (N1 & N2). cbn [is]. unfold CR, LF.
  replace (13 =? x)%N with false by lia. replace (10 =? x)%N with false by lia. cbn [orb andb]. rewrite andb_false_r. cbn [orb].
  pose proof (on_len _ _ _ _ _ _ O1) as L1. cbn [length] in L1.
  assert (F1 : negb u && (col + p =? END) = false).
  { destruct Hfits as [->|F]; [reflexivity|]. unfold END. replace (col + p =? 71) with false by lia. apply andb_false_r. }
  rewrite F1. cbn [andb].
  assert (F2 : negb u && (END <=? col + p) = false).
  { destruct Hfits as [->|F]; [reflexivity|]. unfold END. replace (71 <=? col + p) with false by lia. apply andb_false_r. }
  rewrite F2. unfold lex_tokens. rewrite C1. replace (col + p =? 0) with false by lia.
  unfold lex_token. rewrite Cc. unfold BLANK, CR, LF.
  assert (B1 : index (begun s1) = p) by (apply (on_begun _ _ _ _ _ _ O1)).
  destruct (x =? 32)%N eqn:X32; [apply N.eqb_eq in X32; subst x|apply N.eqb_neq in X32].
  { unfold lex_space. destruct (split_blank (32%N :: r)) as (k & t & E & A). destruct k as [|k]; [cbn in E; rewrite <- E in A; cbn in A; congruence|].
    cbn [repeat app] in E. injection E as E. subst r. change (@cons char 32%N (@repeat char 32%N k ++ t)) with (@repeat char 32%N (S k) ++ t) in *.
    destruct (loop_run (fun s0 : lexer => is BLANK (c s0) && before_end u END s0 && negb (eof s0)) (@repeat char 32%N (S k)) (remaining (current s1)) p [] v t p s1 O1) as (s2 & L & O2).
    - rewrite (on_remaining _ _ _ _ _ _ O1), app_length. lia.
    - intros y w' p' s' H I. apply repeat_spec in I. subst y. rewrite (on_before _ _ _ _ _ _ _ H), (on_c _ _ _ _ _ _ H), (on_eof _ _ _ _ _ _ H). reflexivity.
    - intros p' s' H. rewrite (on_c _ _ _ _ _ _ H). destruct t as [|y t]; [reflexivity|]. cbn [no_blank is] in A |- *.
      unfold BLANK. now replace (32 =? y)%N with false by lia.
    - unfold while. rewrite L. rewrite repeat_length in O2.
      pose proof (on_create _ _ _ _ _ _ SPACE O2 ltac:(lia) eq_refl) as O3.
      assert (K : firstn (p + S k - p) (skipn p text) = @repeat char 32%N (S k)).
      { pose proof (slice p (@repeat char 32%N (S k)) t (on_skip _ _ _ _ _ _ O1)) as K. now rewrite repeat_length in K. }
      rewrite K in O3. eexists. exists [Lx SPACE (@repeat char 32%N (S k)) p (p + S k)], false, t. split; [reflexivity|].
      split; [now apply s_blank|]. split; [discriminate|].
      replace (length (@repeat char 32%N (S k) ++ t) - length t) with (S k) by (rewrite app_length, repeat_length; lia).
      split; [|rewrite app_length, repeat_length; lia].
      assert (Hb2 : index (begun (create_token SPACE false s2)) = p) by (apply (on_begun _ _ _ _ _ _ O3)). rewrite Hb2. exact O3. }
  destruct (x =? 39)%N eqn:X39; [apply N.eqb_eq in X39; subst x|apply N.eqb_neq in X39].
  { pose proof (on_consume _ _ _ _ _ _ _ O1) as O2.
    assert (Ha : attr_ref (consume s1) = false).
    { assert (Ka : attr_ref s1 = false) by (open O1; destruct (attr_ref s1); [now (assert (K : 39%N :: r = []) by auto; discriminate K)|reflexivity]).
      unfold consume. rewrite Cc. unfold with_current. cbn. exact Ka. }
    rewrite Ha.
    pose proof (on_create _ _ _ _ _ _ APOSTROPHE (on_apos _ _ _ _ _ (S (apostrophes (consume s1))) _ O2) (Nat.lt_succ_diag_r _) eq_refl) as O3.
    replace (firstn (S p - p) (skipn p text)) with [39%N] in O3.
    2:{ rewrite (on_skip _ _ _ _ _ _ O1). now replace (S p - p) with 1 by lia. }
    eexists. exists [Lx APOSTROPHE [39%N] p (S p)], false, r. split; [reflexivity|]. split; [apply s_quote|]. split; [discriminate|].
    cbn [length]. replace (S (length r) - length r) with 1 by lia. replace (p + 1) with (S p) by lia. split; [|lia].
    match goal with |- on (index (begun ?S)) _ _ _ _ _ => assert (Hb2 : index (begun S) = p) by (apply (on_begun _ _ _ _ _ _ O3)) end. rewrite Hb2. exact O3. }
  replace (x =? 13)%N with false by lia. replace (x =? 10)%N with false by lia.
  destruct (punctuation x) as [t|] eqn:Px.
  { destruct (punct_ty x t Px) as (Te & _).
    pose proof (on_create _ _ _ _ _ _ t (on_consume _ _ _ _ _ _ _ O1) (Nat.lt_succ_diag_r _) Te) as O3.
    replace (firstn (S p - p) (skipn p text)) with [x] in O3.
    2:{ rewrite (on_skip _ _ _ _ _ _ O1). now replace (S p - p) with 1 by lia. }
    eexists. exists [Lx t [x] p (S p)], (is_ty t AMPERSAND), r. split; [reflexivity|]. split; [now apply s_mark|]. split; [discriminate|].
    cbn [length]. replace (S (length r) - length r) with 1 by lia. replace (p + 1) with (S p) by lia. split; [|lia].
    match goal with |- on (index (begun ?S)) _ _ _ _ _ => assert (Hb2 : index (begun S) = p) by (apply (on_begun _ _ _ _ _ _ O3)) end. rewrite Hb2. exact O3. }
  destruct (split_word (x :: r)) as (w & t & E & A & Nw).
  destruct w as [|x' w].
  { cbn in E. subst t. cbn in Nw. apply not_word in Nw. destruct Nw as [?|[?|[?|[?|(t & ?)]]]]; congruence. }
  cbn [app] in E. injection E as <- ->. change (x :: w ++ t) with ((x :: w) ++ t) in *.
  apply lex_word_on; assumption.
Qed.

(** ** All tokens *)
Lemma pop : forall b t q v rest p s, on b (t :: q) v rest p s ->
  exists k, next_token wide u 1 s = Some (k, with_queue (tl (queue s)) s) /\ seen text k = t /\ hidden k = false /\
    on b q v rest p (with_queue (tl (queue s)) s).
Proof.
  intros. open H. destruct (queue s) as [|k l] eqn:Q; [discriminate|]. cbn [map] in *. exists k. unfold next_token. rewrite Q. cbn [tl].
  match goal with E : _ :: _ = _ :: _ |- _ => injection E as E1 E2 end.
  match goal with E : Forall _ (_ :: _) |- _ => inversion E; subst end.
  repeat split; auto.
Qed.
Lemma tokens_queue : forall q b v rest p s n, on b q v rest p s -> Forall (fun t => is_eof (lt t) = false) q ->
  exists s', on b [] v rest p s' /\
    tokens (length q + n) wide u text s = match tokens n wide u text s' with Some ts => Some (q ++ ts) | None => None end.
Proof.
  induction q as [|t q IH]; intros b v rest p s n O F.
  - exists s. split; [exact O|]. cbn. now destruct (tokens n wide u text s).
  - destruct (pop _ _ _ _ _ _ _ O) as (k & E & Sk & Hk & O').
    inversion F; subst. destruct (IH b v rest p _ n O' H2) as (s' & O2 & E2). exists s'. split; [exact O2|].
    cbn [length Nat.add tokens]. rewrite E. change (ty k) with (lt (seen text k)). rewrite H1, E2, Hk.
    now destruct (tokens n wide u text s').
Qed.
Lemma step_eof : forall v p rest q v' rest', step v p rest q v' rest' -> Forall (fun t => is_eof (lt t) = false) q.
Proof.
  intros. inversion H; subst; repeat constructor; cbn.
  - match goal with K : punctuation _ = Some _ |- _ => destruct (punct_ty _ _ K) as (T & _) end. destruct t; cbn in *; congruence.
  - apply class_ty.
Qed.
Lemma step_size : forall v p rest q v' rest', step v p rest q v' rest' -> length q <= length rest - length rest'.
Proof.
  intros. inversion H; subst; cbn [length app].
  - lia.
  - lia.
  - rewrite app_length, repeat_length. lia.
  - rewrite app_length. destruct w; [congruence|]. cbn [length]. lia.
  - lia.
  - rewrite app_length. destruct w; [congruence|]. cbn [length]. lia.
Qed.
Lemma on_q0 : forall b v rest p s, on b [] v rest p s -> queue s = [] /\ from_buffer s = false /\ index (file s) = p.
Proof. intros. open H. destruct (queue s); [auto|discriminate]. Qed.
Lemma tokens_end : forall n b v p s, on b [] v [] p s -> tokens (S (S n)) wide u text s = Some [Lx EOLLN [] p p].
Proof.
  intros n b v p s O. cbn [tokens next_token]. destruct (on_q0 _ _ _ _ _ O) as (Qs & _). rewrite Qs.
  unfold lex. pose proof (on_start _ _ _ _ _ _ (on_switch _ _ _ _ _ _ O)) as O1. set (s1 := start_token (switch_input_streams s)) in *.
  rewrite (on_eof _ _ _ _ _ _ O1). destruct (on_q0 _ _ _ _ _ O1) as (Q1 & F1 & I1). pose proof (on_begun _ _ _ _ _ _ O1) as G1.
  set (s2 := create_token EOF false (create_token EOLLN false s1)).
  assert (Q2 : exists a b, queue s2 = [a; b] /\ seen text a = Lx EOLLN [] p p /\ hidden a = false /\ ty b = EOF).
  { unfold s2, create_token. cbn [is_ty orb negb andb]. rewrite !andb_false_r. cbn [queue]. rewrite Q1.
    eexists. eexists. split; [reflexivity|]. split; [|split; reflexivity]. unfold seen. cbn [ty start stop begun].
    unfold current. cbn [from_buffer file buffer]. rewrite F1, G1, I1, Nat.sub_diag. reflexivity. }
  destruct Q2 as (x & y & Q2 & Sx & Hx & Ty). rewrite Q2.
  change (ty x) with (lt (seen text x)). rewrite Sx. cbn [lt is_eof with_queue queue]. rewrite Ty, Hx. reflexivity.
Qed.

Theorem tokens_on : forall n b v rest p s, on b [] v rest p s -> length rest + 2 <= n ->
  exists ts, tokens n wide u text s = Some ts /\ Toks v p rest ts.
Proof.
  induction n as [n IH] using lt_wf_ind. intros b v rest p s O L. destruct rest as [|x r].
  - destruct n as [|[|n]]; cbn in L; try lia. exists [Lx EOLLN [] p p]. split; [eapply tokens_end; exact O|constructor].
  - destruct (lex_on _ _ _ _ _ O ltac:(discriminate)) as (s' & q & v' & rest' & E & St & Nq & O' & Ls).
    pose proof (step_size _ _ _ _ _ _ St) as Sz. pose proof (step_eof _ _ _ _ _ _ St) as Se.
    set (p' := p + (length (x :: r) - length rest')) in *.
    assert (Lq : 0 < length q) by (destruct q; [congruence|cbn; lia]).
    assert (Hq : n = length q + (n - length q)) by lia.
    destruct (tokens_queue q _ _ _ _ s' (n - length q) O' Se) as (s2 & O2 & Z). rewrite <- Hq in Z.
    destruct (IH (n - length q) ltac:(lia) _ _ _ _ _ O2 ltac:(lia)) as (ts & T1 & T2). rewrite T1 in Z.
    exists (q ++ ts). split; [|eapply T_step; [exact St|exact T2]].
    rewrite <- Z. destruct n as [|n]; [lia|]. cbn [tokens].
    destruct (on_q0 _ _ _ _ _ O) as (Qs & _).
    cbn [next_token]. rewrite Qs, E.
    destruct (queue s') as [|k l] eqn:Qs'; [|reflexivity].
    clear -O' Qs' Nq. open O'. rewrite Qs' in *. cbn in *. congruence.
Qed.
End Field.
