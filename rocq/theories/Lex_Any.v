(** What holds whatever was lexed, read and inserted. *)
From Coq Require Import List NArith Bool Arith Lia ZifyBool ZifyNat ZifyN.
From Verif Require Import Common Lex_Model Lex_Spec Lex_Proof Lex_Insert.
Import ListNotations.

(** ** What all parts of the lexer keep *)
Section Keeps.
Variable wide_space : char -> bool.
Variable unlimited : bool.
Variable P : lexer -> Prop.
Hypothesis Consume : forall s, P s -> P (consume s).
Hypothesis Start : forall s, P s -> P (start_token s).
Hypothesis Create : forall t h s, P s -> P (create_token t h s).
Hypothesis Attr : forall b s, P s -> P (with_attr b s).
Hypothesis Apostrophes : forall n s, P s -> P (with_apostrophes n s).
Hypothesis Last : forall n s, P s -> P (with_last_line_pos n s).
Set Default Proof Using "All".

Lemma loop_keeps : forall n cond s s', loop n cond s = Some s' -> P s -> P s'.
Proof.
  induction n as [|n IH]; intros cond s s' H X; cbn in H; destruct (cond s).
  - discriminate.
  - now injection H as <-.
  - eapply IH; [exact H|]. now apply Consume.
  - now injection H as <-.
Qed.
Lemma while_keeps : forall cond s s', while cond s = Some s' -> P s -> P s'.
Proof. intros. eapply loop_keeps; eassumption. Qed.
Ltac opened H s1 W := match type of H with match ?x with _ => _ end = _ => destruct x as [s1|] eqn:W; [|discriminate] end.
Lemma lex_end_keeps : forall e s s', lex_end e s = Some s' -> P s -> P s'.
Proof.
  intros e s s' H X. unfold lex_end in H. opened H s1 W. apply while_keeps in W; [|now apply Start].
  injection H as <-. apply Create. destruct (eof s1); [exact W|]. destruct e; [apply Create|]; apply Consume, Last, W.
Qed.
Lemma lex_continuation_keeps : forall s s', lex_continuation s = Some s' -> P s -> P s'.
Proof.
  intros s s' H X. unfold lex_continuation, lex_begin in H. opened H s1 W1. opened H s2 W2. opened H s3 W3. injection H as <-.
  apply while_keeps in W1; [|now apply Start]. apply lex_end_keeps in W2; [|now apply Create]. apply while_keeps in W3; [now apply Create|]. now apply Start, Create, Start.
Qed.
Lemma lex_comment_keeps : forall n s s', lex_comment wide_space n s = Some s' -> P s -> P s'.
Proof.
  induction n as [|n IH]; intros s s' H X; cbn [lex_comment] in H; opened H s1 W1; apply while_keeps in W1; auto; destruct (_ && _) in H.
  - discriminate.
  - eapply lex_end_keeps; [exact H|auto].
  - opened H s2 W2. eapply IH; [exact H|]. eapply lex_continuation_keeps; [exact W2|auto].
  - eapply lex_end_keeps; [exact H|auto].
Qed.
Lemma lex_space_keeps : forall e s s', lex_space unlimited e s = Some s' -> P s -> P s'.
Proof. intros e s s' H X. unfold lex_space in H. opened H s1 W. injection H as <-. apply Create. eapply while_keeps; eassumption. Qed.
Lemma word_keeps : forall n e o m a l s s' o' m' a' l' r, word unlimited n e o m a l s = Some (s', o', m', a', l', r) -> P s -> P s'.
Proof.
  induction n as [|n IH]; intros e o m a l s s' o' m' a' l' r H X; cbn [word] in H; destruct (_ && before_end _ _ _) in H.
  - destruct (_ && (l <=? 63)) in H; [|discriminate]. injection H as <- _ _ _ _ _. auto.
  - injection H as <- _ _ _ _ _. auto.
  - destruct (_ && (l <=? 63)) in H; [injection H as <- _ _ _ _ _; auto|]. eapply IH; [exact H|auto].
  - injection H as <- _ _ _ _ _. auto.
Qed.
Lemma lex_word_keeps : forall e s s', lex_word unlimited e s = Some s' -> P s -> P s'.
Proof.
  intros e s s' H X. unfold lex_word in H. destruct (word _ _ _ _ _ _ _ _) as [[[[[[s1 o] m] a] l] r]|] eqn:W; [|discriminate].
  apply word_keeps in W; [|exact X]. destruct r; [now injection H as <-|]. injection H as <-. apply Attr.
  match goal with |- context [if ?x then _ else _] => destruct x end; [now apply Create, Consume, Start, Create|now apply Create].
Qed.
Lemma lex_token_keeps : forall e s s', lex_token unlimited e s = Some s' -> P s -> P s'.
Proof.
  intros e s s' H X. unfold lex_token in H. destruct (c s) as [x|]; [|eapply lex_word_keeps; eassumption].
  destruct (x =? BLANK)%N; [eapply lex_space_keeps; eassumption|].
  destruct (x =? 39)%N. { injection H as <-. destruct (attr_ref _); apply Create; auto. }
  destruct (x =? CR)%N. { injection H as <-. apply Create. destruct (is LF _); auto. }
  destruct (x =? LF)%N. { injection H as <-. auto. }
  destruct (punctuation x); [injection H as <-; auto|eapply lex_word_keeps; eassumption].
Qed.
Lemma process_tokens_keeps : forall n s s', process_tokens unlimited n s = Some s' -> P s -> P s'.
Proof.
  induction n as [|n IH]; intros s s' H X; cbn [process_tokens] in H; destruct (_ && (_ || _)) in H; try discriminate; try (now injection H as <-).
  opened H s1 W. eapply IH; [exact H|]. eapply lex_token_keeps; [exact W|auto].
Qed.
Lemma iter_keeps : forall n s, P s -> P (Nat.iter n consume s).
Proof. induction n as [|n IH]; intros s X; [exact X|]. exact (Consume _ (IH s X)). Qed.
Lemma options_keeps : forall s s', process_options unlimited s = Some s' -> P s -> P s'.
Proof.
  intros s s' H X. unfold process_options in H. opened H s1 W1. opened H s2 W2. eapply lex_end_keeps; [exact H|].
  eapply process_tokens_keeps; [exact W2|]. apply Apostrophes. eapply lex_space_keeps; [exact W1|]. now apply Start.
Qed.
Strategy 10 [process_options].
Lemma lex_process_keeps : forall s s', lex_process unlimited s = Some s' -> P s -> P s'.
Proof. intros s s' H X. unfold lex_process in H. eapply options_keeps; [exact H|]. apply Create, iter_keeps, Start, X. Qed.
Lemma lex_tokens_keeps : forall s s', lex_tokens wide_space unlimited s = Some s' -> P s -> P s'.
Proof.
  intros s s' H X. unfold lex_tokens in H. destruct (_ =? 0); [|eapply lex_token_keeps; eassumption].
  destruct (is 42%N (c s)); [destruct (is_process s); [eapply lex_process_keeps|eapply lex_comment_keeps]; eassumption|].
  destruct (_ && _); [eapply lex_comment_keeps; eassumption|eapply lex_token_keeps; eassumption].
Qed.
Lemma lex_keeps : forall s s', lex wide_space unlimited s = Some s' -> P (start_token (switch_input_streams s)) -> P s'.
Proof.
  intros s s' H X. unfold lex in H. cbv zeta in H. destruct (eof _); [injection H as <-; auto|].
  match type of H with (if ?b then _ else _) = _ => destruct b end; [eapply lex_continuation_keeps; eassumption|].
  match type of H with (if ?b then _ else _) = _ => destruct b end; [eapply lex_end_keeps; eassumption|eapply lex_tokens_keeps; eassumption].
Qed.
End Keeps.

(** ** Positions in both streams *)
Definition placed (i : input) : Prop := index i <= length (data i) /\ column i = column_of (data i) (index i).
Definition sound (s : lexer) : Prop := placed (file s) /\ placed (buffer s).
Lemma advance_placed : forall i x, LA 1 i = Some x -> placed i -> placed (advance i).
Proof.
  intros i x H (L & C). unfold LA in H. replace (index i + (1 - 1)) with (index i) in H by lia.
  assert (index i < length (data i)) by (apply nth_error_Some; congruence). unfold advance, LA.
  replace (index i + (1 - 1)) with (index i) by lia. rewrite H. cbn [is]. unfold placed.
  rewrite N.eqb_sym. destruct (x =? LF)%N eqn:X; cbn [index data column]; rewrite (column_of_S _ _ _ H), X; lia.
Qed.
Lemma consume_sound : forall s, sound s -> sound (consume s).
Proof.
  intros s (F & B). unfold consume. destruct (c s) as [x|] eqn:C; [|split; assumption]. unfold c, current in C.
  unfold sound, with_current, current. cbn. destruct (from_buffer s); split; auto; eapply advance_placed; eassumption.
Qed.
Lemma sound_same : forall s s', file s' = file s -> buffer s' = buffer s -> sound s -> sound s'.
Proof. intros s s' F B. unfold sound. now rewrite F, B. Qed.
Lemma create_sound : forall t h s, sound s -> sound (create_token t h s).
Proof. intros t h s. destruct (create_kept t h s) as (F & B & _). now apply sound_same. Qed.
Lemma column_app : forall d e k, k <= length d -> column_of (d ++ e) k = column_of d k.
Proof. intros d e k L. unfold column_of. rewrite firstn_app. replace (k - length d) with 0 by lia. now rewrite firstn_O, app_nil_r. Qed.
Lemma switch_sound : forall s, sound s -> sound (switch_input_streams s).
Proof.
  intros s (F & B). unfold switch_input_streams. destruct (LA 1 (buffer s)); [split; assumption|].
  destruct (pending s) as [|f p]; [split; assumption|].
  match goal with |- context [LA 1 ?b] => assert (Pb : placed b) end.
  { destruct B as (L & C). split; cbn; [rewrite app_length; lia|]. rewrite column_app; assumption. }
  destruct (LA 1 _); split; assumption.
Qed.
Lemma lex_sound : forall w u s s', lex w u s = Some s' -> sound s -> sound s'.
Proof.
  intros w u s s' H X. apply (lex_keeps w u sound consume_sound (fun _ h => h) create_sound (fun _ _ h => h) (fun _ _ h => h) (fun _ _ h => h) s s' H).
  exact (switch_sound s X).
Qed.
Lemma next_sound : forall w u n s t s', next_token w u n s = Some (t, s') -> sound s -> sound s'.
Proof.
  induction n as [|n IH]; intros s t s' H X; cbn in H; destruct (queue s) as [|v q]; try discriminate; try (injection H as _ <-; exact X).
  destruct (lex w u s) as [s1|] eqn:W; [|discriminate]. eapply IH; [exact H|]. eapply lex_sound; eassumption.
Qed.
Lemma column_line : forall d k, k <= length d -> column_of d k <= k /\ column_of d (k - column_of d k) = 0.
Proof.
  intros d. induction k as [|k IH]; intros L; [now cbn|].
  destruct (nth_error d k) as [x|] eqn:E; [|apply nth_error_None in E; lia]. rewrite (column_of_S _ _ _ E).
  destruct (IH ltac:(lia)) as [A B]. destruct (x =? LF)%N eqn:X.
  - split; [lia|]. replace (S k - 0) with (S k) by lia. rewrite (column_of_S _ _ _ E), X. reflexivity.
  - split; [lia|]. replace (S k - S (column_of d k)) with (k - column_of d k) by lia. exact B.
Qed.
Lemma at_index_placed : forall i l, placed i -> placed (at_index (index i - column i) l i).
Proof. intros i l (L & C). unfold placed. cbn. destruct (column_line (data i) (index i) L) as [A B]. rewrite C, B. split; [lia|reflexivity]. Qed.
Lemma column_pos : forall i, placed i -> column i <> 0 -> index i - column i < length (data i).
Proof. intros i (L & C) N. destruct (column_line (data i) (index i) L). lia. Qed.
Lemma rewind_line_sound : forall s, sound s -> sound (rewind_line s).
Proof.
  intros s (F & B). unfold rewind_line. destruct (column (file s) =? 0) eqn:E; [split; assumption|].
  pose proof (column_pos _ F ltac:(lia)). unfold rewind_input. replace (length (data (file s)) <=? index (file s) - column (file s)) with false by lia.
  split; cbn; [now apply at_index_placed|exact B].
Qed.
Lemma rewind_record_sound : forall s, sound s -> sound (rewind_record s).
Proof.
  intros s (F & B). unfold rewind_record. destruct (_ && _); [|split; assumption]. split; cbn; [exact F|now apply at_index_placed].
Qed.
Lemma read_line_sound : forall n s l s', read_line n s = (l, s') -> sound s -> sound s'.
Proof.
  induction n as [|n IH]; intros s l s' H X; cbn in H; destruct (c s) as [x|]; try (injection H as _ <-; exact X).
  destruct (_ || _); [injection H as _ <-; exact X|]. destruct (read_line n (consume s)) as [l1 s1] eqn:R. injection H as _ <-.
  eapply IH; [exact R|]. now apply consume_sound.
Qed.
Lemma new_line_sound : forall s, sound s -> sound (consume_new_line s).
Proof. intros s X. unfold consume_new_line. destruct (is CR (c s)); destruct (is LF _); auto using consume_sound. Qed.
Lemma aread_sound : forall s, sound s -> sound (snd (aread s)).
Proof.
  intros s X. unfold aread. apply switch_sound in X. destruct (eof _); [exact X|].
  destruct (read_line _ _) as [l s1] eqn:R. apply read_line_sound in R.
  - cbn [snd]. apply new_line_sound in R. destruct (eof _); [now apply create_sound|exact R].
  - now apply rewind_record_sound, rewind_line_sound.
Qed.
Lemma ainsert_sound : forall f r s s', ainsert f r s = Some s' -> sound s -> sound s'.
Proof.
  intros f r s s' H X. unfold ainsert in H. destruct r as [|x r]; [discriminate|]. injection H as <-.
  match goal with |- context [rewind_line ?z] => assert (Z : sound z) by (destruct X; split; assumption) end.
  apply rewind_line_sound in Z. destruct Z. split; assumption.
Qed.

(** ** Tokens taken, records inserted and lines read in any order *)
Section Mixed.
Variable wide_space : char -> bool.
Variable unlimited : bool.
Lemma runs_sound : forall text s, runs wide_space unlimited text s -> sound s.
Proof.
  intros text s H. induction H as [|s n t s' H IH N|s f r s' H IH N|s H IH].
  - split; split; cbn; auto; lia.
  - eapply next_sound; eassumption.
  - eapply ainsert_sound; eassumption.
  - now apply aread_sound.
Qed.
End Mixed.

(** AREAD gives a whole line. *)
Lemma read_until : forall n s, remaining (current s) <= n -> fst (read_line n s) = until_end (skipn (index (current s)) (data (current s))).
Proof.
  induction n as [|n IH]; intros s L; cbn [read_line].
  - unfold remaining in L. rewrite skipn_all2 by lia. destruct (c s); reflexivity.
  - destruct (skipn (index (current s)) (data (current s))) as [|x rest] eqn:E.
    + assert (C : c s = None). { unfold c, LA. apply nth_error_None. pose proof (skipn_length (index (current s)) (data (current s))) as Z. rewrite E in Z. cbn in Z. lia. }
      rewrite C. reflexivity.
    + destruct (current_consume s x rest E) as (C & _ & D & Ix & _ & Sk). rewrite C. cbn [until_end].
      destruct ((x =? CR)%N || (x =? LF)%N); [reflexivity|].
      destruct (read_line n (consume s)) as [l s1] eqn:R. cbn [fst]. f_equal. rewrite <- Sk.
      rewrite <- IH; [rewrite R; reflexivity|]. unfold remaining in *. rewrite D, Ix. lia.
Qed.
Lemma aread_line : forall s, sound s -> let s1 := switch_input_streams s in eof s1 = false ->
  fst (aread s) = visible_line (until_end (skipn (index (current s1) - column_of (data (current s1)) (index (current s1))) (data (current s1)))).
Proof.
  intros s X s1 E. unfold aread. fold s1. rewrite E. assert (X1 : sound s1) by now apply switch_sound.
  assert (G : data (current (rewind_record (rewind_line s1))) = data (current s1) /\
              index (current (rewind_record (rewind_line s1))) = index (current s1) - column_of (data (current s1)) (index (current s1))).
  { destruct X1 as (F & B). unfold rewind_line. destruct (column (file s1) =? 0) eqn:C1.
    - unfold rewind_record. destruct (from_buffer s1) eqn:Fb; cbn [andb negb].
      + destruct (column (buffer s1) =? 0) eqn:C2; cbn [negb]; unfold current; cbn; rewrite Fb.
        * split; [reflexivity|]. destruct B as (_ & B). lia.
        * cbn. destruct B as (_ & B). rewrite B. auto.
      + unfold current. rewrite Fb. split; [reflexivity|]. destruct F as (_ & F). lia.
    - pose proof (column_pos _ F ltac:(lia)). unfold rewind_input. replace (length (data (file s1)) <=? index (file s1) - column (file s1)) with false by lia.
      unfold rewind_record. cbn [from_buffer buffer with_input]. destruct (from_buffer s1) eqn:Fb; cbn [andb negb].
      + destruct (column (buffer s1) =? 0) eqn:C2; cbn [negb]; unfold current; cbn; rewrite Fb.
        * split; [reflexivity|]. destruct B as (_ & B). lia.
        * cbn. destruct B as (_ & B). rewrite B. auto.
      + unfold current. cbn. rewrite Fb. cbn. destruct F as (_ & F). rewrite F. auto. }
  destruct G as [G1 G2]. set (s2 := rewind_record (rewind_line s1)) in *. clearbody s2.
  change (current (start_token s2)) with (current s2).
  assert (R : fst (read_line (remaining (current s2)) (start_token s2)) = until_end (skipn (index (current s2)) (data (current s2)))) by (apply (read_until _ (start_token s2)); reflexivity).
  destruct (read_line _ _) as [l s3]. cbn [fst] in R. rewrite G1, G2 in R. rewrite <- R. cbn [fst]. destruct l; reflexivity.
Qed.

(** ** Records first *)
Definition of_stream (b : bool) (s : lexer) : Prop :=
  from_buffer s = b /\ begun_buffer s = b /\ Forall (fun t => of_buffer t = b) (queue s).
Lemma create_stream : forall b t h s, of_stream b s -> of_stream b (create_token t h s).
Proof.
  intros b t h s (A & B & C). unfold create_token. cbv zeta. destruct (_ && _ && _); unfold of_stream; cbn; split; auto; split; auto.
  apply Forall_app. split; [exact C|]. constructor; [exact B|constructor].
Qed.
Lemma consume_stream : forall b s, of_stream b s -> of_stream b (consume s).
Proof. intros b s X. unfold consume. destruct (c s); exact X. Qed.
Lemma start_stream : forall b s, of_stream b s -> of_stream b (start_token s).
Proof. intros b s (A & B & C). unfold of_stream. cbn. auto. Qed.
Lemma lex_stream : forall w u s s', lex w u s = Some s' -> queue s = [] -> of_stream (from_buffer (switch_input_streams s)) s'.
Proof.
  intros w u s s' H Q. set (b := from_buffer (switch_input_streams s)).
  apply (lex_keeps w u (of_stream b) (consume_stream b) (start_stream b) (create_stream b) (fun _ _ h => h) (fun _ _ h => h) (fun _ _ h => h) s s' H).
  unfold of_stream. cbn. split; auto. split; auto. replace (queue (switch_input_streams s)) with (@nil token); [constructor|].
  unfold switch_input_streams. destruct (LA 1 (buffer s)); [auto|]. destruct (pending s); [auto|]. destruct (LA 1 _); auto.
Qed.

(** The record stream is left at its end only. *)
Definition served (s : lexer) : Prop :=
  Forall (fun r => r <> []) (pending s) /\ (from_buffer s = false -> length (data (buffer s)) <= index (buffer s)).
Lemma served_same : forall s s', buffer s' = buffer s -> pending s' = pending s -> from_buffer s' = from_buffer s -> served s -> served s'.
Proof. intros s s' B P F. unfold served. now rewrite B, P, F. Qed.
Lemma consume_served : forall s, served s -> served (consume s).
Proof.
  intros s (A & B). unfold consume. destruct (c s); [|split; assumption]. unfold served, with_current. cbn. split; [exact A|].
  intros F. rewrite F. now apply B.
Qed.
Lemma create_served : forall t h s, served s -> served (create_token t h s).
Proof.
  intros t h s. destruct (create_kept t h s) as (_ & B & P). apply served_same; auto.
  unfold create_token. cbv zeta. destruct (_ && _ && _); reflexivity.
Qed.
Lemma switch_served : forall s, served s -> served (switch_input_streams s).
Proof.
  intros s (A & B). unfold switch_input_streams. unfold LA at 1. destruct (nth_error _ _) eqn:E; [split; assumption|].
  apply nth_error_None in E. destruct (pending s) as [|f p] eqn:P.
  - split; cbn; [constructor|]. intros _. lia.
  - apply Forall_inv_tail in A. unfold LA. destruct (nth_error _ _) eqn:E2; split; cbn; auto; [discriminate|]. apply nth_error_None in E2. cbn in E2. intros _. lia.
Qed.
Lemma next_served : forall w u n s t s', next_token w u n s = Some (t, s') -> served s -> served s'.
Proof.
  induction n as [|n IH]; intros s t s' H X; cbn in H; destruct (queue s) as [|v q]; try discriminate; try (injection H as _ <-; exact X).
  destruct (lex w u s) as [s1|] eqn:W; [|discriminate]. eapply IH; [exact H|].
  apply (lex_keeps w u served consume_served (fun _ h => h) create_served (fun _ _ h => h) (fun _ _ h => h) (fun _ _ h => h) s s1 W).
  exact (switch_served s X).
Qed.
Lemma rewind_line_served : forall s, served s -> served (rewind_line s).
Proof. intros s X. unfold rewind_line. destruct (_ =? 0); exact X. Qed.
Lemma rewind_record_served : forall s, served s -> served (rewind_record s).
Proof.
  intros s X. unfold rewind_record. destruct (from_buffer s) eqn:F; [|exact X]. cbn [andb]. destruct (negb _); [|exact X]. destruct X as (A & B).
  split; cbn; [exact A|]. congruence.
Qed.
Lemma read_line_served : forall n s l s', read_line n s = (l, s') -> served s -> served s'.
Proof.
  induction n as [|n IH]; intros s l s' H X; cbn in H; destruct (c s) as [x|]; try (injection H as _ <-; exact X).
  destruct (_ || _); [injection H as _ <-; exact X|]. destruct (read_line n (consume s)) as [l1 s1] eqn:R. injection H as _ <-.
  eapply IH; [exact R|]. now apply consume_served.
Qed.
Lemma aread_served : forall s, served s -> served (snd (aread s)).
Proof.
  intros s X. unfold aread. apply switch_served in X. destruct (eof _); [exact X|].
  destruct (read_line _ _) as [l s1] eqn:R. apply read_line_served in R.
  - cbn [snd]. assert (N : served (consume_new_line s1)) by (unfold consume_new_line; destruct (is CR (c s1)); destruct (is LF _); auto using consume_served).
    destruct (eof _); [now apply create_served|exact N].
  - now apply rewind_record_served, rewind_line_served.
Qed.
Lemma ainsert_served : forall f r s s', ainsert f r s = Some s' -> served s -> served s'.
Proof.
  intros f r s s' H X. unfold ainsert in H. destruct r as [|x r]; [discriminate|]. injection H as <-.
  match goal with |- context [rewind_line ?z] => assert (Z : served z) end.
  { destruct X as (A & B). split; [|exact B]. cbn [pending]. assert (N : pad 80 (x :: r) ++ [LF] <> []) by discriminate.
    destruct f; [now constructor|]. apply Forall_app. split; [exact A|]. constructor; [exact N|constructor]. }
  apply rewind_line_served in Z. exact Z.
Qed.
Lemma runs_served : forall w u text s, runs w u text s -> served s.
Proof.
  intros w u text s H. induction H as [|s n t s' H IH N|s f r s' H IH N|s H IH].
  - split; [constructor|cbn; lia].
  - eapply next_served; eassumption.
  - eapply ainsert_served; eassumption.
  - now apply aread_served.
Qed.
Lemma records_first : forall s, sound s -> served s -> pending s <> [] \/ index (buffer s) < length (data (buffer s)) -> from_buffer (switch_input_streams s) = true.
Proof.
  intros s (_ & Le & _) (Ne & B) R. unfold switch_input_streams. unfold LA at 1. replace (index (buffer s) + (1 - 1)) with (index (buffer s)) by lia.
  destruct (nth_error (data (buffer s)) (index (buffer s))) eqn:E.
  - assert (index (buffer s) < length (data (buffer s))) by (apply nth_error_Some; congruence). destruct (from_buffer s); [reflexivity|]. specialize (B eq_refl). lia.
  - apply nth_error_None in E. destruct R as [R|R]; [|lia]. destruct (pending s) as [|f p]; [congruence|]. apply Forall_inv in Ne.
    unfold LA. cbn [data index]. replace (index (buffer s) + (1 - 1)) with (index (buffer s)) by lia.
    destruct (nth_error (data (buffer s) ++ f) (index (buffer s))) eqn:E2; [reflexivity|]. exfalso.
    apply nth_error_None in E2. rewrite app_length in E2. destruct f; [congruence|]. cbn in E2. lia.
Qed.
