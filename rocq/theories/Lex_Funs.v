(** What the functions of the lexer do with a text. *)
From Coq Require Import List NArith Bool Arith Lia ZifyBool ZifyNat ZifyN.
From Verif Require Import Common Lex_Model Lex_Spec Lex_Proof.
Import ListNotations.

Ltac conjs := repeat match goal with |- _ /\ _ => split end.

Set Default Proof Using "Type".
Section Funs.
Variable unlimited : bool.
Variable text : list char.
Notation size := (length text).
Notation plain := (plain text).
Notation began := (began text).
Notation here := (here text).
Notation pos s := (index (file s)).
Notation at_ p := (nth_error text p).

Lemma plain_column : forall s, plain s -> column (current s) = column_of text (pos s).
Proof. intros s P. rewrite (plain_current text s P). apply P. Qed.
Lemma plain_size : forall s, plain s -> pos s <= size.
Proof. intros s P. apply P. Qed.
Lemma plain_before : forall e s, plain s ->
  before_end unlimited e s = (column_of text (pos s) <? e) || (unlimited && negb (is CR (c s)) && negb (is LF (c s))).
Proof.
  intros e s P. unfold before_end. rewrite (plain_column s P). destruct P as (F & _). rewrite F. cbn. rewrite andb_false_r. cbn. now rewrite orb_false_r.
Qed.

(** A loop, with what holds of each character it passes. *)
Lemma scan : forall cond (phi : nat -> Prop) s, plain s ->
  (forall s, plain s -> c s = None -> cond s = false) ->
  (forall s' x, plain s' -> same s s' -> cond s' = true -> c s' = Some x -> phi (pos s')) ->
  exists s', while cond s = Some s' /\ plain s' /\ same s s' /\ pos s <= pos s' /\ cond s' = false /\
    (forall r, pos s <= r < pos s' -> phi r) /\ (cond s = true -> pos s < pos s').
Proof.
  intros cond phi s P Stop Phi.
  destruct (while_plain text cond (fun s' => same s s' /\ pos s <= pos s' /\ forall r, pos s <= r < pos s' -> phi r) s P Stop)
    as (s' & W & P' & S' & N & K & (_ & _ & I) & G).
  - split; [apply same_refl|]. split; [lia|]. intros; lia.
  - intros s1 x P1 (S1 & N1 & I1) C1 X1. destruct (consume_plain text s1 x P1 X1) as (P2 & S2 & N2 & _).
    split; [eapply same_trans; eassumption|]. split; [lia|]. intros r Hr. rewrite N2 in Hr.
    destruct (Nat.eq_dec r (pos s1)) as [->|]; [eapply Phi; eassumption|]. apply I1; lia.
  - exists s'. auto 10.
Qed.
Lemma same_began : forall s s', began s -> same s s' -> pos s <= pos s' -> began s'.
Proof. intros s s' (A & B & C) (Q & E & F & _) L. unfold Lex_Proof.began. rewrite E, F. conjs; auto; try apply A; lia. Qed.

Lemma while_once : forall cond s x, plain s -> c s = Some x -> cond s = true -> cond (consume s) = false -> while cond s = Some (consume s).
Proof.
  intros cond s x P C K1 K2. unfold while. destruct (remaining (current s)) as [|n] eqn:R.
  - rewrite (remaining_c text s P R) in C. discriminate.
  - cbn. rewrite K1. destruct n; cbn; now rewrite K2.
Qed.

(** ** The end of a line *)
Definition span (t : ttype) (hide : bool) (a b : nat) (u : token) : Prop :=
  ty u = t /\ hidden u = hide /\ start u = a /\ stop u = b.
(** From [p] to [q] there is the rest of a line, with its line feed if it has one. *)
Definition rest_of_line (p q : nat) : Prop :=
  (exists m, p <= m /\ q = S m /\ at_ m = Some LF /\ forall r, p <= r < m -> at_ r <> Some LF)
  \/ (p <= q /\ q = size /\ forall r, p <= r < q -> at_ r <> Some LF).
Definition lf_before (q : nat) : Prop := exists m, q = S m /\ at_ m = Some LF.

Lemma create_same : forall t s, index (begun s) = pos s -> begun_buffer s = false -> t <> EOF -> t <> EOLLN ->
  queue (create_token t true s) = queue s.
Proof.
  intros t s I B T1 T2. unfold create_token. cbv zeta. cbn [begun begun_buffer file buffer]. rewrite B, I, Nat.eqb_refl.
  replace (is_ty t EOF) with false by (destruct t; congruence || reflexivity).
  replace (is_ty t EOLLN) with false by (destruct t; congruence || reflexivity). reflexivity.
Qed.

Lemma lex_end_plain : forall b s, plain s -> exists s' ts, lex_end b s = Some s' /\ plain s' /\ rest_of_line (pos s) (pos s') /\
  queue s' = queue s ++ ts /\
  match ts with
  | [] => pos s' = pos s /\ pos s = size
  | [u] => span IGNORED true (pos s) (pos s') u /\ pos s < pos s' /\ (b = true -> pos s' = size /\ ~ lf_before (pos s'))
  | [u; v] => b = true /\ span EOLLN false (pos s) (pos s') u /\ span IGNORED true (pos s) (pos s') v /\ pos s < pos s'
  | _ => False
  end.
Proof.
  intros b s P. unfold lex_end. destruct (start_plain text s P) as (P1 & B1 & E1 & F1 & Q1 & _ & C1).
  set (cond := fun s => match c s with Some x => negb (x =? LF)%N | None => false end).
  destruct (scan cond (fun r => at_ r <> Some LF) (start_token s) P1) as (s2 & W & P2 & S2 & N2 & K2 & I2 & G2).
  - intros s0 _ H. unfold cond. now rewrite H.
  - intros s0 x P0 _ H X. unfold cond in H. rewrite X in H. rewrite (plain_c text s0 P0) in X. rewrite X. intros Z. injection Z as ->.
    rewrite N.eqb_refl in H. discriminate.
  - rewrite W. rewrite (plain_eof text s2 P2). pose proof (same_began _ _ B1 S2 N2) as B2.
    assert (E2 : begun s2 = file s) by (destruct S2 as (_ & E & _); congruence).
    assert (Q2 : queue s2 = queue s) by (destruct S2 as (E & _); congruence).
    rewrite F1 in *. unfold cond in K2. destruct (c s2) as [x|] eqn:C2.
    + assert (x = LF) by lia. subst x. pose proof (plain_c text s2 P2) as A2. rewrite C2 in A2.
      set (s3 := with_last_line_pos (column (current s2)) s2).
      assert (P3 : plain s3) by exact P2.
      destruct (consume_plain text s3 LF P3 C2) as (P4 & S4 & N4 & _).
      set (s4 := consume s3) in *.
      assert (B4 : began s4) by (eapply same_began; [|exact S4|lia]; exact B2).
      assert (E4 : begun s4 = file s) by (destruct S4 as (_ & E & _); rewrite E; exact E2).
      assert (Q4 : queue s4 = queue s) by (destruct S4 as (E & _); rewrite E; exact Q2).
      assert (L4 : last_line_pos s4 = column_of text (pos s2)).
      { destruct S4 as (_ & _ & _ & _ & _ & _ & _ & E). rewrite E. exact (plain_column s2 P2). }
      assert (N4' : pos s4 = S (pos s2)) by exact N4.
      assert (Ro : rest_of_line (pos s) (pos s4)) by (left; exists (pos s2); conjs; auto; lia).
      pose proof (plain_size s2 P2) as Z2.
      assert (Ig : forall s5, begun s5 = begun s4 -> file s5 = file s4 -> last_line_pos s5 = last_line_pos s4 -> ignorable text s5).
      { intros s5 X1 X2 X3. right. exists (pos s2). rewrite X1, X2, X3, E4. unfold line_end. conjs; auto; try lia.
        apply (between text (pos s) (pos s2)); [lia|auto]. }
      assert (Lt : pos s < pos s4) by lia.
      destruct b.
      * destruct (create_plain text EOLLN false s4 P4 B4 ltac:(discriminate)) as (P5 & B5 & E5 & F5 & C5 & A5 & L5 & [(_ & _ & _ & X)|(u & Q5 & U5 & _)]);
          [congruence|].
        destruct (create_plain text IGNORED true _ P5 B5 (fun _ => Ig _ E5 F5 L5)) as (P6 & B6 & E6 & F6 & C6 & A6 & L6 & [(_ & X & _)|(v & Q6 & V6 & _)]).
        { rewrite E5, F5, E4 in X. lia. }
        exists (create_token IGNORED true (create_token EOLLN false s4)), [u; v]. rewrite Q6, Q5, Q4, F6, F5.
        destruct U5 as (U51 & U52 & U53 & U54 & _), V6 as (V1 & V2 & V3 & V4 & _). rewrite E4 in U53. rewrite E5, E4 in V3. rewrite F5 in V4.
        unfold span. rewrite <- app_assoc. conjs; auto.
      * destruct (create_plain text IGNORED true s4 P4 B4 (fun _ => Ig _ eq_refl eq_refl eq_refl)) as (P6 & B6 & E6 & F6 & C6 & A6 & L6 & [(_ & X & _)|(v & Q6 & V6 & _)]).
        { rewrite E4 in X. lia. }
        exists (create_token IGNORED true s4), [v]. rewrite Q6, Q4, F6.
        destruct V6 as (V1 & V2 & V3 & V4 & _). rewrite E4 in V3. unfold span. conjs; auto; discriminate.
    + pose proof (plain_c text s2 P2) as A2. rewrite C2 in A2. symmetry in A2. apply nth_error_None in A2.
      pose proof (plain_size s2 P2) as Z2.
      assert (Li : line (begun s2) = line (file s2)).
      { rewrite E2. destruct P as (_ & _ & _ & (_ & _ & X & _) & _), P2 as (_ & _ & _ & (_ & _ & Y & _) & _). rewrite X, Y.
        symmetry. apply between; [lia|auto]. }
      destruct (create_plain text IGNORED true s2 P2 B2 (fun _ => or_introl Li)) as (P6 & B6 & E6 & F6 & C6 & A6 & L6 & [(Q6 & X & _)|(v & Q6 & V6 & Y)]).
      * exists (create_token IGNORED true s2), []. rewrite Q6, Q2, F6, app_nil_r. rewrite E2 in X.
        split; [reflexivity|]. split; [exact P6|]. split; [right; conjs; auto; lia|]. split; [reflexivity|]. lia.
      * exists (create_token IGNORED true s2), [v]. rewrite Q6, Q2, F6.
        destruct V6 as (V1 & V2 & V3 & V4 & _). rewrite E2 in V3, Y.
        assert (Lt : pos s < pos s2) by (destruct Y as [Y|[Y|Y]]; [exact Y|discriminate|discriminate]).
        split; [reflexivity|]. split; [exact P6|]. split; [right; conjs; auto; lia|]. split; [reflexivity|].
        unfold span. conjs; auto. intros _. split; [lia|]. intros (m & M1 & M2). apply (I2 m); [lia|exact M2].
Qed.

(** ** Kinds of lines *)
Variable wide_space : char -> bool.
Notation sort := (sort wide_space text).
Notation statement_text := (statement_text wide_space text).
Lemma isspace_white : forall x, isspace wide_space x = white wide_space x.
Proof.
  intros x. unfold isspace, white. destruct (x <? 256)%N eqn:E; [|reflexivity]. cbn. lia.
Qed.
Lemma letter_here : forall p, letter text (line_of text p) (column_of text p) =
  match at_ p with Some x => if (x =? LF)%N then None else Some x | None => None end.
Proof. intros. apply letter_at. Qed.
Lemma flagged_at : forall p x, column_of text p = 71 -> at_ p = Some x -> isspace wide_space x = false ->
  flagged wide_space text (line_of text p) = true.
Proof.
  intros p x C A I. unfold flagged. pose proof (letter_here p) as L. rewrite C, A in L. rewrite L.
  destruct (x =? LF)%N eqn:E; [apply N.eqb_eq in E; subst; discriminate|]. now rewrite <- isspace_white, I.
Qed.
(** Nothing in column 72. *)
Definition closed (p : nat) : Prop :=
  column_of text p <= 71 /\
  (at_ p = None \/ at_ p = Some LF \/ (column_of text p = 71 /\ exists x, at_ p = Some x /\ isspace wide_space x = true)).
Lemma not_flagged : forall p, closed p -> flagged wide_space text (line_of text p) = false.
Proof.
  intros p (C & H). unfold flagged. pose proof (letter_here p) as L. destruct H as [A|[A|(C1 & x & A & I)]]; rewrite A in L.
  - now rewrite (letter_end _ _ _ 71 L C).
  - rewrite (letter_end _ _ _ 71 L C). reflexivity.
  - rewrite C1 in L. rewrite L. destruct (x =? LF)%N; [reflexivity|]. now rewrite <- isspace_white, I.
Qed.
Lemma rest_line : forall p q, p <= size -> rest_of_line p q ->
  (forall r, p <= r < q -> line_of text r = line_of text p /\ column_of text r = column_of text p + (r - p)) /\ p <= q <= size /\
  ((at_ q = None /\ q = size) \/ (line_of text q = S (line_of text p) /\ column_of text q = 0)).
Proof.
  intros p q Z [(m & A & -> & B & C)|(A & -> & C)].
  - assert (m < size) by (apply nth_error_Some; congruence). split; [|split; [lia|]].
    + intros r Hr. apply between; [lia|]. intros; apply C; lia.
    + right. rewrite (line_of_S _ _ _ B), (column_of_S _ _ _ B). cbn. split; [|reflexivity].
      rewrite (proj1 (between text p m ltac:(lia) C)). lia.
  - split; [|split; [lia|]].
    + intros r Hr. apply between; [lia|]. intros; apply C; lia.
    + left. split; [apply nth_error_None; lia|reflexivity].
Qed.
(** A line that does not continue the one before it begins, or the text has ended. *)
Definition fresh (s : lexer) : Prop := c s = None \/ (column_of text (pos s) = 0 /\ fst (sort (line_of text (pos s))) = false).
Lemma sort_fresh : forall l, snd (sort l) = Process \/ flagged wide_space text l = false -> fst (sort (S l)) = false.
Proof. intros l H. cbn. destruct (sort l) as [b [| |]]; cbn in H; destruct H as [H|H]; try discriminate H; rewrite ?H; try reflexivity; destruct (flagged _ _ _); reflexivity. Qed.
Lemma sort_cont : forall l, flagged wide_space text l = true -> snd (sort l) <> Process -> sort (S l) = (true, snd (sort l)).
Proof. intros l H N. cbn. destruct (sort l) as [b [| |]]; cbn in *; rewrite ?H; congruence. Qed.
Lemma rest_fresh : forall p s', plain s' -> p <= size -> rest_of_line p (pos s') ->
  snd (sort (line_of text p)) = Process \/ flagged wide_space text (line_of text p) = false -> fresh s'.
Proof.
  intros p s' P Z R H. destruct (rest_line p _ Z R) as (_ & _ & [[A _]|[A B]]).
  - left. now rewrite (plain_c text s' P).
  - right. split; [exact B|]. rewrite A. now apply sort_fresh.
Qed.

Lemma chain_app : forall a ts b us d, chain a ts b -> chain b us d -> chain a (ts ++ us) d.
Proof.
  intros a ts b us d H. revert us d. induction H; intros us d K; cbn; [exact K| |].
  - apply chain_cons; auto.
  - apply chain_line; auto.
Qed.
Lemma chain_range : forall a ts b, chain a ts b -> a <= b /\ Forall (fun u => a <= start u /\ start u <= stop u /\ stop u <= b) ts.
Proof.
  intros a ts b H. induction H as [|t ts b L H (I1 & I2)|t u ts b L T1 T2 S1 S2 H (I1 & I2)].
  - split; [lia|constructor].
  - split; [lia|]. constructor; [lia|]. eapply Forall_impl; [|exact I2]. cbn. intros; lia.
  - split; [lia|]. constructor; [lia|]. constructor; [lia|]. eapply Forall_impl; [|exact I2]. cbn. intros; lia.
Qed.
Lemma chain_one : forall t h a b u, span t h a b u -> a <= b -> chain a [u] b.
Proof. intros t h a b u (_ & _ & <- & <-) L. apply chain_cons; [exact L|constructor]. Qed.

(** ** Continuation *)
Definition hides (u : token) : Prop := hidden u = true.
Lemma lex_continuation_plain : forall s x, plain s -> c s = Some x -> isspace wide_space x = false -> column_of text (pos s) = 71 ->
  exists s' ts q, lex_continuation s = Some s' /\ plain s' /\ queue s' = queue s ++ ts /\ chain (pos s) ts (pos s') /\
    Forall hides ts /\ ts <> [] /\ rest_of_line (S (pos s)) q /\ S (pos s) <= q <= pos s' /\
    (forall r, q <= r < pos s' -> at_ r <> Some LF /\ column_of text r < 15) /\
    (c s' = None \/ c s' = Some LF \/ 15 <= column_of text (pos s')).
Proof.
  intros s x P C Sp Col. unfold lex_continuation.
  destruct (start_plain text s P) as (P1 & B1 & E1 & F1 & Q1 & _ & C1).
  assert (Nl : x <> LF) by (intros ->; discriminate).
  destruct (consume_plain text _ x P1 (eq_trans C1 C)) as (P2 & S2 & N2 & _).
  set (s2 := consume (start_token s)) in *. rewrite F1 in N2.
  pose proof (plain_c text s P) as A. rewrite C in A. symmetry in A.
  rewrite (while_once _ (start_token s) x P1 (eq_trans C1 C)).
  2: { rewrite (plain_column _ P1), F1, Col, (plain_eof text _ P1), C1, C. reflexivity. }
  2: { fold s2. rewrite (plain_column _ P2), N2, (column_of_S _ _ _ A). replace (x =? LF)%N with false by lia. rewrite Col. reflexivity. }
  fold s2. pose proof (same_began _ _ B1 S2 ltac:(rewrite F1; lia)) as B2.
  assert (E2 : begun s2 = file s) by (destruct S2 as (_ & E & _); congruence).
  assert (Q2 : queue s2 = queue s) by (destruct S2 as (E & _); congruence).
  destruct (create_plain text CONTINUATION true s2 P2 B2 ltac:(discriminate)) as (P3 & B3 & E3 & F3 & C3 & A3 & L3 & [(_ & X & _)|(u & Q3 & U3 & _)]).
  { rewrite E2 in X. lia. }
  set (s3 := create_token CONTINUATION true s2) in *.
  destruct (lex_end_plain false s3 P3) as (s4 & ts4 & W4 & P4 & R4 & Q4 & T4). rewrite W4.
  rewrite F3, N2 in R4. rewrite Q3, Q2 in Q4.
  destruct (start_plain text s4 P4) as (P5 & B5 & E5 & F5 & Q5 & _ & C5).
  assert (Lb : lex_begin s4 = create_token IGNORED true (start_token s4)) by reflexivity.
  destruct (create_plain text IGNORED true (start_token s4) P5 B5) as (P6 & B6 & E6 & F6 & C6 & A6 & L6 & _).
  { intros _. left. now rewrite E5, F5. }
  pose proof (create_same IGNORED (start_token s4) ltac:(now rewrite E5, F5) ltac:(apply B5) ltac:(discriminate) ltac:(discriminate)) as Q6.
  rewrite <- Lb in *. set (s6 := lex_begin s4) in *.
  destruct (start_plain text s6 P6) as (P7 & B7 & E7 & F7 & Q7 & _ & C7).
  set (cond := fun s => (column (current s) <? CONTINUE) && negb (eof s) && negb (is LF (c s))).
  destruct (scan cond (fun r => at_ r <> Some LF /\ column_of text r < 15) (start_token s6) P7) as (s8 & W8 & P8 & S8 & N8 & K8 & I8 & G8).
  { intros s0 P0 H. unfold cond. rewrite (plain_eof text s0 P0), H, andb_false_r. reflexivity. }
  { intros s0 y P0 S0 H Y. unfold cond in H. rewrite (plain_column s0 P0), (plain_eof text s0 P0), Y in H.
    pose proof (plain_c text s0 P0) as A0. rewrite Y in A0. rewrite <- A0. unfold CONTINUE, is in H. split; [intros Z; injection Z as ->; rewrite N.eqb_refl, andb_false_r in H; discriminate|lia]. }
  rewrite W8. pose proof (same_began _ _ B7 S8 N8) as B8.
  assert (E8 : begun s8 = file s4) by (destruct S8 as (_ & E & _); rewrite E, E7, F6, F5; reflexivity).
  assert (Q8 : queue s8 = queue s4) by (destruct S8 as (E & _); rewrite E, Q7, Q6, Q5; reflexivity).
  rewrite F7, F6, F5 in *. pose proof (plain_size s8 P8) as Z8.
  assert (Li : line (begun s8) = line (file s8)).
  { rewrite E8. destruct P4 as (_ & _ & _ & (_ & _ & X & _) & _), P8 as (_ & _ & _ & (_ & _ & Y & _) & _). rewrite X, Y.
    symmetry. apply between; [lia|]. intros r Hr. now apply I8. }
  destruct (create_plain text IGNORED true s8 P8 B8 (fun _ => or_introl Li)) as (P9 & B9 & E9 & F9 & C9 & A9 & L9 & D9).
  rewrite E8, Q8, Q4 in D9.
  assert (S0 : pos s < size) by (apply nth_error_Some; congruence).
  destruct (rest_line (S (pos s)) (pos s4) ltac:(lia) R4) as (_ & Z4 & _).
  assert (U : span CONTINUATION true (pos s) (S (pos s)) u).
  { destruct U3 as (U1 & U2 & U3' & U4 & _). rewrite E2 in U3'. rewrite N2 in U4. repeat split; assumption. }
  assert (T : chain (S (pos s)) ts4 (pos s4) /\ Forall hides ts4).
  { rewrite F3, N2 in T4. destruct ts4 as [|v [|w [|? ?]]]; cbn in T4; try contradiction.
    - destruct T4 as (-> & _). split; constructor.
    - destruct T4 as (V & L & _). split; [eapply chain_one; [exact V|lia]|]. constructor; [apply V|constructor].
    - destruct T4 as (X & _). discriminate X. }
  assert (K : c (create_token IGNORED true s8) = None \/ c (create_token IGNORED true s8) = Some LF \/ 15 <= column_of text (pos (create_token IGNORED true s8))).
  { rewrite C9, F9. unfold cond in K8. rewrite (plain_column s8 P8), (plain_eof text s8 P8) in K8. destruct (c s8) as [y|]; [|auto].
    unfold is, CONTINUE in K8. right. destruct (LF =? y)%N eqn:Ey; [left; f_equal; lia|right; lia]. }
  exists (create_token IGNORED true s8).
  destruct D9 as [(Q9 & X & _)|(v & Q9 & (V1 & V2 & V3 & V4 & _) & _)].
  - exists ([u] ++ ts4), (pos s4). rewrite Q9, F9. rewrite <- X in *. conjs; auto; try lia.
    + now rewrite <- app_assoc.
    + eapply chain_app; [eapply chain_one; [exact U|lia]|apply T].
    + constructor; [apply U|apply T].
    + discriminate.
    + now rewrite F9, <- X in K.
  - exists ([u] ++ ts4 ++ [v]), (pos s4). rewrite Q9, F9. conjs; auto; try lia.
    + now rewrite <- !app_assoc.
    + eapply chain_app; [eapply chain_one; [exact U|lia]|]. eapply chain_app; [apply T|]. rewrite E8 in V3. eapply chain_one; [|exact N8]. split; [reflexivity|]. split; [reflexivity|]. split; assumption.
    + constructor; [apply U|]. apply Forall_app. split; [apply T|]. constructor; [exact V2|constructor].
    + discriminate.
    + now rewrite F9 in K.
Qed.

Definition quiet (a b : nat) : Prop := forall r, a <= r < b -> ~ statement_text r.
Lemma quiet_app : forall a b d, quiet a b -> quiet b d -> quiet a d.
Proof. intros a b d H K r Hr. destruct (lt_dec r b); [apply H|apply K]; lia. Qed.
Lemma col_bound : forall N p q, p <= q <= size -> (forall r, p <= r < q -> at_ r <> Some LF /\ column_of text r < N) ->
  column_of text p <= N -> column_of text q <= N.
Proof.
  intros N p q L H K. destruct (Nat.eq_dec p q) as [->|]; [exact K|].
  destruct (between text p q L ltac:(intros; now apply H)) as [_ B].
  destruct (between text p (q - 1) ltac:(lia) ltac:(intros; apply H; lia)) as [_ B'].
  destruct (H (q - 1) ltac:(lia)) as [_ B'']. lia.
Qed.
Lemma plain_remaining : forall s, plain s -> remaining (current s) = size - pos s.
Proof. intros s P. rewrite (plain_current text s P). destruct P as (_ & _ & _ & (D & _) & _). unfold remaining. now rewrite D. Qed.
Lemma plain_some : forall s x, plain s -> c s = Some x -> at_ (pos s) = Some x /\ pos s < size.
Proof. intros s x P C. rewrite (plain_c text s P) in C. split; [exact C|]. apply nth_error_Some. congruence. Qed.
Lemma same_column_line : forall s s', plain s -> plain s' -> pos s <= pos s' -> (forall r, pos s <= r < pos s' -> at_ r <> Some LF) ->
  line (file s) = line (file s').
Proof.
  intros s s' P P' L H. pose proof (plain_size s' P'). destruct P as (_ & _ & _ & (_ & _ & X & _) & _), P' as (_ & _ & _ & (_ & _ & Y & _) & _).
  rewrite X, Y. symmetry. apply between; [lia|exact H].
Qed.

(** After a continuation: nothing of the statement was passed, and the next line continues this one. *)
Lemma continuation_range : forall s s' q, plain s -> plain s' -> pos s < size -> column_of text (pos s) = 71 ->
  flagged wide_space text (line_of text (pos s)) = true -> snd (sort (line_of text (pos s))) <> Process ->
  rest_of_line (S (pos s)) q -> S (pos s) <= q <= pos s' -> at_ (pos s) <> Some LF ->
  (forall r, q <= r < pos s' -> at_ r <> Some LF /\ column_of text r < 15) ->
  quiet (pos s) (pos s') /\
  (c s' = None \/ (sort (line_of text (pos s')) = (true, snd (sort (line_of text (pos s)))) /\ column_of text (pos s') <= 15)).
Proof.
  intros s s' q P P' Z C Fl Np R L Nl H. pose proof (plain_size s' P') as Z'.
  destruct (rest_line (S (pos s)) q ltac:(lia) R) as (A & B & D).
  destruct (between text (pos s) (S (pos s)) ltac:(lia) ltac:(intros r Hr; replace r with (pos s) by lia; exact Nl)) as [E1 E2].
  assert (Q1 : quiet (pos s) q).
  { intros r Hr (_ & X & _). destruct (Nat.eq_dec r (pos s)) as [->|]; [rewrite C in X; destruct (fst _) in X; lia|].
    destruct (A r ltac:(lia)) as [_ Y]. destruct (fst _) in X; lia. }
  destruct D as [[D ->]|[D1 D2]].
  - assert (E : pos s' = size) by lia. split; [rewrite E; exact Q1|]. left. rewrite (plain_c text s' P'). apply nth_error_None. lia.
  - assert (So : sort (line_of text q) = (true, snd (sort (line_of text (pos s))))) by (rewrite D1, E1; now apply sort_cont).
    destruct (between text q (pos s') ltac:(lia) ltac:(intros; now apply H)) as [F1 F2].
    split; [apply (quiet_app _ q); [exact Q1|]|].
    + intros r Hr (_ & X & _). destruct (between text q r ltac:(lia) ltac:(intros; apply H; lia)) as [G1 G2].
      rewrite G1, So in X. cbn in X. destruct (H r Hr) as [_ Y]. lia.
    + right. rewrite F1. split; [exact So|]. apply (col_bound 15 q (pos s')); [lia|exact H|lia].
Qed.

Definition comment_ok (s s' : lexer) (ts : list token) : Prop :=
  plain s' /\ queue s' = queue s ++ ts /\ chain (pos s) ts (pos s') /\ Forall hides ts /\
  (c s <> None -> pos s < pos s') /\
  (snd (sort (line_of text (pos s))) = Comment -> quiet (pos s) (pos s') /\ fresh s').
Lemma lex_comment_plain : forall n s, plain s -> size - pos s <= n -> (c s = None \/ column_of text (pos s) <= 71) ->
  exists s' ts, lex_comment wide_space n s = Some s' /\ comment_ok s s' ts.
Proof.
  induction n as [n IH] using lt_wf_ind. intros s P Hn Col.
  destruct (start_plain text s P) as (P1 & B1 & E1 & F1 & Q1 & _ & C1).
  set (cond := fun s => (column (current s) <? END) && negb (eof s) && negb (is LF (c s))).
  destruct (scan cond (fun r => at_ r <> Some LF /\ column_of text r < 71) (start_token s) P1) as (s2 & W & P2 & S2 & N2 & K2 & I2 & G2).
  { intros s0 P0 H. unfold cond. rewrite (plain_eof text s0 P0), H, andb_false_r. reflexivity. }
  { intros s0 y P0 S0 H Y. unfold cond in H. rewrite (plain_column s0 P0), (plain_eof text s0 P0), Y in H.
    pose proof (plain_c text s0 P0) as A0. rewrite Y in A0. rewrite <- A0. unfold END, is in H.
    split; [intros Z; injection Z as ->; rewrite N.eqb_refl, andb_false_r in H; discriminate|lia]. }
  rewrite F1 in *. pose proof (same_began _ _ B1 S2 ltac:(rewrite F1; lia)) as B2.
  assert (E2 : begun s2 = file s) by (destruct S2 as (_ & E & _); congruence).
  assert (Q2 : queue s2 = queue s) by (destruct S2 as (E & _); congruence).
  destruct (create_plain text COMMENT true s2 P2 B2 ltac:(discriminate)) as (P3 & B3 & E3 & F3 & C3 & A3 & L3 & D3).
  set (s3 := create_token COMMENT true s2) in *. rewrite E2, Q2 in D3.
  pose proof (plain_size s P) as Z. pose proof (plain_size s2 P2) as Z2.
  assert (T3 : exists ts3, queue s3 = queue s ++ ts3 /\ chain (pos s) ts3 (pos s3) /\ Forall hides ts3).
  { rewrite F3. destruct D3 as [(Q3 & X & _)|(u & Q3 & (U1 & U2 & U3 & U4 & _) & _)].
    - exists []. rewrite Q3, app_nil_r, X. repeat constructor.
    - exists [u]. rewrite E2 in U3. conjs; [exact Q3| |repeat constructor; exact U2]. eapply chain_one; [|exact N2]. repeat split; eassumption. }
  destruct T3 as (ts3 & Q3 & Ch3 & H3).
  assert (Un : lex_comment wide_space n s =
    if match c s3 with Some x => negb (isspace wide_space x) | None => true end && negb (eof s3)
    then match n with O => None | S n => match lex_continuation s3 with Some s => lex_comment wide_space n s | None => None end end
    else lex_end false s3).
  { destruct n; cbn [lex_comment]; fold cond; rewrite W; reflexivity. }
  rewrite Un. rewrite (plain_eof text s3 P3). clear Un.
  assert (Cs2 : c s3 = None \/ column_of text (pos s3) <= 71).
  { rewrite C3, F3. destruct Col as [Col|Col].
    - left. rewrite (plain_c text _ P) in Col. rewrite (plain_c text _ P2). apply nth_error_None in Col. apply nth_error_None. lia.
    - right. apply (col_bound 71 (pos s)); [lia|exact I2|exact Col]. }
  assert (Ql : snd (sort (line_of text (pos s))) = Comment -> quiet (pos s) (pos s3)).
  { intros K r Hr (X & _). rewrite F3 in Hr. rewrite (proj1 (between text (pos s) r ltac:(lia) ltac:(intros; apply I2; lia))) in X. congruence. }
  pose proof (between text (pos s) (pos s3) ltac:(rewrite F3; lia) ltac:(rewrite F3; intros; now apply I2)) as [Li3 Co3].
  assert (N3 : pos s <= pos s3) by (rewrite F3; lia).
  assert (Cl3 : c s3 = None \/ c s3 = Some LF \/ column_of text (pos s3) = 71).
  { unfold cond in K2. rewrite (plain_column s2 P2), (plain_eof text s2 P2) in K2. rewrite <- C3, <- F3 in K2.
    destruct (c s3) as [y|]; [|auto]. right. destruct Cs2 as [Cs2|Cs2]; [discriminate|]. unfold is, END in K2.
    destruct (LF =? y)%N eqn:Ey; [left; f_equal; lia|right; lia]. }
  destruct (c s3) as [x|] eqn:Cx; [destruct (isspace wide_space x) eqn:Sp|]; cbn [negb andb].
  - (* the end *)
    destruct (lex_end_plain false s3 P3) as (s4 & ts4 & W4 & P4 & R4 & Q4 & T4).
    destruct (plain_some _ _ P3 Cx) as [A3' Z3].
    destruct (rest_line (pos s3) (pos s4) ltac:(lia) R4) as (A4 & Z4 & D4).
    exists s4, (ts3 ++ ts4). split; [exact W4|].
    assert (X : chain (pos s3) ts4 (pos s4) /\ Forall hides ts4 /\ pos s3 < pos s4).
    { destruct ts4 as [|v [|w [|? ?]]]; cbn in T4; try contradiction.
      - lia.
      - destruct T4 as (V & L & _). split; [eapply chain_one; [exact V|lia]|]. split; [|lia]. constructor; [apply V|constructor].
      - destruct T4 as (X & _). discriminate X. }
    destruct X as (X1 & X2 & X3). unfold comment_ok. conjs; auto.
    + now rewrite Q4, Q3, app_assoc.
    + eapply chain_app; eassumption.
    + apply Forall_app. split; assumption.
    + intros _. lia.
    + intros K. split; [apply (quiet_app _ (pos s3)); [now apply Ql|]|].
      * intros r Hr (Y & _). rewrite (proj1 (A4 r Hr)), Li3 in Y. congruence.
      * apply (rest_fresh (pos s3)); auto; try lia. right. apply not_flagged. unfold closed. rewrite A3'.
        destruct Cs2 as [Cs2|Cs2]; [discriminate|]. split; [exact Cs2|]. destruct Cl3 as [Cl3|[Cl3|Cl3]]; [discriminate|injection Cl3 as ->; auto|].
        right. right. split; [exact Cl3|]. exists x. auto.
  - (* a continuation *)
    destruct Cl3 as [Cl3|[Cl3|Cl3]]; [discriminate|injection Cl3 as ->; discriminate Sp|].
    destruct (plain_some _ _ P3 Cx) as [A3' Z3].
    destruct (lex_continuation_plain s3 x P3 Cx Sp Cl3) as (s4 & ts4 & q & W4 & P4 & Q4 & Ch4 & H4 & _ & R4 & L4 & I4 & _).
    pose proof (plain_size s4 P4) as Z4.
    destruct n as [|n]; [lia|]. rewrite W4.
    assert (Fl : flagged wide_space text (line_of text (pos s3)) = true) by (eapply flagged_at; eassumption).
    assert (Nl : at_ (pos s3) <> Some LF) by (rewrite A3'; intros X; injection X as ->; discriminate).
    destruct (IH n ltac:(lia) s4 P4 ltac:(lia)) as (s5 & ts5 & W5 & P5 & Q5 & Ch5 & H5 & _ & K5).
    { destruct (rest_line (S (pos s3)) q ltac:(lia) R4) as (_ & _ & [[D ->]|[D1 D2]]).
      - left. rewrite (plain_c text s4 P4). apply nth_error_None. lia.
      - right. enough (column_of text (pos s4) <= 15) by lia. apply (col_bound 15 q); [lia|exact I4|lia]. }
    exists s5, (ts3 ++ ts4 ++ ts5). split; [exact W5|].
    destruct (chain_range _ _ _ Ch5) as [Z5 _].
    unfold comment_ok. conjs; auto.
    + now rewrite Q5, Q4, Q3, !app_assoc.
    + eapply chain_app; [exact Ch3|]. eapply chain_app; eassumption.
    + apply Forall_app. split; [exact H3|]. apply Forall_app. split; assumption.
    + intros _. lia.
    + intros K. destruct (continuation_range s3 s4 q P3 P4 Z3 Cl3 Fl ltac:(rewrite Li3; congruence) R4 L4 Nl I4) as (Qq & [N4|[So4 _]]).
      * assert (E5 : pos s5 = pos s4).
        { pose proof (plain_size s5 P5). rewrite (plain_c text s4 P4) in N4. apply nth_error_None in N4. lia. }
        split; [apply (quiet_app _ (pos s3)); [now apply Ql|]; now rewrite E5|]. left. rewrite (plain_c text s5 P5), E5, <- (plain_c text s4 P4). exact N4.
      * rewrite Li3, K in So4. destruct (K5 ltac:(now rewrite So4)) as (Q6 & F6). split; [|exact F6].
        apply (quiet_app _ (pos s3)); [now apply Ql|]. apply (quiet_app _ (pos s4)); assumption.
  - (* the end of the text *)
    destruct (lex_end_plain false s3 P3) as (s4 & ts4 & W4 & P4 & R4 & Q4 & T4).
    rewrite (plain_c text s3 P3) in Cx. apply nth_error_None in Cx. pose proof (plain_size s4 P4) as Z4.
    exists s4, (ts3 ++ ts4). split; [exact W4|].
    destruct ts4 as [|v [|w [|? ?]]]; cbn in T4; try contradiction.
    2: { destruct T4 as (_ & X & _). lia. }
    2: { destruct T4 as (X & _). discriminate X. }
    destruct T4 as (T4 & _). unfold comment_ok. rewrite T4, app_nil_r. conjs; auto.
    + now rewrite Q4, app_nil_r, Q3.
    + intros Y. rewrite (plain_c text s P) in Y. apply nth_error_Some in Y. lia.
    + intros K. split; [now apply Ql|]. left. rewrite (plain_c text s4 P4), T4. apply nth_error_None. lia.
Qed.
End Funs.
