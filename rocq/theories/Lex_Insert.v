(** AREAD and AINSERT. *)
From Coq Require Import List NArith Bool Arith Lia ZifyBool ZifyNat ZifyN.
From Verif Require Import Common Lex_Model Lex_Spec.
Import ListNotations.

(** ** Reading to the end of a line *)
Definition other (s : lexer) : input := if from_buffer s then file s else buffer s.
Definition kept (s s' : lexer) : Prop := from_buffer s' = from_buffer s /\ pending s' = pending s /\ other s' = other s.
Lemma kept_trans : forall a b d, kept a b -> kept b d -> kept a d.
Proof. unfold kept. intuition congruence. Qed.
Lemma skipn_nth : forall (d : list char) k x rest, skipn k d = x :: rest -> nth_error d k = Some x /\ skipn (S k) d = rest /\ k < length d.
Proof.
  induction d as [|y d IH]; intros k x rest H; [destruct k; discriminate|].
  destruct k as [|k]; cbn in H.
  - injection H as -> ->. cbn. repeat split. lia.
  - destruct (IH k x rest H) as (A & B & C). cbn [nth_error length]. repeat split; auto. lia.
Qed.
Lemma current_consume : forall s x rest, skipn (index (current s)) (data (current s)) = x :: rest ->
  c s = Some x /\ kept s (consume s) /\ data (current (consume s)) = data (current s) /\
  index (current (consume s)) = S (index (current s)) /\
  column (current (consume s)) = (if (x =? LF)%N then 0 else S (column (current s))) /\
  skipn (index (current (consume s))) (data (current (consume s))) = rest.
Proof.
  intros s x rest H. destruct (skipn_nth _ _ _ _ H) as (A & B & L).
  assert (C : c s = Some x). { unfold c, LA. replace (index (current s) + (1 - 1)) with (index (current s)) by lia. exact A. }
  assert (La : is LF (LA 1 (current s)) = (x =? LF)%N) by (unfold c in C; rewrite C; cbn [is]; apply N.eqb_sym).
  unfold consume. rewrite C. split; [reflexivity|].
  assert (Cu : forall i b, current (with_current i b s) = i) by (intros; unfold current; cbn; destruct (from_buffer s); reflexivity).
  rewrite !Cu. unfold advance. rewrite La. split; [|destruct (x =? LF)%N; cbn; auto].
  unfold kept, other. cbn. destruct (from_buffer s); auto.
Qed.
Lemma read_line_spec : forall l n s rest, skipn (index (current s)) (data (current s)) = l ++ rest ->
  (forall x, In x l -> x <> LF /\ x <> CR) -> match rest with [] => True | x :: _ => x = LF \/ x = CR end -> length l <= n ->
  exists s', read_line n s = (l, s') /\ kept s s' /\ data (current s') = data (current s) /\
    index (current s') = index (current s) + length l /\ column (current s') = column (current s) + length l /\
    skipn (index (current s')) (data (current s')) = rest.
Proof.
  induction l as [|x l IH]; intros n s rest H Nl St Hn.
  - exists s. split; [|unfold kept; cbn in *; repeat split; auto; lia].
    destruct n; cbn [read_line]; destruct rest as [|x rest].
    + destruct (c s); reflexivity.
    + destruct (c s); reflexivity.
    + assert (C : c s = None); [|now rewrite C]. unfold c, LA. apply nth_error_None.
      assert (Z : length (skipn (index (current s)) (data (current s))) = 0) by (rewrite H; reflexivity). rewrite skipn_length in Z. lia.
    + destruct (current_consume s x rest H) as (C & _). rewrite C. destruct St as [-> | ->]; reflexivity.
  - cbn in H. destruct n as [|n]; [cbn in Hn; lia|]. cbn in Hn.
    destruct (current_consume s x _ H) as (C & K & D & Ix & Co & Sk).
    destruct (Nl x (or_introl eq_refl)) as [N1 N2].
    destruct (IH n (consume s) rest Sk ltac:(intros; apply Nl; now right) St ltac:(lia)) as (s' & R & K' & D' & Ix' & Co' & Sk').
    exists s'. cbn [read_line]. rewrite C. replace ((x =? CR)%N || (x =? LF)%N) with false by lia. rewrite R.
    split; [reflexivity|]. split; [eapply kept_trans; eassumption|]. replace (x =? LF)%N with false in Co by lia. cbn [length].
    repeat split; auto; try congruence; lia.
Qed.
Lemma new_line_spec : forall s rest t, skipn (index (current s)) (data (current s)) = rest -> rest = LF :: t \/ rest = CR :: LF :: t ->
  kept s (consume_new_line s) /\ data (current (consume_new_line s)) = data (current s) /\ column (current (consume_new_line s)) = 0 /\
  skipn (index (current (consume_new_line s))) (data (current (consume_new_line s))) = t /\
  index (current (consume_new_line s)) = index (current s) + (length rest - length t).
Proof.
  intros s rest t H [-> | ->]; unfold consume_new_line.
  - destruct (current_consume s LF t H) as (C & K & D & Ix & Co & Sk). rewrite C. cbn [is N.eqb CR LF Pos.eqb].
    rewrite C. cbn [is N.eqb LF Pos.eqb]. cbn in Co. split; [exact K|]. repeat split; auto. rewrite Ix. cbn [length]. lia.
  - destruct (current_consume s CR (LF :: t) H) as (C & K & D & Ix & Co & Sk). rewrite C. cbn [is N.eqb CR LF Pos.eqb].
    destruct (current_consume (consume s) LF t Sk) as (C2 & K2 & D2 & Ix2 & Co2 & Sk2). rewrite C2. cbn [is N.eqb LF Pos.eqb].
    split; [eapply kept_trans; eassumption|]. cbn in Co2. repeat split; auto; [congruence|]. rewrite Ix2, Ix. cbn [length]. lia.
Qed.

(** ** The lines of an orderly text *)
Lemma orderly_tail : forall x t, orderly (x :: t) -> orderly t.
Proof. intros x [|y t] H; [exact Logic.I|]. apply H. Qed.
Lemma source_lines_nonempty : forall x t, source_lines (x :: t) <> [].
Proof. intros x t. cbn. destruct (x =? LF)%N; [discriminate|]. destruct (source_lines t); discriminate. Qed.
Lemma first_line_split : forall t, orderly t -> t <> [] ->
  exists l rest t', t = l ++ rest /\ (forall x, In x l -> x <> LF /\ x <> CR) /\ (rest = LF :: t' \/ rest = CR :: LF :: t') /\
    source_lines t = l :: source_lines t' /\ orderly t'.
Proof.
  induction t as [|x t IH]; intros O N; [congruence|].
  destruct (N.eq_dec x LF) as [->|N1].
  - exists [], (LF :: t), t. cbn. repeat split; auto; try contradiction. now apply orderly_tail in O.
  - destruct t as [|y t]; [cbn in O; contradiction|].
    destruct (N.eq_dec x CR) as [->|N2].
    + destruct O as [O1 O2]. specialize (O1 eq_refl). subst y. exists [], (CR :: LF :: t), t. cbn. repeat split; auto; try contradiction.
      now apply orderly_tail in O2.
    + destruct (IH (orderly_tail _ _ O) ltac:(discriminate)) as (l & rest & t' & E & Nl & R & S & O').
      exists (x :: l), rest, t'. split; [now rewrite E|]. split; [intros z [<-|Z]; auto|]. split; [exact R|]. split; [|exact O'].
      change (source_lines (x :: y :: t)) with (if (x =? LF)%N then [] :: source_lines (y :: t)
              else match source_lines (y :: t) with
                   | l :: ls => (if (x =? CR)%N then l else x :: l) :: ls
                   | [] => [[x]]
                   end).
      rewrite S. replace (x =? LF)%N with false by lia. replace (x =? CR)%N with false by lia. reflexivity.
Qed.
Lemma skipn_orderly : forall k t, orderly t -> orderly (skipn k t).
Proof. induction k as [|k IH]; intros [|x t] O; cbn; auto. apply IH. now apply orderly_tail in O. Qed.
Lemma orderly_end : forall t k x, orderly t -> nth_error t k = Some x -> S k = length t -> x = LF.
Proof.
  induction t as [|y t IH]; intros k x O H L; [destruct k; discriminate|].
  destruct k as [|k]; cbn in H, L.
  - destruct t; [|cbn in L; lia]. injection H as ->. exact O.
  - apply (IH k x); [now apply orderly_tail in O|exact H|lia].
Qed.

(** ** The lexer as a reader *)
Arguments padded : simpl never.
Section Reader.
Variable text : list char.
Hypothesis Orderly : orderly text.
Definition reads_as (a : reader) (s : lexer) : Prop :=
  data (file s) = text /\ index (file s) <= length text /\ column (file s) <= index (file s) /\
  (0 < column (file s) -> nth_error text (index (file s) - 1) <> Some LF) /\
  source a = source_lines (skipn (index (file s) - column (file s)) text) /\
  index (buffer s) = length (data (buffer s)) /\ column (buffer s) = 0 /\
  pending s = map (fun r => r ++ [LF]) (records a) /\
  Forall (fun r => r <> [] /\ forall x, In x r -> x <> LF /\ x <> CR) (records a).

Lemma at_end : forall a s, reads_as a s -> index (file s) = length text -> column (file s) = 0.
Proof.
  intros a s (D & Ix & Co & Nl & _) E. destruct (column (file s)) as [|k] eqn:K; [reflexivity|]. exfalso. apply (Nl ltac:(lia)).
  destruct (nth_error text (index (file s) - 1)) as [x|] eqn:A; [|apply nth_error_None in A; lia].
  f_equal. eapply orderly_end; [exact Orderly|exact A|lia].
Qed.
Lemma rewind_line_spec : forall a s, reads_as a s ->
  reads_as a (rewind_line s) /\ column (file (rewind_line s)) = 0 /\ buffer (rewind_line s) = buffer s /\
  from_buffer (rewind_line s) = from_buffer s /\ pending (rewind_line s) = pending s /\
  index (file (rewind_line s)) = index (file s) - column (file s).
Proof.
  intros a s H. pose proof (at_end a s H) as E. unfold rewind_line. destruct (column (file s) =? 0) eqn:C.
  - split; [exact H|]. repeat split; auto; lia.
  - assert (index (file s) < length text) by (destruct H as (_ & Ix & _); destruct (Nat.eq_dec (index (file s)) (length text)); [specialize (E e); lia|lia]).
    unfold rewind_input. destruct H as (D & Ix & Co & Nl & So & B1 & B2 & Pe & F). rewrite D.
    replace (length text <=? index (file s) - column (file s)) with false by lia.
    unfold reads_as. cbn. rewrite D. repeat split; auto; try lia. rewrite So. f_equal. f_equal. lia.
Qed.

Lemma ainsert_spec : forall a s f r, reads_as a s -> record_ok r ->
  exists s', ainsert f r s = Some s' /\ reads_as (snd (do_op (Insert f r) a)) s'.
Proof.
  intros a s f r H (N & Nl & Nc). unfold ainsert. destruct r as [|x r]; [congruence|].
  change (pad 80 (x :: r)) with (padded (x :: r)).
  match goal with |- context [rewind_line ?z] => set (s1 := z) end.
  eexists. split; [reflexivity|].
  assert (R1 : reads_as (snd (do_op (Insert f (x :: r)) a)) s1).
  { assert (Ok : padded (x :: r) <> [] /\ forall y, In y (padded (x :: r)) -> y <> LF /\ y <> CR).
    { split; [discriminate|]. intros y Y. unfold padded in Y. apply in_app_or in Y. destruct Y as [Y|Y].
      - split; intros ->; [now apply Nl|now apply Nc].
      - apply repeat_spec in Y. subst y. split; discriminate. }
    destruct H as (D & Ix & Co & Nl' & So & B1 & B2 & Pe & F).
    unfold s1, reads_as. destruct f; cbn [file buffer pending do_op snd records source]; rewrite Pe; refine (conj D (conj Ix (conj Co (conj Nl' (conj So (conj B1 (conj B2 (conj _ _)))))))).
    - reflexivity.
    - constructor; [exact Ok|exact F].
    - now rewrite map_app.
    - apply Forall_app. split; [exact F|]. constructor; [exact Ok|constructor]. }
  destruct (rewind_line_spec _ _ R1) as (R2 & _). exact R2.
Qed.

(** Reading the next line of a stream that is at the beginning of one. *)
Lemma read_spec : forall s l rest t, skipn (index (current s)) (data (current s)) = l ++ rest ->
  (forall x, In x l -> x <> LF /\ x <> CR) -> (rest = LF :: t \/ rest = CR :: LF :: t) ->
  exists s', (let '(l', s') := read_line (remaining (current s)) s in (l', consume_new_line s')) = (l, s') /\ kept s s' /\
    data (current s') = data (current s) /\ column (current s') = 0 /\ skipn (index (current s')) (data (current s')) = t /\
    index (current s') = length (data (current s)) - length t /\ index (current s') <= length (data (current s)).
Proof.
  intros s l rest t H Nl R.
  assert (Le : length l + length rest = length (data (current s)) - index (current s)) by (rewrite <- app_length, <- H; apply skipn_length).
  assert (Lr : length rest > length t) by (destruct R; subst rest; cbn; lia).
  destruct (read_line_spec l (remaining (current s)) s rest H Nl) as (s1 & W & K & D & Ix & Co & Sk).
  - destruct R; subst rest; auto.
  - unfold remaining. lia.
  - rewrite W. destruct (new_line_spec s1 rest t Sk R) as (K2 & D2 & Co2 & Sk2 & Ix2).
    exists (consume_new_line s1). split; [reflexivity|]. split; [eapply kept_trans; eassumption|].
    rewrite D2, D, Ix2, Ix. rewrite D2, D, Ix2, Ix in Sk2. repeat split; auto; lia.
Qed.

Lemma create_kept : forall t h s, file (create_token t h s) = file s /\ buffer (create_token t h s) = buffer s /\ pending (create_token t h s) = pending s.
Proof. intros t h s. unfold create_token. cbv zeta. destruct (_ && _ && _); cbn; auto. Qed.
Lemma reads_as_same : forall a s s', file s' = file s -> buffer s' = buffer s -> pending s' = pending s -> reads_as a s -> reads_as a s'.
Proof. intros a s s' F B P H. unfold reads_as. rewrite F, B, P. exact H. Qed.

Lemma aread_spec : forall a s, reads_as a s -> exists s', aread s = (match fst (do_op Read a) with Some l => l | None => [] end, s') /\ reads_as (snd (do_op Read a)) s'.
Proof.
  intros a s H. unfold aread.
  pose proof H as (D & Ix & Co & Nl & So & B1 & B2 & Pe & F).
  assert (Lb : LA 1 (buffer s) = None) by (unfold LA; apply nth_error_None; lia).
  unfold switch_input_streams. rewrite Lb.
  destruct (records a) as [|r rs] eqn:Er.
  - (* from the source *)
    cbn [map] in Pe. rewrite Pe.
    match goal with |- context [eof ?z] => set (s1 := z) end.
    assert (H1 : reads_as a s1) by (apply (reads_as_same a s); auto).
    assert (F1 : from_buffer s1 = false) by reflexivity.
    unfold eof at 1. cbn [s1 file buffer]. rewrite Lb. unfold LA. rewrite D. replace (index (file s) + (1 - 1)) with (index (file s)) by lia.
    destruct (nth_error text (index (file s))) as [x|] eqn:A.
    + clear Lb Pe. cbv iota beta. destruct (rewind_line_spec a s1 H1) as (R2 & C2 & Bu2 & Fb2 & Pe2 & Ix2).
      set (s2 := rewind_line s1) in *.
      assert (Rr : rewind_record s2 = s2) by (unfold rewind_record; rewrite Fb2, F1; reflexivity). rewrite Rr.
      set (s3 := start_token s2).
      assert (Cu : current s3 = file s2) by (unfold current, s3; cbn; rewrite Fb2, F1; reflexivity).
      assert (Cu0 : current s3 = file s3) by (unfold current, s3; cbn; rewrite Fb2, F1; reflexivity).
      pose proof R2 as (D2 & Ix2' & _ & _ & So2 & Bi2 & Bc2 & Pp2 & _).
      assert (Lt : index (file s) < length text) by (apply nth_error_Some; congruence).
      assert (Ne : skipn (index (file s2)) text <> []).
      { intros Z. assert (length (skipn (index (file s2)) text) = 0) by (rewrite Z; reflexivity). rewrite skipn_length in H0. rewrite Ix2 in H0. cbn in H0. lia. }
      destruct (first_line_split _ (skipn_orderly (index (file s2)) text Orderly) Ne) as (l & rest & t & E & Nl' & R & S & _).
      destruct (read_spec s3 l rest t) as (s4 & W & K & D4 & C4 & Sk4 & Ix4 & Le4); auto.
      { rewrite Cu, D2. exact E. }
      rewrite Cu, D2 in *.
      destruct (read_line (remaining (file s2)) s3) as [l' s3'] eqn:Rl. injection W as -> <-.
      set (s4 := consume_new_line s3') in *.
      assert (Fb4 : from_buffer s4 = false) by (destruct K as (K & _); rewrite K; cbn; rewrite Fb2; exact F1).
      assert (F4 : current s4 = file s4) by (unfold current; rewrite Fb4; reflexivity).
      assert (Bu4 : buffer s4 = buffer s2).
      { destruct K as (_ & _ & K). unfold other in K. rewrite Fb4 in K. rewrite K. cbn. now rewrite Fb2, F1. }
      assert (Pe4 : pending s4 = pending s2) by (destruct K as (_ & K & _); rewrite K; reflexivity).
      rewrite F4 in *.
      assert (So' : source a = l :: source_lines t).
      { rewrite So2, C2, Nat.sub_0_r. exact S. }
      assert (R4 : reads_as {| records := []; source := source_lines t |} s4).
      { unfold reads_as. cbn [records source]. rewrite D4 in Sk4. rewrite Bu4, Pe4, Pp2, Er, C4, D4, Nat.sub_0_r, Sk4. repeat split; auto; lia. }
      unfold do_op. rewrite Er, So'. cbn [fst snd].
      destruct (eof s4).
      * destruct (create_kept EOF false s4) as (X1 & X2 & X3). eexists. split; [reflexivity|]. eapply reads_as_same; eassumption.
      * eexists. split; [reflexivity|]. exact R4.
    + (* the source has ended *)
      apply nth_error_None in A. assert (E : index (file s) = length text) by lia. pose proof (at_end a s H E) as C0.
      rewrite C0, E, Nat.sub_0_r, skipn_all in So. cbn in So. unfold do_op. rewrite Er, So. cbn [fst snd].
      eexists. split; [reflexivity|]. exact H1.
  - (* a record *)
    cbn [map] in Pe. rewrite Pe. pose proof F as F0. apply Forall_inv in F. destruct F as [Nr Cr].
    set (b := {| data := data (buffer s) ++ (r ++ [LF]); index := index (buffer s); line := line (buffer s);
                      column := column (buffer s); column16 := column16 (buffer s) |}).
    assert (Sb : skipn (index b) (data b) = r ++ [LF]).
    { cbn. rewrite B1, skipn_app, skipn_all, Nat.sub_diag. reflexivity. }
    assert (Lb' : exists y, LA 1 b = Some y).
    { destruct r as [|y r]; [congruence|]. exists y. unfold LA. replace (index b + (1 - 1)) with (index b) by lia. now destruct (skipn_nth _ _ _ _ Sb). }
    destruct Lb' as [y Lb']. rewrite Lb'.
    match goal with |- context [eof ?z] => set (s1 := z) end.
    assert (Eo : eof s1 = false) by (unfold eof, s1; cbn [file buffer]; rewrite Lb'; destruct (LA 1 (file s)); reflexivity).
    rewrite Eo.
    assert (Rw : exists s2, rewind_line s1 = s2 /\ data (file s2) = text /\ index (file s2) = index (file s) - column (file s) /\ column (file s2) = 0 /\
              buffer s2 = b /\ from_buffer s2 = true /\ pending s2 = map (fun r => r ++ [LF]) rs).
    { eexists. split; [reflexivity|]. unfold rewind_line. cbn [s1 file]. destruct (column (file s) =? 0) eqn:C0.
      - cbn. repeat split; auto; lia.
      - assert (index (file s) < length text).
        { destruct (Nat.eq_dec (index (file s)) (length text)) as [e|]; [|lia]. pose proof (at_end a s H e). lia. }
        unfold rewind_input. cbn [s1 file]. rewrite D. replace (length text <=? index (file s) - column (file s)) with false by lia.
        cbn. repeat split; auto. }
    destruct Rw as (s2 & -> & D2 & Ix2 & C2 & Bu2 & Fb2 & Pe2).
    assert (Rr : rewind_record s2 = s2) by (unfold rewind_record; rewrite Fb2, Bu2; cbn; rewrite B2; reflexivity). rewrite Rr.
    set (s3 := start_token s2).
    assert (Cu : current s3 = b) by (unfold current, s3; cbn; rewrite Fb2; exact Bu2).
    destruct (read_spec s3 r [LF] []) as (s4 & W & K & D4 & C4 & Sk4 & Ix4 & Le4); auto.
    { rewrite Cu. exact Sb. }
    rewrite Cu in *.
    destruct (read_line (remaining b) s3) as [l' s3'] eqn:Rl. injection W as -> <-.
    set (s4 := consume_new_line s3') in *.
    assert (Fb4 : from_buffer s4 = true) by (destruct K as (K & _); rewrite K; exact Fb2).
    assert (F4 : current s4 = buffer s4) by (unfold current; rewrite Fb4; reflexivity).
    assert (Fi4 : file s4 = file s2).
    { destruct K as (_ & _ & K). unfold other in K. rewrite Fb4 in K. rewrite K. cbn. now rewrite Fb2. }
    assert (Pe4 : pending s4 = pending s2) by (destruct K as (_ & K & _); rewrite K; reflexivity).
    rewrite F4 in *.
    assert (R4 : reads_as {| records := rs; source := source a |} s4).
    { unfold reads_as. cbn [records source]. rewrite Fi4, Pe4, Pe2, D2, Ix2, C2, C4, D4, Nat.sub_0_r. repeat split; auto; try lia.
      - rewrite Ix4. cbn [length]. lia.
      - now apply Forall_inv_tail in F0. }
    unfold do_op. rewrite Er. cbn [fst snd]. destruct r as [|z r]; [congruence|].
    destruct (eof s4).
    + destruct (create_kept EOF false s4) as (X1 & X2 & X3). eexists. split; [reflexivity|]. eapply reads_as_same; eassumption.
    + eexists. split; [reflexivity|]. exact R4.
Qed.

Lemma ops_spec : forall os a s, reads_as a s -> Forall op_ok os ->
  exists s', lex_ops os s = Some (fst (do_ops os a), s') /\ reads_as (snd (do_ops os a)) s'.
Proof.
  induction os as [|o os IH]; intros a s H Ok.
  - exists s. cbn. auto.
  - pose proof (Forall_inv Ok) as Ok1. apply Forall_inv_tail in Ok. destruct o as [f r|].
    + destruct (ainsert_spec a s f r H Ok1) as (s1 & W1 & H1). cbn [lex_ops do_ops]. rewrite W1.
      destruct (IH _ s1 H1 Ok) as (s' & W & R). exists s'.
      assert (N : fst (do_op (Insert f r) a) = None) by (destruct f; reflexivity).
      destruct (do_op (Insert f r) a) as [x a'] eqn:E. cbn in N, W, R. subst x. destruct (do_ops os a') as [xs a'']. cbn in *. auto.
    + destruct (aread_spec a s H) as (s1 & W1 & H1). cbn [lex_ops do_ops]. rewrite W1.
      destruct (IH _ s1 H1 Ok) as (s' & W & R). rewrite W.
      assert (N : exists l, fst (do_op Read a) = Some l) by (unfold do_op; destruct (records a); [destruct (source a)|]; eexists; reflexivity).
      destruct N as [l N]. destruct (do_op Read a) as [x a'] eqn:E. cbn in N, W, R |- *. subst x. destruct (do_ops os a') as [xs a'']. cbn in *.
      exists s'. auto.
Qed.
End Reader.
