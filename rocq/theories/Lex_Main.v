(** Lexing a whole text. *)
From Coq Require Import List NArith Bool Arith Lia ZifyBool ZifyNat ZifyN.
From Verif Require Import Common Lex_Model Lex_Spec Lex_Proof Lex_Funs Lex_Words.
Import ListNotations.

Set Default Proof Using "Type".
Section Process.
Variable unlimited : bool.
Variable text : list char.
Notation size := (length text).
Notation plain := (plain text).
Notation began := (began text).
Notation pos s := (index (file s)).
Notation at_ p := (nth_error text p).
Notation lexed := (lexed unlimited text).

Lemma lexed_start : forall e s s', lexed e (start_token s) s' -> lexed e s s'.
Proof. intros e s s' H. exact H. Qed.
Lemma lexed_apos : forall e n s s', lexed e (with_apostrophes n s) s' -> lexed e s s'.
Proof. intros e n s s' H. exact H. Qed.
Lemma plain_apos : forall n s, plain s -> plain (with_apostrophes n s).
Proof. intros n s H. exact H. Qed.
Lemma lexed_wider : forall s s', column_of text (pos s) <= END -> lexed END s s' -> lexed (S END) s s'.
Proof.
  intros s s' Co (P & (X1 & X2 & X3) & T). split; [exact P|]. split; [|exact T]. split; [exact X1|]. split; [exact X2|].
  intros U _. specialize (X3 U Co). lia.
Qed.
Lemma lexed_refl : forall e s, plain s -> lexed e s s.
Proof.
  intros e s P. split; [exact P|]. split; [apply passes_refl; now apply plain_size|]. exists []. rewrite app_nil_r. repeat constructor.
Qed.
Lemma process_tokens_plain : forall fuel s, plain s -> size - pos s < fuel ->
  exists s', process_tokens unlimited fuel s = Some s' /\ lexed (S END) s s'.
Proof.
  induction fuel as [|fuel IH]; intros s P Hf; [lia|]. cbn [process_tokens].
  destruct (negb (eof s) && before_end unlimited (S END) s && negb (is LF (c s)) && negb (is CR (c s)) && (Nat.odd (apostrophes s) || negb (is BLANK (c s)))) eqn:K.
  - rewrite (plain_eof text s P) in K. destruct (c s) as [x|] eqn:C; [|discriminate].
    repeat (apply andb_true_iff in K; destruct K as [K ?]). unfold is in *.
    destruct (start_plain text s P) as (P1 & B1 & E1 & F1 & Q1 & V1 & C1).
    destruct (lex_token_plain unlimited text (S END) (start_token s) x P1 B1 E1 ltac:(congruence)) as (s2 & W & L & G).
    { rewrite (plain_before unlimited text _ _ P1), F1, C1, <- (plain_before unlimited text _ _ P). assumption. }
    rewrite W. replace ((x =? LF)%N || (x =? CR)%N) with false in G by lia. rewrite F1 in L.
    assert (P2 : plain s2) by apply G. destruct (plain_some text s x P C) as [_ Zs].
    destruct (IH s2 P2 ltac:(lia)) as (s3 & W3 & L3). exists s3. split; [exact W3|]. eapply lexed_trans; [|exact L3]. now apply lexed_start.
  - exists s. split; [reflexivity|]. now apply lexed_refl.
Qed.
Lemma iter_plain : forall k s, plain s -> (forall i, i < k -> plain_char text (pos s + i)) ->
  plain (Nat.iter k consume s) /\ same s (Nat.iter k consume s) /\ pos (Nat.iter k consume s) = pos s + k.
Proof.
  induction k as [|k IH]; intros s P H; [cbn; auto using same_refl|].
  destruct (IH s P ltac:(intros; apply H; lia)) as (P1 & S1 & N1).
  destruct (H k ltac:(lia)) as (x & A & _). rewrite <- N1 in A.
  change (Nat.iter (S k) consume s) with (consume (Nat.iter k consume s)).
  destruct (consume_plain text (Nat.iter k consume s) x P1) as (P2 & S2 & N2 & _).
  { now rewrite (plain_c text _ P1). }
  split; [exact P2|]. split; [eapply same_trans; eassumption|]. lia.
Qed.
Lemma is_process_chars : forall s, plain s -> c s = Some 42%N -> is_process s = true ->
  (forall i, i < 8 -> plain_char text (pos s + i)).
Proof.
  intros s P C H. pose proof (plain_current text s P) as Cu. destruct (plain_some text s _ P C) as [A _].
  unfold is_process in H. rewrite Cu in H. apply andb_true_iff in H. destruct H as [_ H].
  destruct P as (_ & _ & _ & (D & _) & _). unfold LA in H. rewrite D in H.
  cbn [forallb fst snd] in H. repeat (apply andb_true_iff in H; destruct H as [? H]).
  assert (G : forall j y, match nth_error text j with Some x => (upper x =? y)%N | None => false end = true -> (32 < y)%N -> plain_char text j).
  { intros j y K Y. destruct (nth_error text j) as [x|] eqn:E; [|discriminate]. exists x. split; [exact E|]. unfold upper in K. unfold LF, CR.
    destruct ((97 <=? x) && (x <=? 122))%N; split; intros ->; lia. }
  intros i Hi. destruct i as [|i]; [exists 42%N; rewrite Nat.add_0_r; split; [exact A|split; discriminate]|].
  destruct i as [|[|[|[|[|[|[|i]]]]]]]; [exact (G _ _ H0 eq_refl)|exact (G _ _ H1 eq_refl)|exact (G _ _ H2 eq_refl)|exact (G _ _ H3 eq_refl)|exact (G _ _ H4 eq_refl)|exact (G _ _ H5 eq_refl)|exact (G _ _ H6 eq_refl)|lia].
Qed.
Lemma lex_process_plain : forall s, plain s -> c s = Some 42%N -> is_process s = true -> column_of text (pos s) = 0 ->
  exists s1, lexed (S END) s s1 /\ pos s < pos s1 /\ lex_process unlimited s = lex_end true s1.
Proof.
  intros s P C H Co. pose proof (is_process_chars s P C H) as Ch. unfold lex_process, process_options.
  destruct (start_plain text s P) as (P1 & B1 & E1 & F1 & Q1 & V1 & C1).
  destruct (iter_plain 8 (start_token s) P1 ltac:(rewrite F1; exact Ch)) as (P2 & S2 & N2). rewrite F1 in N2.
  set (s2 := Nat.iter 8 consume (start_token s)) in *. clearbody s2.
  pose proof (plain_size text s2 P2) as Z2.
  assert (Nl : forall r, pos s <= r < pos s2 -> at_ r <> Some LF).
  { intros r Hr. destruct (Ch (r - pos s) ltac:(lia)) as (x & A & L & _). replace (pos s + (r - pos s)) with r in A by lia. congruence. }
  assert (Pa : passes unlimited text (S END) (pos s) (pos s2)).
  { split; [lia|]. split.
    - intros r Hr. replace r with (pos s + (r - pos s)) by lia. apply Ch. lia.
    - intros _ _. destruct (between text (pos s) (pos s2) ltac:(lia) Nl) as [_ Y]. unfold END. lia. }
  destruct (token_made unlimited text PROCESS (S END) s s2 P2) as (L3 & F3 & C3 & A3); auto; try discriminate.
  { eapply same_began; [exact B1|exact S2|]. rewrite F1. lia. }
  { destruct S2 as (_ & X & _). congruence. }
  { destruct S2 as (X & _). congruence. }
  set (s3 := create_token PROCESS false s2) in *. clearbody s3. assert (P3 : plain s3) by apply L3.
  destruct (start_plain text s3 P3) as (P4 & B4 & E4 & F4 & Q4 & V4 & C4).
  destruct (lex_space_plain unlimited text END (start_token s3) P4 B4 E4) as (s5 & W5 & L5 & _). rewrite W5.
  assert (Co3 : column_of text (pos s3) <= END).
  { rewrite F3. destruct (between text (pos s) (pos s2) ltac:(lia) Nl) as [_ Y]. unfold END. lia. }
  pose proof (lexed_wider s3 s5 Co3 (lexed_start _ _ _ L5)) as L5'.
  assert (P5 : plain s5) by apply L5. rewrite (plain_remaining text s5 P5).
  destruct (process_tokens_plain (S (size - pos s5)) (with_apostrophes 0 s5) (plain_apos _ _ P5)) as (s7 & W7 & L7).
  { cbn [with_apostrophes file]. lia. }
  rewrite W7. apply lexed_apos in L7. exists s7. split; [|split; [|reflexivity]].
  - eapply lexed_trans; [exact L3|]. eapply lexed_trans; [exact L5'|]. exact L7.
  - destruct L7 as (_ & (X & _) & _). destruct L5' as (_ & (Y & _) & _). rewrite F3 in Y. lia.
Qed.
(** What the lexer sees at the beginning of a line. *)
Lemma reads_here : forall s i xs, plain s -> column_of text (pos s) = 0 ->
  (forall j, j < i -> plain_char text (pos s + j)) -> existsb (N.eqb LF) xs = false ->
  reads text (line_of text (pos s)) i xs = existsb (fun x => is x (at_ (pos s + i))) xs.
Proof.
  intros s i xs P Co Pr Nl. unfold reads. pose proof (plain_size text s P) as Z.
  assert (I : pos s + i <= size).
  { destruct i as [|i]; [lia|]. destruct (Pr i ltac:(lia)) as (x & A & _). assert (pos s + i < size) by (apply nth_error_Some; congruence). lia. }
  destruct (between text (pos s) (pos s + i) ltac:(lia)) as [L K].
  { intros r Hr. destruct (Pr (r - pos s) ltac:(lia)) as (x & A & X & _). replace (pos s + (r - pos s)) with r in A by lia. congruence. }
  pose proof (letter_at text (pos s + i)) as Q. rewrite L, K, Co in Q. replace (0 + (pos s + i - pos s)) with i in Q by lia. rewrite Q.
  clear - Nl. induction xs as [|x xs IH]; [reflexivity|]. cbn in Nl |- *. apply orb_false_iff in Nl. destruct Nl as [N1 N2].
  f_equal; [|now apply IH]. destruct (nth_error text (pos s + i)) as [y|]; [|reflexivity]. destruct (y =? LF)%N eqn:E; [|reflexivity].
  apply N.eqb_eq in E. subst y. symmetry. cbn. rewrite N.eqb_sym. exact N1.
Qed.

Lemma reads_letter : forall s i u, plain s -> column_of text (pos s) = 0 -> (65 <= u <= 90)%N ->
  (forall j, j < i -> plain_char text (pos s + j)) ->
  reads text (line_of text (pos s)) i [u; (u + 32)%N] = match at_ (pos s + i) with Some x => (upper x =? u)%N | None => false end /\
  (reads text (line_of text (pos s)) i [u; (u + 32)%N] = true -> forall j, j < S i -> plain_char text (pos s + j)).
Proof.
  intros s i u P Co U Pr. assert (E : reads text (line_of text (pos s)) i [u; (u + 32)%N] = match at_ (pos s + i) with Some x => (upper x =? u)%N | None => false end).
  { rewrite (reads_here s i _ P Co Pr); [|cbn [existsb]; unfold LF; lia]. cbn [existsb]. destruct (at_ (pos s + i)) as [x|]; [|reflexivity].
    unfold is, upper. destruct ((97 <=? x) && (x <=? 122))%N eqn:W; lia. }
  split; [exact E|]. intros R j Hj. rewrite E in R. destruct (Nat.eq_dec j i) as [->|]; [|apply Pr; lia].
  destruct (at_ (pos s + i)) as [x|] eqn:A; [|discriminate]. exists x. split; [exact A|]. unfold upper, LF, CR in *.
  destruct ((97 <=? x) && (x <=? 122))%N; split; intros ->; lia.
Qed.
Lemma begins_here : forall s, plain s -> column_of text (pos s) = 0 ->
  begins text (line_of text (pos s)) =
  if is 42%N (c s) then (if is_process s then Process else Comment)
  else if is 46%N (c s) && is 42%N (LA 2 (file s)) then Comment else Statement.
Proof.
  intros s P Co. unfold begins, process_line.
  assert (L0 : forall x, x <> LF -> reads text (line_of text (pos s)) 0 [x] = is x (c s)).
  { intros x X. rewrite (reads_here s 0 [x] P Co); [|intros; lia|cbn [existsb]; unfold LF in *; lia]. cbn [existsb]. rewrite orb_false_r, Nat.add_0_r.
    now rewrite (plain_c text s P). }
  rewrite !L0 by discriminate.
  assert (Pc : forall x, c s = Some x -> x <> LF -> x <> CR -> forall j, j < 1 -> plain_char text (pos s + j)).
  { intros x C X1 X2 j Hj. replace j with 0 by lia. rewrite Nat.add_0_r. exists x. rewrite (plain_c text s P) in C. auto. }
  assert (La : LA 2 (file s) = at_ (pos s + 1)).
  { destruct P as (_ & _ & _ & (D & _) & _). unfold LA. now rewrite D. }
  destruct (c s) as [x|] eqn:C; cbn [is].
  2: { rewrite !andb_false_r. reflexivity. }
  destruct (42 =? x)%N eqn:X.
  - apply N.eqb_eq in X. subst x. cbn [orb N.eqb Pos.eqb].
    enough (E : forall b, (b && true && reads text (line_of text (pos s)) 1 [80%N; 112%N] && reads text (line_of text (pos s)) 2 [82%N; 114%N] &&
                reads text (line_of text (pos s)) 3 [79%N; 111%N] && reads text (line_of text (pos s)) 4 [67%N; 99%N] &&
                reads text (line_of text (pos s)) 5 [69%N; 101%N] && reads text (line_of text (pos s)) 6 [83%N; 115%N] &&
                reads text (line_of text (pos s)) 7 [83%N; 115%N])
                = b && forallb (fun p => match LA (fst p) (file s) with Some x => (upper x =? snd p)%N | None => false end)
    [(2, 80%N); (3, 82%N); (4, 79%N); (5, 67%N); (6, 69%N); (7, 83%N); (8, 83%N)]).
    { rewrite E. unfold is_process. rewrite (plain_current text s P).
      destruct P as (_ & _ & _ & (_ & _ & Li & _) & _). rewrite Li. destruct (_ && forallb _ _); reflexivity. }
    intros b. pose proof P as (_ & _ & _ & (D & _) & _).
    unfold LA. rewrite D. cbn [forallb fst snd Nat.sub]. rewrite andb_true_r.
    specialize (Pc _ eq_refl ltac:(discriminate) ltac:(discriminate)). rewrite andb_true_r.
    destruct (reads_letter s 1 80 P Co ltac:(lia) Pc) as (R1 & G1). cbn [N.add Pos.add] in R1, G1. change (80 + 32)%N with 112%N in *. rewrite <- R1.
    destruct (reads text (line_of text (pos s)) 1 [80%N; 112%N]); [|now rewrite !andb_false_r]. specialize (G1 eq_refl).
    destruct (reads_letter s 2 82 P Co ltac:(lia) G1) as (R2 & G2). change (82 + 32)%N with 114%N in *. rewrite <- R2.
    destruct (reads text (line_of text (pos s)) 2 [82%N; 114%N]); [|now rewrite !andb_false_r]. specialize (G2 eq_refl).
    destruct (reads_letter s 3 79 P Co ltac:(lia) G2) as (R3 & G3). change (79 + 32)%N with 111%N in *. rewrite <- R3.
    destruct (reads text (line_of text (pos s)) 3 [79%N; 111%N]); [|now rewrite !andb_false_r]. specialize (G3 eq_refl).
    destruct (reads_letter s 4 67 P Co ltac:(lia) G3) as (R4 & G4). change (67 + 32)%N with 99%N in *. rewrite <- R4.
    destruct (reads text (line_of text (pos s)) 4 [67%N; 99%N]); [|now rewrite !andb_false_r]. specialize (G4 eq_refl).
    destruct (reads_letter s 5 69 P Co ltac:(lia) G4) as (R5 & G5). change (69 + 32)%N with 101%N in *. rewrite <- R5.
    destruct (reads text (line_of text (pos s)) 5 [69%N; 101%N]); [|now rewrite !andb_false_r]. specialize (G5 eq_refl).
    destruct (reads_letter s 6 83 P Co ltac:(lia) G5) as (R6 & G6). change (83 + 32)%N with 115%N in *. rewrite <- R6.
    destruct (reads text (line_of text (pos s)) 6 [83%N; 115%N]); [|now rewrite !andb_false_r]. specialize (G6 eq_refl).
    destruct (reads_letter s 7 83 P Co ltac:(lia) G6) as (R7 & G7). change (83 + 32)%N with 115%N in *. rewrite <- R7.
    rewrite !andb_true_r. reflexivity.
  - rewrite !andb_false_r. cbn [orb andb]. destruct (46 =? x)%N eqn:Y; [|reflexivity].
    apply N.eqb_eq in Y. subst x. cbn [andb]. rewrite La.
    rewrite (reads_here s 1 [42%N] P Co (Pc _ eq_refl ltac:(discriminate) ltac:(discriminate)) eq_refl). cbn [existsb]. now rewrite orb_false_r.
Qed.
End Process.

Set Default Proof Using "All".
Section Main.
Variable unlimited : bool.
Variable text : list char.
Variable wide_space : char -> bool.
Notation size := (length text).
Notation plain := (plain text).
Notation began := (began text).
Notation pos s := (index (file s)).
Notation at_ p := (nth_error text p).
Notation sort := (sort wide_space text).
Notation statement_text := (statement_text wide_space text).
Notation process_text := (process_text wide_space text).
Notation fresh := (fresh text wide_space).
Notation quiet := (quiet text wide_space).
Notation lexed := (lexed unlimited text).

(** Which text a token has. *)
Definition fits (u : token) : Prop :=
  if seen u then (forall p, start u <= p < stop u -> statement_text p) \/ (forall p, start u <= p < stop u -> process_text p)
  else forall p, start u <= p < stop u -> ~ statement_text p.
(** Between two tokens. *)
Definition ready (s : lexer) : Prop :=
  fresh s \/ (snd (sort (line_of text (pos s))) = Statement /\ column_of text (pos s) <= 71 /\
              (fst (sort (line_of text (pos s))) = true -> 15 <= column_of text (pos s) \/ c s = Some LF)).

Lemma fits_quiet : forall a b ts, chain a ts b -> quiet a b -> Forall (fun u => seen u = false) ts -> Forall fits ts.
Proof.
  intros a b ts H Q S. destruct (chain_range _ _ _ H) as [_ R]. rewrite Forall_forall in *. intros u Hu. unfold fits. rewrite (S u Hu).
  intros p Hp. apply Q. specialize (R u Hu). lia.
Qed.
Lemma hides_unseen : forall ts, Forall hides ts -> Forall (fun u => seen u = false) ts.
Proof. intros ts H. eapply Forall_impl; [|exact H]. intros u Hu. unfold seen, hides in *. now rewrite Hu. Qed.
Lemma fits_seen : forall (phi : nat -> Prop) a b ts, chain a ts b -> (forall r, a <= r < b -> phi r) -> (phi = statement_text \/ phi = process_text) ->
  Forall (fun u => seen u = true) ts -> Forall fits ts.
Proof.
  intros phi a b ts H Q Ph S. destruct (chain_range _ _ _ H) as [_ R]. rewrite Forall_forall in *. intros u Hu. unfold fits. rewrite (S u Hu).
  specialize (R u Hu). destruct Ph as [-> | ->]; [left|right]; intros p Hp; apply Q; lia.
Qed.
Lemma lf_quiet : forall r, (at_ r = Some LF \/ at_ r = Some CR) -> ~ statement_text r.
Proof. intros r H (_ & _ & x & A & L & C). destruct H; congruence. Qed.

Lemma sort_begins : forall l, fst (sort l) = false -> snd (sort l) = begins text l.
Proof.
  intros [|l]; [reflexivity|]. cbn. destruct (sort l) as [b [| |]]; try reflexivity; destruct (flagged wide_space text l); cbn; congruence.
Qed.

(** ** One step *)
Definition lexes (s s' : lexer) (ts : list token) : Prop :=
  plain s' /\ queue s' = queue s ++ ts /\ chain (pos s) ts (pos s') /\
  (c s = None -> pos s' = pos s /\ exists u v, ts = [u; v] /\ ty u = EOLLN /\ ty v = EOF /\ hidden v = false) /\
  (c s <> None -> pos s < pos s' /\ ts <> [] /\ Forall (fun u => hidden u = false -> ty u <> EOF) ts) /\
  (unlimited = false -> ready s -> ready s' /\ Forall fits ts).
Lemma hides_eof : forall ts, Forall hides ts -> Forall (fun u => hidden u = false -> ty u <> EOF) ts.
Proof. intros ts H. eapply Forall_impl; [|exact H]. intros u Hu X. unfold hides in Hu. congruence. Qed.
Lemma seen_eof : forall ts, Forall (fun u => seen u = true) ts -> Forall (fun u => hidden u = false -> ty u <> EOF) ts.
Proof. intros ts H. eapply Forall_impl; [|exact H]. intros u Hu X E. unfold seen in Hu. rewrite X, E in Hu. discriminate. Qed.
Lemma nonempty_chain : forall a ts b, chain a ts b -> a < b -> ts <> [].
Proof. intros a ts b H L ->. inversion H. lia. Qed.

(** The rest of a line of which nothing is left to be lexed. *)
Lemma lex_end_main : forall s x, plain s -> c s = Some x ->
  exists s' ts, lex_end true s = Some s' /\ plain s' /\ queue s' = queue s ++ ts /\ chain (pos s) ts (pos s') /\ pos s < pos s' /\
    Forall (fun u => hidden u = false -> ty u <> EOF) ts /\ Forall (fun u => seen u = false) ts /\ rest_of_line text (pos s) (pos s').
Proof.
  intros s x P C. destruct (plain_some text s x P C) as [A Z].
  destruct (lex_end_plain text true s P) as (s' & ts & W & P' & R & Q & T). exists s', ts.
  split; [exact W|]. split; [exact P'|]. split; [exact Q|].
  destruct ts as [|u [|v [|? ?]]]; try contradiction.
  - lia.
  - destruct T as ((U1 & U2 & U3 & U4) & L & _). conjs; auto.
    + rewrite <- U3, <- U4. apply chain_cons; [lia|constructor].
    + repeat constructor. congruence.
    + repeat constructor. unfold seen. now rewrite U2.
  - destruct T as (_ & (U1 & U2 & U3 & U4) & (V1 & V2 & V3 & V4) & L). conjs; auto.
    + rewrite <- U3, <- U4. apply chain_line; try congruence; [lia|]. constructor.
    + repeat constructor; congruence.
    + repeat constructor; unfold seen; [now rewrite U1, U2|now rewrite V2].
Qed.

Lemma ready_column : forall s x, ready s -> c s = Some x -> column_of text (pos s) <= 71.
Proof. intros s x [[H|[H _]]|(_ & H & _)] C; [congruence|lia|exact H]. Qed.
Lemma fresh_ready : forall s, fresh s -> ready s. Proof. now left. Qed.

(** Tokens of a statement. *)
Lemma statement_lexed : forall s s', lexed END s s' -> unlimited = false -> pos s < pos s' -> column_of text (pos s) <= 71 ->
  snd (sort (line_of text (pos s))) = Statement -> (fst (sort (line_of text (pos s))) = true -> 15 <= column_of text (pos s)) ->
  ready s' /\ forall ts, chain (pos s) ts (pos s') -> Forall (fun u => seen u = true) ts -> Forall fits ts.
Proof.
  intros s s' (P' & (L & Pc & Co) & _) U Lt C71 K Ct.
  assert (Nl : forall r, pos s <= r < pos s' -> at_ r <> Some LF).
  { intros r Hr. destruct (Pc r Hr) as (x & A & X & _). congruence. }
  specialize (Co U C71). unfold END in Co.
  destruct (between text (pos s) (pos s') ltac:(lia) Nl) as [Li Cl]. split.
  - right. rewrite Li. split; [exact K|]. split; [exact Co|]. intros F. left. specialize (Ct F). lia.
  - intros ts Ch Se. apply (fits_seen statement_text (pos s) (pos s')); auto. intros r Hr.
    destruct (between text (pos s) r ltac:(lia) ltac:(intros; apply Nl; lia)) as [Lr Cr].
    destruct (Pc r Hr) as (x & A & X1 & X2). unfold Lex_Spec.statement_text. rewrite Lr. split; [exact K|]. split.
    + destruct (fst (sort (line_of text (pos s)))); [specialize (Ct eq_refl); lia|lia].
    + exists x. auto.
Qed.
(** The end of a line of a statement. *)
Lemma statement_line : forall s s', plain s -> line_token text s s' -> column_of text (pos s) < 71 ->
  snd (sort (line_of text (pos s))) = Statement -> (fst (sort (line_of text (pos s))) = true -> 15 <= column_of text (pos s) \/ c s = Some LF) ->
  ready s' /\ quiet (pos s) (pos s').
Proof.
  intros s s' P (P' & u & _ & _ & _ & _ & H) C71 K Ct. pose proof (plain_size text s' P') as Z'.
  destruct H as [(A & N)|[(A & N & X)|(A & B & N)]]; rewrite N in *.
  - split.
    + left. apply (rest_fresh text wide_space (pos s)); auto; [lia|left; exists (pos s); conjs; auto; intros; lia|].
      right. apply not_flagged. split; [lia|auto].
    + intros r Hr. replace r with (pos s) by lia. apply lf_quiet. auto.
  - destruct (between text (pos s) (S (pos s)) ltac:(lia)) as [Li Co].
    { intros r Hr. replace r with (pos s) by lia. rewrite A. discriminate. }
    split.
    + right. rewrite N, Li. split; [exact K|]. split; [lia|]. intros F. left. destruct (Ct F) as [Y|Y]; [lia|].
      rewrite (plain_c text s P), A in Y. discriminate.
    + intros r Hr. replace r with (pos s) by lia. apply lf_quiet. auto.
  - destruct (between text (pos s) (S (pos s)) ltac:(lia)) as [Li Co].
    { intros r Hr. replace r with (pos s) by lia. rewrite A. discriminate. }
    split.
    + left. apply (rest_fresh text wide_space (S (pos s))); auto; [lia|left; exists (S (pos s)); conjs; auto; intros; lia|].
      right. apply not_flagged. split; [lia|auto].
    + intros r Hr. apply lf_quiet. destruct (Nat.eq_dec r (pos s)) as [->|]; [auto|]. replace r with (S (pos s)) by lia. auto.
Qed.

Lemma switch_plain : forall s, plain s -> plain (switch_input_streams s) /\ file (switch_input_streams s) = file s /\
  queue (switch_input_streams s) = queue s.
Proof.
  intros s P. unfold switch_input_streams. destruct P as (F & Pe & B & R). rewrite B, Pe. cbn. unfold Lex_Proof.plain. cbn. auto.
Qed.
Lemma lex_token_main : forall s x, plain s -> began s -> begun s = file s -> c s = Some x -> (unlimited = true -> x <> LF /\ x <> CR) ->
  (unlimited = false -> column_of text (pos s) < 71) ->
  (unlimited = false -> snd (sort (line_of text (pos s))) = Statement /\
     (fst (sort (line_of text (pos s))) = true -> 15 <= column_of text (pos s) \/ c s = Some LF)) ->
  exists s' ts, lex_token unlimited END s = Some s' /\ plain s' /\ queue s' = queue s ++ ts /\ chain (pos s) ts (pos s') /\ pos s < pos s' /\
    Forall (fun u => hidden u = false -> ty u <> EOF) ts /\ (unlimited = false -> ready s' /\ Forall fits ts).
Proof.
  intros s x P B E C Un Lim St.
  assert (Be : before_end unlimited END s = true).
  { rewrite (plain_before unlimited text _ _ P), C. unfold is. destruct unlimited; [specialize (Un eq_refl); unfold END; lia|]. specialize (Lim eq_refl). unfold END. lia. }
  destruct (lex_token_plain unlimited text END s x P B E C Be) as (s' & W & L & G).
  destruct ((x =? LF)%N || (x =? CR)%N) eqn:X.
  - pose proof G as (P' & u & Q & T & U1 & U2 & _). exists s', [u]. conjs; auto.
    + rewrite <- U1, <- U2. apply chain_cons; [lia|constructor].
    + constructor; [congruence|constructor].
    + intros Ul. destruct (St Ul) as [K Ct]. destruct (statement_line s s' P G (Lim Ul) K Ct) as [R Qu]. split; [exact R|].
      apply (fits_quiet (pos s) (pos s')); [rewrite <- U1, <- U2; apply chain_cons; [lia|constructor]|exact Qu|].
      constructor; [|constructor]. unfold seen. rewrite T. apply andb_false_r.
  - pose proof G as (P' & Pa & ts & Q & Ch & Se). exists s', ts. conjs; auto.
    + now apply seen_eof.
    + intros Ul. destruct (St Ul) as [K Ct]. specialize (Lim Ul).
      destruct (statement_lexed s s' G Ul L ltac:(lia) K) as [R Fi].
      * intros F. destruct (Ct F) as [Y|Y]; [exact Y|]. rewrite C in Y. injection Y as ->. discriminate X.
      * split; [exact R|]. now apply Fi.
Qed.

Lemma lex_main : forall s, plain s -> exists s' ts, lex wide_space unlimited s = Some s' /\ lexes s s' ts.
Proof.
  intros s0 P0. unfold lex. destruct (switch_plain s0 P0) as (Psw & Fsw & Qsw).
  destruct (start_plain text _ Psw) as (P & B & E & F & Q & _ & Cs).
  set (s := start_token (switch_input_streams s0)) in *.
  assert (F0 : file s = file s0) by congruence.
  assert (E0 : begun s = file s) by congruence.
  assert (Q0 : queue s = queue s0) by congruence.
  assert (C0 : c s = c s0) by (rewrite (plain_c text s P), (plain_c text s0 P0), F0; reflexivity).
  assert (R0 : ready s0 -> ready s) by (unfold ready, Lex_Funs.fresh; rewrite F0, C0; auto).
  clear Cs F Q Psw Fsw Qsw E. clearbody s.
  enough (G : exists s' ts, (let col := column (current s) in
     if eof s then Some (create_token EOF false (create_token EOLLN false s))
     else if negb unlimited && (col =? END) && match c s with Some x => negb (isspace wide_space x) | None => true end
             && (negb (from_buffer s) || match pending s with [] => false | _ => true end)
     then lex_continuation s
     else if (unlimited && (is CR (c s) || is LF (c s))) || (negb unlimited && (END <=? col)) then lex_end true s
     else lex_tokens wide_space unlimited s) = Some s' /\ lexes s s' ts).
  { destruct G as (s' & ts & W & (G1 & G2 & G3 & G4 & G5 & G6)). exists s', ts. split; [exact W|]. unfold lexes.
    rewrite <- F0, <- C0, <- Q0. conjs; auto. }
  cbv zeta. clear s0 P0 F0 Q0 C0 R0. rewrite (plain_eof text s P), (plain_column text s P).
  assert (Fb : from_buffer s = false) by apply P. rewrite Fb. cbn [negb orb]. rewrite andb_true_r.
  destruct (c s) as [x|] eqn:C.
  2: { (* the end *)
    destruct (create_plain text EOLLN false s P B ltac:(discriminate)) as (P5 & B5 & E5 & F5 & C5 & A5 & L5 & [(_ & _ & _ & X)|(u & Q5 & U5 & _)]);
      [congruence|].
    destruct (create_plain text EOF false _ P5 B5 ltac:(discriminate)) as (P6 & B6 & E6 & F6 & C6 & A6 & L6 & [(_ & _ & X & _)|(v & Q6 & V6 & _)]);
      [congruence|].
    eexists _, [u; v]. split; [reflexivity|]. unfold lexes. rewrite F6, F5, Q6, Q5, C.
    destruct U5 as (U1 & U2 & U3 & U4 & _), V6 as (V1 & V2 & V3 & V4 & _). rewrite E0 in U3. rewrite E5, E0 in V3. rewrite F5 in V4.
    assert (Ch : chain (pos s) [u; v] (pos s)).
    { rewrite <- U3 at 1. apply chain_cons; [lia|]. rewrite U4, <- V3. apply chain_cons; [lia|]. rewrite V4, <- V3 at 1. rewrite V3. constructor. }
    conjs; auto.
    - now rewrite <- app_assoc.
    - intros _. split; [reflexivity|]. exists u, v. auto.
    - congruence.
    - intros _ R. split; [left; left; congruence|]. apply (fits_quiet (pos s) (pos s)); [exact Ch|intros r Hr; lia|].
      repeat constructor; unfold seen; [rewrite U1, U2|rewrite V1, V2]; reflexivity. }
  destruct (plain_some text s x P C) as [A Z].
  destruct (negb unlimited && (column_of text (pos s) =? END) && negb (isspace wide_space x)) eqn:K1.
  { (* a continuation *)
    apply andb_true_iff in K1. destruct K1 as [K1 K3]. apply andb_true_iff in K1. destruct K1 as [K1 K2]. unfold END in K2.
    assert (Sp : isspace wide_space x = false) by (destruct (isspace wide_space x); [discriminate|reflexivity]).
    assert (Co : column_of text (pos s) = 71) by lia.
    destruct (lex_continuation_plain text wide_space s x P C Sp Co) as (s' & ts & q & W & P' & Qq & Ch & H & Ne & R & L & I & Cl).
    exists s', ts. split; [exact W|]. unfold lexes. rewrite C. conjs; auto; [discriminate| |].
    - intros _. split; [lia|]. split; [exact Ne|]. now apply hides_eof.
    - intros U Rd.
      assert (Nl : at_ (pos s) <> Some LF) by (rewrite A; intros Y; injection Y as ->; discriminate).
      assert (K : snd (sort (line_of text (pos s))) = Statement).
      { destruct Rd as [[X|[X _]]|[X _]]; [congruence|lia|exact X]. }
      destruct (continuation_range text wide_space s s' q P P' Z Co (flagged_at text wide_space _ _ Co A Sp) ltac:(congruence) R L Nl I) as (Qu & [N|(So & C15)]).
      + split; [left; left; exact N|]. apply (fits_quiet (pos s) (pos s')); auto. now apply hides_unseen.
      + split; [|apply (fits_quiet (pos s) (pos s')); auto; now apply hides_unseen].
        destruct Cl as [Cl|Cl]; [left; left; exact Cl|]. right. rewrite So, K. cbn. split; [reflexivity|]. split; [lia|]. intros _. destruct Cl; auto. }
  destruct ((unlimited && (is CR (Some x) || is LF (Some x))) || (negb unlimited && (END <=? column_of text (pos s)))) eqn:K2.
  { (* the rest of the line *)
    destruct (lex_end_main s x P C) as (s' & ts & W & P' & Qq & Ch & L & Ne & Us & R). exists s', ts. split; [exact W|].
    unfold lexes. rewrite C. conjs; auto; [discriminate| |].
    - intros _. split; [exact L|]. split; [eapply nonempty_chain; eassumption|exact Ne].
    - intros U Rd. rewrite U in K1, K2. cbn [negb andb orb] in K1, K2. unfold END in *.
      pose proof (ready_column s x Rd C) as C71.
      assert (Co : column_of text (pos s) = 71) by lia.
      assert (K : snd (sort (line_of text (pos s))) = Statement).
      { destruct Rd as [[X|[X _]]|[X _]]; [congruence|lia|exact X]. }
      assert (Sp : isspace wide_space x = true) by (destruct (isspace wide_space x); [reflexivity|lia]).
      split.
      + left. apply (rest_fresh text wide_space (pos s)); auto; [lia|]. right. apply not_flagged. split; [lia|]. right. right. split; [exact Co|]. exists x. auto.
      + apply (fits_quiet (pos s) (pos s')); auto. intros r Hr (_ & X & _).
        destruct (rest_line text (pos s) (pos s') ltac:(lia) R) as (Y & _). destruct (Y r Hr) as [_ Y2].
        destruct (fst (sort (line_of text r))); lia. }
  (* tokens *)
  assert (Un : unlimited = true -> x <> LF /\ x <> CR).
  { intros U. rewrite U in K2. unfold is in K2. cbn [negb andb] in K2. lia. }
  assert (Lim : unlimited = false -> column_of text (pos s) < 71).
  { intros U. rewrite U in K2. cbn [negb andb orb] in K2. unfold END in K2. lia. }
  assert (Tok : (unlimited = false -> ready s -> snd (sort (line_of text (pos s))) = Statement /\
     (fst (sort (line_of text (pos s))) = true -> 15 <= column_of text (pos s) \/ c s = Some LF)) ->
     exists s' ts, lex_token unlimited END s = Some s' /\ lexes s s' ts).
  { intros St.
    assert (D : unlimited = false /\ (snd (sort (line_of text (pos s))) = Statement /\
     (fst (sort (line_of text (pos s))) = true -> 15 <= column_of text (pos s) \/ c s = Some LF)) \/ (unlimited = false -> ready s -> False) ).
    { destruct unlimited; [right; discriminate|].
      destruct (snd (sort (line_of text (pos s)))) eqn:K; [|right; intros _ R; destruct (St eq_refl R); discriminate|right; intros _ R; destruct (St eq_refl R); discriminate].
      destruct (fst (sort (line_of text (pos s)))) eqn:K'; [|left; split; [reflexivity|]; split; [reflexivity|discriminate]].
      destruct (le_lt_dec 15 (column_of text (pos s))); [left; auto|].
      destruct (N.eq_dec x LF) as [->|]; [left; auto|]. right. intros _ R. destruct (St eq_refl R) as [_ [Y|Y]]; [reflexivity|lia|congruence]. }
    destruct D as [[U D]|D].
    - destruct (lex_token_main s x P B E0 C Un Lim (fun _ => D)) as (s' & ts & W & P' & Qq & Ch & L & Ne & R). exists s', ts. split; [exact W|].
      unfold lexes. rewrite C. conjs; auto; [discriminate|]. intros _. split; [exact L|]. split; [eapply nonempty_chain; eassumption|exact Ne].
    - assert (Be : before_end unlimited END s = true).
      { rewrite (plain_before unlimited text _ _ P), C. unfold is. destruct unlimited; [specialize (Un eq_refl); unfold END; lia|]. specialize (Lim eq_refl). unfold END. lia. }
      destruct (lex_token_plain unlimited text END s x P B E0 C Be) as (s' & W & L & G).
      destruct ((x =? LF)%N || (x =? CR)%N) eqn:X.
      + destruct G as (P' & u & Q & T & U1 & U2 & _). exists s', [u]. split; [exact W|]. unfold lexes. rewrite C.
        assert (Ch : chain (pos s) [u] (pos s')) by (rewrite <- U1, <- U2; apply chain_cons; [lia|constructor]).
        conjs; auto; [discriminate| |].
        * intros _. split; [exact L|]. split; [discriminate|]. constructor; [congruence|constructor].
        * intros U R. destruct (D U R).
      + destruct G as (P' & Pa & ts & Q & Ch & Se). exists s', ts. split; [exact W|]. unfold lexes. rewrite C. conjs; auto; [discriminate| |].
        * intros _. split; [exact L|]. split; [eapply nonempty_chain; eassumption|]. now apply seen_eof.
        * intros U R. destruct (D U R). }
  unfold lex_tokens. rewrite (plain_column text s P), (plain_remaining text s P), C.
  destruct (column_of text (pos s) =? 0) eqn:C0.
  2: { apply Tok. intros U [[X|[X _]]|(K & _ & Ct)]; [congruence|lia|]. split; [exact K|exact Ct]. }
  apply Nat.eqb_eq in C0. pose proof (begins_here text s P C0) as Bg. rewrite C in Bg.
  assert (Fr : unlimited = false -> ready s -> x <> LF -> snd (sort (line_of text (pos s))) = begins text (line_of text (pos s)) \/
     snd (sort (line_of text (pos s))) = Statement /\ fst (sort (line_of text (pos s))) = false).
  { intros U [[X|[_ X]]|(K & _ & Ct)] Nl; [congruence|left; now apply sort_begins|].
    destruct (fst (sort (line_of text (pos s)))) eqn:F; [|right; auto]. destruct (Ct eq_refl) as [Y|Y]; [lia|congruence]. }
  assert (Fr2 : unlimited = false -> ready s -> x <> LF -> snd (sort (line_of text (pos s))) = begins text (line_of text (pos s))).
  { intros U R Nl. destruct (Fr U R Nl) as [Y|[_ Y]]; [exact Y|now apply sort_begins]. }
  assert (Com : begins text (line_of text (pos s)) = Comment -> x <> LF -> exists s' ts, lex_comment wide_space (size - pos s) s = Some s' /\ lexes s s' ts).
  { intros K Nl. destruct (lex_comment_plain text wide_space (size - pos s) s P (le_n _)) as (s' & ts & W & P' & Qq & Ch & H & L & G).
    { right. lia. }
    specialize (L ltac:(congruence)). exists s', ts. split; [exact W|]. unfold lexes. rewrite C. conjs; auto; [discriminate| |].
    - intros _. split; [exact L|]. split; [eapply nonempty_chain; eassumption|]. now apply hides_eof.
    - intros U R. destruct (G ltac:(rewrite (Fr2 U R Nl); exact K)) as [Qu Fre]. split; [now apply fresh_ready|].
      apply (fits_quiet (pos s) (pos s')); auto. now apply hides_unseen. }
  unfold is at 1. unfold is at 1 in Bg. destruct (42 =? x)%N eqn:X42.
  - apply N.eqb_eq in X42. subst x. destruct (is_process s) eqn:Ip; [|apply Com; [exact Bg|discriminate]].
    destruct (lex_process_plain unlimited text s P C Ip C0) as (s1 & (P1 & Pa & ts1 & Q1 & Ch1 & Se1) & L1 & W1). rewrite W1.
    pose proof Pa as (Z1 & Pc & Cb).
    assert (Nl : forall r, pos s <= r < pos s1 -> at_ r <> Some LF).
    { intros r Hr. destruct (Pc r Hr) as (y & Y & Y1 & _). congruence. }
    destruct (between text (pos s) (pos s1) ltac:(lia) Nl) as [Li1 Co1].
    assert (Tail : exists s' ts2, lex_end true s1 = Some s' /\ plain s' /\ queue s' = queue s1 ++ ts2 /\ chain (pos s1) ts2 (pos s') /\ pos s1 <= pos s' /\
       Forall (fun u => hidden u = false -> ty u <> EOF) ts2 /\ Forall (fun u => seen u = false) ts2 /\ rest_of_line text (pos s1) (pos s')).
    { destruct (c s1) as [y|] eqn:Cy.
      - destruct (lex_end_main s1 y P1 Cy) as (s' & ts & W & P' & Qq & Ch & L & Ne & Us & R). exists s', ts. conjs; auto. lia.
      - destruct (lex_end_plain text true s1 P1) as (s' & ts & W & P' & R & Qq & T). pose proof (plain_size text s' P') as Zs.
        rewrite (plain_c text s1 P1) in Cy. apply nth_error_None in Cy.
        destruct ts as [|u [|v [|? ?]]]; try contradiction; [|destruct T as (_ & ? & _); lia|destruct T as (_ & _ & _ & ?); lia].
        exists s', []. destruct T as [T _]. rewrite T in *. conjs; auto; constructor. }
    destruct Tail as (s' & ts2 & W & P' & Qq & Ch & L & Ne & Us & R). exists s', (ts1 ++ ts2). split; [exact W|].
    assert (Ch' : chain (pos s) (ts1 ++ ts2) (pos s')) by (eapply chain_app; eassumption).
    unfold lexes. rewrite C. conjs; auto; [now rewrite Qq, Q1, app_assoc|discriminate| |].
    + intros _. split; [lia|]. split; [eapply nonempty_chain; [eassumption|lia]|]. apply Forall_app. split; [now apply seen_eof|exact Ne].
    + intros U Rd. assert (K : snd (sort (line_of text (pos s))) = Process) by (rewrite (Fr2 U Rd ltac:(discriminate)); exact Bg).
      split.
      * left. apply (rest_fresh text wide_space (pos s1)); auto; [lia|]. left. now rewrite Li1.
      * apply Forall_app. split.
        -- apply (fits_seen process_text (pos s) (pos s1)); auto. intros r Hr.
           destruct (between text (pos s) r ltac:(lia) ltac:(intros; apply Nl; lia)) as [Lr Cr]. split; [now rewrite Lr|].
           specialize (Cb U ltac:(lia)). unfold END in Cb. lia.
        -- apply (fits_quiet (pos s1) (pos s')); auto. intros r Hr (X & _).
           destruct (rest_line text (pos s1) (pos s') ltac:(lia) R) as (Y & _). rewrite (proj1 (Y r Hr)), Li1, K in X. discriminate.
  - destruct (is 46%N (Some x) && is 42%N (LA 2 (file s))) eqn:K46.
    + apply Com; [exact Bg|]. intros ->. discriminate K46.
    + apply Tok. intros U Rd. destruct (N.eq_dec x LF) as [->|Nl].
      * destruct Rd as [[X|[_ X]]|(K & _ & Ct)]; [congruence| |split; [exact K|exact Ct]].
        split; [rewrite (sort_begins _ X); exact Bg|]. congruence.
      * split; [rewrite (Fr2 U Rd Nl); exact Bg|]. intros F.
        destruct Rd as [[X|[_ X]]|(K & _ & Ct)]; [congruence|congruence|]. exact (Ct F).
Qed.
End Main.
