(** C39, C40, C51, C52, C53: the lexer. *)
From Coq Require Import List NArith Bool Lia Arith ZifyBool ZifyNat ZifyN.
From Verif Require Import Common Lex_Model Lex_Spec Lex_Proof Lex_Funs Lex_Words Lex_Main Lex_Insert Lex_Emits Lex_Any.
Import ListNotations.

(** [n] tokens of a text. *)
Fixpoint take_tokens (n : nat) (s : lexer) : option (list token * lexer) :=
  match n with
  | O => Some ([], s)
  | S n => match next_token (fun _ => false) false 1 s with
           | Some (t, s) => match take_tokens n s with Some (ts, s) => Some (t :: ts, s) | None => None end
           | None => None
           end
  end.
Lemma emits_step : forall w u a t b ts d, next_token w u 1 a = Some (t, b) -> emits w u b ts d -> emits w u a (t :: ts) d.
Proof.
  intros w u a t b ts d N H. induction H as [b|b ts s' n v s'' H IH N'].
  - apply (emits_snoc w u a [] a 1 t b); [constructor|exact N].
  - change (t :: ts ++ [v]) with ((t :: ts) ++ [v]). eapply emits_snoc; [now apply IH|exact N'].
Qed.
Lemma take_emits : forall n s ts s', take_tokens n s = Some (ts, s') -> emits (fun _ => false) false s ts s'.
Proof.
  induction n as [|n IH]; intros s ts s' H; cbn [take_tokens] in H.
  - injection H as <- <-. constructor.
  - destruct (next_token (fun _ => false) false 1 s) as [[t s1]|] eqn:N; [|discriminate].
    destruct (take_tokens n s1) as [[us s2]|] eqn:T; [|discriminate]. injection H as <- <-. eapply emits_step; [exact N|]. now apply IH.
Qed.

(** ** C39 *)
Lemma base_one : forall text l, ~ astral (nth_error text 0) -> base text l = 1.
Proof.
  intros text l H. unfold base. destruct (l =? 0); [|reflexivity]. unfold width. destruct (nth_error text 0) as [x|] eqn:E; [|reflexivity].
  destruct (65535 <? x)%N eqn:X; [|reflexivity]. exfalso. apply H. exists x. split; [reflexivity|lia].
Qed.
Lemma width_one : forall o, ~ astral o -> width o = 1.
Proof.
  intros [x|] H; [|reflexivity]. unfold width. destruct (65535 <? x)%N eqn:X; [|reflexivity]. exfalso. apply H. exists x. split; [reflexivity|lia].
Qed.
(** Every token of every text is said to be on its line and in its column of characters. *)
Theorem C39_line : forall wide_space unlimited text ts s t, emits wide_space unlimited (initial text) ts s -> In t ts ->
  t_line t = line_of text (start t) /\ t_column t = column_of text (start t) /\ start t <= stop t <= length text.
Proof.
  intros w u text ts s t E I. destruct (emits_initial u text w ts s E) as (_ & _ & T & _). rewrite Forall_forall in T.
  destruct (T t I) as (A & _ & B & C & _). auto.
Qed.
Print Assumptions C39_line.
(** It is said to begin after as many UTF-16 units as there are before it on its line if it does not
    begin, and the text does not begin, with a character outside of the basic multilingual plane. *)
Theorem C39_start : forall wide_space unlimited text ts s t, emits wide_space unlimited (initial text) ts s -> In t ts ->
  ~ astral (nth_error text 0) -> ~ astral (nth_error text (start t)) -> t_column16 t = column16_of text (start t).
Proof.
  intros w u text ts s t E I H0 H1. destruct (emits_initial u text w ts s E) as (_ & _ & T & _). rewrite Forall_forall in T.
  destruct (T t I) as (_ & _ & _ & _ & C & _). rewrite (base_one _ _ H0), (width_one _ H1) in C. lia.
Qed.
Print Assumptions C39_start.
(** It is said to end where it does if such a character does not follow it. *)
Theorem C39_end : forall wide_space unlimited text ts s t, emits wide_space unlimited (initial text) ts s -> In t ts ->
  ~ astral (nth_error text 0) -> ~ astral (nth_error text (stop t)) -> t_end16 t = column16_of text (stop t).
Proof.
  intros w u text ts s t E I H0 H1. destruct (emits_initial u text w ts s E) as (_ & _ & T & _). rewrite Forall_forall in T.
  destruct (T t I) as (_ & _ & _ & _ & _ & C). rewrite (base_one _ _ H0), (width_one _ H1) in C. lia.
Qed.
Print Assumptions C39_end.
(** What is said otherwise: one too many where such a character follows, one too few on the first
    line of a text that begins with one. *)
Theorem C39_exact : forall wide_space unlimited text ts s t, emits wide_space unlimited (initial text) ts s -> In t ts ->
  let first := if (line_of text (start t) =? 0) then match nth_error text 0 with Some x => units x | None => 1 end else 1 in
  t_column16 t + first = column16_of text (start t) + match nth_error text (start t) with Some x => units x | None => 1 end.
Proof.
  intros w u text ts s t E I. destruct (emits_initial u text w ts s E) as (_ & _ & T & _). rewrite Forall_forall in T.
  destruct (T t I) as (_ & _ & L & _ & C & _). rewrite L in C. unfold base in C.
  assert (W : forall o, width o = match o with Some x => units x | None => 1 end) by (intros [x|]; [apply width_units|reflexivity]).
  rewrite !W in C. exact C.
Qed.
Print Assumptions C39_exact.
(** Highlighted comments, continuation characters and ignored text begin as tokens do and end where
    they end, but ignored text with the end of its line ends in the column of characters of that. *)
Theorem C39_highlight : forall wide_space unlimited text ts s h, emits wide_space unlimited (initial text) ts s -> In h (highlights s) ->
  ~ astral (nth_error text 0) ->
  exists a b, a < b <= length text /\ h_line h = line_of text a /\
    (~ astral (nth_error text a) -> h_column h = column16_of text a) /\
    ((h_end_line h = line_of text b /\ h_end_column h = column16_of text b) \/
     (scope h = IGNORED /\ h_end_line h = line_of text a /\
      exists m, a <= m < b /\ nth_error text m = Some LF /\ line_of text m = line_of text a /\ h_end_column h = column_of text m)).
Proof.
  intros w u text ts s h E I H0. destruct (emits_initial u text w ts s E) as (P & _). destruct P as (_ & _ & _ & _ & _ & _ & H).
  rewrite Forall_forall in H. destruct (H h I) as (a & b & L & A & B & C). rewrite (base_one _ _ H0) in B. exists a, b.
  split; [exact L|]. split; [exact A|]. split.
  - intros X. rewrite (width_one _ X) in B. lia.
  - destruct C as [[C1 C2]|(C1 & C2 & m & M1 & (M2 & M3 & M4) & M5)].
    + left. rewrite (base_one _ _ H0) in C2. split; [exact C1|lia].
    + right. split; [exact C1|]. split; [congruence|]. exists m. repeat split; auto; lia.
Qed.
Print Assumptions C39_highlight.

(** A word that begins with an emoji is said to begin one column after the blank before it. *)
Theorem C39_start_refuted : exists text ts s t, emits (fun _ => false) false (initial text) ts s /\ In t ts /\
  ~ astral (nth_error text 0) /\ t_column16 t = S (column16_of text (start t)).
Proof.
  exists [32; 128512]%N. do 3 eexists. split; [apply (take_emits 2); vm_compute; reflexivity|]. split; [right; left; reflexivity|].
  split; [|vm_compute; reflexivity]. intros (x & X & L). cbn in X. injection X as <-. lia.
Qed.
Print Assumptions C39_start_refuted.
(** What follows an emoji at the very beginning is said to begin one column early. *)
Theorem C39_first_refuted : exists text ts s t, emits (fun _ => false) false (initial text) ts s /\ In t ts /\
  ~ astral (nth_error text (start t)) /\ S (t_column16 t) = column16_of text (start t).
Proof.
  exists [128512; 32]%N. do 3 eexists. split; [apply (take_emits 2); vm_compute; reflexivity|]. split; [right; left; reflexivity|].
  split; [|vm_compute; reflexivity]. intros (x & X & L). cbn in X. injection X as <-. lia.
Qed.
Print Assumptions C39_first_refuted.
(** Sequence numbers on a line with an emoji are highlighted up to one column before their end. *)
Definition numbered : list char := [32; 128512]%N ++ repeat 32%N 70 ++ repeat 65%N 8 ++ [LF].
Theorem C39_highlight_refuted : exists ts s h, emits (fun _ => false) false (initial numbered) ts s /\ In h (highlights s) /\
  h_end_line h = 0 /\ S (h_end_column h) = column16_of numbered 80.
Proof.
  do 3 eexists. split; [apply (take_emits 5); vm_compute; reflexivity|]. split; [left; reflexivity|]. vm_compute. split; reflexivity.
Qed.
Print Assumptions C39_highlight_refuted.
(** Two tokens of a text with a wide character between them. *)
Example C39_example : option_map (fun p => map (fun t => (t_line t, t_column t, t_column16 t, t_end16 t)) (fst p))
    (take_tokens 5 (initial [LF; 65; 128512; 32; 66]%N))
  = Some [(0, 0, 0, 0); (1, 0, 0, 3); (1, 2, 3, 4); (1, 3, 4, 5); (1, 4, 5, 5)].
Proof. vm_compute. reflexivity. Qed.

(** ** C51 *)
(** However many tokens were given, the next one is given after at most one more piece of the text
    was lexed. *)
Theorem C51_next : forall wide_space unlimited text ts s, emits wide_space unlimited (initial text) ts s ->
  exists t s', next_token wide_space unlimited 1 s = Some (t, s').
Proof. intros w u text ts s E. eapply next_one. exact (emits_initial u text w ts s E). Qed.
Print Assumptions C51_next.
(** The end of the file is reached, as the last token and after the whole text. *)
Theorem C51_ends : forall wide_space unlimited text, exists ts t s, emits wide_space unlimited (initial text) (ts ++ [t]) s /\
  ty t = EOF /\ hidden t = false /\ Forall (fun u => ~ (hidden u = false /\ ty u = EOF)) ts /\
  start t = length text /\ stop t = length text /\ chain 0 (ts ++ [t]) (length text).
Proof.
  intros w u text. destruct (reaches_end u text w (length text) [] (initial text) (given_initial u text w) eq_refl) as (ts & t & s & E & (V1 & V2) & F & Q & P & C & B1 & B2).
  { cbn. lia. }
  exists ts, t, s. destruct (emits_initial u text w _ s E) as (_ & Ch & T & _). rewrite Q, app_nil_r, P in Ch.
  repeat split; auto.
Qed.
Print Assumptions C51_ends.
(** Lexing a comment record inserted with AINSERT that has something in column 72 never ends. *)
Definition comment_record : list char := 42%N :: repeat 65%N 71.
Theorem C51_record_refuted : exists text ts s s', emits (fun _ => false) false (initial text) ts s /\
  ainsert false comment_record s = Some s' /\ forall n, next_token (fun _ => false) false n s' = None.
Proof.
  exists [LF; 65; LF]%N. do 3 eexists. split; [apply (take_emits 1); vm_compute; reflexivity|]. split; [vm_compute; reflexivity|].
  assert (H : forall s, queue s = [] -> lex (fun _ => false) false s = None -> forall n, next_token (fun _ => false) false n s = None).
  { intros s Q L n. destruct n; cbn; rewrite Q; [reflexivity|]. now rewrite L. }
  apply H; vm_compute; reflexivity.
Qed.
Print Assumptions C51_record_refuted.
(** So does lexing a record that goes on in the next one when there is a source line left. *)
Definition continued_record : list char := repeat 65%N 70 ++ [32; 88]%N.
Theorem C51_continued_refuted : exists text ts s s' s'', emits (fun _ => false) false (initial text) ts s /\
  ainsert false continued_record s = Some s' /\ ainsert false continued_record s' = Some s'' /\
  exists ts' s3, emits (fun _ => false) false s'' ts' s3 /\ forall n, next_token (fun _ => false) false n s3 = None.
Proof.
  exists [LF; 65; LF]%N. do 4 eexists. split; [apply (take_emits 1); vm_compute; reflexivity|]. split; [vm_compute; reflexivity|]. split; [vm_compute; reflexivity|].
  do 2 eexists. split; [apply (take_emits 2); vm_compute; reflexivity|].
  assert (H : forall s, queue s = [] -> lex (fun _ => false) false s = None -> forall n, next_token (fun _ => false) false n s = None).
  { intros s Q L n. destruct n; cbn; rewrite Q; [reflexivity|]. now rewrite L. }
  apply H; vm_compute; reflexivity.
Qed.
Print Assumptions C51_continued_refuted.

(** ** C52 *)
(** The tokens given so far follow one another from the beginning of the text and leave nothing out. *)
Theorem C52_chain : forall wide_space unlimited text ts s, emits wide_space unlimited (initial text) ts s ->
  exists b, chain 0 (ts ++ queue s) b /\ b <= length text.
Proof.
  intros w u text ts s E. destruct (emits_initial u text w ts s E) as (P & Ch & _). exists (index (file s)). split; [exact Ch|]. now apply plain_size.
Qed.
Print Assumptions C52_chain.
(** When the end of the file was given every character has been in a token. *)
Theorem C52_all : forall wide_space unlimited text ts s t, emits wide_space unlimited (initial text) ts s -> In t ts ->
  hidden t = false -> ty t = EOF -> forall p, p < length text -> exists u, In u ts /\ start u <= p < stop u.
Proof. intros w u text ts s t E I H T p L. eapply (all_covered u text w); eauto. split; assumption. Qed.
Print Assumptions C52_all.
(** What was cut off a line is the only thing in two tokens. *)
Theorem C52_once : forall wide_space unlimited text ts s, emits wide_space unlimited (initial text) ts s ->
  forall i j t u p, i < j -> nth_error ts i = Some t -> nth_error ts j = Some u -> start t <= p < stop t -> start u <= p < stop u ->
  j = S i /\ ty t = EOLLN /\ ty u = IGNORED /\ start u = start t /\ stop u = stop t.
Proof.
  intros w un text ts s E i j t u p L Hi Hj Pt Pu. destruct (emits_initial un text w ts s E) as (_ & Ch & _).
  eapply (chain_once un text w 0 (ts ++ queue s) _ Ch i j t u p); auto; rewrite nth_error_app1; auto; apply nth_error_Some; congruence.
Qed.
Print Assumptions C52_once.
(** A line with sequence numbers: its end is given and then once more as ignored text. *)
Example C52_example : option_map (fun p => map (fun t => (ty t, start t, stop t)) (fst p))
    (take_tokens 6 (initial ([65%N] ++ repeat 32%N 71 ++ [48; LF; 66]%N)))
  = Some [(ORDSYMBOL, 0, 1); (SPACE, 1, 71); (EOLLN, 71, 74); (IGNORED, 71, 74); (ORDSYMBOL, 74, 75); (EOLLN, 75, 75)].
Proof. vm_compute. reflexivity. Qed.

(** ** C53 *)
(** Tokens that the parser sees as text of a statement have text of statements in them only, or text
    of a *PROCESS line. *)
Theorem C53_seen : forall wide_space text ts s t p, emits wide_space false (initial text) ts s -> In t ts -> seen t = true ->
  start t <= p < stop t -> statement_text wide_space text p \/ process_text wide_space text p.
Proof.
  intros w text ts s t p E I S P. destruct (emits_initial false text w ts s E) as (_ & _ & _ & H). destruct (H eq_refl) as [_ F].
  apply Forall_app in F. destruct F as [F _]. rewrite Forall_forall in F. specialize (F t I). unfold fits in F. rewrite S in F.
  destruct F as [F|F]; [left|right]; now apply F.
Qed.
Print Assumptions C53_seen.
(** All other tokens have none: comments, continuation characters, the columns before 16 of
    continuation lines, the columns after 72, line ends. *)
Theorem C53_unseen : forall wide_space text ts s t p, emits wide_space false (initial text) ts s -> In t ts -> seen t = false ->
  start t <= p < stop t -> ~ statement_text wide_space text p.
Proof.
  intros w text ts s t p E I S P. destruct (emits_initial false text w ts s E) as (_ & _ & _ & H). destruct (H eq_refl) as [_ F].
  apply Forall_app in F. destruct F as [F _]. rewrite Forall_forall in F. specialize (F t I). unfold fits in F. rewrite S in F. now apply F.
Qed.
Print Assumptions C53_unseen.
(** So, outside of *PROCESS lines, what the parser sees of a text is the text of its statements. *)
Theorem C53_exactly : forall wide_space text ts s e p, emits wide_space false (initial text) ts s -> In e ts -> ty e = EOF -> hidden e = false ->
  snd (sort wide_space text (line_of text p)) <> Process ->
  ((exists t, In t ts /\ seen t = true /\ start t <= p < stop t) <-> statement_text wide_space text p).
Proof.
  intros w text ts s e p E I T H NP. split.
  - intros (t & It & S & P). destruct (C53_seen w text ts s t p E It S P) as [X|[X _]]; [exact X|contradiction].
  - intros St. assert (L : p < length text).
    { destruct St as (_ & _ & x & X & _). apply nth_error_Some. congruence. }
    destruct (C52_all w false text ts s e E I H T p L) as (u & Iu & U). destruct (seen u) eqn:S; [now exists u|].
    exfalso. exact (C53_unseen w text ts s u p E Iu S U St).
Qed.
Print Assumptions C53_exactly.
(** A *PROCESS line, a comment, a statement that is continued, and its continuation line. *)
Definition sample : list char :=
  [42; 112; 114; 111; 99; 101; 115; 115; 32; 65; LF]%N ++ [42; 65; LF]%N ++
  (65%N :: repeat 32%N 70 ++ [88; LF]%N) ++ (repeat 66%N 15 ++ [67; LF]%N).
Example C53_example :
  map (sort (fun _ => false) sample) [0; 1; 2; 3] = [(false, Process); (false, Comment); (false, Statement); (true, Statement)] /\
  option_map (fun p => map (fun t => (ty t, start t, stop t)) (filter seen (fst p))) (take_tokens 22 (initial sample))
  = Some [(PROCESS, 0, 8); (SPACE, 8, 9); (ORDSYMBOL, 9, 10); (ORDSYMBOL, 14, 15); (SPACE, 15, 85); (ORDSYMBOL, 102, 103)].
Proof. vm_compute. split; reflexivity. Qed.

(** ** C40 *)
(** Whatever was lexed of a text with ended lines: AREAD gives what was inserted with AINSERT, in the
    order in which FRONT and BACK put it, padded to 80 characters, and then whole lines of the
    source, beginning with the line in which lexing stands. *)
Theorem C40_queue : forall wide_space unlimited text ts s os, emits wide_space unlimited (initial text) ts s -> orderly text -> Forall op_ok os ->
  let p := index (file s) in
  exists s', lex_ops os s = Some (fst (do_ops os {| records := []; source := source_lines (skipn (p - column_of text p) text) |}), s').
Proof.
  intros w u text ts s os E O Ok p. destruct (emits_initial u text w ts s E) as (P & _).
  destruct (ops_spec text O os _ s (plain_reads u text w s P) Ok) as (s' & W & _). now exists s'.
Qed.
Print Assumptions C40_queue.
(** An empty record is refused, and nothing else is. *)
Theorem C40_empty : forall f r s, ainsert f r s = None <-> r = [].
Proof. intros f [|x r] s; cbn [ainsert]; split; congruence. Qed.
Print Assumptions C40_empty.
(** One record inserted at the back, two at the front, five times read. *)
Example C40_example : option_map fst
    (match take_tokens 2 (initial [77; LF; 65; 66; LF; LF; 67; LF]%N) with
     | Some (_, s) => lex_ops [Insert false [49%N]; Insert true [50%N]; Insert true [51%N]; Read; Read; Read; Read; Read] s
     | None => None
     end)
  = Some [padded [51%N]; padded [50%N]; padded [49%N]; [65; 66]%N; [32%N]] /\
  orderly [77; LF; 65; 66; LF; LF; 67; LF]%N /\ Forall op_ok [Insert false [49%N]; Insert true [50%N]; Insert true [51%N]; Read; Read; Read; Read; Read].
Proof.
  split; [vm_compute; reflexivity|]. split; [cbn; repeat split; discriminate|].
  repeat constructor; unfold op_ok, record_ok; try discriminate; cbn; unfold LF, CR; intuition discriminate.
Qed.
(** Whatever tokens were taken, records inserted and lines read before, AREAD gives the whole of the
    line, or record, in which lexing stands, a blank for an empty one, and nothing at the end only. *)
Theorem C40_whole : forall wide_space unlimited text s, runs wide_space unlimited text s ->
  let s1 := switch_input_streams s in
  let i := current s1 in
  fst (aread s) = if eof s1 then [] else visible_line (until_end (skipn (index i - column_of (data i) (index i)) (data i))).
Proof.
  intros w u text s H s1 i. destruct (eof s1) eqn:E; [unfold aread; fold s1; rewrite E; reflexivity|].
  exact (aread_line s (runs_sound w u text s H) E).
Qed.
Print Assumptions C40_whole.
(** Lexing and AREAD go on with inserted records as long as there is one, also after AINSERT, which
    forgets the tokens that were fetched. *)
Theorem C40_records_first : forall wide_space unlimited text s, runs wide_space unlimited text s ->
  pending s <> [] \/ index (buffer s) < length (data (buffer s)) ->
  from_buffer (switch_input_streams s) = true /\
  (queue s = [] -> forall t s', next_token wide_space unlimited 1 s = Some (t, s') -> of_buffer t = true).
Proof.
  intros w u text s H R. pose proof (records_first s (runs_sound w u text s H) (runs_served w u text s H) R) as G. split; [exact G|].
  intros Q t s1 N. cbn in N. rewrite Q in N. destruct (lex w u s) as [s2|] eqn:L; [|discriminate].
  destruct (lex_stream w u s s2 L Q) as (_ & _ & F). rewrite G in F. destruct (queue s2) as [|v q]; [discriminate|].
  injection N as -> _. exact (Forall_inv F).
Qed.
Print Assumptions C40_records_first.
Theorem C40_forgets : forall f r s s', ainsert f r s = Some s' -> queue s' = [] /\ pending s' <> [].
Proof.
  intros f [|x r] s s' H; [discriminate|]. unfold ainsert in H. injection H as <-. split; [reflexivity|]. unfold rewind_line.
  destruct (_ =? 0); cbn [pending with_input]; unfold rewind_input; cbn [pending with_input]; destruct f; try discriminate; destruct (pending s); discriminate.
Qed.
Print Assumptions C40_forgets.
(** The line in which lexing stands is not the one after the last statement when that is a comment
    or empty: the token after the end of the statement is fetched before the statement is processed,
    and such a line is lexed as a whole then. *)
Theorem C40_comment_refuted : exists text ts s, emits (fun _ => false) false (initial text) ts s /\ orderly text /\
  map (fun t => (ty t, start t)) ts = [(ORDSYMBOL, 0); (EOLLN, 1); (COMMENT, 2)] /\
  source_lines text = [[77]; [42; 65]; [66]]%N /\ fst (aread s) = [66%N].
Proof.
  exists [77; LF; 42; 65; LF; 66; LF]%N. do 2 eexists. split; [apply (take_emits 3); vm_compute; reflexivity|].
  split; [cbn; repeat split; discriminate|]. vm_compute. auto.
Qed.
Print Assumptions C40_comment_refuted.
Theorem C40_blank_refuted : exists text ts s, emits (fun _ => false) false (initial text) ts s /\ orderly text /\
  map (fun t => (ty t, start t)) ts = [(ORDSYMBOL, 0); (EOLLN, 1); (EOLLN, 2)] /\
  source_lines text = [[77]; []; [66]]%N /\ fst (aread s) = [66%N].
Proof.
  exists [77; LF; LF; 66; LF]%N. do 2 eexists. split; [apply (take_emits 3); vm_compute; reflexivity|].
  split; [cbn; repeat split; discriminate|]. vm_compute. auto.
Qed.
Print Assumptions C40_blank_refuted.
(** A record put at the front while the first token of another was fetched comes after that one. *)
Theorem C40_front_refuted : exists text ts s, emits (fun _ => false) false (initial text) ts s /\ orderly text /\
  exists s1 us s2 s3, lex_ops [Insert false [49%N]; Insert false [50%N]] s = Some ([], s1) /\
    emits (fun _ => false) false s1 us s2 /\ map (fun t => (ty t, start t, stop t)) us = [(NUM, 0, 1); (SPACE, 1, 72); (EOLLN, 72, 81); (IGNORED, 72, 81); (NUM, 81, 82)] /\
    lex_ops [Insert true [51%N]; Read; Read] s2 = Some ([padded [50%N]; padded [51%N]], s3).
Proof.
  exists [LF; 65; LF]%N. do 2 eexists. split; [apply (take_emits 1); vm_compute; reflexivity|]. split; [cbn; repeat split; discriminate|].
  do 4 eexists. split; [vm_compute; reflexivity|]. split; [apply (take_emits 5); vm_compute; reflexivity|]. split; vm_compute; reflexivity.
Qed.
Print Assumptions C40_front_refuted.
(** A last line that is not ended is lost when it is one token. *)
Theorem C40_last_refuted : exists text ts s, emits (fun _ => false) false (initial text) ts s /\
  map (fun t => (ty t, start t)) ts = [(ORDSYMBOL, 0); (EOLLN, 1); (ORDSYMBOL, 2)] /\
  source_lines text = [[77]; [66]]%N /\ fst (aread s) = [].
Proof.
  exists [77; LF; 66]%N. do 2 eexists. split; [apply (take_emits 3); vm_compute; reflexivity|]. vm_compute. auto.
Qed.
Print Assumptions C40_last_refuted.
(** A line with a carriage return in it is read again and again. *)
Theorem C40_return_refuted : exists text ts s s', emits (fun _ => false) false (initial text) ts s /\
  text = [77; LF; 66; CR; 67; LF]%N /\ lex_ops [Read; Read; Read] s = Some ([[66]; [66]; [66]]%N, s').
Proof.
  exists [77; LF; 66; CR; 67; LF]%N. do 3 eexists. split; [apply (take_emits 2); vm_compute; reflexivity|]. split; [reflexivity|]. vm_compute. reflexivity.
Qed.
Print Assumptions C40_return_refuted.
