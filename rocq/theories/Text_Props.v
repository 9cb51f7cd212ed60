(** C08, C09, C10, C43: the text of a file. *)
From Coq Require Import List NArith ZArith Arith Lia Sorting.Sorted.
From Coq Require Import ZifyBool ZifyNat ZifyN.
From Verif Require Import Common Text_Model Text_Spec Text_Proof Lines_Proof Edit_Proof.
Import ListNotations.

(** * C08 *)

(** Any byte sequence becomes a sequence of complete characters. *)
Theorem C08_result_is_characters : forall t, Forall is_byte t -> exists n, utext (repair t) n.
Proof. exact repair_utext. Qed.
Print Assumptions C08_result_is_characters.

(** The result is exactly the input with every byte that starts no complete character replaced by
    U+FFFD; there is only one such result. *)
Theorem C08_result_exact : forall t r, Forall is_byte t -> (repairs t r <-> r = repair t).
Proof.
  intros t r H. split; [now apply repairs_unique|]. intros ->. now apply repair_repairs.
Qed.
Print Assumptions C08_result_exact.

(** UTF-8 text is untouched, and a well-formed part survives whatever surrounds it. *)
Theorem C08_utf8_unchanged : forall t, strict_utf8 t -> repair t = t.
Proof. intros t H. destruct (strict_utext _ H) as [n Hn]. eapply repair_id; eauto. Qed.
Print Assumptions C08_utf8_unchanged.

Theorem C08_good_parts_survive : forall a g b, Forall is_byte a -> Forall is_byte b ->
  strict_utf8 g -> g <> [] -> repair (a ++ g ++ b) = repair a ++ g ++ repair b.
Proof. intros a g b Ha Hb Hg Hne. destruct (strict_utext _ Hg) as [n Hn]. eapply repair_good_part; eauto. Qed.
Print Assumptions C08_good_parts_survive.

Theorem C08_idempotent : forall t, Forall is_byte t -> repair (repair t) = repair t.
Proof. intros t H. destruct (repair_utext t H) as [n Hn]. eapply repair_id; eauto. Qed.
Print Assumptions C08_idempotent.

Example C08_ex : repair [65; 255; 195; 169; 226; 130; 66]%N = [65; 239;191;189; 195; 169; 239;191;189; 239;191;189; 66]%N
  /\ strict_utf8 [65; 195; 169]%N.
Proof.
  split; [reflexivity|]. change [65;195;169]%N with ([65] ++ [195;169] ++ [])%N.
  repeat constructor; unfold cont; lia.
Qed.

(** The result need not be UTF-8 in the sense of the standard: overlong forms, surrogates and
    values beyond U+10FFFF are kept. *)
Theorem C08_result_is_utf8_refuted :
  exists t, Forall is_byte t /\ ~ strict_utf8 (repair t).
Proof.
  exists [192; 128]%N. split; [repeat constructor; unfold is_byte; lia|].
  change (repair [192; 128]%N) with ([192; 128]%N). intros H.
  inversion H as [|c t Hc Ht E]. destruct Hc; cbn in E; injection E as E1 E2; subst; try lia; discriminate.
Qed.
Print Assumptions C08_result_is_utf8_refuted.

(** * C09 *)
Theorem C09_line_table_exact : forall t,
  StronglySorted lt (create_line_indices t) /\ forall o, In o (create_line_indices t) <-> line_start t o.
Proof. exact cli_is_line. Qed.
Print Assumptions C09_line_table_exact.

Theorem C09_position_exact : forall t line col o, position_at t line col o ->
  index_from_position t (create_line_indices t) line col = Some o.
Proof. exact position_exact. Qed.
Print Assumptions C09_position_exact.

(** Any column of any line of a UTF-8 text: the first character boundary with at least that many
    UTF-16 units before it, or the end of the text.  There is no exception. *)
Theorem C09_any_column : forall t n line s col, utext t n ->
  nth_error (create_line_indices t) line = Some s ->
  exists o m, index_from_position t (create_line_indices t) line col = Some o /\
    s <= o <= length t /\ utext (firstn (o - s) (skipn s t)) m /\
    (m = col \/
     (m = col + 1 /\ exists a c, firstn (o - s) (skipn s t) = a ++ c /\ uchar c 2) \/
     (m < col /\ o = length t)).
Proof. exact position_any. Qed.
Print Assumptions C09_any_column.

Theorem C09_lines_beyond_the_last : forall t line col, length (create_line_indices t) <= line ->
  index_from_position t (create_line_indices t) line col = Some (length t).
Proof.
  intros t line col H. unfold index_from_position.
  now replace (nth_error (create_line_indices t) line) with (@None nat) by (symmetry; now apply nth_error_None).
Qed.
Print Assumptions C09_lines_beyond_the_last.

Definition sample : bytes := s2b "ab" ++ [13; 10; 240; 159; 152; 128]%N ++ s2b "c".
Example C09_ex : create_line_indices sample = [0; 4] /\ position_at sample 1 2 8.
Proof.
  split; [reflexivity|].
  exists (create_line_indices sample), 4. split; [apply cli_is_line|].
  split; [reflexivity|]. split; [cbn; lia|]. split.
  - intros s' Hs' Hlt. apply (cli_is_line sample) in Hs'. cbn in Hs'. lia.
  - change (firstn (8 - 4) (skipn 4 sample)) with ([240; 159; 152; 128] ++ [])%N.
    change 2 with (2 + 0). repeat constructor; unfold cont; lia.
Qed.

(** LSP: a column beyond the end of the line means the end of the line.  The code walks on into the
    following lines. *)
Theorem C09_column_beyond_line_end_refuted :
  let t := s2b "ab" ++ [10%N] ++ s2b "cd" in
  index_from_position t (create_line_indices t) 0 5 = Some 5 /\
  nth_error (create_line_indices t) 1 = Some 3.
Proof. split; reflexivity. Qed.
Print Assumptions C09_column_beyond_line_end_refuted.

(** * C10 *)
Theorem C10_edits_exact : forall es f t',
  lines f = create_line_indices (text f) -> edited_all (text f) es t' -> (version f < 2 ^ 64)%N ->
  apply_edits f es =
  Changed (mkFile t' (create_line_indices t') ((version f + N.of_nat (length es)) mod 2 ^ 64)%N).
Proof. exact edited_all_ok. Qed.
Print Assumptions C10_edits_exact.

(** From opening the document on. *)
Theorem C10_session_exact : forall t v es t', edited_all t es t' -> (v < 2 ^ 64)%N ->
  exists f, apply_edits (did_open t v) es = Changed f /\ text f = t' /\
    (forall o, In o (lines f) <-> line_start t' o) /\ StronglySorted lt (lines f) /\
    version f = ((v + N.of_nat (length es)) mod 2 ^ 64)%N.
Proof.
  intros t v es t' H Hv. eexists. split; [apply edited_all_ok; [reflexivity|exact H|exact Hv]|].
  cbn [text lines version did_open]. destruct (cli_is_line t') as [A B]. auto.
Qed.
Print Assumptions C10_session_exact.

(** Edits keep UTF-8. *)
Theorem C10_edits_keep_utf8 : forall t n e t', utext t n -> edited t e t' ->
  (match e with Whole x => exists k, utext x k | Ranged _ _ _ _ x => exists k, utext x k end) ->
  exists k, utext t' k.
Proof. exact edited_utf8. Qed.
Print Assumptions C10_edits_keep_utf8.

Example C10_ex :
  let t := s2b "ab" ++ [10%N] ++ s2b "cd" ++ [10%N] ++ s2b "ef" in
  edited t (Ranged 0 1 2 0 (s2b "X" ++ [10%N])) (s2b "aX" ++ [10%N] ++ s2b "ef") /\
  apply_edits (did_open t 7) [Ranged 0 1 2 0 (s2b "X" ++ [10%N])]
  = Changed (mkFile (s2b "aX" ++ [10%N] ++ s2b "ef") [0; 3] 8).
Proof.
  intros t. split; [|reflexivity].
  apply (EdRange (s2b "a") (s2b "b" ++ [10%N] ++ s2b "cd" ++ [10%N]) (s2b "ef") (s2b "X" ++ [10%N])).
  - exists (create_line_indices t), 0. split; [apply cli_is_line|]. split; [reflexivity|].
    split; [cbn; lia|]. split.
    + intros s' Hs' Hlt. apply (cli_is_line t) in Hs'. cbn in Hs'. cbn. lia.
    + change (utext ([97%N] ++ []) (1 + 0)). repeat constructor.
  - exists (create_line_indices t), 6. split; [apply cli_is_line|]. split; [reflexivity|].
    split; [cbn; lia|]. split.
    + intros s' Hs' Hlt. apply (cli_is_line t) in Hs'. cbn in Hs'. cbn. lia.
    + constructor.
  - intros (a' & b' & E & E2). discriminate.
  - intros (a' & b' & E & E2). discriminate.
  - intros (a' & b' & E & E2). discriminate.
  - intros (a' & b' & E & E2). discriminate.
  - reflexivity.
Qed.

(** Without the condition on CRLF the line table becomes wrong: LF inserted behind a CR. *)
Theorem C10_crlf_cut_refuted :
  let f := did_open (s2b "a" ++ [13%N] ++ s2b "b") 0 in
  exists f', did_change f 1 0 1 0 [10%N] = Changed f' /\
    text f' = s2b "a" ++ [13; 10]%N ++ s2b "b" /\ lines f' <> create_line_indices (text f').
Proof. eexists. split; [reflexivity|]. split; [reflexivity|]. cbn. discriminate. Qed.
Print Assumptions C10_crlf_cut_refuted.

(** A range that ends beyond the last line (LSP clients may send one to replace everything) runs
    out of the vector. *)
Theorem C10_range_beyond_last_line_refuted :
  did_change (did_open (s2b "ab") 0) 0 0 5 0 [] = CUndef /\
  did_change (did_open (s2b "ab") 0) 0 0 1 0 (s2b "x" ++ [10%N]) = CUndef.
Proof. split; vm_compute; reflexivity. Qed.
Print Assumptions C10_range_beyond_last_line_refuted.

(** * C43: reading lines *)
Theorem C43_lines_read_exactly : forall t line s e,
  nth_error (create_line_indices t) line = Some s ->
  (match nth_error (create_line_indices t) (line + 1) with Some x => x | None => length t end) = e ->
  s < length t -> get_line t line = Some (firstn (e - s) (skipn s t)).
Proof. exact line_view. Qed.
Print Assumptions C43_lines_read_exactly.

Theorem C43_line_up_to_cursor : forall t line col o, position_at t line col o ->
  forall s, nth_error (create_line_indices t) line = Some s -> s < length t ->
  get_line_beginning t line col = Some (firstn (o - s) (skipn s t)).
Proof. exact line_beginning. Qed.
Print Assumptions C43_line_up_to_cursor.

Theorem C43_range_text : forall a b c sline scol eline ecol,
  position_at (a ++ b ++ c) sline scol (length a) ->
  position_at (a ++ b ++ c) eline ecol (length a + length b) ->
  get_range_content (a ++ b ++ c) sline scol eline ecol = Some b.
Proof. exact range_content. Qed.
Print Assumptions C43_range_text.

(** The character before a cursor that stands behind a character of one UTF-16 unit: the first byte
    of that character; at the start of a line there is none. *)
Theorem C43_character_before_cursor : forall t line col o c u rest, position_at t line col o ->
  skipn o t = c ++ rest -> uchar c u ->
  get_character_before t line (S col) = hd_error c.
Proof.
  intros t line col o c u rest HP E Hc. unfold get_character_before. rewrite (position_exact _ _ _ _ HP).
  assert (Hn : nth_error t o = nth_error (skipn o t) 0).
  { clear. revert o. induction t as [|x t IH]; intros [|o]; cbn [skipn nth_error]; try reflexivity. apply IH. }
  rewrite Hn, E. destruct Hc; reflexivity.
Qed.
Print Assumptions C43_character_before_cursor.

Theorem C43_no_character_before_line_start : forall t line, get_character_before t line 0 = Some 0%N.
Proof. reflexivity. Qed.
Print Assumptions C43_no_character_before_line_start.

(** On an empty last line the query throws [std::out_of_range]; this is where a completion request
    on a new line ends. *)
Theorem C43_empty_last_line_refuted : forall t,
  get_line_beginning (t ++ [10%N]) (length (find_newlines (t ++ [10%N]))) 0 = None.
Proof.
  intros t. unfold get_line_beginning, create_line_indices.
  assert (E : find_newlines (t ++ [10%N]) <> []).
  { intros E. assert (H : In (S (length t)) (find_newlines (t ++ [10%N]))).
    - unfold find_newlines. apply fnf_in. right. exists (length t). split; [reflexivity|].
      exists 10%N. split; [|now left]. rewrite nth_error_app2, Nat.sub_diag by lia. reflexivity.
    - rewrite E in H. destruct H. }
  destruct (exists_last E) as (l & x & El).
  assert (Hx : x = length (t ++ [10%N])).
  { pose proof (fnf_sorted (t ++ [10%N]) 0 false) as HS. fold (find_newlines (t ++ [10%N])) in HS.
    assert (HI : In (length (t ++ [10%N])) (find_newlines (t ++ [10%N]))).
    { unfold find_newlines. apply fnf_in. right. exists (length t). rewrite app_length. cbn [length]. split; [lia|].
      exists 10%N. split; [|now left]. rewrite nth_error_app2, Nat.sub_diag by lia. reflexivity. }
    assert (HX : In x (find_newlines (t ++ [10%N]))) by (rewrite El; apply in_or_app; right; now left).
    apply find_newlines_le in HX as [_ HX].
    rewrite El in HI, HS. apply in_app_or in HI. destruct HI as [HI|[HI|[]]]; [|auto].
    clear -HS HI HX. exfalso. induction l as [|y l IH]; [destruct HI|].
    cbn [app] in HS. inversion HS as [|? ? H1 H2]; subst. destruct HI as [->|HI].
    - rewrite Forall_forall in H2. assert (length (t ++ [10%N]) < x) by (apply H2; apply in_or_app; right; now left). lia.
    - apply IH; auto. }
  rewrite El, app_length. cbn [length]. replace (length l + 1) with (S (length l)) by lia. cbn [nth_error].
  rewrite nth_error_app2, Nat.sub_diag by lia. cbn [nth_error].
  unfold index_from_position. cbn [nth_error]. rewrite nth_error_app2, Nat.sub_diag by lia. cbn [nth_error ifp_loop].
  change (0 <? 0) with false. cbv iota. unfold view. subst x. now rewrite Nat.ltb_irrefl.
Qed.
Print Assumptions C43_empty_last_line_refuted.
