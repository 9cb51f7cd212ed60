(** C112: the editing commands keep the continuation column *)
From Coq Require Import List NArith ZArith Bool Lia.
From Verif Require Import Cont_Model Cont_Spec Cont_Proof.
Import ListNotations.
Open Scope list_scope.
Open Scope nat_scope.

Lemma cols_length a b l : b <= length l -> length (cols a b l) = b - a.
Proof. intros. unfold cols. rewrite skipn_length, firstn_length. lia. Qed.
Lemma skip_first a b (l : list N) : a <= b -> firstn a (firstn b l) = firstn a l.
Proof. intros. rewrite firstn_firstn. now rewrite Nat.min_l by lia. Qed.

(** what two edits make of a line *)
Lemma fold2 l a b c x : a <= b -> b <= c -> c <= length l ->
  fold_right replace l [(a, b, []); (c, c, x)] = firstn a l ++ cols b c l ++ x ++ skipn c l.
Proof.
  intros. cbn [fold_right replace]. rewrite firstn_app, skipn_app, firstn_length, Nat.min_l by lia.
  replace (a - c) with 0 by lia. replace (b - c) with 0 by lia. rewrite firstn_O, skipn_O, app_nil_r, skip_first by lia.
  cbn [app]. now rewrite <- ?app_assoc.
Qed.
Lemma fold2' l a x c d : a <= c -> c <= d -> d <= length l ->
  fold_right replace l [(a, a, x); (c, d, [])] = firstn a l ++ x ++ cols a c l ++ skipn d l.
Proof.
  intros. cbn [fold_right replace app]. rewrite firstn_app, skipn_app, firstn_length, Nat.min_l by lia.
  replace (a - c) with 0 by lia. rewrite firstn_O, skipn_O, app_nil_r, skip_first by lia. reflexivity.
Qed.

(** ** Deleting *)
Lemma same_caret i c : same (caret i c) = true.
Proof. unfold same, caret. cbn. now rewrite !Nat.eqb_refl. Qed.
Lemma same_selected f i a b : a <> b -> same (selected f i a b) = false.
Proof. intros. unfold same, selected. destruct f; cbn; rewrite Nat.eqb_refl; apply Nat.eqb_neq; lia. Qed.

Lemma sort_two x y : before x y = false -> sort [x; y] = [y; x].
Proof. intros H. cbn. now rewrite H. Qed.
Lemma before_lt a b x c d y : c < a -> before (a, b, x) (c, d, y) = false.
Proof. intros. unfold before. destruct (Nat.ltb_spec a c), (Nat.eqb_spec a c); try lia; reflexivity. Qed.

(** a character, or a selection, in front of the continuation *)
Lemma delete_line pre l post es a b : 72 <= length l -> a < b -> b <= 71 ->
  map (to_splice (pre ++ l :: post)) es = map (shift (length (pfx pre))) [(71, 71, blanks (b - a)); (a, b, [])] ->
  apply (pre ++ l :: post) es = Some (text (pre ++ (firstn a l ++ cols b 71 l ++ blanks (b - a) ++ skipn 71 l) :: post)).
Proof.
  intros HL H1 H2 E. rewrite (apply_line _ _ _ _ _ E).
  - rewrite sort_two by (apply before_lt; lia). rewrite fold2 by lia. reflexivity.
  - repeat (apply Forall_cons; [unfold within; lia|]). apply Forall_nil.
  - rewrite sort_two by (apply before_lt; lia). cbn [overlap]. rewrite orb_false_r. apply Nat.ltb_ge. lia.
Qed.

Theorem C112_backspace : forall pre l post c, continued l -> 1 <= c < 71 ->
  turns pre l post (fun d => deleteLeft d (caret (length pre) c) OFFSET)
    (firstn (c - 1) l ++ cols c 71 l ++ [32%N] ++ skipn 71 l).
Proof.
  intros pre l post c HC Hc. pose proof (continued_length _ HC) as HL. unfold turns, deleteLeft, removeLeft, OFFSET.
  rewrite same_caret. unfold caret. cbn [active anchor ln ch]. rewrite continued_true by assumption.
  unfold diff. cbn [active anchor ch]. rewrite Z.sub_diag. cbn [Z.eqb]. rewrite Nat.ltb_irrefl. unfold isSingleLine. cbn [active anchor ln].
  rewrite Nat.eqb_refl. replace (c <? 71) with true by (symmetry; apply Nat.ltb_lt; lia).
  replace (0 <? c) with true by (symmetry; apply Nat.ltb_lt; lia).
  replace ((0 <? 1)%Z && (0 <? Z.of_nat c)%Z) with true by (symmetry; apply andb_true_iff; split; [reflexivity|apply Z.ltb_lt; lia]).
  cbn [andb orb]. replace (Z.of_nat 71 <? Z.abs 1)%Z with false by reflexivity.
  cbn [result app]. replace (Z.to_nat (Z.of_nat c - 1)) with (c - 1) by lia.
  rewrite (delete_line pre l post _ (c - 1) c); try lia.
  - replace (c - (c - 1)) with 1 by lia. reflexivity.
  - cbn [map]. rewrite ins_line by lia. rewrite del_line_back by lia. replace (c - (c - 1)) with 1 by lia. reflexivity.
Qed.
Print Assumptions C112_backspace.

(** a selection that ends before the continuation, unless it starts at the left margin and was made towards it *)
Theorem C112_delete_selection : forall pre l post fwd a b, continued l -> a < b < 71 -> fwd = true \/ 0 < a ->
  let l' := firstn a l ++ cols b 71 l ++ blanks (b - a) ++ skipn 71 l in
  turns pre l post (fun d => deleteLeft d (selected fwd (length pre) a b) OFFSET) l' /\
  turns pre l post (fun d => cut d (selected fwd (length pre) a b) OFFSET) l'.
Proof.
  intros pre l post fwd a b HC Hab Hg. cbv zeta. pose proof (continued_length _ HC) as HL.
  assert (turns pre l post (fun d => deleteLeft d (selected fwd (length pre) a b) OFFSET)
            (firstn a l ++ cols b 71 l ++ blanks (b - a) ++ skipn 71 l)) as H.
  { unfold turns, deleteLeft, removeLeft, OFFSET. rewrite same_selected by lia.
    assert (Z.abs (diff (selected fwd (length pre) a b)) = Z.of_nat (b - a)) as Ed by (unfold diff, selected; destruct fwd; cbn [active anchor ch]; lia).
    destruct (Z.eqb_spec (diff (selected fwd (length pre) a b)) 0) as [G|_]; [lia|]. rewrite Ed.
    assert (ln (active (selected fwd (length pre) a b)) = length pre) as -> by (destruct fwd; reflexivity).
    rewrite continued_true by assumption.
    assert (isSingleLine (selected fwd (length pre) a b) = true) as -> by (unfold isSingleLine, selected; destruct fwd; apply Nat.eqb_refl).
    assert (((if ch (active (selected fwd (length pre) a b)) <? ch (anchor (selected fwd (length pre) a b))
              then ch (anchor (selected fwd (length pre) a b)) else ch (active (selected fwd (length pre) a b))) <? 71) = true) as ->.
    { unfold selected. destruct fwd; cbn [active anchor ch]; apply Nat.ltb_lt; [destruct (Nat.ltb_spec b a)|destruct (Nat.ltb_spec a b)]; lia. }
    assert (((0 <? ch (active (selected fwd (length pre) a b))) || (0 <? diff (selected fwd (length pre) a b))%Z) = true) as ->.
    { apply orb_true_iff. unfold diff, selected. destruct fwd; cbn [active anchor ch]; left; apply Nat.ltb_lt; [lia|]. destruct Hg; [discriminate|assumption]. }
    cbn [andb]. destruct (Z.ltb_spec (Z.of_nat 71) (Z.of_nat (b - a))) as [G|_]; [lia|]. rewrite Nat2Z.id. cbn [result app].
    apply delete_line; try lia. cbn [map]. rewrite ins_line by lia. f_equal. f_equal. unfold selected.
    destruct fwd; cbn [active anchor]; [apply del_line_back|apply del_line]; lia. }
  split; [exact H|]. unfold turns, cut. rewrite same_selected by lia. exact H.
Qed.
Print Assumptions C112_delete_selection.

Lemma skipn_nonempty a (l : list N) : a < length l -> exists x r, skipn a l = x :: r.
Proof.
  intros H. destruct (skipn a l) as [|x r] eqn:E; [|eauto]. apply (f_equal (@length N)) in E. rewrite skipn_length in E. cbn in E. lia.
Qed.

Theorem C112_delete_key : forall pre l post c, continued l -> c < 71 ->
  turns pre l post (fun d => deleteRight d (caret (length pre) c) OFFSET)
    (firstn c l ++ cols (c + 1) 71 l ++ [32%N] ++ skipn 71 l).
Proof.
  intros pre l post c HC Hc. pose proof (continued_length _ HC) as HL. unfold turns, deleteRight, OFFSET.
  rewrite same_caret. unfold caret. cbn [active anchor ln ch]. rewrite continued_true by assumption.
  unfold diff. cbn [active anchor ch]. rewrite Z.sub_diag. cbn [Z.eqb]. unfold isSingleLine. cbn [active anchor ln].
  rewrite Nat.eqb_refl. replace (c <? 71) with true by (symmetry; apply Nat.ltb_lt; lia).
  rewrite line_at_frame. destruct (skipn_nonempty c l ltac:(lia)) as [x [r ->]].
  replace (-1 <=? -1)%Z with true by reflexivity.
  cbn [andb orb]. replace (Z.of_nat 71 <? Z.abs (-1))%Z with false by reflexivity.
  cbn [result app]. replace (Z.to_nat (Z.of_nat c - -1)) with (c + 1) by lia.
  rewrite (delete_line pre l post _ c (c + 1)); try lia.
  - replace (c + 1 - c) with 1 by lia. reflexivity.
  - cbn [map]. rewrite ins_line by lia. rewrite del_line by lia. replace (c + 1 - c) with 1 by lia. reflexivity.
Qed.
Print Assumptions C112_delete_key.

Theorem C112_delete_key_selection : forall pre l post fwd a b, continued l -> a < b < 71 ->
  turns pre l post (fun d => deleteRight d (selected fwd (length pre) a b) OFFSET)
    (firstn a l ++ cols b 71 l ++ blanks (b - a) ++ skipn 71 l).
Proof.
  intros pre l post fwd a b HC Hab. pose proof (continued_length _ HC) as HL.
  unfold turns, deleteRight, OFFSET. rewrite same_selected by lia.
  assert (Z.abs (diff (selected fwd (length pre) a b)) = Z.of_nat (b - a)) as Ed by (unfold diff, selected; destruct fwd; cbn [active anchor ch]; lia).
  destruct (Z.eqb_spec (diff (selected fwd (length pre) a b)) 0) as [G|_]; [lia|]. rewrite Ed.
  assert (ln (active (selected fwd (length pre) a b)) = length pre) as -> by (destruct fwd; reflexivity).
  rewrite continued_true by assumption.
  assert (isSingleLine (selected fwd (length pre) a b) = true) as -> by (unfold isSingleLine, selected; destruct fwd; apply Nat.eqb_refl).
  assert ((ch (active (selected fwd (length pre) a b)) <? 71) = true) as ->.
  { unfold selected. destruct fwd; cbn [active anchor ch]; apply Nat.ltb_lt; lia. }
  cbn [andb]. destruct (Z.ltb_spec (Z.of_nat 71) (Z.of_nat (b - a))) as [G|_]; [lia|]. rewrite Nat2Z.id. cbn [result app].
  apply delete_line; try lia. cbn [map]. rewrite ins_line by lia. f_equal. f_equal. unfold selected.
  destruct fwd; cbn [active anchor]; [apply del_line_back|apply del_line]; lia.
Qed.
Print Assumptions C112_delete_key_selection.

(** Lines that are not continued: the default *)
Lemma apply_del pre l post a b es : a <= b -> b <= length l ->
  map (to_splice (pre ++ l :: post)) es = map (shift (length (pfx pre))) [(a, b, [])] ->
  apply (pre ++ l :: post) es = Some (text (pre ++ (firstn a l ++ skipn b l) :: post)).
Proof.
  intros H1 H2 E. rewrite (apply_line _ _ _ _ _ E); [reflexivity| |reflexivity].
  apply Forall_cons; [unfold within; lia|apply Forall_nil].
Qed.
Theorem C112_plain_backspace : forall pre l post c, ~ continued l -> 1 <= c <= length l ->
  turns pre l post (fun d => deleteLeft d (caret (length pre) c) OFFSET) (firstn (c - 1) l ++ skipn c l).
Proof.
  intros pre l post c HC Hc. unfold turns, deleteLeft, removeLeft, OFFSET.
  rewrite same_caret. unfold caret. cbn [active anchor ln ch]. rewrite continued_false by assumption.
  unfold diff. cbn [active anchor ch]. rewrite Z.sub_diag. cbn [Z.eqb andb].
  destruct (Nat.eqb_spec c 0) as [G|_]; [lia|]. cbn [andb].
  replace ((0 <? 1)%Z && (0 <? Z.of_nat c)%Z) with true by (symmetry; apply andb_true_iff; split; [reflexivity|apply Z.ltb_lt; lia]).
  cbn [result app]. replace (Z.to_nat (Z.of_nat c - 1)) with (c - 1) by lia.
  apply apply_del; try lia. cbn [map]. now rewrite del_line_back by lia.
Qed.
Print Assumptions C112_plain_backspace.
Theorem C112_plain_delete : forall pre l post c, ~ continued l -> c < length l ->
  turns pre l post (fun d => deleteRight d (caret (length pre) c) OFFSET) (firstn c l ++ skipn (c + 1) l).
Proof.
  intros pre l post c HC Hc. unfold turns, deleteRight, OFFSET.
  rewrite same_caret. unfold caret. cbn [active anchor ln ch]. rewrite continued_false by assumption.
  unfold diff. cbn [active anchor ch]. rewrite Z.sub_diag. cbn [Z.eqb andb].
  rewrite line_at_frame. destruct (skipn_nonempty c l ltac:(lia)) as [x [r ->]].
  replace (-1 <=? -1)%Z with true by reflexivity. cbn [result app].
  replace (Z.to_nat (Z.of_nat c - -1)) with (c + 1) by lia.
  apply apply_del; try lia. cbn [map]. now rewrite del_line by lia.
Qed.
Print Assumptions C112_plain_delete.

(** two adjacent lines *)
Lemma text_two pre l1 l2 post : text (pre ++ l1 :: l2 :: post) = pfx pre ++ (l1 ++ EOL :: l2) ++ sfx post.
Proof.
  rewrite text_frame. cbn [sfx flat_map]. fold (sfx post). now rewrite <- ?app_assoc.
Qed.
Lemma place_second pre l1 l2 post c :
  place (pre ++ l1 :: l2 :: post) (S (length pre)) c = length (pfx pre) + length l1 + 1 + Nat.min c (length l2).
Proof.
  replace (pre ++ l1 :: l2 :: post) with ((pre ++ [l1]) ++ l2 :: post) by now rewrite <- app_assoc.
  replace (S (length pre)) with (length (pre ++ [l1])) by (rewrite app_length; cbn; lia).
  rewrite place_frame. unfold pfx. rewrite flat_map_app, app_length. cbn [flat_map]. rewrite !app_length. cbn. lia.
Qed.
Lemma continued_second pre l1 l2 post : ~ continued l2 ->
  isLineContinued (pre ++ l1 :: l2 :: post) (Z.of_nat (S (length pre))) 71 = false.
Proof.
  intros H. replace (pre ++ l1 :: l2 :: post) with ((pre ++ [l1]) ++ l2 :: post) by now rewrite <- app_assoc.
  replace (S (length pre)) with (length (pre ++ [l1])) by (rewrite app_length; cbn; lia). now apply continued_false.
Qed.
Lemma line_second pre l1 l2 post : line_at (pre ++ l1 :: l2 :: post) (S (length pre)) = l2.
Proof.
  replace (pre ++ l1 :: l2 :: post) with ((pre ++ [l1]) ++ l2 :: post) by now rewrite <- app_assoc.
  replace (S (length pre)) with (length (pre ++ [l1])) by (rewrite app_length; cbn; lia). apply line_at_frame.
Qed.
Lemma drop_middle (A u v w B : list N) : forall n m, n = length A + length u -> m = length A + length u + length v ->
  replace (n, m, []) (A ++ (u ++ v ++ w) ++ B) = A ++ (u ++ w) ++ B.
Proof.
  intros n m -> ->. unfold replace. cbn [app].
  rewrite <- !app_assoc. rewrite (app_assoc A u). rewrite <- (app_length A u), firstn_app, firstn_all, Nat.sub_diag, firstn_O, app_nil_r.
  rewrite (app_assoc (A ++ u) v). rewrite <- (app_length (A ++ u) v), skipn_app, skipn_all, Nat.sub_diag, skipn_O. now rewrite <- ?app_assoc.
Qed.

(** Backspace at the left margin and the delete key at the end of a line join two lines *)
Theorem C112_join : forall pre l1 l2 post,
  (~ continued l2 ->
   turns_many pre [l1; l2] post (fun d => deleteLeft d (caret (S (length pre)) 0) OFFSET) [l1 ++ l2]) /\
  (~ continued l1 ->
   turns_many pre [l1; l2] post (fun d => deleteRight d (caret (length pre) (length l1)) OFFSET) [l1 ++ l2]).
Proof.
  intros pre l1 l2 post. unfold turns_many, OFFSET. cbn [app]. split; intros HC.
  - unfold deleteLeft, removeLeft. rewrite same_caret. unfold caret. cbn [active anchor ln ch]. rewrite continued_second by assumption.
    unfold diff. cbn [active anchor ch]. cbn [andb Nat.eqb].
    replace (0 <? S (length pre)) with true by reflexivity. replace (S (length pre) - 1) with (length pre) by lia.
    rewrite line_at_frame. cbn [result app]. unfold apply. cbn [map to_splice ln ch]. rewrite place_second, place_frame.
    cbn [sort insert overlap fold_right]. f_equal. rewrite text_two, text_frame. rewrite Nat.min_id, Nat.min_0_l.
    change (EOL :: l2) with ([EOL] ++ l2). apply drop_middle; cbn [length]; lia.
  - unfold deleteRight. rewrite same_caret. unfold caret. cbn [active anchor ln ch]. rewrite continued_false by assumption.
    unfold diff. cbn [active anchor ch]. rewrite Z.sub_diag. cbn [Z.eqb andb]. rewrite line_at_frame, skipn_all. rewrite Nat.add_1_r.
    cbn [result app]. unfold apply. cbn [map to_splice ln ch]. rewrite place_second, place_frame.
    cbn [sort insert overlap fold_right]. f_equal. rewrite text_two, text_frame. rewrite Nat.min_id, Nat.min_0_l.
    change (EOL :: l2) with ([EOL] ++ l2). apply drop_middle; cbn [length]; lia.
Qed.
Print Assumptions C112_join.

(** ** Typing and pasting *)
Lemma findSpace_ok l a : forall n p, n <= p -> (forall k, p - n < k <= p -> nth_error l k = Some 32%N) -> a <= p - n ->
  findSpace l a n p = Some (p - n).
Proof.
  induction n as [|n IH]; intros p Hn Hb Ha; [cbn; f_equal; lia|].
  cbn [findSpace]. rewrite (nth_error_nth l p 0%N (Hb p ltac:(lia))). cbn [N.eqb BLANK Pos.eqb andb].
  destruct (Nat.ltb_spec a p); [|lia]. rewrite IH; [f_equal; lia|lia| |lia]. intros k Hk. apply Hb. lia.
Qed.
Lemma findSpace_none l a : forall n p k, n <= p -> p - n < k <= p -> nth_error l k <> Some 32%N -> findSpace l a n p = None.
Proof.
  induction n as [|n IH]; intros p k Hn Hk Hb; [lia|]. cbn [findSpace].
  destruct (N.eqb_spec (nth p l 0%N) BLANK) as [G|G]; [|reflexivity]. cbn [andb].
  destruct (Nat.ltb_spec a p); [|reflexivity].
  destruct (Nat.eq_dec k p) as [->|Hne].
  - exfalso. apply Hb. rewrite (nth_error_nth' l 0%N); [now rewrite G|].
    destruct (Nat.lt_ge_cases p (length l)) as [|Ho]; [assumption|]. rewrite nth_overflow in G by lia. discriminate.
  - apply (IH _ k); [lia|lia|assumption].
Qed.
Lemma findSpace_far l a : forall n p, p < a + n -> n <= p -> a <= p -> findSpace l a n p = None.
Proof.
  induction n as [|n IH]; intros p H Hn Ha; cbn [findSpace]; [lia|].
  destruct (N.eqb (nth p l 0%N) BLANK); [|reflexivity]. cbn [andb].
  destruct (Nat.ltb_spec a p); [|reflexivity]. apply IH; lia.
Qed.

Lemma skip_cons x : forall n (l : list N), nth_error l n = Some x -> skipn n l = x :: skipn (S n) l.
Proof. induction n as [|n IH]; intros [|y r] H; try discriminate; [now injection H as ->|]. now apply IH. Qed.

(** enough blanks, and one more, before the continuation: it stays, and only blanks go *)
Theorem C112_type : forall pre l post c t, 71 <= length l -> c + length t <= 70 -> blank_in (70 - length t) 71 l ->
  turns pre l post (fun d => insertChars d (caret (length pre) c) t OFFSET)
    (firstn c l ++ t ++ cols c (70 - length t) l ++ [32%N] ++ skipn 71 l).
Proof.
  intros pre l post c t HL Hc HB. unfold turns, insertChars, OFFSET. rewrite same_caret. unfold caret. cbn [active anchor ln ch].
  rewrite line_at_frame. replace (71 =? 0) with false by reflexivity. destruct (Nat.ltb_spec c 71); [|lia]. cbn [negb andb].
  change (71 - 1) with 70. rewrite (findSpace_ok l c (length t) 70); [|lia|intros k Hk; apply HB; lia|lia].
  cbn [result app].
  rewrite (apply_line pre l post _ [(c, c, t); (70 - length t, 70, [])]).
  - assert (sort [(c, c, t); (70 - length t, 70, [])] = [(c, c, t); (70 - length t, 70, [])]) as ->.
    { cbn [sort insert]. assert (before (c, c, t) (70 - length t, 70, []) = true) as ->; [|reflexivity].
      unfold before. destruct (Nat.ltb_spec c (70 - length t)); [reflexivity|]. cbn [orb].
      apply andb_true_iff. split; [apply Nat.eqb_eq|apply Nat.leb_le]; lia. }
    rewrite fold2' by lia.
    assert (skipn 70 l = 32%N :: skipn 71 l) as ->; [|reflexivity].
    assert (nth_error l 70 = Some 32%N) as H70 by (apply HB; lia).
    now apply skip_cons.
  - cbn [map]. rewrite ins_line by lia. rewrite del_line by lia. reflexivity.
  - repeat (apply Forall_cons; [unfold within; lia|]). apply Forall_nil.
  - cbn [sort insert]. assert (before (c, c, t) (70 - length t, 70, []) = true) as ->.
    { unfold before. destruct (Nat.ltb_spec c (70 - length t)); [reflexivity|]. cbn [orb].
      apply andb_true_iff. split; [apply Nat.eqb_eq|apply Nat.leb_le]; lia. }
    cbn [overlap]. rewrite orb_false_r. apply Nat.ltb_ge. lia.
Qed.
Print Assumptions C112_type.

Lemma before_true a b x c d y : a < c \/ (a = c /\ b <= d) -> before (a, b, x) (c, d, y) = true.
Proof.
  intros H. unfold before. destruct (Nat.ltb_spec a c); [reflexivity|]. cbn [orb]. apply andb_true_iff.
  split; [apply Nat.eqb_eq|apply Nat.leb_le]; lia.
Qed.
Lemma before_end a b x d y : d < b -> before (a, b, x) (a, d, y) = false.
Proof. intros. unfold before. rewrite Nat.ltb_irrefl, Nat.eqb_refl. cbn [orb andb]. apply Nat.leb_gt. lia. Qed.

(** Over a selection that was made towards the right: the text stands in its place *)
Theorem C112_type_over : forall pre l post a b t, continued l -> a < b -> b + length t <= 70 -> blank_in (70 - length t) 71 l ->
  turns pre l post (fun d => insertChars d (selected true (length pre) a b) t OFFSET)
    (firstn a l ++ t ++ cols b (70 - length t) l ++ [32%N] ++ blanks (b - a) ++ skipn 71 l).
Proof.
  intros pre l post a b t HC Hab Hb HB. pose proof (continued_length _ HC) as HL.
  unfold turns, insertChars, removeLeft, OFFSET. rewrite !same_selected by lia.
  assert (Z.abs (diff (selected true (length pre) a b)) = Z.of_nat (b - a)) as Ed by (unfold diff, selected; cbn [active anchor ch]; lia).
  destruct (Z.eqb_spec (diff (selected true (length pre) a b)) 0) as [G|_]; [lia|]. rewrite Ed.
  unfold isSingleLine, diff, selected. cbn [active anchor ch ln].
  rewrite continued_true by assumption. rewrite line_at_frame, Nat.eqb_refl, !Nat.ltb_irrefl.
  destruct (Nat.ltb_spec b a); [lia|]. destruct (Nat.ltb_spec b 71); [|lia]. destruct (Nat.ltb_spec 0 b); [|lia]. cbn [andb orb].
  destruct (Z.ltb_spec (Z.of_nat 71) (Z.of_nat (b - a))) as [G|_]; [lia|]. rewrite Nat2Z.id.
  destruct (Nat.ltb_spec a b); [|lia]. cbn [negb]. replace (71 =? 0) with false by reflexivity. cbn [negb andb].
  change (71 - 1) with 70. rewrite (findSpace_ok l b (length t) 70); [|lia|intros k Hk; apply HB; lia|lia].
  cbn [result app].
  assert (sort [(71, 71, blanks (b - a)); (a, b, []); (a, a, t); (70 - length t, 70, [])] =
          [(a, a, t); (a, b, []); (70 - length t, 70, []); (71, 71, blanks (b - a))]) as Es.
  { cbn [sort insert]. rewrite (before_true a a t) by lia. cbn [insert]. rewrite before_end by lia. cbn [insert].
    rewrite (before_true a b) by lia. cbn [insert]. rewrite before_lt by lia. cbn [insert]. rewrite before_lt by lia. cbn [insert].
    rewrite before_lt by lia. reflexivity. }
  rewrite (apply_line pre l post _ [(71, 71, blanks (b - a)); (a, b, []); (a, a, t); (70 - length t, 70, [])]); rewrite ?Es.
  - f_equal. f_equal. f_equal. f_equal.
    assert (skipn 70 l = 32%N :: skipn 71 l) as E70 by (apply skip_cons, HB; lia).
    set (M := firstn (70 - length t) l ++ [32%N] ++ blanks (b - a) ++ skipn 71 l).
    assert (fold_right replace l [(70 - length t, 70, []); (71, 71, blanks (b - a))] = M) as EM.
    { rewrite fold2 by lia. unfold M. f_equal. unfold cols. rewrite skipn_firstn_comm, E70. reflexivity. }
    change (fold_right replace l [(a, a, t); (a, b, []); (70 - length t, 70, []); (71, 71, blanks (b - a))]) with
      (replace (a, a, t) (replace (a, b, []) (fold_right replace l [(70 - length t, 70, []); (71, 71, blanks (b - a))]))).
    rewrite EM. unfold replace. cbn [app].
    assert (firstn a M = firstn a l) as E1.
    { unfold M. rewrite firstn_app, firstn_length, Nat.min_l by lia. replace (a - (70 - length t)) with 0 by lia.
      rewrite firstn_O, app_nil_r, skip_first by lia. reflexivity. }
    assert (skipn b M = cols b (70 - length t) l ++ [32%N] ++ blanks (b - a) ++ skipn 71 l) as E2.
    { unfold M. rewrite skipn_app, firstn_length, Nat.min_l by lia. replace (b - (70 - length t)) with 0 by lia. reflexivity. }
    rewrite E1, E2. assert (length (firstn a l) = a) as El by (rewrite firstn_length; lia).
    rewrite firstn_app, skipn_app, El, Nat.sub_diag, firstn_O, skipn_O, app_nil_r, skip_first, skipn_all2 by lia. reflexivity.
  - cbn [map]. rewrite !ins_line by lia. rewrite (del_line_back _ _ _ a b) by lia. rewrite del_line by lia. reflexivity.
  - repeat (apply Forall_cons; [unfold within; lia|]). apply Forall_nil.
  - cbn [overlap]. rewrite !orb_false_iff, !Nat.ltb_ge. repeat split; lia.
Qed.
Print Assumptions C112_type_over.

(** not enough of them: nothing but the insertion happens *)
Theorem C112_type_no_room : forall pre l post c t, c <= length l ->
  70 < c + length t \/ (exists k, 70 - length t < k <= 70 /\ nth_error l k <> Some 32%N) -> 0 < length t <= 70 ->
  turns pre l post (fun d => insertChars d (caret (length pre) c) t OFFSET) (firstn c l ++ t ++ skipn c l).
Proof.
  intros pre l post c t HL HN Ht. unfold turns, insertChars, OFFSET. rewrite same_caret. unfold caret. cbn [active anchor ln ch].
  rewrite line_at_frame. replace (71 =? 0) with false by reflexivity. cbn [negb andb]. change (71 - 1) with 70.
  assert ((if c <? 71 then match findSpace l c (length t) 70 with Some p => [Del (mkPos (length pre) p) (mkPos (length pre) 70)] | None => [] end else []) = []) as ->.
  { destruct (Nat.ltb_spec c 71); [|reflexivity]. assert (findSpace l c (length t) 70 = None) as ->; [|reflexivity].
    destruct HN as [H'|[k [Hk Hn]]]; [apply findSpace_far; lia|]. now apply (findSpace_none l c (length t) 70 k); [lia| |]. }
  cbn [result app]. rewrite (apply_line pre l post _ [(c, c, t)]); [reflexivity| | |reflexivity].
  - cbn [map]. now rewrite ins_line by lia.
  - apply Forall_cons; [unfold within; lia|apply Forall_nil].
Qed.
Print Assumptions C112_type_no_room.

(** ** The continuation commands *)
Lemma app_line (pre : doc) (a : list N) (ls : doc) : pre ++ a :: ls = (pre ++ [a]) ++ ls.
Proof. now rewrite <- app_assoc. Qed.
Lemma text_split pre a b post : text (pre ++ (a ++ EOL :: b) :: post) = text (pre ++ a :: b :: post).
Proof. now rewrite text_two, text_frame. Qed.

Lemma blanks_app a b : blanks a ++ blanks b = blanks (a + b).
Proof. unfold blanks. now rewrite repeat_app. Qed.

Theorem C112_insert_continuation : forall pre l post c, length l <= 71 -> c <= length l ->
  turns_many pre [l] post (fun d => insertContinuation d (mkPos (length pre) c) OFFSET COLUMN)
    [l ++ blanks (71 - length l) ++ [88%N]; blanks 15].
Proof.
  intros pre l post c HL Hc. unfold turns_many, insertContinuation, OFFSET, COLUMN. cbn [app ln ch].
  rewrite continued_false by (intros H; pose proof (continued_length _ H); lia). rewrite line_at_frame. cbn [negb].
  assert (forall es sp, map (to_splice (pre ++ l :: post)) es = map (shift (length (pfx pre))) sp ->
            Forall (fun s => fst s = (length l, length l)) sp ->
            apply (pre ++ l :: post) es = Some (text (pre ++ (l ++ concat (map snd sp)) :: post))) as K.
  { intros es sp E F.
    assert (sort sp = sp) as Es.
    { clear E. induction F as [|[[a b] t] r H F IH]; [reflexivity|]. cbn [sort]. rewrite IH. destruct F as [|[[a' b'] t'] r' H' F']; [reflexivity|].
      cbn in H, H'. injection H as -> ->. injection H' as -> ->. cbn [insert]. unfold before. rewrite Nat.eqb_refl, Nat.leb_refl, orb_true_r. reflexivity. }
    rewrite (apply_line _ _ _ _ _ E).
    - f_equal. f_equal. f_equal. f_equal. rewrite Es. clear E Es. induction F as [|[[a b] t] r H F IH]; [now rewrite app_nil_r|].
      cbn in H. injection H as -> ->. cbn [fold_right map concat snd]. rewrite IH. unfold replace.
      rewrite firstn_app, firstn_all, Nat.sub_diag, firstn_O, app_nil_r. rewrite skipn_app, skipn_all, Nat.sub_diag, skipn_O. reflexivity.
    - eapply Forall_impl; [|exact F]. intros [[a b] t] H. cbn in *. injection H as -> ->. lia.
    - rewrite Es. clear E Es. induction F as [|[[a b] t] r H F IH]; [reflexivity|]. destruct F as [|[[a' b'] t'] r' H' F']; [reflexivity|].
      cbn in H, H'. injection H as -> ->. injection H' as -> ->. cbn [overlap] in *. rewrite IH. rewrite Nat.ltb_irrefl. reflexivity. }
  assert (to_splice (pre ++ l :: post) (Del (mkPos (length pre) 71) (mkPos (length pre) (71 + 1))) = shift (length (pfx pre)) (length l, length l, [])) as Ed.
  { cbn [to_splice ln ch]. rewrite !place_frame. unfold shift. f_equal; f_equal; lia. }
  assert (forall t, to_splice (pre ++ l :: post) (Ins (mkPos (length pre) 71) t) = shift (length (pfx pre)) (length l, length l, t)) as Ei.
  { intro t. cbn [to_splice ln ch]. rewrite !place_frame. unfold shift. f_equal; f_equal; lia. }
  destruct (Nat.ltb_spec c 71) as [G|G].
  - destruct (Nat.ltb_spec 71 (length l)) as [G1|G1]; [lia|]. cbn [result].
    rewrite (K _ [(length l, length l, blanks (71 - length l)); (length l, length l, []); (length l, length l, X :: EOL :: blanks 15)]).
    + cbn [map snd concat]. rewrite !app_nil_r. cbn [app]. rewrite <- text_split. f_equal. f_equal. f_equal. f_equal.
      rewrite <- !app_assoc. reflexivity.
    + cbn [map]. rewrite Ed, Ei. rewrite ins_line by lia. reflexivity.
    + repeat (apply Forall_cons; [reflexivity|]). apply Forall_nil.
  - cbn [result]. assert (length l = 71) as HE by lia.
    rewrite (K _ [(length l, length l, []); (length l, length l, X :: EOL :: blanks 15)]).
    + cbn [map snd concat]. rewrite !app_nil_r. cbn [app]. rewrite <- text_split. f_equal. f_equal. f_equal. f_equal.
      rewrite HE. cbn [Nat.sub blanks repeat app]. rewrite <- app_assoc. reflexivity.
    + cbn [map]. rewrite Ed, Ei. reflexivity.
    + repeat (apply Forall_cons; [reflexivity|]). apply Forall_nil.
Qed.
Print Assumptions C112_insert_continuation.

(** the line is continued then, in column 72 *)
Theorem C112_insert_continued : forall l, length l <= 71 -> continued (l ++ blanks (71 - length l) ++ [88%N]).
Proof.
  intros l H. exists 88%N. split; [|discriminate]. rewrite nth_error_app2 by lia.
  rewrite nth_error_app2 by (unfold blanks; rewrite repeat_length; lia). unfold blanks. rewrite repeat_length.
  now replace (71 - length l - (71 - length l)) with 0 by lia.
Qed.
Print Assumptions C112_insert_continued.

(** a line already continued gets a further continuation line, continued itself *)
Theorem C112_insert_further : forall pre l post c, continued l ->
  turns_many pre [l] post (fun d => insertContinuation d (mkPos (length pre) c) OFFSET COLUMN) [l; blanks 71 ++ [88%N]] /\
  continued (blanks 71 ++ [88%N]).
Proof.
  intros pre l post c HC. split; [|exists 88%N; split; [reflexivity|discriminate]].
  unfold turns_many, insertContinuation, OFFSET, COLUMN. cbn [app ln ch]. rewrite continued_true by assumption. cbn [negb].
  rewrite line_at_frame. unfold result.
  rewrite (apply_line pre l post _ [(length l, length l, EOL :: blanks 71 ++ [X])]); [| | |reflexivity].
  - rewrite <- text_split. unfold sort, insert, fold_right, replace. rewrite firstn_all, skipn_all, app_nil_r. reflexivity.
  - unfold map. rewrite ins_line by lia. reflexivity.
  - apply Forall_cons; [unfold within; lia|apply Forall_nil].
Qed.
Print Assumptions C112_insert_further.

(** Removing a continuation: the continuation line goes, and what follows column 71 of the line before it; the line
    before it stays continued if the removed one was, so the lines that follow still belong to the statement *)
Theorem C112_remove_continuation : forall pre l1 l2 post c, continued l1 ->
  (~ continued l2 ->
   turns_many pre [l1; l2] post (fun d => removeContinuation d (mkPos (S (length pre)) c) OFFSET) [firstn 71 l1]) /\
  (continued l2 ->
   turns_many pre [l1; l2] post (fun d => removeContinuation d (mkPos (S (length pre)) c) OFFSET) [firstn 72 l1] /\ continued (firstn 72 l1)).
Proof.
  intros pre l1 l2 post c HC. pose proof (continued_length _ HC) as HL.
  assert (forall n, n <= length l1 ->
     apply (pre ++ l1 :: l2 :: post) [Del (mkPos (S (length pre)) (length l2)) (mkPos (length pre) n)] = Some (text (pre ++ firstn n l1 :: post))) as K.
  { intros n Hn. unfold apply. cbn [map to_splice ln ch]. rewrite place_second, place_frame. cbn [sort insert overlap fold_right]. f_equal.
    rewrite text_two, text_frame. assert (l1 ++ EOL :: l2 = firstn n l1 ++ (skipn n l1 ++ EOL :: l2) ++ []) as -> by (rewrite app_nil_r, app_assoc, firstn_skipn; reflexivity).
    rewrite drop_middle; [now rewrite app_nil_r|rewrite firstn_length; lia|].
    rewrite app_length, firstn_length, skipn_length. cbn [length]. lia. }
  assert (removeContinuation (pre ++ l1 :: l2 :: post) (mkPos (S (length pre)) c) 71 =
    Some [Del (mkPos (S (length pre)) (length l2)) (mkPos (length pre) (71 + if isLineContinued (pre ++ l1 :: l2 :: post) (Z.of_nat (S (length pre))) 71 then 1 else 0))]) as E.
  { unfold removeContinuation. cbn [ln ch]. replace (Z.of_nat (S (length pre)) - 1)%Z with (Z.of_nat (length pre)) by lia.
    rewrite continued_true by assumption. rewrite line_second. replace (S (length pre) - 1) with (length pre) by lia. reflexivity. }
  unfold turns_many, OFFSET. cbn [app]. rewrite E. split; intros H2.
  - rewrite continued_second by assumption. apply (K (71 + 0)). lia.
  - replace (isLineContinued (pre ++ l1 :: l2 :: post) (Z.of_nat (S (length pre))) 71) with true.
    + split; [apply (K (71 + 1)); lia|]. destruct HC as [x [Hx Hn]]. exists x. split; [|assumption].
      rewrite <- (firstn_skipn 72 l1) in Hx. rewrite nth_error_app1 in Hx by (rewrite firstn_length; lia). exact Hx.
    + symmetry. rewrite app_line. replace (S (length pre)) with (length (pre ++ [l1])) by (rewrite app_length; cbn; lia).
      now apply continued_true.
Qed.
Print Assumptions C112_remove_continuation.
(** without a continuation on the line before, nothing happens *)
Theorem C112_remove_nothing : forall pre l1 l2 post c, ~ continued l1 ->
  turns_many pre [l1; l2] post (fun d => removeContinuation d (mkPos (S (length pre)) c) OFFSET) [l1; l2].
Proof.
  intros pre l1 l2 post c HC. unfold turns_many, removeContinuation, OFFSET. cbn [ln ch app].
  replace (Z.of_nat (S (length pre)) - 1)%Z with (Z.of_nat (length pre)) by lia. rewrite continued_false by assumption.
  rewrite andb_false_r. reflexivity.
Qed.
Print Assumptions C112_remove_nothing.

(** Adding a continuation and taking it away again pads the line to column 71 at most *)
Theorem C112_insert_remove : forall pre l post c c', length l <= 71 -> c <= length l ->
  let l' := l ++ blanks (71 - length l) ++ [88%N] in
  turns_many pre [l] post (fun d => insertContinuation d (mkPos (length pre) c) OFFSET COLUMN) [l'; blanks 15] /\
  turns_many pre [l'; blanks 15] post (fun d => removeContinuation d (mkPos (S (length pre)) c') OFFSET) [l ++ blanks (71 - length l)].
Proof.
  intros pre l post c c' HL Hc. cbv zeta. split; [now apply C112_insert_continuation|].
  pose proof (C112_insert_continued l HL) as HC.
  destruct (C112_remove_continuation pre _ (blanks 15) post c' HC) as [H _].
  assert (firstn 71 (l ++ blanks (71 - length l) ++ [88%N]) = l ++ blanks (71 - length l)) as E.
  { rewrite app_assoc. rewrite firstn_app. unfold blanks. rewrite app_length, repeat_length.
    replace (71 - (length l + (71 - length l))) with 0 by lia. rewrite firstn_O, app_nil_r.
    rewrite firstn_all2; [reflexivity|]. rewrite app_length, repeat_length. lia. }
  rewrite E in H. apply H. intros [x [Hx _]]. discriminate.
Qed.
Print Assumptions C112_insert_remove.

(** ** Where they fail *)
Definition rem (n : nat) : list N := repeat 65%N n.
(** Typing one character, column 70 in use and column 71 blank: the character in column 70 is lost, the blank stays *)
Theorem C112_type_refuted : exists l c t, continued l /\ c + length t <= 70 /\ blank_in (71 - length t) 71 l /\
  turns [] l [] (fun d => insertChars d (caret 0 c) t OFFSET) (firstn c l ++ t ++ cols c (70 - length t) l ++ skipn 70 l) /\
  cols (70 - length t) 70 l = [65%N] /\
  length (filter (N.eqb 65%N) (firstn c l ++ t ++ cols c (70 - length t) l ++ skipn 70 l)) < length (filter (N.eqb 65%N) l).
Proof.
  exists (rem 70 ++ [32; 88]%N), 0, [66%N].
  split; [exists 88%N; split; [reflexivity|discriminate]|]. split; [cbn; lia|].
  split; [intros k Hk; cbn in Hk; replace k with 70 by lia; reflexivity|].
  split; [vm_compute; reflexivity|]. split; [reflexivity|]. vm_compute. lia.
Qed.
Print Assumptions C112_type_refuted.
(** Backspace at the left margin of a continued line moves its continuation and joins nothing *)
Theorem C112_backspace_margin_refuted : exists l0 l, continued l /\
  turns_many [] [l0; l] [] (fun d => deleteLeft d (caret 1 0) OFFSET) [l0; firstn 71 l ++ [32%N] ++ skipn 71 l] /\
  ~ continued (firstn 71 l ++ [32%N] ++ skipn 71 l).
Proof.
  exists (rem 3), (rem 71 ++ [88%N]). split; [exists 88%N; split; [reflexivity|discriminate]|].
  split; [vm_compute; reflexivity|]. intros [x [Hx Hn]]. vm_compute in Hx. injection Hx as <-. now apply Hn.
Qed.
Print Assumptions C112_backspace_margin_refuted.
(** Backspace right before the continuation moves it one to the left *)
Theorem C112_backspace_end_refuted : exists l, continued l /\
  turns [] l [] (fun d => deleteLeft d (caret 0 71) OFFSET) (firstn 70 l ++ skipn 71 l) /\ ~ continued (firstn 70 l ++ skipn 71 l).
Proof.
  exists (rem 71 ++ [88%N]). split; [exists 88%N; split; [reflexivity|discriminate]|].
  split; [vm_compute; reflexivity|]. intros [x [Hx Hn]]. vm_compute in Hx. discriminate.
Qed.
Print Assumptions C112_backspace_end_refuted.
(** Deleting a selection made towards the left margin moves the continuation; made away from it, it does not *)
Theorem C112_selection_margin_refuted : exists l b, continued l /\ 0 < b < 71 /\
  turns [] l [] (fun d => deleteLeft d (selected false 0 0 b) OFFSET) (skipn b l) /\ ~ continued (skipn b l).
Proof.
  exists (rem 71 ++ [88%N]), 5. split; [exists 88%N; split; [reflexivity|discriminate]|]. split; [lia|].
  split; [vm_compute; reflexivity|]. intros [x [Hx Hn]]. vm_compute in Hx. discriminate.
Qed.
Print Assumptions C112_selection_margin_refuted.
(** The delete key on a selection that was made from behind the continuation to a place in front of it: overlapping edits *)
Theorem C112_delete_across_refuted : exists l a b, continued l /\ a < 71 /\ 71 < b <= length l /\
  result [l] (deleteRight [l] (selected false 0 a b) OFFSET) = None /\
  result [l] (deleteRight [l] (selected true 0 a b) OFFSET) = Some (text [firstn a l ++ skipn b l]).
Proof.
  exists (rem 71 ++ [88%N]), 60, 72. split; [exists 88%N; split; [reflexivity|discriminate]|].
  split; [lia|]. split; [vm_compute; lia|]. split; vm_compute; reflexivity.
Qed.
Print Assumptions C112_delete_across_refuted.
(** Typing over a selection of the blanks before the continuation, made towards the left: overlapping edits *)
Theorem C112_type_over_refuted : exists l a b t, continued l /\ 0 < a < b /\ b < 71 /\
  result [l] (insertChars [l] (selected false 0 a b) t OFFSET) = None.
Proof.
  exists (rem 60 ++ blanks 11 ++ [88%N]), 62, 70, [66%N]. split; [exists 88%N; split; [reflexivity|discriminate]|].
  split; [lia|]. split; [lia|]. vm_compute. reflexivity.
Qed.
Print Assumptions C112_type_over_refuted.
(** A line with a sequence number, not continued: the command to continue it fails *)
Theorem C112_insert_refuted : forall pre l post c, ~ continued l -> 71 < length l -> c < 71 ->
  result (pre ++ l :: post) (insertContinuation (pre ++ l :: post) (mkPos (length pre) c) OFFSET COLUMN) = None.
Proof.
  intros pre l post c HC HL Hc. unfold insertContinuation, OFFSET. cbn [ln ch]. rewrite continued_false by assumption.
  rewrite line_at_frame. cbn [negb]. destruct (Nat.ltb_spec c 71); [|lia]. destruct (Nat.ltb_spec 71 (length l)); [|lia]. reflexivity.
Qed.
Print Assumptions C112_insert_refuted.

(** ** Examples *)
Definition ex : list N := rem 20 ++ blanks 51 ++ [88%N] ++ rem 8.
Example ex_continued : continued ex.
Proof. exists 88%N. split; [reflexivity|discriminate]. Qed.
Example ex_type : result [rem 3; ex; rem 4] (insertChars [rem 3; ex; rem 4] (caret 1 10) [66; 67]%N OFFSET) =
  Some (text [rem 3; rem 10 ++ [66; 67]%N ++ rem 10 ++ blanks 49 ++ [88%N] ++ rem 8; rem 4]).
Proof. vm_compute. reflexivity. Qed.
Example ex_backspace : result [rem 3; ex; rem 4] (deleteLeft [rem 3; ex; rem 4] (caret 1 10) OFFSET) =
  Some (text [rem 3; rem 19 ++ blanks 52 ++ [88%N] ++ rem 8; rem 4]).
Proof. vm_compute. reflexivity. Qed.
Example ex_hyp : blank_in (70 - length [66; 67]%N) 71 ex.
Proof. intros k Hk. cbn [length] in Hk. assert (k = 68 \/ k = 69 \/ k = 70) as [->| [-> | ->]] by lia; reflexivity. Qed.
Example ex_insert : result [rem 3; rem 4] (insertContinuation [rem 3; rem 4] (mkPos 0 2) OFFSET COLUMN) =
  Some (text [rem 3 ++ blanks 68 ++ [88%N]; blanks 15; rem 4]).
Proof. vm_compute. reflexivity. Qed.
Example ex_remove : result [ex; rem 9; rem 4] (removeContinuation [ex; rem 9; rem 4] (mkPos 1 2) OFFSET) =
  Some (text [rem 20 ++ blanks 51; rem 4]).
Proof. vm_compute. reflexivity. Qed.
