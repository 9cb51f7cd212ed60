From Coq Require Import List NArith ZArith Arith Bool Lia Sorting.Sorted.
From Coq Require Import ZifyBool ZifyNat ZifyN.
From Verif Require Import Common Text_Model Text_Spec Text_Proof Lines_Proof.
Import ListNotations.
Local Ltac Zify.zify_post_hook ::= Z.div_mod_to_equations.

Lemma skipn_skipn : forall (T : Type) n m (l : list T), skipn n (skipn m l) = skipn (m + n) l.
Proof. intros T n m; induction m as [|m IH]; intros [|x l]; cbn [skipn Nat.add]; auto. apply skipn_nil. Qed.

Lemma vset_app : forall X x Y v, vset (X ++ x :: Y) (length X) v = Some (X ++ v :: Y).
Proof. induction X as [|a X IH]; intros; cbn [app length vset]; [auto|]. now rewrite IH. Qed.
Lemma vset_at : forall X x Y v i, i = length X -> vset (X ++ x :: Y) i v = Some (X ++ v :: Y).
Proof. intros; subst; apply vset_app. Qed.
Lemma vget_at : forall X x Y i, i = length X -> vget (X ++ x :: Y) i = Some x.
Proof. intros; subst. unfold vget. rewrite nth_error_app2, Nat.sub_diag by lia. auto. Qed.

Lemma loop_down_spec : forall sh diff R X Z T, 1 <= diff -> length Z = diff ->
  exists Z', length Z' = diff /\
  loop_down (length R) (length X + length R + diff - 1) diff sh (X ++ R ++ Z ++ T)
  = Some (X ++ Z' ++ map sh R ++ T).
Proof.
  intros sh diff R. induction R as [|r R IH] using rev_ind; intros X Z T Hd HZ.
  - exists Z. split; [auto|]. reflexivity.
  - destruct (@exists_last _ Z) as (Z0 & z & ->). { destruct Z; cbn in HZ; [lia|discriminate]. }
    rewrite app_length in HZ. cbn [length] in HZ.
    rewrite app_length. cbn [length]. replace (length R + 1) with (S (length R)) by lia.
    cbn [loop_down].
    replace (X ++ (R ++ [r]) ++ (Z0 ++ [z]) ++ T) with ((X ++ R) ++ r :: (Z0 ++ z :: T))
      by (rewrite <- !app_assoc; reflexivity).
    rewrite vget_at by (rewrite app_length; lia).
    replace ((X ++ R) ++ r :: Z0 ++ z :: T) with ((X ++ R ++ r :: Z0) ++ z :: T)
      by (rewrite <- !app_assoc; reflexivity).
    rewrite vset_at by (rewrite !app_length; cbn [length]; lia).
    destruct (IH X (r :: Z0) (sh r :: T) Hd ltac:(cbn [length]; lia)) as (Z' & HZ' & E).
    exists Z'. split; [auto|].
    replace (length X + S (length R) + diff - 1 - 1) with (length X + length R + diff - 1) by lia.
    replace ((X ++ R ++ r :: Z0) ++ sh r :: T) with (X ++ R ++ (r :: Z0) ++ sh r :: T)
      by (rewrite <- !app_assoc; reflexivity).
    rewrite E, map_app, <- app_assoc. reflexivity.
Qed.

Lemma loop_up_spec : forall sh diff R X Z, length Z = diff ->
  exists Z', length Z' = diff /\
  loop_up (length R) (length X) diff sh (X ++ Z ++ R) = Some (X ++ map sh R ++ Z').
Proof.
  intros sh diff. induction R as [|r R IH]; intros X Z HZ.
  - exists Z. split; [auto|]. cbn [length loop_up map app]. now rewrite app_nil_r.
  - cbn [length loop_up].
    replace (X ++ Z ++ r :: R) with ((X ++ Z) ++ r :: R) by (rewrite <- app_assoc; reflexivity).
    rewrite vget_at by (rewrite app_length; lia).
    destruct Z as [|z Z0].
    + rewrite app_nil_r, vset_at by auto.
      destruct (IH (X ++ [sh r]) [] HZ) as (Z' & HZ' & E). exists Z'. split; [auto|].
      rewrite app_length in E. cbn [length app] in E. rewrite <- app_assoc in E. cbn [app] in E.
      rewrite E. cbn [map]. now rewrite <- app_assoc.
    + rewrite <- app_assoc. cbn [app]. rewrite vset_at by auto.
      destruct (IH (X ++ [sh r]) (Z0 ++ [r])) as (Z' & HZ' & E).
      { rewrite app_length. cbn [length] in *. lia. }
      exists Z'. split; [auto|].
      rewrite app_length in E. cbn [length app] in E. rewrite <- !app_assoc in E. cbn [app] in E.
      rewrite E. cbn [map app]. reflexivity.
Qed.

Lemma loop_fill_spec : forall ns P Y T b, length Y = length ns ->
  loop_fill ns (length P) b (P ++ Y ++ T) = Some (P ++ map (fun x => x + b) ns ++ T).
Proof.
  induction ns as [|x ns IH]; intros P Y T b HY; destruct Y as [|y Y]; cbn in HY; try lia; [reflexivity|].
  cbn [loop_fill app]. rewrite vset_at by auto.
  specialize (IH (P ++ [x + b]) Y T b ltac:(lia)). rewrite app_length in IH. cbn [length] in IH.
  rewrite <- !app_assoc in IH. cbn [app] in IH. rewrite IH. reflexivity.
Qed.

(** The line of an offset is the number of line starts before or at it. *)
Lemma line_number : forall a b line s o, clean_cut a b -> o = length a ->
  nth_error (create_line_indices (a ++ b)) line = Some s -> s <= o ->
  (forall s', line_start (a ++ b) s' -> s < s' -> o < s') ->
  line = length (find_newlines a).
Proof.
  intros a b line s o Hc -> Hn Hs Hlast.
  pose proof (cli_is_line (a ++ b)) as [Hsort Hin].
  unfold create_line_indices in *. rewrite find_newlines_app in * by auto.
  set (L := find_newlines a) in *. set (M := map (Nat.add (length a)) (find_newlines b)) in *.
  destruct (le_gt_dec line (length L)) as [Hle|Hgt].
  - destruct (Nat.eq_dec line (length L)) as [|Hne]; [auto|]. exfalso.
    assert (exists s', nth_error (0 :: L ++ M) (S line) = Some s' /\ In s' L) as (s' & Hs' & HsL).
    { cbn [nth_error]. destruct (nth_error L line) as [s'|] eqn:E.
      - exists s'. split; [|eapply nth_error_In; eauto]. rewrite nth_error_app1; [auto|lia].
      - apply nth_error_None in E. lia. }
    assert (s < s').
    { change (0 :: L ++ M) with ((0 :: L) ++ M) in *.
      remember ((0 :: L) ++ M) as q. clear -Hsort Hn Hs'. revert line Hn Hs'.
      induction Hsort as [|x q H IH HF]; intros line Hn Hs'; [destruct line; discriminate|].
      destruct line as [|line].
      - cbn [nth_error] in Hn. injection Hn as <-. change (nth_error q 0 = Some s') in Hs'. apply nth_error_In in Hs'.
        rewrite Forall_forall in HF. auto.
      - cbn [nth_error] in *. eauto. }
    assert (length a < s').
    { apply Hlast; auto. apply Hin. eapply nth_error_In; eauto. }
    apply find_newlines_le in HsL. lia.
  - exfalso. destruct line as [|line]; [lia|]. cbn [nth_error] in Hn.
    rewrite nth_error_app2 in Hn by lia. apply nth_error_In in Hn. unfold M in Hn.
    apply in_map_iff in Hn as (x & <- & Hx). apply find_newlines_le in Hx. lia.
Qed.

Lemma shift_val : forall n b e x, b <= e -> (Z.of_nat (n + b + x) < 2 ^ 64)%Z ->
  shift n b e (e + x) = b + n + x.
Proof.
  intros n b e x H1 H2. unfold shift.
  replace (Z.of_nat (e + x) + (Z.of_nat n - (Z.of_nat e - Z.of_nat b)))%Z with (Z.of_nat (b + n + x)) by lia.
  rewrite Z.mod_small by lia. lia.
Qed.

Lemma did_change_exact : forall f sline scol eline ecol b e new,
  lines f = create_line_indices (text f) ->
  position_at (text f) sline scol b -> position_at (text f) eline ecol e -> b <= e ->
  let A := firstn b (text f) in let B := firstn (e - b) (skipn b (text f)) in let C := skipn e (text f) in
  clean_cut A (B ++ C) -> clean_cut (A ++ B) C -> clean_cut A (new ++ C) -> clean_cut (A ++ new) C ->
  (Z.of_nat (length (A ++ new ++ C)) < 2 ^ 64)%Z ->
  did_change f sline scol eline ecol new =
  Changed (mkFile (A ++ new ++ C) (create_line_indices (A ++ new ++ C)) ((version f + 1) mod 2 ^ 64)%N).
Proof.
  intros f sline scol eline ecol b e new Hl Hb He Hbe A B C C1 C2 C3 C4 Hlen.
  assert (HABC : text f = A ++ B ++ C).
  { unfold A, B, C. rewrite <- (firstn_skipn b (text f)) at 1. f_equal.
    rewrite <- (firstn_skipn (e - b) (skipn b (text f))) at 1. f_equal.
    rewrite skipn_skipn. f_equal; lia. }
  unfold did_change. rewrite Hl, (position_exact _ _ _ _ Hb), (position_exact _ _ _ _ He).
  destruct Hb as (tb & s & HLb & Hnb & [Hsb Hob] & Hlastb & _).
  destruct He as (te & s' & HLe & Hne & [Hse Hoe] & Hlaste & _).
  apply is_line_cli in HLb. apply is_line_cli in HLe. subst tb te.
  assert (LA : length A = b) by (unfold A; rewrite firstn_length; lia).
  assert (LB : length B = e - b) by (unfold B; rewrite firstn_length, skipn_length; lia).
  assert (C12 : clean_cut A B).
  { intros (a' & b' & EA & EB). apply C1. exists a', (b' ++ C). split; [auto|]. now rewrite EB. }
  assert (C34 : clean_cut A new).
  { intros (a' & b' & EA & EB). apply C3. exists a', (b' ++ C). split; [auto|]. now rewrite EB. }
  assert (Esl : sline = length (find_newlines A)).
  { rewrite HABC in Hnb, Hlastb. apply (line_number A (B ++ C) sline s b); auto. }
  assert (Eel : eline = length (find_newlines (A ++ B))).
  { rewrite HABC, app_assoc in Hne, Hlaste. apply (line_number (A ++ B) C eline s' e); auto.
    rewrite app_length. lia. }
  rewrite find_newlines_app, app_length, map_length, <- Esl in Eel by auto.
  replace (length (text f) <? b) with false by lia.
  assert (ER : replace (text f) b e new = A ++ new ++ C).
  { unfold replace. replace (b <=? e) with true by lia. reflexivity. }
  rewrite ER. clear ER.
  replace (eline <? sline) with false by lia.
  set (P := 0 :: find_newlines A). set (Q := map (Nat.add b) (find_newlines B)).
  set (R := map (Nat.add e) (find_newlines C)).
  assert (ET : create_line_indices (text f) = P ++ Q ++ R).
  { unfold create_line_indices, P. rewrite HABC, app_assoc, find_newlines_app, find_newlines_app by auto.
    rewrite app_length, LA, LB. unfold Q, R. replace (b + (e - b)) with e by lia.
    now rewrite <- app_assoc. }
  assert (EN : create_line_indices (A ++ new ++ C) =
               P ++ map (fun x => x + b) (find_newlines new) ++ map (shift (length new) b e) R).
  { unfold create_line_indices, P. rewrite app_assoc, find_newlines_app, find_newlines_app by auto.
    rewrite app_length, LA. cbn [app]. f_equal. rewrite <- app_assoc. f_equal. f_equal.
    - apply map_ext. intros x. lia.
    - unfold R. rewrite map_map. apply map_ext_in. intros x Hx. rewrite shift_val; auto.
      apply find_newlines_le in Hx. rewrite !app_length in Hlen. lia. }
  assert (LP : length P = sline + 1) by (unfold P; cbn [length]; lia).
  assert (LQ : length Q = eline - sline) by (unfold Q; rewrite map_length; lia).
  rewrite ET, EN. clear EN ET.
  set (sh := shift (length new) b e).
  destruct (Nat.ltb_spec (eline - sline) (length (find_newlines new))) as [Hgt|Hle].
  - set (diff := length (find_newlines new) - (eline - sline)).
    assert (LD : 1 <= diff) by lia.
    assert (E1 : length ((P ++ Q ++ R) ++ repeat 0 diff) - 1 - (eline + diff) = length R).
    { rewrite !app_length, repeat_length. lia. }
    rewrite E1.
    assert (E2 : length ((P ++ Q ++ R) ++ repeat 0 diff) - 1 = length (P ++ Q) + length R + diff - 1).
    { rewrite !app_length, repeat_length. lia. }
    rewrite E2.
    destruct (loop_down_spec sh diff R (P ++ Q) (repeat 0 diff) [] LD (repeat_length _ _)) as (Z' & HZ' & E).
    rewrite !app_nil_r in E. rewrite <- !app_assoc in *. rewrite E.
    rewrite <- LP. replace (P ++ Q ++ Z' ++ map sh R) with (P ++ (Q ++ Z') ++ map sh R) by (rewrite <- app_assoc; reflexivity).
    rewrite loop_fill_spec; [reflexivity|]. rewrite app_length. lia.
  - set (diff := eline - sline - length (find_newlines new)).
    replace (length (P ++ Q ++ R) <? diff) with false by (rewrite !app_length; lia).
    set (Q1 := firstn (length (find_newlines new)) Q). set (Q2 := skipn (length (find_newlines new)) Q).
    assert (EQ : Q = Q1 ++ Q2) by (symmetry; apply firstn_skipn).
    assert (LQ1 : length Q1 = length (find_newlines new)) by (unfold Q1; rewrite firstn_length; lia).
    assert (LQ2 : length Q2 = diff) by (unfold Q2; rewrite skipn_length; lia).
    assert (E1 : length (P ++ Q ++ R) - diff - (sline + 1 + length (find_newlines new)) = length R).
    { rewrite !app_length. lia. }
    rewrite E1.
    destruct (loop_up_spec sh diff R (P ++ Q1) Q2 LQ2) as (Z' & HZ' & E).
    rewrite app_length, LP, LQ1 in E.
    replace (P ++ Q ++ R) with ((P ++ Q1) ++ Q2 ++ R) by (rewrite EQ, <- !app_assoc; reflexivity).
    rewrite E.
    assert (E3 : firstn (length ((P ++ Q1) ++ map sh R ++ Z') - diff) ((P ++ Q1) ++ map sh R ++ Z') = P ++ Q1 ++ map sh R).
    { replace ((P ++ Q1) ++ map sh R ++ Z') with ((P ++ Q1 ++ map sh R) ++ Z') by (rewrite <- !app_assoc; reflexivity).
      rewrite app_length. replace (length (P ++ Q1 ++ map sh R) + length Z' - diff) with (length (P ++ Q1 ++ map sh R)) by lia.
      rewrite firstn_app, Nat.sub_diag, firstn_all. cbn [firstn]. now rewrite app_nil_r. }
    rewrite E3, <- LP, loop_fill_spec by auto. reflexivity.
Qed.

Lemma edited_ok : forall f e t', lines f = create_line_indices (text f) -> edited (text f) e t' ->
  apply_edit f e = Changed (mkFile t' (create_line_indices t') ((version f + 1) mod 2 ^ 64)%N).
Proof.
  intros f e t' Hl H. remember (text f) as t eqn:Et. destruct H as [t t'|a b c n sline scol eline ecol Hs He C1 C2 C3 C4 HL].
  - reflexivity.
  - cbn [apply_edit]. rewrite Et in Hs, He.
    assert (EA : firstn (length a) (text f) = a).
    { rewrite <- Et, firstn_app, Nat.sub_diag, firstn_all. cbn [firstn]. apply app_nil_r. }
    assert (ES : skipn (length a) (text f) = b ++ c).
    { rewrite <- Et, skipn_app, Nat.sub_diag, skipn_all. reflexivity. }
    assert (EB : firstn (length a + length b - length a) (skipn (length a) (text f)) = b).
    { rewrite ES. replace (length a + length b - length a) with (length b) by lia.
      rewrite firstn_app, Nat.sub_diag, firstn_all. cbn [firstn]. apply app_nil_r. }
    assert (EC : skipn (length a + length b) (text f) = c).
    { rewrite <- (skipn_skipn N (length b) (length a)), ES, skipn_app, Nat.sub_diag, skipn_all. reflexivity. }
    pose proof (did_change_exact f sline scol eline ecol (length a) (length a + length b) n) as D.
    cbv zeta in D. rewrite EA, EB, EC in D. apply D; auto; [congruence|lia].
Qed.

Lemma edited_all_ok : forall es f t', lines f = create_line_indices (text f) -> edited_all (text f) es t' ->
  (version f < 2 ^ 64)%N ->
  apply_edits f es = Changed (mkFile t' (create_line_indices t') ((version f + N.of_nat (length es)) mod 2 ^ 64)%N).
Proof.
  induction es as [|e es IH]; intros f t' Hl H Hv; inversion H; subst; cbn [apply_edits].
  - cbn [length]. rewrite N.add_0_r, N.mod_small by auto. destruct f; cbn in *. now rewrite <- Hl.
  - rewrite (edited_ok _ _ _ Hl H3).
    rewrite (IH (mkFile t'0 (create_line_indices t'0) ((version f + 1) mod 2 ^ 64)%N) t' eq_refl); cbn [text version]; auto.
    + f_equal. f_equal. rewrite N.add_mod_idemp_l by discriminate. f_equal. cbn [length]. lia.
    + apply N.mod_lt. discriminate.
Qed.

(* ------------------------------------------------------------------ UTF-8 is kept *)
Lemma utext_suffix : forall a n, utext a n -> forall b m, utext (a ++ b) m -> exists k, utext b k.
Proof.
  induction 1 as [|c u t n Hu Ht IH]; intros b m H.
  - exists m. exact H.
  - rewrite <- app_assoc in H. inversion H as [E|c' u' t' n' Hu' Ht' E].
    + destruct (uchar_nonempty _ _ Hu) as (x & ? & ->). discriminate.
    + pose proof (utext_bytes _ _ H) as HB. apply Forall_app in HB as [_ HB].
      destruct (char_prefix_unique _ _ _ _ _ _ Hu' Hu (utext_bytes _ _ Ht') HB E) as [_ ->].
      eapply IH; eauto.
Qed.

Lemma position_prefix : forall t n line col o, utext t n -> position_at t line col o ->
  exists m, utext (firstn o t) m.
Proof.
  intros t n line col o Hu (tbl & s & [_ HL] & Hn & [Hs Ho] & _ & Hc).
  assert (line_start t s) by (apply HL; eapply nth_error_In; eauto).
  destruct (utext_from_line _ _ _ Hu H) as (m & _ & U1 & _).
  exists (m + col). rewrite <- (firstn_skipn s (firstn o t)).
  apply utext_app.
  - rewrite firstn_firstn. now replace (Nat.min s o) with s by lia.
  - now rewrite skipn_firstn_comm.
Qed.

Lemma edited_utf8 : forall t n e t', utext t n -> edited t e t' ->
  (match e with Whole x => exists k, utext x k | Ranged _ _ _ _ x => exists k, utext x k end) ->
  exists k, utext t' k.
Proof.
  intros t n e t' Hu H Hx. destruct H as [t t'|a b c x sline scol eline ecol Hs He _ _ _ _ _]; [exact Hx|].
  destruct (position_prefix _ _ _ _ _ Hu Hs) as (m1 & U1).
  destruct (position_prefix _ _ _ _ _ Hu He) as (m2 & U2).
  rewrite firstn_app, Nat.sub_diag, firstn_all in U1. cbn [firstn] in U1. rewrite app_nil_r in U1.
  replace (length a + length b) with (length (a ++ b)) in U2 by apply app_length.
  rewrite app_assoc, firstn_app, Nat.sub_diag, firstn_all in U2. cbn [firstn] in U2. rewrite app_nil_r in U2.
  rewrite app_assoc in Hu. destruct (utext_suffix _ _ U2 _ _ Hu) as (m3 & U3).
  destruct Hx as (m4 & U4). eexists. apply utext_app; [exact U1|]. apply utext_app; eauto.
Qed.

(* ------------------------------------------------------------------ text_data_ref_t *)
Lemma line_view : forall t line s e, nth_error (create_line_indices t) line = Some s ->
  (match nth_error (create_line_indices t) (line + 1) with Some x => x | None => length t end) = e ->
  s < length t -> get_line t line = Some (firstn (e - s) (skipn s t)).
Proof.
  intros t line s e Hs He Hlt. unfold get_line, view. rewrite Hs, He.
  now replace (s <? length t) with true by lia.
Qed.

Lemma line_beginning : forall t line col o, position_at t line col o -> 
  forall s, nth_error (create_line_indices t) line = Some s -> s < length t ->
  get_line_beginning t line col = Some (firstn (o - s) (skipn s t)).
Proof.
  intros t line col o Hp s Hs Hlt. unfold get_line_beginning. rewrite Hs, (position_exact _ _ _ _ Hp).
  unfold view. now replace (s <? length t) with true by lia.
Qed.

Lemma range_content : forall a b c sline scol eline ecol,
  position_at (a ++ b ++ c) sline scol (length a) ->
  position_at (a ++ b ++ c) eline ecol (length a + length b) ->
  get_range_content (a ++ b ++ c) sline scol eline ecol = Some b.
Proof.
  intros a b c sline scol eline ecol Hs He. unfold get_range_content.
  rewrite (position_exact _ _ _ _ Hs), (position_exact _ _ _ _ He).
  rewrite !app_length. destruct (Nat.leb_spec (length a + (length b + length c)) (length a)).
  - destruct b; [auto|cbn [length] in *; lia].
  - replace (length a <=? length a + length b) with true by lia.
    rewrite skipn_app, Nat.sub_diag, skipn_all. cbn [app skipn].
    replace (length a + length b - length a) with (length b) by lia.
    rewrite firstn_app, Nat.sub_diag, firstn_all. cbn [firstn]. now rewrite app_nil_r.
Qed.
