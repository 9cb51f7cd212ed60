From Coq Require Import List NArith ZArith Arith Bool Lia Sorting.Sorted.
From Coq Require Import ZifyBool ZifyNat ZifyN.
From Verif Require Import Common Text_Model Text_Spec Text_Proof.
Import ListNotations.
Local Ltac Zify.zify_post_hook ::= Z.div_mod_to_equations.

(* ------------------------------------------------------------------ line table *)
Definition ends_line (t : bytes) (p : nat) : Prop :=
  exists b, nth_error t p = Some b /\ (b = 10%N \/ (b = 13%N /\ nth_error t (S p) <> Some 10%N)).

Lemma ends_line_cons : forall c t p, ends_line (c :: t) (S p) <-> ends_line t p.
Proof. intros. unfold ends_line. cbn [nth_error]. reflexivity. Qed.

Lemma ends_line_0 : forall c t, ends_line (c :: t) 0 <-> c = 10%N \/ (c = 13%N /\ nth_error t 0 <> Some 10%N).
Proof.
  intros. unfold ends_line. cbn [nth_error]. split.
  - intros (b & E & H). injection E as <-. auto.
  - intros H. exists c. auto.
Qed.

Lemma fnf_in : forall t i w o, In o (find_newlines_from i w t) <->
  (w = true /\ o = i /\ nth_error t 0 <> Some 10%N) \/ exists p, o = i + S p /\ ends_line t p.
Proof.
  assert (sh : forall t c i o, (exists p, o = i + S p /\ ends_line (c :: t) p) <->
            (o = i + 1 /\ ends_line (c :: t) 0) \/ exists p, o = i + 1 + S p /\ ends_line t p).
  { intros t c i o. split.
    - intros ([|p] & -> & H); [left; auto|right]. rewrite ends_line_cons in H. exists p. split; [lia|auto].
    - intros [[-> H]|(p & -> & H)]; [exists 0; auto|exists (S p)]. split; [lia|]. now rewrite ends_line_cons. }
  induction t as [|ch t IH]; intros i w o; cbn [find_newlines_from].
  - destruct w; cbn [In nth_error].
    + split.
      * intros [<-|[]]. left. repeat split. discriminate.
      * intros [(_ & -> & _)|(p & _ & b & H & _)]; [now left|]. destruct p; discriminate.
    + split; [easy|]. intros [(H & _)|(p & _ & b & H & _)]; [easy|]. destruct p; discriminate.
  - rewrite sh, ends_line_0. cbn [nth_error].
    destruct w.
    + destruct (N.eqb_spec ch 10) as [->|E10]; [|destruct (N.eqb_spec ch 13) as [->|E13]]; cbn [In]; rewrite IH.
      * split.
        -- intros [<-|[(H & _)|H]]; [right; left; auto|easy|right; right; auto].
        -- intros [(_ & _ & H)|[[-> _]|H]]; [easy|now left|right; right; auto].
      * split.
        -- intros [<-|[(_ & -> & H)|H]]; [left; repeat split; congruence|right; left; auto|right; right; auto].
        -- intros [(_ & -> & _)|[(-> & H)|H]]; [now left| |right; right; auto].
           right. left. destruct H as [H|[_ H]]; [easy|auto].
      * split.
        -- intros [<-|[(H & _)|H]]; [left; repeat split; congruence|easy|right; right; auto].
        -- intros [(_ & -> & _)|[(-> & [H|[H _]])|H]]; [now left|easy|easy|right; right; auto].
    + destruct (N.eqb_spec ch 10) as [->|E10]; [|destruct (N.eqb_spec ch 13) as [->|E13]]; cbn [In]; rewrite IH.
      * split.
        -- intros [<-|[(H & _)|H]]; [right; left; auto|easy|right; right; auto].
        -- intros [(H & _)|[[-> _]|H]]; [easy|now left|right; right; auto].
      * split.
        -- intros [(_ & -> & H)|H]; [right; left; auto|right; right; auto].
        -- intros [(H & _)|[(-> & H)|H]]; [easy| |right; auto].
           left. destruct H as [H|[_ H]]; [easy|auto].
      * split.
        -- intros [(H & _)|H]; [easy|right; right; auto].
        -- intros [(H & _)|[(-> & [H|[H _]])|H]]; [easy|easy|easy|right; auto].
Qed.

Lemma fnf_ge : forall t i w o, In o (find_newlines_from i w t) -> i <= o /\ (w = false -> i < o).
Proof.
  intros t i w o H. apply fnf_in in H. destruct H as [(-> & -> & _)|(p & -> & _)]; split; try lia; discriminate.
Qed.

Lemma fnf_sorted : forall t i w, StronglySorted lt (find_newlines_from i w t).
Proof.
  induction t as [|ch t IH]; intros i w; cbn [find_newlines_from].
  - destruct w; repeat constructor.
  - destruct w; destruct (ch =? 10)%N; [|destruct (ch =? 13)%N| |destruct (ch =? 13)%N]; auto;
      constructor; auto; apply Forall_forall; intros o H; apply fnf_ge in H as [H1 H2]; try lia; now apply H2.
Qed.

Lemma cli_is_line : forall t, is_line t (create_line_indices t).
Proof.
  intros t. unfold create_line_indices, find_newlines. split.
  - constructor; [apply fnf_sorted|]. apply Forall_forall. intros o H. apply fnf_ge in H as [_ H]. now apply H.
  - intros o. cbn [In]. rewrite fnf_in. unfold line_start. split.
    + intros [<-|[(H & _)|(p & -> & b & H1 & H2)]]; [now left|easy|].
      right. exists p, b. cbn [Nat.add]. auto.
    + intros [->|(p & b & -> & H1 & H2)]; [now left|]. right. right. exists p. split; [reflexivity|].
      exists b. auto.
Qed.

Lemma sorted_unique : forall a b : list nat, StronglySorted lt a -> StronglySorted lt b ->
  (forall o, In o a <-> In o b) -> a = b.
Proof.
  induction a as [|x a IH]; intros b Ha Hb H.
  - destruct b as [|y b]; [auto|]. destruct (H y) as [_ H']. destruct H'. now left.
  - destruct b as [|y b]; [destruct (H x) as [H' _]; destruct H'; now left|].
    inversion Ha as [|? ? Ha1 Ha2]; inversion Hb as [|? ? Hb1 Hb2]; subst.
    rewrite Forall_forall in Ha2, Hb2.
    assert (x = y).
    { assert (In x (y :: b)) as [->|I1] by (apply H; now left); [auto|].
      assert (In y (x :: a)) as [->|I2] by (apply H; now left); [auto|].
      apply Hb2 in I1. apply Ha2 in I2. lia. }
    subst y. f_equal. apply IH; auto. intros o. split; intros I.
    + assert (In o (x :: b)) as [->|]; [apply H; now right| |auto]. apply Ha2 in I. lia.
    + assert (In o (x :: a)) as [->|]; [apply H; now right| |auto]. apply Hb2 in I. lia.
Qed.

Lemma is_line_cli : forall t l, is_line t l -> l = create_line_indices t.
Proof.
  intros t l [H1 H2]. destruct (cli_is_line t) as [H3 H4]. apply sorted_unique; auto.
  intros o. now rewrite H2, H4.
Qed.

Lemma fnf_shift : forall t i k w, find_newlines_from (i + k) w t = map (Nat.add k) (find_newlines_from i w t).
Proof.
  induction t as [|ch t IH]; intros i k w; cbn [find_newlines_from].
  - destruct w; cbn [map]; [f_equal; lia|auto].
  - replace (i + k + 1) with (i + 1 + k) by lia.
    destruct w; destruct (ch =? 10)%N; [|destruct (ch =? 13)%N| |destruct (ch =? 13)%N];
      cbn [map]; rewrite ?IH; f_equal; lia.
Qed.

Lemma fnf_true : forall b j, (forall b', b <> 10%N :: b') ->
  find_newlines_from j true b = j :: find_newlines_from j false b.
Proof.
  intros [|c b] j H; cbn [find_newlines_from]; [auto|].
  destruct (N.eqb_spec c 10) as [->|_]; [destruct (H b eq_refl)|]. destruct (c =? 13)%N; auto.
Qed.

Lemma fnf_app : forall a b i w,
  (forall b', b = 10%N :: b' -> (a = [] -> w = false) /\ (forall a', a <> a' ++ [13%N])) ->
  find_newlines_from i w (a ++ b) = find_newlines_from i w a ++ find_newlines_from (i + length a) false b.
Proof.
  induction a as [|c a IH]; intros b i w H; cbn [app].
  - cbn [length]. rewrite Nat.add_0_r. destruct w; cbn [find_newlines_from app]; [|auto].
    apply fnf_true. intros b' E. destruct (H b' E) as [H1 _]. discriminate H1; auto.
  - assert (IHf : find_newlines_from (i + 1) false (a ++ b) =
                  find_newlines_from (i + 1) false a ++ find_newlines_from (i + 1 + length a) false b).
    { apply IH. intros b' E. split; [auto|]. intros a' Ea. destruct (H b' E) as [_ H2].
      apply (H2 (c :: a')). now rewrite Ea. }
    assert (IHt : c = 13%N -> find_newlines_from (i + 1) true (a ++ b) =
                  find_newlines_from (i + 1) true a ++ find_newlines_from (i + 1 + length a) false b).
    { intros ->. apply IH. intros b' E. split.
      - intros ->. destruct (H b' E) as [_ H2]. destruct (H2 []). reflexivity.
      - intros a' Ea. destruct (H b' E) as [_ H2]. apply (H2 (13%N :: a')). now rewrite Ea. }
    cbn [find_newlines_from length].
    replace (i + S (length a)) with (i + 1 + length a) by lia.
    destruct w; destruct (N.eqb_spec c 10); [|destruct (N.eqb_spec c 13)| |destruct (N.eqb_spec c 13)];
      cbn [app]; rewrite ?IHf, ?IHt by auto; reflexivity.
Qed.

Lemma find_newlines_app : forall a b, clean_cut a b ->
  find_newlines (a ++ b) = find_newlines a ++ map (Nat.add (length a)) (find_newlines b).
Proof.
  intros a b H. unfold find_newlines. rewrite fnf_app.
  - f_equal. cbn [Nat.add]. rewrite <- fnf_shift. f_equal.
  - intros b' ->. split; [auto|]. intros a' ->. apply H. eauto.
Qed.

Lemma find_newlines_le : forall t o, In o (find_newlines t) -> 0 < o <= length t.
Proof.
  intros t o H. unfold find_newlines in H. apply fnf_in in H. destruct H as [(H & _)|(p & -> & b & H & _)]; [easy|].
  assert (p < length t) by (apply nth_error_Some; congruence). lia.
Qed.

(* ------------------------------------------------------------------ positions *)
Lemma ifp_seg : forall seg n, utext seg n -> forall fuel pre post k,
  length seg <= fuel ->
  ifp_loop fuel (pre ++ seg ++ post) (length pre) k (k + n) = Some (length pre + length seg).
Proof.
  induction 1 as [|c u t n Hu Ht IH]; intros fuel pre post k Hf.
  - cbn [length]. rewrite !Nat.add_0_r. destruct fuel; cbn [ifp_loop]; [auto|].
    now rewrite Nat.ltb_irrefl.
  - rewrite app_length in Hf. pose proof (uchar_len _ _ Hu) as Hl.
    destruct fuel as [|f]; [lia|]. cbn [ifp_loop].
    assert (1 <= u) by (destruct Hu; lia).
    replace (k <? k + (u + n)) with true by lia.
    assert (E : forall x, length c = x -> ifp_loop f (pre ++ (c ++ t) ++ post) (length pre + x) (k + u) (k + (u + n)) =
              Some (length pre + length (c ++ t))).
    { intros x <-. specialize (IH f (pre ++ c) post (k + u)).
      rewrite !app_length in IH. rewrite <- !app_assoc in *. rewrite app_length.
      replace (k + (u + n)) with (k + u + n) by lia. rewrite IH by lia. f_equal. lia. }
    pose proof (uchar_bytes _ _ Hu) as Hb.
    rewrite nth_error_app2, Nat.sub_diag by lia.
    destruct Hu as [b B|b c0 B ?|b c0 d B ? ?|b c0 d e B ? ? ?]; cbn [app nth_error];
      inversion Hb as [|? ? Hb0 _]; subst;
      rewrite ?one_byte_iff, ?two_byte_iff, ?three_byte_iff, ?four_byte_iff by assumption.
    + replace (b <? 128)%N with true by lia. apply E. reflexivity.
    + replace (b <? 128)%N with false by lia.
      replace ((240 <=? b) && (b <? 248))%N with false by lia.
      replace ((224 <=? b) && (b <? 240))%N with false by lia.
      replace ((192 <=? b) && (b <? 224))%N with true by lia. apply E. reflexivity.
    + replace (b <? 128)%N with false by lia.
      replace ((240 <=? b) && (b <? 248))%N with false by lia.
      replace ((224 <=? b) && (b <? 240))%N with true by lia. apply E. reflexivity.
    + replace (b <? 128)%N with false by lia.
      replace ((240 <=? b) && (b <? 248))%N with true by lia. apply E. reflexivity.
Qed.

Lemma position_exact : forall t line col o, position_at t line col o ->
  index_from_position t (create_line_indices t) line col = Some o.
Proof.
  intros t line col o (tbl & s & HL & Hn & [Hs Ho] & _ & Hu).
  rewrite <- (is_line_cli _ _ HL). unfold index_from_position. rewrite Hn.
  assert (Hlen : length (firstn (o - s) (skipn s t)) = o - s).
  { rewrite firstn_length, skipn_length. lia. }
  pose proof (ifp_seg _ _ Hu (S (length t)) (firstn s t) (skipn (o - s) (skipn s t)) 0) as E.
  rewrite firstn_skipn, firstn_skipn in E. cbn [Nat.add] in E.
  rewrite Hlen in E. rewrite firstn_length in E. replace (Nat.min s (length t)) with s in E by lia.
  rewrite E by lia. f_equal. lia.
Qed.

(** Any column, on a text that is UTF-8 from the line start on. *)
Lemma ifp_any : forall seg n, utext seg n -> forall fuel pre k stop, k <= stop -> length seg <= fuel ->
  exists o m, ifp_loop fuel (pre ++ seg) (length pre) k stop = Some (length pre + o) /\ o <= length seg /\
    utext (firstn o seg) m /\ utext (skipn o seg) (n - m) /\ m <= n /\
    (k + m = stop \/ (k + m = stop + 1 /\ exists a c, firstn o seg = a ++ c /\ uchar c 2) \/ (k + m < stop /\ o = length seg)).
Proof.
  induction 1 as [|c u t n Hu Ht IH]; intros fuel pre k stop Hk Hf.
  - exists 0, 0. rewrite app_nil_r, !Nat.add_0_r. cbn [length firstn skipn].
    split; [|split; [lia|split; [constructor|split; [constructor|split; lia]]]].
    destruct fuel; cbn [ifp_loop]; [auto|]. destruct (k <? stop); [|auto].
    replace (nth_error pre (length pre)) with (@None N); [auto|]. symmetry. apply nth_error_None. lia.
  - destruct (Nat.eq_dec k stop) as [->|Hne].
    + exists 0, 0. rewrite !Nat.add_0_r. cbn [firstn skipn].
      split; [|split; [lia|split; [constructor|split; [|split; [lia|auto]]]]].
      * destruct fuel; cbn [ifp_loop]; [auto|]. now rewrite Nat.ltb_irrefl.
      * rewrite Nat.sub_0_r. now constructor.
    + rewrite app_length in Hf. pose proof (uchar_len _ _ Hu) as Hl.
      destruct fuel as [|f]; [lia|]. cbn [ifp_loop]. replace (k <? stop) with true by lia.
      assert (Hu12 : u = 1 \/ (u = 2 /\ uchar c 2)) by (destruct Hu; auto; right; split; auto; constructor; auto).
      assert (E : forall x, length c = x -> exists o m,
         ifp_loop f (pre ++ c ++ t) (length pre + x) (k + u) stop = Some (length pre + o) /\
         o <= length (c ++ t) /\ utext (firstn o (c ++ t)) m /\ utext (skipn o (c ++ t)) (u + n - m) /\ m <= u + n /\
         (k + m = stop \/ (k + m = stop + 1 /\ exists a c', firstn o (c ++ t) = a ++ c' /\ uchar c' 2) \/
          (k + m < stop /\ o = length (c ++ t)))).
      { intros x <-.
        destruct (le_gt_dec (k + u) stop) as [Hle|Hgt].
        - destruct (IH f (pre ++ c) (k + u) stop Hle ltac:(lia)) as (o & m & E & Ho & U1 & U2 & Hm & Hr).
          exists (length c + o), (u + m). rewrite <- app_assoc, app_length in E. rewrite E, app_length.
          rewrite firstn_app_2. rewrite skipn_app, skipn_all2 by lia. cbn [app].
          replace (length c + o - length c) with o by lia.
          split; [f_equal; lia|]. split; [lia|]. split; [constructor; auto|].
          split; [replace (u + n - (u + m)) with (n - m) by lia; auto|]. split; [lia|].
          destruct Hr as [Hr|[[Hr (a & c' & Ha & Hc')]|Hr]].
          + left. lia.
          + right. left. split; [lia|]. exists (c ++ a), c'. rewrite Ha, app_assoc. auto.
          + right. right. lia.
        - destruct Hu12 as [->|[-> Hc2]]; [lia|].
          exists (length c), 2. rewrite firstn_app, Nat.sub_diag, firstn_all, app_nil_r.
          rewrite skipn_app, Nat.sub_diag, skipn_all. cbn [app skipn].
          rewrite app_length. split; [|split; [lia|split; [|split; [|split; [lia|]]]]].
          + destruct f as [|f]; cbn [ifp_loop]; [auto|]. now replace (k + 2 <? stop) with false by lia.
          + rewrite <- (app_nil_r c). change 2 with (2 + 0). constructor; [auto|constructor].
          + replace (2 + n - 2) with n by lia. auto.
          + right. left. split; [lia|]. exists [], c. auto. }
      pose proof (uchar_bytes _ _ Hu) as Hb.
      rewrite nth_error_app2, Nat.sub_diag by lia.
      destruct Hu as [b B|b c0 B ?|b c0 d B ? ?|b c0 d e B ? ? ?]; cbn [app nth_error];
        inversion Hb as [|? ? Hb0 _]; subst;
        rewrite ?one_byte_iff, ?two_byte_iff, ?three_byte_iff, ?four_byte_iff by assumption.
      * replace (b <? 128)%N with true by lia. apply E. reflexivity.
      * replace (b <? 128)%N with false by lia.
        replace ((240 <=? b) && (b <? 248))%N with false by lia.
        replace ((224 <=? b) && (b <? 240))%N with false by lia.
        replace ((192 <=? b) && (b <? 224))%N with true by lia. apply E. reflexivity.
      * replace (b <? 128)%N with false by lia.
        replace ((240 <=? b) && (b <? 248))%N with false by lia.
        replace ((224 <=? b) && (b <? 240))%N with true by lia. apply E. reflexivity.
      * replace (b <? 128)%N with false by lia.
        replace ((240 <=? b) && (b <? 248))%N with true by lia. apply E. reflexivity.
Qed.

(** After a byte below 128 a UTF-8 text goes on with a UTF-8 text. *)
Lemma utext_after_ascii : forall t n, utext t n -> forall p b, nth_error t p = Some b -> (b < 128)%N ->
  exists m m', utext (firstn (S p) t) m /\ utext (skipn (S p) t) m'.
Proof.
  induction 1 as [|c u t n Hu Ht IH]; intros p b Hp Hb.
  - destruct p; discriminate.
  - destruct (lt_dec p (length c)) as [Hlt|Hge].
    + rewrite nth_error_app1 in Hp by auto.
      assert (length c = 1 /\ p = 0) as [Hc ->].
      { destruct Hu; unfold cont in *; cbn [length] in *; repeat (destruct p as [|p]; cbn [nth_error] in Hp;
          [injection Hp as <-; try lia|]); try lia. }
      destruct c as [|x [|? ?]]; cbn in Hc; try lia. cbn [app firstn skipn].
      exists (u + 0), n. split; [|auto]. change [x] with ([x] ++ []). constructor; [auto|constructor].
    + rewrite nth_error_app2 in Hp by lia. destruct (IH _ _ Hp Hb) as (m & m' & U1 & U2).
      exists (u + m), m'. rewrite firstn_app, skipn_app.
      replace (S p - length c) with (S (p - length c)) by lia.
      rewrite firstn_all2, skipn_all2 by lia. split; [constructor; auto|auto].
Qed.

Lemma utext_from_line : forall t n s, utext t n -> line_start t s ->
  exists m m', utext (firstn s t) m /\ utext (skipn s t) m'.
Proof.
  intros t n s Hu [->|(p & b & -> & Hp & Hb)].
  - exists 0, n. cbn [firstn skipn]. split; [constructor|auto].
  - eapply utext_after_ascii; eauto. lia.
Qed.

Lemma position_any : forall t n line s col, utext t n -> nth_error (create_line_indices t) line = Some s ->
  exists o m, index_from_position t (create_line_indices t) line col = Some o /\
    s <= o <= length t /\ utext (firstn (o - s) (skipn s t)) m /\
    (m = col \/
     (m = col + 1 /\ exists a c, firstn (o - s) (skipn s t) = a ++ c /\ uchar c 2) \/
     (m < col /\ o = length t)).
Proof.
  intros t n line s col Hu Hs.
  assert (Hls : line_start t s).
  { apply (cli_is_line t). eapply nth_error_In; eauto. }
  assert (Hsl : s <= length t).
  { destruct Hls as [->|(p & b & -> & Hp & _)]; [lia|].
    assert (p < length t) by (apply nth_error_Some; congruence). lia. }
  destruct (utext_from_line _ _ _ Hu Hls) as (m0 & m1 & _ & U).
  destruct (ifp_any _ _ U (S (length t)) (firstn s t) 0 col ltac:(lia)) as (o & m & E & Ho & Um & _ & _ & Hr).
  { rewrite skipn_length. lia. }
  rewrite firstn_skipn in E. rewrite firstn_length in E.
  replace (Nat.min s (length t)) with s in E by lia. rewrite skipn_length in Ho, Hr.
  exists (s + o), m. unfold index_from_position. rewrite Hs. split; [exact E|]. split; [lia|].
  replace (s + o - s) with o by lia. split; [exact Um|].
  destruct Hr as [Hr|[Hr|Hr]]; [left; lia|right; left; exact Hr|right; right; lia].
Qed.
