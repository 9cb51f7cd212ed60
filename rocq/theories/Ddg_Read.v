(** * Proofs: from the tokens of a definition to the definition *)
From Coq Require Import String List ZArith Bool Ascii Lia.
From Verif Require Import DD_Model DD_Spec DDP_Model DDP_Spec DDP_Proof DDP_Back.
From Verif Require Import Gram_Model Gram_Spec Gram_Proof Gram_Ops Ddg_Model Ddg_Spec Ddg_Proof.
Import ListNotations.
Open Scope list_scope.

(** ** The shape of the text of a definition *)

(** The text behind the first letter: at most [k] ampersands with something behind
    them; [b]: the last character is an ampersand. *)
Inductive shape : nat -> list ascii -> bool -> Prop :=
| s_end : forall k, shape k [] false
| s_last : forall k, shape k ["&"%char] true
| s_char : forall k c f b, c <> "&"%char -> shape k f b -> shape k (c :: f) b
| s_pair : forall k c f b, c <> "&"%char -> shape k (c :: f) b -> shape (S k) ("&"%char :: c :: f) b.

Lemma shape_more : forall k f b, shape k f b -> shape (S k) f b.
Proof. intros k f b H. induction H; [apply s_end|apply s_last|apply s_char; auto|apply s_pair; auto]. Qed.

Lemma shape_prefix : forall k a r b, (forall c, In c a -> c <> "&"%char) -> shape k r b -> shape k (a ++ r) b.
Proof.
  intros k a r b H Hr. induction a as [|c a IH]; [exact Hr|]. cbn. constructor; [apply H; cbn; auto|].
  apply IH. intros x Hx. apply H. cbn. auto.
Qed.

Lemma shape_upper : forall f k b, shape k (map upper f) b -> shape k f b.
Proof.
  intros f k b H. remember (map upper f) as g eqn:E. revert f E.
  induction H as [k|k|k c g b Hc H IH|k c g b Hc H IH]; intros f E.
  - destruct f; [constructor|discriminate].
  - destruct f as [|x [|y f]]; try discriminate. cbn in E. injection E as E. symmetry in E.
    apply (proj1 (upper_placeholder _)) in E. subst x. constructor.
  - destruct f as [|x f]; [discriminate|]. cbn in E. injection E as -> ->. constructor; [|apply IH; reflexivity].
    intros ->. apply Hc. reflexivity.
  - destruct f as [|x [|y f]]; try discriminate. cbn in E. injection E as E -> ->. symmetry in E.
    apply (proj1 (upper_placeholder _)) in E. subst x. apply s_pair; [|apply IH; reflexivity].
    intros ->. apply Hc. reflexivity.
Qed.

(** Nothing, or something that does not begin with an ampersand. *)
Definition calm (r : list ascii) : Prop := match r with [] => True | c :: _ => c <> "&"%char end.

Lemma numeral_no_amp : forall s z c, numeral s z -> In c s -> c <> "&"%char.
Proof.
  intros s z c H Hc. destruct (numeral_chars s z c H Hc) as [->|D]; [discriminate|].
  intros ->. revert D. cbn. intuition discriminate.
Qed.

Lemma modifier_shape : forall key bit (a : option (amount mexpr)) m es k r b, key <> "&"%char ->
  modifier_text key bit a m es -> shape k r b -> calm r ->
  (exists b', shape (if r then k else S k) (m ++ r) b') /\ calm (m ++ r).
Proof.
  intros key bit a m es k r b Hk Hm Hs Hr. destruct a as [a|]; cbn [modifier_text] in Hm.
  - destruct Hm as [s' [-> Ha]]. split; [|exact Hk]. cbn [app].
    assert (D : forall c, In c (if bit then ["."%char] else []) -> c <> "&"%char)
      by (intros c; destruct bit; cbn; intros [<-|[]] || intros []; discriminate).
    destruct a as [z|e]; cbn [amount_text] in Ha.
    + destruct Ha as [Hn _]. exists b. constructor; [exact Hk|]. rewrite <- app_assoc.
      apply shape_prefix; [exact D|]. apply shape_prefix; [intros c Hc; apply (numeral_no_amp s' z c Hn Hc)|].
      destruct r; [exact Hs|apply shape_more, Hs].
    + destruct Ha as [-> _]. destruct r as [|c r].
      * exists true. rewrite app_nil_r. constructor; [exact Hk|]. apply shape_prefix; [exact D|constructor].
      * exists b. constructor; [exact Hk|]. rewrite <- app_assoc. apply shape_prefix; [exact D|].
        cbn. apply s_pair; [exact Hr|exact Hs].
  - destruct Hm as [_ [-> _]]. cbn [app]. split; [|exact Hr]. exists b.
    destruct r; [exact Hs|apply shape_more, Hs].
Qed.

Lemma modifier_some : forall key bit (a : option (amount mexpr)) m es, modifier_text key bit a m es -> key <> "&"%char -> calm m.
Proof.
  intros key bit [a|] m es H Hk; cbn [modifier_text] in H.
  - destruct H as [s' [-> _]]. exact Hk.
  - destruct H as [_ [-> _]]. exact Logic.I.
Qed.

Lemma shape_le : forall k k' f b, (k <= k')%nat -> shape k f b -> shape k' f b.
Proof. intros k k' f b H. induction H; [auto|]. intros X. apply shape_more. auto. Qed.

(** What begins with the type. *)
Lemma head_shape : forall (d : definition mexpr) s es, head_text d s es -> readable d ->
  exists s0 e0 c r b, dup_text (d_dup d) s0 e0 /\ s = s0 ++ c :: r /\ c <> "&"%char /\ shape 3 (c :: r) b.
Proof.
  intros d s es [s0 [e0 [s1 [e1 [s2 [e2 [s3 [e3 [s4 [e4 [H0 [H1 [H2 [H3 [H4 [-> ->]]]]]]]]]]]]]]]] [Ht [Hx _]].
  destruct (modifier_shape "E" false (d_exp d) s4 e4 0 [] false ltac:(discriminate) H4 (s_end 0) Logic.I) as [[b4 S4] C4].
  rewrite app_nil_r in S4, C4.
  destruct (modifier_shape "S" false (d_scale d) s3 e3 0 s4 b4 ltac:(discriminate) H3 S4 C4) as [[b3 S3] C3].
  assert (S3' : shape 1 (s3 ++ s4) b3) by (eapply shape_le; [|exact S3]; destruct s4; lia).
  destruct (modifier_shape "L" (d_bit d) (d_len d) s2 e2 1 _ b3 ltac:(discriminate) H2 S3' C3) as [[b2 S2] C2].
  assert (S2' : shape 2 (s2 ++ s3 ++ s4) b2) by (eapply shape_le; [|exact S2]; destruct (s3 ++ s4); lia).
  destruct (modifier_shape "P" false (d_prog d) s1 e1 2 _ b2 ltac:(discriminate) H1 S2' C2) as [[b1 S1] C1].
  assert (S1' : shape 3 (s1 ++ s2 ++ s3 ++ s4) b1) by (eapply shape_le; [|exact S1]; destruct (s2 ++ s3 ++ s4); lia).
  destruct (letter_facts _ Ht) as [_ [_ [_ [Ta _]]]].
  exists s0, e0, (d_type d). eexists _, b1. split; [exact H0|]. split; [reflexivity|]. split; [exact Ta|].
  constructor; [exact Ta|]. destruct (d_ext d) as [x|] eqn:Ex; cbn [app]; [|exact S1'].
  constructor; [|exact S1']. specialize (Hx x eq_refl). intros ->. revert Hx. cbn. intuition discriminate.
Qed.

(** ** Layouts *)
Lemma lexed_app : forall a b, lexed (a ++ b) -> lexed a /\ lexed b.
Proof. intros a b H. split; intros t w Ht; apply H; apply in_or_app; auto. Qed.
Lemma lexed_cons : forall t ts, lexed (t :: ts) -> lexed ts.
Proof. intros t ts H x w Hx. apply H. cbn. auto. Qed.

Lemma spelled_nonempty : forall t ts w, lexed (t :: ts) -> spells_word (tk t) w ->
  exists c r, list_ascii_of_string w = c :: r /\ forall x, In x (c :: r) -> x <> "&"%char.
Proof.
  intros t ts w H Hw. destruct (H t w (or_introl eq_refl) Hw) as [Hn [Ha _]].
  destruct w as [|c w]; [congruence|]. cbn in *. eexists _, _. split; [reflexivity|]. intros x Hx ->. apply Ha, Hx.
Qed.

Lemma layout_nil : forall ts f es, layout ts f es -> lexed ts -> f = [] -> ts = [] /\ es = [].
Proof.
  intros ts f es H Hl E. destruct H as [|t w ts f es Hw H|b e ts f es Hp Hm H]; [auto| |discriminate].
  destruct (spelled_nonempty t ts w Hl Hw) as [c [r [Er _]]]. rewrite Er in E. discriminate.
Qed.

Lemma shape_word : forall a k f b, (forall x, In x a -> x <> "&"%char) -> shape k (a ++ f) b -> shape k f b.
Proof.
  induction a as [|c a IH]; intros k f b Ha H; [exact H|]. cbn in H. apply IH; [intros x Hx; apply Ha; cbn; auto|].
  inversion H as [|? E|k' c' f' b' Hc H'|k' c' f' b' Hc H' E]; subst; auto; exfalso; apply (Ha "&"%char); cbn; auto.
Qed.

Lemma tail_of_layout : forall ts f es, layout ts f es -> lexed ts -> forall k b, shape k f b ->
  exists i l o fi f2 e2 f3 e3, ts = i ++ pairs_text l ++ opt_text o /\ (List.length l <= k)%nat /\
    Forall (fun p => bproper (fst p) /\ snd p <> []) l /\ opt_proper o /\
    word_text i fi /\ pairs_mean l f2 e2 /\ opt_means o f3 e3 /\ f = fi ++ f2 ++ f3 /\ es = e2 ++ e3 /\
    (calm f -> f <> [] -> i <> []).
Proof.
  intros ts f es H. induction H as [|t w ts f es Hw H IH|b0 e ts f es Hp Hm H IH]; intros Hl k b Hs.
  - exists [], [], None, [], [], [], [], []. cbn. split; [reflexivity|]. split; [lia|]. split; [constructor|].
    split; [exact Logic.I|]. split; [constructor|]. split; [constructor|]. split; [constructor|].
    split; [reflexivity|]. split; [reflexivity|]. congruence.
  - destruct (spelled_nonempty t ts w Hl Hw) as [c [r [Er Ha]]]. pose proof Hs as Hs'. rewrite Er in Hs'.
    apply (shape_word _ k f b Ha) in Hs'.
    destruct (IH (lexed_cons _ _ Hl) k b Hs') as [i [l [o [fi [f2 [e2 [f3 [e3 [-> [Hk [Hf [Ho [Hi [Hpm [Hom [-> [-> _]]]]]]]]]]]]]]]]].
    exists (t :: i), l, o, (list_ascii_of_string w ++ fi), f2, e2, f3, e3.
    split; [reflexivity|]. split; [exact Hk|]. split; [exact Hf|]. split; [exact Ho|]. split; [constructor; auto|].
    split; [exact Hpm|]. split; [exact Hom|]. split; [rewrite <- app_assoc; reflexivity|]. split; [reflexivity|]. discriminate.
  - destruct (lexed_app _ _ Hl) as [_ Hl2].
    inversion Hs as [|k' Ek|k' c' f' b' Hc H' E|k' c' f' b' Hc H' E]; subst.
    + destruct (layout_nil _ _ _ H Hl2 eq_refl) as [-> ->].
      exists [], [], (Some b0), [], [], [], ["&"%char], [e]. cbn [app pairs_text opt_text List.length].
      split; [apply app_nil_r|]. split; [lia|]. split; [constructor|]. split; [exact Hp|]. split; [constructor|].
      split; [constructor|]. split; [constructor; exact Hm|]. split; [reflexivity|]. split; [reflexivity|]. cbn. congruence.
    + congruence.
    + destruct (IH Hl2 _ _ H') as [i [l [o [fi [f2 [e2 [f3 [e3 [-> [Hk [Hf [Ho [Hi [Hpm [Hom [E [-> Hne]]]]]]]]]]]]]]]]].
      exists [], ((b0, i) :: l), o, [], ("&"%char :: fi ++ f2), (e :: e2), f3, e3. cbn [app pairs_text List.length].
      split; [rewrite <- !app_assoc; reflexivity|]. split; [lia|].
      split; [constructor; [split; [exact Hp|]|exact Hf]; apply Hne; [exact Hc|discriminate]|].
      split; [exact Ho|]. split; [constructor|]. split; [constructor; auto|]. split; [exact Hom|].
      split; [rewrite E, <- app_assoc; reflexivity|]. split; [reflexivity|]. cbn. congruence.
Qed.

Lemma opt_means_text : forall o f es, opt_means o f es -> (o = None /\ f = [] /\ es = []) \/
  exists b e, o = Some b /\ bmeans b e /\ f = ["&"%char] /\ es = [e].
Proof. intros o f es [|b e H]; [auto|right; eauto 8]. Qed.

(** From the words and expressions of a definition to a form. *)
Lemma form_of_layout : forall (d : definition mexpr) h s f es, layout h f es -> lexed h -> head_text d s es -> spelled f s -> readable d ->
  exists o f0 e0 f1 f2 e2 f3 e3, h = opt_text (factor o) ++ first_word o ++ pairs_text (pairs o) ++ opt_text (last_ o) /\
    opt_proper (factor o) /\ first_word o <> [] /\ (List.length (pairs o) <= 3)%nat /\
    Forall (fun p => bproper (fst p) /\ snd p <> []) (pairs o) /\ opt_proper (last_ o) /\
    opt_means (factor o) f0 e0 /\ word_text (first_word o) f1 /\ pairs_mean (pairs o) f2 e2 /\ opt_means (last_ o) f3 e3 /\
    f = f0 ++ f1 ++ f2 ++ f3 /\ es = e0 ++ e2 ++ e3.
Proof.
  intros d h s f es Hl Hx Hh Hsp Hr.
  destruct (head_shape d s es Hh Hr) as [s0 [e0 [c [r [b [Hd [-> [Hc Hs]]]]]]]].
  apply spelled_upper in Hsp.
  assert (A : forall g fs es', layout g fs es' -> lexed g -> shape 3 fs b -> calm fs -> fs <> [] ->
    exists o f1 f2 e2 f3 e3, g = first_word o ++ pairs_text (pairs o) ++ opt_text (last_ o) /\ factor o = None /\
      first_word o <> [] /\ (List.length (pairs o) <= 3)%nat /\
      Forall (fun p => bproper (fst p) /\ snd p <> []) (pairs o) /\ opt_proper (last_ o) /\
      word_text (first_word o) f1 /\ pairs_mean (pairs o) f2 e2 /\ opt_means (last_ o) f3 e3 /\
      fs = f1 ++ f2 ++ f3 /\ es' = e2 ++ e3).
  { intros g fs es' Hg Hgl Hgs Hgc Hgn.
    destruct (tail_of_layout g fs es' Hg Hgl 3 b Hgs) as [i [l [o [fi [f2 [e2 [f3 [e3 [-> [Hk [Hf [Ho [Hi [Hpm [Hom [-> [-> Hne]]]]]]]]]]]]]]]]].
    exists (Form None i l o []), fi, f2, e2, f3, e3. cbn [factor first_word pairs last_].
    specialize (Hne Hgc Hgn). auto 14. }
  assert (B : (calm f /\ f <> [] /\ shape 3 f b) \/ (exists f', f = "&"%char :: f' /\ calm f' /\ f' <> [] /\ shape 3 f' b)).
  { assert (U : forall x y, upper x = y -> y <> "&"%char -> x <> "&"%char).
    { intros x y E N ->. apply N. rewrite <- E. reflexivity. }
    destruct (d_dup d) as [[z|e]|]; cbn [dup_text amount_text] in Hd.
    - left. destruct Hd as [Hz _].
      assert (Sh : shape 3 (s0 ++ c :: r) b) by (apply shape_prefix; [intros x Hx0; apply (numeral_no_amp s0 z x Hz Hx0)|exact Hs]).
      rewrite <- Hsp in Sh. apply shape_upper in Sh. split; [|split; [|exact Sh]].
      + destruct (numeral_first s0 z Hz) as [y [s' [-> _]]]. cbn in Hsp. destruct f as [|x f]; [discriminate|].
        cbn in *. injection Hsp as E _. eapply U; [exact E|]. apply (numeral_no_amp (y :: s') z y Hz). cbn. auto.
      + intros ->. destruct s0; discriminate.
    - right. destruct Hd as [-> _]. destruct f as [|x f]; [discriminate|]. cbn in Hsp. injection Hsp as E Ef.
      apply (proj1 (upper_placeholder _)) in E. subst x. exists f. split; [reflexivity|].
      destruct f as [|y f]; [discriminate|]. cbn in Ef. injection Ef as E1 E2. split; [eapply U; eauto|]. split; [discriminate|].
      apply shape_upper. cbn. rewrite E1, E2. exact Hs.
    - left. destruct Hd as [-> _]. cbn [app] in Hsp. destruct f as [|y f]; [discriminate|]. cbn in Hsp. injection Hsp as E1 E2.
      split; [eapply U; eauto|]. split; [discriminate|]. apply shape_upper. cbn. rewrite E1, E2. exact Hs. }
  destruct B as [[Bc [Bn Bs]]|[f' [-> [Bc [Bn Bs]]]]].
  - destruct (A h f es Hl Hx Bs Bc Bn) as [o [f1 [f2 [e2 [f3 [e3 [-> [Ho [H1 [H2 [H3 [H4 [H5 [H6 [H7 [-> ->]]]]]]]]]]]]]]]].
    exists o, [], [], f1, f2, e2, f3, e3. rewrite Ho. cbn [opt_text opt_proper app].
    split; [reflexivity|]. split; [exact Logic.I|]. split; [exact H1|]. split; [exact H2|]. split; [exact H3|]. split; [exact H4|].
    split; [constructor|]. auto 8.
  - inversion Hl as [|t w ts f es' Hw H|b0 e ts f es' Hp Hm H]; subst.
    + exfalso. destruct (spelled_nonempty t ts w Hx Hw) as [y [q [Eq Ha]]]. rewrite Eq in *.
      match goal with E : (y :: q) ++ _ = _ |- _ => cbn in E; injection E as -> _ end. apply (Ha "&"%char); cbn; auto.
    + destruct (lexed_app _ _ Hx) as [_ Hx2].
      destruct (A ts f' es' H Hx2 Bs Bc Bn) as [o [f1 [f2 [e2 [f3 [e3 [-> [Ho [H1 [H2 [H3 [H4 [H5 [H6 [H7 [-> ->]]]]]]]]]]]]]]]].
      exists (Form (Some b0) (first_word o) (pairs o) (last_ o) []), ["&"%char], [e], f1, f2, e2, f3, e3.
      cbn [factor first_word pairs last_ opt_text opt_proper].
      split; [reflexivity|]. split; [exact Hp|]. split; [exact H1|]. split; [exact H2|]. split; [exact H3|]. split; [exact H4|].
      split; [constructor; exact Hm|]. auto 8.
Qed.

Lemma spelled_app : forall a b s t, spelled a s -> spelled b t -> spelled (a ++ b) (s ++ t).
Proof. intros. apply Forall2_app; auto. Qed.
Lemma spelled_space : spelled [" "%char] [" "%char].
Proof. apply spelled_upper. reflexivity. Qed.

(** A definition that is spelled out is handed over as it is written. *)
Lemma spells_written : forall d ts, spells d ts -> readable d -> lexed ts ->
  exists o h, ts = ftext o /\ fproper o /\ fmeans o h /\ written d (fst (fst h)) (snd (fst h)) (snd h).
Proof.
  intros d ts [h [nt [s [f [es [-> [Hl [Hh [Hsp Hn]]]]]]]]] Hr Hx.
  destruct (lexed_app _ _ Hx) as [Hx1 _].
  destruct (form_of_layout d h s f es Hl Hx1 Hh Hsp Hr) as
    [o [f0 [e0 [f1 [f2 [e2 [f3 [e3 [-> [P1 [P2 [P3 [P4 [P5 [M1 [M2 [M3 [M4 [Ef Ee]]]]]]]]]]]]]]]]]]].
  unfold ftext, fproper, fmeans.
  destruct (d_nom d) as [n|] eqn:En.
  - exists (Form (factor o) (first_word o) (pairs o) (last_ o) nt), (f ++ [" "%char], es, Some n).
    cbn [factor first_word pairs last_ nominal_tokens fst snd].
    split; [rewrite <- !app_assoc; reflexivity|].
    split; [exact (conj P1 (conj P2 (conj P3 (conj P4 (conj P5 (fun _ => nominal_text_some nt n Hn))))))|].
    split.
    + exists f0, e0, f1, f2, e2, f3, e3, [" "%char], (Some n).
      split; [exact M1|]. split; [exact M2|]. split; [exact M3|]. split; [exact M4|]. split; [constructor; exact Hn|].
      rewrite Ef, Ee, <- !app_assoc. reflexivity.
    + exists s. right. left. exists n. split; [exact En|]. split; [reflexivity|]. split; [exact Hh|].
      apply spelled_app; [exact Hsp|apply spelled_space].
  - subst nt. rewrite app_nil_r. destruct (opt_means_text _ _ _ M4) as [[Eo [-> ->]]|[b [e [Eo [Hm [-> ->]]]]]].
    + rewrite Eo. exists (Form (factor o) (first_word o) (pairs o) None []), (f, es, None).
      cbn [factor first_word pairs last_ nominal_tokens fst snd opt_text opt_proper].
      split; [rewrite !app_nil_r; reflexivity|].
      split; [split; [exact P1|]; split; [exact P2|]; split; [exact P3|]; split; [exact P4|]; split; [exact Logic.I|congruence]|].
      split.
      * exists f0, e0, f1, f2, e2, [], [], [], None.
        split; [exact M1|]. split; [exact M2|]. split; [exact M3|]. split; [constructor|]. split; [constructor|].
        rewrite Ef, Ee. reflexivity.
      * exists s. left. auto.
    + rewrite Eo in *. cbn [opt_text opt_proper] in *.
      exists (Form (factor o) (first_word o) (pairs o) None (btext b)),
        (f0 ++ f1 ++ f2 ++ [" "%char], e0 ++ e2, Some (PExprs [PExpr e])).
      cbn [factor first_word pairs last_ nominal_tokens fst snd opt_text opt_proper app].
      split; [reflexivity|].
      split; [split; [exact P1|]; split; [exact P2|]; split; [exact P3|]; split; [exact P4|]; split; [exact Logic.I|congruence]|].
      assert (N : nominal_text (btext b) (PExprs [PExpr e])).
      { destruct P5 as [B1 [B2 B3]]. unfold btext. constructor; [exact B1|exact B3|].
        apply (li_one (ItExpr (inner_ b))); [exact B2|constructor; exact Hm]. }
      split.
      * exists f0, e0, f1, f2, e2, [], [], [" "%char], (Some (PExprs [PExpr e])).
        split; [exact M1|]. split; [exact M2|]. split; [exact M3|]. split; [constructor|]. split; [constructor; exact N|].
        rewrite app_nil_r. reflexivity.
      * apply spelled_upper in Hsp. exists (map upper (f0 ++ f1 ++ f2)). right. right. exists e.
        split; [exact En|]. split; [reflexivity|].
        assert (Es : s = map upper (f0 ++ f1 ++ f2) ++ ["&"%char]).
        { rewrite <- Hsp, Ef, !app_assoc, map_app. reflexivity. }
        split; [rewrite <- app_assoc, <- Es; rewrite <- Ee; exact Hh|].
        replace (f0 ++ f1 ++ f2 ++ [" "%char]) with ((f0 ++ f1 ++ f2) ++ [" "%char]) by (rewrite <- !app_assoc; reflexivity).
        apply spelled_app; [apply spelled_upper; reflexivity|apply spelled_space].
Qed.

Theorem read_spelled : forall d ts rest, spells d ts -> readable d -> lexed ts -> ends rest ->
  exists h, data_def (ts ++ rest) = Some (h, rest) /\ create h = Val (as_read d, []).
Proof.
  intros d ts rest Hs Hr Hx He. destruct (spells_written d ts Hs Hr Hx) as [o [[[f es] n] [-> [P [M W]]]]].
  exists (f, es, n). split; [apply data_def_complete; auto|]. cbn [fst snd] in W. apply parse_written; auto.
Qed.

(** ** Back *)
Lemma layout_app : forall a f es, layout a f es -> forall b g es', layout b g es' -> layout (a ++ b) (f ++ g) (es ++ es').
Proof.
  intros a f es H. induction H as [|t w ts f es Hw H IH|b0 e ts f es Hp Hm H IH]; intros b g es' Hb; [exact Hb| |].
  - cbn [app]. rewrite <- app_assoc. constructor; auto.
  - rewrite <- app_assoc. cbn [app]. constructor; auto.
Qed.
Lemma layout_word : forall w f, word_text w f -> layout w f [].
Proof. intros w f H. induction H; constructor; auto. Qed.
Lemma layout_bracket : forall b e, bproper b -> bmeans b e -> layout (btext b) ["&"%char] [e].
Proof. intros b e Hp Hm. rewrite <- (app_nil_r (btext b)). constructor; auto. constructor. Qed.
Lemma layout_opt : forall o f es, opt_proper o -> opt_means o f es -> layout (opt_text o) f es.
Proof. intros o f es Hp H. destruct H as [|b e Hm]; [apply la_end|apply layout_bracket; [exact Hp|exact Hm]]. Qed.
Lemma layout_pairs : forall l f es, Forall (fun p => bproper (fst p) /\ snd p <> []) l -> pairs_mean l f es -> layout (pairs_text l) f es.
Proof.
  intros l f es Hf H. induction H as [|b w l e fw f es Hb Hw H IH]; [apply la_end|].
  inversion Hf as [|x y [Hp _] Hf' E]; subst. cbn [pairs_text fst] in *.
  change ("&"%char :: fw ++ f) with (["&"%char] ++ fw ++ f). change (e :: es) with ([e] ++ [] ++ es).
  apply layout_app; [apply layout_bracket; auto|]. apply layout_app; [apply layout_word; auto|auto].
Qed.

Lemma layout_plain : forall ts f es, layout ts f es -> lexed ts -> placeholders f = List.length es /\ ~ In " "%char f.
Proof.
  intros ts f es H. induction H as [|t w ts f es Hw H IH|b0 e ts f es Hp Hm H IH]; intros Hx.
  - split; [reflexivity|intros []].
  - destruct (Hx t w (or_introl eq_refl) Hw) as [_ [Ha Hs]]. destruct (IH (lexed_cons _ _ Hx)) as [I1 I2].
    rewrite placeholders_app, placeholders_none, I1 by (intros c Hc ->; exact (Ha Hc)). split; [reflexivity|].
    intros Hc. apply in_app_or in Hc. tauto.
  - destruct (lexed_app _ _ Hx) as [_ Hx2]. destruct (IH Hx2) as [I1 I2]. cbn. rewrite I1. split; [reflexivity|].
    intros [E|E]; [discriminate|auto].
Qed.

Lemma form_layout : forall o h, fproper o -> fmeans o h -> exists hd f es, ftext o = hd ++ nominal_tokens o /\ layout hd f es /\
  ((nominal_tokens o = [] /\ h = (f, es, None)) \/ exists n, nominal_text (nominal_tokens o) n /\ h = (f ++ [" "%char], es, Some n)).
Proof.
  intros o h [P1 [P2 [P3 [P4 [P5 P6]]]]] [f0 [e0 [f1 [f2 [e2 [f3 [e3 [f4 [n [M1 [M2 [M3 [M4 [M5 ->]]]]]]]]]]]]]].
  exists (opt_text (factor o) ++ first_word o ++ pairs_text (pairs o) ++ opt_text (last_ o)), (f0 ++ f1 ++ f2 ++ f3), (e0 ++ e2 ++ e3).
  split; [unfold ftext; rewrite <- !app_assoc; reflexivity|]. split.
  - change (e0 ++ e2 ++ e3) with (e0 ++ [] ++ e2 ++ e3). apply layout_app; [apply layout_opt; auto|].
    apply layout_app; [apply layout_word; auto|]. apply layout_app; [apply layout_pairs; auto|apply layout_opt; auto].
  - destruct M5 as [|ts n Hn]; [left|right].
    + rewrite app_nil_r. auto.
    + exists n. split; [exact Hn|]. rewrite <- !app_assoc. reflexivity.
Qed.

Lemma spelled_unspace : forall f s, spelled (f ++ [" "%char]) (s ++ [" "%char]) -> spelled f s.
Proof.
  intros f s H. apply spelled_upper in H. apply spelled_upper. rewrite map_app in H. cbn in H.
  apply app_inj_tail in H. apply H.
Qed.

Lemma handed_plain : forall o h, fproper o -> fmeans o h -> lexed (ftext o) ->
  placeholders (fst (fst h)) = List.length (snd (fst h)) /\ space_last (fst (fst h)) (snd h).
Proof.
  intros o h P M Hx. destruct (form_layout o h P M) as [hd [f [es [E [Hl [[_ ->]|[n [Hn ->]]]]]]]];
    rewrite E in Hx; destruct (lexed_app _ _ Hx) as [Hx1 _]; destruct (layout_plain _ _ _ Hl Hx1) as [L1 L2]; cbn [fst snd].
  - split; [exact L1|exact L2].
  - split; [rewrite placeholders_app; cbn; lia|]. exists f. auto.
Qed.

Theorem read_only : forall ts rest h d, data_def (ts ++ rest) = Some (h, rest) -> lexed ts -> create h = Val (d, []) ->
  In (d_type d) upper_letters ->
  (exists d', spells_loosely d' ts /\ as_read d' = d) /\ (forall x, d_ext d = Some x -> In x extensions).
Proof.
  intros ts rest h d H Hx Hc Ht. apply data_def_sound in H. destruct H as [o [E [P M]]]. apply app_inv_tail in E. subst ts.
  destruct (handed_plain o h P M Hx) as [H1 H2]. destruct h as [[f es] n]. cbn [fst snd] in *.
  destruct (parse_only f es n d Hc Ht H2 H1) as [[d' [W A]] X]. split; [|exact X]. exists d'. split; [|exact A].
  destruct (form_layout o _ P M) as [hd [g [es' [Eo [Hl [[En Eh]|[m [Hn Eh]]]]]]]]; injection Eh as -> -> ->.
  - destruct W as [s [[W1 [W2 [W3 _]]]|[[nv [_ [C _]]]|[e [_ [C _]]]]]]; try discriminate.
    exists hd, [], s, g, es'. rewrite Eo, En, W3. auto 8.
  - destruct W as [s [[_ [_ [_ C]]]|[[nv [W1 [C [W2 W3]]]]|[e [W1 [C [W2 W3]]]]]]]; try discriminate.
    + injection C as ->. exists hd, (nominal_tokens o), s, g, es'. rewrite Eo, W1. apply spelled_unspace in W3. auto 8.
    + injection C as ->. apply spelled_unspace in W3.
      inversion Hn as [|p ts q l Hp Hq Hli E1 E2]; subst l. inversion Hli as [i m Pi Mi E3 E4|i m c ts' l Pi Mi Hcm C E3 E4]; subst.
      2: inversion C.
      inversion Mi as [t mm Mm E5|]; subst. cbn [itext iproper] in *.
      exists (hd ++ btext (Bracket p t q)), [], (s ++ ["&"%char]), (g ++ ["&"%char]), (es' ++ [e]).
      rewrite Eo, <- E1, W1, app_nil_r. split; [reflexivity|].
      split; [apply layout_app; [exact Hl|]; apply layout_bracket; [repeat split; auto|exact Mm]|].
      split; [exact W2|]. split; [|reflexivity]. apply spelled_app; [exact W3|]. apply spelled_upper. reflexivity.
Qed.

Theorem read_safe : forall ts h rest, data_def ts = Some (h, rest) -> lexed ts -> exists r, create h = Val r.
Proof.
  intros ts h rest H Hx. apply data_def_sound in H. destruct H as [o [-> [P M]]]. destruct (lexed_app _ _ Hx) as [Hx1 _].
  destruct (handed_plain o h P M Hx1) as [H1 H2]. destruct h as [[f es] n]. cbn [fst snd create] in *. apply parse_goes.
  - rewrite H1. auto.
  - intros ->. exact H2.
Qed.

(** ** Fields *)
Lemma field_spelled : forall eof ts l,
  Listed (list tok) _ (fun ts => ts) lexed
    (fun ts a => exists d, spells d ts /\ readable d /\ a = Some (Val (as_read d, []))) (fun _ => None) eof ts l ->
  exists l', dat_ops eof ts = Some l' /\ map read l' = l.
Proof.
  intros eof ts l H.
  assert (X : exists l', Listed form dop ftext fproper dmeans DEmpty eof ts l' /\ map read l' = l).
  { induction H as [o a rest Wo [d [Hs [Hr ->]]] He|rest He|o a c ts l Wo [d [Hs [Hr ->]]] Ec Hl [l' [IH <-]]|c ts l Ec Hl [l' [IH <-]]].
    - destruct (spells_written d o Hs Hr Wo) as [t [[[f es] n] [-> [P [M W]]]]].
      exists [DDef (f, es, n)]. split; [apply ls_last; auto; constructor; auto|]. cbn [fst snd] in W. cbn.
      rewrite (parse_written _ _ _ _ W Hr). reflexivity.
    - exists [DEmpty (start eof rest)]. split; [apply ls_omitted_last; auto|reflexivity].
    - destruct (spells_written d o Hs Hr Wo) as [t [[[f es] n] [-> [P [M W]]]]].
      exists (DDef (f, es, n) :: l'). split; [apply ls_more; auto; constructor; auto|]. cbn [fst snd] in W. cbn.
      rewrite (parse_written _ _ _ _ W Hr). reflexivity.
    - exists (DEmpty (lo c) :: l'). split; [apply ls_omitted; auto|reflexivity]. }
  destruct X as [l' [X E]]. exists l'. split; [apply dat_ops_iff, X|exact E].
Qed.
