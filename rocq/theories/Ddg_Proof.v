(** * Proofs about the grammar of DC and DS operands *)
From Coq Require Import String List ZArith Bool Ascii Lia.
From Verif Require Import DD_Model Gram_Model Gram_Spec Gram_Proof Gram_Ops Ddg_Model Ddg_Spec.
Import ListNotations.
Open Scope list_scope.

(** ** Words *)
Lemma word_of_iff : forall k w, word_of k = Some w <-> spells_word k w.
Proof.
  intros k w. unfold spells_word. split.
  - destruct k; cbn; intros H; try discriminate; injection H as <-; eauto 6.
  - intros [->|[->|[[v ->]|[-> ->]]]]; reflexivity.
Qed.

Lemma words_sound : forall ts f rest, words ts = (f, rest) ->
  exists w, ts = w ++ rest /\ word_text w f /\ (is_word ts = true -> w <> []).
Proof.
  induction ts as [|t ts IH]; intros f rest H; cbn [words] in H.
  - injection H as <- <-. exists []. split; [reflexivity|]. split; [constructor|discriminate].
  - destruct (word_of (tk t)) as [w|] eqn:E.
    + destruct (words ts) as [f1 r1] eqn:E1. injection H as <- <-.
      destruct (IH _ _ eq_refl) as [w1 [-> [H1 _]]]. exists (t :: w1). split; [reflexivity|].
      split; [constructor; [apply word_of_iff, E|exact H1]|discriminate].
    + injection H as <- <-. exists []. split; [reflexivity|]. split; [constructor|].
      cbn. rewrite E. discriminate.
Qed.

Lemma words_complete : forall w f rest, word_text w f -> is_word rest = false ->
  words (w ++ rest) = (f, rest).
Proof.
  intros w f rest H Hr. induction H as [|t ts w f Hw H IH]; cbn [app].
  - destruct rest as [|t rest]; [reflexivity|]. cbn in *.
    destruct (word_of (tk t)); [discriminate|reflexivity].
  - cbn [words]. apply word_of_iff in Hw. rewrite Hw, IH. reflexivity.
Qed.

Lemma word_first : forall w f rest, word_text w f -> w <> [] -> is_word (w ++ rest) = true.
Proof.
  intros w f rest H Hw. destruct H as [|t ts w f Ht H]; [congruence|]. cbn.
  apply word_of_iff in Ht. rewrite Ht. reflexivity.
Qed.

(** ** Strings *)
Lemma chars_sound : forall n s v, (List.length s <= n)%nat -> chars s = Some v -> quoted v s.
Proof.
  induction n; intros s v Hn H; destruct s as [|c s]; cbn in Hn; try lia; cbn [chars] in H.
  1,2: injection H as <-; constructor.
  destruct (Ascii.eqb c "'" || Ascii.eqb c "&")%char eqn:B.
  - destruct s as [|c2 s]; [discriminate|]. destruct (Ascii.eqb c c2) eqn:E; [|discriminate].
    apply Ascii.eqb_eq in E. subst c2.
    destruct (chars s) as [v'|] eqn:Ev; [|discriminate]. injection H as <-.
    cbn in Hn. specialize (IHn s v' ltac:(lia) Ev).
    apply orb_prop in B. destruct B as [B|B]; apply Ascii.eqb_eq in B; subst c; constructor; auto.
  - apply orb_false_elim in B. destruct B as [B1 B2]. apply Ascii.eqb_neq in B1, B2.
    destruct (chars s) as [v'|] eqn:Ev; [|discriminate]. injection H as <-.
    apply q_plain; auto. apply IHn; [lia|exact Ev].
Qed.

Lemma chars_complete : forall v s, quoted v s -> chars s = Some v.
Proof.
  intros v s H. induction H as [|v s H IH|v s H IH|c v s H1 H2 H IH]; cbn.
  - reflexivity.
  - rewrite IH. reflexivity.
  - rewrite IH. reflexivity.
  - apply Ascii.eqb_neq in H1, H2. rewrite H1, H2. cbn. rewrite IH. reflexivity.
Qed.

(** ** Expressions in parentheses *)
Lemma parens_sound : forall ts e rest, parens ts = Some (e, rest) ->
  exists b, ts = btext b ++ rest /\ bproper b /\ bmeans b e.
Proof.
  intros ts e rest H. unfold parens in H. destruct ts as [|p ts]; [discriminate|].
  destruct (is_lpar p) eqn:Ep; [|discriminate].
  destruct (expr ts) as [[[[e1 a] z] [|q r]]|] eqn:E; try discriminate.
  destruct (is_rpar q) eqn:Eq; [|discriminate]. injection H as -> ->. kinds.
  apply expr_sound in E. destruct E as [s [-> [Hp [Hm _]]]].
  exists (Bracket p s q). unfold btext, bproper, bmeans. cbn [opening inner_ closing].
  split; [cbn [app]; rewrite <- app_assoc; reflexivity|]. auto.
Qed.

Lemma bstops : forall q rest, tk q = KRpar -> stops 1 (q :: rest).
Proof. intros. apply stops_at. auto. Qed.

Lemma parens_complete : forall b e rest, bproper b -> bmeans b e ->
  parens (btext b ++ rest) = Some (e, rest).
Proof.
  intros [p s q] e rest [Hp [Hs Hq]] Hm. cbn [opening inner_ closing] in *.
  unfold btext, bmeans in *. cbn [opening inner_ closing app] in *. rewrite <- app_assoc. cbn [app].
  unfold parens. rewrite (lpar_t p Hp), (expr_complete s e (q :: rest) Hs Hm (bstops q rest Hq)), (rpar_t q Hq).
  reflexivity.
Qed.

Lemma btext_first : forall b, btext b = opening b :: text (inner_ b) ++ [closing b].
Proof. reflexivity. Qed.

(** ** Nominal values *)
Lemma item_sound : forall ts i rest, item ts = Some (i, rest) ->
  exists t, ts = itext t ++ rest /\ iproper t /\ imeans t i.
Proof.
  intros ts i rest H. unfold item in H.
  destruct (expr ts) as [[[[d a] z] [|p r]]|] eqn:E; try discriminate.
  - injection H as <- <-. apply expr_sound in E. destruct E as [s [-> [Hp [Hm _]]]].
    exists (ItExpr s). cbn. split; [reflexivity|]. split; [auto|constructor; auto].
  - apply expr_sound in E. destruct E as [s [-> [Hp [Hm _]]]].
    destruct (is_lpar p) eqn:Ep.
    + destruct (expr r) as [[[[b a2] z2] [|q r2]]|] eqn:E2; try discriminate.
      destruct (is_rpar q) eqn:Eq; [|discriminate]. injection H as <- <-. kinds.
      apply expr_sound in E2. destruct E2 as [s2 [-> [Hp2 [Hm2 _]]]].
      exists (ItAddress s (Bracket p s2 q)). unfold btext. cbn [itext iproper btext opening inner_ closing].
      split; [unfold btext; cbn [opening inner_ closing]; rewrite <- app_assoc; cbn [app]; rewrite <- app_assoc; reflexivity|].
      split; [split; [auto|repeat split; auto]|]. constructor; auto.
    + injection H as <- <-. exists (ItExpr s). cbn. split; [reflexivity|]. split; [auto|constructor; auto].
Qed.

Definition after_item (ts : list tok) : Prop :=
  match ts with t :: _ => tk t = KComma \/ tk t = KRpar | [] => False end.

Lemma item_complete : forall t i rest, iproper t -> imeans t i -> after_item rest ->
  item (itext t ++ rest) = Some (i, rest).
Proof.
  intros t i rest Hp Hm Hr. destruct rest as [|q rest]; [contradiction|]. cbn in Hr.
  destruct Hm as [e m Hm|d b md mb Hd Hb]; cbn [itext iproper] in *; unfold item.
  - rewrite (expr_complete e m (q :: rest) Hp Hm) by (apply stops_at; tauto).
    rewrite not_lpar by (destruct Hr as [->| ->]; discriminate). reflexivity.
  - destruct Hp as [Pd [Bp [Bi Bq]]]. destruct b as [p s q']. cbn [opening inner_ closing] in *.
    unfold btext, bmeans in *. cbn [opening inner_ closing] in *.
    rewrite <- app_assoc. cbn [app]. rewrite <- app_assoc. cbn [app].
    rewrite (expr_complete d md _ Pd Hd) by (apply stops_at; auto).
    rewrite (lpar_t p Bp), (expr_complete s mb _ Bi Hb) by (apply bstops; auto).
    rewrite (rpar_t q' Bq). reflexivity.
Qed.

Lemma items_sound : forall n ts l rest, items n ts = Some (l, rest) ->
  exists w, ts = w ++ rest /\ listed w l.
Proof.
  induction n; intros ts l rest H; [discriminate|]. cbn [items] in H.
  destruct (item ts) as [[i r]|] eqn:E; [|discriminate]. apply item_sound in E.
  destruct E as [t [-> [Hp Hm]]]. destruct r as [|c r].
  - injection H as <- <-. exists (itext t). split; [reflexivity|]. constructor; auto.
  - destruct (is_comma c) eqn:Ec.
    + destruct (items n r) as [[l2 r2]|] eqn:E2; [|discriminate]. injection H as <- <-. kinds.
      apply IHn in E2. destruct E2 as [w [-> Hw]]. exists (itext t ++ c :: w).
      split; [rewrite <- app_assoc; reflexivity|]. constructor; auto.
    + injection H as <- <-. exists (itext t). split; [reflexivity|]. constructor; auto.
Qed.

Lemma items_complete : forall w l, listed w l -> forall n q rest, (List.length w < n)%nat -> tk q = KRpar ->
  items n (w ++ q :: rest) = Some (l, q :: rest).
Proof.
  intros w l H. induction H as [t m Hp Hm|t m c ts l Hp Hm Hc H IH]; intros n q rest Hn Hq;
    (destruct n; [lia|]); cbn [items].
  - rewrite (item_complete t m (q :: rest)) by (cbn; auto).
    rewrite not_comma by (rewrite Hq; discriminate). reflexivity.
  - rewrite <- app_assoc. cbn [app]. rewrite (item_complete t m) by (cbn; auto).
    rewrite (comma_t c Hc). rewrite IH; auto. rewrite app_length in Hn. cbn in Hn. lia.
Qed.

Lemma nominal_sound : forall ts n rest, nominal ts = Some (n, rest) ->
  exists w, ts = w ++ rest /\ nominal_text w n.
Proof.
  intros ts n rest H. unfold nominal in H. destruct ts as [|t ts]; [discriminate|].
  destruct (tk t) eqn:Et; try discriminate.
  - destruct (items (S (List.length ts)) ts) as [[l [|q r]]|] eqn:E; try discriminate.
    destruct (is_rpar q) eqn:Eq; [|discriminate]. injection H as <- <-. kinds.
    apply items_sound in E. destruct E as [w [-> Hw]]. exists (t :: w ++ [q]).
    split; [cbn; rewrite <- app_assoc; reflexivity|]. constructor; auto.
  - destruct (chars (list_ascii_of_string text)) as [v|] eqn:E; [|discriminate]. injection H as <- <-.
    apply (chars_sound _ _ _ (le_n _)) in E. exists [t]. split; [reflexivity|].
    apply nt_string with (s := text); auto.
Qed.

Lemma nominal_complete : forall w n rest, nominal_text w n -> nominal (w ++ rest) = Some (n, rest).
Proof.
  intros w n rest H. destruct H as [t s v Ht Hq|p ts q l Hp Hq H]; cbn [app nominal].
  - rewrite Ht, (chars_complete v _ Hq). reflexivity.
  - rewrite Hp, <- app_assoc. cbn [app].
    rewrite (items_complete ts l H) by (auto; rewrite app_length; lia).
    rewrite (rpar_t q Hq). reflexivity.
Qed.

Lemma nominal_text_first : forall w n rest, nominal_text w n -> is_nominal (w ++ rest) = true.
Proof. intros w n rest [t s v Ht _|p ts q l Hp _ _]; cbn; [rewrite Ht|rewrite Hp]; reflexivity. Qed.

Lemma nominal_text_some : forall w n, nominal_text w n -> w <> [].
Proof. intros w n [t s v _ _|p ts q l _ _ _]; discriminate. Qed.

Lemma nominal_not_word : forall w n rest, nominal_text w n -> is_word (w ++ rest) = false.
Proof. intros w n rest [t s v Ht _|p ts q l Hp _ _]; cbn; [rewrite Ht|rewrite Hp]; reflexivity. Qed.

(** A nominal value taken for an expression in parentheses ends at the same place. *)
Lemma nominal_parens : forall w n rest, nominal_text w n ->
  parens (w ++ rest) = None \/ exists e, parens (w ++ rest) = Some (e, rest).
Proof.
  intros w n rest [t s v Ht _|p ts q l Hp Hq H]; cbn [app].
  - left. unfold parens. rewrite not_lpar by (rewrite Ht; discriminate). reflexivity.
  - unfold parens. rewrite (lpar_t p Hp), <- app_assoc. cbn [app].
    destruct H as [i m Hi Hm|i m c ts l Hi Hm Hc H].
    + destruct Hm as [e m Hm|d b md mb Hd Hb]; cbn [itext iproper] in *.
      * right. rewrite (expr_complete e m _ Hi Hm (bstops q rest Hq)), (rpar_t q Hq). eauto.
      * left. destruct Hi as [Pd [Bp _]]. rewrite btext_first. rewrite <- app_assoc. cbn [app].
        rewrite (expr_complete d md _ Pd Hd) by (apply stops_at; auto).
        rewrite not_rpar by (rewrite Bp; discriminate). reflexivity.
    + left. destruct Hm as [e m Hm|d b md mb Hd Hb]; cbn [itext iproper] in *.
      * rewrite <- app_assoc. cbn [app]. rewrite (expr_complete e m _ Hi Hm) by (apply stops_at; auto).
        rewrite not_rpar by (rewrite Hc; discriminate). reflexivity.
      * destruct Hi as [Pd [Bp _]]. rewrite btext_first. rewrite <- !app_assoc. cbn [app].
        rewrite (expr_complete d md _ Pd Hd) by (apply stops_at; auto).
        rewrite not_rpar by (rewrite Bp; discriminate). reflexivity.
Qed.

(** ** Modifiers *)
Definition tail_form (k : nat) (ts : list tok) (h : handed) (rest : list tok) : Prop :=
  exists l b nt f2 e2 f3 e3 f4 n,
    ts = pairs_text l ++ opt_text b ++ nt ++ rest /\ (List.length l <= k)%nat /\
    Forall (fun p => bproper (fst p) /\ snd p <> []) l /\ opt_proper b /\ (b <> None -> nt <> []) /\
    pairs_mean l f2 e2 /\ opt_means b f3 e3 /\ nominal_means nt f4 n /\
    h = (f2 ++ f3 ++ f4, e2 ++ e3, n).

Lemma last_sound : forall k ts h rest, nominal_last ts = Some (h, rest) -> tail_form k ts h rest.
Proof.
  intros k ts h rest H. unfold nominal_last in H.
  destruct (nominal ts) as [[n r]|] eqn:E; [|discriminate]. injection H as <- <-.
  apply nominal_sound in E. destruct E as [w [-> Hw]].
  exists [], None, w, [], [], [], [], [" "%char], (Some n). cbn [pairs_text opt_text app List.length].
  split; [reflexivity|]. split; [lia|]. split; [constructor|]. split; [exact Logic.I|]. split; [congruence|].
  split; [constructor|]. split; [constructor|]. split; [constructor; auto|reflexivity].
Qed.

Lemma modifiers_sound : forall k ts h rest, modifiers k ts = Some (h, rest) -> tail_form k ts h rest.
Proof.
  induction k; intros ts h rest H; cbn [modifiers] in H; destruct (is_nominal ts) eqn:En.
  2,4: injection H as <- <-; exists [], None, [], [], [], [], [], [], None;
    cbn [pairs_text opt_text app List.length];
    (split; [reflexivity|]); (split; [lia|]); (split; [constructor|]); (split; [exact Logic.I|]);
    (split; [congruence|]); (split; [constructor|]); (split; [constructor|]);
    (split; [constructor|reflexivity]).
  1: { destruct (parens ts) as [[e r]|] eqn:E; [|apply last_sound; auto].
    destruct (is_word r) eqn:Ew; [discriminate|].
    destruct (is_nominal r) eqn:En2; [|apply last_sound; auto].
    destruct (nominal r) as [[n r2]|] eqn:E2; [|discriminate]. injection H as <- <-.
    apply parens_sound in E. destruct E as [b [-> [Hp Hm]]].
    apply nominal_sound in E2. destruct E2 as [w [-> Hw]].
    exists [], (Some b), w, [], [], ["&"%char], [e], [" "%char], (Some n). cbn [pairs_text opt_text app List.length].
    split; [reflexivity|]. split; [lia|]. split; [constructor|]. split; [exact Hp|].
    split; [intros _; apply (nominal_text_some w n Hw)|].
    split; [constructor|]. split; [constructor; auto|]. split; [constructor; auto|reflexivity]. }
  destruct (parens ts) as [[e r]|] eqn:E; [|apply last_sound; auto].
  destruct (is_word r) eqn:Ew.
  - destruct (words r) as [i r1] eqn:Ewd.
    destruct (modifiers k r1) as [[[[f es] n] r2]|] eqn:Em; [|discriminate]. injection H as <- <-.
    apply parens_sound in E. destruct E as [b [-> [Hp Hm]]].
    apply words_sound in Ewd. destruct Ewd as [w [-> [Hw Hne]]]. specialize (Hne Ew).
    apply IHk in Em. destruct Em as [l [b2 [nt [f2 [e2 [f3 [e3 [f4 [n' [-> [Hl [Hf [Hb [Hb2 [Hpm [Hom [Hnm Eq]]]]]]]]]]]]]]]]].
    injection Eq as -> -> ->.
    exists ((b, w) :: l), b2, nt, ("&"%char :: i ++ f2), (e :: e2), f3, e3, f4, n'.
    cbn [pairs_text List.length]. split; [rewrite <- !app_assoc; reflexivity|]. split; [lia|].
    split; [constructor; auto|]. split; [auto|]. split; [auto|]. split; [constructor; auto|].
    split; [auto|]. split; [auto|]. cbn [app]. rewrite <- app_assoc. reflexivity.
  - destruct (is_nominal r) eqn:En2; [|apply last_sound; auto].
    destruct (nominal r) as [[n r2]|] eqn:E2; [|discriminate]. injection H as <- <-.
    apply parens_sound in E. destruct E as [b [-> [Hp Hm]]].
    apply nominal_sound in E2. destruct E2 as [w [-> Hw]].
    exists [], (Some b), w, [], [], ["&"%char], [e], [" "%char], (Some n). cbn [pairs_text opt_text app List.length].
    split; [reflexivity|]. split; [lia|]. split; [constructor|]. split; [exact Hp|].
    split; [intros _; apply (nominal_text_some w n Hw)|].
    split; [constructor|]. split; [constructor; auto|]. split; [constructor; auto|reflexivity].
Qed.

Lemma ends_not : forall rest, ends rest -> is_word rest = false /\ is_nominal rest = false.
Proof.
  intros [|t r] H; [auto|]. cbn in *. destruct H as [-> | ->]; auto.
Qed.

Lemma btext_nominal : forall b rest, bproper b -> is_nominal (btext b ++ rest) = true /\ is_word (btext b ++ rest) = false.
Proof. intros b rest [Hp _]. cbn. rewrite Hp. auto. Qed.

Lemma modifiers_complete : forall k ts h rest, tail_form k ts h rest -> ends rest ->
  modifiers k ts = Some (h, rest).
Proof.
  intros k ts h rest [l [b [nt [f2 [e2 [f3 [e3 [f4 [n [-> [Hl [Hf [Hb [Hb2 [Hpm [Hom [Hnm ->]]]]]]]]]]]]]]]]] He.
  destruct (ends_not rest He) as [Rw Rn].
  revert k Hl. induction Hpm as [|b0 w l e fw f es Hbm Hwt Hpm IH]; intros k Hl; cbn [pairs_text].
  - cbn [app]. assert (M : forall ts, modifiers k ts = (if is_nominal ts then
      match parens ts with
      | Some (e, rest) =>
        if is_word rest then
          match k with
          | O => None
          | S k =>
            let (i, rest') := words rest in
            match modifiers k rest' with
            | Some (f, es, n, rest'') => Some (("&"%char :: i ++ f, e :: es, n), rest'')
            | None => None
            end
          end
        else if is_nominal rest then
          match nominal rest with
          | Some (n, rest') => Some ((["&"; " "]%char, [e], Some n), rest')
          | None => None
          end
        else nominal_last ts
      | None => nominal_last ts
      end
      else Some (([], [], None), ts))) by (intros; destruct k; reflexivity).
    rewrite M. clear M. destruct Hom as [|b e Hbm]; cbn [opt_text app].
    + destruct Hnm as [|nt n Hn]; cbn [app].
      * rewrite Rn. reflexivity.
      * rewrite (nominal_text_first nt n rest Hn).
        assert (L : nominal_last (nt ++ rest) = Some (([" "%char], [], Some n), rest)).
        { unfold nominal_last. rewrite (nominal_complete nt n rest Hn). reflexivity. }
        destruct (nominal_parens nt n rest Hn) as [->|[e ->]]; [exact L|].
        rewrite Rw, Rn. exact L.
    + cbn in Hb. rewrite (proj1 (btext_nominal b _ Hb)), (parens_complete b e _ Hb Hbm).
      destruct Hnm as [|nt n Hn]; [exfalso; apply Hb2; congruence|].
      rewrite (nominal_not_word nt n rest Hn), (nominal_text_first nt n rest Hn), (nominal_complete nt n rest Hn).
      reflexivity.
  - inversion Hf as [|x y [Hb0 Hw0] Hf' Ex]; subst. cbn [fst snd] in *.
    destruct k; cbn [List.length] in Hl; [lia|]. rewrite <- !app_assoc. cbn [modifiers].
    rewrite (proj1 (btext_nominal b0 _ Hb0)), (parens_complete b0 e _ Hb0 Hbm).
    rewrite (word_first w fw _ Hwt Hw0).
    rewrite (words_complete w fw) ; [|exact Hwt|].
    + rewrite (IH Hf' k) by lia. cbn [app]. rewrite <- app_assoc. reflexivity.
    + destruct l as [|[b1 w1] l1]; cbn [pairs_text app].
      * destruct b as [b1|]; cbn [opt_text app]; [apply btext_nominal; exact Hb|].
        destruct Hnm as [|nt n Hn]; [exact Rw|apply (nominal_not_word nt n rest Hn)].
      * inversion Hf' as [|x y [Hb1 _] _ Ex]; subst. rewrite <- !app_assoc. apply btext_nominal. exact Hb1.
Qed.

(** ** Definitions *)
Lemma typed_sound : forall ts h rest, typed ts = Some (h, rest) ->
  exists w f1 f es n ts', ts = w ++ ts' /\ word_text w f1 /\ w <> [] /\ tail_form 3 ts' (f, es, n) rest /\ h = (f1 ++ f, es, n).
Proof.
  intros ts h rest H. unfold typed in H. destruct (is_word ts) eqn:Ew; [|discriminate].
  destruct (words ts) as [i r] eqn:E. destruct (modifiers 3 r) as [[[[f es] n] r2]|] eqn:Em; [|discriminate].
  injection H as <- <-. apply words_sound in E. destruct E as [w [-> [Hw Hne]]].
  apply modifiers_sound in Em. exists w, i, f, es, n, r. auto 8.
Qed.

Lemma tail_not_word : forall k ts h rest, tail_form k ts h rest -> ends rest -> is_word ts = false.
Proof.
  intros k ts h rest [l [b [nt [f2 [e2 [f3 [e3 [f4 [n [-> [Hl [Hf [Hb [Hb2 [Hpm [Hom [Hnm ->]]]]]]]]]]]]]]]]] He.
  destruct l as [|[b1 w1] l1]; cbn [pairs_text app].
  - destruct b as [b1|]; cbn [opt_text app]; [apply btext_nominal; exact Hb|].
    destruct Hnm as [|nt n Hn]; [apply ends_not, He|apply (nominal_not_word nt n rest Hn)].
  - inversion Hf as [|x y [Hb1 _] _ Ex]; subst. rewrite <- !app_assoc. apply btext_nominal. exact Hb1.
Qed.

Lemma typed_complete : forall w f1 f es n ts rest, word_text w f1 -> w <> [] -> tail_form 3 ts (f, es, n) rest -> ends rest ->
  typed (w ++ ts) = Some ((f1 ++ f, es, n), rest).
Proof.
  intros w f1 f es n ts rest Hw Hne Ht He. unfold typed.
  rewrite (word_first w f1 ts Hw Hne), (words_complete w f1 ts Hw (tail_not_word _ _ _ _ Ht He)).
  rewrite (modifiers_complete _ _ _ _ Ht He). reflexivity.
Qed.

Lemma data_def_sound : forall ts h rest, data_def ts = Some (h, rest) ->
  exists o, ts = ftext o ++ rest /\ fproper o /\ fmeans o h.
Proof.
  assert (T : forall d f0 e0 w f1 f es n ts' rest, opt_proper d -> opt_means d f0 e0 -> word_text w f1 -> w <> [] ->
    tail_form 3 ts' (f, es, n) rest ->
    exists o, opt_text d ++ w ++ ts' = ftext o ++ rest /\ fproper o /\ fmeans o (f0 ++ f1 ++ f, e0 ++ es, n)).
  { intros d f0 e0 w f1 f es n ts' rest Hd Hdm Hw Hne
      [l [b [nt [f2 [e2 [f3 [e3 [f4 [n' [-> [Hl [Hf [Hb [Hb2 [Hpm [Hom [Hnm Eq]]]]]]]]]]]]]]]]].
    injection Eq as -> -> ->. exists (Form d w l b nt). unfold ftext, fproper, fmeans.
    cbn [factor first_word pairs last_ nominal_tokens].
    split; [rewrite <- !app_assoc; reflexivity|]. split; [auto 8|].
    exists f0, e0, f1, f2, e2, f3, e3, f4, n'. auto 8. }
  intros ts h rest H. unfold data_def in H. destruct ts as [|p ts]; [discriminate|].
  destruct (is_lpar p) eqn:Ep.
  - destruct (parens (p :: ts)) as [[e r]|] eqn:E; [|discriminate].
    destruct (typed r) as [[[[f es] n] r2]|] eqn:Et; [|discriminate]. injection H as <- <-.
    apply parens_sound in E. destruct E as [b [Eb [Hp Hm]]]. rewrite Eb.
    apply typed_sound in Et. destruct Et as [w [f1 [f' [es' [n' [ts' [-> [Hw [Hne [Ht Eq]]]]]]]]]]. injection Eq as -> -> ->.
    apply (T (Some b) ["&"%char] [e] w f1 f' es' n' ts' r2); auto. constructor; auto.
  - apply typed_sound in H. destruct H as [w [f1 [f' [es' [n' [ts' [Eq [Hw [Hne [Ht ->]]]]]]]]]]. rewrite Eq.
    apply (T None [] [] w f1 f' es' n' ts' rest); auto; try constructor.
Qed.

Lemma data_def_complete : forall o h rest, fproper o -> fmeans o h -> ends rest ->
  data_def (ftext o ++ rest) = Some (h, rest).
Proof.
  intros [d w l b nt] h rest [Hd [Hne [Hl [Hf [Hb Hb2]]]]] [f0 [e0 [f1 [f2 [e2 [f3 [e3 [f4 [n [Hdm [Hw [Hpm [Hom [Hnm ->]]]]]]]]]]]]]] He.
  unfold ftext. cbn [factor first_word pairs last_ nominal_tokens] in *. rewrite <- !app_assoc.
  assert (Ht : tail_form 3 (pairs_text l ++ opt_text b ++ nt ++ rest) (f2 ++ f3 ++ f4, e2 ++ e3, n) rest).
  { exists l, b, nt, f2, e2, f3, e3, f4, n. auto 10. }
  pose proof (typed_complete w f1 _ _ _ _ _ Hw Hne Ht He) as X.
  destruct Hdm as [|b0 e Hbm]; cbn [opt_text].
  - cbn [app]. destruct Hw as [|t w wt fw Hwt Hw]; [congruence|]. cbn [app data_def] in *.
    rewrite not_lpar; [exact X|]. intros E. rewrite E in Hwt. destruct Hwt as [C|[C|[[v C]|[C _]]]]; discriminate.
  - cbn [opt_proper] in Hd. pose proof (parens_complete b0 e (w ++ pairs_text l ++ opt_text b ++ nt ++ rest) Hd Hbm) as Y.
    assert (exists p x, btext b0 ++ w ++ pairs_text l ++ opt_text b ++ nt ++ rest = p :: x /\ is_lpar p = true) as [p [x [Ex Ep]]].
    { unfold btext. cbn [app]. eexists _, _. split; [reflexivity|]. apply lpar_t. apply Hd. }
    rewrite Ex in *. cbn [data_def]. rewrite Ep, Y, X. reflexivity.
Qed.

Lemma ftext_starts : forall o h r, fproper o -> fmeans o h -> starts_ok (ftext o ++ r).
Proof.
  intros [d w l b nt] h r [Hd [Hne _]] [f0 [e0 [f1 [f2 [e2 [f3 [e3 [f4 [n [Hdm [Hw _]]]]]]]]]]].
  unfold ftext. cbn [factor first_word pairs last_ nominal_tokens] in *.
  destruct d as [b0|]; cbn [opt_text app].
  - destruct Hd as [Hd _]. cbn. rewrite Hd. split; discriminate.
  - destruct Hw as [|t w wt fw Hwt Hw]; [congruence|]. cbn.
    destruct Hwt as [C|[C|[[v C]|[C _]]]]; rewrite C; split; discriminate.
Qed.

(** ** Fields *)
Lemma dat_ops_iff : forall eof ts l, dat_ops eof ts = Some l <->
  Listed form dop ftext fproper dmeans DEmpty eof ts l.
Proof.
  intros eof ts l. split; intros H.
  - eapply list_sound; [|exact H]. intros x a rest E. unfold dat_op in E.
    destruct (data_def x) as [[h r]|] eqn:Ed; [|discriminate]. injection E as <- <-.
    apply data_def_sound in Ed. destruct Ed as [o [E [P M]]]. exists o. split; [exact E|]. split; [exact P|constructor; exact M].
  - unfold dat_ops. eapply list_complete; [| |exact H|lia].
    + intros o a rest P [h M] He. unfold dat_op. rewrite (data_def_complete o h rest P M He). reflexivity.
    + intros o a r P [h M]. apply (ftext_starts o h r P M).
Qed.
