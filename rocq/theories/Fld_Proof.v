(** The reading of operand fields: tokens to lexemes to operands. *)
From Coq Require Import String Ascii List NArith ZArith Bool Arith Lia ZifyBool ZifyNat ZifyN.
From Verif Require Import Common Lex_Model Fld_Model Fld_Spec Fld_Lex.
From Verif Require Import Gram_Model Gram_Spec Gram_Proof.
From Verif Require Ca_Model Ca_Spec CaNum_Proof CaStr_Proof Ca_Props Ebc_Spec Ebc_Model.
Import ListNotations.
Open Scope list_scope.
Notation length := List.length.

(** ** Tokens one by one *)
Lemma punct_word : forall x t, punctuation x = Some t -> word_char x = false.
Proof.
  intros x t H. destruct (punct_ty x t H) as (_ & A & B & C & D).
  unfold punctuation in H. destruct x as [|x]; [discriminate|].
  repeat (match type of H with context[match ?x with _ => _ end] => destruct x; try discriminate H end; cbn in H); reflexivity.
Qed.
Lemma attr_word : forall x, letter_attr x = true -> word_char x = true.
Proof.
  intros x H. unfold letter_attr in H. apply existsb_exists in H as (y & I & E). apply N.eqb_eq in E. subst y.
  cbn in I. repeat destruct I as [<-|I]; try reflexivity. destruct I.
Qed.
Lemma head_word : forall (w : list char) r x t, w <> [] -> forallb word_char w = true -> x :: t = w ++ r -> word_char x = true.
Proof. intros [|y w] r x t N W E; [congruence|]. cbn in *. injection E as <- _. apply andb_true_iff in W. apply W. Qed.
Lemma split_unique : forall (w w2 r r2 : list char), forallb word_char w = true -> forallb word_char w2 = true ->
  no_word r -> no_word r2 -> w ++ r = w2 ++ r2 -> w = w2 /\ r = r2.
Proof.
  induction w as [|x w IH]; intros [|y w2] r r2 A B C D E; cbn in *.
  - auto.
  - subst r. cbn in C. rewrite C in B. discriminate.
  - subst r2. cbn in D. rewrite D in A. discriminate.
  - injection E as -> E. apply andb_true_iff in A as (_ & A). apply andb_true_iff in B as (_ & B).
    destruct (IH w2 r r2 A B C D E) as (-> & ->). auto.
Qed.

Lemma at_pos : forall v p r ts p', Toks v p r ts -> p = p' -> Toks v p' r ts.
Proof. intros. now subst. Qed.
Ltac place := unfold char in *; cbn [length]; repeat (rewrite app_length; cbn [length]); lia.

Lemma step_inv : forall v p rest q v' r, step v p rest q v' r ->
  (exists x t, rest = x :: r /\ punctuation x = Some t /\ q = [Lx t [x] p (S p)] /\ v' = is_ty t AMPERSAND) \/
  (rest = 39%N :: r /\ q = [Lx APOSTROPHE [39%N] p (S p)] /\ v' = false) \/
  (exists k, rest = @repeat char 32%N (S k) ++ r /\ no_blank r /\ q = [Lx SPACE (@repeat char 32%N (S k)) p (p + S k)] /\ v' = false) \/
  (exists w, rest = w ++ r /\ w <> [] /\ forallb word_char w = true /\ no_word r /\
     (v = false -> ~ (exists x, w = [x] /\ letter_attr x = true) \/ no_quote r) /\ q = [Lx (class w) w p (p + length w)] /\ v' = false) \/
  (exists x, rest = x :: 39%N :: r /\ letter_attr x = true /\ v = false /\
     q = [Lx ORDSYMBOL [x] p (S p); Lx ATTR [39%N] (S p) (S (S p))] /\ v' = false) \/
  (exists w y r2, rest = w ++ r /\ r = y :: r2 /\ v = true /\ w <> [] /\ forallb word_char w = true /\ word_char y = true /\
     forallb ord_char (w ++ [y]) && negb (match w with x :: _ => Lex_Model.is_digit x | [] => true end) = false /\
     q = [Lx ORDSYMBOL w p (p + length w)] /\ v' = false).
Proof.
  intros v p rest q v' r [].
  - left. eauto 6.
  - right; left. auto.
  - right; right; left. eauto 6.
  - do 3 right; left. exists w. auto 9.
  - do 4 right; left. eauto 9.
  - do 5 right. exists w, y, r0. auto 9.
Qed.
Lemma Toks_inv : forall v p rest ts, Toks v p rest ts -> (rest = [] /\ ts = [Lx EOLLN [] p p]) \/
  exists q v' rest' ts', ts = q ++ ts' /\ step v p rest q v' rest' /\ Toks v' (p + (length rest - length rest')) rest' ts'.
Proof. intros v p rest ts []; [auto|]. right. eauto 8. Qed.
Ltac toks_inv H :=
  let E := fresh "E0" in let St := fresh "St" in
  apply Toks_inv in H as [(E & ->)|(q & v' & rest' & ts' & -> & St & Tl)];
  [|apply step_inv in St as [(x0 & t' & E & Hq & -> & ->)|[(E & -> & ->)|[(k & E & B & -> & ->)|[(w0 & E & N0 & W0 & R0 & C0 & -> & ->)|
     [(x0 & E & L & Ev & -> & ->)|(w0 & y0 & r2 & E & Er & Ev & N0 & W0 & Y & Cut & -> & ->)]]]]]].

Lemma T_nil : forall v p ts, Toks v p [] ts -> ts = [Lx EOLLN [] p p].
Proof.
  intros v p ts H. toks_inv H; try discriminate; try reflexivity; destruct w0; (congruence || discriminate).
Qed.
Lemma T_mark : forall v p x t r ts, punctuation x = Some t -> Toks v p (x :: r) ts ->
  exists ts', ts = Lx t [x] p (S p) :: ts' /\ Toks (is_ty t AMPERSAND) (S p) r ts'.
Proof.
  intros v p x t r ts Hp H. pose proof (punct_word x t Hp) as Nw. destruct (punct_ty x t Hp) as (_ & N1 & N2 & _).
  toks_inv H.
  - discriminate.
  - injection E0 as <- <-. rewrite Hp in Hq. injection Hq as <-. exists ts'. split; [reflexivity|].
    replace (S p) with (p + (length (x :: r) - length r)) by (cbn [length]; lia). exact Tl.
  - injection E0 as -> _. congruence.
  - injection E0 as -> _. congruence.
  - rewrite (head_word _ _ _ _ N0 W0 E0) in Nw. discriminate.
  - injection E0 as -> _. rewrite (attr_word _ L) in Nw. discriminate.
  - rewrite (head_word _ _ _ _ N0 W0 E0) in Nw. discriminate.
Qed.
Lemma T_quote : forall v p r ts, Toks v p (39%N :: r) ts ->
  exists ts', ts = Lx APOSTROPHE [39%N] p (S p) :: ts' /\ Toks false (S p) r ts'.
Proof.
  intros v p r ts H. toks_inv H.
  - discriminate.
  - injection E0 as <- _. discriminate.
  - injection E0 as <-. exists ts'. split; [reflexivity|].
    replace (S p) with (p + (length (39%N :: r) - length r)) by (cbn [length]; lia). exact Tl.
  - discriminate.
  - pose proof (head_word _ _ _ _ N0 W0 E0). discriminate.
  - injection E0 as <- _. discriminate.
  - pose proof (head_word _ _ _ _ N0 W0 E0). discriminate.
Qed.
Lemma T_word : forall p w r ts, w <> [] -> forallb word_char w = true -> no_word r ->
  (~ (exists x, w = [x] /\ letter_attr x = true) \/ no_quote r) -> Toks false p (w ++ r) ts ->
  exists ts', ts = Lx (class w) w p (p + length w) :: ts' /\ Toks false (p + length w) r ts'.
Proof.
  intros p w r ts N W R C H. toks_inv H.
  - destruct w; [congruence|discriminate].
  - symmetry in E0. pose proof (head_word _ _ _ _ N W E0) as X. rewrite (punct_word _ _ Hq) in X. discriminate.
  - symmetry in E0. pose proof (head_word _ _ _ _ N W E0) as X. discriminate.
  - symmetry in E0. pose proof (head_word _ _ _ _ N W E0) as X. discriminate.
  - destruct (split_unique w w0 r rest' W W0 R R0 E0) as (<- & <-).
    exists ts'. split; [reflexivity|]. replace (p + length w) with (p + (length (w ++ r) - length r)) by (rewrite app_length; lia). exact Tl.
  - exfalso. destruct w as [|a w]; [congruence|]. cbn [app] in E0. injection E0 as -> E0. destruct w as [|b w].
    + cbn in E0. subst r. destruct C as [C|C]; [apply C; eauto|now apply C].
    + cbn in E0. injection E0 as -> _. cbn in W. rewrite andb_false_r in W. discriminate.
  - discriminate.
Qed.
Lemma T_attr : forall p x r ts, letter_attr x = true -> Toks false p (x :: 39%N :: r) ts ->
  exists ts', ts = Lx ORDSYMBOL [x] p (S p) :: Lx ATTR [39%N] (S p) (S (S p)) :: ts' /\ Toks false (S (S p)) r ts'.
Proof.
  intros p x r ts Ha H. pose proof (attr_word x Ha) as Wx. toks_inv H.
  - discriminate.
  - injection E0 as <- _. rewrite (punct_word _ _ Hq) in Wx. discriminate.
  - injection E0 as -> _. discriminate.
  - injection E0 as -> _. discriminate.
  - exfalso. destruct w0 as [|a w]; [congruence|]. cbn [app] in E0. injection E0 as <- E0. destruct w as [|b w].
    + cbn in E0. subst rest'. destruct (C0 eq_refl) as [K|K]; [apply K; eauto|now apply K].
    + cbn in E0. injection E0 as <- _. cbn in W0. rewrite andb_false_r in W0. discriminate.
  - injection E0 as <- <-. exists ts'. split; [reflexivity|].
    apply (at_pos _ _ _ _ _ Tl). place.
  - discriminate.
Qed.
Lemma T_blank : forall v p r ts, Toks v p (32%N :: r) ts -> exists x h ts', ts = Lx SPACE x p h :: ts'.
Proof.
  intros v p r ts H. toks_inv H.
  - discriminate.
  - injection E0 as <- _. discriminate.
  - discriminate.
  - eexists. eexists. exists ts'. reflexivity.
  - pose proof (head_word _ _ _ _ N0 W0 E0). discriminate.
  - injection E0 as <- _. discriminate.
  - pose proof (head_word _ _ _ _ N0 W0 E0). discriminate.
Qed.
Lemma class_cases : forall w, class w = ORDSYMBOL \/ class w = NUM \/ class w = IDENTIFIER.
Proof. intros w. unfold class. destruct (_ && _); [auto|]. destruct (forallb _ _); auto. Qed.
Lemma T_first : forall v p r ts, Toks v p r ts -> no_quote r -> exists t ts', ts = t :: ts' /\ is_quote (lt t) = false.
Proof.
  intros v p r ts H Q. toks_inv H; subst; cbn [app].
  - eexists; exists []; split; reflexivity.
  - eexists. exists ts'. split; [reflexivity|]. cbn. unfold punctuation in Hq. destruct x0 as [|x]; [discriminate|].
    repeat (match type of Hq with context[match ?x with _ => _ end] => destruct x; try discriminate Hq end; cbn in Hq); now injection Hq as <-.
  - now cbn in Q.
  - eexists. exists ts'. split; reflexivity.
  - eexists. exists ts'. split; [reflexivity|]. cbn. destruct (class_cases w0) as [->|[->| ->]]; reflexivity.
  - eexists. eexists. split; reflexivity.
  - eexists. exists ts'. split; reflexivity.
Qed.

(** ** Strings *)
Lemma doubled_prefix : forall w s r0 r, Forall (fun x => x <> 39%N /\ x <> 38%N) w ->
  w ++ r0 = flat_map doubled s ++ 39%N :: r -> exists s', s = w ++ s' /\ r0 = flat_map doubled s' ++ 39%N :: r.
Proof.
  induction w as [|x w IH]; intros s r0 r F E.
  - exists s. auto.
  - inversion F as [|? ? (X1 & X2) F']; subst. destruct s as [|y s].
    + cbn in E. injection E as E _. congruence.
    + cbn [flat_map] in E. unfold doubled in E at 1.
      destruct ((y =? 39) || (y =? 38))%N eqn:Y.
      * cbn in E. injection E as E _. subst y. apply orb_true_iff in Y as [Y|Y]; apply N.eqb_eq in Y; congruence.
      * cbn in E. injection E as -> E. destruct (IH s r0 r F' E) as (s' & -> & ->). exists s'. auto.
Qed.
Lemma word_plain : forall w, forallb word_char w = true -> Forall (fun x => x <> 39%N /\ x <> 38%N) w.
Proof.
  intros w H. rewrite forallb_forall in H. apply Forall_forall. intros x I. specialize (H x I).
  split; intros ->; discriminate H.
Qed.
Lemma doubled_len : forall w, Forall (fun x => x <> 39%N /\ x <> 38%N) w -> flat_map doubled w = w.
Proof.
  induction 1 as [|x w (A & B) F IH]; [reflexivity|]. cbn. rewrite IH. unfold doubled.
  replace ((x =? 39) || (x =? 38))%N with false by lia. reflexivity.
Qed.

Lemma T_string : forall n s v p r ts, length s <= n -> no_quote r -> Toks v p (flat_map doubled s ++ 39%N :: r) ts ->
  exists ts', string_rest ts = Some (s, p + length (flat_map doubled s) + 1, ts') /\
    Toks false (p + length (flat_map doubled s) + 1) r ts'.
Proof.
  induction n as [n IH] using lt_wf_ind. intros s v p r ts Hn Q H.
  (* the characters from a word, a run of blanks, a mark *)
  assert (Go : forall w s' v' p' tk ts', s = w ++ s' -> w <> [] -> Forall (fun x => x <> 39%N /\ x <> 38%N) w ->
    (forall t2, string_rest (tk :: t2) = match string_rest t2 with Some (y, h, q) => Some (w ++ y, h, q) | None => None end) ->
    Toks v' p' (flat_map doubled s' ++ 39%N :: r) ts' -> p' = p + length w ->
    exists ts2, string_rest (tk :: ts') = Some (s, p + length (flat_map doubled s) + 1, ts2) /\
      Toks false (p + length (flat_map doubled s) + 1) r ts2).
  { intros w s' v' p' tk ts' -> N F Hs T ->. rewrite app_length in Hn. destruct w as [|x w]; [congruence|]. cbn [length] in Hn.
    destruct (IH (length s') ltac:(lia) s' _ _ _ _ (le_n _) Q T) as (ts2 & E & T2). exists ts2.
    rewrite Hs, E. rewrite flat_map_app, app_length, (doubled_len _ F).
    replace (p + (length (x :: w) + length (flat_map doubled s')) + 1) with (p + length (x :: w) + length (flat_map doubled s') + 1) by lia. auto. }
  (* an apostrophe *)
  assert (Ap : forall s' p' tk ts', is_quote (lt tk) = true -> l_hi tk = S p' -> length s' < n \/ s' = [] ->
     Toks false (S p') match s' with [] => r | _ :: s2 => 39%N :: flat_map doubled s2 ++ 39%N :: r end ts' ->
     match s' with [] => True | x :: _ => x = 39%N end ->
     exists ts2, string_rest (tk :: ts') = Some (s', p' + length (flat_map doubled s') + 1, ts2) /\
      Toks false (p' + length (flat_map doubled s') + 1) r ts2).
  { intros s' p' tk ts' Tk Hh Ln T X. destruct s' as [|x s2].
    - destruct (T_first _ _ _ _ T Q) as (t & t2 & -> & Nt). exists (t :: t2). cbn [flat_map length].
      replace (p' + 0 + 1) with (S p') by lia. split; [|exact T]. cbn [string_rest].
      destruct (lt tk); try discriminate Tk; rewrite Nt, Hh; reflexivity.
    - subst x. destruct (T_quote _ _ _ _ T) as (t3 & -> & T3). destruct Ln as [Ln|Ln]; [|discriminate]. cbn [length] in Ln.
      destruct (IH (length s2) ltac:(lia) s2 _ _ _ _ (le_n _) Q T3) as (ts2 & E & T2). exists ts2.
      cbn [flat_map doubled N.eqb Pos.eqb orb app length] in *.
      replace (p' + S (S (length (flat_map doubled s2))) + 1) with (S (S p') + length (flat_map doubled s2) + 1) by lia.
      split; [|exact T2]. cbn [string_rest]. destruct (lt tk); try discriminate Tk; cbn [lt is_quote]; now rewrite E. }
  remember (flat_map doubled s ++ 39%N :: r) as rest eqn:E.
  toks_inv H; subst rest; cbn [app].
  - destruct s; cbn in E0; [discriminate|]; unfold doubled in E0; destruct (_ || _)%bool; discriminate.
  - destruct (N.eq_dec x0 38) as [->|X].
    + destruct s as [|y s]; [cbn in E0; discriminate|]. cbn [flat_map] in E0. unfold doubled in E0 at 1.
      destruct ((y =? 39) || (y =? 38))%N eqn:Y; [|cbn in E0; injection E0 as -> _; discriminate Y].
      cbn in E0. injection E0 as -> E0. subst rest'. cbn in Hq. injection Hq as <-. cbn [is_ty] in Tl.
      destruct (T_mark _ _ 38%N AMPERSAND _ _ eq_refl Tl) as (t2 & -> & T2). cbn [length] in *.
      destruct (IH (length s) ltac:(lia) s _ _ _ _ (le_n _) Q T2) as (ts2 & E2 & T3). exists ts2.
      cbn [flat_map doubled N.eqb Pos.eqb orb app length string_rest lt] in *. rewrite E2.
      match type of T3 with Toks _ ?a _ _ => replace (p + S (S (length (flat_map doubled s))) + 1) with a by lia end. auto.
    + destruct (punct_ty x0 t' Hq) as (_ & N1 & N2 & _). symmetry in E0.
      destruct (doubled_prefix [x0] s rest' r ltac:(repeat constructor; assumption) E0) as (s' & Es & ->).
      rewrite <- E0 in Tl.
      eapply (Go [x0] s'); [exact Es|discriminate|repeat constructor; assumption| |exact Tl|cbn [length]; lia].
      intros t2. unfold punctuation in Hq. destruct x0 as [|x]; [discriminate|].
      repeat (match type of Hq with context[match ?x with _ => _ end] => destruct x; try discriminate Hq end; cbn in Hq);
      injection Hq as <-; try reflexivity; congruence.
  - destruct s as [|y s].
    + cbn in E0. injection E0 as <-. apply (Ap [] p); [reflexivity|reflexivity|now right| |exact Logic.I].
      apply (at_pos _ _ _ _ _ Tl).
      cbn [flat_map app]. place.
    + cbn [flat_map] in E0. unfold doubled in E0 at 1.
      destruct ((y =? 39) || (y =? 38))%N eqn:Y; [|cbn in E0; injection E0 as -> _; discriminate Y].
      cbn in E0. injection E0 as -> <-.
      destruct (T_quote _ _ _ _ Tl) as (t2 & -> & T2). cbn [length] in *.
      destruct (IH (length s) ltac:(lia) s _ _ _ _ (le_n _) Q T2) as (ts2 & E2 & T3). exists ts2.
      cbn [flat_map doubled N.eqb Pos.eqb orb app length string_rest lt is_quote] in *. rewrite E2.
      match type of T3 with Toks _ ?a _ _ => replace (p + S (S (length (flat_map doubled s))) + 1) with a by lia end. auto.
  - assert (Fb : Forall (fun x => x <> 39%N /\ x <> 38%N) (@repeat char 32%N (S k))).
    { apply Forall_forall. intros x I. apply repeat_spec in I. subst x. split; discriminate. }
    symmetry in E0. destruct (doubled_prefix _ s rest' r Fb E0) as (s' & Es & ->). rewrite <- E0 in Tl.
    eapply (Go _ s'); [exact Es|discriminate|exact Fb|intros t2; reflexivity|exact Tl|].
    place.
  - pose proof (word_plain w0 W0) as F. symmetry in E0. destruct (doubled_prefix _ s rest' r F E0) as (s' & Es & ->). rewrite <- E0 in Tl.
    eapply (Go _ s'); [exact Es|exact N0|exact F| |exact Tl|place].
    intros t2. cbn [string_rest lt ltx]. destruct (class_cases w0) as [->|[->| ->]]; reflexivity.
  - rename x0 into x. symmetry in E0. destruct (doubled_prefix [x] s (39%N :: rest') r) as (s' & Es & E2).
    { repeat constructor; intros ->; discriminate L. }
    { exact E0. }
    rewrite <- E0 in Tl.
    cbn [app] in Es. subst s. cbn [length] in Hn.
    assert (X : exists ts2, string_rest (Lx ATTR [39%N] (S p) (S (S p)) :: ts') = Some (s', S p + length (flat_map doubled s') + 1, ts2) /\
      Toks false (S p + length (flat_map doubled s') + 1) r ts2).
    { assert (Tl' : Toks false (S (S p)) rest' ts') by (apply (at_pos _ _ _ _ _ Tl); place).
      apply (Ap s' (S p)); [reflexivity|reflexivity|left; lia| |].
      - destruct s' as [|y s2]; [cbn in E2; injection E2 as ->; exact Tl'|].
        cbn [flat_map] in E2. unfold doubled in E2 at 1. destruct ((y =? 39) || (y =? 38))%N eqn:Y; cbn in E2; injection E2 as Ey E2; subst; [exact Tl'|discriminate Y].
      - destruct s' as [|y s2]; [exact Logic.I|].
        cbn [flat_map] in E2. unfold doubled in E2 at 1. destruct ((y =? 39) || (y =? 38))%N eqn:Y; cbn in E2; injection E2 as Ey E2; subst; reflexivity. }
    destruct X as (ts2 & X1 & X2). exists ts2.
    assert (Dx : doubled x = [x]).
    { unfold doubled. replace ((x =? 39) || (x =? 38))%N with false; [reflexivity|]. symmetry. apply orb_false_iff. split; apply N.eqb_neq; intros ->; discriminate L. }
    cbn [flat_map]. rewrite Dx. cbn [app length].
    replace (p + S (length (flat_map doubled s')) + 1) with (S p + length (flat_map doubled s') + 1) by lia.
    split; [|exact X2].
    change (string_rest (Lx ORDSYMBOL [x] p (S p) :: Lx ATTR [39%N] (S p) (S (S p)) :: ts')) with
      (match string_rest (Lx ATTR [39%N] (S p) (S (S p)) :: ts') with Some (y, h, q) => Some ([x] ++ y, h, q) | None => None end).
    rewrite X1. reflexivity.
  - pose proof (word_plain w0 W0) as F. symmetry in E0. destruct (doubled_prefix _ s _ r F E0) as (s' & Es & E2).
    rewrite <- E0, E2 in Tl.
    eapply (Go _ s'); [exact Es|exact N0|exact F|intros t2; reflexivity|exact Tl|place].
Qed.
