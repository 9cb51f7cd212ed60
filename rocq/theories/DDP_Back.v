(** * What is read without complaint was written so, and reading goes through *)
From Coq Require Import List ZArith NArith Bool Ascii Lia Arith.
From Coq Require Import ZifyBool ZifyNat ZifyN.
From Verif Require Import DD_Model DD_Spec DD_Str DDP_Model DDP_Spec DDP_Proof.
Import ListNotations.
Open Scope Z_scope.

Lemma app_nil_inv : forall {T} (a b : list T), a ++ b = [] -> a = [] /\ b = [].
Proof. intros T a b H. apply app_eq_nil in H. exact H. Qed.

Section Back.
  Context {Ex : Type}.
  Notation definition := (definition Ex).
  Notation pstate := (@pstate Ex).
  Notation token := (@token Ex).

  Lemma parse_number_clean : forall l v r ds, parse_number l = (v, r, ds) -> ds = [] ->
    exists z s, v = Some z /\ l = s ++ r /\ numeral s z.
  Proof.
    intros l v r ds H Hd. unfold parse_number in H. destruct (stoi l) as [z r'| |] eqn:E; injection H as <- <- <-; try discriminate.
    destruct (stoi_only l z r' E) as (s & H1 & H2 & _). exists z, s. split; [reflexivity|]. split; assumption.
  Qed.

  Lemma modifier_value_clean : forall (s s' : pstate) v, modifier_value s = Val (v, s') -> diags s' = [] ->
    diags s = [] /\ nominal_ s' = nominal_ s /\ remaining s' = remaining s /\ result s' = result s /\
    ((exists a t es1, v = Some a /\ rest s = t ++ rest s' /\ exprs s = es1 ++ exprs s' /\ amount_text a t es1) \/
     (v = None /\ s' = s) \/
     (exists e, v = Some (Exp e) /\ rest s = " "%char :: rest s' /\ exprs s' = exprs s /\ nominal_ s = Some (PExprs [PExpr e]))).
  Proof.
    intros [l es nm rm d ds] s' v H Hd. unfold modifier_value in H. cbn [rest exprs nominal_ remaining result diags] in *.
    destruct l as [|c r].
    { injection H as <- <-. cbn in Hd. subst. repeat (refine (conj _ _)); try reflexivity. right; left. auto. }
    destruct (numch c).
    { destruct (parse_number (c :: r)) as [[w r'] ds'] eqn:Ep. injection H as <- <-. cbn [diags] in Hd. apply app_nil_inv in Hd. destruct Hd as [-> Hd'].
      destruct (parse_number_clean _ _ _ _ Ep Hd') as (z & t & -> & Et & Hn). cbn [rest exprs nominal_ remaining result diags].
      repeat (refine (conj _ _)); try reflexivity. left. exists (Const z), t, []. split; [reflexivity|]. split; [exact Et|]. split; [reflexivity|]. split; [exact Hn|reflexivity]. }
    destruct (Ascii.eqb_spec c "&") as [->|Hc].
    { unfold move_next_expression in H. cbn [exprs] in H. destruct es as [|e es]; [discriminate|]. cbn [bind fst snd] in H. injection H as <- <-.
      cbn [rest exprs nominal_ remaining result diags tl] in *. subst. repeat (refine (conj _ _)); try reflexivity.
      left. exists (Exp e), ["&"%char], [e]. repeat (refine (conj _ _)); reflexivity. }
    destruct (Ascii.eqb_spec c " ") as [->|Hc2].
    { destruct nm as [[sx|[|[e|b dd] [|y q]]]|]; try discriminate; injection H as <- <-; cbn in Hd; try (apply app_nil_inv in Hd; destruct Hd; discriminate).
      subst. cbn. repeat (refine (conj _ _)); try reflexivity. right; right. exists e. repeat (refine (conj _ _)); reflexivity. }
    injection H as <- <-. cbn in Hd. subst. repeat (refine (conj _ _)); try reflexivity. right; left. auto.
  Qed.

  Lemma parse_modifier_clean : forall m (s s' : pstate), modifier_letter m = true -> parse_modifier m s = Val s' -> diags s' = [] ->
    diags s = [] /\ nominal_ s' = nominal_ s /\ after m (remaining s) = Some (remaining s') /\
    exists bit, (bit = true -> m = "L"%char) /\
    ((exists v t es1, loose (Token m bit v (m :: dot bit ++ t) es1) /\ rest s = dot bit ++ t ++ rest s' /\ exprs s = es1 ++ exprs s' /\
        result s' = apply_token (result s) (Token m bit v (m :: dot bit ++ t) es1)) \/
     (exists e, rest s = dot bit ++ " "%char :: rest s' /\ exprs s' = exprs s /\ nominal_ s = Some (PExprs [PExpr e]) /\
        result s' = assign m (Some (Exp e)) (if bit then bit_length (result s) else result s))).
  Proof.
    intros m s s' Hm H Hd.
    assert (forall s1, after_dot m s1 = Val s' ->
      diags s1 = [] /\ nominal_ s' = nominal_ s1 /\ after m (remaining s1) = Some (remaining s') /\
      ((exists v t es1, (v = None /\ t = [] /\ es1 = [] \/ exists a, v = Some a /\ amount_text a t es1) /\ rest s1 = t ++ rest s' /\ exprs s1 = es1 ++ exprs s' /\
          result s' = assign m v (result s1)) \/
       (exists e, rest s1 = " "%char :: rest s' /\ exprs s' = exprs s1 /\ nominal_ s1 = Some (PExprs [PExpr e]) /\
          result s' = assign m (Some (Exp e)) (result s1)))) as Hafter.
    { intros s1 H1. unfold after_dot in H1. destruct (modifier_value s1) as [[v s2]| |] eqn:Ev; try discriminate. cbn [bind fst snd] in H1.
      destruct (after m (remaining s2)) as [rm'|] eqn:Ea.
      2:{ injection H1 as <-. cbn in Hd. apply app_nil_inv in Hd. destruct Hd; discriminate. }
      injection H1 as <-. cbn [set_result diags result rest exprs nominal_ remaining] in *.
      destruct (modifier_value_clean s1 s2 v Ev Hd) as (D1 & N1 & R1 & Q1 & Hcases). rewrite N1, Q1. rewrite R1 in Ea.
      split; [exact D1|]. split; [reflexivity|]. split; [exact Ea|].
      destruct Hcases as [(a & t & es1 & -> & Er & Ee & Ha)|[(-> & ->)|(e & -> & Er & Ee & En)]].
      - left. exists (Some a), t, es1. split; [right; exists a; split; [reflexivity|exact Ha]|]. split; [exact Er|]. split; [exact Ee|]. reflexivity.
      - left. exists None, [], []. split; [left; auto|]. repeat (refine (conj _ _)); reflexivity.
      - right. exists e. split; [exact Er|]. split; [exact Ee|]. split; [exact En|]. reflexivity. }
    assert (forall bit (v : option (amount Ex)) t es1, (bit = true -> m = "L"%char) -> (v = None /\ t = [] /\ es1 = [] \/ exists a, v = Some a /\ amount_text a t es1) ->
              loose (Token m bit v (m :: dot bit ++ t) es1)) as Hloose.
    { intros bit v t es1 Hb [(-> & -> & ->)|(a & -> & Ha)].
      - right. cbn. rewrite app_nil_r. repeat (refine (conj _ _)); try reflexivity; assumption.
      - left. split; [exact Hm|]. split; [exact Hb|]. exists a, t. repeat (refine (conj _ _)); try reflexivity. exact Ha. }
    unfold parse_modifier in H. destruct s as [l es nm rm d ds]. cbn [rest exprs nominal_ remaining result diags] in *.
    destruct l as [|c r]; [injection H as <-; cbn in Hd; apply app_nil_inv in Hd; destruct Hd; discriminate|].
    destruct (Ascii.eqb_spec c ".") as [->|Hc].
    - destruct (Ascii.eqb_spec m "L") as [->|Hml]; unfold go_to, set_result, report_ in H; cbn [rest exprs nominal_ remaining result diags] in H.
      + destruct r as [|c2 r2]; [injection H as <-; cbn in Hd; apply app_nil_inv in Hd; destruct Hd; discriminate|].
        destruct (Hafter _ H) as (D1 & N1 & A1 & Hcases). cbn [rest exprs nominal_ remaining result diags] in *.
        split; [exact D1|]. split; [exact N1|]. split; [exact A1|]. exists true. split; [reflexivity|].
        destruct Hcases as [(v & t & es1 & Hv & Er & Ee & Eq)|(e & Er & Ee & En & Eq)].
        * left. exists v, t, es1. split; [apply Hloose; [reflexivity|exact Hv]|]. cbn [dot app]. rewrite Er. split; [reflexivity|]. split; [exact Ee|exact Eq].
        * right. exists e. cbn [dot app]. rewrite Er. repeat (refine (conj _ _)); try reflexivity; assumption.
      + exfalso. destruct r as [|c2 r2]; [injection H as <-; cbn in Hd; apply app_nil_inv in Hd; destruct Hd as [Hd _]; apply app_nil_inv in Hd; destruct Hd; discriminate|].
        destruct (Hafter _ H) as (D1 & _). cbn in D1. apply app_nil_inv in D1. destruct D1; discriminate.
    - destruct (Hafter _ H) as (D1 & N1 & A1 & Hcases). cbn [rest exprs nominal_ remaining result diags] in *.
      split; [exact D1|]. split; [exact N1|]. split; [exact A1|]. exists false. split; [discriminate|].
      destruct Hcases as [(v & t & es1 & Hv & Er & Ee & Eq)|(e & Er & Ee & En & Eq)].
      + left. exists v, t, es1. split; [apply Hloose; [discriminate|exact Hv]|]. cbn [dot app]. split; [exact Er|]. split; [exact Ee|exact Eq].
      + right. exists e. cbn [dot app]. split; [exact Er|]. split; [exact Ee|]. split; [exact En|exact Eq].
  Qed.

  (** spaces only at the end *)
  Definition space_end (l : text) : Prop := ~ In " "%char l \/ exists g, l = g ++ [" "%char] /\ ~ In " "%char g.
  Lemma space_end_tail : forall a b, space_end (a ++ b) -> b <> [] -> space_end b.
  Proof.
    intros a b [H|(g & E & H)] Hb; [left; intro K; apply H; apply in_or_app; right; exact K|].
    destruct (split_last b) as [->|(b' & x & ->)]; [contradiction|]. rewrite app_assoc in E. apply app_inj_tail in E. destruct E as [<- ->].
    right. exists b'. split; [reflexivity|]. intro K. apply H. apply in_or_app. right. exact K.
  Qed.
  Lemma space_end_cons : forall r, space_end (" "%char :: r) -> r = [].
  Proof.
    intros r [H|(g & E & H)]; [destruct H; left; reflexivity|]. destruct g as [|x g]; [injection E; auto|]. injection E as <- _. destruct H. left. reflexivity.
  Qed.
  Lemma space_end_nil : space_end [].
  Proof. left. intros []. Qed.
  Lemma after_length : forall m l l', after m l = Some l' -> (length l' < length l)%nat.
  Proof. induction l as [|c l IH]; intros l' H; [discriminate|]. cbn [after] in H. cbn [length]. destruct (c =c m); [injection H as <-; lia|]. specialize (IH l' H). lia. Qed.

  (** diagnostics are not taken back *)
  Lemma modifier_value_grows : forall (s s' : pstate) v, modifier_value s = Val (v, s') -> diags s' = [] -> diags s = [].
  Proof. intros s s' v H Hd. exact (proj1 (modifier_value_clean s s' v H Hd)). Qed.

  Definition ending (s s' : pstate) (l : list token) (rm : list ascii) : Prop :=
    let d := fold_left apply_token l (result s) in
    (rest s = texts l /\ result s' = d) \/
    (rest s = texts l ++ [" "%char] /\ result s' = with_nominal (nominal_ s) d) \/
    (exists e k bit rm', rest s = texts l ++ k :: dot bit ++ [" "%char] /\ nominal_ s = Some (PExprs [PExpr e]) /\ modifier_letter k = true /\
       (bit = true -> k = "L"%char) /\ after k rm = Some rm' /\
       result s' = assign k (Some (Exp e)) (if bit then bit_length d else d)).
  Lemma modifiers_clean : forall n (s s' : pstate), modifiers n s = Val s' -> diags s' = [] -> (length (remaining s) < n)%nat -> space_end (rest s) ->
    diags s = [] /\ exists l rm es2, Forall loose l /\ ordered (remaining s) l rm /\ exprs s = token_exprs l ++ es2 /\ ending s s' l rm.
  Proof.
    induction n as [|n IH]; intros s s' H Hd Hn Hsp; [lia|]. cbn [modifiers] in H.
    destruct (rest s) as [|c r] eqn:Er.
    { injection H as <-. split; [exact Hd|]. exists [], (remaining s), (exprs s). repeat (refine (conj _ _)); try constructor. rewrite Er. split; reflexivity. }
    destruct (modifier_letter c) eqn:Hc.
    { destruct (parse_modifier c (go_to r s)) as [s1| |] eqn:Ep; try discriminate. cbn [bind] in H.
      assert (diags s1 = []) as Hd1.
      { destruct (diags s1) as [|d ds] eqn:E1; [reflexivity|]. exfalso. clear - H Hd E1.
        assert (forall n (a b : pstate), modifiers n a = Val b -> diags b = [] -> diags a = []) as Hgrow; [|rewrite (Hgrow n s1 s' H Hd) in E1; discriminate].
        clear. intros n. induction n as [|n IH]; intros a b H Hd; cbn [modifiers] in H; [injection H as <-; exact Hd|].
        destruct (rest a) as [|c r]; [injection H as <-; exact Hd|]. destruct (modifier_letter c) eqn:Hc.
        - destruct (parse_modifier c (go_to r a)) as [a1| |] eqn:Ep; try discriminate. cbn [bind] in H. specialize (IH a1 b H Hd).
          exact (proj1 (parse_modifier_clean c _ _ Hc Ep IH)).
        - destruct (c =c " "); [injection H as <-; exact Hd|]. specialize (IH _ _ H Hd). cbn in IH. apply app_nil_inv in IH. destruct IH; discriminate. }
      destruct (parse_modifier_clean c _ _ Hc Ep Hd1) as (D1 & N1 & A1 & bit & Hb & Hcases).
      cbn [go_to rest exprs nominal_ remaining result diags] in *. pose proof (after_length _ _ _ A1) as Hlen.
      assert (rest s = c :: r) as Er' by exact Er.
      destruct Hcases as [(v & t & es1 & Hl & E1 & E2 & E3)|(e & E1 & E2 & E3 & E4)].
      - assert (space_end (rest s1)) as Hsp1.
        { destruct (rest s1) as [|x y] eqn:Ex1; [apply space_end_nil|]. apply (space_end_tail (c :: dot bit ++ t)); [|discriminate].
          rewrite E1 in Hsp. cbn [app]. rewrite <- app_assoc. exact Hsp. }
        destruct (IH s1 s' H Hd ltac:(lia) Hsp1) as (_ & l & rm & es2 & Hf & Ho & Ee & Hend).
        split; [exact D1|]. exists (Token c bit v (c :: dot bit ++ t) es1 :: l), rm, es2.
        split; [constructor; assumption|]. split; [econstructor; [exact A1|exact Ho]|].
        split; [rewrite E2, Ee; unfold token_exprs; cbn [map concat t_exprs]; rewrite app_assoc; reflexivity|].
        unfold ending in *. rewrite E3, N1 in Hend. rewrite Er', E1. cbn [fold_left].
        assert (forall y, texts (Token c bit v (c :: dot bit ++ t) es1 :: l) ++ y = c :: dot bit ++ t ++ texts l ++ y) as Htx.
        { intro y. unfold texts. cbn [map concat t_text]. rewrite <- !app_assoc. cbn [app]. rewrite <- !app_assoc. reflexivity. }
        destruct Hend as [(H1 & H2)|[(H1 & H2)|(e & k & b & rm' & H1 & H2)]].
        + left. split; [|exact H2]. rewrite H1. specialize (Htx []). rewrite !app_nil_r in Htx. symmetry. exact Htx.
        + right; left. split; [|exact H2]. rewrite H1, Htx. reflexivity.
        + right; right. exists e, k, b, rm'. split; [|exact H2]. rewrite H1, Htx. reflexivity.
      - split; [exact D1|]. exists [], (remaining s), (exprs s). split; [constructor|]. split; [constructor|]. split; [reflexivity|].
        assert (rest s1 = []) as Hr1.
        { apply space_end_cons. apply (space_end_tail (c :: dot bit)); [|discriminate]. rewrite E1 in Hsp. exact Hsp. }
        assert (s' = s1) as -> by (destruct n; cbn [modifiers] in H; [injection H; auto|rewrite Hr1 in H; injection H; auto]).
        right; right. exists e, c, bit, (remaining s1). rewrite Er', E1, Hr1. split; [reflexivity|]. split; [exact E3|]. split; [exact Hc|]. split; [exact Hb|].
        split; [exact A1|exact E4]. }
    destruct (Ascii.eqb_spec c " ") as [->|Hc2].
    { injection H as <-. cbn [go_to set_result diags rest exprs nominal_ remaining result] in Hd. split; [exact Hd|]. exists [], (remaining s), (exprs s).
      split; [constructor|]. split; [constructor|]. split; [reflexivity|]. right; left. rewrite Er, (space_end_cons r Hsp). split; reflexivity. }
    exfalso. assert (forall n (a b : pstate), modifiers n a = Val b -> diags b = [] -> diags a = []) as Hgrow.
    { clear. intros n. induction n as [|n IH]; intros a b H Hd; cbn [modifiers] in H; [injection H as <-; exact Hd|].
      destruct (rest a) as [|c r]; [injection H as <-; exact Hd|]. destruct (modifier_letter c) eqn:Hc.
      - destruct (parse_modifier c (go_to r a)) as [a1| |] eqn:Ep; try discriminate. cbn [bind] in H. specialize (IH a1 b H Hd).
        exact (proj1 (parse_modifier_clean c _ _ Hc Ep IH)).
      - destruct (c =c " "); [injection H as <-; exact Hd|]. specialize (IH _ _ H Hd). cbn in IH. apply app_nil_inv in IH. destruct IH; discriminate. }
    specialize (Hgrow _ _ _ H Hd). cbn in Hgrow. apply app_nil_inv in Hgrow. destruct Hgrow; discriminate.
  Qed.

  (** ** Tokens in order fill the four places *)
  Lemma ordered_take : forall k0 rm (l : list token) rm2, ordered (k0 :: rm) l rm2 ->
    (exists x l', l = x :: l' /\ t_key x = k0 /\ ordered rm l' rm2) \/ (exists rm3, ordered rm l rm3).
  Proof.
    intros k0 rm l rm2 H. inversion H as [|a b c x l' Ha Ho]; subst; [right; exists rm; constructor|].
    cbn [after] in Ha. destruct (Ascii.eqb_spec k0 (t_key x)) as [->|Hk].
    - injection Ha as <-. left. exists x, l'. auto.
    - right. exists rm2. econstructor; eassumption.
  Qed.
  Lemma loose_slot : forall x : token, loose x -> loose_text (t_key x) (t_bit x) (t_value x) (t_text x) (t_exprs x).
  Proof.
    intros x [(_ & _ & a & s & H1 & H2 & H3)|(_ & _ & H1 & H2 & H3)].
    - left. unfold modifier_text. rewrite H1. exists s. split; [exact H2|exact H3].
    - right. split; [exact H1|]. split; [exact H2|exact H3].
  Qed.
  Lemma loose_bit : forall x : token, loose x -> t_key x <> "L"%char -> t_bit x = false.
  Proof. intros x [(_ & H & _)|(_ & H & _)] Hk; destruct (t_bit x); try reflexivity; destruct (Hk (H eq_refl)). Qed.
  Lemma tokens_slots : forall (l : list token) rm a t x, Forall loose l -> ordered PLSE l rm ->
    let d := fold_left apply_token l (fresh a t x) in
    d_dup d = Some (match a with Some a => a | None => Const 1 end) /\ d_type d = t /\ d_ext d = x /\ d_nom d = None /\
    exists s1 e1 s2 e2 s3 e3 s4 e4, loose_text "P" false (d_prog d) s1 e1 /\ loose_text "L" (d_bit d) (d_len d) s2 e2 /\
      loose_text "S" false (d_scale d) s3 e3 /\ loose_text "E" false (d_exp d) s4 e4 /\
      texts l = s1 ++ s2 ++ s3 ++ s4 /\ token_exprs l = e1 ++ e2 ++ e3 ++ e4.
  Proof.
    intros l rm a t x Hl Ho.
    assert (forall k0 rm0 (l0 : list token) rm2, Forall loose l0 -> ordered (k0 :: rm0) l0 rm2 -> exists o l1 rm3, l0 = o ++ l1 /\ ordered rm0 l1 rm3 /\ Forall loose l1 /\
              (o = [] \/ exists y, o = [y] /\ t_key y = k0 /\ loose y)) as Htake.
    { intros k0 rm0 l0 rm2 Hf H. destruct (ordered_take _ _ _ _ H) as [(y & l' & -> & Hk & H')|(rm3 & H')].
      - inversion Hf; subst. exists [y], l', rm2. split; [reflexivity|]. split; [exact H'|]. split; [assumption|]. right. exists y. auto.
      - exists [], l0, rm3. split; [reflexivity|]. split; [exact H'|]. split; [exact Hf|]. left. reflexivity. }
    destruct (Htake _ _ _ _ Hl Ho) as (o1 & l1 & rm1 & E1 & Ho1 & Hl1 & C1).
    destruct (Htake _ _ _ _ Hl1 Ho1) as (o2 & l2 & rm2 & E2 & Ho2 & Hl2 & C2).
    destruct (Htake _ _ _ _ Hl2 Ho2) as (o3 & l3 & rm3 & E3 & Ho3 & Hl3 & C3).
    destruct (Htake _ _ _ _ Hl3 Ho3) as (o4 & l4 & rm4 & E4 & Ho4 & Hl4 & C4).
    assert (l4 = []) as -> by (inversion Ho4; subst; [reflexivity|discriminate]).
    rewrite app_nil_r in E4. subst l3 l2 l1 l.
    assert (forall o k0 d, (o = [] \/ exists y : token, o = [y] /\ t_key y = k0 /\ loose y) -> assign k0 None d = d ->
              exists b v, loose_text k0 b v (texts o) (token_exprs o) /\ (k0 <> "L"%char -> b = false) /\
                fold_left apply_token o d = assign k0 v (if b then bit_length d else d)) as Hform.
    { intros o k0 d [->|(y & -> & Hk & Hy)] Hd.
      - exists false, None. split; [left; repeat (refine (conj _ _)); reflexivity|]. split; [reflexivity|]. symmetry. exact Hd.
      - pose proof (loose_slot y Hy) as H1. pose proof (loose_bit y Hy) as H2. exists (t_bit y), (t_value y). rewrite Hk in *.
        unfold texts, token_exprs. cbn [map concat]. rewrite !app_nil_r. split; [exact H1|]. split; [exact H2|]. cbn [fold_left]. unfold apply_token. rewrite Hk. reflexivity. }
    destruct (Hform o1 "P"%char (fresh a t x) C1 eq_refl) as (b1 & v1 & T1 & B1 & F1). rewrite (B1 ltac:(discriminate)) in T1, F1. clear B1.
    destruct (Hform o2 "L"%char (assign "P" v1 (fresh a t x)) C2 eq_refl) as (b2 & v2 & T2 & _ & F2).
    destruct (Hform o3 "S"%char (assign "L" v2 (if b2 then bit_length (assign "P" v1 (fresh a t x)) else assign "P" v1 (fresh a t x))) C3
                ltac:(destruct b2; reflexivity)) as (b3 & v3 & T3 & B3 & F3). rewrite (B3 ltac:(discriminate)) in T3, F3. clear B3.
    destruct (Hform o4 "E"%char (assign "S" v3 (assign "L" v2 (if b2 then bit_length (assign "P" v1 (fresh a t x)) else assign "P" v1 (fresh a t x)))) C4
                ltac:(destruct b2; reflexivity)) as (b4 & v4 & T4 & B4 & F4). rewrite (B4 ltac:(discriminate)) in T4, F4. clear B4.
    cbv zeta. rewrite !fold_left_app, F1, F2, F3, F4.
    assert (assign "E" v4 (assign "S" v3 (assign "L" v2 (if b2 then bit_length (assign "P" v1 (fresh a t x)) else assign "P" v1 (fresh a t x)))) =
            Definition_ (Some match a with Some a => a | None => Const 1 end) t x v1 v2 b2 v3 v4 None) as -> by (destruct b2; reflexivity).
    cbn [d_dup d_type d_ext d_prog d_len d_bit d_scale d_exp d_nom].
    split; [reflexivity|]. split; [reflexivity|]. split; [reflexivity|]. split; [reflexivity|].
    exists (texts o1), (token_exprs o1), (texts o2), (token_exprs o2), (texts o3), (token_exprs o3), (texts o4), (token_exprs o4).
    split; [exact T1|]. split; [exact T2|]. split; [exact T3|]. split; [exact T4|]. rewrite !texts_app, !exprs_app. split; reflexivity.
  Qed.

  (** ** Characters that stand for themselves *)
  Lemma upper_space : forall c, upper c = " "%char <-> c = " "%char.
  Proof. intro c. destruct c as [[] [] [] [] [] [] [] []]; vm_compute; split; congruence. Qed.
  Lemma upper_placeholder : forall c, upper c = "&"%char <-> c = "&"%char.
  Proof. intro c. destruct c as [[] [] [] [] [] [] [] []]; vm_compute; split; congruence. Qed.
  Lemma upper_placeholders : forall f, placeholders (map upper f) = placeholders f.
  Proof.
    induction f as [|c f IH]; [reflexivity|]. cbn [map placeholders]. pose proof (upper_placeholder c).
    destruct (ascii_dec (upper c) "&"), (ascii_dec c "&"); rewrite IH; tauto.
  Qed.
  Lemma upper_no_space : forall f, ~ In " "%char f -> ~ In " "%char (map upper f).
  Proof. intros f H K. apply in_map_iff in K. destruct K as (c & Hc & Hi). apply (proj1 (upper_space c)) in Hc. subst. exact (H Hi). Qed.
  Lemma placeholders_app : forall a b, placeholders (a ++ b) = (placeholders a + placeholders b)%nat.
  Proof. induction a as [|c a IH]; intro b; [reflexivity|]. cbn [app placeholders]. rewrite IH. destruct (ascii_dec c "&"); reflexivity. Qed.
  Lemma placeholders_none : forall s, (forall c, In c s -> c <> "&"%char) -> placeholders s = O.
  Proof. induction s as [|c s IH]; intro H; [reflexivity|]. cbn [placeholders]. destruct (ascii_dec c "&") as [E|E]; [destruct (H c (or_introl eq_refl) E)|].
    apply IH. intros x Hx. apply H. right. exact Hx. Qed.
  Lemma numeral_chars : forall s z c, numeral s z -> In c s -> c = "-"%char \/ In c decimal.
  Proof.
    intros s z c (_ & [Hu|(s' & -> & Hu)]) H; apply unsigned_spec in Hu; destruct Hu as (_ & H2 & _); [right; apply H2; exact H|].
    destruct H as [<-|H]; [left; reflexivity|right; apply H2; exact H].
  Qed.
  Definition plain (s : text) (es : list Ex) : Prop := placeholders s = length es /\ ~ In " "%char s.
  Lemma plain_app : forall a b ea eb, plain a ea -> plain b eb -> plain (a ++ b) (ea ++ eb).
  Proof.
    intros a b ea eb (H1 & H2) (H3 & H4). split; [rewrite placeholders_app, app_length; lia|]. intro K. apply in_app_or in K. tauto.
  Qed.
  Lemma plain_cons : forall c s es, c <> "&"%char -> c <> " "%char -> plain s es -> plain (c :: s) es.
  Proof.
    intros c s es H1 H2 (H3 & H4). split; [cbn [placeholders]; destruct (ascii_dec c "&"); [contradiction|exact H3]|].
    intros [K|K]; [contradiction|contradiction].
  Qed.
  Lemma plain_nil : plain [] [].
  Proof. split; [reflexivity|intros []]. Qed.
  Lemma plain_amount : forall (a : amount Ex) s es, amount_text a s es -> plain s es.
  Proof.
    intros [z|e] s es H; cbn in H.
    - destruct H as (H & ->). split.
      + cbn [length]. apply placeholders_none. intros c Hc. destruct (numeral_chars s z c H Hc) as [->|K]; [discriminate|].
        cbn in K. intuition (subst; discriminate).
      + intro Hc. destruct (numeral_chars s z _ H Hc) as [K|K]; [discriminate|]. cbn in K. intuition discriminate.
    - destruct H as (-> & ->). split; [reflexivity|]. intros [K|[]]. discriminate.
  Qed.
  Lemma letter_plain : forall c, modifier_letter c = true -> c <> "&"%char /\ c <> " "%char.
  Proof. intros c H. split; intros ->; discriminate. Qed.
  Lemma plain_dot : forall b, plain (dot b) [].
  Proof. intros []; [apply plain_cons; [discriminate|discriminate|apply plain_nil]|apply plain_nil]. Qed.
  Lemma plain_token : forall x : token, loose x -> plain (t_text x) (t_exprs x).
  Proof.
    intros x [(H1 & _ & a & s & _ & -> & H)|(H1 & _ & _ & -> & ->)]; destruct (letter_plain _ H1) as [N1 N2]; apply plain_cons; try assumption.
    - apply (plain_app (dot (t_bit x)) s [] (t_exprs x)); [apply plain_dot|exact (plain_amount a s _ H)].
    - apply plain_dot.
  Qed.
  Lemma plain_tokens : forall l : list token, Forall loose l -> plain (texts l) (token_exprs l).
  Proof.
    induction l as [|x l IH]; intro H; [apply plain_nil|]. inversion H; subst. unfold texts, token_exprs. cbn [map concat].
    apply plain_app; [apply plain_token; assumption|apply IH; assumption].
  Qed.
  Lemma plain_dup : forall (a : option (amount Ex)) s es, dup_text a s es -> plain s es.
  Proof. intros [a|] s es H; cbn in H; [exact (plain_amount a s es H)|]. destruct H as (-> & ->). apply plain_nil. Qed.

  (** ** The beginning *)
  Lemma duplication_clean : forall f (es : list Ex) dup r es' , duplication f es = Val (dup, r, es', []) ->
    exists a s0 e0, f = s0 ++ r /\ es = e0 ++ es' /\ dup_text a s0 e0 /\ dup = match a with Some a => a | None => Const 1 end.
  Proof.
    intros f es dup r es' H. unfold duplication in H. destruct f as [|c f].
    { injection H as <- <- <-. exists None, [], []. repeat (refine (conj _ _)); reflexivity. }
    destruct (numch c).
    { destruct (parse_number (c :: f)) as [[v r'] ds] eqn:E. injection H as <- <- <- Hd.
      destruct (parse_number_clean _ _ _ _ E Hd) as (z & s & -> & Es & Hn). exists (Some (Const z)), s, [].
      split; [exact Es|]. split; [reflexivity|]. split; [split; [exact Hn|reflexivity]|reflexivity]. }
    destruct (Ascii.eqb_spec c "&") as [->|_].
    { destruct es as [|e es]; [discriminate|]. injection H as <- <- <-. exists (Some (Exp e)), ["&"%char], [e]. repeat (refine (conj _ _)); reflexivity. }
    injection H as <- <- <-. exists None, [], []. repeat (refine (conj _ _)); reflexivity.
  Qed.
  Lemma modifiers_grow : forall n (a b : pstate), modifiers n a = Val b -> diags b = [] -> diags a = [].
  Proof.
    intros n. induction n as [|n IH]; intros a b H Hd; cbn [modifiers] in H; [injection H as <-; exact Hd|].
    destruct (rest a) as [|c r]; [injection H as <-; exact Hd|]. destruct (modifier_letter c) eqn:Hc.
    - destruct (parse_modifier c (go_to r a)) as [a1| |] eqn:Ep; try discriminate. cbn [bind] in H. specialize (IH a1 b H Hd).
      exact (proj1 (parse_modifier_clean c _ _ Hc Ep IH)).
    - destruct (c =c " "); [injection H as <-; exact Hd|]. specialize (IH _ _ H Hd). cbn in IH. apply app_nil_inv in IH. destruct IH; discriminate.
  Qed.

  Lemma space_last_end : forall f (n : option (pnominal Ex)), space_last f n -> space_end (map upper f).
  Proof.
    intros f [nv|] H; cbn in H.
    - destruct H as (g & -> & H). right. exists (map upper g). rewrite map_app. split; [reflexivity|]. apply upper_no_space. exact H.
    - left. apply upper_no_space. exact H.
  Qed.
  Lemma type_not_space : forall t, In t upper_letters -> t <> "&"%char /\ t <> " "%char.
  Proof. intros t H. destruct (letter_facts t H) as (_ & _ & _ & H1 & H2). split; assumption. Qed.
  Lemma ext_plain : forall x, (forall c, x = Some c -> In c extensions) -> plain (ext_text x) [].
  Proof.
    intros [c|] H; [|apply plain_nil]. specialize (H c eq_refl). cbn [ext_text].
    apply plain_cons; [| |apply plain_nil]; cbn in H; intuition (subst; discriminate).
  Qed.

  Theorem parse_only : forall f es n (d : definition), parse f es n = Val (d, []) -> In (d_type d) upper_letters -> space_last f n ->
    placeholders f = length es ->
    (exists d', loosely_written d' f es n /\ as_read d' = d) /\ (forall x, d_ext d = Some x -> In x extensions).
  Proof.
    intros f es n d H Ht Hsp Hpl. unfold parse in H.
    destruct (duplication (map upper f) es) as [[[[dup r] es'] ds]| |] eqn:Ed; try discriminate. cbn [bind] in H.
    destruct r as [|t r1]; [injection H as <- _; cbn in Ht; intuition discriminate|].
    (* the state in which the modifiers are read *)
    assert (exists x r2 (s' : pstate), r1 = ext_text x ++ r2 /\ (forall c, x = Some c -> In c extensions) /\
              modifiers 5 (PState r2 es' n PLSE (Definition_ (Some dup) t x None None false None None None) ds) = Val s' /\
              diags s' = [] /\ result s' = d) as (x & r2 & s' & -> & Hx & Hm & Hd & Hres).
    { destruct r1 as [|c r2].
      - injection H as <- ->. exists None, []. eexists. split; [reflexivity|]. split; [discriminate|]. split; [reflexivity|]. split; reflexivity.
      - destruct (type_extension c) eqn:Hc.
        + destruct (modifiers 5 _) as [s'| |] eqn:Hm in H; try discriminate. cbn [bind] in H. injection H as H1 H2.
          exists (Some c), r2, s'. split; [reflexivity|]. split; [intros c' E; injection E as <-; apply extension_facts; exact Hc|]. split; [exact Hm|]. split; assumption.
        + destruct (modifiers 5 _) as [s'| |] eqn:Hm in H; try discriminate. cbn [bind] in H. injection H as H1 H2.
          exists None, (c :: r2), s'. split; [reflexivity|]. split; [discriminate|]. split; [exact Hm|]. split; assumption. }
    clear H. pose proof (modifiers_grow _ _ _ Hm Hd) as Hds. cbn [diags] in Hds. subst ds.
    destruct (duplication_clean _ _ _ _ _ Ed) as (a & s0 & e0 & Ef & Ee & Hdup & ->).
    pose proof (space_last_end f n Hsp) as Hend. rewrite Ef in Hend.
    assert (space_end r2) as Hend2.
    { destruct r2 as [|c r2]; [apply space_end_nil|]. apply (space_end_tail (s0 ++ t :: ext_text x)); [|discriminate]. rewrite <- app_assoc. exact Hend. }
    destruct (modifiers_clean 5 _ s' Hm Hd ltac:(cbn; lia) Hend2) as (_ & l & rm & es2 & Hl & Ho & Ees & Hen).
    cbn [rest exprs nominal_ remaining result diags] in *. change (Definition_ (Some match a with Some a => a | None => Const 1 end) t x None None false None None None) with (fresh a t x) in *.
    pose proof (tokens_slots l rm a t x Hl Ho) as Hslots. cbv zeta in Hslots.
    unfold ending in Hen. cbn [rest exprs nominal_ remaining result diags] in Hen.
    assert (placeholders (map upper f) = length es) as Hpl' by (rewrite upper_placeholders; exact Hpl). rewrite Ef, Ee, Ees in Hpl'.
    assert (forall d0 : definition, d_type (as_read d0) = d_type d0) as _ by reflexivity.
    (* nothing is left over *)
    assert (In t upper_letters -> es2 = [] /\
            (match n with None => rest s' = rest s' /\ ~ In " "%char r2 | Some _ => r2 <> texts l end)) as Hleft.
    { intro Htt. destruct (type_not_space t Htt) as [T1 T2].
      assert (forall y, plain y [] \/ y = [" "%char] \/ (exists k b, modifier_letter k = true /\ y = k :: dot b ++ [" "%char]) -> r2 = texts l ++ y ->
                placeholders y = O -> es2 = []) as Hes2.
      { intros y _ -> Hy. change (t :: ext_text x ++ texts l ++ y) with ([t] ++ ext_text x ++ texts l ++ y) in Hpl'.
        rewrite !placeholders_app in Hpl'. rewrite Hy in Hpl'. rewrite (proj1 (plain_dup _ _ _ Hdup)), (proj1 (ext_plain x Hx)), (proj1 (plain_tokens l Hl)) in Hpl'.
        assert (placeholders [t] = O) as Ht0 by (cbn [placeholders]; destruct (ascii_dec t "&"); [contradiction|reflexivity]).
        rewrite Ht0, !app_length in Hpl'. cbn [length] in Hpl'. destruct es2; [reflexivity|]. cbn [length] in Hpl'. lia. }
      split.
      - destruct Hen as [(E & _)|[(E & _)|(e & k & b & rm' & E & _ & Hk & _)]].
        + apply (Hes2 []); [left; apply plain_nil|rewrite app_nil_r; exact E|reflexivity].
        + apply (Hes2 [" "%char]); [right; left; reflexivity|exact E|reflexivity].
        + apply (Hes2 (k :: dot b ++ [" "%char])); [right; right; exists k, b; split; [exact Hk|reflexivity]|exact E|].
          destruct (letter_plain k Hk) as [N1 _]. cbn [placeholders]. destruct (ascii_dec k "&"); [contradiction|]. destruct b; reflexivity.
      - destruct n as [nv|]; cbn in Hsp.
        + intro E. destruct Hsp as (g & -> & _). rewrite map_app in Ef. cbn [map] in Ef. change (upper " ") with " "%char in Ef.
          assert (In " "%char (s0 ++ t :: ext_text x ++ r2)) as K by (rewrite <- Ef; apply in_or_app; right; left; reflexivity).
          apply in_app_or in K. destruct K as [K|[K|K]]; [exact (proj2 (plain_dup _ _ _ Hdup) K)|contradiction|].
          apply in_app_or in K. destruct K as [K|K]; [exact (proj2 (ext_plain x Hx) K)|]. rewrite E in K. exact (proj2 (plain_tokens l Hl) K).
        + split; [reflexivity|]. intro K. apply (upper_no_space f Hsp). rewrite Ef. apply in_or_app. right. right. apply in_or_app. right. exact K. }
    assert (d_type d = t /\ d_ext d = x) as (Hdt & Hdx).
    { destruct Hslots as (_ & S2 & S3 & _). destruct Hen as [(_ & E)|[(_ & E)|(e & k & b & rm' & _ & _ & Hk & _ & _ & E)]]; rewrite Hres in E; rewrite E; clear - S2 S3.
      - split; assumption.
      - split; assumption.
      - unfold assign. destruct b; destruct (k =c "P"); cbn; auto; destruct (k =c "L"); cbn; auto; destruct (k =c "S"); cbn; auto. }
    rewrite Hdt in Ht. destruct (Hleft Ht) as (-> & Hnn). rewrite app_nil_r in Ees. rewrite Hdx. split; [|exact Hx].
    (* a definition with the factor as it was written *)
    assert (forall D : definition, d_dup D = Some (match a with Some a => a | None => Const 1 end) ->
              as_read (Definition_ a (d_type D) (d_ext D) (d_prog D) (d_len D) (d_bit D) (d_scale D) (d_exp D) (d_nom D)) = D) as Has.
    { intros [u1 u2 u3 u4 u5 u6 u7 u8 u9] E. cbn in E. subst u1. reflexivity. }
    assert (forall (D : definition) l', d_type D = t -> d_ext D = x -> (exists s1 e1 s2 e2 s3 e3 s4 e4, loose_text "P" false (d_prog D) s1 e1 /\ loose_text "L" (d_bit D) (d_len D) s2 e2 /\
              loose_text "S" false (d_scale D) s3 e3 /\ loose_text "E" false (d_exp D) s4 e4 /\
              texts l' = s1 ++ s2 ++ s3 ++ s4 /\ token_exprs l' = e1 ++ e2 ++ e3 ++ e4) ->
              loose_head (Definition_ a (d_type D) (d_ext D) (d_prog D) (d_len D) (d_bit D) (d_scale D) (d_exp D) (d_nom D))
                (s0 ++ t :: ext_text x ++ texts l') (e0 ++ token_exprs l')) as Hhead.
    { intros D l' E1 E2 (s1 & e1 & s2 & e2 & s3 & e3 & s4 & e4 & L1 & L2 & L3 & L4 & L5 & L6).
      exists s0, e0, s1, e1, s2, e2, s3, e3, s4, e4. cbn [d_dup d_type d_ext d_prog d_len d_bit d_scale d_exp].
      split; [exact Hdup|]. split; [exact L1|]. split; [exact L2|]. split; [exact L3|]. split; [exact L4|].
      rewrite L5, L6, E1, E2. split; [unfold ext_text; reflexivity|reflexivity]. }
    destruct Hen as [(E & Er)|[(E & Er)|(e & k & b & rm' & E & En & Hk & Hb & Ha & Er)]]; rewrite Hres in Er.
    - destruct n as [nv|]; [destruct (Hnn E)|]. destruct Hslots as (S1 & S2 & S3 & S4 & S5). rewrite <- Er in *.
      eexists. split; [|apply Has; exact S1]. exists (s0 ++ t :: ext_text x ++ texts l). left. split; [rewrite Ee, Ees; apply Hhead; assumption|].
      split; [apply spelled_upper; rewrite Ef, E; reflexivity|]. split; [exact S4|reflexivity].
    - destruct n as [nv|]; [|destruct Hnn as [_ K]; rewrite E in K; destruct K; apply in_or_app; right; left; reflexivity].
      destruct Hslots as (S1 & S2 & S3 & S4 & S5). set (D := fold_left apply_token l (fresh a t x)) in *.
      exists (Definition_ a (d_type d) (d_ext d) (d_prog d) (d_len d) (d_bit d) (d_scale d) (d_exp d) (d_nom d)).
      split; [|apply Has; rewrite Er; exact S1]. exists (s0 ++ t :: ext_text x ++ texts l). right; left. exists nv.
      split; [rewrite Er; reflexivity|]. split; [reflexivity|]. split; [rewrite Ee, Ees; apply Hhead; rewrite Er; assumption|].
      apply spelled_upper. rewrite Ef, E. rewrite <- app_assoc. cbn [app]. rewrite <- app_assoc. reflexivity.
    - set (y := Token k b (Some (Exp e)) (k :: dot b ++ ["&"%char]) [e]).
      assert (Forall loose (l ++ [y])) as Hl2.
      { apply Forall_app. split; [exact Hl|]. constructor; [|constructor]. left. split; [exact Hk|]. split; [exact Hb|].
        exists (Exp e), ["&"%char]. repeat (refine (conj _ _)); reflexivity. }
      assert (ordered PLSE (l ++ [y]) rm') as Ho2.
      { clear - Ho Ha. unfold y. change ["P"%char; "L"%char; "S"%char; "E"%char] with PLSE in Ho. induction Ho; cbn [app]; [econstructor; [exact Ha|constructor]|]. econstructor; [eassumption|]. apply IHHo. exact Ha. }
      destruct (tokens_slots (l ++ [y]) rm' a t x Hl2 Ho2) as (S1 & S2 & S3 & S4 & S5).
      assert (apply_token (fold_left apply_token l (fresh a t x)) y = d) as Ey by (rewrite Er; reflexivity).
      rewrite fold_left_app in S1, S2, S3, S4, S5. cbn [fold_left] in S1, S2, S3, S4, S5. rewrite Ey in S1, S2, S3, S4, S5.
      exists (Definition_ a (d_type d) (d_ext d) (d_prog d) (d_len d) (d_bit d) (d_scale d) (d_exp d) (d_nom d)).
      split; [|apply Has; exact S1]. exists (s0 ++ t :: ext_text x ++ texts l ++ k :: dot b). right; right. exists e.
      split; [exact S4|]. split; [exact En|]. split.
      + pose proof (Hhead d (l ++ [y]) S2 S3 S5) as Hh. rewrite texts_app, exprs_app in Hh. unfold texts at 2 in Hh. unfold token_exprs at 2 in Hh.
        unfold y in Hh. cbn [map concat t_text t_exprs app] in Hh. rewrite app_nil_r in Hh. rewrite Ee, Ees.
        rewrite <- !app_assoc in *. cbn [app] in *. rewrite <- !app_assoc in *. cbn [app] in *. rewrite <- ?app_assoc in *. exact Hh.
      + apply spelled_upper. rewrite Ef, E. rewrite <- !app_assoc. cbn [app]. rewrite <- !app_assoc. cbn [app]. reflexivity.
  Qed.

  (** ** Reading goes through *)
  Definition sound (s : pstate) : Prop := (placeholders (rest s) <= length (exprs s))%nat /\ (nominal_ s = None -> ~ In " "%char (rest s)).
  Lemma sound_suffix : forall a r es nm rm d ds (rm2 : list ascii) (d2 : definition) ds2, sound (PState (a ++ r) es nm rm d ds) -> sound (PState r es nm rm2 d2 ds2).
  Proof.
    intros a r es nm rm d ds rm2 d2 ds2 (H1 & H2). unfold sound in *. cbn [rest exprs nominal_] in *. rewrite placeholders_app in H1. split; [lia|].
    intros Hn K. apply (H2 Hn). apply in_or_app. right. exact K.
  Qed.
  Lemma number_end_suffix : forall l, exists a, l = a ++ number_end l.
  Proof. induction l as [|c l (a & IH)]; [exists []; reflexivity|]. cbn [number_end]. destruct (numch c); [exists (c :: a); cbn; rewrite <- IH; reflexivity|exists []; reflexivity]. Qed.
  Lemma parse_number_suffix : forall l v r ds, parse_number l = (v, r, ds) -> exists a, l = a ++ r.
  Proof.
    intros l v r ds H. unfold parse_number in H. destruct (stoi l) as [z r'| |] eqn:E; injection H as <- <- <-.
    - destruct (stoi_only l z r' E) as (s & H1 & _). exists s. exact H1.
    - apply number_end_suffix.
    - apply number_end_suffix.
  Qed.
  Lemma modifier_value_goes : forall s : pstate, sound s -> exists v s', modifier_value s = Val (v, s') /\ sound s'.
  Proof.
    intros [l es nm rm d ds] Hs. unfold modifier_value. cbn [rest exprs nominal_ remaining result diags].
    destruct l as [|c r]; [eexists _, _; split; [reflexivity|exact Hs]|]. destruct (numch c).
    { destruct (parse_number (c :: r)) as [[v r'] ds'] eqn:E. destruct (parse_number_suffix _ _ _ _ E) as (a & Ea). eexists _, _. split; [reflexivity|].
      rewrite Ea in Hs. exact (sound_suffix _ _ _ _ _ _ _ _ _ _ Hs). }
    destruct (Ascii.eqb_spec c "&") as [->|Hc].
    { unfold move_next_expression. cbn [exprs rest tl nominal_ remaining result diags]. destruct Hs as (H1 & H2). cbn in H1. destruct es as [|e es]; [cbn in H1; lia|].
      cbn [bind fst snd]. eexists _, _. split; [reflexivity|]. split; cbn in *; [lia|]. intros Hn K. apply (H2 Hn). right. exact K. }
    destruct (Ascii.eqb_spec c " ") as [->|Hc2].
    { pose proof (sound_suffix [" "%char] r es nm rm d ds rm d ds Hs) as Hs'.
      destruct nm as [[sx|[|[e|b dd] [|y q]]]|]; try (eexists _, _; split; [reflexivity|exact Hs']). exfalso. apply (proj2 Hs eq_refl). left. reflexivity. }
    eexists _, _. split; [reflexivity|exact Hs].
  Qed.
  Lemma parse_modifier_goes : forall m (s : pstate), sound s -> exists s', parse_modifier m s = Val s' /\ sound s'.
  Proof.
    assert (forall m (s : pstate), sound s -> exists s', after_dot m s = Val s' /\ sound s') as Ha.
    { intros m s Hs. unfold after_dot. destruct (modifier_value_goes s Hs) as (v & s1 & -> & H1). cbn [bind fst snd].
      eexists. split; [reflexivity|]. destruct (after m (remaining s1)); exact H1. }
    intros m [l es nm rm d ds] Hs. unfold parse_modifier. cbn [rest exprs nominal_ remaining result diags].
    destruct l as [|c r]; [eexists; split; [reflexivity|exact Hs]|]. destruct (c =c "."); [|apply Ha; exact Hs].
    pose proof (sound_suffix [c] r es nm rm d ds) as Hs'.
    destruct r as [|c2 r2]; [eexists; split; [reflexivity|]|apply Ha]; destruct (m =c "L"); apply (Hs' rm _ _ Hs).
  Qed.
  Lemma skip_suffix : forall l, exists a, l = a ++ skip_invalid l.
  Proof. induction l as [|c l (a & IH)]; [exists []; reflexivity|]. cbn [skip_invalid]. destruct (modifier_letter c || (c =c " ")); [exists []; reflexivity|exists (c :: a); cbn; rewrite <- IH; reflexivity]. Qed.
  Lemma modifiers_go : forall n (s : pstate), sound s -> exists s', modifiers n s = Val s'.
  Proof.
    induction n as [|n IH]; intros [l es nm rm d ds] Hs; cbn [modifiers rest]; [eexists; reflexivity|].
    destruct l as [|c r]; [eexists; reflexivity|]. destruct (modifier_letter c).
    - destruct (parse_modifier_goes c (go_to r (PState (c :: r) es nm rm d ds))) as (s' & -> & H'); [exact (sound_suffix [c] r es nm rm d ds rm d ds Hs)|]. cbn [bind]. apply IH. exact H'.
    - destruct (c =c " "); [eexists; reflexivity|]. apply IH. destruct (skip_suffix (c :: r)) as (a & E). unfold report_, go_to. cbn [rest exprs nominal_ remaining result diags].
      rewrite E in Hs. exact (sound_suffix _ _ _ _ _ _ _ _ _ _ Hs).
  Qed.
  Theorem parse_goes : forall f es (n : option (pnominal Ex)), (placeholders f <= length es)%nat -> (n = None -> ~ In " "%char f) -> exists r, parse f es n = Val r.
  Proof.
    intros f es n Hp Hn. unfold parse.
    assert (placeholders (map upper f) <= length es)%nat as Hp' by (rewrite upper_placeholders; exact Hp).
    assert (n = None -> ~ In " "%char (map upper f)) as Hn' by (intro E; apply upper_no_space; exact (Hn E)).
    assert (exists dup r es' ds, duplication (map upper f) es = Val (dup, r, es', ds) /\ (placeholders r <= length es')%nat /\ (n = None -> ~ In " "%char r)) as (dup & r & es' & ds & -> & H1 & H2).
    { revert Hp' Hn'. generalize (map upper f). intros g Hp' Hn'. unfold duplication. destruct g as [|c g]; [eexists _, _, _, _; split; [reflexivity|split; assumption]|].
      destruct (numch c).
      - destruct (parse_number (c :: g)) as [[v r'] ds'] eqn:E. destruct (parse_number_suffix _ _ _ _ E) as (a & Ea). eexists _, _, _, _. split; [reflexivity|].
        rewrite Ea in *. rewrite placeholders_app in Hp'. split; [lia|]. intros En K. apply (Hn' En). apply in_or_app. right. exact K.
      - destruct (Ascii.eqb_spec c "&") as [->|_]; [|eexists _, _, _, _; split; [reflexivity|split; assumption]].
        cbn in Hp'. destruct es as [|e es]; [cbn in Hp'; lia|]. eexists _, _, _, _. split; [reflexivity|]. cbn in Hp'. split; [lia|]. intros En K. apply (Hn' En). right. exact K. }
    cbn [bind]. destruct r as [|t [|c r]]; [eexists; reflexivity|eexists; reflexivity|].
    assert (forall x r2 d0 ds0, c :: r = x ++ r2 -> sound (PState r2 es' n PLSE d0 ds0)) as Hsnd.
    { intros x r2 d0 ds0 E. apply (sound_suffix (t :: x) r2 es' n PLSE d0 ds0). split; cbn [rest exprs nominal_]; cbn [app]; rewrite <- E; assumption. }
    destruct (type_extension c).
    - edestruct modifiers_go as (s' & Hs'); [|rewrite Hs'; eexists; reflexivity]. apply (Hsnd [c] r). reflexivity.
    - edestruct modifiers_go as (s' & Hs'); [|rewrite Hs'; eexists; reflexivity]. apply (Hsnd [] (c :: r)). reflexivity.
  Qed.
End Back.
