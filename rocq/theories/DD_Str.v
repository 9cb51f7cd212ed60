(** * Nominal values written as text: the checks accept exactly the lists of values *)
From Coq Require Import List ZArith NArith Bool Ascii Lia Arith.
From Coq Require Import ZifyBool ZifyNat ZifyN.
From Verif Require Import DD_Model DD_Spec.
Import ListNotations.
Open Scope Z_scope.

Definition inb (l : list ascii) (c : ascii) : bool := if in_dec ascii_dec c l then true else false.
Lemma inb_in : forall l c, inb l c = true <-> In c l.
Proof. intros l c. unfold inb. destruct (in_dec ascii_dec c l); split; intro; auto; discriminate. Qed.

Lemma all_ascii : forall P : ascii -> bool,
  (forall a b c d e f g h, P (Ascii a b c d e f g h) = true) -> forall c, P c = true.
Proof. intros P H []. apply H. Qed.

Ltac by_cases_on_ascii := intros [a b c d e f g h]; destruct a, b, c, d, e, f, g, h; vm_compute; reflexivity.

Lemma digit_decimal : forall c, digit c = inb decimal c.
Proof. by_cases_on_ascii. Qed.
Lemma hex_hexadecimal : forall c, hex_digit c = inb hexadecimal c.
Proof. by_cases_on_ascii. Qed.
Lemma binary_digit : forall c, ((c =c "0") || (c =c "1")) = inb binary c.
Proof. by_cases_on_ascii. Qed.
Lemma quote_quote : forall c, not_quote c = negb (inb ["<"; ">"]%char c).
Proof. by_cases_on_ascii. Qed.

Lemma how_many_nil : forall l, how_many l [] = 0.
Proof. reflexivity. Qed.
Lemma how_many_cons : forall l c v, how_many l (c :: v) = (if inb l c then 1 else 0) + how_many l v.
Proof.
  intros l c v. unfold how_many, inb. cbn [filter]. destruct (in_dec ascii_dec c l); cbn [length]; lia.
Qed.
Lemma how_many_nonneg : forall l v, 0 <= how_many l v.
Proof. intros. unfold how_many. lia. Qed.
Lemma how_many_app : forall l a b, how_many l (a ++ b) = how_many l a + how_many l b.
Proof. intros l a b. induction a as [|c a IH]; cbn [app]; rewrite ?how_many_cons, ?how_many_nil, ?IH; lia. Qed.
Lemma count_how_many : forall f l, (forall c, f c = inb l c) -> forall v, count f v = how_many l v.
Proof.
  intros f l H v. induction v as [|c v IH]; [reflexivity|]. rewrite how_many_cons. cbn [count].
  rewrite H, IH. reflexivity.
Qed.
Lemma how_many_pos : forall l v, 0 < how_many l v <-> exists c, In c v /\ In c l.
Proof.
  intros l v. induction v as [|c v IH].
  - rewrite how_many_nil. split; [lia|]. intros (c & [] & _).
  - rewrite how_many_cons. pose proof (how_many_nonneg l v). destruct (inb l c) eqn:Hc.
    + split; [|lia]. intros _. exists c. split; [left; reflexivity|]. apply inb_in; exact Hc.
    + rewrite Z.add_0_l, IH. split; intros (x & Hx & Hl).
      * exists x. split; [right; exact Hx|exact Hl].
      * destruct Hx as [<-|Hx]; [|exists x; tauto]. apply inb_in in Hl. congruence.
Qed.

(** ** Pieces *)
Definition no_comma (p : text) : Prop := ~ In ","%char p.
Lemma pieces_nonempty : forall s, pieces s <> [].
Proof.
  induction s as [|c s IH]; cbn [pieces]; [discriminate|]. destruct (pieces s); [congruence|].
  destruct (Ascii.eqb c ","); discriminate.
Qed.
Lemma pieces_one : forall p, no_comma p -> pieces p = [p].
Proof.
  induction p as [|c p IH]; intro H; [reflexivity|]. cbn [pieces]. rewrite IH by (intro K; apply H; right; exact K).
  destruct (Ascii.eqb_spec c ","); [|reflexivity]. subst. exfalso. apply H. left. reflexivity.
Qed.
Lemma pieces_app : forall p t, no_comma p -> pieces (p ++ ","%char :: t) = p :: pieces t.
Proof.
  induction p as [|c p IH]; intros t H.
  - cbn [app pieces]. destruct (pieces t) eqn:E; [destruct (pieces_nonempty _ E)|]. reflexivity.
  - cbn [app pieces]. rewrite IH by (intro K; apply H; right; exact K).
    destruct (Ascii.eqb_spec c ","); [|reflexivity]. subst. exfalso. apply H. left. reflexivity.
Qed.
Lemma pieces_cut : forall l, exists p, no_comma p /\ ((l = p /\ pieces l = [p]) \/
                                              exists t, l = p ++ ","%char :: t /\ pieces l = p :: pieces t).
Proof.
  induction l as [|c l (p & Hp & IH)].
  - exists []. split; [intros []|]. left. split; reflexivity.
  - destruct (Ascii.eqb_spec c ",") as [->|Hc].
    + exists []. split; [intros []|]. right. exists l. split; [reflexivity|].
      change (","%char :: l) with ([] ++ ","%char :: l). apply pieces_app. intros [].
    + exists (c :: p). assert (no_comma (c :: p)) as Hn by (intros [K|K]; [congruence|exact (Hp K)]).
      split; [exact Hn|]. destruct IH as [[-> _]|(t & -> & _)].
      * left. split; [reflexivity|]. apply pieces_one; exact Hn.
      * right. exists t. split; [reflexivity|]. apply (pieces_app (c :: p) t Hn).
Qed.

(** ** Digits *)
Lemma comma_separated_spec : forall valid l, (forall c, valid c = inb l c) -> ~ In " "%char l -> ~ In ","%char l ->
  forall s last, comma_separated valid last s = true <->
    match pieces s with
    | [] => False
    | p :: ps => (forall c, In c p -> In c l \/ c = " "%char) /\ (last = true \/ exists c, In c p /\ In c l) /\
                 Forall (digits_value l) ps
    end.
Proof.
  intros valid l Hv Hsp Hco. induction s as [|c s IH]; intro last.
  - cbn. split.
    + intro H. split; [intros c []|]. split; [left; exact H|constructor].
    + intros (_ & [H|(c & [] & _)] & _). exact H.
  - cbn [comma_separated pieces]. destruct (pieces s) as [|p ps] eqn:E; [destruct (pieces_nonempty _ E)|].
    destruct (Ascii.eqb_spec c " ") as [->|Hc].
    { cbn [Ascii.eqb]. change (Ascii.eqb " " ",") with false. cbn match. rewrite (IH last). split.
      - intros (H1 & H2 & H3). split; [intros x [<-|Hx]; [right; reflexivity|apply H1; exact Hx]|].
        split; [|exact H3]. destruct H2 as [H2|(x & Hx & Hl)]; [left; exact H2|]. right. exists x. cbn. tauto.
      - intros (H1 & H2 & H3). split; [intros x Hx; apply H1; right; exact Hx|]. split; [|exact H3].
        destruct H2 as [H2|(x & [<-|Hx] & Hl)]; [left; exact H2|contradiction|right; exists x; tauto]. }
    destruct (Ascii.eqb_spec c ",") as [->|Hc2].
    { destruct last.
      - rewrite (IH false). split.
        + intros (H1 & [H2|H2] & H3); [discriminate|]. split; [intros x []|]. split; [left; reflexivity|].
          constructor; [split; assumption|exact H3].
        + intros (_ & _ & H). inversion H as [|a b (Ha1 & Ha2) Hb]; subst. split; [exact Ha1|]. split; [right; exact Ha2|exact Hb].
      - split; [discriminate|]. intros (_ & [H|(x & [] & _)] & _). exact H. }
    rewrite Hv. destruct (inb l c) eqn:Hl.
    + apply inb_in in Hl. rewrite (IH true). split.
      * intros (H1 & _ & H3). split; [intros x [<-|Hx]; [left; exact Hl|apply H1; exact Hx]|].
        split; [|exact H3]. right. exists c. split; [left; reflexivity|exact Hl].
      * intros (H1 & _ & H3). split; [intros x Hx; apply H1; right; exact Hx|]. split; [left; reflexivity|exact H3].
    + split; [discriminate|]. intros (H1 & _). destruct (H1 c (or_introl eq_refl)) as [K|K]; [|congruence].
      apply inb_in in K. congruence.
Qed.
Lemma comma_separated_values : forall valid l, (forall c, valid c = inb l c) -> ~ In " "%char l -> ~ In ","%char l ->
  forall s, comma_separated valid false s = true <-> Forall (digits_value l) (pieces s).
Proof.
  intros valid l Hv H1 H2 s. rewrite (comma_separated_spec valid l Hv H1 H2).
  destruct (pieces s) as [|p ps] eqn:E; [destruct (pieces_nonempty _ E)|]. split.
  - intros (A1 & [A2|A2] & A3); [discriminate|]. constructor; [split; assumption|exact A3].
  - intro H. inversion H as [|a b (Ha1 & Ha2) Hb]; subst. split; [exact Ha1|]. split; [right; exact Ha2|exact Hb].
Qed.

(** ** Numbers *)
Definition body_ok (b : text) : Prop := forall c, In c b -> In c decimal \/ c = "."%char \/ c = " "%char.
(** the characters at which a number ends are not among those of a number *)
Definition ends_ok (sp : numspec) : Prop := forall c, is_end_char sp c = true -> ~ In c decimal /\ c <> "."%char /\ c <> " "%char.
Definition stops (f : ascii -> bool) (r : text) : Prop := match r with [] => True | c :: _ => f c = true end.

Lemma number_loop_spec : forall sp, ends_ok sp -> forall l fd pd dot pdot r,
  (fd = true -> pd || pdot = true) ->
  (number_loop sp fd pd dot pdot l = Some r <->
   exists b, l = b ++ r /\ stops (is_end_char sp) r /\ body_ok b /\
     (fd = true \/ 0 < how_many decimal b) /\ (if dot then 1 else 0) + how_many ["."%char] b <= 1).
Proof.
  intros sp Hsp. induction l as [|c l IH]; intros fd pd dot pdot r Hinv.
  - cbn [number_loop]; cbv zeta. assert ((if negb fd then @None text else if negb pd && negb pdot then @None text else @Some text []) =
                               (if fd then @Some text [] else @None text)) as ->
      by (destruct fd; [|reflexivity]; cbn; destruct pd, pdot; cbn in *; try reflexivity; discriminate (Hinv eq_refl)).
    split.
    + destruct fd; [|discriminate]. intros [= <-]. exists []. cbn [app]. split; [reflexivity|]. split; [exact I|].
      split; [intros x []|]. split; [left; reflexivity|]. rewrite how_many_nil. destruct dot; lia.
    + intros (b & Hb & _ & _ & H & _). destruct b; [|discriminate]. cbn in Hb. subst r. rewrite how_many_nil in H.
      destruct H as [->|H]; [reflexivity|lia].
  - cbn [number_loop]; cbv zeta. assert ((if negb fd then @None text else if negb pd && negb pdot then @None text else @Some text (c :: l)) =
                               (if fd then @Some text (c :: l) else @None text)) as ->
      by (destruct fd; [|reflexivity]; cbn; destruct pd, pdot; cbn in *; try reflexivity; discriminate (Hinv eq_refl)).
    destruct (is_end_char sp c) eqn:Hend.
    { destruct (Hsp c Hend) as (N1 & N2 & N3). split.
      - destruct fd; [|discriminate]. intros [= <-]. exists []. cbn [app]. split; [reflexivity|]. split; [exact Hend|].
        split; [intros x []|]. split; [left; reflexivity|]. rewrite how_many_nil. destruct dot; lia.
      - intros (b & Hb & _ & Hok & H & _). destruct b as [|x b].
        + cbn in Hb. subst r. rewrite how_many_nil in H. destruct H as [->|H]; [reflexivity|lia].
        + cbn in Hb. injection Hb as <- _. destruct (Hok c (or_introl eq_refl)) as [K|[K|K]]; contradiction. }
    assert (forall b, c :: l = b ++ r -> stops (is_end_char sp) r -> exists b', b = c :: b' /\ l = b' ++ r) as Hcons.
    { intros b Hb Hs. destruct b as [|x b]; cbn in Hb; [subst r; cbn in Hs; congruence|].
      injection Hb as <- Hb. exists b. split; [reflexivity|exact Hb]. }
    destruct (Ascii.eqb_spec c ".") as [->|Hdot].
    { destruct dot.
      - split; [discriminate|]. intros (b & Hb & Hs & _ & _ & Hn). destruct (Hcons b Hb Hs) as (b' & -> & _).
        rewrite how_many_cons in Hn. change (inb ["."%char] ".") with true in Hn. pose proof (how_many_nonneg ["."%char] b'). lia.
      - rewrite (IH fd false true true r) by reflexivity. split.
        + intros (b & -> & Hs & Hok & H & Hn). exists ("."%char :: b). split; [reflexivity|]. split; [exact Hs|].
          split; [intros x [<-|Hx]; [right; left; reflexivity|apply Hok; exact Hx]|]. rewrite !how_many_cons.
          change (inb ["."%char] ".") with true. change (inb decimal ".") with false. split; [|lia].
          destruct H as [H|H]; [left; exact H|right; lia].
        + intros (b & Hb & Hs & Hok & H & Hn). destruct (Hcons b Hb Hs) as (b' & -> & ->). exists b'.
          split; [reflexivity|]. split; [exact Hs|]. split; [intros x Hx; apply Hok; right; exact Hx|].
          rewrite !how_many_cons in *. change (inb ["."%char] ".") with true in *. change (inb decimal ".") with false in *.
          split; [|lia]. destruct H as [H|H]; [left; exact H|right; lia]. }
    assert (inb ["."%char] c = false) as Hnd.
    { destruct (inb ["."%char] c) eqn:K; [|reflexivity]. apply inb_in in K. destruct K as [K|[]]. congruence. }
    destruct (digit c) eqn:Hdig.
    { rewrite (IH true true dot false r) by reflexivity.
      assert (inb decimal c = true) as Hin by (rewrite <- digit_decimal; exact Hdig). split.
      - intros (b & -> & Hs & Hok & _ & Hn). exists (c :: b). split; [reflexivity|]. split; [exact Hs|].
        split; [intros x [<-|Hx]; [left; apply inb_in; exact Hin|apply Hok; exact Hx]|]. rewrite !how_many_cons, Hin, Hnd.
        pose proof (how_many_nonneg decimal b). split; [right; lia|lia].
      - intros (b & Hb & Hs & Hok & H & Hn). destruct (Hcons b Hb Hs) as (b' & -> & ->). exists b'.
        split; [reflexivity|]. split; [exact Hs|]. split; [intros x Hx; apply Hok; right; exact Hx|].
        split; [left; reflexivity|]. rewrite how_many_cons, Hnd in Hn. lia. }
    assert (inb decimal c = false) as Hin by (rewrite <- digit_decimal; exact Hdig).
    destruct (Ascii.eqb_spec c " ") as [->|Hsp2]; cbn [negb].
    { rewrite (IH fd pd dot pdot r Hinv). split.
      - intros (b & -> & Hs & Hok & H & Hn). exists (" "%char :: b). split; [reflexivity|]. split; [exact Hs|].
        split; [intros x [<-|Hx]; [right; right; reflexivity|apply Hok; exact Hx]|]. rewrite !how_many_cons.
        rewrite Hnd, Hin. split; [destruct H as [H|H]; [left; exact H|right; lia]|lia].
      - intros (b & Hb & Hs & Hok & H & Hn). destruct (Hcons b Hb Hs) as (b' & -> & ->). exists b'.
        split; [reflexivity|]. split; [exact Hs|]. split; [intros x Hx; apply Hok; right; exact Hx|].
        rewrite !how_many_cons, Hnd, Hin in *. split; [destruct H as [H|H]; [left; exact H|right; lia]|lia]. }
    split; [discriminate|]. intros (b & Hb & Hs & Hok & _). destruct (Hcons b Hb Hs) as (b' & -> & _).
    destruct (Hok c (or_introl eq_refl)) as [K|[K|K]]; [apply inb_in in K; congruence|congruence|congruence].
Qed.

Definition signs_ok (sp : numspec) (signs : list ascii) : Prop :=
  (forall c, is_sign_char sp c = inb signs c) /\ (forall c, In c signs -> ~ In c decimal /\ c <> "."%char /\ c <> " "%char) /\
  ~ In ","%char signs.
Lemma check_number_spec : forall sp signs, ends_ok sp -> is_end_char sp "," = true -> signs_ok sp signs ->
  forall l r, check_number sp l = Some r <-> exists n, l = n ++ r /\ number signs n /\ stops (is_end_char sp) r.
Proof.
  intros sp signs He Hcomma (Hs1 & Hs2 & Hs3) l r.
  assert (forall l, number_loop sp false false false false l = Some r <->
    exists b, l = b ++ r /\ stops (is_end_char sp) r /\ body_ok b /\ 0 < how_many decimal b /\ how_many ["."%char] b <= 1) as HL.
  { intro l0. rewrite (number_loop_spec sp He) by discriminate. split; intros (b & H1 & H2 & H3 & H4 & H5); exists b.
    - destruct H4 as [H4|H4]; [discriminate|]. auto.
    - split; [exact H1|]. split; [exact H2|]. split; [exact H3|]. split; [right; exact H4|lia]. }
  assert (forall n, number signs n -> exists x n', n = x :: n' /\ x <> ","%char /\
    ((In x signs /\ body_ok n' /\ 0 < how_many decimal n' /\ how_many ["."%char] n' <= 1) \/
     (~ In x signs /\ body_ok n /\ 0 < how_many decimal n /\ how_many ["."%char] n <= 1))) as HN.
  { intros n (sg & b & -> & [->|(x & -> & Hx)] & Hb & Hd & Hp).
    - destruct b as [|x b]; [rewrite how_many_nil in Hd; lia|]. exists x, b. split; [reflexivity|].
      pose proof (Hb x (or_introl eq_refl)) as Hx. split.
      + intros ->. destruct Hx as [K|[K|K]]; [|discriminate|discriminate]. apply inb_in in K. discriminate.
      + right. split; [|auto]. intro K. destruct (Hs2 x K) as (K1 & K2 & K3). tauto.
    - exists x, b. split; [reflexivity|]. split; [intros ->; contradiction|]. left. auto. }
  destruct l as [|c l].
  - cbn [check_number]. rewrite HL. split.
    + intros (b & H1 & H2 & H3 & H4 & H5). destruct b; [rewrite how_many_nil in H4; lia|discriminate].
    + intros (n & Hn & Hnum & _). destruct (HN n Hnum) as (x & n' & -> & _). discriminate.
  - cbn [check_number]. destruct (Ascii.eqb_spec c ",") as [->|Hc].
    { split; [discriminate|]. intros (n & Hn & Hnum & _). destruct (HN n Hnum) as (x & n' & -> & Hx & _).
      injection Hn as Hn _. congruence. }
    rewrite Hs1. destruct (inb signs c) eqn:Hsg.
    + apply inb_in in Hsg. rewrite HL. split.
      * intros (b & -> & H2 & H3 & H4 & H5). exists (c :: b). split; [reflexivity|]. split; [|exact H2].
        exists [c], b. split; [reflexivity|]. split; [right; exists c; auto|auto].
      * intros (n & Hn & Hnum & Hst). destruct (HN n Hnum) as (x & n' & -> & _ & H). injection Hn as <- ->.
        destruct H as [(_ & H1 & H2 & H3)|(K & _)]; [|contradiction]. exists n'. auto.
    + assert (~ In c signs) as Hns by (intro K; apply inb_in in K; congruence). rewrite HL. split.
      * intros (b & H1 & H2 & H3 & H4 & H5). exists b. split; [exact H1|]. split; [|exact H2]. exists [], b. cbn [app]. auto.
      * intros (n & Hn & Hnum & Hst). destruct (HN n Hnum) as (x & n' & -> & _ & H). pose proof Hn as Hn2. injection Hn as <- _.
        destruct H as [(K & _)|(_ & H1 & H2 & H3)]; [contradiction|]. exists (c :: n'). auto.
Qed.

Lemma HF_number : forall l r, check_number HF_num l = Some r <->
  exists n, l = n ++ r /\ number ["+"; "-"; "U"]%char n /\ stops (fun c => (c =c ",") || (c =c "E")) r.
Proof.
  apply (check_number_spec HF_num ["+"; "-"; "U"]%char).
  - intros c Hc. cbn in Hc. apply orb_true_iff in Hc. destruct Hc as [Hc|Hc]; apply Ascii.eqb_eq in Hc; subst c;
      (split; [intro K; apply inb_in in K; discriminate|split; discriminate]).
  - reflexivity.
  - split; [by_cases_on_ascii|]. split; [|intro K; apply inb_in in K; discriminate].
    intros c [<-|[<-|[<-|[]]]]; (split; [intro K; apply inb_in in K; discriminate|split; discriminate]).
Qed.
Lemma PZ_number : forall l r, check_number PZ_num l = Some r <->
  exists n, l = n ++ r /\ number ["+"; "-"]%char n /\ stops (fun c => c =c ",") r.
Proof.
  apply (check_number_spec PZ_num ["+"; "-"]%char).
  - intros c Hc. cbn in Hc. apply Ascii.eqb_eq in Hc; subst c;
      (split; [intro K; apply inb_in in K; discriminate|split; discriminate]).
  - reflexivity.
  - split; [by_cases_on_ascii|]. split; [|intro K; apply inb_in in K; discriminate].
    intros c [<-|[<-|[]]]; (split; [intro K; apply inb_in in K; discriminate|split; discriminate]).
Qed.
Lemma EDL_number : forall l r, check_number EDL_num l = Some r <->
  exists n, l = n ++ r /\ number ["+"; "-"]%char n /\ stops (fun c => (c =c ",") || (c =c "E") || (c =c "R")) r.
Proof.
  apply (check_number_spec EDL_num ["+"; "-"]%char).
  - intros c Hc. cbn in Hc. apply orb_true_iff in Hc. destruct Hc as [Hc|Hc]; [apply orb_true_iff in Hc; destruct Hc as [Hc|Hc]|];
      apply Ascii.eqb_eq in Hc; subst c;
      (split; [intro K; apply inb_in in K; discriminate|split; discriminate]).
  - reflexivity.
  - split; [by_cases_on_ascii|]. split; [|intro K; apply inb_in in K; discriminate].
    intros c [<-|[<-|[]]]; (split; [intro K; apply inb_in in K; discriminate|split; discriminate]).
Qed.

Lemma number_no_comma : forall signs n, ~ In ","%char signs -> number signs n -> no_comma n.
Proof.
  intros signs n Hs (sg & b & -> & Hsg & Hb & _) K. apply in_app_or in K. destruct K as [K|K].
  - destruct Hsg as [->|(c & -> & Hc)]; [exact K|]. destruct K as [->|[]]. contradiction.
  - destruct (Hb _ K) as [K'|[K'|K']]; [|discriminate|discriminate]. apply inb_in in K'. discriminate.
Qed.
Lemma number_nonempty : forall signs, ~ number signs [].
Proof.
  intros signs (sg & b & H & _ & _ & Hd & _). destruct sg; [|discriminate]. destruct b; [|discriminate].
  rewrite how_many_nil in Hd. lia.
Qed.

(** ** Exponents *)
Definition no_digit_next (r : text) : Prop := match r with [] => True | c :: _ => digit c = false end.
Lemma skip_digits_spec : forall l found r, skip_digits found l = Some r <->
  exists ds, l = ds ++ r /\ (found = true \/ ds <> []) /\ (forall c, In c ds -> In c decimal) /\ no_digit_next r.
Proof.
  induction l as [|c l IH]; intros found r.
  - cbn [skip_digits]. split.
    + destruct found; [|discriminate]. intros [= <-]. exists []. split; [reflexivity|]. split; [left; reflexivity|].
      split; [intros c []|exact I].
    + intros (ds & H & H1 & _). destruct ds, r; try discriminate. destruct H1 as [->|H1]; [reflexivity|congruence].
  - cbn [skip_digits]. destruct (digit c) eqn:Hc.
    + rewrite IH. assert (In c decimal) as Hin by (apply inb_in; rewrite <- digit_decimal; exact Hc). split.
      * intros (ds & -> & _ & H2 & H3). exists (c :: ds). split; [reflexivity|]. split; [right; discriminate|].
        split; [intros x [<-|Hx]; auto|exact H3].
      * intros (ds & H & H1 & H2 & H3). destruct ds as [|x ds].
        -- cbn in H. subst r. cbn in H3. congruence.
        -- injection H as <- ->. exists ds. split; [reflexivity|]. split; [left; reflexivity|].
           split; [intros x Hx; apply H2; right; exact Hx|exact H3].
    + split.
      * destruct found; [|discriminate]. intros [= <-]. exists []. split; [reflexivity|]. split; [left; reflexivity|].
        split; [intros x []|exact Hc].
      * intros (ds & H & H1 & H2 & H3). destruct ds as [|x ds].
        -- cbn in H. subst r. destruct H1 as [->|H1]; [reflexivity|congruence].
        -- injection H as <- _. pose proof (H2 c (or_introl eq_refl)) as K. apply inb_in in K.
           rewrite digit_decimal in Hc. congruence.
Qed.
Lemma check_exponent_spec : forall l r, check_exponent l = Some r <->
  exists e, "E"%char :: l = e ++ r /\ exponent e /\ no_digit_next r.
Proof.
  intros l r.
  assert (forall l, skip_digits false l = Some r <->
    exists ds, l = ds ++ r /\ ds <> [] /\ (forall c, In c ds -> In c decimal) /\ no_digit_next r) as HL.
  { intro l0. rewrite skip_digits_spec. split; intros (ds & H1 & H2 & H3 & H4); exists ds.
    - destruct H2 as [H2|H2]; [discriminate|auto].
    - auto. }
  assert (forall c, is_sign c = true -> c = "+"%char \/ c = "-"%char) as Hsg.
  { intros c H. unfold is_sign in H. apply orb_true_iff in H. destruct H as [H|H]; apply Ascii.eqb_eq in H; auto. }
  assert (forall c, In c decimal -> is_sign c = false) as Hds.
  { intros c H. cbn in H. repeat (destruct H as [<-|H]; [reflexivity|]). destruct H. }
  assert ((exists e, "E"%char :: l = e ++ r /\ exponent e /\ no_digit_next r) <->
          exists sg ds, l = sg ++ ds ++ r /\ (sg = [] \/ sg = ["+"%char] \/ sg = ["-"%char]) /\ ds <> [] /\
                        (forall c, In c ds -> In c decimal) /\ no_digit_next r) as ->.
  { split.
    - intros (e & H & (sg & ds & -> & H1 & H2 & H3) & H4). cbn in H. injection H as H. exists sg, ds.
      rewrite H, app_assoc. auto.
    - intros (sg & ds & -> & H1 & H2 & H3 & H4). exists ("E"%char :: sg ++ ds). split; [cbn; rewrite app_assoc; reflexivity|].
      split; [|exact H4]. exists sg, ds. auto. }
  destruct l as [|c l].
  - cbn [check_exponent]. rewrite HL. split.
    + intros (ds & H & H1 & _). destruct ds; [congruence|discriminate].
    + intros (sg & ds & H & _ & H1 & _). destruct sg; [|discriminate]. destruct ds; [congruence|discriminate].
  - cbn [check_exponent]. destruct (is_sign c) eqn:Hc.
    + rewrite HL. split.
      * intros (ds & -> & H). exists [c], ds. split; [reflexivity|]. split; [|exact H]. destruct (Hsg c Hc) as [->| ->]; auto.
      * intros (sg & ds & H & H1 & H2 & H3 & H4). destruct sg as [|x sg].
        -- destruct ds as [|y ds]; [congruence|]. injection H as <- _. rewrite Hds in Hc by (apply H3; left; reflexivity). discriminate.
        -- injection H as <- H. destruct H1 as [H1|[H1|H1]]; [discriminate| |]; injection H1 as _ ->; exists ds; auto.
    + rewrite HL. split.
      * intros (ds & H & H1). exists [], ds. cbn [app]. auto.
      * intros (sg & ds & H & H1 & H2 & H3 & H4). destruct H1 as [->|[->| ->]].
        -- exists ds. auto.
        -- injection H as -> _. discriminate.
        -- injection H as -> _. discriminate.
Qed.
Lemma exponent_no_comma : forall e, exponent e -> no_comma e.
Proof.
  intros e (sg & ds & -> & Hs & _ & Hd) [K|K]; [discriminate|]. apply in_app_or in K. destruct K as [K|K].
  - destruct Hs as [->|[->| ->]]; [destruct K|destruct K as [K|[]]; discriminate|destruct K as [K|[]]; discriminate].
  - apply Hd, inb_in in K. discriminate.
Qed.

(** ** Lists of numbers *)
Lemma back_app : forall a b, b <> [] -> back_is_comma (a ++ b) = back_is_comma b.
Proof.
  intros a b Hb. unfold back_is_comma. rewrite rev_app_distr. destruct (rev b) eqn:E; [|reflexivity].
  exfalso. apply Hb. rewrite <- (rev_involutive b), E. reflexivity.
Qed.
Lemma app_cut : forall (p t v r : text), no_comma p -> no_comma v -> p ++ ","%char :: t = v ++ ","%char :: r -> p = v /\ t = r.
Proof.
  induction p as [|c p IH]; intros t v r Hp Hv H.
  - destruct v as [|x v]; cbn in H; [injection H as ->; auto|]. injection H as <- _. exfalso. apply Hv. left. reflexivity.
  - destruct v as [|x v]; cbn in H.
    + injection H as -> _. exfalso. apply Hp. left. reflexivity.
    + injection H as -> H. destruct (IH t v r) as [-> ->]; try assumption; auto.
      * intro K. apply Hp. right. exact K.
      * intro K. apply Hv. right. exact K.
Qed.

(** A checker of one value that leaves the rest, and the loop over the values *)
Section Loop.
  Variable V : text -> Prop.
  Variable parse : text -> option text.
  Hypothesis parse_spec : forall l r, stops (fun c => c =c ",") r ->
    (parse l = Some r <-> exists v, l = v ++ r /\ V v).
  Hypothesis V_no_comma : forall v, V v -> no_comma v.
  Hypothesis V_nonempty : ~ V [].

  Lemma parse_last : forall p, no_comma p -> (parse p = Some [] <-> V p).
  Proof.
    intros p Hp. rewrite (parse_spec p [] I). split.
    - intros (v & H & Hv). rewrite app_nil_r in H. subst. exact Hv.
    - intro H. exists p. rewrite app_nil_r. auto.
  Qed.
  Lemma parse_more : forall p t, no_comma p -> (parse (p ++ ","%char :: t) = Some (","%char :: t) <-> V p).
  Proof.
    intros p t Hp. rewrite (parse_spec _ (","%char :: t) eq_refl). split.
    - intros (v & H & Hv). destruct (app_cut p t v t Hp (V_no_comma v Hv) H) as [-> _]. exact Hv.
    - intro H. exists p. auto.
  Qed.
  (** a value that is not followed by a comma or the end does not pass *)
  Lemma parse_other : forall l r, stops (fun c => c =c ",") r -> parse l = Some r ->
    (r = [] /\ pieces l = [l] /\ V l) \/ (exists p t, r = ","%char :: t /\ l = p ++ r /\ V p /\ pieces l = p :: pieces t).
  Proof.
    intros l r Hr H. destruct (pieces_cut l) as (p & Hp & [[-> Hl]|(t & -> & Hl)]).
    - left. pose proof H as H'. rewrite (parse_spec p r Hr) in H'. destruct H' as (v & H' & Hv). destruct r as [|c r].
      + split; [reflexivity|]. split; [exact Hl|]. apply parse_last; assumption.
      + cbn in Hr. apply Ascii.eqb_eq in Hr. subst c. exfalso. apply Hp. rewrite H'. apply in_or_app. right. left. reflexivity.
    - right. pose proof H as H'. rewrite (parse_spec _ r Hr) in H'. destruct H' as (v & H' & Hv). destruct r as [|c r].
      + exfalso. rewrite app_nil_r in H'. apply (V_no_comma v Hv). rewrite <- H'. apply in_or_app. right. left. reflexivity.
      + cbn in Hr. apply Ascii.eqb_eq in Hr. subst c. destruct (app_cut p t v r Hp (V_no_comma v Hv) H') as [-> ->].
        exists v, r. auto.
  Qed.
  Lemma parse_none : forall l, (forall r, stops (fun c => c =c ",") r -> parse l <> Some r) -> ~ Forall V (pieces l).
  Proof.
    intros l H K. destruct (pieces_cut l) as (p & Hp & [[-> Hl]|(t & -> & Hl)]); rewrite Hl in K; inversion K; subst.
    - apply (H [] I). apply parse_last; assumption.
    - apply (H (","%char :: t) eq_refl). apply parse_more; assumption.
  Qed.
End Loop.

(** *** H, F, FD *)
Definition HF_value (l : text) : option text :=
  match check_number HF_num l with
  | None => None
  | Some r => match r with c :: r' => if c =c "E" then check_exponent r' else Some r | [] => Some [] end
  end.
Lemma stops_comma : forall (f : ascii -> bool) r, f ","%char = true -> stops (fun c => c =c ",") r -> stops f r.
Proof. intros f [|c r] Hf H; [exact I|]. cbn in *. apply Ascii.eqb_eq in H. subst. exact Hf. Qed.
Lemma comma_no_digit : forall r, stops (fun c => c =c ",") r -> no_digit_next r.
Proof. intros [|c r] H; [exact I|]. cbn in *. apply Ascii.eqb_eq in H. subst. reflexivity. Qed.
Lemma fixed_no_comma : forall v, fixed_value v -> no_comma v.
Proof.
  intros v (n & e & -> & Hn & He) K. apply in_app_or in K. destruct K as [K|K].
  - apply number_no_comma in Hn; [contradiction|]. intro K'. apply inb_in in K'. discriminate.
  - destruct He as [->|He]; [exact K|]. exact (exponent_no_comma e He K).
Qed.
Lemma HF_value_spec : forall l r, stops (fun c => c =c ",") r ->
  (HF_value l = Some r <-> exists v, l = v ++ r /\ fixed_value v).
Proof.
  intros l r Hr. unfold HF_value. split.
  - destruct (check_number HF_num l) as [r0|] eqn:E; [|discriminate]. apply HF_number in E.
    destruct E as (n & -> & Hn & Hs). destruct r0 as [|c r0].
    + intros [= <-]. exists n. split; [reflexivity|]. exists n, []. rewrite app_nil_r. auto.
    + destruct (Ascii.eqb_spec c "E") as [->|Hc].
      * intro H. apply check_exponent_spec in H. destruct H as (e & H & He & _). rewrite H.
        exists (n ++ e). split; [rewrite app_assoc; reflexivity|]. exists n, e. auto.
      * intros [= <-]. exists n. split; [reflexivity|]. exists n, []. rewrite app_nil_r. auto.
  - intros (v & -> & n & e & -> & Hn & He). rewrite <- app_assoc.
    assert (check_number HF_num (n ++ e ++ r) = Some (e ++ r)) as ->.
    { apply HF_number. exists n. split; [reflexivity|]. split; [exact Hn|]. destruct He as [->|(sg & ds & -> & _)]; [|reflexivity].
      cbn [app]. apply stops_comma; [reflexivity|exact Hr]. }
    destruct He as [->|He].
    + cbn [app]. destruct r as [|c r]; [reflexivity|]. cbn in Hr. apply Ascii.eqb_eq in Hr. subst c. reflexivity.
    + pose proof He as (sg & ds & He' & _). destruct e as [|x e]; [discriminate|]. injection He' as Hx _. subst x.
      cbn [app]. change ("E"%char =c "E") with true. cbn match. apply check_exponent_spec.
      exists ("E"%char :: e). split; [reflexivity|]. split; [exact He|]. apply comma_no_digit; exact Hr.
Qed.
Lemma fixed_nonempty : ~ fixed_value [].
Proof. intros (n & e & H & Hn & _). destruct n; [|discriminate]. exact (number_nonempty _ Hn). Qed.

Lemma HF_loop_unfold : forall f nomv c l, HF_loop (S f) nomv (c :: l) =
  match HF_value (c :: l) with
  | None => Some false
  | Some [] => Some true
  | Some (c2 :: r2) => if c2 =c "," then HF_loop f nomv r2 else Some false
  end.
Proof.
  intros f nomv c l. cbn [HF_loop]. unfold HF_value. destruct (check_number HF_num (c :: l)) as [[|c1 r]|]; try reflexivity.
Qed.
Lemma HF_loop_spec : forall fuel nomv l, (length l <= fuel)%nat -> (exists pre, nomv = pre ++ l) ->
  (l = [] -> back_is_comma nomv = true) ->
  exists b, HF_loop fuel nomv l = Some b /\ (b = true <-> Forall fixed_value (pieces l)).
Proof.
  induction fuel as [|f IH]; intros nomv l Hlen (pre & Hpre) Hnil.
  - destruct l; [|cbn in Hlen; lia]. cbn [HF_loop]. rewrite (Hnil eq_refl). exists false. split; [reflexivity|].
    split; [discriminate|]. intro H. inversion H. destruct (fixed_nonempty). assumption.
  - destruct l as [|c l].
    { cbn [HF_loop]. rewrite (Hnil eq_refl). exists false. split; [reflexivity|].
      split; [discriminate|]. intro H. inversion H. destruct (fixed_nonempty). assumption. }
    rewrite HF_loop_unfold. destruct (HF_value (c :: l)) as [r|] eqn:E.
    + destruct r as [|c2 r2].
      * destruct (parse_other fixed_value HF_value HF_value_spec fixed_no_comma (c :: l) [] I E) as [(_ & H1 & H2)|(p & t & K & _)]; [|discriminate].
        exists true. split; [reflexivity|]. rewrite H1. split; [intros _; repeat constructor; exact H2|reflexivity].
      * destruct (Ascii.eqb_spec c2 ",") as [->|Hc2].
        -- destruct (parse_other fixed_value HF_value HF_value_spec fixed_no_comma (c :: l) (","%char :: r2) eq_refl E) as [(K & _)|(p & t & K & H1 & H2 & H3)]; [discriminate|].
           injection K as <-. destruct (IH nomv r2) as (b & Hb & Hiff).
           ++ apply (f_equal (@length ascii)) in H1. rewrite app_length in H1. cbn [length] in H1. cbn [length] in Hlen. lia.
           ++ exists (pre ++ p ++ [","%char]). rewrite Hpre, H1, <- !app_assoc. reflexivity.
           ++ intros ->. rewrite Hpre, H1, app_assoc. apply back_app. discriminate.
           ++ exists b. split; [exact Hb|]. rewrite Hiff, H3. split; [intro H; constructor; assumption|intro H; inversion H; assumption].
        -- exists false. split; [reflexivity|]. split; [discriminate|]. intro K. exfalso. revert K.
           apply (parse_none fixed_value HF_value HF_value_spec fixed_no_comma). intros r Hr. rewrite E. intros [= <-].
           cbn in Hr. apply Ascii.eqb_eq in Hr. contradiction.
    + exists false. split; [reflexivity|]. split; [discriminate|]. intro K. exfalso. revert K.
      apply (parse_none fixed_value HF_value HF_value_spec fixed_no_comma). intros r Hr. rewrite E. discriminate.
Qed.
Theorem HF_nominal_spec : forall s, exists b, HF_nominal s = Some b /\ (b = true <-> Forall fixed_value (pieces s)).
Proof.
  intro s. destruct s as [|c s].
  - exists false. split; [reflexivity|]. split; [discriminate|]. intro H. inversion H. destruct fixed_nonempty. assumption.
  - apply HF_loop_spec; [lia| |discriminate]. exists []. reflexivity.
Qed.

(** *** P, Z *)
Lemma PZ_value_spec : forall l r, stops (fun c => c =c ",") r ->
  (check_number PZ_num l = Some r <-> exists v, l = v ++ r /\ packed_value v).
Proof.
  intros l r Hr. rewrite PZ_number. split; intros (v & H); exists v; tauto.
Qed.
Lemma packed_no_comma : forall v, packed_value v -> no_comma v.
Proof. intros v H. apply (number_no_comma _ _) in H; [exact H|]. intro K. apply inb_in in K. discriminate. Qed.
Lemma PZ_loop_spec : forall fuel nomv l, (length l <= fuel)%nat -> (exists pre, nomv = pre ++ l) ->
  (l = [] -> back_is_comma nomv = true) ->
  exists b, PZ_loop fuel nomv l = Some b /\ (b = true <-> Forall packed_value (pieces l)).
Proof.
  assert (~ packed_value []) as Hne by apply number_nonempty.
  induction fuel as [|f IH]; intros nomv l Hlen (pre & Hpre) Hnil.
  - destruct l; [|cbn in Hlen; lia]. cbn [PZ_loop]. rewrite (Hnil eq_refl). exists false. split; [reflexivity|].
    split; [discriminate|]. intro H. inversion H. contradiction.
  - destruct l as [|c l].
    { cbn [PZ_loop]. rewrite (Hnil eq_refl). exists false. split; [reflexivity|].
      split; [discriminate|]. intro H. inversion H. contradiction. }
    cbn [PZ_loop]. destruct (check_number PZ_num (c :: l)) as [r|] eqn:E.
    + assert (stops (fun c => c =c ",") r) as Hr by (apply PZ_number in E; destruct E as (n & _ & _ & H); exact H).
      destruct (parse_other packed_value (check_number PZ_num) PZ_value_spec packed_no_comma (c :: l) r Hr E) as [(-> & H1 & H2)|(p & t & -> & H1 & H2 & H3)].
      * cbn [tl]. exists true. rewrite H1. split; [|split; [intros _; repeat constructor; exact H2|reflexivity]].
        destruct f; cbn [PZ_loop]; rewrite Hpre, back_app by discriminate;
          (destruct (back_is_comma (c :: l)) eqn:K; [exfalso|reflexivity]);
          apply (packed_no_comma _ H2); unfold back_is_comma in K; rewrite in_rev; destruct (rev (c :: l)); try discriminate;
          apply Ascii.eqb_eq in K; subst; left; reflexivity.
      * cbn [tl]. destruct (IH nomv t) as (b & Hb & Hiff).
        -- apply (f_equal (@length ascii)) in H1. rewrite app_length in H1. cbn [length] in H1. cbn [length] in Hlen. lia.
        -- exists (pre ++ p ++ [","%char]). rewrite Hpre, H1, <- !app_assoc. reflexivity.
        -- intros ->. rewrite Hpre, H1, app_assoc. apply back_app. discriminate.
        -- exists b. split; [exact Hb|]. rewrite Hiff, H3. split; [intro H; constructor; assumption|intro H; inversion H; assumption].
    + exists false. split; [reflexivity|]. split; [discriminate|]. intro K. exfalso. revert K.
      apply (parse_none packed_value (check_number PZ_num) PZ_value_spec packed_no_comma). intros r Hr. rewrite E. discriminate.
Qed.
Theorem PZ_nominal_spec : forall s, exists b, PZ_nominal s = Some b /\ (b = true <-> Forall packed_value (pieces s)).
Proof.
  intro s. destruct s as [|c s].
  - exists false. split; [reflexivity|]. split; [discriminate|]. intro H. inversion H. destruct (number_nonempty ["+"; "-"]%char). assumption.
  - apply PZ_loop_spec; [lia| |discriminate]. exists []. reflexivity.
Qed.

(** *** E, D, L *)
Lemma text_eqb_eq : forall a b, text_eqb a b = true <-> a = b.
Proof.
  induction a as [|x a IH]; intros [|y b]; cbn [text_eqb]; try (split; [discriminate|discriminate]); [split; reflexivity|].
  rewrite andb_true_iff, Ascii.eqb_eq, IH. split; [intros [-> ->]; reflexivity|intros [= -> ->]; auto].
Qed.
Lemma span_digits_spec : forall l, let (m, r) := span_digits l in
  l = m ++ r /\ (forall c, In c m -> In c decimal) /\ no_digit_next r.
Proof.
  induction l as [|c l IH]; cbn [span_digits]; [split; [reflexivity|split; [intros c []|exact I]]|].
  destruct (digit c) eqn:Hc.
  - destruct (span_digits l) as [m r]. destruct IH as (-> & H1 & H2). split; [reflexivity|]. split; [|exact H2].
    intros x [<-|Hx]; [apply inb_in; rewrite <- digit_decimal; exact Hc|apply H1; exact Hx].
  - split; [reflexivity|]. split; [intros x []|exact Hc].
Qed.
Lemma span_digits_app : forall m r, (forall c, In c m -> In c decimal) -> no_digit_next r -> span_digits (m ++ r) = (m, r).
Proof.
  induction m as [|c m IH]; intros r H Hr.
  - cbn [app]. destruct r as [|c r]; [reflexivity|]. cbn [span_digits]. cbn in Hr. rewrite Hr. reflexivity.
  - cbn [app span_digits]. rewrite digit_decimal. assert (inb decimal c = true) as -> by (apply inb_in, H; left; reflexivity).
    rewrite IH; [reflexivity| |exact Hr]. intros x Hx. apply H. right. exact Hx.
Qed.
Lemma mode_allowed : forall e m, existsb (text_eqb m) (allowed_round_modes e) = true <-> rounding e ("R"%char :: m).
Proof.
  intros e m. rewrite existsb_exists. unfold rounding, allowed_round_modes. split.
  - intros (x & Hx & Hm). apply text_eqb_eq in Hm. subst x. exists m. split; [reflexivity|]. destruct e as [e|]; [|destruct Hx].
    destruct (Ascii.eqb_spec e "B") as [->|HB]; [left; split; [left; reflexivity|exact Hx]|].
    destruct (Ascii.eqb_spec e "H") as [->|HH]; [left; split; [right; reflexivity|exact Hx]|]. cbn [orb] in Hx.
    destruct (Ascii.eqb_spec e "D") as [->|HD]; [right; split; [reflexivity|exact Hx]|destruct Hx].
  - intros (m' & [= <-] & [([->| ->] & H)|(-> & H)]); exists m; (split; [exact H|apply text_eqb_eq; reflexivity]).
Qed.
Lemma mode_digits : forall e m, rounding e ("R"%char :: m) -> forall c, In c m -> In c decimal.
Proof.
  intros e m (m' & [= <-] & H) c Hc.
  assert (In m [["1"]; ["4"]; ["5"]; ["6"]; ["7"]; ["8"]; ["9"]; ["1"; "0"]; ["1"; "1"]; ["1"; "2"]; ["1"; "3"]; ["1"; "4"]; ["1"; "5"]]%char) as K
    by (destruct H as [(_ & H)|(_ & H)]; cbn [In] in *; tauto).
  apply inb_in. cbn [In] in K. repeat (destruct K as [<-|K]; [destruct Hc as [<-|Hc]; [reflexivity|]; try destruct Hc as [<-|Hc]; try reflexivity; destruct Hc|]).
  destruct K.
Qed.

Definition EDL_exp (r : text) : option text :=
  match r with c :: r' => if c =c "E" then check_exponent r' else Some r | [] => Some r end.
Definition EDL_round (e : option ascii) (r : text) : option text :=
  match r with
  | c :: r' => if c =c "R" then let (m, r3) := span_digits r' in
                                if existsb (text_eqb m) (allowed_round_modes e) then Some r3 else None
               else Some r
  | [] => Some r
  end.
Definition EDL_value (e : option ascii) (l : text) : option text :=
  match check_number EDL_num l with
  | None => None
  | Some r => match EDL_exp r with None => None | Some r2 => EDL_round e r2 end
  end.
Lemma EDL_loop_unfold : forall f e c l,
  EDL_loop (S f) e (c :: l) = Some Good <->
  match EDL_value e (c :: l) with
  | None => False
  | Some [] => True
  | Some (c2 :: r2) => (c2 =c ",") = true /\ EDL_loop f e r2 = Some Good
  end.
Proof.
  intros f e c l. cbn [EDL_loop]. unfold EDL_value.
  destruct (check_number EDL_num (c :: l)) as [r|]; [|split; [discriminate|intros []]].
  unfold EDL_exp. destruct r as [|c1 r1].
  - cbn. tauto.
  - destruct (c1 =c "E").
    + destruct (check_exponent r1) as [[|c2 r2]|]; [cbn; tauto| |split; [discriminate|intros []]].
      unfold EDL_round. destruct (c2 =c "R").
      * destruct (span_digits r2) as [m r3]. destruct (existsb (text_eqb m) (allowed_round_modes e)); [|split; [discriminate|intros []]].
        destruct r3 as [|c3 r3]; [tauto|]. destruct (c3 =c ","); [tauto|]. split; [discriminate|intros [? _]; discriminate].
      * destruct (c2 =c ","); [tauto|]. split; [discriminate|intros [? _]; discriminate].
    + unfold EDL_round. destruct (c1 =c "R").
      * destruct (span_digits r1) as [m r3]. destruct (existsb (text_eqb m) (allowed_round_modes e)); [|split; [discriminate|intros []]].
        destruct r3 as [|c3 r3]; [tauto|]. destruct (c3 =c ","); [tauto|]. split; [discriminate|intros [? _]; discriminate].
      * destruct (c1 =c ","); [tauto|]. split; [discriminate|intros [? _]; discriminate].
Qed.
(** the loop ends *)
Lemma EDL_loop_ends : forall fuel e l, (length l <= fuel)%nat -> EDL_loop fuel e l <> None.
Proof.
  induction fuel as [|f IH]; intros e l Hl; [destruct l; [discriminate|cbn in Hl; lia]|].
  destruct l as [|c l]; [discriminate|]. cbn [EDL_loop].
  destruct (check_number EDL_num (c :: l)) as [r|] eqn:E; [|discriminate].
  apply EDL_number in E. destruct E as (n & E & Hn & _).
  assert (length r <= f)%nat as Hr.
  { apply (f_equal (@length ascii)) in E. rewrite app_length in E. destruct n; [destruct (number_nonempty _ Hn)|].
    cbn [length] in *. lia. }
  assert (forall x, match x with c4 :: r4 => (length r4 < f)%nat | [] => True end ->
            match x with c4 :: r4 => if c4 =c "," then EDL_loop f e r4 else Some BadValue | [] => Some Good end <> None) as Hlast.
  { intros [|c4 r4] H; [discriminate|]. destruct (c4 =c ","); [|discriminate]. apply IH. lia. }
  assert (forall r2, (length r2 <= f)%nat ->
    match (match r2 with
           | c :: r' => if c =c "R" then let (m, r3) := span_digits r' in
                                        if existsb (text_eqb m) (allowed_round_modes e) then Some r3 else None
                                      else Some r2
           | [] => Some r2 end) with
    | None => Some BadRound
    | Some r3 => match r3 with c :: r4 => if c =c "," then EDL_loop f e r4 else Some BadValue | [] => Some Good end
    end <> None) as Hround.
  { intros r2 Hr2. destruct r2 as [|c2 r2]; [discriminate|]. destruct (c2 =c "R").
    - pose proof (span_digits_spec r2) as Hs. destruct (span_digits r2) as [m r3]. destruct Hs as (-> & _).
      destruct (existsb (text_eqb m) (allowed_round_modes e)); [|discriminate]. apply Hlast.
      cbn [length] in Hr2. rewrite app_length in Hr2. destruct r3; cbn [length] in *; [exact I|lia].
    - apply (Hlast (c2 :: r2)). cbn [length] in Hr2. lia. }
  destruct r as [|c1 r1]; [discriminate|]. destruct (c1 =c "E").
  - destruct (check_exponent r1) as [r2|] eqn:E2; [|discriminate]. apply check_exponent_spec in E2.
    destruct E2 as (x & E2 & _). assert (length r2 <= f)%nat.
    { apply (f_equal (@length ascii)) in E2. rewrite app_length in E2. cbn [length] in *. lia. }
    destruct r2 as [|c2 r2]; [discriminate|]. apply (Hround (c2 :: r2)). assumption.
  - apply (Hround (c1 :: r1)). exact Hr.
Qed.

Lemma floating_no_comma : forall e v, floating_value e v -> no_comma v.
Proof.
  intros e v (n & x & r & -> & Hn & Hx & Hr) K. apply in_app_or in K. destruct K as [K|K].
  - apply number_no_comma in Hn; [contradiction|]. intro K'. apply inb_in in K'. discriminate.
  - apply in_app_or in K. destruct K as [K|K].
    + destruct Hx as [->|Hx]; [exact K|]. exact (exponent_no_comma x Hx K).
    + destruct Hr as [->|Hr]; [exact K|]. pose proof Hr as (m & -> & _). destruct K as [K|K]; [discriminate|].
      apply (mode_digits e m Hr) in K. apply inb_in in K. discriminate.
Qed.
Lemma floating_nonempty : forall e, ~ floating_value e [].
Proof. intros e (n & x & r & H & Hn & _). destruct n; [|discriminate]. exact (number_nonempty _ Hn). Qed.

Lemma EDL_value_spec : forall e l r, stops (fun c => c =c ",") r ->
  (EDL_value e l = Some r <-> exists v, l = v ++ r /\ floating_value e v).
Proof.
  intros e l r Hr. unfold EDL_value. split.
  - destruct (check_number EDL_num l) as [r0|] eqn:E; [|discriminate]. apply EDL_number in E.
    destruct E as (n & -> & Hn & Hs).
    destruct (EDL_exp r0) as [r2|] eqn:E2; [|discriminate]. intro E3.
    assert (exists x, r0 = x ++ r2 /\ (x = [] \/ exponent x)) as (x & -> & Hx).
    { unfold EDL_exp in E2. destruct r0 as [|c r0]; [injection E2 as <-; exists []; auto|].
      destruct (Ascii.eqb_spec c "E") as [->|Hc]; [|injection E2 as <-; exists []; auto].
      apply check_exponent_spec in E2. destruct E2 as (x & E2 & Hx & _). exists x. auto. }
    assert (exists y, r2 = y ++ r /\ (y = [] \/ rounding e y)) as (y & -> & Hy).
    { unfold EDL_round in E3. destruct r2 as [|c r2]; [injection E3 as <-; exists []; auto|].
      destruct (Ascii.eqb_spec c "R") as [->|Hc]; [|injection E3 as <-; exists []; auto].
      pose proof (span_digits_spec r2) as Hsp. destruct (span_digits r2) as [m r3]. destruct Hsp as (-> & _).
      destruct (existsb (text_eqb m) (allowed_round_modes e)) eqn:Em; [|discriminate]. injection E3 as ->.
      exists ("R"%char :: m). split; [reflexivity|]. right. apply mode_allowed. exact Em. }
    exists (n ++ x ++ y). split; [rewrite <- !app_assoc; reflexivity|]. exists n, x, y. auto.
  - intros (v & -> & n & x & y & -> & Hn & Hx & Hy). rewrite <- !app_assoc.
    assert (stops (fun c => (c =c ",") || (c =c "R")) (y ++ r)) as Hyr.
    { destruct Hy as [->|(m & -> & _)]; [|reflexivity]. cbn [app]. apply stops_comma; [reflexivity|exact Hr]. }
    assert (check_number EDL_num (n ++ x ++ y ++ r) = Some (x ++ y ++ r)) as ->.
    { apply EDL_number. exists n. split; [reflexivity|]. split; [exact Hn|]. destruct Hx as [->|(sg & ds & -> & _)]; [|reflexivity].
      cbn [app]. destruct (y ++ r); [exact I|]. cbn in *. apply orb_true_iff in Hyr. destruct Hyr as [-> | ->]; rewrite ?orb_true_r; reflexivity. }
    assert (EDL_exp (x ++ y ++ r) = Some (y ++ r)) as ->.
    { unfold EDL_exp. destruct Hx as [->|Hx].
      - cbn [app]. destruct (y ++ r) as [|c q]; [reflexivity|]. cbn in Hyr. destruct (Ascii.eqb_spec c "E"); [|reflexivity].
        subst. discriminate.
      - pose proof Hx as (sg & ds & Hx' & _). destruct x as [|z x]; [discriminate|]. injection Hx' as Hz _. subst z.
        cbn [app]. change ("E"%char =c "E") with true. cbn match. apply check_exponent_spec.
        exists ("E"%char :: x). split; [reflexivity|]. split; [exact Hx|]. destruct (y ++ r) as [|c q]; [exact I|]. cbn in *.
        apply orb_true_iff in Hyr. destruct Hyr as [K|K]; apply Ascii.eqb_eq in K; subst; reflexivity. }
    unfold EDL_round. destruct Hy as [->|Hy].
    + cbn [app]. destruct r as [|c q]; [reflexivity|]. cbn in Hr. apply Ascii.eqb_eq in Hr. subst. reflexivity.
    + pose proof Hy as (m & -> & _). cbn [app]. change ("R"%char =c "R") with true. cbn match.
      rewrite span_digits_app; [|exact (mode_digits e m Hy)|apply comma_no_digit; exact Hr].
      apply mode_allowed in Hy. rewrite Hy. reflexivity.
Qed.

Lemma EDL_loop_spec : forall fuel e l, (length l <= fuel)%nat -> l <> [] -> back_is_comma l = false ->
  (EDL_loop fuel e l = Some Good <-> Forall (floating_value e) (pieces l)).
Proof.
  induction fuel as [|f IH]; intros e l Hlen Hne Hback; [destruct l; [congruence|cbn in Hlen; lia]|].
  destruct l as [|c l]; [congruence|]. rewrite EDL_loop_unfold. destruct (EDL_value e (c :: l)) as [r|] eqn:E.
  - destruct r as [|c2 r2].
    + destruct (parse_other _ _ (EDL_value_spec e) (floating_no_comma e) (c :: l) [] I E) as [(_ & H1 & H2)|(p & t & K & _)]; [|discriminate].
      rewrite H1. split; [intros _; repeat constructor; exact H2|tauto].
    + destruct (Ascii.eqb_spec c2 ",") as [->|Hc2].
      * destruct (parse_other _ _ (EDL_value_spec e) (floating_no_comma e) (c :: l) (","%char :: r2) eq_refl E) as [(K & _)|(p & t & K & H1 & H2 & H3)]; [discriminate|].
        injection K as <-. rewrite H1 in Hback. rewrite back_app in Hback by discriminate.
        assert (r2 <> []) as Hr2 by (intros ->; discriminate).
        change (","%char :: r2) with ([","%char] ++ r2) in Hback. rewrite back_app in Hback by exact Hr2.
        rewrite H3. assert (length r2 <= f)%nat as Hlen2.
        { apply (f_equal (@length ascii)) in H1. rewrite app_length in H1. cbn [length] in H1. cbn [length] in Hlen. lia. }
        specialize (IH e r2 Hlen2 Hr2 Hback). split.
        -- intros (_ & H). constructor; [exact H2|]. apply IH; exact H.
        -- intro H. inversion H; subst. split; [reflexivity|]. apply IH; assumption.
      * split; [intros (K & _); discriminate|]. intro K. exfalso. revert K.
        apply (parse_none _ _ (EDL_value_spec e) (floating_no_comma e)). intros r Hr. rewrite E. intros [= <-].
        cbn in Hr. apply Ascii.eqb_eq in Hr. contradiction.
  - split; [intros []|]. intro K. exfalso. revert K.
    apply (parse_none _ _ (EDL_value_spec e) (floating_no_comma e)). intros r Hr. rewrite E. discriminate.
Qed.
Lemma back_comma_pieces : forall s, back_is_comma s = true -> exists l, pieces s = l ++ [[]].
Proof.
  intros s H. unfold back_is_comma in H. destruct (rev s) as [|c r] eqn:E; [discriminate|]. apply Ascii.eqb_eq in H. subst c.
  assert (s = rev r ++ [","%char]) as -> by (rewrite <- (rev_involutive s), E; reflexivity).
  generalize (rev r). clear. induction l as [|c l (k & IH)].
  - exists [[]]. reflexivity.
  - cbn [app pieces]. rewrite IH. destruct k as [|p k]; cbn [app].
    + exfalso. clear - IH. assert (pieces (l ++ [","%char]) <> [[]]) as K; [|contradiction].
      destruct (pieces_cut l) as (p & Hp & [[-> _]|(t & -> & _)]).
      * rewrite pieces_app by exact Hp. cbn. discriminate.
      * rewrite <- app_assoc. cbn [app]. rewrite pieces_app by exact Hp. intro K. injection K as _ K. exact (pieces_nonempty _ K).
    + destruct (Ascii.eqb c ","); [exists ([] :: p :: k)|exists ((c :: p) :: k)]; reflexivity.
Qed.
Theorem EDL_nominal_spec : forall e s, exists v, EDL_nominal e s = Some v /\
  (v = Good <-> Forall (floating_value e) (pieces s)).
Proof.
  intros e s. unfold EDL_nominal. destruct s as [|c s].
  - exists BadValue. split; [reflexivity|]. split; [discriminate|]. intro H. inversion H. destruct (floating_nonempty e). assumption.
  - destruct (back_is_comma (c :: s)) eqn:Hb.
    + exists BadValue. split; [reflexivity|]. split; [discriminate|]. intro H. destruct (back_comma_pieces _ Hb) as (l & Hl).
      rewrite Hl in H. apply Forall_app in H. destruct H as (_ & H). inversion H. destruct (floating_nonempty e). assumption.
    + destruct (EDL_loop (length (c :: s)) e (c :: s)) as [v|] eqn:E.
      * exists v. split; [reflexivity|]. rewrite <- (EDL_loop_spec (length (c :: s))) by (try lia; try exact Hb; discriminate).
        rewrite E. split; [intros ->; reflexivity|intros [= ->]; reflexivity].
      * destruct (EDL_loop_ends _ _ _ (le_n _) E).
Qed.
