(** * Reading a data definition gives what was written *)
From Coq Require Import List ZArith NArith Bool Ascii Lia Arith.
From Coq Require Import ZifyBool ZifyNat ZifyN.
From Verif Require Import DD_Model DD_Spec DD_Str DDP_Model DDP_Spec.
Import ListNotations.
Open Scope Z_scope.

(** ** Characters *)
Lemma upper_capital : forall x, capital x (upper x).
Proof.
  intro x. unfold capital.
  assert (In x lower_letters \/ ~ In x lower_letters) as [H|H] by (destruct (in_dec ascii_dec x lower_letters); auto).
  - right. cbn [In lower_letters] in H.
    repeat (destruct H as [<-|H]; [first [exists 0%nat; split; reflexivity|exists 1%nat; split; reflexivity|exists 2%nat; split; reflexivity
      |exists 3%nat; split; reflexivity|exists 4%nat; split; reflexivity|exists 5%nat; split; reflexivity|exists 6%nat; split; reflexivity
      |exists 7%nat; split; reflexivity|exists 8%nat; split; reflexivity|exists 9%nat; split; reflexivity|exists 10%nat; split; reflexivity
      |exists 11%nat; split; reflexivity|exists 12%nat; split; reflexivity|exists 13%nat; split; reflexivity|exists 14%nat; split; reflexivity
      |exists 15%nat; split; reflexivity|exists 16%nat; split; reflexivity|exists 17%nat; split; reflexivity|exists 18%nat; split; reflexivity
      |exists 19%nat; split; reflexivity|exists 20%nat; split; reflexivity|exists 21%nat; split; reflexivity|exists 22%nat; split; reflexivity
      |exists 23%nat; split; reflexivity|exists 24%nat; split; reflexivity|exists 25%nat; split; reflexivity]|]).
    destruct H.
  - left. split; [|exact H]. unfold upper.
    destruct (ch_between "a" "z" x) eqn:K; [|reflexivity]. exfalso. apply H. revert K. clear H.
    destruct x as [[] [] [] [] [] [] [] []]; cbn; try discriminate; intros _; tauto.
Qed.
Lemma capital_upper : forall x c, capital x c -> upper x = c.
Proof.
  intros x c [(-> & H)|(n & H1 & H2)].
  - unfold upper. destruct (ch_between "a" "z" c) eqn:K; [|reflexivity]. exfalso. apply H. revert K. clear H.
    destruct c as [[] [] [] [] [] [] [] []]; cbn; try discriminate; intros _; tauto.
  - do 26 (destruct n as [|n]; [injection H1 as <-; injection H2 as <-; reflexivity|]). destruct n; discriminate.
Qed.
Lemma spelled_upper : forall f g, spelled f g <-> map upper f = g.
Proof.
  intros f g. split.
  - intro H. induction H as [|x c f g Hc H IH]; [reflexivity|]. cbn [map]. rewrite (capital_upper x c Hc), IH. reflexivity.
  - intros <-. induction f as [|x f IH]; [constructor|]. constructor; [apply upper_capital|exact IH].
Qed.

Lemma digit_in : forall c, digit c = true <-> In c decimal.
Proof. intro c. rewrite digit_decimal. apply inb_in. Qed.
Lemma digit_value_spec : forall c v, digit_value c v <-> In c decimal /\ v = Z.of_N (N_of_ascii c) - 48.
Proof.
  intros c v. split.
  - intros (n & Hn & -> & H). do 10 (destruct n as [|n]; [injection H as <-; split; [cbn; tauto|reflexivity]|]). lia.
  - intros (H & ->). cbn [In decimal] in H.
    repeat (destruct H as [<-|H]; [first [exists 0%nat; repeat split; (reflexivity || lia)|exists 1%nat; repeat split; (reflexivity || lia)
      |exists 2%nat; repeat split; (reflexivity || lia)|exists 3%nat; repeat split; (reflexivity || lia)|exists 4%nat; repeat split; (reflexivity || lia)
      |exists 5%nat; repeat split; (reflexivity || lia)|exists 6%nat; repeat split; (reflexivity || lia)|exists 7%nat; repeat split; (reflexivity || lia)
      |exists 8%nat; repeat split; (reflexivity || lia)|exists 9%nat; repeat split; (reflexivity || lia)]|]).
    destruct H.
Qed.
Lemma unsigned_spec : forall s v, unsigned s v <-> s <> [] /\ (forall c, In c s -> In c decimal) /\ digits_number s = v.
Proof.
  assert (forall s c, digits_number (s ++ [c]) = 10 * digits_number s + (Z.of_N (N_of_ascii c) - 48)) as Happ
    by (intros; unfold digits_number; rewrite fold_left_app; reflexivity).
  intros s v. split.
  - intro H. induction H as [c v H|s w c v H (I1 & I2 & I3) Hc].
    + apply digit_value_spec in H. destruct H as (H & ->). split; [discriminate|]. split; [intros x [<-|[]]; exact H|].
      unfold digits_number. cbn [fold_left]. lia.
    + apply digit_value_spec in Hc. destruct Hc as (Hc & ->). split; [destruct s; discriminate|]. split.
      * intros x Hx. apply in_app_or in Hx. destruct Hx as [Hx|[<-|[]]]; auto.
      * rewrite Happ, I3. reflexivity.
  - revert v. induction s as [|c s IH] using rev_ind; intros v (H1 & H2 & <-); [contradiction|].
    assert (digit_value c (Z.of_N (N_of_ascii c) - 48)) as Hc by (apply digit_value_spec; split; [apply H2; apply in_or_app; right; left; reflexivity|reflexivity]).
    destruct s as [|x s].
    + cbn [app]. constructor. unfold digits_number. cbn [fold_left]. rewrite Z.mul_0_r, Z.add_0_l. exact Hc.
    + rewrite Happ. constructor; [|exact Hc]. apply IH. split; [discriminate|]. split; [|reflexivity]. intros y Hy. apply H2. apply in_or_app. left. exact Hy.
Qed.

(** ** Numbers *)
Lemma no_digit_nil : no_digit_next [].
Proof. exact Logic.I. Qed.
Lemma stoi_numeral : forall s z r, numeral s z -> no_digit_next r -> stoi (s ++ r) = SNum z r.
Proof.
  intros s z r (Hr & [Hu|(s' & -> & Hu)]) Hn; unfold int32 in Hr.
  - apply unsigned_spec in Hu. destruct Hu as (H1 & H2 & H3). unfold stoi.
    destruct s as [|c s]; [contradiction|]. cbn [app].
    assert ((c =c "-") = false) as Hm.
    { specialize (H2 c (or_introl eq_refl)). cbn in H2. intuition (subst; reflexivity). }
    rewrite Hm. change (c :: s ++ r) with ((c :: s) ++ r). rewrite span_digits_app by assumption. rewrite H3.
    destruct ((z <? - 2 ^ 31) || (2 ^ 31 <=? z)) eqn:K; [lia|reflexivity].
  - apply unsigned_spec in Hu. destruct Hu as (H1 & H2 & H3). unfold stoi. cbn [app].
    change ("-" =c "-") with true. cbv iota beta. rewrite span_digits_app by assumption.
    destruct s' as [|c s']; [contradiction|]. rewrite H3, Z.opp_involutive.
    destruct ((z <? - 2 ^ 31) || (2 ^ 31 <=? z)) eqn:K; [lia|reflexivity].
Qed.
Lemma numeral_first : forall s z, numeral s z -> exists c s', s = c :: s' /\ numch c = true.
Proof.
  intros s z (_ & [Hu|(s' & -> & _)]).
  - apply unsigned_spec in Hu. destruct Hu as (H1 & H2 & _). destruct s as [|c s]; [contradiction|]. exists c, s. split; [reflexivity|].
    unfold numch. rewrite (proj2 (digit_in c) (H2 c (or_introl eq_refl))). reflexivity.
  - exists "-"%char, s'. split; reflexivity.
Qed.
Lemma numeral_last : forall s z c, numeral (s ++ [c]) z -> In c decimal.
Proof.
  intros s z c (_ & [Hu|(s' & E & Hu)]); apply unsigned_spec in Hu; destruct Hu as (H1 & H2 & _).
  - apply H2. apply in_or_app. right. left. reflexivity.
  - destruct s as [|x s]; cbn [app] in E; injection E as -> <-; [contradiction|]. apply H2. apply in_or_app. right. left. reflexivity.
Qed.
(** the converse *)
Lemma stoi_only : forall l v r, stoi l = SNum v r -> exists s, l = s ++ r /\ numeral s v /\ no_digit_next r.
Proof.
  intros l v r H. unfold stoi in H.
  assert (exists neg l1, (match l with c :: l' => if c =c "-" then (true, l') else (false, l) | [] => (false, l) end) = (neg, l1) /\
            l = (if neg then ["-"%char] else []) ++ l1) as (neg & l1 & E & El).
  { destruct l as [|c l']; [exists false, []; split; reflexivity|]. destruct (Ascii.eqb_spec c "-") as [->|Hc]; eexists _, _; (split; [reflexivity|]); reflexivity. }
  rewrite E in H. pose proof (span_digits_spec l1) as Hs. destruct (span_digits l1) as [ds r'].
  destruct Hs as (-> & Hd & Hn). destruct ds as [|c ds]; [discriminate|].
  destruct ((_ <? _) || (_ <=? _)) eqn:K in H; [discriminate|]. injection H as <- <-.
  exists ((if neg then ["-"%char] else []) ++ c :: ds). split; [rewrite El, app_assoc; reflexivity|]. split; [|exact Hn].
  unfold numeral, int32. destruct neg; (split; [lia|]).
  - right. exists (c :: ds). split; [reflexivity|]. rewrite Z.opp_involutive. apply unsigned_spec. split; [discriminate|]. split; [exact Hd|reflexivity].
  - left. apply unsigned_spec. split; [discriminate|]. split; [exact Hd|reflexivity].
Qed.

(** ** Modifiers *)
Section Parsing.
  Context {Ex : Type}.
  Notation definition := (definition Ex).

  Record token := Token { t_key : ascii; t_bit : bool; t_value : option (amount Ex); t_text : text; t_exprs : list Ex }.
  Definition dot (b : bool) : text := if b then ["."%char] else [].
  Definition strict (k : token) : Prop :=
    modifier_letter (t_key k) = true /\ (t_bit k = true -> t_key k = "L"%char) /\
    exists a s, t_value k = Some a /\ t_text k = t_key k :: dot (t_bit k) ++ s /\ amount_text a s (t_exprs k).
  Definition loose (k : token) : Prop :=
    strict k \/ modifier_letter (t_key k) = true /\ (t_bit k = true -> t_key k = "L"%char) /\
      t_value k = None /\ t_text k = t_key k :: dot (t_bit k) /\ t_exprs k = [].
  Definition apply_token (d : definition) (k : token) : definition :=
    assign (t_key k) (t_value k) (if t_bit k then bit_length d else d).
  Inductive ordered : list ascii -> list token -> list ascii -> Prop :=
    | ord_nil : forall rm, ordered rm [] rm
    | ord_cons : forall rm rm' rm'' k l, after (t_key k) rm = Some rm' -> ordered rm' l rm'' -> ordered rm (k :: l) rm''.
  Definition texts (l : list token) : text := concat (map t_text l).
  Definition token_exprs (l : list token) : list Ex := concat (map t_exprs l).

  Lemma amount_first : forall (a : amount Ex) s es, amount_text a s es -> exists c s', s = c :: s' /\ (c =c ".") = false.
  Proof.
    intros [z|e] s es H; cbn in H.
    - destruct H as (H & _). destruct (numeral_first s z H) as (c & s' & -> & Hc). exists c, s'. split; [reflexivity|].
      destruct (Ascii.eqb_spec c ".") as [->|]; [discriminate|reflexivity].
    - destruct H as (-> & _). exists "&"%char, []. split; reflexivity.
  Qed.
  Lemma modifier_value_amount : forall (a : amount Ex) s es r es2 nm rm d ds, amount_text a s es -> no_digit_next r ->
    modifier_value (PState (s ++ r) (es ++ es2) nm rm d ds) = Val (Some a, PState r es2 nm rm d ds).
  Proof.
    intros [z|e] s es r es2 nm rm d ds H Hr; cbn in H.
    - destruct H as (H & ->). destruct (numeral_first s z H) as (c & s' & -> & Hc). unfold modifier_value. cbn [rest app].
      rewrite Hc. change (c :: s' ++ r) with ((c :: s') ++ r). unfold parse_number. rewrite (stoi_numeral _ z r H Hr).
      cbn [exprs nominal_ remaining result diags app]. rewrite app_nil_r. reflexivity.
    - destruct H as (-> & ->). unfold modifier_value, move_next_expression. cbn. reflexivity.
  Qed.
  Lemma step_strict : forall k n r es2 nm rm rm' d ds, strict k -> after (t_key k) rm = Some rm' -> no_digit_next r ->
    modifiers (S n) (PState (t_text k ++ r) (t_exprs k ++ es2) nm rm d ds) = modifiers n (PState r es2 nm rm' (apply_token d k) ds).
  Proof.
    intros [k bit v tx es] n r es2 nm rm rm' d ds (H1 & H2 & a & s & H3 & H4 & H5) Ha Hr.
    cbn [t_key t_bit t_value t_text t_exprs] in *. subst v tx.
    cbn [modifiers rest app]. rewrite H1. unfold go_to. cbn [rest exprs nominal_ remaining result diags].
    assert (forall d', after_dot k (PState (s ++ r) (es ++ es2) nm rm d' ds) = Val (PState r es2 nm rm' (assign k (Some a) d') ds)) as Hd.
    { intro d'. unfold after_dot. rewrite (modifier_value_amount a s es r es2 nm rm d' ds H5 Hr). cbn [bind fst snd remaining].
      rewrite Ha. reflexivity. }
    destruct (amount_first a s es H5) as (c & s' & Es & Hc).
    assert (parse_modifier k (PState ((dot bit ++ s) ++ r) (es ++ es2) nm rm d ds) =
            Val (PState r es2 nm rm' (assign k (Some a) (if bit then bit_length d else d)) ds)) as ->; [|reflexivity].
    unfold parse_modifier. destruct bit; cbn [dot app rest].
    - change ("." =c ".") with true. cbv iota. unfold go_to, set_result. cbn [rest exprs nominal_ remaining result diags].
      rewrite (H2 eq_refl). change ("L" =c "L") with true. cbv iota. rewrite Es. cbn [app].
      change (c :: s' ++ r) with ((c :: s') ++ r). rewrite <- Es, <- (H2 eq_refl). apply Hd.
    - rewrite Es at 1. cbn [app]. rewrite Hc. apply Hd.
  Qed.
  Lemma token_begins : forall k, loose k -> exists c s, t_text k = c :: s /\ c = t_key k /\ modifier_letter c = true.
  Proof.
    intros k [(H1 & _ & a & s & _ & H4 & _)|(H1 & _ & _ & H4 & _)]; rewrite H4; eexists _, _; (split; [reflexivity|]); (split; [reflexivity|exact H1]).
  Qed.
  Lemma letter_no_digit : forall c, modifier_letter c = true -> digit c = false.
  Proof. intros c H. unfold modifier_letter, one_of in H. cbn [existsb] in H. destruct (digit c) eqn:K; [|reflexivity].
    apply digit_in in K. cbn in K. repeat (destruct K as [<-|K]; [discriminate|]). destruct K. Qed.
  Lemma texts_no_digit : forall l r, Forall loose l -> no_digit_next r -> no_digit_next (texts l ++ r).
  Proof.
    intros [|k l] r H Hr; [exact Hr|]. inversion H; subst. destruct (token_begins k H2) as (c & s & E & _ & Hc).
    unfold texts. cbn [map concat]. rewrite E. cbn [app no_digit_next]. apply letter_no_digit. exact Hc.
  Qed.
  Lemma run_tokens : forall l n r es2 nm rm rm' d ds, Forall strict l -> ordered rm l rm' -> (length l <= n)%nat -> no_digit_next r ->
    modifiers n (PState (texts l ++ r) (token_exprs l ++ es2) nm rm d ds) =
    modifiers (n - length l) (PState r es2 nm rm' (fold_left apply_token l d) ds).
  Proof.
    induction l as [|k l IH]; intros n r es2 nm rm rm' d ds Hs Ho Hn Hr.
    - inversion Ho; subst. cbn [length texts token_exprs map concat app fold_left]. rewrite Nat.sub_0_r. reflexivity.
    - inversion Hs as [|a b Hk Hl]; subst. inversion Ho as [|a b c k' l' Ha Ho']; subst. cbn [length] in Hn.
      destruct n as [|n]; [lia|]. unfold texts, token_exprs. cbn [map concat]. rewrite <- !app_assoc.
      rewrite (step_strict k n _ _ nm rm b d ds Hk Ha).
      + apply IH; try assumption. lia.
      + apply texts_no_digit; [|exact Hr]. revert Hl. apply Forall_impl. intros x Hx. left. exact Hx.
  Qed.
  Lemma step_nominal : forall k bit n es (e : Ex) rm rm' (d : definition) ds, modifier_letter k = true -> (bit = true -> k = "L"%char) -> after k rm = Some rm' ->
    modifiers (S n) (PState (k :: dot bit ++ [" "%char]) es (Some (PExprs [PExpr e])) rm d ds) =
    Val (PState [] es (Some (PExprs [PExpr e])) rm' (assign k (Some (Exp e)) (if bit then bit_length d else d)) ds).
  Proof.
    intros k bit n es e rm rm' d ds H1 H2 Ha. cbn [modifiers rest]. rewrite H1.
    assert (parse_modifier k (go_to (dot bit ++ [" "%char]) (PState (k :: dot bit ++ [" "%char]) es (Some (PExprs [PExpr e])) rm d ds)) =
      Val (PState [] es (Some (PExprs [PExpr e])) rm' (assign k (Some (Exp e)) (if bit then bit_length d else d)) ds)) as ->.
    { unfold parse_modifier, go_to. cbn [rest exprs nominal_ remaining result diags]. destruct bit; cbn [dot app].
      - change ("." =c ".") with true. cbv iota. rewrite (H2 eq_refl) in *. change ("L" =c "L") with true. cbv iota.
        unfold after_dot, modifier_value. cbn -[after]. cbn [remaining]. rewrite Ha. reflexivity.
      - change (" " =c ".") with false. cbv iota. unfold after_dot, modifier_value. cbn -[after]. rewrite Ha. reflexivity. }
    cbn [bind]. destruct n; reflexivity.
  Qed.

  (** ** The beginning *)
  Definition PLSE : list ascii := ["P"; "L"; "S"; "E"]%char.
  Definition fresh (a : option (amount Ex)) (t : ascii) (x : option ascii) : definition :=
    Definition_ (Some match a with Some a => a | None => Const 1 end) t x None None false None None None.
  Definition ext_text (x : option ascii) : text := match x with Some x => [x] | None => [] end.
  Lemma letter_facts : forall c, In c upper_letters -> numch c = false /\ (c =c "&") = false /\ digit c = false /\ c <> "&"%char /\ c <> " "%char.
  Proof.
    intros c H. cbn [In upper_letters] in H.
    repeat (destruct H as [<-|H]; [repeat (refine (conj _ _)); (reflexivity || discriminate)|]). destruct H.
  Qed.
  Lemma extension_facts : forall c, In c extensions <-> type_extension c = true.
  Proof.
    intro c. unfold type_extension, one_of. rewrite existsb_exists. split.
    - intro H. exists c. split; [cbn in *; tauto|apply Ascii.eqb_refl].
    - intros (x & Hx & E). apply Ascii.eqb_eq in E. subst. cbn in *. tauto.
  Qed.
  Lemma duplication_text : forall (a : option (amount Ex)) s0 e0 t r es2, dup_text a s0 e0 -> In t upper_letters ->
    duplication (s0 ++ t :: r) (e0 ++ es2) = Val (match a with Some a => a | None => Const 1 end, t :: r, es2, []).
  Proof.
    intros a s0 e0 t r es2 Hd Ht. destruct (letter_facts t Ht) as (T1 & T2 & T3 & _).
    destruct a as [[z|e]|]; cbn in Hd.
    - destruct Hd as (Hz & ->). destruct (numeral_first s0 z Hz) as (c & s' & -> & Hc). unfold duplication. cbn [app]. rewrite Hc.
      change (c :: s' ++ t :: r) with ((c :: s') ++ t :: r). unfold parse_number. rewrite (stoi_numeral _ z (t :: r) Hz); [reflexivity|exact T3].
    - destruct Hd as (-> & ->). reflexivity.
    - destruct Hd as (-> & ->). unfold duplication. cbn [app]. rewrite T1, T2. reflexivity.
  Qed.
  Lemma parse_begins : forall f es n (a : option (amount Ex)) s0 e0 t x r es2,
    map upper f = s0 ++ t :: ext_text x ++ r -> es = e0 ++ es2 -> dup_text a s0 e0 -> In t upper_letters ->
    (forall c, x = Some c -> In c extensions) -> (x = None -> forall c r', r = c :: r' -> type_extension c = false) ->
    parse f es n = let! s := modifiers 5 (PState r es2 n PLSE (fresh a t x) []) in Val (result s, diags s).
  Proof.
    intros f es n a s0 e0 t x r es2 Ef -> Hd Ht Hx Hnx. unfold parse. rewrite Ef, (duplication_text a s0 e0 t _ es2 Hd Ht).
    cbn [bind]. destruct x as [c|]; cbn [ext_text app].
    - rewrite (proj1 (extension_facts c) (Hx c eq_refl)). reflexivity.
    - destruct r as [|c r']; [reflexivity|]. rewrite (Hnx eq_refl c r' eq_refl). reflexivity.
  Qed.

  (** ** What was written *)
  Definition slot (k : ascii) (bit : bool) (a : option (amount Ex)) (s : text) (es : list Ex) : list token :=
    match a with Some _ => [Token k bit a s es] | None => [] end.
  Lemma slot_spec : forall k bit a s es, modifier_letter k = true -> (bit = true -> k = "L"%char) -> modifier_text k bit a s es ->
    texts (slot k bit a s es) = s /\ token_exprs (slot k bit a s es) = es /\ Forall strict (slot k bit a s es).
  Proof.
    intros k bit [a|] s es H1 H2 H; cbn in H.
    - destruct H as (s' & E & Ha). unfold texts, token_exprs. cbn [slot map concat t_text t_exprs]. rewrite !app_nil_r.
      split; [reflexivity|]. split; [reflexivity|]. constructor; [|constructor]. split; [exact H1|]. split; [exact H2|].
      exists a, s'. split; [reflexivity|]. split; [exact E|exact Ha].
    - destruct H as (_ & -> & ->). split; [reflexivity|]. split; [reflexivity|constructor].
  Qed.
  Definition without_nominal (d : definition) : definition := with_nominal None d.
  Lemma texts_app : forall a b, texts (a ++ b) = texts a ++ texts b.
  Proof. intros. unfold texts. rewrite map_app, concat_app. reflexivity. Qed.
  Lemma exprs_app : forall a b, token_exprs (a ++ b) = token_exprs a ++ token_exprs b.
  Proof. intros. unfold token_exprs. rewrite map_app, concat_app. reflexivity. Qed.
  (** the pieces of the text before the nominal value *)
  Lemma head_tokens : forall d s es, head_text d s es -> readable d ->
    exists s0 e0 l rm, dup_text (d_dup d) s0 e0 /\ s = s0 ++ d_type d :: ext_text (d_ext d) ++ texts l /\ es = e0 ++ token_exprs l /\
      Forall strict l /\ ordered PLSE l rm /\ (length l <= 4)%nat /\
      fold_left apply_token l (fresh (d_dup d) (d_type d) (d_ext d)) = without_nominal (as_read d) /\
      (d_ext d = None -> forall k l', l = k :: l' -> type_extension (t_key k) = false).
  Proof.
    intros d s es (s0 & e0 & s1 & e1 & s2 & e2 & s3 & e3 & s4 & e4 & H0 & H1 & H2 & H3 & H4 & -> & ->) (_ & _ & Hr).
    destruct (slot_spec "P" false (d_prog d) s1 e1 eq_refl ltac:(discriminate) H1) as (T1 & X1 & F1).
    destruct (slot_spec "L" (d_bit d) (d_len d) s2 e2 eq_refl ltac:(reflexivity) H2) as (T2 & X2 & F2).
    destruct (slot_spec "S" false (d_scale d) s3 e3 eq_refl ltac:(discriminate) H3) as (T3 & X3 & F3).
    destruct (slot_spec "E" false (d_exp d) s4 e4 eq_refl ltac:(discriminate) H4) as (T4 & X4 & F4).
    exists s0, e0, (slot "P" false (d_prog d) s1 e1 ++ slot "L" (d_bit d) (d_len d) s2 e2 ++
                    slot "S" false (d_scale d) s3 e3 ++ slot "E" false (d_exp d) s4 e4).
    assert (exists rm, ordered PLSE (slot "P" false (d_prog d) s1 e1 ++ slot "L" (d_bit d) (d_len d) s2 e2 ++
                    slot "S" false (d_scale d) s3 e3 ++ slot "E" false (d_exp d) s4 e4) rm) as (rm & Ho).
    { destruct (d_prog d), (d_len d), (d_scale d), (d_exp d); cbn [slot app]; eexists;
        repeat (eapply ord_cons; [reflexivity|]); apply ord_nil. }
    exists rm. split; [exact H0|]. split; [|split; [|split; [|split; [exact Ho|split; [|split]]]]].
    - rewrite !texts_app, T1, T2, T3, T4. destruct (d_ext d); reflexivity.
    - rewrite !exprs_app, X1, X2, X3, X4. reflexivity.
    - rewrite !Forall_app. repeat (refine (conj _ _)); assumption.
    - destruct (d_prog d), (d_len d), (d_scale d), (d_exp d); cbn; lia.
    - clear - H2. destruct d as [dd t x p l b sc ex nm]. cbn [d_dup d_type d_ext d_prog d_len d_bit d_scale d_exp d_nom] in *.
      assert (l = None -> b = false) as Hb by (intros ->; exact (proj1 H2)).
      destruct p, l, sc, ex, b; try (discriminate (Hb eq_refl)); reflexivity.
    - intros Hx k l' E. destruct (d_prog d), (d_len d), (d_scale d), (d_exp d); cbn [slot app] in E; try discriminate; injection E as <- _;
        try reflexivity. specialize (Hr Hx eq_refl eq_refl eq_refl). discriminate.
  Qed.
  Lemma ordered_app : forall a rm b rm2, ordered rm (a ++ b) rm2 -> exists rm1, ordered rm a rm1 /\ ordered rm1 b rm2.
  Proof.
    induction a as [|k a IH]; intros rm b rm2 H; [exists rm; split; [constructor|exact H]|].
    cbn [app] in H. inversion H; subst. destruct (IH _ _ _ H5) as (rm1 & H6 & H7). exists rm1. split; [econstructor; eassumption|exact H7].
  Qed.
  Lemma no_digit_texts_nil : forall l, Forall strict l -> no_digit_next (texts l).
  Proof. intros l H. rewrite <- (app_nil_r (texts l)). apply texts_no_digit; [|exact Logic.I]. revert H. apply Forall_impl. intros x Hx. left. exact Hx. Qed.
  Lemma first_letter : forall l c r r', Forall strict l -> (forall k l', l = k :: l' -> type_extension (t_key k) = false) ->
    (l = [] -> forall c r', r = c :: r' -> type_extension c = false) -> texts l ++ r = c :: r' -> type_extension c = false.
  Proof.
    intros [|k l] c r r' Hs Hk Hr E; [exact (Hr eq_refl c r' E)|]. inversion Hs; subst.
    destruct (token_begins k (or_introl H1)) as (c' & s & Et & Ec & _). unfold texts in E. cbn [map concat] in E. rewrite Et in E.
    cbn [app] in E. injection E as <- _. rewrite Ec. apply (Hk k l eq_refl).
  Qed.
  Lemma split_last : forall {T} (l : list T), l = [] \/ exists a x, l = a ++ [x].
  Proof. intros T l. destruct l as [|x l] using rev_ind; [left; reflexivity|right; eexists _, _; reflexivity]. Qed.

  Theorem parse_written : forall (d : definition) f es n, written d f es n -> readable d -> parse f es n = Val (as_read d, []).
  Proof.
    intros d f es n (s & H) Hr. pose proof Hr as (Ht & Hx & _).
    destruct H as [(Hh & Hs & Hn & ->)|[(nv & Hn & -> & Hh & Hs)|(e & Hn & -> & Hh & Hs)]]; apply spelled_upper in Hs.
    - destruct (head_tokens d s es Hh Hr) as (s0 & e0 & l & rm & Hd & -> & -> & Hst & Ho & Hl & Hf & Hnx).
      rewrite (parse_begins f _ None (d_dup d) s0 e0 (d_type d) (d_ext d) (texts l) (token_exprs l) Hs eq_refl Hd Ht Hx).
      2:{ intros E c r' Er. apply (first_letter l c [] r' Hst (Hnx E)); [intros _ c0 r0 K; discriminate|rewrite app_nil_r; exact Er]. }
      pose proof (run_tokens l 5 [] [] None PLSE rm (fresh (d_dup d) (d_type d) (d_ext d)) [] Hst Ho ltac:(lia) Logic.I) as Hrun.
      rewrite !app_nil_r in Hrun. rewrite Hrun, Hf. destruct (5 - length l)%nat eqn:K; [lia|]. cbn [modifiers rest bind result diags].
      f_equal. f_equal. unfold without_nominal, with_nominal, as_read. destruct d; cbn in *. subst. reflexivity.
    - destruct (head_tokens d s es Hh Hr) as (s0 & e0 & l & rm & Hd & -> & -> & Hst & Ho & Hl & Hf & Hnx).
      rewrite <- app_assoc in Hs. cbn [app] in Hs. rewrite <- app_assoc in Hs.
      rewrite (parse_begins f _ (Some nv) (d_dup d) s0 e0 (d_type d) (d_ext d) (texts l ++ [" "%char]) (token_exprs l) Hs eq_refl Hd Ht Hx).
      2:{ intros E c r' Er. apply (first_letter l c [" "%char] r' Hst (Hnx E)); [|exact Er]. intros _ c0 r0 K. injection K as <- _. reflexivity. }
      pose proof (run_tokens l 5 [" "%char] [] (Some nv) PLSE rm (fresh (d_dup d) (d_type d) (d_ext d)) [] Hst Ho ltac:(lia) eq_refl) as Hrun.
      rewrite app_nil_r in Hrun. rewrite Hrun, Hf. destruct (5 - length l)%nat eqn:K; [lia|]. cbn.
      f_equal. f_equal. destruct d; cbn in *. subst. reflexivity.
    - destruct (head_tokens d _ _ Hh Hr) as (s0 & e0 & l & rm & Hd & Es & Ee & Hst & Ho & Hl & Hf & Hnx).
      destruct (split_last l) as [->|(l1 & [k bit v tx ex] & ->)].
      { exfalso. unfold texts in Es. cbn [map concat] in Es. rewrite app_nil_r in Es. destruct (d_ext d) as [x|]; cbn [ext_text] in Es.
        - assert (s0 ++ [d_type d; x] = (s0 ++ [d_type d]) ++ [x]) as E by (rewrite <- app_assoc; reflexivity). rewrite E in Es.
          apply app_inj_tail in Es. destruct Es as [_ <-]. specialize (Hx "&"%char eq_refl). cbn in Hx. intuition discriminate.
        - apply app_inj_tail in Es. destruct Es as [_ Es]. destruct (letter_facts _ Ht) as (_ & _ & _ & K & _). congruence. }
      apply Forall_app in Hst. destruct Hst as [Hst Hk]. inversion Hk as [|a b (K1 & K2 & am & sx & K3 & K4 & K5) _]; subst.
      cbn [t_key t_bit t_value t_text t_exprs] in *. subst v tx. rewrite app_length in Hl. cbn [length] in Hl.
      rewrite texts_app in Es. rewrite exprs_app in Ee. unfold texts at 2 in Es. unfold token_exprs at 2 in Ee.
      cbn [map concat t_text t_exprs] in Es, Ee. rewrite !app_nil_r in Es, Ee.
      assert (am = Exp e /\ s = s0 ++ d_type d :: ext_text (d_ext d) ++ texts l1 ++ k :: dot bit /\ es = e0 ++ token_exprs l1) as (-> & -> & ->).
      { destruct am as [z|e']; cbn in K5.
        - exfalso. destruct K5 as (Hz & _). destruct (split_last sx) as [->|(sy & c & ->)].
          + destruct (numeral_first _ _ Hz) as (c & s' & K & _). discriminate.
          + apply numeral_last in Hz.
            assert (s0 ++ d_type d :: ext_text (d_ext d) ++ texts l1 ++ k :: dot bit ++ sy ++ [c] =
                    (s0 ++ d_type d :: ext_text (d_ext d) ++ texts l1 ++ k :: dot bit ++ sy) ++ [c]) as E
              by (rewrite <- !app_assoc; cbn [app]; rewrite <- !app_assoc; cbn [app]; rewrite <- !app_assoc; reflexivity).
            rewrite E in Es. apply app_inj_tail in Es. destruct Es as [_ <-]. cbn in Hz. intuition discriminate.
        - destruct K5 as (-> & ->).
          assert (s0 ++ d_type d :: ext_text (d_ext d) ++ texts l1 ++ k :: dot bit ++ ["&"%char] =
                  (s0 ++ d_type d :: ext_text (d_ext d) ++ texts l1 ++ k :: dot bit) ++ ["&"%char]) as E
            by (rewrite <- !app_assoc; cbn [app]; rewrite <- !app_assoc; reflexivity).
          rewrite E in Es. apply app_inj_tail in Es. rewrite app_assoc in Ee. apply app_inj_tail in Ee.
          destruct Es as [-> _]. destruct Ee as [-> ->]. auto. }
      assert (map upper f = s0 ++ d_type d :: ext_text (d_ext d) ++ texts l1 ++ k :: dot bit ++ [" "%char]) as Hs'.
      { rewrite Hs. rewrite <- !app_assoc. cbn [app]. rewrite <- !app_assoc. reflexivity. }
      rewrite (parse_begins f _ (Some (PExprs [PExpr e])) (d_dup d) s0 e0 (d_type d) (d_ext d) _ (token_exprs l1) Hs' eq_refl Hd Ht Hx).
      2:{ intros E c r' Er. apply (first_letter l1 c (k :: dot bit ++ [" "%char]) r' Hst); [| |exact Er].
          - intros k0 l' ->. apply (Hnx E k0 (l' ++ [Token k bit (Some (Exp e)) (k :: dot bit ++ sx) ex])). reflexivity.
          - intros -> c0 r0 K. injection K as <- _. apply (Hnx E (Token k bit (Some (Exp e)) (k :: dot bit ++ sx) ex) []). reflexivity. }
      destruct (ordered_app _ _ _ _ Ho) as (rm1 & Ho1 & Ho2). inversion Ho2 as [|a b c k' l' Ha Ho3]; subst. cbn [t_key] in Ha.
      pose proof (run_tokens l1 5 (k :: dot bit ++ [" "%char]) [] (Some (PExprs [PExpr e])) PLSE rm1 (fresh (d_dup d) (d_type d) (d_ext d)) [] Hst Ho1
                    ltac:(lia) (letter_no_digit k K1)) as Hrun.
      rewrite app_nil_r in Hrun. rewrite Hrun. destruct (5 - length l1)%nat eqn:K; [lia|].
      rewrite (step_nominal k bit n [] e rm1 b _ [] K1 K2 Ha). cbn [bind result diags].
      rewrite fold_left_app in Hf. cbn [fold_left apply_token t_key t_bit t_value] in Hf. unfold apply_token at 1 in Hf. cbn [t_key t_bit t_value] in Hf.
      rewrite Hf. f_equal. f_equal. unfold without_nominal, with_nominal, as_read. destruct d; cbn in *. subst. reflexivity.
  Qed.
End Parsing.
