(** Proofs about numerals: the conversion functions between numbers and digit strings. *)
From Coq Require Import List NArith ZArith Bool Lia.
From Coq Require Import ZifyBool ZifyNat ZifyN.
From Verif Require Import Common Ebc_Model Ebc_Spec Ebc_Proof Ca_Model Ca_Spec Ca_Proof.
Import ListNotations.
Open Scope Z_scope.

Local Ltac Zify.zify_post_hook ::= Z.div_mod_to_equations.

Lemma Forall2_length : forall {A B} {R : A -> B -> Prop} {a b}, Forall2 R a b -> length a = length b.
Proof. induction 1; cbn [length]; congruence. Qed.

(** ** Digits *)
Lemma digit_bin : forall c d, digit 2 c = Some d <-> bin_digit c d.
Proof.
  intros c d. unfold digit, bin_digit. cbv zeta.
  destruct ((48 <=? Z.of_N c) && (Z.of_N c <=? 57)) eqn:E1;
  [|destruct ((65 <=? Z.of_N c) && (Z.of_N c <=? 70)) eqn:E2;
    [|destruct ((97 <=? Z.of_N c) && (Z.of_N c <=? 102)) eqn:E3]].
  - destruct (Z.of_N c - 48 <? 2) eqn:E; split; intros H; try discriminate; try lia.
    + injection H as <-. lia.
    + f_equal. lia.
  - destruct (Z.of_N c - 55 <? 2) eqn:E; split; intros H; try discriminate; try lia.
  - destruct (Z.of_N c - 87 <? 2) eqn:E; split; intros H; try discriminate; try lia.
  - split; intros H; [discriminate|lia].
Qed.

Lemma digit_dec : forall c d, digit 10 c = Some d <-> dec_digit c d.
Proof.
  intros c d. unfold digit, dec_digit. cbv zeta.
  destruct ((48 <=? Z.of_N c) && (Z.of_N c <=? 57)) eqn:E1;
  [|destruct ((65 <=? Z.of_N c) && (Z.of_N c <=? 70)) eqn:E2;
    [|destruct ((97 <=? Z.of_N c) && (Z.of_N c <=? 102)) eqn:E3]].
  - destruct (Z.of_N c - 48 <? 10) eqn:E; split; intros H; try discriminate; try lia.
    + injection H as <-. lia.
    + f_equal. lia.
  - destruct (Z.of_N c - 55 <? 10) eqn:E; split; intros H; try discriminate; try lia.
  - destruct (Z.of_N c - 87 <? 10) eqn:E; split; intros H; try discriminate; try lia.
  - split; intros H; [discriminate|lia].
Qed.

Lemma digit_hex : forall c d, digit 16 c = Some d <-> hex_digit c d.
Proof.
  intros c d. unfold digit, hex_digit, upper_hex_digit. cbv zeta.
  destruct ((48 <=? Z.of_N c) && (Z.of_N c <=? 57)) eqn:E1;
  [|destruct ((65 <=? Z.of_N c) && (Z.of_N c <=? 70)) eqn:E2;
    [|destruct ((97 <=? Z.of_N c) && (Z.of_N c <=? 102)) eqn:E3]].
  - replace (Z.of_N c - 48 <? 16) with true by lia. split; intros H.
    + injection H as <-. lia.
    + f_equal. lia.
  - replace (Z.of_N c - 55 <? 16) with true by lia. split; intros H.
    + injection H as <-. lia.
    + f_equal. lia.
  - replace (Z.of_N c - 87 <? 16) with true by lia. split; intros H.
    + injection H as <-. lia.
    + f_equal. lia.
  - split; intros H; [discriminate|lia].
Qed.

Section Base.
  Variables (base : Z) (D : N -> Z -> Prop).
  Hypothesis base_pos : 2 <= base.
  Hypothesis digit_D : forall c d, digit base c = Some d <-> D c d.
  Hypothesis D_range : forall c d, D c d -> 0 <= d < base.

  Lemma digits_some : forall s ds acc, Forall2 D s ds ->
    digits base acc s = Some (acc * base ^ Z.of_nat (length s) + numeral base ds).
  Proof.
    intros s ds acc H. revert acc. induction H as [|c d s ds Hc H IH]; intros acc.
    - cbn [digits length numeral]. f_equal. change (Z.of_nat 0) with 0. rewrite Z.pow_0_r. lia.
    - cbn [digits numeral]. rewrite (proj2 (digit_D c d) Hc). rewrite IH. f_equal.
      cbn [length]. rewrite Nat2Z.inj_succ, Z.pow_succ_r by lia.
      rewrite (Forall2_length H). ring.
  Qed.

  Lemma digits_only : forall s acc v, digits base acc s = Some v -> exists ds, Forall2 D s ds.
  Proof.
    induction s as [|c s IH]; intros acc v H; [exists []; constructor|].
    cbn [digits] in H. destruct (digit base c) as [d|] eqn:E; [|discriminate].
    destruct (IH _ _ H) as [ds Hds]. exists (d :: ds). constructor; [now apply digit_D|exact Hds].
  Qed.

  Lemma numeral_range : forall s ds, Forall2 D s ds ->
    0 <= numeral base ds < base ^ Z.of_nat (length s).
  Proof.
    induction 1 as [|c d s ds Hc H IH].
    - cbn. lia.
    - cbn [numeral length]. rewrite Nat2Z.inj_succ, Z.pow_succ_r by lia.
      rewrite <- (Forall2_length H). apply D_range in Hc. nia.
  Qed.

  Lemma digits_zero : forall s ds, Forall2 D s ds -> digits base 0 s = Some (numeral base ds).
  Proof. intros s ds H. now rewrite (digits_some s ds 0 H). Qed.
End Base.

Lemma bin_range : forall c d, bin_digit c d -> 0 <= d < 2.
Proof. unfold bin_digit. lia. Qed.
Lemma dec_range : forall c d, dec_digit c d -> 0 <= d < 10.
Proof. unfold dec_digit. lia. Qed.
Lemma hex_range : forall c d, hex_digit c d -> 0 <= d < 16.
Proof. unfold hex_digit, upper_hex_digit. lia. Qed.

Lemma numeral_app : forall base a b,
  numeral base (a ++ b) = numeral base a * base ^ Z.of_nat (length b) + numeral base b.
Proof.
  induction a as [|d a IH]; intros b; [reflexivity|].
  cbn [app numeral]. rewrite IH, app_length, Nat2Z.inj_add, Z.pow_add_r by lia. ring.
Qed.

(** ** Binary and hexadecimal input *)
Lemma B2A_digits : forall s ds, Forall2 bin_digit s ds -> (length s <= 32)%nat ->
  B2A s = Ok (signed_of (numeral 2 ds)).
Proof.
  intros s ds H Hl. unfold B2A. destruct s as [|c s].
  - inversion H; subst. reflexivity.
  - unfold size. replace (Z.of_nat (length (c :: s)) >? 32) with false by lia.
    unfold whole_unsigned. rewrite (digits_zero 2 _ digit_bin bin_range _ _ H).
    pose proof (numeral_range 2 _ ltac:(lia) digit_bin bin_range _ _ H) as Hr.
    assert (2 ^ Z.of_nat (length (c :: s)) <= W)
      by (change W with (2 ^ 32); apply Z.pow_le_mono_r; lia).
    replace (numeral 2 ds <? W) with true by lia.
    rewrite signed_signed_of by lia. reflexivity.
Qed.

Lemma B2A_only : forall s v, B2A s = Ok v -> (length s <= 32)%nat /\ exists ds, Forall2 bin_digit s ds.
Proof.
  intros s v H. unfold B2A in H. destruct s as [|c s].
  - split; [cbn; lia|]. exists []. constructor.
  - unfold size in H. destruct (Z.of_nat (length (c :: s)) >? 32) eqn:E; [discriminate|].
    split; [lia|]. unfold whole_unsigned in H.
    destruct (digits 2 0 (c :: s)) eqn:E2; [|discriminate].
    exact (digits_only 2 _ digit_bin _ _ _ E2).
Qed.

Lemma X2A_digits : forall s ds, Forall2 hex_digit s ds -> (length s <= 8)%nat ->
  X2A s = Ok (signed_of (numeral 16 ds)).
Proof.
  intros s ds H Hl. unfold X2A. destruct s as [|c s].
  - inversion H; subst. reflexivity.
  - unfold size. replace (Z.of_nat (length (c :: s)) >? 8) with false by lia.
    unfold whole_unsigned. rewrite (digits_zero 16 _ digit_hex hex_range _ _ H).
    pose proof (numeral_range 16 _ ltac:(lia) digit_hex hex_range _ _ H) as Hr.
    assert (16 ^ Z.of_nat (length (c :: s)) <= W)
      by (change W with (16 ^ 8); apply Z.pow_le_mono_r; lia).
    replace (numeral 16 ds <? W) with true by lia.
    rewrite signed_signed_of by lia. reflexivity.
Qed.

Lemma X2A_only : forall s v, X2A s = Ok v -> (length s <= 8)%nat /\ exists ds, Forall2 hex_digit s ds.
Proof.
  intros s v H. unfold X2A in H. destruct s as [|c s].
  - split; [cbn; lia|]. exists []. constructor.
  - unfold size in H. destruct (Z.of_nat (length (c :: s)) >? 8) eqn:E; [discriminate|].
    split; [lia|]. unfold whole_unsigned in H.
    destruct (digits 16 0 (c :: s)) eqn:E2; [|discriminate].
    exact (digits_only 16 _ digit_hex _ _ _ E2).
Qed.

Lemma B2A_total : forall s, (exists v, B2A s = Ok v) \/ B2A s = Fail CE007.
Proof.
  intros s. unfold B2A. destruct s; [eauto|].
  destruct (size _ >? 32); [auto|]. destruct (whole_unsigned 2 _); eauto.
Qed.
Lemma X2A_total : forall s, (exists v, X2A s = Ok v) \/ X2A s = Fail CE007.
Proof.
  intros s. unfold X2A. destruct s; [eauto|].
  destruct (size _ >? 8); [auto|]. destruct (whole_unsigned 16 _); eauto.
Qed.
Lemma D2A_total : forall s, (exists v, D2A s = Ok v) \/ D2A s = Fail CE007.
Proof.
  intros s. unfold D2A. destruct s; [eauto|].
  destruct (size _ >? 11); [auto|]. destruct (1 <? _); [auto|].
  destruct (whole_signed 10 _); eauto.
Qed.

(** ** Decimal input *)
Lemma dec_not_sign : forall c d, dec_digit c d -> is_sign c = false.
Proof. unfold dec_digit, is_sign. intros. lia. Qed.

Lemma signs_digits : forall s ds, Forall2 dec_digit s ds -> signs s = 0%nat.
Proof.
  intros s ds H. inversion H as [|c d s' ds' Hc H']; subst; [reflexivity|].
  cbn [signs]. now rewrite (dec_not_sign c d Hc).
Qed.

Lemma whole_signed_plain : forall s, s <> [] -> hd 0%N s <> 45%N ->
  whole_signed 10 s =
    match digits 10 0 s with
    | Some v => if v <=? INT_MAX then Some v else None
    | None => None
    end.
Proof.
  intros s Hs Hh. destruct s as [|c s]; [congruence|]. cbn [hd] in Hh.
  unfold whole_signed.
  destruct c as [|p]; [reflexivity|].
  repeat (reflexivity || congruence || (destruct p as [p|p|]; try reflexivity; try congruence)).
Qed.

Lemma whole_signed_minus : forall s, s <> [] ->
  whole_signed 10 (45%N :: s) =
    match digits 10 0 s with
    | Some v => if - v >=? INT_MIN then Some (- v) else None
    | None => None
    end.
Proof. intros s Hs. destruct s; [congruence|reflexivity]. Qed.

Lemma D2A_digits : forall s v, signed_decimal s v -> int32 v -> (length s <= 11)%nat ->
  D2A s = Ok v.
Proof.
  intros s v H Hv Hl. unfold int32 in Hv. unfold D2A.
  assert (Hplain : forall s ds, s <> [] -> Forall2 dec_digit s ds -> int32 (numeral 10 ds) ->
            whole_signed 10 s = Some (numeral 10 ds)).
  { intros t ds Ht Hd Hi. rewrite whole_signed_plain.
    - rewrite (digits_zero 10 _ digit_dec dec_range _ _ Hd). unfold int32, INT_MAX in *.
      now replace (numeral 10 ds <=? 2147483647) with true by lia.
    - exact Ht.
    - inversion Hd as [|c d t' ds' Hc Hd']; subst; [congruence|]. cbn [hd].
      unfold dec_digit in Hc. lia. }
  inversion H as [s' ds Hs Hd E1 E2|s' ds Hs Hd E1 E2|s' ds Hs Hd E1 E2]; subst.
  - destruct s as [|c s]; [congruence|].
    unfold size. replace (Z.of_nat (length (c :: s)) >? 11) with false by lia.
    rewrite (signs_digits _ _ Hd). change (1 <? Z.of_nat 0) with false. cbv iota.
    assert (Hc : (c =? 43)%N = false)
      by (inversion Hd as [|? ? ? ? Hc ?]; subst; unfold dec_digit in Hc; lia).
    rewrite Hc. now rewrite (Hplain _ _ Hs Hd Hv).
  - unfold size. replace (Z.of_nat (length (43%N :: s')) >? 11) with false by lia.
    cbn [signs is_sign N.eqb Pos.eqb orb]. rewrite (signs_digits _ _ Hd).
    change (1 <? Z.of_nat 1) with false. cbv iota.
    now rewrite (Hplain _ _ Hs Hd Hv).
  - unfold size. replace (Z.of_nat (length (45%N :: s')) >? 11) with false by lia.
    cbn [signs is_sign N.eqb Pos.eqb orb]. rewrite (signs_digits _ _ Hd).
    change (1 <? Z.of_nat 1) with false. cbv iota.
    rewrite whole_signed_minus by exact Hs.
    rewrite (digits_zero 10 _ digit_dec dec_range _ _ Hd). unfold INT_MIN.
    now replace (- numeral 10 ds >=? -2147483648) with true by lia.
Qed.

Lemma D2A_only : forall s v, D2A s = Ok v ->
  s = [] /\ v = 0 \/ signed_decimal s v /\ int32 v /\ (length s <= 11)%nat.
Proof.
  intros s v H. unfold D2A in H. destruct s as [|c s]; [injection H as <-; auto|right].
  unfold size in H. destruct (Z.of_nat (length (c :: s)) >? 11) eqn:E; [discriminate|].
  destruct (1 <? Z.of_nat (signs (c :: s))) eqn:E1; [discriminate|].
  assert (Hplain : forall t v, hd 0%N t <> 45%N -> whole_signed 10 t = Some v ->
            exists ds, t <> [] /\ Forall2 dec_digit t ds /\ v = numeral 10 ds /\ int32 v).
  { intros t w Ht Hw. assert (t <> []) by (intros ->; discriminate Hw).
    rewrite whole_signed_plain in Hw by assumption.
    destruct (digits 10 0 t) as [x|] eqn:Ex; [|discriminate].
    destruct (digits_only 10 _ digit_dec _ _ _ Ex) as [ds Hds].
    rewrite (digits_zero 10 _ digit_dec dec_range _ _ Hds) in Ex. injection Ex as <-.
    pose proof (numeral_range 10 _ ltac:(lia) digit_dec dec_range _ _ Hds).
    unfold INT_MAX in Hw. destruct (numeral 10 ds <=? 2147483647) eqn:El; [|discriminate].
    injection Hw as <-. exists ds. unfold int32. repeat split; auto; lia. }
  destruct (c =? 43)%N eqn:Ep.
  - apply N.eqb_eq in Ep. subst c.
    destruct (whole_signed 10 s) as [x|] eqn:Ex; [|discriminate]. injection H as <-.
    destruct (Hplain s x) as (ds & H1 & H2 & H3 & H4); [|exact Ex|].
    + destruct s as [|c s]; cbn [hd]; [discriminate|]. cbn [signs is_sign N.eqb Pos.eqb orb] in E1.
      intros ->. cbn [signs is_sign N.eqb Pos.eqb orb] in E1. lia.
    + subst x. split; [now apply dec_plus|]. split; [exact H4|lia].
  - destruct (whole_signed 10 (c :: s)) as [x|] eqn:Ex; [|discriminate]. injection H as <-.
    destruct (N.eq_dec c 45) as [->|Hc].
    + destruct s as [|c s]; [discriminate Ex|].
      rewrite whole_signed_minus in Ex by discriminate.
      destruct (digits 10 0 (c :: s)) as [y|] eqn:Ey; [|discriminate].
      destruct (digits_only 10 _ digit_dec _ _ _ Ey) as [ds Hds].
      rewrite (digits_zero 10 _ digit_dec dec_range _ _ Hds) in Ey. injection Ey as <-.
      pose proof (numeral_range 10 _ ltac:(lia) digit_dec dec_range _ _ Hds).
      unfold INT_MIN in Ex. destruct (- numeral 10 ds >=? -2147483648) eqn:El; [|discriminate].
      injection Ex as <-. split; [now apply dec_minus|]. unfold int32. lia.
    + destruct (Hplain (c :: s) x) as (ds & H1 & H2 & H3 & H4); [exact Hc|exact Ex|].
      subst x. split; [now apply dec_plain|]. split; [exact H4|lia].
Qed.

(** ** Output *)
Lemma bits_digits : forall n v, exists ds,
  Forall2 bin_digit (bits n v) ds /\ length (bits n v) = n /\ numeral 2 ds = v mod 2 ^ Z.of_nat n.
Proof.
  induction n as [|n IH]; intros v.
  - exists []. split; [constructor|]. split; [reflexivity|]. cbn [numeral].
    change (Z.of_nat 0) with 0. now rewrite Z.pow_0_r, Z.mod_1_r.
  - destruct (IH v) as (ds & H1 & H2 & H3).
    exists (Z.b2z (Z.testbit v (Z.of_nat n)) :: ds). split; [|split].
    + cbn [bits]. constructor; [|exact H1].
      unfold bin_digit. destruct (Z.testbit v (Z.of_nat n)); cbn [Z.b2z]; lia.
    + cbn [bits length]. lia.
    + cbn [numeral]. rewrite H3, <- (Forall2_length H1), H2.
      rewrite Nat2Z.inj_succ, Z.pow_succ_r by lia.
      rewrite Z.testbit_spec' by lia.
      assert (0 < 2 ^ Z.of_nat n) by (apply Z.pow_pos_nonneg; lia).
      rewrite (Z.mul_comm 2). rewrite Z.rem_mul_r by lia. ring.
Qed.

Lemma upper_hexdigit : forall v, 0 <= v < 16 -> upper_hex_digit (hexdigit v) v.
Proof.
  intros v H. unfold upper_hex_digit, hexdigit. destruct (v <? 10) eqn:E; lia.
Qed.

Lemma hex_digits : forall w v, exists ds,
  Forall2 upper_hex_digit (hex w v) ds /\ length (hex w v) = w /\
  numeral 16 ds = v mod 16 ^ Z.of_nat w.
Proof.
  induction w as [|w IH]; intros v.
  - exists []. split; [constructor|]. split; [reflexivity|]. cbn [numeral].
    change (Z.of_nat 0) with 0. now rewrite Z.pow_0_r, Z.mod_1_r.
  - destruct (IH v) as (ds & H1 & H2 & H3).
    exists (v / 16 ^ Z.of_nat w mod 16 :: ds). split; [|split].
    + cbn [hex]. constructor; [|exact H1]. apply upper_hexdigit. apply Z.mod_pos_bound. lia.
    + cbn [hex length]. lia.
    + cbn [numeral]. rewrite H3, <- (Forall2_length H1), H2.
      rewrite Nat2Z.inj_succ, Z.pow_succ_r by lia.
      assert (0 < 16 ^ Z.of_nat w) by (apply Z.pow_pos_nonneg; lia).
      rewrite (Z.mul_comm 16). rewrite Z.rem_mul_r by lia. ring.
Qed.

Lemma upper_is_hex : forall s ds, Forall2 upper_hex_digit s ds -> Forall2 hex_digit s ds.
Proof. induction 1; constructor; unfold hex_digit; auto. Qed.

Lemma A2B_digits : forall n, exists ds,
  Forall2 bin_digit (A2B n) ds /\ length (A2B n) = 32%nat /\ numeral 2 ds = register n.
Proof. intros n. exact (bits_digits 32 n). Qed.

Lemma A2X_digits : forall n, exists ds,
  Forall2 upper_hex_digit (A2X n) ds /\ length (A2X n) = 8%nat /\ numeral 16 ds = register n.
Proof.
  intros n. destruct (hex_digits 8 (to_unsigned n)) as (ds & H1 & H2 & H3).
  exists ds. split; [exact H1|]. split; [exact H2|].
  rewrite H3. change (16 ^ Z.of_nat 8) with 4294967296.
  unfold register, to_unsigned, W. change (2 ^ 32) with 4294967296. lia.
Qed.

Lemma signed_register : forall n, int32 n -> signed_of (register n) = n.
Proof.
  intros n H. unfold signed_of, register, int32 in *.
  change (2 ^ 32) with 4294967296. change (2 ^ 31) with 2147483648. lia.
Qed.

Lemma dec_val_numeral : forall s, Forall (fun c => is_digit c = true) s ->
  exists ds, Forall2 dec_digit s ds /\ Z.of_N (dec_val s) = numeral 10 ds.
Proof.
  intros s. induction s as [|c s IH] using rev_ind; intros H.
  - exists []. split; [constructor|reflexivity].
  - apply Forall_app in H as [H Hc]. destruct (IH H) as (ds & H1 & H2).
    inversion Hc as [|? ? Hd _]; subst. unfold is_digit in Hd.
    exists (ds ++ [Z.of_N c - 48]). split.
    + apply Forall2_app; [exact H1|]. constructor; [|constructor]. unfold dec_digit. lia.
    + rewrite dec_val_app, numeral_app. cbn [numeral length].
      change (Z.of_nat 1) with 1. change (Z.of_nat 0) with 0. rewrite <- H2. lia.
Qed.

Lemma dec_numeral : forall n, exists ds, Forall2 dec_digit (dec n) ds /\ numeral 10 ds = Z.of_N n.
Proof.
  intros n. destruct (dec_val_numeral (dec n) (dec_digits n)) as (ds & H1 & H2).
  exists ds. split; [exact H1|]. rewrite <- H2, dec_value. reflexivity.
Qed.

Lemma dec_fuel_lead : forall f n, (0 < n)%N -> (n < 2 ^ N.of_nat f)%N ->
  hd 48%N (dec_fuel f n []) <> 48%N.
Proof.
  induction f as [|f IH]; intros n H0 Hn.
  - change (2 ^ N.of_nat 0)%N with 1%N in Hn. lia.
  - cbn [dec_fuel]. destruct (n <? 10)%N eqn:E; [cbn [hd]; lia|].
    rewrite Nat2N.inj_succ, N.pow_succ_r' in Hn. rewrite dec_fuel_app.
    specialize (IH (n / 10)%N ltac:(lia) ltac:(lia)).
    destruct (dec_fuel f (n / 10) []); [cbn [hd] in IH; congruence|exact IH].
Qed.

Lemma dec_lead : forall n, (0 < n)%N -> hd 48%N (dec n) <> 48%N.
Proof.
  intros n H. unfold dec. apply dec_fuel_lead; [exact H|].
  rewrite Nat2N.inj_succ, N.pow_succ_r'. pose proof (N_size_nat_bound n). lia.
Qed.

Lemma dec_length : forall n k, (n < 10 ^ N.of_nat k)%N -> (0 < k)%nat -> (length (dec n) <= k)%nat.
Proof.
  intros n k H Hk. destruct (N.eq_dec n 0) as [->|H0]; [cbn; lia|].
  destruct (dec_numeral n) as (ds & H1 & H2).
  pose proof (dec_lead n ltac:(lia)) as Hh.
  destruct (dec n) as [|c s] eqn:E; [cbn; lia|]. cbn [hd] in Hh.
  inversion H1 as [|? d ? ds' Hc Hs]; subst. cbn [numeral] in H2.
  unfold dec_digit in Hc.
  pose proof (numeral_range 10 _ ltac:(lia) digit_dec dec_range _ _ Hs) as Hr.
  destruct (Nat.le_gt_cases (length (c :: s)) k) as [Hl|Hl]; [exact Hl|exfalso].
  cbn [length] in Hl. rewrite <- (Forall2_length Hs) in H2.
  assert (10 ^ Z.of_nat k <= 10 ^ Z.of_nat (length s)) by (apply Z.pow_le_mono_r; lia).
  assert (Z.of_N n < 10 ^ Z.of_nat k).
  { apply N2Z.inj_lt in H. rewrite N2Z.inj_pow in H. rewrite nat_N_Z in H. exact H. }
  nia.
Qed.

Lemma to_string_decimal : forall n, int32 n ->
  signed_decimal (to_string n) n /\ (length (to_string n) <= 11)%nat.
Proof.
  intros n H. unfold to_string, int32 in *. destruct (n <? 0) eqn:E.
  - destruct (dec_numeral (Z.to_N (- n))) as (ds & H1 & H2). split.
    + replace n with (- numeral 10 ds) at 2 by lia. apply dec_minus; [apply dec_nonempty|exact H1].
    + cbn [length]. apply le_n_S. apply dec_length; [|lia].
      change (10 ^ N.of_nat 10)%N with 10000000000%N. lia.
  - destruct (dec_numeral (Z.to_N n)) as (ds & H1 & H2). split.
    + replace n with (numeral 10 ds) at 2 by lia. apply dec_plain; [apply dec_nonempty|exact H1].
    + enough (length (dec (Z.to_N n)) <= 10)%nat by lia. apply dec_length; [|lia].
      change (10 ^ N.of_nat 10)%N with 10000000000%N. lia.
Qed.

Lemma A2D_is : forall n, A2D n = if n <? 0 then 45%N :: dec (Z.to_N (- n)) else 43%N :: dec (Z.to_N n).
Proof.
  intros n. unfold A2D, to_string. destruct (n <? 0); [reflexivity|].
  destruct (dec (Z.to_N n)) as [|c s] eqn:E; [now apply dec_nonempty in E|].
  assert (Hc : is_digit c = true).
  { pose proof (dec_digits (Z.to_N n)) as H. rewrite E in H. now inversion H. }
  unfold is_digit in Hc. clear E.
  destruct (N.eq_dec c 45) as [->|Hn]; [cbv in Hc; discriminate Hc|].
  destruct c as [|p]; [reflexivity|].
  repeat (reflexivity || congruence || (destruct p as [p|p|]; try reflexivity; try congruence)).
Qed.

Lemma A2D_decimal : forall n, int32 n -> signed_decimal (A2D n) n /\ (length (A2D n) <= 11)%nat.
Proof.
  intros n H. rewrite A2D_is. unfold int32 in H. destruct (n <? 0) eqn:E.
  - destruct (dec_numeral (Z.to_N (- n))) as (ds & H1 & H2). split.
    + replace n with (- numeral 10 ds) at 2 by lia. apply dec_minus; [apply dec_nonempty|exact H1].
    + cbn [length]. apply le_n_S. apply dec_length; [|lia].
      change (10 ^ N.of_nat 10)%N with 10000000000%N. lia.
  - destruct (dec_numeral (Z.to_N n)) as (ds & H1 & H2). split.
    + replace n with (numeral 10 ds) at 2 by lia. apply dec_plus; [apply dec_nonempty|exact H1].
    + cbn [length]. apply le_n_S. apply dec_length; [|lia].
      change (10 ^ N.of_nat 10)%N with 10000000000%N. lia.
Qed.

Lemma D2A_SIGNED : forall n, int32 n -> D2A (SIGNED n) = Ok n.
Proof.
  intros n H. destruct (to_string_decimal n H) as [H1 H2]. now apply D2A_digits.
Qed.
