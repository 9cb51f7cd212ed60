(** C22, C23, C25, C26, C47: conditional-assembly arithmetic, shifts, strings, conversion
    functions and comparisons. *)
From Coq Require Import List NArith ZArith Zquot Bool Lia.
From Coq Require Import ZifyBool ZifyNat ZifyN.
From Verif Require Import Common Ebc_Model Ebc_Spec Ebc_Proof Ca_Model Ca_Spec Ca_Proof
  CaNum_Proof CaStr_Proof.
Import ListNotations.
Open Scope Z_scope.

(** * C22 *)

(** An operation is exact, or the exact result does not fit and there is an overflow message
    (and the value is 0). *)
Definition exact_or_diagnosed (exact : Z) (r : out Z) : Prop :=
  (int32 exact -> r = Ok exact) /\
  (exact > 2147483647 -> r = Fail CE013) /\ (exact < -2147483648 -> r = Fail CE014).

Lemma overflow_exact' : forall v, exact_or_diagnosed v (overflow_transform v).
Proof.
  intros v. unfold exact_or_diagnosed, overflow_transform, int32, INT_MAX, INT_MIN.
  split; [|split]; intros H.
  - replace (v >? 2147483647) with false by lia. now replace (v <? -2147483648) with false by lia.
  - now replace (v >? 2147483647) with true by lia.
  - replace (v >? 2147483647) with false by lia. now replace (v <? -2147483648) with true by lia.
Qed.

Theorem C22_add : forall a b, int32 a -> int32 b -> exact_or_diagnosed (a + b) (ca_add a b).
Proof. intros. apply overflow_exact'. Qed.
Print Assumptions C22_add.
Theorem C22_sub : forall a b, int32 a -> int32 b -> exact_or_diagnosed (a - b) (ca_sub a b).
Proof. intros. apply overflow_exact'. Qed.
Print Assumptions C22_sub.
Theorem C22_mul : forall a b, int32 a -> int32 b -> exact_or_diagnosed (a * b) (ca_mul a b).
Proof. intros. apply overflow_exact'. Qed.
Print Assumptions C22_mul.

(** Division truncates: [q] times the divisor is at most a remainder away from the dividend, on
    the side of zero. *)
Theorem C22_div : forall a b q r, int32 a -> int32 b -> b <> 0 ->
  a = b * q + r -> Z.abs r < Z.abs b -> 0 <= r * a -> exact_or_diagnosed q (ca_div a b).
Proof.
  intros a b q r Ha Hb H0 E Hr Hs. unfold ca_div. replace (b =? 0) with false by lia.
  assert (Hq : Z.quot a b = q).
  { symmetry. apply Zquot.Zquot_unique_full with r; [|exact E]. unfold Zquot.Remainder.
    destruct (Z_lt_le_dec 0 a); [left; nia|]. right. split; [assumption|].
    destruct (Z.eq_dec a 0) as [Ha0|Ha0]; [|nia]. subst a. assert (q = 0) by nia. lia. }
  rewrite Hq. apply overflow_exact'.
Qed.
Print Assumptions C22_div.

Theorem C22_div_zero : forall a, ca_div a 0 = Ok 0.
Proof. reflexivity. Qed.
Print Assumptions C22_div_zero.

Example C22_ex : ca_add 2147483647 1 = Fail CE013 /\ ca_div (-2147483648) (-1) = Fail CE013 /\
  ca_div (-7) 2 = Ok (-3) /\ exact_or_diagnosed (-3) (ca_div (-7) 2).
Proof.
  split; [reflexivity|]. split; [reflexivity|]. split; [reflexivity|].
  apply (C22_div (-7) 2 (-3) (-1)); unfold int32; cbn; lia.
Qed.

(** The 64-bit intermediate results cannot overflow. *)
Theorem C22_no_internal_overflow : forall a b, int32 a -> int32 b ->
  let fits v := - 2 ^ 63 <= v < 2 ^ 63 in
  fits (a + b) /\ fits (a - b) /\ fits (a * b) /\ (b <> 0 -> fits (Z.quot a b)).
Proof.
  intros a b Ha Hb fits. destruct (ca_exact64 a b Ha Hb) as (H1 & H2 & H3 & H4).
  unfold fits. change (2 ^ 63) with 9223372036854775808.
  split; [lia|]. split; [lia|]. split; [lia|]. intros H. specialize (H4 H). lia.
Qed.
Print Assumptions C22_no_internal_overflow.

(** Unary minus is exact except for the one operand it cannot negate, where the program's
    behaviour is undefined instead of an overflow message. *)
Theorem C22_minus : forall a, int32 a -> a <> -2147483648 -> ca_minus a = Ok (- a).
Proof.
  intros a _ H. unfold ca_minus, INT_MIN. now replace (a =? -2147483648) with false by lia.
Qed.
Print Assumptions C22_minus.
Theorem C22_minus_refuted : ca_minus (-2147483648) = Bad.
Proof. reflexivity. Qed.
Print Assumptions C22_minus_refuted.

(** * C23 *)

(** The logical shifts, for every count that is not a multiple of 64. *)
Theorem C23_SLL : forall a n, n mod 64 <> 0 ->
  shift_operands a n SLL = shift_left_logical a (n mod 64).
Proof. exact shift_sll. Qed.
Print Assumptions C23_SLL.
Theorem C23_SRL : forall a n, n mod 64 <> 0 ->
  shift_operands a n SRL = shift_right_logical a (n mod 64).
Proof. exact shift_srl. Qed.
Print Assumptions C23_SRL.

(** The right arithmetic shift is right exactly when the count is below 32 or the operand is
    negative. *)
Theorem C23_SRA : forall a n, int32 a -> n mod 64 <> 0 ->
  (shift_operands a n SRA = shift_right_arithmetic a (n mod 64) <-> n mod 64 < 32 \/ a < 0).
Proof.
  intros a n Ha Hn. rewrite shift_sra by assumption. unfold shift_right_arithmetic.
  destruct ((32 <=? n mod 64) && (0 <=? a)) eqn:E.
  - split; intros H; [exfalso|lia].
    assert (0 < 2 ^ (n mod 64)) by (apply Z.pow_pos_nonneg; lia).
    assert (0 <= a / 2 ^ (n mod 64)) by (apply Z.div_pos; lia). lia.
  - split; intros _; [lia|reflexivity].
Qed.
Print Assumptions C23_SRA.

(** The left arithmetic shift is right exactly when the operand is negative, the count is 32 or
    more, or the bit that ends up in the sign position is zero. *)
Theorem C23_SLA : forall a n, int32 a -> n mod 64 <> 0 ->
  (shift_operands a n SLA = shift_left_arithmetic a (n mod 64) <->
   a < 0 \/ 32 <= n mod 64 \/ (a / 2 ^ (31 - n mod 64)) mod 2 = 0).
Proof.
  intros a n Ha Hn. rewrite shift_sla by assumption.
  destruct (a <? 0) eqn:E; [split; intros _; [lia|reflexivity]|].
  unfold int32 in Ha. rewrite shift_sla_right by lia.
  split; intros H; [auto|]. destruct H as [H|H]; [lia|exact H].
Qed.
Print Assumptions C23_SLA.

(** In particular it multiplies by a power of two whenever the product fits. *)
Theorem C23_SLA_multiplies : forall a n, int32 a -> 0 < n < 64 -> int32 (a * 2 ^ n) ->
  shift_operands a n SLA = a * 2 ^ n.
Proof.
  intros a n Ha Hn Hf. rewrite shift_sla by (assumption || (rewrite Z.mod_small; lia)).
  rewrite (Z.mod_small n) by lia. unfold int32 in *.
  unfold shift_left_arithmetic, signed_of.
  change (2 ^ 31) with 2147483648. change (2 ^ 32) with 4294967296.
  set (v := a * 2 ^ n) in *.
  assert (Hs : a < 0 -> v < 0)
    by (intros; subst v; assert (0 < 2 ^ n) by (apply Z.pow_pos_nonneg; lia); nia).
  clearbody v.
  destruct (a <? 0) eqn:E.
  - rewrite (Z.mod_eq v) by lia.
    assert (v / 2147483648 = -1); [|lia]. symmetry. apply Z.div_unique with (v + 2147483648); lia.
  - rewrite Z.mod_small; lia.
Qed.
Print Assumptions C23_SLA_multiplies.

Example C23_ex : shift_operands (-8) 2 SRA = -2 /\ shift_operands (-1) 28 SRL = 15 /\
  shift_operands 3 4 SLA = 48 /\ shift_operands (-1) 31 SLL = -2147483648 /\ 2 mod 64 <> 0.
Proof. repeat split; discriminate || reflexivity. Qed.

(** A shift by zero gives the count instead of the operand. *)
Theorem C23_zero_refuted : forall o a n, n mod 64 = 0 -> shift_operands a n o = n.
Proof.
  intros o a n H. unfold shift_operands. rewrite land_63, H. reflexivity.
Qed.
Print Assumptions C23_zero_refuted.
Theorem C23_SRA_refuted : forall a n, int32 a -> 0 <= a -> 32 <= n mod 64 ->
  shift_operands a n SRA = -1.
Proof.
  intros a n Ha H Hn. rewrite shift_sra by (assumption || lia).
  now replace ((32 <=? n mod 64) && (0 <=? a)) with true by lia.
Qed.
Print Assumptions C23_SRA_refuted.
Theorem C23_SLA_refuted : shift_operands 1073741824 1 SLA = -2147483648 /\
  shift_left_arithmetic 1073741824 1 = 0.
Proof. split; reflexivity. Qed.
Print Assumptions C23_SLA_refuted.

(** * C25 *)

(** A substring inside the string. *)
Theorem C25_substring : forall s b n, size s <= 4064 -> 1 <= b <= size s -> 0 <= n ->
  exists r, substring s b (Some n) = Ok r /\ cut s b n r.
Proof.
  intros s b n Hs Hb Hn. unfold substring, MAX_STR_SIZE.
  replace (size s >? 4064) with false by lia.
  replace ((b <? 0) || (n <? 0) || (b =? 0) && (n >? 0)) with false by lia.
  replace (b >? size s) with false by lia.
  destruct (n =? 0) eqn:E; cbn [negb].
  - exists []. split; [reflexivity|]. replace n with 0 by lia. apply cut_empty. lia.
  - eexists. split; [reflexivity|]. apply firstn_skipn_cut; lia.
Qed.
Print Assumptions C25_substring.

(** With the length omitted it is everything from position [b] on. *)
Theorem C25_substring_rest : forall s b, size s <= 4064 -> 1 <= b <= size s ->
  exists a r, substring s b None = Ok r /\ s = a ++ r /\ Z.of_nat (length a) = b - 1.
Proof.
  intros s b Hs Hb. unfold substring, MAX_STR_SIZE.
  replace (size s >? 4064) with false by lia.
  unfold INT_MAX. replace (size s - b + 1 >? 2147483647) with false by lia. cbv iota beta.
  replace ((b <? 0) || (size s - b + 1 <? 0) || (b =? 0) && (size s - b + 1 >? 0)) with false by lia.
  replace (b >? size s) with false by lia.
  replace (size s - b + 1 =? 0) with false by lia. cbn [negb]. unfold size in *.
  exists (firstn (Z.to_nat (b - 1)) s), (skipn (Z.to_nat (b - 1)) s). split; [|split].
  - f_equal. apply firstn_all2. rewrite skipn_length. lia.
  - symmetry. apply firstn_skipn.
  - rewrite firstn_length. lia.
Qed.
Print Assumptions C25_substring_rest.

(** All other arguments give a message, except for position 0 with length 0, which is the empty
    string. *)
Theorem C25_substring_diagnosed : forall s b n, size s <= 4064 ->
  ~ (1 <= b <= size s /\ 0 <= n) -> ~ (b = 0 /\ n = 0) ->
  substring s b (Some n) = Fail CE008 \/ substring s b (Some n) = Fail CE009.
Proof.
  intros s b n Hs H1 H2. unfold substring, MAX_STR_SIZE.
  replace (size s >? 4064) with false by lia.
  destruct ((b <? 0) || (n <? 0) || (b =? 0) && (n >? 0)) eqn:E; [auto|].
  assert (0 <= size s) by (unfold size; lia).
  replace (b >? size s) with true by lia. auto.
Qed.
Print Assumptions C25_substring_diagnosed.
Theorem C25_substring_rest_diagnosed : forall s b, size s <= 4064 ->
  ~ (1 <= b <= size s) -> -2147479582 <= b ->
  substring s b None = Fail CE008 \/ substring s b None = Fail CE009.
Proof.
  intros s b Hs H1 H2. unfold substring, MAX_STR_SIZE.
  replace (size s >? 4064) with false by lia. unfold INT_MAX.
  assert (0 <= size s) by (unfold size; lia).
  replace (size s - b + 1 >? 2147483647) with false by lia. cbv iota beta.
  destruct ((b <? 0) || (size s - b + 1 <? 0) || (b =? 0) && (size s - b + 1 >? 0)) eqn:E; [auto|].
  destruct (b >? size s) eqn:E2; [auto|]. exfalso. lia.
Qed.
Print Assumptions C25_substring_rest_diagnosed.

Example C25_ex_sub : substring (s2b "ABCDE") 2 (Some 3) = Ok (s2b "BCD") /\
  substring (s2b "ABCDE") 4 (Some 9) = Ok (s2b "DE") /\ substring (s2b "ABCDE") 6 (Some 1) = Fail CE009 /\
  substring (s2b "ABCDE") 3 None = Ok (s2b "CDE").
Proof. repeat split. Qed.

(** A very negative position with the length omitted overflows an [int]. *)
Theorem C25_substring_rest_refuted : forall s, size s <= 4064 ->
  substring s (-2147483648) None = Bad.
Proof.
  intros s Hs. unfold substring, MAX_STR_SIZE.
  replace (size s >? 4064) with false by lia. unfold INT_MAX.
  assert (0 <= size s) by (unfold size; lia).
  now replace (size s - -2147483648 + 1 >? 2147483647) with true by lia.
Qed.
Print Assumptions C25_substring_rest_refuted.

(** Positions count bytes of the UTF-8 text: one "character" of a two-byte character is half of
    it. *)
Theorem C25_characters_refuted : substring (text [233%N]) 1 (Some 1) = Ok [195%N] /\
  ~ exists cp, text [cp] = [195%N].
Proof.
  split; [reflexivity|]. intros [cp H]. unfold text in H. cbn [flat_map] in H.
  rewrite app_nil_r in H. unfold utf8 in H.
  destruct (cp <? 128)%N eqn:E; [injection H as ->; discriminate E|].
  destruct (cp <? 2048)%N; [discriminate|]. destruct (cp <? 65536)%N; discriminate.
Qed.
Print Assumptions C25_characters_refuted.

Theorem C25_duplicate : forall k s, 0 <= k -> size s * k <= 4064 ->
  duplicate k s = Ok (concat (repeat s (Z.to_nat k))).
Proof. exact duplicate_is. Qed.
Print Assumptions C25_duplicate.
Theorem C25_duplicate_diagnosed : forall k s,
  (k < 0 -> duplicate k s = Fail CE010) /\
  (0 <= k -> size s * k > 4064 -> duplicate k s = Fail CE011).
Proof.
  intros k s. unfold duplicate, MAX_STR_SIZE. split; intros H.
  - now replace (k <? 0) with true by lia.
  - intros H2. replace (k <? 0) with false by lia. now replace (size s * k >? 4064) with true by lia.
Qed.
Print Assumptions C25_duplicate_diagnosed.

(** A string term with substring and duplication: the repetition of the part, or a message;
    undefined only as above. *)
Theorem C25_term : forall s b n k, size s <= 4064 -> 1 <= b <= size s -> 0 <= n -> 0 <= k ->
  exists r, cut s b n r /\
    (size r * k <= 4064 -> string_term s (Some (b, Some n)) (Some k) = Ok (concat (repeat r (Z.to_nat k)))) /\
    (size r * k > 4064 -> string_term s (Some (b, Some n)) (Some k) = Fail CE011).
Proof.
  intros s b n k Hs Hb Hn Hk. destruct (C25_substring s b n Hs Hb Hn) as (r & E & C).
  exists r. split; [exact C|]. unfold string_term, MAX_STR_SIZE.
  replace (size s >? 4064) with false by lia. rewrite E. split; intros H.
  - now apply duplicate_is.
  - now apply C25_duplicate_diagnosed.
Qed.
Print Assumptions C25_term.
Theorem C25_term_plain : forall s, size s <= 4064 -> string_term s None None = Ok s.
Proof.
  intros s Hs. unfold string_term, MAX_STR_SIZE. now replace (size s >? 4064) with false by lia.
Qed.
Print Assumptions C25_term_plain.

Lemma substring_bounded : forall s b n r, substring s b n = Ok r -> size r <= 4064.
Proof.
  intros s b n r H. unfold substring, MAX_STR_SIZE in H.
  destruct (size s >? 4064) eqn:E; [discriminate|].
  match type of H with (match ?x with _ => _ end = _) => destruct x as [m|]; [|discriminate] end.
  destruct ((b <? 0) || (m <? 0) || (b =? 0) && (m >? 0)); [discriminate|].
  destruct (b >? size s); [discriminate|].
  destruct (negb (m =? 0)); injection H as <-; unfold size in *.
  - rewrite firstn_length, skipn_length. lia.
  - cbn. lia.
Qed.

(** No string value exceeds 4064. *)
Theorem C25_bounded : forall s sub k r, string_term s sub k = Ok r -> size r <= 4064.
Proof.
  intros s sub k r H. unfold string_term, MAX_STR_SIZE in H.
  destruct (size s >? 4064) eqn:E; [discriminate|].
  destruct sub as [[b n]|].
  - destruct (substring s b n) as [t|d|] eqn:E2; try discriminate.
    destruct k; [now apply duplicate_bounded in H|]. injection H as <-.
    now apply substring_bounded in E2.
  - destruct k; [now apply duplicate_bounded in H|]. injection H as <-. lia.
Qed.
Print Assumptions C25_bounded.
Theorem C25_concatenation : forall a b,
  (size a + size b <= 4064 -> ca_conc a b = Ok (a ++ b)) /\
  (size a + size b > 4064 -> ca_conc a b = Fail CE011).
Proof.
  intros a b. unfold ca_conc, MAX_STR_SIZE.
  destruct (size a + size b >? 4064) eqn:E; split; intros H; try reflexivity; lia.
Qed.
Print Assumptions C25_concatenation.

Lemma of_bits_bounded : forall n f s r, (0 < n)%nat -> (forall v, (length (f v) <= 2)%nat) ->
  of_bits n f s = Ok r -> (length r <= (length s + (n - 1)) / n * 2)%nat.
Proof.
  intros n f s r Hn Hf H. destruct (of_bits_only _ _ _ _ Hn H) as [ds Hd].
  destruct (of_bits_digits n f s ds Hn Hd) as (vs & E1 & E2 & _).
  rewrite E1 in H. injection H as <-. rewrite <- E2. now apply flat_map_bound.
Qed.

Lemma ok_inj : forall A (a b : A), Ok a = Ok b -> a = b.
Proof. congruence. Qed.

Theorem C25_functions_bounded : forall f s r, size s <= 4064 ->
  In f [B2C; B2D; B2X; C2B; C2D; C2X; D2B; D2C; D2X; DOUBLE; X2B; X2C; X2D] ->
  f s = Ok r -> size r <= 4064.
Proof.
  intros f s r Hs Hf H.
  assert (HA : forall g, (forall n, (length (g n) <= 32)%nat) -> forall o, then_a o g = Ok r -> size r <= 4064).
  { intros g Hg o Ho. destruct o as [v|d|]; try discriminate. injection Ho as <-.
    unfold size. specialize (Hg v). lia. }
  assert (HD : forall o, then_a o A2D = Ok r -> (exists v, o = Ok v /\ int32 v) -> size r <= 4064).
  { intros o Ho (v & -> & Hv). injection Ho as <-. destruct (A2D_decimal v Hv) as [_ Hl].
    unfold size. lia. }
  assert (HS : forall v, 0 <= v < W -> int32 (to_signed v)).
  { intros v Hv. unfold to_signed, int32, W in *. destruct (v <? 2147483648) eqn:E; lia. }
  assert (HU : forall base t v, whole_unsigned base t = Some v -> 2 <= base -> 0 <= v < W).
  { intros base t v Hv Hb. unfold whole_unsigned in Hv. destruct t as [|c t]; [discriminate|].
    destruct (digits base 0 (c :: t)) as [x|] eqn:E; [|discriminate].
    destruct (x <? W) eqn:El; [|discriminate]. injection Hv as <-. split; [|lia].
    assert (Hnn : forall t acc x, 0 <= acc -> digits base acc t = Some x -> 0 <= x).
    { induction t0 as [|d t0 IH]; intros acc y Ha Hy; cbn [digits] in Hy; [injection Hy as <-; exact Ha|].
      destruct (digit base d) as [e|] eqn:Ed; [|discriminate]. apply IH in Hy; [exact Hy|].
      assert (0 <= e); [|nia]. unfold digit in Ed. cbv zeta in Ed.
      repeat match type of Ed with context [if ?b then _ else _] =>
        destruct b eqn:? end; try discriminate; injection Ed as <-; lia. }
    exact (Hnn _ _ _ (Z.le_refl 0) E). }
  unfold size in Hs.
  cbn [In] in Hf.
  destruct Hf as [<-|[<-|[<-|[<-|[<-|[<-|[<-|[<-|[<-|[<-|[<-|[<-|[<-|[]]]]]]]]]]]]]].
  - apply of_bits_bounded in H; [|lia|intros; apply to_ascii_size].
    unfold size. cbn [Nat.sub] in H.
    assert ((length s + 7) / 8 <= 4071 / 8)%nat by (apply Nat.div_le_mono; lia).
    change (4071 / 8)%nat with 508%nat in *. lia.
  - unfold B2D in H. destruct (B2A s) as [v|d|] eqn:E; try discriminate.
    apply (HD _ H). exists v. split; [reflexivity|]. unfold B2A in E.
    destruct s as [|c s]; [injection E as <-; unfold int32; lia|].
    destruct (size (c :: s) >? 32); [discriminate|].
    destruct (whole_unsigned 2 (c :: s)) as [x|] eqn:Ex; [|discriminate]. injection E as <-.
    apply HS. now apply (HU _ _ _ Ex).
  - apply of_bits_bounded in H; [|lia|intros; cbn [length]; lia].
    unfold size. cbn [Nat.sub] in H.
    assert ((length s + 3) / 4 <= 4067 / 4)%nat by (apply Nat.div_le_mono; lia).
    change (4067 / 4)%nat with 1016%nat in *. lia.
  - unfold C2B in H. destruct s as [|c s]; [injection H as <-; cbn; lia|].
    unfold MAX_STR_SIZE in H. destruct (size (c :: s) * 8 >? 4064) eqn:E; [discriminate|].
    destruct (decode until_end 0 (c :: s)) as [cs|] eqn:E2; [|discriminate]. apply ok_inj in H; subst r.
    apply decode_length in E2.
    pose proof (flat_map_bound (fun c => bits 8 (Z.of_N (a2e c))) 8 cs) as Hb.
    specialize (Hb ltac:(intros; cbv beta; rewrite bits_length; apply le_n)). unfold size in *.
    lia.
  - unfold C2D in H. destruct (C2A s) as [v|d|] eqn:E; try discriminate.
    apply (HD _ H). exists v. split; [reflexivity|]. unfold C2A in E.
    destruct s as [|c s]; [injection E as <-; unfold int32; lia|].
    destruct (size (c :: s) >? 4); [discriminate|].
    destruct (decode below_end 0 (c :: s)) as [cs|]; [|discriminate]. injection E as <-.
    apply HS. clear. destruct cs as [|x cs] using rev_ind; [cbn; split; [lia|reflexivity]|].
    rewrite fold_left_app. cbn [fold_left]. apply Z.mod_pos_bound. reflexivity.
  - unfold C2X in H. destruct s as [|c s]; [injection H as <-; cbn; lia|].
    unfold MAX_STR_SIZE in H. destruct (size (c :: s) * 2 >? 4064) eqn:E; [discriminate|].
    destruct (decode until_end 0 (c :: s)) as [cs|] eqn:E2; [|discriminate]. apply ok_inj in H; subst r.
    apply decode_length in E2.
    pose proof (flat_map_bound (fun c => hex 2 (Z.of_N (a2e c))) 2 cs) as Hb.
    specialize (Hb ltac:(intros; cbv beta; rewrite hex_length; apply le_n)). unfold size in *. lia.
  - unfold D2B in H. destruct s as [|c s]; [injection H as <-; cbn; lia|].
    apply (HA A2B) in H; [exact H|]. intros n. unfold A2B. rewrite bits_length. lia.
  - unfold D2C in H. destruct s as [|c s]; [discriminate|].
    apply (HA A2C) in H; [exact H|]. intros n. unfold A2C.
    pose proof (flat_map_bound (fun i => to_ascii (A2C_byte n i)) 2 [0; 1; 2; 3]) as Hb.
    specialize (Hb ltac:(intros; apply to_ascii_size)). cbn [length] in Hb. lia.
  - unfold D2X in H. destruct s as [|c s]; [discriminate|].
    apply (HA A2X) in H; [exact H|]. intros n. unfold A2X. rewrite hex_length. lia.
  - unfold DOUBLE, MAX_STR_SIZE in H. destruct (size (double_chars s) >? 4064) eqn:E; [discriminate|].
    apply ok_inj in H; subst r. lia.
  - unfold X2B in H. destruct s as [|c s]; [injection H as <-; cbn; lia|].
    unfold MAX_STR_SIZE in H. destruct (size (c :: s) * 4 >? 4064) eqn:E; [discriminate|].
    destruct (X2B_digits (c :: s)) as [r'|] eqn:E2; [|discriminate]. apply ok_inj in H; subst r'.
    destruct (X2B_digits_only _ _ E2) as [hs Hh]. rewrite (X2B_digits_is _ _ Hh) in E2.
    assert (Er : r = flat_map (bits 4) hs) by congruence. rewrite Er.
    pose proof (flat_map_bound (bits 4) 4 hs) as Hb.
    specialize (Hb ltac:(intros; cbv beta; rewrite bits_length; apply le_n)).
    pose proof (Forall2_length Hh). unfold size in *. lia.
  - unfold X2C in H. destruct s as [|c s]; [injection H as <-; cbn; lia|].
    destruct (X2C_pairs (pad 2 (c :: s))) as [r'|] eqn:E; [|discriminate]. apply ok_inj in H; subst r.
    destruct (pad_length 2 (c :: s) ltac:(lia)) as [Hl _]. cbn [Nat.sub] in Hl.
    apply (X2C_pairs_bound ((length (c :: s) + 1) / 2)) in E; [|lia].
    assert ((length (c :: s) + 1) / 2 <= 4065 / 2)%nat by (apply Nat.div_le_mono; lia).
    change (4065 / 2)%nat with 2032%nat in *. unfold size. lia.
  - unfold X2D in H. destruct (X2A s) as [v|d|] eqn:E; try discriminate.
    apply (HD _ H). exists v. split; [reflexivity|]. unfold X2A in E.
    destruct s as [|c s]; [injection E as <-; unfold int32; lia|].
    destruct (size (c :: s) >? 8); [discriminate|].
    destruct (whole_unsigned 16 (c :: s)) as [x|] eqn:Ex; [|discriminate]. injection E as <-.
    apply HS. now apply (HU _ _ _ Ex).
Qed.
Print Assumptions C25_functions_bounded.

(** * C26 *)

(** What the conversions from text accept, and the number they give. *)
Theorem C26_B2A : forall s ds, Forall2 bin_digit s ds -> (length s <= 32)%nat ->
  B2A s = Ok (signed_of (numeral 2 ds)).
Proof. exact B2A_digits. Qed.
Print Assumptions C26_B2A.
Theorem C26_X2A : forall s ds, Forall2 hex_digit s ds -> (length s <= 8)%nat ->
  X2A s = Ok (signed_of (numeral 16 ds)).
Proof. exact X2A_digits. Qed.
Print Assumptions C26_X2A.
Theorem C26_D2A : forall s v, signed_decimal s v -> int32 v -> (length s <= 11)%nat -> D2A s = Ok v.
Proof. exact D2A_digits. Qed.
Print Assumptions C26_D2A.
Theorem C26_rejected : forall s,
  (~ ((exists ds, Forall2 bin_digit s ds) /\ (length s <= 32)%nat) -> B2A s = Fail CE007) /\
  (~ ((exists ds, Forall2 hex_digit s ds) /\ (length s <= 8)%nat) -> X2A s = Fail CE007) /\
  (s <> [] -> ~ (exists v, signed_decimal s v /\ int32 v /\ (length s <= 11)%nat) -> D2A s = Fail CE007).
Proof.
  intros s. split; [|split].
  - intros H. destruct (B2A_total s) as [[v E]|E]; [|exact E]. exfalso. apply H.
    destruct (B2A_only s v E). auto.
  - intros H. destruct (X2A_total s) as [[v E]|E]; [|exact E]. exfalso. apply H.
    destruct (X2A_only s v E). auto.
  - intros Hs H. destruct (D2A_total s) as [[v E]|E]; [|exact E]. exfalso. apply H.
    destruct (D2A_only s v E) as [[H1 _]|H1]; [contradiction|]. exists v. exact H1.
Qed.
Print Assumptions C26_rejected.

(** What the conversions to text write. *)
Theorem C26_A2B : forall n, exists ds,
  Forall2 bin_digit (A2B n) ds /\ length (A2B n) = 32%nat /\ numeral 2 ds = register n.
Proof. exact A2B_digits. Qed.
Print Assumptions C26_A2B.
Theorem C26_A2X : forall n, exists ds,
  Forall2 upper_hex_digit (A2X n) ds /\ length (A2X n) = 8%nat /\ numeral 16 ds = register n.
Proof. exact A2X_digits. Qed.
Print Assumptions C26_A2X.
(** A2D always writes a sign, SIGNED only a minus sign; neither writes leading zeros. *)
Theorem C26_A2D : forall n, int32 n -> exists sign s,
  A2D n = sign :: s /\ signed_decimal (A2D n) n /\ sign = (if n <? 0 then 45%N else 43%N) /\
  SIGNED n = (if n <? 0 then A2D n else s) /\ (n <> 0 -> hd 48%N s <> 48%N) /\ (n = 0 -> s = [48%N]).
Proof.
  intros n H. destruct (A2D_decimal n H) as [Hd _].
  exists (if n <? 0 then 45%N else 43%N), (dec (Z.to_N (Z.abs n))).
  rewrite A2D_is in *. unfold SIGNED, to_string.
  destruct (n <? 0) eqn:E.
  - replace (Z.abs n) with (- n) by lia.
    repeat split; auto; [intros Hn; apply dec_lead; lia|lia].
  - replace (Z.abs n) with n by lia.
    repeat split; auto; [intros Hn; apply dec_lead; lia|intros ->; reflexivity].
Qed.
Print Assumptions C26_A2D.
Theorem C26_A2C : forall n, exists bs, A2C n = flat_map (fun b => utf8 (e2a (Z.to_N b))) bs /\
  Forall (fun b => 0 <= b < 256) bs /\ length bs = 4%nat /\ numeral 256 bs = register n.
Proof.
  intros n. destruct (A2C_chars n) as (bs & H1 & H2 & H3 & H4). exists bs.
  split; [|auto]. rewrite H1. unfold chars. apply flat_map_ext. intros. apply to_ascii_utf8.
Qed.
Print Assumptions C26_A2C.

(** The round trips. *)
Theorem C26_round_trips : forall n, int32 n ->
  B2A (A2B n) = Ok n /\ D2A (A2D n) = Ok n /\ X2A (A2X n) = Ok n /\ D2A (SIGNED n) = Ok n.
Proof.
  intros n H. split; [|split; [|split]].
  - destruct (A2B_digits n) as (ds & H1 & H2 & H3). rewrite (B2A_digits _ ds H1) by lia.
    rewrite H3. now rewrite signed_register.
  - destruct (A2D_decimal n H) as [H1 H2]. now apply D2A_digits.
  - destruct (A2X_digits n) as (ds & H1 & H2 & H3).
    rewrite (X2A_digits _ ds (upper_is_hex _ _ H1)) by lia. rewrite H3. now rewrite signed_register.
  - now apply D2A_SIGNED.
Qed.
Print Assumptions C26_round_trips.

(** C2A reads back what A2C wrote exactly when the four characters are ASCII; C2A counts bytes of
    UTF-8, so otherwise the text is "too long". *)
Theorem C26_C2A_A2C : forall n, int32 n ->
  (length (A2C n) = 4%nat -> C2A (A2C n) = Ok n) /\
  (length (A2C n) <> 4%nat -> C2A (A2C n) = Fail CE007).
Proof.
  intros n H. destruct (A2C_chars n) as (bs & H1 & H2 & H3 & H4). rewrite H1. split; intros Hl.
  - rewrite C2A_chars by (assumption || lia). rewrite H4. now rewrite signed_register.
  - apply C2A_long. pose proof (chars_size bs). lia.
Qed.
Print Assumptions C26_C2A_A2C.
Example C26_ex_A2C : length (A2C (-1044200575)) = 4%nat /\ A2C (-1044200575) = s2b "ABCa".
Proof. split; reflexivity. Qed.
Theorem C26_C2A_A2C_refuted : C2A (A2C (-1)) = Fail CE007.
Proof. reflexivity. Qed.
Print Assumptions C26_C2A_A2C_refuted.

(** C2A of up to four bytes' worth of characters is the number made of their EBCDIC codes. *)
Theorem C26_C2A : forall bs, Forall (fun b => 0 <= b < 256) bs ->
  (length (flat_map (fun b => utf8 (e2a (Z.to_N b))) bs) <= 4)%nat ->
  C2A (flat_map (fun b => utf8 (e2a (Z.to_N b))) bs) = Ok (signed_of (numeral 256 bs)).
Proof.
  intros bs H. replace (flat_map (fun b => utf8 (e2a (Z.to_N b))) bs) with (chars bs).
  - intros Hl. now apply C2A_chars.
  - unfold chars. apply flat_map_ext. intros. apply to_ascii_utf8.
Qed.
Print Assumptions C26_C2A.

(** Binary and hexadecimal. *)
Theorem C26_B2X : forall s ds, Forall2 bin_digit s ds ->
  exists r hs, B2X s = Ok r /\ Forall2 upper_hex_digit r hs /\
    length r = ((length s + 3) / 4)%nat /\ numeral 16 hs = numeral 2 ds.
Proof. exact B2X_digits. Qed.
Print Assumptions C26_B2X.
Theorem C26_X2B : forall s hs, Forall2 hex_digit s hs -> (length s <= 1016)%nat ->
  exists r ds, X2B s = Ok r /\ Forall2 bin_digit r ds /\ length r = (length s * 4)%nat /\
    numeral 2 ds = numeral 16 hs.
Proof. exact X2B_ok. Qed.
Print Assumptions C26_X2B.
Theorem C26_X2B_B2X : forall s ds, Forall2 bin_digit s ds -> (length s <= 4064)%nat ->
  exists x k, B2X s = Ok x /\ X2B x = Ok (repeat 48%N k ++ s) /\ (k < 4)%nat.
Proof.
  intros s ds H Hl. destruct (X2B_B2X s ds H Hl) as (x & E1 & E2).
  exists x, (pad_size 4 s). split; [exact E1|]. split; [now rewrite <- pad_is|].
  unfold pad_size. destruct (Nat.eqb (length s mod 4) 0) eqn:E; [lia|]. apply Nat.eqb_neq in E. lia.
Qed.
Print Assumptions C26_X2B_B2X.
Theorem C26_B2X_X2B : forall s hs, Forall2 upper_hex_digit s hs -> (length s <= 1016)%nat ->
  exists b, X2B s = Ok b /\ B2X b = Ok s.
Proof.
  intros s hs H Hl. destruct (B2X_X2B s hs (upper_is_hex _ _ H) Hl) as (b & E1 & E2).
  exists b. split; [exact E1|]. rewrite E2. f_equal.
  apply (upper_fun _ _ hs); [|exact H]. apply upper_digits. now apply upper_is_hex.
Qed.
Print Assumptions C26_B2X_X2B.

(** Characters and digits: [chars bs] is the text of EBCDIC bytes [bs]. *)
Theorem C26_X2C : forall s hs, Forall2 hex_digit s hs ->
  exists bs, X2C s = Ok (flat_map (fun b => utf8 (e2a (Z.to_N b))) bs) /\
    Forall (fun b => 0 <= b < 256) bs /\ length bs = ((length s + 1) / 2)%nat /\
    numeral 256 bs = numeral 16 hs.
Proof.
  intros s hs H. destruct (X2C_digits s hs H) as (bs & E1 & E2 & E3 & E4). exists bs.
  split; [|auto]. rewrite E1. f_equal. unfold chars. apply flat_map_ext. intros. apply to_ascii_utf8.
Qed.
Print Assumptions C26_X2C.
Theorem C26_B2C : forall s ds, Forall2 bin_digit s ds ->
  exists bs, B2C s = Ok (flat_map (fun b => utf8 (e2a (Z.to_N b))) bs) /\
    Forall (fun b => 0 <= b < 256) bs /\ length bs = ((length s + 7) / 8)%nat /\
    numeral 256 bs = numeral 2 ds.
Proof.
  intros s hs H. destruct (B2C_digits s hs H) as (bs & E1 & E2 & E3 & E4). exists bs.
  split; [|auto]. rewrite E1. f_equal. unfold chars. apply flat_map_ext. intros. apply to_ascii_utf8.
Qed.
Print Assumptions C26_B2C.
Theorem C26_C2X_X2C : forall s hs c, Forall2 upper_hex_digit s hs -> X2C s = Ok c ->
  size c <= 2032 -> C2X c = Ok (if Nat.even (length s) then s else 48%N :: s).
Proof.
  intros s hs c H Hc Hl. rewrite (C2X_X2C s hs c (upper_is_hex _ _ H) Hc Hl). f_equal.
  assert (Hu : UPPER s = s).
  { apply (upper_fun _ _ hs); [|exact H]. apply upper_digits. now apply upper_is_hex. }
  rewrite pad_is. unfold UPPER in *. rewrite map_app, Hu. unfold pad_size.
  pose proof (Nat.mod_upper_bound (length s) 2 ltac:(lia)) as Hm.
  pose proof (Nat.div_mod (length s) 2 ltac:(lia)) as Hd.
  destruct (Nat.even (length s)) eqn:E.
  - apply Nat.even_spec in E as [m E]. replace (Nat.eqb (length s mod 2) 0) with true by lia. reflexivity.
  - assert (Ho : Nat.odd (length s) = true) by (unfold Nat.odd; now rewrite E).
    apply Nat.odd_spec in Ho as [m Ho].
    replace (Nat.eqb (length s mod 2) 0) with false by lia.
    replace (2 - length s mod 2)%nat with 1%nat by lia. reflexivity.
Qed.
Print Assumptions C26_C2X_X2C.
Theorem C26_X2C_C2X : forall bs t, Forall (fun b => 0 <= b < 256) bs ->
  t = flat_map (fun b => utf8 (e2a (Z.to_N b))) bs -> size t <= 2032 ->
  exists x, C2X t = Ok x /\ X2C x = Ok t /\ length x = (length bs * 2)%nat.
Proof.
  intros bs t H Ht Hl.
  assert (E : t = chars bs)
    by (rewrite Ht; unfold chars; apply flat_map_ext; intros; symmetry; apply to_ascii_utf8).
  subst t. rewrite E in *. clear E.
  destruct (X2C_C2X bs H Hl) as (x & E1 & E2). exists x. split; [exact E1|]. split; [exact E2|].
  destruct (C2X_chars bs H Hl) as (r & hs & F1 & _ & F3 & _). congruence.
Qed.
Print Assumptions C26_X2C_C2X.
Theorem C26_B2C_C2B : forall bs t, Forall (fun b => 0 <= b < 256) bs ->
  t = flat_map (fun b => utf8 (e2a (Z.to_N b))) bs -> size t <= 508 ->
  exists x, C2B t = Ok x /\ B2C x = Ok t /\ length x = (length bs * 8)%nat.
Proof.
  intros bs t H Ht Hl.
  assert (E : t = chars bs)
    by (rewrite Ht; unfold chars; apply flat_map_ext; intros; symmetry; apply to_ascii_utf8).
  subst t. rewrite E in *. clear E.
  destruct (B2C_C2B bs H Hl) as (x & E1 & E2). exists x. split; [exact E1|]. split; [exact E2|].
  destruct (C2B_chars bs H Hl) as (r & hs & F1 & _ & F3 & _). congruence.
Qed.
Print Assumptions C26_B2C_C2B.
Example C26_ex_strings : X2C (s2b "C1F") = Ok [12; 31]%N /\ C2X (s2b "A1") = Ok (s2b "C1F1") /\
  X2B (s2b "a5") = Ok (s2b "10100101") /\ B2X (s2b "110100101") = Ok (s2b "1A5").
Proof. repeat split. Qed.

(** X2C looks at every other character only: a wrong second digit is swallowed. *)
Theorem C26_X2C_refuted : X2C (s2b "CZ") = Ok (to_ascii 12) /\ ~ exists hs, Forall2 hex_digit (s2b "CZ") hs.
Proof.
  split; [reflexivity|]. intros [hs H]. inversion H as [|? ? ? ? _ H']; subst.
  inversion H' as [|? ? ? ? Hz _]; subst. unfold hex_digit, upper_hex_digit in Hz. lia.
Qed.
Print Assumptions C26_X2C_refuted.

(** C2X and C2B of text that ends inside a character run past its end. *)
Theorem C26_C2X_refuted : forall x y, (224 <= x < 248)%N -> (128 <= y < 192)%N ->
  C2X [x; y] = Bad /\ C2B [x; y] = Bad.
Proof.
  intros x y Hx Hy.
  assert (E : decode until_end 0 [x; y] = None).
  { cbn [decode]. unfold to_pseudoascii, peek. cbn [nth].
    replace (x <? 128)%N with false by lia. replace (y =? 0)%N with false by lia.
    by_table (fun x => (x <? 224) || (248 <=? x) ||
       (negb (N.land x 224 =? 192) && ((N.land x 240 =? 224) || (N.land x 248 =? 240))))%N 256%nat as T.
    specialize (T x ltac:(lia)).
    replace (x <? 224)%N with false in T by lia. replace (248 <=? x)%N with false in T by lia.
    cbn [orb] in T. apply andb_true_iff in T as [T1 T2]. apply negb_true_iff in T1. rewrite T1.
    destruct (N.land x 240 =? 224)%N; [reflexivity|]. cbn [orb] in T2. rewrite T2. reflexivity. }
  split.
  - unfold C2X. change (size [x; y] * 2 >? MAX_STR_SIZE) with false. now rewrite E.
  - unfold C2B. change (size [x; y] * 8 >? MAX_STR_SIZE) with false. now rewrite E.
Qed.
Print Assumptions C26_C2X_refuted.

(** The predicates hold only for, and for all of, the strings the conversions accept (ISDEC: the
    ones written without a sign). *)
Theorem C26_ISBIN : forall s, s <> [] ->
  (ISBIN s = Ok 1 <-> exists v, B2A s = Ok v) /\ (ISBIN s = Ok 1 \/ ISBIN s = Ok 0).
Proof.
  intros s Hs.
  assert (Hb : forall s, forallb (fun c => (c =? 48) || (c =? 49))%N s = true <-> exists ds, Forall2 bin_digit s ds).
  { clear. induction s as [|c s IH]; cbn [forallb]; split; intros H.
    - exists []. constructor.
    - reflexivity.
    - apply andb_true_iff in H as [H1 H2]. apply IH in H2 as [ds Hd].
      exists (Z.of_N c - 48 :: ds). constructor; [unfold bin_digit; lia|exact Hd].
    - destruct H as [ds H]. inversion H as [|? ? ? ? Hc Hd]; subst. apply andb_true_iff.
      split; [unfold bin_digit in Hc; lia|]. apply IH. eauto. }
  unfold ISBIN. destruct s as [|c s]; [congruence|]. split.
  - split.
    + destruct ((size (c :: s) <=? 32) && forallb _ (c :: s)) eqn:E; [|discriminate]. intros _.
      apply andb_true_iff in E as [E1 E2]. apply Hb in E2 as [ds Hd]. unfold size in E1.
      eexists. apply B2A_digits; [exact Hd|lia].
    + intros [v Hv]. apply B2A_only in Hv as [H1 H2]. apply Hb in H2. rewrite H2.
      unfold size. now replace (Z.of_nat (length (c :: s)) <=? 32) with true by lia.
  - destruct (_ && _); auto.
Qed.
Print Assumptions C26_ISBIN.
Theorem C26_ISHEX : forall s, s <> [] ->
  (ISHEX s = Ok 1 <-> exists v, X2A s = Ok v) /\ (ISHEX s = Ok 1 \/ ISHEX s = Ok 0).
Proof.
  intros s Hs.
  assert (Hb : forall s, forallb is_xdigit s = true <-> exists ds, Forall2 hex_digit s ds).
  { clear. induction s as [|c s IH]; cbn [forallb]; split; intros H.
    - exists []. constructor.
    - reflexivity.
    - apply andb_true_iff in H as [H1 H2]. apply IH in H2 as [ds Hd].
      unfold is_xdigit in H1. destruct (digit 16 c) as [d|] eqn:E; [|discriminate].
      exists (d :: ds). constructor; [now apply digit_hex|exact Hd].
    - destruct H as [ds H]. inversion H as [|? d ? ? Hc Hd]; subst. apply andb_true_iff.
      split; [unfold is_xdigit; now rewrite (proj2 (digit_hex c d) Hc)|]. apply IH. eauto. }
  unfold ISHEX. destruct s as [|c s]; [congruence|]. split.
  - split.
    + destruct ((size (c :: s) <=? 8) && forallb _ (c :: s)) eqn:E; [|discriminate]. intros _.
      apply andb_true_iff in E as [E1 E2]. apply Hb in E2 as [ds Hd]. unfold size in E1.
      eexists. apply X2A_digits; [exact Hd|lia].
    + intros [v Hv]. apply X2A_only in Hv as [H1 H2]. apply Hb in H2. rewrite H2.
      unfold size. now replace (Z.of_nat (length (c :: s)) <=? 8) with true by lia.
  - destruct (_ && _); auto.
Qed.
Print Assumptions C26_ISHEX.
Theorem C26_ISDEC : forall s, s <> [] ->
  (ISDEC s = Ok 1 <->
     exists ds, Forall2 dec_digit s ds /\ (length s <= 10)%nat /\ int32 (numeral 10 ds)) /\
  (ISDEC s = Ok 1 \/ ISDEC s = Ok 0) /\
  (ISDEC s = Ok 1 -> exists v, D2A s = Ok v).
Proof.
  intros s Hs.
  assert (H1 : ISDEC s = Ok 1 <->
     exists ds, Forall2 dec_digit s ds /\ (length s <= 10)%nat /\ int32 (numeral 10 ds)).
  { destruct s as [|c s]; [congruence|]. unfold ISDEC, size. split.
    - destruct ((Z.of_nat (length (c :: s)) >? 10) || (c =? 45)%N) eqn:E; [discriminate|].
      destruct (whole_signed 10 (c :: s)) as [v|] eqn:E2; [|discriminate]. intros _.
      rewrite whole_signed_plain in E2 by (discriminate || (cbn [hd]; lia)).
      destruct (digits 10 0 (c :: s)) as [x|] eqn:Ex; [|discriminate].
      destruct (digits_only 10 _ digit_dec _ _ _ Ex) as [ds Hd].
      rewrite (digits_zero 10 _ digit_dec dec_range _ _ Hd) in Ex. injection Ex as <-.
      exists ds. split; [exact Hd|]. split; [lia|].
      pose proof (numeral_range 10 _ ltac:(lia) digit_dec dec_range _ _ Hd).
      unfold INT_MAX, int32 in *. destruct (numeral 10 ds <=? 2147483647) eqn:El; [lia|discriminate].
    - intros (ds & Hd & Hl & Hi).
      assert (Hc : (c =? 45)%N = false)
        by (inversion Hd as [|? ? ? ? Hc ?]; subst; unfold dec_digit in Hc; lia).
      rewrite Hc. replace (Z.of_nat (length (c :: s)) >? 10) with false by lia. cbn [orb].
      rewrite whole_signed_plain by (discriminate || (cbn [hd]; lia)).
      rewrite (digits_zero 10 _ digit_dec dec_range _ _ Hd). unfold INT_MAX, int32 in *.
      now replace (numeral 10 ds <=? 2147483647) with true by lia. }
  split; [exact H1|]. split.
  - destruct s as [|c s]; [congruence|]. unfold ISDEC.
    destruct ((size (c :: s) >? 10) || (c =? 45)%N); [auto|].
    destruct (whole_signed 10 (c :: s)); auto.
  - intros H. apply H1 in H as (ds & Hd & Hl & Hi). exists (numeral 10 ds).
    apply D2A_digits; [now apply dec_plain|exact Hi|lia].
Qed.
Print Assumptions C26_ISDEC.

(** Searching: FIND gives the first position holding one of the characters, INDEX the first
    position at which the whole string stands; 0 when there is none. *)
Theorem C26_FIND : forall s set,
  (FIND s set = 0 /\ forall c, In c s -> ~ In c set) \/
  exists i, FIND s set = Z.of_nat i + 1 /\
    first_at (fun i => exists c, nth_error s i = Some c /\ In c set) i.
Proof.
  intros s set. unfold FIND. pose proof (find_first_of_spec s set) as H.
  destruct (find_first_of s set) as [i|]; [right; eauto|left; auto].
Qed.
Print Assumptions C26_FIND.
Theorem C26_INDEX : forall s t,
  (INDEX s t = 0 /\ forall i, ~ occurs t s i) \/
  exists i, INDEX s t = Z.of_nat i + 1 /\ first_at (occurs t s) i.
Proof.
  intros s t. unfold INDEX. pose proof (find_sub_spec s t) as H.
  destruct (find_sub s t) as [i|]; [right; eauto|left; auto].
Qed.
Print Assumptions C26_INDEX.

(** DOUBLE doubles quotes and ampersands, DCVAL undoes it, DCLEN is the length of DCVAL. *)
Theorem C26_DOUBLE : forall s r, DOUBLE s = Ok r -> doubling s r /\ DCVAL r = s /\ DCLEN r = size s.
Proof.
  intros s r H. unfold DOUBLE in H. destruct (size (double_chars s) >? MAX_STR_SIZE); [discriminate|].
  injection H as <-. pose proof (doubling_is s) as Hd. split; [exact Hd|].
  pose proof (DCVAL_doubling _ _ Hd) as Hv. split; [exact Hv|].
  unfold DCLEN. rewrite DCLEN_DCVAL. unfold DCVAL in Hv. now rewrite Hv.
Qed.
Print Assumptions C26_DOUBLE.
Theorem C26_DCLEN : forall s, DCLEN s = size (DCVAL s).
Proof. intros s. apply DCLEN_DCVAL. Qed.
Print Assumptions C26_DCLEN.
Example C26_ex_DOUBLE : DOUBLE (s2b "a'b&") = Ok (s2b "a''b&&").
Proof. reflexivity. Qed.

(** The functions between two texts go through the number: the result is the numeral, in the
    other base, of the number read. *)
Theorem C26_through_number : forall s v r, s <> [] -> int32 v ->
  (B2A s = Ok v -> B2D s = Ok r -> signed_decimal r v) /\
  (X2A s = Ok v -> X2D s = Ok r -> signed_decimal r v) /\
  (C2A s = Ok v -> C2D s = Ok r -> signed_decimal r v) /\
  (D2A s = Ok v -> D2B s = Ok r -> B2A r = Ok v /\ length r = 32%nat) /\
  (D2A s = Ok v -> D2X s = Ok r -> X2A r = Ok v /\ length r = 8%nat) /\
  (D2A s = Ok v -> D2C s = Ok r -> r = A2C v).
Proof.
  intros s v r Hs Hv. destruct (A2D_decimal v Hv) as [Hd _].
  destruct (C26_round_trips v Hv) as (R1 & _ & R3 & _).
  unfold B2D, X2D, C2D, D2B, D2X, D2C. destruct s as [|c s]; [congruence|].
  refine (conj _ (conj _ (conj _ (conj _ (conj _ _)))));
    intros H1 H2; rewrite H1 in H2; cbn [then_a] in H2; apply ok_inj in H2; subst r;
    try assumption; try reflexivity.
  - split; [exact R1|]. now destruct (A2B_digits v) as (ds & _ & H2 & _).
  - split; [exact R3|]. now destruct (A2X_digits v) as (ds & _ & H2 & _).
Qed.
Print Assumptions C26_through_number.
Theorem C26_through_number_rejected : forall s,
  (B2A s = Fail CE007 <-> B2D s = Fail CE007) /\ (X2A s = Fail CE007 <-> X2D s = Fail CE007) /\
  (s <> [] -> (D2A s = Fail CE007 <-> D2B s = Fail CE007) /\
              (D2A s = Fail CE007 <-> D2X s = Fail CE007) /\
              (D2A s = Fail CE007 <-> D2C s = Fail CE007)).
Proof.
  intros s. unfold B2D, X2D, D2B, D2X, D2C.
  split; [destruct (B2A s); cbn; split; congruence|].
  split; [destruct (X2A s); cbn; split; congruence|].
  intros Hs. destruct s as [|c s]; [congruence|].
  destruct (D2A (c :: s)); cbn; repeat split; congruence.
Qed.
Print Assumptions C26_through_number_rejected.

(** BYTE gives the character at a position of the code page and nothing outside it. *)
Theorem C26_BYTE : forall n,
  (0 <= n < 256 -> BYTE n = Ok (utf8 (e2a (Z.to_N n)))) /\
  (~ 0 <= n < 256 -> BYTE n = Fail CE007).
Proof.
  intros n. unfold BYTE. split; intros H.
  - replace ((n >? 255) || (n <? 0)) with false by lia. now rewrite to_ascii_utf8.
  - now replace ((n >? 255) || (n <? 0)) with true by lia.
Qed.
Print Assumptions C26_BYTE.

(** UPPER and LOWER change the case of the ASCII letters and nothing else. *)
Theorem C26_case : forall s,
  Forall2 (fun c d => d = if (97 <=? c) && (c <=? 122) then c - 32 else c)%N s (UPPER s) /\
  Forall2 (fun c d => d = if (65 <=? c) && (c <=? 90) then c + 32 else c)%N s (LOWER s).
Proof.
  induction s as [|c s [IH1 IH2]]; split; cbn [UPPER LOWER map]; constructor; auto.
Qed.
Print Assumptions C26_case.

(** ISSYM holds exactly for the names an ordinary symbol can have. *)
Theorem C26_ISSYM : forall s, s <> [] ->
  (ISSYM s = Ok 1 <->
     (length s <= 63)%nat /\ ~ (48 <= hd 0 s <= 57)%N /\
     forall c, In c s -> (65 <= c <= 90 \/ 97 <= c <= 122 \/ 48 <= c <= 57 \/
                          c = 95 \/ c = 64 \/ c = 36 \/ c = 35)%N) /\
  (ISSYM s = Ok 1 \/ ISSYM s = Ok 0).
Proof.
  intros s Hs. unfold ISSYM. destruct s as [|c s]; [congruence|]. cbn [hd].
  split; [|destruct (_ && _); auto].
  destruct (negb (is_digit c) && (size (c :: s) <? 64) && forallb ord_char (c :: s)) eqn:E.
  - split; [intros _|reflexivity].
    apply andb_true_iff in E as [E E3]. apply andb_true_iff in E as [E1 E2].
    unfold is_digit in E1. unfold size in E2. split; [lia|]. split; [lia|].
    intros d Hd. apply forallb_forall with (x := d) in E3; [|exact Hd]. unfold ord_char in E3. lia.
  - split; [discriminate|]. intros (H1 & H2 & H3). exfalso.
    enough (X : negb (is_digit c) && (size (c :: s) <? 64) && forallb ord_char (c :: s) = true) by congruence.
    apply andb_true_iff. split; [apply andb_true_iff; split|].
    + unfold is_digit. lia.
    + unfold size. lia.
    + apply forallb_forall. intros d Hd. apply H3 in Hd. unfold ord_char. lia.
Qed.
Print Assumptions C26_ISSYM.

(** DEQUOTE takes off one quote at either end. *)
Theorem C26_DEQUOTE : forall s, hd 0%N s <> 39%N -> last s 0%N <> 39%N ->
  DEQUOTE s = s /\ DEQUOTE (39%N :: s) = s /\ DEQUOTE (s ++ [39%N]) = s /\
  DEQUOTE (39%N :: s ++ [39%N]) = s.
Proof.
  intros s Hh Hl. unfold DEQUOTE, quote.
  assert (Hr : match rev s with c :: r => if (c =? 39)%N then rev r else s | [] => s end = s).
  { destruct s as [|x s] using rev_ind; [reflexivity|]. rewrite rev_app_distr. cbn [rev app].
    rewrite last_last in Hl. now replace (x =? 39)%N with false by lia. }
  assert (Hr2 : match rev (s ++ [39%N]) with
                | c :: r => if (c =? 39)%N then rev r else s ++ [39%N] | [] => s ++ [39%N] end = s).
  { rewrite rev_app_distr. cbn [rev app]. change (39 =? 39)%N with true. apply rev_involutive. }
  destruct s as [|c s]; [repeat split|]. cbn [hd] in Hh.
  cbn [app]. change (39 =? 39)%N with true. replace (c =? 39)%N with false by lia.
  repeat split; assumption.
Qed.
Print Assumptions C26_DEQUOTE.

(** Self-defining terms have the value of their digits. *)
Theorem C26_self_defining : forall q s,
  (forall ds, s <> [] -> Forall2 hex_digit s ds -> (length s <= 8)%nat -> q = 88%N \/ q = 120%N ->
     self_defining_term (q :: 39%N :: s ++ [39%N]) = Ok (signed_of (numeral 16 ds))) /\
  (forall ds, s <> [] -> Forall2 bin_digit s ds -> (length s <= 32)%nat -> q = 66%N \/ q = 98%N ->
     self_defining_term (q :: 39%N :: s ++ [39%N]) = Ok (signed_of (numeral 2 ds))) /\
  (s <> [] -> q = 67%N \/ q = 99%N -> self_defining_term (q :: 39%N :: s ++ [39%N]) = C2A s) /\
  (forall v, signed_decimal s v -> int32 v -> (length s <= 11)%nat -> self_defining_term s = Ok v).
Proof.
  intros q s.
  assert (Hq : s <> [] -> self_defining_term (q :: 39%N :: s ++ [39%N]) = self_defining q s).
  { intros Hs. unfold self_defining_term, size, peek, quote. cbn [nth skipn length].
    rewrite app_length. cbn [length].
    replace (Z.of_nat (S (S (length s + 1))) >=? 3) with true by lia.
    change (39 =? 39)%N with true.
    replace (last (q :: 39%N :: s ++ [39%N]) 0%N) with 39%N.
    2:{ rewrite !app_comm_cons. now rewrite last_last. }
    change (39 =? 39)%N with true. cbn [andb]. now rewrite removelast_last. }
  split; [|split; [|split]].
  - intros ds Hs Hd Hl Ht. rewrite (Hq Hs). unfold self_defining.
    destruct s as [|c s]; [congruence|]. destruct Ht as [->| ->]; exact (X2A_digits _ _ Hd Hl).
  - intros ds Hs Hd Hl Ht. rewrite (Hq Hs). unfold self_defining.
    destruct s as [|c s]; [congruence|]. destruct Ht as [->| ->]; exact (B2A_digits _ _ Hd Hl).
  - intros Hs Ht. rewrite (Hq Hs). unfold self_defining.
    destruct s as [|c s]; [congruence|]. destruct Ht as [->| ->]; reflexivity.
  - intros v Hd Hi Hl.
    assert (Hn : (peek s 1 =? quote)%N = false).
    { assert (Hall : forall s ds i, Forall2 dec_digit s ds -> nth i s 0%N <> 39%N).
      { clear. intros s ds i H. revert i. induction H as [|c d s ds Hc H IH]; intros [|i]; cbn [nth];
          try discriminate; [unfold dec_digit in Hc; lia|apply IH]. }
      apply N.eqb_neq. unfold peek, quote.
      destruct Hd as [t ds Ht Hf|t ds Ht Hf|t ds Ht Hf]; cbn [nth]; eapply Hall; exact Hf. }
    unfold self_defining_term. rewrite Hn, andb_false_r. cbn [andb].
    unfold self_defining. destruct s as [|c s]; [|exact (D2A_digits _ _ Hd Hi Hl)].
    inversion Hd; congruence.
Qed.
Print Assumptions C26_self_defining.
Example C26_ex_self : self_defining_term (s2b "X'FF'") = Ok 255 /\ self_defining_term (s2b "b'101'") = Ok 5 /\
  self_defining_term (s2b "C'A'") = Ok 193 /\ self_defining_term (s2b "12") = Ok 12 /\
  self_defining_term (s2b "C''''") = Ok 32125.
Proof. repeat split. Qed.

(** * C47 *)

Definition holds (o : op) (lt eq : Prop) : Prop :=
  match o with
  | EQ => eq
  | NE => ~ eq
  | LT => lt
  | LE => lt \/ eq
  | GT => ~ lt /\ ~ eq
  | GE => ~ lt
  | _ => False
  end.
Definition relational (o : op) : Prop := In o [EQ; NE; LT; LE; GT; GE].

Lemma relation_holds : forall o c (lt eq : Prop), relational o ->
  (c < 0 <-> lt) -> (c = 0 <-> eq) -> (relation o c = true <-> holds o lt eq).
Proof.
  intros o c lt eq Ho Hl He.
  destruct Ho as [<-|[<-|[<-|[<-|[<-|[<-|[]]]]]]]; cbn [relation holds];
    rewrite <- ?Hl, <- ?He; lia.
Qed.

(** Numbers are compared as numbers, as long as their difference fits 32 bits. *)
Theorem C47_numbers : forall o a b, relational o -> int32 a -> int32 b -> int32 (a - b) ->
  exists r, relational_a o a b = Ok r /\ (r = true <-> holds o (a < b) (a = b)).
Proof.
  intros o a b Ho Ha Hb Hd. unfold relational_a, compare_a, INT_MIN, INT_MAX, int32 in *.
  replace ((-2147483648 <=? a - b) && (a - b <=? 2147483647)) with true by lia.
  eexists. split; [reflexivity|]. apply relation_holds; [exact Ho|lia|lia].
Qed.
Print Assumptions C47_numbers.
Theorem C47_numbers_refuted : forall o a b, ~ int32 (a - b) -> relational_a o a b = Bad.
Proof.
  intros o a b H. unfold relational_a, compare_a, INT_MIN, INT_MAX, int32 in *.
  now replace ((-2147483648 <=? a - b) && (a - b <=? 2147483647)) with false by lia.
Qed.
Print Assumptions C47_numbers_refuted.

(** Texts of Latin-1 characters without NUL: a shorter one (in bytes) is less, texts of the same
    length are compared by the EBCDIC collating sequence, and only identical ones are equal. *)
Theorem C47_strings : forall o a b, relational o ->
  Forall (fun c => (c < 256)%N) a -> Forall (fun c => (c < 256)%N) b -> ~ In 0%N a -> ~ In 0%N b ->
  exists r, relational_c o (text a) (text b) = Ok r /\
    (r = true <-> holds o ((length (text a) < length (text b))%nat \/
                           length (text a) = length (text b) /\ precedes a2e a b) (a = b)).
Proof.
  intros o a b Ho Ha Hb Hza Hzb. unfold relational_c.
  destruct (compare_string_latin a b Ha Hb Hza Hzb) as (c & E & H1 & H2).
  rewrite E. eexists. split; [reflexivity|]. now apply relation_holds.
Qed.
Print Assumptions C47_strings.
Example C47_ex : relational_c LT (s2b "a") (s2b "A") = Ok true /\ relational_c LT (s2b "Z") (s2b "0") = Ok true /\
  relational_c LT (s2b "Z") (s2b "aa") = Ok true /\ relational_a GT 5 (-7) = Ok true.
Proof. repeat split. Qed.

(** Different texts may compare equal when they hold NUL or characters beyond Latin-1, and
    comparing text that ends inside a character runs past its end. *)
Theorem C47_strings_refuted :
  relational_c EQ (0 :: s2b "A")%N (0 :: s2b "B")%N = Ok true /\
  relational_c EQ (text [8364%N]) (text [8482%N]) = Ok true /\
  relational_c EQ [226; 130]%N [226; 131]%N = Bad.
Proof. repeat split. Qed.
Print Assumptions C47_strings_refuted.

(** The bitwise operators act on each of the 32 bits. *)
Theorem C47_bitwise : forall a b i, 0 <= i ->
  Z.testbit (bitwise AND a b) i = Z.testbit a i && Z.testbit b i /\
  Z.testbit (bitwise OR a b) i = Z.testbit a i || Z.testbit b i /\
  Z.testbit (bitwise XOR a b) i = xorb (Z.testbit a i) (Z.testbit b i) /\
  Z.testbit (bitwise_not a) i = negb (Z.testbit a i).
Proof.
  intros a b i Hi. cbn [bitwise]. unfold bitwise_not.
  rewrite Z.land_spec, Z.lor_spec, Z.lxor_spec, Z.lnot_spec by exact Hi. auto.
Qed.
Print Assumptions C47_bitwise.

(** The boolean operators, by truth table. *)
Theorem C47_boolean : forall a b,
  (boolean AND a b = true <-> a = true /\ b = true) /\
  (boolean OR a b = true <-> a = true \/ b = true) /\
  (boolean XOR a b = true <-> a <> b) /\
  (boolean AND_NOT a b = true <-> a = true /\ b = false) /\
  (boolean OR_NOT a b = true <-> a = true \/ b = false) /\
  (boolean XOR_NOT a b = true <-> a = b).
Proof. intros [] []; cbn; intuition congruence. Qed.
Print Assumptions C47_boolean.
