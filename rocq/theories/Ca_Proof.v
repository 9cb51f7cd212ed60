(** Proofs about conditional-assembly arithmetic and shifts. *)
From Coq Require Import List NArith ZArith Bool Lia.
From Coq Require Import ZifyBool ZifyNat ZifyN.
From Verif Require Import Common Ebc_Model Ebc_Spec Ebc_Proof Ca_Model Ca_Spec.
Import ListNotations.
Open Scope Z_scope.

Local Ltac Zify.zify_post_hook ::= Z.div_mod_to_equations.

(** ** Arithmetic *)
Lemma overflow_exact : forall v,
  (int32 v -> overflow_transform v = Ok v) /\
  (~ int32 v -> overflow_transform v = Fail CE013 \/ overflow_transform v = Fail CE014).
Proof.
  intros v. unfold overflow_transform, int32, INT_MAX, INT_MIN.
  destruct (v >? 2147483647) eqn:E1; [split; [lia|auto]|].
  destruct (v <? -2147483648) eqn:E2; [split; [lia|auto]|].
  split; [reflexivity|lia].
Qed.

(** The 64-bit intermediate results do not overflow. *)
Lemma ca_exact64 : forall a b, int32 a -> int32 b ->
  let fits v := -9223372036854775808 <= v <= 9223372036854775807 in
  fits (a + b) /\ fits (a - b) /\ fits (a * b) /\ (b <> 0 -> fits (Z.quot a b)).
Proof.
  intros a b Ha Hb fits. unfold fits, int32 in *.
  split; [lia|]. split; [lia|]. split; [nia|]. intros H0.
  assert (Z.abs (Z.quot a b) <= Z.abs a); [|lia].
  rewrite <- Z.quot_abs by exact H0. rewrite Z.quot_div_nonneg by lia.
  apply Z.div_le_upper_bound; nia.
Qed.

(** ** Bits *)
Lemma lor_add : forall a b, Z.land a b = 0 -> Z.lor a b = a + b.
Proof.
  intros a b H. rewrite <- Z.lxor_lor by exact H. now rewrite Z.add_nocarry_lxor.
Qed.

Lemma land_low_high : forall a b k, 0 <= k -> 0 <= a < 2 ^ k -> Z.land a (b * 2 ^ k) = 0.
Proof.
  intros a b k Hk Ha. apply Z.bits_inj'. intros i Hi.
  rewrite Z.land_spec, Z.bits_0.
  destruct (Z.lt_ge_cases i k) as [Hl|Hl].
  - rewrite Z.mul_pow2_bits_low by lia. apply andb_false_r.
  - replace (Z.testbit a i) with false; [reflexivity|symmetry].
    destruct (Z.eq_dec a 0) as [->|Ha0]; [apply Z.bits_0|].
    apply Z.bits_above_log2; [lia|].
    enough (Z.log2 a < k) by lia. apply Z.log2_lt_pow2; lia.
Qed.

Lemma land_63 : forall n, Z.land n 63 = n mod 64.
Proof. intros n. exact (Z.land_ones n 6 ltac:(lia)). Qed.

Lemma sign_bit_is : forall u, 0 <= u < W ->
  Z.land u 2147483648 = if u <? 2147483648 then 0 else 2147483648.
Proof.
  intros u Hu. unfold W in Hu.
  destruct (u <? 2147483648) eqn:E.
  - exact (land_low_high u 1 31 ltac:(lia) ltac:(cbn; lia)).
  - replace u with ((u - 2147483648) + 2147483648) by lia.
    rewrite <- lor_add by (exact (land_low_high (u - 2147483648) 1 31 ltac:(lia) ltac:(cbn; lia))).
    rewrite Z.land_lor_distr_l, Z.land_diag.
    rewrite (land_low_high (u - 2147483648) 1 31 ltac:(lia) ltac:(cbn; lia) :
               Z.land (u - 2147483648) 2147483648 = 0).
    reflexivity.
Qed.

Lemma lor_sign : forall x, 0 <= x < W -> Z.lor x 2147483648 = x mod 2147483648 + 2147483648.
Proof.
  intros x Hx. unfold W in Hx.
  destruct (Z.lt_ge_cases x 2147483648) as [H|H].
  - rewrite lor_add by exact (land_low_high x 1 31 ltac:(lia) ltac:(cbn; lia)).
    rewrite Z.mod_small; lia.
  - replace x with ((x - 2147483648) + 2147483648) at 1 by lia.
    rewrite <- lor_add by (exact (land_low_high (x - 2147483648) 1 31 ltac:(lia) ltac:(cbn; lia))).
    rewrite <- Z.lor_assoc, Z.lor_diag.
    rewrite lor_add by (exact (land_low_high (x - 2147483648) 1 31 ltac:(lia) ltac:(cbn; lia))).
    lia.
Qed.

Lemma unsigned_range : forall n, 0 <= to_unsigned n < W.
Proof. intros n. unfold to_unsigned, W. lia. Qed.

Lemma unsigned_int32 : forall n, int32 n -> to_unsigned n = if n <? 0 then n + W else n.
Proof. intros n H. unfold to_unsigned, int32, W in *. destruct (n <? 0) eqn:E; lia. Qed.

Lemma signed_signed_of : forall u, 0 <= u < W -> to_signed u = signed_of u.
Proof.
  intros u H. unfold to_signed, signed_of, W in *.
  change (2 ^ 31) with 2147483648. change (2 ^ 32) with 4294967296.
  destruct (u <? 2147483648) eqn:E; lia.
Qed.

Lemma signed_of_mod : forall r, signed_of (r mod 2 ^ 32) = signed_of r.
Proof.
  intros r. unfold signed_of. rewrite Z.add_mod_idemp_l; [reflexivity|discriminate].
Qed.

Lemma register_unsigned : forall n, register n = to_unsigned n.
Proof. reflexivity. Qed.

Lemma shift_sll : forall lhs rhs, rhs mod 64 <> 0 ->
  shift_operands lhs rhs SLL = shift_left_logical lhs (rhs mod 64).
Proof.
  intros lhs rhs Hs. unfold shift_operands. rewrite land_63.
  set (s := rhs mod 64) in *. assert (0 < s < 64) by (subst s; lia).
  replace (s =? 0) with false by lia. cbv zeta.
  unfold shift_left_logical. change (register lhs) with (to_unsigned lhs).
  destruct (32 <=? s) eqn:E.
  - rewrite <- signed_of_mod.
    replace (2 ^ s) with (2 ^ (s - 32) * 2 ^ 32) by (rewrite <- Z.pow_add_r by lia; f_equal; lia).
    rewrite Z.mul_assoc, Z.mod_mul by discriminate. reflexivity.
  - rewrite Z.shiftl_mul_pow2 by lia. rewrite signed_signed_of by apply unsigned_range.
    unfold to_unsigned at 1. change W with (2 ^ 32). apply signed_of_mod.
Qed.

Lemma shiftr_range : forall u s, 0 <= u < W -> 0 <= s -> 0 <= u / 2 ^ s < W.
Proof.
  intros u s Hu Hs. assert (0 < 2 ^ s) by (apply Z.pow_pos_nonneg; lia).
  split; [apply Z.div_pos; lia|].
  apply Z.le_lt_trans with u; [|lia]. apply Z.div_le_upper_bound; nia.
Qed.

Lemma shift_srl : forall lhs rhs, rhs mod 64 <> 0 ->
  shift_operands lhs rhs SRL = shift_right_logical lhs (rhs mod 64).
Proof.
  intros lhs rhs Hs. unfold shift_operands. rewrite land_63.
  set (s := rhs mod 64) in *. assert (0 < s < 64) by (subst s; lia).
  replace (s =? 0) with false by lia. cbv zeta.
  unfold shift_right_logical. change (register lhs) with (to_unsigned lhs).
  pose proof (unsigned_range lhs) as Hu.
  destruct (32 <=? s) eqn:E.
  - rewrite Z.div_small; [reflexivity|]. split; [lia|].
    apply Z.lt_le_trans with (2 ^ 32); [exact (proj2 Hu)|]. apply Z.pow_le_mono_r; lia.
  - rewrite Z.shiftr_div_pow2 by lia. apply signed_signed_of. apply shiftr_range; lia.
Qed.

Lemma shift_sra : forall lhs rhs, int32 lhs -> rhs mod 64 <> 0 ->
  shift_operands lhs rhs SRA =
    if (32 <=? rhs mod 64) && (0 <=? lhs) then -1 else shift_right_arithmetic lhs (rhs mod 64).
Proof.
  intros lhs rhs Hl Hs. unfold shift_operands. rewrite land_63.
  set (s := rhs mod 64) in *. assert (0 < s < 64) by (subst s; lia).
  replace (s =? 0) with false by lia. cbv zeta.
  unfold shift_right_arithmetic.
  pose proof (unsigned_range lhs) as Hu. rewrite sign_bit_is by exact Hu.
  rewrite (unsigned_int32 lhs Hl) in *. unfold int32, W in *.
  assert (Hp : 0 < 2 ^ s) by (apply Z.pow_pos_nonneg; lia).
  destruct (32 <=? s) eqn:E; cbn [andb].
  - destruct (0 <=? lhs) eqn:E2; [reflexivity|].
    change (to_signed 4294967295) with (-1).
    assert (2 ^ 32 <= 2 ^ s) by (apply Z.pow_le_mono_r; lia).
    change (2 ^ 32) with 4294967296 in *.
    apply Z.div_unique with (lhs + 2 ^ s); lia.
  - destruct (lhs <? 0) eqn:E2.
    + replace (lhs + 4294967296 <? 2147483648) with false by lia.
      change (2147483648 =? 0) with false. cbv iota.
      rewrite Z.shiftr_div_pow2, Z.shiftl_mul_pow2 by lia.
      assert (Hsplit : 2 ^ s * 2 ^ (32 - s) = 4294967296).
      { rewrite <- Z.pow_add_r by lia. replace (s + (32 - s)) with 32 by lia. reflexivity. }
      assert (Hq : 0 < 2 ^ (32 - s)) by (apply Z.pow_pos_nonneg; lia).
      replace (to_unsigned (4294967295 * 2 ^ (32 - s))) with ((2 ^ s - 1) * 2 ^ (32 - s)).
      2:{ unfold to_unsigned, W. apply Z.mod_unique_pos with (q := 2 ^ (32 - s) - 1).
          - split; [nia|]. rewrite Z.mul_sub_distr_r, Hsplit. lia.
          - rewrite Z.mul_sub_distr_r, Hsplit. lia. }
      assert (Hd : (lhs + 4294967296) / 2 ^ s = lhs / 2 ^ s + 2 ^ (32 - s)).
      { rewrite <- Hsplit. rewrite Z.mul_comm. apply Z.div_add. lia. }
      assert (Hd1 : - 2 ^ (32 - s) <= lhs / 2 ^ s) by (apply Z.div_le_lower_bound; nia).
      assert (Hd2 : lhs / 2 ^ s < 0) by (apply Z.div_lt_upper_bound; lia).
      rewrite lor_add by (apply land_low_high; lia).
      rewrite Hd, Z.mul_sub_distr_r, Hsplit.
      unfold to_signed, W.
      assert (2 ^ (32 - s) <= 2 ^ 31) by (apply Z.pow_le_mono_r; lia).
      change (2 ^ 31) with 2147483648 in *.
      replace (lhs / 2 ^ s + 2 ^ (32 - s) + (4294967296 - 1 * 2 ^ (32 - s)) <? 2147483648) with false by lia.
      lia.
    + replace (lhs <? 2147483648) with true by lia. change (0 =? 0) with true. cbv iota.
      rewrite Z.shiftr_div_pow2 by lia. unfold to_signed.
      assert (lhs / 2 ^ s <= lhs) by (apply Z.div_le_upper_bound; nia).
      now replace (lhs / 2 ^ s <? 2147483648) with true by lia.
Qed.

(** The left arithmetic shift: right for negative operands, and for the others as long as the
    bit moved into the sign position is zero. *)
Lemma shift_sla : forall lhs rhs, int32 lhs -> rhs mod 64 <> 0 ->
  shift_operands lhs rhs SLA =
    if lhs <? 0 then shift_left_arithmetic lhs (rhs mod 64)
    else signed_of (lhs * 2 ^ (rhs mod 64)).
Proof.
  intros lhs rhs Hl Hs. unfold shift_operands. rewrite land_63.
  set (s := rhs mod 64) in *. assert (0 < s < 64) by (subst s; lia).
  replace (s =? 0) with false by lia. cbv zeta.
  unfold shift_left_arithmetic.
  pose proof (unsigned_range lhs) as Hu. rewrite sign_bit_is by exact Hu.
  rewrite (unsigned_int32 lhs Hl) in *. unfold int32, W in *.
  assert (Hp : 0 < 2 ^ s) by (apply Z.pow_pos_nonneg; lia).
  change (2 ^ 31) with 2147483648.
  destruct (lhs <? 0) eqn:E2.
  - replace (lhs + 4294967296 <? 2147483648) with false by lia.
    destruct (32 <=? s) eqn:E.
    + change (to_signed 2147483648) with (-2147483648).
      replace (2 ^ s) with (2 ^ (s - 31) * 2147483648)
        by (change 2147483648 with (2 ^ 31); rewrite <- Z.pow_add_r by lia; f_equal; lia).
      rewrite Z.mul_assoc, Z.mod_mul by discriminate. lia.
    + rewrite lor_sign by apply unsigned_range. rewrite Z.shiftl_mul_pow2 by lia.
      set (a := lhs * 2 ^ s).
      assert (Hm : to_unsigned ((lhs + 4294967296) * 2 ^ s) mod 2147483648 = a mod 2147483648).
      { unfold to_unsigned, W. rewrite Z.mul_add_distr_r.
        replace (4294967296 * 2 ^ s) with (2 ^ s * 4294967296) by ring.
        rewrite Z.mod_add by discriminate. fold a. lia. }
      rewrite Hm. unfold to_signed, W.
      replace (a mod 2147483648 + 2147483648 <? 2147483648) with false by lia. lia.
  - replace (lhs <? 2147483648) with true by lia.
    destruct (32 <=? s) eqn:E.
    + change (to_signed 0) with (signed_of 0). rewrite <- (signed_of_mod (lhs * 2 ^ s)).
      replace (2 ^ s) with (2 ^ (s - 32) * 2 ^ 32) by (rewrite <- Z.pow_add_r by lia; f_equal; lia).
      now rewrite Z.mul_assoc, Z.mod_mul by discriminate.
    + rewrite Z.lor_0_r, Z.shiftl_mul_pow2 by lia.
      rewrite signed_signed_of by apply unsigned_range.
      unfold to_unsigned. change W with (2 ^ 32). apply signed_of_mod.
Qed.

Lemma shift_sla_right : forall lhs s, 0 <= lhs < 2147483648 -> 0 < s < 64 ->
  (signed_of (lhs * 2 ^ s) = shift_left_arithmetic lhs s <->
   32 <= s \/ (lhs / 2 ^ (31 - s)) mod 2 = 0).
Proof.
  intros lhs s Hl Hs. unfold shift_left_arithmetic.
  replace (lhs <? 0) with false by lia. unfold signed_of.
  change (2 ^ 31) with 2147483648. change (2 ^ 32) with 4294967296.
  destruct (Z.lt_ge_cases s 32) as [H|H].
  - assert (Hsplit : 2 ^ s * 2 ^ (31 - s) = 2147483648).
    { rewrite <- Z.pow_add_r by lia. replace (s + (31 - s)) with 31 by lia. reflexivity. }
    assert (Hq : 0 < 2 ^ (31 - s)) by (apply Z.pow_pos_nonneg; lia).
    assert (Hp : 0 < 2 ^ s) by (apply Z.pow_pos_nonneg; lia).
    assert (Hd : (lhs * 2 ^ s) / 2147483648 = lhs / 2 ^ (31 - s)).
    { rewrite <- Hsplit, Z.mul_comm. apply Z.div_mul_cancel_l; lia. }
    set (a := lhs * 2 ^ s) in *. clearbody a.
    set (q := lhs / 2 ^ (31 - s)) in *. clearbody q. clear - Hd H. lia.
  - split; [auto|intros _].
    replace (2 ^ s) with (2 ^ (s - 32) * 4294967296)
      by (change 4294967296 with (2 ^ 32); rewrite <- Z.pow_add_r by lia; f_equal; lia).
    rewrite Z.mul_assoc. set (a := lhs * 2 ^ (s - 32)). clearbody a. lia.
Qed.
