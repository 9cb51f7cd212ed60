(** Proofs about strings: substring, duplication, comparison, and the conversion functions
    between strings. *)
From Coq Require Import List NArith ZArith Bool Lia.
From Coq Require Import ZifyBool ZifyNat ZifyN.
From Verif Require Import Common Ebc_Model Ebc_Spec Ebc_Proof Ca_Model Ca_Spec Ca_Proof CaNum_Proof.
Import ListNotations.
Open Scope Z_scope.

Local Ltac Zify.zify_post_hook ::= Z.div_mod_to_equations.

(** ** Substring *)
Lemma nth_error_skipn : forall {A} (l : list A) n i, nth_error (skipn n l) i = nth_error l (i + n).
Proof.
  induction l as [|a l IH]; intros n i.
  - rewrite skipn_nil. destruct i, n; reflexivity.
  - destruct n; [now rewrite Nat.add_0_r|]. cbn [skipn]. rewrite IH.
    rewrite Nat.add_succ_r. reflexivity.
Qed.

Lemma nth_error_firstn : forall {A} (l : list A) n i c,
  nth_error (firstn n l) i = Some c -> nth_error l i = Some c.
Proof.
  induction l as [|a l IH]; intros n i c H.
  - rewrite firstn_nil in H. exact H.
  - destruct n; [destruct i; discriminate H|]. destruct i; [exact H|].
    cbn [firstn nth_error] in *. now apply IH in H.
Qed.

Lemma firstn_skipn_cut : forall s b n, 1 <= b <= size s -> 0 < n ->
  cut s b n (firstn (Z.to_nat n) (skipn (Z.to_nat (b - 1)) s)).
Proof.
  intros s b n Hb Hn. unfold size in Hb. split.
  - rewrite firstn_length, skipn_length. lia.
  - intros i c H. apply nth_error_firstn in H. rewrite nth_error_skipn in H. exact H.
Qed.

Lemma cut_empty : forall s b, b <= size s + 1 -> cut s b 0 [].
Proof.
  intros s b Hb. unfold size in Hb. split; [cbn [length]; lia|].
  intros i c H. destruct i; discriminate H.
Qed.

(** ** Duplication *)
Lemma append_times_is : forall n acc v, append_times n acc v = acc ++ concat (repeat v n).
Proof.
  induction n as [|n IH]; intros acc v; cbn [append_times repeat concat].
  - now rewrite app_nil_r.
  - now rewrite IH, <- app_assoc.
Qed.

Lemma concat_repeat_nil : forall {A} n, concat (repeat (@nil A) n) = [].
Proof. induction n; [reflexivity|assumption]. Qed.

Lemma duplicate_is : forall d v, 0 <= d -> size v * d <= 4064 ->
  duplicate d v = Ok (concat (repeat v (Z.to_nat d))).
Proof.
  intros d v Hd Hs. unfold duplicate, MAX_STR_SIZE.
  replace (d <? 0) with false by lia. replace (size v * d >? 4064) with false by lia.
  destruct (d =? 0) eqn:E.
  - replace d with 0 by lia. reflexivity.
  - destruct v as [|c v]; cbn [orb]; [now rewrite concat_repeat_nil|].
    rewrite append_times_is. f_equal.
    replace (Z.to_nat d) with (S (Z.to_nat (d - 1))) by lia. reflexivity.
Qed.

Lemma size_concat_repeat : forall v n, size (concat (repeat v n)) = size v * Z.of_nat n.
Proof.
  intros v n. unfold size. induction n as [|n IH]; cbn [repeat concat]; [cbn; lia|].
  rewrite app_length, Nat2Z.inj_add, IH. lia.
Qed.

Lemma duplicate_bounded : forall d v r, duplicate d v = Ok r -> size r <= 4064.
Proof.
  intros d v r H.
  assert (0 <= d /\ size v * d <= 4064) as [Hd Hs].
  { unfold duplicate, MAX_STR_SIZE in H.
    destruct (d <? 0) eqn:E1; [discriminate|].
    destruct (size v * d >? 4064) eqn:E2; [discriminate|lia]. }
  rewrite duplicate_is in H by assumption. injection H as <-.
  rewrite size_concat_repeat. lia.
Qed.

(** ** Comparison *)
Lemma compare_refl : forall a, compare a a = 0.
Proof. induction a as [|x a IH]; [reflexivity|]. cbn [compare]. now rewrite N.ltb_irrefl. Qed.

Lemma compare_eq : forall a b, compare a b = 0 <-> a = b.
Proof.
  induction a as [|x a IH]; destruct b as [|y b]; cbn [compare]; split; intros H; try easy.
  - destruct (x <? y)%N eqn:E1; [discriminate|]. destruct (y <? x)%N eqn:E2; [discriminate|].
    apply IH in H. f_equal; [lia|exact H].
  - injection H as -> ->. now rewrite N.ltb_irrefl, compare_refl.
Qed.

Section Order.
  Variable pos : N -> N.
  Variable inj : forall x y, (x < 256)%N -> (y < 256)%N -> pos x = pos y -> x = y.

  Lemma compare_precedes : forall a b,
    Forall (fun c => (c < 256)%N) a -> Forall (fun c => (c < 256)%N) b ->
    (compare (map pos a) (map pos b) < 0 <-> precedes pos a b).
  Proof.
    induction a as [|x a IH]; intros b Ha Hb.
    - destruct b as [|y b]; cbn [map compare]; split; intros H.
      + lia.
      + inversion H.
      + constructor.
      + lia.
    - destruct b as [|y b]; cbn [map compare].
      + split; intros H; [lia|inversion H].
      + inversion Ha as [|? ? Hx Ha']; subst. inversion Hb as [|? ? Hy Hb']; subst.
        destruct (pos x <? pos y)%N eqn:E1.
        * split; intros _; [apply pre_here; lia|lia].
        * destruct (pos y <? pos x)%N eqn:E2.
          -- split; intros H; [lia|]. inversion H; subst; lia.
          -- assert (x = y) as -> by (apply inj; try assumption; lia).
             rewrite (IH b Ha' Hb'). split; intros H; [now apply pre_later|].
             inversion H; subst; [lia|assumption].
  Qed.

  Lemma compare_sym : forall a b, compare b a = - compare a b.
  Proof.
    induction a as [|x a IH]; destruct b as [|y b]; cbn [compare]; try reflexivity.
    destruct (y <? x)%N eqn:E1, (x <? y)%N eqn:E2; try reflexivity; [lia|apply IH].
  Qed.
End Order.

Lemma a2e_inj : forall x y, (x < 256)%N -> (y < 256)%N -> a2e x = a2e y -> x = y.
Proof. intros x y Hx Hy H. rewrite <- (e2a_a2e x Hx), <- (e2a_a2e y Hy). now rewrite H. Qed.

Lemma simple_latin : forall cps, Forall (fun c => (c < 256)%N) cps -> map simple cps = cps.
Proof.
  induction 1 as [|c cps Hc H IH]; [reflexivity|]. cbn [map]. rewrite IH. f_equal.
  unfold simple. now replace (c <? 256)%N with true by lia.
Qed.

Lemma latin_code_points : forall cps, Forall (fun c => (c < 256)%N) cps -> Forall code_point cps.
Proof. intros cps H. eapply Forall_impl; [|exact H]. unfold code_point. cbn beta. intros. lia. Qed.

Lemma to_ebcdic_latin : forall cps, Forall (fun c => (c < 256)%N) cps -> ~ In 0%N cps ->
  to_ebcdic (text cps) = Some (map a2e cps).
Proof.
  intros cps H Hz. unfold to_ebcdic.
  rewrite decode_text; [|now apply latin_code_points|intros; exact Hz].
  cbn [option_map]. now rewrite simple_latin.
Qed.

Lemma compare_string_latin : forall a b,
  Forall (fun c => (c < 256)%N) a -> Forall (fun c => (c < 256)%N) b -> ~ In 0%N a -> ~ In 0%N b ->
  exists c, compare_string (text a) (text b) = Ok c /\
    (c < 0 <-> (length (text a) < length (text b))%nat \/
              length (text a) = length (text b) /\ precedes a2e a b) /\
    (c = 0 <-> a = b).
Proof.
  intros a b Ha Hb Hza Hzb. unfold compare_string, size.
  destruct (Z.of_nat (length (text a)) - Z.of_nat (length (text b)) =? 0) eqn:E; cbn [negb].
  - rewrite !to_ebcdic_latin by assumption. eexists. split; [reflexivity|].
    pose proof (compare_precedes a2e a2e_inj a b Ha Hb) as Hp. split.
    + rewrite Hp. split; intros H; [right; split; [lia|exact H]|].
      destruct H as [H|[_ H]]; [lia|exact H].
    + rewrite compare_eq. split; intros H; [|now subst].
      clear - H Ha Hb. revert b Hb H. induction Ha as [|x a Hx Ha IH]; intros b Hb H.
      * destruct b; [reflexivity|discriminate H].
      * destruct b as [|y b]; [discriminate H|]. cbn [map] in H. injection H as H1 H2.
        inversion Hb; subst. f_equal; [now apply a2e_inj|now apply IH].
  - eexists. split; [reflexivity|]. split.
    + split; intros H; [left; lia|]. destruct H as [H|[H _]]; lia.
    + split; intros H; [lia|subst; lia].
Qed.

(** ** Groups of bits *)
Lemma bit_bin : forall c d, bit c = Some d <-> bin_digit c d.
Proof.
  intros c d. unfold bit, bin_digit.
  destruct (c =? 48)%N eqn:E1; [|destruct (c =? 49)%N eqn:E2].
  - split; intros H; [injection H as <-; lia|f_equal; lia].
  - split; intros H; [injection H as <-; lia|f_equal; lia].
  - split; intros H; [discriminate|lia].
Qed.

Lemma group_bits : forall s ds acc r, Forall2 bin_digit s ds ->
  group (length s) acc (s ++ r) = Some (acc * 2 ^ Z.of_nat (length s) + numeral 2 ds, r).
Proof.
  intros s ds acc r H. revert acc. induction H as [|c d s ds Hc H IH]; intros acc.
  - cbn [length group app numeral]. do 2 f_equal. change (Z.of_nat 0) with 0. lia.
  - cbn [length group app]. rewrite (proj2 (bit_bin c d) Hc), IH. do 2 f_equal.
    cbn [numeral]. rewrite Nat2Z.inj_succ, Z.pow_succ_r by lia. rewrite (Forall2_length H). ring.
Qed.

Lemma group_only : forall n s acc v r, group n acc s = Some (v, r) ->
  exists a ds, s = a ++ r /\ length a = n /\ Forall2 bin_digit a ds.
Proof.
  induction n as [|n IH]; intros s acc v r H.
  - cbn [group] in H. injection H as <- <-. exists [], []. repeat split. constructor.
  - cbn [group] in H. destruct s as [|c s]; [discriminate|].
    destruct (bit c) as [d|] eqn:E; [|discriminate].
    destruct (IH _ _ _ _ H) as (a & ds & H1 & H2 & H3).
    exists (c :: a), (d :: ds). subst s. repeat split; [cbn [length]; lia|].
    constructor; [now apply bit_bin|exact H3].
Qed.

Lemma Forall2_split : forall {A B} (R : A -> B -> Prop) n a b, Forall2 R a b ->
  Forall2 R (firstn n a) (firstn n b) /\ Forall2 R (skipn n a) (skipn n b).
Proof.
  intros A B R n a b H. revert n. induction H as [|x y a b Hx H IH]; intros n.
  - rewrite !firstn_nil, !skipn_nil. split; constructor.
  - destruct n; cbn [firstn skipn]; [split; constructor; assumption|].
    destruct (IH n) as [H1 H2]. split; [constructor; assumption|exact H2].
Qed.

Definition base_digits (base : Z) (vs : list Z) : Prop := Forall (fun v => 0 <= v < base) vs.

Lemma base_numeral_range : forall base vs, 2 <= base -> base_digits base vs ->
  0 <= numeral base vs < base ^ Z.of_nat (length vs).
Proof.
  intros base vs Hb H. induction H as [|v vs Hv H IH]; [cbn; lia|].
  cbn [numeral length]. rewrite Nat2Z.inj_succ, Z.pow_succ_r by lia. nia.
Qed.

Lemma numeral_inj : forall base a b, 2 <= base -> base_digits base a -> base_digits base b ->
  length a = length b -> numeral base a = numeral base b -> a = b.
Proof.
  intros base a b Hb Ha. revert b. induction Ha as [|x a Hx Ha IH]; intros b Hbb Hl Hn.
  - destruct b; [reflexivity|discriminate].
  - destruct b as [|y b]; [discriminate|]. inversion Hbb as [|? ? Hy Hbb']; subst.
    cbn [numeral length] in *. injection Hl as Hl. rewrite Hl in Hn.
    pose proof (base_numeral_range base a Hb Ha) as Ra. rewrite Hl in Ra.
    pose proof (base_numeral_range base b Hb Hbb') as Rb.
    assert (x = y) as -> by nia. f_equal. apply IH; auto. lia.
Qed.

Lemma groups_bits : forall k n f s ds, (0 < n)%nat -> Forall2 bin_digit s ds ->
  length s = (k * n)%nat ->
  exists vs, groups k n f s = Some (flat_map f vs) /\ length vs = k /\
    base_digits (2 ^ Z.of_nat n) vs /\ numeral (2 ^ Z.of_nat n) vs = numeral 2 ds.
Proof.
  induction k as [|k IH]; intros n f s ds Hn H Hl.
  - assert (s = []) as -> by (destruct s; [reflexivity|discriminate Hl]).
    inversion H; subst. exists []. repeat split. constructor.
  - destruct (Forall2_split _ n _ _ H) as [H1 H2].
    assert (Hf : length (firstn n s) = n) by (rewrite firstn_length; nia).
    assert (Hsk : length (skipn n s) = (k * n)%nat) by (rewrite skipn_length; nia).
    destruct (IH n f _ _ Hn H2 Hsk) as (vs & E1 & E2 & E3 & E4).
    exists (numeral 2 (firstn n ds) :: vs). split; [|split; [|split]].
    + cbn [groups]. rewrite <- (firstn_skipn n s) at 1.
      pose proof (group_bits _ _ 0 (skipn n s) H1) as G. rewrite Hf in G. rewrite G.
      rewrite E1. reflexivity.
    + cbn [length]. lia.
    + constructor; [|exact E3].
      pose proof (numeral_range 2 _ ltac:(lia) digit_bin bin_range _ _ H1) as R.
      rewrite Hf in R. exact R.
    + cbn [numeral]. rewrite E2, E4. rewrite <- (firstn_skipn n ds) at 3.
      rewrite numeral_app. f_equal. f_equal. rewrite <- (Forall2_length H2), Hsk.
      rewrite <- Z.pow_mul_r by lia. f_equal. lia.
Qed.

Lemma groups_only : forall k n f s r, groups k n f s = Some r ->
  exists ds, Forall2 bin_digit (firstn (k * n) s) ds.
Proof.
  induction k as [|k IH]; intros n f s r H.
  - exists []. constructor.
  - cbn [groups] in H. destruct (group n 0 s) as [[v s']|] eqn:E; [|discriminate].
    destruct (groups k n f s') as [r'|] eqn:E2; [|discriminate].
    destruct (group_only _ _ _ _ _ E) as (a & ds & -> & Ha & Hd).
    destruct (IH _ _ _ _ E2) as [ds' Hd'].
    exists (ds ++ ds'). cbn [Nat.mul]. rewrite firstn_app, Ha.
    replace (n + k * n - n)%nat with (k * n)%nat by lia.
    rewrite firstn_all2 by lia. now apply Forall2_app.
Qed.

Definition pad_size (n : nat) (s : bytes) : nat :=
  if Nat.eqb (length s mod n) 0 then 0%nat else (n - length s mod n)%nat.

Lemma pad_is : forall n s, pad n s = repeat 48%N (pad_size n s) ++ s.
Proof. intros n s. unfold pad, pad_size. now destruct (Nat.eqb (length s mod n) 0). Qed.

Lemma pad_length : forall n s, (0 < n)%nat ->
  length (pad n s) = ((length s + (n - 1)) / n * n)%nat /\ (length (pad n s) mod n = 0)%nat.
Proof.
  intros n s Hn. rewrite pad_is, app_length, repeat_length. unfold pad_size.
  set (l := length s). pose proof (Nat.div_mod l n ltac:(lia)) as Hd.
  pose proof (Nat.mod_upper_bound l n ltac:(lia)) as Hm.
  destruct (Nat.eqb (l mod n) 0) eqn:E.
  - apply Nat.eqb_eq in E.
    assert (Hq : ((l + (n - 1)) / n = l / n)%nat).
    { symmetry. apply Nat.div_unique with (n - 1)%nat; [lia|]. lia. }
    rewrite Hq. split; [lia|]. cbn. exact E.
  - apply Nat.eqb_neq in E.
    assert (Hq : ((l + (n - 1)) / n = S (l / n))%nat).
    { symmetry. apply Nat.div_unique with (l mod n - 1)%nat; [lia|]. lia. }
    rewrite Hq. assert (Hs : (n - l mod n + l = S (l / n) * n)%nat) by lia.
    split; [exact Hs|]. rewrite Hs. apply Nat.mod_mul. lia.
Qed.

Lemma Forall2_zeros : forall k, Forall2 bin_digit (repeat 48%N k) (repeat 0 k).
Proof. induction k; cbn [repeat]; constructor; [unfold bin_digit; lia|assumption]. Qed.

Lemma numeral_zeros : forall base k ds, numeral base (repeat 0 k ++ ds) = numeral base ds.
Proof. induction k as [|k IH]; intros ds; cbn [repeat app numeral]; [reflexivity|rewrite IH; lia]. Qed.

Lemma pad_digits : forall n s ds, Forall2 bin_digit s ds ->
  Forall2 bin_digit (pad n s) (repeat 0 (pad_size n s) ++ ds).
Proof. intros n s ds H. rewrite pad_is. apply Forall2_app; [apply Forall2_zeros|exact H]. Qed.

Lemma of_bits_digits : forall n f s ds, (0 < n)%nat -> Forall2 bin_digit s ds ->
  exists vs, of_bits n f s = Ok (flat_map f vs) /\ length vs = ((length s + (n - 1)) / n)%nat /\
    base_digits (2 ^ Z.of_nat n) vs /\ numeral (2 ^ Z.of_nat n) vs = numeral 2 ds.
Proof.
  intros n f s ds Hn H. destruct s as [|c s].
  - inversion H; subst. exists []. cbn [of_bits flat_map length numeral].
    split; [reflexivity|]. split; [|split; [constructor|reflexivity]].
    symmetry. apply Nat.div_small. lia.
  - destruct (pad_length n (c :: s) Hn) as [Hl _].
    destruct (groups_bits ((length (c :: s) + (n - 1)) / n) n f _ _ Hn (pad_digits n _ _ H) Hl)
      as (vs & E1 & E2 & E3 & E4).
    exists vs. split; [|split; [exact E2|split; [exact E3|]]].
    + unfold of_bits. rewrite Hl, Nat.div_mul by lia. now rewrite E1.
    + rewrite E4. apply numeral_zeros.
Qed.

Lemma of_bits_only : forall n f s r, (0 < n)%nat -> of_bits n f s = Ok r ->
  exists ds, Forall2 bin_digit s ds.
Proof.
  intros n f s r Hn H. destruct s as [|c s]; [exists []; constructor|].
  unfold of_bits in H. destruct (groups _ n f _) as [r'|] eqn:E; [|discriminate].
  destruct (groups_only _ _ _ _ _ E) as [ds Hd].
  destruct (pad_length n (c :: s) Hn) as [_ Hm].
  rewrite firstn_all2 in Hd.
  2:{ pose proof (Nat.div_mod (length (pad n (c :: s))) n ltac:(lia)). nia. }
  rewrite pad_is in Hd. apply Forall2_app_inv_l in Hd as (d1 & d2 & _ & Hd & _).
  now exists d2.
Qed.

(** ** Characters from digits *)
Lemma upper_fun : forall s s' ds, Forall2 upper_hex_digit s ds -> Forall2 upper_hex_digit s' ds -> s = s'.
Proof.
  intros s s' ds H. revert s'. induction H as [|c d s ds Hc H IH]; intros s' H'.
  - now inversion H'.
  - inversion H' as [|c' ? t ? Hc' H2]; subst. f_equal; [|now apply IH].
    unfold upper_hex_digit in *. lia.
Qed.

Lemma bin_fun : forall s s' ds, Forall2 bin_digit s ds -> Forall2 bin_digit s' ds -> s = s'.
Proof.
  intros s s' ds H. revert s'. induction H as [|c d s ds Hc H IH]; intros s' H'.
  - now inversion H'.
  - inversion H' as [|c' ? t ? Hc' H2]; subst. f_equal; [|now apply IH].
    unfold bin_digit in *. lia.
Qed.

Lemma digits_base : forall base (D : N -> Z -> Prop) s ds,
  (forall c d, D c d -> 0 <= d < base) -> Forall2 D s ds -> base_digits base ds.
Proof. intros base D s ds HD H. induction H; constructor; eauto. Qed.

Lemma hexdigits_of : forall vs, base_digits 16 vs ->
  Forall2 upper_hex_digit (flat_map (fun v => [hexdigit v]) vs) vs.
Proof.
  induction 1 as [|v vs Hv H IH]; cbn [flat_map app]; constructor; [now apply upper_hexdigit|exact IH].
Qed.

Lemma B2X_digits : forall s ds, Forall2 bin_digit s ds ->
  exists r hs, B2X s = Ok r /\ Forall2 upper_hex_digit r hs /\
    length r = ((length s + 3) / 4)%nat /\ numeral 16 hs = numeral 2 ds.
Proof.
  intros s ds H. destruct (of_bits_digits 4 (fun v => [hexdigit v]) s ds ltac:(lia) H)
    as (vs & E1 & E2 & E3 & E4).
  exists (flat_map (fun v => [hexdigit v]) vs), vs.
  change (2 ^ Z.of_nat 4) with 16 in *.
  split; [exact E1|]. split; [now apply hexdigits_of|]. split; [|exact E4].
  rewrite (Forall2_length (hexdigits_of vs E3)). exact E2.
Qed.

(** ** Digits of groups written out *)
Lemma flat_digits : forall base n g (D : N -> Z -> Prop) (h : Z -> bytes) vs,
  (0 < n)%nat -> 2 <= base ->
  g = base ^ Z.of_nat n ->
  (forall v, 0 <= v < g -> exists ds, Forall2 D (h v) ds /\ length (h v) = n /\ numeral base ds = v) ->
  base_digits g vs ->
  exists ds, Forall2 D (flat_map h vs) ds /\ length (flat_map h vs) = (length vs * n)%nat /\
    numeral base ds = numeral g vs.
Proof.
  intros base n g D h vs Hn Hb Hg Hh H. induction H as [|v vs Hv H IH].
  - exists []. repeat split. constructor.
  - destruct IH as (ds & E1 & E2 & E3). destruct (Hh v Hv) as (d & F1 & F2 & F3).
    exists (d ++ ds). cbn [flat_map]. split; [now apply Forall2_app|]. split.
    + rewrite app_length. cbn [length]. lia.
    + rewrite numeral_app. cbn [numeral]. rewrite F3, E3. f_equal. f_equal.
      rewrite <- (Forall2_length E1), E2, Hg. rewrite <- Z.pow_mul_r by lia. f_equal. lia.
Qed.

Lemma bits_of : forall n v, 0 <= v < 2 ^ Z.of_nat n ->
  exists ds, Forall2 bin_digit (bits n v) ds /\ length (bits n v) = n /\ numeral 2 ds = v.
Proof.
  intros n v H. destruct (bits_digits n v) as (ds & H1 & H2 & H3).
  exists ds. rewrite Z.mod_small in H3 by exact H. auto.
Qed.

Lemma hex_of : forall n v, 0 <= v < 16 ^ Z.of_nat n ->
  exists ds, Forall2 upper_hex_digit (hex n v) ds /\ length (hex n v) = n /\ numeral 16 ds = v.
Proof.
  intros n v H. destruct (hex_digits n v) as (ds & H1 & H2 & H3).
  exists ds. rewrite Z.mod_small in H3 by exact H. auto.
Qed.

Lemma X2B_digits_is : forall s hs, Forall2 hex_digit s hs ->
  X2B_digits s = Some (flat_map (bits 4) hs).
Proof.
  induction 1 as [|c h s hs Hc H IH]; [reflexivity|].
  cbn [X2B_digits flat_map]. rewrite (proj2 (digit_hex c h) Hc), IH. reflexivity.
Qed.

Lemma X2B_digits_only : forall s r, X2B_digits s = Some r -> exists hs, Forall2 hex_digit s hs.
Proof.
  induction s as [|c s IH]; intros r H; [exists []; constructor|].
  cbn [X2B_digits] in H. destruct (digit 16 c) as [d|] eqn:E; [|discriminate].
  destruct (X2B_digits s) as [r'|] eqn:E2; [|discriminate].
  destruct (IH _ eq_refl) as [hs Hh]. exists (d :: hs). constructor; [now apply digit_hex|exact Hh].
Qed.

Lemma X2B_ok : forall s hs, Forall2 hex_digit s hs -> (length s <= 1016)%nat ->
  exists r ds, X2B s = Ok r /\ Forall2 bin_digit r ds /\ length r = (length s * 4)%nat /\
    numeral 2 ds = numeral 16 hs.
Proof.
  intros s hs H Hl.
  destruct (flat_digits 2 4 16 bin_digit (bits 4) hs ltac:(lia) ltac:(lia) eq_refl
              (bits_of 4) (digits_base 16 _ _ _ hex_range H)) as (ds & E1 & E2 & E3).
  exists (flat_map (bits 4) hs), ds. split; [|split; [exact E1|split; [|exact E3]]].
  - unfold X2B. destruct s as [|c s]; [inversion H; reflexivity|].
    unfold size, MAX_STR_SIZE. replace (Z.of_nat (length (c :: s)) * 4 >? 4064) with false by lia.
    now rewrite (X2B_digits_is _ _ H).
  - now rewrite E2, (Forall2_length H).
Qed.

Lemma X2B_only : forall s r, X2B s = Ok r ->
  (exists hs, Forall2 hex_digit s hs) /\ (length s <= 1016)%nat.
Proof.
  intros s r H. unfold X2B in H. destruct s as [|c s].
  - split; [exists []; constructor|cbn; lia].
  - unfold size, MAX_STR_SIZE in H.
    destruct (Z.of_nat (length (c :: s)) * 4 >? 4064) eqn:E; [discriminate|].
    destruct (X2B_digits (c :: s)) as [r'|] eqn:E2; [|discriminate].
    split; [now apply X2B_digits_only in E2|lia].
Qed.

(** Upper-casing hexadecimal digits keeps their values. *)
Lemma upper_digits : forall s hs, Forall2 hex_digit s hs -> Forall2 upper_hex_digit (UPPER s) hs.
Proof.
  induction 1 as [|c h s hs Hc H IH]; cbn [UPPER map]; constructor; [|exact IH].
  unfold hex_digit, upper_hex_digit, upper in *.
  destruct ((97 <=? c) && (c <=? 122))%N eqn:E; lia.
Qed.

Lemma B2X_X2B : forall s hs, Forall2 hex_digit s hs -> (length s <= 1016)%nat ->
  exists b, X2B s = Ok b /\ B2X b = Ok (UPPER s).
Proof.
  intros s hs H Hl. destruct (X2B_ok s hs H Hl) as (b & ds & E1 & E2 & E3 & E4).
  exists b. split; [exact E1|].
  destruct (B2X_digits b ds E2) as (r & hs' & F1 & F2 & F3 & F4).
  rewrite F1. f_equal. apply (upper_fun _ _ hs); [|now apply upper_digits].
  replace hs with hs'; [exact F2|].
  apply (numeral_inj 16); [lia| | | |congruence].
  - exact (digits_base 16 _ _ _ hex_range (upper_is_hex _ _ F2)).
  - exact (digits_base 16 _ _ _ hex_range H).
  - rewrite <- (Forall2_length F2), <- (Forall2_length H), F3, E3.
    rewrite <- (Nat.div_unique (length s * 4 + 3) 4 (length s) 3); lia.
Qed.

Lemma X2B_B2X : forall s ds, Forall2 bin_digit s ds -> (length s <= 4064)%nat ->
  exists x, B2X s = Ok x /\ X2B x = Ok (pad 4 s).
Proof.
  intros s ds H Hl. destruct (B2X_digits s ds H) as (x & hs & E1 & E2 & E3 & E4).
  exists x. split; [exact E1|].
  assert (Hx : (length x <= 1016)%nat).
  { rewrite E3. change 1016%nat with (4067 / 4)%nat. apply Nat.div_le_mono; lia. }
  destruct (X2B_ok x hs (upper_is_hex _ _ E2) Hx) as (b & ds' & F1 & F2 & F3 & F4).
  rewrite F1. f_equal. pose proof (pad_digits 4 s ds H) as Hp.
  apply (bin_fun _ _ (repeat 0 (pad_size 4 s) ++ ds)); [|exact Hp].
  replace (repeat 0 (pad_size 4 s) ++ ds) with ds'; [exact F2|].
  apply (numeral_inj 2); [lia| | | |].
  - exact (digits_base 2 _ _ _ bin_range F2).
  - exact (digits_base 2 _ _ _ bin_range Hp).
  - rewrite <- (Forall2_length F2), <- (Forall2_length Hp), F3, E3.
    symmetry. apply (pad_length 4 s). lia.
  - rewrite numeral_zeros. congruence.
Qed.

(** ** Characters *)
Definition chars (bs : list Z) : bytes := flat_map (fun v => to_ascii (Z.to_N v)) bs.

Lemma B2C_digits : forall s ds, Forall2 bin_digit s ds ->
  exists bs, B2C s = Ok (chars bs) /\ base_digits 256 bs /\
    length bs = ((length s + 7) / 8)%nat /\ numeral 256 bs = numeral 2 ds.
Proof.
  intros s ds H. destruct (of_bits_digits 8 (fun v => to_ascii (Z.to_N v)) s ds ltac:(lia) H)
    as (vs & E1 & E2 & E3 & E4).
  exists vs. change (2 ^ Z.of_nat 8) with 256 in *. auto.
Qed.

Lemma X2C_pairs_is : forall k s hs, Forall2 hex_digit s hs -> length s = (2 * k)%nat ->
  exists bs, X2C_pairs s = Some (chars bs) /\ base_digits 256 bs /\
    length bs = k /\ numeral 256 bs = numeral 16 hs.
Proof.
  induction k as [|k IH]; intros s hs H Hl.
  - assert (s = []) as -> by (destruct s; [reflexivity|discriminate Hl]).
    inversion H; subst. exists []. repeat split. constructor.
  - inversion H as [|c1 h1 s1 hs1 H1 H']; subst; [discriminate Hl|].
    inversion H' as [|c2 h2 s2 hs2 H2 H'']; subst; [cbn in Hl; lia|].
    destruct (IH s2 hs2 H'') as (bs & E1 & E2 & E3 & E4); [cbn [length] in Hl; lia|].
    exists (h1 * 16 + h2 :: bs). split; [|split; [|split]].
    + cbn [X2C_pairs]. rewrite (proj2 (digit_hex c1 h1) H1), (proj2 (digit_hex c2 h2) H2), E1.
      reflexivity.
    + constructor; [|exact E2]. apply hex_range in H1, H2. lia.
    + cbn [length]. lia.
    + cbn [numeral length]. rewrite E4, E3.
      assert (Hl2 : length hs2 = (2 * k)%nat)
        by (rewrite <- (Forall2_length H''); cbn [length] in Hl; lia).
      rewrite Hl2. rewrite Nat2Z.inj_succ, Z.pow_succ_r by lia.
      replace (16 ^ Z.of_nat (2 * k)) with (256 ^ Z.of_nat k).
      2:{ change 256 with (16 ^ 2). rewrite <- Z.pow_mul_r by lia. f_equal. lia. }
      ring.
Qed.

Lemma Forall2_hex_zeros : forall k s hs, Forall2 hex_digit s hs ->
  Forall2 hex_digit (repeat 48%N k ++ s) (repeat 0 k ++ hs).
Proof.
  induction k; intros; cbn [repeat app]; [assumption|]. constructor; [|now apply IHk].
  unfold hex_digit, upper_hex_digit. lia.
Qed.

Lemma X2C_digits : forall s hs, Forall2 hex_digit s hs ->
  exists bs, X2C s = Ok (chars bs) /\ base_digits 256 bs /\
    length bs = ((length s + 1) / 2)%nat /\ numeral 256 bs = numeral 16 hs.
Proof.
  intros s hs H. destruct s as [|c s].
  - inversion H; subst. exists []. repeat split. constructor.
  - destruct (pad_length 2 (c :: s) ltac:(lia)) as [Hl _].
    destruct (X2C_pairs_is ((length (c :: s) + 1) / 2) (pad 2 (c :: s))
                (repeat 0 (pad_size 2 (c :: s)) ++ hs)) as (bs & E1 & E2 & E3 & E4).
    + rewrite pad_is. now apply Forall2_hex_zeros.
    + rewrite Hl. change (2 - 1)%nat with 1%nat. lia.
    + exists bs. split; [|split; [exact E2|split; [exact E3|]]].
      * unfold X2C. now rewrite E1.
      * rewrite E4. apply numeral_zeros.
Qed.

Lemma chars_map : forall bs, chars bs = flat_map to_ascii (map Z.to_N bs).
Proof. induction bs as [|b bs IH]; [reflexivity|]. unfold chars in *. cbn [flat_map map]. now rewrite IH. Qed.

Lemma base_bytes : forall bs, base_digits 256 bs -> Forall (fun b => (b < 256)%N) (map Z.to_N bs).
Proof. induction 1; cbn [map]; constructor; [lia|assumption]. Qed.

Lemma decode_chars : forall w bs, base_digits 256 bs -> w <> until_nul ->
  exists cs, decode w 0 (chars bs) = Some cs /\ map (fun c => Z.of_N (a2e c)) cs = bs.
Proof.
  intros w bs H Hw. rewrite chars_map.
  pose proof (decode_bytes w _ (base_bytes bs H) (fun E => match Hw E with end)) as D.
  destruct (decode w 0 (flat_map to_ascii (map Z.to_N bs))) as [cs|]; [|discriminate].
  exists cs. split; [reflexivity|]. cbn [option_map] in D. injection D as D.
  rewrite <- map_map. rewrite D, map_map. clear - H.
  induction H as [|b bs Hb H IH]; [reflexivity|]. cbn [map]. rewrite IH. f_equal. lia.
Qed.

Lemma flat_map_map : forall {A B C} (f : A -> B) (g : B -> list C) l,
  flat_map g (map f l) = flat_map (fun a => g (f a)) l.
Proof. induction l as [|a l IH]; [reflexivity|]. cbn [map flat_map]. now rewrite IH. Qed.

Lemma to_ascii_nonempty : forall b, to_ascii b <> [].
Proof. intros b. unfold to_ascii. destruct (e2a b <? 128)%N; discriminate. Qed.

Lemma chars_nil : forall bs, chars bs = [] -> bs = [].
Proof.
  destruct bs as [|b bs]; [reflexivity|]. unfold chars. cbn [flat_map].
  intros H. apply app_eq_nil in H as [H _]. now apply to_ascii_nonempty in H.
Qed.

Lemma C2X_chars : forall bs, base_digits 256 bs -> size (chars bs) <= 2032 ->
  exists r hs, C2X (chars bs) = Ok r /\ Forall2 upper_hex_digit r hs /\
    length r = (length bs * 2)%nat /\ numeral 16 hs = numeral 256 bs.
Proof.
  intros bs H Hl.
  destruct (flat_digits 16 2 256 upper_hex_digit (hex 2) bs ltac:(lia) ltac:(lia) eq_refl
              (hex_of 2) H) as (hs & E1 & E2 & E3).
  destruct (decode_chars until_end bs H ltac:(discriminate)) as (cs & D1 & D2).
  exists (flat_map (hex 2) bs), hs. split; [|auto].
  unfold C2X. destruct (chars bs) as [|c s] eqn:E.
  - apply chars_nil in E. subst bs. reflexivity.
  - unfold MAX_STR_SIZE. replace (size (c :: s) * 2 >? 4064) with false by lia.
    rewrite D1. f_equal. rewrite <- D2. symmetry. apply flat_map_map.
Qed.

Lemma C2B_chars : forall bs, base_digits 256 bs -> size (chars bs) <= 508 ->
  exists r ds, C2B (chars bs) = Ok r /\ Forall2 bin_digit r ds /\
    length r = (length bs * 8)%nat /\ numeral 2 ds = numeral 256 bs.
Proof.
  intros bs H Hl.
  destruct (flat_digits 2 8 256 bin_digit (bits 8) bs ltac:(lia) ltac:(lia) eq_refl
              (bits_of 8) H) as (hs & E1 & E2 & E3).
  destruct (decode_chars until_end bs H ltac:(discriminate)) as (cs & D1 & D2).
  exists (flat_map (bits 8) bs), hs. split; [|auto].
  unfold C2B. destruct (chars bs) as [|c s] eqn:E.
  - apply chars_nil in E. subst bs. reflexivity.
  - unfold MAX_STR_SIZE. replace (size (c :: s) * 8 >? 4064) with false by lia.
    rewrite D1. f_equal. rewrite <- D2. symmetry. apply flat_map_map.
Qed.

Lemma C2X_X2C : forall s hs c, Forall2 hex_digit s hs -> X2C s = Ok c -> size c <= 2032 ->
  C2X c = Ok (UPPER (pad 2 s)).
Proof.
  intros s hs c H Hc Hl. destruct (X2C_digits s hs H) as (bs & E1 & E2 & E3 & E4).
  rewrite E1 in Hc. injection Hc as <-.
  destruct (C2X_chars bs E2 Hl) as (r & hs' & F1 & F2 & F3 & F4).
  rewrite F1. f_equal.
  assert (Hp : Forall2 hex_digit (pad 2 s) (repeat 0 (pad_size 2 s) ++ hs))
    by (rewrite pad_is; now apply Forall2_hex_zeros).
  apply (upper_fun _ _ (repeat 0 (pad_size 2 s) ++ hs)); [|now apply upper_digits].
  replace (repeat 0 (pad_size 2 s) ++ hs) with hs'; [exact F2|].
  apply (numeral_inj 16); [lia| | | |].
  - exact (digits_base 16 _ _ _ hex_range (upper_is_hex _ _ F2)).
  - exact (digits_base 16 _ _ _ hex_range Hp).
  - rewrite <- (Forall2_length F2), <- (Forall2_length Hp), F3, E3.
    symmetry. apply (pad_length 2 s). lia.
  - rewrite numeral_zeros. congruence.
Qed.

Lemma X2C_C2X : forall bs, base_digits 256 bs -> size (chars bs) <= 2032 ->
  exists x, C2X (chars bs) = Ok x /\ X2C x = Ok (chars bs).
Proof.
  intros bs H Hl. destruct (C2X_chars bs H Hl) as (r & hs & E1 & E2 & E3 & E4).
  exists r. split; [exact E1|].
  destruct (X2C_digits r hs (upper_is_hex _ _ E2)) as (bs' & F1 & F2 & F3 & F4).
  rewrite F1. f_equal. f_equal. apply (numeral_inj 256); auto; [lia| |congruence].
  rewrite F3, E3. symmetry. apply Nat.div_unique with 1%nat; lia.
Qed.

Lemma B2C_C2B : forall bs, base_digits 256 bs -> size (chars bs) <= 508 ->
  exists x, C2B (chars bs) = Ok x /\ B2C x = Ok (chars bs).
Proof.
  intros bs H Hl. destruct (C2B_chars bs H Hl) as (r & hs & E1 & E2 & E3 & E4).
  exists r. split; [exact E1|].
  destruct (B2C_digits r hs E2) as (bs' & F1 & F2 & F3 & F4).
  rewrite F1. f_equal. f_equal. apply (numeral_inj 256); auto; [lia| |congruence].
  rewrite F3, E3. symmetry. apply Nat.div_unique with 7%nat; lia.
Qed.

Lemma C2B_B2C : forall s ds c, Forall2 bin_digit s ds -> B2C s = Ok c -> size c <= 508 ->
  C2B c = Ok (pad 8 s).
Proof.
  intros s ds c H Hc Hl. destruct (B2C_digits s ds H) as (bs & E1 & E2 & E3 & E4).
  rewrite E1 in Hc. injection Hc as <-.
  destruct (C2B_chars bs E2 Hl) as (r & ds' & F1 & F2 & F3 & F4).
  rewrite F1. f_equal. pose proof (pad_digits 8 s ds H) as Hp.
  apply (bin_fun _ _ (repeat 0 (pad_size 8 s) ++ ds)); [|exact Hp].
  replace (repeat 0 (pad_size 8 s) ++ ds) with ds'; [exact F2|].
  apply (numeral_inj 2); [lia| | | |].
  - exact (digits_base 2 _ _ _ bin_range F2).
  - exact (digits_base 2 _ _ _ bin_range Hp).
  - rewrite <- (Forall2_length F2), <- (Forall2_length Hp), F3, E3.
    symmetry. apply (pad_length 8 s). lia.
  - rewrite numeral_zeros. congruence.
Qed.

(** ** A2C and C2A *)
Lemma A2C_byte_is : forall n i, 0 <= i <= 3 ->
  Z.of_N (A2C_byte n i) = register n / 256 ^ (3 - i) mod 256.
Proof.
  intros n i Hi. unfold A2C_byte. change (register n) with (to_unsigned n).
  set (u := to_unsigned n). set (sh := (3 - i) * 8). assert (0 <= sh) by (subst sh; lia).
  assert (Hm : forall m, Z.shiftr (Z.land u (Z.shiftl m sh)) sh = Z.land (Z.shiftr u sh) m).
  { intros m. rewrite Z.shiftr_land. f_equal. rewrite Z.shiftr_shiftl_l by lia.
    replace (sh - sh) with 0 by lia. apply Z.shiftl_0_r. }
  rewrite !Hm. replace (256 ^ (3 - i)) with (2 ^ sh).
  2:{ subst sh. change 256 with (2 ^ 8). rewrite <- Z.pow_mul_r by lia. f_equal. lia. }
  rewrite Z.shiftr_div_pow2 by lia. set (x := u / 2 ^ sh).
  assert (H255 : Z.land x 255 = x mod 256) by exact (Z.land_ones x 8 ltac:(lia)).
  assert (H128 : Z.land x 128 = Z.land (x mod 256) 128).
  { rewrite <- H255, <- Z.land_assoc. reflexivity. }
  rewrite H255, H128. rewrite Z.mod_mod by lia.
  pose proof (Z.mod_pos_bound x 256 ltac:(lia)) as Hx.
  set (y := x mod 256) in *.
  by_table (fun y => let y := Z.of_N y in Z.lor y (Z.land y 128 mod 256) =? y) 256%nat as T.
  specialize (T (Z.to_N y) ltac:(lia)). rewrite Z2N.id in T by lia.
  apply Z.eqb_eq in T. rewrite T. rewrite Z2N.id by lia. reflexivity.
Qed.

Lemma A2C_chars : forall n, exists bs, A2C n = chars bs /\ base_digits 256 bs /\
  length bs = 4%nat /\ numeral 256 bs = register n.
Proof.
  intros n. exists (map (fun i => Z.of_N (A2C_byte n i)) [0; 1; 2; 3]).
  pose proof (unsigned_range n) as Hr. change (to_unsigned n) with (register n) in Hr.
  unfold W in Hr.
  split; [|split; [|split; [reflexivity|]]].
  - unfold A2C, chars. rewrite flat_map_map. apply flat_map_ext.
    intros i. now rewrite N2Z.id.
  - cbn [map]. repeat constructor; rewrite A2C_byte_is by lia; apply Z.mod_pos_bound; lia.
  - cbn [map numeral length].
    rewrite !A2C_byte_is by lia. set (r := register n) in *. clearbody r.
    change (3 - 0) with 3. change (3 - 1) with 2. change (3 - 2) with 1. change (3 - 3) with 0.
    change (256 ^ Z.of_nat 3) with 16777216. change (256 ^ Z.of_nat 2) with 65536.
    change (256 ^ Z.of_nat 1) with 256. change (256 ^ Z.of_nat 0) with 1.
    change (256 ^ 3) with 16777216. change (256 ^ 2) with 65536. change (256 ^ 1) with 256.
    change (256 ^ 0) with 1. lia.
Qed.

Lemma fold_bytes : forall bs acc, base_digits 256 bs -> (length bs <= 4)%nat -> 0 <= acc < W ->
  fold_left (fun r c => (r * 256 + c) mod W) bs acc =
    (acc * 256 ^ Z.of_nat (length bs) + numeral 256 bs) mod W.
Proof.
  induction bs as [|b bs IH]; intros acc H Hl Ha.
  - cbn [fold_left length numeral]. change (256 ^ Z.of_nat 0) with 1.
    rewrite Z.mod_small; lia.
  - inversion H as [|? ? Hb H']; subst. cbn [fold_left length numeral] in *.
    rewrite IH; [|exact H'|lia|apply Z.mod_pos_bound; reflexivity].
    rewrite Nat2Z.inj_succ, Z.pow_succ_r by lia.
    set (p := 256 ^ Z.of_nat (length bs)).
    rewrite <- Z.add_mod_idemp_l by discriminate.
    rewrite Z.mul_mod_idemp_l by discriminate.
    rewrite Z.add_mod_idemp_l by discriminate. f_equal. ring.
Qed.

Lemma fold_map : forall {A B C} (f : A -> B -> A) (g : C -> B) l a,
  fold_left f (map g l) a = fold_left (fun x y => f x (g y)) l a.
Proof. induction l as [|c l IH]; intros a; [reflexivity|]. cbn [map fold_left]. apply IH. Qed.

Lemma chars_size : forall bs, (length bs <= length (chars bs))%nat.
Proof.
  induction bs as [|b bs IH]; [cbn; lia|]. unfold chars in *. cbn [flat_map length].
  rewrite app_length. pose proof (to_ascii_nonempty (Z.to_N b)).
  destruct (to_ascii (Z.to_N b)); [congruence|]. cbn [length]. lia.
Qed.

Lemma C2A_chars : forall bs, base_digits 256 bs -> (length (chars bs) <= 4)%nat ->
  C2A (chars bs) = Ok (signed_of (numeral 256 bs)).
Proof.
  intros bs H Hl. unfold C2A. destruct (chars bs) as [|c s] eqn:E.
  - apply chars_nil in E. subst bs. reflexivity.
  - rewrite <- E in *. clear E c s.
    unfold size. replace (Z.of_nat (length (chars bs)) >? 4) with false by lia.
    destruct (decode_chars below_end bs H ltac:(discriminate)) as (cs & D1 & D2).
    rewrite D1. f_equal. rewrite <- (fold_map (fun r c => (r * 256 + c) mod W) (fun c => Z.of_N (a2e c))).
    rewrite D2. pose proof (chars_size bs).
    rewrite fold_bytes; [|exact H|lia|cbv; split; [discriminate|reflexivity]].
    rewrite Z.mul_0_l, Z.add_0_l.
    rewrite signed_signed_of by (apply Z.mod_pos_bound; reflexivity).
    change W with (2 ^ 32). apply signed_of_mod.
Qed.

Lemma C2A_long : forall s, (4 < length s)%nat -> C2A s = Fail CE007.
Proof.
  intros s H. unfold C2A. destruct s as [|c s]; [cbn in H; lia|].
  unfold size. now replace (Z.of_nat (length (c :: s)) >? 4) with true by lia.
Qed.

(** ** Searching *)
Lemma find_first_of_spec : forall s set,
  match find_first_of s set with
  | Some i => first_at (fun i => exists c, nth_error s i = Some c /\ In c set) i
  | None => forall c, In c s -> ~ In c set
  end.
Proof.
  induction s as [|c s IH]; intros set; cbn [find_first_of]; [intros c []|].
  destruct (existsb (N.eqb c) set) eqn:E.
  - apply existsb_exists in E as (d & Hd & E). apply N.eqb_eq in E. subst d.
    split; [exists c; auto|lia].
  - assert (Hc : ~ In c set).
    { intros H. assert (existsb (N.eqb c) set = true); [|congruence].
      apply existsb_exists. exists c. split; [exact H|apply N.eqb_refl]. }
    specialize (IH set). destruct (find_first_of s set) as [i|]; cbn [option_map].
    + destruct IH as [(d & H1 & H2) IH]. split; [exists d; auto|].
      intros m (e & H3 & H4). destruct m as [|m].
      * cbn in H3. injection H3 as <-. contradiction.
      * apply le_n_S. apply IH. exists e. auto.
    + intros d [<-|Hd]; [exact Hc|now apply IH].
Qed.

Lemma starts_occurs : forall t s, starts_with t s = true <-> occurs t s 0.
Proof.
  intros t s. rewrite starts_with_app. split.
  - intros [r ->]. exists [], r. auto.
  - intros (a & b & -> & Ha). destruct a; [|discriminate]. exists b. reflexivity.
Qed.

Lemma occurs_S : forall t c s i, occurs t (c :: s) (S i) <-> occurs t s i.
Proof.
  intros t c s i. split.
  - intros (a & b & H & Ha). destruct a as [|x a]; [discriminate|]. cbn [app] in H.
    injection H as -> ->. exists a, b. split; [reflexivity|]. now injection Ha.
  - intros (a & b & -> & Ha). exists (c :: a), b. split; [reflexivity|]. cbn [length]. congruence.
Qed.

Lemma find_sub_spec : forall s t,
  match find_sub s t with
  | Some i => first_at (occurs t s) i
  | None => forall i, ~ occurs t s i
  end.
Proof.
  induction s as [|c s IH]; intros t; cbn [find_sub].
  - destruct (starts_with t []) eqn:E.
    + apply starts_occurs in E. split; [exact E|lia].
    + intros i (a & b & H & Ha). symmetry in H. apply app_eq_nil in H as [-> H].
      apply app_eq_nil in H as [-> _]. discriminate E.
  - destruct (starts_with t (c :: s)) eqn:E.
    + apply starts_occurs in E. split; [exact E|lia].
    + assert (H0 : ~ occurs t (c :: s) 0) by (intros H; apply starts_occurs in H; congruence).
      specialize (IH t). destruct (find_sub s t) as [i|]; cbn [option_map].
      * destruct IH as [H1 H2]. split; [now apply occurs_S|].
        intros m Hm. destruct m; [contradiction|]. apply le_n_S, H2. exact (proj1 (occurs_S _ _ _ _) Hm).
      * intros i Hi. destruct i; [contradiction|]. apply (IH i). exact (proj1 (occurs_S _ _ _ _) Hi).
Qed.

(** ** Doubled quotes and ampersands *)
Lemma doubling_is : forall s, doubling s (double_chars s).
Proof.
  induction s as [|c s IH]; [constructor|]. unfold double_chars in *. cbn [flat_map].
  unfold quote, amp. destruct ((c =? 39) || (c =? 38))%N eqn:E; cbn [app].
  - apply dbl_special; [lia|exact IH].
  - apply dbl_other; [lia|lia|exact IH].
Qed.

Lemma DCVAL_doubling : forall a b, doubling a b -> DCVAL b = a.
Proof.
  unfold DCVAL. induction 1 as [|c a b Hc H IH|c a b H1 H2 H IH]; [reflexivity| |].
  - cbn [DCVAL_from]. unfold doubled, peek, quote, amp. cbn [nth].
    replace ((c =? 39) && (c =? 39) || (c =? 38) && (c =? 38))%N with true by lia.
    cbn [DCVAL_from]. now rewrite IH.
  - cbn [DCVAL_from]. unfold doubled, quote, amp.
    replace ((c =? 39) && (peek b 0 =? 39) || (c =? 38) && (peek b 0 =? 38))%N with false by lia.
    now rewrite IH.
Qed.

Lemma DCLEN_DCVAL : forall skip s, DCLEN_from skip s = size (DCVAL_from skip s).
Proof.
  intros skip s. revert skip. induction s as [|c s IH]; intros skip; [reflexivity|].
  cbn [DCLEN_from DCVAL_from]. destruct skip; [|destruct (doubled c s)].
  - rewrite IH. unfold size. cbn [length]. lia.
  - apply IH.
  - rewrite IH. unfold size. cbn [length]. lia.
Qed.

(** ** Results are bounded *)
Lemma to_ascii_size : forall b, (1 <= length (to_ascii b) <= 2)%nat.
Proof. intros b. unfold to_ascii. destruct (e2a b <? 128)%N; cbn [length]; lia. Qed.

Lemma flat_map_bound : forall {A} (f : A -> bytes) k l, (forall a, (length (f a) <= k)%nat) ->
  (length (flat_map f l) <= length l * k)%nat.
Proof.
  intros A f k l H. induction l as [|a l IH]; cbn [flat_map length]; [lia|].
  rewrite app_length. pose proof (H a). lia.
Qed.

Lemma X2C_pairs_bound : forall k s r, (length s <= 2 * k)%nat -> X2C_pairs s = Some r ->
  (length r <= 2 * k)%nat.
Proof.
  induction k as [|k IH]; intros s r Hl H.
  - destruct s; [|cbn in Hl; lia]. injection H as <-. cbn. lia.
  - destruct s as [|c1 [|c2 s]]; [injection H as <-; cbn; lia|injection H as <-; cbn; lia|].
    cbn [X2C_pairs] in H. destruct (digit 16 c1) as [v1|]; [|discriminate].
    destruct (X2C_pairs s) as [r'|] eqn:E; [|discriminate].
    cbn [option_map] in H. injection H as <-.
    rewrite app_length. cbn [length] in Hl. specialize (IH s r' ltac:(lia) E).
    pose proof (to_ascii_size (Z.to_N (match digit 16 c2 with Some v2 => v1 * 16 + v2 | None => v1 end))).
    lia.
Qed.

Lemma decode_length : forall w k s cs, decode w k s = Some cs -> (length cs <= length s)%nat.
Proof.
  intros w k s. revert k. induction s as [|x s IH]; intros k cs H.
  - destruct k; [injection H as <-; cbn; lia|]. destruct w; try discriminate.
    injection H as <-. cbn. lia.
  - destruct k.
    + assert (Hc : forall r, option_map (cons r) (decode w (snd (to_pseudoascii (x :: s))) s) = Some cs ->
                (length cs <= length (x :: s))%nat).
      { intros r Hr. destruct (decode w (snd (to_pseudoascii (x :: s))) s) as [cs'|] eqn:E; [|discriminate].
        injection Hr as <-. apply IH in E. cbn [length]. lia. }
      cbn [decode] in H. destruct w; try exact (Hc _ H).
      destruct (x =? 0)%N; [injection H as <-; cbn; lia|exact (Hc _ H)].
    + cbn [decode] in H. apply IH in H. cbn [length]. lia.
Qed.

Lemma bits_length : forall n v, length (bits n v) = n.
Proof. induction n; intros v; cbn [bits length]; [reflexivity|now rewrite IHn]. Qed.
Lemma hex_length : forall n v, length (hex n v) = n.
Proof. induction n; intros v; cbn [hex length]; [reflexivity|now rewrite IHn]. Qed.
