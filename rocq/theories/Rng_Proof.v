(** Proofs about Rng_Model.v. *)
From Coq Require Import List ZArith Lia Bool.
From Coq Require Import ZifyBool ZifyNat.
From Verif Require Import Rng_Model Rng_Spec.
Import ListNotations.
Open Scope Z_scope.

Lemma w_small z : 0 <= z < 2 ^ 64 -> w z = z.
Proof. intros H. unfold w. now apply Z.mod_small. Qed.

Fixpoint afterf (p : position) (n : nat) : position :=
  match n with
  | O => p
  | S m => let q := afterf p m in
           if column q <? 71 then {| line := line q; column := column q + 1 |}
           else {| line := line q + 1; column := 16 |}
  end.
Lemma after_iff p n q : after p n q <-> q = afterf p n.
Proof.
  split.
  - induction 1 as [|n q H IH L|n q H IH L]; [reflexivity| |]; cbn [afterf]; cbv zeta; rewrite <- IH;
      destruct (Z.ltb_spec (column q) 71); (reflexivity || lia).
  - intros ->. induction n as [|n IH]; [constructor|]. cbn [afterf]. cbv zeta.
    destruct (Z.ltb_spec (column (afterf p n)) 71); [now apply after_in|now apply after_wrap].
Qed.

(** The number of characters between. *)
Lemma after_count p n : 0 <= column p <= 71 ->
  let q := afterf p n in
  0 <= column q <= 71 /\ line p <= line q /\ Z.of_nat n = column q + 56 * (line q - line p) - column p.
Proof.
  intros H. induction n as [|n IH]; cbn [afterf]; cbv zeta in *; [lia|].
  destruct (Z.ltb_spec (column (afterf p n)) 71); cbn [line column]; lia.
Qed.

(** At the end of a line the next line is continued. *)
Lemma after_next l n : afterf {| line := l; column := 71 |} (S n) = afterf {| line := l + 1; column := 15 |} (S n).
Proof.
  induction n as [|n IH]; [reflexivity|].
  change (afterf {| line := l; column := 71 |} (S (S n)))
    with (let q := afterf {| line := l; column := 71 |} (S n) in
          if column q <? 71 then {| line := line q; column := column q + 1 |} else {| line := line q + 1; column := 16 |}).
  rewrite IH. reflexivity.
Qed.
Lemma after_add p a b : afterf p (a + b) = afterf (afterf p a) b.
Proof.
  induction b as [|b IH]; [now rewrite Nat.add_0_r|]. rewrite Nat.add_succ_r. cbn [afterf]. now rewrite IH.
Qed.
Lemma after_line p n : column p + Z.of_nat n <= 71 ->
  afterf p n = {| line := line p; column := column p + Z.of_nat n |}.
Proof.
  induction n as [|n IH]; intros H.
  - cbn. destruct p; cbn. f_equal. lia.
  - cbn [afterf]. cbv zeta. rewrite IH by lia. cbn [line column].
    destruct (Z.ltb_spec (column p + Z.of_nat n) 71); [f_equal; lia|lia].
Qed.

Lemma walk_after n : forall (fuel : nat) (l c : Z), (Z.to_nat (if (c =? 71)%Z then 1 else 0) + n < fuel)%nat ->
  0 <= l -> l + Z.of_nat n < 2 ^ 63 -> 0 <= c <= 71 ->
  walk fuel l c (Z.of_nat n) = Pos (afterf {| line := l; column := c |} n).
Proof.
  induction n as [n IH] using (well_founded_induction lt_wf). intros fuel l c Hf Hl Hb Hc.
  destruct fuel as [|fuel]; [lia|]. cbn [walk]. rewrite (w_small (71 - c)) by lia.
  rewrite Z.gtb_ltb. destruct (Z.ltb_spec (71 - c) (Z.of_nat n)) as [G|G].
  - rewrite (w_small (l + 1)) by lia. rewrite (w_small (Z.of_nat n - (71 - c))) by lia.
    assert (E : afterf {| line := l; column := c |} n = afterf {| line := l + 1; column := 15 |} (n - Z.to_nat (71 - c))).
    { replace n with (Z.to_nat (71 - c) + (n - Z.to_nat (71 - c)))%nat at 1 by lia.
      rewrite after_add, (after_line _ (Z.to_nat (71 - c))) by (cbn [column]; lia). cbn [line column].
      replace (c + Z.of_nat (Z.to_nat (71 - c))) with 71 by lia.
      destruct (n - Z.to_nat (71 - c))%nat as [|m] eqn:Em; [lia|]. apply after_next. }
    rewrite E. replace (Z.of_nat n - (71 - c)) with (Z.of_nat (n - Z.to_nat (71 - c))) by lia.
    destruct (Z.eqb_spec c 71) as [Ec|Nc].
    + subst c. replace (n - Z.to_nat (71 - 71))%nat with n by lia.
      (* one further step from column 15 *)
      destruct fuel as [|fuel]; [lia|]. cbn [walk]. change (w (71 - 15)) with 56.
      rewrite Z.gtb_ltb. destruct (Z.ltb_spec 56 (Z.of_nat n)) as [G2|G2].
      * rewrite (w_small (l + 1 + 1)) by lia. rewrite (w_small (Z.of_nat n - 56)) by lia.
        replace (Z.of_nat n - 56) with (Z.of_nat (n - 56)) by lia.
        rewrite IH by (cbn; lia). f_equal.
        replace n with (56 + (n - 56))%nat at 2 by lia. rewrite after_add, (after_line _ 56) by (cbn; lia).
        cbn [line column]. change (15 + Z.of_nat 56) with 71.
        destruct (n - 56)%nat as [|m] eqn:Em; [lia|]. symmetry. apply after_next.
      * rewrite (w_small (15 + Z.of_nat n)) by lia. rewrite after_line by (cbn [column]; lia). reflexivity.
    + cbn [Z.to_nat] in Hf. apply IH; try lia. change (15 =? 71) with false. cbn [Z.to_nat]. lia.
  - rewrite (w_small (c + Z.of_nat n)) by lia. now rewrite after_line by (cbn [column]; lia).
Qed.

(** ** The operand meant *)
Lemma columns_of o : written o -> Z.of_nat (length (text o)) < 2 ^ 32 ->
  columns (place o) = Z.of_nat (length (text o)) + 16 * (line (finish (place o)) - line (start (place o))) /\
  0 <= line (finish (place o)) - line (start (place o)) <= 2 ^ 32.
Proof.
  intros (Hl & Hc & Ha) Hn. apply after_iff in Ha.
  assert (A := after_count (start (place o)) (length (text o)) ltac:(lia)). rewrite <- Ha in A. cbv zeta in A.
  unfold columns. rewrite (w_small (line (finish (place o)) - line (start (place o)))) by lia.
  rewrite (w_small (column (finish (place o)) + 72 * _)) by lia. rewrite w_small by lia. lia.
Qed.

Lemma locate_one_line before : forall r others o rest (j : nat),
  map place (before ++ o :: rest) = r :: others ->
  Forall written before -> Forall on_one_line before -> written o ->
  Z.of_nat (skipped before + length (text o)) < 2 ^ 32 -> (j <= length (text o))%nat ->
  locate r others (Z.of_nat (skipped before + j)) = Some (place o, Z.of_nat j).
Proof.
  induction before as [|b before IH]; intros r others o rest j E Wb Ob Wo B Hj.
  - cbn in E. injection E as <- <-. cbn [skipped fold_right] in *. rewrite Nat.add_0_l in *.
    destruct (columns_of o Wo ltac:(lia)) as (C & Ln).
    assert (G : columns (place o) >=? Z.of_nat j = true) by lia.
    destruct (map place rest); cbn [locate]; now rewrite G.
  - cbn [app map] in E. injection E as <- <-. inversion Wb; inversion Ob; subst.
    cbn [skipped fold_right] in *. fold (skipped before) in *.
    destruct (columns_of b ltac:(assumption) ltac:(lia)) as (C & _).
    assert (O1 : on_one_line b) by assumption. unfold on_one_line in O1.
    destruct (map place (before ++ o :: rest)) as [|r' others'] eqn:E'; [destruct before; discriminate|].
    cbn [locate]. assert (G : columns (place b) >=? Z.of_nat (S (length (text b) + skipped before) + j) = false) by lia.
    rewrite G. rewrite (w_small (columns (place b) + 1)) by lia. rewrite w_small by lia.
    replace (Z.of_nat (S (length (text b) + skipped before) + j) - (columns (place b) + 1))
      with (Z.of_nat (skipped before + j)) by lia.
    eapply IH; eauto. lia.
Qed.

Lemma locate_some ops : forall r others (k : Z),
  map place ops = r :: others -> Forall written ops -> Z.of_nat (skipped ops) < 2 ^ 32 ->
  0 <= k < Z.of_nat (skipped ops) ->
  exists o j, In o ops /\ locate r others k = Some (place o, j) /\ 0 <= j <= k.
Proof.
  induction ops as [|o ops IH]; intros r others k E W B Hk; [discriminate|].
  cbn [map] in E. injection E as <- <-. inversion W; subst. cbn [skipped fold_right] in *. fold (skipped ops) in *.
  destruct (columns_of o ltac:(assumption) ltac:(lia)) as (C & Ln).
  destruct (map place ops) as [|r' others'] eqn:E'.
  - destruct ops; [|discriminate]. cbn in Hk. cbn [locate].
    assert (G : columns (place o) >=? k = true) by lia. rewrite G. exists o, k. split; [now left|]. split; [easy|lia].
  - cbn [locate]. destruct (columns (place o) >=? k) eqn:G.
    + exists o, k. split; [now left|]. split; [easy|lia].
    + rewrite (w_small (columns (place o) + 1)) by lia. rewrite w_small by lia.
      destruct (IH r' others' (k - (columns (place o) + 1)) eq_refl) as (o' & j & I & L & Hj); [assumption|lia|lia|].
      exists o', j. split; [now right|]. split; [exact L|lia].
Qed.

Lemma field_start first others :
  le (start (place first)) (start (place (last others first))) ->
  start (field_range first others) = start (place first).
Proof.
  unfold field_range, union_range, le. cbn [start].
  set (a := start (place first)). set (b := start (place (last others first))). intros H.
  destruct (Z.eqb_spec (line a) (line b)).
  - replace (Z.min (column a) (column b)) with (column a) by lia. now destruct a.
  - replace (Z.min (line a) (line b)) with (line a) by lia. now rewrite Z.eqb_refl.
Qed.

Lemma source_eq first others k :
  written first -> le (start (place first)) (start (place (last others first))) -> 0 <= k < 2 ^ 33 ->
  source_of first others k =
  match locate (place first) (map place others) k with
  | None => Out_of_range
  | Some (r, o) => walk (S (S (Z.to_nat o))) (line (start r)) (column (start r)) o
  end.
Proof.
  intros (Hl & Hc & _) Hle Hk. unfold source_of. cbv zeta. cbn [map adjust_position column line].
  rewrite (field_start _ _ Hle). rewrite (w_small (column (start (place first)) + k)) by lia.
  rewrite w_small by lia.
  replace (column (start (place first)) + k - column (start (place first))) with k by lia. reflexivity.
Qed.

Lemma joined_char before : forall o rest j x, nth_error (text o) j = Some x ->
  nth_error (joined (before ++ o :: rest)) (skipped before + j) = Some x.
Proof.
  induction before as [|b before IH]; intros o rest j x H.
  - cbn [app skipped fold_right]. rewrite Nat.add_0_l. destruct rest as [|r rest]; [exact H|].
    change (joined (o :: r :: rest)) with (text o ++ 44 :: joined (r :: rest)).
    rewrite nth_error_app1; [exact H|]. apply nth_error_Some. congruence.
  - cbn [app]. assert (E : exists y l, before ++ o :: rest = y :: l) by (destruct before; cbn; eauto).
    destruct E as (y & l & E).
    assert (J : joined (b :: before ++ o :: rest) = text b ++ 44 :: joined (before ++ o :: rest)) by (rewrite E; reflexivity).
    rewrite J. cbn [skipped fold_right]. fold (skipped before).
    replace (S (length (text b) + skipped before) + j)%nat with (length (text b) + S (skipped before + j))%nat by lia.
    rewrite nth_error_app2 by lia. replace (length (text b) + S (skipped before + j) - length (text b))%nat with (S (skipped before + j)) by lia.
    cbn [nth_error]. now apply IH.
Qed.
Lemma joined_length ops : ops <> [] -> length (joined ops) = (skipped ops - 1)%nat.
Proof.
  induction ops as [|o ops IH]; [easy|]. intros _. destruct ops as [|o' ops].
  - cbn. lia.
  - change (joined (o :: o' :: ops)) with (text o ++ 44 :: joined (o' :: ops)).
    rewrite app_length. cbn [length]. rewrite IH by easy. cbn [skipped fold_right]. lia.
Qed.
