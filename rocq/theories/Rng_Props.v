(** C77: positions in the operands of macro calls. *)
From Coq Require Import List ZArith Lia Bool.
From Coq Require Import ZifyBool ZifyNat.
From Verif Require Import Rng_Model Rng_Spec Rng_Proof.
Import ListNotations.
Open Scope Z_scope.

(** The joined line has the characters of every operand where [skipped] says. *)
Theorem C77_joined : forall before o rest j x,
  nth_error (text o) j = Some x ->
  nth_error (joined (before ++ o :: rest)) (skipped before + j) = Some x.
Proof. exact joined_char. Qed.
Print Assumptions C77_joined.

(** When the operands before it each stand on one line, the place behind [j] characters of an
    operand is found. *)
Theorem C77_end : forall first others before o rest (j : nat) q,
  first :: others = before ++ o :: rest ->
  Forall written (first :: others) -> Forall on_one_line before ->
  le (start (place first)) (start (place (last others first))) ->
  Z.of_nat (length (joined (first :: others))) < 2 ^ 31 ->
  (j <= length (text o))%nat -> after (start (place o)) j q ->
  source_of first others (Z.of_nat (skipped before + j)) = Pos q.
Proof.
  intros first others before o rest j q E W O L B Hj A. apply after_iff in A. subst q.
  assert (Wf : written first) by (inversion W; assumption).
  rewrite joined_length in B by easy. rewrite E in B, W.
  assert (S1 : (skipped (before ++ o :: rest) >= S (skipped before + length (text o)))%nat).
  { clear. induction before as [|b before IH]; cbn [app skipped fold_right] in *; [lia|].
    fold (skipped before) (skipped (before ++ o :: rest)) in *. lia. }
  rewrite source_eq; [|exact Wf|exact L|lia].
  apply Forall_app in W. destruct W as (Wb & Wo). assert (W1 : written o) by (inversion Wo; assumption).
  rewrite (locate_one_line before _ _ o rest j); [|now rewrite <- E|exact Wb|exact O|exact W1|lia|exact Hj].
  destruct W1 as (Hl & Hc & _). rewrite Nat2Z.id.
  rewrite walk_after; [now destruct (start (place o))| | | |]; try lia.
  replace (column (start (place o)) =? 71) with false by lia. cbn [Z.to_nat]. lia.
Qed.
Print Assumptions C77_end.

(** So is the place of a character, unless it is the first one of a continued line. *)
Theorem C77_start : forall first others before o rest (j : nat) q,
  first :: others = before ++ o :: rest ->
  Forall written (first :: others) -> Forall on_one_line before ->
  le (start (place first)) (start (place (last others first))) ->
  Z.of_nat (length (joined (first :: others))) < 2 ^ 31 ->
  (j < length (text o))%nat -> stands (start (place o)) j q ->
  (column q <> 15 \/ line q = line (start (place o))) ->
  source_of first others (Z.of_nat (skipped before + j)) = Pos q.
Proof.
  intros first others before o rest j q E W O L B Hj A C.
  inversion A as [q' A' Hq|q' A' Hq]; subst; [eapply C77_end; eauto; lia|].
  exfalso. cbn [column line] in C. apply after_iff in A'.
  assert (W1 : written o).
  { rewrite E in W. apply Forall_app in W. destruct W as (_ & W). inversion W. assumption. }
  destruct W1 as (Hl & Hc & _). assert (K := after_count (start (place o)) j ltac:(lia)).
  rewrite <- A' in K. cbv zeta in K. lia.
Qed.
Print Assumptions C77_start.

(** Two calls: everything on one line; and an operand reaching the next line. *)
Definition pt (l c : Z) : position := {| line := l; column := c |}.
Definition op (n : nat) (l c l' c' : Z) : operand :=
  {| text := repeat 65 n; place := {| start := pt l c; finish := pt l' c' |} |}.
Ltac aft := apply after_iff; vm_compute; reflexivity.
Lemma written_op n l c l' c' : 0 <= l < 2 ^ 32 -> 0 <= c < 71 -> afterf (pt l c) n = pt l' c' -> written (op n l c l' c').
Proof.
  intros A B C. split; [exact A|]. split; [exact B|]. cbn. rewrite repeat_length. apply after_iff. now symmetry.
Qed.
Example C77_end_case :
  Forall written [op 3 7 15 7 18; op 60 7 19 8 23] /\ Forall on_one_line [op 3 7 15 7 18] /\
  source_of (op 3 7 15 7 18) [op 60 7 19 8 23] 64 = Pos (pt 8 23).
Proof.
  split; [repeat constructor; apply written_op; (lia || reflexivity)|]. split; [repeat constructor|]. reflexivity.
Qed.
Example C77_start_case :
  source_of (op 3 7 15 7 18) [op 60 7 19 8 23] 57 = Pos (pt 8 16) /\ stands (pt 7 19) 53 (pt 8 16).
Proof.
  split; [reflexivity|]. apply (stands_in _ _ (pt 8 16)); [aft|cbn; lia].
Qed.

(** The first character of a continued line is said to stand behind the line before. *)
Theorem C77_continued_refuted : exists first others o (j : nat) q,
  first :: others = [o] /\ written o /\ (j < length (text o))%nat /\
  stands (start (place o)) j q /\ source_of first others (Z.of_nat j) <> Pos q.
Proof.
  exists (op 60 7 15 8 19), [], (op 60 7 15 8 19), 56%nat, (pt 8 15).
  split; [reflexivity|]. split; [apply written_op; (lia || reflexivity)|].
  split; [cbn; lia|]. split; [|vm_compute; discriminate].
  apply (stands_next _ _ (pt 7 71)); [aft|cbn; lia].
Qed.
Print Assumptions C77_continued_refuted.

(** Behind an operand that reaches the next line the places are wrong: the second operand, 40 characters
    behind the first one, is said to end 16 columns before its end. *)
Theorem C77_spanning_refuted : exists first second q q',
  Forall written [first; second] /\ le (start (place first)) (start (place second)) /\
  line (start (place second)) = line (finish (place first)) /\
  column (start (place second)) = column (finish (place first)) + 1 /\
  after (start (place second)) (length (text second)) q /\
  source_of first [second] (Z.of_nat (skipped [first] + length (text second))) = Pos q' /\
  line q' = line q /\ column q' = column q - 16.
Proof.
  exists (op 60 7 15 8 19), (op 40 8 20 8 60), (pt 8 60), (pt 8 44).
  split; [repeat constructor; apply written_op; (lia || reflexivity)|].
  split; [left; cbn; lia|]. split; [reflexivity|]. split; [reflexivity|]. split; [aft|].
  split; [reflexivity|]. split; reflexivity.
Qed.
Print Assumptions C77_spanning_refuted.

(** Whatever lines the operands span, a place is found for every column of the joined line and for
    its end: the list of operands is never left. *)
Theorem C77_found : forall first others k,
  Forall written (first :: others) ->
  le (start (place first)) (start (place (last others first))) ->
  Z.of_nat (length (joined (first :: others))) < 2 ^ 31 ->
  0 <= k <= Z.of_nat (length (joined (first :: others))) ->
  exists o (j : nat) q, In o (first :: others) /\ after (start (place o)) j q /\ source_of first others k = Pos q.
Proof.
  intros first others k W L B Hk. rewrite joined_length in B, Hk by easy.
  assert (Wf : written first) by (inversion W; assumption).
  assert (Sk : (0 < skipped (first :: others))%nat) by (cbn; lia).
  rewrite source_eq; [|exact Wf|exact L|lia].
  destruct (locate_some (first :: others) (place first) (List.map place others) k) as (o & j & I & E & Hj);
    [reflexivity|exact W|lia|lia|].
  rewrite E. exists o, (Z.to_nat j), (afterf (start (place o)) (Z.to_nat j)).
  split; [exact I|]. split; [now apply after_iff|].
  assert (W1 : written o) by (rewrite Forall_forall in W; now apply W).
  destruct W1 as (Hl & Hc & _). rewrite <- (Z2Nat.id j) at 2 by lia.
  rewrite walk_after; [now destruct (start (place o))| | | |]; try lia.
  replace (column (start (place o)) =? 71) with false by lia. cbn [Z.to_nat]. lia.
Qed.
Print Assumptions C77_found.

(** What comes out of a substitution is reported at the whole statement field it was made in; what is
    read once at its own place. *)
Theorem C77_other : forall whole ranges r,
  adjust_range SUBSTITUTION whole ranges r = Some (Pos (start whole), Pos (finish whole)) /\
  adjust_range NONE whole ranges r = Some (Pos (start r), Pos (finish r)) /\
  adjust_range MACRO_REPARSE whole ranges r =
    Some (adjust_position whole ranges (start r), adjust_position whole ranges (finish r)).
Proof. repeat split. Qed.
Print Assumptions C77_other.

(** The range of several fields is the smallest one with all of them. *)
Theorem C77_union : forall a b,
  within a (union_range a b) /\ within b (union_range a b) /\
  (forall r, within a r -> within b r -> within (union_range a b) r) /\
  (proper a -> proper b -> proper (union_range a b)).
Proof.
  intros [[al ac] [al' ac']] [[bl bc] [bl' bc']].
  unfold within, proper, le, union_range. cbn [start finish line column].
  destruct (Z.eqb_spec al bl), (Z.eqb_spec al (Z.min al bl)), (Z.eqb_spec al' bl'), (Z.eqb_spec al' (Z.max al' bl'));
    cbn [line column]; (repeat split); intros; cbn [line column]; try lia.
Qed.
Print Assumptions C77_union.
Example C77_union_case : union_range {| start := pt 3 9; finish := pt 3 20 |} {| start := pt 3 4; finish := pt 5 1 |} =
  {| start := pt 3 4; finish := pt 5 1 |}.
Proof. reflexivity. Qed.
