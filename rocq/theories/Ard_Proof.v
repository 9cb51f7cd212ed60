(** Lemmas for Ard_Props.v. *)
From Coq Require Import String List NArith ZArith Bool Lia.
From Coq Require Import ZifyBool ZifyNat ZifyN.
From Verif Require Import Common CaNum_Proof Var_Model Text_Spec Ard_Model Ard_Spec.
From Verif Require Lex_Model.
Import ListNotations.
Open Scope list_scope.
Open Scope Z_scope.
Local Ltac Zify.zify_post_hook ::= Z.div_mod_to_equations.

Lemma asks_iff ops v : aread_variant ops = Some v <-> asks ops v.
Proof.
  split.
  - destruct ops as [|[|n|] r]; cbn [aread_variant].
    + intros [= <-]. constructor.
    + destruct r as [|[|m|] [|x y]]; try discriminate. intros [= <-]. constructor.
    + unfold allowed_operands. cbn [List.find fst].
      destruct (bytes_eqb (s2b "NOSTMT") n) eqn:E1;
        [apply bytes_eqb_eq in E1; subst; intros [= <-]; constructor|].
      destruct (bytes_eqb (s2b "NOPRINT") n) eqn:E2;
        [apply bytes_eqb_eq in E2; subst; intros [= <-]; constructor|].
      destruct (bytes_eqb (s2b "CLOCKB") n) eqn:E3;
        [apply bytes_eqb_eq in E3; subst; intros [= <-]; constructor|].
      destruct (bytes_eqb (s2b "CLOCKD") n) eqn:E4;
        [apply bytes_eqb_eq in E4; subst; intros [= <-]; constructor|].
      discriminate.
    + discriminate.
  - intros []; reflexivity.
Qed.

(** Numbers in figures *)
Lemma val_fold s : Forall (fun c => 48 <= c)%N s -> forall a,
  fold_left (fun a c => a * 10 + (Z.of_N c - 48)) s (Z.of_N a) =
  Z.of_N (fold_left (fun a d => (a * 10 + (d - 48))%N) s a).
Proof.
  induction 1 as [|c s Hc _ IH]; intros a; [reflexivity|]. cbn [fold_left].
  rewrite <- IH. f_equal. lia.
Qed.
Lemma zeros_fold k s : fold_left (fun a c => a * 10 + (Z.of_N c - 48)) (repeat 48%N k ++ s) 0 =
  fold_left (fun a c => a * 10 + (Z.of_N c - 48)) s 0.
Proof. induction k as [|k IH]; [reflexivity|]. cbn [repeat app fold_left]. exact IH. Qed.
Lemma digits_range n : Forall (fun c => 48 <= c <= 57)%N (dec n).
Proof.
  refine (Forall_impl _ _ (dec_digits n)). intros c H. unfold is_digit in H. lia.
Qed.
Lemma figure_pad k n : (0 < k)%nat -> 0 <= n < 10 ^ Z.of_nat k -> figure k (zero_left_pad (to_string n) k) n.
Proof.
  intros Hk Hn. unfold to_string, zero_left_pad.
  assert (L : (length (dec (Z.to_N n)) <= k)%nat).
  { apply dec_length; [|exact Hk]. apply N2Z.inj_lt. rewrite N2Z.inj_pow, Z2N.id by lia.
    rewrite nat_N_Z. change (Z.of_N 10) with 10. lia. }
  assert (V : fold_left (fun a c => a * 10 + (Z.of_N c - 48)) (dec (Z.to_N n)) 0 = n).
  { change 0 with (Z.of_N 0). rewrite val_fold.
    - fold (dec_val (dec (Z.to_N n))). rewrite dec_value. lia.
    - refine (Forall_impl _ _ (digits_range _)). intros; lia. }
  destruct (k <=? length (dec (Z.to_N n)))%nat eqn:E.
  - repeat split; [lia|apply digits_range|exact V].
  - repeat split.
    + rewrite app_length, repeat_length. lia.
    + apply Forall_app. split; [|apply digits_range]. apply Forall_forall. intros x Hx.
      apply repeat_spec in Hx. lia.
    + rewrite zeros_fold. exact V.
Qed.

(** Records *)
Lemma resize_card line : card line (resize80 line).
Proof.
  unfold card, resize80. rewrite app_length, firstn_length, repeat_length. split; [lia|].
  destruct (le_lt_dec (length line) 80) as [H|H].
  - left. split; [exact H|]. exists (repeat 32%N (80 - length line)).
    rewrite firstn_all2 by exact H. split; [reflexivity|].
    apply Forall_forall. intros x Hx. now apply repeat_spec in Hx.
  - right. split; [exact H|]. exists (skipn 80 line).
    replace (80 - length line)%nat with 0%nat by lia. cbn [repeat]. now rewrite app_nil_r, firstn_skipn.
Qed.
Lemma encode_nonempty c : encode c <> [].
Proof.
  unfold encode. destruct (c <? 128)%N; [discriminate|]. destruct (c <? 2048)%N; [discriminate|].
  destruct (c <? 65536)%N; discriminate.
Qed.
Lemma flat_encode_nil l : flat_map encode l = [] <-> l = [].
Proof.
  split; [|now intros ->]. destruct l as [|c l]; [reflexivity|]. cbn [flat_map].
  intros H. apply app_eq_nil in H. destruct (encode_nonempty c (proj1 H)).
Qed.

(** UTF-8 *)
Definition scalar_value (c : N) : Prop := (c < 55296 \/ 57344 <= c < 1114112)%N.
Lemma encode_strict c : scalar_value c -> strict_char (encode c).
Proof.
  unfold scalar_value, encode. intros H.
  destruct (c <? 128)%N eqn:E1; [apply S1; lia|].
  destruct (c <? 2048)%N eqn:E2; [apply S2; [lia|unfold cont; lia]|].
  destruct (c <? 65536)%N eqn:E3.
  - assert (R : (c / 4096 = 0 \/ 1 <= c / 4096 < 13 \/ c / 4096 = 13 \/ 14 <= c / 4096 < 16)%N) by lia.
    destruct R as [R|[R|[R|R]]].
    + rewrite R. change (224 + 0)%N with 224%N. apply S3a; [lia|unfold cont; lia].
    + apply S3b; [left; lia|unfold cont; lia|unfold cont; lia].
    + rewrite R. change (224 + 13)%N with 237%N. apply S3c; [lia|unfold cont; lia].
    + apply S3b; [right; lia|unfold cont; lia|unfold cont; lia].
  - assert (R : (c / 262144 = 0 \/ 1 <= c / 262144 < 4 \/ c / 262144 = 4)%N) by lia.
    destruct R as [R|[R|R]].
    + rewrite R. change (240 + 0)%N with 240%N. apply S4a; [lia|unfold cont; lia|unfold cont; lia].
    + apply S4b; [lia|unfold cont; lia|unfold cont; lia|unfold cont; lia].
    + rewrite R. change (240 + 4)%N with 244%N. apply S4c; [lia|unfold cont; lia|unfold cont; lia].
Qed.
Lemma strict_app a b : strict_utf8 a -> strict_utf8 b -> strict_utf8 (a ++ b).
Proof.
  induction 1 as [|c t Hc _ IH]; intros Hb; [exact Hb|]. rewrite <- app_assoc. constructor; auto.
Qed.
Lemma strict_text l : Forall scalar_value l -> strict_utf8 (flat_map encode l).
Proof.
  induction 1 as [|c l Hc _ IH]; [constructor|]. cbn [flat_map]. constructor; [now apply encode_strict|exact IH].
Qed.
Lemma strict_blanks n : strict_utf8 (repeat 32%N n).
Proof.
  induction n as [|n IH]; [constructor|]. cbn [repeat].
  apply (Scons [32%N]); [apply S1; reflexivity|exact IH].
Qed.

(** The first byte of a character tells its length. *)
Definition char_length (b : N) : nat :=
  if (b <? 128)%N then 1%nat else if (b <? 224)%N then 2%nat else if (b <? 240)%N then 3%nat else 4%nat.
Lemma strict_length c : strict_char c -> exists b r, c = b :: r /\ length c = char_length b.
Proof.
  intros H. destruct H; eexists; eexists; (split; [reflexivity|]); unfold char_length; cbn [length];
    repeat match goal with |- context [(?x <? ?y)%N] => destruct (x <? y)%N eqn:? end; lia.
Qed.
Lemma strict_same a b r s : strict_char a -> strict_char b -> a ++ r = b ++ s -> a = b /\ r = s.
Proof.
  intros Ha Hb E. destruct (strict_length a Ha) as (x & a' & -> & La).
  destruct (strict_length b Hb) as (y & b' & -> & Lb). cbn [app] in E. injection E as <- E.
  cbn [length] in La, Lb. assert (L : length a' = length b') by lia.
  assert (G : a' = b' /\ r = s).
  { clear - E L. revert b' L E. induction a' as [|z a' IH]; intros [|w b'] L E; try discriminate L.
    - now split.
    - cbn [app] in E. injection E as <- E. injection L as L. destruct (IH b' L E). split; congruence. }
  destruct G as [-> ->]. now split.
Qed.
Lemma strict_prefix r : strict_utf8 r -> forall l rest, Forall scalar_value l ->
  flat_map encode l = r ++ rest -> exists a b, l = a ++ b /\ flat_map encode a = r.
Proof.
  induction 1 as [|c t Hc Ht IH]; intros l rest F E.
  - now exists [], l.
  - destruct l as [|x l].
    + cbn in E. destruct (strict_length c Hc) as (b & q & -> & _). discriminate.
    + cbn [flat_map] in E. rewrite <- app_assoc in E. inversion F as [|? ? Fx Fl]; subst.
      destruct (strict_same _ _ _ _ (encode_strict x Fx) Hc E) as [E1 E2].
      destruct (IH l rest Fl E2) as (a & b & -> & Ea). exists (x :: a), b. split; [reflexivity|].
      cbn [flat_map]. now rewrite E1, Ea.
Qed.
