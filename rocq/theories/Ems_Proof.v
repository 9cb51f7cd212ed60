(** * Ems_Proof: cutting messages out of the input *)
From Coq Require Import String List NArith ZArith Bool Arith Lia ZifyBool ZifyNat ZifyN.
From Verif Require Import Common Lts.
From Verif Require Queue_Model.
From Verif Require Import Ems_Model Ems_Spec.
Import ListNotations.
Open Scope list_scope.
Open Scope nat_scope.

(** ** indexOf *)
Lemma starts_with_more : forall p b x, length p <= length b -> starts_with p (b ++ x) = starts_with p b.
Proof.
  induction p as [|c p IH]; intros b x L; [reflexivity|]. destruct b as [|d b]; cbn [length] in L; [lia|].
  cbn [app starts_with]. f_equal. apply IH. lia.
Qed.
Lemma starts_with_length : forall p b, starts_with p b = true -> length p <= length b.
Proof. intros p b H. apply starts_with_app in H as (r & ->). rewrite app_length. lia. Qed.
Lemma index_of_fits : forall p b i, index_of p b = Some i -> i + length p <= length b.
Proof.
  intros p b. induction b as [|c b IH]; intros i H; cbn [index_of] in H.
  - destruct (starts_with p []) eqn:E; [|discriminate]. injection H as <-. now apply starts_with_length in E.
  - destruct (starts_with p (c :: b)) eqn:E.
    + injection H as <-. now apply starts_with_length in E.
    + destruct (index_of p b) as [j|]; [|discriminate]. injection H as <-. specialize (IH j eq_refl). cbn [length]. lia.
Qed.
Lemma index_of_more : forall p b x i, index_of p b = Some i -> index_of p (b ++ x) = Some i.
Proof.
  intros p b x. induction b as [|c b IH]; intros i H.
  - cbn [index_of] in H. destruct (starts_with p []) eqn:E; [|discriminate]. destruct p; [|discriminate].
    injection H as <-. cbn [app]. destruct x; reflexivity.
  - cbn [index_of] in H. change ((c :: b) ++ x) with (c :: (b ++ x)). cbn [index_of].
    destruct (starts_with p (c :: b)) eqn:E.
    + change (c :: b ++ x) with ((c :: b) ++ x). rewrite starts_with_more by now apply starts_with_length. rewrite E. exact H.
    + destruct (index_of p b) as [j|] eqn:F; [|discriminate]. pose proof (index_of_fits _ _ _ F).
      change (c :: b ++ x) with ((c :: b) ++ x). rewrite starts_with_more by (cbn [length]; lia). rewrite E, (IH j eq_refl). exact H.
Qed.
Lemma index_of_skip : forall p u w, ~ In 13%N u -> index_of (13%N :: p) (u ++ w) = option_map (Nat.add (length u)) (index_of (13%N :: p) w).
Proof.
  intros p u w. induction u as [|c u IH]; intros N.
  - cbn [app length]. now destruct (index_of (13%N :: p) w).
  - cbn [app]. cbn [index_of]. assert (E : starts_with (13%N :: p) (c :: u ++ w) = false).
    { cbn [starts_with]. destruct (13 =? c)%N eqn:F; [|reflexivity]. apply N.eqb_eq in F. exfalso. apply N. left. now symmetry. }
    rewrite E, IH by (intros I; apply N; now right). destruct (index_of (13%N :: p) w); reflexivity.
Qed.

(** ** Header lines *)
Definition lined (ls : list bytes) : bytes := concat (map (fun h => h ++ [13; 10]%N) ls).
Lemma lined_cons : forall h ls, lined (h :: ls) = h ++ [13; 10]%N ++ lined ls.
Proof. intros. unfold lined. cbn [map concat]. now rewrite <- app_assoc. Qed.
Lemma not_yet : forall c r, c <> 13%N ->
  index_of (13 :: [10; 13; 10])%N (13 :: 10 :: c :: r)%N = option_map (fun i => S (S i)) (index_of (13 :: [10; 13; 10])%N (c :: r)).
Proof.
  intros c r N. apply not_eq_sym, N.eqb_neq in N.
  assert (A : starts_with (13 :: [10; 13; 10])%N (13 :: 10 :: c :: r)%N = false) by (cbn [starts_with]; rewrite N; now rewrite !andb_false_r).
  cbn [index_of]. rewrite A. change (starts_with [13%N; 10%N; 13%N; 10%N] (10%N :: c :: r)) with false. cbv iota.
  match goal with |- option_map S (option_map S ?x) = _ => now destruct x end.
Qed.
Lemma double_found : forall ls v, ls <> [] -> Forall header ls ->
  index_of (crlf ++ crlf) (lined ls ++ [13; 10]%N ++ v) = Some (length (lined ls) - 2) /\ 2 <= length (lined ls).
Proof.
  induction ls as [|h ls IH]; intros v Ne F; [easy|]. inversion F as [|? ? (Hn & N13 & N10) Fl]; subst.
  rewrite lined_cons, !app_length, <- !app_assoc. change (length [13; 10]%N) with 2.
  change (crlf ++ crlf) with (13 :: [10; 13; 10])%N. rewrite index_of_skip by assumption. destruct ls as [|h2 ls].
  - cbn. split; [f_equal|]; lia.
  - destruct (IH v) as (E & L); [easy|assumption|]. split; [|lia]. inversion Fl as [|? ? (Hn2 & N2 & _) _]; subst.
    destruct h2 as [|c h2]; [easy|]. rewrite lined_cons in *. cbn [app] in E, L |- *.
    rewrite not_yet by (intros ->; apply N2; now left). change (13 :: [10; 13; 10])%N with (crlf ++ crlf).
    rewrite <- !app_assoc in *. cbn [app] in E |- *. rewrite E. cbn [option_map]. f_equal. lia.
Qed.

(** ** Number *)
Lemma digit_not_blank : forall c, is_digit c = true -> js_blank c = false.
Proof. unfold is_digit, js_blank. intros c H. lia. Qed.
Lemma ltrim_digits : forall s, Forall (fun c => is_digit c = true) s -> ltrim s = s.
Proof. intros [|c s] F; [reflexivity|]. inversion F; subst. cbn [ltrim]. now rewrite digit_not_blank. Qed.
Lemma js_number_dec : forall n, js_number (dec n) = Int (Z.of_N n).
Proof.
  intros n. pose proof (dec_digits n) as F. pose proof (dec_nonempty n) as Ne. pose proof (dec_value n) as V.
  destruct (dec n) as [|c s] eqn:E; [easy|]. unfold js_number.
  replace (existsb (fun c => (128 <=? c)%N) (c :: s)) with false.
  2:{ symmetry. apply not_true_iff_false. intros X. apply existsb_exists in X as (d & I & G).
      rewrite Forall_forall in F. specialize (F d I). unfold is_digit in F. lia. }
  unfold trim. rewrite (ltrim_digits (c :: s)) by assumption. rewrite ltrim_digits by (now apply Forall_rev). rewrite rev_involutive.
  pose proof (Forall_inv F) as D. cbn beta in D. replace (c =? 43)%N with false by (unfold is_digit in D; lia).
  replace (c =? 45)%N with false by (unfold is_digit in D; lia).
  unfold unsigned. replace (forallb is_digit (c :: s)) with true; [now rewrite V|].
  symmetry. apply forallb_forall. now apply Forall_forall.
Qed.

(** ** slice *)
Lemma slice_within : forall b s e, s <= e -> e <= length b -> slice b (Z.of_nat s) (Z.of_nat e) = firstn (e - s) (skipn s b).
Proof.
  intros b s e L M. unfold slice, offset. replace (Z.of_nat s <? 0)%Z with false by lia. replace (Z.of_nat e <? 0)%Z with false by lia.
  rewrite !Nat2Z.id. now rewrite !Nat.min_l by lia.
Qed.
Lemma slice_more : forall b x s e, s <= e -> e <= length b -> slice (b ++ x) (Z.of_nat s) (Z.of_nat e) = slice b (Z.of_nat s) (Z.of_nat e).
Proof.
  intros b x s e L M. rewrite !slice_within by (rewrite ?app_length; lia).
  rewrite skipn_app, firstn_app, skipn_length.
  replace (e - s - (length b - s)) with 0 by lia. now rewrite firstn_O, app_nil_r.
Qed.
Lemma slice_mid : forall a m z, slice (a ++ m ++ z) (Z.of_nat (length a)) (Z.of_nat (length a + length m)) = m.
Proof.
  intros a m z. rewrite slice_within by (rewrite ?app_length; lia).
  rewrite skipn_app, skipn_all, Nat.sub_diag. cbn [app skipn]. replace (length a + length m - length a) with (length m) by lia.
  rewrite firstn_app, Nat.sub_diag, firstn_O, firstn_all. apply app_nil_r.
Qed.
Lemma slice_from_at : forall a z, slice_from (a ++ z) (Z.of_nat (length a)) = z.
Proof.
  intros a z. unfold slice_from, offset. replace (Z.of_nat (length a) <? 0)%Z with false by lia.
  rewrite Nat2Z.id, Nat.min_l by (rewrite app_length; lia). rewrite skipn_app, skipn_all, Nat.sub_diag. reflexivity.
Qed.

(** ** One message *)
Definition first_line (f : letter) : bytes := content_length ++ dec (N.of_nat (length (body f))).
Definition head (f : letter) : bytes := lined (first_line f :: headers f) ++ [13; 10]%N.
Lemma on_wire_head : forall f, on_wire f = head f ++ body f.
Proof. intros f. unfold on_wire, head. rewrite lined_cons. unfold first_line. rewrite <- !app_assoc. reflexivity. Qed.
Lemma no_control : forall n, ~ In 13%N (content_length ++ dec n) /\ ~ In 10%N (content_length ++ dec n).
Proof.
  intros n. pose proof (dec_digits n) as F. rewrite Forall_forall in F. split; intros I; apply in_app_or in I as [I|I];
    try (cbn in I; repeat (destruct I as [I|I]; [discriminate|]); exact I); apply F in I; discriminate.
Qed.
Lemma found_all : forall f y, proper f -> let w := on_wire f ++ y in
  index_of content_length w = Some 0 /\ index_of crlf w = Some (length (first_line f)) /\
  index_of (crlf ++ crlf) w = Some (length (head f) - 4) /\ 4 <= length (head f) /\
  slice w (Z.of_nat (length content_length)) (Z.of_nat (length (first_line f))) = dec (N.of_nat (length (body f))).
Proof.
  intros f y P w. destruct (no_control (N.of_nat (length (body f)))) as (N13 & N10).
  assert (Ew : w = lined (first_line f :: headers f) ++ [13; 10]%N ++ body f ++ y).
  { unfold w. rewrite on_wire_head. unfold head. now rewrite <- !app_assoc. }
  split; [|split; [|split; [|split]]].
  - rewrite Ew, lined_cons. unfold first_line. rewrite <- !app_assoc. apply (index_of_more content_length content_length _ 0). reflexivity.
  - rewrite Ew, lined_cons, <- !app_assoc. unfold crlf. rewrite index_of_skip by exact N13. cbn [app index_of starts_with N.eqb Pos.eqb andb option_map].
    f_equal. lia.
  - destruct (double_found (first_line f :: headers f) (body f ++ y)) as (E & L); [easy| |].
    + constructor; [|exact P]. split; [|split; assumption]. discriminate.
    + rewrite Ew, E. f_equal. unfold head. rewrite app_length. change (length [13; 10]%N) with 2. lia.
  - unfold head. rewrite lined_cons, !app_length. change (length [13; 10]%N) with 2. lia.
  - rewrite Ew, lined_cons. unfold first_line. rewrite <- !app_assoc. rewrite app_length. apply slice_mid.
Qed.
Lemma complete : forall f y, proper f -> iteration (on_wire f ++ y) = Pass (body f) y.
Proof.
  intros f y P. destruct (found_all f y P) as (I0 & I1 & I2 & L4 & I3). unfold iteration. rewrite I0, I1, I2, I3, js_number_dec.
  assert (E : (Z.of_nat (length (head f) - 4) + 4 = Z.of_nat (length (head f)))%Z) by lia. rewrite E. cbn [as_offset].
  rewrite on_wire_head, <- app_assoc.
  replace (Z.of_nat (length (head f)) + Z.of_N (N.of_nat (length (body f))))%Z with (Z.of_nat (length (head f) + length (body f))) by lia.
  replace (Z.of_nat (length (head f) + length (body f)) >? Z.of_nat (length (head f ++ body f ++ y)))%Z with false by (rewrite !app_length; lia).
  rewrite slice_mid. f_equal. rewrite app_assoc, <- app_length. apply slice_from_at.
Qed.
Lemma incomplete : forall f b x y, proper f -> b ++ x = on_wire f ++ y -> length b < length (on_wire f) -> iteration b = Wait.
Proof.
  intros f b x y P E L. destruct (found_all f y P) as (I0 & I1 & I2 & L4 & I3). rewrite <- E in *. unfold iteration.
  destruct (index_of content_length b) as [[|i]|]; try reflexivity.
  destruct (index_of crlf b) as [i|] eqn:F1; [|reflexivity].
  pose proof (index_of_fits _ _ _ F1) as B1. rewrite (index_of_more _ _ x _ F1) in I1. assert (i = length (first_line f)) by congruence. subst i. clear I1.
  destruct (index_of (crlf ++ crlf) b) as [j|] eqn:F2; [|reflexivity].
  rewrite (index_of_more _ _ x _ F2) in I2. assert (j = length (head f) - 4) by congruence. subst j. clear I2.
  rewrite slice_more in I3; [|unfold first_line; rewrite app_length; apply Nat.le_add_r|lia]. rewrite I3, js_number_dec.
  replace (Z.of_nat (length (head f) - 4) + 4 + Z.of_N (N.of_nat (length (body f))) >? Z.of_nat (length b))%Z with true; [reflexivity|].
  rewrite on_wire_head, app_length in L. lia.
Qed.
Lemma nothing : iteration [] = Wait.
Proof. reflexivity. Qed.

(** Of a stream of messages. *)
Lemma all_cons : forall f fs, all_on_wire (f :: fs) = on_wire f ++ all_on_wire fs.
Proof. reflexivity. Qed.
Lemma cut : forall fs b x, Forall proper fs -> b ++ x = all_on_wire fs ->
  iteration b = Wait /\ match fs with f :: _ => length b < length (on_wire f) | [] => b = [] end \/
  exists f fs' r, fs = f :: fs' /\ iteration b = Pass (body f) r /\ b = on_wire f ++ r /\ r ++ x = all_on_wire fs'.
Proof.
  intros [|f fs] b x F E.
  - left. apply app_eq_nil in E as (-> & _). now split.
  - inversion F; subst. destruct (le_lt_dec (length (on_wire f)) (length b)) as [L|L].
    + right. rewrite all_cons in E. exists f, fs, (skipn (length (on_wire f)) b). split; [reflexivity|].
      assert (B : b = on_wire f ++ skipn (length (on_wire f)) b).
      { rewrite <- (firstn_skipn (length (on_wire f)) b) at 1. f_equal.
        assert (X : firstn (length (on_wire f)) (b ++ x) = firstn (length (on_wire f)) (on_wire f ++ all_on_wire fs)) by now rewrite E.
        rewrite !firstn_app, Nat.sub_diag, firstn_O, firstn_all, app_nil_r in X.
        replace (length (on_wire f) - length b) with 0 in X by lia. now rewrite firstn_O, app_nil_r in X. }
      split; [rewrite B at 1; now apply complete|]. split; [exact B|].
      rewrite B, <- app_assoc in E. now apply app_inv_head in E.
    + left. split; [|exact L]. eapply incomplete; [eassumption|exact E|exact L].
Qed.
