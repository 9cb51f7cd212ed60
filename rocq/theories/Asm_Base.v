(** * Lemmas about the building blocks of the checks *)
From Coq Require Import String Ascii.
From Coq Require Import List ZArith Bool Lia Arith ZifyBool ZifyNat.
From Verif Require Import Asm_Model Asm_Spec.
Import ListNotations.
Open Scope string_scope.
Open Scope list_scope.

Lemma then_yes x k : fst (x ;; k) = Yes <-> fst x = Yes /\ fst k = Yes.
Proof. destruct x as [[] ds], k as [v ds']; cbn; intuition congruence. Qed.

Lemma need_yes b c r : fst (need b c r) = Yes <-> b = true.
Proof. destruct b; cbn; intuition congruence. Qed.

Lemma fail_yes c r : fst (fail c r) = Yes <-> False.
Proof. cbn; intuition congruence. Qed.

Lemma ok_yes : fst ok = Yes <-> True.
Proof. cbn; tauto. Qed.

Lemma each_yes A (f : A -> res) l : fst (each f l) = Yes <-> Forall (fun x => fst (f x) = Yes) l.
Proof.
  induction l as [|x t IH]; cbn [each].
  - rewrite ok_yes. split; auto.
  - rewrite then_yes, IH. split; [intros []; auto|intros H; inversion H; auto].
Qed.

Lemma sizes_yes mn mx ops stmt :
  fst (sizes mn mx ops stmt) = Yes <->
  (mn <= List.length ops /\ match mx with Some m => List.length ops <= m | None => True end)%nat.
Proof.
  unfold sizes.
  destruct mx as [m|];
    match goal with |- context [if ?b then ok else _] => destruct b eqn:E end;
    repeat match goal with |- context [if ?b then _ else _] => destruct b end;
    cbn; intuition (try congruence; lia).
Qed.

Lemma mem_in s l : mem s l = true <-> In s l.
Proof.
  unfold mem. rewrite existsb_exists. split.
  - intros [x [H E]]. apply String.eqb_eq in E. subst. exact H.
  - intros H. exists s. split; [exact H|apply String.eqb_refl].
Qed.

Lemma eqb_eq s t : String.eqb s t = true <-> s = t.
Proof. apply String.eqb_eq. Qed.

Lemma Forall_iff A (P Q : A -> Prop) l : (forall x, P x <-> Q x) -> Forall P l <-> Forall Q l.
Proof. intros H. split; apply Forall_impl; intros; apply H; auto. Qed.

Lemma keyword_word ks o : keyword ks o = true <-> word ks o.
Proof.
  unfold word, text. destruct o as [id d v r|id ps r|r]; cbn.
  - rewrite mem_in. split.
    + intros H. exists id. split; [exists d, v, r; reflexivity|exact H].
    + intros (w & (d' & v' & r' & E) & H). inversion E. subst. exact H.
  - split; [discriminate|]. intros (w & (d' & v' & r' & E) & H). discriminate.
  - split; [discriminate|]. intros (w & (d' & v' & r' & E) & H). discriminate.
Qed.

Lemma word_same ws ws' o : (forall w, In w ws <-> In w ws') -> word ws o <-> word ws' o.
Proof. intros H. unfold word. split; intros (w & T & I0); exists w; (split; [exact T|]); apply H; exact I0. Qed.

Lemma text_same o s t : text o s -> text o t -> s = t.
Proof. intros (d & v & r & E) (d' & v' & r' & E'). congruence. Qed.

(** ** Characters *)

Lemma all_ascii (P : ascii -> Prop) (f : ascii -> bool) :
  (forall n, (n < 256)%nat -> P (ascii_of_nat n) <-> f (ascii_of_nat n) = true) ->
  forall c, P c <-> f c = true.
Proof.
  intros H c. rewrite <- (ascii_nat_embedding c). apply H. apply nat_ascii_bounded.
Qed.

Definition inb (c : ascii) (l : list ascii) : bool := existsb (Ascii.eqb c) l.
Lemma inb_in c l : inb c l = true <-> In c l.
Proof.
  unfold inb. rewrite existsb_exists. split.
  - intros [x [H E]]. apply Ascii.eqb_eq in E. subst. exact H.
  - intros H. exists c. split; [exact H|apply Ascii.eqb_refl].
Qed.

Lemma all_ascii_b (f g : ascii -> bool) :
  forallb (fun n => Bool.eqb (f (ascii_of_nat n)) (g (ascii_of_nat n))) (seq 0 256) = true ->
  forall c, f c = g c.
Proof.
  intros H c. rewrite forallb_forall in H.
  specialize (H (nat_of_ascii c)). rewrite ascii_nat_embedding in H.
  apply eqb_prop, H, in_seq. pose proof (nat_ascii_bounded c). lia.
Qed.

Lemma digit_spec c : is_digit c = true <-> In c (list_ascii_of_string "0123456789").
Proof.
  rewrite <- inb_in.
  rewrite (all_ascii_b is_digit (fun c => inb c (list_ascii_of_string "0123456789"))); [reflexivity|].
  vm_compute. reflexivity.
Qed.

Lemma alpha_spec c : is_alpha c = true <-> letter c.
Proof.
  unfold letter. rewrite <- inb_in.
  rewrite (all_ascii_b is_alpha
             (fun c => inb c (list_ascii_of_string "ABCDEFGHIJKLMNOPQRSTUVWXYZabcdefghijklmnopqrstuvwxyz")));
    [reflexivity|].
  vm_compute. reflexivity.
Qed.

Lemma alnum_spec c : is_alnum c = true <-> letter c \/ In c (list_ascii_of_string "0123456789").
Proof. unfold is_alnum. rewrite orb_true_iff, alpha_spec, digit_spec. reflexivity. Qed.

Lemma xdigit_spec c : is_xdigit c = true <-> In c hex_digits.
Proof.
  rewrite <- inb_in.
  rewrite (all_ascii_b is_xdigit (fun c => inb c hex_digits)); [reflexivity|].
  vm_compute. reflexivity.
Qed.

Lemma space_spec c : is_space c = true <-> blank c.
Proof. unfold is_space, blank, code. lia. Qed.

Lemma digits_spec s : has_all_digits s = true <-> digits s.
Proof.
  unfold has_all_digits, digits, chars. rewrite forallb_forall.
  split; intros H c I0; apply digit_spec; auto.
Qed.

Lemma xdigit_value c : is_xdigit c = true -> xdigit c = hex_value c.
Proof.
  intros H.
  assert (forallb (fun n => implb (is_xdigit (ascii_of_nat n)) (Z.eqb (xdigit (ascii_of_nat n)) (hex_value (ascii_of_nat n))))
                  (seq 0 256) = true) as A by (vm_compute; reflexivity).
  rewrite forallb_forall in A. specialize (A (nat_of_ascii c)).
  rewrite ascii_nat_embedding, H in A. cbn [implb] in A.
  apply Z.eqb_eq, A, in_seq. pose proof (nat_ascii_bounded c). lia.
Qed.

(** ** Texts in apostrophes *)

Lemma chars_app a b : chars (a ++ b)%string = (chars a ++ chars b)%list.
Proof. unfold chars. induction a; cbn; [reflexivity|]. f_equal. exact IHa. Qed.

Lemma length_chars s : List.length (chars s) = String.length s.
Proof. unfold chars. induction s; cbn; [reflexivity|]. f_equal. exact IHs. Qed.

Lemma chars_inj a b : chars a = chars b -> a = b.
Proof.
  unfold chars. intros H. rewrite <- (string_of_list_ascii_of_string a), <- (string_of_list_ascii_of_string b).
  f_equal. exact H.
Qed.

Lemma of_chars l : chars (string_of_list_ascii l) = l.
Proof. apply list_ascii_of_string_of_list_ascii. Qed.

Lemma chars_apostrophes body : chars (apostrophes body) = quote :: chars body ++ [quote].
Proof. unfold apostrophes. rewrite !chars_app. reflexivity. Qed.

Lemma length_apostrophes body : String.length (apostrophes body) = S (S (String.length body)).
Proof. rewrite <- !length_chars, chars_apostrophes. cbn [List.length]. rewrite app_length. cbn. lia. Qed.

Lemma quoted_spec s : (2 <= String.length s)%nat /\ quoted s = true <-> exists body, s = apostrophes body.
Proof.
  split.
  - intros [L Q]. unfold quoted, first_char, last_char in Q. apply andb_true_iff in Q. destruct Q as [Q1 Q2].
    apply Ascii.eqb_eq in Q1, Q2. rewrite <- length_chars in L.
    destruct (chars s) as [|c l] eqn:E; [cbn in L; lia|].
    destruct l as [|d l'] using rev_ind; [cbn in L; lia|]. clear IHl'.
    cbn [hd] in Q1. subst c.
    change (last (quote :: l' ++ [d]) zero) with (last ((quote :: l') ++ [d]) zero) in Q2.
    rewrite last_last in Q2. subst d.
    exists (string_of_list_ascii l'). apply chars_inj. rewrite chars_apostrophes, of_chars. exact E.
  - intros [body ->]. rewrite length_apostrophes. split; [lia|].
    unfold quoted, first_char, last_char. rewrite chars_apostrophes.
    change (last (quote :: chars body ++ [quote]) zero) with (last ((quote :: chars body) ++ [quote]) zero).
    rewrite last_last. reflexivity.
Qed.

Lemma quoted_short s : (String.length s < 2)%nat -> ~ exists body, s = apostrophes body.
Proof. intros L [body ->]. rewrite length_apostrophes in L. lia. Qed.

Lemma apostrophes_inj a b : apostrophes a = apostrophes b -> a = b.
Proof.
  intros H. apply (f_equal chars) in H. rewrite !chars_apostrophes in H. injection H as H.
  apply app_inv_tail in H. apply chars_inj. exact H.
Qed.

Lemma enclosed_spec s h :
  enclosed (chars s) = Some h <-> exists c body, s = String c (apostrophes body) /\ chars body = h.
Proof.
  split.
  - unfold enclosed. destruct (chars s) as [|c l] eqn:E; [discriminate|].
    destruct l as [|q t]; [discriminate|].
    destruct (rev t) as [|q' m] eqn:R; [discriminate|].
    destruct (Ascii.eqb q quote) eqn:E1; [|discriminate]. destruct (Ascii.eqb q' quote) eqn:E2; [|discriminate].
    intros H. cbn in H. injection H as <-.
    apply Ascii.eqb_eq in E1, E2. subst.
    assert (t = rev m ++ [quote]) as T by (rewrite <- (rev_involutive t), R; reflexivity).
    exists c, (string_of_list_ascii (rev m)). split; [|apply of_chars].
    apply chars_inj. rewrite E, T.
    change (chars (String c ?x)) with (c :: chars x). rewrite chars_apostrophes, of_chars. reflexivity.
  - intros (c & body & -> & <-). change (chars (String c ?x)) with (c :: chars x).
    rewrite chars_apostrophes. unfold enclosed. rewrite rev_app_distr. cbn [rev app].
    rewrite Ascii.eqb_refl. cbn [andb]. rewrite rev_involutive. reflexivity.
Qed.

(** ** Powers of two *)

Lemma power_small z : (1 <= z <= 4096)%Z ->
  is_power_of_two z = true <-> exists k, (0 <= k)%Z /\ z = (2 ^ k)%Z.
Proof.
  intros B. split.
  - intros H.
    assert (forallb (fun n => implb (is_power_of_two (Z.of_nat n)) (Z.eqb (Z.of_nat n) (2 ^ Z.log2 (Z.of_nat n))))
                    (seq 1 4096) = true) as A by (vm_compute; reflexivity).
    rewrite forallb_forall in A. specialize (A (Z.to_nat z)).
    rewrite Z2Nat.id in A by lia. rewrite H in A. cbn [implb] in A.
    exists (Z.log2 z). split; [apply Z.log2_nonneg|]. apply Z.eqb_eq, A, in_seq. lia.
  - intros [k [K ->]].
    assert (k <= 12)%Z.
    { destruct (Z_le_gt_dec k 12) as [|G]; [assumption|]. exfalso.
      assert (2 ^ 13 <= 2 ^ k)%Z by (apply Z.pow_le_mono_r; lia). change (2 ^ 13)%Z with 8192%Z in *. lia. }
    assert (forallb (fun n => is_power_of_two (2 ^ Z.of_nat n)) (seq 0 13) = true) as A by (vm_compute; reflexivity).
    rewrite forallb_forall in A. specialize (A (Z.to_nat k)). rewrite Z2Nat.id in A by lia. apply A, in_seq. lia.
Qed.

Lemma power_range lo hi z : (1 <= lo)%Z -> (hi <= 4096)%Z ->
  is_power_of_two z && negb (hi <? z)%Z && negb (z <? lo)%Z = true <-> power_of_two lo hi z.
Proof.
  intros L H. unfold power_of_two. split.
  - intros E. rewrite !andb_true_iff in E. destruct E as [[P A] B].
    apply power_small in P; [|lia]. destruct P as [k [K E]]. exists k. lia.
  - intros (k & K & E & B). assert (is_power_of_two z = true) as P by (apply power_small; [lia|]; exists k; auto).
    rewrite P. lia.
Qed.

(** ** Numbers *)

Lemma number_decimal l : number 10 digit l = decimal 0 l.
Proof.
  unfold number.
  assert (forall a, fold_left (fun a c => a * 10 + digit c)%Z l a = decimal a l) as G.
  { induction l as [|c t IH]; intros a; cbn [fold_left decimal]; [reflexivity|].
    rewrite IH. f_equal. unfold digit, code. lia. }
  apply G.
Qed.

Lemma number_hex l : forallb is_xdigit l = true -> number 16 xdigit l = hexadecimal 0 l.
Proof.
  unfold number. intros H.
  assert (forall a, fold_left (fun a c => a * 16 + xdigit c)%Z l a = hexadecimal a l) as G.
  { induction l as [|c t IH]; intros a; cbn [fold_left hexadecimal]; [reflexivity|].
    cbn [forallb] in H. apply andb_true_iff in H. destruct H as [H1 H2].
    rewrite IH by exact H2. f_equal. rewrite (xdigit_value c H1). lia. }
  apply G.
Qed.

Lemma decimal_nonneg a l : (0 <= a)%Z -> forallb is_digit l = true -> (0 <= decimal a l)%Z.
Proof.
  revert a. induction l as [|c t IH]; intros a A H; cbn [decimal]; [exact A|].
  cbn [forallb] in H. apply andb_true_iff in H. destruct H as [H1 H2]. apply IH; [|exact H2].
  unfold is_digit, code in H1. lia.
Qed.

Lemma hex_value_range c : In c hex_digits -> (0 <= hex_value c < 16)%Z.
Proof.
  intros H. apply xdigit_spec in H. rewrite <- (xdigit_value c H).
  unfold xdigit, digit, is_xdigit, is_digit, code in *.
  repeat match goal with |- context [if ?b then _ else _] => destruct b eqn:?E end; lia.
Qed.

Lemma hexadecimal_nonneg a l : (0 <= a)%Z -> forallb is_xdigit l = true -> (0 <= hexadecimal a l)%Z.
Proof.
  revert a. induction l as [|c t IH]; intros a A H; cbn [hexadecimal]; [exact A|].
  cbn [forallb] in H. apply andb_true_iff in H. destruct H as [H1 H2]. apply IH; [|exact H2].
  apply xdigit_spec, hex_value_range in H1. lia.
Qed.

Lemma span_all p l : forallb p l = true -> span p l = l.
Proof. induction l as [|c t IH]; cbn; [reflexivity|]. destruct (p c); cbn; [|discriminate]. intros H. f_equal. auto. Qed.

Lemma skip_none p l : (forall c t, l = c :: t -> p c = false) -> skip p l = l.
Proof. destruct l as [|c t]; intros H; cbn; [reflexivity|]. rewrite (H c t eq_refl). reflexivity. Qed.

Lemma stoul_digits l : forallb is_xdigit l = true -> l <> [] ->
  stoul16 l = if (hexadecimal 0 l <? 2 ^ 64)%Z then Some (hexadecimal 0 l) else None.
Proof.
  intros H N. unfold stoul16.
  assert (forall c t, l = c :: t -> is_xdigit c = true) as F.
  { intros c t ->. cbn in H. apply andb_true_iff in H. tauto. }
  rewrite skip_none.
  2:{ intros c t E. specialize (F c t E). unfold is_xdigit, is_digit, is_space, code in *. lia. }
  unfold sign. destruct l as [|c t] eqn:E; [congruence|].
  assert (is_xdigit c = true) as XC by (eapply F; reflexivity).
  assert ((code c =? 45)%nat = false) as -> by (unfold is_xdigit, is_digit, code in *; lia).
  assert ((code c =? 43)%nat = false) as -> by (unfold is_xdigit, is_digit, code in *; lia).
  match goal with |- context [span is_xdigit ?l'] =>
    assert (l' = c :: t) as ->
  end.
  { destruct t as [|x [|h t']]; try reflexivity.
    assert (is_xdigit x = true) as XX.
    { cbn [forallb] in H. rewrite !andb_true_iff in H. tauto. }
    assert (((code x =? 120) || (code x =? 88))%nat = false) as -> by (unfold is_xdigit, is_digit, code in *; lia).
    rewrite andb_false_r. reflexivity. }
  rewrite span_all by exact H. rewrite number_hex by exact H.
  pose proof (hexadecimal_nonneg 0 (c :: t) ltac:(lia) H).
  destruct (hexadecimal 0 (c :: t) <? 2 ^ 64)%Z eqn:L; [|reflexivity].
  f_equal. rewrite Z.mul_1_l. apply Z.mod_small. lia.
Qed.

Lemma stoi_digits s : digits s -> s <> "" ->
  stoi s = let z := decimal 0 (list_ascii_of_string s) in if (z <=? 2147483647)%Z then Some z else None.
Proof.
  intros H N. apply digits_spec in H. unfold has_all_digits in H.
  unfold stoi. fold (chars s).
  assert (chars s <> []) as N'.
  { destruct s; [congruence|]. cbn. discriminate. }
  destruct (chars s) as [|c t] eqn:E; [congruence|].
  assert (is_digit c = true) as DC by (cbn in H; apply andb_true_iff in H; tauto).
  rewrite skip_none.
  2:{ intros c' t' E'. injection E' as <- <-. unfold is_digit, is_space, code in *. lia. }
  unfold sign.
  assert ((code c =? 45)%nat = false) as -> by (unfold is_digit, code in *; lia).
  assert ((code c =? 43)%nat = false) as -> by (unfold is_digit, code in *; lia).
  rewrite span_all by exact H. rewrite number_decimal.
  pose proof (decimal_nonneg 0 (c :: t) ltac:(lia) H). cbv zeta. rewrite Z.mul_1_l.
  destruct (decimal 0 (c :: t) <=? 2147483647)%Z eqn:L; [|rewrite andb_false_r; reflexivity].
  assert ((-2147483648 <=? decimal 0 (c :: t))%Z = true) as -> by lia. reflexivity.
Qed.

Lemma skip_split p l : exists a, l = a ++ skip p l /\ Forall (fun c => p c = true) a
                                 /\ forall c t, skip p l = c :: t -> p c = false.
Proof.
  induction l as [|c t IH]; cbn [skip].
  - exists []. repeat split; auto. discriminate.
  - destruct (p c) eqn:E.
    + destruct IH as (a & A & F & N). exists (c :: a). repeat split; auto. cbn. f_equal. exact A.
    + exists []. repeat split; auto. intros c' t' H. injection H as <- <-. exact E.
Qed.

Lemma span_split p l : exists b, l = span p l ++ b /\ Forall (fun c => p c = true) (span p l)
                                 /\ forall c t, b = c :: t -> p c = false.
Proof.
  induction l as [|c t IH]; cbn [span].
  - exists []. repeat split; auto. discriminate.
  - destruct (p c) eqn:E.
    + destruct IH as (b & A & F & N). exists b. repeat split; auto. cbn. f_equal. exact A.
    + exists (c :: t). repeat split; auto. intros c' t' H. injection H as <- <-. exact E.
Qed.

Lemma span_app p a b : Forall (fun c => p c = true) a -> (forall c t, b = c :: t -> p c = false) -> span p (a ++ b) = a.
Proof.
  intros F N. induction F as [|c t H F IH]; cbn [app span].
  - destruct b as [|x b']; [reflexivity|]. cbn. rewrite (N x b' eq_refl). reflexivity.
  - rewrite H. f_equal. exact IH.
Qed.

Lemma skip_app p a b : Forall (fun c => p c = true) a -> (forall c t, b = c :: t -> p c = false) -> skip p (a ++ b) = b.
Proof.
  intros F N. induction F as [|c t H F IH]; cbn [app skip].
  - destruct b as [|x b']; [reflexivity|]. cbn. rewrite (N x b' eq_refl). reflexivity.
  - rewrite H. exact IH.
Qed.

Lemma stoi_leading s z : stoi s = Some z <-> leading s z.
Proof.
  split.
  - unfold stoi, leading. fold (chars s). destruct (skip_split is_space (chars s)) as (bl & E1 & F1 & N1).
    set (l := skip is_space (chars s)) in *.
    destruct (sign l) as [g l'] eqn:S0.
    destruct (span_split is_digit l') as (rest & E2 & F2 & N2).
    set (ds := span is_digit l') in *.
    destruct ds as [|d ds'] eqn:ED; [discriminate|].
    destruct ((-2147483648 <=? g * number 10 digit (d :: ds')) && (g * number 10 digit (d :: ds') <=? 2147483647))%Z eqn:B;
      [|discriminate].
    rewrite number_decimal in *. intros H.
    assert (z = g * decimal 0 (d :: ds'))%Z as H' by congruence. clear H.
    assert (exists sg, l = sg ++ l' /\ In sg [[]; ["+"%char]; ["-"%char]]
              /\ g = if match sg with [c] => Ascii.eqb c "-" | _ => false end then (-1)%Z else 1%Z) as (sg & ES & IS & EG).
    { unfold sign in S0. destruct l as [|c t].
      - injection S0 as <- <-. exists []. repeat split. cbn. auto.
      - destruct (code c =? 45)%nat eqn:C1.
        + injection S0 as <- <-. exists ["-"%char]. 
          assert (c = "-"%char) as ->.
          { rewrite <- (ascii_nat_embedding c). apply Nat.eqb_eq in C1. unfold code in C1. rewrite C1. reflexivity. }
          repeat split. cbn. auto.
        + destruct (code c =? 43)%nat eqn:C2.
          * injection S0 as <- <-. exists ["+"%char].
            assert (c = "+"%char) as ->.
            { rewrite <- (ascii_nat_embedding c). apply Nat.eqb_eq in C2. unfold code in C2. rewrite C2. reflexivity. }
            repeat split. cbn. auto.
          * injection S0 as <- <-. exists []. repeat split. cbn. auto. }
    exists bl, sg, (d :: ds'), rest.
    split; [rewrite E1, ES, E2; reflexivity|].
    split; [eapply Forall_impl; [|exact F1]; intros; apply space_spec; assumption|].
    split; [exact IS|]. split; [discriminate|].
    split; [intros c I0; apply digit_spec; rewrite Forall_forall in F2; apply F2; exact I0|].
    split; [intros c t E I0; apply digit_spec in I0; rewrite (N2 c t E) in I0; discriminate|].
    subst g z. apply andb_true_iff in B. destruct B as [B1 B2]. revert B1 B2.
    destruct (match sg with [c] => Ascii.eqb c "-" | _ => false end); intros B1 B2; split; lia.
  - intros (bl & sg & ds & rest & E & F & IS & N & D0 & R & Z0 & B).
    unfold stoi. fold (chars s) in E. rewrite E.
    assert (Forall (fun c => is_digit c = true) ds) as FD.
    { apply Forall_forall. intros c I0. apply digit_spec. auto. }
    assert (forall c t, rest = c :: t -> is_digit c = false) as NR.
    { intros c t E'. destruct (is_digit c) eqn:Ed; [|reflexivity]. apply digit_spec in Ed. destruct (R c t E' Ed). }
    destruct ds as [|d ds']; [congruence|].
    assert (is_digit d = true) as DD by (inversion FD; assumption).
    assert (skip is_space (bl ++ sg ++ (d :: ds') ++ rest) = sg ++ (d :: ds') ++ rest) as ->.
    { apply skip_app.
      - eapply Forall_impl; [|exact F]. intros. apply space_spec. assumption.
      - intros c t E'. cbn [In] in IS. unfold is_digit, is_space, code in *.
        destruct IS as [<-|[<-|[<-|[]]]]; cbn [app] in E'; injection E' as <- _; [lia|reflexivity|reflexivity]. }
    assert (sign (sg ++ (d :: ds') ++ rest) =
            (if match sg with [c] => Ascii.eqb c "-" | _ => false end then (-1)%Z else 1%Z, (d :: ds') ++ rest)) as ->.
    { cbn [In] in IS. destruct IS as [<-|[<-|[<-|[]]]]; cbn [app]; [|reflexivity|reflexivity].
      unfold sign. 
      assert ((code d =? 45)%nat = false) as -> by (unfold is_digit, code in *; lia).
      assert ((code d =? 43)%nat = false) as -> by (unfold is_digit, code in *; lia). reflexivity. }
    rewrite (span_app _ _ _ FD NR). rewrite number_decimal.
    assert ((if match sg with [c] => Ascii.eqb c "-" | _ => false end then -1 else 1) * decimal 0 (d :: ds') = z)%Z as ->.
    { subst z. destruct (match sg with [c] => Ascii.eqb c "-" | _ => false end); lia. }
    assert ((-2147483648 <=? z)%Z && (z <=? 2147483647)%Z = true) as -> by lia. reflexivity.
Qed.
