(** Shared vocabulary: bytes, byte strings, decimal notation.

    Nothing here models a function of /repo by itself; these are the mathematical
    counterparts of standard-library facilities the code uses
    ([std::string], [std::to_string], [std::from_chars]). *)
From Coq Require Import List NArith ZArith Lia String Ascii Bool.
From Coq Require Import ZifyBool ZifyNat ZifyN.
Import ListNotations.
Export String.StringSyntax.

(** A byte / char is a number; a byte string is a list of numbers.  Only values below
    256 occur in the byte-level models; lemmas that need it say so. *)
Notation bytes := (list N).

(** Literal text for statements and examples. *)
Fixpoint s2b (s : string) : bytes :=
  match s with
  | EmptyString => []
  | String a s' => N_of_ascii a :: s2b s'
  end.

Arguments s2b s%string_scope.

Fixpoint bytes_eqb (a b : bytes) : bool :=
  match a, b with
  | [], [] => true
  | x :: a', y :: b' => (x =? y)%N && bytes_eqb a' b'
  | _, _ => false
  end.

(** [starts_with p s] - [s.substr(0, p.size()) == p]. *)
Fixpoint starts_with (p s : bytes) : bool :=
  match p, s with
  | [], _ => true
  | x :: p', y :: s' => (x =? y)%N && starts_with p' s'
  | _, [] => false
  end.

Definition is_digit (c : N) : bool := (48 <=? c)%N && (c <=? 57)%N.

(** Decimal digits of [n], most significant first, in front of [acc]
    (counterpart of [std::to_string] on an unsigned number). The fuel is the number of
    bits plus one, which is never exhausted ([dec_value]). *)
Fixpoint dec_fuel (fuel : nat) (n : N) (acc : bytes) : bytes :=
  match fuel with
  | O => acc
  | S f => if (n <? 10)%N then (48 + n)%N :: acc
           else dec_fuel f (n / 10)%N ((48 + n mod 10)%N :: acc)
  end.
Definition dec (n : N) : bytes := dec_fuel (S (N.size_nat n)) n [].

(** Value of a digit string, most significant digit first. *)
Definition dec_val (ds : bytes) : N := fold_left (fun a d => (a * 10 + (d - 48))%N) ds 0%N.

(** Longest prefix of decimal digits and the rest. *)
Fixpoint span_digits (s : bytes) : bytes * bytes :=
  match s with
  | c :: s' => if is_digit c then let (a, b) := span_digits s' in (c :: a, b) else ([], s)
  | [] => ([], [])
  end.

(** Counterpart of [std::from_chars] for an unsigned type with values below [lim]:
    the parsed value ([None] on [invalid_argument] or [result_out_of_range], in which case
    the target variable keeps its old value) and the unparsed rest. *)
Definition from_chars_dec (lim : N) (s : bytes) : option N * bytes :=
  let (ds, rest) := span_digits s in
  match ds with
  | [] => (None, s)
  | _ => if (dec_val ds <? lim)%N then (Some (dec_val ds), rest) else (None, rest)
  end.

(* ------------------------------------------------------------------ lemmas *)
Local Ltac Zify.zify_post_hook ::= Z.div_mod_to_equations.

Lemma bytes_eqb_eq : forall a b, bytes_eqb a b = true <-> a = b.
Proof.
  induction a as [|x a IH]; destruct b as [|y b]; simpl; split; intros H; try easy.
  - apply andb_true_iff in H as [H1 H2]. apply N.eqb_eq in H1. apply IH in H2. congruence.
  - injection H as -> ->. apply andb_true_iff. split; [apply N.eqb_refl|now apply IH].
Qed.

Lemma starts_with_app : forall p s, starts_with p s = true <-> exists r, s = p ++ r.
Proof.
  induction p as [|x p IH]; intros s; simpl.
  - split; eauto.
  - destruct s as [|y s].
    + split; [easy|intros [r H]; easy].
    + rewrite andb_true_iff, N.eqb_eq, IH. split.
      * intros [-> [r ->]]. eauto.
      * intros [r H]. injection H as -> ->. eauto.
Qed.

Lemma dec_fuel_app : forall f n acc, dec_fuel f n acc = dec_fuel f n [] ++ acc.
Proof.
  induction f as [|f IH]; intros; simpl; [easy|].
  destruct (n <? 10)%N; [easy|].
  rewrite IH. rewrite (IH _ [_]). rewrite <- app_assoc. easy.
Qed.

Lemma dec_val_app : forall a b, dec_val (a ++ [b]) = (dec_val a * 10 + (b - 48))%N.
Proof. intros. unfold dec_val. rewrite fold_left_app. easy. Qed.

Lemma dec_fuel_val : forall f n, (n < 2 ^ N.of_nat f)%N -> dec_val (dec_fuel f n []) = n.
Proof.
  induction f as [|f IH]; intros n Hn.
  - change (2 ^ N.of_nat 0)%N with 1%N in Hn. replace n with 0%N by lia. reflexivity.
  - cbn [dec_fuel]. destruct (n <? 10)%N eqn:E.
    + apply N.ltb_lt in E. unfold dec_val. cbn [fold_left]. lia.
    + apply N.ltb_ge in E. rewrite dec_fuel_app, dec_val_app, IH.
      * pose proof (N.div_mod n 10 ltac:(lia)). lia.
      * apply N.div_lt_upper_bound; [lia|].
        rewrite Nat2N.inj_succ, N.pow_succ_r' in Hn. lia.
Qed.

Lemma N_size_nat_bound : forall n, (n < 2 ^ N.of_nat (N.size_nat n))%N.
Proof.
  intros [|p]; [reflexivity|]. 
  simpl N.size_nat. induction p; simpl Pos.size_nat; rewrite ?Nat2N.inj_succ, ?N.pow_succ_r'; try lia.
Qed.

Lemma dec_value : forall n, dec_val (dec n) = n.
Proof.
  intros. apply dec_fuel_val. rewrite Nat2N.inj_succ, N.pow_succ_r'.
  pose proof (N_size_nat_bound n). lia.
Qed.

Lemma dec_fuel_digits : forall f n, Forall (fun c => is_digit c = true) (dec_fuel f n []).
Proof.
  induction f as [|f IH]; intros n; cbn [dec_fuel]; [constructor|].
  destruct (n <? 10)%N eqn:E.
  - apply N.ltb_lt in E. repeat constructor. unfold is_digit.
    apply andb_true_iff; split; apply N.leb_le; lia.
  - rewrite dec_fuel_app. apply Forall_app. split; [apply IH|].
    repeat constructor. unfold is_digit. pose proof (N.mod_lt n 10 ltac:(lia)).
    apply andb_true_iff; split; apply N.leb_le; lia.
Qed.

Lemma dec_digits : forall n, Forall (fun c => is_digit c = true) (dec n).
Proof. intros. apply dec_fuel_digits. Qed.

Lemma dec_nonempty : forall n, dec n <> [].
Proof.
  intros n. unfold dec. cbn [dec_fuel]. destruct (n <? 10)%N; [easy|].
  rewrite dec_fuel_app. intros H. apply app_eq_nil in H as [_ H]. easy.
Qed.

Lemma span_digits_app : forall ds rest,
  Forall (fun c => is_digit c = true) ds ->
  match rest with c :: _ => is_digit c = false | [] => True end ->
  span_digits (ds ++ rest) = (ds, rest).
Proof.
  induction ds as [|d ds IH]; intros rest Hd Hr; simpl.
  - destruct rest; [easy|]. simpl. now rewrite Hr.
  - inversion Hd; subst. rewrite H1, IH; easy.
Qed.

Lemma from_chars_dec_spec : forall lim n rest,
  (n < lim)%N ->
  match rest with c :: _ => is_digit c = false | [] => True end ->
  from_chars_dec lim (dec n ++ rest) = (Some n, rest).
Proof.
  intros. unfold from_chars_dec. rewrite span_digits_app by (auto using dec_digits).
  pose proof (dec_nonempty n). destruct (dec n) eqn:E; [easy|]. rewrite <- E, dec_value.
  apply N.ltb_lt in H. now rewrite H.
Qed.
