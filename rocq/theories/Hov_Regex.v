(** Regular expressions and which lines ask for an instruction. *)
From Coq Require Import String.
From Coq Require Import List NArith ZArith Bool Arith Lia.
From Coq Require Import ZifyBool ZifyNat ZifyN.
From Verif Require Import Common Text_Model Text_Spec Mach_Model Hov_Model Hov_Spec.
Import ListNotations.

Lemma nullable_iff r : nullable r = true <-> lang r [].
Proof.
  induction r as [| |f|a IHa b IHb|a IHa b IHb|a IHa]; cbn [nullable].
  - split; [easy|]. intros H; inversion H.
  - split; [constructor|easy].
  - split; [easy|]. intros H; inversion H.
  - rewrite andb_true_iff, IHa, IHb. split.
    + intros (A & B). exact (l_cat a b [] [] A B).
    + intros H. inversion H as [| |? ? s s' A B E1 E2| | | |]; subst. apply app_eq_nil in E2. destruct E2; subst. auto.
  - rewrite orb_true_iff, IHa, IHb. split; [intros [A|B]; [now apply l_alt_l|now apply l_alt_r]|].
    intros H; inversion H; auto.
  - split; [constructor|easy].
Qed.
Lemma star_cons a c s : lang (Star a) (c :: s) -> exists s1 s2, s = s1 ++ s2 /\ lang a (c :: s1) /\ lang (Star a) s2.
Proof.
  intros H. remember (Star a) as r eqn:Er. remember (c :: s) as x eqn:Ex. revert s Ex.
  induction H; intros s0 Ex; try discriminate; injection Er as ->.
  destruct s as [|c1 s1]; cbn [app] in Ex.
  - now apply IHlang2.
  - injection Ex as -> <-. exists s1, s'. auto.
Qed.
Lemma deriv_iff c : forall r s, lang (deriv c r) s <-> lang r (c :: s).
Proof.
  induction r as [| |f|a IHa b IHb|a IHa b IHb|a IHa]; intros s; cbn [deriv].
  - split; intros H; inversion H.
  - split; intros H; inversion H.
  - destruct (f c) eqn:F.
    + split; intros H; inversion H; subst; constructor. exact F.
    + split; intros H; inversion H; subst. congruence.
  - assert (K : forall s, lang (Cat (deriv c a) b) s -> lang (Cat a b) (c :: s)).
    { intros s0 H. inversion H as [| |? ? x y A B| | | |]; subst. apply IHa in A. exact (l_cat a b _ _ A B). }
    assert (K' : forall s, lang (Cat a b) (c :: s) -> lang (Cat (deriv c a) b) s \/ (lang a [] /\ lang (deriv c b) s)).
    { intros s0 H. inversion H as [| |? ? x y A B E1 E2| | | |]; subst. destruct x as [|c1 x]; cbn [app] in E2.
      - subst y. right. split; [exact A|]. now apply IHb.
      - injection E2 as -> <-. left. constructor; [now apply IHa|exact B]. }
    destruct (nullable a) eqn:Na.
    + apply nullable_iff in Na. split.
      * intros H; inversion H; subst; [now apply K|]. assert (X : lang b (c :: s)) by now apply IHb.
        exact (l_cat a b [] _ Na X).
      * intros H. destruct (K' _ H) as [X|(X & Y)]; [now apply l_alt_l|now apply l_alt_r].
    + split; [apply K|]. intros H. destruct (K' _ H) as [X|(X & Y)]; [exact X|].
      apply nullable_iff in X. congruence.
  - split; intros H; inversion H; subst;
      [apply l_alt_l; now apply IHa|apply l_alt_r; now apply IHb|apply l_alt_l; now apply IHa|apply l_alt_r; now apply IHb].
  - split.
    + intros H. inversion H as [| |? ? x y A B E1 E2| | | |]; subst. apply IHa in A. exact (l_star_1 a _ _ A B).
    + intros H. apply star_cons in H. destruct H as (s1 & s2 & -> & A & B). constructor; [now apply IHa|exact B].
Qed.
Theorem regex_match_iff r s : regex_match r s = true <-> lang r s.
Proof.
  revert r. induction s as [|c s IH]; intros r; cbn [regex_match]; [apply nullable_iff|].
  rewrite IH. apply deriv_iff.
Qed.

(** ** Classes *)
Lemma isspace_iff c : isspace c = true <-> blank c.
Proof. unfold isspace, blank. lia. Qed.
Lemma notspace_iff c : negb (isspace c) = true <-> ~ blank c.
Proof. unfold isspace, blank. lia. Qed.
Lemma star_cls f s : lang (Star (Cls f)) s <-> Forall (fun c => f c = true) s.
Proof.
  split.
  - induction s as [|c s IH]; [constructor|]. intros H. apply star_cons in H. destruct H as (s1 & s2 & -> & A & B).
    inversion A; subst. constructor; [assumption|]. cbn [app] in *. now apply IH.
  - induction 1 as [|c s Hc H IH]; [constructor|]. apply (l_star_1 (Cls f) [c] s); [now constructor|exact IH].
Qed.
Lemma plus_cls f s : lang (plus (Cls f)) s <-> s <> [] /\ Forall (fun c => f c = true) s.
Proof.
  unfold plus. split.
  - intros H. inversion H as [| |? ? x y A B E1 E2| | | |]; subst. inversion A; subst. apply star_cls in B.
    cbn [app]. split; [easy|]. now constructor.
  - intros (N & H). destruct s as [|c s]; [easy|]. inversion H; subst. apply (l_cat (Cls f) (Star (Cls f)) [c] s).
    + now constructor.
    + now apply star_cls.
Qed.
Lemma spaces s : Forall (fun c => isspace c = true) s <-> Forall blank s.
Proof. split; apply Forall_impl; intros c; apply isspace_iff. Qed.
Lemma nonspaces s : Forall (fun c => negb (isspace c) = true) s <-> word s.
Proof. split; apply Forall_impl; intros c; apply notspace_iff. Qed.
Lemma cat_iff a b s : lang (Cat a b) s <-> exists x y, s = x ++ y /\ lang a x /\ lang b y.
Proof.
  split; [intros H; inversion H; subst; eauto|]. intros (x & y & -> & A & B). now constructor.
Qed.
Lemma cls_iff f s : lang (Cls f) s <-> exists c, s = [c] /\ f c = true.
Proof. split; [intros H; inversion H; subst; eauto|]. intros (c & -> & F). now constructor. Qed.

Theorem instruction_iff s : regex_match instruction_regex s = true <->
  (exists b n, s = b ++ n /\ blanks b /\ word n) \/
  (exists x y w b n, s = x :: y :: w ++ b ++ n /\ x <> 42%N /\ y <> 42%N /\ word w /\ blanks b /\ word n /\ n <> []).
Proof.
  rewrite regex_match_iff. unfold instruction_regex. cbv zeta. split.
  - intros H. inversion H as [| | |? ? ? A|? ? ? A| |]; subst; clear H.
    + right. apply cat_iff in A. destruct A as (x1 & r1 & -> & X & A). apply cls_iff in X. destruct X as (x & -> & X).
      apply cat_iff in A. destruct A as (y1 & r2 & -> & Y & A). apply cls_iff in Y. destruct Y as (y & -> & Y).
      apply cat_iff in A. destruct A as (w & r3 & -> & W & A). apply star_cls, nonspaces in W.
      apply cat_iff in A. destruct A as (b & n & -> & B & N). apply plus_cls in B. apply plus_cls in N.
      exists x, y, w, b, n. unfold not_star in *. destruct B as (B1 & B2), N as (N1 & N2).
      split; [reflexivity|]. split; [lia|]. split; [lia|]. split; [exact W|]. split; [split; [exact B1|now apply spaces]|].
      split; [now apply nonspaces|exact N1].
    + left. apply cat_iff in A. destruct A as (b & n & -> & B & N). apply plus_cls in B. apply star_cls, nonspaces in N.
      exists b, n. split; [easy|]. split; [split; [easy|now apply spaces]|exact N].
  - intros [(b & n & -> & (B1 & B2) & N)|(x & y & w & b & n & -> & X & Y & W & (B1 & B2) & N & N1)].
    + apply l_alt_r. constructor; [apply plus_cls; split; [exact B1|now apply spaces]|now apply star_cls, nonspaces].
    + apply l_alt_l. apply (l_cat _ _ [x]); [constructor; unfold not_star; lia|].
      apply (l_cat _ _ [y]); [constructor; unfold not_star; lia|].
      constructor; [now apply star_cls, nonspaces|]. constructor; [apply plus_cls; split; [exact B1|now apply spaces]|].
      apply plus_cls. split; [exact N1|now apply nonspaces].
Qed.
