(** The scan of the tokens finds what the messages claim. *)

From Coq Require Import String List Arith ZArith Bool Lia.
Import ListNotations.
From Verif Require Import Err_Model Err_Spec.
Open Scope list_scope.
Open Scope nat_scope.

(** ** Kinds of tokens *)

Lemma comparison_iff : forall t, is_comparative_sign t = true <-> comparison t.
Proof. intros t. unfold comparison. destruct t; cbn; intuition congruence. Qed.
Lemma sign_iff : forall t, is_sign t = true <-> sign t.
Proof.
  intros t. unfold sign. rewrite <- comparison_iff. destruct t; cbn; intuition congruence.
Qed.
Lemma follow_iff : forall t, can_follow_sign t = true
  <-> In t [IDENTIFIER; ORDSYMBOL; AMPERSAND; LPAR; CONTINUATION; COMMENT].
Proof. intros t. destruct t; cbn; intuition congruence. Qed.
Lemma before_iff : forall t, can_be_before_sign t = true
  <-> In t [IDENTIFIER; ORDSYMBOL; AMPERSAND; RPAR; CONTINUATION; COMMENT].
Proof. intros t. destruct t; cbn; intuition congruence. Qed.

(** ** A scan up to an index *)

Definition upto (part : list tok) (n : nat) (P : list tok -> tok -> list tok -> Prop) : Prop :=
  exists x t y, part = x ++ t :: y /\ length x < n /\ P x t y.

Lemma upto_step : forall part a u b P, part = a ++ u :: b ->
  upto part (S (length a)) P <-> upto part (length a) P \/ P a u b.
Proof.
  intros part a u b P E. split.
  - intros (x & t & y & E2 & L & H). destruct (Nat.eq_dec (length x) (length a)) as [EL|NL].
    + right. rewrite E in E2. pose proof E2 as E3.
      assert (firstn (length a) (a ++ u :: b) = firstn (length x) (x ++ t :: y)) as F by (rewrite EL, E2; reflexivity).
      rewrite !firstn_app, !Nat.sub_diag, !firstn_all in F. cbn in F. rewrite !app_nil_r in F. subst x.
      apply app_inv_head in E3. injection E3 as -> ->. exact H.
    + left. exists x, t, y. repeat split; auto. lia.
  - intros [(x & t & y & E2 & L & H)|H].
    + exists x, t, y. repeat split; auto.
    + exists a, u, b. repeat split; auto.
Qed.

Lemma upto_0 : forall part P, ~ upto part 0 P.
Proof. intros part P (x & t & y & _ & L & _). lia. Qed.

Lemma upto_all : forall part P,
  upto part (length part) P <-> exists x t y, part = x ++ t :: y /\ P x t y.
Proof.
  intros part P. split.
  - intros (x & t & y & E & _ & H). eauto.
  - intros (x & t & y & E & H). exists x, t, y. repeat split; auto. rewrite E, app_length. cbn [length]. lia.
Qed.

(** What the flags stand for. *)
Definition P_right (x : list tok) (t : tok) (y : list tok) : Prop :=
  occurrences LPAR (x ++ [t]) < occurrences RPAR (x ++ [t]).
Definition P_other (x : list tok) (t : tok) (y : list tok) : Prop := t <> LPAR /\ t <> RPAR.
Definition P_follow (x : list tok) (t : tok) (y : list tok) : Prop := sign t /\ ~ begins_operand y.
Definition P_amp (x : list tok) (t : tok) (y : list tok) : Prop := t = AMPERSAND /\ ~ begins_operand y.
Definition P_before (x : list tok) (t : tok) (y : list tok) : Prop :=
  sign t /\ t <> PLUS /\ t <> MINUS /\ ~ ends_operand x.
Definition P_comp (x : list tok) (t : tok) (y : list tok) : Prop := comparison t.

Record inv (part : list tok) (n : nat) (acc : Z * nat * flags) : Prop := Inv
  { i_par : fst (fst acc) = (Z.of_nat (occurrences RPAR (firstn n part)) - Z.of_nat (occurrences LPAR (firstn n part)))%Z;
    i_apo : snd (fst acc) = occurrences APOSTROPHE (firstn n part);
    i_right : right_prec (snd acc) = true <-> upto part n P_right;
    i_only : only_par (snd acc) = false <-> upto part n P_other;
    i_left : left_prec (snd acc) = false;
    i_odd : odd_apostrophes (snd acc) = false;
    i_follow : sign_followed (snd acc) = false <-> upto part n P_follow;
    i_amp : ampersand_followed (snd acc) = false <-> upto part n P_amp;
    i_before : sign_preceding (snd acc) = false <-> upto part n P_before;
    i_comp : unexpected_sign (snd acc) = true <-> upto part n P_comp }.

Lemma occ_snoc : forall t a u, occurrences t (a ++ [u]) = occurrences t a + (if tok_eq_dec u t then 1 else 0).
Proof. intros t a u. unfold occurrences. rewrite count_occ_app. cbn. destruct (tok_eq_dec u t); reflexivity. Qed.

Lemma begins_dec : forall b, (match b with [] => true | n :: _ => negb (can_follow_sign n) end) = true <-> ~ begins_operand b.
Proof.
  intros [|n b].
  - split; [|reflexivity]. intros _ (t & r & E & _). discriminate.
  - rewrite negb_true_iff. split.
    + intros H (t & r & E & H2). injection E as -> ->. apply follow_iff in H2. congruence.
    + intros H. destruct (can_follow_sign n) eqn:F; [|reflexivity]. exfalso. apply H.
      exists n, b. split; [reflexivity|]. apply follow_iff; exact F.
Qed.

Lemma ends_snoc : forall a u, ends_operand (a ++ [u]) <-> can_be_before_sign u = true.
Proof.
  intros a u. rewrite before_iff. split.
  - intros (t & r & E & H). apply app_inj_tail in E as [_ ->]. exact H.
  - intros H. exists u, a. auto.
Qed.
Lemma ends_nil : ~ ends_operand [].
Proof. intros (t & r & E & _). destruct r; discriminate. Qed.

(** ** One token *)

Lemma get_mid : forall pre part post a u b, part = a ++ u :: b ->
  get (pre ++ part ++ post) (length pre + length a) = Some u.
Proof.
  intros pre part post a u b ->. unfold get. rewrite nth_error_app2 by lia.
  replace (length pre + length a - length pre) with (length a) by lia.
  rewrite <- app_assoc. rewrite nth_error_app2 by lia. rewrite Nat.sub_diag. reflexivity.
Qed.

Lemma look_other : forall ts start e i par apo f t, get ts i = Some t -> t <> LPAR -> t <> RPAR ->
  look ts start e i (par, apo, f) =
  let amp := match t with AMPERSAND => true | _ => false end in
  match (if is_sign t || amp
         then if (Z.of_nat i =? e)%Z then Some true
              else match get ts (i + 1) with None => None | Some n => Some (negb (can_follow_sign n)) end
         else Some false) with
  | None => None
  | Some bad_next =>
      match (if is_sign t && match t with PLUS | MINUS => false | _ => true end
             then if i =? start then Some true
                  else match get ts (i - 1) with None => None | Some n => Some (negb (can_be_before_sign n)) end
             else Some false) with
      | None => None
      | Some bad_before =>
          Some (par,
                match t with APOSTROPHE => S apo | _ => apo end,
                Flags (right_prec f || (0 <? par)%Z) false (left_prec f)
                  (if bad_next && is_sign t then false else sign_followed f)
                  (if bad_before then false else sign_preceding f)
                  (unexpected_sign f || is_comparative_sign t)
                  (odd_apostrophes f)
                  (if bad_next && amp then false else ampersand_followed f))
      end
  end.
Proof.
  intros ts start e i par apo f t G N1 N2. unfold look. rewrite G.
  destruct t; try contradiction; reflexivity.
Qed.

Lemma look_step : forall pre part post a u b acc, part = a ++ u :: b ->
  inv part (length a) acc ->
  exists acc', look (pre ++ part ++ post) (length pre) (Z.of_nat (length pre + length part) - 1)%Z
                    (length pre + length a) acc = Some acc'
  /\ inv part (S (length a)) acc'.
Proof.
  intros pre part post a u b [[par apo] f] E [H1 H2 H3 H4 H5 H6 H7 H8 H9 H10].
  cbn [fst snd] in *.
  pose proof (get_mid pre part post a u b E) as G.
  assert (FN : firstn (length a) part = a).
  { rewrite E, firstn_app, Nat.sub_diag, firstn_all. cbn. apply app_nil_r. }
  assert (FS : firstn (S (length a)) part = a ++ [u]).
  { rewrite E. replace (a ++ u :: b) with ((a ++ [u]) ++ b) by (rewrite <- app_assoc; reflexivity).
    replace (S (length a)) with (length (a ++ [u])) by (rewrite app_length; cbn [length]; lia).
    rewrite firstn_app, Nat.sub_diag, firstn_all. cbn. apply app_nil_r. }
  rewrite FN in H1, H2.
  assert (RT : forall p, p = (Z.of_nat (occurrences RPAR (a ++ [u])) - Z.of_nat (occurrences LPAR (a ++ [u])))%Z ->
               ((0 <? p)%Z = true <-> P_right a u b)).
  { intros p ->. unfold P_right. rewrite Z.ltb_lt. lia. }
  destruct (tok_eq_dec u LPAR) as [->|NL]; [|destruct (tok_eq_dec u RPAR) as [->|NR]].
  - unfold look. rewrite G. eexists. split; [reflexivity|].
    assert (PE : (par - 1)%Z = (Z.of_nat (occurrences RPAR (a ++ [LPAR])) - Z.of_nat (occurrences LPAR (a ++ [LPAR])))%Z).
    { rewrite !occ_snoc. cbn. lia. }
    specialize (RT _ PE).
    assert (FL : forall g, (g = f \/ g = Flags true (only_par f) (left_prec f) (sign_followed f) (sign_preceding f)
                        (unexpected_sign f) (odd_apostrophes f) (ampersand_followed f)) ->
        only_par g = only_par f /\ left_prec g = left_prec f /\ sign_followed g = sign_followed f
        /\ sign_preceding g = sign_preceding f /\ unexpected_sign g = unexpected_sign f
        /\ odd_apostrophes g = odd_apostrophes f /\ ampersand_followed g = ampersand_followed f).
    { intros g [->| ->]; cbn; repeat split. }
    match goal with |- inv _ _ (_, _, ?g) => destruct (FL g) as (E1 & E2 & E3 & E4 & E5 & E6 & E7) end.
    { destruct (0 <? par - 1)%Z; auto. }
    constructor; cbn [fst snd]; rewrite ?FS, ?(upto_step part a LPAR b _ E), ?E1, ?E2, ?E3, ?E4, ?E5, ?E6, ?E7; auto.
    + rewrite H2, occ_snoc. cbn. lia.
    + rewrite <- H3, <- RT. destruct (0 <? par - 1)%Z; cbn; intuition congruence.
    + rewrite H4. unfold P_other. intuition congruence.
    + rewrite H7. unfold P_follow. split; [auto|]. intros [K|[K _]]; [exact K|apply sign_iff in K; discriminate].
    + rewrite H8. unfold P_amp. split; [auto|]. intros [K|[K _]]; [exact K|discriminate].
    + rewrite H9. unfold P_before. split; [auto|]. intros [K|[K _]]; [exact K|apply sign_iff in K; discriminate].
    + rewrite H10. unfold P_comp. split; [auto|]. intros [K|K]; [exact K|apply comparison_iff in K; discriminate].
  - unfold look. rewrite G. eexists. split; [reflexivity|].
    assert (PE : (par + 1)%Z = (Z.of_nat (occurrences RPAR (a ++ [RPAR])) - Z.of_nat (occurrences LPAR (a ++ [RPAR])))%Z).
    { rewrite !occ_snoc. cbn. lia. }
    specialize (RT _ PE).
    assert (FL : forall g, (g = f \/ g = Flags true (only_par f) (left_prec f) (sign_followed f) (sign_preceding f)
                        (unexpected_sign f) (odd_apostrophes f) (ampersand_followed f)) ->
        only_par g = only_par f /\ left_prec g = left_prec f /\ sign_followed g = sign_followed f
        /\ sign_preceding g = sign_preceding f /\ unexpected_sign g = unexpected_sign f
        /\ odd_apostrophes g = odd_apostrophes f /\ ampersand_followed g = ampersand_followed f).
    { intros g [->| ->]; cbn; repeat split. }
    match goal with |- inv _ _ (_, _, ?g) => destruct (FL g) as (E1 & E2 & E3 & E4 & E5 & E6 & E7) end.
    { destruct (0 <? par + 1)%Z; auto. }
    constructor; cbn [fst snd]; rewrite ?FS, ?(upto_step part a RPAR b _ E), ?E1, ?E2, ?E3, ?E4, ?E5, ?E6, ?E7; auto.
    + rewrite H2, occ_snoc. cbn. lia.
    + rewrite <- H3, <- RT. destruct (0 <? par + 1)%Z; cbn; intuition congruence.
    + rewrite H4. unfold P_other. intuition congruence.
    + rewrite H7. unfold P_follow. split; [auto|]. intros [K|[K _]]; [exact K|apply sign_iff in K; discriminate].
    + rewrite H8. unfold P_amp. split; [auto|]. intros [K|[K _]]; [exact K|discriminate].
    + rewrite H9. unfold P_before. split; [auto|]. intros [K|[K _]]; [exact K|apply sign_iff in K; discriminate].
    + rewrite H10. unfold P_comp. split; [auto|]. intros [K|K]; [exact K|apply comparison_iff in K; discriminate].
  - rewrite (look_other _ _ _ _ _ _ _ u G NL NR). cbn zeta.
    assert (NEXT : (if (Z.of_nat (length pre + length a) =? Z.of_nat (length pre + length part) - 1)%Z then Some true
              else match get (pre ++ part ++ post) (length pre + length a + 1) with None => None
                   | Some n => Some (negb (can_follow_sign n)) end)
             = Some (match b with [] => true | n :: _ => negb (can_follow_sign n) end)).
    { destruct b as [|n b].
      - replace (Z.of_nat (length pre + length a) =? Z.of_nat (length pre + length part) - 1)%Z with true; [reflexivity|].
        symmetry. apply Z.eqb_eq. rewrite E, app_length. cbn [length]. lia.
      - replace (Z.of_nat (length pre + length a) =? Z.of_nat (length pre + length part) - 1)%Z with false.
        2:{ symmetry. apply Z.eqb_neq. rewrite E, app_length. cbn [length]. lia. }
        replace (length pre + length a + 1) with (length pre + length (a ++ [u])) by (rewrite app_length; cbn [length]; lia).
        rewrite (get_mid pre part post (a ++ [u]) n b); [reflexivity|]. rewrite E, <- app_assoc. reflexivity. }
    assert (BEF : exists bb, (if length pre + length a =? length pre then Some true
                  else match get (pre ++ part ++ post) (length pre + length a - 1) with None => None
                       | Some n => Some (negb (can_be_before_sign n)) end) = Some bb
                  /\ (bb = true <-> ~ ends_operand a)).
    { destruct a as [|v a'] using rev_ind.
      - exists true. split.
        + cbn [length]. rewrite Nat.add_0_r, Nat.eqb_refl. reflexivity.
        + split; [intros _; exact ends_nil|reflexivity].
      - exists (negb (can_be_before_sign v)). split.
        + replace (length pre + length (a' ++ [v]) =? length pre) with false
            by (symmetry; apply Nat.eqb_neq; rewrite app_length; cbn [length]; lia).
          replace (length pre + length (a' ++ [v]) - 1) with (length pre + length a')
            by (rewrite app_length; cbn [length]; lia).
          rewrite (get_mid pre part post a' v (u :: b)); [reflexivity|]. rewrite E, <- app_assoc. reflexivity.
        + rewrite negb_true_iff, ends_snoc. destruct (can_be_before_sign v); intuition congruence. }
    destruct BEF as (bb & BEF & BI).
    rewrite NEXT, BEF. pose proof (begins_dec b) as BD.
    set (bn := match b with [] => true | n :: _ => negb (can_follow_sign n) end) in *.
    set (amp := match u with AMPERSAND => true | _ => false end).
    set (sg := is_sign u && match u with PLUS | MINUS => false | _ => true end).
    assert (AMP : amp = true <-> u = AMPERSAND) by (unfold amp; destruct u; intuition congruence).
    assert (SG : sg = true <-> sign u /\ u <> PLUS /\ u <> MINUS).
    { unfold sg. rewrite andb_true_iff, sign_iff. destruct u; intuition congruence. }
    pose proof (sign_iff u) as SI. pose proof (comparison_iff u) as CI.
    assert (X1 : (if is_sign u || amp then Some bn else Some false) = Some (bn && (is_sign u || amp))).
    { destruct (is_sign u || amp), bn; reflexivity. }
    assert (X2 : (if sg then Some bb else Some false) = Some (bb && sg)) by (destruct sg, bb; reflexivity).
    rewrite X1, X2. eexists. split; [reflexivity|].
    assert (PE : par = (Z.of_nat (occurrences RPAR (a ++ [u])) - Z.of_nat (occurrences LPAR (a ++ [u])))%Z).
    { rewrite !occ_snoc. destruct (tok_eq_dec u RPAR); [contradiction|]. destruct (tok_eq_dec u LPAR); [contradiction|]. lia. }
    specialize (RT _ PE).
    constructor; cbn [fst snd right_prec only_par left_prec sign_followed sign_preceding unexpected_sign odd_apostrophes ampersand_followed];
      rewrite ?FS, ?(upto_step part a u b _ E); auto.
    + rewrite H2, occ_snoc. destruct u; cbn; lia.
    + rewrite orb_true_iff, H3, RT. reflexivity.
    + split; [|reflexivity]. intros _. right. split; assumption.
    + rewrite <- H7. unfold P_follow. rewrite <- SI, <- BD.
      destruct bn, (is_sign u), amp; cbn; intuition congruence.
    + rewrite <- H8. unfold P_amp. rewrite <- AMP, <- BD.
      destruct bn, (is_sign u), amp; cbn; intuition congruence.
    + rewrite <- H9. unfold P_before.
      transitivity (sign_preceding f = false \/ ((sign u /\ u <> PLUS /\ u <> MINUS) /\ ~ ends_operand a)); [|intuition].
      rewrite <- SG, <- BI. destruct bb, sg; cbn; intuition congruence.
    + rewrite orb_true_iff, H10. unfold P_comp. rewrite CI. reflexivity.
Qed.

Lemma iterate_inv : forall pre part post n a acc, n + length a = length part ->
  (exists b, part = a ++ b) -> inv part (length a) acc ->
  exists acc', iterate n (pre ++ part ++ post) (length pre) (Z.of_nat (length pre + length part) - 1)%Z
                    (length pre + length a) acc = Some acc'
  /\ inv part (length part) acc'.
Proof.
  intros pre part post. induction n as [|n IH]; intros a acc L [b E] HI.
  - exists acc. split; [reflexivity|]. rewrite <- L. exact HI.
  - destruct b as [|u b].
    { rewrite E, app_nil_r in L. lia. }
    destruct (look_step pre part post a u b acc E HI) as (acc' & E1 & HI').
    cbn [iterate]. rewrite E1.
    replace (S (length pre + length a)) with (length pre + length (a ++ [u])) by (rewrite app_length; cbn [length]; lia).
    apply IH.
    + rewrite app_length. cbn [length]. lia.
    + exists b. rewrite <- app_assoc. exact E.
    + rewrite app_length. cbn [length]. replace (length a + 1) with (S (length a)) by lia. exact HI'.
Qed.

Lemma inv_start : forall part, inv part 0 (0%Z, 0, no_flags).
Proof.
  intros part. constructor; cbn; try reflexivity;
    (split; [discriminate|intros K; exfalso; exact (upto_0 _ _ K)]).
Qed.

(** ** The choice *)

Lemma choose_first : forall part acc a c0, inv part (length part) acc ->
  let '(par, apo, f) := acc in
  first_claim part a c0
    (choose (Flags (right_prec f) (only_par f) (left_prec f || (par <? 0)%Z) (sign_followed f) (sign_preceding f)
              (unexpected_sign f) (odd_apostrophes f || Nat.odd apo) (ampersand_followed f)) a c0).
Proof.
  intros part [[par apo] f] a c0 [H1 H2 H3 H4 H5 H6 H7 H8 H9 H10]. cbn [fst snd] in *.
  rewrite firstn_all in H1, H2. rewrite upto_all in *.
  assert (C12 : right_prec f = true <-> claims part a c0 S0012).
  { rewrite H3. cbn. unfold P_right. split.
    - intros (x & t & y & E & L). exists (x ++ [t]), y. split; [rewrite <- app_assoc; exact E|exact L].
    - intros (x & y & E & L). destruct x as [|t x] using rev_ind; [cbn in L; lia|].
      exists x, t, y. split; [rewrite E, <- app_assoc; reflexivity|exact L]. }
  assert (C11 : left_prec f || (par <? 0)%Z = true <-> claims part a c0 S0011).
  { rewrite H5, H1. cbn [orb claims]. rewrite Z.ltb_lt. lia. }
  assert (C10 : only_par f = true <-> claims part a c0 S0010).
  { cbn. split.
    - intros T t IN. destruct (tok_eq_dec t LPAR); [auto|]. destruct (tok_eq_dec t RPAR); [auto|].
      apply in_split in IN as (x & y & E). exfalso.
      assert (only_par f = false) by (apply H4; exists x, t, y; split; [exact E|split; assumption]). congruence.
    - intros A. destruct (only_par f) eqn:O; [reflexivity|]. exfalso.
      destruct (proj1 H4 eq_refl) as (x & t & y & E & N1 & N2).
      destruct (A t); [rewrite E; apply in_elt| |]; contradiction. }
  assert (C9 : negb (sign_followed f) = true <-> claims part a c0 S0009).
  { rewrite negb_true_iff, H7. cbn. unfold P_follow. split; intros (x & t & y & K); exists x, t, y; exact K. }
  assert (C8 : negb (ampersand_followed f) = true <-> claims part a c0 S0008).
  { rewrite negb_true_iff, H8. cbn. unfold P_amp. split.
    - intros (x & t & y & E & -> & K). exists x, y. auto.
    - intros (x & y & E & K). exists x, AMPERSAND, y. auto. }
  assert (C7 : negb (sign_preceding f) = true <-> claims part a c0 S0007).
  { rewrite negb_true_iff, H9. cbn. unfold P_before. split; intros (x & t & y & K); exists x, t, y; exact K. }
  assert (C6 : unexpected_sign f = true <-> claims part a c0 S0006).
  { rewrite H10. cbn. unfold P_comp. split.
    - intros (x & t & y & E & K). exists t. split; [rewrite E; apply in_elt|exact K].
    - intros (t & IN & K). apply in_split in IN as (x & y & E). exists x, t, y. auto. }
  assert (C5 : (odd_apostrophes f || Nat.odd apo) && a = true <-> claims part a c0 S0005).
  { rewrite H6, H2. cbn. rewrite andb_true_iff. reflexivity. }
  assert (C4 : c0 = true <-> claims part a c0 S0004) by (cbn; reflexivity).
  unfold choose, first_claim. cbn [right_prec only_par left_prec sign_followed sign_preceding unexpected_sign
    odd_apostrophes ampersand_followed].
  assert (NO : forall b c, (b = true <-> claims part a c0 c) -> b = false -> ~ claims part a c0 c).
  { intros b c IF F K. apply IF in K. congruence. }
  destruct (right_prec f) eqn:B12.
  { exists [], [S0011; S0010; S0009; S0008; S0007; S0006; S0005; S0004; S0002]. split; [reflexivity|].
    split; [apply C12; reflexivity|]. intros x []. }
  pose proof (NO _ _ C12 eq_refl) as N12.
  destruct (left_prec f || (par <? 0)%Z) eqn:B11.
  { exists [S0012], [S0010; S0009; S0008; S0007; S0006; S0005; S0004; S0002]. split; [reflexivity|].
    split; [apply C11; reflexivity|]. intros x [<-|[]]; assumption. }
  pose proof (NO _ _ C11 eq_refl) as N11.
  destruct (only_par f) eqn:B10.
  { exists [S0012; S0011], [S0009; S0008; S0007; S0006; S0005; S0004; S0002]. split; [reflexivity|].
    split; [apply C10; reflexivity|]. intros x [<-|[<-|[]]]; assumption. }
  pose proof (NO _ _ C10 eq_refl) as N10.
  destruct (negb (sign_followed f)) eqn:B9.
  { exists [S0012; S0011; S0010], [S0008; S0007; S0006; S0005; S0004; S0002]. split; [reflexivity|].
    split; [apply C9; reflexivity|]. intros x [<-|[<-|[<-|[]]]]; assumption. }
  pose proof (NO _ _ C9 eq_refl) as N9.
  destruct (negb (ampersand_followed f)) eqn:B8.
  { exists [S0012; S0011; S0010; S0009], [S0007; S0006; S0005; S0004; S0002]. split; [reflexivity|].
    split; [apply C8; reflexivity|]. intros x [<-|[<-|[<-|[<-|[]]]]]; assumption. }
  pose proof (NO _ _ C8 eq_refl) as N8.
  destruct (negb (sign_preceding f)) eqn:B7.
  { exists [S0012; S0011; S0010; S0009; S0008], [S0006; S0005; S0004; S0002]. split; [reflexivity|].
    split; [apply C7; reflexivity|]. intros x [<-|[<-|[<-|[<-|[<-|[]]]]]]; assumption. }
  pose proof (NO _ _ C7 eq_refl) as N7.
  destruct (unexpected_sign f) eqn:B6.
  { exists [S0012; S0011; S0010; S0009; S0008; S0007], [S0005; S0004; S0002]. split; [reflexivity|].
    split; [apply C6; reflexivity|]. intros x [<-|[<-|[<-|[<-|[<-|[<-|[]]]]]]]; assumption. }
  pose proof (NO _ _ C6 eq_refl) as N6.
  destruct ((odd_apostrophes f || Nat.odd apo) && a) eqn:B5.
  { exists [S0012; S0011; S0010; S0009; S0008; S0007; S0006], [S0004; S0002]. split; [reflexivity|].
    split; [apply C5; reflexivity|]. intros x [<-|[<-|[<-|[<-|[<-|[<-|[<-|[]]]]]]]]; assumption. }
  pose proof (NO _ _ C5 eq_refl) as N5.
  destruct c0 eqn:B4.
  { exists [S0012; S0011; S0010; S0009; S0008; S0007; S0006; S0005], [S0002]. split; [reflexivity|].
    split; [reflexivity|]. intros x [<-|[<-|[<-|[<-|[<-|[<-|[<-|[<-|[]]]]]]]]]; assumption. }
  exists [S0012; S0011; S0010; S0009; S0008; S0007; S0006; S0005; S0004], []. split; [reflexivity|].
  split; [exact I|]. intros x [<-|[<-|[<-|[<-|[<-|[<-|[<-|[<-|[<-|[]]]]]]]]]]; try assumption. cbn. discriminate.
Qed.

(** ** Finding the part *)

Lemma skip_spaces_ok : forall sp pre rest fuel, (forall x, In x sp -> x = SPACE) ->
  rest <> [] -> (forall r, rest <> SPACE :: r) -> length sp < fuel ->
  skip_spaces fuel (pre ++ sp ++ rest) (length pre) = Some (length pre + length sp).
Proof.
  induction sp as [|x sp IH]; intros pre rest fuel A NE NS L; (destruct fuel as [|fuel]; [cbn in L; lia|]).
  - cbn [skip_spaces app]. unfold get. rewrite nth_error_app2 by lia. rewrite Nat.sub_diag.
    destruct rest as [|t rest]; [contradiction|]. cbn [nth_error length]. rewrite Nat.add_0_r.
    destruct t; try reflexivity. exfalso. exact (NS rest eq_refl).
  - cbn [skip_spaces]. unfold get. rewrite nth_error_app2 by lia. rewrite Nat.sub_diag. cbn [app nth_error].
    rewrite (A x (or_introl eq_refl)).
    replace (pre ++ SPACE :: sp ++ rest) with ((pre ++ [SPACE]) ++ sp ++ rest) by (rewrite <- app_assoc; reflexivity).
    replace (S (length pre)) with (length (pre ++ [SPACE])) by (rewrite app_length; cbn [length]; lia).
    rewrite IH; auto.
    + rewrite app_length. cbn [length]. f_equal. lia.
    + intros y IN. apply A. right. exact IN.
    + cbn in L. lia.
Qed.

Lemma end_index_found : forall part pre r fuel, ~ In EOLLN part -> length part < fuel ->
  get_end_index fuel (pre ++ part ++ EOLLN :: r) (length pre) = (Z.of_nat (length pre + length part) - 1)%Z.
Proof.
  induction part as [|t part IH]; intros pre r fuel N L; (destruct fuel as [|fuel]; [cbn in L; lia|]).
  - cbn [get_end_index app]. unfold get. rewrite nth_error_app2 by lia. rewrite Nat.sub_diag.
    cbn [nth_error length]. rewrite Nat.add_0_r. reflexivity.
  - cbn [get_end_index]. unfold get. rewrite nth_error_app2 by lia. rewrite Nat.sub_diag. cbn [app nth_error].
    assert (NT : t <> EOLLN) by (intros ->; apply N; left; reflexivity).
    transitivity (get_end_index fuel (pre ++ t :: part ++ EOLLN :: r) (S (length pre))).
    { destruct t; try reflexivity; contradiction. }
    replace (pre ++ t :: part ++ EOLLN :: r) with ((pre ++ [t]) ++ part ++ EOLLN :: r) by (rewrite <- app_assoc; reflexivity).
    replace (S (length pre)) with (length (pre ++ [t])) by (rewrite app_length; cbn [length]; lia).
    rewrite IH.
    + rewrite app_length. cbn [length]. lia.
    + intros K. apply N. right. exact K.
    + cbn in L. lia.
Qed.

Lemma end_index_none : forall part pre fuel, ~ In EOLLN part ->
  get_end_index fuel (pre ++ part) (length pre) = (-1)%Z.
Proof.
  induction part as [|t part IH]; intros pre fuel N; (destruct fuel as [|fuel]; [reflexivity|]).
  - cbn [get_end_index]. unfold get. rewrite app_nil_r.
    rewrite (proj2 (nth_error_None pre (length pre))) by lia. reflexivity.
  - cbn [get_end_index]. unfold get. rewrite nth_error_app2 by lia. rewrite Nat.sub_diag. cbn [nth_error].
    assert (NT : t <> EOLLN) by (intros ->; apply N; left; reflexivity).
    transitivity (get_end_index fuel (pre ++ t :: part) (S (length pre))).
    { destruct t; try reflexivity; contradiction. }
    replace (pre ++ t :: part) with ((pre ++ [t]) ++ part) by (rewrite <- app_assoc; reflexivity).
    replace (S (length pre)) with (length (pre ++ [t])) by (rewrite app_length; cbn [length]; lia).
    apply IH. intros K. apply N. right. exact K.
Qed.

(** The message is that of the part; [part] must not be empty unless an EOLLN
    follows that is not the first token of all. *)
Lemma diagnosed : forall ts start part a c0, part_of ts start part -> start < length ts ->
  (part <> [] \/ (0 < start /\ nth_error ts start <> None /\ exists i, nth_error ts i = Some EOLLN /\ start <= i)) ->
  exists c, no_viable_alternative ts start a c0 = Some c /\ first_claim part a c0 c.
Proof.
  intros ts start part a c0 (sp & ASP & NSP & NE & R) LS NZ.
  set (pre := firstn start ts).
  assert (LP : length pre = start) by (unfold pre; rewrite firstn_length; lia).
  assert (TS : ts = pre ++ skipn start ts) by (unfold pre; symmetry; apply firstn_skipn).
  unfold no_viable_alternative.
  destruct R as [[r R]|R].
  - rewrite R in TS.
    assert (SK : skip_spaces (S (length ts)) ts start = Some (length pre + length sp)).
    { rewrite TS at 2. rewrite <- LP at 1. apply skip_spaces_ok; auto.
      - destruct part; discriminate.
      - intros r' K. destruct part as [|t part]; [discriminate|]. cbn in K. injection K as -> K. exact (NSP part eq_refl).
      - rewrite TS, !app_length. lia. }
    rewrite SK.
    assert (TS2 : ts = (pre ++ sp) ++ part ++ EOLLN :: r) by (rewrite TS, app_assoc; reflexivity).
    assert (LPS : length (pre ++ sp) = length pre + length sp) by apply app_length.
    assert (EI : get_end_index (length ts) ts (length pre + length sp)
                 = (Z.of_nat (length (pre ++ sp) + length part) - 1)%Z).
    { rewrite <- LPS. rewrite TS2 at 2. apply end_index_found; auto. rewrite TS2, !app_length. cbn [length]. lia. }
    rewrite EI.
    assert (POS : (Z.of_nat (length (pre ++ sp) + length part) - 1 =? -1)%Z = false).
    { apply Z.eqb_neq. destruct NZ as [NZ|[NZ _]]; [destruct part; [contradiction|cbn [length]; lia]|].
      rewrite LPS, LP. lia. }
    cbn zeta. rewrite POS. unfold iterate_error_stream.
    destruct (iterate_inv (pre ++ sp) part (EOLLN :: r) (length part) [] (0%Z, 0, no_flags)) as ([[par apo] f] & IE & HI).
    + cbn [length]. lia.
    + exists part. reflexivity.
    + apply inv_start.
    + cbn [length] in IE. rewrite Nat.add_0_r in IE. rewrite <- TS2 in IE.
      replace (Z.to_nat (Z.of_nat (length (pre ++ sp) + length part) - 1 + 1 - Z.of_nat (length pre + length sp)))
        with (length part) by (rewrite LPS; lia).
      rewrite LPS in IE |- *. rewrite IE. eexists. split; [reflexivity|].
      exact (choose_first part (par, apo, f) a c0 HI).
  - rewrite R in TS.
    assert (PN : part <> []).
    { destruct NZ as [NZ|(_ & _ & i & NI & LI)]; [exact NZ|]. intros ->. rewrite app_nil_r in TS.
      assert (nth_error sp (i - start) = Some EOLLN) as K.
      { rewrite TS in NI. rewrite nth_error_app2 in NI by lia. rewrite LP in NI. exact NI. }
      apply nth_error_In in K. apply ASP in K. discriminate. }
    assert (SK : skip_spaces (S (length ts)) ts start = Some (length pre + length sp)).
    { rewrite TS at 2. rewrite <- LP at 1. apply skip_spaces_ok; auto. rewrite TS, !app_length. lia. }
    rewrite SK.
    assert (TS2 : ts = (pre ++ sp) ++ part ++ []) by (rewrite TS, app_nil_r, app_assoc; reflexivity).
    assert (LPS : length (pre ++ sp) = length pre + length sp) by apply app_length.
    assert (EI : get_end_index (length ts) ts (length pre + length sp) = (-1)%Z).
    { rewrite <- LPS. rewrite TS2 at 2. rewrite app_nil_r. apply end_index_none; auto. }
    rewrite EI. cbn zeta. cbn [Z.eqb Pos.eqb]. unfold iterate_error_stream.
    assert (LT : length ts = length (pre ++ sp) + length part) by (rewrite TS2 at 1; rewrite !app_length; cbn [length]; lia).
    destruct (iterate_inv (pre ++ sp) part [] (length part) [] (0%Z, 0, no_flags)) as ([[par apo] f] & IE & HI).
    + cbn [length]. lia.
    + exists part. reflexivity.
    + apply inv_start.
    + cbn [length] in IE. rewrite Nat.add_0_r in IE. rewrite <- TS2 in IE. rewrite LT.
      replace (Z.to_nat (Z.of_nat (length (pre ++ sp) + length part) - 1 + 1 - Z.of_nat (length pre + length sp)))
        with (length part) by (rewrite LPS; lia).
      rewrite LPS in IE |- *. rewrite IE. eexists. split; [reflexivity|].
      exact (choose_first part (par, apo, f) a c0 HI).
Qed.

(** ** What has been taken *)

Definition ends_statement (t : tok) : Prop := t = EOLLN \/ t = EOF_.

Lemma consume_until_ok : forall ts c, (exists j t, c <= j /\ nth_error ts j = Some t /\ ends_statement t) ->
  exists i t, consume_until ts c = Some i /\ c <= i /\ nth_error ts i = Some t /\ ends_statement t
  /\ forall j u, c <= j < i -> nth_error ts j = Some u -> ~ ends_statement u.
Proof.
  induction ts as [|x ts IH]; intros c (j & t & L & N & E).
  - destruct j; discriminate.
  - destruct c as [|c].
    + assert (DX : ends_statement x \/ ~ ends_statement x).
      { unfold ends_statement. destruct (tok_eq_dec x EOLLN); [auto|]. destruct (tok_eq_dec x EOF_); [auto|].
        right. intuition. }
      destruct DX as [EX|NX].
      * exists 0, x. split; [cbn; destruct EX as [->| ->]; reflexivity|].
        split; [lia|]. split; [reflexivity|]. split; [exact EX|]. intros k u K. lia.
      * assert (j <> 0) by (intros ->; cbn in N; injection N as ->; contradiction).
        destruct j as [|j]; [contradiction|]. cbn in N.
        destruct (IH 0) as (i & y & C & LI & NI & EI & B); [exists j, t; repeat split; auto; lia|].
        exists (S i), y. split.
        { cbn [consume_until]. rewrite C. unfold ends_statement in NX. destruct x; try reflexivity; exfalso; apply NX; auto. }
        split; [lia|]. split; [exact NI|]. split; [exact EI|].
        intros k u K NU. destruct k as [|k]; [cbn in NU; injection NU as <-; exact NX|].
        apply (B k u); [lia|exact NU].
    + destruct j as [|j]; [lia|]. cbn in N.
      destruct (IH c) as (i & y & C & LI & NI & EI & B); [exists j, t; repeat split; auto; lia|].
      exists (S i), y. split; [cbn [consume_until]; rewrite C; reflexivity|].
      split; [lia|]. split; [exact NI|]. split; [exact EI|].
      intros k u K NU. destruct k as [|k]; [lia|]. apply (B k u); [lia|exact NU].
Qed.

Lemma part_fetched : forall body start part c i t n,
  part_of (body ++ [EOF_]) start part -> ~ In EOF_ body -> start <= c -> c <= i ->
  nth_error (body ++ [EOF_]) i = Some t -> ends_statement t ->
  (forall j u, c <= j < i -> nth_error (body ++ [EOF_]) j = Some u -> ~ ends_statement u) ->
  i < n ->
  part_of (firstn n (body ++ [EOF_])) start part.
Proof.
  intros body start part c i t n (sp & A & NS & NE & R) NB SC CI NI EI B LN.
  exists sp. split; [exact A|]. split; [exact NS|]. split; [exact NE|].
  set (ts := body ++ [EOF_]) in *.
  assert (TS : ts = firstn start ts ++ skipn start ts) by (symmetry; apply firstn_skipn).
  assert (IL : i < length ts) by (apply nth_error_Some; rewrite NI; discriminate).
  assert (LP : length (firstn start ts) = start) by (rewrite firstn_length; lia).
  assert (SF : skipn start (firstn n ts) = firstn (n - start) (skipn start ts)) by apply skipn_firstn_comm.
  assert (EOFI : forall k, nth_error ts k = Some EOF_ -> k = length body).
  { intros k K. destruct (Nat.lt_ge_cases k (length body)) as [LT|GE].
    - exfalso. apply NB. unfold ts in K. rewrite nth_error_app1 in K by exact LT. exact (nth_error_In _ _ K).
    - assert (k < length ts) as KL by (apply nth_error_Some; rewrite K; discriminate).
      unfold ts in KL. rewrite app_length in KL. cbn [length] in KL. lia. }
  assert (LTS : length ts = S (length body)) by (unfold ts; rewrite app_length; cbn [length]; lia).
  destruct R as [[r R]|R].
  - left. set (e := start + length sp + length part).
    assert (NEE : nth_error ts e = Some EOLLN).
    { rewrite TS. rewrite nth_error_app2 by (unfold e; lia). rewrite LP, R.
      replace (e - start) with (length sp + length part) by (unfold e; lia).
      rewrite app_assoc. rewrite nth_error_app2 by (rewrite app_length; lia).
      rewrite app_length, Nat.sub_diag. reflexivity. }
    assert (EL : e < n).
    { destruct (Nat.lt_ge_cases e n) as [K|K]; [exact K|]. exfalso.
      assert (i < e) by lia.
      (* i ends a statement before e *)
      destruct EI as [->| ->].
      - assert (II : i - start < length sp + length part) by (unfold e in *; lia).
        assert (nth_error (sp ++ part) (i - start) = Some EOLLN) as K2.
        { rewrite TS in NI. rewrite nth_error_app2 in NI by lia. rewrite LP, R in NI.
          rewrite app_assoc in NI. rewrite nth_error_app1 in NI by (rewrite app_length; lia). exact NI. }
        apply nth_error_In in K2. apply in_app_or in K2 as [K2|K2].
        + apply A in K2. discriminate.
        + exact (NE K2).
      - apply EOFI in NI. assert (e < length ts) by (apply nth_error_Some; rewrite NEE; discriminate). lia. }
    exists (firstn (n - start - S (length sp + length part)) r).
    rewrite SF, R. rewrite !app_assoc. rewrite firstn_app.
    rewrite (firstn_all2 (sp ++ part)) by (rewrite app_length; unfold e in EL; lia).
    f_equal. rewrite app_length.
    replace (n - start - (length sp + length part)) with (S (n - start - S (length sp + length part))) by (unfold e in EL; lia).
    reflexivity.
  - right. rewrite SF, R. apply firstn_all2.
    assert (length (sp ++ part) = length ts - start) as LE by (rewrite <- R; apply skipn_length).
    rewrite LE.
    (* the statement ends with the file *)
    destruct EI as [->| ->].
    + exfalso. assert (nth_error (sp ++ part) (i - start) = Some EOLLN) as K2.
      { rewrite TS in NI. rewrite nth_error_app2 in NI by lia. rewrite LP, R in NI. exact NI. }
      apply nth_error_In in K2. apply in_app_or in K2 as [K2|K2].
      * apply A in K2. discriminate.
      * exact (NE K2).
    + apply EOFI in NI. lia.
Qed.
