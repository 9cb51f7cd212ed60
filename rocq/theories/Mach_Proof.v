(** Checking of operands: acceptance and diagnostics. *)
From Coq Require Import ZArith Bool Arith String List Lia ZifyBool ZifyNat.
From Verif Require Import Mach_Model Mach_Spec.
Import ListNotations.
Local Open Scope Z_scope.

Lemma op_type_eqb_iff : forall a b, op_type_eqb a b = true <-> a = b.
Proof. intros a b. destruct a, b; cbn; split; congruence. Qed.
Lemma is_empty_iff : forall p, is_empty p = true <-> absent p.
Proof.
  intros [s z t]. unfold is_empty, absent. cbn [p_signed p_size p_type].
  rewrite !andb_true_iff, op_type_eqb_iff, Z.eqb_eq, negb_true_iff. split.
  - intros [[-> ->] ->]. reflexivity.
  - intros H. now inversion H.
Qed.
Lemma is_simple_iff : forall f, is_simple f = true <-> plain f.
Proof. intros f. unfold is_simple, plain. now rewrite andb_true_iff, !is_empty_iff. Qed.
Lemma is_simple_false : forall f, is_simple f = false <-> ~ plain f.
Proof. intros f. rewrite <- is_simple_iff. destruct (is_simple f); split; congruence. Qed.
Lemma is_empty_false : forall p, is_empty p = false <-> ~ absent p.
Proof. intros f. rewrite <- is_empty_iff. destruct (is_empty f); split; congruence. Qed.

Lemma shift1 : forall n, 0 <= n -> Z.shiftl 1 n = 2 ^ n.
Proof. intros n H. rewrite Z.shiftl_mul_pow2 by exact H. lia. Qed.
Lemma corresponds_iff : forall v p, 0 < p_size p -> corresponds v p = true <-> in_field p v.
Proof.
  intros v p H. unfold corresponds, in_field, size_signed, size_unsigned.
  rewrite !shift1 by lia. destruct (p_signed p); cbn [andb negb].
  - destruct ((v <? 2 ^ (p_size p - 1)) && (- 2 ^ (p_size p - 1) <=? v)) eqn:E; lia.
  - destruct ((0 <=? v) && (v <=? 2 ^ p_size p - 1)) eqn:E; lia.
Qed.
Lemma corresponds_false : forall v p, 0 < p_size p -> corresponds v p = false <-> ~ in_field p v.
Proof. intros v p H. rewrite <- corresponds_iff by exact H. destruct (corresponds v p); split; congruence. Qed.
Lemma length_iff : forall v n, 0 <= n -> length_corresponds v n = true <-> 0 <= v <= 2 ^ n.
Proof. intros v n H. unfold length_corresponds. rewrite shift1 by exact H. lia. Qed.
Lemma zero_in_field : forall p, 0 < p_size p -> in_field p 0.
Proof.
  intros p H. unfold in_field. destruct (p_signed p).
  - pose proof (Z.pow_pos_nonneg 2 (p_size p - 1)). lia.
  - pose proof (Z.pow_pos_nonneg 2 (p_size p)). lia.
Qed.
Lemma in_field_bounds : forall p z, in_field p z <-> fst (bounds p) <= z <= snd (bounds p).
Proof. intros p z. unfold in_field, bounds. destruct (p_signed p); cbn [fst snd]; lia. Qed.
Lemma abs_or_0_in : forall (P : Z -> Prop) v, P 0 -> P (abs_or_0 v) <-> val_in P v.
Proof. intros P [z|] H; cbn; tauto. Qed.
Lemma not_in_bad : forall (P : Z -> Prop) v, P 0 -> ~ P (abs_or_0 v) -> bad P v.
Proof. intros P [z|] H N; cbn in *; [exists z; auto | tauto]. Qed.
Lemma displacement_error_is : forall p, 0 < p_size p ->
  displacement_error p = DRange 130 (fst (bounds p)) (snd (bounds p)).
Proof.
  intros p H. unfold displacement_error, bounds. destruct (p_signed p); cbn [fst snd];
    rewrite shift1 by lia; reflexivity.
Qed.

Section Op.
  Variable f : op_format.
  Hypothesis HS : sane f.

  Lemma id_size : 0 < p_size (f_id f).
  Proof. apply HS. Qed.
  Lemma second_size : ~ plain f -> 0 < p_size (f_second f).
  Proof. intros N. destruct HS as (_ & [[P _]|(H & _)]); [tauto|exact H]. Qed.
  Lemma first_facts : ~ absent (f_first f) -> 0 < p_size (f_first f) /\ p_signed (f_first f) = false /\
    In (p_type (f_first f)) [LENGTH; DIS_REG; REG; VEC_REG].
  Proof. intros N. destruct HS as (_ & [[[P _] _]|(_ & _ & [A|(A & B & C)])]); tauto. Qed.
  Lemma not_plain_first : ~ absent (f_first f) -> ~ plain f.
  Proof. intros N [A _]. tauto. Qed.

  Ltac clash := match goal with P : plain f, N : ~ absent (f_first f) |- _ => exfalso; exact (not_plain_first N P) end.

  (** The check of the value in front of the base. *)
  Definition first_fault (x : Z) : option diag :=
    if op_type_eqb (p_type (f_first f)) LENGTH && negb (length_corresponds x (p_size (f_first f))) then
      Some (first_error (p_type (f_first f)) 0 (Z.shiftl 1 (p_size (f_first f))))
    else if negb (op_type_eqb (p_type (f_first f)) LENGTH) && negb (corresponds x (f_first f)) then
      Some (first_error (p_type (f_first f)) 0 (Z.shiftl 1 (p_size (f_first f)) - 1))
    else None.
  Lemma first_fault_none : forall x, ~ absent (f_first f) -> first_fault x = None <-> in_first (f_first f) x.
  Proof.
    intros x N. destruct (first_facts N) as (S1 & G & T). unfold first_fault, in_first.
    pose proof (corresponds_iff x (f_first f) S1) as C. pose proof (length_iff x (p_size (f_first f))) as L.
    destruct (p_type (f_first f)); cbn [op_type_eqb andb negb];
      destruct (length_corresponds x (p_size (f_first f))), (corresponds x (f_first f)); cbn [negb]; split; intros E;
      try discriminate E; try reflexivity; try (apply C; reflexivity); try (apply L; [lia|reflexivity]);
      try (apply C in E; discriminate E); try (apply L in E; [discriminate E|lia]).
  Qed.
  Lemma first_fault_zero : ~ absent (f_first f) -> first_fault 0 = None.
  Proof.
    intros N. apply first_fault_none; [exact N|]. destruct (first_facts N) as (S1 & G & T). unfold in_first.
    pose proof (zero_in_field _ S1). pose proof (Z.pow_pos_nonneg 2 (p_size (f_first f))).
    destruct (p_type (f_first f)); try assumption. lia.
  Qed.

  Lemma check_address_open : forall d a b st, check_address f d a b st =
    (if is_simple f then Some (simple_expected f)
     else match st with
     | SECOND_OMITTED => Some (D 4)
     | _ =>
       if negb (corresponds d (f_id f)) then Some (displacement_error (f_id f))
       else if is_empty (f_first f) then
         match st with
         | ONE_OP => if negb (corresponds b (f_second f)) then Some (D 131) else None
         | _ => Some (D 104)
         end
       else match st with
       | ONE_OP => first_fault a
       | PRESENT => if negb (corresponds b (f_second f)) then Some (D 131) else first_fault a
       | _ => if negb (corresponds b (f_second f)) then Some (D 131) else None
       end
     end).
  Proof.
    intros d a b st. unfold check_address, first_fault. destruct (is_simple f); [reflexivity|].
    destruct st; reflexivity.
  Qed.

  Lemma check_one_none : forall z, check_one f z = None <-> in_field (f_id f) z.
  Proof.
    intros z. pose proof id_size as H. rewrite <- corresponds_iff by exact H. unfold check_one, corresponds.
    destruct (is_simple f) eqn:E; cbn [negb].
    - destruct (p_signed (f_id f)); cbn [andb negb].
      + destruct (size_signed z (p_size (f_id f))); cbn [negb]; [tauto|].
        destruct (p_type (f_id f)); split; discriminate.
      + destruct (size_unsigned z (p_size (f_id f))); cbn [negb]; [tauto|].
        destruct (p_type (f_id f)); split; discriminate.
    - destruct (p_signed (f_id f)); cbn [andb negb];
        destruct (size_signed z (p_size (f_id f))), (size_unsigned z (p_size (f_id f))); cbn [negb]; split; congruence.
  Qed.

  Lemma val_in_displ : forall v, val_in (in_field (f_id f)) v <-> corresponds (abs_or_0 v) (f_id f) = true.
  Proof. intros v. pose proof id_size as H. rewrite corresponds_iff by exact H. symmetry. apply abs_or_0_in. now apply zero_in_field. Qed.
  Lemma val_in_base : forall v, ~ plain f -> val_in (in_field (f_second f)) v <-> corresponds (abs_or_0 v) (f_second f) = true.
  Proof. intros v N. pose proof (second_size N) as H. rewrite corresponds_iff by exact H. symmetry. apply abs_or_0_in. now apply zero_in_field. Qed.
  Lemma val_in_first : forall v, ~ absent (f_first f) -> val_in (in_first (f_first f)) v <-> first_fault (abs_or_0 v) = None.
  Proof.
    intros v N. rewrite first_fault_none by exact N. symmetry. apply abs_or_0_in.
    apply first_fault_none; [exact N|]. now apply first_fault_zero.
  Qed.

  Definition hint_is : option op_type := Some (p_type (f_id f)).

  (** Accepted exactly when it fits or slips through. *)
  Lemma check_op_none : forall o, check_op f (get_value o hint_is) = None <-> fits f o \/ slips f o.
  Proof.
    intros o. pose proof id_size as H0.
    destruct o as [|[z|]|d b|d x b|d b|d x]; cbn [get_value hint_is check_op].
    - split; [discriminate|]. intros [F|(d & x & E & _)]; [inversion F|discriminate E].
    - rewrite check_one_none. split; [intros F; left; now constructor|].
      intros [F|(d & x & E & _)]; [now inversion F|discriminate E].
    - destruct (is_simple f) eqn:E.
      + pose proof (proj1 (is_simple_iff f) E) as P.
        assert (A : check_address f 0 0 0 ONE_OP = Some (simple_expected f)) by (rewrite check_address_open, E; reflexivity).
        assert (B : check_one f 0 = None) by (apply check_one_none; now apply zero_in_field).
        destruct (p_type (f_id f)) eqn:T; cbn [check_op];
          try (rewrite A; split; [discriminate|]; intros [F|(d & x & X & _)]; [inversion F; try congruence; tauto|discriminate X]).
        rewrite B. split; [intros _; left; apply fits_relative; auto|reflexivity].
      + pose proof (proj1 (is_simple_false f) E) as P.
        assert (A : check_address f 0 0 0 ONE_OP = None).
        { rewrite check_address_open, E. rewrite (proj2 (corresponds_iff 0 (f_id f) H0)) by (now apply zero_in_field).
          cbn [negb]. destruct (is_empty (f_first f)) eqn:X.
          - rewrite (proj2 (corresponds_iff 0 (f_second f) (second_size P))) by (apply zero_in_field; now apply second_size).
            reflexivity.
          - apply first_fault_zero. now apply is_empty_false. }
        assert (B : check_one f 0 = None) by (apply check_one_none; now apply zero_in_field).
        destruct (p_type (f_id f)); cbn [check_op]; rewrite ?A, ?B; split; auto; intros _; left; now apply fits_symbol.
    - rewrite check_address_open. destruct (is_simple f) eqn:E.
      + pose proof (proj1 (is_simple_iff f) E) as P. split; [discriminate|].
        intros [F|(d' & x' & X & N & _)]; [inversion F; try tauto; clash|clash].
      + pose proof (proj1 (is_simple_false f) E) as P.
        destruct (corresponds (abs_or_0 d) (f_id f)) eqn:C; cbn [negb].
        * destruct (is_empty (f_first f)) eqn:X.
          { pose proof (proj1 (is_empty_iff _) X) as A. pose proof (val_in_base b P) as V.
            destruct (corresponds (abs_or_0 b) (f_second f)); cbn [negb].
            - split; [intros _; left; apply fits_base; auto; [now apply val_in_displ|now apply V]|reflexivity].
            - split; [discriminate|]. intros [F|(d' & x' & Y & N & _)]; [|tauto].
              inversion F; try tauto. enough (false = true) by discriminate. tauto. }
          { pose proof (proj1 (is_empty_false _) X) as A. rewrite (first_fault_zero A). split; [|reflexivity].
            intros _. pose proof (val_in_first b A) as V.
            destruct (first_fault (abs_or_0 b)).
            - right. exists d, b. split; [reflexivity|]. split; [exact A|]. split; [now apply val_in_displ|].
              intros W. apply V in W. discriminate W.
            - left. apply fits_single; auto; [now apply val_in_displ|now apply V]. }
        * split; [discriminate|].
          assert (N : ~ val_in (in_field (f_id f)) d) by (rewrite val_in_displ; congruence).
          intros [F|(d' & x' & Y & _ & V & _)]; [inversion F; tauto|]. inversion Y; subst. tauto.
    - rewrite check_address_open. destruct (is_simple f) eqn:E.
      + pose proof (proj1 (is_simple_iff f) E) as P. split; [discriminate|].
        intros [F|(d' & x' & X & N & _)]; [inversion F; clash|discriminate X].
      + pose proof (proj1 (is_simple_false f) E) as P.
        destruct (corresponds (abs_or_0 d) (f_id f)) eqn:C; cbn [negb].
        * destruct (is_empty (f_first f)) eqn:X.
          { pose proof (proj1 (is_empty_iff _) X) as A. split; [discriminate|].
            intros [F|(d' & x' & Y & _)]; [inversion F; tauto|discriminate Y]. }
          { pose proof (proj1 (is_empty_false _) X) as A. pose proof (val_in_base b P) as V.
            pose proof (val_in_first x A) as W.
            destruct (corresponds (abs_or_0 b) (f_second f)); cbn [negb].
            - rewrite <- W. split.
              + intros Q. left. apply fits_both; auto; [now apply val_in_displ|now apply V].
              + intros [F|(d' & x' & Y & _)]; [now inversion F|discriminate Y].
            - split; [discriminate|]. intros [F|(d' & x' & Y & _)]; [|discriminate Y].
              inversion F; subst. enough (false = true) by discriminate. tauto. }
        * split; [discriminate|].
          assert (N : ~ val_in (in_field (f_id f)) d) by (rewrite val_in_displ; congruence).
          intros [F|(d' & x' & Y & _)]; [inversion F; tauto|discriminate Y].
    - rewrite check_address_open. destruct (is_simple f) eqn:E.
      + pose proof (proj1 (is_simple_iff f) E) as P. split; [discriminate|].
        intros [F|(d' & x' & X & N & _)]; [inversion F; clash|discriminate X].
      + pose proof (proj1 (is_simple_false f) E) as P.
        destruct (corresponds (abs_or_0 d) (f_id f)) eqn:C; cbn [negb].
        * destruct (is_empty (f_first f)) eqn:X.
          { pose proof (proj1 (is_empty_iff _) X) as A. split; [discriminate|].
            intros [F|(d' & x' & Y & _)]; [inversion F; tauto|discriminate Y]. }
          { pose proof (proj1 (is_empty_false _) X) as A. pose proof (val_in_base b P) as V.
            destruct (corresponds (abs_or_0 b) (f_second f)); cbn [negb].
            - split; [intros _; left; apply fits_second; auto; [now apply val_in_displ|now apply V]|reflexivity].
            - split; [discriminate|]. intros [F|(d' & x' & Y & _)]; [|discriminate Y].
              inversion F; subst. enough (false = true) by discriminate. tauto. }
        * split; [discriminate|].
          assert (N : ~ val_in (in_field (f_id f)) d) by (rewrite val_in_displ; congruence).
          intros [F|(d' & x' & Y & _)]; [inversion F; tauto|discriminate Y].
    - rewrite check_address_open. destruct (is_simple f) eqn:E; (split; [discriminate|]);
        intros [F|(d' & x' & Y & _)]; solve [inversion F|discriminate Y].
  Qed.
End Op.
