(** The operands of ORG. *)
From Coq Require Import ZArith Bool Arith List Lia.
From Verif Require Import Sect_Model Sect_Spec Sect_Proof Sect_Run.
Import ListNotations.

Definition two_to (z : Z) : bool := existsb (fun k => Z.eqb z (2 ^ k)) [1; 2; 3; 4; 5; 6; 7; 8; 9; 10; 11; 12]%Z.
Lemma boundary_table : forallb (fun n => Bool.eqb (boundary_ok (Z.of_nat n)) (two_to (Z.of_nat n))) (seq 0 4097) = true.
Proof. vm_compute. reflexivity. Qed.
Lemma boundary_ok_spec z : boundary_ok z = true <-> power_of_two z.
Proof.
  assert (Hin : (0 <= z <= 4096)%Z -> boundary_ok z = two_to z).
  { intros H. pose proof boundary_table as T. rewrite forallb_forall in T. specialize (T (Z.to_nat z)).
    assert (Hs : In (Z.to_nat z) (seq 0 4097)) by (apply in_seq; lia). apply T in Hs. apply Bool.eqb_prop in Hs.
    rewrite Z2Nat.id in Hs by lia. exact Hs. }
  assert (Htwo : two_to z = true <-> power_of_two z).
  { unfold two_to, power_of_two. rewrite existsb_exists. split.
    - intros (k & Hk & E). apply Z.eqb_eq in E. exists k. split; [|exact E]. cbn in Hk. lia.
    - intros (k & Hk & E). exists k. split; [|apply Z.eqb_eq; exact E]. cbn. lia. }
  split; intros H.
  - assert (0 <= z <= 4096)%Z.
    { unfold boundary_ok in H. apply andb_true_iff in H. destruct H as [H _]. apply andb_true_iff in H. destruct H as [H1 H2].
      apply Z.leb_le in H1, H2. lia. }
    apply Htwo. rewrite <- Hin by assumption. exact H.
  - rewrite Hin; [apply Htwo; exact H|]. destruct H as (k & Hk & ->).
    assert (2 ^ k <= 2 ^ 12)%Z by (apply Z.pow_le_mono_r; lia). pose proof (Z.pow_nonneg 2 k). lia.
Qed.

Definition wrong_code (i : nat) : diag := match i with 0 => A245 | 1 => A116 | _ => A115 end.
Definition cut_code (i : nat) : diag := match i with 0 => A245 | _ => A115 end.

Section Org.
  Variable L A : Type.
  Notation st := (st L A).
  Notation operand := (operand L A).
  Implicit Types x : st.

  Lemma abs_value_spec (e : expr A) z : abs_value e = Some z <-> known_abs A e z.
  Proof.
    unfold abs_value, known_abs. destruct (x_pending e) eqn:E.
    - apply pending_spec in E. split; [discriminate|]. intros [H _]. contradiction.
    - apply not_pending in E. destruct (x_val e); split; intros H; try discriminate.
      + destruct H as [_ H]; discriminate.
      + inversion H; subst. auto.
      + destruct H as [_ H]. inversion H. reflexivity.
      + destruct H as [_ H]; discriminate.
  Qed.

  (** Operand [p] when reading starts with operand [i] and covers [k] operands. *)
  Definition op_at (p i k : nat) (l : list operand) : option operand :=
    if (i <=? p) && (p - i <? k) then nth_error l (p - i) else None.
  Definition first_of (o : option operand) x (d : option (expr A)) : option (expr A) :=
    match o with Some (OExpr f) => Some (f x) | _ => d end.
  Definition number_of (o : option operand) x (d z : Z) : Prop :=
    match o with Some (OExpr f) => known_abs A (f x) z | _ => z = d end.
  Definition readable_to (k i : nat) (l : list operand) x : Prop :=
    forall k' o', k' < k -> nth_error l k' = Some o' -> readable L A o' (i + k') x.
  Lemma op_at_S p i k o l : p <> i -> op_at p i (S k) (o :: l) = op_at p (S i) k l.
  Proof.
    intros H. unfold op_at. destruct (Nat.leb_spec i p), (Nat.leb_spec (S i) p); try lia; cbn [andb]; try reflexivity.
    replace (p - i) with (S (p - S i)) by lia. change (S (p - S i) <? S k) with (p - S i <? k). reflexivity.
  Qed.
  Lemma op_at_here i k o l : op_at i i (S k) (o :: l) = Some o.
  Proof. unfold op_at. rewrite Nat.leb_refl, Nat.sub_diag. reflexivity. Qed.
  Lemma op_at_before p i k l : p < i -> op_at p i k l = None.
  Proof. intros H. unfold op_at. destruct (Nat.leb_spec i p); [lia|reflexivity]. Qed.
  Lemma op_at_zero p i l : op_at p i 0 l = None.
  Proof. unfold op_at. rewrite andb_comm. reflexivity. Qed.
  Lemma readable_cons k i o l x : readable L A o i x -> readable_to k (S i) l x -> readable_to (S k) i (o :: l) x.
  Proof.
    intros Ho Hl [|k'] o' Hk Hn.
    - cbn in Hn. inversion Hn; subst. rewrite Nat.add_0_r. exact Ho.
    - cbn in Hn. replace (i + S k') with (S i + k') by lia. apply Hl; [lia|exact Hn].
  Qed.

  Definition loop_spec (i : nat) (l : list operand) x first b o (r : looped A) : Prop :=
    match r with
    | Returned ds => exists k f, nth_error l k = Some (OExpr f) /\ ~ right A (i + k) (f x) /\ readable_to k i l x /\ ds = [wrong_code (i + k)]
    | Left first' b' o' ds => exists k, readable_to k i l x
        /\ ((k = length l /\ ds = []) \/ (nth_error l k = Some ONoExpr /\ ds = [cut_code (i + k)]))
        /\ first' = first_of (op_at 0 i k l) x first /\ number_of (op_at 1 i k l) x b b' /\ number_of (op_at 2 i k l) x o o'
    end.
  Lemma org_loop_spec x : forall l i first b o, loop_spec i l x first b o (org_loop i l x first b o).
  Proof.
    induction l as [|op l IH]; intros i first b o; cbn [org_loop].
    - exists 0. split; [intros k' o' H; lia|]. split; [auto|]. rewrite !op_at_zero. cbn. auto.
    - assert (Hstep : forall first' b' o', readable L A op i x ->
        first' = first_of (if Nat.eqb i 0 then Some op else None) x first ->
        number_of (if Nat.eqb i 1 then Some op else None) x b b' ->
        number_of (if Nat.eqb i 2 then Some op else None) x o o' ->
        loop_spec i (op :: l) x first b o (org_loop (S i) l x first' b' o')).
      { intros first' b' o' Hr Hf Hb Ho. specialize (IH (S i) first' b' o').
        destruct (org_loop (S i) l x first' b' o') as [f2 b2 o2 ds|ds]; cbn [loop_spec] in IH |- *.
        - destruct IH as (k & Hk & Hend & Hf2 & Hb2 & Ho2). exists (S k). split; [apply readable_cons; auto|].
          split. { destruct Hend as [[-> ->]|[Hn ->]]; [left; auto|right]. split; [exact Hn|]. replace (i + S k) with (S i + k) by lia. reflexivity. }
          assert (Hp : forall p, op_at p i (S k) (op :: l) = if Nat.eqb i p then Some op else op_at p (S i) k l).
          { intros p. destruct (Nat.eqb_spec i p); [subst; apply op_at_here|apply op_at_S; auto]. }
          rewrite !Hp. split; [|split].
          + subst f2 first'. destruct (Nat.eqb_spec i 0) as [->|]; [|reflexivity]. rewrite op_at_before by lia. reflexivity.
          + destruct (Nat.eqb_spec i 1) as [->|Hi].
            * rewrite op_at_before in Hb2 by lia. cbn in Hb2. subst b2. exact Hb.
            * cbn in Hb. subst b'. exact Hb2.
          + destruct (Nat.eqb_spec i 2) as [->|Hi].
            * rewrite op_at_before in Ho2 by lia. cbn in Ho2. subst o2. exact Ho.
            * cbn in Ho. subst o'. exact Ho2.
        - destruct IH as (k & f & Hn & Hw & Hk & ->). exists (S k), f. split; [exact Hn|].
          replace (i + S k) with (S i + k) by lia. split; [exact Hw|]. split; [apply readable_cons; auto|reflexivity]. }
      assert (Hwrong : forall f d, op = OExpr f -> ~ right A i (f x) -> d = wrong_code i -> loop_spec i (op :: l) x first b o (Returned [d])).
      { intros f d -> Hn ->. exists 0, f. rewrite Nat.add_0_r. split; [reflexivity|]. split; [exact Hn|]. split; [intros k' o' H; lia|reflexivity]. }
      destruct op as [| |f].
      + apply Hstep; [left; reflexivity|destruct (Nat.eqb i 0); reflexivity|destruct (Nat.eqb i 1); reflexivity|destruct (Nat.eqb i 2); reflexivity].
      + exists 0. split; [intros k' o' H; lia|]. split.
        * right. rewrite Nat.add_0_r. split; [reflexivity|]. destruct i; reflexivity.
        * rewrite !op_at_zero. cbn. auto.
      + destruct i as [|[|[|i]]].
        * destruct (x_unres (f x)) as [u|] eqn:Eu.
          -- apply Hstep; [right; exists f; split; [reflexivity|cbn; congruence]|reflexivity|reflexivity|reflexivity].
          -- apply (Hwrong f); [reflexivity|cbn; congruence|reflexivity].
        * destruct (abs_value (f x)) as [z|] eqn:Ez.
          -- destruct (boundary_ok z) eqn:Eb.
             ++ apply abs_value_spec in Ez. apply boundary_ok_spec in Eb.
                apply Hstep; [right; exists f; split; [reflexivity|cbn; eauto]|reflexivity|exact Ez|reflexivity].
             ++ apply (Hwrong f); [reflexivity| |reflexivity]. intros (z' & Hz & Hp). apply abs_value_spec in Hz.
                assert (z' = z) by congruence. subst z'. apply boundary_ok_spec in Hp. congruence.
          -- apply (Hwrong f); [reflexivity| |reflexivity]. intros (z' & Hz & Hp). apply abs_value_spec in Hz. congruence.
        * destruct (abs_value (f x)) as [z|] eqn:Ez.
          -- apply abs_value_spec in Ez. apply Hstep; [right; exists f; split; [reflexivity|cbn; eauto]|reflexivity|reflexivity|exact Ez].
          -- apply (Hwrong f); [reflexivity| |reflexivity]. intros (z' & Hz). apply abs_value_spec in Hz. congruence.
        * apply Hstep; [right; exists f; split; [reflexivity|exact Logic.I]|reflexivity|reflexivity|reflexivity].
  Qed.

  Lemma op_at_0 p k l : op_at p 0 k l = nth_error (firstn k l) p.
  Proof.
    unfold op_at. cbn [Nat.leb andb]. rewrite Nat.sub_0_r. revert k l. induction p as [|p IH]; intros [|k] [|a l]; cbn; auto.
    - destruct k; [reflexivity|]. destruct (p <=? k); reflexivity.
    - specialize (IH k l). change (S p <? S k) with (p <? k). exact IH.
  Qed.
  Lemma readable_firstn k l x : readable_to k 0 l x <-> all_readable L A (firstn k l) x.
  Proof.
    unfold readable_to, all_readable. split.
    - intros H i o Hi. destruct (Nat.lt_ge_cases i k) as [Hk|Hk].
      + apply (H i o Hk). rewrite <- Hi, <- op_at_0. unfold op_at. cbn [Nat.leb andb]. rewrite Nat.sub_0_r.
        destruct (Nat.ltb_spec i k); [reflexivity|lia].
      + exfalso. assert (nth_error (firstn k l) i = None) by (apply nth_error_None; rewrite firstn_length; lia). congruence.
    - intros H k' o' Hk Hn. cbn [Nat.add]. apply H. rewrite <- op_at_0. unfold op_at. cbn [Nat.leb andb]. rewrite Nat.sub_0_r.
      destruct (Nat.ltb_spec k' k); [exact Hn|lia].
  Qed.

  (** Reading all operands. *)
  Inductive reads (ops : list operand) x : looped A -> Prop :=
  | R_wrong i : wrong_at L A ops x i -> reads ops x (Returned [wrong_code i])
  | R_all b o : all_readable L A ops x -> number L A ops 1 x b -> number L A ops 2 x o ->
      reads ops x (Left (first_of (nth_error ops 0) x None) b o [])
  | R_cut i b o : cut_at L A ops x i -> number L A (firstn i ops) 1 x b -> number L A (firstn i ops) 2 x o ->
      reads ops x (Left (first_of (nth_error (firstn i ops) 0) x None) b o [cut_code i]).
  Lemma number_of_number l i x z : all_readable L A l x -> number_of (nth_error l i) x 0 z -> number L A l i x z.
  Proof.
    intros Hr H. unfold number. destruct (nth_error l i) as [[| |f]|] eqn:E; cbn in H.
    - right. split; [right; reflexivity|exact H].
    - exfalso. destruct (Hr i _ E) as [H'|(f & H' & _)]; discriminate.
    - left. exists f. split; [reflexivity|]. apply H.
    - right. split; [left; reflexivity|exact H].
  Qed.
  Theorem org_loop_reads ops x : reads ops x (org_loop 0 ops x None 0 0).
  Proof.
    pose proof (org_loop_spec x ops 0 None 0%Z 0%Z) as H. destruct (org_loop 0 ops x None 0 0) as [f b o ds|ds]; cbn [loop_spec] in H.
    - destruct H as (k & Hr & Hend & -> & Hb & Ho). rewrite op_at_0 in *. apply readable_firstn in Hr.
      pose proof (number_of_number _ _ _ _ Hr Hb) as Nb. pose proof (number_of_number _ _ _ _ Hr Ho) as No.
      destruct Hend as [[-> ->]|[Hn ->]].
      + rewrite firstn_all in *. apply R_all; assumption.
      + apply R_cut; [split; assumption|assumption|assumption].
    - destruct H as (k & f & Hn & Hw & Hr & ->). apply readable_firstn in Hr. apply R_wrong. exists f. auto.
  Qed.

  (** The three outcomes exclude each other. *)
  Lemma firstn_nth_lt {X} (l : list X) i j a : i < j -> nth_error l i = Some a -> nth_error (firstn j l) i = Some a.
  Proof.
    revert l j. induction i as [|i IH]; intros [|b l] [|j] H Hn; cbn in *; try discriminate; try lia; [exact Hn|].
    apply IH; [lia|exact Hn].
  Qed.
  Lemma wrong_not_readable (f : st -> expr A) i x : ~ right A i (f x) -> ~ readable L A (OExpr f) i x.
  Proof. intros H [E|(g & E & Hg)]; [discriminate|]. inversion E; subst. contradiction. Qed.
  Lemma cut_not_readable i x : ~ readable L A ONoExpr i x.
  Proof. intros [E|(g & E & Hg)]; discriminate. Qed.
  Definition stops (ops : list operand) x i : Prop :=
    (exists o, nth_error ops i = Some o /\ ~ readable L A o i x) /\ all_readable L A (firstn i ops) x.
  Lemma stops_fun ops x i j : stops ops x i -> stops ops x j -> i = j.
  Proof.
    intros [(o & Ho & Hn) Hr] [(o' & Ho' & Hn') Hr']. destruct (Nat.lt_trichotomy i j) as [H|[H|H]]; [|exact H|]; exfalso.
    - apply Hn. apply Hr'. apply firstn_nth_lt; assumption.
    - apply Hn'. apply Hr. apply firstn_nth_lt; assumption.
  Qed.
  Lemma stops_not_all ops x i : stops ops x i -> ~ all_readable L A ops x.
  Proof. intros [(o & Ho & Hn) _] H. apply Hn. apply H. exact Ho. Qed.
  Lemma wrong_stops ops x i : wrong_at L A ops x i -> stops ops x i.
  Proof. intros (f & Hf & Hw & Hr). split; [|exact Hr]. exists (OExpr f). split; [exact Hf|]. apply wrong_not_readable; exact Hw. Qed.
  Lemma cut_stops ops x i : cut_at L A ops x i -> stops ops x i.
  Proof. intros (Hf & Hr). split; [|exact Hr]. exists ONoExpr. split; [exact Hf|]. apply cut_not_readable. Qed.
  Lemma wrong_not_cut ops x i j : wrong_at L A ops x i -> ~ cut_at L A ops x j.
  Proof.
    intros H H'. pose proof (stops_fun _ _ _ _ (wrong_stops _ _ _ H) (cut_stops _ _ _ H')) as <-.
    destruct H as (f & Hf & _), H' as (Hf' & _). congruence.
  Qed.
  Lemma number_fun l i x z z' : number L A l i x z -> number L A l i x z' -> z = z'.
  Proof.
    intros [(f & H1 & H2)|[H1 ->]] [(g & G1 & G2)|[G1 ->]]; try reflexivity.
    - congruence.
    - destruct G1 as [G1|G1]; congruence.
    - destruct H1 as [H1|H1]; congruence.
  Qed.
  Theorem loop_wrong ops x i : wrong_at L A ops x i -> org_loop 0 ops x None 0 0 = Returned [wrong_code i].
  Proof.
    intros H. destruct (org_loop_reads ops x) as [j Hj|b o Ha _ _|j b o Hj _ _].
    - rewrite (stops_fun _ _ _ _ (wrong_stops _ _ _ H) (wrong_stops _ _ _ Hj)). reflexivity.
    - destruct (stops_not_all _ _ _ (wrong_stops _ _ _ H) Ha).
    - destruct (wrong_not_cut _ _ _ _ H Hj).
  Qed.
  Theorem loop_all ops x b o : all_readable L A ops x -> number L A ops 1 x b -> number L A ops 2 x o ->
    org_loop 0 ops x None 0 0 = Left (first_of (nth_error ops 0) x None) b o [].
  Proof.
    intros H Hb Ho. destruct (org_loop_reads ops x) as [j Hj|b' o' Ha Hb' Ho'|j b' o' Hj _ _].
    - destruct (stops_not_all _ _ _ (wrong_stops _ _ _ Hj) H).
    - rewrite (number_fun _ _ _ _ _ Hb Hb'), (number_fun _ _ _ _ _ Ho Ho'). reflexivity.
    - destruct (stops_not_all _ _ _ (cut_stops _ _ _ Hj) H).
  Qed.
  (** A statement cut short reads as the one with the operands in front of the cut. *)
  Theorem loop_cut ops x i : cut_at L A ops x i ->
    exists f b o, org_loop 0 (firstn i ops) x None 0 0 = Left f b o [] /\ org_loop 0 ops x None 0 0 = Left f b o [cut_code i].
  Proof.
    intros H. destruct (org_loop_reads ops x) as [j Hj|b' o' Ha Hb' Ho'|j b' o' Hj Hb Ho].
    - destruct (wrong_not_cut _ _ _ _ Hj H).
    - destruct (stops_not_all _ _ _ (cut_stops _ _ _ H) Ha).
    - pose proof (stops_fun _ _ _ _ (cut_stops _ _ _ H) (cut_stops _ _ _ Hj)) as <-.
      exists (first_of (nth_error (firstn i ops) 0) x None), b', o'. split; [|reflexivity].
      apply loop_all; [apply Hj|exact Hb|exact Ho].
  Qed.
End Org.
