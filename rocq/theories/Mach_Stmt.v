(** Checking of whole statements. *)
From Coq Require Import ZArith Bool Arith String List Lia ZifyBool ZifyNat Permutation.
From Verif Require Import Mach_Model Mach_Spec Mach_Proof.
Import ListNotations.
Local Open Scope Z_scope.

Lemma expected_is : forall f c, simple_expected f = D c -> expected (p_type (f_id f)) = Some c.
Proof. intros f c. unfold simple_expected, expected. destruct (p_type (f_id f)); intros E; congruence. Qed.
Lemma plain_types : forall f, sane f -> plain f ->
  p_signed (f_id f) = true /\ In (p_type (f_id f)) [IMM; REG_IMM] \/
  p_signed (f_id f) = false /\ In (p_type (f_id f)) [REG; MASK; IMM; VEC_REG].
Proof. intros f HS [A B]. destruct HS as (_ & [[_ H]|(_ & N & _)]); [exact H|tauto]. Qed.
Lemma simple_expected_reports : forall f o, sane f -> plain f -> (parenthesised o \/ o = WExpr Other) ->
  reports f o (simple_expected f).
Proof.
  intros f o HS P O. pose proof (plain_types f HS P) as T.
  assert (exists c, simple_expected f = D c) as (c & E).
  { unfold simple_expected. cbn [In] in T. destruct (p_type (f_id f)); eauto;
      destruct T as [[_ T]|[_ T]]; repeat destruct T as [T|T]; try discriminate T; destruct T. }
  rewrite E. apply rep_plain; auto. now apply expected_is.
Qed.

Lemma first_fault_reports : forall f d x b e, sane f -> ~ absent (f_first f) ->
  first_fault f (abs_or_0 x) = Some e -> reports f (WBoth d x b) e.
Proof.
  intros f d x b e HS N E. destruct (first_facts f HS N) as (S1 & G & T).
  assert (B : bad (in_first (f_first f)) x).
  { apply not_in_bad.
    - apply (first_fault_none f HS); auto. now apply first_fault_zero.
    - rewrite <- (first_fault_none f HS) by exact N. congruence. }
  unfold first_fault in E. rewrite shift1 in E by lia.
  assert (X : exists c, e = DRange c 0 (if op_type_eqb (p_type (f_first f)) LENGTH then 2 ^ p_size (f_first f)
                    else 2 ^ p_size (f_first f) - 1) /\
    ((p_type (f_first f), c) = (LENGTH, 132) \/ (p_type (f_first f), c) = (DIS_REG, 135) \/
    (p_type (f_first f), c) = (REG, 133) \/ (p_type (f_first f), c) = (VEC_REG, 134))).
  { cbn [In] in T. destruct T as [T|[T|[T|[T|[]]]]]; rewrite <- T in *; cbn [op_type_eqb andb negb first_error] in E;
      match type of E with (if ?t then _ else _) = _ => destruct t end; inversion E; eauto 8.
    }
  destruct X as (c & -> & Q). eapply rep_first; eauto.
Qed.

Lemma check_op_some : forall f o e, sane f -> check_op f (get_value o (Some (p_type (f_id f)))) = Some e -> reports f o e.
Proof.
  intros f o e HS. pose proof (id_size f HS) as H0.
  assert (Displ : forall v, displ o = v -> ~ plain f -> corresponds (abs_or_0 v) (f_id f) = false ->
    reports f o (displacement_error (f_id f))).
  { intros v Ev P C. rewrite displacement_error_is by exact H0.
    destruct v as [z|]; cbn [abs_or_0] in C; [|rewrite (proj2 (corresponds_iff 0 _ H0)) in C by (now apply zero_in_field); discriminate C].
    apply (corresponds_false _ _ H0) in C. rewrite in_field_bounds in C.
    eapply rep_displ; eauto. now destruct (bounds (f_id f)). }
  assert (Base : forall v, base_of f o v -> ~ plain f -> corresponds (abs_or_0 v) (f_second f) = false -> reports f o (D 131)).
  { intros v B P C. pose proof (second_size f HS P) as H1. apply (corresponds_false _ _ H1) in C.
    eapply rep_base; eauto. apply not_in_bad; [now apply zero_in_field|exact C]. }
  destruct o as [|[z|]|d b|d x b|d b|d x]; cbn [get_value check_op].
  - intros E. inversion E. now apply rep_missing.
  - unfold check_one. destruct (is_simple f) eqn:P; cbn [negb].
    + apply is_simple_iff in P. pose proof (plain_types f HS P) as T. cbn [In] in T.
      pose proof (corresponds_false z _ H0) as C. unfold corresponds in C.
      destruct (p_signed (f_id f)) eqn:G; cbn [andb negb] in *.
      * destruct (size_signed z (p_size (f_id f))); cbn [negb]; [discriminate|].
        pose proof (proj1 C eq_refl) as NF. pose proof NF as NB. rewrite in_field_bounds in NB.
        destruct T as [[_ T]|[T _]]; [|discriminate T]. rewrite shift1 by lia.
        unfold bounds in NB. rewrite G in NB. cbn [fst snd] in NB.
        destruct T as [T|[T|[]]]; rewrite <- T; intros E; inversion E;
          [eapply rep_imm|eapply rep_rel]; eauto; unfold bounds; rewrite G; reflexivity.
      * destruct (size_unsigned z (p_size (f_id f))); cbn [negb]; [discriminate|].
        pose proof (proj1 C eq_refl) as NF. pose proof NF as NB. rewrite in_field_bounds in NB.
        destruct T as [[T _]|[_ T]]; [discriminate T|]. rewrite shift1 by lia.
        unfold bounds in NB. rewrite G in NB. cbn [fst snd] in NB.
        destruct T as [T|[T|[T|[T|[]]]]]; rewrite <- T; intros E; inversion E;
          [eapply rep_reg|eapply rep_mask|eapply rep_imm|eapply rep_vec]; eauto.
        unfold bounds; rewrite G; reflexivity.
    + apply is_simple_false in P. destruct (corresponds z (f_id f)) eqn:C; cbn [negb]; [discriminate|].
      intros E. inversion E. apply (Displ (Abs z)); auto.
  - destruct (is_simple f) eqn:P.
    + pose proof (proj1 (is_simple_iff f) P) as P'.
      assert (A : check_address f 0 0 0 ONE_OP = Some (simple_expected f)) by (rewrite check_address_open, P; reflexivity).
      assert (B : check_one f 0 = None) by (apply check_one_none; [exact HS|now apply zero_in_field]).
      destruct (p_type (f_id f)); cbn [check_op]; rewrite ?A, ?B; try discriminate;
        intros E; inversion E; apply simple_expected_reports; auto.
    + pose proof (proj1 (is_simple_false f) P) as P'.
      intros E. assert (X : fits f (WExpr Other) \/ slips f (WExpr Other)) by (left; now apply fits_symbol).
      apply (check_op_none f HS) in X. unfold hint_is in X. cbn [get_value] in X. congruence.
  - rewrite check_address_open. destruct (is_simple f) eqn:P.
    + apply is_simple_iff in P. intros E. inversion E. apply simple_expected_reports; cbn; auto.
    + apply is_simple_false in P. destruct (corresponds (abs_or_0 d) (f_id f)) eqn:C; cbn [negb].
      * destruct (is_empty (f_first f)) eqn:Z0.
        { apply is_empty_iff in Z0. destruct (corresponds (abs_or_0 b) (f_second f)) eqn:C2; cbn [negb]; [discriminate|].
          intros E. inversion E. apply (Base b); auto. right. right. cbn. auto. }
        { apply is_empty_false in Z0. rewrite first_fault_zero by assumption. discriminate. }
      * intros E. inversion E. apply (Displ d); auto.
  - rewrite check_address_open. destruct (is_simple f) eqn:P.
    + apply is_simple_iff in P. intros E. inversion E. apply simple_expected_reports; cbn; auto.
    + apply is_simple_false in P. destruct (corresponds (abs_or_0 d) (f_id f)) eqn:C; cbn [negb].
      * destruct (is_empty (f_first f)) eqn:Z0.
        { apply is_empty_iff in Z0. intros E. inversion E. apply rep_no_index; cbn; auto; discriminate. }
        { apply is_empty_false in Z0. destruct (corresponds (abs_or_0 b) (f_second f)) eqn:C2; cbn [negb].
          - now apply first_fault_reports.
          - intros E. inversion E. apply (Base b); auto. right. left. exists x. reflexivity. }
      * intros E. inversion E. apply (Displ d); auto.
  - rewrite check_address_open. destruct (is_simple f) eqn:P.
    + apply is_simple_iff in P. intros E. inversion E. apply simple_expected_reports; cbn; auto.
    + apply is_simple_false in P. destruct (corresponds (abs_or_0 d) (f_id f)) eqn:C; cbn [negb].
      * destruct (is_empty (f_first f)) eqn:Z0.
        { apply is_empty_iff in Z0. intros E. inversion E. apply rep_no_index; cbn; auto; discriminate. }
        { destruct (corresponds (abs_or_0 b) (f_second f)) eqn:C2; cbn [negb]; [discriminate|].
          intros E. inversion E. apply (Base b); auto. now left. }
      * intros E. inversion E. apply (Displ d); auto.
  - rewrite check_address_open. destruct (is_simple f) eqn:P.
    + apply is_simple_iff in P. intros E. inversion E. apply simple_expected_reports; cbn; auto.
    + apply is_simple_false in P. intros E. inversion E. eapply rep_no_base; eauto.
Qed.

(** The values given to the check, with the hint of their place. *)
Fixpoint values (i : instr) (os : list wop) (k : nat) : list cop :=
  match os with
  | [] => []
  | o :: os' => get_value o (match nth_error (i_ops i) k with Some f => Some (p_type (f_id f)) | None => None end)
                :: values i os' (S k)
  end.
Lemma values_length : forall i os k, length (values i os k) = length os.
Proof. intros i os. induction os as [|o os IH]; intros k; [reflexivity|]. cbn. now rewrite IH. Qed.

Lemma check_ops_faults : forall i os k fs, Forall sane fs -> skipn k (i_ops i) = fs -> (length os <= length fs)%nat ->
  exists ds, check_ops fs (map Some (values i os k)) k = Some ds /\ faults fs os k ds /\ (ds = [] <-> all_accepted fs os).
Proof.
  intros i os. induction os as [|o os IH]; intros k fs HF E L; cbn [values map check_ops].
  - exists []. split; [now destruct fs|]. split; [constructor|]. destruct fs; cbn; tauto.
  - destruct fs as [|f fs]; [cbn in L; lia|]. cbn [length] in L. cbn [check_ops].
    assert (NE : nth_error (i_ops i) k = Some f).
    { revert E. generalize (i_ops i). clear. intros l. revert l. induction k as [|k IH]; intros [|g l] E; cbn in *; try discriminate.
      - now inversion E.
      - now apply IH. }
    assert (SE : skipn (S k) (i_ops i) = fs).
    { revert E. generalize (i_ops i). clear. intros l. revert l. induction k as [|k IH]; intros [|g l] E; cbn in *; try discriminate.
      - now inversion E.
      - now apply IH. }
    pose proof (Forall_inv HF) as HS. pose proof (Forall_inv_tail HF) as HF'. destruct (IH (S k) _ HF' SE ltac:(lia)) as (ds & -> & F & N).
    rewrite NE. cbn [all_accepted]. pose proof (check_op_none f HS o) as A. unfold hint_is in A.
    destruct (check_op f (get_value o (Some (p_type (f_id f))))) as [e|] eqn:C.
    + exists ((e, Some k) :: ds). split; [reflexivity|].
      assert (NA : ~ accepted f o) by (intros X; apply A in X; discriminate X).
      split; [apply faults_bad; auto; now apply check_op_some|]. split; [discriminate|tauto].
    + exists ds. split; [reflexivity|]. assert (AA : accepted f o) by (now apply A).
      split; [now apply faults_ok|]. tauto.
Qed.

Lemma check_instr_spec : forall i os, Forall sane (i_ops i) -> right_number i (length os) ->
  exists ds, check_instr i (map Some (values i os 0)) = Checked (match ds with [] => true | _ => false end) ds /\
    faults (i_ops i) os 0 ds /\ (ds = [] <-> all_accepted (i_ops i) os).
Proof.
  intros i os HF [R1 R2]. unfold check_instr. rewrite map_length, values_length.
  replace ((Z.of_nat (length (i_ops i)) - Z.of_nat (length os) >? Z.of_nat (i_optional i)) ||
           (Z.of_nat (length (i_ops i)) - Z.of_nat (length os) <? 0)) with false by lia.
  destruct (check_ops_faults i os 0 (i_ops i) HF eq_refl R1) as (ds & -> & F & N). exists ds. auto.
Qed.
Lemma check_instr_wrong : forall i v, ~ right_number i (length v) ->
  check_instr i v = Checked false [(wrong_number (Z.of_nat (i_optional i)) (Z.of_nat (length (i_ops i))), None)].
Proof.
  intros i v N. unfold check_instr, right_number in *.
  replace ((Z.of_nat (length (i_ops i)) - Z.of_nat (length v) >? Z.of_nat (i_optional i)) ||
           (Z.of_nat (length (i_ops i)) - Z.of_nat (length v) <? 0)) with true by lia.
  reflexivity.
Qed.

(** * Instructions *)
Lemma op_value : forall i o k, settled o ->
  (if is_wempty o then Some Nothing else get_check_op i o k) =
  Some (get_value (o_what o) (match nth_error (i_ops i) k with Some f => Some (p_type (f_id f)) | None => None end)).
Proof.
  intros i [p w] k [E|E]; cbn in E; subst; unfold is_wempty, get_check_op; cbn [o_what o_pending]; [|reflexivity].
  now destruct w.
Qed.
Lemma op_pending : forall i o k, ~ settled o -> (if is_wempty o then Some Nothing else get_check_op i o k) = None.
Proof.
  intros i [[|] w] k N; unfold is_wempty, get_check_op; cbn [o_what o_pending].
  - destruct w; try reflexivity. exfalso. apply N. now right.
  - exfalso. apply N. now left.
Qed.
Lemma resolved_or : forall os, resolved os \/ exists a o b, os = a ++ o :: b /\ resolved a /\ ~ settled o.
Proof.
  intros os. induction os as [|o os IH]; [left; constructor|].
  assert (D : settled o \/ ~ settled o).
  { destruct o as [[|] w]; [|left; now left]. destruct w; try (left; now right);
      right; intros [X|X]; discriminate X. }
  destruct D as [D|D]; [|right; exists [], o, os; repeat split; auto; constructor].
  destruct IH as [R|(a & x & b & -> & R & N)]; [left; now constructor|].
  right. exists (o :: a), x, b. split; [reflexivity|]. split; [now constructor|exact N].
Qed.
Lemma transform_default_ok : forall i os k, resolved os ->
  transform_default i os k = inl (map Some (values i (map o_what os) k)).
Proof.
  intros i os. induction os as [|o os IH]; intros k R; [reflexivity|]. inversion R as [|? ? E R']; subst.
  cbn [transform_default map values]. rewrite op_value by exact E. now rewrite IH.
Qed.
Lemma transform_default_pending : forall i a o b k, resolved a -> ~ settled o ->
  transform_default i (a ++ o :: b) k = inr (k + length a)%nat.
Proof.
  intros i a. induction a as [|x a IH]; intros o b k R P.
  - cbn [app transform_default]. rewrite op_pending by exact P. cbn. f_equal. lia.
  - inversion R as [|? ? E R']; subst. cbn [app transform_default]. rewrite op_value by exact E. rewrite IH by assumption.
    cbn [length]. f_equal. lia.
Qed.

(** * Extended mnemonics *)
Fixpoint at_place (rs : list (nat * Z)) (p : nat) : option Z :=
  match rs with [] => None | (q, v) :: rs' => if Nat.eqb q p then Some v else at_place rs' p end.
Definition slot (rs : list (nat * Z)) (p : nat) : option cop := option_map One (at_place rs p).
Definition slots rs j n := map (slot rs) (seq j n).

Lemma at_place_in : forall rs p v, at_place rs p = Some v -> In (p, v) rs.
Proof.
  intros rs p v. induction rs as [|[q w] rs IH]; cbn; [discriminate|].
  destruct (Nat.eqb q p) eqn:E; [|auto]. apply Nat.eqb_eq in E. intros X. inversion X. subst. now left.
Qed.
Lemma at_place_of : forall rs p v, NoDup (map fst rs) -> In (p, v) rs -> at_place rs p = Some v.
Proof.
  intros rs p v. induction rs as [|[q w] rs IH]; cbn; intros N H; [destruct H|].
  inversion N as [|? ? N1 N2]; subst. destruct H as [H|H].
  - inversion H. subst. now rewrite Nat.eqb_refl.
  - destruct (Nat.eqb q p) eqn:E; [|auto]. apply Nat.eqb_eq in E. subst. exfalso. apply N1.
    apply in_map_iff. now exists (p, v).
Qed.
Lemma at_place_none : forall rs p, at_place rs p = None <-> existsb (Nat.eqb p) (map fst rs) = false.
Proof.
  intros rs p. induction rs as [|[q w] rs IH]; cbn; [tauto|]. rewrite (Nat.eqb_sym p q).
  destruct (Nat.eqb q p); cbn; [split; discriminate|exact IH].
Qed.

Lemma set_nth_spec : forall l p c, (p < length l)%nat -> exists l', set_nth l p c = Some l' /\ length l' = length l /\
  forall q, nth_error l' q = if Nat.eqb p q then Some (Some c) else nth_error l q.
Proof.
  intros l. induction l as [|x l IH]; intros p c H; [cbn in H; lia|]. destruct p as [|p]; cbn [set_nth].
  - eexists. split; [reflexivity|]. split; [reflexivity|]. intros [|q]; reflexivity.
  - destruct (IH p c ltac:(cbn in H; lia)) as (l' & -> & L & N). eexists. split; [reflexivity|].
    split; [cbn; lia|]. intros [|q]; cbn; [reflexivity|]. apply N.
Qed.
Lemma substitute_spec : forall rs l, NoDup (map fst rs) -> Forall (fun r => (fst r < length l)%nat) rs ->
  exists l', substitute l rs = Some l' /\ length l' = length l /\
    forall q, (q < length l)%nat -> nth_error l' q = match at_place rs q with Some v => Some (Some (One v)) | None => nth_error l q end.
Proof.
  intros rs. induction rs as [|[p v] rs IH]; intros l N HF; cbn [substitute].
  - exists l. auto.
  - inversion N as [|? ? N1 N2]; subst. inversion HF as [|? ? H1 H2]; subst. cbn [fst] in *.
    destruct (set_nth_spec l p (One v) H1) as (l1 & -> & L1 & E1).
    destruct (IH l1 N2) as (l2 & E2 & L2 & Q2); [now rewrite L1|]. exists l2. split; [exact E2|]. split; [congruence|].
    intros q Hq. rewrite Q2 by lia. cbn [at_place]. rewrite E1.
    destruct (Nat.eqb p q) eqn:E; [|reflexivity]. apply Nat.eqb_eq in E. subst q.
    destruct (at_place rs p) eqn:A; [|reflexivity]. exfalso. apply N1. apply in_map_iff. exists (p, z). split; [reflexivity|].
    now apply at_place_in.
Qed.
Lemma nth_error_ext : forall {A} (l l' : list A), (forall n, nth_error l n = nth_error l' n) -> l = l'.
Proof.
  intros A l. induction l as [|x l IH]; intros [|y l'] H; try reflexivity.
  - specialize (H 0%nat). discriminate H.
  - specialize (H 0%nat). discriminate H.
  - pose proof (H 0%nat) as E. cbn in E. inversion E. f_equal. apply IH. intros n. exact (H (S n)).
Qed.
Lemma nth_error_seq_map : forall {A} (g : nat -> A) n j q, (q < n)%nat -> nth_error (map g (seq j n)) q = Some (g (j + q)%nat).
Proof.
  intros A g n. induction n as [|n IH]; intros j q H; [lia|]. destruct q as [|q]; cbn; [f_equal; f_equal; lia|].
  rewrite IH by lia. f_equal. f_equal. lia.
Qed.
Lemma nth_error_repeat_lt : forall {A} (x : A) n q, (q < n)%nat -> nth_error (repeat x n) q = Some x.
Proof. intros A x n. induction n as [|n IH]; intros q H; [lia|]. destruct q; cbn; [reflexivity|]. apply IH. lia. Qed.
Lemma substitute_slots : forall rs n, NoDup (map fst rs) -> Forall (fun r => (fst r < n)%nat) rs ->
  substitute (repeat None n) rs = Some (slots rs 0 n).
Proof.
  intros rs n N HF. destruct (substitute_spec rs (repeat None n) N) as (l & E & L & Q); [now rewrite repeat_length|].
  rewrite E. f_equal. rewrite repeat_length in *. apply nth_error_ext. intros q.
  destruct (Nat.lt_ge_cases q n) as [H|H].
  - rewrite Q by exact H. unfold slots. rewrite nth_error_seq_map by exact H. rewrite nth_error_repeat_lt by exact H.
    unfold slot. cbn. now destruct (at_place rs q).
  - rewrite (proj2 (nth_error_None _ _)) by lia. symmetry. apply nth_error_None. unfold slots.
    rewrite map_length, seq_length. exact H.
Qed.

Fixpoint whole (rs : list (nat * Z)) (j n : nat) (os : list wop) : list wop :=
  match n with
  | O => []
  | S n' => match at_place rs j with
            | Some v => WExpr (Abs v) :: whole rs (S j) n' os
            | None => match os with [] => [] | o :: os' => o :: whole rs (S j) n' os' end
            end
  end.
Definition free rs j n : nat := length (filter (fun p => match at_place rs p with None => true | _ => false end) (seq j n)).
Lemma free_S : forall rs j n, free rs j (S n) = ((match at_place rs j with None => 1 | _ => 0 end) + free rs (S j) n)%nat.
Proof. intros rs j n. unfold free. cbn. now destruct (at_place rs j). Qed.
Lemma fill_whole : forall i rs n j k os, resolved os -> length os = free rs j n ->
  fill i (slots rs j n) os j k = inl (map Some (values i (whole rs j n (map o_what os)) j)).
Proof.
  intros i rs n. induction n as [|n IH]; intros j k os R L; [reflexivity|].
  rewrite free_S in L. unfold slots. cbn [seq map fill whole]. fold (slots rs (S j) n). unfold slot at 1.
  destruct (at_place rs j) as [v|]; cbn [option_map].
  - rewrite IH by assumption. reflexivity.
  - destruct os as [|o os]; [cbn in L; lia|]. inversion R as [|? ? E R']; subst.
    cbn [map]. rewrite op_value by exact E. rewrite IH by (cbn in L; auto; lia). reflexivity.
Qed.
Lemma fill_pending : forall i rs n j k a o b, resolved a -> ~ settled o -> (length a < free rs j n)%nat ->
  fill i (slots rs j n) (a ++ o :: b) j k = inr (k + length a)%nat.
Proof.
  intros i rs n. induction n as [|n IH]; intros j k a o b R N L; [cbn in L; lia|].
  rewrite free_S in L. unfold slots. cbn [seq map fill]. fold (slots rs (S j) n). unfold slot at 1.
  destruct (at_place rs j) as [v|]; cbn [option_map].
  - now rewrite IH.
  - destruct a as [|x a]; cbn [app].
    + rewrite op_pending by exact N. cbn. f_equal. lia.
    + inversion R as [|? ? E R']; subst. rewrite op_value by exact E. rewrite IH by (cbn in L; auto; lia).
      cbn [length]. f_equal. lia.
Qed.
Lemma whole_length : forall rs n j os, length os = free rs j n -> length (whole rs j n os) = n.
Proof.
  intros rs n. induction n as [|n IH]; intros j os L; [reflexivity|]. rewrite free_S in L. cbn [whole].
  destruct (at_place rs j); [cbn; now rewrite IH|]. destruct os as [|o os]; [cbn in L; lia|]. cbn in *. rewrite IH; lia.
Qed.
Lemma whole_others : forall rs n j os, length os = free rs j n -> others (map fst rs) j (whole rs j n os) = os.
Proof.
  intros rs n. induction n as [|n IH]; intros j os L.
  - destruct os; [reflexivity|discriminate L].
  - rewrite free_S in L. cbn [whole]. destruct (at_place rs j) eqn:A.
    + cbn [others]. rewrite IH by exact L. destruct (existsb (Nat.eqb j) (map fst rs)) eqn:E; [reflexivity|].
      apply at_place_none in E. congruence.
    + destruct os as [|o os]; [cbn in L; lia|]. cbn [others]. rewrite IH by (cbn in L; lia).
      now rewrite (proj1 (at_place_none rs j) A).
Qed.
Lemma whole_at : forall rs n j os p v, length os = free rs j n -> at_place rs (j + p) = Some v -> (p < n)%nat ->
  nth_error (whole rs j n os) p = Some (WExpr (Abs v)).
Proof.
  intros rs n. induction n as [|n IH]; intros j os p v L A H; [lia|]. rewrite free_S in L. cbn [whole].
  destruct p as [|p].
  - rewrite Nat.add_0_r in A. rewrite A. reflexivity.
  - replace (j + S p)%nat with (S j + p)%nat in A by lia. destruct (at_place rs j).
    + cbn. apply IH; auto. lia.
    + destruct os as [|o os]; [cbn in L; lia|]. cbn. apply IH; auto; lia.
Qed.
Lemma whole_unique : forall rs n j full os, length full = n ->
  (forall p v, (p < n)%nat -> at_place rs (j + p) = Some v -> nth_error full p = Some (WExpr (Abs v))) ->
  others (map fst rs) j full = os -> full = whole rs j n os /\ length os = free rs j n.
Proof.
  intros rs n. induction n as [|n IH]; intros j full os L H O.
  - destruct full; [|discriminate L]. cbn in O. now subst os.
  - destruct full as [|o full]; [discriminate L|]. cbn [others] in O. cbn in L. rewrite free_S. cbn [whole].
    destruct (at_place rs j) as [v|] eqn:A.
    + assert (E : existsb (Nat.eqb j) (map fst rs) = true).
      { destruct (existsb (Nat.eqb j) (map fst rs)) eqn:E; [reflexivity|]. apply at_place_none in E. congruence. }
      rewrite E in O. cbn [app] in O.
      destruct (IH (S j) full os) as [F1 F2]; auto.
      { intros p w Hp Ap. apply (H (S p) w); [lia|]. now replace (j + S p)%nat with (S j + p)%nat by lia. }
      specialize (H 0%nat v ltac:(lia)). rewrite Nat.add_0_r in H. specialize (H A). cbn in H. inversion H. subst o.
      split; [now f_equal|lia].
    + rewrite (proj1 (at_place_none rs j) A) in O. cbn [app] in O. subst os.
      destruct (IH (S j) full (others (map fst rs) (S j) full)) as [F1 F2]; auto.
      { intros p w Hp Ap. apply (H (S p) w); [lia|]. now replace (j + S p)%nat with (S j + p)%nat by lia. }
      cbn [length]. split; [now f_equal|lia].
Qed.
Lemma filter_split : forall {A} (g : A -> bool) l, (length (filter g l) + length (filter (fun x => negb (g x)) l) = length l)%nat.
Proof. intros A g l. induction l as [|x l IH]; [reflexivity|]. cbn. destruct (g x); cbn; lia. Qed.
Lemma free_all : forall rs n, NoDup (map fst rs) -> Forall (fun r => (fst r < n)%nat) rs -> (free rs 0 n + length rs = n)%nat.
Proof.
  intros rs n N HF. unfold free.
  pose proof (filter_split (fun p => match at_place rs p with None => true | _ => false end) (seq 0 n)) as F.
  rewrite seq_length in F.
  assert (P : Permutation (filter (fun x => negb (match at_place rs x with None => true | _ => false end)) (seq 0 n)) (map fst rs)).
  { apply NoDup_Permutation; [apply NoDup_filter, seq_NoDup|exact N|]. intros p. rewrite filter_In, in_seq, in_map_iff. split.
    - intros [_ H]. destruct (at_place rs p) as [v|] eqn:A; [|discriminate H]. exists (p, v). split; [reflexivity|].
      now apply at_place_in.
    - intros ([q v] & E & H). cbn in E. subst q. rewrite (at_place_of _ _ _ N H). split; [|reflexivity].
      rewrite Forall_forall in HF. specialize (HF _ H). cbn in HF. lia. }
  apply Permutation_length in P. rewrite map_length in P. lia.
Qed.

(** The requirements under which a mnemonic works. *)
Definition good_mnem (m : mnem) (i : instr) : Prop :=
  i_optional i = 0%nat /\ NoDup (map fst (m_replaced m)) /\ Forall (fun r => (fst r < length (i_ops i))%nat) (m_replaced m).

Lemma stands_for_whole : forall m i os full, good_mnem m i -> length full = length (i_ops i) ->
  stands_for m os full <-> (full = whole (m_replaced m) 0 (length (i_ops i)) os /\
    (length os + length (m_replaced m) = length (i_ops i))%nat).
Proof.
  intros m i os full (_ & N & HF) L. pose proof (free_all _ _ N HF) as FA. split.
  - intros [H O]. destruct (whole_unique (m_replaced m) (length (i_ops i)) 0 full os L) as [E1 E2]; auto.
    + intros p v Hp A. apply H. now apply at_place_in.
    + split; [exact E1|lia].
  - intros [E Lo]. split.
    + intros p v H. rewrite E. apply whole_at; [lia|now apply at_place_of|].
      rewrite Forall_forall in HF. apply (HF _ H).
    + rewrite E. apply whole_others. lia.
Qed.
Lemma check_mnemonic_good : forall m i os, Forall sane (i_ops i) -> good_mnem m i -> resolved os ->
  (length os + length (m_replaced m) = length (i_ops i))%nat ->
  exists full ds, length full = length (i_ops i) /\ stands_for m (map o_what os) full /\
    check_mnemonic m i os = Checked (match ds with [] => true | _ => false end) ds /\
    faults (i_ops i) full 0 ds /\ (ds = [] <-> all_accepted (i_ops i) full).
Proof.
  intros m i os HF G R L. pose proof G as (O & N & HB). pose proof (free_all _ _ N HB) as FA.
  set (full := whole (m_replaced m) 0 (length (i_ops i)) (map o_what os)).
  assert (LF : length full = length (i_ops i)) by (apply whole_length; rewrite map_length; lia).
  destruct (check_instr_spec i full HF) as (ds & E & F & A).
  { unfold right_number. lia. }
  exists full, ds. split; [exact LF|]. split; [|split; [|auto]].
  - apply (stands_for_whole m i); auto. rewrite map_length. auto.
  - unfold check_mnemonic. rewrite O, Nat.add_0_r.
    replace (Z.abs (Z.of_nat (length (i_ops i)) - Z.of_nat (length os) - Z.of_nat (length (m_replaced m))) >? Z.of_nat 0)
      with false by lia.
    rewrite substitute_slots by assumption. rewrite fill_whole by (auto; lia). exact E.
Qed.
Lemma check_mnemonic_wrong : forall m i os, i_optional i = 0%nat ->
  (length os + length (m_replaced m) <> length (i_ops i))%nat ->
  check_mnemonic m i os = Checked false
    [(DRange 0 (Z.of_nat (length (i_ops i)) - Z.of_nat (length (m_replaced m)))
               (Z.of_nat (length (i_ops i)) - Z.of_nat (length (m_replaced m))), None)].
Proof.
  intros m i os O L. unfold check_mnemonic. rewrite O.
  replace (Z.abs (Z.of_nat (length (i_ops i)) - Z.of_nat (length os) - Z.of_nat (length (m_replaced m))) >? Z.of_nat 0)
      with true by lia.
  reflexivity.
Qed.

(** A mnemonic of an instruction with optional operands is rejected whatever is written. *)
Lemma set_nth_length : forall l p c l', set_nth l p c = Some l' -> length l' = length l.
Proof.
  intros l. induction l as [|x l IH]; intros [|p] c l' E; cbn in E; try discriminate.
  - now inversion E.
  - destruct (set_nth l p c) eqn:E'; [|discriminate]. inversion E. cbn. f_equal. eapply IH; eassumption.
Qed.
Lemma substitute_length : forall rs l l', substitute l rs = Some l' -> length l' = length l.
Proof.
  intros rs. induction rs as [|[p v] rs IH]; intros l l' E; cbn in E; [now inversion E|].
  destruct (set_nth l p (One v)) eqn:E'; [|discriminate]. apply IH in E. apply set_nth_length in E'. lia.
Qed.
Lemma fill_length : forall i l os j k v, fill i l os j k = inl v -> length v = length l.
Proof.
  intros i l. induction l as [|[c|] l IH]; intros os j k v E; cbn [fill] in E.
  - inversion E. reflexivity.
  - destruct (fill i l os (S j) k) eqn:E'; inversion E. cbn. f_equal. eapply IH; eassumption.
  - destruct os as [|o os]; [inversion E; reflexivity|]. destruct (if is_wempty o then _ else _); [|discriminate].
    destruct (fill i l os (S j) (S k)) eqn:E'; inversion E. cbn. f_equal. eapply IH; eassumption.
Qed.
Lemma check_mnemonic_optional : forall m i os ds, (0 < i_optional i)%nat -> check_mnemonic m i os <> Checked true ds.
Proof.
  intros m i os ds O E. unfold check_mnemonic in E. destruct (Z.abs _ >? _); [discriminate E|].
  destruct (substitute _ _) as [l|] eqn:S1; [|discriminate E]. destruct (fill _ _ _ _ _) as [v|] eqn:F1; [|discriminate E].
  apply substitute_length in S1. apply fill_length in F1. rewrite repeat_length in S1.
  rewrite check_instr_wrong in E; [discriminate E|]. unfold right_number. lia.
Qed.

Lemma check_mnemonic_pending : forall m i a o b, good_mnem m i -> resolved a -> ~ settled o ->
  (length (a ++ o :: b) + length (m_replaced m) = length (i_ops i))%nat ->
  check_mnemonic m i (a ++ o :: b) = Checked false [(E010, Some (length a))].
Proof.
  intros m i a o b (O & N & HB) R P L. pose proof (free_all _ _ N HB) as FA. unfold check_mnemonic.
  rewrite O, Nat.add_0_r.
  replace (Z.abs (Z.of_nat (length (i_ops i)) - Z.of_nat (length (a ++ o :: b)) - Z.of_nat (length (m_replaced m))) >? Z.of_nat 0)
      with false by lia.
  rewrite substitute_slots by assumption. rewrite fill_pending; [reflexivity|assumption|assumption|].
  rewrite app_length in L. cbn [length] in L. lia.
Qed.
Lemma check_mnemonic_optional_safe : forall m i os, (0 < i_optional i)%nat -> NoDup (map fst (m_replaced m)) ->
  Forall (fun r => (fst r < length (i_ops i) + i_optional i)%nat) (m_replaced m) ->
  exists d k, check_mnemonic m i os = Checked false [(d, k)].
Proof.
  intros m i os O N HF. unfold check_mnemonic. destruct (Z.abs _ >? _); [eauto|].
  rewrite substitute_slots by assumption. destruct (fill _ _ _ _ _) as [v|k] eqn:F; [|eauto].
  apply fill_length in F. unfold slots in F. rewrite map_length, seq_length in F.
  rewrite check_instr_wrong; [eauto|]. unfold right_number. lia.
Qed.
