(** * C63: storage, labels and encoding of machine instructions. *)
From Coq Require Import ZArith Bool Arith String List Lia.
From Coq Require Import ZifyBool ZifyNat.
From Verif Require Import Loctr_Model Loctr_Spec Org_Proof Loctr_Props.
From Verif Require Import Mach_Model Mach_Table Mach_Spec Mach_Facts Mach_Place.
Import ListNotations.
Local Open Scope Z_scope.

Lemma pow2_2 : pow2 2.
Proof. exists 1. split; [lia|reflexivity]. Qed.
Lemma bytes_cases : forall i, bytes_of i = 2 \/ bytes_of i = 4 \/ bytes_of i = 6.
Proof. intros i. unfold bytes_of. destruct (i_format i); vm_compute; auto. Qed.

(** The number of bytes is that of the format: two, four or six. *)
Theorem C63_lengths : forall i, bytes_of i =
  match i_format i with
  | F_E | F_RR => 2
  | F_I => 2
  | F_IE | F_RI_a | F_RI_b | F_RI_c | F_RRD | F_RRE | F_RRF_a | F_RRF_b | F_RRF_c | F_RRF_d | F_RRF_e
  | F_RS_a | F_RS_b | F_RSI | F_RX_a | F_RX_b | F_S | F_SI => 4
  | _ => 6
  end.
Proof. intros i. unfold bytes_of. destruct (i_format i); vm_compute; reflexivity. Qed.
Print Assumptions C63_lengths.

Lemma runs_snoc : forall p l ch os l1 ch1 o l2, runs p l ch os l1 ch1 -> exec p l1 o l2 ->
  sound_op p l1 o (fst ch1) (snd ch1) -> runs p l ch (os ++ [o]) l2 (spec_step p o ch1).
Proof.
  intros p l ch os l1 ch1 o l2 R X Hs. induction R; cbn [app].
  - eapply RCons; [exact X|exact Hs|constructor].
  - eapply RCons; [eassumption|eassumption|]. now apply IHR.
Qed.
Definition reached (p : lengths) (start : bool) (l : loctr) : Prop :=
  exists os ch, runs p (new_loctr start) (floor_of p start, floor_of p start) os l ch.
Lemma reserve_reached : forall p start l n a l', reached p start l -> exec p l (Reserve n a) l' -> 0 <= n ->
  byte a = 0 -> pow2 (boundary a) ->
  reached p start l' /\ exists s, loc p l <= s < loc p l + boundary a /\ s mod boundary a = 0 /\ loc p l' = s + n.
Proof.
  intros p start l n a l' (os & ch & R) X N B P. split.
  - exists (os ++ [Reserve n a]). eexists. eapply runs_snoc; [exact R|exact X|]. repeat split; assumption.
  - eapply C18_reserved_area; eassumption.
Qed.
Lemma stars_reached : forall p start l ss l0, stars p l ss l0 -> reached p start l ->
  reached p start l0 /\ loc p l0 = loc p l /\ Forall (fun s => loc p s = loc p l) ss.
Proof.
  intros p start l ss l0 H. induction H as [l|l l1 ls l2 X H IH]; intros R; [auto|].
  destruct (reserve_reached _ _ _ _ _ _ R X) as (R1 & s & A & _ & C); [lia|reflexivity|exists 0; split; [lia|reflexivity]|].
  destruct (IH R1) as (R2 & E & F). cbn in A. assert (E1 : loc p l1 = loc p l) by lia.
  split; [exact R2|]. split; [congruence|]. constructor; [exact E1|]. now rewrite <- E1.
Qed.

(** The instruction takes up its bytes from the next even location on; a label denotes that location
    and has the length of the instruction and type I. *)
Theorem C63_storage : forall p start l i ss new lab l',
  reached p start l -> mach_step p l i ss new lab l' ->
  exists s, loc p l <= s <= loc p l + 1 /\ s mod 2 = 0 /\ loc p l' = s + bytes_of i /\
    (new = true -> exists b, lab = Some b /\ loc p (l_at b) = s /\ l_length b = bytes_of i /\ l_type b = "I"%string) /\
    (new = false -> lab = None).
Proof.
  intros p start l i ss new lab l' R H. inversion H as [l0 l1 l2 X0 X1 X2|l0 l2 X0 X]; subst.
  - destruct (stars_reached _ _ _ _ _ X0 R) as (R0 & E0 & _).
    destruct (reserve_reached _ _ _ _ _ _ R0 X1) as (R1 & s & A & B & C); [lia|reflexivity|exact pow2_2|].
    destruct (reserve_reached _ _ _ _ _ _ R1 X2) as (_ & t & D & E & F);
      [destruct (bytes_cases i); lia|reflexivity|exact pow2_2|].
    cbn [byte boundary halfword] in *. exists s.
    assert (t = s).
    { rewrite C, Z.add_0_r in D. destruct (Z.eq_dec t s) as [Y|Y]; [exact Y|].
      assert (t = s + 1) by lia. subst t. rewrite Z.add_mod, B in E by lia. discriminate E. }
    subst t. split; [lia|]. split; [exact B|]. split; [exact F|]. split; [|discriminate].
    intros _. eexists. split; [reflexivity|]. cbn. split; [lia|auto].
  - destruct (stars_reached _ _ _ _ _ X0 R) as (R0 & E0 & _).
    destruct (reserve_reached _ _ _ _ _ _ R0 X) as (_ & s & A & B & C);
      [destruct (bytes_cases i); lia|reflexivity|exact pow2_2|].
    cbn [byte boundary halfword] in *. exists s. split; [lia|]. split; [exact B|]. split; [exact C|].
    split; [discriminate|reflexivity].
Qed.
Print Assumptions C63_storage.

(** The location counter symbol in the operands denotes the location before the alignment: that of the
    instruction exactly when it is even already ... *)
Theorem C63_star : forall p start l i ss new lab l' s,
  reached p start l -> mach_step p l i ss new lab l' -> In s ss ->
  loc p s = loc p l /\ (loc p l' = loc p s + bytes_of i <-> loc p l mod 2 = 0).
Proof.
  intros p start l i ss new lab l' s R H Hs.
  assert (E : loc p s = loc p l).
  { assert (exists l0, stars p l ss l0) as (l0 & X) by (inversion H; eauto).
    destruct (stars_reached _ _ _ _ _ X R) as (_ & _ & F). rewrite Forall_forall in F. now apply F. }
  split; [exact E|]. destruct (C63_storage _ _ _ _ _ _ _ _ R H) as (t & A & B & C & _).
  rewrite E, C. split; intros M.
  - replace (loc p l) with t by lia. exact B.
  - assert (t = loc p l \/ t = loc p l + 1) as [->| ->] by lia; [reflexivity|].
    exfalso. rewrite Z.add_mod, M in B by lia. discriminate B.
Qed.
Print Assumptions C63_star.

(** ... so after one byte a branch relative to the location counter symbol is off by one, and its label,
    which is two, is not what the location counter symbol is, which is one. *)
Theorem C63_star_refuted : forall p i, exists l s b l',
  reached p true l /\ mach_step p l i [s] true (Some b) l' /\ loc p s = 1 /\ loc p (l_at b) = 2.
Proof.
  intros p i. set (l := fst (reserve (new_loctr true) 1 no_align)).
  set (s := fst (reserve l 0 no_align)). set (l1 := fst (reserve s 0 halfword)).
  set (l2 := fst (reserve l1 (bytes_of i) halfword)).
  exists l, s, (mkLabel l1 (bytes_of i) "I"), l2. split; [|split; [|split; reflexivity]].
  - exists [Reserve 1 no_align]. eexists. eapply RCons; [|repeat split; [lia|exists 0; split; [lia|reflexivity]]|constructor].
    eapply XReserve; [reflexivity|discriminate].
  - eapply step_label; [eapply stars_cons; [eapply XReserve; [reflexivity|discriminate]|constructor]| |];
      (eapply XReserve; [reflexivity|discriminate]).
Qed.
Print Assumptions C63_star_refuted.

(** * Encoding *)

(** The operation code and the operands of an instruction fit into its bytes, except for four entries of the
    table ... *)
Definition too_wide : list string := ["XC"; "STFLE"; "CLT"; "CLGT"]%string.
Theorem C63_encodable : forall i, In i instrs -> (~ In (i_name i) too_wide <-> needed_bits i <= 8 * bytes_of i).
Proof.
  assert (H : forallb (fun i => Bool.eqb (negb (existsb (String.eqb (i_name i)) too_wide)) (needed_bits i <=? 8 * bytes_of i)) instrs = true)
    by (vm_compute; reflexivity).
  rewrite forallb_forall in H. intros i Hi. specialize (H i Hi). apply eqb_prop in H.
  rewrite <- Z.leb_le, <- H, negb_true_iff, <- not_true_iff_false. apply not_iff_compat.
  rewrite existsb_exists. split.
  - intros X. exists (i_name i). split; [exact X|apply String.eqb_refl].
  - intros (x & X & E). apply String.eqb_eq in E. congruence.
Qed.
Print Assumptions C63_encodable.
(** ... for which values are accepted that have no encoding: XC 0(1,1),524287(1). *)
Theorem C63_encodable_refuted : (exists i, In i instrs /\ i_name i = "XC"%string /\ 8 * bytes_of i < needed_bits i) /\
  forall name, In name too_wide -> exists i, find_instr instrs name = Some i /\ 8 * bytes_of i < needed_bits i.
Proof.
  split.
  - exists (mkI "XC" F_SS_a [db_12_8x4L_U; db_20_4_S] 0).
    split; [|split; reflexivity]. apply (find_instr_in instrs "XC"). vm_compute. reflexivity.
  - intros name H. cbn in H. repeat (destruct H as [H|H]; [subst; eexists; split; vm_compute; reflexivity|]). contradiction.
Qed.
Print Assumptions C63_encodable_refuted.

(** The operands of each instruction are those of its format in the architecture, except for ten entries. *)
Definition misshapen : list string :=
  ["BASSM"; "EXRL"; "LHRL"; "LGHRL"; "CLIY"; "MVIY"; "XC"; "STFLE"; "CLT"; "CLGT"]%string.
Definition inner_eqb (a b : inner) : bool :=
  match a, b with iNone, iNone | iX, iX | iR, iR | iV, iV => true | iL n, iL m => n =? m | _, _ => false end.
Definition kind_eqb (a b : kind) : bool :=
  match a, b with kR, kR | kM, kM | kV, kV => true | kI n, kI m => n =? m | kRel n, kRel m => n =? m
  | kD n a, kD m b => (n =? m) && inner_eqb a b | _, _ => false end.
Lemma kind_eqb_iff : forall a b, kind_eqb a b = true <-> a = b.
Proof.
  assert (G : forall a b, inner_eqb a b = true <-> a = b).
  { intros [| | | |n] [| | | |m]; cbn; split; intros H; try discriminate H; try reflexivity.
    - apply Z.eqb_eq in H. now subst.
    - inversion H. apply Z.eqb_refl. }
  intros [| | |n|n|n x] [| | |m|m|m y]; cbn; split; intros H; try discriminate H; try reflexivity;
    try (apply Z.eqb_eq in H; now subst); try (inversion H; apply Z.eqb_refl).
  - apply andb_prop in H. destruct H as (A & B). apply Z.eqb_eq in A. apply G in B. now subst.
  - inversion H. subst. rewrite Z.eqb_refl. cbn. now apply G.
Qed.
Fixpoint same (a : list (option kind)) (b : list kind) : bool :=
  match a, b with [], [] => true | Some x :: a', y :: b' => kind_eqb x y && same a' b' | _, _ => false end.
Lemma same_iff : forall a b, same a b = true <-> a = map Some b.
Proof.
  intros a. induction a as [|[x|] a IH]; intros [|y b]; cbn; split; intros H; try discriminate H; try reflexivity.
  - apply andb_prop in H. destruct H as (A & B). apply kind_eqb_iff in A. apply IH in B. now subst.
  - inversion H. subst. rewrite (proj2 (kind_eqb_iff y y) eq_refl). cbn. now apply IH.
Qed.
Definition conforms_b (i : instr) : bool := existsb (same (kinds i)) (shapes (i_format i)).
Lemma conforms_b_iff : forall i, conforms_b i = true <-> conforms i.
Proof.
  intros i. unfold conforms_b, conforms. rewrite existsb_exists. split; intros (ks & A & B); exists ks; (split; [exact A|]); now apply same_iff.
Qed.
Theorem C63_shapes : forall i, In i instrs -> (~ In (i_name i) misshapen <-> conforms i).
Proof.
  assert (H : forallb (fun i => Bool.eqb (negb (existsb (String.eqb (i_name i)) misshapen)) (conforms_b i)) instrs = true)
    by (vm_compute; reflexivity).
  rewrite forallb_forall in H. intros i Hi. specialize (H i Hi). apply eqb_prop in H.
  rewrite <- conforms_b_iff, <- H, negb_true_iff, <- not_true_iff_false. apply not_iff_compat.
  rewrite existsb_exists. split.
  - intros X. exists (i_name i). split; [exact X|apply String.eqb_refl].
  - intros (x & X & E). apply String.eqb_eq in E. congruence.
Qed.
Print Assumptions C63_shapes.
(** BASSM, an RR instruction of two bytes, takes up four. *)
Theorem C63_bassm_refuted : exists i, find_instr instrs "BASSM" = Some i /\ bytes_of i = 4 /\ ~ conforms i.
Proof.
  eexists. split; [vm_compute; reflexivity|]. split; [reflexivity|]. intros H. apply conforms_b_iff in H. discriminate H.
Qed.
Print Assumptions C63_bassm_refuted.

(** A known number of table entries of each length: the table is not empty, and L and MVC are in it. *)
Example C63_example : exists i j, find_instr instrs "L" = Some i /\ find_instr instrs "MVC" = Some j /\
  bytes_of i = 4 /\ bytes_of j = 6 /\ kinds i = [Some kR; Some (kD 12 iX)] /\ needed_bits j = 48 /\ conforms i.
Proof.
  eexists. eexists. split; [vm_compute; reflexivity|]. split; [vm_compute; reflexivity|].
  repeat split; try (vm_compute; reflexivity). apply conforms_b_iff. vm_compute. reflexivity.
Qed.
