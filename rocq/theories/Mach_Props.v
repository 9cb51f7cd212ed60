(** * Machine instructions: C62 (operands accepted exactly when they are right), C63 (storage, encoding). *)
From Coq Require Import ZArith Bool Arith String List Lia.
From Coq Require Import ZifyBool ZifyNat.
From Verif Require Import Loctr_Model Loctr_Spec Loctr_Props.
From Verif Require Import Mach_Model Mach_Table Mach_Spec Mach_Proof Mach_Stmt Mach_Facts.
Import ListNotations.
Local Open Scope Z_scope.

(** A name of a machine instruction, and an extended mnemonic. *)
Definition instruction (name : string) (i : instr) : Prop := find_mnem mnems name = None /\ find_instr instrs name = Some i.
Definition extended (name : string) (m : mnem) (i : instr) : Prop :=
  find_mnem mnems name = Some m /\ find_instr instrs (m_instr m) = Some i.
Notation check := (Mach_Model.check instrs mnems).
Definition ops (l : list wop) : list operand := map (mkO false) l.

Lemma check_plain : forall name i os, instruction name i -> check name os = check_default i os.
Proof. intros name i os (A & B). unfold Mach_Model.check. now rewrite A, B. Qed.
Lemma check_extended : forall name m i os, extended name m i -> check name os = check_mnemonic m i os.
Proof. intros name m i os (A & B). unfold Mach_Model.check. now rewrite A, B. Qed.
Lemma plain_sane : forall name i, instruction name i -> Forall sane (i_ops i).
Proof. intros name i (_ & B). apply find_instr_in in B. now apply instrs_sane. Qed.
Lemma extended_sane : forall name m i, extended name m i -> Forall sane (i_ops i).
Proof. intros name m i (_ & B). apply find_instr_in in B. now apply instrs_sane. Qed.
Lemma ops_resolved : forall l, resolved (ops l).
Proof. intros l. apply Forall_forall. intros o H. apply in_map_iff in H. destruct H as (w & <- & _). now left. Qed.
Lemma right_number_dec : forall i n, right_number i n \/ ~ right_number i n.
Proof. intros i n. unfold right_number. lia. Qed.
Lemma extended_good : forall name m i, extended name m i -> ~ In name corrupting -> i_optional i = 0%nat -> good_mnem m i.
Proof.
  intros name m i (A & B) N O. apply find_mnem_in in A. destruct A as (A & <-). pose proof (mnems_ok m A) as H.
  unfold mnem_ok in H. rewrite B in H. destruct (existsb (String.eqb (m_name m)) corrupting) eqn:X.
  - exfalso. apply N. apply existsb_exists in X. destruct X as (x & X & E). apply String.eqb_eq in E. congruence.
  - apply places_ok_spec in H. rewrite O, Nat.add_0_r in H. destruct H. repeat split; assumption.
Qed.

(** * C62 *)

(** The tables: every instruction has operand formats that make sense, and every extended mnemonic
    names an instruction. *)
Theorem C62_tables : (forall i, In i instrs -> Forall sane (i_ops i)) /\
  (forall m, In m mnems -> exists i, find_instr instrs (m_instr m) = Some i).
Proof.
  split; [exact instrs_sane|]. intros m H. apply mnems_ok in H. unfold mnem_ok in H.
  destruct (find_instr instrs (m_instr m)) as [i|]; [eauto|discriminate H].
Qed.
Print Assumptions C62_tables.

(** The operands of a machine instruction are accepted exactly when their number is right and each is
    accepted by the operand format at its place. *)
Theorem C62_accepted_exactly : forall name i os, instruction name i -> resolved os ->
  (check name os = Checked true [] <-> right_number i (length os) /\ all_accepted (i_ops i) (map o_what os)) /\
  (forall ds, check name os = Checked true ds -> ds = []).
Proof.
  intros name i os H R. rewrite (check_plain _ _ _ H). unfold check_default. rewrite transform_default_ok by exact R.
  destruct (right_number_dec i (length os)) as [N|N].
  - rewrite <- (map_length o_what) in N.
    destruct (check_instr_spec i _ (plain_sane _ _ H) N) as (ds & E & _ & F). rewrite E. rewrite map_length in N. split.
    + split.
      * intros X. inversion X. split; [exact N|]. now apply F.
      * intros (_ & X). apply F in X. now subst.
    + intros ds' X. inversion X. subst. destruct ds'; [reflexivity|discriminate].
  - rewrite check_instr_wrong by (rewrite map_length, values_length, map_length; exact N).
    split; [split; [discriminate|tauto]|discriminate].
Qed.
Print Assumptions C62_accepted_exactly.

(** With the right number of operands there is one diagnostic for each operand that is not accepted,
    in the order of the operands, and it is true of that operand. *)
Theorem C62_faults_named : forall name i os, instruction name i -> resolved os -> right_number i (length os) ->
  exists ds, check name os = Checked (match ds with [] => true | _ => false end) ds /\
    faults (i_ops i) (map o_what os) 0 ds.
Proof.
  intros name i os H R N. rewrite (check_plain _ _ _ H). unfold check_default. rewrite transform_default_ok by exact R.
  rewrite <- (map_length o_what) in N.
  destruct (check_instr_spec i _ (plain_sane _ _ H) N) as (ds & E & F & _). exists ds. now split.
Qed.
Print Assumptions C62_faults_named.

(** With a wrong number of operands there is one diagnostic, about the statement, and it names the
    numbers that are right. *)
Theorem C62_wrong_number : forall name i os, instruction name i -> resolved os -> ~ right_number i (length os) ->
  exists c lo hi, check name os = Checked false [(DRange c lo hi, None)] /\
    (forall n, right_number i n <-> lo <= Z.of_nat n <= hi).
Proof.
  intros name i os H R N. rewrite (check_plain _ _ _ H). unfold check_default. rewrite transform_default_ok by exact R.
  rewrite check_instr_wrong by (rewrite map_length, values_length, map_length; exact N).
  unfold wrong_number, right_number.
  destruct (Z.of_nat (i_optional i) =? 0) eqn:E0; [|destruct (Z.of_nat (i_optional i) =? 1) eqn:E1];
    (eexists; eexists; eexists; split; [reflexivity|]; intros n; lia).
Qed.
Print Assumptions C62_wrong_number.

(** While an operand depends on something undefined, the statement is not accepted and the diagnostic
    names the first such operand. *)
Theorem C62_undefined : forall name i a o b, instruction name i -> resolved a -> ~ settled o ->
  check name (a ++ o :: b) = Checked false [(D 10010, Some (length a))].
Proof.
  intros name i a o b H R N. rewrite (check_plain _ _ _ H). unfold check_default.
  now rewrite transform_default_pending.
Qed.
Print Assumptions C62_undefined.

(** An extended mnemonic is accepted exactly when the operands it stands for are accepted by its
    machine instruction. *)
Theorem C62_mnemonic_exactly : forall name m i os, extended name m i -> ~ In name corrupting -> i_optional i = 0%nat ->
  resolved os ->
  (check name os = Checked true [] <->
   exists full, length full = length (i_ops i) /\ stands_for m (map o_what os) full /\ all_accepted (i_ops i) full).
Proof.
  intros name m i os H C O R. pose proof (extended_good _ _ _ H C O) as G. rewrite (check_extended _ _ _ _ H).
  destruct (Nat.eq_dec (length os + length (m_replaced m)) (length (i_ops i))) as [L|L].
  - destruct (check_mnemonic_good m i os (extended_sane _ _ _ H) G R L) as (full & ds & L1 & F1 & E & _ & X).
    rewrite E. split.
    + intros Y. inversion Y. exists full. repeat split; try assumption; try apply F1. now apply X.
    + intros (full' & L2 & F2 & A). apply (stands_for_whole m i) in F1; [|assumption|assumption].
      apply (stands_for_whole m i) in F2; [|assumption|assumption]. destruct F1 as (-> & _). destruct F2 as (-> & _).
      apply X in A. now subst.
  - rewrite check_mnemonic_wrong by assumption. split; [discriminate|]. intros (full & L1 & F & _).
    apply (stands_for_whole m i) in F; [|assumption|assumption]. destruct F as (_ & F). rewrite map_length in F. lia.
Qed.
Print Assumptions C62_mnemonic_exactly.

(** ... the diagnostics are those of the machine instruction with these operands, ... *)
Theorem C62_mnemonic_faults : forall name m i os, extended name m i -> ~ In name corrupting -> i_optional i = 0%nat ->
  resolved os -> (length os + length (m_replaced m) = length (i_ops i))%nat ->
  exists full ds, length full = length (i_ops i) /\ stands_for m (map o_what os) full /\
    check name os = Checked (match ds with [] => true | _ => false end) ds /\ faults (i_ops i) full 0 ds.
Proof.
  intros name m i os H C O R L. pose proof (extended_good _ _ _ H C O) as G. rewrite (check_extended _ _ _ _ H).
  destruct (check_mnemonic_good m i os (extended_sane _ _ _ H) G R L) as (full & ds & L1 & F1 & E & F & _).
  exists full, ds. auto.
Qed.
Print Assumptions C62_mnemonic_faults.

(** ... a wrong number is reported with the right one, and an undefined operand is reported. *)
Theorem C62_mnemonic_number : forall name m i os, extended name m i -> ~ In name corrupting -> i_optional i = 0%nat ->
  (length os + length (m_replaced m) <> length (i_ops i))%nat ->
  exists n, (n + length (m_replaced m) = length (i_ops i))%nat /\
    check name os = Checked false [(DRange 0 (Z.of_nat n) (Z.of_nat n), None)].
Proof.
  intros name m i os H C O L. pose proof (extended_good _ _ _ H C O) as (_ & G & HF). rewrite (check_extended _ _ _ _ H).
  rewrite check_mnemonic_wrong by assumption. exists (length (i_ops i) - length (m_replaced m))%nat.
  pose proof (free_all _ _ G HF). split; [lia|].
  rewrite Nat2Z.inj_sub by lia. reflexivity.
Qed.
Print Assumptions C62_mnemonic_number.

Theorem C62_mnemonic_undefined : forall name m i a o b, extended name m i -> ~ In name corrupting -> i_optional i = 0%nat ->
  resolved a -> ~ settled o -> (length (a ++ o :: b) + length (m_replaced m) = length (i_ops i))%nat ->
  check name (a ++ o :: b) = Checked false [(D 10010, Some (length a))].
Proof.
  intros name m i a o b H C O R N L. rewrite (check_extended _ _ _ _ H).
  apply check_mnemonic_pending; try assumption. eapply extended_good; eassumption.
Qed.
Print Assumptions C62_mnemonic_undefined.

(** Checking always comes to a verdict, for all names in the tables and all operands, except two
    operands of six mnemonics; a statement is accepted exactly when there is no diagnostic. *)
Theorem C62_verdict : forall name os, (exists i, instruction name i) \/ (exists m i, extended name m i) ->
  (In name corrupting -> length os <> 2%nat) ->
  exists ok ds, check name os = Checked ok ds /\ (ok = true <-> ds = []).
Proof.
  intros name os H C. destruct (resolved_or os) as [R|(a & o & b & -> & R & P)]; destruct H as [(i & H)|(m & i & H)].
  - destruct (right_number_dec i (length os)) as [N|N].
    + destruct (C62_faults_named _ _ _ H R N) as (ds & E & _). exists (match ds with [] => true | _ => false end), ds. split; [exact E|].
      destruct ds; split; congruence.
    + destruct (C62_wrong_number _ _ _ H R N) as (c & lo & hi & E & _). eexists. eexists. split; [exact E|]. split; discriminate.
  - destruct H as (A & B). pose proof A as A'. apply find_mnem_in in A'. destruct A' as (A' & En).
    pose proof (mnems_ok m A') as M. unfold mnem_ok in M. rewrite B in M.
    destruct (existsb (String.eqb (m_name m)) corrupting) eqn:X.
    + apply existsb_exists in X. destruct X as (x & X & E). apply String.eqb_eq in E. rewrite <- E, En in X.
      specialize (C X). rewrite (check_extended _ m i _ (conj A B)).
      repeat (apply andb_prop in M; destruct M as (M & ?)). apply Nat.eqb_eq in M.
      rewrite check_mnemonic_wrong by lia. eexists. eexists. split; [reflexivity|]. split; discriminate.
    + assert (C' : ~ In name corrupting).
      { intros Y. rewrite <- not_true_iff_false in X. apply X. apply existsb_exists. exists name. split; [exact Y|].
        apply String.eqb_eq. exact En. }
      destruct (Nat.eq_dec (i_optional i) 0) as [O|O].
      * destruct (Nat.eq_dec (length os + length (m_replaced m)) (length (i_ops i))) as [L|L].
        -- destruct (C62_mnemonic_faults _ m i os (conj A B) C' O R L) as (full & ds & _ & _ & E & _).
           exists (match ds with [] => true | _ => false end), ds. split; [exact E|]. destruct ds; split; congruence.
        -- destruct (C62_mnemonic_number _ m i os (conj A B) C' O L) as (n & _ & E).
           eexists. eexists. split; [exact E|]. split; discriminate.
      * rewrite (check_extended _ m i _ (conj A B)). apply places_ok_spec in M. destruct M as (M1 & M2).
        destruct (check_mnemonic_optional_safe m i os) as (d & k & E); [lia|exact M1|exact M2|].
        eexists. eexists. split; [exact E|]. split; discriminate.
  - rewrite (C62_undefined _ _ _ _ _ H R P). eexists. eexists. split; [reflexivity|]. split; discriminate.
  - destruct H as (A & B). pose proof A as A'. apply find_mnem_in in A'. destruct A' as (A' & En).
    pose proof (mnems_ok m A') as M. unfold mnem_ok in M. rewrite B in M.
    destruct (existsb (String.eqb (m_name m)) corrupting) eqn:X.
    + apply existsb_exists in X. destruct X as (x & X & E). apply String.eqb_eq in E. rewrite <- E, En in X.
      specialize (C X). rewrite (check_extended _ m i _ (conj A B)).
      repeat (apply andb_prop in M; destruct M as (M & ?)). apply Nat.eqb_eq in M.
      rewrite check_mnemonic_wrong by lia. eexists. eexists. split; [reflexivity|]. split; discriminate.
    + assert (C' : ~ In name corrupting).
      { intros Y. rewrite <- not_true_iff_false in X. apply X. apply existsb_exists. exists name. split; [exact Y|].
        apply String.eqb_eq. exact En. }
      destruct (Nat.eq_dec (i_optional i) 0) as [O|O].
      * destruct (Nat.eq_dec (length (a ++ o :: b) + length (m_replaced m)) (length (i_ops i))) as [L|L].
        -- rewrite (C62_mnemonic_undefined _ m i _ _ _ (conj A B) C' O R P L).
           eexists. eexists. split; [reflexivity|]. split; discriminate.
        -- destruct (C62_mnemonic_number _ m i _ (conj A B) C' O L) as (n & _ & E).
           eexists. eexists. split; [exact E|]. split; discriminate.
      * rewrite (check_extended _ m i _ (conj A B)). apply places_ok_spec in M. destruct M as (M1 & M2).
        destruct (check_mnemonic_optional_safe m i (a ++ o :: b)) as (d & k & E); [lia|exact M1|exact M2|].
        eexists. eexists. split; [exact E|]. split; discriminate.
Qed.
Print Assumptions C62_verdict.

(** The six mnemonics write behind the end of the operand vector, whatever the two operands are. *)
Theorem C62_memory_refuted : forall name a b, In name corrupting -> check name [a; b] = Corrupts.
Proof.
  intros name a b H. unfold corrupting in H. cbn [In] in H.
  assert (G : forall m i v w, extended name m i -> m_replaced m = [(3%nat, v); (4%nat, w)] -> length (i_ops i) = 4%nat ->
    i_optional i = 0%nat -> check name [a; b] = Corrupts).
  { intros m i v w E R L O. rewrite (check_extended _ _ _ _ E). unfold check_mnemonic. rewrite R, L, O. reflexivity. }
  repeat (destruct H as [H|H]; [subst; eapply G; [split; vm_compute; reflexivity|reflexivity|reflexivity|reflexivity]|]).
  contradiction.
Qed.
Print Assumptions C62_memory_refuted.

(** Mnemonics of instructions with optional operands are never accepted ... *)
Theorem C62_optional_mnemonic_refuted :
  (forall name m i os ds, extended name m i -> (0 < i_optional i)%nat -> check name os <> Checked true ds) /\
  (exists m i, extended "XHHR" m i /\ stands_for m [WExpr (Abs 1); WExpr (Abs 2)]
       [WExpr (Abs 1); WExpr (Abs 2); WExpr (Abs 0); WExpr (Abs 31)] /\
     check (m_instr m) (ops [WExpr (Abs 1); WExpr (Abs 2); WExpr (Abs 0); WExpr (Abs 31)]) = Checked true [] /\
     check "XHHR" (ops [WExpr (Abs 1); WExpr (Abs 2)]) = Checked false [(DRange 1 4 5, None)]).
Proof.
  split.
  - intros name m i os ds H O. rewrite (check_extended _ _ _ _ H). now apply check_mnemonic_optional.
  - eexists. eexists. split; [split; vm_compute; reflexivity|]. split; [|split; vm_compute; reflexivity].
    split; [|reflexivity]. intros p v [E|[E|[]]]; inversion E; reflexivity.
Qed.
Print Assumptions C62_optional_mnemonic_refuted.

(** ... an index or length written alone is not checked ... *)
Theorem C62_single_index_refuted : forall x,
  check "L" (ops [WExpr (Abs 1); WBase (Abs 0) (Abs x)]) = Checked true [] /\
  check "MVC" (ops [WBase (Abs 0) (Abs x); WBase (Abs 0) (Abs 1)]) = Checked true [] /\
  (~ 0 <= x < 16 -> exists f, nth_error (match find_instr instrs "L" with Some i => i_ops i | None => [] end) 1 = Some f /\
     ~ fits f (WBase (Abs 0) (Abs x))).
Proof.
  intros x. split; [|split].
  - apply (C62_accepted_exactly "L" _ _ (conj eq_refl eq_refl) (ops_resolved _)).
    split; [split; cbn; lia|]. cbn [map ops o_what i_ops all_accepted]. split; [|split; [|exact Logic.I]].
    + left. apply fits_abs. unfold in_field. cbn. lia.
    + destruct (Z_lt_ge_dec x 0) as [N|N]; [|destruct (Z_lt_ge_dec x 16) as [N'|N']].
      * right. exists (Abs 0), (Abs x). split; [reflexivity|]. split; [intros E; discriminate E|]. cbn. lia.
      * left. apply fits_single; [intros E; discriminate E|cbn; lia|cbn; lia].
      * right. exists (Abs 0), (Abs x). split; [reflexivity|]. split; [intros E; discriminate E|]. cbn. lia.
  - apply (C62_accepted_exactly "MVC" _ _ (conj eq_refl eq_refl) (ops_resolved _)).
    split; [split; cbn; lia|]. cbn [map ops o_what i_ops all_accepted]. split; [|split; [|exact Logic.I]].
    + destruct (Z_lt_ge_dec x 0) as [N|N]; [|destruct (Z_lt_ge_dec x 257) as [N'|N']].
      * right. exists (Abs 0), (Abs x). split; [reflexivity|]. split; [intros E; discriminate E|]. cbn. lia.
      * left. apply fits_single; [intros E; discriminate E|cbn; lia|cbn; lia].
      * right. exists (Abs 0), (Abs x). split; [reflexivity|]. split; [intros E; discriminate E|]. cbn. lia.
    + left. apply fits_base; [intros (_ & E); discriminate E|reflexivity|cbn; lia|cbn; lia].
  - intros N. eexists. split; [vm_compute; reflexivity|]. intros F. inversion F; subst.
    + match goal with H : absent _ |- _ => discriminate H end.
    + match goal with H : val_in (in_first _) _ |- _ => cbn in H; lia end.
Qed.
Print Assumptions C62_single_index_refuted.

(** ... the vector registers 16 to 31 are rejected in every instruction ... *)
Theorem C62_vector_register_refuted : forall name i os k v, instruction name i -> resolved os ->
  nth_error (i_ops i) k = Some (mkF (mkP false 4 VEC_REG) (mkP false 0 NONE) (mkP false 0 NONE)) ->
  nth_error (map o_what os) k = Some (WExpr (Abs v)) -> 16 <= v < 32 -> forall ds, check name os <> Checked true ds.
Proof.
  intros name i os k v H R F O V ds E. destruct (C62_accepted_exactly name i os H R) as (A & B).
  pose proof (B _ E) as ->. apply A in E. destruct E as (_ & E). revert k F O E.
  generalize (map o_what os). generalize (i_ops i). intros fs. induction fs as [|f fs IH]; intros ws k F O E.
  - now destruct k.
  - destruct ws as [|w ws]; [now destruct k|]. cbn [all_accepted] in E. destruct E as (E1 & E2).
    destruct k as [|k]; cbn [nth_error] in F, O.
    + inversion F; subst. inversion O; subst. destruct E1 as [E1|(d & x & Y & _)]; [|discriminate Y].
      inversion E1; subst. unfold in_field in *. cbn in *. lia.
    + eapply IH; eassumption.
Qed.
Print Assumptions C62_vector_register_refuted.

(** ... and VZERO replaces the register instead of the mask: its operand is any number up to 65535. *)
Theorem C62_vzero_refuted : forall v, 0 <= v < 65536 ->
  check "VZERO" (ops [WExpr (Abs v)]) = Checked true [].
Proof.
  intros v V. eapply C62_mnemonic_exactly; [split; vm_compute; reflexivity| |reflexivity|apply ops_resolved|].
  - intros X. cbn in X. repeat (destruct X as [X|X]; [discriminate X|]). exact X.
  - exists [WExpr (Abs 1); WExpr (Abs v)]. split; [reflexivity|]. split.
    + split; [|reflexivity]. intros p w [E|[]]. inversion E. reflexivity.
    + cbn [all_accepted i_ops]. split; [left; apply fits_abs; unfold in_field; cbn; lia|]. split; [|exact Logic.I].
      left. apply fits_abs. unfold in_field. cbn. lia.
Qed.
Print Assumptions C62_vzero_refuted.

(** Witnesses: an accepted statement with a symbol, one with faults in both operands, a mnemonic, a wrong
    number, an undefined operand. *)
Example C62_example_load : check "L" (ops [WExpr (Abs 1); WBoth (Abs 4095) (Abs 2) (Abs 15)]) = Checked true [] /\
  check "L" (ops [WExpr (Abs 16); WBoth (Abs 4096) (Abs 2) (Abs 15)]) =
    Checked false [(D 120, Some 0%nat); (DRange 130 0 4095, Some 1%nat)] /\
  check "L" (ops [WExpr (Abs 1)]) = Checked false [(DRange 0 2 2, None)] /\
  check "L" [mkO false (WExpr (Abs 1)); mkO true (WExpr Other)] = Checked false [(D 10010, Some 1%nat)] /\
  check "BE" (ops [WSecond (Abs 8) (Abs 3)]) = Checked true [] /\
  check "BE" (ops [WBoth (Abs 8) (Abs 99) (Abs 3)]) = Checked false [(DRange 135 0 15, Some 1%nat)] /\
  check "VLR" (ops [WExpr (Abs 1); WExpr (Abs 16)]) = Checked false [(D 124, Some 1%nat)].
Proof. repeat split; vm_compute; reflexivity. Qed.
Example C62_example_stands_for : exists m i, extended "BE" m i /\
  stands_for m [WSecond (Abs 8) (Abs 3)] [WExpr (Abs 8); WSecond (Abs 8) (Abs 3)].
Proof.
  eexists. eexists. split; [split; vm_compute; reflexivity|]. split; [|reflexivity].
  intros p v [E|[]]. inversion E. reflexivity.
Qed.
