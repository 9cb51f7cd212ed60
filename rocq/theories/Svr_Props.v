(** C111: the values of the system variables. *)
From Coq Require Import String List NArith ZArith Bool Lia.
From Verif Require Import Common CaNum_Proof Sub_Model Mac_Model Var_Model Ard_Spec Ard_Proof Svr_Model Svr_Spec.
Import ListNotations.
Open Scope list_scope.
Open Scope Z_scope.

Lemma figure_app : forall k l a b m n, figure k a m -> figure l b n -> 0 <= n ->
  figure (k + l) (a ++ b) (m * 10 ^ Z.of_nat l + n).
Proof.
  intros k l a b m n (La & Fa & Va) (Lb & Fb & Vb) Hn. split; [rewrite app_length; lia|].
  split; [apply Forall_app; split; assumption|]. rewrite fold_left_app, Va.
  assert (G : forall s x, fold_left (fun a c => a * 10 + (Z.of_N c - 48)) s x =
    x * 10 ^ Z.of_nat (length s) + fold_left (fun a c => a * 10 + (Z.of_N c - 48)) s 0).
  { intro s. induction s as [|c s IH]; intro x; cbn [fold_left length]; [change (10 ^ Z.of_nat 0) with 1; lia|].
    rewrite IH. rewrite (IH (0 * 10 + _)). rewrite Nat2Z.inj_succ, Z.pow_succ_r by lia. lia. }
  rewrite G, Lb, Vb. reflexivity.
Qed.

Lemma two_figures : forall n, 0 <= n <= 99 -> figure 2 (lead n ++ to_string n) n.
Proof.
  intros n B. pose proof (figure_pad 2 n ltac:(lia) ltac:(change (10 ^ Z.of_nat 2) with 100; lia)) as F.
  replace (lead n ++ to_string n) with (Ard_Model.zero_left_pad (Ard_Model.to_string n) 2); [exact F|].
  unfold Ard_Model.zero_left_pad, Ard_Model.to_string, lead, to_string.
  destruct (Z.ltb_spec n 0); [lia|].
  destruct (Z.ltb_spec n 10) as [L|L].
  - assert (X : (length (dec (Z.to_N n)) <= 1)%nat) by (apply dec_length; [change (10 ^ N.of_nat 1)%N with 10%N|]; lia).
    pose proof (dec_nonempty (Z.to_N n)) as Y. destruct (dec (Z.to_N n)) as [|c [|c' r]]; [elim Y; reflexivity| |cbn in X; lia].
    reflexivity.
  - assert (X : (2 <= length (dec (Z.to_N n)))%nat).
    { destruct (le_lt_dec 2 (length (dec (Z.to_N n)))) as [Y|Y]; [exact Y|]. exfalso.
      pose proof (dec_value (Z.to_N n)) as V. pose proof (dec_digits (Z.to_N n)) as D. pose proof (dec_nonempty (Z.to_N n)) as Z0.
      destruct (dec (Z.to_N n)) as [|c [|c' r]]; [elim Z0; reflexivity| |cbn in Y; lia].
      inversion D as [|? ? D1 _]; subst. unfold is_digit in D1. cbn in V. lia. }
    apply Nat.leb_le in X. rewrite X. reflexivity.
Qed.

Lemma four_figures : forall y, 1000 <= y <= 9999 -> figure 4 (to_string y) y.
Proof.
  intros y B. pose proof (figure_pad 4 y ltac:(lia) ltac:(change (10 ^ Z.of_nat 4) with 10000; lia)) as F.
  replace (to_string y) with (Ard_Model.zero_left_pad (Ard_Model.to_string y) 4); [exact F|].
  unfold Ard_Model.zero_left_pad, Ard_Model.to_string, to_string. destruct (Z.ltb_spec y 0); [lia|].
  assert (X : (4 <= length (dec (Z.to_N y)))%nat).
  { destruct (le_lt_dec 4 (length (dec (Z.to_N y)))) as [Y|Y]; [exact Y|]. exfalso.
    pose proof (dec_value (Z.to_N y)) as V. pose proof (dec_digits (Z.to_N y)) as D.
    destruct (dec (Z.to_N y)) as [|c1 [|c2 [|c3 [|c4 r]]]]; cbn in Y; try lia;
      repeat match goal with H : Forall _ (_ :: _) |- _ => inversion H; clear H; subst end;
      unfold is_digit in *; cbn in V; lia. }
  apply Nat.leb_le in X. rewrite X. reflexivity.
Qed.

Lemma last_two : forall s y, figure 4 s y -> figure 2 (skipn 2 s) (y mod 100).
Proof.
  intros s y (L & F & V). destruct s as [|a [|b [|c [|d [|e s]]]]]; cbn in L; try lia.
  cbn [skipn]. repeat match goal with H : Forall _ (_ :: _) |- _ => inversion H; clear H; subst end.
  split; [reflexivity|]. split; [repeat (apply Forall_cons; [assumption|]); apply Forall_nil|]. cbn [fold_left].
  replace ((((0 * 10 + (Z.of_N a - 48)) * 10 + (Z.of_N b - 48)) * 10 + (Z.of_N c - 48)) * 10 + (Z.of_N d - 48))
    with (((Z.of_N a - 48) * 10 + (Z.of_N b - 48)) * 100 + ((Z.of_N c - 48) * 10 + (Z.of_N d - 48))) by lia.
  rewrite (Z.add_comm (_ * 100)), Z.mod_add by lia. rewrite Z.mod_small by lia. lia.
Qed.

(** SYSDATC is YYYYMMDD, SYSDATE is MM/DD/YY, SYSTIME is the hour and the minute in two figures each. *)
Theorem C111_dates : forall now parm, calendar now ->
  let y := tm_year now + 1900 in
  let m := tm_mon now + 1 in
  figure 8 (datc (start now parm)) (y * 10000 + m * 100 + tm_mday now) /\
  (exists a b c, date (start now parm) = a ++ s2b "/" ++ b ++ s2b "/" ++ c /\
     figure 2 a m /\ figure 2 b (tm_mday now) /\ figure 2 c (y mod 100)) /\
  (exists a b, time (start now parm) = a ++ s2b ":" ++ b /\ figure 2 a (tm_hour now) /\ figure 2 b (tm_min now)) /\
  sysparm (start now parm) = parm.
Proof.
  intros now parm (By & Bm & Bd & Bh & Bi) y m. subst y m.
  pose proof (four_figures (tm_year now + 1900) By) as Fy.
  pose proof (two_figures (tm_mon now + 1) ltac:(lia)) as Fm.
  pose proof (two_figures (tm_mday now) ltac:(lia)) as Fd.
  split; [|split; [|split; [|reflexivity]]].
  - cbn [datc start]. unfold datc_val.
    pose proof (figure_app 4 2 _ _ _ _ Fy Fm ltac:(lia)) as F1.
    pose proof (figure_app 6 2 _ _ _ _ F1 Fd ltac:(lia)) as F2.
    rewrite <- !app_assoc in F2. change (10 ^ Z.of_nat 2) with 100 in F2.
    replace ((tm_year now + 1900) * 10000 + (tm_mon now + 1) * 100 + tm_mday now)
      with (((tm_year now + 1900) * 100 + (tm_mon now + 1)) * 100 + tm_mday now) by lia. exact F2.
  - exists (lead (tm_mon now + 1) ++ to_string (tm_mon now + 1)), (lead (tm_mday now) ++ to_string (tm_mday now)),
           (skipn 2 (to_string (tm_year now + 1900))).
    split; [|split; [exact Fm|split; [exact Fd|apply last_two; exact Fy]]].
    cbn [date start]. unfold date_val. rewrite <- !app_assoc. reflexivity.
  - exists (lead (tm_hour now) ++ to_string (tm_hour now)), (lead (tm_min now) ++ to_string (tm_min now)).
    split; [|split; apply two_figures; lia].
    cbn [time start]. unfold time_val. rewrite <- !app_assoc. reflexivity.
Qed.
Print Assumptions C111_dates.

(** The language reference has a period between the hour and the minute. *)
Theorem C111_time_refuted : forall now parm, calendar now ->
  ~ exists a b, length a = 2%nat /\ time (start now parm) = a ++ s2b "." ++ b.
Proof.
  intros now parm C (a & b & L & E). destruct (C111_dates now parm C) as (_ & _ & (a' & b' & E' & (L' & _) & _) & _).
  rewrite E' in E. destruct a as [|a1 [|a2 [|? ?]]]; try discriminate L. destruct a' as [|c1 [|c2 [|? ?]]]; try discriminate L'.
  cbn in E. discriminate E.
Qed.
Print Assumptions C111_time_refuted.

(** SYSNEST is the number of macros called within each other; SYSMAC(0), SYSMAC(1) ... are these macros from the
    innermost one outwards, then OPEN CODE, then nothing. *)
Theorem C111_nest : forall macros,
  sysnest (nest macros) = Z.of_nat (length macros) /\
  (forall i m, nth_error macros i = Some m -> read_value (sysmac (nest macros)) [i] = m) /\
  read_value (sysmac (nest macros)) [length macros] = s2b "OPEN CODE" /\
  (forall i, (length macros < i)%nat -> read_value (sysmac (nest macros)) [i] = []) /\
  read_number (sysmac (nest macros)) [] = Z.of_nat (length macros).
Proof.
  intro macros. unfold sysnest, nest, sysmac, read_value, read_number, Mac_Model.get_data. cbn [fold_left Sub_Model.get_ith Sub_Model.number].
  rewrite map_app, map_map. cbn [List.map].
  split; [rewrite app_length, map_length; cbn [length]; lia|]. split; [|split; [|split]].
  - intros i m E. assert (B : (i < length macros)%nat) by (apply nth_error_Some; rewrite E; discriminate).
    rewrite app_nth1 by (rewrite map_length; exact B).
    rewrite (nth_indep _ Dummy (Single m)) by (rewrite map_length; exact B).
    rewrite (map_nth (fun x => Single x) macros m i). rewrite (nth_error_nth _ _ _ E). reflexivity.
  - rewrite app_nth2 by (rewrite map_length; lia). rewrite map_length, Nat.sub_diag. reflexivity.
  - intros i B. rewrite nth_overflow; [reflexivity|]. rewrite app_length, map_length. cbn [length]. lia.
  - rewrite app_length, map_length. cbn [length]. lia.
Qed.
Print Assumptions C111_nest.

(** Without a subscript it is not the name of the macro but the list of all of them. *)
Theorem C111_sysmac_refuted : read_value (sysmac (nest [s2b "M"])) [] = s2b "(M,OPEN CODE)".
Proof. vm_compute. reflexivity. Qed.
Print Assumptions C111_sysmac_refuted.

(** SYSNDX has four figures or more and differs between any two calls. *)
Theorem C111_sysndx : forall m n,
  (4 <= length (sysndx_value m))%nat /\ (sysndx_value m = sysndx_value n -> m = n) /\
  ((m < 10000)%N -> figure 4 (sysndx_value m) (Z.of_N m)).
Proof.
  intros m n.
  assert (V : forall k, fold_left (fun a c => a * 10 + (Z.of_N c - 48)) (sysndx_value k) 0 = Z.of_N k).
  { intro k. unfold sysndx_value. rewrite zeros_fold. change 0 with (Z.of_N 0). rewrite val_fold.
    - fold (dec_val (dec k)). rewrite dec_value. reflexivity.
    - refine (Forall_impl _ _ (digits_range _)). intros; lia. }
  split; [|split].
  - unfold sysndx_value. rewrite app_length, repeat_length. lia.
  - intro E. apply N2Z.inj. rewrite <- (V m), <- (V n), E. reflexivity.
  - intro B. split; [|split; [|apply V]].
    + unfold sysndx_value. rewrite app_length, repeat_length.
      assert (length (dec m) <= 4)%nat by (apply dec_length; [exact B|lia]). lia.
    + unfold sysndx_value. apply Forall_app. split; [|apply digits_range]. apply Forall_forall. intros x Hx.
      apply repeat_spec in Hx. lia.
Qed.
Print Assumptions C111_sysndx.

(** SYSECT, SYSLOC and SYSSTYP are those of the section that is current at the call. *)
Theorem C111_section : forall n k l,
  let i := call (Some (mkSect n k l)) in
  sect i = n /\ loc i = Some l /\
  styp i = Some (s2b match k with DUMMY => "DSECT" | COMMON => "COM" | EXECUTABLE => "CSECT" | READONLY => "RSECT" end) /\
  sect (call None) = [] /\ loc (call None) = None /\ styp (call None) = None.
Proof. intros n k l. cbn. destruct k; repeat split; reflexivity. Qed.
Print Assumptions C111_section.

Example a_day : calendar (mkTm 126 10 5 7 3) /\ datc (start (mkTm 126 10 5 7 3) []) = s2b "20261105" /\
  date (start (mkTm 126 10 5 7 3) []) = s2b "11/05/26" /\ time (start (mkTm 126 10 5 7 3) []) = s2b "07:03".
Proof. split; [unfold calendar; cbn; lia|]. vm_compute. repeat split; reflexivity. Qed.
