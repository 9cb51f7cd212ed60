From Coq Require Import List NArith ZArith Arith Bool Lia Sorting.Sorted.
From Coq Require Import ZifyBool ZifyNat ZifyN.
From Verif Require Import Common Text_Model Text_Spec.
Import ListNotations.

(* ------------------------------------------------------------- byte classes *)
Lemma byte_cases : forall (P : N -> bool), forallb P (map N.of_nat (seq 0 256)) = true ->
  forall b, is_byte b -> P b = true.
Proof.
  intros P H b Hb. rewrite forallb_forall in H. apply H. apply in_map_iff.
  exists (N.to_nat b). unfold is_byte in Hb. split; [lia|]. apply in_seq. lia.
Qed.

Lemma one_byte_iff : forall b, is_byte b -> one_byte b = (b <? 128)%N.
Proof. intros b Hb. apply eqb_prop. revert b Hb. apply byte_cases. vm_compute. reflexivity. Qed.
Lemma cont_byte_iff : forall b, is_byte b -> cont_byte b = ((128 <=? b) && (b <? 192))%N.
Proof. intros b Hb. apply eqb_prop. revert b Hb. apply byte_cases. vm_compute. reflexivity. Qed.
Lemma two_byte_iff : forall b, is_byte b -> two_byte b = ((192 <=? b) && (b <? 224))%N.
Proof. intros b Hb. apply eqb_prop. revert b Hb. apply byte_cases. vm_compute. reflexivity. Qed.
Lemma three_byte_iff : forall b, is_byte b -> three_byte b = ((224 <=? b) && (b <? 240))%N.
Proof. intros b Hb. apply eqb_prop. revert b Hb. apply byte_cases. vm_compute. reflexivity. Qed.
Lemma four_byte_iff : forall b, is_byte b -> four_byte b = ((240 <=? b) && (b <? 248))%N.
Proof. intros b Hb. apply eqb_prop. revert b Hb. apply byte_cases. vm_compute. reflexivity. Qed.

Ltac classes := rewrite ?one_byte_iff, ?cont_byte_iff, ?two_byte_iff, ?three_byte_iff, ?four_byte_iff by assumption.

Lemma uchar_bytes : forall c u, uchar c u -> Forall is_byte c.
Proof. intros c u H. destruct H; unfold cont, is_byte in *; repeat constructor; lia. Qed.

Lemma utext_bytes : forall t n, utext t n -> Forall is_byte t.
Proof. induction 1; [constructor|]. apply Forall_app. split; [eapply uchar_bytes; eauto|auto]. Qed.

Lemma uchar_nonempty : forall c u, uchar c u -> exists b c', c = b :: c'.
Proof. intros c u H; destruct H; eauto. Qed.

Lemma uchar_len : forall c u, uchar c u -> 1 <= length c.
Proof. intros c u H; destruct H; cbn; lia. Qed.

(** The first character test of the loop. *)
Definition head_ok (t : bytes) : option nat :=
  match t with
  | [] => None
  | b :: t' => match char_len b with
               | Some len => if conts (len - 1) t' then Some len else None
               | None => None
               end
  end.

Lemma char_len_spec : forall b, is_byte b -> char_len b =
  if (b <? 128)%N then Some 1
  else if (b <? 192)%N then None
  else if (b <? 224)%N then Some 2
  else if (b <? 240)%N then Some 3
  else if (b <? 248)%N then Some 4 else None.
Proof.
  intros b Hb. unfold char_len. classes.
  destruct (b <? 128)%N eqn:A; [reflexivity|].
  destruct (b <? 192)%N eqn:B; destruct (b <? 224)%N eqn:C; destruct (b <? 240)%N eqn:D; destruct (b <? 248)%N eqn:E;
    try lia; repeat match goal with |- context [(?x <=? b)%N] => destruct (x <=? b)%N eqn:?; try lia end; reflexivity.
Qed.

Lemma conts_S : forall k t, Forall is_byte t -> conts (S k) t = true <->
  exists c t', t = c :: t' /\ cont c /\ conts k t' = true.
Proof.
  intros k [|c t] Hb; cbn [conts].
  - split; [easy|]. intros (? & ? & ? & _); easy.
  - inversion Hb; subst. rewrite andb_true_iff, cont_byte_iff by assumption. split.
    + intros [H Hc]. exists c, t. unfold cont. repeat split; auto; lia.
    + intros (c' & t' & E & Hc & Hk). injection E as <- <-. unfold cont in Hc. split; [lia|auto].
Qed.

(** The head is a character exactly when the test says so. *)
Lemma head_ok_char : forall t len, Forall is_byte t -> head_ok t = Some len ->
  exists u, uchar (firstn len t) u /\ t = firstn len t ++ skipn len t /\ 1 <= len /\
    u = (if (len =? 4)%nat then 2 else 1).
Proof.
  intros [|b t] len Hb H; [easy|]. inversion Hb as [|? ? Hb0 Hbt]; subst.
  cbn [head_ok] in H. rewrite char_len_spec in H by assumption.
  destruct (b <? 128)%N eqn:A.
  { cbn [Nat.sub conts] in H. injection H as <-. exists 1. cbn [firstn skipn app Nat.eqb]. repeat split; try lia; constructor; lia. }
  destruct (b <? 192)%N eqn:B; [easy|].
  destruct (b <? 224)%N eqn:C; [|destruct (b <? 240)%N eqn:D; [|destruct (b <? 248)%N eqn:E; [|easy]]];
    cbn [Nat.sub] in H; destruct (conts _ t) eqn:F; try easy; injection H as <-.
  - apply conts_S in F; auto. destruct F as (c & t1 & -> & Hc & F).
    exists 1. cbn [firstn skipn app Nat.eqb]. repeat split; try lia. constructor; auto; lia.
  - apply conts_S in F; auto. destruct F as (c & t1 & -> & Hc & F). inversion Hbt; subst.
    apply conts_S in F; auto. destruct F as (d & t2 & -> & Hd & F).
    exists 1. cbn [firstn skipn app Nat.eqb]. repeat split; try lia. constructor; auto; lia.
  - apply conts_S in F; auto. destruct F as (c & t1 & -> & Hc & F). inversion Hbt; subst.
    apply conts_S in F; auto. destruct F as (d & t2 & -> & Hd & F). inversion H2; subst.
    apply conts_S in F; auto. destruct F as (e & t3 & -> & He & F).
    exists 2. cbn [firstn skipn app Nat.eqb]. repeat split; try lia. constructor; auto; lia.
Qed.

Lemma char_head_ok : forall c u t, uchar c u -> Forall is_byte t -> head_ok (c ++ t) = Some (length c).
Proof.
  intros c u t H Ht. pose proof (uchar_bytes _ _ H) as Hc.
  destruct H as [b Hb|b c Hb C1|b c d Hb C1 C2|b c d e Hb C1 C2 C3]; cbn [app head_ok length];
    (rewrite char_len_spec by (inversion Hc; assumption)).
  - now replace (b <? 128)%N with true by lia.
  - replace (b <? 128)%N with false by lia. replace (b <? 192)%N with false by lia.
    replace (b <? 224)%N with true by lia. cbn [Nat.sub].
    inversion Hc as [|? ? _ Hc1]; inversion Hc1; subst.
    replace (conts 1 (c :: t)) with true; [reflexivity|].
    symmetry. apply conts_S; [now constructor|]. exists c, t. auto.
  - replace (b <? 128)%N with false by lia. replace (b <? 192)%N with false by lia.
    replace (b <? 224)%N with false by lia. replace (b <? 240)%N with true by lia. cbn [Nat.sub].
    inversion Hc as [|? ? _ Hc1]; inversion Hc1 as [|? ? ? Hc2]; inversion Hc2; subst.
    replace (conts 2 (c :: d :: t)) with true; [reflexivity|].
    symmetry. apply conts_S; [repeat constructor; auto|]. exists c, (d :: t). repeat split; try apply C1.
    apply conts_S; [now constructor|]. exists d, t. auto.
  - replace (b <? 128)%N with false by lia. replace (b <? 192)%N with false by lia.
    replace (b <? 224)%N with false by lia. replace (b <? 240)%N with false by lia.
    replace (b <? 248)%N with true by lia. cbn [Nat.sub].
    inversion Hc as [|? ? _ Hc1]; inversion Hc1 as [|? ? ? Hc2]; inversion Hc2 as [|? ? ? Hc3]; inversion Hc3; subst.
    replace (conts 3 (c :: d :: e :: t)) with true; [reflexivity|].
    symmetry. apply conts_S; [repeat constructor; auto|]. exists c, (d :: e :: t). repeat split; try apply C1.
    apply conts_S; [repeat constructor; auto|]. exists d, (e :: t). repeat split; try apply C2.
    apply conts_S; [now constructor|]. exists e, t. auto.
Qed.

Lemma repair_loop_head : forall f t, t <> [] -> repair_loop (S f) t =
  match head_ok t with
  | Some len => firstn len t ++ repair_loop f (skipn len t)
  | None => replacement ++ repair_loop f (tl t)
  end.
Proof.
  intros f [|b t] H; [easy|]. cbn [repair_loop head_ok tl].
  destruct (char_len b); [|reflexivity]. destruct (conts _ _); reflexivity.
Qed.

Lemma repair_fuel : forall f t, Forall is_byte t -> length t <= f -> repair_loop f t = repair t.
Proof.
  intros f t Hb Hf. unfold repair. remember (length t) as n eqn:E. assert (Hn : length t <= n) by lia. clear E.
  revert f n Hf Hn. revert Hb.
  assert (G : forall k t, length t <= k -> Forall is_byte t -> forall f n, length t <= f -> length t <= n ->
            repair_loop f t = repair_loop n t).
  { induction k as [|k IH]; intros s Hk Hb f n Hf Hn.
    - destruct s; [|cbn in Hk; lia]. destruct f, n; reflexivity.
    - destruct s as [|b s]; [destruct f, n; reflexivity|].
      destruct f as [|f]; [cbn in Hf; lia|]. destruct n as [|n]; [cbn in Hn; lia|].
      rewrite !repair_loop_head by easy.
      destruct (head_ok (b :: s)) as [len|] eqn:E.
      + destruct (head_ok_char _ _ Hb E) as (u & _ & _ & Hl & _). f_equal.
        pose proof (skipn_length len (b :: s)) as SL. cbn [length] in *.
        apply IH; try lia. rewrite <- (firstn_skipn len (b :: s)) in Hb. apply Forall_app in Hb. apply Hb.
      + f_equal. cbn [tl length] in *. apply IH; try lia. now inversion Hb. }
  intros Hb f n Hf Hn. apply (G (length t)); auto; lia.
Qed.

Lemma repair_step : forall t, Forall is_byte t -> t <> [] -> repair t =
  match head_ok t with
  | Some len => firstn len t ++ repair (skipn len t)
  | None => replacement ++ repair (tl t)
  end.
Proof.
  intros t Hb Ht. unfold repair at 1. destruct t as [|b t]; [easy|]. cbn [length].
  rewrite repair_loop_head by easy.
  destruct (head_ok (b :: t)) as [len|] eqn:E.
  - destruct (head_ok_char _ _ Hb E) as (u & _ & _ & Hl & _).
    rewrite repair_fuel; auto.
    + rewrite <- (firstn_skipn len (b :: t)) in Hb. apply Forall_app in Hb. apply Hb.
    + pose proof (skipn_length len (b :: t)) as SL. cbn [length] in *. lia.
  - rewrite repair_fuel; auto. now inversion Hb.
Qed.

Lemma bytes_ind : forall P : bytes -> Prop,
  (P []) -> (forall c u t, uchar c u -> Forall is_byte t -> P t -> P (c ++ t)) ->
  (forall b t, is_byte b -> Forall is_byte t -> head_ok (b :: t) = None -> P t -> P (b :: t)) ->
  forall t, Forall is_byte t -> P t.
Proof.
  intros P H0 H1 H2 t. remember (length t) as n eqn:E. assert (Hn : length t <= n) by lia. clear E.
  revert t Hn. induction n as [|n IH]; intros t Hn Hb.
  - destruct t; [auto|cbn in Hn; lia].
  - destruct t as [|b t]; [auto|]. destruct (head_ok (b :: t)) as [len|] eqn:E.
    + destruct (head_ok_char _ _ Hb E) as (u & Hu & Eq & Hl & _). rewrite Eq.
      assert (Hs : Forall is_byte (skipn len (b :: t))).
      { rewrite <- (firstn_skipn len (b :: t)) in Hb. apply Forall_app in Hb. apply Hb. }
      apply (H1 _ u); auto. apply IH; auto.
      pose proof (skipn_length len (b :: t)) as SL. cbn [length] in *. lia.
    + inversion Hb; subst. apply H2; auto. apply IH; auto. cbn in Hn. lia.
Qed.

Lemma repair_char : forall c u t, uchar c u -> Forall is_byte t -> repair (c ++ t) = c ++ repair t.
Proof.
  intros c u t Hu Ht. destruct (uchar_nonempty _ _ Hu) as (b & c' & Ec).
  rewrite repair_step.
  - rewrite (char_head_ok _ _ _ Hu Ht). rewrite firstn_app, skipn_app, Nat.sub_diag, firstn_all, skipn_all.
    cbn [firstn skipn app]. now rewrite app_nil_r.
  - apply Forall_app. split; auto. eapply uchar_bytes; eauto.
  - subst. easy.
Qed.

Lemma repair_bad : forall b t, Forall is_byte (b :: t) -> head_ok (b :: t) = None ->
  repair (b :: t) = replacement ++ repair t.
Proof. intros b t Hb E. rewrite repair_step by easy. now rewrite E. Qed.

Lemma replacement_char : uchar replacement 1.
Proof. constructor; unfold cont; lia. Qed.

Lemma repair_utext : forall t, Forall is_byte t -> exists n, utext (repair t) n.
Proof.
  apply bytes_ind.
  - exists 0. constructor.
  - intros c u t Hu Ht [n IH]. rewrite (repair_char _ _ _ Hu Ht). eexists. econstructor; eauto.
  - intros b t Hb Ht E [n IH]. rewrite repair_bad; auto. eexists. econstructor; eauto using replacement_char.
Qed.

Lemma repair_id : forall t n, utext t n -> repair t = t.
Proof.
  induction 1 as [|c u t n Hu Ht IH]; [reflexivity|].
  rewrite (repair_char _ _ _ Hu) by (eapply utext_bytes; eauto). now rewrite IH.
Qed.

Lemma repair_repairs : forall t, Forall is_byte t -> repairs t (repair t).
Proof.
  apply bytes_ind.
  - constructor.
  - intros c u t Hu Ht IH. rewrite (repair_char _ _ _ Hu Ht). econstructor; eauto.
  - intros b t Hb Ht E IH. rewrite repair_bad by auto. constructor; auto.
    intros c u t' Hu Eq. assert (Ht' : Forall is_byte t').
    { assert (HH : Forall is_byte (b :: t)) by auto. rewrite Eq in HH. apply Forall_app in HH. apply HH. }
    rewrite Eq, (char_head_ok _ _ _ Hu Ht') in E. discriminate.
Qed.

Lemma char_prefix_unique : forall c u t c' u' t', uchar c u -> uchar c' u' -> Forall is_byte t -> Forall is_byte t' ->
  c ++ t = c' ++ t' -> c = c' /\ t = t'.
Proof.
  intros c u t c' u' t' H H' Ht Ht' E.
  pose proof (char_head_ok _ _ _ H Ht) as A. pose proof (char_head_ok _ _ _ H' Ht') as B.
  rewrite E in A. rewrite A in B. injection B as B.
  apply app_eq_app in E. destruct E as (l & [[-> ->]|[-> ->]]); rewrite app_length in B;
    (destruct l; [|cbn in B; lia]); rewrite app_nil_r; auto.
Qed.

(** [repairs] has one result. *)
Lemma repairs_unique : forall t r, Forall is_byte t -> repairs t r -> r = repair t.
Proof.
  intros t r Hb H. induction H as [|c u t r Hu H IH|b t r Hn H IH].
  - reflexivity.
  - apply Forall_app in Hb as [_ Hb]. rewrite (repair_char _ _ _ Hu Hb). now rewrite IH.
  - pose proof Hb as Hb'. inversion Hb; subst. rewrite repair_bad; auto.
    + now rewrite IH.
    + destruct (head_ok (b :: t)) as [len|] eqn:E; [|auto].
      destruct (head_ok_char _ _ Hb' E) as (u & Hu & Eq & _). destruct (Hn _ _ _ Hu Eq).
Qed.

(** Locality: a head test that failed or succeeded does not depend on what follows a non-continuation
    byte. *)
Lemma conts_app_nc : forall k a b g, is_byte b -> ~ cont b -> conts k (a ++ b :: g) = conts k a.
Proof.
  induction k as [|k IH]; intros a b g Hb Hn; [destruct a; reflexivity|].
  destruct a as [|x a]; cbn [app conts].
  - rewrite cont_byte_iff by auto. unfold cont in Hn. now replace ((128 <=? b) && (b <? 192))%N with false by lia.
  - now rewrite IH.
Qed.

Lemma head_ok_app_nc : forall x a b g, is_byte b -> ~ cont b ->
  head_ok ((x :: a) ++ b :: g) = head_ok (x :: a).
Proof. intros. cbn [app head_ok]. destruct (char_len x); [|auto]. now rewrite conts_app_nc. Qed.

Lemma repair_app_nc : forall a, Forall is_byte a -> forall b g, Forall is_byte (b :: g) -> ~ cont b ->
  repair (a ++ b :: g) = repair a ++ repair (b :: g).
Proof.
  apply (bytes_ind (fun a => forall b g, Forall is_byte (b :: g) -> ~ cont b ->
           repair (a ++ b :: g) = repair a ++ repair (b :: g))).
  - reflexivity.
  - intros c u t Hu Ht IH b g Hg Hn. rewrite <- app_assoc.
    rewrite (repair_char _ _ (t ++ b :: g) Hu) by (apply Forall_app; auto).
    rewrite (repair_char _ _ t Hu Ht). rewrite IH by auto. now rewrite app_assoc.
  - intros x t Hx Ht E IH b g Hg Hn. inversion Hg; subst.
    rewrite (repair_bad x t) by auto. cbn [app].
    rewrite (repair_bad x (t ++ b :: g)).
    + rewrite IH by auto. reflexivity.
    + constructor; auto. apply Forall_app; auto.
    + change (x :: t ++ b :: g) with ((x :: t) ++ b :: g). rewrite head_ok_app_nc by auto. auto.
Qed.

Lemma utext_head : forall t n, utext t n -> t <> [] -> exists b t', t = b :: t' /\ ~ cont b.
Proof.
  intros t n H. destruct H as [|c u t n Hu H]; [easy|]. intros _.
  destruct Hu; cbn [app]; do 2 eexists; (split; [reflexivity|]); unfold cont; lia.
Qed.

Lemma utext_app : forall a n b m, utext a n -> utext b m -> utext (a ++ b) (n + m).
Proof.
  induction 1 as [|c u t n Hu H IH]; intros Hb; [auto|].
  rewrite <- app_assoc, <- Nat.add_assoc. constructor; auto.
Qed.

Lemma repair_good_part : forall a g n b, Forall is_byte a -> Forall is_byte b -> utext g n -> g <> [] ->
  repair (a ++ g ++ b) = repair a ++ g ++ repair b.
Proof.
  intros a g n b Ha Hb Hg Hne. destruct (utext_head _ _ Hg Hne) as (x & g' & E & Hx).
  pose proof (utext_bytes _ _ Hg) as HgB.
  assert (HG : Forall is_byte (x :: (g' ++ b))).
  { rewrite E in HgB. inversion HgB; subst. constructor; auto. apply Forall_app; auto. }
  replace (a ++ g ++ b) with (a ++ x :: (g' ++ b)) by (rewrite E; reflexivity).
  rewrite repair_app_nc by auto. f_equal. 
  replace (x :: g' ++ b) with (g ++ b) by (rewrite E; reflexivity).
  clear E Hx HG Hne HgB. induction Hg as [|c u t n Hu Ht IH]; [reflexivity|].
  rewrite <- app_assoc. rewrite (repair_char _ _ _ Hu).
  - now rewrite IH, app_assoc.
  - apply Forall_app. split; auto. eapply utext_bytes; eauto.
Qed.

Lemma strict_utext : forall t, strict_utf8 t -> exists n, utext t n.
Proof.
  induction 1 as [|c t Hc H [n IH]]; [exists 0; constructor|].
  assert (exists u, uchar c u) as [u Hu].
  { destruct Hc; eexists; constructor; unfold cont in *; lia. }
  eexists. econstructor; eauto.
Qed.
