(** * Mdl_Line: labels and operations of lines, and their use *)
From Coq Require Import List NArith Bool Arith Lia ZifyBool ZifyN.
From Verif Require Import Common Mdl_Model Mdl_Spec Mdl_Proof Mdl_Label Mdl_First.
Import ListNotations.

Definition starts_apo (ts : list tok) : Prop := match ts with t :: _ => apo t = true | [] => False end.

Lemma chain_label_text : forall value c, label_text value (chain_label c) = evaluate value false c.
Proof. intros value c. destruct c as [|[] [|]]; try reflexivity. cbn. rewrite app_nil_r. reflexivity. Qed.
Lemma text_label_text : forall value s o, label_text value (text_label s o) = s.
Proof.
  intros value s o. destruct s as [|c [|d s]]; cbn; [destruct o; reflexivity..|]. destruct (N.eqb_spec c DOT) as [->|]; [reflexivity|].
  destruct o; reflexivity.
Qed.
Lemma lab_label_text : forall l q, Lab l q -> lexed q -> forall value, label_text value l = substituted value false q.
Proof.
  intros l q H HL value. destruct H as [q H1 H2 H3|q H1 H2|c q (H1 & _) Hc|c q (H1 & _) Hc|].
  - rewrite text_label_text, written_substituted by assumption. reflexivity.
  - cbn. rewrite written_substituted by assumption. reflexivity.
  - rewrite chain_label_text. rewrite <- Hc. apply H1. assumption.
  - rewrite chain_label_text. rewrite <- Hc. apply H1. assumption.
  - reflexivity.
Qed.

Lemma word_prefix : forall q r, Forall nonspace q -> field_end r -> word (q ++ r) = q /\ rest (q ++ r) = r.
Proof.
  intros q r H Hr. induction H as [|t q H HF [IH1 IH2]].
  - cbn. destruct r as [|t r]; [split; reflexivity|]. destruct t; try contradiction. split; reflexivity.
  - cbn [app]. destruct t; cbn; try contradiction; rewrite IH1, IH2; auto.
Qed.
Lemma lab_word : forall l q s r, Lab l q -> ~ starts_apo (q ++ TSpace s :: r) ->
  word (q ++ TSpace s :: r) = q /\ rest (q ++ TSpace s :: r) = TSpace s :: r.
Proof.
  intros l q s r H Ha. apply word_prefix; [|exact I]. destruct H as [q H1 H2 H3|q H1 (t & r' & -> & H2)|c q (_ & H1 & _) Hc|c q (_ & t & r' & -> & H2) Hc|].
  - assumption.
  - exfalso. apply Ha. exact H2.
  - assumption.
  - exfalso. apply Ha. exact H2.
  - constructor.
Qed.

Lemma first_part_s : forall ts l i r, first_part ts = Some (l, i, r) ->
  exists q s r', ts = q ++ TSpace s :: r' /\ Lab l q /\ reads r' i r.
Proof.
  intros ts l i r E. unfold first_part in E. destruct (label_s _ _ _ _ E) as (l' & q & r0 & -> & HL & E2).
  destruct r0 as [|t r0]; [discriminate|]. destruct t as [| | | | | | | | | | |s|]; try discriminate.
  destruct (instruction_det r0) as [(i' & r' & Hr & Hd)|(_ & _ & _ & Hd)].
  - rewrite Hd in E2 by discriminate. injection E2 as -> -> ->. exists q, s, r0. auto.
  - rewrite Hd in E2. discriminate.
Qed.
Definition readable (ts : list tok) : Prop :=
  has_var (run ts) \/ (exists s r, ts = TOrd s :: r) \/ (exists s r, ts = TIdent s :: r).
Lemma reads_readable : forall ts i r, reads ts i r -> readable ts.
Proof. intros ts i r []; [left|right; left|right; right]; eauto. Qed.
Lemma label_a : forall A q, Forall nonspace q -> ~ starts_apo q -> (has_var q -> Nat.even (apostrophes q) = true) -> Acc (label A) q.
Proof.
  intros A q H1 H2 H3. unfold label. destruct q as [|t q].
  - apply alt_ar, alt_ar, alt_ar, alt_ar, ret_a.
  - assert (Ht : exists u r, t :: q = u :: r /\ nonapo u).
    { exists t, q. split; [reflexivity|]. unfold nonapo. cbn in H2. destruct (apo t); [congruence|reflexivity]. }
    destruct (has_var_dec (t :: q)) as [Hn|Hv].
    + apply alt_al. apply bind_a0; [apply l_char_string_a; assumption|]. intro. apply ret_a.
    + apply alt_ar, alt_ar, alt_al. apply bind_a0; [apply l_model_a; auto|]. intro. apply ret_a.
Qed.
Lemma first_part_a : forall ts s r, ~ starts_apo ts -> rest ts = TSpace s :: r ->
  (has_var (word ts) -> Nat.even (apostrophes (word ts)) = true) -> readable r -> first_part ts <> None.
Proof.
  intros ts s r Ha Er Hv Hr. destruct (word_rest ts) as (E & Hw & _). unfold first_part. rewrite E, Er.
  apply label_a; [assumption| |assumption|].
  - intro K. apply Ha. destruct ts as [|t ts]; [destruct K|]. cbn. destruct t; cbn in K; try discriminate; try reflexivity; contradiction.
  - intro l. destruct (instruction_det r) as [(i' & r' & _ & Hd)|(N1 & N2 & N3 & _)].
    + rewrite Hd; discriminate.
    + exfalso. destruct Hr as [Hr|[(? & ? & Hr)|(? & ? & Hr)]]; [contradiction|exact (N2 _ _ Hr)|exact (N3 _ _ Hr)].
Qed.

(** ** When a label is one variable symbol *)
Lemma sub_nil : forall q, lexed q -> (forall value, substituted value false q = []) -> q = [].
Proof.
  intros q HL H. destruct q as [|t q]; [reflexivity|]. exfalso. inversion HL as [|? ? Ht _]; subst. specialize (H (fun _ => [0%N])).
  destruct t; cbn in *; try discriminate; try (destruct s; [congruence|discriminate]).
Qed.
Lemma after_last : forall q, after false q = true -> exists q' v, q = q' ++ [TVar v].
Proof.
  intros q H. destruct q as [|t q] using rev_ind; [discriminate|]. rewrite after_app in H. cbn in H. destruct t; try discriminate. eauto.
Qed.
Lemma bytes_neq : forall a b : bytes, {a = b} + {a <> b}.
Proof. intros. decide equality. apply N.eq_dec. Qed.
Lemma sub_var : forall q v, lexed q -> after false q = true -> (forall value, substituted value false q = value v) -> q = [TVar v].
Proof.
  intros q v HL Ha H. destruct (after_last q Ha) as (q' & w & ->). apply lexed_app in HL. destruct HL as [HL _].
  assert (Hw : w = v).
  { destruct (bytes_neq w v) as [|n]; [assumption|]. exfalso. specialize (H (fun x => if bytes_neq x w then [0%N] else [])).
    rewrite substituted_app in H. cbn in H. destruct (bytes_neq w w); [|congruence]. destruct (bytes_neq v w); [congruence|].
    destruct (substituted _ false q'); discriminate. }
  subst w. assert (K : q' = []); [|rewrite K; reflexivity]. apply sub_nil; [assumption|]. intro value. specialize (H value).
  rewrite substituted_app in H. cbn in H. rewrite app_nil_r in H. apply (f_equal (@length N)) in H. rewrite app_length in H.
  destruct (substituted value false q'); [reflexivity|cbn in H; lia].
Qed.
Lemma clear_length : forall c, length (clear_concat_chain c) <= length c.
Proof. unfold clear_concat_chain. induction c as [|p c IH]; [apply le_n|]. cbn [filter]. destruct p as [[|]| | |]; cbn [length]; lia. Qed.
Lemma ev_nil : forall c, clear_concat_chain c = c -> (forall value, evaluate value false c = []) -> c = [].
Proof.
  intros c Hc H. destruct c as [|p c]; [reflexivity|]. exfalso. specialize (H (fun _ => [0%N])).
  destruct p as [s|v| |]; cbn in *; try discriminate. destruct s; [|discriminate].
  pose proof (clear_length c) as K.
  unfold clear_concat_chain in K. rewrite Hc in K. cbn in K. lia.
Qed.
Lemma afterc_last : forall c, afterc false c = true -> exists c' v, c = c' ++ [Var v].
Proof.
  intros c H. destruct c as [|t c] using rev_ind; [discriminate|]. rewrite afterc_app in H. cbn in H. destruct t; try discriminate. eauto.
Qed.
Lemma clear_app_inv : forall c d, clear_concat_chain (c ++ d) = c ++ d -> clear_concat_chain c = c.
Proof.
  induction c as [|p c IH]; intros d H; [reflexivity|].
  pose proof clear_length as K.
  destruct p as [[|]| | |]; cbn in *; try (f_equal; apply (IH d); unfold clear_concat_chain; congruence).
  exfalso. specialize (K (c ++ d)). unfold clear_concat_chain in K. rewrite H in K. cbn in K. lia.
Qed.
Lemma ev_var : forall c v, clear_concat_chain c = c -> afterc false c = true -> (forall value, evaluate value false c = value v) -> c = [Var v].
Proof.
  intros q v HL Ha H. destruct (afterc_last q Ha) as (q' & w & ->). apply clear_app_inv in HL.
  assert (Hw : w = v).
  { destruct (bytes_neq w v) as [|n]; [assumption|]. exfalso. specialize (H (fun x => if bytes_neq x w then [0%N] else [])).
    rewrite evaluate_app in H. cbn in H. destruct (bytes_neq w w); [|congruence]. destruct (bytes_neq v w); [congruence|].
    destruct (evaluate _ false q'); discriminate. }
  subst w. assert (K : q' = []); [|rewrite K; reflexivity]. apply ev_nil; [assumption|]. intro value. specialize (H value).
  rewrite evaluate_app in H. cbn in H. rewrite app_nil_r in H. apply (f_equal (@length N)) in H. rewrite app_length in H.
  destruct (evaluate value false q'); [reflexivity|cbn in H; lia].
Qed.
Lemma lab_var : forall l q, Lab l q -> lexed q -> has_var q ->
  (exists v, l = LVar v /\ q = [TVar v]) \/ (exists c, l = LConc c /\ forall v, q <> [TVar v]).
Proof.
  intros l q H HL Hv.
  assert (NV : Forall nonvar q -> False).
  { intro K. destruct Hv as [v Hv]. rewrite Forall_forall in K. apply K in Hv. discriminate. }
  assert (C : forall c, WL false c q -> clear_concat_chain c = c ->
    (exists v, chain_label c = LVar v /\ q = [TVar v]) \/ (exists c', chain_label c = LConc c' /\ forall v, q <> [TVar v])).
  { intros c HW Hc. destruct (HW HL) as [E A]. rewrite Hc in E, A.
    assert (D : (exists v, c = [Var v]) \/ forall v, c <> [Var v]).
    { destruct c as [|[s|v| |] [|]]; try (right; discriminate). left. eauto. }
    destruct D as [[v ->]|D].
    - left. exists v. split; [reflexivity|]. apply sub_var; [assumption|symmetry; exact A|]. intro value. rewrite <- E. cbn. apply app_nil_r.
    - right. exists c. split.
      + destruct c as [|[s|v| |] [|]]; try reflexivity. exfalso. apply (D v). reflexivity.
      + intros v ->. apply (D v). apply ev_var; [assumption|exact A|]. intro value. rewrite E. cbn. apply app_nil_r. }
  destruct H as [q H1 H2 H3|q H1 H2|c q (H1 & _) Hc|c q (H1 & _) Hc|]; try (exfalso; apply NV; assumption); auto.
  exfalso. apply NV. constructor.
Qed.
Lemma lab_novar : forall l q, Lab l q -> ~ starts_apo q -> Forall nonvar q -> q <> [] -> l = text_label (written q) (lone q).
Proof.
  intros l q H Ha Hn Hq. destruct H as [q H1 H2 H3|q H1 (t & r & -> & Ht)|c q (_ & _ & _ & _ & v & Hv) Hc|c q (_ & t & r & -> & Ht) Hc|].
  - reflexivity.
  - exfalso. apply Ha. exact Ht.
  - rewrite Forall_forall in Hn. apply Hn in Hv. discriminate.
  - exfalso. apply Ha. exact Ht.
  - congruence.
Qed.
Lemma lab_even : forall l q, Lab l q -> ~ starts_apo q -> has_var q -> Nat.even (apostrophes q) = true.
Proof.
  intros l q H Ha Hv.
  assert (NV : Forall nonvar q -> False).
  { intro K. destruct Hv as [v Hv]. rewrite Forall_forall in K. apply K in Hv. discriminate. }
  destruct H as [q H1 H2 H3|q H1 (t & r & -> & Ht)|c q (_ & _ & H1 & _) Hc|c q (_ & t & r & -> & Ht) Hc|]; try (exfalso; apply NV; assumption).
  - assumption.
  - exfalso. apply Ha. exact Ht.
  - reflexivity.
Qed.
Lemma lab_nil : forall l, Lab l [] -> l = LEmpty.
Proof.
  intros l H. inversion H as [q H1 H2 (t & r & K & _)|q H1 (t & r & K & _)|c q (_ & _ & _ & (t & r & K & _) & _)|c q (_ & t & r & K & _)|]; subst;
    try discriminate. reflexivity.
Qed.

(** ** Blanks around an operation *)
Lemma trim_left_spec : forall s, exists i, s = repeat 32%N i ++ trim_left s /\ forall c r, trim_left s = c :: r -> c <> 32%N.
Proof.
  induction s as [|c s (i & E & H)]; [exists 0; split; [reflexivity|discriminate]|]. cbn. destruct (N.eqb_spec c BLANK) as [->|Hc].
  - exists (S i). split; [cbn; f_equal; exact E|assumption].
  - exists 0. split; [reflexivity|]. intros c' r K. injection K as -> _. exact Hc.
Qed.
Lemma rev_repeat : forall A (x : A) n, rev (repeat x n) = repeat x n.
Proof.
  intros A x n. induction n as [|n IH]; [reflexivity|]. cbn. rewrite IH. clear. induction n; [reflexivity|]. cbn. f_equal. assumption.
Qed.
Lemma trim_right_spec : forall s, exists j, s = trim_right s ++ repeat 32%N j /\ forall c r, trim_right s = r ++ [c] -> c <> 32%N.
Proof.
  intro s. unfold trim_right. destruct (trim_left_spec (rev s)) as (j & E & H). exists j. split.
  - rewrite <- (rev_involutive s) at 1. rewrite E at 1. rewrite rev_app_distr, rev_repeat. reflexivity.
  - intros c r K. apply (f_equal (@rev N)) in K. rewrite rev_involutive, rev_app_distr in K. cbn in K. exact (H _ _ K).
Qed.
Lemma trim_spec : forall s, trimmed s (trim_left (trim_right s)).
Proof.
  intro s. destruct (trim_right_spec s) as (j & E & H). destruct (trim_left_spec (trim_right s)) as (i & E2 & H2).
  exists i, j. split; [rewrite app_assoc, <- E2; exact E|]. split; [exact H2|]. intros c r K. apply (H c (repeat 32%N i ++ r)).
  rewrite E2 at 1. rewrite K, app_assoc. reflexivity.
Qed.
