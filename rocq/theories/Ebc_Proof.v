(** Proofs about the EBCDIC translation. *)
From Coq Require Import List NArith ZArith Bool Lia String.
From Coq Require Import ZifyBool ZifyNat ZifyN.
From Verif Require Import Common Ebc_Model Ebc_Spec.
Import ListNotations.
Open Scope N_scope.

(** Checking a decidable claim for all numbers below a bound. *)
Fixpoint below (n : nat) (f : N -> bool) : bool :=
  match n with
  | O => true
  | S n' => f (N.of_nat n') && below n' f
  end.

Lemma below_spec : forall n f, below n f = true -> forall x, (x < N.of_nat n) -> f x = true.
Proof.
  induction n as [|n IH]; intros f H x Hx; [lia|].
  cbn [below] in H. apply andb_true_iff in H as [H1 H2].
  destruct (N.eq_dec x (N.of_nat n)) as [->|Hn]; [exact H1|].
  apply IH; [exact H2|lia].
Qed.

(** The numbers below [n] all pass [f], by computation. *)
Tactic Notation "by_table" constr(f) constr(n) "as" ident(T) :=
  assert (T : below n f = true) by (vm_compute; reflexivity);
  let T' := fresh in pose proof (below_spec n f T) as T'; clear T; rename T' into T; cbv beta in T.

Lemma a2e_e2a : forall b, b < 256 -> a2e (e2a b) = b.
Proof.
  intros b Hb. by_table (fun b => a2e (e2a b) =? b) 256%nat as H.
  apply N.eqb_eq, H; lia.
Qed.

Lemma e2a_a2e : forall c, c < 256 -> e2a (a2e c) = c.
Proof.
  intros b Hb. by_table (fun b => e2a (a2e b) =? b) 256%nat as H.
  apply N.eqb_eq, H; lia.
Qed.

Lemma e2a_byte : forall b, e2a b < 256.
Proof.
  intros b. destruct (N.lt_ge_cases b 256) as [Hb|Hb].
  - by_table (fun b => e2a b <? 256) 256%nat as H. apply N.ltb_lt, H; lia.
  - unfold e2a. rewrite nth_overflow; [lia|change (List.length e2a_table) with 256%nat; lia].
Qed.

Lemma a2e_byte : forall b, a2e b < 256.
Proof.
  intros b. destruct (N.lt_ge_cases b 256) as [Hb|Hb].
  - by_table (fun b => a2e b <? 256) 256%nat as H. apply N.ltb_lt, H; lia.
  - unfold a2e. rewrite nth_overflow; [lia|change (List.length a2e_table) with 256%nat; lia].
Qed.

Lemma printable_table : forall b c, printable b c -> b < 256 /\ e2a b = c /\ a2e c = b.
Proof.
  intros b c (H1 & H2 & H3).
  assert (Hb : b < 256).
  { assert ((N.to_nat (b - 64) < List.length (s2b page))%nat) as Hl by (apply nth_error_Some; congruence).
    change (List.length (s2b page)) with 192%nat in Hl. lia. }
  split; [exact Hb|].
  by_table (fun b => (b <? 64) ||
     match nth_error (s2b page) (N.to_nat (b - 64)) with
     | None => true
     | Some c => (c =? 46) && negb (b =? 75) || (e2a b =? c) && (a2e c =? b)
     end) 256%nat as H.
  specialize (H b ltac:(lia)). rewrite H2 in H. lia.
Qed.

(** ** UTF-8 *)
Lemma to_ascii_utf8 : forall b, to_ascii b = utf8 (e2a b).
Proof.
  intros b. unfold to_ascii, utf8. pose proof (e2a_byte b) as Hb.
  destruct (e2a b <? 128) eqn:E; [reflexivity|].
  replace (e2a b <? 2048) with true by lia.
  by_table (fun v => (v <? 128) || (N.lor (N.shiftr v 6) 192 =? 192 + v / 64)
     && (N.lor (N.land v 63) 128 =? 128 + v mod 64)) 256%nat as H.
  specialize (H (e2a b) ltac:(lia)). apply orb_true_iff in H as [H|H]; [lia|].
  apply andb_true_iff in H as [Ha Hc]. apply N.eqb_eq in Ha, Hc. now rewrite Ha, Hc.
Qed.

Definition simple (cp : N) : N := if cp <? 256 then cp else 26.

Local Ltac Zify.zify_post_hook ::= Z.div_mod_to_equations.

Lemma decode_char : forall w cp s, code_point cp -> (w = until_nul -> cp <> 0) ->
  decode w 0 (utf8 cp ++ s) = option_map (cons (simple cp)) (decode w 0 s).
Proof.
  intros w cp s Hc Hz. unfold code_point in Hc. unfold utf8, simple.
  assert (Hstep : forall x s' v k, to_pseudoascii (x :: s') = (v, k) ->
    (w = until_nul -> x <> 0) ->
    decode w 0 (x :: s') = option_map (cons v) (decode w k s')).
  { intros x s' v k E Hx. cbn [decode].
    destruct w; rewrite E; cbn [fst snd]; try reflexivity.
    replace (x =? 0) with false; [reflexivity|].
    specialize (Hx eq_refl). lia. }
  destruct (cp <? 128) eqn:E1.
  { replace (cp <? 256) with true by lia. cbn [app].
    apply Hstep; [|exact Hz]. unfold to_pseudoascii, peek; cbn [nth]. now rewrite E1. }
  destruct (cp <? 2048) eqn:E2.
  { cbn [app].
    rewrite (Hstep _ _ (if cp <? 256 then cp else 26) 1%nat); [reflexivity| |intros; lia].
    unfold to_pseudoascii, peek; cbn [nth].
    replace (192 + cp / 64 <? 128) with false by lia.
    replace (128 + cp mod 64 =? 0) with false by lia.
    by_table (fun cp => (cp <? 128) || (N.land (192 + cp / 64) 224 =? 192) &&
      (if cp <? 256 then (N.land (192 + cp / 64) 28 =? 0) &&
         (N.lor (N.shiftl (N.land (192 + cp / 64) 3) 6) (N.land (128 + cp mod 64) 63) =? cp)
       else negb (N.land (192 + cp / 64) 28 =? 0))) 2048%nat as H.
    specialize (H cp ltac:(lia)).
    apply orb_true_iff in H as [H|H]; [lia|].
    apply andb_true_iff in H as [Ha Hb]. rewrite Ha.
    destruct (cp <? 256).
    - apply andb_true_iff in Hb as [Hb Hv]. rewrite Hb. cbn [negb].
      apply N.eqb_eq in Hv. now rewrite Hv.
    - rewrite Hb. reflexivity. }
  replace (cp <? 256) with false by lia.
  destruct (cp <? 65536) eqn:E3.
  { cbn [app]. rewrite (Hstep _ _ 26 2%nat); [reflexivity| |intros; lia].
    unfold to_pseudoascii, peek; cbn [nth].
    assert (Hh : cp / 4096 < 16) by lia.
    replace (224 + cp / 4096 <? 128) with false by lia.
    replace (128 + cp / 64 mod 64 =? 0) with false by lia.
    by_table (fun h => negb (N.land (224 + h) 224 =? 192) && (N.land (224 + h) 240 =? 224)) 16%nat as H.
    specialize (H (cp / 4096) ltac:(lia)). apply andb_true_iff in H as [Ha Hb].
    apply negb_true_iff in Ha. now rewrite Ha, Hb. }
  { cbn [app]. rewrite (Hstep _ _ 26 3%nat); [reflexivity| |intros; lia].
    unfold to_pseudoascii, peek; cbn [nth].
    assert (Hh : cp / 262144 < 5) by lia.
    replace (240 + cp / 262144 <? 128) with false by lia.
    replace (128 + cp / 4096 mod 64 =? 0) with false by lia.
    replace (128 + cp / 64 mod 64 =? 0) with false by lia.
    by_table (fun h => negb (N.land (240 + h) 224 =? 192) && negb (N.land (240 + h) 240 =? 224)
       && (N.land (240 + h) 248 =? 240)) 5%nat as H.
    specialize (H (cp / 262144) ltac:(lia)).
    apply andb_true_iff in H as [H Hb]. apply andb_true_iff in H as [Ha Ha'].
    apply negb_true_iff in Ha, Ha'. now rewrite Ha, Ha', Hb. }
Qed.

Lemma decode_text_app : forall w cps s, Forall code_point cps ->
  (w = until_nul -> ~ In 0 cps) ->
  decode w 0 (text cps ++ s) = option_map (app (map simple cps)) (decode w 0 s).
Proof.
  intros w cps s H Hz. induction H as [|cp cps Hc H IH].
  - cbn [text flat_map app map]. now destruct (decode w 0 s).
  - unfold text in *. cbn [flat_map map]. rewrite <- app_assoc.
    rewrite decode_char; [|exact Hc|].
    + rewrite IH; [now destruct (decode w 0 s)|].
      intros Ew Hi. exact (Hz Ew (or_intror Hi)).
    + intros Ew ->. exact (Hz Ew (or_introl eq_refl)).
Qed.

Lemma decode_text : forall w cps, Forall code_point cps -> (w = until_nul -> ~ In 0 cps) ->
  decode w 0 (text cps) = Some (map simple cps).
Proof.
  intros w cps H Hz. rewrite <- (app_nil_r (text cps)), decode_text_app by assumption.
  cbn [decode]. cbn [option_map]. now rewrite app_nil_r.
Qed.

Lemma simple_translates : forall cp, translates e2a cp (a2e (simple cp)).
Proof.
  intros cp. unfold translates, simple. split; [apply a2e_byte|].
  destruct (cp <? 256) eqn:E; split; intros H; try lia.
  - apply e2a_a2e; lia.
  - reflexivity.
Qed.

Lemma to_ebcdic_text : forall cps, Forall code_point cps -> ~ In 0 cps ->
  exists bs, to_ebcdic (text cps) = Some bs /\ Forall2 (translates e2a) cps bs.
Proof.
  intros cps H Hz. exists (map a2e (map simple cps)). split.
  - unfold to_ebcdic. rewrite decode_text; [reflexivity|exact H|intros; exact Hz].
  - clear. induction cps; cbn [map]; constructor; [apply simple_translates|assumption].
Qed.

Lemma text_of_bytes : forall bs, flat_map to_ascii bs = text (map e2a bs).
Proof.
  induction bs as [|b bs IH]; [reflexivity|].
  unfold text in *. cbn [flat_map map]. now rewrite IH, to_ascii_utf8.
Qed.

Lemma simple_bytes : forall bs, Forall (fun b => b < 256) bs ->
  map a2e (map simple (map e2a bs)) = bs.
Proof.
  induction 1 as [|b bs Hb H IH]; [reflexivity|].
  cbn [map]. rewrite IH. f_equal. unfold simple. pose proof (e2a_byte b).
  replace (e2a b <? 256) with true by lia. now apply a2e_e2a.
Qed.

Lemma e2a_zero : forall b, b < 256 -> e2a b = 0 -> b = 0.
Proof.
  intros b Hb H. rewrite <- (a2e_e2a b Hb), H. reflexivity.
Qed.

Lemma bytes_code_points : forall bs, Forall code_point (map e2a bs).
Proof.
  induction bs; cbn [map]; constructor; [|assumption].
  unfold code_point. pose proof (e2a_byte a). lia.
Qed.

Lemma decode_bytes : forall w bs, Forall (fun b => b < 256) bs ->
  (w = until_nul -> ~ In 0 bs) ->
  option_map (map a2e) (decode w 0 (flat_map to_ascii bs)) = Some bs.
Proof.
  intros w bs H Hz. rewrite text_of_bytes, decode_text.
  - cbn [option_map]. now rewrite simple_bytes.
  - apply bytes_code_points.
  - intros Ew Hi. apply in_map_iff in Hi as (b & Hb & Hi).
    rewrite Forall_forall in H. apply (Hz Ew).
    rewrite (e2a_zero b (H b Hi) Hb) in Hi. exact Hi.
Qed.

(** ** What a walk does when the text is not UTF-8 *)
Lemma decode_until_nul_stops : forall a b, Forall code_point a -> ~ In 0 a ->
  decode until_nul 0 (text a ++ 0 :: b) = decode until_nul 0 (text a).
Proof.
  intros a b H Hz. rewrite decode_text_app by (assumption || (intros; assumption)).
  rewrite decode_text by (assumption || (intros; assumption)).
  cbn [decode option_map N.eqb]. now rewrite app_nil_r.
Qed.
