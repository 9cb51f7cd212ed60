(** C27: the EBCDIC translation. *)
From Coq Require Import List NArith Bool String Lia.
From Verif Require Import Common Ebc_Model Ebc_Spec Ebc_Proof.
Import ListNotations.
Open Scope N_scope.

(** The two tables hold bytes and are inverse to each other. *)
Theorem C27_tables : forall b, b < 256 ->
  e2a b < 256 /\ a2e b < 256 /\ a2e (e2a b) = b /\ e2a (a2e b) = b.
Proof.
  intros b H. repeat split; auto using e2a_byte, a2e_byte, a2e_e2a, e2a_a2e.
Qed.
Print Assumptions C27_tables.

(** They have the right size, so that every byte has its entry. *)
Theorem C27_table_sizes : List.length a2e_table = 256%nat /\ List.length e2a_table = 256%nat.
Proof. split; reflexivity. Qed.
Print Assumptions C27_table_sizes.

(** The printable characters are where the code page has them. *)
Theorem C27_code_page : forall b c, printable b c -> e2a b = c /\ a2e c = b.
Proof. intros b c H. now destruct (printable_table b c H) as (_ & H1 & H2). Qed.
Print Assumptions C27_code_page.

Example C27_ex_page : printable 193 65 /\ printable 75 46 /\ printable 240 48.
Proof. unfold printable. repeat split; try reflexivity; try lia. Qed.

(** A byte is written as the UTF-8 encoding of its character. *)
Theorem C27_to_text : forall b, to_ascii b = utf8 (e2a b).
Proof. exact to_ascii_utf8. Qed.
Print Assumptions C27_to_text.

(** Any text without NUL is translated character by character: Latin-1 characters to their
    position in the code page, all others to SUB. *)
Theorem C27_from_text : forall cps, Forall code_point cps -> ~ In 0 cps ->
  exists bs, to_ebcdic (text cps) = Some bs /\ Forall2 (translates e2a) cps bs.
Proof. exact to_ebcdic_text. Qed.
Print Assumptions C27_from_text.

(** Bytes other than zero, written out and read back, are unchanged. *)
Theorem C27_round_trip : forall bs, Forall (fun b => b < 256) bs -> ~ In 0 bs ->
  to_ebcdic (flat_map to_ascii bs) = Some bs.
Proof. intros bs H Hz. exact (decode_bytes until_nul bs H (fun _ => Hz)). Qed.
Print Assumptions C27_round_trip.

Example C27_ex_round_trip : Forall (fun b => b < 256) [193; 64; 4; 255] /\ ~ In 0 [193; 64; 4; 255] /\
  flat_map to_ascii [193; 4] = [65; 194; 156].
Proof.
  split; [repeat constructor|]. split; [|reflexivity].
  intros [H|[H|[H|[H|[]]]]]; discriminate H.
Qed.

(** A zero byte ends the text: everything from it on is lost. *)
Theorem C27_round_trip_zero_refuted : forall a b,
  Forall (fun x => x < 256) a -> ~ In 0 a ->
  to_ebcdic (flat_map to_ascii (a ++ 0 :: b)) = Some a.
Proof.
  intros a b Ha Hz. rewrite flat_map_app. cbn [flat_map].
  change (to_ascii 0) with [0]. cbn [app].
  rewrite text_of_bytes. unfold to_ebcdic. rewrite decode_until_nul_stops.
  - rewrite <- text_of_bytes. exact (decode_bytes until_nul a Ha (fun _ => Hz)).
  - apply bytes_code_points.
  - intros Hi. apply in_map_iff in Hi as (x & Hx & Hi). rewrite Forall_forall in Ha.
    apply Hz. now rewrite <- (e2a_zero x (Ha x Hi) Hx).
Qed.
Print Assumptions C27_round_trip_zero_refuted.

(** Reading text that stops inside a character of three or four bytes runs past the end of the
    string.  (Substrings are taken byte by byte, so such text is easily made.) *)
Theorem C27_split_character_refuted : forall x y,
  224 <= x < 248 -> 128 <= y < 192 -> to_ebcdic [x; y] = None.
Proof.
  intros x y Hx Hy. unfold to_ebcdic. cbn [decode].
  replace (x =? 0) with false by lia. replace (y =? 0) with false by lia.
  unfold to_pseudoascii, peek. cbn [nth].
  replace (x <? 128) with false by lia. replace (y =? 0) with false by lia.
  by_table (fun x => (x <? 224) || (248 <=? x) ||
     (negb (N.land x 224 =? 192) && ((N.land x 240 =? 224) || (N.land x 248 =? 240)))) 256%nat as T.
  specialize (T x ltac:(lia)).
  replace (x <? 224) with false in T by lia. replace (248 <=? x) with false in T by lia.
  cbn [orb] in T. apply andb_true_iff in T as [T1 T2]. apply negb_true_iff in T1. rewrite T1.
  destruct (N.land x 240 =? 224); [reflexivity|]. cbn [orb] in T2. rewrite T2. reflexivity.
Qed.
Print Assumptions C27_split_character_refuted.

(** The result of a translation is never longer than the text. *)
Theorem C27_no_growth : forall s bs, to_ebcdic s = Some bs -> (List.length bs <= List.length s)%nat.
Proof.
  intros s bs H. unfold to_ebcdic in H.
  destruct (decode until_nul 0 s) as [cs|] eqn:E; [|discriminate]. injection H as <-.
  rewrite map_length. revert E. generalize 0%nat as k. revert cs.
  induction s as [|x s IH]; intros cs k E.
  - destruct k; [injection E as <-; cbn; lia|discriminate].
  - destruct k; cbn [decode] in E.
    + destruct (x =? 0); [injection E as <-; cbn; lia|].
      destruct (decode until_nul (snd (to_pseudoascii (x :: s))) s) as [cs'|] eqn:E2; [|discriminate].
      injection E as <-. apply IH in E2. cbn [List.length]. lia.
    + apply IH in E. cbn [List.length]. lia.
Qed.
Print Assumptions C27_no_growth.
