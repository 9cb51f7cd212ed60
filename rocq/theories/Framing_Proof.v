From Coq Require Import List Arith NArith Bool Lia.
From Verif Require Import Common Framing_Model Framing_Spec.
Import ListNotations.
Open Scope N_scope.

Lemma take_line_app : forall h r, ~ In 10 h -> take_line (h ++ 10 :: r) = (h, 10 :: r).
Proof.
  induction h as [|c h IH]; intros r Hn; simpl; [easy|].
  destruct (N.eqb_spec c 10); [subst; exfalso; apply Hn; now left|].
  rewrite IH; [easy|]. intros H; apply Hn; now right.
Qed.

Definition nls (b : bool) : bytes := if b then [10] else [].

Lemma extract_line_ok : forall nl old h r, h <> [] -> ~ In 10 h ->
  extract_line old (mkS (nls nl ++ h ++ 10 :: r) false false) = (h, mkS (10 :: r) false false).
Proof.
  intros nl old h r Hne Hn. unfold extract_line. simpl eof. simpl fail. cbn [orb rest].
  assert (E : skip_nl (nls nl ++ h ++ 10 :: r) = h ++ 10 :: r).
  { assert (E : skip_nl (h ++ 10 :: r) = h ++ 10 :: r).
    { destruct h as [|c h]; [easy|]. simpl. destruct (N.eqb_spec c 10); [|easy].
      subst. exfalso; apply Hn; now left. }
    destruct nl; simpl; exact E. }
  rewrite E. destruct h as [|c h]; [easy|]. cbn [app].
  change (c :: h ++ 10 :: r) with ((c :: h) ++ 10 :: r). now rewrite take_line_app.
Qed.

Lemma cls_eq : content_length_string = s2b "Content-Length: ".
Proof. reflexivity. Qed.

Lemma other_not_cl : forall h, other_header h -> starts_with content_length_string h = false.
Proof.
  intros h (_ & _ & _ & H). destruct (starts_with content_length_string h) eqn:E; [|easy].
  apply starts_with_app in E. rewrite cls_eq in E. now apply H in E.
Qed.

Lemma bytes_eqb_neq : forall a b, a <> b -> bytes_eqb a b = false.
Proof. intros a b H. destruct (bytes_eqb a b) eqn:E; [|easy]. now apply bytes_eqb_eq in E. Qed.

Lemma read_headers_others : forall hs f cl old nl r,
  Forall other_header hs ->
  exists line', read_headers (length hs + f) cl old (mkS (nls nl ++ header_lines hs ++ r) false false)
   = read_headers f cl line' (mkS (nls (match hs with [] => nl | _ => true end) ++ r) false false).
Proof.
  induction hs as [|h hs IH]; intros f cl old nl r Hf.
  - exists old. reflexivity.
  - inversion Hf as [|? ? Hh Hhs]; subst. 
    destruct (IH f cl h true r Hhs) as [l' E]. exists l'.
    cbn [length Nat.add read_headers eof fail orb].
    unfold header_lines. cbn [map concat]. fold (header_lines hs). rewrite <- !app_assoc. cbn [app].
    pose proof Hh as (H1 & H2 & H3 & H4).
    rewrite extract_line_ok by assumption. rewrite other_not_cl by assumption.
    rewrite bytes_eqb_neq by assumption.
    change (10 :: header_lines hs ++ r) with (nls true ++ header_lines hs ++ r).
    rewrite E. destruct hs; reflexivity.
Qed.

Lemma digits_no10 : forall l, Forall (fun c => is_digit c = true) l -> ~ In 10 l.
Proof. intros l H Hin. rewrite Forall_forall in H. apply H in Hin. discriminate. Qed.

Lemma read_headers_wire : forall pre post n f nl old r,
  Forall other_header pre -> Forall other_header post -> n < 2 ^ 64 ->
  (length pre + length post + 2 <= f)%nat ->
  read_headers f 0 old (mkS (nls nl ++ header_lines pre ++ s2b "Content-Length: " ++ dec n
     ++ [13;10] ++ header_lines post ++ [13;10] ++ r) false false)
  = (HdrLen n, mkS r false false).
Proof.
  intros pre post n f nl old r Hpre Hpost Hn Hf.
  replace f with (length pre + S (length post + S (f - length pre - length post - 2)))%nat by lia.
  set (g := (f - length pre - length post - 2)%nat). clearbody g.
  destruct (read_headers_others pre (S (length post + S g)) 0 old nl
    (s2b "Content-Length: " ++ dec n ++ [13;10] ++ header_lines post ++ [13;10] ++ r) Hpre) as [l1 E1].
  rewrite E1. set (nl1 := match pre with [] => nl | _ => true end). clearbody nl1.
  set (h := s2b "Content-Length: " ++ dec n ++ [13]).
  replace (s2b "Content-Length: " ++ dec n ++ [13;10] ++ header_lines post ++ [13;10] ++ r)
    with (h ++ 10 :: header_lines post ++ [13;10] ++ r)
    by (unfold h; rewrite <- !app_assoc; reflexivity).
  cbn [read_headers eof fail orb].
  assert (Hin : ~ In 10 h).
  { unfold h. intros Hin. apply in_app_or in Hin as [Hin|Hin].
    - cbn in Hin. repeat (destruct Hin as [Hin|Hin]; [discriminate|]). easy.
    - apply in_app_or in Hin as [Hin|Hin].
      + now apply (digits_no10 _ (dec_digits n)).
      + cbn in Hin. destruct Hin; [discriminate|easy]. }
  rewrite extract_line_ok; [|unfold h; discriminate|exact Hin].
  assert (Hs : starts_with content_length_string h = true).
  { apply starts_with_app. exists (dec n ++ [13]). reflexivity. }
  rewrite Hs.
  replace (skipn (length content_length_string) h) with (dec n ++ [13]) by reflexivity.
  rewrite from_chars_dec_spec by (auto; reflexivity). cbn [fst].
  change (10 :: header_lines post ++ [13; 10] ++ r) with (nls true ++ header_lines post ++ [13; 10] ++ r).
  destruct (read_headers_others post (S g) n h true ([13;10] ++ r) Hpost) as [l2 E2].
  rewrite E2. set (nl2 := match post with [] => _ | _ => _ end).
  replace (nls nl2 ++ [13;10] ++ r) with (nls nl2 ++ [13] ++ 10 :: r) by reflexivity.
  clearbody nl2. cbn [read_headers eof fail orb].
  rewrite extract_line_ok; [|discriminate|cbn; intros [?|?]; [discriminate|easy]].
  reflexivity.
Qed.

Lemma header_lines_len : forall hs, (length hs <= length (header_lines hs))%nat.
Proof.
  induction hs as [|h hs IH]; [easy|]. unfold header_lines in *. cbn [map concat length].
  rewrite !app_length. cbn [length]. lia.
Qed.

Lemma read_message_wire : forall f r, good_frame f ->
  read_message (fresh (wire_of f ++ r)) = (Some (Some (body f)), fresh r).
Proof.
  intros [pre post body] r (Hpre & Hpost & Hlen). cbn [Framing_Spec.pre Framing_Spec.post Framing_Spec.body] in *.
  unfold read_message, wire_of, wire, fresh. cbn [Framing_Spec.pre Framing_Spec.post Framing_Spec.body rest].
  set (W := (header_lines pre ++ s2b "Content-Length: " ++ _) ++ r).
  assert (EW : W = nls false ++ header_lines pre ++ s2b "Content-Length: "
    ++ dec (N.of_nat (length body)) ++ [13;10] ++ header_lines post ++ [13;10] ++ (body ++ r)).
  { unfold W. repeat rewrite <- app_assoc. reflexivity. }
  assert (HL : (length pre + length post + 2 <= length W + 2)%nat).
  { rewrite EW. rewrite !app_length. pose proof (header_lines_len pre). pose proof (header_lines_len post). lia. }
  rewrite EW at 2. rewrite read_headers_wire; try assumption; [|lia].
  destruct (N.ltb_spec message_size_limit (N.of_nat (length body))) as [Hx|Hx];
    [exfalso; unfold message_size_limit in Hx; lia|].
  destruct (N.eqb_spec (N.of_nat (length body)) 0) as [Hy|Hy]; [exfalso; lia|].
  unfold read_body. cbn [eof fail orb rest].
  destruct (N.leb_spec (N.of_nat (length body)) (N.of_nat (length (body ++ r)))) as [Hz|Hz];
    [|exfalso; rewrite app_length in Hz; lia].
  rewrite Nat2N.id, firstn_app, firstn_all, skipn_app, skipn_all, Nat.sub_diag.
  cbn [firstn skipn app]. now rewrite app_nil_r.
Qed.

(* ------------------------------------------------ progress: no fuel exhaustion *)

Lemma skip_nl_len : forall s, (length (skip_nl s) <= length s)%nat.
Proof. induction s as [|c s IH]; simpl; [lia|]. destruct (c =? 10); simpl; lia. Qed.

Lemma skip_nl_head : forall s c r, skip_nl s = c :: r -> c <> 10.
Proof.
  induction s as [|d s IH]; simpl; intros c r H; [easy|].
  destruct (N.eqb_spec d 10); [now apply IH in H|]. injection H as -> ->. easy.
Qed.

Lemma take_line_len : forall s l r, take_line s = (l, r) -> (length l + length r = length s)%nat.
Proof.
  induction s as [|c s IH]; simpl; intros l r H; [injection H as <- <-; easy|].
  destruct (c =? 10); [injection H as <- <-; easy|].
  destruct (take_line s) as [a b] eqn:E. injection H as <- <-. simpl. specialize (IH _ _ eq_refl). lia.
Qed.

Lemma extract_line_progress : forall old s l s', eof s = false -> fail s = false ->
  extract_line old s = (l, s') ->
  (fail s' = true) \/ (length (rest s') < length (rest s))%nat.
Proof.
  intros old [r e f] l s' He Hf H. simpl in *. subst. unfold extract_line in H. cbn [eof fail orb rest] in H.
  destruct (skip_nl r) as [|c t] eqn:E.
  - injection H as <- <-. now left.
  - destruct (take_line (c :: t)) as [a b] eqn:E2. injection H as <- <-. right. simpl.
    pose proof (take_line_len _ _ _ E2). pose proof (skip_nl_len r) as L. rewrite E in L.
    pose proof (skip_nl_head _ _ _ E). simpl in E2. destruct (N.eqb_spec c 10); [easy|].
    destruct (take_line t). injection E2 as <- <-. simpl in *. lia.
Qed.

Lemma read_headers_no_fuel : forall f cl old s, (length (rest s) + 2 <= f)%nat ->
  fst (read_headers f cl old s) <> HdrFuel.
Proof.
  induction f as [|f IH]; intros cl old s Hf; [lia|].
  cbn [read_headers]. destruct (eof s) eqn:Ee; [cbn; easy|]. destruct (fail s) eqn:Eff; [cbn; easy|].
  cbn [orb]. destruct (extract_line old s) as [l s1] eqn:E.
  pose proof (extract_line_progress _ _ _ _ Ee Eff E) as HP.
  assert (G : forall cl' l', fst (read_headers f cl' l' s1) <> HdrFuel).
  { intros cl' l'. destruct HP as [HP|HP].
    - destruct f as [|f]; [lia|]. cbn [read_headers]. rewrite HP, orb_true_r. easy.
    - apply IH. lia. }
  destruct (starts_with content_length_string l); [apply G|].
  destruct (bytes_eqb l [13]); [easy|apply G].
Qed.

(** Every call of [read_message] on a good stream either fails the stream or consumes
    something. *)
Lemma read_headers_progress : forall f cl old s n s', eof s = false -> fail s = false ->
  read_headers f cl old s = (n, s') -> n <> HdrFuel ->
  (eof s' = true \/ fail s' = true) \/ (length (rest s') < length (rest s))%nat.
Proof.
  induction f as [|f IH]; intros cl old s n s' He Hf H Hn; cbn [read_headers] in H.
  - injection H as <- <-. easy.
  - rewrite He, Hf in H. cbn [orb] in H. destruct (extract_line old s) as [l s1] eqn:E.
    pose proof (extract_line_progress _ _ _ _ He Hf E) as HP.
    assert (G : forall cl' l', read_headers f cl' l' s1 = (n, s') ->
       (eof s' = true \/ fail s' = true) \/ (length (rest s') < length (rest s))%nat).
    { intros cl' l' H'. destruct (eof s1) eqn:E1.
      - left. destruct f; cbn [read_headers] in H'; [injection H' as <- <-; easy|].
        rewrite E1 in H'. cbn [orb] in H'. injection H' as <- <-. now left.
      - destruct (fail s1) eqn:E2.
        + left. destruct f; cbn [read_headers] in H'; [injection H' as <- <-; easy|].
          rewrite E1, E2 in H'. cbn [orb] in H'. injection H' as <- <-. now right.
        + destruct (IH _ _ _ _ _ E1 E2 H' Hn) as [?|?]; [now left|].
          destruct HP as [HP|HP]; [congruence|]. right. lia. }
    destruct (starts_with content_length_string l); [now apply G in H|].
    destruct (bytes_eqb l [13]); [|now apply G in H].
    injection H as <- <-. unfold ignore1. destruct (eof s1 || fail s1) eqn:E3.
    + left. now right.
    + destruct (rest s1) as [|c r1] eqn:E4.
      * left. now left.
      * right. cbn [rest]. destruct HP as [HP|HP].
        { rewrite HP, orb_true_r in E3. easy. }
        try rewrite E4 in HP. simpl in HP. lia.
Qed.

Lemma read_message_progress : forall s x s', eof s = false -> fail s = false ->
  read_message s = (x, s') ->
  x <> None /\ ((eof s' = true \/ fail s' = true) \/ (length (rest s') < length (rest s))%nat).
Proof.
  intros s x s' He Hf H. unfold read_message in H.
  destruct (read_headers (length (rest s) + 2) 0 [] s) as [h s1] eqn:E.
  assert (Hh : h <> HdrFuel).
  { change h with (fst (h, s1)). rewrite <- E. apply read_headers_no_fuel. lia. }
  pose proof (read_headers_progress _ _ _ _ _ _ He Hf E Hh) as HP.
  destruct h as [| n |]; [| |easy].
  - injection H as <- <-. split; [easy|assumption].
  - destruct (message_size_limit <? n); [injection H as <- <-; split; [easy|assumption]|].
    destruct (n =? 0); [injection H as <- <-; split; [easy|assumption]|].
    destruct (read_body n s1) as [b s2] eqn:E2. injection H as <- <-. split; [easy|].
    unfold read_body in E2. destruct (eof s1 || fail s1) eqn:E3.
    + injection E2 as <- <-. left. now right.
    + apply orb_false_iff in E3 as [E3 E4]. destruct (n <=? N.of_nat (length (rest s1))).
      * injection E2 as <- <-. cbn [eof fail rest]. destruct HP as [[?|?]|HP]; [congruence|congruence|].
        right. rewrite skipn_length. lia.
      * injection E2 as <- <-. left. now left.
Qed.

Section J.
Variable J : Type.
Variable parse : bytes -> option J.

Lemma read_json_progress : forall f s x s', (length (rest s) + 2 <= f)%nat ->
  read_json J parse f s = (x, s') ->
  x <> RFuel /\ match x with RJson _ => (eof s' = true \/ fail s' = true) \/ (length (rest s') < length (rest s))%nat | _ => True end.
Proof.
  induction f as [|f IH]; intros s x s' Hf H; [lia|]. cbn [read_json] in H.
  destruct (fail s) eqn:Ef; [injection H as <- <-; easy|].
  destruct (eof s) eqn:Ee; [injection H as <- <-; easy|]. cbn [orb] in H.
  destruct (read_message s) as [m s1] eqn:E.
  destruct (read_message_progress _ _ _ Ee Ef E) as [Hm HP].
  assert (G : read_json J parse f s1 = (x, s') ->
    x <> RFuel /\ match x with RJson _ => (eof s' = true \/ fail s' = true) \/ (length (rest s') < length (rest s))%nat | _ => True end).
  { intros H'. destruct HP as [HP|HP].
    - destruct f as [|f]; [lia|]. cbn [read_json] in H'.
      replace (fail s1 || eof s1) with true in H'
        by (destruct HP as [-> | ->]; [now rewrite orb_true_r|easy]).
      injection H' as <- <-. easy.
    - destruct (IH s1 x s') as [A B]; [lia|assumption|]. split; [assumption|].
      destruct x; try easy. destruct B as [B|B]; [now left|]. right. lia. }
  destruct m as [[b|]|]; [| |easy].
  - destruct (parse b) as [j|]; [|now apply G in H]. injection H as <- <-. split; [easy|exact HP].
  - now apply G in H.
Qed.

Lemma read_json_end : forall f s, (1 <= f)%nat -> eof s = true \/ fail s = true ->
  read_json J parse f s = (REnd, s).
Proof.
  intros f s Hf H. destruct f; [lia|]. cbn [read_json].
  replace (fail s || eof s) with true by (destruct H as [-> | ->]; [now rewrite orb_true_r|easy]).
  easy.
Qed.

Lemma read_all_total : forall f s, (length (rest s) + 2 <= f)%nat ->
  exists js, read_all J parse f s = Some js.
Proof.
  induction f as [|f IH]; intros s Hf; [lia|]. cbn [read_all].
  destruct (read_json J parse (length (rest s) + 2) s) as [x s1] eqn:E.
  destruct (read_json_progress _ _ _ _ (Nat.le_refl _) E) as [Hx HP].
  destruct x as [j| |]; [|eauto|easy].
  destruct HP as [HP|HP].
  - destruct f as [|f]; [lia|]. cbn [read_all].
    rewrite read_json_end; [|lia|assumption]. simpl. eauto.
  - destruct (IH s1) as [js Ejs]; [lia|]. rewrite Ejs. simpl. eauto.
Qed.

(** More fuel does not change an answer. *)
Lemma read_json_more : forall f f' s x s', read_json J parse f s = (x, s') -> x <> RFuel ->
  (f <= f')%nat -> read_json J parse f' s = (x, s').
Proof.
  induction f as [|f IH]; intros f' s x s' H Hx Hf; cbn [read_json] in H.
  - injection H as <- <-. easy.
  - destruct f' as [|f']; [lia|]. cbn [read_json].
    destruct (fail s || eof s); [assumption|].
    destruct (read_message s) as [[[b|]|] s1]; [| |injection H as <- <-; easy].
    + destruct (parse b); [assumption|]. apply IH; auto. lia.
    + apply IH; auto. lia.
Qed.

Lemma read_json_fuel_irrel : forall f1 f2 s, (length (rest s) + 2 <= f1)%nat ->
  (length (rest s) + 2 <= f2)%nat -> read_json J parse f1 s = read_json J parse f2 s.
Proof.
  intros f1 f2 s H1 H2.
  destruct (read_json J parse (length (rest s) + 2) s) as [x s1] eqn:E.
  destruct (read_json_progress _ _ _ _ (Nat.le_refl _) E) as [Hx _].
  rewrite (read_json_more _ f1 _ _ _ E Hx H1). now rewrite (read_json_more _ f2 _ _ _ E Hx H2).
Qed.

Lemma read_all_more : forall f f' s js, read_all J parse f s = Some js -> (f <= f')%nat ->
  read_all J parse f' s = Some js.
Proof.
  induction f as [|f IH]; intros f' s js H Hf; cbn [read_all] in H; [easy|].
  destruct f' as [|f']; [lia|]. cbn [read_all].
  destruct (read_json J parse (length (rest s) + 2) s) as [[j| |] s1]; try easy.
  destruct (read_all J parse f s1) as [js1|] eqn:E; [|easy]. 
  rewrite (IH f' _ _ E) by lia. exact H.
Qed.

(** [read_all] with its canonical fuel. *)
Definition readall (s : stream) : option (list J) := read_all J parse (length (rest s) + 2) s.

Lemma readall_fuel : forall f s, (length (rest s) + 2 <= f)%nat ->
  read_all J parse f s = readall s.
Proof.
  intros f s Hf. unfold readall. destruct (read_all_total (length (rest s) + 2) s) as [js E]; [lia|].
  rewrite E. eapply read_all_more; eauto.
Qed.

Definition clean (s : stream) : Prop := eof s = false /\ fail s = false.

Lemma readall_stop : forall s, eof s = true \/ fail s = true -> readall s = Some [].
Proof.
  intros s H. unfold readall. rewrite Nat.add_comm. cbn [Nat.add read_all].
  rewrite read_json_end; [easy|lia|assumption].
Qed.

Lemma readall_eq : forall s,
  readall s = match read_json J parse (length (rest s) + 2) s with
              | (RFuel, _) => None
              | (REnd, _) => Some []
              | (RJson j, s1) => option_map (cons j) (readall s1)
              end.
Proof.
  intros s. unfold readall at 1. rewrite (Nat.add_comm _ 2) at 1.
  change (2 + length (rest s))%nat with (S (S (length (rest s)))).
  set (g := S (length (rest s))). cbn [read_all].
  destruct (read_json J parse (length (rest s) + 2) s) as [x s1] eqn:E.
  destruct (read_json_progress _ _ _ _ (Nat.le_refl _) E) as [Hx HP].
  destruct x as [j| |]; [|easy|easy]. f_equal. destruct HP as [HP|HP].
  - rewrite readall_stop by assumption. unfold g. cbn [read_all].
    rewrite read_json_end by (lia || assumption). easy.
  - apply readall_fuel. unfold g. lia.
Qed.

(** One-step unfolding of the read loop. *)
Lemma readall_step : forall s, clean s ->
  readall s = match read_message s with
              | (Some (Some b), s1) =>
                  match parse b with Some j => option_map (cons j) (readall s1) | None => readall s1 end
              | (_, s1) => readall s1
              end.
Proof.
  intros s [He Hf].
  destruct (read_message s) as [m s1] eqn:E.
  destruct (read_message_progress _ _ _ He Hf E) as [Hm HP].
  rewrite readall_eq. rewrite (Nat.add_comm _ 2).
  change (2 + length (rest s))%nat with (S (S (length (rest s)))).
  set (g := S (length (rest s))). cbn [read_json]. rewrite He, Hf, E. cbn [orb].
  assert (Skip : match read_json J parse g s1 with
                 | (RFuel, _) => None
                 | (REnd, _) => Some []
                 | (RJson j, s1) => option_map (cons j) (readall s1)
                 end = readall s1).
  { destruct HP as [HP|HP].
    - rewrite read_json_end; [|unfold g; lia|assumption]. now rewrite readall_stop.
    - rewrite (readall_eq s1). rewrite (read_json_fuel_irrel g (length (rest s1) + 2) s1) by (unfold g; lia).
      easy. }
  destruct m as [[b|]|]; [| |easy].
  - destruct (parse b) as [j|]; [easy|exact Skip].
  - exact Skip.
Qed.

Lemma readall_wire : forall fs r, Forall good_frame fs ->
  readall (fresh (wire_all fs ++ r)) =
  option_map (app (parsed parse (map body fs))) (readall (fresh r)).
Proof.
  induction fs as [|f fs IH]; intros r H.
  - change (wire_all [] ++ r) with r. destruct (readall (fresh r)); reflexivity.
  - inversion H as [|? ? Hf Hfs]; subst. rewrite readall_step by (split; reflexivity).
    unfold wire_all. cbn [map concat]. rewrite <- app_assoc.
    rewrite read_message_wire by assumption. fold (wire_all fs). rewrite IH by assumption.
    cbn [parsed]. destruct (parse (body f)); destruct (readall (fresh r)); easy.
Qed.

Lemma readall_nil : readall (fresh []) = Some [].
Proof. reflexivity. Qed.

Lemma roundtrip : forall fs, Forall good_frame fs ->
  readall (fresh (wire_all fs)) = Some (parsed parse (map body fs)).
Proof.
  intros fs H. rewrite <- (app_nil_r (wire_all fs)). rewrite readall_wire by assumption.
  rewrite readall_nil. simpl. now rewrite app_nil_r.
Qed.

(* ---------------------------------------------------------------- truncation *)

Lemma take_line_ext : forall p l c r q, take_line p = (l, c :: r) -> take_line (p ++ q) = (l, (c :: r) ++ q).
Proof.
  induction p as [|d p IH]; intros l c r q H; simpl in *; [easy|].
  destruct (d =? 10).
  - injection H as <- <- <-. easy.
  - destruct (take_line p) as [a b] eqn:E. injection H as <- ->. now rewrite (IH _ _ _ q eq_refl).
Qed.

Lemma skip_nl_ext : forall p q c r, skip_nl p = c :: r -> skip_nl (p ++ q) = (c :: r) ++ q.
Proof.
  induction p as [|d p IH]; intros q c r H; simpl in *; [easy|].
  destruct (d =? 10); [now apply IH|]. now injection H as -> ->.
Qed.

Lemma extract_line_ext : forall old s l s' q, clean s -> extract_line old s = (l, s') -> clean s' ->
  extract_line old (mkS (rest s ++ q) false false) = (l, mkS (rest s' ++ q) false false).
Proof.
  intros old [p e f] l s' q [He Hf] H [He' Hf']. simpl in *. subst.
  unfold extract_line in *. cbn [eof fail orb rest] in *.
  destruct (skip_nl p) as [|c r] eqn:E.
  - injection H as <- <-. easy.
  - rewrite (skip_nl_ext _ q _ _ E). cbn [app].
    change (c :: r ++ q) with ((c :: r) ++ q).
    destruct (take_line (c :: r)) as [a b] eqn:E2. injection H as <- <-. cbn in He'.
    destruct b as [|d b]; [easy|]. rewrite (take_line_ext _ _ _ _ q E2). easy.
Qed.

Lemma read_headers_ext : forall f cl old s n s' q, clean s ->
  read_headers f cl old s = (HdrLen n, s') -> clean s' -> forall f', (f <= f')%nat ->
  read_headers f' cl old (mkS (rest s ++ q) false false) = (HdrLen n, mkS (rest s' ++ q) false false).
Proof.
  induction f as [|f IH]; intros cl old s n s' q Hs H Hs' f' Hf'; cbn [read_headers] in H; [easy|].
  destruct f' as [|f']; [lia|]. cbn [read_headers eof fail orb].
  pose proof Hs as [He Hf]. rewrite He, Hf in H. cbn [orb] in H.
  destruct (extract_line old s) as [l s1] eqn:E.
  assert (Hs1 : clean s1).
  { destruct (eof s1) eqn:E1; [|destruct (fail s1) eqn:E2; [|now split]]; exfalso.
    - destruct (starts_with content_length_string l).
      + destruct f; cbn [read_headers] in H; [easy|]. rewrite E1 in H. easy.
      + destruct (bytes_eqb l [13]).
        * injection H as <- <-. unfold ignore1 in Hs'. rewrite E1 in Hs'. cbn in Hs'. destruct Hs'; easy.
        * destruct f; cbn [read_headers] in H; [easy|]. rewrite E1 in H. easy.
    - destruct (starts_with content_length_string l).
      + destruct f; cbn [read_headers] in H; [easy|]. rewrite E1, E2 in H. easy.
      + destruct (bytes_eqb l [13]).
        * injection H as <- <-. unfold ignore1 in Hs'. rewrite E1, E2 in Hs'. cbn in Hs'. destruct Hs'; easy.
        * destruct f; cbn [read_headers] in H; [easy|]. rewrite E1, E2 in H. easy. }
  rewrite (extract_line_ext _ _ _ _ q Hs E Hs1).
  destruct (starts_with content_length_string l); [apply (IH _ _ _ _ _ _ Hs1 H Hs'); lia|].
  destruct (bytes_eqb l [13]); [|apply (IH _ _ _ _ _ _ Hs1 H Hs'); lia].
  injection H as <- <-. unfold ignore1 in *. destruct Hs1 as [A B]. rewrite A, B in *.
  cbn [orb eof fail rest] in *. destruct (rest s1) as [|c r]; [destruct Hs'; easy|]. easy.
Qed.

Lemma read_message_ext : forall s x s' q, clean s -> read_message s = (x, s') -> clean s' ->
  read_message (mkS (rest s ++ q) false false) = (x, mkS (rest s' ++ q) false false).
Proof.
  intros s x s' q Hs H Hs'. unfold read_message in *.
  destruct (read_headers (length (rest s) + 2) 0 [] s) as [h s1] eqn:E.
  assert (Hh : h <> HdrFuel).
  { change h with (fst (h, s1)). rewrite <- E. apply read_headers_no_fuel. lia. }
  destruct h as [|n|]; [|clear Hh|easy].
  - exfalso. injection H as <- <-.
    assert (G : forall f cl old s s1, read_headers f cl old s = (HdrAbort, s1) -> ~ clean s1).
    { clear. induction f as [|f IH]; intros cl old s s1 H [A B]; cbn [read_headers] in H; [easy|].
      destruct (eof s || fail s) eqn:E.
      - injection H as <-. rewrite A, B in E. easy.
      - destruct (extract_line old s) as [l s2]. destruct (starts_with content_length_string l).
        + apply IH in H. now apply H.
        + destruct (bytes_eqb l [13]); [easy|]. apply IH in H. now apply H. }
    now apply G in E.
  - assert (Hs1 : clean s1).
    { destruct (message_size_limit <? n); [injection H as <- <-; assumption|].
      destruct (n =? 0); [injection H as <- <-; assumption|].
      unfold read_body in H. destruct (eof s1 || fail s1) eqn:E1.
      - injection H as <- <-. destruct Hs'; easy.
      - apply orb_false_iff in E1. exact E1. }
    rewrite (read_headers_ext _ _ _ _ _ _ q Hs E Hs1)
      by (cbn [rest]; rewrite app_length; lia).
    destruct (message_size_limit <? n); [injection H as <- <-; easy|].
    destruct (n =? 0); [injection H as <- <-; easy|].
    unfold read_body in *. destruct Hs1 as [A B]. rewrite A, B in H. cbn [orb eof fail rest] in *.
    destruct (N.leb_spec n (N.of_nat (length (rest s1)))) as [L|L].
    + destruct (N.leb_spec n (N.of_nat (length (rest s1 ++ q)))) as [L2|L2];
        [|rewrite app_length in L2; lia].
      injection H as <- <-. cbn [rest].
      rewrite firstn_app, skipn_app.
      replace (N.to_nat n - length (rest s1))%nat with 0%nat by lia. cbn. now rewrite app_nil_r.
    + injection H as <- <-. destruct Hs'; easy.
Qed.

Lemma read_message_strict_prefix : forall f p q x s', good_frame f -> wire_of f = p ++ q -> q <> [] ->
  read_message (fresh p) = (x, s') -> ~ clean s'.
Proof.
  intros f p q x s' Hg Hw Hq H Hs'.
  pose proof (read_message_ext (fresh p) x s' q (conj eq_refl eq_refl) H Hs') as E.
  cbn [fresh rest] in E. rewrite <- Hw in E.
  pose proof (read_message_wire f [] Hg) as W. rewrite app_nil_r in W. unfold fresh in W.
  rewrite W in E. injection E as _ E. symmetry in E. apply app_eq_nil in E as [_ E]. easy.
Qed.

Lemma read_message_body_clean : forall s b s', clean s -> read_message s = (Some (Some b), s') -> clean s'.
Proof.
  intros s b s' _ H. unfold read_message in H.
  destruct (read_headers _ _ _ _) as [[|n|] s1]; try easy.
  destruct (message_size_limit <? n); [easy|]. destruct (n =? 0); [easy|].
  unfold read_body in H. destruct (eof s1 || fail s1); [easy|].
  destruct (n <=? _); [|easy]. injection H as _ <-. now split.
Qed.

Lemma truncation : forall fs f p q, Forall good_frame fs -> good_frame f ->
  wire_of f = p ++ q -> q <> [] ->
  readall (fresh (wire_all fs ++ p)) = Some (parsed parse (map body fs)).
Proof.
  intros fs f p q Hfs Hf Hw Hq. rewrite readall_wire by assumption.
  replace (readall (fresh p)) with (Some (@nil J)); [cbn; now rewrite app_nil_r|].
  symmetry. rewrite readall_step by (split; reflexivity).
  destruct (read_message (fresh p)) as [x s1] eqn:E.
  pose proof (read_message_strict_prefix _ _ _ _ _ Hf Hw Hq E) as Hc.
  assert (Hn : eof s1 = true \/ fail s1 = true).
  { destruct (eof s1) eqn:A; [now left|]. destruct (fail s1) eqn:B; [now right|].
    exfalso. apply Hc. now split. }
  destruct x as [[b|]|]; try (now apply readall_stop).
  exfalso. apply Hc. eapply read_message_body_clean; [|exact E]. now split.
Qed.
End J.

Lemma write_message_wire : forall b, write_message b = wire_of (mkFrame [] [] b).
Proof. reflexivity. Qed.
