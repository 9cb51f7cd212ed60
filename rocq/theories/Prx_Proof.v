(** * Prx_Proof: lemmas about the proxy of the debug adapter *)
From Coq Require Import String List NArith ZArith Bool Lia.
From Verif Require Import Common Json Ses_Model Ses_Spec Ses_Proof Prx_Model Prx_Spec.
Import ListNotations.
Open Scope list_scope.

(** ** Searching *)
Lemma starts_len : forall p s, starts_with p s = true -> List.length p <= List.length s.
Proof.
  induction p as [|x p IH]; intros [|y s] H; cbn in *; try lia; try discriminate.
  apply andb_true_iff in H as [_ H]. apply IH in H. lia.
Qed.
Lemma starts_more : forall p s c, starts_with p s = true -> starts_with p (s ++ c) = true.
Proof.
  induction p as [|x p IH]; intros [|y s] c H; cbn in *; try reflexivity; try discriminate.
  apply andb_true_iff in H as [H1 H]. rewrite H1. cbn. now apply IH.
Qed.
Lemma starts_not_more : forall p s c, List.length p <= List.length s ->
  starts_with p s = false -> starts_with p (s ++ c) = false.
Proof.
  induction p as [|x p IH]; intros [|y s] c L H; cbn in *; try discriminate; try lia.
  destruct (x =? y)%N; cbn in *; [|reflexivity]. apply IH; [lia|assumption].
Qed.
Lemma index_len : forall p s i, index_of p s = Some i -> i + List.length p <= List.length s.
Proof.
  intros p s. induction s as [|x t IH]; intros i H; cbn [index_of] in H.
  - destruct (starts_with p []) eqn:E; [|discriminate]. injection H as <-. now apply starts_len in E.
  - destruct (starts_with p (x :: t)) eqn:E.
    + injection H as <-. now apply starts_len in E.
    + destruct (index_of p t) as [j|]; [|discriminate]. injection H as <-.
      specialize (IH j eq_refl). cbn. lia.
Qed.
Lemma index_more : forall p c s i, index_of p s = Some i -> index_of p (s ++ c) = Some i.
Proof.
  intros p c s. induction s as [|x t IH]; intros i H; cbn [index_of] in H.
  - destruct (starts_with p []) eqn:E; [|discriminate]. injection H as <-.
    destruct p; [|discriminate]. cbn [app]. now destruct c.
  - destruct (starts_with p (x :: t)) eqn:E.
    + injection H as <-. cbn [index_of app]. pose proof (starts_more _ _ c E) as E'. cbn [app] in E'. now rewrite E'.
    + destruct (index_of p t) as [j|] eqn:J; [|discriminate]. injection H as <-.
      pose proof (index_len _ _ _ J) as L.
      assert (E' : starts_with p ((x :: t) ++ c) = false) by (apply starts_not_more; [cbn; lia|assumption]).
      cbn [index_of app] in *. rewrite E', (IH j eq_refl). reflexivity.
Qed.
Lemma index_skip : forall x p u s, ~ In x u -> index_of (x :: p) (u ++ s) = option_map (Nat.add (List.length u)) (index_of (x :: p) s).
Proof.
  intros x p u s. induction u as [|y u IH]; intros N.
  - cbn [app List.length]. now destruct (index_of (x :: p) s).
  - cbn [app]. cbn [index_of starts_with]. destruct (x =? y)%N eqn:E.
    + apply N.eqb_eq in E as ->. elim N. now left.
    + cbn [andb]. rewrite IH by (intros H; apply N; now right). now destruct (index_of (x :: p) s).
Qed.
Lemma index_step : forall p x t, starts_with p (x :: t) = false -> index_of p (x :: t) = option_map S (index_of p t).
Proof. intros p x t H. cbn [index_of]. now rewrite H. Qed.
Lemma index_here : forall p s, index_of p (p ++ s) = Some 0.
Proof.
  intros p s. assert (H : starts_with p (p ++ s) = true).
  { induction p as [|x p IH]; cbn; [now destruct s|]. now rewrite N.eqb_refl. }
  destruct (p ++ s); cbn [index_of]; now rewrite H.
Qed.
Lemma index_zero : forall p s, index_of p s = Some 0 -> exists r, s = p ++ r.
Proof.
  intros p s H. assert (E : starts_with p s = true).
  { destruct s as [|x t]; cbn [index_of] in H; destruct (starts_with p _); try reflexivity; [discriminate|].
    destruct (index_of p t); discriminate. }
  clear H. revert s E. induction p as [|x p IH]; intros s E; [now exists s|].
  destruct s as [|y s]; [discriminate|]. cbn in E. apply andb_true_iff in E as [E1 E].
  apply N.eqb_eq in E1 as <-. destruct (IH s E) as (r & ->). now exists r.
Qed.

(** ** Slices *)
Lemma slice_in : forall s a b, a <= b -> b <= List.length s ->
  slice s (Z.of_nat a) (Z.of_nat b) = firstn (b - a) (skipn a s).
Proof.
  intros s a b H1 H2. unfold slice, clamp.
  rewrite !(proj2 (Z.ltb_ge _ 0)) by lia. rewrite !Z.min_l by lia. f_equal; [lia|f_equal; lia].
Qed.
Lemma slice_app : forall a b c, slice (a ++ b ++ c) (Z.of_nat (List.length a)) (Z.of_nat (List.length a + List.length b)) = b.
Proof.
  intros a b c. rewrite slice_in by (rewrite ?app_length; lia).
  rewrite skipn_app, skipn_all, Nat.sub_diag. cbn [skipn app].
  replace (List.length a + List.length b - List.length a) with (List.length b) by lia.
  rewrite firstn_app, Nat.sub_diag, firstn_all. cbn [firstn]. apply app_nil_r.
Qed.
Lemma slice_more : forall s c a b, a <= b -> b <= List.length s ->
  slice (s ++ c) (Z.of_nat a) (Z.of_nat b) = slice s (Z.of_nat a) (Z.of_nat b).
Proof.
  intros s c a b H1 H2. rewrite !slice_in by (rewrite ?app_length; lia).
  rewrite skipn_app, firstn_app, skipn_length.
  replace (b - a - (List.length s - a)) with 0 by lia. cbn [firstn]. apply app_nil_r.
Qed.
Lemma slice_rest : forall s a, a <= List.length s -> slice s (Z.of_nat a) (Z.of_nat (List.length s)) = skipn a s.
Proof. intros s a H. rewrite slice_in by lia. apply firstn_all2. rewrite skipn_length. lia. Qed.

Section Proxy.
Variable other : bytes -> option Z.
Variable parse : bytes -> option json.
Notation next := (next other parse).
Notation loop := (loop other parse).
Notation drain := (drain other parse).

(** No length below zero. *)
Definition sane : Prop := forall s z, other s = Some z -> (0 <= z)%Z.

Lemma number_sane : sane -> forall s z, number other s = Some z -> (0 <= z)%Z.
Proof.
  intros H s z E. unfold number in E. destruct (forallb is_digit s); [injection E as <-; lia|eauto].
Qed.

(** What a message was made of. *)
Lemma next_message : sane -> forall b m r, next b = Message m r ->
  exists e h l, index_of content_length b = Some 0 /\ index_of CRLF b = Some e /\ index_of (CRLF ++ CRLF) b = Some h /\
    number other (slice b (Z.of_nat (List.length content_length)) (Z.of_nat e)) = Some (Z.of_nat l) /\
    h + 4 + l <= List.length b /\ l <> 0 /\
    parse (slice b (Z.of_nat (h + 4)) (Z.of_nat (h + 4 + l))) = Some m /\ r = skipn (h + 4 + l) b.
Proof.
  intros Sa b m r H. unfold Prx_Model.next in H.
  destruct (index_of content_length b) as [[|i]|] eqn:E0; try discriminate.
  destruct (index_of CRLF b) as [e|] eqn:E1; [|discriminate].
  destruct (index_of (CRLF ++ CRLF) b) as [h|] eqn:E2; [|discriminate].
  destruct (number other _) as [z|] eqn:E3; [|discriminate].
  pose proof (number_sane Sa _ _ E3) as Z0.
  destruct (_ >? _)%Z eqn:G; [discriminate|]. rewrite Z.gtb_ltb in G. apply Z.ltb_ge in G.
  exists e, h, (Z.to_nat z). rewrite Z2Nat.id by assumption.
  replace (Z.of_nat h + 4)%Z with (Z.of_nat (h + 4)) in H by lia.
  replace (Z.of_nat (h + 4) + z)%Z with (Z.of_nat (h + 4 + Z.to_nat z)) in H by lia.
  assert (L : h + 4 + Z.to_nat z <= List.length b) by lia.
  destruct (slice b (Z.of_nat (h + 4)) (Z.of_nat (h + 4 + Z.to_nat z))) as [|t ts] eqn:B; [discriminate|].
  destruct (parse (t :: ts)) as [m'|] eqn:P; [|discriminate]. injection H as <- <-.
  repeat split; try assumption.
  - intros Z1. rewrite Z1, Nat.add_0_r, slice_in, Nat.sub_diag in B by lia. discriminate.
  - now apply slice_rest.
Qed.

Lemma crlf_below : forall b e h, index_of CRLF b = Some e -> index_of (CRLF ++ CRLF) b = Some h -> e <= h.
Proof.
  induction b as [|x t IH]; intros e h E H; [discriminate|]. cbn [index_of] in E, H.
  destruct (starts_with CRLF (x :: t)) eqn:S1; [injection E as <-; lia|].
  destruct (starts_with (CRLF ++ CRLF) (x :: t)) eqn:S2.
  - exfalso. destruct t as [|y t]; cbn in S1, S2; rewrite ?andb_true_r, ?andb_false_r in *; [discriminate|].
    rewrite andb_assoc in S2. change (10 =? y)%N with (10 =? y)%N in S1. rewrite S1 in S2. discriminate.
  - destruct (index_of CRLF t) as [e'|]; [|discriminate]. destruct (index_of (CRLF ++ CRLF) t) as [h'|]; [|discriminate].
    injection E as <-. injection H as <-. specialize (IH e' h' eq_refl eq_refl). lia.
Qed.

Lemma next_more : sane -> forall b c m r, next b = Message m r -> next (b ++ c) = Message m (r ++ c).
Proof.
  intros Sa b c m r H. destruct (next_message Sa b m r H) as (e & h & l & E0 & E1 & E2 & E3 & L & Z1 & P & R).
  unfold Prx_Model.next. rewrite (index_more _ c _ _ E0), (index_more _ c _ _ E1), (index_more _ c _ _ E2).
  pose proof (index_len _ _ _ E1) as L1. pose proof (index_len _ _ _ E2) as L2. cbn [List.length CRLF app] in L1, L2.
  assert (N : slice (b ++ c) (Z.of_nat (List.length content_length)) (Z.of_nat e) =
              slice b (Z.of_nat (List.length content_length)) (Z.of_nat e)).
  { destruct (Nat.le_gt_cases (List.length content_length) e) as [G|G]; [apply slice_more; lia|].
    apply index_zero in E0 as (r0 & ->). rewrite <- app_assoc.
    assert (X : forall q, slice (content_length ++ q) (Z.of_nat (List.length content_length)) (Z.of_nat e) = []).
    { intros q. unfold slice, clamp. rewrite !(proj2 (Z.ltb_ge _ 0)) by lia. rewrite app_length, !Z.min_l by lia.
      replace (Z.to_nat _) with 0 by lia. reflexivity. }
    now rewrite !X. }
  rewrite N, E3.
  replace (Z.of_nat h + 4)%Z with (Z.of_nat (h + 4)) by lia.
  replace (Z.of_nat (h + 4) + Z.of_nat l)%Z with (Z.of_nat (h + 4 + l)) by lia.
  assert (G : (Z.of_nat (h + 4 + l) >? Z.of_nat (List.length (b ++ c)))%Z = false).
  { rewrite Z.gtb_ltb. apply Z.ltb_ge. rewrite app_length. lia. }
  rewrite G, slice_more by lia.
  destruct (slice b (Z.of_nat (h + 4)) (Z.of_nat (h + 4 + l))) as [|t ts] eqn:B.
  - exfalso. rewrite slice_in in B by lia. apply (f_equal (@List.length _)) in B.
    rewrite firstn_length, skipn_length in B. cbn in B. lia.
  - rewrite P. f_equal. rewrite slice_rest by (rewrite app_length; lia). subst r.
    rewrite skipn_app. replace (h + 4 + l - List.length b) with 0 by lia. reflexivity.
Qed.
Lemma next_shorter : sane -> forall b m r, next b = Message m r -> List.length r < List.length b.
Proof.
  intros Sa b m r H. destruct (next_message Sa b m r H) as (e & h & l & _ & _ & _ & _ & L & Z1 & _ & ->).
  rewrite skipn_length. lia.
Qed.

(** ** The loop *)
Lemma loop_fuel : sane -> forall f b g, List.length b < f -> List.length b < g -> loop f b = loop g b.
Proof.
  intros Sa. induction f as [|f IH]; intros b g F G; [lia|]. destruct g as [|g]; [lia|].
  cbn [Prx_Model.loop]. destruct (next b) as [| |m r] eqn:E; try reflexivity.
  pose proof (next_shorter Sa _ _ _ E). now rewrite (IH r g) by lia.
Qed.
Lemma drain_eq : sane -> forall b, drain b =
  match next b with Message m r => let '(ms, r') := drain r in (m :: ms, r') | _ => ([], b) end.
Proof.
  intros Sa b. unfold Prx_Model.drain at 1. cbn [Prx_Model.loop]. destruct (next b) as [| |m r] eqn:E; try reflexivity.
  pose proof (next_shorter Sa _ _ _ E). unfold Prx_Model.drain. now rewrite (loop_fuel Sa _ r (S (List.length r))) by lia.
Qed.
Lemma drain_more : sane -> forall n b c, List.length b <= n ->
  drain (b ++ c) = let '(m1, r1) := drain b in let '(m2, r2) := drain (r1 ++ c) in (m1 ++ m2, r2).
Proof.
  intros Sa. induction n as [|n IH]; intros b c L; rewrite (drain_eq Sa b).
  - destruct b; [|cbn in L; lia]. destruct (next []) as [| |m r] eqn:E.
    + now destruct (drain ([] ++ c)).
    + now destruct (drain ([] ++ c)).
    + apply (next_shorter Sa) in E. cbn in E. lia.
  - destruct (next b) as [| |m r] eqn:E.
    + now destruct (drain (b ++ c)).
    + now destruct (drain (b ++ c)).
    + rewrite (drain_eq Sa (b ++ c)), (next_more Sa _ _ _ _ E). pose proof (next_shorter Sa _ _ _ E).
      rewrite (IH r c) by lia. destruct (drain r) as [m1 r1]. now destruct (drain (r1 ++ c)) as [m2 r2].
Qed.

(** ** Frames *)
Lemma lines_index : forall lines s, Forall header_line lines ->
  exists k, index_of (CRLF ++ CRLF) (CRLF ++ concat (map (fun l => l ++ CRLF) lines) ++ CRLF ++ s) = Some k /\
    k + 4 = List.length (CRLF ++ concat (map (fun l => l ++ CRLF) lines) ++ CRLF).
Proof.
  intros lines s F. induction F as [|l lines [N1 N2] F IH].
  - cbn [map concat app]. exists 0. split; [|reflexivity]. apply (index_here (CRLF ++ CRLF) s).
  - destruct l as [|x l]; [easy|]. destruct IH as (k & E & K).
    exists (2 + List.length (x :: l) + k). split.
    + cbn [map concat]. rewrite <- !app_assoc.
      change (CRLF ++ (x :: l) ++ CRLF ++ concat (map (fun l0 => l0 ++ CRLF) lines) ++ CRLF ++ s)
        with (13%N :: 10%N :: (x :: l) ++ (CRLF ++ concat (map (fun l0 => l0 ++ CRLF) lines) ++ CRLF ++ s)).
      set (q := CRLF ++ concat (map (fun l0 => l0 ++ CRLF) lines) ++ CRLF ++ s) in *.
      assert (X : (13 =? x)%N = false) by (apply N.eqb_neq; intros <-; apply N2; now left).
      change (CRLF ++ CRLF) with [13; 10; 13; 10]%N in *.
      rewrite index_step by (cbn [starts_with app]; rewrite X; reflexivity).
      rewrite index_step by reflexivity.
      rewrite (index_skip 13%N [10; 13; 10]%N (x :: l) q N2), E. reflexivity.
    + cbn [map concat]. rewrite <- !app_assoc. repeat rewrite app_length in *. cbn [List.length CRLF] in *. lia.
Qed.
Lemma no_cr_content : ~ In 13%N content_length.
Proof. cbn. intuition discriminate. Qed.
Lemma no_cr_dec : forall n, ~ In 13%N (dec n).
Proof.
  intros n H. pose proof (dec_digits n) as D. rewrite Forall_forall in D. apply D in H. discriminate.
Qed.
Lemma number_dec : forall n, number other (dec n) = Some (Z.of_N n).
Proof.
  intros n. unfold number. replace (forallb is_digit (dec n)) with true; [now rewrite dec_value|].
  symmetry. apply forallb_forall. intros x H. pose proof (dec_digits n) as D. rewrite Forall_forall in D. auto.
Qed.
Definition header (n : N) (lines : list bytes) : bytes :=
  content_length ++ dec n ++ CRLF ++ concat (map (fun l => l ++ CRLF) lines) ++ CRLF.
Lemma frame_header : forall body f, frame body f -> exists lines, Forall header_line lines /\
  f = header (N.of_nat (List.length body)) lines ++ body.
Proof.
  intros body f [d lines D F]. exists lines. split; [assumption|]. apply decimal_dec in D as ->.
  unfold header. rewrite <- !app_assoc. reflexivity.
Qed.
Lemma header_parts : forall n lines s, Forall header_line lines ->
  let b := header n lines ++ s in
  index_of content_length b = Some 0 /\
  (exists e, index_of CRLF b = Some e /\ slice b (Z.of_nat (List.length content_length)) (Z.of_nat e) = dec n) /\
  exists h, index_of (CRLF ++ CRLF) b = Some h /\ h + 4 = List.length (header n lines).
Proof.
  intros n lines s F b. unfold b, header.
  assert (N : ~ In 13%N (content_length ++ dec n)).
  { rewrite in_app_iff. intros [H|H]; [now apply no_cr_content|now apply no_cr_dec in H]. }
  split; [|split].
  - rewrite <- app_assoc. apply index_here.
  - exists (List.length content_length + List.length (dec n)). split.
    + replace ((content_length ++ dec n ++ CRLF ++ concat (map (fun l => l ++ CRLF) lines) ++ CRLF) ++ s)
        with ((content_length ++ dec n) ++ CRLF ++ (concat (map (fun l => l ++ CRLF) lines) ++ CRLF ++ s))
        by (rewrite <- !app_assoc; reflexivity).
      rewrite (index_skip 13%N [10%N] _ _ N). change [13; 10]%N with CRLF. rewrite index_here. cbn [option_map].
      rewrite app_length. f_equal. lia.
    + rewrite <- !app_assoc. apply slice_app.
  - destruct (lines_index lines s F) as (k & E & K).
    exists (List.length (content_length ++ dec n) + k). split.
    + replace ((content_length ++ dec n ++ CRLF ++ concat (map (fun l => l ++ CRLF) lines) ++ CRLF) ++ s)
        with ((content_length ++ dec n) ++ CRLF ++ (concat (map (fun l => l ++ CRLF) lines) ++ CRLF ++ s))
        by (rewrite <- !app_assoc; reflexivity).
      change (CRLF ++ CRLF) with (13 :: [10; 13; 10])%N in *. rewrite (index_skip 13%N _ _ _ N), E. reflexivity.
    + repeat rewrite app_length in *. lia.
Qed.
Lemma next_frame : forall body f m s, frame body f -> body <> [] -> parse body = Some m -> next (f ++ s) = Message m s.
Proof.
  intros body f m s F B P. apply frame_header in F as (lines & F & ->). rewrite <- app_assoc.
  destruct (header_parts (N.of_nat (List.length body)) lines (body ++ s) F) as (E0 & (e & E1 & E3) & (h & E2 & L)).
  set (H := header (N.of_nat (List.length body)) lines) in *.
  unfold Prx_Model.next. rewrite E0, E1, E2, E3, number_dec.
  replace (Z.of_nat h + 4)%Z with (Z.of_nat (List.length H)) by lia.
  replace (Z.of_nat (List.length H) + Z.of_N (N.of_nat (List.length body)))%Z
    with (Z.of_nat (List.length H + List.length body)) by lia.
  rewrite Z.gtb_ltb, (proj2 (Z.ltb_ge _ _)) by (rewrite !app_length; lia).
  rewrite slice_app. destruct body as [|x body]; [easy|]. rewrite P. f_equal.
  rewrite slice_rest by (rewrite !app_length; lia).
  rewrite app_assoc, skipn_app, <- app_length, skipn_all, Nat.sub_diag. reflexivity.
Qed.

Lemma drain_framed : sane -> forall ms s t, framed parse ms s ->
  drain (s ++ t) = let '(m, r) := drain t in (ms ++ m, r).
Proof.
  intros Sa ms s t F. induction F as [|m ms body f s B P Fr F IH]; [cbn [app]; now destruct (drain t)|].
  rewrite <- app_assoc, (drain_eq Sa), (next_frame body f m (s ++ t) Fr B P), IH. now destruct (drain t).
Qed.

(** The beginning of a frame has to be waited for. *)
Lemma begun_next : forall s, begun s -> next s = Wait.
Proof.
  intros s [->|(body & f & r0 & F & Ef & R)]; [reflexivity|]. unfold Prx_Model.next.
  destruct (index_of content_length s) as [[|i]|] eqn:E0; try reflexivity.
  destruct (index_of CRLF s) as [e|] eqn:E1; [|reflexivity].
  destruct (index_of (CRLF ++ CRLF) s) as [h|] eqn:E2; [|reflexivity].
  apply frame_header in F as (lines & F & ->).
  destruct (header_parts (N.of_nat (List.length body)) lines body F) as (E0' & (e' & E1' & E3') & (h' & E2' & L')).
  cbv zeta in *. rewrite Ef in *.
  rewrite (index_more _ r0 _ _ E1) in E1'. injection E1' as <-.
  rewrite (index_more _ r0 _ _ E2) in E2'. injection E2' as <-.
  pose proof (index_len _ _ _ E1) as L1. cbn [List.length CRLF] in L1. pose proof (index_len _ _ _ E0) as L0.
  assert (G : List.length content_length <= e).
  { destruct (Nat.le_gt_cases (List.length content_length) e) as [G|G]; [assumption|].
    exfalso. unfold slice, clamp in E3'. rewrite !(proj2 (Z.ltb_ge _ 0)) in E3' by lia.
    rewrite app_length, !Z.min_l in E3' by lia.
    replace (Z.to_nat (Z.of_nat e - _)) with 0 in E3' by lia. cbn [firstn] in E3'. symmetry in E3'. now apply dec_nonempty in E3'. }
  rewrite slice_more in E3' by lia. rewrite E3', number_dec.
  apply (f_equal (@List.length _)) in Ef. rewrite !app_length in Ef.
  destruct r0; [easy|]. cbn [List.length] in Ef.
  rewrite Z.gtb_ltb, (proj2 (Z.ltb_lt _ _)) by lia. reflexivity.
Qed.
Lemma begun_wait : sane -> forall s, begun s -> drain s = ([], s).
Proof. intros Sa s B. now rewrite (drain_eq Sa), (begun_next s B). Qed.
End Proxy.
