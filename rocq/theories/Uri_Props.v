(** C113: URIs and names of files *)
From Coq Require Import String List NArith Bool Lia.
From Coq Require Import ZifyBool ZifyNat ZifyN.
From Verif Require Import Common Uri_Model Uri_Spec.
Import ListNotations.
Open Scope list_scope.
Open Scope N_scope.

Lemma eqb_eq a : forall b, bytes_eqb a b = true <-> a = b.
Proof.
  induction a as [|x a IH]; intros [|y b]; cbn; split; intro H; try congruence; try discriminate.
  - apply andb_true_iff in H. destruct H as [H1 H2]. apply N.eqb_eq in H1. apply IH in H2. congruence.
  - injection H as -> ->. rewrite N.eqb_refl. now apply IH.
Qed.
Lemma eqb_neq a b : bytes_eqb a b = false <-> a <> b.
Proof. rewrite <- eqb_eq. destruct (bytes_eqb a b); split; congruence. Qed.

(** ** Encoding *)
Lemma hex_read h a : hex h a -> hex_value h = Some a /\ h <> 37 /\ h <> 63 /\ h <> 35 /\ a < 16.
Proof.
  intros [d Hd|d Hd|d Hd]; unfold hex_value, is_digit; repeat split; try lia.
  - destruct (48 <=? 48 + d) eqn:E1; [|lia]. destruct (48 + d <=? 57) eqn:E2; [|lia]. cbn [andb]. f_equal. lia.
  - destruct (65 + (d - 10) <=? 57) eqn:E1; [lia|]. rewrite andb_false_r.
    destruct (65 <=? 65 + (d - 10)) eqn:E2; [|lia]. destruct (65 + (d - 10) <=? 70) eqn:E3; [|lia]. cbn [andb]. f_equal. lia.
  - destruct (97 + (d - 10) <=? 57) eqn:E1; [lia|]. rewrite andb_false_r.
    destruct (97 + (d - 10) <=? 70) eqn:E2; [lia|]. rewrite andb_false_r.
    destruct (97 <=? 97 + (d - 10)) eqn:E3; [|lia]. destruct (97 + (d - 10) <=? 102) eqn:E4; [|lia]. cbn [andb]. f_equal. lia.
Qed.
Lemma decode_writes e p : writes e p -> decode e = Some p.
Proof.
  induction 1 as [|c e p H1 H2 H3 H IH|h l a b e p Hh Hl H IH]; [reflexivity| |]; cbn [decode].
  - destruct (N.eqb_spec c PERCENT) as [->|_]; [elim H1; reflexivity|]. now rewrite IH.
  - rewrite N.eqb_refl. destruct (hex_read _ _ Hh) as [-> _]. destruct (hex_read _ _ Hl) as [-> _]. rewrite IH. f_equal. f_equal. lia.
Qed.
Lemma writes_plain e p : writes e p -> Forall (fun c => not_in (s2b "?#") c = true) e.
Proof.
  assert (forall c, c <> 63 -> c <> 35 -> not_in (s2b "?#") c = true) as K.
  { intros c H1 H2. unfold not_in. cbn. rewrite !orb_false_r. apply negb_true_iff. apply orb_false_iff. split; now apply N.eqb_neq. }
  induction 1 as [|c e p H1 H2 H3 H IH|h l a b e p Hh Hl H IH]; [constructor|constructor; auto|].
  destruct (hex_read _ _ Hh) as (_ & _ & H1 & H2 & _). destruct (hex_read _ _ Hl) as (_ & _ & H3 & H4 & _).
  apply Forall_cons; [reflexivity|]. apply Forall_cons; [auto|]. apply Forall_cons; auto.
Qed.
Lemma span_all f s : Forall (fun c => f c = true) s -> span f s = (s, []).
Proof. induction 1 as [|c s Hc H IH]; [reflexivity|]. cbn. now rewrite Hc, IH. Qed.

Lemma hex_char_hex d : d < 16 -> hex (hex_char d) d.
Proof.
  intros H. unfold hex_char. destruct (N.ltb_spec d 10); [apply HexD; lia|]. replace (55 + d) with (65 + (d - 10)) by lia. apply HexU. lia.
Qed.

(** ** Names *)
Lemma split_name n : ~ In 47 n -> split n = [n].
Proof.
  induction n as [|c n IH]; intros H; [reflexivity|]. cbn [split]. destruct (N.eqb_spec c SLASH) as [->|_]; [elim H; left; reflexivity|].
  rewrite IH; [reflexivity|]. intro G. apply H. now right.
Qed.
Lemma split_app n s : ~ In 47 n -> split (n ++ 47 :: s) = n :: split s.
Proof.
  induction n as [|c n IH]; intros H; [reflexivity|]. cbn [app split]. destruct (N.eqb_spec c SLASH) as [->|_]; [elim H; left; reflexivity|].
  rewrite IH; [reflexivity|]. intro G. apply H. now right.
Qed.
Lemma split_spelled : forall r n, ~ In 47 n -> Forall (fun n => ~ In 47 n) r -> split (n ++ spelled r) = n :: r.
Proof.
  induction r as [|m r IH]; intros n Hn F; [cbn; rewrite app_nil_r; now apply split_name|].
  inversion F as [|? ? Hm F']; subst. change (spelled (m :: r)) with (47 :: m ++ spelled r). rewrite split_app by assumption. now rewrite IH.
Qed.
Lemma join_spelled n l : join (n :: l) = n ++ spelled l.
Proof.
  revert n. induction l as [|m l IH]; intro n; [cbn; now rewrite app_nil_r|].
  change (join (n :: m :: l)) with (n ++ SLASH :: join (m :: l)). rewrite IH. reflexivity.
Qed.

Lemma name_keep n st : a_name n -> keep true st n = n :: st.
Proof.
  intros (H1 & _ & H2 & H3). unfold keep. rewrite (proj2 (eqb_neq n []) H1), (proj2 (eqb_neq n DOT) H2), (proj2 (eqb_neq n DOTS) H3). reflexivity.
Qed.
Lemma walk_fold d names d' : walk d names d' -> Forall a_name d -> fold_left (keep true) names (rev d) = rev d' /\ Forall a_name d'.
Proof.
  induction 1 as [d|d n r d' Hn H IH|d r d' H IH|d n r d' Hn H IH]; intro F; cbn [fold_left].
  - auto.
  - replace (keep true (rev d) n) with (rev d); [auto|]. unfold keep. now destruct Hn as [-> | ->].
  - destruct d as [|x l _] using rev_ind.
    + now apply IH.
    + apply Forall_app in F. destruct F as [F1 F2]. rewrite removelast_last in IH. rewrite rev_unit. inversion F2 as [|? ? Hx _]; subst.
      replace (keep true (x :: rev l) [46; 46]) with (rev l); [auto|]. unfold keep.
      destruct Hx as (_ & _ & _ & Hx). change (bytes_eqb [46; 46] [] || bytes_eqb [46; 46] DOT) with false. cbv iota.
      change (bytes_eqb [46; 46] DOTS) with true. cbv iota. now rewrite (proj2 (eqb_neq x DOTS) Hx).
  - rewrite name_keep by assumption. rewrite <- rev_unit. apply IH. apply Forall_app. auto.
Qed.

Lemma normal_spelled names d' n0 : walk [] (names ++ [n0]) d' -> Forall (fun n => ~ In 47 n) names -> a_name n0 ->
  lexically_normal (spelled (names ++ [n0])) = spelled d'.
Proof.
  intros W F H0. destruct (walk_fold _ _ _ W (Forall_nil _)) as [E F'].
  assert (exists s, spelled (names ++ [n0]) = 47 :: s /\ split (spelled (names ++ [n0])) = [] :: names ++ [n0]) as (s & Es & Esp).
  { destruct H0 as (_ & H0 & _). assert (Forall (fun n => ~ In 47 n) (names ++ [n0])) as G by (apply Forall_app; auto).
    destruct (names ++ [n0]) as [|m r] eqn:En; [now destruct names|]. exists (m ++ spelled r). split; [reflexivity|].
    change (spelled (m :: r)) with ([] ++ 47 :: m ++ spelled r). rewrite split_app by auto. inversion G; subst. now rewrite split_spelled. }
  unfold lexically_normal. rewrite Es. rewrite <- Es, Esp. change (47 =? SLASH) with true.
  cbn [fold_left]. change (keep true [] []) with (@rev bytes []). rewrite E.
  assert (last ([] :: names ++ [n0]) [] = n0) as ->.
  { change ([] :: names ++ [n0]) with (([] :: names) ++ [n0]). apply last_last. }
  pose proof H0 as HA. destruct H0 as (H1 & _ & H2 & H3).
  rewrite (proj2 (eqb_neq n0 []) H1), (proj2 (eqb_neq n0 DOT) H2), (proj2 (eqb_neq n0 DOTS) H3). cbn [orb andb].
  assert (d' <> []) as Hd.
  { intros ->. cbn in E. rewrite fold_left_app in E. cbn [fold_left] in E. rewrite name_keep in E by exact HA.
    discriminate. }
  destruct (rev d') as [|top st] eqn:Er.
  - apply (f_equal (@rev bytes)) in Er. rewrite rev_involutive in Er. contradiction.
  - rewrite <- Er, rev_involutive, app_nil_r. destruct d' as [|x l]; [contradiction|]. rewrite join_spelled. reflexivity.
Qed.

Lemma walk_self : forall names d, Forall a_name names -> walk d names (d ++ names).
Proof.
  induction names as [|n r IH]; intros d F; [rewrite app_nil_r; constructor|]. inversion F; subst. apply WalkDown; [assumption|].
  replace (d ++ n :: r) with ((d ++ [n]) ++ r) by (rewrite <- app_assoc; reflexivity). now apply IH.
Qed.
Lemma normal_file p : file_name p -> lexically_normal p = p.
Proof.
  intros (names & Hn & F & ->). destruct names as [|n0 l _] using rev_ind; [contradiction|].
  pose proof (walk_self _ [] F) as W. apply Forall_app in F. destruct F as [F F0]. inversion F0; subst.
  apply normal_spelled; [exact W| |assumption]. eapply Forall_impl; [|exact F]. intros a (_ & H & _). exact H.
Qed.

(** ** What the server makes of a URI *)
Lemma read_uri u p : uri_of u p -> uri_to_path u = Some (lexically_normal p).
Proof.
  intros (e & -> & W). unfold uri_to_path.
  assert (parse_uri (s2b "file://" ++ 47 :: e) = Some (s2b "file", [], 47 :: e)) as ->.
  { unfold parse_uri. cbn -[span not_in s2b]. 
    assert (span (not_in (s2b ":")) (s2b "file://" ++ 47 :: e) = (s2b "file", 58 :: 47 :: 47 :: 47 :: e)) as -> by reflexivity.
    change (starts_with (s2b "//") (47 :: 47 :: 47 :: e)) with true. cbv iota. cbn [skipn].
    assert (span (not_in (s2b "/?#")) (47 :: e) = ([], 47 :: e)) as -> by reflexivity.
    rewrite (span_all _ _ (writes_plain _ _ W)). reflexivity. }
  change (bytes_eqb (s2b "file") untitled) with false. change (bytes_eqb (s2b "file") (s2b "file")) with true.
  change (bytes_eqb (47 :: e) []) with false. change (bytes_eqb [] []) with true. cbn [negb].
  now rewrite (decode_writes _ _ W).
Qed.

(** However the client writes the name of a file, the server reads that name *)
Theorem C113_read : forall u p, uri_of u p -> file_name p -> uri_to_path u = Some p.
Proof. intros u p H F. rewrite (read_uri _ _ H). now rewrite normal_file. Qed.
Print Assumptions C113_read.
(** ... with the steps . and .. and doubled slashes gone along *)
Theorem C113_read_steps : forall u names n d, uri_of u (spelled (names ++ [n])) -> Forall (fun n => ~ In 47 n) names -> a_name n ->
  walk [] (names ++ [n]) d -> uri_to_path u = Some (spelled d) /\ file_name (spelled d).
Proof.
  intros u names n d H F Hn W. rewrite (read_uri _ _ H). rewrite (normal_spelled names d n) by assumption. split; [reflexivity|].
  destruct (walk_fold _ _ _ W (Forall_nil _)) as [E F']. exists d. split; [|auto]. intros ->.
  cbn in E. rewrite fold_left_app in E. cbn [fold_left] in E. rewrite name_keep in E by assumption. discriminate.
Qed.
Print Assumptions C113_read_steps.

(** ** What the server writes *)
Definition enc (p : bytes) : bytes := flat_map (fun c => encode_char (s2b "/.%;=") (if c =? BACKSLASH then SLASH else c)) p.
Lemma enc_char c : c <> 92 -> c <> 37 -> c < 256 ->
  (encode_char (s2b "/.%;=") c = [c] /\ c <> 63 /\ c <> 35) \/ encode_char (s2b "/.%;=") c = [37; hex_char (c / 16); hex_char (c mod 16)].
Proof.
  intros H1 H2 H3. unfold encode_char. destruct (unreserved c || existsb (N.eqb c) (s2b "/.%;=")) eqn:E; [left|right; reflexivity].
  split; [reflexivity|]. split; intros ->; discriminate.
Qed.
Lemma writes_enc p : byte_string p -> ~ In 37 p -> ~ In 92 p -> writes (enc p) p.
Proof.
  induction p as [|c p IH]; intros B H1 H2; [constructor|]. inversion B as [|? ? Hc B']; subst.
  assert (writes (enc p) p) as W by (apply IH; [assumption|intro; apply H1; now right|intro; apply H2; now right]).
  assert (c <> 37) as Hn by (intros ->; apply H1; now left). assert (c <> 92) as Hb by (intros ->; apply H2; now left).
  unfold enc. cbn [flat_map]. fold (enc p). destruct (N.eqb_spec c BACKSLASH) as [->|_]; [now elim Hb|].
  destruct (enc_char c Hb Hn Hc) as [(-> & G1 & G2)| ->]; cbn [app]; [now apply WSelf|].
  assert (c = 16 * (c / 16) + c mod 16) as Ec by (apply N.div_mod; lia). rewrite Ec at 3.
  assert (c mod 16 < 16) by (apply N.mod_lt; lia). assert (c / 16 < 16) by (apply N.div_lt_upper_bound; lia).
  apply WHex; [now apply hex_char_hex|now apply hex_char_hex|assumption].
Qed.

Lemma encode_first c x : exists h t, encode_char x c = h :: t /\ (h = 37 \/ (h = c /\ t = [])).
Proof. unfold encode_char. destruct (unreserved c || existsb (N.eqb c) x); do 2 eexists; split; eauto. Qed.
Lemma hex_in_enc : forall p h e a, hex h a -> enc p = h :: e -> exists p', p = h :: p' /\ enc p' = e.
Proof.
  intros [|c p] h e a Hh E; [discriminate|]. unfold enc in E. cbn [flat_map] in E. fold (enc p) in E.
  assert (h <> 47) as Hs by (inversion Hh; lia).
  destruct (encode_first (if c =? BACKSLASH then SLASH else c) (s2b "/.%;=")) as (h' & t & Eh & Hc). rewrite Eh in E. injection E as -> E.
  destruct (hex_read _ _ Hh) as (_ & Hp & _). destruct Hc as [-> | [Hc ->]]; [now elim Hp|]. exists p. split; [|assumption].
  destruct (N.eqb_spec c BACKSLASH) as [->|_]; [now elim Hs|]. now rewrite Hc.
Qed.
Lemma writes_inv h e q : writes (h :: e) q ->
  (h <> 37 /\ exists q', q = h :: q' /\ writes e q') \/
  (h = 37 /\ exists x y a b r q', hex x a /\ hex y b /\ e = x :: y :: r /\ q = 16 * a + b :: q' /\ writes r q').
Proof. intro W. inversion W; subst; [left; eauto|right; split; [reflexivity|]; do 6 eexists; eauto 6]. Qed.

(** a percent sign in the name takes two characters with it *)
Lemma writes_short : forall n p q, (length p <= n)%nat -> writes (enc p) q -> (length q <= length p)%nat.
Proof.
  induction n as [|n IH]; intros p q Hn W.
  - destruct p; [|cbn in Hn; lia]. inversion W; subst. cbn. lia.
  - destruct p as [|c p]; [inversion W; subst; cbn; lia|]. cbn [length] in Hn.
    unfold enc in W. cbn [flat_map] in W. fold (enc p) in W. set (c' := if c =? BACKSLASH then SLASH else c) in *.
    unfold encode_char in W. destruct (unreserved c' || existsb (N.eqb c') (s2b "/.%;=")) eqn:E; cbn [app] in W;
      apply writes_inv in W; destruct W as [(H & q' & -> & W)|(H & x & y & a & b & r & q' & Hx & Hy & Er & -> & W)].
    + cbn [length]. apply IH in W; lia.
    + destruct (hex_in_enc _ _ _ _ Hx Er) as (p1 & -> & E1). destruct (hex_in_enc _ _ _ _ Hy E1) as (p2 & -> & <-).
      cbn [length] in *. apply IH in W; lia.
    + elim H. reflexivity.
    + injection Er as <- <- <-. cbn [length]. apply IH in W; lia.
Qed.
Lemma writes_enc_only p : writes (enc p) p -> ~ In 37 p /\ ~ In 92 p.
Proof.
  induction p as [|c p IH]; intros W; [split; intros []|].
  unfold enc in W. cbn [flat_map] in W. fold (enc p) in W. set (c' := if c =? BACKSLASH then SLASH else c) in *.
  unfold encode_char in W. destruct (unreserved c' || existsb (N.eqb c') (s2b "/.%;=")) eqn:E; cbn [app] in W;
    apply writes_inv in W; destruct W as [(H & q' & Eq & W)|(H & x & y & a & b & r & q' & Hx & Hy & Er & Eq & W)].
  - injection Eq as Ec <-. destruct (IH W) as [G1 G2]. subst c'.
    destruct (N.eqb_spec c BACKSLASH) as [->|Hb]; [discriminate|]. unfold BACKSLASH in Hb.
    split; intros [->|G]; try contradiction; congruence.
  - destruct (hex_in_enc _ _ _ _ Hx Er) as (p1 & Ep & E1). destruct (hex_in_enc _ _ _ _ Hy E1) as (p2 & Ep1 & <-).
    injection Eq as _ <-. apply (writes_short _ _ _ (le_n _)) in W. rewrite Ep, Ep1 in W. cbn [length] in W. lia.
  - elim H. reflexivity.
  - injection Er as <- <- <-. injection Eq as Ec <-. destruct (IH W) as [G1 G2].
    assert (c = c') as Hc.
    { subst c'. destruct (N.eqb_spec c BACKSLASH) as [->|Hb]; [|reflexivity]. discriminate E. }
    assert (c' <> 37 /\ c' <> 92) as [K1 K2].
    { split; [intros K; rewrite K in E; discriminate|]. intros K. subst c'. destruct (N.eqb_spec c BACKSLASH) as [Hb|Hb]; [discriminate|].
      apply Hb. exact K. }
    split; intros [->|G]; try contradiction; congruence.
Qed.

Lemma file_slash p : file_name p -> exists r, p = 47 :: r.
Proof. intros (names & Hn & _ & ->). destruct names as [|n l]; [contradiction|]. cbn. eauto. Qed.
Lemma path_file p : file_name p -> path_to_uri p = s2b "file://" ++ enc p.
Proof. intros F. destruct (file_slash _ F) as [r ->]. reflexivity. Qed.

(** The URI the server sends is one of the file exactly if the name has no percent sign and no backslash *)
Theorem C113_write : forall p, file_name p -> byte_string p ->
  (uri_of (path_to_uri p) p <-> ~ In 37 p /\ ~ In 92 p).
Proof.
  intros p F B. rewrite (path_file _ F). destruct (file_slash _ F) as [r ->].
  assert (enc (47 :: r) = 47 :: enc r) as Ee by reflexivity. split.
  - intros (e & E & W). apply app_inv_head in E. rewrite <- E in W. now apply writes_enc_only.
  - intros [H1 H2]. exists (enc r). split; [now rewrite Ee|]. rewrite <- Ee. now apply writes_enc.
Qed.
Print Assumptions C113_write.

(** The name survives the way to the client and back, so different files have different URIs *)
Theorem C113_round_trip : forall p, file_name p -> byte_string p -> ~ In 37 p -> ~ In 92 p ->
  uri_to_path (path_to_uri p) = Some p.
Proof. intros p F B H1 H2. apply C113_read; [|assumption]. now apply C113_write. Qed.
Print Assumptions C113_round_trip.
Theorem C113_different : forall p q, file_name p -> file_name q -> byte_string p -> byte_string q ->
  ~ In 37 p -> ~ In 92 p -> ~ In 37 q -> ~ In 92 q -> path_to_uri p = path_to_uri q -> p = q.
Proof.
  intros p q Fp Fq Bp Bq H1 H2 H3 H4 E. pose proof (C113_round_trip p Fp Bp H1 H2) as Rp. rewrite E, C113_round_trip in Rp by assumption. congruence.
Qed.
Print Assumptions C113_different.

(** Breakpoints: the debugger and the language server agree on the file, for both formats of the client *)
Theorem C113_debugger : forall cwd u p, uri_of u p -> file_name p ->
  convert_path cwd true u = uri_to_path u /\ convert_path cwd false p = uri_to_path u.
Proof.
  intros cwd u p H F. split; [reflexivity|]. rewrite (C113_read _ _ H F). unfold convert_path.
  assert (is_absolute p = true) as -> by (destruct (file_slash _ F) as [r ->]; reflexivity). now rewrite normal_file.
Qed.
Print Assumptions C113_debugger.

(** Documents not saved yet keep their URI; documents of other schemes have no name *)
Theorem C113_unsaved : forall s, uri_to_path (s2b "untitled:" ++ s) = Some (s2b "untitled:" ++ s) /\
  path_to_uri (s2b "untitled:" ++ s) = s2b "untitled:" ++ s.
Proof.
  intro s. split; [|reflexivity]. unfold uri_to_path, parse_uri.
  assert (span (not_in (s2b ":")) (s2b "untitled:" ++ s) = (s2b "untitled", 58 :: s)) as -> by reflexivity.
  destruct (starts_with (s2b "//") s); [destruct (span (not_in (s2b "/?#")) (skipn 2 s))|]; reflexivity.
Qed.
Print Assumptions C113_unsaved.
Theorem C113_other : forall scheme s, ~ In 58 scheme -> scheme <> s2b "file" -> scheme <> s2b "untitled" ->
  uri_to_path (scheme ++ 58 :: s) = Some [].
Proof.
  intros scheme s H0 H1 H2. unfold uri_to_path, parse_uri.
  assert (span (not_in (s2b ":")) (scheme ++ 58 :: s) = (scheme, 58 :: s)) as ->.
  { clear H1 H2. induction scheme as [|c r IH]; [reflexivity|]. cbn [app span].
    assert (not_in (s2b ":") c = true) as ->.
    { unfold not_in. cbn. rewrite orb_false_r. apply negb_true_iff, N.eqb_neq. intros ->. apply H0. now left. }
    rewrite IH by (intro; apply H0; now right). reflexivity. }
  destruct (starts_with (s2b "//") s); [destruct (span (not_in (s2b "/?#")) (skipn 2 s))|];
    now rewrite (proj2 (eqb_neq scheme untitled) H2), (proj2 (eqb_neq scheme (s2b "file")) H1).
Qed.
Print Assumptions C113_other.

(** ** Where it fails *)
(** A percent sign: the diagnostics of one file are sent for another *)
Theorem C113_percent_refuted : exists p q, file_name p /\ file_name q /\ p <> q /\ uri_of (path_to_uri p) q /\ uri_of (path_to_uri q) q.
Proof.
  assert (forall n, n <> [] -> ~ In 47 n -> n <> [46] -> n <> [46; 46] -> file_name (47 :: n)) as K.
  { intros n H1 H2 H3 H4. exists [n]. split; [discriminate|]. split; [repeat constructor; assumption|]. cbn. now rewrite app_nil_r. }
  exists (s2b "/A%42"), (s2b "/AB").
  split; [apply K; try discriminate; cbn; intuition discriminate|].
  split; [apply K; try discriminate; cbn; intuition discriminate|].
  split; [discriminate|]. split.
  - exists (s2b "A%42"). split; [reflexivity|]. do 2 (apply WSelf; [discriminate|discriminate|discriminate|]).
    change (writes [37; 52; 50] [16 * 4 + 2]). apply WHex; [apply (HexD 4); lia|apply (HexD 2); lia|constructor].
  - exists (s2b "AB"). split; [reflexivity|]. do 3 (apply WSelf; [discriminate|discriminate|discriminate|]). constructor.
Qed.
Print Assumptions C113_percent_refuted.
(** ... or for none: what is sent cannot be decoded *)
Theorem C113_percent_end_refuted : exists p, file_name p /\ uri_to_path (path_to_uri p) = None.
Proof.
  exists (s2b "/100%"). split; [|vm_compute; reflexivity]. exists [s2b "100%"]. split; [discriminate|]. split; [|reflexivity].
  repeat constructor; try discriminate. cbn. intuition discriminate.
Qed.
Print Assumptions C113_percent_end_refuted.
(** A file of another host becomes a name relative to the directory of the server *)
Theorem C113_host_refuted : uri_to_path (s2b "file://host/share/A") = Some (s2b "host/share/A").
Proof. vm_compute. reflexivity. Qed.
Print Assumptions C113_host_refuted.

(** ** Examples *)
Example ex_name : file_name (s2b "/home/a b/A.hlasm").
Proof.
  exists [s2b "home"; s2b "a b"; s2b "A.hlasm"]. split; [discriminate|]. split; [|reflexivity].
  repeat (apply Forall_cons; [repeat split; try discriminate; cbn; intuition discriminate|]). apply Forall_nil.
Qed.
Example ex_write : path_to_uri (s2b "/home/a b/@A.hlasm") = s2b "file:///home/a%20b/%40A.hlasm".
Proof. vm_compute. reflexivity. Qed.
Example ex_read : uri_to_path (s2b "file:///home/a%20b/./x/../%40A.hlasm") = Some (s2b "/home/a b/@A.hlasm").
Proof. vm_compute. reflexivity. Qed.
Example ex_normal : map lexically_normal (map s2b ["a/./b/.."; "a/.."; "../../a/"; "/.."; "//a//b"; "a/b/.././c"]%string) =
  map s2b ["a/"; "."; "../../a/"; "/"; "/a/b"; "a/c"]%string.
Proof. vm_compute. reflexivity. Qed.
