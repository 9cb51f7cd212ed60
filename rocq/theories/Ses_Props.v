(** * Ses_Props: C115, debug sessions through the tunnel *)
From Coq Require Import String List NArith ZArith Bool Lia.
From Verif Require Import Common Lts Json Ses_Model Ses_Spec Ses_Proof.
Import ListNotations.
Open Scope list_scope.

(** Nobody debugs under the number [n]. *)
Definition free (n : N) (s : st) : Prop := forall k x, nth_error (made s) k = Some x -> ident x = n -> at_ x = Ended.
Definition prefix (a b : list json) : Prop := exists r, b = a ++ r.

Lemma free_running : forall n s k x, free n s -> nth_error (made s) k = Some x -> is_running x = true -> ident x <> n.
Proof. intros n s k x F E R N. unfold is_running in R. rewrite (F k x E N) in R. discriminate. Qed.

Lemma open_new : forall es1 s1 msg n, run step init es1 = Some s1 -> opening n msg -> free n s1 ->
  router_write msg s1 = St (cleanup s1 ++ [(method_name n, List.length (made s1))])
                           (made s1 ++ [Session n [] Reading []]) (out s1) (lsp s1).
Proof.
  intros es1 s1 msg n R O F. apply opening_eq in O as [M D]. pose proof (reach_inv _ _ R) as I.
  destruct (router_wrote msg s1 I) as [T|j y Hj Ej M'|id j y M' D' Ej Ry Ny|id M' D' F'|M' D'|T M' F'].
  - apply tunnel_tunnelled in M. congruence.
  - rewrite M in M'. symmetry in M'. now apply name_not_tunnel in M'.
  - assert (id = n) by congruence. exfalso. apply (free_running _ _ _ _ F Ej Ry). congruence.
  - assert (id = n) by congruence. now subst.
  - congruence.
  - congruence.
Qed.

Lemma opened_tracked : forall es1 s1 msg n es2 s2,
  run step init es1 = Some s1 -> opening n msg -> free n s1 -> run step s1 (Write msg :: es2) = Some s2 ->
  inv s2 /\ exists x, tracked n (List.length (made s1)) (writes es2) s2 x.
Proof.
  intros es1 s1 msg n es2 s2 R O F R2. split.
  - apply (reach_inv (es1 ++ Write msg :: es2)). now rewrite run_app, R.
  - cbn [run step] in R2.
    assert (I : inv (router_write msg s1)).
    { eapply wrote_inv; [eapply reach_inv, R|]. apply router_wrote. eapply reach_inv, R. }
    apply (tracked_run es2 n _ [] (router_write msg s1) (Session n [] Reading []) s2 I); [|exact R2].
    rewrite (open_new es1 s1 msg n R O F). constructor; cbn [made ident queue at_ got].
    + rewrite nth_error_app2 by lia. now rewrite Nat.sub_diag.
    + reflexivity.
    + now exists [].
    + intros _. exists []. repeat split. constructor.
Qed.

(** Opening a session under a free number starts one; from then on, whatever else happens, it
    is given what the client says to that number, in order, nothing lost, repeated or meant for
    another. *)
Theorem C115_delivery : forall es1 s1 msg n es2 s2,
  run step init es1 = Some s1 -> opening n msg -> free n s1 -> run step s1 (Write msg :: es2) = Some s2 ->
  exists x cs, nth_error (made s2) (List.length (made s1)) = Some x /\ ident x = n /\
    stream n (writes es2) cs /\ prefix (got x) cs /\
    (at_ x = Reading -> queue x = [] -> got x = cs).
Proof.
  intros es1 s1 msg n es2 s2 R O F R2.
  destruct (opened_tracked _ _ _ _ _ _ R O F R2) as (I & x & [E N P Q]).
  exists x, (contents (mine n (writes es2))). repeat split; [exact E|exact N|apply stream_contents|exact P|].
  intros A Z. destruct (Q A) as (c & M & G & _). rewrite Z, app_nil_r in M. now rewrite M.
Qed.
Print Assumptions C115_delivery.

Lemma read_all : forall q n k ms s x, inv s -> tracked n k ms s x -> at_ x = Reading -> queue x = q ->
  exists es s' x', run step s es = Some s' /\ Forall (eq (Read k)) es /\
    nth_error (made s') k = Some x' /\ got x' = contents (mine n ms).
Proof.
  induction q as [|m q IH]; intros n k ms s x I T A Z.
  - exists [], s, x. repeat split; [constructor|apply T|].
    destruct (tr_reading _ _ _ _ _ T A) as (c & M & G & _). rewrite Z, app_nil_r in M. now rewrite M.
  - destruct x as [id q0 p g]. cbn in A, Z. subst p q0.
    pose proof (tr_at _ _ _ _ _ T) as E. destruct (tr_reading _ _ _ _ _ T eq_refl) as (c & M & G & O).
    cbn [queue got] in M, G.
    destruct (step s (Read k)) as [s1|] eqn:S1; [|cbn [step] in S1; rewrite E in S1; discriminate].
    destruct (tracked_step _ _ _ _ _ _ _ I T S1) as (x1 & T1). cbn [writes] in T1. rewrite app_nil_r in T1.
    assert (X1 : x1 = match unwrap m with Some p => Session id q Reading (g ++ [p]) | None => Session id q Closing g end).
    { pose proof (tr_at _ _ _ _ _ T1) as E1. cbn [step] in S1. rewrite E in S1. injection S1 as <-.
      cbn [made] in E1. rewrite nth_update, Nat.eqb_refl, E in E1. now injection E1 as <-. }
    destruct (unwrap m) as [p|] eqn:U.
    + destruct (IH n k ms s1 x1 (step_inv _ _ _ I S1) T1) as (es & s' & x' & R & Fa & E' & G'); [now subst|now subst|].
      exists (Read k :: es), s', x'. repeat split; [|now constructor|exact E'|exact G'].
      cbn [run]. now rewrite S1.
    + exists [Read k], s1, x1. repeat split; [cbn [run]; now rewrite S1|now repeat constructor|apply T1|].
      subst x1. cbn [got]. rewrite M, contents_open by assumption. cbn [contents]. rewrite U, app_nil_r. exact G.
Qed.

(** As long as its loop has not ended, only its own reading keeps it from having all of it. *)
Theorem C115_served : forall es1 s1 msg n es2 s2 x,
  run step init es1 = Some s1 -> opening n msg -> free n s1 -> run step s1 (Write msg :: es2) = Some s2 ->
  nth_error (made s2) (List.length (made s1)) = Some x -> at_ x = Reading ->
  exists es3 s3 x3 cs, run step s2 es3 = Some s3 /\ Forall (eq (Read (List.length (made s1)))) es3 /\
    nth_error (made s3) (List.length (made s1)) = Some x3 /\ stream n (writes es2) cs /\ got x3 = cs.
Proof.
  intros es1 s1 msg n es2 s2 x R O F R2 E A.
  destruct (opened_tracked _ _ _ _ _ _ R O F R2) as (I & x' & T).
  assert (x' = x) as -> by (pose proof (tr_at _ _ _ _ _ T); congruence).
  destruct (read_all (queue x) n _ _ _ x I T A eq_refl) as (es & s' & x' & R' & Fa & E' & G).
  exists es, s', x', (contents (mine n (writes es2))). repeat split; try assumption. apply stream_contents.
Qed.
Print Assumptions C115_served.

(** What is said to a number is one thing only; a name belongs to one number, and opens nothing. *)
Theorem C115_names : forall n msg,
  (forall m, addressed n msg -> addressed m msg -> n = m) /\
  (forall m, addressed n msg -> ~ opening m msg) /\
  (forall ms cs cs', stream n ms cs -> stream n ms cs' -> cs = cs') /\
  (forall ms, exists cs, stream n ms cs).
Proof.
  intros n msg. repeat split.
  - intros m A B. apply addressed_eq in A, B. apply name_inj. congruence.
  - intros m A B. apply addressed_eq in A. apply opening_eq in B as [B _]. rewrite B in A.
    symmetry in A. now apply name_not_tunnel in A.
  - intros ms cs cs'. apply stream_fun.
  - intros ms. eexists. apply stream_contents.
Qed.
Print Assumptions C115_names.

(** No two sessions live under one number. *)
Theorem C115_one : forall es s i j x y,
  run step init es = Some s -> nth_error (made s) i = Some x -> nth_error (made s) j = Some y ->
  at_ x <> Ended -> at_ y <> Ended -> ident x = ident y -> i = j.
Proof.
  intros es s i j x y R E1 E2 A1 A2 N. pose proof (reach_inv _ _ R) as I.
  assert (L1 : is_running x = true) by (unfold is_running; destruct (at_ x); congruence).
  assert (L2 : is_running y = true) by (unfold is_running; destruct (at_ y); congruence).
  apply (iv_live s I _ _ E1) in L1. apply (iv_live s I _ _ E2) in L2. rewrite N in L1.
  apply (assoc_nodup _ _ _ _ (iv_keys s I)) in L1. apply (assoc_nodup _ _ _ _ (iv_keys s I)) in L2. congruence.
Qed.
Print Assumptions C115_one.

(** Opening a number that is in use disturbs no session and starts none. *)
Theorem C115_reopen : forall es s k x msg,
  run step init es = Some s -> nth_error (made s) k = Some x -> at_ x <> Ended -> opening (ident x) msg ->
  exists s', step s (Write msg) = Some s' /\ made s' = made s /\ out s' = out s /\ lsp s' = lsp s.
Proof.
  intros es s k x msg R E A O. exists (router_write msg s). split; [reflexivity|].
  apply opening_eq in O as [M D]. pose proof (reach_inv _ _ R) as I.
  assert (L : is_running x = true) by (unfold is_running; destruct (at_ x); congruence).
  destruct (router_wrote msg s I) as [T|j y Hj Ej M'|id j y M' D' Ej Ry Ny|id M' D' F'|M' D'|T M' F'];
    cbn [made out lsp]; auto.
  - apply tunnel_tunnelled in M. congruence.
  - rewrite M in M'. symmetry in M'. now apply name_not_tunnel in M'.
  - exfalso. apply (F' _ _ E L). congruence.
Qed.
Print Assumptions C115_reopen.

(** A message of the client touches no session but the one it is addressed to; that one gets it
    behind what is waiting already. *)
Theorem C115_apart : forall es s s' msg k x,
  run step init es = Some s -> step s (Write msg) = Some s' -> nth_error (made s) k = Some x ->
  (~ addressed (ident x) msg -> nth_error (made s') k = Some x) /\
  (addressed (ident x) msg -> at_ x <> Ended ->
   nth_error (made s') k = Some (Session (ident x) (queue x ++ [msg]) (at_ x) (got x))).
Proof.
  intros es s s' msg k x R S E. injection S as <-. pose proof (reach_inv _ _ R) as I.
  destruct (router_wrote msg s I) as [T|j y Hj Ej M'|id j y M' D' Ej Ry Ny|id M' D' F'|M' D'|T M' F']; cbn [made].
  - split; [auto|]. intros A _. apply addressed_eq in A. apply name_tunnelled in A. congruence.
  - rewrite nth_update, E. destruct (Nat.eqb j k) eqn:J.
    + apply Nat.eqb_eq in J as ->. rewrite E in Ej. injection Ej as <-. split; [|reflexivity].
      intros A. elim A. now apply addressed_eq.
    + split; [reflexivity|]. intros A L. apply addressed_eq in A.
      assert (L' : is_running x = true) by (unfold is_running; destruct (at_ x); congruence).
      apply (iv_live s I _ _ E) in L'. rewrite <- A, M' in L'. apply Nat.eqb_neq in J. elim J.
      apply (assoc_nodup _ _ _ _ (iv_keys s I)) in L'. apply (assoc_nodup _ _ _ _ (iv_keys s I)) in Hj. congruence.
  - split; [auto|]. intros A _. apply addressed_eq in A. rewrite M' in A. symmetry in A. now apply name_not_tunnel in A.
  - rewrite nth_error_app1 by (apply nth_error_Some; congruence).
    split; [auto|]. intros A _. apply addressed_eq in A. rewrite M' in A. symmetry in A. now apply name_not_tunnel in A.
  - split; [auto|]. intros A _. apply addressed_eq in A. rewrite M' in A. symmetry in A. now apply name_not_tunnel in A.
  - split; [auto|]. intros A L. apply addressed_eq in A.
    assert (L' : is_running x = true) by (unfold is_running; destruct (at_ x); congruence).
    apply (iv_live s I _ _ E) in L'. now apply F' in L'.
Qed.
Print Assumptions C115_apart.

(** What the sessions say reaches the client in the order in which it was said, under the name
    of the session that said it. *)
Fixpoint says (es : list ev) : list (nat * json) :=
  match es with [] => [] | Say k m :: r => (k, m) :: says r | _ :: r => says r end.
Lemma says_run : forall es s s', inv s -> run step s es = Some s' ->
  exists o, out s' = out s ++ o /\
    Forall2 (fun km m => exists x, nth_error (made s') (fst km) = Some x /\ m = wrap (ident x) (snd km)) (says es) o.
Proof.
  induction es as [|e es IH]; cbn [run]; intros s s' I H.
  - injection H as <-. exists []. rewrite app_nil_r. split; [reflexivity|constructor].
  - destruct (step s e) as [s1|] eqn:S1; [|discriminate].
    destruct (IH s1 s' (step_inv _ _ _ I S1) H) as (o & E & F).
    pose proof (step_cases _ _ _ S1) as C.
    destruct e as [msg|j|j|j|j msg]; cbn [says].
    + exists o. split; [|exact F]. rewrite E. f_equal. subst. destruct (router_wrote msg s I); reflexivity.
    + exists o. split; [|exact F]. rewrite E. f_equal. now destruct C as (? & ? & ? & ? & _ & ->).
    + exists o. split; [|exact F]. rewrite E. f_equal. now destruct C as (? & _ & _ & ->).
    + exists o. split; [|exact F]. rewrite E. f_equal. now destruct C as (? & _ & _ & ->).
    + destruct C as (x & Ex & _ & C). exists (wrap (ident x) msg :: o). split.
      * rewrite E, C. cbn [out]. now rewrite <- app_assoc.
      * constructor; [|exact F]. cbn [fst snd].
        assert (Ex1 : nth_error (made s1) j = Some x) by (rewrite C; exact Ex).
        destruct (run_stays es s1 s' j x (step_inv _ _ _ I S1) H Ex1) as (x' & Ex' & N).
        exists x'. split; [assumption|now rewrite N].
Qed.
Lemma wrap_sent : forall n c, sent n c (wrap n c).
Proof.
  intros n c. split; [now apply addressed_eq|]. split; apply member_find; reflexivity.
Qed.
Theorem C115_replies : forall es s, run step init es = Some s ->
  Forall2 (fun km m => exists x, nth_error (made s) (fst km) = Some x /\ sent (ident x) (snd km) m) (says es) (out s).
Proof.
  intros es s R. destruct (says_run es init s init_inv R) as (o & E & F). cbn in E. rewrite E.
  clear E R. induction F as [|km m l l' (x & Ex & ->) F IH]; constructor; [|exact IH].
  exists x. split; [assumption|apply wrap_sent].
Qed.
Print Assumptions C115_replies.

(** The language server gets the other messages, all of them, in order. *)
Theorem C115_rest : forall es s, run step init es = Some s -> others (writes es) (lsp s).
Proof.
  assert (G : forall es s s', inv s -> run step s es = Some s' -> exists l, lsp s' = lsp s ++ l /\ others (writes es) l).
  { induction es as [|e es IH]; cbn [run]; intros s s' I H.
    - injection H as <-. exists []. rewrite app_nil_r. split; [reflexivity|constructor].
    - destruct (step s e) as [s1|] eqn:S1; [|discriminate].
      destruct (IH s1 s' (step_inv _ _ _ I S1) H) as (o & E & F).
      pose proof (step_cases _ _ _ S1) as C.
      destruct e as [msg|j|j|j|j msg]; cbn [writes].
      + subst. destruct (is_tunnelled msg) eqn:T.
        * exists o. split; [|constructor; [now apply tunnelled_eq|exact F]].
          rewrite E. f_equal. destruct (router_wrote msg s I); try reflexivity. congruence.
        * exists (msg :: o). split; [|constructor; [rewrite tunnelled_eq; congruence|exact F]].
          rewrite E. unfold router_write. rewrite T. cbn [lsp]. now rewrite <- app_assoc.
      + exists o. split; [|exact F]. rewrite E. f_equal. now destruct C as (? & ? & ? & ? & _ & ->).
      + exists o. split; [|exact F]. rewrite E. f_equal. now destruct C as (? & _ & _ & ->).
      + exists o. split; [|exact F]. rewrite E. f_equal. now destruct C as (? & _ & _ & ->).
      + exists o. split; [|exact F]. rewrite E. f_equal. now destruct C as (? & _ & _ & ->). }
  intros es s R. destruct (G es init s init_inv R) as (l & E & F). cbn in E. now rewrite E.
Qed.
Print Assumptions C115_rest.

(** A message of the debugger that neither opens a session nor is addressed to one that was
    ever opened has no effect. *)
Theorem C115_ignored : forall es s msg,
  run step init es = Some s -> tunnelled msg -> ~ is_method (s2b "hlasm/dap_tunnel") msg ->
  (forall k x, nth_error (made s) k = Some x -> ~ addressed (ident x) msg) -> step s (Write msg) = Some s.
Proof.
  intros es s msg R T M A. cbn [step]. f_equal. pose proof (reach_inv _ _ R) as I. apply tunnelled_eq in T.
  assert (M2 : method msg <> tunnel).
  { intros E. apply M. apply method_is_method; [exact E|discriminate]. }
  destruct (router_wrote msg s I) as [T'|j y Hj Ej M'|id j y M' D' Ej Ry Ny|id M' D' F'|M' D'|T' M' F']; try congruence.
  exfalso. apply (A _ _ Ej). now apply addressed_eq.
Qed.
Print Assumptions C115_ignored.

(** Opening a session forgets those that have ended: what the server still routes are the
    living ones. *)
Theorem C115_forgets : forall es s n msg s',
  run step init es = Some s -> opening n msg -> step s (Write msg) = Some s' ->
  forall i, In i (map snd (registered s')) <-> exists x, nth_error (made s') i = Some x /\ at_ x <> Ended.
Proof.
  intros es s n msg s' R O S i. injection S as <-. pose proof (reach_inv _ _ R) as I.
  assert (L : forall x, is_running x = true <-> at_ x <> Ended).
  { intros x. unfold is_running. destruct (at_ x); split; congruence. }
  assert (C : In i (map snd (cleanup s)) <-> exists x, nth_error (made s) i = Some x /\ at_ x <> Ended).
  { rewrite in_map_iff. split.
    - intros ([k j] & E & H). cbn in E. subst j. apply (cleanup_in s k i I) in H as (x & E & Rx & _).
      exists x. split; [assumption|now apply L].
    - intros (x & E & A). exists (method_name (ident x), i). split; [reflexivity|].
      apply (cleanup_in s _ i I). exists x. split; [assumption|]. split; [now apply L|reflexivity]. }
  apply opening_eq in O as [M D].
  destruct (router_wrote msg s I) as [T|j y Hj Ej M'|id j y M' D' Ej Ry Ny|id M' D' F'|M' D'|T M' F'];
    cbn [registered made].
  - apply tunnel_tunnelled in M. congruence.
  - rewrite M in M'. symmetry in M'. now apply name_not_tunnel in M'.
  - exact C.
  - rewrite map_app, in_app_iff, C. cbn [map snd]. destruct (Nat.lt_trichotomy i (List.length (made s))) as [Li|[Li|Li]].
    + rewrite nth_error_app1 by assumption. split; [|now left]. intros [H|[H|[]]]; [assumption|lia].
    + subst i. rewrite nth_error_app2, Nat.sub_diag by lia. split; [|now right; left].
      intros _. exists (Session id [] Reading []). split; [reflexivity|discriminate].
    + rewrite !(proj2 (nth_error_None _ _)) by (rewrite ?app_length; cbn; lia).
      split; [|intros (x & E & _); discriminate]. intros [(x & E & _)|[H|[]]]; [discriminate|lia].
  - congruence.
  - congruence.
Qed.
Print Assumptions C115_forgets.

(** ** Where the promise stops *)
(** Until another session is opened, what is said to one that has ended piles up unread. *)
Definition to_session (n : N) (c : json) : json :=
  JObj [(s2b "method", JStr (method_name n)); (s2b "params", c)].
Lemma addressed_example : forall n c, addressed n (to_session n c) /\ member "params" (to_session n c) c.
Proof. intros n c. split; [now apply addressed_eq|apply member_find; reflexivity]. Qed.
Definition open_session (n : N) : json :=
  JObj [(s2b "method", JStr (s2b "hlasm/dap_tunnel")); (s2b "params", JNum (Z.of_N n))].
Lemma opening_example : forall n, (n < 2 ^ 64)%N -> opening n (open_session n).
Proof. intros n H. repeat split; [apply member_find; reflexivity..|assumption]. Qed.

Theorem C115_ended_refuted : forall l, Forall (addressed 5) l ->
  exists s x, run step init ([Write (open_session 5); Stop 0; Finish 0] ++ map Write l) = Some s /\
    made s = [x] /\ at_ x = Ended /\ got x = [] /\ queue x = l.
Proof.
  assert (G : forall l q, Forall (addressed 5) l ->
    run step (St [(method_name 5, 0)] [Session 5 q Ended []] [] []) (map Write l) =
    Some (St [(method_name 5, 0)] [Session 5 (q ++ l) Ended []] [] [])).
  { induction l as [|m l IH]; intros q F; cbn [map run]; [now rewrite app_nil_r|].
    inversion F as [|a b A F']; subst. apply addressed_eq in A. cbn [step].
    replace (router_write m _) with (St [(method_name 5, 0)] [Session 5 (q ++ [m]) Ended []] [] []).
    - rewrite IH by assumption. now rewrite <- app_assoc.
    - unfold router_write. rewrite (name_tunnelled _ _ A). unfold manager_write. rewrite A. reflexivity. }
  intros l F. exists (St [(method_name 5, 0)] [Session 5 l Ended []] [] []), (Session 5 l Ended []).
  split; [|now repeat split]. rewrite run_app.
  replace (run step init [Write (open_session 5); Stop 0; Finish 0])
    with (Some (St [(method_name 5, 0)] [Session 5 [] Ended []] [] [])) by reflexivity.
  apply (G l [] F).
Qed.
Print Assumptions C115_ended_refuted.

(** A negative number opens a session too, under the name of another number; nothing said to the
    number given reaches it. *)
Theorem C115_negative_refuted : forall z msg c, (- 2 ^ 63 <= z < 0)%Z ->
  is_method (s2b "hlasm/dap_tunnel") msg -> member "params" msg (JNum z) ->
  exists s, step init (Write msg) = Some s /\ made s = [Session (Z.to_N (2 ^ 64 + z)) [] Reading []] /\
    forall d, step s (Write (JObj [(s2b "method", JStr (s2b "hlasm/dap_tunnel/-" ++ d)); (s2b "params", c)])) = Some s.
Proof.
  intros z msg c B M P. apply is_method_method in M. apply member_find in P.
  exists (St [(method_name (Z.to_N (2 ^ 64 + z)), 0)] [Session (Z.to_N (2 ^ 64 + z)) [] Reading []] [] []).
  split; [|split; [reflexivity|]].
  - cbn [step]. f_equal. unfold router_write. rewrite (tunnel_tunnelled _ M).
    unfold manager_write. rewrite M. cbn [init registered assoc].
    rewrite (proj2 (bytes_eqb_eq _ _)) by reflexivity. unfold session_id. rewrite P.
    replace (z mod 2 ^ 64)%Z with (2 ^ 64 + z)%Z; [reflexivity|].
    apply (Z.mod_unique _ _ (-1)); lia.
  - intros d. cbn [step]. f_equal. set (n := Z.to_N (2 ^ 64 + z)).
    set (m := JObj _).
    assert (Mm : method m = tunnel ++ s2b "/-" ++ d) by reflexivity.
    assert (N1 : forall k, method m <> method_name k).
    { intros k E. rewrite Mm in E. unfold method_name in E. apply app_inv_head in E.
      change (s2b "/-" ++ d) with (s2b "/" ++ (45%N :: d)) in E. apply app_inv_head in E.
      pose proof (dec_digits k) as D. rewrite <- E in D. inversion D as [|a b D1 D2]. discriminate. }
    assert (N2 : method m <> tunnel) by (rewrite Mm; intros E; apply (f_equal (@List.length _)) in E;
      rewrite app_length in E; change (List.length (s2b "/-" ++ d)) with (S (S (List.length d))) in E; lia).
    unfold router_write. replace (is_tunnelled m) with true by reflexivity.
    unfold manager_write. cbn [registered assoc].
    destruct (bytes_eqb (method m) (method_name n)) eqn:E1; [apply bytes_eqb_eq in E1; now apply N1 in E1|].
    destruct (bytes_eqb (method m) tunnel) eqn:E2; [apply bytes_eqb_eq in E2; now apply N2 in E2|]. reflexivity.
Qed.
Print Assumptions C115_negative_refuted.

(** ** A conversation *)
Example ex_talk :
  let a := JStr (s2b "a") in let b := JStr (s2b "b") in let c := JStr (s2b "c") in
  let other := JObj [(s2b "method", JStr (s2b "textDocument/didOpen"))] in
  match run step init
    [Write (open_session 7); Write (to_session 7 a); Write (open_session 8); Write (to_session 8 b);
     Write other; Read 1; Write (to_session 7 c); Read 0; Say 1 (JNum 1); Write (open_session 7); Read 0;
     Write (to_session 7 JNull); Read 0; Finish 0; Write (open_session 7); Write (to_session 7 b); Read 2]
  with
  | Some s => map (fun x => (ident x, at_ x, got x)) (made s) =
      [(7%N, Ended, [a; c]); (8%N, Reading, [b]); (7%N, Reading, [b])] /\ lsp s = [other] /\
      out s = [wrap 8 (JNum 1)] /\ map snd (registered s) = [1; 2]
  | None => False
  end.
Proof. vm_compute. repeat split. Qed.
Example ex_free : free 7 init /\ opening 7 (open_session 7).
Proof. split; [intros [|k] x; discriminate|now apply opening_example]. Qed.
