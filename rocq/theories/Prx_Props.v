(** * Prx_Props: C116, debug messages of a front end connected through the proxy *)
From Coq Require Import String List NArith ZArith Bool Lia.
From Verif Require Import Common Lts Json Ses_Model Ses_Spec Ses_Proof Ses_Props Prx_Model Prx_Spec Prx_Proof.
Import ListNotations.
Open Scope list_scope.

Section Proxy.
Variable other : bytes -> option Z.
Variable parse : bytes -> option json.
Variable print : json -> bytes.
Notation drain := (drain other parse).
Notation pstep := (pstep other parse print).

(** ** Frames *)
(** What is read does not depend on the chunks in which it arrives. *)
Definition feed (a : list json * bytes) (chunk : bytes) : list json * bytes :=
  let '(ms, r) := drain (snd a ++ chunk) in (fst a ++ ms, r).
Theorem C116_chunks : sane other -> forall chunks, fold_left feed chunks ([], []) = drain (concat chunks).
Proof.
  intros Sa chunks.
  assert (E : drain [] = ([], [])) by (rewrite (drain_eq other parse Sa); reflexivity).
  assert (K : forall chunks b, drain b = ([], b) -> fold_left feed chunks ([], b) = drain (b ++ concat chunks)).
  { clear chunks. induction chunks as [|c chunks IH]; intros b D; cbn [fold_left concat]; [now rewrite app_nil_r|].
    rewrite app_assoc. rewrite (drain_more other parse Sa _ (b ++ c) (concat chunks) (le_n _)).
    unfold feed at 2. cbn [fst snd app]. destruct (drain (b ++ c)) as [m1 r1] eqn:D1.
    assert (Q : forall l x y z, fold_left feed l (x ++ y, z) = let '(p, q) := fold_left feed l (y, z) in (x ++ p, q)).
    { clear. induction l as [|a l IH]; intros x y z; [reflexivity|]. cbn [fold_left]. unfold feed at 2 4. cbn [fst snd].
      destruct (drain (z ++ a)) as [u v]. rewrite <- app_assoc. apply IH. }
    pose proof (Q chunks m1 [] r1) as Q'. rewrite app_nil_r in Q'. rewrite Q', IH; [now destruct (drain (r1 ++ concat chunks))|].
    destruct (drain r1) as [m2 r2] eqn:D2.
    pose proof (drain_more other parse Sa _ (b ++ c) [] (le_n _)) as H.
    rewrite app_nil_r, D1, app_nil_r, D2 in H. injection H as H1 H2.
    rewrite <- (app_nil_r m1) in H1 at 1. apply app_inv_head in H1. now subst. }
  apply (K chunks []). exact E.
Qed.

(** A sequence of frames, with the beginning of another behind it, is read as the messages in it;
    the beginning is kept. *)
Theorem C116_frames : sane other -> forall ms s t, framed parse ms s -> begun t -> drain (s ++ t) = (ms, t).
Proof.
  intros Sa ms s t F B. rewrite (drain_framed other parse Sa ms s t F), (begun_wait other parse Sa t B).
  now rewrite app_nil_r.
Qed.

(** What the proxy writes is a frame of the message. *)
Lemma reply_frame : forall m, frame (print m) (reply print m).
Proof.
  intros m. unfold reply. exact (fr (print m) (dec (N.of_nat (List.length (print m)))) [] (dec_decimal _) (Forall_nil _)).
Qed.

(** ** Connections *)
Lemma id_name : forall n, message_id n = method_name n.
Proof. reflexivity. Qed.
Definition talk (n : N) (m : json) : json := notification (message_id n) (Some m).
Definition farewell (n : N) : json := notification (message_id n) None.
Definition greeting (n : N) : json := notification registration (Some (JNum (Z.of_N n))).

Lemma talk_method : forall n m, method (talk n m) = method_name n.
Proof. reflexivity. Qed.
Lemma farewell_method : forall n, method (farewell n) = method_name n.
Proof. reflexivity. Qed.
Lemma greeting_method : forall n, method (greeting n) = tunnel.
Proof. reflexivity. Qed.
Lemma talk_unwrap : forall n m, unwrap (talk n m) = match m with JNull => None | _ => Some m end.
Proof. intros n m. now destruct m. Qed.

Lemma nth_change : forall k f l j,
  nth_error (change k f l) j = if Nat.eqb k j then option_map f (nth_error l j) else nth_error l j.
Proof.
  intros k f l. revert k. induction l as [|x l IH]; intros k j.
  - destruct k, j; cbn; try reflexivity. now destruct (Nat.eqb k j).
  - destruct k as [|k], j as [|j]; cbn; try reflexivity. apply IH.
Qed.
Lemma length_change : forall k f l, List.length (change k f l) = List.length l.
Proof. intros k f l. revert k. induction l as [|x l IH]; intros [|k]; cbn; auto. Qed.

Definition about (n : N) (m : json) : Prop := method m = method_name n \/ m = greeting n.
Definition ending (c : conn) : list json := if is_open c then [] else [farewell (sid c)].
Record pinv (s : pst) : Prop := Pinv {
  pv_next : next_id s = N.of_nat (List.length (conns s));
  pv_sid : forall k c, nth_error (conns s) k = Some c -> sid c = N.of_nat k;
  pv_read : forall k c, nth_error (conns s) k = Some c -> drain (input c) = (handled c, buffer c);
  pv_notes : forall m, In m (notes s) -> exists i, (i < next_id s)%N /\ about i m;
  pv_talk : forall k c, nth_error (conns s) k = Some c -> exists before after,
    notes s = before ++ greeting (sid c) :: after /\
    (forall m, In m before -> exists i, (i < sid c)%N /\ about i m) /\
    mine (sid c) after = map (talk (sid c)) (handled c) ++ ending c
}.
Lemma mine_app : forall n a b, mine n (a ++ b) = mine n a ++ mine n b.
Proof. intros. apply filter_app. Qed.
Lemma mine_talk : forall n ms, mine n (map (talk n) ms) = map (talk n) ms.
Proof.
  intros n ms. induction ms as [|m ms IH]; [reflexivity|]. cbn [map mine filter].
  rewrite talk_method, (proj2 (bytes_eqb_eq _ _) eq_refl). f_equal. exact IH.
Qed.
Lemma mine_other : forall n ms, (forall m, In m ms -> method m <> method_name n) -> mine n ms = [].
Proof.
  intros n ms. induction ms as [|m ms IH]; intros H; [reflexivity|]. cbn [mine filter].
  destruct (bytes_eqb (method m) (method_name n)) eqn:E.
  - apply bytes_eqb_eq in E. elim (H m); [now left|assumption].
  - apply IH. intros x Hx. apply H. now right.
Qed.
Lemma name_other : forall a b, a <> b -> method_name a <> method_name b.
Proof. intros a b N E. apply N. now apply name_inj. Qed.

(** Notes about connection [j] change nothing for the others. *)
Lemma talk_more : forall (s : pst) extra n before after,
  notes s = before ++ greeting n :: after ->
  notes s ++ extra = before ++ greeting n :: (after ++ extra).
Proof. intros s extra n before after ->. now rewrite <- app_assoc. Qed.

Lemma pstep_inv : sane other -> forall s e s', pinv s -> pstep s e = Some s' -> pinv s'.
Proof.
  intros Sa s e s' [Pn Ps Pr Po Pt] H. destruct e as [|j chunk|j|m p]; cbn [Prx_Model.pstep] in H.
  - injection H as <-.
    assert (Q : forall k c, nth_error (conns s ++ [Conn (next_id s) [] [] [] true []]) k = Some c ->
      nth_error (conns s) k = Some c \/ k = List.length (conns s) /\ c = Conn (next_id s) [] [] [] true []).
    { intros k c E. destruct (Nat.lt_ge_cases k (List.length (conns s))) as [L|L].
      - rewrite nth_error_app1 in E by assumption. now left.
      - rewrite nth_error_app2 in E by assumption. destruct (k - List.length (conns s)) as [|i] eqn:K.
        + injection E as <-. right. split; [lia|reflexivity].
        + destruct i; discriminate. }
    constructor; cbn [conns next_id notes].
    + rewrite app_length. cbn. lia.
    + intros k c E. apply Q in E as [E|[-> ->]]; [now apply Ps|]. exact Pn.
    + intros k c E. apply Q in E as [E|[-> ->]]; [now apply (Pr k)|]. reflexivity.
    + intros m E. apply in_app_iff in E as [E|[<-|[]]].
      * destruct (Po m E) as (i & L & A). exists i. split; [lia|assumption].
      * exists (next_id s). split; [lia|now right].
    + intros k c E. apply Q in E as [E|[-> ->]].
      * destruct (Pt k c E) as (before & after & Nb & Hb & Mb).
        exists before, (after ++ [greeting (next_id s)]). split; [now apply talk_more|]. split; [assumption|].
        rewrite mine_app, Mb, (mine_other _ [greeting _]), app_nil_r; [reflexivity|].
        intros m [<-|[]]. rewrite greeting_method. intros X. symmetry in X. now apply name_not_tunnel in X.
      * exists (notes s), []. split; [reflexivity|]. split; [exact Po|]. reflexivity.
  - destruct (nth_error (conns s) j) as [c0|] eqn:E0; [|discriminate]. destruct (is_open c0) eqn:O; [|discriminate].
    destruct (drain (buffer c0 ++ chunk)) as [ms r] eqn:D. injection H as <-.
    assert (Q : forall k c, nth_error (change j (fun c => Conn (sid c) (input c ++ chunk) r (handled c ++ ms) true (written c)) (conns s)) k = Some c ->
      (k <> j /\ nth_error (conns s) k = Some c) \/
      (k = j /\ c = Conn (sid c0) (input c0 ++ chunk) r (handled c0 ++ ms) true (written c0))).
    { intros k c E. rewrite nth_change in E. destruct (Nat.eqb j k) eqn:K.
      - apply Nat.eqb_eq in K as <-. rewrite E0 in E. injection E as <-. now right.
      - apply Nat.eqb_neq in K. left. split; [congruence|assumption]. }
    constructor; cbn [conns next_id notes].
    + now rewrite length_change.
    + intros k c E. apply Q in E as [[_ E]|[-> ->]]; [now apply Ps|]. cbn [sid]. now apply Ps.
    + intros k c E. apply Q in E as [[_ E]|[-> ->]]; [now apply (Pr k)|]. cbn [input handled buffer].
      rewrite (drain_more other parse Sa _ (input c0) chunk (le_n _)), (Pr j c0 E0), D. reflexivity.
    + intros m E. apply in_app_iff in E as [E|E]; [now apply Po|].
      apply in_map_iff in E as (m0 & <- & _). exists (sid c0). split; [|now left].
      rewrite (Ps j c0 E0), Pn. assert (j < List.length (conns s)) by (apply nth_error_Some; congruence). lia.
    + intros k c E. change (map (fun m => notification (message_id (sid c0)) (Some m)) ms) with (map (talk (sid c0)) ms).
      apply Q in E as [[K E]|[-> ->]].
      * destruct (Pt k c E) as (before & after & Nb & Hb & Mb).
        exists before, (after ++ map (talk (sid c0)) ms). split; [now apply talk_more|]. split; [assumption|].
        rewrite mine_app, Mb, (mine_other _ (map _ _)), app_nil_r; [reflexivity|].
        intros m X. apply in_map_iff in X as (m0 & <- & _). rewrite talk_method. apply name_other.
        rewrite (Ps _ _ E0), (Ps _ _ E). lia.
      * destruct (Pt j c0 E0) as (before & after & Nb & Hb & Mb). unfold ending in Mb. rewrite O, app_nil_r in Mb.
        exists before, (after ++ map (talk (sid c0)) ms). cbn [sid handled]. split; [now apply talk_more|]. split; [assumption|].
        rewrite mine_app, Mb, mine_talk, map_app. unfold ending. cbn [is_open]. now rewrite app_nil_r.
  - destruct (nth_error (conns s) j) as [c0|] eqn:E0; [|discriminate]. destruct (is_open c0) eqn:O; [|discriminate].
    injection H as <-.
    assert (Q : forall k c, nth_error (change j (fun c => Conn (sid c) (input c) (buffer c) (handled c) false (written c)) (conns s)) k = Some c ->
      (k <> j /\ nth_error (conns s) k = Some c) \/
      (k = j /\ c = Conn (sid c0) (input c0) (buffer c0) (handled c0) false (written c0))).
    { intros k c E. rewrite nth_change in E. destruct (Nat.eqb j k) eqn:K.
      - apply Nat.eqb_eq in K as <-. rewrite E0 in E. injection E as <-. now right.
      - apply Nat.eqb_neq in K. left. split; [congruence|assumption]. }
    constructor; cbn [conns next_id notes].
    + now rewrite length_change.
    + intros k c E. apply Q in E as [[_ E]|[-> ->]]; [now apply Ps|]. cbn [sid]. now apply Ps.
    + intros k c E. apply Q in E as [[_ E]|[-> ->]]; [now apply (Pr k)|]. exact (Pr j c0 E0).
    + intros m E. apply in_app_iff in E as [E|[<-|[]]]; [now apply Po|].
      exists (sid c0). split; [|now left].
      rewrite (Ps j c0 E0), Pn. assert (j < List.length (conns s)) by (apply nth_error_Some; congruence). lia.
    + intros k c E. change (notification (message_id (sid c0)) None) with (farewell (sid c0)).
      apply Q in E as [[K E]|[-> ->]].
      * destruct (Pt k c E) as (before & after & Nb & Hb & Mb).
        exists before, (after ++ [farewell (sid c0)]). split; [now apply talk_more|]. split; [assumption|].
        rewrite mine_app, Mb, (mine_other _ [_]), app_nil_r; [reflexivity|].
        intros m [<-|[]]. rewrite farewell_method. apply name_other.
        rewrite (Ps _ _ E0), (Ps _ _ E). lia.
      * destruct (Pt j c0 E0) as (before & after & Nb & Hb & Mb). unfold ending in Mb. rewrite O, app_nil_r in Mb.
        exists before, (after ++ [farewell (sid c0)]). cbn [sid handled]. split; [now apply talk_more|]. split; [assumption|].
        rewrite mine_app, Mb. unfold ending. cbn [is_open sid]. f_equal. cbn [mine filter].
        now rewrite farewell_method, (proj2 (bytes_eqb_eq _ _) eq_refl).
  - injection H as <-.
    assert (Q : forall k c, nth_error (map (deliver print m p) (conns s)) k = Some c ->
      exists c0, nth_error (conns s) k = Some c0 /\ sid c = sid c0 /\ input c = input c0 /\ buffer c = buffer c0 /\
        handled c = handled c0 /\ is_open c = is_open c0).
    { intros k c E. rewrite nth_error_map in E. destruct (nth_error (conns s) k) as [c0|]; [|discriminate].
      injection E as <-. exists c0. split; [reflexivity|]. unfold deliver. destruct (_ && _); repeat split. }
    constructor; cbn [conns next_id notes].
    + now rewrite map_length.
    + intros k c E. apply Q in E as (c0 & E & -> & _). now apply Ps.
    + intros k c E. apply Q in E as (c0 & E & _ & -> & -> & -> & _). now apply (Pr k).
    + exact Po.
    + intros k c E. apply Q in E as (c0 & E & S1 & _ & _ & Hc & Oc).
      unfold ending. rewrite S1, Hc, Oc. exact (Pt k c0 E).
Qed.
Lemma pinit_inv : pinv pinit.
Proof.
  constructor; cbn; try reflexivity; try easy; intros [|k] c E; discriminate.
Qed.
Lemma preach : sane other -> forall es s, run pstep pinit es = Some s -> pinv s.
Proof. intros Sa es s H. eapply run_inv with (P := pinv); [|exact pinit_inv|exact H]. intros; eapply pstep_inv; eauto. Qed.

Lemma contents_up : forall n ms e, e = [] \/ e = [farewell n] -> up_to_null ms (contents (map (talk n) ms ++ e)).
Proof.
  intros n ms e He. induction ms as [|m ms IH].
  - destruct He as [->| ->]; constructor.
  - cbn [map app contents]. rewrite talk_unwrap. destruct m; constructor; try assumption; discriminate.
Qed.

(** Every connection opens a session of its own, then says what it was sent in frames, and takes
    leave when it is closed. *)
Theorem C116_session : sane other -> forall es s k c, run pstep pinit es = Some s ->
  nth_error (conns s) k = Some c -> (sid c < 2 ^ 64)%N ->
  (forall k' c', nth_error (conns s) k' = Some c' -> sid c' = sid c -> k' = k) /\
  drain (input c) = (handled c, buffer c) /\
  exists before o after l, notes s = before ++ o :: after /\ opening (sid c) o /\
    (forall m, In m before -> ~ opening (sid c) m /\ ~ addressed (sid c) m) /\
    up_to_null (handled c) l /\ stream (sid c) after l /\
    (is_open c = false -> exists a z b, after = a ++ z :: b /\ addressed (sid c) z /\ closing z /\
       forall m, In m b -> ~ addressed (sid c) m).
Proof.
  intros Sa es s k c R E B. pose proof (preach Sa es s R) as [Pn Ps Pr Po Pt].
  split; [|split; [now apply (Pr k)|]].
  - intros k' c' E' N. rewrite (Ps _ _ E'), (Ps _ _ E) in N. lia.
  - destruct (Pt k c E) as (before & after & Nb & Hb & Mb).
    exists before, (greeting (sid c)), after, (contents (mine (sid c) after)).
    split; [assumption|]. split.
    { split; [apply member_find; reflexivity|]. split; [apply member_find; reflexivity|assumption]. }
    split.
    { intros m Hm. destruct (Hb m Hm) as (i & L & [A| ->]).
      - split.
        + intros O. apply opening_eq in O as [O _]. rewrite O in A. symmetry in A. now apply name_not_tunnel in A.
        + intros X. apply addressed_eq in X. rewrite A in X. apply name_inj in X. lia.
      - split.
        + intros (_ & O & _). apply member_find in O. cbn in O. injection O as O. lia.
        + intros X. apply addressed_eq in X. symmetry in X. now apply name_not_tunnel in X. }
    split; [rewrite Mb; apply contents_up; unfold ending; destruct (is_open c); auto|].
    split; [apply stream_contents|]. intros O. unfold ending in Mb. rewrite O in Mb.
    assert (G : forall l p z, mine (sid c) l = p ++ [z] -> exists a b, l = a ++ z :: b /\ method z = method_name (sid c) /\
      forall m, In m b -> ~ addressed (sid c) m).
    { clear. intros l. induction l as [|x l IH] using rev_ind; intros p z H; [now destruct p|].
      rewrite mine_app in H. cbn [mine filter] in H. destruct (bytes_eqb (method x) (method_name (sid c))) eqn:X.
      - apply app_inj_tail in H as [_ <-]. exists l, []. split; [reflexivity|]. split; [now apply bytes_eqb_eq|easy].
      - rewrite app_nil_r in H. destruct (IH p z H) as (a & b & -> & M & N). exists a, (b ++ [x]).
        split; [now rewrite <- app_assoc|]. split; [assumption|]. intros m Hm. apply in_app_iff in Hm as [Hm|[<-|[]]]; [auto|].
        intros A. apply addressed_eq in A. rewrite A, (proj2 (bytes_eqb_eq _ _) eq_refl) in X. discriminate. }
    destruct (G after _ _ Mb) as (a & b & Ea & M & N). exists a, (farewell (sid c)), b.
    split; [assumption|]. split; [now apply addressed_eq|]. split; [|assumption]. now apply closing_eq.
Qed.

(** ** From the socket to the debug server *)
Lemma through_app : forall ms a b, through ms (a ++ b) ->
  exists u v, ms = u ++ v /\ through u a /\ through v b.
Proof.
  intros ms a b H. remember (a ++ b) as ab eqn:E. revert a b E.
  induction H as [|m ms l T H IH|m ms l T H IH]; intros a b E.
  - symmetry in E. apply app_eq_nil in E as [-> ->]. exists [], []. repeat split; constructor.
  - destruct a as [|x a]; cbn [app] in E.
    + subst b. exists [], (m :: ms). repeat split; now constructor.
    + injection E as <- ->. destruct (IH a b eq_refl) as (u & v & -> & U & V).
      exists (m :: u), v. repeat split; [now constructor|assumption].
  - destruct (IH a b E) as (u & v & -> & U & V). exists (m :: u), v. repeat split; [now apply th_skip|assumption].
Qed.
Lemma through_head : forall ms o b, through ms (o :: b) -> exists u v, ms = u ++ o :: v /\ through u [] /\ through v b.
Proof.
  intros ms o b H. remember (o :: b) as ob eqn:E. revert o b E.
  induction H as [|m ms l T H IH|m ms l T H IH]; intros o b E; [discriminate| |].
  - injection E as -> ->. exists [], ms. repeat split; [constructor|assumption].
  - destruct (IH o b E) as (u & v & -> & U & V). exists (m :: u), v. repeat split; [now apply th_skip|assumption].
Qed.
Lemma through_join : forall u a v b, through u a -> through v b -> through (u ++ v) (a ++ b).
Proof. intros u a v b H K. induction H; cbn; [assumption|now constructor|now apply th_skip]. Qed.
Lemma through_in : forall ms l m, through ms l -> In m ms -> tunnelled m -> In m l.
Proof.
  intros ms l m H. induction H as [|x ms l T H IH|x ms l T H IH]; intros I Tm; [easy| |].
  - destruct I as [->|I]; [now left|right; auto].
  - destruct I as [->|I]; [easy|auto].
Qed.
Lemma through_mine : forall n ms l, through ms l -> mine n ms = mine n l.
Proof.
  intros n ms l H. induction H as [|m ms l T H IH|m ms l T H IH]; [reflexivity| |].
  - cbn [mine filter]. destruct (bytes_eqb _ _); [f_equal|]; exact IH.
  - cbn [mine filter]. destruct (bytes_eqb (method m) (method_name n)) eqn:E; [|exact IH].
    exfalso. apply T. apply tunnelled_eq. apply bytes_eqb_eq in E. now apply name_tunnelled in E.
Qed.
Lemma writes_split : forall es u m v, writes es = u ++ m :: v ->
  exists e1 e2, es = e1 ++ Write m :: e2 /\ writes e1 = u /\ writes e2 = v.
Proof.
  induction es as [|e es IH]; intros u m v H; [now destruct u|].
  destruct e as [x|j|j|j|j x]; cbn [writes] in H.
  - destruct u as [|y u]; cbn [app] in H; injection H as -> H.
    + exists [], es. now repeat split.
    + destruct (IH _ _ _ H) as (e1 & e2 & -> & W1 & W2). exists (Write y :: e1), e2. cbn. rewrite W1. now repeat split.
  - destruct (IH _ _ _ H) as (e1 & e2 & -> & W1 & W2). exists (Read j :: e1), e2. now repeat split.
  - destruct (IH _ _ _ H) as (e1 & e2 & -> & W1 & W2). exists (Stop j :: e1), e2. now repeat split.
  - destruct (IH _ _ _ H) as (e1 & e2 & -> & W1 & W2). exists (Finish j :: e1), e2. now repeat split.
  - destruct (IH _ _ _ H) as (e1 & e2 & -> & W1 & W2). exists (Say j x :: e1), e2. now repeat split.
Qed.
Lemma made_opened : forall es s, run step init es = Some s -> forall j x, nth_error (made s) j = Some x ->
  exists m, In m (writes es) /\ method m = tunnel /\ session_id m = Some (ident x).
Proof.
  intros es. induction es as [|e es IH] using rev_ind; intros s R j x E.
  - injection R as <-. now destruct j.
  - rewrite run_app in R. destruct (run step init es) as [s1|] eqn:R1; [|discriminate].
    cbn [run] in R. destruct (step s1 e) as [s2|] eqn:S1; [|discriminate]. injection R as ->.
    pose proof (reach_inv _ _ R1) as I. rewrite writes_app.
    assert (K : forall x1, nth_error (made s1) j = Some x1 -> ident x1 = ident x ->
      exists m, In m (writes es ++ writes [e]) /\ method m = tunnel /\ session_id m = Some (ident x)).
    { intros x1 E1 N. destruct (IH s1 eq_refl j x1 E1) as (m & Hm & M & D). exists m.
      split; [apply in_app_iff; now left|]. split; [assumption|congruence]. }
    destruct (nth_error (made s1) j) as [x1|] eqn:E1.
    + destruct (step_stays _ _ _ _ _ I S1 E1) as (x' & E' & N). apply (K x1); [reflexivity|congruence].
    + apply step_cases in S1. destruct e as [msg|i|i|i|i msg].
      * subst s. destruct (router_wrote msg s1 I) as [T|i y Hi Ei M'|id i y M' D' Ei Ry Ny|id M' D' F'|M' D'|T M' F']; cbn [made] in E.
        -- congruence.
        -- rewrite nth_update, E1 in E. destruct (Nat.eqb i j); discriminate.
        -- congruence.
        -- apply nth_error_None in E1. rewrite nth_error_app2 in E by assumption.
           destruct (j - List.length (made s1)) as [|i]; [|destruct i; discriminate]. injection E as <-.
           exists msg. split; [apply in_app_iff; right; now left|]. now split.
        -- congruence.
        -- congruence.
      * destruct S1 as (id & msg & q & g & Ei & ->). cbn [made] in E. rewrite nth_update, E1 in E. destruct (Nat.eqb i j); discriminate.
      * destruct S1 as (y & Ei & _ & ->). cbn [made] in E. rewrite nth_update, E1 in E. destruct (Nat.eqb i j); discriminate.
      * destruct S1 as (y & Ei & _ & ->). cbn [made] in E. rewrite nth_update, E1 in E. destruct (Nat.eqb i j); discriminate.
      * destruct S1 as (y & Ei & _ & ->). cbn [made] in E. congruence.
Qed.

(** Whatever the chunks, the interleaving of connections with one another, with other messages to
    the language server and with its threads: the debug session that belongs to a connection is
    given the messages framed on it, in order. *)
Theorem C116_end_to_end : sane other -> forall pes p es s k c ms u t,
  run pstep pinit pes = Some p -> run step init es = Some s -> through (writes es) (notes p) ->
  nth_error (conns p) k = Some c -> (sid c < 2 ^ 64)%N ->
  input c = u ++ t -> framed parse ms u -> begun t ->
  exists j x l, nth_error (made s) j = Some x /\ ident x = sid c /\ up_to_null ms l /\ prefix (got x) l /\
    (at_ x = Reading -> queue x = [] -> got x = l).
Proof.
  intros Sa pes p es s k c ms u t R Rs Th E B Ei Fr Bg.
  pose proof (preach Sa pes p R) as [Pn Ps Pr Po Pt].
  assert (Hd : handled c = ms).
  { pose proof (Pr k c E) as D. rewrite Ei, (C116_frames Sa ms u t Fr Bg) in D. now injection D as <-. }
  destruct (Pt k c E) as (before & after & Nb & Hb & Mb). rewrite Nb in Th.
  destruct (through_app _ _ _ Th) as (w1 & w2 & W & T1 & T2).
  destruct (through_head _ _ _ T2) as (w3 & w4 & -> & T3 & T4).
  rewrite app_assoc in W. destruct (writes_split _ _ _ _ W) as (e1 & e2 & -> & W1 & W2).
  rewrite run_app in Rs. destruct (run step init e1) as [s1|] eqn:R1; [|discriminate].
  assert (O : opening (sid c) (greeting (sid c))).
  { split; [apply member_find; reflexivity|]. split; [apply member_find; reflexivity|assumption]. }
  assert (F : free (sid c) s1).
  { intros j x Ej N. exfalso. destruct (made_opened e1 s1 R1 j x Ej) as (m & Hm & M & D).
    rewrite W1 in Hm. pose proof (through_join _ _ _ _ T1 T3) as T13. rewrite app_nil_r in T13.
    assert (Hm' : In m before) by (apply (through_in _ _ _ T13 Hm), tunnelled_eq; now apply tunnel_tunnelled).
    destruct (Hb m Hm') as (i & L & [A| ->]).
    - rewrite M in A. symmetry in A. now apply name_not_tunnel in A.
    - cbn in D. rewrite Z.mod_small in D by lia. rewrite N2Z.id in D. injection D as D. lia. }
  destruct (C115_delivery e1 s1 (greeting (sid c)) (sid c) e2 s R1 O F Rs) as (x & cs & Ex & Nx & St & Px & Qx).
  exists (List.length (made s1)), x, cs. repeat split; try assumption.
  rewrite (stream_fun _ _ _ _ St (stream_contents (sid c) (writes e2))).
  rewrite W2, (through_mine _ _ _ T4), Mb, Hd. apply contents_up. unfold ending. destruct (is_open c); auto.
Qed.

(** ** Answers *)
(** A message of the server goes, framed, to the connection of its session and to no other; nothing
    else is written. *)
Theorem C116_answers : forall s e s' k c c', pstep s e = Some s' ->
  nth_error (conns s) k = Some c -> nth_error (conns s') k = Some c' ->
  match e with
  | Incoming m p =>
      (is_open c = true -> named (sid c) m -> exists f, frame (print p) f /\ written c' = written c ++ f) /\
      (is_open c = false \/ ~ named (sid c) m -> written c' = written c)
  | _ => written c' = written c
  end.
Proof.
  intros s e s' k c c' H E E'. destruct e as [|j chunk|j|m p]; cbn [Prx_Model.pstep] in H.
  - injection H as <-. cbn [conns] in E'. rewrite nth_error_app1 in E' by (apply nth_error_Some; congruence). congruence.
  - destruct (nth_error (conns s) j) as [c0|] eqn:E0; [|discriminate]. destruct (is_open c0); [|discriminate].
    destruct (drain (buffer c0 ++ chunk)) as [ms r]. injection H as <-. cbn [conns] in E'.
    rewrite nth_change, E in E'. destruct (Nat.eqb j k); injection E' as <-; reflexivity.
  - destruct (nth_error (conns s) j) as [c0|] eqn:E0; [|discriminate]. destruct (is_open c0); [|discriminate].
    injection H as <-. cbn [conns] in E'.
    rewrite nth_change, E in E'. destruct (Nat.eqb j k); injection E' as <-; reflexivity.
  - injection H as <-. cbn [conns] in E'. rewrite nth_error_map, E in E'. injection E' as <-. unfold deliver. split.
    + intros O N. apply name_eq in N. change (method_name (sid c)) with (message_id (sid c)) in N.
      rewrite O, (proj2 (bytes_eqb_eq m (message_id (sid c))) N). cbn [andb written].
      exists (reply print p). split; [apply reply_frame|reflexivity].
    + intros [O|N]; [now rewrite O|]. destruct (bytes_eqb m (message_id (sid c))) eqn:B; [|now rewrite andb_false_r].
      apply bytes_eqb_eq in B as ->. elim N. now apply name_eq.
Qed.

(** ** Where it stops *)
(** A frame that starts with another header field, which the protocol allows, silences the
    connection: nothing sent from then on is read. *)
Theorem C116_other_header_refuted : forall l,
  (forall r, l <> s2b "Content-Length: " ++ r) -> (forall r, s2b "Content-Length: " <> l ++ r) ->
  forall s, drain (l ++ s) = ([], l ++ s).
Proof.
  intros l H1 H2 s. unfold Prx_Model.drain, Prx_Model.loop, Prx_Model.next.
  destruct (index_of content_length (l ++ s)) as [[|i]|] eqn:E; try reflexivity.
  apply index_zero in E as (r & E). apply app_eq_app in E as (t & [[-> _]|[X _]]); [now elim (H1 t)|now elim (H2 t)].
Qed.

(** A length that is no number: an exception, now and whenever something arrives. *)
Theorem C116_no_number_refuted : forall d s,
  other d = None -> ~ In 13%N d -> forallb is_digit d = false ->
  next other parse (s2b "Content-Length: " ++ d ++ [13; 10; 13; 10]%N ++ s) = Throws.
Proof.
  intros d s O N D. change (s2b "Content-Length: ") with content_length.
  set (b := content_length ++ d ++ [13; 10; 13; 10]%N ++ s).
  assert (N' : ~ In 13%N (content_length ++ d)).
  { rewrite in_app_iff. intros [H|H]; [now apply no_cr_content|easy]. }
  assert (E0 : index_of content_length b = Some 0) by apply index_here.
  assert (E1 : index_of CRLF b = Some (List.length content_length + List.length d)).
  { unfold b. rewrite app_assoc. rewrite (index_skip 13%N [10%N] _ _ N').
    change ([13; 10; 13; 10]%N ++ s) with (CRLF ++ [13; 10]%N ++ s). rewrite index_here.
    cbn [option_map]. rewrite app_length. f_equal. lia. }
  assert (E2 : exists h, index_of (CRLF ++ CRLF) b = Some h).
  { unfold b. rewrite app_assoc. change (CRLF ++ CRLF) with (13 :: [10; 13; 10])%N. rewrite (index_skip 13%N _ _ _ N').
    change ((13 :: [10; 13; 10])%N) with (CRLF ++ CRLF). change ([13; 10; 13; 10]%N ++ s) with ((CRLF ++ CRLF) ++ s).
    rewrite index_here. cbn [option_map]. eauto. }
  destruct E2 as (h & E2). unfold Prx_Model.next. rewrite E0, E1, E2. unfold b. rewrite slice_app.
  unfold number. rewrite D, O. reflexivity.
Qed.
End Proxy.
Print Assumptions C116_chunks.
Print Assumptions C116_frames.
Print Assumptions C116_session.
Print Assumptions C116_end_to_end.
Print Assumptions C116_answers.
Print Assumptions C116_other_header_refuted.
Print Assumptions C116_no_number_refuted.

(** With a length below zero what is read does depend on the chunks. *)
Definition minus (s : bytes) : option Z :=
  match s with 45%N :: d => if forallb is_digit d then Some (- Z.of_N (dec_val d))%Z else None | _ => None end.
Definition words (s : bytes) : option json :=
  if bytes_eqb s (s2b "null") then Some JNull else if bytes_eqb s (s2b "true") then Some (JBool true) else None.
Theorem C116_negative_refuted : exists a b, fst (drain minus words (a ++ b)) = [] /\
  fst (fold_left (feed minus words) [a; b] ([], [])) = [JNull].
Proof.
  exists (s2b "Content-Length: -24" ++ [13; 10; 13; 10]%N ++ s2b "null "), (s2b "x").
  split; vm_compute; reflexivity.
Qed.
Print Assumptions C116_negative_refuted.

Example ex_sane : sane (fun _ => None).
Proof. intros s z H. discriminate. Qed.
Example ex_proxy :
  let f t := s2b "Content-Length: 4" ++ CRLF ++ s2b "X: y" ++ CRLF ++ CRLF ++ s2b t in
  let print m := match m with JBool true => s2b "true" | _ => s2b "null" end in
  match run (pstep (fun _ => None) words print) pinit
    [Connect; Data 0 (firstn 20 (f "true"%string)); Connect; Data 1 (f "null"%string ++ f "true"%string);
     Data 0 (skipn 20 (f "true"%string) ++ f "true"%string); Incoming (message_id 1) (JBool true); Close 1]
  with
  | Some s => map handled (conns s) = [[JBool true; JBool true]; [JNull; JBool true]] /\
      map written (conns s) = [[]; s2b "Content-Length: 4" ++ CRLF ++ CRLF ++ s2b "true"] /\
      notes s = [greeting 0; greeting 1; talk 1 JNull; talk 1 (JBool true); talk 0 (JBool true); talk 0 (JBool true); farewell 1]
  | None => False
  end.
Proof. vm_compute. repeat split. Qed.
