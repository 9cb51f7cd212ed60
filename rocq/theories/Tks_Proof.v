(** How the stream of tokens relates to a list of tokens. *)

From Coq Require Import List Arith Bool Lia.
Import ListNotations.
From Verif Require Import Tks_Model Tks_Spec.
Open Scope nat_scope.

Definition no_eof (l : list token) : Prop := forall t, In t l -> is_eof t = false.

(** All tokens of the stream, fetched or not. *)
Definition whole (s : stream) : list token :=
  tokens s ++ (if fetched_eof s then [] else file (source s)).

(** The end of the file is the last token fetched, if it has been fetched. *)
Definition wf (s : stream) : Prop :=
  (if fetched_eof s then exists l t, tokens s = l ++ [t] /\ is_eof t = true /\ no_eof l
   else no_eof (tokens s))
  /\ p s < length (whole s).

Definition ready (s : stream) : Prop := wf s /\ base_setup s = false /\ need_setup s = false.

Definition view (s : stream) : reader := Reader (skipn (p s) (whole s)) (enabled_cont s) (enabled_hidden s).

(** [s'] is [s] with more tokens fetched. *)
Definition grown (s s' : stream) : Prop :=
  whole s' = whole s /\ p s' = p s /\ base_setup s' = base_setup s /\ need_setup s' = need_setup s
  /\ enabled_cont s' = enabled_cont s /\ enabled_hidden s' = enabled_hidden s
  /\ wf s' /\ size s <= size s'.

Lemma grown_refl : forall s, wf s -> grown s s.
Proof. intros s H. unfold grown. auto 10. Qed.

Lemma grown_trans : forall a b c, grown a b -> grown b c -> grown a c.
Proof.
  intros a b c (H1 & H2 & H3 & H4 & H5 & H6 & H7 & H8) (G1 & G2 & G3 & G4 & G5 & G6 & G7 & G8).
  unfold grown. repeat split; try congruence; try (exact G7); try lia.
  - exact (proj1 G7).
  - exact (proj2 G7).
Qed.

Lemma grown_view : forall s s', grown s s' -> view s' = view s.
Proof. intros s s' (H1 & H2 & _ & _ & H3 & H4 & _). unfold view. rewrite H1, H2, H3, H4. reflexivity. Qed.

Lemma wanted_channel : forall s t, is_on_channel s t = wanted (enabled_cont s) (enabled_hidden s) t.
Proof.
  intros s [ty h g]. unfold is_on_channel, wanted, is_continuation, is_eof. cbn.
  destruct ty, h, (enabled_cont s), (enabled_hidden s); reflexivity.
Qed.

Lemma file_shape : forall src, exists l t, file src = l ++ [t] /\ is_eof t = true /\ no_eof l.
Proof.
  induction src as [|t r IH]; cbn [file].
  - exists [], end_token. repeat split. intros x [].
  - destruct (is_eof t) eqn:E.
    + exists [], t. repeat split; auto. intros x [].
    + destruct IH as (l & e & H1 & H2 & H3). exists (t :: l), e. rewrite H1. repeat split; auto.
      intros x [->|H]; auto.
Qed.

Lemma whole_shape : forall s, wf s -> exists l t, whole s = l ++ [t] /\ is_eof t = true /\ no_eof l.
Proof.
  intros s [H _]. unfold whole. destruct (fetched_eof s).
  - destruct H as (l & t & H1 & H2 & H3). exists l, t. rewrite app_nil_r. auto.
  - destruct (file_shape (source s)) as (l & t & H1 & H2 & H3).
    exists (tokens s ++ l), t. rewrite H1, app_assoc. repeat split; auto.
    intros x Hx. apply in_app_or in Hx as [Hx|Hx]; auto.
Qed.

Lemma size_whole : forall s, size s <= length (whole s).
Proof. intros s. unfold whole, size. rewrite app_length. lia. Qed.

Lemma fetch_step : forall s, wf s -> fetched_eof s = false ->
  exists t rest, (match source s with [] => (end_token, []) | t :: r => (t, r) end) = (t, rest)
  /\ file (source s) = t :: (if is_eof t then [] else file rest).
Proof.
  intros s _ _. destruct (source s) as [|t r]; cbn.
  - exists end_token, []. auto.
  - exists t, r. split; auto. destruct (is_eof t); auto.
Qed.

Lemma fetch_spec : forall n s k s', wf s -> fetch n s = (k, s') ->
  grown s s' /\ tokens s' = firstn (size s + n) (whole s) /\ k = min n (length (whole s) - size s).
Proof.
  induction n as [|n IH]; intros s k s' W E; cbn [fetch] in E.
  - injection E as <- <-. split; [apply grown_refl; auto|]. split; [|lia].
    unfold whole, size. rewrite Nat.add_0_r, firstn_app, Nat.sub_diag, firstn_all. cbn. now rewrite app_nil_r.
  - destruct (fetched_eof s) eqn:FE.
    + injection E as <- <-. split; [apply grown_refl; auto|].
      unfold whole, size. rewrite FE, app_nil_r. split; [|lia].
      rewrite firstn_all2; auto. lia.
    + destruct (fetch_step s W FE) as (t & rest & E1 & E2). rewrite E1 in E.
      set (s1 := Stream (tokens s ++ [t]) rest (p s) (is_eof t) (base_setup s) (need_setup s)
                        (enabled_cont s) (enabled_hidden s)) in E.
      assert (HW : whole s1 = whole s).
      { unfold whole. cbn. rewrite FE, E2, <- app_assoc. destruct (is_eof t); reflexivity. }
      assert (W1 : wf s1).
      { destruct W as [W1 W2]. rewrite FE in W1. split; [|rewrite HW; exact W2].
        cbn. destruct (is_eof t) eqn:Et.
        - exists (tokens s), t. auto.
        - intros x Hx. apply in_app_or in Hx as [Hx|[<-|[]]]; auto. }
      destruct (fetch n s1) as [k1 s2] eqn:E3. injection E as <- <-.
      apply IH in E3 as (G & T & K); auto.
      assert (HS : size s1 = S (size s)) by (unfold size; cbn; rewrite app_length; cbn; lia).
      split; [|split].
      * apply grown_trans with s1; auto.
        unfold grown. repeat split; auto; try (exact (proj1 W1)); try (exact (proj2 W1)). lia.
      * rewrite T, HW, HS. f_equal. lia.
      * rewrite K, HW, HS.
        assert (size s < length (whole s)).
        { unfold whole, size. rewrite FE, E2, app_length. cbn. lia. }
        lia.
Qed.

Lemma tokens_prefix : forall s, tokens s = firstn (size s) (whole s).
Proof. intros s. unfold whole, size. rewrite firstn_app, Nat.sub_diag, firstn_all. cbn. now rewrite app_nil_r. Qed.

Lemma sync_spec : forall i s b s', wf s -> sync i s = (b, s') ->
  grown s s' /\ (i < length (whole s) -> i < size s') /\ (length (whole s) <= i -> size s' = length (whole s))
  /\ b = (i <? length (whole s)).
Proof.
  intros i s b s' W E. unfold sync in E. pose proof (size_whole s) as SW.
  destruct (i + 1 <? size s) eqn:E1.
  - apply Nat.ltb_lt in E1. injection E as <- <-. split; [apply grown_refl; auto|].
    repeat split; try lia. symmetry. apply Nat.ltb_lt. lia.
  - apply Nat.ltb_ge in E1. destruct (0 <? i + 1 - size s) eqn:E2.
    + apply Nat.ltb_lt in E2. destruct (fetch (i + 1 - size s) s) as [k s1] eqn:E3. injection E as <- <-.
      apply fetch_spec in E3 as (G & T & K); auto. split; auto.
      assert (HS : size s1 = min (i + 1) (length (whole s))).
      { unfold size at 1. rewrite T, firstn_length. f_equal. lia. }
      repeat split; try lia.
      rewrite K. destruct (i <? length (whole s)) eqn:E4.
      * apply Nat.ltb_lt in E4. apply Nat.leb_le. lia.
      * apply Nat.ltb_ge in E4. apply Nat.leb_gt. lia.
    + apply Nat.ltb_ge in E2. injection E as <- <-. split; [apply grown_refl; auto|].
      repeat split; try lia. symmetry. apply Nat.ltb_lt. lia.
Qed.

Lemma nth_error_firstn : forall (A : Type) (l : list A) n i, i < n -> nth_error (firstn n l) i = nth_error l i.
Proof.
  induction l as [|a l IH]; intros n i H.
  - rewrite firstn_nil. reflexivity.
  - destruct n as [|n]; [lia|]. destruct i as [|i]; cbn; auto. apply IH. lia.
Qed.

Lemma get_spec : forall i s, i < size s -> exists t, nth_error (whole s) i = Some t /\ get i s = Ok t s.
Proof.
  intros i s H. unfold get. rewrite (tokens_prefix s), nth_error_firstn by auto.
  destruct (nth_error (whole s) i) as [t|] eqn:E.
  - exists t. auto.
  - apply nth_error_None in E. pose proof (size_whole s). lia.
Qed.

Lemma get_none : forall i s, size s <= i -> get i s = OutOfBounds.
Proof. intros i s H. unfold get. rewrite (proj2 (nth_error_None _ _)); auto. Qed.

(** The walk over a list. *)
Fixpoint pw (v : token -> bool) (l : list token) (i k : nat) : option nat :=
  match l with
  | [] => None
  | t :: r =>
      if negb (v t) || negb (k =? 0) then pw v r (S i) (k - (if v t then 1 else 0)) else Some i
  end.

Lemma skipn_nth : forall (A : Type) (l : list A) i t, nth_error l i = Some t -> skipn i l = t :: skipn (S i) l.
Proof.
  induction l as [|a l IH]; intros [|i] t H; cbn in *; try discriminate.
  - injection H as ->. reflexivity.
  - now apply IH.
Qed.

Definition wants (s : stream) : token -> bool := wanted (enabled_cont s) (enabled_hidden s).

Lemma grown_wants : forall s s', grown s s' -> wants s' = wants s.
Proof. intros s s' (_ & _ & _ & _ & H1 & H2 & _). unfold wants. now rewrite H1, H2. Qed.

Lemma walk_spec : forall fuel i k s, wf s -> length (whole s) < i + fuel ->
  (i < size s \/ (length (whole s) <= i /\ size s = length (whole s))) ->
  match pw (wants s) (skipn i (whole s)) i k with
  | Some j => exists s', walk fuel i k s = Ok j s' /\ grown s s' /\ j < size s'
  | None => walk fuel i k s = OutOfBounds \/ length (whole s) < i
  end.
Proof.
  induction fuel as [|fuel IH]; intros i k s W F HI.
  - rewrite skipn_all2 by lia. cbn. right. lia.
  - destruct HI as [HI|[HI HS]].
    + destruct (get_spec i s HI) as (t & Ht & Eg).
      rewrite (skipn_nth _ _ _ _ Ht). cbn [pw walk]. rewrite Eg. cbn [bind].
      rewrite wanted_channel. fold (wants s). fold (wants s t).
      destruct (negb (wants s t) || negb (k =? 0)) eqn:C.
      * destruct (sync (S i) s) as [b s1] eqn:ES.
        apply sync_spec in ES as (G & H1 & H2 & _); auto.
        assert (W1 : wf s1) by apply G.
        assert (HW : whole s1 = whole s) by apply G.
        specialize (IH (S i) (k - (if wants s t then 1 else 0)) s1 W1).
        rewrite HW, (grown_wants _ _ G) in IH.
        destruct (pw (wants s) (skipn (S i) (whole s)) (S i) (k - (if wants s t then 1 else 0))) as [j|] eqn:EP.
        -- destruct IH as (s2 & E2 & G2 & J2).
           ++ lia.
           ++ destruct (le_lt_dec (length (whole s)) (S i)); auto.
           ++ exists s2. split; auto. split; auto. eapply grown_trans; eauto.
        -- destruct IH as [E2|E2]; auto.
           ++ lia.
           ++ destruct (le_lt_dec (length (whole s)) (S i)); auto.
           ++ left. pose proof (size_whole s). lia.
      * exists s. split; auto. split; auto. now apply grown_refl.
    + rewrite skipn_all2 by lia. cbn [pw walk]. left. rewrite get_none by lia. reflexivity.
Qed.

Lemma enough_ok : forall s i, wf s -> length (whole s) < i + enough s.
Proof.
  intros s i W. unfold enough, whole, size. rewrite app_length.
  assert (forall src, length (file src) <= length src + 1).
  { induction src as [|t r IH]; cbn; auto. destruct (is_eof t); cbn; lia. }
  specialize (H (source s)). destruct (fetched_eof s); cbn; lia.
Qed.

Lemma next_spec : forall k s, wf s -> p s + k < length (whole s) ->
  match pw (wants s) (skipn (p s) (whole s)) (p s) k with
  | Some j => exists s', next_token_on_channel (p s + k) s = Ok j s' /\ grown s s' /\ j < size s'
  | None => next_token_on_channel (p s + k) s = OutOfBounds
  end.
Proof.
  intros k s W H. unfold next_token_on_channel.
  destruct (sync (p s + k) s) as [b s1] eqn:ES.
  apply sync_spec in ES as (G & H1 & H2 & _); auto.
  assert (W1 : wf s1) by apply G.
  assert (HW : whole s1 = whole s) by apply G.
  assert (HP : p s1 = p s) by apply G.
  specialize (H1 H).
  destruct (size s1 <=? p s + k) eqn:E; [apply Nat.leb_le in E; lia|].
  rewrite HP. replace (p s + k - p s) with k by lia.
  assert (HI : p s < size s1 \/ (length (whole s1) <= p s /\ size s1 = length (whole s1))) by (left; lia).
  pose proof (walk_spec (enough s1) (p s) k s1 W1 (enough_ok _ _ W1) HI) as Hw. clear HI.
  rewrite HW, (grown_wants _ _ G) in Hw.
  destruct (pw (wants s) (skipn (p s) (whole s)) (p s) k) as [j|].
  - destruct Hw as (s2 & E2 & G2 & J2).
    exists s2. split; auto. split; auto. eapply grown_trans; eauto.
  - destruct Hw as [E2|E2]; auto.
    destruct W. lia.
Qed.

Lemma pw_zero : forall v l i, skip v l <> [] ->
  exists d, pw v l i 0 = Some (i + d) /\ skip v l = skipn d l /\ d < length l.
Proof.
  induction l as [|t r IH]; intros i H; cbn [skip] in *; [contradiction|].
  cbn [pw]. destruct (v t); cbn [negb orb].
  - exists 0. cbn. rewrite Nat.add_0_r. repeat split. lia.
  - replace (0 - 0) with 0 by lia. destruct (IH (S i) H) as (d & E1 & E2 & E3).
    exists (S d). rewrite E1. split; [f_equal; lia|]. split; [exact E2|cbn; lia].
Qed.

Lemma pw_none : forall v l i, skip v l = [] -> pw v l i 0 = None.
Proof.
  induction l as [|t r IH]; intros i H; cbn [skip pw] in *; auto.
  destruct (v t); [discriminate|]. cbn. apply IH; auto.
Qed.

Lemma pw_one : forall v l i d, skip v l = skipn d l -> d < length l ->
  pw v l i 1 = pw v (skipn (S d) l) (i + S d) 0.
Proof.
  induction l as [|t r IH]; intros i d H Hd; cbn [length] in Hd; [lia|].
  cbn [skip] in H. cbn [pw]. destruct (v t) eqn:V; cbn [negb orb Nat.eqb].
  - destruct d as [|d].
    + cbn [Nat.sub skipn]. f_equal. lia.
    + exfalso. cbn [skipn] in H. assert (length (t :: r) = length (skipn d r)) by congruence.
      rewrite skipn_length in H0. cbn in H0. lia.
  - destruct d as [|d].
    + exfalso. cbn [skipn] in H.
      assert (Hl : forall l, length (skip v l) <= length l).
      { induction l as [|x l IHl]; cbn; auto. destruct (v x); cbn; lia. }
      pose proof (Hl r) as H1. rewrite H in H1. cbn in H1. lia.
    + cbn [Nat.sub]. rewrite (IH (S i) d); [|exact H|lia]. cbn [skipn]. f_equal. lia.
Qed.

Lemma skip_last : forall v l t, v t = true -> skip v (l ++ [t]) <> [].
Proof.
  induction l as [|x l IH]; intros t H; cbn.
  - rewrite H. discriminate.
  - destruct (v x); [discriminate|]. now apply IH.
Qed.

Lemma wants_eof : forall s t, is_eof t = true -> wants s t = true.
Proof. intros s [ty h g] H. unfold wants, wanted, is_eof in *. cbn in *. destruct ty; try discriminate. reflexivity. Qed.

Lemma rest_shape : forall s, wf s ->
  exists l t, skipn (p s) (whole s) = l ++ [t] /\ is_eof t = true /\ no_eof l.
Proof.
  intros s W. destruct (whole_shape s W) as (l & t & E & Et & Hl). destruct W as [_ W].
  rewrite E in *. rewrite app_length in W. cbn in W.
  exists (skipn (p s) l), t. rewrite skipn_app. replace (p s - length l) with 0 by lia.
  repeat split; auto. intros x Hx. apply Hl. rewrite <- (firstn_skipn (p s) l). apply in_or_app. auto.
Qed.

Lemma rest_skip : forall s, wf s -> skip (wants s) (skipn (p s) (whole s)) <> [].
Proof.
  intros s W. destruct (rest_shape s W) as (l & t & -> & Et & _). apply skip_last. now apply wants_eof.
Qed.

Lemma skip_in : forall v l t r, skip v l = t :: r -> v t = true.
Proof.
  induction l as [|x l IH]; intros t r H; cbn in H; [discriminate|].
  destruct (v x) eqn:V; [congruence|]. eapply IH; eauto.
Qed.

Lemma skipn_skipn' : forall (A : Type) (l : list A) a b, skipn a (skipn b l) = skipn (b + a) l.
Proof.
  induction l as [|x l IH]; intros a b.
  - now rewrite !skipn_nil.
  - destruct b; cbn; auto.
Qed.

(** Where the next wanted token is. *)
Lemma next_here : forall s, wf s -> exists d t s',
  skip (wants s) (skipn (p s) (whole s)) = skipn (p s + d) (whole s)
  /\ nth_error (whole s) (p s + d) = Some t
  /\ next (wants s) (skipn (p s) (whole s)) = Some t
  /\ p s + d < length (whole s)
  /\ next_token_on_channel (p s) s = Ok (p s + d) s' /\ grown s s' /\ p s + d < size s'.
Proof.
  intros s W. pose proof (rest_skip s W) as R.
  destruct (pw_zero _ _ (p s) R) as (d & E1 & E2 & E3).
  pose proof (next_spec 0 s W) as N. rewrite Nat.add_0_r, E1 in N.
  destruct N as (s' & N1 & N2 & N3); [apply W|].
  rewrite skipn_length in E3. rewrite skipn_skipn' in E2.
  destruct (nth_error (whole s) (p s + d)) as [t|] eqn:Et.
  - exists d, t, s'. split; auto. split; auto. split.
    + unfold next. rewrite E2, (skipn_nth _ _ _ _ Et). reflexivity.
    + repeat split; auto; try lia; try apply N2.
  - apply nth_error_None in Et. lia.
Qed.

(** Looking at the next token. *)
Lemma look_spec : forall s, ready s -> exists t s',
  next (wants s) (rest (view s)) = Some t /\ LT 1 s = Ok t s' /\ grown s s'.
Proof.
  intros s (W & B & N). destruct (next_here s W) as (d & t & s' & _ & Et & En & _ & E & G & D).
  exists t, s'. split; auto. unfold LT, lazyInit. rewrite B. cbn [bind Nat.sub ahead]. rewrite E. cbn [bind].
  split; auto. destruct (get_spec _ _ D) as (t' & Et' & Eg).
  assert (HW : whole s' = whole s) by apply G. rewrite HW in Et'. congruence.
Qed.

Lemma last_is_eof : forall s i t, wf s -> nth_error (whole s) i = Some t -> is_eof t = true ->
  S i = length (whole s).
Proof.
  intros s i t W E H. destruct (whole_shape s W) as (l & e & El & He & Hl). rewrite El in *.
  rewrite app_length. cbn. destruct (le_lt_dec (length l) i) as [L|L].
  - rewrite nth_error_app2 in E by auto. destruct (i - length l) as [|x] eqn:D; [lia|].
    cbn in E. destruct x; discriminate.
  - rewrite nth_error_app1 in E by auto. apply nth_error_In in E. apply Hl in E. congruence.
Qed.

(** Going on to the token behind the next one. *)
Lemma after_here : forall s t, wf s -> next (wants s) (rest (view s)) = Some t ->
  if is_eof t then p s + 1 < length (whole s) -> next_token_on_channel (p s + 1) s = OutOfBounds
  else p s + 1 < length (whole s) /\ exists j s',
    next_token_on_channel (p s + 1) s = Ok j s' /\ grown s s' /\ p s < j < size s'
    /\ skipn j (whole s) = skip (wants s) (tl (skip (wants s) (rest (view s))))
    /\ (exists d, nth_error (whole s) (p s + d) = Some t /\ p s + d < j
         /\ forall i u, p s + d < i < j -> nth_error (whole s) i = Some u -> wants s u = false).
Proof.
  intros s t W E. cbn [rest view] in *.
  destruct (next_here s W) as (d & t' & s1 & E1 & E2 & E3 & E4 & _).
  rewrite E3 in E. injection E as ->.
  assert (E0 : skip (wants s) (skipn (p s) (whole s)) = skipn d (skipn (p s) (whole s))).
  { rewrite skipn_skipn'. exact E1. }
  assert (Dl : d < length (skipn (p s) (whole s))) by (rewrite skipn_length; lia).
  pose proof (pw_one (wants s) (skipn (p s) (whole s)) (p s) d E0 Dl) as P1.
  rewrite skipn_skipn' in P1.
  destruct (is_eof t) eqn:Et.
  - intros H. pose proof (next_spec 1 s W H) as N. rewrite P1 in N.
    pose proof (last_is_eof s _ _ W E2 Et) as L.
    rewrite (skipn_all2 (n := p s + S d)) in N by lia. exact N.
  - assert (L : S (p s + d) < length (whole s)).
    { destruct (whole_shape s W) as (l & e & El & He & Hl). rewrite El in *. rewrite app_length in *. cbn in *.
      destruct (le_lt_dec (length l) (p s + d)) as [Q|Q]; [|lia].
      rewrite nth_error_app2 in E2 by auto. replace (p s + d - length l) with 0 in E2 by lia.
      cbn in E2. injection E2 as ->. congruence. }
    split; [lia|].
    assert (H : p s + 1 < length (whole s)) by lia.
    pose proof (next_spec 1 s W H) as N. rewrite P1 in N.
    assert (R : skip (wants s) (skipn (p s + S d) (whole s)) <> []).
    { destruct (whole_shape s W) as (l & e & El & He & Hl). rewrite El in *. rewrite app_length in *. cbn in *.
      rewrite skipn_app. replace (p s + S d - length l) with 0 by lia. apply skip_last. now apply wants_eof. }
    destruct (pw_zero _ _ (p s + S d) R) as (d2 & Q1 & Q2 & Q3). rewrite Q1 in N.
    destruct N as (s2 & N1 & N2 & N3).
    exists (p s + S d + d2), s2. split; [exact N1|]. split; [exact N2|]. split; [lia|]. split.
    + rewrite E1, (skipn_nth _ _ _ _ E2). cbn [tl]. replace (S (p s + d)) with (p s + S d) by lia.
      rewrite Q2, skipn_skipn'. reflexivity.
    + exists d. split; [exact E2|]. split; [lia|]. intros i u Hi Hu.
      assert (G : forall v l d, skip v l = skipn d l -> d < length l ->
                  forall i u, i < d -> nth_error l i = Some u -> v u = false).
      { clear. induction l as [|x l IH]; intros d H Hd i u Hi Hu; cbn [length] in Hd; [lia|].
        cbn [skip] in H. destruct (v x) eqn:V.
        - destruct d as [|d]; [lia|]. cbn [skipn] in H.
          assert (length (x :: l) = length (skipn d l)) by congruence. rewrite skipn_length in H0. cbn in H0. lia.
        - destruct d as [|d]; [lia|]. destruct i as [|i]; cbn in Hu.
          + congruence.
          + apply (IH d H ltac:(lia) i u ltac:(lia) Hu). }
      apply (G _ _ _ Q2 Q3 (i - (p s + S d)) u); [lia|].
      rewrite <- Hu. rewrite <- (firstn_skipn (p s + S d) (whole s)) at 2.
      rewrite nth_error_app2; rewrite firstn_length_le; try lia. reflexivity.
Qed.

Lemma with_p_wf : forall s j, wf s -> j < length (whole s) -> wf (with_p j s).
Proof. intros s j [H1 H2] H. split; [exact H1|exact H]. Qed.

(** Taking a token. *)
Lemma consume_spec : forall s t, ready s -> next (wants s) (rest (view s)) = Some t ->
  if is_eof t then consume s = EofConsumed \/ consume s = OutOfBounds
  else exists s', consume s = Ok tt s' /\ ready s' /\ whole s' = whole s
    /\ enabled_cont s' = enabled_cont s /\ enabled_hidden s' = enabled_hidden s
    /\ rest (view s') = skip (wants s) (tl (skip (wants s) (rest (view s))))
    /\ p s < p s' < size s'
    /\ (exists d, nth_error (whole s) (p s + d) = Some t /\ p s + d < p s'
         /\ forall i u, p s + d < i < p s' -> nth_error (whole s) i = Some u -> wants s u = false).
Proof.
  intros s t R E.
  set (step := fun s => let (more, s) := sync (p s + 1) s in
    if more then bind (adjustSeekIndex (p s + 1) s) (fun v s => Ok tt (with_p v s)) else Ok tt s).
  assert (ST : forall s1, grown s s1 ->
    if is_eof t then p s1 + 1 < length (whole s1) -> step s1 = OutOfBounds
    else exists s', step s1 = Ok tt s' /\ ready s' /\ whole s' = whole s
    /\ enabled_cont s' = enabled_cont s /\ enabled_hidden s' = enabled_hidden s
    /\ rest (view s') = skip (wants s) (tl (skip (wants s) (rest (view s))))
    /\ p s < p s' < size s'
    /\ (exists d, nth_error (whole s) (p s + d) = Some t /\ p s + d < p s'
         /\ forall i u, p s + d < i < p s' -> nth_error (whole s) i = Some u -> wants s u = false)).
  { intros s1 G. destruct R as (W & B & NS). unfold step.
    destruct (sync (p s1 + 1) s1) as [b s2] eqn:ES.
    assert (W1 : wf s1) by apply G.
    apply sync_spec in ES as (G2 & _ & _ & Hb); auto.
    pose proof (grown_trans _ _ _ G G2) as G3.
    assert (W2 : wf s2) by apply G2.
    pose proof G3 as (HW & HP & HB & HN & HC & HH & _).
    assert (P1 : p s1 = p s) by apply G. assert (HW1 : whole s1 = whole s) by apply G.
    pose proof (after_here s2 t W2) as A.
    rewrite (grown_wants _ _ G3), (grown_view _ _ G3), HP, HW in A.
    specialize (A E). unfold adjustSeekIndex. rewrite HN, NS, P1, HP, Nat.eqb_refl.
    rewrite P1, HW1 in Hb.
    destruct (is_eof t).
    - rewrite HW1. intros H. rewrite Hb. rewrite (proj2 (Nat.ltb_lt _ _) H). rewrite A by auto. reflexivity.
    - destruct A as (A1 & j & s3 & A2 & A3 & A4 & A5 & A6).
      rewrite Hb, (proj2 (Nat.ltb_lt _ _) A1), A2. cbn [bind].
      pose proof (grown_trans _ _ _ G3 A3) as G4.
      pose proof G4 as (HW4 & HP4 & HB4 & HN4 & HC4 & HH4 & W4 & _).
      exists (with_p j s3). split; [reflexivity|]. split.
      { split; [|split; cbn; congruence]. apply with_p_wf; auto. pose proof (size_whole s3). lia. }
      split; [exact HW4|]. split; [exact HC4|]. split; [exact HH4|]. split.
      { cbn [view rest with_p p]. change (whole (with_p j s3)) with (whole s3). rewrite HW4. exact A5. }
      split; [exact A4|exact A6]. }
  pose proof R as (W & B & NS).
  unfold consume. rewrite B. fold (step s).
  destruct (look_spec s R) as (t' & s1 & E1 & E2 & G1).
  assert (t' = t) by congruence. subst t'.
  destruct (if fetched_eof s then p s <? size s - 1 else p s <? size s) eqn:SC.
  - assert (L : p s + 1 < length (whole s)).
    { destruct (fetched_eof s) eqn:FE; apply Nat.ltb_lt in SC.
      - pose proof (size_whole s). lia.
      - destruct (file_shape (source s)) as (l & e & El & _).
        unfold whole, size in *. rewrite FE, El, !app_length. cbn. lia. }
    specialize (ST s (grown_refl s W)). destruct (is_eof t); auto.
  - rewrite E2. cbn [bind]. specialize (ST s1 G1). destruct (is_eof t); auto.
Qed.

(** The stream at its start. *)
Lemma setup_spec : forall s, wf s -> base_setup s = true -> need_setup s = true -> p s = 0 ->
  exists s', lazyInit s = Ok tt s' /\ ready s' /\ whole s' = whole s
    /\ enabled_cont s' = enabled_cont s /\ enabled_hidden s' = enabled_hidden s
    /\ rest (view s') = skip (wants s) (rest (view s)).
Proof.
  intros s W B N P. unfold lazyInit, setup. rewrite B.
  set (s0 := Stream (tokens s) (source s) (p s) (fetched_eof s) false (need_setup s) (enabled_cont s) (enabled_hidden s)).
  assert (W0 : wf s0) by exact W.
  destruct (sync 0 s0) as [b s1] eqn:ES. apply sync_spec in ES as (G1 & _); auto.
  unfold adjustSeekIndex. pose proof G1 as (HW & HP & HB & HN & HC & HH & W1 & _).
  rewrite HN. cbn [need_setup s0]. rewrite N.
  destruct (sync 0 s1) as [b2 s2] eqn:ES2. apply sync_spec in ES2 as (G2 & Z & _); auto.
  pose proof (grown_trans _ _ _ G1 G2) as G3.
  pose proof G3 as (HW3 & HP3 & HB3 & HN3 & HC3 & HH3 & W3 & _).
  assert (L : 0 < size s2). { apply Z. rewrite HW. destruct W0 as [_ W0]. lia. }
  rewrite (proj2 (Nat.leb_gt _ _) L).
  pose proof (walk_spec (enough s2) 0 0 s2 W3 (enough_ok _ _ W3) (or_introl L)) as Wk.
  cbn [skipn] in Wk.
  assert (R : skip (wants s2) (whole s2) <> []).
  { pose proof (rest_skip s2 W3) as R. rewrite HP3 in R. cbn [p s0] in R. rewrite P in R. exact R. }
  destruct (pw_zero _ _ 0 R) as (d & E1 & E2 & E3). rewrite E1 in Wk. cbn [Nat.add] in Wk.
  destruct Wk as (s3 & Ew & Gw & Dw). rewrite Ew. cbn [bind].
  pose proof Gw as (HW4 & HP4 & HB4 & HN4 & HC4 & HH4 & W4 & _).
  eexists. split; [reflexivity|]. split; [|split; [|split; [|split]]].
  - split; [|split; [cbn; rewrite HB4, HB3; reflexivity|reflexivity]].
    split; [exact (proj1 W4)|]. cbn [p]. change (d < length (whole s3)). rewrite HW4. exact E3.
  - change (whole s3 = whole s). rewrite HW4, HW3. reflexivity.
  - cbn. rewrite HC4, HC3. reflexivity.
  - cbn. rewrite HH4, HH3. reflexivity.
  - cbn [view rest p]. change (skipn d (whole s3) = skip (wants s) (skipn (p s) (whole s))).
    rewrite P. cbn [skipn]. rewrite HW4, <- E2.
    rewrite (grown_wants _ _ G3). rewrite HW3. reflexivity.
Qed.

(** Looking back at the token taken. *)
Lemma back_spec : forall s' d t, wf s' -> p s' <= size s' -> d < p s' -> nth_error (whole s') d = Some t ->
  wants s' t = true -> (forall i u, d < i < p s' -> nth_error (whole s') i = Some u -> wants s' u = false) ->
  LB 1 s' = Ok (Some t) s'.
Proof.
  intros s' d t W PS D E V H. unfold LB.
  replace (1 =? 0) with false by reflexivity.
  rewrite (proj2 (Nat.ltb_ge (p s') 1)) by lia.
  replace (size s' =? 0) with false by (symmetry; apply Nat.eqb_neq; lia). cbn [orb].
  assert (G : forall i, d < i -> i <= p s' -> back i 1 s' = Ok (Some t) s').
  { induction i as [|i IH]; intros H1 H2; [lia|]. cbn [back].
    destruct (get_spec i s') as (u & Eu & Eg); [lia|]. rewrite Eg. cbn [bind].
    rewrite wanted_channel. fold (wants s'). fold (wants s' u).
    destruct (Nat.eq_dec i d) as [->|N].
    - assert (u = t) by congruence. subst u. rewrite V. cbn [Nat.sub]. destruct d; cbn [back]; rewrite Eg; reflexivity.
    - rewrite (H i u) by (auto; lia). cbn. apply IH; lia. }
  apply G; lia.
Qed.

(** Looking further ahead, when all tokens on the way are wanted. *)
Lemma pw_all : forall v k l i, k < length l -> (forall t, In t (firstn (S k) l) -> v t = true) ->
  pw v l i k = Some (i + k).
Proof.
  induction k as [|k IH]; intros [|t r] i H V; cbn [length] in H; try lia; cbn [pw].
  - rewrite (V t) by (cbn; auto). cbn. f_equal. lia.
  - rewrite (V t) by (cbn; auto). cbn [negb orb Nat.eqb]. replace (S k - 1) with k by lia.
    rewrite IH; [f_equal; lia|lia|]. intros x Hx. apply V. cbn. right. exact Hx.
Qed.

Lemma ahead_spec : forall n j s, wf s -> j + n < length (rest (view s)) ->
  (forall t, In t (firstn (S (j + n)) (rest (view s))) -> wants s t = true) ->
  exists s', ahead n (p s + j) s = Ok (p s + (j + n)) s' /\ grown s s'.
Proof.
  induction n as [|n IH]; intros j s W L V; cbn [ahead].
  - exists s. rewrite Nat.add_0_r. split; auto. now apply grown_refl.
  - cbn [rest view] in L, V. rewrite skipn_length in L.
    destruct (sync (p s + j + 1) s) as [b s1] eqn:ES. apply sync_spec in ES as (G & _ & _ & Hb); auto.
    rewrite (proj2 (Nat.ltb_lt _ _)) in Hb by lia. subst b.
    pose proof G as (HW & HP & HB & HN & HC & HH & W1 & _).
    pose proof (next_spec (j + 1) s1 W1) as N. rewrite HP, HW, (grown_wants _ _ G) in N.
    rewrite pw_all in N.
    + destruct N as (s2 & N1 & N2 & _); [lia|].
      replace (p s + j + 1) with (p s + (j + 1)) by lia. rewrite N1. cbn [bind].
      pose proof N2 as (HW2 & HP2 & _ & _ & HC2 & HH2 & W2 & _).
      specialize (IH (j + 1) s2 W2). rewrite (grown_view _ _ N2), (grown_view _ _ G) in IH.
      rewrite HP2, HP, (grown_wants _ _ N2), (grown_wants _ _ G) in IH. cbn [rest view] in IH.
      destruct IH as (s3 & E3 & G3).
      * rewrite skipn_length. lia.
      * intros t Ht. apply V. replace (j + S n) with (j + 1 + n) by lia. exact Ht.
      * exists s3. replace (j + S n) with (j + 1 + n) by lia. split; auto.
        eapply grown_trans; [exact G|]. eapply grown_trans; eauto.
    + rewrite skipn_length. lia.
    + intros t Ht. apply V.
      revert Ht. generalize (skipn (p s) (whole s)). intros l Ht.
      apply (In_nth_error) in Ht as (q & Hq).
      assert (q < S (j + 1)).
      { apply Nat.nle_gt. intros C. rewrite (proj2 (nth_error_None _ _)) in Hq; [discriminate|].
        rewrite firstn_length. lia. }
      rewrite nth_error_firstn in Hq by auto.
      apply nth_error_In with (n := q). rewrite nth_error_firstn by lia. exact Hq.
Qed.
