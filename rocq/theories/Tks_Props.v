(** The stream of tokens: C102, C103. *)

From Coq Require Import List Arith Bool Lia.
Import ListNotations.
From Verif Require Import Tks_Model Tks_Spec Tks_Proof.
Open Scope nat_scope.

(** ** C102: a parser sees the tokens that it wants, each once and in order *)

(** Actions on the stream: looking is LT(1), taking is consume(). *)
Definition act (a : action) (s : stream) : outcome (option token) :=
  match a with
  | Look => bind (LT 1 s) (fun t s => Ok (Some t) s)
  | Take => bind (consume s) (fun _ s => Ok None s)
  | Continuations b => Ok None (set_continuation b s)
  | Hidden b => Ok None (set_hidden b s)
  end.

Fixpoint acts (l : list action) (s : stream) : list (option token) * outcome unit :=
  match l with
  | [] => ([], Ok tt s)
  | a :: l =>
      match act a s with
      | Ok o s' => let (os, r) := acts l s' in (o :: os, r)
      | OutOfBounds => ([], OutOfBounds)
      | EofConsumed => ([], EofConsumed)
      | Hang => ([], Hang)
      end
  end.

(** The outcome of a list of actions against that of the reader. *)
Definition ends_as (r : outcome unit) (e : option reader) : Prop :=
  match r with
  | Ok _ s => ready s /\ e = Some (view s)
  | OutOfBounds | EofConsumed => e = None
  | Hang => False
  end.

Lemma toggled_ready : forall s b, ready s -> ready (set_continuation b s) /\ ready (set_hidden b s).
Proof. intros s b R. split; exact R. Qed.

Lemma grown_ready : forall s s', ready s -> grown s s' -> ready s'.
Proof.
  intros s s' (W & B & N) (H1 & H2 & H3 & H4 & H5 & H6 & H7 & H8). split; [exact H7|]. split; congruence.
Qed.

(** For any tokens and any actions, what is seen is what a reader of the list
    of the tokens sees, until the end of the file is taken, which is an
    error. *)
Theorem C102_seen : forall l s, ready s ->
  fst (acts l s) = fst (seen l (view s)) /\ ends_as (snd (acts l s)) (snd (seen l (view s))).
Proof.
  induction l as [|a l IH]; intros s R; cbn [acts seen].
  - cbn. auto.
  - destruct (look_spec s R) as (t & s1 & E1 & E2 & G1).
    change (wanted (r_cont (view s)) (r_hid (view s))) with (wants s).
    destruct a as [| |b|b]; cbn [act].
    + rewrite E2. cbn [bind]. pose proof (IH s1 (grown_ready _ _ R G1)) as [H1 H2].
      rewrite (grown_view _ _ G1) in H1, H2. cbn [read snd fst].
      destruct (acts l s1) as [os r], (seen l (view s)) as [os' r']. cbn [fst snd] in *.
      change (wanted (r_cont (view s)) (r_hid (view s))) with (wants s). rewrite E1, H1. auto.
    + rewrite E1. pose proof (consume_spec s t R E1) as C. destruct (is_eof t).
      * destruct C as [-> | ->]; cbn; auto.
      * destruct C as (s' & -> & R' & HW & HC & HH & HR & _). cbn [bind].
        pose proof (IH s' R') as [H1 H2].
        assert (HV : view s' = snd (read Take (view s))).
        { cbn [read snd]. change (wanted (r_cont (view s)) (r_hid (view s))) with (wants s).
          rewrite <- HR. unfold view. cbn. rewrite HC, HH. reflexivity. }
        rewrite HV in H1, H2.
        destruct (acts l s') as [os r]. destruct (seen l (snd (read Take (view s)))) as [os' r'].
        cbn [fst snd] in *. cbn [read fst]. rewrite H1. auto.
    + pose proof (IH (set_continuation b s) (proj1 (toggled_ready s b R))) as [H1 H2].
      change (view (set_continuation b s)) with (snd (read (Continuations b) (view s))) in H1, H2.
      destruct (acts l (set_continuation b s)) as [os r].
      destruct (seen l (snd (read (Continuations b) (view s)))) as [os' r']. cbn [fst snd] in *.
      cbn [read fst]. rewrite H1. auto.
    + pose proof (IH (set_hidden b s) (proj2 (toggled_ready s b R))) as [H1 H2].
      change (view (set_hidden b s)) with (snd (read (Hidden b) (view s))) in H1, H2.
      destruct (acts l (set_hidden b s)) as [os r].
      destruct (seen l (snd (read (Hidden b) (view s)))) as [os' r']. cbn [fst snd] in *.
      cbn [read fst]. rewrite H1. auto.
Qed.
Print Assumptions C102_seen.

(** A new stream starts with the first wanted token of the file. *)
Theorem C102_start : forall src,
  exists s, lazyInit (initial src) = Ok tt s /\ ready s
    /\ view s = Reader (skip (wanted false false) (file src)) false false
    /\ (forall k, LT k (initial src) = LT k s).
Proof.
  intros src.
  assert (W : wf (initial src)).
  { split; [intros t []|]. cbn. destruct (file_shape src) as (l & t & -> & _). rewrite app_length. cbn. lia. }
  destruct (setup_spec (initial src) W eq_refl eq_refl eq_refl) as (s & E & R & HW & HC & HH & HR).
  exists s. split; [exact E|]. split; [exact R|]. split.
  - unfold view in *. cbn [rest] in HR. rewrite HR, HC, HH. reflexivity.
  - intros k. unfold LT. rewrite E. cbn [bind]. unfold lazyInit. destruct R as (_ & B & _). rewrite B. reflexivity.
Qed.
Print Assumptions C102_start.

(** When nothing is changed about what is wanted, taking all tokens one after
    another gives exactly the wanted ones. *)
Fixpoint take_all (fuel : nat) (s : stream) : list token :=
  match fuel with
  | O => []
  | S fuel =>
      match LT 1 s with
      | Ok t s1 => if is_eof t then [t] else match consume s1 with Ok _ s2 => t :: take_all fuel s2 | _ => [t] end
      | _ => []
      end
  end.

Lemma filter_skip : forall w l, filter w (skip w l) = filter w l.
Proof.
  induction l as [|t r IH]; cbn; auto. destruct (w t) eqn:E; cbn; [rewrite E; reflexivity|exact IH].
Qed.
Lemma skip_length : forall w l, length (skip w l) <= length l.
Proof. induction l as [|x l IH]; cbn; auto. destruct (w x); cbn; lia. Qed.

Theorem C102_all : forall fuel s, ready s -> length (rest (view s)) <= fuel ->
  take_all fuel s = filter (wanted (enabled_cont s) (enabled_hidden s)) (rest (view s)).
Proof.
  induction fuel as [|fuel IH]; intros s R F.
  - destruct (rest (view s)); [reflexivity|cbn in F; lia].
  - cbn [take_all]. destruct (look_spec s R) as (t & s1 & E1 & E2 & G1). rewrite E2.
    fold (wants s). unfold next in E1.
    destruct (skip (wants s) (rest (view s))) as [|t' r] eqn:SK; [discriminate|].
    cbn in E1. injection E1 as ->.
    pose proof (skip_in _ _ _ _ SK) as Vt.
    assert (Fs : filter (wants s) (rest (view s)) = t :: filter (wants s) r).
    { rewrite <- filter_skip, SK. cbn. rewrite Vt. reflexivity. }
    rewrite Fs. destruct (is_eof t) eqn:Et.
    + f_equal. destruct R as (W & _). destruct (rest_shape s W) as (l & e & El & He & Hl).
      cbn [rest view] in SK. rewrite El in SK.
      assert (r = []); [|subst; reflexivity].
      clear - SK Et He Hl Vt. induction l as [|x l IHl]; cbn in SK.
      * destruct (wants s e); [congruence|discriminate].
      * destruct (wants s x).
        -- injection SK as -> _. rewrite (Hl t) in Et; [discriminate|left; reflexivity].
        -- apply IHl; auto. intros y Hy. apply Hl. now right.
    + assert (R1 : ready s1) by (eapply grown_ready; eauto).
      assert (N1 : next (wants s1) (rest (view s1)) = Some t).
      { rewrite (grown_view _ _ G1), (grown_wants _ _ G1). unfold next. rewrite SK. reflexivity. }
      pose proof (consume_spec s1 t R1 N1) as C. rewrite Et in C.
      destruct C as (s2 & Ec & R2 & _ & HC & HH & HR & _). rewrite Ec. f_equal.
      rewrite (grown_view _ _ G1), (grown_wants _ _ G1), SK in HR. cbn [tl] in HR.
      assert (Hw : wanted (enabled_cont s2) (enabled_hidden s2) = wants s).
      { unfold wants. rewrite HC, HH. pose proof G1 as (_ & _ & _ & _ & -> & -> & _). reflexivity. }
      rewrite IH; auto.
      * rewrite Hw, HR, filter_skip. reflexivity.
      * rewrite HR. pose proof (skip_length (wants s) r). pose proof (skip_length (wants s) (rest (view s))) as L2.
        rewrite SK in L2. cbn [length] in L2. lia.
Qed.
Print Assumptions C102_all.

(** Behind a token that has been taken, LT(-1) is this token. *)
Theorem C102_back : forall s t s', ready s ->
  next (wanted (enabled_cont s) (enabled_hidden s)) (rest (view s)) = Some t ->
  consume s = Ok tt s' -> LT_back 1 s' = Ok (Some t) s'.
Proof.
  intros s t s' R E C. fold (wants s) in E. pose proof (consume_spec s t R E) as Cs.
  destruct (is_eof t).
  - destruct Cs as [Cs|Cs]; rewrite Cs in C; discriminate.
  - destruct Cs as (s2 & Ec & R2 & HW & HC & HH & HR & PP & d & D1 & D2 & D3).
    assert (s2 = s') by congruence. subst s2.
    unfold LT_back, lazyInit. destruct R2 as (W2 & B2 & N2). rewrite B2. cbn [bind].
    assert (Hw : wants s' = wants s) by (unfold wants; rewrite HC, HH; reflexivity).
    apply back_spec with (d := p s + d); auto; try lia.
    + rewrite HW. exact D1.
    + rewrite Hw. unfold next in E. destruct (skip (wants s) (rest (view s))) eqn:SK; [discriminate|].
      cbn in E. injection E as ->. eapply skip_in; eauto.
    + rewrite Hw, HW. exact D3.
Qed.
Print Assumptions C102_back.

(** Looking ahead is undone by going back to the index: whatever was looked at,
    taken and changed. *)
Lemma acts_forward : forall l s s' o, ready s -> acts l s = (o, Ok tt s') ->
  ready s' /\ p s <= p s' /\ whole s' = whole s.
Proof.
  induction l as [|a l IH]; intros s s' o R E; cbn [acts] in E.
  - injection E as <- <-. auto.
  - destruct (act a s) as [x s1| | |] eqn:EA; try discriminate.
    destruct (acts l s1) as [os r] eqn:EL. injection E as <- ->.
    assert (H : ready s1 /\ p s <= p s1 /\ whole s1 = whole s).
    { destruct (look_spec s R) as (t & s2 & E1 & E2 & G2).
      destruct a as [| |b|b]; cbn [act] in EA.
      - rewrite E2 in EA. injection EA as <- <-. split; [eapply grown_ready; eauto|].
        pose proof G2 as (-> & -> & _). auto.
      - pose proof (consume_spec s t R E1) as C. destruct (is_eof t).
        + destruct C as [C|C]; rewrite C in EA; discriminate.
        + destruct C as (s3 & Ec & R3 & HW & _ & _ & _ & PP & _). rewrite Ec in EA. injection EA as <- <-.
          split; auto. split; auto. lia.
      - injection EA as <- <-. auto.
      - injection EA as <- <-. auto. }
    destruct H as (R1 & P1 & W1). destruct (IH s1 s' os R1 EL) as (R2 & P2 & W2).
    split; auto. split; [lia|congruence].
Qed.

Theorem C102_return : forall l s s' o, ready s -> acts l s = (o, Ok tt s') ->
  exists s'', seek (index s) s' = Ok tt s'' /\ ready s'' /\ rest (view s'') = rest (view s) /\ index s'' = index s.
Proof.
  intros l s s' o R E. destruct (acts_forward l s s' o R E) as (R' & P & HW).
  unfold seek, lazyInit, adjustSeekIndex, index. destruct R' as (W' & B' & N'). rewrite B'. cbn [bind]. rewrite N'.
  destruct (p s =? p s' + 1) eqn:Q; [apply Nat.eqb_eq in Q; lia|]. cbn [bind].
  exists (with_p (p s) s'). split; [reflexivity|]. split; [|split; [|reflexivity]].
  - split; [|split; assumption]. apply with_p_wf; auto. rewrite HW. apply R.
  - cbn [view rest with_p p]. change (whole (with_p (p s) s')) with (whole s'). now rewrite HW.
Qed.
Print Assumptions C102_return.

(** And after that the index that had been reached can be gone to again, if
    what is wanted has not been changed. *)
Definition plain (a : action) : bool := match a with Look | Take => true | _ => false end.

Lemma first_take : forall l s s' o, ready s -> forallb plain l = true -> acts l s = (o, Ok tt s') ->
  enabled_cont s' = enabled_cont s /\ enabled_hidden s' = enabled_hidden s
  /\ (p s' = p s \/ exists t j, next (wants s) (rest (view s)) = Some t /\ is_eof t = false
       /\ p s < j <= p s' /\ j < length (whole s)
       /\ skipn j (whole s) = skip (wants s) (tl (skip (wants s) (rest (view s))))).
Proof.
  induction l as [|a l IH]; intros s s' o R F E; cbn [acts] in E.
  - injection E as <- <-. auto.
  - cbn [forallb] in F. apply andb_true_iff in F as [Fa F].
    destruct (act a s) as [x s1| | |] eqn:EA; try discriminate.
    destruct (acts l s1) as [os r] eqn:EL. injection E as <- ->.
    destruct (look_spec s R) as (t & s2 & E1 & E2 & G2).
    destruct a; try discriminate; cbn [act] in EA.
    + rewrite E2 in EA. cbn in EA. injection EA as <- <-.
      destruct (IH s2 s' os (grown_ready _ _ R G2) F EL) as (C & Hd & D).
      rewrite (grown_view _ _ G2), (grown_wants _ _ G2) in D.
      pose proof G2 as (HW & HP & _ & _ & HC & HH & _). rewrite HP, HW in D.
      split; [congruence|]. split; [congruence|exact D].
    + pose proof (consume_spec s t R E1) as C. destruct (is_eof t) eqn:Et.
      * destruct C as [C|C]; rewrite C in EA; discriminate.
      * destruct C as (s3 & Ec & R3 & HW & HC & HH & HR & PP & _). rewrite Ec in EA. cbn in EA. injection EA as <- <-.
        destruct (IH s3 s' os R3 F EL) as (C & Hd & _).
        destruct (acts_forward l s3 s' os R3 EL) as (_ & P3 & _).
        split; [congruence|]. split; [congruence|]. right. exists t, (p s3).
        split; [exact E1|]. split; [exact Et|]. split; [lia|]. split.
        -- pose proof (size_whole s3). rewrite <- HW. lia.
        -- cbn [rest view] in HR |- *. rewrite HW in HR. exact HR.
Qed.

Theorem C102_again : forall l s s' o s2, ready s -> forallb plain l = true -> acts l s = (o, Ok tt s') ->
  seek (index s) s' = Ok tt s2 ->
  exists s3, seek (index s') s2 = Ok tt s3 /\ ready s3 /\ view s3 = view s'.
Proof.
  intros l s s' o s2 R F E K.
  destruct (C102_return l s s' o R E) as (s2' & K' & R2 & V2 & I2).
  assert (s2' = s2) by congruence. subst s2'.
  destruct (acts_forward l s s' o R E) as (R' & P' & W').
  destruct (first_take l s s' o R F E) as (C & Hd & D).
  (* what seek did *)
  assert (H2 : whole s2 = whole s /\ enabled_cont s2 = enabled_cont s /\ enabled_hidden s2 = enabled_hidden s).
  { unfold seek, lazyInit, adjustSeekIndex, index in K. destruct R' as (_ & B & N). rewrite B in K. cbn [bind] in K.
    rewrite N in K. destruct (p s =? p s' + 1) eqn:Q; [apply Nat.eqb_eq in Q; lia|]. cbn [bind] in K.
    injection K as <-. cbn. split; [exact W'|]. auto. }
  destruct H2 as (HW2 & HC2 & HH2). unfold index in *.
  unfold seek, lazyInit. pose proof R2 as (W2 & B2 & N2). rewrite B2. cbn [bind].
  unfold adjustSeekIndex. rewrite N2, I2.
  destruct (p s' =? p s + 1) eqn:Q.
  - apply Nat.eqb_eq in Q. destruct D as [D|(t & j & E1 & Et & J1 & J2 & J3)]; [lia|].
    assert (j = p s + 1) by lia. subst j.
    assert (Hw : wants s2 = wants s) by (unfold wants; rewrite HC2, HH2; reflexivity).
    pose proof (after_here s2 t W2) as A. rewrite Hw, V2, Et, I2, HW2 in A.
    destruct (A E1) as (_ & j & s4 & A1 & A2 & A3 & A4 & _).
    rewrite Q, A1. cbn [bind]. exists (with_p j s4). split; [reflexivity|].
    assert (Hj : j = p s + 1).
    { rewrite <- J3 in A4. assert (L : length (skipn j (whole s)) = length (skipn (p s + 1) (whole s))) by congruence.
      rewrite !skipn_length in L. pose proof (size_whole s4). pose proof A2 as (HW4 & _). rewrite HW4, HW2 in H. lia. }
    pose proof A2 as (HW4 & HP4 & HB4 & HN4 & HC4 & HH4 & W4 & _).
    split.
    + split; [|split; cbn; congruence]. apply with_p_wf; auto. rewrite HW4, HW2. lia.
    + transitivity (Reader (skipn j (whole s4)) (enabled_cont s4) (enabled_hidden s4)); [reflexivity|].
      unfold view. rewrite HW4, HW2, HC4, HC2, HH4, HH2, W', C, Hd, Hj, Q. reflexivity.
  - cbn [bind]. exists (with_p (p s') s2). split; [reflexivity|]. split.
    + split; [|split; assumption]. apply with_p_wf; auto. rewrite HW2, <- W'. apply R'.
    + transitivity (Reader (skipn (p s') (whole s2)) (enabled_cont s2) (enabled_hidden s2)); [reflexivity|].
      unfold view. rewrite HW2, HC2, HH2, W', C, Hd. reflexivity.
Qed.
Print Assumptions C102_again.

(** Looking further ahead than the next token is right when all tokens on the
    way are wanted. *)
Theorem C102_further : forall k s, ready s -> 1 <= k -> k <= length (rest (view s)) ->
  (forall t, In t (firstn k (rest (view s))) -> wanted (enabled_cont s) (enabled_hidden s) t = true) ->
  exists t s', nth_error (rest (view s)) (k - 1) = Some t /\ LT k s = Ok t s' /\ view s' = view s.
Proof.
  intros k s (W & B & N) K L V. unfold LT, lazyInit. rewrite B. cbn [bind].
  destruct (ahead_spec (k - 1) 0 s W) as (s1 & E1 & G1); cbn [Nat.add].
  - lia.
  - intros t Ht. apply V. replace (S (k - 1)) with k in Ht by lia. exact Ht.
  - rewrite Nat.add_0_r in E1. cbn [Nat.add] in E1. rewrite E1. cbn [bind].
    pose proof G1 as (HW & HP & HB & HN & HC & HH & W1 & _).
    pose proof (next_spec (k - 1) s1 W1) as Nx. rewrite HP, HW, (grown_wants _ _ G1) in Nx.
    cbn [rest view] in L, V. rewrite skipn_length in L.
    rewrite pw_all in Nx.
    + destruct Nx as (s2 & E2 & G2 & D2); [lia|]. rewrite E2. cbn [bind].
      destruct (get_spec _ _ D2) as (t & Et & Eg). exists t, s2.
      pose proof G2 as (HW2 & _). rewrite HW2, HW in Et.
      split; [|split].
      * cbn [rest view]. rewrite <- (firstn_skipn (p s) (whole s)) in Et at 1.
        rewrite nth_error_app2 in Et; rewrite firstn_length_le in *; try lia.
        replace (p s + (k - 1) - p s) with (k - 1) in Et by lia. exact Et.
      * exact Eg.
      * rewrite (grown_view _ _ G2). apply grown_view. exact G1.
    + rewrite skipn_length. lia.
    + intros t Ht. apply V. replace (S (k - 1)) with k in Ht by lia. exact Ht.
Qed.
Print Assumptions C102_further.

(** Otherwise it is not: the second wanted token behind a hidden one is passed
    over. *)
Definition V (n : nat) : token := Token (Other n) false n.
Definition H (n : nat) : token := Token (Other n) true n.
Theorem C102_further_refuted : exists s t, ready s
  /\ filter (wanted (enabled_cont s) (enabled_hidden s)) (rest (view s)) = [V 0; V 2; V 3; end_token]
  /\ t = V 3 /\ exists s', LT 2 s = Ok t s'.
Proof.
  destruct (C102_start [V 0; H 1; V 2; V 3]) as (s & E & R & HV & _).
  assert (E' := E). vm_compute in E'. injection E' as E'.
  exists s, (V 3). split; [exact R|]. split; [|split; [reflexivity|]].
  - rewrite HV. rewrite <- E'. reflexivity.
  - rewrite <- E'. eexists. vm_compute. reflexivity.
Qed.
Print Assumptions C102_further_refuted.

(** Changing what is wanted does not bring back what has been passed over. *)
Example C102_toggle_example :
  match lazyInit (initial [V 0; H 1; V 2; H 3; V 4]) with
  | Ok _ s => fst (acts [Look; Take; Hidden true; Look; Take; Look] s)
              = [Some (V 0); None; None; Some (V 2); None; Some (H 3)]
  | _ => False
  end.
Proof. vm_compute. reflexivity. Qed.

(** The end of a field ends the stream: taking it is an error. *)
Example C102_end_example :
  match lazyInit (initial [V 0; H 1]) with
  | Ok _ s => acts [Take; Look; Take; Look] s = ([None; Some end_token], EofConsumed)
  | _ => False
  end.
Proof. vm_compute. reflexivity. Qed.

(** ** C103: going back in the input *)

(** A stream that is given new input starts with it, and what is wanted stays
    as it was. *)
Theorem C103_reset : forall src s, ready s ->
  ready (reset src s) /\ view (reset src s) = Reader (file src) (enabled_cont s) (enabled_hidden s).
Proof.
  intros src s (_ & B & N). unfold reset.
  set (s0 := Stream [] src 0 false (base_setup s) (need_setup s) (enabled_cont s) (enabled_hidden s)).
  assert (W0 : wf s0).
  { split; [intros t []|]. cbn. destruct (file_shape src) as (l & t & -> & _). rewrite app_length. cbn. lia. }
  destruct (sync 0 s0) as [b s1] eqn:E. apply sync_spec in E as (G & _); auto. cbn [snd].
  assert (R0 : ready s0) by (split; [exact W0|split; assumption]).
  split; [eapply grown_ready; eauto|]. rewrite (grown_view _ _ G). reflexivity.
Qed.
Print Assumptions C103_reset.

Lemma rewind_cases : forall src s last before, ready s -> rev (tokens s) = last :: before ->
  let drop := negb (is_eolln last) || match before with [] => false | t :: _ => is_eolln t end in
  (drop = false -> p s = length before) ->
  exists s', rewind_input src s = Some s' /\ ready s'
    /\ view s' = Reader (if drop then file src else last :: file src) (enabled_cont s) (enabled_hidden s).
Proof.
  intros src s last before (W & B & N) E drop HP. unfold rewind_input. rewrite E. fold drop.
  assert (ET : tokens s = rev before ++ [last]).
  { rewrite <- (rev_involutive (tokens s)), E. reflexivity. }
  assert (NE : no_eof (rev before)).
  { destruct W as [W _]. destruct (fetched_eof s).
    - destruct W as (l & t & H1 & _ & H3). rewrite ET in H1. apply app_inj_tail in H1 as [-> _]. exact H3.
    - intros t Ht. apply W. rewrite ET. apply in_or_app. now left. }
  destruct (file_shape src) as (fl & ft & Ef & _).
  destruct drop eqn:D.
  - set (s0 := Stream (tokens (Stream (rev before) src (length before) (fetched_eof s) (base_setup s) (need_setup s)
                        (enabled_cont s) (enabled_hidden s))) src (length before) false
                        (base_setup s) (need_setup s) (enabled_cont s) (enabled_hidden s)).
    assert (HW : whole s0 = rev before ++ file src) by reflexivity.
    assert (W0 : wf s0).
    { split; [exact NE|]. rewrite HW, app_length, rev_length, Ef, app_length. cbn. lia. }
    change (exists s', Some (snd (sync (length before) s0)) = Some s' /\ ready s' /\
              view s' = Reader (file src) (enabled_cont s) (enabled_hidden s)).
    destruct (sync (length before) s0) as [b s1] eqn:ES. apply sync_spec in ES as (G & _); auto.
    exists s1. split; [reflexivity|]. split.
    + apply (grown_ready s0); auto. split; [exact W0|split; assumption].
    + rewrite (grown_view _ _ G). unfold view. cbn [p s0]. rewrite HW.
      rewrite skipn_app, rev_length, Nat.sub_diag, skipn_all2 by (rewrite rev_length; auto). reflexivity.
  - specialize (HP eq_refl).
    assert (NL : is_eof last = false).
    { unfold drop in D. apply orb_false_iff in D as [D _]. apply negb_false_iff in D.
      unfold is_eolln, is_eof in *. destruct (ttyp last); auto; discriminate. }
    set (s0 := Stream (tokens s) src (p s) false (base_setup s) (need_setup s) (enabled_cont s) (enabled_hidden s)).
    assert (HW : whole s0 = rev before ++ last :: file src).
    { unfold whole. cbn. rewrite ET, <- app_assoc. reflexivity. }
    assert (W0 : wf s0).
    { split.
      - cbn. rewrite ET. intros t Ht. apply in_app_or in Ht as [Ht|[<-|[]]]; auto.
      - rewrite HW, app_length, rev_length. cbn. lia. }
    change (exists s', Some (snd (sync (p s) s0)) = Some s' /\ ready s' /\
              view s' = Reader (last :: file src) (enabled_cont s) (enabled_hidden s)).
    destruct (sync (p s) s0) as [b s1] eqn:ES. apply sync_spec in ES as (G & _); auto.
    exists s1. split; [reflexivity|]. split.
    + apply (grown_ready s0); auto. split; [exact W0|split; assumption].
    + rewrite (grown_view _ _ G). unfold view. cbn [p s0]. rewrite HW, HP.
      rewrite skipn_app, rev_length, Nat.sub_diag, skipn_all2 by (rewrite rev_length; auto). reflexivity.
Qed.

Lemma skip_suffix : forall w l, exists x, l = x ++ skip w l.
Proof.
  induction l as [|t r [x IH]]; cbn.
  - exists []. reflexivity.
  - destruct (w t); [exists []; reflexivity|]. exists (t :: x). cbn. now rewrite <- IH.
Qed.

Lemma firstn_S_nth : forall (A : Type) (l : list A) n t, nth_error l n = Some t -> firstn (S n) l = firstn n l ++ [t].
Proof.
  induction l as [|a l IH]; intros [|n] t E; cbn in *; try discriminate.
  - congruence.
  - f_equal. now apply IH.
Qed.

(** The end [t] of a statement is taken and nothing is looked at behind the
    token that follows; then the input is rewound.  The next tokens are those
    of the new place -- provided that the token that follows is not itself the
    end of a statement, or that nothing lies between the two. *)
Theorem C103_rewound : forall src s s' t e,
  ready s ->
  next (wanted (enabled_cont s) (enabled_hidden s)) (rest (view s)) = Some t -> ttyp t = EOLLN ->
  consume s = Ok tt s' -> size s' = index s' + 1 ->
  next (wanted (enabled_cont s) (enabled_hidden s)) (rest (view s')) = Some e ->
  (ttyp e <> EOLLN
   \/ hd_error (tl (skip (wanted (enabled_cont s) (enabled_hidden s)) (rest (view s)))) = Some e) ->
  exists s'', rewind_input src s' = Some s'' /\ ready s''
    /\ view s'' = Reader (file src) (enabled_cont s) (enabled_hidden s).
Proof.
  intros src s s' t e R Et Tt C SZ Ee HE. fold (wants s) in *. unfold index in SZ.
  pose proof (consume_spec s t R Et) as CS.
  assert (NE : is_eof t = false) by (unfold is_eof; rewrite Tt; reflexivity). rewrite NE in CS.
  destruct CS as (s2 & Ec & R2 & HW & HC & HH & HR & PP & _).
  assert (s2 = s') by congruence. subst s2.
  (* the token at the place *)
  assert (Ep : nth_error (whole s') (p s') = Some e).
  { unfold next in Ee. rewrite HR in Ee.
    destruct (skip (wants s) (tl (skip (wants s) (rest (view s))))) as [|x l] eqn:SK.
    - discriminate.
    - pose proof (skip_in _ _ _ _ SK) as Vx. cbn in Ee. rewrite Vx in Ee. cbn in Ee. injection Ee as ->.
      cbn [rest view] in HR. rewrite <- (firstn_skipn (p s') (whole s')), HR.
      pose proof (size_whole s').
      rewrite nth_error_app2; rewrite firstn_length_le by lia; auto. rewrite Nat.sub_diag. reflexivity. }
  assert (ET : tokens s' = firstn (p s') (whole s') ++ [e]).
  { rewrite (tokens_prefix s'), SZ, Nat.add_1_r. apply firstn_S_nth. exact Ep. }
  assert (ER : rev (tokens s') = e :: rev (firstn (p s') (whole s'))).
  { rewrite ET, rev_app_distr. reflexivity. }
  assert (LB : length (rev (firstn (p s') (whole s'))) = p s').
  { rewrite rev_length, firstn_length_le; auto. pose proof (size_whole s'). lia. }
  pose proof (rewind_cases src s' e _ R2 ER) as RC. cbn zeta in RC.
  assert (D : negb (is_eolln e)
      || match rev (firstn (p s') (whole s')) with [] => false | x :: _ => is_eolln x end = true).
  { destruct HE as [HE|HE].
    - unfold is_eolln at 1. destruct (ttyp e); try reflexivity. contradiction.
    - destruct (skip (wants s) (rest (view s))) as [|t' r] eqn:S1; [discriminate|].
      unfold next in Et. rewrite S1 in Et. cbn in Et. injection Et as ->.
      cbn [tl] in HE, HR. destruct r as [|e' r]; [discriminate|]. cbn in HE. injection HE as ->.
      assert (Ve : wants s e = true).
      { unfold next in Ee. destruct (skip (wants s) (rest (view s'))) eqn:S2; [discriminate|].
        cbn in Ee. injection Ee as ->. eapply skip_in; eauto. }
      cbn [skip] in HR. rewrite Ve in HR. cbn [rest view] in HR, S1.
      destruct (skip_suffix (wants s) (skipn (p s) (whole s))) as [x Hx]. rewrite S1 in Hx.
      assert (Hwh : whole s = (firstn (p s) (whole s) ++ x) ++ t :: e :: r).
      { rewrite <- app_assoc, <- Hx. symmetry. apply firstn_skipn. }
      set (y := firstn (p s) (whole s) ++ x) in *. clearbody y.
      rewrite HW in *. rewrite Hwh in HR, LB.
      assert (Hl : length (skipn (p s') (y ++ t :: e :: r)) = S (length r)) by (rewrite HR; reflexivity).
      rewrite skipn_length, app_length in Hl. cbn [length] in Hl.
      assert (Hp : p s' = S (length y)) by lia.
      rewrite Hwh, Hp.
      rewrite (firstn_S_nth _ _ _ t).
      + rewrite rev_app_distr. cbn. unfold is_eolln at 2. rewrite Tt. apply orb_true_r.
      + rewrite nth_error_app2, Nat.sub_diag; auto. }
  rewrite D in RC. destruct RC as (s'' & E1 & E2 & E3); [discriminate|].
  exists s''. split; auto. split; auto. rewrite E3, HC, HH. reflexivity.
Qed.
Print Assumptions C103_rewound.

(** Whatever is left of the tokens before: if the last token fetched is not the
    end of a statement, or directly follows one, it is as above. *)
Theorem C103_dropped : forall src s last before,
  ready s -> tokens s = rev before ++ [last] ->
  (ttyp last <> EOLLN \/ exists t l, before = t :: l /\ ttyp t = EOLLN) ->
  exists s'', rewind_input src s = Some s'' /\ ready s''
    /\ view s'' = Reader (file src) (enabled_cont s) (enabled_hidden s).
Proof.
  intros src s last before R E HE.
  assert (ER : rev (tokens s) = last :: before) by (rewrite E, rev_app_distr, rev_involutive; reflexivity).
  pose proof (rewind_cases src s last before R ER) as RC. cbn zeta in RC.
  assert (D : negb (is_eolln last) || match before with [] => false | x :: _ => is_eolln x end = true).
  { destruct HE as [HE|(t & l & -> & HE)].
    - unfold is_eolln at 1. destruct (ttyp last); try reflexivity. contradiction.
    - unfold is_eolln at 2. rewrite HE. apply orb_true_r. }
  rewrite D in RC. apply RC. discriminate.
Qed.
Print Assumptions C103_dropped.

(** Without the proviso it is not so: a comment and an empty line behind the
    statement, and the end of the empty line is read as a statement before
    those of the new place. *)
Definition eolln (n : nat) : token := Token EOLLN false n.
Theorem C103_rewound_refuted : exists s s' s'' src,
  ready s /\ consume s = Ok tt s' /\ size s' = index s' + 1
  /\ next (wanted false false) (rest (view s)) = Some (eolln 1)
  /\ rewind_input src s' = Some s''
  /\ rest (view s'') = eolln 4 :: file src
  /\ ~ In (eolln 4) src.
Proof.
  destruct (C102_start [V 0; eolln 1; H 2; H 3; eolln 4; V 5; eolln 6]) as (s0 & E0 & R0 & _).
  assert (E' := E0). vm_compute in E'. injection E' as E'.
  destruct (consume_spec s0 (V 0) R0) as (s & Ec & R & _); [rewrite <- E'; reflexivity|].
  assert (Es := Ec). rewrite <- E' in Es. vm_compute in Es. injection Es as Es.
  exists s. do 2 eexists. exists [V 7; eolln 8].
  split; [exact R|]. split; [rewrite <- Es; vm_compute; reflexivity|].
  split; [vm_compute; reflexivity|]. split; [rewrite <- Es; vm_compute; reflexivity|].
  split; [vm_compute; reflexivity|]. split; [vm_compute; reflexivity|].
  intros [C|[C|[]]]; discriminate.
Qed.
Print Assumptions C103_rewound_refuted.

(** The usual case: the end of the file is directly behind the statement. *)
Example C103_end_example :
  match lazyInit (initial [V 0; eolln 1; eolln 2]) with
  | Ok _ s => match acts [Take; Take] s with
              | (_, Ok _ s) => option_map (fun s => rest (view s)) (rewind_input [V 7; eolln 8] s)
                               = Some [V 7; eolln 8; end_token]
              | _ => False
              end
  | _ => False
  end.
Proof. vm_compute. reflexivity. Qed.
