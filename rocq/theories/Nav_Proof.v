(** * The slices of a macro definition cover its own lines *)
From Coq Require Import List Arith Bool Lia Permutation ZifyBool ZifyNat.
From Verif Require Import Nav_Model Nav_Spec.
Import ListNotations.

(** ** Nesting *)
Lemma macs_snoc : forall xs x, macs (xs ++ [x]) = macs xs + (if is_macro x then 1 else 0).
Proof. intros xs x. unfold macs. rewrite filter_app, app_length. cbn. destruct (is_macro x); reflexivity. Qed.
Lemma mends_snoc : forall xs x, mends (xs ++ [x]) = mends xs + (if is_mend x then 1 else 0).
Proof. intros xs x. unfold mends. rewrite filter_app, app_length. cbn. destruct (is_mend x); reflexivity. Qed.
Lemma firstn_snoc : forall {A} (xs : list A) x i, i <= length xs -> firstn i (xs ++ [x]) = firstn i xs.
Proof.
  intros A xs x i H. rewrite firstn_app. replace (i - length xs) with 0 by lia. cbn. apply app_nil_r.
Qed.
Lemma level_snoc : forall xs x i, i <= length xs -> level (xs ++ [x]) i = level xs i.
Proof. intros xs x i H. unfold level. rewrite (firstn_snoc _ _ _ H). reflexivity. Qed.
Lemma open_snoc : forall xs x i, i <= length xs -> open_before (xs ++ [x]) i <-> open_before xs i.
Proof. intros xs x i H. unfold open_before. rewrite (firstn_snoc _ _ _ H). tauto. Qed.
Lemma level_end : forall xs, level xs (length xs) = 1 + macs xs - mends xs.
Proof. intros xs. unfold level. rewrite firstn_all. reflexivity. Qed.

Lemma define_snoc : forall xs x d, define d (xs ++ [x]) = if over (define d xs) then define d xs else process (define d xs) x.
Proof.
  induction xs as [|y r IH]; intros x d; cbn [app define].
  - destruct (over d); reflexivity.
  - destruct (over d) eqn:E; [rewrite E; reflexivity|]. apply IH.
Qed.

(** ** The fields that a statement does not touch *)
Lemma add_label_fields : forall x d, home (add_label x d) = home d /\ depth (add_label x d) = depth d /\
  count (add_label x d) = count d /\ outer (add_label x d) = outer d /\ was_inner (add_label x d) = was_inner d /\
  over (add_label x d) = over d /\ nests (add_label x d) = nests d /\ scopes (add_label x d) = scopes d /\
  vars (add_label x d) = vars d.
Proof.
  intros x d. unfold add_label. destruct (seq x) as [[n p]|]; [|tauto].
  destruct (_ && _); cbn; tauto.
Qed.
Lemma add_var_fields : forall vs d, let d' := fold_left add_var vs d in home d' = home d /\ depth d' = depth d /\
  count d' = count d /\ outer d' = outer d /\ was_inner d' = was_inner d /\
  over d' = over d /\ nests d' = nests d /\ scopes d' = scopes d /\ labels d' = labels d.
Proof.
  induction vs as [|v r IH]; intros d; cbn [fold_left]; [tauto|].
  specialize (IH (add_var d v)). cbn zeta in *.
  assert (H : home (add_var d v) = home d /\ depth (add_var d v) = depth d /\ count (add_var d v) = count d /\
     outer (add_var d v) = outer d /\ was_inner (add_var d v) = was_inner d /\ over (add_var d v) = over d /\
     nests (add_var d v) = nests d /\ scopes (add_var d v) = scopes d /\ labels (add_var d v) = labels d).
  { unfold add_var. destruct (1 <? depth d); [tauto|]. destruct (existsb _ _); cbn; tauto. }
  intuition congruence.
Qed.

Definition level_after (x : stmt) (k : nat) : nat :=
  match op x with OpMacro => S k | OpMend => k - 1 | _ => k end.

(** The slices of a file after a statement of that file. *)
Definition grow (c : nat) (was now : bool) (old : list slice) : list slice :=
  match old with
  | [] => if c =? 1 then [Slice 0 c now] else [Slice c c now]
  | _ :: _ =>
      if was && negb now then old ++ [Slice c c now]
      else if negb now || (negb was && now) then set_end c old
      else old
  end.
Definition slices_in (f : file) (m : list (file * list slice)) : list slice :=
  match lookup f m with Some ss => ss | None => [] end.
Definition place (d : mdef) (x : stmt) : loc :=
  back (Loc (match members x with [] => at_ x | _ => outer d end) (home d)) (members x).
Definition counted (d : mdef) (x : stmt) : nat := match op x with OpCopy => count d | _ => S (count d) end.

Lemma process_fields : forall d x, let d' := process d x in
  home d' = home d /\ depth d' = level_after x (depth d) /\ count d' = S (count d) /\
  was_inner d' = (1 <? level_after x (depth d)) /\
  over d' = (over d || (is_mend x && (depth d - 1 =? 0))) /\
  (exists o, nests d' = nests d ++ [o :: members x] /\ back o (members x) = place d x /\
             (members x = [] -> o = place d x)) /\
  scopes d' = assign (in_file (place d x))
    (grow (counted d x) (was_inner d) (1 <? level_after x (depth d)) (slices_in (in_file (place d x)) (scopes d)))
    (scopes d).
Proof.
  intros d x. unfold process, place, counted, level_after, is_mend.
  set (d0 := match members x with [] => _ | _ => _ end).
  assert (H0 : home d0 = home d /\ depth d0 = depth d /\ count d0 = count d /\
     outer d0 = (match members x with [] => at_ x | _ => outer d end) /\ was_inner d0 = was_inner d /\
     over d0 = over d /\ nests d0 = nests d /\ scopes d0 = scopes d) by (subst d0; destruct (members x); cbn; tauto).
  clearbody d0. set (d1 := add_label x d0). destruct (add_label_fields x d0) as (A1&A2&A3&A4&A5&A6&A7&A8&A9).
  fold d1 in A1, A2, A3, A4, A5, A6, A7, A8, A9. clearbody d1.
  destruct H0 as (B1&B2&B3&B4&B5&B6&B7&B8).
  assert (E : forall o, o = outer d1 -> (members x = [] -> Loc o (home d1) = Loc (at_ x) (home d))).
  { intros o -> N. rewrite A4, B4, A1, B1, N. reflexivity. }
  unfold operate. destruct (op x).
  - cbn. unfold grow, slices_in. rewrite A1, A2, A3, A4, A5, A6, A7, A8, B1, B2, B3, B4, B5, B6, B7, B8, orb_false_r.
    intuition. eexists. split; [reflexivity|]. split; [reflexivity|]. intros N. rewrite N. reflexivity.
  - cbn. unfold grow, slices_in. rewrite A1, A2, A3, A4, A5, A6, A7, A8, B1, B2, B3, B4, B5, B6, B7, B8.
    intuition. eexists. split; [reflexivity|]. split; [reflexivity|]. intros N. rewrite N. reflexivity.
  - cbn. unfold grow, slices_in. rewrite A1, A2, A3, A4, A5, A6, A7, A8, B1, B2, B3, B4, B5, B6, B7, B8, orb_false_r.
    intuition. eexists. split; [reflexivity|]. split; [reflexivity|]. intros N. rewrite N. reflexivity.
  - destruct (add_var_fields (sets x) d1) as (C1&C2&C3&C4&C5&C6&C7&C8&C9). cbn zeta in *.
    set (d2 := fold_left add_var (sets x) d1) in *. clearbody d2.
    cbn. unfold grow, slices_in. rewrite C1, C2, C3, C4, C5, C6, C7, C8, A1, A2, A3, A4, A5, A6, A7, A8, B1, B2, B3, B4, B5, B6, B7, B8, orb_false_r.
    intuition. eexists. split; [reflexivity|]. split; [reflexivity|]. intros N. rewrite N. reflexivity.
Qed.

Lemma set_end_snoc : forall e ss s, set_end e (ss ++ [s]) = ss ++ [Slice (first s) e (inner s)].
Proof.
  induction ss as [|a r IH]; intros s; [reflexivity|].
  cbn [app]. destruct r as [|b r']; [reflexivity|]. change (set_end e (a :: (b :: r') ++ [s])) with (a :: set_end e ((b :: r') ++ [s])).
  rewrite IH. reflexivity.
Qed.

(** ** A body in one file *)
Definition within (ss : list slice) (k : nat) : Prop := exists s, In s ss /\ first s <= k < after s.

Record one_file (f : file) (d : mdef) (xs : list stmt) : Prop := {
  of_home : home d = f;
  of_count : count d = length xs;
  of_depth : depth d = level xs (length xs);
  of_inner : was_inner d = (1 <? depth d);
  of_over : over d = false;
  of_nests : nests d = map (fun x => [Loc (at_ x) f]) xs;
  of_empty : xs = [] -> scopes d = [];
  of_scopes : xs <> [] -> exists ss s, scopes d = [(f, ss ++ [s])] /\
    (forall t, In t ss -> first t < after t <= length xs) /\ first s <= length xs /\ after s <= length xs /\
    (was_inner d = true -> first s < after s) /\
    (was_inner d = true -> forall k, k < length xs -> level xs k = 1 <-> within (ss ++ [s]) k) /\
    (was_inner d = false -> forall k, k < length xs -> level xs k = 1 <-> (within ss k \/ first s <= k))
}.

Lemma within_snoc : forall ss s k, within (ss ++ [s]) k <-> within ss k \/ first s <= k < after s.
Proof.
  intros ss s k. unfold within. split.
  - intros (t & [H|[<-|[]]]%in_app_or & B); eauto.
  - intros [(t & H & B)|B]; [exists t|exists s]; (split; [apply in_or_app; cbn; tauto|lia]).
Qed.
Lemma within_bound : forall ss n k, (forall t, In t ss -> first t < after t <= n) -> within ss k -> k < n.
Proof. intros ss n k H (t & I & B). specialize (H _ I). lia. Qed.

Lemma level_after_end : forall xs x, level xs (length xs) >= 1 -> open_before xs (length xs) ->
  level (xs ++ [x]) (length (xs ++ [x])) = level_after x (level xs (length xs)).
Proof.
  intros xs x G O. rewrite !level_end in *. unfold open_before in O. rewrite firstn_all in O.
  rewrite macs_snoc, mends_snoc. unfold is_macro, is_mend, level_after. destruct (op x); lia.
Qed.

(** One statement more; also the closing one, which leaves the definition over. *)
Lemma one_step : forall f d xs x, one_file f d xs -> open_before xs (length xs) -> members x = [] ->
  let d' := process d x in let ys := xs ++ [x] in
  home d' = f /\ count d' = length ys /\ depth d' = level ys (length ys) /\ was_inner d' = (1 <? depth d') /\
  over d' = (is_mend x && (level xs (length xs) =? 1)) /\ nests d' = map (fun x => [Loc (at_ x) f]) ys /\
  exists ss s, scopes d' = [(f, ss ++ [s])] /\
    (forall t, In t ss -> first t < after t <= length ys) /\ first s <= length ys /\ after s <= length ys /\
    (was_inner d' = true -> first s < after s) /\
    (was_inner d' = true -> forall k, k < length ys -> level ys k = 1 <-> within (ss ++ [s]) k) /\
    (was_inner d' = false -> forall k, k < length ys -> level ys k = 1 <-> (within ss k \/ first s <= k)) /\
    (is_mend x = true -> level xs (length xs) = 1 -> after s = length ys /\ first s <= length xs).
Proof.
  intros f d xs x I O M. cbn zeta.
  assert (G : level xs (length xs) >= 1).
  { rewrite level_end. unfold open_before in O. rewrite firstn_all in O. lia. }
  pose proof (process_fields d x) as P. cbn zeta in P.
  destruct P as (P1&P2&P3&P4&P5&(o&P6&P7&P8)&P9). specialize (P8 M).
  destruct I as [H C D N V T E Z].
  assert (PL : place d x = Loc (at_ x) f) by (unfold place; rewrite M, H; reflexivity).
  rewrite PL in *. cbn [in_file] in *.
  pose proof (level_after_end xs x G O) as LA. rewrite <- D in LA.
  assert (LN : length (xs ++ [x]) = S (length xs)) by (rewrite app_length; cbn; lia).
  refine (conj _ (conj _ (conj _ (conj _ (conj _ (conj _ _)))))); try congruence.
  - rewrite P5, V, D. cbn [orb]. destruct (is_mend x); [|reflexivity]. cbn [andb]. clear - G. lia.
  - rewrite P6, T, M, P8, map_app. reflexivity.
  - rewrite P9, P4. clear P9 P4 P5 P6. rewrite D in *. unfold counted. rewrite C.
    destruct xs as [|y r] eqn:EX.
    + rewrite (E eq_refl). cbn [slices_in lookup assign grow length] in *. cbn [level macs mends firstn filter length] in *.
      set (s0 := match op x with OpCopy => Slice 0 0 (1 <? level_after x 1) | _ => Slice 0 1 (1 <? level_after x 1) end).
      assert (F0 : first s0 = 0 /\ after s0 = match op x with OpCopy => 0 | _ => 1 end) by (subst s0; destruct (op x); split; reflexivity).
      exists [], s0. cbn [app length] in *.
      split; [subst s0; destruct (op x); reflexivity|]. clearbody s0. destruct F0 as [F0 F1].
      split; [intros t []|].
      split; [lia|]. split; [rewrite F1; destruct (op x); lia|].
      assert (L0 : forall k, k < 1 -> level [x] k = 1) by (intros k Hk; replace k with 0 by lia; reflexivity).
      change (level [] 0) with 1 in *.
      assert (W1 : (1 <? level_after x 1) = true -> after s0 = 1).
      { unfold level_after. rewrite F1. destruct (op x); intros W; try discriminate W; reflexivity. }
      split; [intros W; rewrite F0, (W1 W); lia|]. split; [|split].
      * intros W k Hk. split; [intros _|intros _; apply L0; lia]. exists s0.
        split; [left; reflexivity|]. rewrite (W1 W). lia.
      * intros W k Hk. split; [intros _; right; lia|intros _; apply L0; lia].
      * intros W _. unfold is_mend in W. rewrite F1. destruct (op x); try discriminate. lia.
    + rewrite <- EX in *. assert (NE : xs <> []) by (rewrite EX; discriminate). clear EX y r.
      destruct (Z NE) as (ss & s & Q1 & Q2 & Q3 & Q4 & Q0 & Q5 & Q6). clear Z E.
      rewrite Q1. unfold slices_in. cbn [lookup assign]. rewrite Nat.eqb_refl.
      assert (GR : forall c b1 b2, grow c b1 b2 (ss ++ [s]) =
         if b1 && negb b2 then (ss ++ [s]) ++ [Slice c c b2]
         else if negb b2 || (negb b1 && b2) then ss ++ [Slice (first s) c (inner s)] else ss ++ [s]).
      { intros c b1 b2. unfold grow. destruct (ss ++ [s]) as [|a q] eqn:EE; [destruct ss; discriminate|].
        rewrite <- EE at 2. rewrite set_end_snoc. reflexivity. }
      rewrite GR. clear GR. rewrite N in *.
      set (n := length xs) in *. set (L := level xs n) in *.
      assert (LV : forall k, k < n -> level (xs ++ [x]) k = level xs k) by (intros k Hk; apply level_snoc; lia).
      assert (LV' : level (xs ++ [x]) n = L) by (apply level_snoc; lia).
      assert (K : forall k, k < length (xs ++ [x]) -> k < n \/ k = n) by (intros k Hk; lia).
      rewrite LN in *.
      destruct (1 <? L) eqn:B1; destruct (1 <? level_after x L) eqn:B2; cbn [andb orb negb].
      * (* stays inside *)
        specialize (Q0 eq_refl).
        exists ss, s. split; [reflexivity|]. split; [intros t Ht; specialize (Q2 t Ht); lia|]. split; [lia|]. split; [lia|].
        split; [auto|]. split; [|split; [discriminate|]].
        { intros _ k Hk. destruct (K k Hk) as [Hk'| ->].
          - rewrite (LV k Hk'). apply Q5; [reflexivity|lia].
          - rewrite LV'. split; [intros; lia|]. intros W. apply (within_bound _ n) in W; [lia|].
            intros t [Ht|[<-|[]]]%in_app_or; [auto|lia]. }
        { intros W W2. unfold is_mend in W. unfold level_after in B2. destruct (op x); try discriminate. lia. }
      * (* the inner definition ends *)
        specialize (Q0 eq_refl).
        assert (L = 2 /\ op x = OpMend) as [L2 OM].
        { unfold level_after in B2. destruct (op x); try lia; split; auto; lia. }
        rewrite OM. exists (ss ++ [s]), (Slice (S n) (S n) false). split; [reflexivity|].
        split; [intros t [Ht|[<-|[]]]%in_app_or; [specialize (Q2 t Ht)|]; lia|]. split; [cbn; lia|]. split; [cbn; lia|].
        split; [discriminate|]. split; [discriminate|]. split.
        { intros _ k Hk. cbn [first]. destruct (K k Hk) as [Hk'| ->].
          - rewrite (LV k Hk'). rewrite (Q5 eq_refl k Hk'). split; [tauto|]. intros [W|W]; [auto|lia].
          - rewrite LV'. split; [intros; lia|]. intros [W|W]; [|lia]. apply (within_bound _ n) in W; [lia|].
            intros t [Ht|[<-|[]]]%in_app_or; [auto|lia]. }
        { intros _ W. lia. }
      * (* an inner definition begins *)
        assert (L = 1 /\ op x = OpMacro) as [L1 OM].
        { unfold level_after in B2. destruct (op x); try lia; split; auto; lia. }
        rewrite OM. exists ss, (Slice (first s) (S n) (inner s)). split; [reflexivity|].
        split; [intros t Ht; specialize (Q2 t Ht); lia|]. cbn [first after]. split; [lia|]. split; [lia|].
        split; [intros _; lia|]. split; [|split; [discriminate|]].
        { intros _ k Hk. rewrite within_snoc. cbn [first after]. destruct (K k Hk) as [Hk'| ->].
          - rewrite (LV k Hk'), (Q6 eq_refl k Hk'). split; intros [W|W]; auto; right; lia.
          - rewrite LV'. split; [intros _; right; lia|auto]. }
        { intros W. unfold is_mend in W. rewrite OM in W. discriminate. }
      * (* stays outside, or the definition ends *)
        exists ss, (Slice (first s) (match op x with OpCopy => n | _ => S n end) (inner s)).
        split; [destruct (op x); reflexivity|]. split; [intros t Ht; specialize (Q2 t Ht); lia|]. cbn [first after].
        split; [lia|]. split; [destruct (op x); lia|]. split; [discriminate|]. split; [discriminate|]. split.
        { intros _ k Hk. destruct (K k Hk) as [Hk'| ->].
          - rewrite (LV k Hk'). apply (Q6 eq_refl k Hk').
          - rewrite LV'. split; [intros _; right; lia|lia]. }
        { intros W _. unfold is_mend in W. destruct (op x); try discriminate. lia. }
Qed.

Lemma in_one_snoc : forall xs x, in_one_file (xs ++ [x]) -> in_one_file xs /\ members x = [].
Proof.
  intros xs x H. split; [intros y Hy|]; apply H; apply in_or_app; cbn; tauto.
Qed.

(** A body that is still open. *)
Lemma define_open : forall f ps xs, in_one_file xs -> (forall i, i <= length xs -> open_before xs i) ->
  one_file f (define (after_prototype f ps) xs) xs.
Proof.
  intros f ps xs. induction xs as [|x xs IH] using rev_ind; intros F O.
  - cbn. constructor; cbn; auto; tauto.
  - destruct (in_one_snoc _ _ F) as [F' M]. rewrite app_length in O. cbn in O.
    assert (I : one_file f (define (after_prototype f ps) xs) xs).
    { apply IH; [exact F'|]. intros i Hi. apply (open_snoc xs x i Hi). apply O. lia. }
    rewrite define_snoc, (of_over _ _ _ I).
    assert (OB : open_before xs (length xs)) by (apply (open_snoc xs x (length xs) (le_n _)); apply O; lia).
    destruct (one_step f _ xs x I OB M) as (A1&A2&A3&A4&A5&A6&ss&s&A7&A8&A9&A10&A0&A11&A12&A13).
    assert (G : level xs (length xs) >= 1).
    { rewrite level_end. unfold open_before in OB. rewrite firstn_all in OB. lia. }
    assert (NV : is_mend x && (level xs (length xs) =? 1) = false).
    { destruct (is_mend x) eqn:EM; [|reflexivity]. cbn [andb]. apply Nat.eqb_neq. intros L1.
      assert (OE : open_before (xs ++ [x]) (length xs + 1)) by (apply O; lia).
      unfold open_before in OE. rewrite level_end in L1.
      replace (length xs + 1) with (length (xs ++ [x])) in OE by (rewrite app_length; reflexivity).
      rewrite firstn_all in OE. rewrite macs_snoc, mends_snoc, EM in OE. unfold is_macro, is_mend in OE, EM.
      destruct (op x); try discriminate. lia. }
    rewrite NV in A5. constructor; auto.
    + intros E. destruct xs; discriminate.
    + intros _. exists ss, s. tauto.
Qed.

(** A closed body. *)
Lemma define_closed : forall f ps xs, in_one_file xs -> closed xs -> let d := define (after_prototype f ps) xs in
  home d = f /\ over d = true /\ nests d = map (fun x => [Loc (at_ x) f]) xs /\
  exists ss, scopes d = [(f, ss)] /\ (forall s, In s ss -> first s < after s <= length xs) /\
    (forall k, k < length xs -> level xs k = 1 <-> within ss k).
Proof.
  intros f ps xs F (NE & O & EQ). cbn zeta.
  destruct (@exists_last _ xs NE) as (ys & x & ->). destruct (in_one_snoc _ _ F) as [F' M].
  rewrite app_length in O. cbn in O.
  assert (I : one_file f (define (after_prototype f ps) ys) ys).
  { apply define_open; [exact F'|]. intros i Hi. apply (open_snoc ys x i Hi). apply O. lia. }
  rewrite define_snoc, (of_over _ _ _ I).
  assert (OB : open_before ys (length ys)) by (apply (open_snoc ys x (length ys) (le_n _)); apply O; lia).
  assert (EM : is_mend x = true /\ level ys (length ys) = 1).
  { rewrite level_end. unfold open_before in OB. rewrite firstn_all in OB. rewrite macs_snoc, mends_snoc in EQ.
    unfold is_macro, is_mend in *. destruct (op x); cbn [Nat.add] in *; split; (lia || reflexivity). }
  destruct EM as [EM L1].
  destruct (one_step f _ ys x I OB M) as (A1&A2&A3&A4&A5&A6&ss&s&A7&A8&A9&A10&A0&A11&A12&A13).
  specialize (A13 EM L1). rewrite EM, L1 in A5.
  assert (W : was_inner (process (define (after_prototype f ps) ys) x) = false).
  { rewrite A4, A3, level_end. lia. }
  specialize (A12 W). refine (conj A1 (conj A5 (conj A6 _))).
  exists (ss ++ [s]). split; [exact A7|].
  destruct A13 as [A13 FS].
  split.
  - intros t [Ht|[<-|[]]]%in_app_or; [specialize (A8 t Ht); lia|]. rewrite app_length in *. cbn in *. lia.
  - intros k Hk. rewrite within_snoc, (A12 k Hk). split; intros [B|B]; auto; right; lia.
Qed.

(** ** From statements to lines *)
Section Lines.
Variables (f : file) (ps : list (name * pos)) (xs : list stmt) (m : macro_info) (p : nat).
Hypothesis one : in_one_file xs.
Hypothesis shut : closed xs.
Hypothesis ordered : in_order p xs.
Hypothesis is_body : body m = define (after_prototype f ps) xs.
Hypothesis is_line : line (position (named m)) = p.

Lemma start_mono : forall j i x y, nth_error xs i = Some x -> nth_error xs (i + j) = Some y -> start x <= start y.
Proof.
  induction j as [|j IH]; intros i x y X Y.
  - rewrite Nat.add_0_r in Y. rewrite X in Y. injection Y as ->. lia.
  - destruct (nth_error xs (S i)) as [z|] eqn:Z.
    + pose proof (proj2 ordered i x z X Z). replace (i + S j) with (S i + j) in Y by lia. specialize (IH (S i) z y Z Y). lia.
    + exfalso. apply nth_error_None in Z. assert (nth_error xs (i + S j) <> None) by congruence.
      apply nth_error_Some in H. lia.
Qed.
Lemma start_strict : forall i j x y, i < j -> nth_error xs i = Some x -> nth_error xs j = Some y -> start x < start y.
Proof.
  intros i j x y L X Y. destruct (nth_error xs (S i)) as [z|] eqn:Z.
  - pose proof (proj2 ordered i x z X Z).
    assert (start z <= start y) by (apply (start_mono (j - S i) (S i)); [exact Z|replace (S i + (j - S i)) with j by lia; exact Y]). lia.
  - exfalso. apply nth_error_None in Z. assert (nth_error xs j <> None) by congruence. apply nth_error_Some in H. lia.
Qed.

Lemma line_of : forall i, line_at m i = option_map start (nth_error xs i).
Proof.
  intros i. unfold line_at. rewrite is_body.
  destruct (define_closed f ps xs one shut) as (_&_&N&_). rewrite N, nth_error_map.
  destruct (nth_error xs i); reflexivity.
Qed.
Lemma size_of : length (nests (body m)) = length xs.
Proof.
  rewrite is_body. destruct (define_closed f ps xs one shut) as (_&_&N&_). rewrite N. apply map_length.
Qed.

(** The statement that owns a line. *)
Lemma owner_of : forall l x, nth_error xs 0 = Some x -> start x <= l ->
  exists k y, nth_error xs k = Some y /\ start y <= l /\ (forall j z, nth_error xs j = Some z -> k < j -> l < start z).
Proof.
  intros l x X L.
  assert (G : forall n, n < length xs -> exists k y, k <= n /\ nth_error xs k = Some y /\ start y <= l /\
     (forall j z, nth_error xs j = Some z -> k < j <= n -> l < start z)).
  { induction n as [|n IH]; intros H.
    - exists 0, x. split; [lia|]. split; [exact X|]. split; [exact L|]. intros; lia.
    - destruct IH as (k & y & A & B & C & D); [lia|].
      destruct (nth_error xs (S n)) as [z|] eqn:Z; [|apply nth_error_None in Z; lia].
      destruct (le_lt_dec (start z) l) as [W|W].
      + exists (S n), z. split; [lia|]. split; [exact Z|]. split; [exact W|]. intros; lia.
      + exists k, y. split; [lia|]. split; [exact B|]. split; [exact C|].
        intros j z' J K. destruct (Nat.eq_dec j (S n)) as [->|]; [congruence|]. apply (D j z' J). lia. }
  assert (LX : 0 < length xs) by (apply nth_error_Some; congruence).
  destruct (G (length xs - 1) ltac:(lia)) as (k & y & A & B & C & D).
  exists k, y. split; [exact B|]. split; [exact C|]. intros j z J K. apply (D j z J). split; [exact K|].
  assert (j < length xs) by (apply nth_error_Some; congruence). lia.
Qed.

Lemma own_owner : forall l k y, nth_error xs k = Some y -> start y <= l ->
  (forall j z, nth_error xs j = Some z -> k < j -> l < start z) -> own_line p xs l <-> (level xs k = 1 /\ l < next_line xs k).
Proof.
  intros l k y Y B C. split.
  - intros [(P & x & X & L)|(i & x & X & L & S1 & S2)].
    + exfalso. assert (start x <= start y) by (apply (start_mono k 0 x y X); exact Y). lia.
    + destruct (lt_eq_lt_dec i k) as [[H| ->]|H]; [|auto|].
      * exfalso. unfold next_line in S2. destruct (nth_error xs (S i)) as [z|] eqn:Z.
        -- assert (start z <= start y) by (apply (start_mono (k - S i) (S i)); [exact Z|replace (S i + (k - S i)) with k by lia; exact Y]). lia.
        -- apply nth_error_None in Z. assert (nth_error xs k <> None) by congruence. apply nth_error_Some in H0. lia.
      * exfalso. specialize (C i x X H). lia.
  - intros [L S]. right. exists k, y. auto.
Qed.

Lemma slices_lines : exists ss ts, scopes (body m) = [(f, ss)] /\ transform_all m ss = Some ts /\
  (forall t, In t ts -> owner t = mac_id m) /\
  (forall l, own_line p xs l <-> exists t, In t ts /\ begins t <= l < ends t).
Proof.
  pose proof (define_closed f ps xs one shut) as D. cbn zeta in D. rewrite <- is_body in D.
  destruct D as (_&_&_&ss&SC&BD&LV).
  assert (T1 : forall s, In s ss -> exists t, transform m s = Some t /\ owner t = mac_id m /\
     (forall l x0 k y, nth_error xs 0 = Some x0 -> nth_error xs k = Some y -> start y <= l ->
        (forall j z, nth_error xs j = Some z -> k < j -> l < start z) ->
        (begins t <= l < ends t <-> (first s <= k < after s /\ l < next_line xs k))) /\
     (forall l x0, nth_error xs 0 = Some x0 -> l < start x0 -> (begins t <= l < ends t <-> (first s = 0 /\ p <= l)))).
  { intros s Hs. specialize (BD s Hs). unfold transform. rewrite size_of.
    assert (NL : forall i, i < length xs -> exists z, nth_error xs i = Some z).
    { intros i Hi. destruct (nth_error xs i) eqn:Z; [eauto|]. apply nth_error_None in Z. lia. }
    destruct (NL (first s) ltac:(lia)) as (zf & Zf). destruct (NL (length xs - 1) ltac:(lia)) as (zl & Zl).
    assert (EB : exists b, (if first s =? 0 then Some (line (position (named m))) else line_at m (first s)) = Some b /\
       b = (if first s =? 0 then p else start zf)).
    { rewrite line_of, Zf, is_line. destruct (first s =? 0); eexists; split; reflexivity. }
    destruct EB as (b & EB & B). rewrite EB.
    assert (EE : exists e, (if after s =? length xs then option_map S (line_at m (length xs - 1)) else line_at m (after s)) = Some e /\
       ((after s = length xs /\ e = S (start zl)) \/ (exists za, nth_error xs (after s) = Some za /\ e = start za))).
    { rewrite !line_of, Zl. destruct (Nat.eqb_spec (after s) (length xs)) as [A|A].
      - eexists. split; [reflexivity|]. left. auto.
      - destruct (NL (after s) ltac:(lia)) as (za & Za). rewrite Za. eexists. split; [reflexivity|]. right. eauto. }
    destruct EE as (e & EE & E). rewrite EE.
    exists (Fslice b e (mac_id m)). split; [reflexivity|]. split; [reflexivity|]. cbn [begins ends]. split.
    - intros l x0 k y X0 Y LY OWN.
      assert (PX : p < start x0) by (apply (proj1 ordered); exact X0).
      assert (XY : start x0 <= start y) by (apply (start_mono k 0 x0 y X0); exact Y).
      assert (BE : b <= l <-> first s <= k).
      { rewrite B. destruct (Nat.eqb_spec (first s) 0) as [F|F]; [split; intros; lia|].
        split; intros H.
        - destruct (le_lt_dec (first s) k); [assumption|]. specialize (OWN _ _ Zf l0). lia.
        - assert (start zf <= start y); [|lia]. apply (start_mono (k - first s) (first s)); [exact Zf|].
          replace (first s + (k - first s)) with k by lia. exact Y. }
      assert (EN : l < e <-> k < after s /\ l < next_line xs k).
      { assert (KL : k < length xs) by (apply nth_error_Some; congruence).
        unfold next_line. destruct E as [[A ->]|(za & Za & ->)].
        - rewrite A. destruct (nth_error xs (S k)) as [z|] eqn:Z.
          + specialize (OWN _ _ Z ltac:(lia)). assert (start z <= start zl).
            { assert (S k < length xs) by (apply nth_error_Some; congruence).
              apply (start_mono (length xs - 1 - S k) (S k)); [exact Z|]. replace (S k + (length xs - 1 - S k)) with (length xs - 1) by lia. exact Zl. }
            split; intros; [split; lia|lia].
          + apply nth_error_None in Z. assert (k = length xs - 1) by lia. subst k. rewrite Zl in Y. injection Y as <-.
            rewrite Zl. split; intros; [split; lia|lia].
        - split.
          + intros H. assert (K : k < after s).
            { destruct (le_lt_dec (after s) k) as [C|C]; [|exact C].
              assert (start za <= start y); [|lia]. apply (start_mono (k - after s) (after s)); [exact Za|].
              replace (after s + (k - after s)) with k by lia. exact Y. }
            split; [exact K|]. destruct (nth_error xs (S k)) as [z|] eqn:Z; [apply (OWN _ _ Z); lia|].
            apply nth_error_None in Z. assert (after s < length xs) by (apply nth_error_Some; congruence). lia.
          + intros [K _]. apply (OWN _ _ Za K). }
      rewrite BE, EN. tauto.
    - intros l x0 X0 LX.
      assert (L0 : forall i z, nth_error xs i = Some z -> start x0 <= start z) by (intros i z Z; apply (start_mono i 0 x0 z X0); exact Z).
      rewrite B. destruct (Nat.eqb_spec (first s) 0) as [F|F].
      + split; [intros; lia|]. intros [_ P]. split; [exact P|]. destruct E as [[_ ->]|(za & Za & ->)].
        * specialize (L0 _ _ Zl). lia.
        * specialize (L0 _ _ Za). lia.
      + specialize (L0 _ _ Zf). split; intros; lia. }
  assert (TA : exists ts, transform_all m ss = Some ts /\ (forall s, In s ss -> exists t, transform m s = Some t /\ In t ts) /\
     (forall t, In t ts -> exists s, In s ss /\ transform m s = Some t)).
  { clear LV SC BD. induction ss as [|s r IH]; cbn [transform_all].
    - exists []. split; [reflexivity|]. split; intros ? [].
    - destruct (T1 s (or_introl eq_refl)) as (t & Ht & _). rewrite Ht.
      destruct IH as (ts & H1 & H2 & H3); [intros s' Hs'; apply T1; right; exact Hs'|]. rewrite H1.
      exists (t :: ts). split; [reflexivity|]. split.
      + intros s' [<-|Hs']; [exists t; cbn; auto|]. destruct (H2 s' Hs') as (t' & A & B). exists t'. cbn. auto.
      + intros t' [<-|Ht']; [exists s; cbn; auto|]. destruct (H3 t' Ht') as (s' & A & B). exists s'. cbn. auto. }
  destruct TA as (ts & TA & TB & TC). exists ss, ts. split; [exact SC|]. split; [exact TA|]. split.
  { intros t Ht. destruct (TC t Ht) as (s & Hs & E). destruct (T1 s Hs) as (t' & E' & O & _). congruence. }
  intros l. destruct shut as (NE & _ & _).
  assert (X0' : exists x0, nth_error xs 0 = Some x0) by (destruct xs; [congruence|eexists; reflexivity]).
  destruct X0' as (x0 & X0).
  destruct (le_lt_dec (start x0) l) as [LX|LX].
  - destruct (owner_of l x0 X0 LX) as (k & y & Y & LY & OWN). rewrite (own_owner l k y Y LY OWN).
    rewrite (LV k ltac:(apply nth_error_Some; congruence)). split.
    + intros [(s & Hs & B) N]. destruct (TB s Hs) as (t & E & Ht). destruct (T1 s Hs) as (t' & E' & _ & C & _).
      assert (t' = t) by congruence. subst t'. exists t. split; [exact Ht|]. apply (C l x0 k y X0 Y LY OWN). auto.
    + intros (t & Ht & B). destruct (TC t Ht) as (s & Hs & E). destruct (T1 s Hs) as (t' & E' & _ & C & _).
      assert (t' = t) by congruence. subst t'. apply (C l x0 k y X0 Y LY OWN) in B. split; [exists s; tauto|tauto].
  - split.
    + intros [(P & _)|(i & x & X & _ & S1 & _)].
      * destruct (proj1 (LV 0 ltac:(apply nth_error_Some; congruence)) eq_refl) as (s & Hs & B).
        destruct (TB s Hs) as (t & E & Ht). destruct (T1 s Hs) as (t' & E' & _ & _ & C).
        assert (t' = t) by congruence. subst t'. exists t. split; [exact Ht|]. apply (C l x0 X0 LX). split; [lia|exact P].
      * exfalso. assert (start x0 <= start x) by (apply (start_mono i 0 x0 x X0); exact X). lia.
    + intros (t & Ht & B). destruct (TC t Ht) as (s & Hs & E). destruct (T1 s Hs) as (t' & E' & _ & _ & C).
      assert (t' = t) by congruence. subst t'. apply (C l x0 X0 LX) in B. left. split; [tauto|]. exists x0. auto.
Qed.
End Lines.
