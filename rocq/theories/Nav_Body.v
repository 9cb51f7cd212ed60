(** * What any macro definition records: statements of copy members included *)
From Coq Require Import List Arith Bool Lia Permutation ZifyBool ZifyNat.
From Verif Require Import Nav_Model Nav_Spec Nav_Proof Nav_Ctx.
Import ListNotations.

Lemma back_file : forall ls a b, in_file a = in_file b -> in_file (back a ls) = in_file (back b ls).
Proof. destruct ls; intros; [assumption|reflexivity]. Qed.
Lemma back_rev : forall ls a, back a ls = match rev ls with [] => a | x :: _ => x end.
Proof.
  induction ls as [|x r IH]; intros a; [reflexivity|]. cbn. rewrite IH. destruct (rev r); reflexivity.
Qed.
Lemma file_of_back : forall f q x, in_file (back (Loc q f) (members x)) = file_of f x.
Proof. intros f q x. rewrite back_rev. unfold file_of. destruct (rev (members x)); reflexivity. Qed.
Lemma place_file : forall d x, in_file (place d x) = file_of (home d) x.
Proof. intros d x. unfold place. apply file_of_back. Qed.

(** ** Variable and sequence symbols *)
Definition decl_at (xs : list stmt) (i : nat) : list vardef :=
  match nth_error xs i with
  | Some x => match op x with OpOther => if level xs i =? 1 then map (fun q => Vardef (fst q) i (snd q)) (sets x) else [] | _ => [] end
  | None => []
  end.
Definition decls (ps : list (name * pos)) (xs : list stmt) : list vardef :=
  map (fun q => Vardef (fst q) 0 (snd q)) ps ++ flat_map (decl_at xs) (List.seq 0 (length xs)).
Definition named_ (n : name) (v : vardef) : bool := vname v =? n.

Lemma find_app : forall {A} (p : A -> bool) a b, find p (a ++ b) = match find p a with Some x => Some x | None => find p b end.
Proof. induction a as [|x r IH]; intros b; [reflexivity|]. cbn. destruct (p x); [reflexivity|apply IH]. Qed.
Lemma existsb_named : forall n vs, existsb (fun w => vname w =? n) vs = match find (named_ n) vs with Some _ => true | None => false end.
Proof. induction vs as [|v r IH]; [reflexivity|]. cbn. unfold named_ at 1. destruct (vname v =? n); [reflexivity|exact IH]. Qed.

Lemma add_vars_find : forall qs d n, (1 <? depth d) = false -> find (named_ n) (vars (fold_left add_var qs d)) =
  find (named_ n) (vars d ++ map (fun q => Vardef (fst q) (count d) (snd q)) qs).
Proof.
  induction qs as [|q r IH]; intros d n H; cbn [fold_left map]; [rewrite app_nil_r; reflexivity|].
  assert (F : depth (add_var d q) = depth d /\ count (add_var d q) = count d).
  { unfold add_var. rewrite H. destruct (existsb _ _); auto. }
  destruct F as [F1 F2]. rewrite IH by (rewrite F1; exact H). rewrite F2. unfold add_var. rewrite H, existsb_named.
  destruct (find (named_ (fst q)) (vars d)) as [v|] eqn:E; rewrite !find_app; cbn [vars find].
  - change (named_ n (Vardef (fst q) (count d) (snd q))) with (fst q =? n).
    destruct (Nat.eqb_spec (fst q) n) as [<-|N]; [rewrite E; reflexivity|reflexivity].
  - rewrite find_app. destruct (find (named_ n) (vars d)); [reflexivity|]. cbn [find]. unfold named_. cbn [vname].
    destruct (fst q =? n); reflexivity.
Qed.
Lemma add_vars_names : forall qs d, NoDup (map vname (vars d)) -> NoDup (map vname (vars (fold_left add_var qs d))).
Proof.
  induction qs as [|q r IH]; intros d H; [exact H|]. cbn. apply IH. unfold add_var. destruct (1 <? depth d); [exact H|].
  destruct (existsb (fun w => vname w =? fst q) (vars d)) eqn:E; [exact H|]. cbn. rewrite map_app. cbn.
  apply (Permutation_NoDup (l := fst q :: map vname (vars d))).
  - apply Permutation_cons_append.
  - constructor; [|exact H]. intros I. apply in_map_iff in I. destruct I as (v & A & B).
    assert (existsb (fun w => vname w =? fst q) (vars d) = true); [|congruence]. apply existsb_exists. exists v. split; [exact B|].
    apply Nat.eqb_eq. exact A.
Qed.

Definition label_at (f : file) (xs : list stmt) (i : nat) : list (name * loc) :=
  match nth_error xs i with
  | Some x => match Nav_Model.seq x with
              | Some (n, q) => if level xs i =? 1 then [(n, Loc q (file_of f x))] else []
              | None => []
              end
  | None => []
  end.

Lemma nth_snoc : forall {A} (xs : list A) x i, i < length xs -> nth_error (xs ++ [x]) i = nth_error xs i.
Proof. intros A xs x i H. apply nth_error_app1. exact H. Qed.
Lemma nth_last : forall {A} (xs : list A) x, nth_error (xs ++ [x]) (length xs) = Some x.
Proof. intros A xs x. rewrite nth_error_app2, Nat.sub_diag; auto. Qed.

Lemma seq_snoc : forall n, List.seq 0 (n + 1) = List.seq 0 n ++ [n].
Proof. intros n. rewrite seq_app. reflexivity. Qed.
Lemma flat_map_seq_snoc : forall {A B} (g : list A -> nat -> list B) xs x,
  (forall i, i < length xs -> g (xs ++ [x]) i = g xs i) ->
  flat_map (g (xs ++ [x])) (List.seq 0 (length (xs ++ [x]))) = flat_map (g xs) (List.seq 0 (length xs)) ++ g (xs ++ [x]) (length xs).
Proof.
  intros A B g xs x H. rewrite app_length. cbn [length]. rewrite seq_snoc, flat_map_app. cbn. rewrite app_nil_r. f_equal.
  assert (G : forall l, (forall i, In i l -> i < length xs) -> flat_map (g (xs ++ [x])) l = flat_map (g xs) l).
  { induction l as [|i r IH]; intros K; [reflexivity|]. cbn. rewrite H by (apply K; cbn; auto). f_equal. apply IH. intros j J. apply K. cbn. auto. }
  apply G. intros i I. apply in_seq in I. lia.
Qed.
Lemma decl_snoc : forall xs x i, i < length xs -> decl_at (xs ++ [x]) i = decl_at xs i.
Proof. intros xs x i H. unfold decl_at. rewrite nth_snoc, level_snoc by lia. reflexivity. Qed.
Lemma label_snoc : forall f xs x i, i < length xs -> label_at f (xs ++ [x]) i = label_at f xs i.
Proof. intros f xs x i H. unfold label_at. rewrite nth_snoc, level_snoc by lia. reflexivity. Qed.

Lemma lookup_first : forall {A} n (l : list (nat * A)), lookup n l = first_of n l.
Proof.
  induction l as [|[k a] r IH]; [reflexivity|]. cbn. rewrite IH. destruct (Nat.eqb_spec n k), (Nat.eq_dec k n); congruence.
Qed.

(** ** The invariant *)
Record general (f : file) (ps : list (name * pos)) (d : mdef) (xs : list stmt) : Prop := {
  g_home : home d = f;
  g_count : count d = length xs;
  g_depth : depth d = level xs (length xs);
  g_inner : was_inner d = (1 <? depth d);
  g_size : length (nests d) = length xs;
  g_nest : forall i x, nth_error xs i = Some x -> exists nest l, nth_error (nests d) i = Some nest /\ top nest = Some l /\ in_file l = file_of f x;
  g_bound : forall g s, In s (slices_in g (scopes d)) -> first s <= length xs /\ after s <= length xs;
  g_seen : forall x, In x xs -> slices_in (file_of f x) (scopes d) <> [];
  g_vars : forall n, find (named_ n) (vars d) = find (named_ n) (decls ps xs);
  g_unique : NoDup (map fst ps) -> NoDup (map vname (vars d));
  g_labels : forall n, lookup n (labels d) = first_of n (flat_map (label_at f xs) (List.seq 0 (length xs)));
  g_once : NoDup (map fst (labels d))
}.

Lemma grow_nonempty : forall c a b ss, grow c a b ss <> [].
Proof.
  intros c a b ss. unfold grow. destruct ss as [|s r]; [destruct (c =? 1); discriminate|].
  destruct (a && negb b); [destruct r; discriminate|]. destruct (negb b || (negb a && b)); [|discriminate].
  destruct r; discriminate.
Qed.
Lemma set_end_in : forall e ss s, In s (set_end e ss) -> In s ss \/ (after s = e /\ exists t, In t ss /\ first s = first t).
Proof.
  intros e ss s. destruct ss as [|a r] using rev_ind; [intros []|]. clear IHr. rewrite set_end_snoc. intros H.
  apply in_app_or in H. destruct H as [H|[<-|[]]].
  - left. apply in_or_app. auto.
  - right. cbn. split; [reflexivity|]. exists a. split; [apply in_or_app; cbn; auto|reflexivity].
Qed.
Lemma grow_in : forall c a b ss s, In s (grow c a b ss) ->
  In s ss \/ (after s = c /\ (first s = c \/ first s = 0 \/ exists t, In t ss /\ first s = first t)).
Proof.
  intros c a b ss s. unfold grow. destruct ss as [|t r].
  - destruct (c =? 1); intros [<-|[]]; cbn; right; auto.
  - destruct (a && negb b).
    + intros H. apply in_app_or in H. destruct H as [H|[<-|[]]]; cbn; auto.
    + destruct (negb b || (negb a && b)); [|auto]. intros H. apply set_end_in in H. tauto.
Qed.

Lemma process_vars : forall d x, vars (process d x) =
  match op x with OpOther => vars (fold_left add_var (sets x) (add_label x d)) | _ => vars d end.
Proof.
  intros d x. unfold process. set (d0 := match members x with [] => _ | _ => _ end).
  assert (H : vars (add_label x d0) = vars d /\ (forall y, vars (add_nest x y) = vars y)).
  { split; [|reflexivity]. destruct (add_label_fields x d0) as (_&_&_&_&_&_&_&_&->). subst d0. destruct (members x); reflexivity. }
  destruct H as [H1 H2]. unfold operate. destruct (op x); try (cbn; exact H1).
  assert (G : forall qs a b, vars a = vars b -> depth a = depth b -> count a = count b -> vars (fold_left add_var qs a) = vars (fold_left add_var qs b)).
  { induction qs as [|q r IH]; intros a b E1 E2 E3; [exact E1|]. cbn. apply IH; unfold add_var; rewrite E1, E2, ?E3;
    destruct (1 <? depth b); auto; destruct (existsb _ _); auto; cbn; congruence. }
  cbn. apply G.
  - rewrite H1. destruct (add_label_fields x d) as (_&_&_&_&_&_&_&_&->). reflexivity.
  - destruct (add_label_fields x d0) as (_&->&_). destruct (add_label_fields x d) as (_&->&_). subst d0. destruct (members x); reflexivity.
  - destruct (add_label_fields x d0) as (_&_&->&_). destruct (add_label_fields x d) as (_&_&->&_). subst d0. destruct (members x); reflexivity.
Qed.

Lemma process_labels : forall d x, labels (process d x) =
  match Nav_Model.seq x with
  | None => labels d
  | Some (n, q) => if (depth d =? 1) && match lookup n (labels d) with None => true | Some _ => false end
                   then labels d ++ [(n, Loc q (file_of (home d) x))] else labels d
  end.
Proof.
  intros d x. unfold process. set (d0 := match members x with [] => _ | _ => _ end).
  match goal with |- labels ?e = _ => assert (H : labels e = labels (add_label x d0)) end.
  { unfold operate. destruct (op x); try reflexivity. cbn. destruct (add_var_fields (sets x) (add_label x d0)) as (_&_&_&_&_&_&_&_&E). exact E. }
  rewrite H. clear H.
  assert (D0 : depth d0 = depth d /\ labels d0 = labels d /\ home d0 = home d) by (subst d0; destruct (members x); auto).
  destruct D0 as (D1 & D2 & D3). unfold add_label. destruct (Nav_Model.seq x) as [[n q]|]; [|exact D2].
  rewrite D1, D2. destruct (_ && _); [|exact D2]. cbn. rewrite file_of_back, D3. reflexivity.
Qed.

Lemma first_app : forall {A} n (a b : list (nat * A)), first_of n (a ++ b) = match first_of n a with Some x => Some x | None => first_of n b end.
Proof. induction a as [|[k x] r IH]; intros b; [reflexivity|]. cbn. destruct (Nat.eq_dec k n); [reflexivity|apply IH]. Qed.

Lemma general_step : forall f ps d xs x, general f ps d xs -> open_before xs (length xs) -> general f ps (process d x) (xs ++ [x]).
Proof.
  intros f ps d xs x I O.
  assert (G : level xs (length xs) >= 1).
  { rewrite level_end. unfold open_before in O. rewrite firstn_all in O. lia. }
  pose proof (process_fields d x) as P. cbn zeta in P. destruct P as (P1&P2&P3&P4&P5&(w&P6&P7&P8)&P9).
  destruct I as [H C D N Z T B SE V U L K].
  assert (LN : length (xs ++ [x]) = S (length xs)) by (rewrite app_length; cbn; lia).
  pose proof (level_after_end xs x G O) as LA. rewrite <- D in LA.
  constructor.
  - congruence.
  - congruence.
  - congruence.
  - congruence.
  - rewrite P6, app_length, Z, LN. cbn. lia.
  - intros i y Y. rewrite P6. destruct (Nat.eq_dec i (length xs)) as [->|NE].
    + rewrite nth_last in Y. injection Y as <-. rewrite <- Z, nth_last. eexists. exists (place d x). split; [reflexivity|].
      split; [cbn; congruence|]. rewrite place_file. congruence.
    + assert (i < length xs) by (assert (nth_error (xs ++ [x]) i <> None) by congruence; apply nth_error_Some in H0; lia).
      rewrite nth_snoc in Y by assumption. destruct (T i y Y) as (nest & l & A1 & A2). exists nest, l.
      rewrite nth_error_app1 by lia. auto.
  - intros g s. rewrite P9. unfold slices_in at 1. rewrite lookup_assign, LN.
    destruct (Nat.eqb_spec g (in_file (place d x))) as [->|NE].
    + assert (CD : counted d x <= S (length xs)) by (unfold counted; rewrite C; destruct (op x); lia).
      intros Q. apply grow_in in Q. destruct Q as [Q|(Q1 & Q2)].
      * apply B in Q. lia.
      * destruct Q2 as [Q2|[Q2|(t & Q2 & Q3)]]; [lia|lia|]. apply B in Q2. lia.
    + fold (slices_in g (scopes d)). intros Q. apply B in Q. lia.
  - intros y Y. rewrite P9, place_file, H. unfold slices_in at 1. rewrite lookup_assign.
    destruct (Nat.eqb_spec (file_of f y) (file_of f x)) as [E|NE]; [apply grow_nonempty|].
    apply in_app_or in Y. destruct Y as [Y|[<-|[]]]; [|congruence]. exact (SE y Y).
  - intros n. rewrite process_vars. unfold decls. rewrite (flat_map_seq_snoc decl_at xs x (decl_snoc xs x)), app_assoc.
    change (map _ ps ++ flat_map (decl_at xs) _) with (decls ps xs).
    assert (E : decl_at (xs ++ [x]) (length xs) = match op x with OpOther => if level xs (length xs) =? 1 then map (fun q => Vardef (fst q) (length xs) (snd q)) (sets x) else [] | _ => [] end).
    { unfold decl_at. rewrite nth_last, level_snoc by lia. reflexivity. }
    rewrite E. destruct (op x); try (rewrite app_nil_r; apply V).
    destruct (add_label_fields x d) as (_&A2&A3&_&_&_&_&_&A9).
    destruct (1 <? depth d) eqn:DD.
    + replace (level xs (length xs) =? 1) with false by lia. rewrite app_nil_r, <- V.
      assert (W : forall qs e, (1 <? depth e) = true -> vars (fold_left add_var qs e) = vars e).
      { induction qs as [|q r IH]; intros e HE; [reflexivity|]. cbn. unfold add_var at 2. rewrite HE. apply IH. exact HE. }
      rewrite W by (rewrite A2; exact DD). rewrite A9. reflexivity.
    + replace (level xs (length xs) =? 1) with true by lia.
      rewrite add_vars_find by (rewrite A2; exact DD). rewrite A9, A3, C, !find_app, V. reflexivity.
  - intros NP. rewrite process_vars. destruct (op x); try (apply U; exact NP). apply add_vars_names.
    destruct (add_label_fields x d) as (_&_&_&_&_&_&_&_&->). apply U. exact NP.
  - intros n. rewrite process_labels. rewrite (flat_map_seq_snoc (label_at f) xs x (label_snoc f xs x)), first_app, <- L, H.
    assert (E : label_at f (xs ++ [x]) (length xs) = match Nav_Model.seq x with Some (k, q) => if level xs (length xs) =? 1 then [(k, Loc q (file_of f x))] else [] | None => [] end).
    { unfold label_at. rewrite nth_last, level_snoc by lia. reflexivity. }
    rewrite E. destruct (Nav_Model.seq x) as [[k q]|]; [|cbn; destruct (lookup n (labels d)); reflexivity].
    rewrite <- D. destruct (depth d =? 1); [|cbn; destruct (lookup n (labels d)); reflexivity]. cbn [andb].
    destruct (lookup k (labels d)) as [lk|] eqn:EK.
    + destruct (lookup n (labels d)) eqn:EN; [reflexivity|]. cbn. destruct (Nat.eq_dec k n); congruence.
    + rewrite lookup_first, first_app, <- lookup_first. reflexivity.
  - rewrite process_labels. destruct (Nav_Model.seq x) as [[k q]|]; [|exact K].
    destruct ((depth d =? 1) && _) eqn:EE; [|exact K]. rewrite map_app. cbn.
    apply (Permutation_NoDup (l := k :: map fst (labels d))); [apply Permutation_cons_append|]. constructor; [|exact K].
    intros I. apply in_map_iff in I. destruct I as ([k' lc] & A1 & A2). cbn in A1. subst k'.
    destruct (lookup k (labels d)) eqn:LK; [lia|].
    clear - A2 LK. induction (labels d) as [|[a b] r IH]; [destruct A2|]. cbn in LK.
    destruct (Nat.eqb_spec k a); [discriminate|]. destruct A2 as [A2|A2]; [congruence|auto].
Qed.

Lemma general_open : forall f ps xs, (forall i, i <= length xs -> open_before xs i) ->
  general f ps (define (after_prototype f ps) xs) xs /\ over (define (after_prototype f ps) xs) = false.
Proof.
  intros f ps xs. induction xs as [|x xs IH] using rev_ind; intros O.
  - split; [|reflexivity]. constructor; try reflexivity.
    + intros i x H. destruct i; discriminate.
    + intros g s [].
    + intros x [].
    + intros n. unfold decls. cbn [length List.seq flat_map]. rewrite app_nil_r. reflexivity.
    + intros N. cbn. rewrite map_map. cbn. exact N.
    + constructor.
  - rewrite app_length in O. cbn in O.
    destruct IH as [I V]; [intros i Hi; apply (open_snoc xs x i Hi); apply O; lia|].
    rewrite define_snoc, V.
    assert (OB : open_before xs (length xs)) by (apply (open_snoc xs x (length xs) (le_n _)); apply O; lia).
    split; [apply general_step; assumption|].
    pose proof (process_fields (define (after_prototype f ps) xs) x) as P. cbn zeta in P. destruct P as (_&_&_&_&->&_).
    rewrite V, (g_depth _ _ _ _ I). cbn [orb]. destruct (is_mend x) eqn:EM; [|reflexivity]. cbn [andb]. apply Nat.eqb_neq. intros L1.
    assert (OE : open_before (xs ++ [x]) (length xs + 1)) by (apply O; lia).
    unfold open_before in OE, OB. rewrite firstn_all in OB. rewrite level_end in L1.
    replace (length xs + 1) with (length (xs ++ [x])) in OE by (rewrite app_length; reflexivity).
    rewrite firstn_all in OE. rewrite macs_snoc, mends_snoc, EM in OE. unfold is_macro, is_mend in OE, EM.
    destruct (op x); try discriminate. lia.
Qed.

Lemma closed_split : forall xs, closed xs -> exists ys x, xs = ys ++ [x] /\ (forall i, i <= length ys -> open_before ys i) /\
  is_mend x = true /\ level ys (length ys) = 1.
Proof.
  intros xs (NE & O & EQ). destruct (@exists_last _ xs NE) as (ys & x & ->). exists ys, x. split; [reflexivity|].
  rewrite app_length in O. cbn in O. split; [intros i Hi; apply (open_snoc ys x i Hi); apply O; lia|].
  assert (OB : open_before ys (length ys)) by (apply (open_snoc ys x (length ys) (le_n _)); apply O; lia).
  rewrite level_end. unfold open_before in OB. rewrite firstn_all in OB. rewrite macs_snoc, mends_snoc in EQ.
  unfold is_macro, is_mend in *. destruct (op x); cbn [Nat.add] in *; split; (lia || reflexivity).
Qed.

Lemma general_closed : forall f ps xs, closed xs -> general f ps (define (after_prototype f ps) xs) xs.
Proof.
  intros f ps xs C. destruct (closed_split xs C) as (ys & x & -> & O & M & L).
  destruct (general_open f ps ys O) as [I V]. rewrite define_snoc, V. apply general_step; [exact I|]. apply O. lia.
Qed.

(** ** No vector is read behind its end *)
Lemma transform_defined : forall m s, 0 < length (nests (body m)) ->
  (forall i nest, nth_error (nests (body m)) i = Some nest -> top nest <> None) ->
  first s < length (nests (body m)) -> after s <= length (nests (body m)) -> transform m s <> None.
Proof.
  intros m s P T F A. unfold transform.
  assert (LA : forall i, i < length (nests (body m)) -> exists v, line_at m i = Some v).
  { intros i Hi. unfold line_at. destruct (nth_error (nests (body m)) i) as [nest|] eqn:E; [|apply nth_error_None in E; lia].
    specialize (T _ _ E). destruct (top nest); [eexists; reflexivity|congruence]. }
  destruct (LA (first s) F) as (v1 & ->). destruct (LA (length (nests (body m)) - 1) ltac:(lia)) as (v2 & ->).
  destruct (Nat.eqb_spec (after s) (length (nests (body m)))) as [E|E]; [destruct (first s =? 0); discriminate|].
  destruct (LA (after s) ltac:(lia)) as (v3 & ->). destruct (first s =? 0); discriminate.
Qed.

Lemma closed_transforms : forall m f ps xs, body m = define (after_prototype f ps) xs -> closed_where_seen f xs ->
  forall g s, In s (slices_in g (scopes (body m))) -> transform m s <> None.
Proof.
  intros m f ps xs E (C & W) g s Hs.
  pose proof (general_closed f ps xs C) as I. rewrite <- E in I.
  assert (P : 0 < length xs) by (destruct C as (NE & _); destruct xs; [congruence|cbn; lia]).
  apply transform_defined.
  - rewrite (g_size _ _ _ _ I). exact P.
  - intros i nest H. assert (Hi : i < length xs) by (rewrite <- (g_size _ _ _ _ I); apply nth_error_Some; congruence).
    destruct (nth_error xs i) as [x|] eqn:X; [|apply nth_error_None in X; lia].
    destruct (g_nest _ _ _ _ I i x X) as (nest' & l & A & B & _). congruence.
  - rewrite (g_size _ _ _ _ I). clear I. rewrite E in Hs.
    destruct (closed_split xs C) as (ys & x & -> & O & M & L).
    destruct (general_open f ps ys O) as [I V]. rewrite define_snoc, V in Hs.
    pose proof (process_fields (define (after_prototype f ps) ys) x) as Q. cbn zeta in Q. destruct Q as (_&_&_&_&_&_&Q).
    rewrite Q in Hs. rewrite app_length. cbn [length]. unfold slices_in at 1 in Hs. rewrite lookup_assign in Hs.
    destruct (Nat.eqb_spec g (in_file (place (define (after_prototype f ps) ys) x))) as [->|NE].
    + assert (D1 : depth (define (after_prototype f ps) ys) = 1) by (rewrite (g_depth _ _ _ _ I); exact L).
      assert (N1 : was_inner (define (after_prototype f ps) ys) = false) by (rewrite (g_inner _ _ _ _ I), D1; reflexivity).
      unfold is_mend in M. destruct (op x) eqn:OX; try discriminate.
      unfold level_after in Hs. rewrite OX, D1, N1 in Hs. change (1 <? 1 - 1) with false in Hs.
      rewrite place_file, (g_home _ _ _ _ I) in Hs. unfold counted in Hs. rewrite OX, (g_count _ _ _ _ I) in Hs.
      unfold grow in Hs. destruct (slices_in (file_of f x) (scopes (define (after_prototype f ps) ys))) as [|a r] eqn:SL.
      * destruct W as [W|(pre & x' & y & EQ & Y & FY)].
        -- rewrite app_length in W. cbn in W. assert (length ys = 0) by lia. destruct ys; [|discriminate]. cbn in Hs. destruct Hs as [<-|[]]. cbn. lia.
        -- apply app_inj_tail in EQ. destruct EQ as [<- <-]. exfalso. apply (g_seen _ _ _ _ I y Y). rewrite FY. exact SL.
      * cbn [andb orb negb] in Hs. apply set_end_in in Hs. rewrite <- SL in Hs. destruct Hs as [Hs|(_ & t & Ht & ->)].
        -- apply (g_bound _ _ _ _ I) in Hs. lia.
        -- apply (g_bound _ _ _ _ I) in Ht. lia.
    + fold (slices_in g (scopes (define (after_prototype f ps) ys))) in Hs. apply (g_bound _ _ _ _ I) in Hs. lia.
  - rewrite (g_size _ _ _ _ I). apply (g_bound _ _ _ _ I) in Hs. lia.
Qed.
