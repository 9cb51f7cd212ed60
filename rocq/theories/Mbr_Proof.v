(** * Mbr_Proof: definitions end at their own MEND *)
From Coq Require Import List NArith ZArith Bool Arith Lia.
From Verif Require Import Common Mbr_Model Mbr_Spec.
Import ListNotations.

(** The number of definitions that are open; [None]: one too many was closed. *)
Fixpoint level (n : nat) (l : list stmt) : option nat :=
  match l with
  | [] => Some n
  | s :: l =>
    match op s with
    | KMacro => level (S n) l
    | KMend => match n with O => None | S n => level n l end
    | _ => level n l
    end
  end.

Lemma level_app : forall l r n, level n (l ++ r) = match level n l with Some m => level m r | None => None end.
Proof.
  induction l as [|s l IH]; intros r n; [reflexivity|]. cbn [app level].
  destruct (op s); auto. destruct n; auto.
Qed.

Lemma balanced_level : forall l, Balanced l -> forall n, level n l = Some n.
Proof.
  induction 1 as [|s l H1 H2 Hl IH|m l e r Hm Hl IHl He Hr IHr]; intros n.
  - reflexivity.
  - cbn [level]. destruct (op s); try contradiction; auto.
  - cbn [level]. rewrite Hm, level_app, IHl. cbn [level]. rewrite He. apply IHr.
Qed.

Lemma balanced_app : forall l r, Balanced l -> Balanced r -> Balanced (l ++ r).
Proof.
  intros l r Hl Hr. induction Hl as [|s l H1 H2 Hl IH|m l e x Hm Hl IHl He Hx IHx]; cbn [app].
  - exact Hr.
  - now constructor.
  - rewrite <- app_assoc. cbn [app]. now constructor.
Qed.

Lemma level_split : forall k l n, (length l <= k)%nat -> level (S n) l = Some 0 ->
  exists b e r, l = b ++ e :: r /\ Balanced b /\ op e = KMend /\ level n r = Some 0.
Proof.
  induction k as [|k IH]; intros l n Hk H; destruct l as [|s l]; cbn [length level] in *; try discriminate; try lia.
  destruct (op s) eqn:E.
  - destruct (IH l (S n) ltac:(lia) H) as (b1 & e1 & r1 & -> & B1 & E1 & H1).
    rewrite app_length in Hk. cbn [length] in Hk.
    destruct (IH r1 n ltac:(lia) H1) as (b2 & e2 & r2 & -> & B2 & E2 & H2).
    exists (s :: b1 ++ e1 :: b2), e2, r2. repeat split; auto.
    + cbn [app]. now rewrite <- app_assoc.
    + now constructor.
  - exists [], s, l. repeat split; auto. constructor.
  - destruct (IH l n ltac:(lia) H) as (b & e & r & -> & B & Ee & H1).
    exists (s :: b), e, r. repeat split; auto. constructor; auto; congruence.
  - destruct (IH l n ltac:(lia) H) as (b & e & r & -> & B & Ee & H1).
    exists (s :: b), e, r. repeat split; auto. constructor; auto; congruence.
Qed.

Lemma level_balanced : forall k l, (length l <= k)%nat -> level 0 l = Some 0 -> Balanced l.
Proof.
  induction k as [|k IH]; intros l Hk H; (destruct l as [|s l]; [constructor|]); cbn [length level] in *; [lia|].
  destruct (op s) eqn:E; try discriminate.
  - destruct (level_split (length l) l 0 ltac:(lia) H) as (b & e & r & -> & B & Ee & H1).
    rewrite app_length in Hk. cbn [length] in Hk. apply bal_macro; auto. apply IH; [lia|exact H1].
  - constructor; try congruence. apply IH; [lia|exact H].
  - constructor; try congruence. apply IH; [lia|exact H].
Qed.

Lemma balanced_iff : forall l, Balanced l <-> level 0 l = Some 0.
Proof.
  intros l. split; [intros H; now apply balanced_level|apply (level_balanced (length l)); lia].
Qed.

(** Every text has a part that closes the definition, or none of its statements does. *)
Lemma close_split : forall l n, 
  (exists b e r, l = b ++ e :: r /\ op e = KMend /\ level n b = Some 0) \/
  (exists m, level n l = Some m).
Proof.
  induction l as [|s l IH]; intros n.
  - right. exists n. reflexivity.
  - cbn [level]. destruct (op s) eqn:E.
    + destruct (IH (S n)) as [(b & e & r & -> & He & Hb)|[m H]]; [left|right; eauto].
      exists (s :: b), e, r. repeat split; auto. cbn [level]. now rewrite E.
    + destruct n as [|n].
      * left. exists [], s, l. repeat split; auto.
      * destruct (IH n) as [(b & e & r & -> & He & Hb)|[m H]]; [left|right; eauto].
        exists (s :: b), e, r. repeat split; auto. cbn [level]. now rewrite E.
    + destruct (IH n) as [(b & e & r & -> & He & Hb)|[m H]]; [left|right; eauto].
      exists (s :: b), e, r. repeat split; auto. cbn [level]. now rewrite E.
    + destruct (IH n) as [(b & e & r & -> & He & Hb)|[m H]]; [left|right; eauto].
      exists (s :: b), e, r. repeat split; auto. cbn [level]. now rewrite E.
Qed.

(** ** The processor in the body *)
Definition in_body (d : mdef) : Prop :=
  expecting_MACRO d = false /\ expecting_prototype d = false /\ finished d = false.

Definition same_head (d d' : mdef) : Prop :=
  external d' = external d /\ invalid d' = invalid d /\ macro_name d' = macro_name d /\
  expecting_MACRO d' = expecting_MACRO d /\ expecting_prototype d' = expecting_prototype d.

Lemma process_body : forall d s, in_body d ->
  let d' := process d s in
  same_head d d' /\ body d' = body d ++ [kept s] /\ line d' = S (line d) /\
  nest d' = match op s with KMacro => S (nest d) | KMend => nest d - 1 | _ => nest d end /\
  finished d' = match op s with KMend => nest d - 1 =? 0 | _ => false end.
Proof.
  intros d s (H1 & H2 & H3) d'. subst d'. unfold process. rewrite H1, H2.
  unfold operate, sequence_symbol, kept, same_head.
  destruct (seq s) as [n|].
  - destruct (nest d =? 1) eqn:E; [destruct (lookup n (labels d))|];
      cbn; rewrite ?H1, ?H2, ?H3; destruct (op s); cbn; auto 12.
  - cbn. rewrite ?H1, ?H2, ?H3. destruct (op s); cbn; auto 12.
Qed.

Lemma same_trans : forall a b c, same_head a b -> same_head b c -> same_head a c.
Proof. unfold same_head. intros a b c H1 H2. intuition congruence. Qed.

Lemma steps_body : forall l d n m, in_body d -> nest d = S n -> level n l = Some m ->
  let d' := fold_left process l d in
  in_body d' /\ nest d' = S m /\ same_head d d' /\ body d' = body d ++ map kept l /\
  line d' = line d + length l /\ (forall ts, run d (l ++ ts) = run d' ts).
Proof.
  induction l as [|s l IH]; intros d n m Hb Hn Hl d'; subst d'; cbn [fold_left app map length].
  - injection Hl as <-. rewrite app_nil_r, Nat.add_0_r. unfold same_head. auto 12.
  - destruct (process_body d s Hb) as (P1 & P2 & P3 & P4 & P5).
    set (d1 := process d s) in *.
    cbn [level] in Hl.
    assert (exists n1, nest d1 = S n1 /\ level n1 l = Some m /\ finished d1 = false) as (n1 & N1 & L1 & F1).
    { rewrite P4, P5. destruct (op s).
      - exists (S n). rewrite Hn. auto.
      - destruct n as [|n]; [discriminate|]. exists n. rewrite Hn. cbn. auto.
      - exists n. auto.
      - exists n. auto. }
    assert (B1 : in_body d1).
    { destruct Hb as (B1 & B2 & B3). unfold in_body. destruct P1 as (_ & _ & _ & Q1 & Q2). rewrite Q1, Q2. auto. }
    destruct (IH d1 n1 m B1 N1 L1) as (Q1 & Q2 & Q3 & Q4 & Q5 & Q6).
    split; [exact Q1|]. split; [exact Q2|]. split; [eapply same_trans; eauto|].
    split; [rewrite Q4, P2, <- app_assoc; reflexivity|]. split; [rewrite Q5, P3; lia|].
    intros ts. cbn [run]. destruct Hb as (_ & _ & ->). apply Q6.
Qed.

(** ** Labels *)
Lemma eqb_refl : forall n, bytes_eqb n n = true. Proof. intros; now apply bytes_eqb_eq. Qed.

Lemma lookup_app : forall n l m k, lookup n (l ++ [(m, k)]) =
  match lookup n l with Some j => Some j | None => if bytes_eqb n m then Some k else None end.
Proof.
  induction l as [|[a b] l IH]; intros m k; cbn [app lookup]; [reflexivity|].
  destruct (bytes_eqb n a); auto.
Qed.

Definition labels_of (l : list stmt) (d : mdef) : Prop :=
  (forall n k, lookup n (labels d) = Some k <-> label_at l n k) /\
  (forall k, In (E044 k) (reports d) <->
     exists n s j, nth_error l k = Some s /\ seq s = Some n /\ own l k /\ label_at l n j /\ j < k).

Lemma own_snoc : forall l s k, k <= length l -> own (l ++ [s]) k <-> own l k.
Proof. intros l s k H. unfold own. rewrite firstn_app. replace (k - length l) with 0 by lia. cbn. now rewrite app_nil_r. Qed.

Lemma nth_snoc : forall A (l : list A) s k, nth_error (l ++ [s]) k =
  if k <? length l then nth_error l k else if k =? length l then Some s else None.
Proof.
  intros A l s k. destruct (Nat.ltb_spec k (length l)) as [H|H].
  - now rewrite nth_error_app1.
  - rewrite nth_error_app2 by exact H. destruct (Nat.eqb_spec k (length l)) as [->|Hk].
    + now rewrite Nat.sub_diag.
    + destruct (k - length l) as [|x] eqn:E; [lia|]. cbn. now destruct x.
Qed.

Lemma nth_bound : forall A (l : list A) k s, nth_error l k = Some s -> k < length l.
Proof. intros A l k s H. apply nth_error_Some. congruence. Qed.

Lemma label_old : forall l s n k, k < length l -> label_at (l ++ [s]) n k <-> label_at l n k.
Proof.
  intros l s n k Hk. unfold label_at. split.
  - intros [(x & H1 & H2 & H3) H4]. split.
    + exists x. rewrite nth_snoc in H1. replace (k <? length l) with true in H1 by (symmetry; apply Nat.ltb_lt; lia).
      rewrite own_snoc in H3 by lia. auto.
    + intros j y Hj Hy Hs. rewrite <- (own_snoc l s) by lia. apply (H4 j y Hj); [|exact Hs].
      rewrite nth_snoc. replace (j <? length l) with true by (symmetry; apply Nat.ltb_lt; lia). exact Hy.
  - intros [(x & H1 & H2 & H3) H4]. split.
    + exists x. rewrite nth_snoc. replace (k <? length l) with true by (symmetry; apply Nat.ltb_lt; lia).
      rewrite own_snoc by lia. auto.
    + intros j y Hj Hy Hs. rewrite own_snoc by lia. apply (H4 j y Hj); [|exact Hs].
      rewrite nth_snoc in Hy. replace (j <? length l) with true in Hy by (symmetry; apply Nat.ltb_lt; lia). exact Hy.
Qed.

Lemma label_bound : forall l n k, label_at l n k -> k < length l.
Proof. intros l n k [(s & H & _) _]. now apply nth_bound in H. Qed.

Lemma own_all : forall l s, own (l ++ [s]) (length l) <-> Balanced l.
Proof. intros l s. unfold own. rewrite firstn_app, firstn_all, Nat.sub_diag. cbn. now rewrite app_nil_r. Qed.

Lemma label_new : forall l s n k, label_at (l ++ [s]) n k <->
  label_at l n k \/ (k = length l /\ seq s = Some n /\ Balanced l /\ forall j, ~ label_at l n j).
Proof.
  intros l s n k. destruct (Nat.lt_ge_cases k (length l)) as [Hk|Hk].
  - rewrite (label_old l s n k Hk). split; [auto|]. intros [H|(H & _)]; [exact H|lia].
  - split.
    + intros H. right. pose proof (label_bound _ _ _ H) as Hb. rewrite app_length in Hb. cbn in Hb.
      assert (k = length l) as -> by lia. destruct H as [(x & H1 & H2 & H3) H4].
      rewrite nth_snoc, Nat.ltb_irrefl, Nat.eqb_refl in H1. injection H1 as ->.
      rewrite own_all in H3. repeat split; auto.
      intros j Hj. pose proof (label_bound _ _ _ Hj) as Hb'. destruct Hj as [(y & J1 & J2 & J3) _].
      apply (H4 j y Hb'); [|exact J2|now apply own_snoc; [lia|]].
      rewrite nth_snoc. replace (j <? length l) with true by (symmetry; apply Nat.ltb_lt; lia). exact J1.
    + intros [H|(-> & H1 & H2 & H3)]; [apply label_bound in H; lia|].
      split.
      * exists s. rewrite nth_snoc, Nat.ltb_irrefl, Nat.eqb_refl, own_all. auto.
      * intros j y Hj Hy Hs Ho.
        rewrite nth_snoc in Hy. replace (j <? length l) with true in Hy by (symmetry; apply Nat.ltb_lt; lia).
        rewrite own_snoc in Ho by lia.
        (* the first one *)
        assert (F : exists i, label_at l n i).
        { revert y Hy Hs Ho. induction j as [j IHj] using lt_wf_ind. intros y Hy Hs Ho.
          assert (D : (exists i z, i < j /\ nth_error l i = Some z /\ seq z = Some n /\ own l i) \/
                      (forall i z, i < j -> nth_error l i = Some z -> seq z = Some n -> ~ own l i)).
          { clear - j. induction j as [|j IH]; [right; intros; lia|].
            destruct IH as [(i & z & A & B & C & D)|H]; [left; exists i, z; auto|].
            destruct (nth_error l j) as [z|] eqn:E.
            - assert (Dn : seq z = Some n \/ seq z <> Some n).
              { destruct (seq z) as [q|]; [|right; discriminate].
                destruct (bytes_eqb q n) eqn:Eq.
                - apply bytes_eqb_eq in Eq. subst. auto.
                - right. intros [= ->]. rewrite eqb_refl in Eq. discriminate. }
              assert (Do : own l j \/ ~ own l j).
              { unfold own. rewrite balanced_iff. destruct (level 0 (firstn j l)) as [[|x]|]; auto; right; discriminate. }
              destruct Dn as [Dn|Dn]; [destruct Do as [Do|Do]|].
              + left. exists j, z. auto.
              + right. intros i y Hi Hy Hs. destruct (Nat.eq_dec i j) as [->|Hij]; [exact Do|].
                apply (H i y); auto; lia.
              + right. intros i y Hi Hy Hs. destruct (Nat.eq_dec i j) as [->|Hij]; [congruence|].
                apply (H i y); auto; lia.
            - right. intros i y Hi Hy Hs. destruct (Nat.eq_dec i j) as [->|Hij]; [congruence|].
              apply (H i y); auto; lia. }
          destruct D as [(i & z & Hi & A & B & C)|D].
          - apply (IHj i Hi ltac:(lia) z A B C).
          - exists j. split; [exists y; auto|exact D]. }
        destruct F as [i Hi]. exact (H3 i Hi).
Qed.

Lemma label_unique : forall l n j k, label_at l n j -> label_at l n k -> j = k.
Proof.
  intros l n j k [(x & A & B & C) D] [(y & E & F & G) H].
  destruct (Nat.lt_trichotomy j k) as [L|[L|L]]; [|exact L|].
  - now destruct (H j x L A B).
  - now destruct (D k y L E F).
Qed.

Lemma labels_step : forall l m d s, in_body d -> level 0 l = Some m -> nest d = S m -> line d = length l ->
  labels_of l d -> labels_of (l ++ [s]) (process d s).
Proof.
  intros l m d s (H1 & H2 & H3) Hl Hn Hline [HL HR].
  assert (Bal : Balanced l <-> nest d = 1).
  { rewrite balanced_iff, Hl, Hn. split; congruence. }
  unfold process. rewrite H1, H2. unfold labels_of, operate. cbn [labels reports].
  assert (Rold : forall k n x j, nth_error l k = Some x -> seq x = Some n -> own l k -> label_at l n j -> j < k ->
    exists n s0 j, nth_error (l ++ [s]) k = Some s0 /\ seq s0 = Some n /\ own (l ++ [s]) k /\ label_at (l ++ [s]) n j /\ j < k).
  { intros k n x j A B C D E. pose proof (nth_bound _ _ _ _ A) as Hk. exists n, x, j.
    rewrite nth_snoc. replace (k <? length l) with true by (symmetry; apply Nat.ltb_lt; lia).
    rewrite own_snoc by lia. rewrite (label_old l s n j) by lia. auto. }
  assert (Rnew : forall k n x j, nth_error (l ++ [s]) k = Some x -> seq x = Some n -> own (l ++ [s]) k ->
    label_at (l ++ [s]) n j -> j < k ->
    (nth_error l k = Some x /\ own l k /\ label_at l n j) \/ (k = length l /\ x = s /\ Balanced l /\ label_at l n j)).
  { intros k n x j A B C D E. pose proof (nth_bound _ _ _ _ A) as Hk. rewrite app_length in Hk. cbn in Hk.
    rewrite nth_snoc in A. destruct (Nat.ltb_spec k (length l)) as [K|K].
    - left. rewrite own_snoc in C by lia. rewrite (label_old l s n j) in D by lia. auto.
    - right. assert (k = length l) as -> by lia. rewrite Nat.eqb_refl in A. injection A as <-.
      rewrite own_all in C. rewrite (label_old l s n j) in D by lia. auto. }
  assert (Same : (forall n, seq s = Some n -> ~ Balanced l) ->
    (forall n k, lookup n (labels d) = Some k <-> label_at (l ++ [s]) n k) /\
    (forall k, In (E044 k) (reports d) <-> exists n s0 j, nth_error (l ++ [s]) k = Some s0 /\ seq s0 = Some n /\
       own (l ++ [s]) k /\ label_at (l ++ [s]) n j /\ j < k)).
  { intros Hno. split.
    - intros n k. rewrite HL, label_new. split; [auto|]. intros [H|(_ & A & B & _)]; [exact H|]. now destruct (Hno n A).
    - intros k. rewrite HR. split.
      + intros (n & x & j & A & B & C & D & E). eapply Rold; eauto.
      + intros (n & x & j & A & B & C & D & E). destruct (Rnew k n x j A B C D E) as [(A' & C' & D')|(-> & -> & Bl & D')].
        * exists n, x, j. auto.
        * now destruct (Hno n B). }
  unfold sequence_symbol. destruct (seq s) as [n0|] eqn:Es.
  2:{ apply Same. discriminate. }
  destruct (Nat.eqb_spec (nest d) 1) as [N1|N1].
  2:{ apply Same. intros n _ B. apply N1. now apply Bal. }
  assert (B : Balanced l) by now apply Bal.
  destruct (lookup n0 (labels d)) as [j0|] eqn:E0; cbn [labels reports].
  - apply HL in E0. split.
    + intros n k. rewrite HL, label_new. split; [auto|]. intros [H|(_ & A & _ & Hno)]; [exact H|].
      rewrite Es in A. injection A as <-. now destruct (Hno j0).
    + intros k. rewrite in_app_iff, HR. split.
      * intros [(n & x & j & A & B' & C & D & E)|[H|[]]]; [eapply Rold; eauto|].
        injection H as <-. exists n0, s, j0. rewrite Hline, nth_snoc, Nat.ltb_irrefl, Nat.eqb_refl, own_all.
        pose proof (label_bound _ _ _ E0). rewrite (label_old l s n0 j0) by lia. auto.
      * intros (n & x & j & A & B' & C & D & E).
        destruct (Rnew k n x j A B' C D E) as [(A' & C' & D')|(-> & -> & _ & D')].
        -- left. exists n, x, j. auto.
        -- right. left. now rewrite Hline.
  - split.
    + intros n k. rewrite lookup_app, label_new. 
      assert (Hno : forall j, ~ label_at l n0 j).
      { intros j Hj. apply HL in Hj. congruence. }
      split.
      * destruct (lookup n (labels d)) as [j|] eqn:En.
        -- intros [= <-]. left. now apply HL.
        -- destruct (bytes_eqb n n0) eqn:Eq; [|discriminate]. intros [= <-].
           apply bytes_eqb_eq in Eq. subst n0. right. auto.
      * intros [H|(-> & A & _ & Hn0)].
        -- apply HL in H. now rewrite H.
        -- rewrite Es in A. injection A as ->.
           destruct (lookup n (labels d)) as [j|] eqn:En; [|now rewrite eqb_refl, Hline].
           apply HL in En. now destruct (Hn0 j).
    + intros k. rewrite HR. split.
      * intros (n & x & j & A & B' & C & D & E). eapply Rold; eauto.
      * intros (n & x & j & A & B' & C & D & E).
        destruct (Rnew k n x j A B' C D E) as [(A' & C' & D')|(-> & -> & _ & D')].
        -- exists n, x, j. auto.
        -- exfalso. rewrite Es in B'. injection B' as ->. apply HL in D'. congruence.
Qed.

Lemma level_snoc : forall l s n m, level n (l ++ [s]) = Some m -> exists k, level n l = Some k.
Proof. intros l s n m H. rewrite level_app in H. destruct (level n l); [eauto|discriminate]. Qed.

Lemma labels_steps : forall l m d, in_body d -> nest d = 1 -> line d = 0 -> labels d = [] ->
  (forall k, ~ In (E044 k) (reports d)) -> level 0 l = Some m -> labels_of l (fold_left process l d).
Proof.
  induction l as [|s l IH] using rev_ind; intros m d Hb Hn Hl HL HR Hv.
  - cbn [fold_left]. split.
    + intros n k. rewrite HL. split; [discriminate|]. intros [(s & H & _) _]. now destruct k.
    + intros k. split; [intros H; now destruct (HR k)|]. intros (n & s & j & H & _). now destruct k.
  - rewrite fold_left_app. cbn [fold_left]. destruct (level_snoc _ _ _ _ Hv) as [x Hx].
    destruct (steps_body l d 0 x Hb Hn Hx) as (Q1 & Q2 & _ & _ & Q5 & _).
    apply (labels_step l x); auto; [lia|]. apply (IH x); auto.
Qed.

(** ** Reports other than E044 *)
Definition other (r : report) : Prop := forall k, r <> E044 k.

Lemma process_other : forall d s r, in_body d -> other r -> In r (reports (process d s)) <-> In r (reports d).
Proof.
  intros d s r (H1 & H2 & H3) Ho. unfold process. rewrite H1, H2. unfold operate, sequence_symbol. cbn [reports].
  destruct (seq s); [|reflexivity]. destruct (nest d =? 1); [|reflexivity].
  destruct (lookup i (labels d)); cbn [reports]; [|reflexivity].
  rewrite in_app_iff. split; [|auto]. intros [H|[H|[]]]; [exact H|]. now destruct (Ho _ (eq_sym H)).
Qed.

Lemma steps_other : forall l d n m r, in_body d -> nest d = S n -> level n l = Some m -> other r ->
  In r (reports (fold_left process l d)) <-> In r (reports d).
Proof.
  induction l as [|s l IH] using rev_ind; intros d n m r Hb Hn Hv Ho; [reflexivity|].
  rewrite fold_left_app. cbn [fold_left]. destruct (level_snoc _ _ _ _ Hv) as [x Hx].
  destruct (steps_body l d n x Hb Hn Hx) as (Q1 & _).
  rewrite (process_other _ _ _ Q1 Ho). eapply IH; eauto.
Qed.
