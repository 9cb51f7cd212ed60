From Coq Require Import List NArith Arith Bool Lia Permutation.
From Verif Require Import Common Route_Model Route_Spec.
Import ListNotations.

Lemma bspec : forall a b, reflect (a = b) (bytes_eqb a b).
Proof. intros a b. destruct (bytes_eqb a b) eqn:E; constructor.
  - apply bytes_eqb_eq. exact E.
  - intros H. apply bytes_eqb_eq in H. congruence. Qed.

(** [prefix_match] is the length of the longest common prefix. *)
Lemma prefix_match_common : forall a b n, n <= prefix_match a b ->
  firstn n a = firstn n b /\ n <= length a /\ n <= length b.
Proof.
  induction a as [|x a IH]; intros [|y b] n H; cbn [prefix_match] in H; try (assert (n = 0) by lia; subst; cbn; auto with arith; fail).
  destruct (N.eqb_spec x y) as [->|N].
  - destruct n as [|n]; [cbn; auto with arith|]. destruct (IH b n) as (A & B & C); [lia|].
    cbn. rewrite A. repeat split; lia.
  - assert (n = 0) by lia. subst. cbn. auto with arith.
Qed.
Lemma prefix_match_max : forall a b n, n <= length a -> n <= length b -> firstn n a = firstn n b ->
  n <= prefix_match a b.
Proof.
  induction a as [|x a IH]; intros [|y b] n Ha Hb H; cbn [length] in *; try lia.
  destruct n as [|n]; [lia|]. cbn [firstn] in H. injection H as -> H. cbn [prefix_match]. rewrite N.eqb_refl.
  apply le_n_S. apply IH; [lia|lia|exact H].
Qed.
Lemma prefix_match_prefix : forall d p, prefix_match d p >= length p <-> prefix p d.
Proof.
  intros d p. split.
  - intros H. destruct (prefix_match_common d p (length p)) as (A & B & C); [lia|].
    exists (skipn (length p) d). rewrite <- (firstn_skipn (length p) d) at 1. rewrite A, firstn_all. reflexivity.
  - intros [r ->]. apply prefix_match_max; [rewrite app_length; lia|lia|].
    rewrite firstn_app, firstn_all, Nat.sub_diag. cbn. rewrite app_nil_r. reflexivity.
Qed.
Lemma prefix_match_le : forall a b, prefix_match a b <= length b.
Proof. intros a b. apply (prefix_match_common a b (prefix_match a b)). lia. Qed.

(** What the scan returns. *)
Definition fits (doc : bytes) (w : ws) : Prop :=
  0 < prefix_match doc (snd w) /\ length (fst w) <= prefix_match doc (snd w).

Lemma scan_spec : forall doc t max best r, scan doc t max best = r ->
  (r = best /\ forall w, In w t -> fits doc w -> prefix_match doc (snd w) <= max)
  \/ (exists w, r = Some w /\ In w t /\ fits doc w /\ max < prefix_match doc (snd w)
      /\ forall w', In w' t -> fits doc w' -> prefix_match doc (snd w') <= prefix_match doc (snd w)).
Proof.
  intros doc t. induction t as [|w t IH]; intros max best r H; cbn [scan] in H.
  - left. split; [auto|]. intros w [].
  - cbv zeta in H. destruct (Nat.ltb max (prefix_match doc (snd w)) && Nat.leb (length (fst w)) (prefix_match doc (snd w))) eqn:E.
    + apply andb_true_iff in E as [E1 E2]. apply Nat.ltb_lt in E1. apply Nat.leb_le in E2. right.
      destruct (IH _ _ _ H) as [[K1 K2]|(w1 & K1 & K2 & K3 & K4 & K5)].
      * exists w. split; [exact K1|]. split; [left; reflexivity|]. split; [split; lia|]. split; [exact E1|].
        intros w' [<-|Hin] F; [lia|auto].
      * exists w1. split; [exact K1|]. split; [right; exact K2|]. split; [exact K3|]. split; [lia|].
        intros w' [<-|Hin] F; [lia|auto].
    + apply andb_false_iff in E.
      assert (Hw : fits doc w -> prefix_match doc (snd w) <= max).
      { intros [F1 F2]. destruct E as [E|E]; [apply Nat.ltb_ge in E; exact E|apply Nat.leb_gt in E; lia]. }
      destruct (IH _ _ _ H) as [[K1 K2]|(w1 & K1 & K2 & K3 & K4 & K5)].
      * left. split; [exact K1|]. intros w' [<-|Hin] F; auto.
      * right. exists w1. split; [exact K1|]. split; [right; exact K2|]. split; [exact K3|]. split; [exact K4|].
        intros w' [<-|Hin] F; [specialize (Hw F); lia|auto].
Qed.

Lemma match_spec : forall t doc,
  match ws_path_match t doc with
  | Some w => In w t /\ fits doc w
      /\ forall w', In w' t -> fits doc w' -> prefix_match doc (snd w') <= prefix_match doc (snd w)
  | None => forall w, In w t -> ~ fits doc w
  end.
Proof.
  intros t doc. unfold ws_path_match. destruct (scan_spec doc t 0 None _ eq_refl) as [[K1 K2]|(w & K1 & K2 & K3 & K4 & K5)].
  - rewrite K1. intros w Hin F. specialize (K2 w Hin F). destruct F. lia.
  - rewrite K1. auto.
Qed.

(** Tables with paths as keys. *)
Definition keyed (t : table) : Prop := forall w, In w t -> fst w = snd w.

Lemma has_key_spec : forall k t, has_key k t = true <-> exists w, In w t /\ fst w = k.
Proof.
  intros k t. unfold has_key. rewrite existsb_exists. split; intros (w & H1 & H2); exists w; split; auto.
  - apply bytes_eqb_eq. exact H2.
  - apply bytes_eqb_eq. exact H2.
Qed.

Lemma keyed_add : forall t p, keyed t -> keyed (add_workspace t p p)
  /\ forall q, In (q, q) (add_workspace t p p) <-> In (q, q) t \/ q = p.
Proof.
  intros t p H. unfold add_workspace. destruct (has_key p t) eqn:E.
  - split; [exact H|]. intros q. split; [auto|]. intros [K| ->]; [exact K|].
    apply has_key_spec in E as ([a b] & Hin & Ew). pose proof (H _ Hin) as K. cbn in *. subst. exact Hin.
  - split.
    + intros w Hw. apply in_app_iff in Hw as [Hw|[<-|[]]]; [auto|reflexivity].
    + intros q. rewrite in_app_iff. cbn. split.
      * intros [K|[K|[]]]; [auto|]. injection K. auto.
      * intros [K| ->]; auto.
Qed.
Lemma keyed_remove : forall t p, keyed t -> keyed (remove_workspace t p)
  /\ forall q, In (q, q) (remove_workspace t p) <-> In (q, q) t /\ q <> p.
Proof.
  intros t p H. unfold remove_workspace. split.
  - intros w Hw. apply filter_In in Hw as [Hw _]. auto.
  - intros q. rewrite filter_In. cbn. rewrite negb_true_iff. destruct (bspec q p); intuition congruence.
Qed.

Lemma keyed_adds : forall l t, keyed t -> (forall a, In a l -> fst a = snd a) ->
  keyed (fold_left (fun t a => add_workspace t (fst a) (snd a)) l t)
  /\ forall q, In (q, q) (fold_left (fun t a => add_workspace t (fst a) (snd a)) l t) <-> In (q, q) t \/ In q (map snd l).
Proof.
  induction l as [|[a b] l IH]; intros t H Hl; cbn [fold_left map fst snd].
  - split; [exact H|]. intros q. cbn. tauto.
  - pose proof (Hl (a, b) (or_introl eq_refl)) as E. cbn in E. subst b.
    destruct (keyed_add t a H) as [K1 K2]. destruct (IH (add_workspace t a a) K1) as [K3 K4].
    { intros x Hx. apply Hl. right. exact Hx. }
    split; [exact K3|]. intros q. rewrite K4, K2. cbn [In]. intuition.
Qed.
Lemma keyed_removes : forall l t, keyed t ->
  keyed (fold_left remove_workspace l t)
  /\ forall q, In (q, q) (fold_left remove_workspace l t) <-> In (q, q) t /\ ~ In q l.
Proof.
  induction l as [|a l IH]; intros t H; cbn [fold_left].
  - split; [exact H|]. intros q. cbn. tauto.
  - destruct (keyed_remove t a H) as [K1 K2]. destruct (IH _ K1) as [K3 K4].
    split; [exact K3|]. intros q. rewrite K4, K2. cbn [In]. intuition.
Qed.

Lemma existsb_in : forall p l, existsb (bytes_eqb p) l = true <-> In p l.
Proof.
  intros p l. rewrite existsb_exists. split.
  - intros (x & H1 & H2). apply bytes_eqb_eq in H2. subst. exact H1.
  - intros H. exists p. split; [exact H|]. apply bytes_eqb_eq. reflexivity.
Qed.

Lemma folders_app : forall ops o, folders (ops ++ [o]) = folders_step (folders ops) o.
Proof. intros. unfold folders. rewrite fold_left_app. reflexivity. Qed.

Lemma reach_keyed : forall ops t, reach ops t -> Forall by_path ops ->
  keyed t /\ forall p, In (p, p) t <-> In p (folders ops).
Proof.
  intros ops t H. induction H as [|ops t o t' Hr IH Hp]; intros Hall.
  - split; [intros w []|]. intros p. cbn. tauto.
  - apply Forall_app in Hall as [H1 H2]. inversion_clear H2 as [|? ? H3 _].
    destruct (IH H1) as [K1 K2].
    assert (G : keyed (fstep t o) /\ forall p, In (p, p) (fstep t o) <-> In p (folders (ops ++ [o]))).
    { rewrite folders_app. destruct o as [added removed|uri path|path]; cbn [fstep folders_step by_path] in *.
      - destruct (keyed_removes removed t K1) as [R1 R2]. destruct (keyed_adds added _ R1 H3) as [A1 A2].
        split; [exact A1|]. intros p. rewrite A2, R2, K2, in_app_iff, filter_In, negb_true_iff.
        destruct (existsb (bytes_eqb p) removed) eqn:E.
        + apply existsb_in in E. intuition congruence.
        + assert (~ In p removed) by (intros X; apply existsb_in in X; congruence). intuition.
      - subst uri. destruct (keyed_add t path K1) as [A1 A2]. split; [exact A1|]. intros p.
        rewrite A2, K2, in_app_iff. cbn. intuition.
      - destruct (keyed_add t path K1) as [A1 A2]. split; [exact A1|]. intros p.
        rewrite A2, K2, in_app_iff. cbn. intuition. }
    destruct G as [G1 G2]. split.
    + intros w Hw. apply G1. eapply Permutation_in; eauto.
    + intros p. rewrite <- G2. split; apply Permutation_in; [exact Hp|apply Permutation_sym; exact Hp].
Qed.

Lemma prefix_length : forall p q d, prefix p d -> prefix q d -> length p <= length q -> prefix p q.
Proof.
  intros p q d Hp Hq Hl. apply prefix_match_prefix. apply prefix_match_prefix in Hp, Hq.
  destruct (prefix_match_common d p (length p)) as (A & _); [lia|].
  destruct (prefix_match_common d q (length p)) as (B & _); [lia|].
  unfold ge. apply prefix_match_max; [lia|lia|]. congruence.
Qed.
Lemma prefix_same_length : forall p q d, prefix p d -> prefix q d -> length p = length q -> p = q.
Proof.
  intros p q d Hp Hq Hl. destruct (prefix_length p q d Hp Hq) as [r E]; [lia|].
  rewrite E in Hl. rewrite app_length in Hl. destruct r; [|cbn in Hl; lia]. rewrite E, app_nil_r. reflexivity.
Qed.
