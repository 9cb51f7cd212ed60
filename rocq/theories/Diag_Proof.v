From Coq Require Import List NArith Bool Permutation.
From Verif Require Import Common Lsp_Proof Diag_Model Diag_Spec.
Import ListNotations.

Section P.
  Variable D : Type.
  Fixpoint lookup (f : bytes) (m : list (bytes * list D)) : list D :=
    match m with [] => [] | (g, l) :: m' => if bytes_eqb f g then l else lookup f m' end.

  Lemma beq_sym : forall a b, bytes_eqb a b = bytes_eqb b a.
  Proof.
    intros. destruct (bytes_eqb a b) eqn:E.
    - apply bytes_eqb_eq in E. subst. now rewrite beq_refl.
    - symmetry. apply beq_false. apply beq_false in E. congruence.
  Qed.

  Lemma ltb_irrefl : forall a, bytes_ltb a a = false.
  Proof. induction a; simpl; [easy|]. now rewrite N.ltb_irrefl, N.eqb_refl, IHa. Qed.
  Lemma ltb_trans : forall a b c, bytes_ltb a b = true -> bytes_ltb b c = true -> bytes_ltb a c = true.
  Proof.
    induction a as [|x a IH]; intros [|y b] [|z c]; simpl; intros H1 H2; try easy.
    apply orb_true_iff in H1, H2. apply orb_true_iff.
    rewrite !andb_true_iff, !N.ltb_lt, !N.eqb_eq in *.
    destruct H1 as [H1|[-> H1]], H2 as [H2|[-> H2]]; try (left; eauto using N.lt_trans; fail).
    right. split; [easy|]. eauto.
  Qed.

  (** Keys are strictly ascending. *)
  Fixpoint asc (m : list (bytes * list D)) : Prop :=
    match m with [] => True | (f, _) :: m' => (forall g, In g (map fst m') -> bytes_ltb f g = true) /\ asc m' end.

  Lemma ltb_total : forall a b, bytes_ltb a b = false -> bytes_eqb a b = false -> bytes_ltb b a = true.
  Proof.
    induction a as [|x a IH]; intros [|y b]; simpl; intros H1 H2; try easy.
    apply orb_false_iff in H1 as [H1 H3]. apply N.ltb_ge in H1.
    destruct (x =? y)%N eqn:E.
    - apply N.eqb_eq in E. subst. rewrite N.eqb_refl. simpl in *. rewrite IH by easy. apply orb_true_r.
    - apply N.eqb_neq in E. apply orb_true_iff. left. apply N.ltb_lt.
      destruct (N.lt_trichotomy x y) as [L|[L|L]]; auto; [|contradiction].
      exfalso. apply (N.lt_irrefl x). eapply N.lt_le_trans; eauto.
  Qed.

  Lemma push_keys : forall f (d : D) m g, In g (map fst (push f d m)) <-> g = f \/ In g (map fst m).
  Proof.
    induction m as [|[h l] m IH]; intros g; cbn.
    - intuition.
    - destruct (bytes_eqb f h) eqn:E.
      + apply bytes_eqb_eq in E. subst. cbn. intuition.
      + destruct (bytes_ltb f h); cbn; [intuition|]. rewrite IH. intuition.
  Qed.

  Lemma push_asc : forall f (d : D) m, asc m -> asc (push f d m).
  Proof.
    induction m as [|[h l] m IH]; cbn; intros A; [easy|]. destruct A as [A1 A2].
    destruct (bytes_eqb f h) eqn:E; [cbn; easy|].
    destruct (bytes_ltb f h) eqn:L.
    - cbn. split; [|easy]. intros g [<-|I]; [easy|]. eapply ltb_trans; eauto.
    - cbn. split; [|auto]. intros g I. apply push_keys in I as [->|I]; [|auto]. now apply ltb_total.
  Qed.

  Lemma lookup_notin : forall f m, ~ In f (map fst m) -> lookup f m = [].
  Proof.
    induction m as [|[h l] m IH]; cbn; intros H; [easy|].
    destruct (bytes_eqb f h) eqn:E; [|auto]. apply bytes_eqb_eq in E. subst. intuition.
  Qed.

  Lemma push_lookup : forall f d m g, asc m ->
    lookup g (push f d m) = lookup g m ++ (if bytes_eqb f g then [d] else []).
  Proof.
    induction m as [|[h l] m IH]; intros g A; cbn.
    - rewrite beq_sym. destruct (bytes_eqb f g); easy.
    - destruct A as [A1 A2]. destruct (bytes_eqb f h) eqn:E.
      + apply bytes_eqb_eq in E. subst. cbn. rewrite (beq_sym g h).
        destruct (bytes_eqb h g); [easy|now rewrite app_nil_r].
      + destruct (bytes_ltb f h) eqn:L; cbn.
        * rewrite (beq_sym g f). destruct (bytes_eqb f g) eqn:E2; [|now rewrite app_nil_r].
          apply bytes_eqb_eq in E2. subst. rewrite E. rewrite lookup_notin; [easy|].
          intros I. apply A1 in I. pose proof (ltb_trans _ _ _ L I). now rewrite ltb_irrefl in H.
        * destruct (bytes_eqb g h) eqn:E2; [|now apply IH].
          apply bytes_eqb_eq in E2. subst. rewrite E. now rewrite app_nil_r.
  Qed.

  Lemma diags_of_app : forall (a b : list (bytes * D)) f, diags_of (a ++ b) f = diags_of a f ++ diags_of b f.
  Proof. intros. unfold diags_of. now rewrite filter_app, map_app. Qed.

  Lemma group_spec : forall (ds : list (bytes * D)),
    asc (group ds) /\ (forall f, lookup f (group ds) = diags_of ds f) /\
    (forall f, In f (map fst (group ds)) <-> In f (map fst ds)).
  Proof.
    induction ds as [|[f d] ds IH] using rev_ind; [easy|].
    unfold group in *. rewrite fold_left_app. cbn [fold_left fst snd].
    destruct IH as (A & L & K). split; [now apply push_asc|]. split; intros g.
    - rewrite push_lookup by exact A. rewrite L, diags_of_app. f_equal. unfold diags_of. cbn.
      destruct (bytes_eqb f g); easy.
    - rewrite push_keys, K, map_app, in_app_iff. cbn. intuition.
  Qed.

  Lemma view_app : forall (a b : list (bytes * list D)) u,
    client_view (a ++ b) u = fold_left (fun acc m => if bytes_eqb (fst m) u then snd m else acc) b (client_view a u).
  Proof. intros. unfold client_view. apply fold_left_app. Qed.

  Variable uri_of : bytes -> bytes.
  (** the files involved *)
  Variable ok : bytes -> Prop.
  Hypothesis inj : forall f g, ok f -> ok g -> uri_of f = uri_of g -> f = g.

  Notation upd := (fun acc m => if bytes_eqb (fst m) _ then snd m else acc).

  Lemma pub_view : forall (m : list (bytes * list D)) f acc, asc m -> (forall g, In g (map fst m) -> ok g) -> ok f ->
    fold_left (fun acc x => if bytes_eqb (fst x) (uri_of f) then snd x else acc)
      (map (fun fl => (uri_of (fst fl), snd fl)) m) acc
    = if existsb (bytes_eqb f) (map fst m) then lookup f m else acc.
  Proof.
    induction m as [|[h l] m IH]; intros f acc A Om Of; cbn; [easy|]. destruct A as [A1 A2].
    rewrite IH; [|exact A2|intros g I; apply Om; now right|exact Of].
    destruct (bytes_eqb f h) eqn:E.
    - apply bytes_eqb_eq in E. subst. rewrite beq_refl. cbn.
      destruct (existsb (bytes_eqb h) (map fst m)) eqn:X; [|easy].
      apply existsb_exists in X as (y & I & Y). apply bytes_eqb_eq in Y. subst.
      apply A1 in I. now rewrite ltb_irrefl in I.
    - cbn. assert (bytes_eqb (uri_of h) (uri_of f) = false) as ->; [|easy].
      apply beq_false. intros H. apply inj in H; [|apply Om; now left|exact Of]. subst. now rewrite beq_refl in E.
  Qed.

  Lemma clear_view : forall fs f (acc : list D), (forall g, In g fs -> ok g) -> ok f ->
    fold_left (fun acc x => if bytes_eqb (fst x) (uri_of f) then snd x else acc)
      (map (fun f => (uri_of f, [])) fs) acc
    = if existsb (bytes_eqb f) fs then [] else acc.
  Proof.
    induction fs as [|h fs IH]; intros f acc Om Of; cbn; [easy|]. rewrite IH; [|intros g I; apply Om; now right|exact Of].
    destruct (bytes_eqb f h) eqn:E.
    - apply bytes_eqb_eq in E. subst. rewrite beq_refl. cbn. now destruct (existsb _ fs).
    - cbn. assert (bytes_eqb (uri_of h) (uri_of f) = false) as ->; [|easy].
      apply beq_false. intros H. apply inj in H; [|apply Om; now left|exact Of]. subst. now rewrite beq_refl in E.
  Qed.

  Lemma existsb_in : forall f l, existsb (bytes_eqb f) l = true <-> In f l.
  Proof.
    intros. rewrite existsb_exists. split.
    - intros (x & I & E). apply bytes_eqb_eq in E. now subst.
    - intros I. exists f. split; [easy|apply beq_refl].
  Qed.

  Lemma diags_none : forall (ds : list (bytes * D)) f, ~ In f (map fst ds) -> diags_of ds f = [].
  Proof.
    intros. unfold diags_of. induction ds as [|[g d] ds IH]; cbn in *; [easy|].
    destruct (bytes_eqb g f) eqn:E; [|apply IH; intuition].
    apply bytes_eqb_eq in E. subst. intuition.
  Qed.

  Definition good_order (ord : list bytes -> list bytes) : Prop := forall l, Permutation l (ord l).

  Lemma session_view : forall (rs : list ((list bytes -> list bytes) * list (bytes * D))) prev sentb last,
    Forall (fun r => good_order (fst r)) rs ->
    Forall (fun r => forall g, In g (map fst (snd r)) -> ok g) rs -> (forall g, In g (map fst prev) -> ok g) ->
    (forall f, ok f -> client_view sentb (uri_of f) = diags_of prev f) ->
    (forall f, In f last <-> In f (map fst prev)) ->
    forall f, ok f -> client_view (sentb ++ session uri_of last rs) (uri_of f)
              = diags_of (fold_left (fun _ r => snd r) rs prev) f.
  Proof.
    induction rs as [|[ord ds] rs IH]; intros prev sentb last G Or Op V L f Of; cbn [session fold_left].
    - rewrite app_nil_r. now apply V.
    - inversion G; subst. apply Forall_cons_iff in Or as (Od & Or). cbn [fst snd] in *. destruct (consume uri_of ord last ds) as [ms last'] eqn:E.
      rewrite app_assoc. apply IH; auto.
      + intros g Og. unfold consume in E. injection E as <- <-.
        destruct (group_spec ds) as (A & Lk & K).
        rewrite view_app, fold_left_app, pub_view; [|exact A|intros y I; apply Od; now apply K|exact Og].
        rewrite clear_view; [|intros y I; eapply Permutation_in in I; [|apply Permutation_sym, H1]; apply filter_In in I as [I _]; apply Op; now apply L|exact Og].
        rewrite Lk.
        destruct (existsb (bytes_eqb g) (ord _)) eqn:X.
        * apply existsb_in in X. eapply Permutation_in in X; [|apply Permutation_sym, H1].
          apply filter_In in X as [_ X]. apply negb_true_iff in X.
          symmetry. apply diags_none. intros I. apply K in I. apply existsb_in in I. congruence.
        * destruct (existsb (bytes_eqb g) (map fst (group ds))) eqn:Y; [easy|].
          assert (N : ~ In g (map fst ds)).
          { intros I. apply K in I. apply existsb_in in I. congruence. }
          rewrite (diags_none ds) by exact N. rewrite (V g Og). apply diags_none.
          intros I. apply L in I.
          assert (Z : In g (ord (filter (fun f => negb (existsb (bytes_eqb f) (map fst (group ds)))) last))).
          { eapply Permutation_in; [apply H1|]. apply filter_In. split; [easy|]. now rewrite Y. }
          apply existsb_in in Z. congruence.
      + intros g. unfold consume in E. injection E as <- <-. apply group_spec.
  Qed.
End P.
