(** * Scopes, references, definitions and completion *)
From Coq Require Import List Arith Bool Lia Permutation ZifyBool ZifyNat.
From Verif Require Import Nav_Model Nav_Spec Nav_Proof Nav_Ctx.
Import ListNotations.

(** ** Scopes *)
Lemma described_slices : forall m f ps xs, described m f ps xs ->
  (forall g t, slice_of m g t -> g = f /\ owner t = mac_id m) /\
  (forall l, own_line (line (position (named m))) xs l <-> exists t, slice_of m f t /\ shows t l).
Proof.
  intros m f ps xs (B & O & C & I & N).
  destruct (slices_lines f ps xs m (line (position (named m))) O C I B eq_refl) as (ss & ts & S & T & W & L).
  assert (E : forall g t, slice_of m g t <-> g = f /\ In t ts).
  { intros g t. unfold slice_of. rewrite S. split.
    - intros (ss' & ts' & [H|[]] & H2 & H3). injection H as <- <-. rewrite T in H2. injection H2 as <-. auto.
    - intros [-> H]. exists ss, ts. cbn. auto. }
  split.
  - intros g t H. apply E in H. destruct H as [-> H]. auto.
  - intros l. rewrite (L l). unfold shows. split; intros (t & A & D); exists t; [rewrite E|rewrite E in A]; tauto.
Qed.

Section Context.
Variables (l : list addition) (f : file) (o : opencode_info) (c' : context).
Hypothesis added : add_opencode f o (build l) = Some c'.

Lemma scope_sound : (forall m, In m (macros (build l)) -> exists g ps xs, described m g ps xs) ->
  forall g p k, scope_at c' g p = Some k -> exists m, In m (macros (build l)) /\ mac_id m = k /\ owns m g (line p).
Proof.
  intros D g p k H. unfold scope_at in H.
  destruct (opencode_files f o (build l) c' g (build_fresh l) added) as (_ & _ & F).
  destruct (lookup g (files c')) as [i|]; [|discriminate]. destruct F as (_ & F1 & _).
  destruct (find_scope_some _ _ _ H) as (t & I & S & W).
  destruct (F1 t I) as (m & M & T). destruct (D m M) as (h & ps & xs & DE).
  destruct (described_slices m h ps xs DE) as [A B]. destruct (A g t T) as [E V]. subst h.
  exists m. split; [exact M|]. split; [congruence|]. exists ps, xs. split; [exact DE|]. apply B. exists t. auto.
Qed.

Lemma scope_complete : forall m g p, In m (macros (build l)) -> owns m g (line p) -> lookup g (files c') <> None ->
  scope_at c' g p <> None.
Proof.
  intros m g p M (ps & xs & DE & O) L H. unfold scope_at in H.
  destruct (opencode_files f o (build l) c' g (build_fresh l) added) as (_ & _ & F).
  destruct (lookup g (files c')) as [i|]; [|congruence]. destruct F as (_ & _ & F2).
  destruct (described_slices m g ps xs DE) as [A B]. apply B in O. destruct O as (t & T & S).
  apply (find_scope_none _ _ H). apply (F2 m t (line p) M T S).
Qed.

Lemma ids : forall m, In m (macros (build l)) -> get_macro (mac_id m) (macros c') = Some m.
Proof.
  intros m M. destruct (opencode_files f o (build l) c' 0 (build_fresh l) added) as (-> & _ & _).
  apply get_macro_in; [|exact M]. apply build_fresh.
Qed.

(** ** References *)
Lemma in_range_covers : forall p x, in_range p x = true <-> covers x p.
Proof. intros [a b] [k n oc [c d] [e g]]. unfold in_range, pos_leb, covers, before. cbn [from upto line column]. lia. Qed.
Lemma similar_same : forall a b, similar a b = true <-> same_symbol a b.
Proof.
  intros [k n oc u v] [k' n' oc' u' v']. unfold similar, same_symbol. cbn [kind_of symbol opcode].
  rewrite !andb_true_iff, Nat.eqb_eq. split.
  - intros [[A ->] B]. destruct k, k'; try discriminate; destruct oc, oc'; cbn in B; try discriminate; try (apply Nat.eqb_eq in B; subst); auto.
  - intros (-> & -> & ->). split; [split; [destruct k'; reflexivity|reflexivity]|]. destruct oc'; cbn; [apply Nat.eqb_refl|reflexivity].
Qed.
Lemma in_collect : forall x fo q g, In (Loc q g) (collect x fo) <-> exists y, recorded fo g y /\ same_symbol x y /\ from y = q.
Proof.
  intros x fo q g. unfold collect. rewrite in_flat_map. split.
  - intros ([h os] & I & J). apply in_map_iff in J. destruct J as (y & E & F). injection E as E1 E2.
    apply filter_In in F. destruct F as [F1 F2]. exists y. cbn in *. subst h. split; [exists os; auto|]. split; [apply similar_same; exact F2|exact E1].
  - intros (y & (os & I & J) & S & E). exists (g, os). split; [exact I|]. apply in_map_iff. exists y. cbn. split; [congruence|].
    apply filter_In. split; [exact J|]. apply similar_same. exact S.
Qed.

(** All that is recorded in a file. *)
Local Notation present := (Nav_Spec.present l o).
Local Notation in_scope := (Nav_Spec.in_scope l o).

Lemma find_occ_spec : forall g p, lookup g (files c') <> None ->
  match find_occ c' g p with
  | None => forall x, present g x -> ~ covers x p
  | Some (x, sc) => present g x /\ covers x p /\ sc = scope_at c' g p
  end.
Proof.
  intros g p L. unfold find_occ, scope_at.
  destruct (opencode_files f o (build l) c' g (build_fresh l) added) as (_ & _ & F).
  destruct (lookup g (files c')) as [i|]; [|congruence]. destruct F as (F0 & _ & _).
  destruct (find (in_range p) (occs i)) as [x|] eqn:E.
  - apply find_some in E. destruct E as [E1 E2]. split; [apply F0; exact E1|]. split; [apply in_range_covers; exact E2|reflexivity].
  - intros x P C. apply F0 in P. pose proof (find_none _ _ E x P) as N. apply in_range_covers in C. congruence.
Qed.
Lemma unknown_file : forall g p, lookup g (files c') = None -> find_occ c' g p = None.
Proof. intros g p L. unfold find_occ. rewrite L. reflexivity. Qed.

Lemma scope_macro : forall g p k, scope_at c' g p = Some k -> exists m, In m (macros (build l)) /\ mac_id m = k.
Proof.
  intros g p k H. unfold scope_at in H.
  destruct (opencode_files f o (build l) c' g (build_fresh l) added) as (_ & _ & F).
  destruct (lookup g (files c')) as [i|]; [|discriminate]. destruct F as (_ & F1 & _).
  destruct (find_scope_some _ _ _ H) as (t & I & S & W). destruct (F1 t I) as (m & M & ss & ts & _ & T & J).
  exists m. split; [exact M|]. subst k. clear - T J. revert ts T J. induction ss as [|s r IH]; intros ts T J; cbn in T.
  - injection T as <-. destruct J.
  - destruct (transform m s) as [a|] eqn:E; [|discriminate]. destruct (transform_all m r) as [b|]; [|discriminate].
    injection T as <-. destruct J as [<-|J]; [|eapply IH; eauto]. unfold transform in E.
    destruct (if first s =? 0 then _ else _); [|discriminate]. destruct (if after s =? _ then _ else _); [|discriminate].
    injection E as <-. reflexivity.
Qed.

Lemma references_spec : forall g p, exists ls, references c' g p = Some ls /\
  ((ls = [] /\ forall x, present g x -> lookup g (files c') <> None -> ~ covers x p) \/
   (exists x, present g x /\ covers x p /\
      forall q h, In (Loc q h) ls <-> exists y, in_scope x (scope_at c' g p) h y /\ same_symbol x y /\ from y = q)).
Proof.
  intros g p. destruct (opencode_files f o (build l) c' g (build_fresh l) added) as (M & O & _).
  destruct (lookup g (files c')) as [i0|] eqn:L.
  2:{ exists []. unfold references. rewrite (unknown_file g p L). split; [reflexivity|]. left. split; [reflexivity|]. intros x _ H. congruence. }
  pose proof (find_occ_spec g p ltac:(congruence)) as F. unfold references.
  destruct (find_occ c' g p) as [[x sc]|].
  2:{ exists []. split; [reflexivity|]. left. split; [reflexivity|]. intros x P _. auto. }
  destruct F as (P & C & ->). rewrite O, M.
  assert (ALL : exists ls, Some (flat_map (fun m => collect x (mac_occs m)) (macros (build l)) ++ collect x (open_occs o)) = Some ls /\
     forall q h, In (Loc q h) ls <-> exists y, present h y /\ same_symbol x y /\ from y = q).
  { eexists. split; [reflexivity|]. intros q h. rewrite in_app_iff, in_flat_map, in_collect. unfold present. split.
    - intros [(m & Hm & H)|(y & H)]; [apply in_collect in H; destruct H as (y & H)|]; exists y; [|tauto].
      split; [left; exists m|]; tauto.
    - intros (y & [(m & Hm & H)|H] & S); [left; exists m; split; [exact Hm|]; apply in_collect|right]; exists y; tauto. }
  assert (GO : forall ls (Q : file -> occ -> Prop), (forall q h, In (Loc q h) ls <-> exists y, Q h y /\ same_symbol x y /\ from y = q) ->
    (forall h y, Q h y <-> in_scope x (scope_at c' g p) h y) ->
    (ls = [] /\ forall z, present g z -> Some i0 <> None -> ~ covers z p) \/
    exists z, present g z /\ covers z p /\ forall q h, In (Loc q h) ls <-> exists y, in_scope z (scope_at c' g p) h y /\ same_symbol z y /\ from y = q).
  { intros ls Q H1 H2. right. exists x. split; [exact P|]. split; [exact C|]. intros q h. rewrite (H1 q h).
    split; intros (y & A & B); exists y; [rewrite <- H2|rewrite H2]; tauto. }
  destruct (scoped x) eqn:S.
  - destruct (scope_at c' g p) as [k|] eqn:SC.
    + destruct (scope_macro g p k SC) as (m & Hm & <-). rewrite <- M, (ids m Hm). eexists. split; [reflexivity|].
      apply (GO _ (fun h y => recorded (mac_occs m) h y)); [intros q h; apply in_collect|].
      intros h y. unfold in_scope. unfold scoped in S. destruct (kind_of x); try discriminate;
        (split; [intros R; exists m; auto|intros (m' & Hm' & E & R)];
         assert (m' = m) by (pose proof (ids m' Hm') as Q1; rewrite E, (ids m Hm) in Q1; congruence); subst; exact R).
    + eexists. split; [reflexivity|]. apply (GO _ (fun h y => recorded (open_occs o) h y)); [intros q h; apply in_collect|].
      intros h y. unfold in_scope. unfold scoped in S. destruct (kind_of x); try discriminate; tauto.
  - destruct ALL as (ls & E & H). exists ls. split; [exact E|]. apply (GO _ (fun h y => present h y)); [exact H|].
    intros h y. unfold in_scope. unfold scoped in S. destruct (kind_of x); try discriminate; tauto.
Qed.

(** Completion and definition use nothing that is not there. *)
Lemma completion_spec : forall g p i, lookup g (files c') = Some i ->
  complete_var c' g p = Some (match scope_at c' g p with
    | Some k => match get_macro k (macros (build l)) with Some m => map vname (vars (body m)) | None => [] end
    | None => map fst (open_vars o) end) /\
  complete_seq c' g p = Some (match scope_at c' g p with
    | Some k => match get_macro k (macros (build l)) with Some m => map fst (labels (body m)) | None => [] end
    | None => map fst (sequence o) end).
Proof.
  intros g p i L. destruct (opencode_files f o (build l) c' g (build_fresh l) added) as (M & O & _).
  unfold complete_var, complete_seq. pose proof (scope_macro g p) as SM. unfold scope_at in *. rewrite L in *.
  destruct (find_scope (line p) (slices i)) as [k|].
  - destruct (SM k eq_refl) as (m & Hm & <-). rewrite <- M, (ids m Hm). auto.
  - rewrite O. auto.
Qed.
End Context.
