From Coq Require Import List NArith Arith Bool Lia Sorting.Sorted.
From Coq Require Import ZifyBool ZifyNat ZifyN.
From Verif Require Import Common Wild_Model Wild_Spec Wild_Proof Conf_Model Conf_Spec.
Import ListNotations.

(** ** Extensions *)
Lemma in_insert : forall lt x l y, In y (insert lt x l) <-> y = x \/ In y l.
Proof.
  intros lt x l y. induction l as [|z l IH]; cbn [insert].
  - cbn. intuition.
  - destruct (lt z x); cbn [In]; rewrite ?IH; intuition.
Qed.

Lemma in_sort : forall lt l y, In y (sort lt l) <-> In y l.
Proof.
  intros lt l y. induction l as [|x l IH]; [reflexivity|].
  cbn [sort fold_right In]. fold (sort lt l). rewrite in_insert, IH. intuition.
Qed.

Lemma unique_cons2 : forall x z l,
  unique (x :: z :: l) = if bytes_eqb x z then unique (z :: l) else x :: unique (z :: l).
Proof. reflexivity. Qed.

Lemma in_unique : forall l y, In y (unique l) <-> In y l.
Proof.
  induction l as [|x l IH]; intros y; [reflexivity|].
  destruct l as [|z l]; [reflexivity|].
  rewrite unique_cons2. destruct (bytes_eqb x z) eqn:E.
  - apply bytes_eqb_eq in E. subst z. rewrite IH. cbn [In]. intuition.
  - cbn [In]. cbn [In] in IH. rewrite IH. reflexivity.
Qed.

Definition longer (a b : bytes) : Prop := (length b <= length a)%nat.

Lemma sorted_insert : forall x l, StronglySorted longer l -> StronglySorted longer (insert ext_before x l).
Proof.
  intros x l H. induction H as [|z l H IH F]; cbn [insert].
  - constructor; [constructor|constructor].
  - destruct (ext_before z x) eqn:E.
    + constructor; [exact IH|]. apply Forall_forall. intros y Hy. apply in_insert in Hy as [->|Hy].
      * unfold ext_before in E. unfold longer.
        destruct (Nat.ltb_spec (length x) (length z)); [lia|].
        destruct (Nat.ltb_spec (length z) (length x)); [discriminate|lia].
      * rewrite Forall_forall in F. auto.
    + assert (Hx : longer x z).
      { unfold ext_before in E. unfold longer.
        destruct (Nat.ltb_spec (length x) (length z)); [discriminate|lia]. }
      constructor; [constructor; assumption|]. constructor; [exact Hx|].
      rewrite Forall_forall in *. intros y Hy. specialize (F y Hy). unfold longer in *. lia.
Qed.

Lemma sorted_sort : forall l, StronglySorted longer (sort ext_before l).
Proof.
  induction l as [|x l IH]; [constructor|].
  cbn [sort fold_right]. apply sorted_insert. exact IH.
Qed.

Lemma sorted_unique : forall l, StronglySorted longer l -> StronglySorted longer (unique l).
Proof.
  intros l H. induction H as [|x l H IH F]; [constructor|].
  destruct l as [|z l]; [constructor; [constructor|constructor]|].
  rewrite unique_cons2. destruct (bytes_eqb x z); [exact IH|].
  constructor; [exact IH|]. apply Forall_forall. intros y Hy. rewrite in_unique in Hy.
  rewrite Forall_forall in F. auto.
Qed.

Lemma sorted_app_nil : forall l, StronglySorted longer l -> StronglySorted longer (l ++ [[]]).
Proof.
  intros l H. induction H as [|x l H IH F]; cbn [app].
  - constructor; [constructor|constructor].
  - constructor; [exact IH|]. rewrite Forall_forall in *. intros y Hy.
    apply in_app_or in Hy as [Hy|[<-|[]]]; [auto|]. unfold longer. cbn. lia.
Qed.

Lemma dotted_with_dot : forall e, dotted e = with_dot e.
Proof. intros [|c e]; reflexivity. Qed.

(** The extensions a library works with, seen as a set. *)
Definition effective (exts : list bytes) (deprecated : bool) : list bytes :=
  match exts with [] => [] | _ => if deprecated then exts ++ [[]] else exts end.

Lemma adjust_sorted : forall exts d, StronglySorted longer (adjust_extensions exts d).
Proof.
  intros exts d. unfold adjust_extensions. apply sorted_unique.
  destruct (d && _)%bool; [apply sorted_app_nil|]; apply sorted_sort.
Qed.

Lemma adjust_in : forall exts d e, exts <> [] ->
  (In e (adjust_extensions exts d) <-> exists e0, In e0 (effective exts d) /\ e = with_dot e0).
Proof.
  intros exts d e Hne. unfold adjust_extensions. rewrite in_unique.
  assert (Hs : forall x, In x (sort ext_before (map dotted exts)) <-> exists e0, In e0 exts /\ x = with_dot e0).
  { intros x. rewrite in_sort, in_map_iff. split; intros (y & H1 & H2).
    - exists y. rewrite <- dotted_with_dot. auto.
    - exists y. rewrite dotted_with_dot. auto. }
  unfold effective. destruct exts as [|x0 exts0] eqn:Ex; [contradiction|]. rewrite <- Ex in *. clear Hne.
  destruct d; cbn [andb].
  - destruct (existsb _ exts) eqn:E; cbn [negb].
    + rewrite Hs. split; intros (e0 & H1 & H2); exists e0; (split; [|exact H2]).
      * apply in_or_app. auto.
      * apply in_app_or in H1 as [H1|[<-|[]]]; [exact H1|].
        apply existsb_exists in E as ([|c y] & Hy & E2); [exact Hy|discriminate].
    + split.
      * intros H. apply in_app_or in H as [H|[<-|[]]].
        -- apply Hs in H as (e0 & H1 & H2). exists e0. split; [apply in_or_app; auto|exact H2].
        -- exists []. split; [apply in_or_app; right; left; reflexivity|reflexivity].
      * intros (e0 & H1 & H2). apply in_or_app. apply in_app_or in H1 as [H1|[<-|[]]].
        -- left. apply Hs. exists e0. auto.
        -- right. left. symmetry. exact H2.
  - apply Hs.
Qed.

Lemma adjust_nonempty : forall exts d, exts <> [] -> adjust_extensions exts d <> [].
Proof.
  intros exts d Hne. destruct exts as [|x exts]; [contradiction|].
  assert (H : In (with_dot x) (adjust_extensions (x :: exts) d)).
  { apply adjust_in; [discriminate|]. exists x. split; [|reflexivity].
    unfold effective. destruct d; cbn; auto. }
  intros E. rewrite E in H. exact H.
Qed.

Lemma strip_ext_spec : forall f e stem, strip_ext f e = Some stem <-> f = stem ++ e /\ stem <> [].
Proof.
  intros f e stem. unfold strip_ext. destruct (Nat.leb_spec (length f) (length e)) as [L|L].
  - split; [discriminate|]. intros [-> H]. rewrite app_length in L.
    destruct stem; [contradiction|cbn in L; lia].
  - destruct (bytes_eqb _ e) eqn:E.
    + apply bytes_eqb_eq in E. split.
      * intros H. injection H as <-. split.
        -- rewrite <- E at 2. symmetry. apply firstn_skipn.
        -- intros H. apply (f_equal (@length N)) in H. rewrite firstn_length in H. cbn in H. lia.
      * intros [-> H]. f_equal. rewrite app_length.
        replace (length stem + length e - length e)%nat with (length stem) by lia.
        rewrite firstn_app, Nat.sub_diag. cbn. rewrite app_nil_r. apply firstn_all.
    + split; [discriminate|]. intros [-> H]. exfalso.
      rewrite app_length in E. replace (length stem + length e - length e)%nat with (length stem) in E by lia.
      rewrite skipn_app, skipn_all, Nat.sub_diag in E. cbn in E.
      assert (bytes_eqb e e = true) by (apply bytes_eqb_eq; reflexivity). congruence.
Qed.

Lemma first_ext_some : forall exts f stem, StronglySorted longer exts ->
  first_ext exts f = Some stem ->
  exists e, In e exts /\ f = stem ++ e /\ stem <> []
    /\ forall e' stem', In e' exts -> f = stem' ++ e' -> stem' <> [] -> (length e' <= length e)%nat.
Proof.
  intros exts f stem HS. induction HS as [|e exts HS IH F]; cbn [first_ext]; [discriminate|].
  destruct (strip_ext f e) as [s|] eqn:E.
  - intros H. injection H as <-. apply strip_ext_spec in E as [E1 E2]. exists e.
    split; [left; reflexivity|]. split; [exact E1|]. split; [exact E2|].
    intros e' stem' [<-|Hin] _ _; [lia|]. rewrite Forall_forall in F. apply F. exact Hin.
  - intros H. destruct (IH H) as (e0 & H1 & H2 & H3 & H4). exists e0.
    split; [right; exact H1|]. split; [exact H2|]. split; [exact H3|].
    intros e' stem' [<-|Hin] Hf Hs; [|eauto].
    assert (strip_ext f e = Some stem') by (apply strip_ext_spec; auto). congruence.
Qed.

Lemma first_ext_none : forall exts f, first_ext exts f = None ->
  forall e stem, In e exts -> f = stem ++ e -> stem <> [] -> False.
Proof.
  induction exts as [|e0 exts IH]; intros f H e stem Hin Hf Hs; [exact Hin|].
  cbn [first_ext] in H. destruct (strip_ext f e0) as [s|] eqn:E; [discriminate|].
  destruct Hin as [<-|Hin]; [|eapply IH; eauto].
  assert (strip_ext f e0 = Some stem) by (apply strip_ext_spec; auto). congruence.
Qed.

(** The member name computed for a file. *)
Definition member_of (l : library) (f : bytes) : option bytes :=
  match l_exts l with
  | [] => Some (to_upper f)
  | _ => match first_ext (l_exts l) f with Some s => Some (to_upper s) | None => None end
  end.

Lemma member_of_provides : forall path exts d f m,
  member_of (mk_library path exts d) f = Some m <-> provides (effective exts d) f m.
Proof.
  intros path exts d f m. unfold member_of, mk_library, provides. cbn [l_exts].
  destruct exts as [|x exts0] eqn:Ex; cbn [effective].
  - split; [intros H; injection H as <-; reflexivity|intros ->; reflexivity].
  - rewrite <- Ex.
    assert (Hne : exts <> []) by (rewrite Ex; discriminate).
    assert (He : effective exts d = if d then exts ++ [[]] else exts).
    { unfold effective. rewrite Ex. reflexivity. }
    rewrite <- He.
    destruct (adjust_extensions exts d) as [|a adj] eqn:Ea; [exfalso; eapply adjust_nonempty; eauto|].
    rewrite <- Ea.
    destruct (effective exts d) as [|y eff] eqn:Ee.
    { exfalso. unfold effective in Ee. rewrite Ex in Ee. destruct d; discriminate. }
    rewrite <- Ee.
    pose proof (adjust_sorted exts d) as HS.
    destruct (first_ext (adjust_extensions exts d) f) as [s|] eqn:E.
    + destruct (first_ext_some _ _ _ HS E) as (e & H1 & H2 & H3 & H4).
      apply adjust_in in H1; [|exact Hne]. destruct H1 as (e0 & H1 & He0). split.
      * intros H. injection H as <-. exists s, e0. rewrite <- He0.
        split; [exact H2|]. split; [exact H3|]. split; [exact H1|]. split; [reflexivity|].
        intros stem' e' Hf Hs Hin. eapply H4; eauto. apply adjust_in; [exact Hne|]. exists e'. auto.
      * intros (stem & e1 & K1 & K2 & K3 & -> & K5). f_equal.
        assert (L1 : (length e <= length (with_dot e1))%nat).
        { subst e. eapply K5; [exact H2|exact H3|exact H1]. }
        assert (L2 : (length (with_dot e1) <= length e)%nat).
        { eapply H4; [|exact K1|exact K2]. apply adjust_in; [exact Hne|]. exists e1. auto. }
        assert (Es : s = stem).
        { assert (Hl : length s = length stem).
          { pose proof (f_equal (@length N) K1) as A. rewrite H2, !app_length in A. lia. }
          rewrite H2 in K1. clear - K1 Hl. revert stem K1 Hl. induction s as [|c s IH]; intros [|c' stem] K Hl; try discriminate; [reflexivity|].
          cbn [app] in K. injection K as -> K. f_equal. apply IH; [exact K|]. cbn in Hl. lia. }
        subst s. reflexivity.
    + split; [discriminate|]. intros (stem & e1 & K1 & K2 & K3 & _). exfalso.
      eapply first_ext_none; [exact E| |exact K1|exact K2]. apply adjust_in; [exact Hne|]. exists e1. auto.
Qed.

(** ** Directory contents *)
Lemma beqb_refl : forall a, bytes_eqb a a = true.
Proof. intros a. apply bytes_eqb_eq. reflexivity. Qed.
Lemma beqb_neq : forall a b, a <> b -> bytes_eqb a b = false.
Proof. intros a b H. apply not_true_is_false. intros E. apply bytes_eqb_eq in E. contradiction. Qed.

(** The first file of the listing with the member name. *)
Fixpoint first_file (l : library) (m : bytes) (listing : list (bytes * bytes)) : option bytes :=
  match listing with
  | [] => None
  | (f, p) :: rest =>
      match member_of l f with
      | Some m' => if bytes_eqb m m' then Some p else first_file l m rest
      | None => first_file l m rest
      end
  end.

Lemma load_find_ext : forall l listing t w m, l_exts l <> [] ->
  tfind m (fst (fold_left (load_file (l_exts l)) listing (t, w)))
  = match tfind m t with Some p => Some p | None => first_file l m listing end.
Proof.
  intros l listing. induction listing as [|[f p] listing IH]; intros t w m Hne.
  - cbn. destruct (tfind m t); reflexivity.
  - cbn [fold_left first_file]. unfold member_of, load_file at 2. cbn [fst snd].
    destruct (l_exts l) as [|x ex] eqn:Ex; [contradiction|]. rewrite <- Ex in *.
    destruct (first_ext (l_exts l) f) as [stem|] eqn:E; [|apply IH; exact Hne].
    destruct (tfind (to_upper stem) t) as [p'|] eqn:Et.
    + rewrite IH by exact Hne. destruct (bytes_eqb m (to_upper stem)) eqn:Em; [|reflexivity].
      apply bytes_eqb_eq in Em. subst m. rewrite Et. reflexivity.
    + rewrite IH by exact Hne. unfold tset. cbn [tfind].
      destruct (bytes_eqb m (to_upper stem)) eqn:Em; [|reflexivity].
      apply bytes_eqb_eq in Em. subst m. rewrite Et. reflexivity.
Qed.

(** Without extensions: the last one. *)
Lemma load_find_noext : forall l listing t w m, l_exts l = [] ->
  tfind m (fst (fold_left (load_file (l_exts l)) listing (t, w)))
  = match first_file l m (rev listing) with Some p => Some p | None => tfind m t end.
Proof.
  intros l listing. induction listing as [|[f p] listing IH] using rev_ind; intros t w m He.
  - reflexivity.
  - rewrite fold_left_app, rev_app_distr. cbn [fold_left rev app first_file].
    destruct (fold_left (load_file (l_exts l)) listing (t, w)) as [t' w'] eqn:Ef.
    specialize (IH t w m He). rewrite Ef in IH. cbn [fst] in IH.
    unfold member_of, load_file. rewrite He. cbn [fst snd]. unfold tset. cbn [tfind].
    destruct (bytes_eqb m (to_upper f)); [reflexivity|]. exact IH.
Qed.

Lemma first_file_some : forall l m listing p, first_file l m listing = Some p ->
  exists f, In (f, p) listing /\ member_of l f = Some m.
Proof.
  intros l m listing p. induction listing as [|[f q] listing IH]; cbn [first_file]; [discriminate|].
  destruct (member_of l f) as [m'|] eqn:E.
  - destruct (bytes_eqb m m') eqn:Em.
    + intros H. injection H as ->. apply bytes_eqb_eq in Em. subst m'. exists f. cbn. auto.
    + intros H. destruct (IH H) as (f' & H1 & H2). exists f'. cbn. auto.
  - intros H. destruct (IH H) as (f' & H1 & H2). exists f'. cbn. auto.
Qed.

Lemma first_file_none : forall l m listing, first_file l m listing = None ->
  forall f p, In (f, p) listing -> member_of l f <> Some m.
Proof.
  intros l m listing. induction listing as [|[f q] listing IH]; cbn [first_file]; intros H f' p Hin; [destruct Hin|].
  destruct Hin as [Heq|Hin].
  - injection Heq as -> ->. intros E. rewrite E, beqb_refl in H. discriminate.
  - destruct (member_of l f) as [m'|]; [destruct (bytes_eqb m m'); [discriminate|]|]; eapply IH; eauto.
Qed.

Lemma find_first : forall l listing m,
  tfind m (fst (load_files l listing))
  = first_file l m (match l_exts l with [] => rev listing | _ => listing end).
Proof.
  intros l listing m. unfold load_files. destruct (l_exts l) as [|x ex] eqn:E.
  - rewrite <- E, load_find_noext by exact E. destruct (first_file l m (rev listing)); reflexivity.
  - rewrite <- E, load_find_ext by (rewrite E; discriminate). reflexivity.
Qed.

Lemma find_sound : forall path exts d listing m p,
  tfind m (fst (load_files (mk_library path exts d) listing)) = Some p ->
  exists f, In (f, p) listing /\ provides (effective exts d) f m.
Proof.
  intros path exts d listing m p H. rewrite find_first in H.
  apply first_file_some in H as (f & H1 & H2). exists f. split.
  - destruct (l_exts _) in H1; [apply in_rev; exact H1|exact H1].
  - eapply member_of_provides. exact H2.
Qed.

Lemma find_complete : forall path exts d listing m,
  tfind m (fst (load_files (mk_library path exts d) listing)) = None ->
  forall f p, In (f, p) listing -> ~ provides (effective exts d) f m.
Proof.
  intros path exts d listing m H f p Hin Hp. rewrite find_first in H.
  eapply first_file_none; [exact H| |].
  - destruct (l_exts _); [apply in_rev; rewrite rev_involutive; exact Hin|exact Hin].
  - eapply member_of_provides. exact Hp.
Qed.

Lemma find_determined : forall path exts d listing m f p, In (f, p) listing ->
  provides (effective exts d) f m ->
  (forall f' p', In (f', p') listing -> provides (effective exts d) f' m -> p' = p) ->
  tfind m (fst (load_files (mk_library path exts d) listing)) = Some p.
Proof.
  intros path exts d listing m f p Hin Hp Hu.
  destruct (tfind m _) as [q|] eqn:E.
  - apply find_sound in E as (f' & H1 & H2). rewrite (Hu f' q H1 H2). reflexivity.
  - exfalso. eapply find_complete; eauto.
Qed.

(** Warnings: exactly for members provided twice. *)
Lemma load_warns_mono : forall exts listing t w m,
  In m w -> In m (snd (fold_left (load_file exts) listing (t, w))).
Proof.
  intros exts listing. induction listing as [|[f p] listing IH]; intros t w m H; [exact H|].
  cbn [fold_left]. unfold load_file at 2. cbn [fst snd].
  destruct exts as [|x ex]; [apply IH; exact H|].
  destruct (first_ext (x :: ex) f); [|apply IH; exact H].
  destruct (tfind _ t); apply IH; [apply in_or_app; auto|exact H].
Qed.

Lemma load_warns : forall l listing t w m, l_exts l <> [] ->
  In m (snd (fold_left (load_file (l_exts l)) listing (t, w))) <->
  In m w \/ (tfind m t <> None /\ exists f p, In (f, p) listing /\ member_of l f = Some m)
  \/ (exists a f1 p1 b f2 p2 c, listing = a ++ (f1, p1) :: b ++ (f2, p2) :: c
      /\ member_of l f1 = Some m /\ member_of l f2 = Some m).
Proof.
  intros l listing. induction listing as [|[f p] listing IH]; intros t w m Hne.
  - cbn. split; [auto|]. intros [H|[(_ & f & p & [] & _)|(a & f1 & p1 & b & f2 & p2 & c & H & _)]]; [exact H|].
    destruct a; discriminate.
  - cbn [fold_left]. unfold load_file at 2. cbn [fst snd].
    assert (Hmem : member_of l f = match first_ext (l_exts l) f with Some s => Some (to_upper s) | None => None end).
    { unfold member_of. destruct (l_exts l); [contradiction|reflexivity]. }
    destruct (l_exts l) as [|x ex] eqn:Ex; [contradiction|]. rewrite <- Ex in *.
    assert (Split : (exists a f1 p1 b f2 p2 c, (f, p) :: listing = a ++ (f1, p1) :: b ++ (f2, p2) :: c
      /\ member_of l f1 = Some m /\ member_of l f2 = Some m) <->
      (exists a f1 p1 b f2 p2 c, listing = a ++ (f1, p1) :: b ++ (f2, p2) :: c
      /\ member_of l f1 = Some m /\ member_of l f2 = Some m)
      \/ (member_of l f = Some m /\ exists f2 p2, In (f2, p2) listing /\ member_of l f2 = Some m)).
    { split.
      - intros (a & f1 & p1 & b & f2 & p2 & c & E & M1 & M2). destruct a as [|y a]; cbn [app] in E.
        + injection E as -> -> ->. right. split; [exact M1|]. exists f2, p2. split; [|exact M2].
          apply in_or_app. right. left. reflexivity.
        + injection E as _ ->. left. exists a, f1, p1, b, f2, p2, c. auto.
      - intros [(a & f1 & p1 & b & f2 & p2 & c & -> & M1 & M2)|(M1 & f2 & p2 & Hin & M2)].
        + exists ((f, p) :: a), f1, p1, b, f2, p2, c. auto.
        + apply in_split in Hin as (b & c & ->). exists [], f, p, b, f2, p2, c. auto. }
    assert (Inh : (exists f0 p0, In (f0, p0) ((f, p) :: listing) /\ member_of l f0 = Some m) <->
      member_of l f = Some m \/ (exists f0 p0, In (f0, p0) listing /\ member_of l f0 = Some m)).
    { split.
      - intros (f0 & p0 & [E|Hin] & M); [injection E as -> ->; auto|right; eauto].
      - intros [M|(f0 & p0 & Hin & M)]; [exists f, p|exists f0, p0]; cbn; auto. }
    rewrite Split, Inh. clear Split Inh.
    destruct (first_ext (l_exts l) f) as [stem|] eqn:E.
    + destruct (tfind (to_upper stem) t) as [p'|] eqn:Et.
      * rewrite IH by exact Hne. rewrite Hmem. split.
        -- intros [H|[(H1 & H2)|H]]; auto.
           apply in_app_or in H as [H|[<-|[]]]; [auto|]. right. left. split; [congruence|auto].
        -- intros [H|[(H1 & [H|H])|[H|(H1 & H2)]]]; auto.
           ++ left. apply in_or_app. auto.
           ++ injection H as <-. left. apply in_or_app. right. left. reflexivity.
           ++ injection H1 as <-. right. left. split; [congruence|exact H2].
      * rewrite IH by exact Hne. rewrite Hmem. unfold tset. cbn [tfind].
        destruct (bytes_eqb m (to_upper stem)) eqn:Em.
        -- apply bytes_eqb_eq in Em. subst m. split.
           ++ intros [H|[(H1 & H2)|H]]; auto.
           ++ intros [H|[(H1 & H2)|[H|(H1 & H2)]]]; auto; [congruence|].
              right. left. split; [discriminate|exact H2].
        -- assert (Hd : Some (to_upper stem) <> Some m).
           { intros A. injection A as A. subst m. rewrite beqb_refl in Em. discriminate. }
           split.
           ++ intros [H|[(H1 & H2)|H]]; auto.
           ++ intros [H|[(H1 & [H|H])|[H|(H1 & H2)]]]; auto; contradiction.
    + rewrite IH by exact Hne. rewrite Hmem. split.
      * intros [H|[(H1 & H2)|H]]; auto.
      * intros [H|[(H1 & [H|H])|[H|(H1 & H2)]]]; auto; discriminate.
Qed.

Lemma warn_iff : forall path exts d listing m, exts <> [] ->
  In m (snd (load_files (mk_library path exts d) listing)) <->
  exists a f1 p1 b f2 p2 c, listing = a ++ (f1, p1) :: b ++ (f2, p2) :: c
    /\ provides (effective exts d) f1 m /\ provides (effective exts d) f2 m.
Proof.
  intros path exts d listing m Hne. unfold load_files.
  assert (Hl : l_exts (mk_library path exts d) <> []).
  { cbn [mk_library l_exts]. destruct exts; [contradiction|]. apply adjust_nonempty. discriminate. }
  rewrite load_warns by exact Hl. split.
  - intros [[]|[(H & _)|(a & f1 & p1 & b & f2 & p2 & c & E & M1 & M2)]]; [cbn in H; contradiction|].
    exists a, f1, p1, b, f2, p2, c. split; [exact E|]. split; eapply member_of_provides; eassumption.
  - intros (a & f1 & p1 & b & f2 & p2 & c & E & M1 & M2). right. right.
    exists a, f1, p1, b, f2, p2, c. split; [exact E|]. split; eapply member_of_provides; eassumption.
Qed.

(** Lookups between refreshes see one directory listing. *)
Fixpoint lib_run (l : library) (st : lib_state) (ops : list (list (bytes * bytes) * lib_op))
  : lib_state * list (option bytes) :=
  match ops with
  | [] => (st, [])
  | (dirnow, o) :: ops' =>
      let (st', r) := lib_step l dirnow st o in
      let (st'', rs) := lib_run l st' ops' in (st'', r :: rs)
  end.

Lemma finds_stable : forall l t ops,
  (forall d o, In (d, o) ops -> exists m, o = LFind m) ->
  lib_run l (Some t) ops
  = (Some t, map (fun x => match snd x with LFind m => tfind m t | LRefresh => None end) ops).
Proof.
  intros l t ops. induction ops as [|[d o] ops IH]; intros H; [reflexivity|].
  cbn [lib_run map snd]. destruct (H d o (or_introl eq_refl)) as [m ->].
  cbn [lib_step]. rewrite IH; [reflexivity|]. intros d' o' Hin. apply (H d' o'). right. exact Hin.
Qed.

(** ** The first library that has the member *)
Definition has (dir : bytes -> list (bytes * bytes)) (member : bytes) (l : library) : Prop :=
  exists p, tfind member (fst (load_files l (dir (l_path l)))) = Some p.

Lemma parse_library_first : forall dir libs member,
  match parse_library dir libs member with
  | Some (path, p) => exists l, first_such (has dir member) libs l /\ l_path l = path
      /\ tfind member (fst (load_files l (dir (l_path l)))) = Some p
  | None => forall l, In l libs -> ~ has dir member l
  end.
Proof.
  intros dir libs member. induction libs as [|l libs IH]; cbn [parse_library].
  - intros l [].
  - destruct (tfind member (fst (load_files l (dir (l_path l))))) as [p|] eqn:E.
    + exists l. split; [|auto]. exists [], libs. split; [reflexivity|]. split; [exists p; exact E|intros y []].
    + destruct (parse_library dir libs member) as [[path p]|].
      * destruct IH as (l' & (pre & post & Hl & Hh & Hn) & H2 & H3). exists l'. split; [|auto].
        exists (l :: pre), post. split; [cbn; congruence|]. split; [exact Hh|].
        intros y [<-|Hy]; [|auto]. intros [q Hq]. congruence.
      * intros l' [<-|Hin]; [intros [q Hq]; congruence|auto].
Qed.

(** ** Group selection *)
Lemma gfind_app : forall {A} k (t u : list (bytes * A)),
  gfind k (t ++ u) = match gfind k t with Some v => Some v | None => gfind k u end.
Proof.
  intros A k t u. induction t as [|[k' v] t IH]; [reflexivity|].
  cbn [app gfind]. destruct (bytes_eqb k k'); [reflexivity|exact IH].
Qed.

Lemma gfind_gemplace : forall {A} k k' (v : A) t,
  gfind k (gemplace k' v t)
  = match gfind k t with Some x => Some x | None => if bytes_eqb k k' then Some v else None end.
Proof.
  intros A k k' v t. unfold gemplace. destruct (gfind k' t) as [x|] eqn:E.
  - destruct (gfind k t) eqn:E2; [reflexivity|]. destruct (bytes_eqb k k') eqn:Ek; [|reflexivity].
    apply bytes_eqb_eq in Ek. congruence.
  - rewrite gfind_app. cbn [gfind]. reflexivity.
Qed.

Lemma gfind_in : forall {A} k (t : list (bytes * A)), gfind k t <> None <-> In k (map fst t).
Proof.
  intros A k t. induction t as [|[k' v] t IH]; cbn [gfind map fst In]; [intuition|].
  destruct (bytes_eqb k k') eqn:E.
  - apply bytes_eqb_eq in E. subst. split; [auto|discriminate].
  - rewrite IH. split; [auto|]. intros [->|H]; [rewrite beqb_refl in E; discriminate|exact H].
Qed.

Lemma groups_find : forall pc compat gs acc g,
  gfind g (fold_left (add_group pc compat) gs acc)
  = match gfind g acc with
    | Some x => Some x
    | None => match gfind g gs with Some libs => Some (map (library_of pc compat) libs) | None => None end
    end.
Proof.
  intros pc compat gs. induction gs as [|[n libs] gs IH]; intros acc g.
  - cbn. destruct (gfind g acc); reflexivity.
  - cbn [fold_left]. rewrite IH. unfold add_group. cbn [fst snd]. rewrite gfind_gemplace.
    destruct (gfind g acc); [reflexivity|]. cbn [gfind]. destruct (bytes_eqb g n); reflexivity.
Qed.

Lemma is_wildcard_plain : forall p, is_wildcard p = false <-> plain p.
Proof.
  intros p. unfold is_wildcard, plain. rewrite orb_false_iff.
  assert (H : forall x, existsb (N.eqb x) p = false <-> ~ In x p).
  { intros x. rewrite <- not_true_iff_false, existsb_exists. split; intros H.
    - intros Hin. apply H. exists x. split; [exact Hin|apply N.eqb_refl].
    - intros (y & Hy & E). apply N.eqb_eq in E. subst y. contradiction. }
  rewrite !H. reflexivity.
Qed.

(** The two program tables: usable plain entries, and usable patterns in order. *)
Definition ok_group (gs : list (bytes * list library)) (e : bytes * bytes) : bool :=
  match gfind (snd e) gs with Some _ => true | None => false end.

Lemma pgms_tables : forall pgms gs ex rx n,
  let w := fst (fold_left add_pgm pgms ({| w_groups := gs; w_exact := ex; w_regex := rx |}, n)) in
  w_groups w = gs
  /\ (forall file, gfind file (w_exact w)
      = match gfind file ex with
        | Some x => Some x
        | None => gfind file (filter (fun e => ok_group gs e && negb (is_wildcard (fst e))) pgms)
        end)
  /\ w_regex w = rx ++ filter (fun e => ok_group gs e && is_wildcard (fst e)) pgms.
Proof.
  induction pgms as [|[p g] pgms IH]; intros gs ex rx n; cbn [fold_left filter].
  - cbn. split; [reflexivity|]. split; [|rewrite app_nil_r; reflexivity].
    intros file. destruct (gfind file ex); reflexivity.
  - unfold add_pgm at 2 4 6. cbn [fst snd w_groups w_exact w_regex]. unfold ok_group. cbn [fst snd].
    destruct (gfind g gs) as [libs|] eqn:Eg.
    + destruct (is_wildcard p) eqn:Ew; cbn [andb negb].
      * destruct (IH gs ex (rx ++ [(p, g)]) n) as (H1 & H2 & H3). split; [exact H1|]. split; [exact H2|].
        rewrite H3, <- app_assoc. reflexivity.
      * destruct (IH gs (gemplace p g ex) rx n) as (H1 & H2 & H3). split; [exact H1|]. split; [|exact H3].
        intros file. rewrite H2, gfind_gemplace. destruct (gfind file ex); [reflexivity|].
        cbn [gfind]. destruct (bytes_eqb file p); reflexivity.
    + destruct (IH gs ex rx (S n)) as (H1 & H2 & H3). split; [exact H1|]. split; [exact H2|exact H3].
Qed.

Lemma first_such_filter : forall {A} (P Q : A -> Prop) (b : A -> bool) l x,
  (forall y, b y = true <-> P y) ->
  first_such Q (filter b l) x -> first_such (fun y => P y /\ Q y) l x.
Proof.
  intros A P Q b l x Hb. induction l as [|y l IH]; intros (pre & post & E & HQ & Hn).
  - destruct pre; discriminate.
  - cbn [filter] in E. destruct (b y) eqn:By.
    + destruct pre as [|z pre]; cbn [app] in E; injection E as E1 E2.
      * subst x. exists [], l. split; [reflexivity|]. split; [split; [apply Hb; exact By|exact HQ]|intros z []].
      * destruct IH as (pre' & post' & H1 & H2 & H3).
        { exists pre, post. split; [exact E2|]. split; [exact HQ|]. intros w Hw. apply Hn. right. exact Hw. }
        exists (y :: pre'), post'. split; [cbn; congruence|]. split; [exact H2|].
        intros w [<-|Hw]; [|auto]. intros [_ HQw]. apply (Hn y); [left; congruence|exact HQw].
    + destruct IH as (pre' & post' & H1 & H2 & H3); [exists pre, post; auto|].
      exists (y :: pre'), post'. split; [cbn; congruence|]. split; [exact H2|].
      intros w [<-|Hw]; [|auto]. intros [HP _]. apply Hb in HP. congruence.
Qed.

Lemma gfind_first : forall (t : list (bytes * bytes)) k v, gfind k t = Some v ->
  exists e, first_such (fun e => fst e = k) t e /\ snd e = v.
Proof.
  intros t k v. induction t as [|[k' v'] t IH]; cbn [gfind]; [discriminate|].
  destruct (bytes_eqb k k') eqn:E.
  - intros H. injection H as ->. apply bytes_eqb_eq in E. subst k'. exists (k, v). split; [|reflexivity].
    exists [], t. split; [reflexivity|]. split; [reflexivity|intros y []].
  - intros H. destruct (IH H) as (e & (pre & post & H1 & H2 & H3) & H4). exists e. split; [|exact H4].
    exists ((k', v') :: pre), post. split; [cbn; congruence|]. split; [exact H2|].
    intros y [<-|Hy]; [|auto]. cbn. intros ->. rewrite beqb_refl in E. discriminate.
Qed.

Lemma gfind_none : forall {A} (t : list (bytes * A)) k, gfind k t = None -> forall e, In e t -> fst e <> k.
Proof.
  intros A t k H e Hin E. assert (In k (map fst t)) by (subst k; apply in_map; exact Hin).
  apply gfind_in in H0. contradiction.
Qed.

Lemma selects_denotes : forall p f, one_line f -> (selects p f = true <-> denotes_plus p f).
Proof.
  intros p f Hl. unfold selects. destruct (pattern_match_plus p f Hl) as (b & -> & H). exact H.
Qed.

Lemma regex_first : forall t f, one_line f -> match regex_find f t with
  | Some g => exists e, first_such (fun e => denotes_plus (fst e) f) t e /\ snd e = g
  | None => forall e, In e t -> ~ denotes_plus (fst e) f
  end.
Proof.
  intros t f Hl. induction t as [|[p g] t IH]; cbn [regex_find].
  - intros e [].
  - destruct (selects p f) eqn:E.
    + exists (p, g). split; [|reflexivity]. exists [], t. split; [reflexivity|].
      split; [apply selects_denotes; assumption|intros y []].
    + assert (Hp : ~ denotes_plus p f).
      { intros H. apply (selects_denotes p f Hl) in H. congruence. }
      destruct (regex_find f t) as [g'|].
      * destruct IH as (e & (pre & post & H1 & H2 & H3) & H4). exists e. split; [|exact H4].
        exists ((p, g) :: pre), post. split; [cbn; congruence|]. split; [exact H2|].
        intros y [<-|Hy]; [exact Hp|auto].
      * intros e [<-|Hin]; [exact Hp|auto].
Qed.

(** Tables built from a pair of decoded documents. *)
Definition loaded (pc : proc_conf) (pm : pgm_conf) : ws :=
  fst (load_config ws_init (DOk pc) (DOk pm)).

Lemma load_config_ok : forall w pc pm, fst (load_config w (DOk pc) (DOk pm)) = loaded pc pm.
Proof. reflexivity. Qed.

Definition group_names (pc : proc_conf) : list bytes := map fst (pc_groups pc).

Lemma ok_group_usable : forall pc compat e,
  ok_group (fold_left (add_group pc compat) (pc_groups pc) []) e = true <-> usable (group_names pc) e.
Proof.
  intros pc compat e. unfold ok_group, usable, group_names. rewrite groups_find. cbn [gfind].
  rewrite <- gfind_in. destruct (gfind (snd e) (pc_groups pc)); split; intros H; try reflexivity; try discriminate; congruence.
Qed.

(** The entry the tables select, whatever the state of the group table. *)
Definition entry (w : ws) (file : bytes) : option bytes :=
  match gfind file (w_exact w) with
  | Some g => Some g
  | None => regex_find file (w_regex w)
  end.

Lemma get_proc_grp_entry : forall w file, get_proc_grp w file
  = match entry w file with Some g => at_group w g | None => Implicit end.
Proof.
  intros w file. unfold get_proc_grp, entry. destruct (gfind file (w_exact w)); reflexivity.
Qed.

Lemma entry_configured : forall pc pm file, one_line file ->
  configured (group_names pc) (pm_pgms pm) file (entry (loaded pc pm) file).
Proof.
  intros pc pm file Hl. unfold loaded. cbn [load_config fst].
  set (gs := fold_left (add_group pc (compat_list (pm_always pm))) (pc_groups pc) []).
  destruct (pgms_tables (pm_pgms pm) gs [] [] 0) as (H1 & H2 & H3).
  unfold entry. rewrite H2, H3. cbn [gfind app].
  assert (Hu : forall e, ok_group gs e = true <-> usable (group_names pc) e) by (intros e; apply ok_group_usable).
  assert (Hex : forall e, ok_group gs e && negb (is_wildcard (fst e)) = true <-> usable (group_names pc) e /\ plain (fst e)).
  { intros e. rewrite andb_true_iff, Hu, negb_true_iff, is_wildcard_plain. reflexivity. }
  assert (Hrx : forall e, ok_group gs e && is_wildcard (fst e) = true <-> usable (group_names pc) e /\ ~ plain (fst e)).
  { intros e. rewrite andb_true_iff, Hu, <- is_wildcard_plain, not_false_iff_true. reflexivity. }
  destruct (gfind file (filter (fun e => ok_group gs e && negb (is_wildcard (fst e))) (pm_pgms pm))) as [g|] eqn:E.
  - apply gfind_first in E as (e & He & <-). apply by_name.
    apply (first_such_filter _ _ _ _ _ Hex) in He.
    destruct He as (pre & post & K1 & K2 & K3). exists pre, post. split; [exact K1|]. split; [tauto|].
    intros y Hy K. apply (K3 y Hy). tauto.
  - pose proof (gfind_none _ _ E) as Hn.
    assert (Hno : forall e', In e' (pm_pgms pm) -> ~ (usable (group_names pc) e' /\ plain (fst e') /\ fst e' = file)).
    { intros e' Hin (K1 & K2 & K3). apply (Hn e'); [|exact K3]. apply filter_In. split; [exact Hin|].
      apply Hex. auto. }
    pose proof (regex_first (filter (fun e => ok_group gs e && is_wildcard (fst e)) (pm_pgms pm)) file Hl) as Hr.
    destruct (regex_find file (filter (fun e => ok_group gs e && is_wildcard (fst e)) (pm_pgms pm))) as [g|].
    + destruct Hr as (e & He & <-). apply by_pattern; [exact Hno|].
      apply (first_such_filter _ _ _ _ _ Hrx) in He.
      destruct He as (pre & post & K1 & K2 & K3). exists pre, post. split; [exact K1|]. split; [tauto|].
      intros y Hy K. apply (K3 y Hy). tauto.
    + apply by_default; [exact Hno|]. intros e' Hin (K1 & K2 & K3).
      apply (Hr e'); [|exact K3]. apply filter_In. split; [exact Hin|]. apply Hrx. auto.
Qed.

Lemma configured_usable : forall groups entries file g,
  configured groups entries file (Some g) -> In g groups.
Proof.
  intros groups entries file g H. inversion H as [e (pre & post & _ & (U & _) & _)|e _ (pre & post & _ & (U & _) & _)|]; subst; exact U.
Qed.

(** The libraries of a group: those of its first definition. *)
Lemma at_group_loaded : forall pc pm g, In g (group_names pc) ->
  exists libs, gfind g (pc_groups pc) = Some libs
    /\ at_group (loaded pc pm) g = Group g (map (library_of pc (compat_list (pm_always pm))) libs).
Proof.
  intros pc pm g Hin. unfold at_group, loaded. cbn [load_config fst].
  destruct (pgms_tables (pm_pgms pm) (fold_left (add_group pc (compat_list (pm_always pm))) (pc_groups pc) []) [] [] 0) as (-> & _).
  rewrite groups_find. cbn [gfind]. apply gfind_in in Hin.
  destruct (gfind g (pc_groups pc)) as [libs|]; [|contradiction]. exists libs. auto.
Qed.

(** ** Histories of loads: programs of the last full load; groups too, unless a later load
    read the first file and failed on the second. *)
Fixpoint last_ok (h : list (doc proc_conf * doc pgm_conf)) (acc : option (proc_conf * pgm_conf) * bool)
  : option (proc_conf * pgm_conf) * bool :=
  match h with
  | [] => acc
  | (DOk pc, DOk pm) :: h' => last_ok h' (Some (pc, pm), false)
  | (DOk _, _) :: h' => last_ok h' (fst acc, true)
  | _ :: h' => last_ok h' acc
  end.

Definition state_of (x : option (proc_conf * pgm_conf) * bool) : ws :=
  let w := match fst x with Some (pc, pm) => loaded pc pm | None => ws_init end in
  if snd x then {| w_groups := []; w_exact := w_exact w; w_regex := w_regex w |} else w.

Lemma loads_state : forall h acc, loads (state_of acc) h = state_of (last_ok h acc).
Proof.
  induction h as [|[pr pg] h IH]; intros acc; [reflexivity|].
  unfold loads in *. cbn [fold_left fst snd last_ok].
  destruct pr as [| |pc]; cbn [load_config fst]; try apply IH.
  destruct pg as [| |pm]; cbn [load_config fst].
  - rewrite <- IH. f_equal. unfold state_of. cbn [fst snd]. destruct (snd acc); reflexivity.
  - rewrite <- IH. f_equal. unfold state_of. cbn [fst snd]. destruct (snd acc); reflexivity.
  - rewrite <- IH. reflexivity.
Qed.

Lemma loads_init : forall h, loads ws_init h = state_of (last_ok h (None, false)).
Proof. intros h. change ws_init with (state_of (None, false)) at 1. apply loads_state. Qed.

Definition half (e : doc proc_conf * doc pgm_conf) : bool :=
  match e with (DOk _, DBad) | (DOk _, DNotJson) => true | _ => false end.

Lemma last_ok_no_half : forall h acc, (forall e, In e h -> half e = false) -> snd acc = false ->
  snd (last_ok h acc) = false.
Proof.
  induction h as [|[pr pg] h IH]; intros acc H Hs; [exact Hs|].
  cbn [last_ok]. assert (Ht : forall e, In e h -> half e = false) by (intros e He; apply H; right; exact He).
  specialize (H _ (or_introl eq_refl)). destruct pr; [apply IH; assumption|apply IH; assumption|].
  destruct pg; [discriminate|discriminate|]. apply IH; [exact Ht|reflexivity].
Qed.

(** What a history of loads selects. *)
Lemma select_history : forall h file, one_line file ->
  match last_ok h (None, false) with
  | (None, _) => get_proc_grp (loads ws_init h) file = Implicit
  | (Some (pc, pm), broken) => exists sel, configured (group_names pc) (pm_pgms pm) file sel
      /\ match sel with
         | None => get_proc_grp (loads ws_init h) file = Implicit
         | Some g =>
             if broken then get_proc_grp (loads ws_init h) file = Throw
             else exists libs, gfind g (pc_groups pc) = Some libs
               /\ get_proc_grp (loads ws_init h) file
                  = Group g (map (library_of pc (compat_list (pm_always pm))) libs)
         end
  end.
Proof.
  intros h file Hl. rewrite loads_init.
  destruct (last_ok h (None, false)) as [[[pc pm]|] broken].
  - exists (entry (loaded pc pm) file). pose proof (entry_configured pc pm file Hl) as Hc.
    split; [exact Hc|]. rewrite get_proc_grp_entry.
    replace (entry (state_of (Some (pc, pm), broken)) file) with (entry (loaded pc pm) file).
    2:{ unfold state_of. cbn [fst snd]. destruct broken; reflexivity. }
    destruct (entry (loaded pc pm) file) as [g|] eqn:E; [|reflexivity].
    destruct broken; [reflexivity|]. apply configured_usable in Hc. exact (at_group_loaded pc pm g Hc).
  - unfold state_of. cbn [fst snd]. destruct broken; reflexivity.
Qed.
