(** * Rel_Proof *)
From Coq Require Import String List NArith ZArith Bool Arith Lia.
From Verif Require Import Common Uri_Spec Pth_Spec Pth_Model Pth_Proof Rel_Model.
From Verif Require Uri_Model Uri_Props.
Import ListNotations.
Open Scope list_scope.
Open Scope N_scope.
Import Uri_Props.
Notation split := Uri_Model.split.
Notation normal := Uri_Model.lexically_normal.

(** ** Elements *)
Lemma nonempty_names : forall l, Forall a_name l -> filter nonempty l = l.
Proof. induction 1 as [|n r (H & _) F IH]; [reflexivity|]. cbn. destruct n; [easy|]. cbn. now rewrite IH. Qed.
Lemma split_spelled_all : forall f, Forall a_name f -> split (spelled f) = [] :: f.
Proof.
  intros f F. destruct f as [|n r]; [reflexivity|]. change (spelled (n :: r)) with ([] ++ 47 :: n ++ spelled r). rewrite split_app by auto.
  inversion F as [|? ? (_ & H & _) F']; subst. rewrite split_spelled; [reflexivity|exact H|now apply a_name_slash].
Qed.
Lemma elements_file : forall f, Forall a_name f -> f <> [] -> elements (spelled f) = [47] :: f.
Proof.
  intros f F N. unfold elements. rewrite (split_spelled_all f F). cbn [filter nonempty]. rewrite nonempty_names by assumption.
  pose proof (name_end [] f F N) as L. cbn [app] in L. apply N.eqb_neq in L. unfold SLASH. rewrite L, andb_false_r, app_nil_r. destruct f as [|n f]; [easy|reflexivity].
Qed.
Lemma elements_directory : forall ws, Forall a_name ws -> exists tail, (tail = [] \/ tail = [[]]) /\ elements (directory ws) = [47] :: ws ++ tail.
Proof.
  intros ws F. unfold elements, directory. rewrite (split_names ws [] (a_name_slash _ F)). cbn [filter nonempty].
  rewrite filter_app, nonempty_names by assumption. cbn [Uri_Model.split filter nonempty]. rewrite app_nil_r, last_last.
  replace (rooted (spelled ws ++ [47])) with true by (now destruct ws). replace (nonempty (spelled ws ++ [47])) with true by (now destruct ws).
  cbn [N.eqb andb]. destruct ws as [|n ws]; eexists; (split; [|reflexivity]); [now left|now right].
Qed.
Lemma elements_ws : forall ws t, Forall a_name ws -> names_directory ws t -> rooted t = true /\ exists tail, (tail = [] \/ tail = [[]]) /\ elements t = [47] :: ws ++ tail.
Proof.
  intros ws t F [-> | (-> & N)].
  - split; [now destruct ws|now apply elements_directory].
  - split; [now destruct ws|]. exists []. split; [now left|]. rewrite app_nil_r. now apply elements_file.
Qed.
(** ** Where two directories part *)
Definition part (f w : list bytes) : Prop := match f, w with x :: _, y :: _ => x <> y | _, _ => True end.
Lemma mismatch_parts : forall f ws tail, Forall a_name f -> tail = [] \/ tail = [[]] ->
  exists c f' w', f = c ++ f' /\ ws = c ++ w' /\ mismatch f (ws ++ tail) = (f', w' ++ tail) /\ part f' w'.
Proof.
  induction f as [|x f IH]; intros ws tail F T.
  - exists [], [], ws. split; [reflexivity|]. split; [reflexivity|]. split; [reflexivity|exact Logic.I].
  - inversion F as [|? ? Hx F']; subst. destruct ws as [|y ws].
    + exists [], (x :: f), []. split; [reflexivity|]. split; [reflexivity|]. split; [|exact Logic.I]. destruct T as [-> | ->]; cbn [app mismatch]; [reflexivity|].
      destruct Hx as (Hx & _). now rewrite (proj2 (eqb_neq x []) Hx).
    + cbn [app mismatch]. destruct (bytes_eqb x y) eqn:E.
      * apply eqb_eq in E. subst y. destruct (IH ws tail F' T) as (c & f' & w' & -> & -> & M & P). exists (x :: c), f', w'. now split; [|split; [|split]].
      * apply eqb_neq in E. exists [], (x :: f), (y :: ws). split; [reflexivity|]. split; [reflexivity|]. split; [reflexivity|exact E].
Qed.
Lemma depth_names : forall w tail, Forall a_name w -> tail = [] \/ tail = [[]] -> depth (w ++ tail) = Z.of_nat (List.length w).
Proof.
  intros w tail F T. induction F as [|n r (H1 & _ & H2 & H3) F IH]; [destruct T as [-> | ->]; reflexivity|].
  cbn [app depth fold_right List.length]. unfold depth in IH. rewrite IH. unfold down. rewrite (proj2 (eqb_neq n []) H1), (proj2 (eqb_neq n (s2b ".")) H2), (proj2 (eqb_neq n (s2b "..")) H3). cbn [orb]. lia.
Qed.
(** ** Names joined *)
Definition a_step (n : bytes) : Prop := n <> [] /\ ~ In 47 n.
Lemma append_step : forall l n, l <> [] -> last l 0 <> 47 -> a_step n -> append l n = l ++ 47 :: n.
Proof.
  intros l n N L (Nn & S). apply append_open; [|exact N|exact L]. destruct n as [|c n]; [easy|]. apply N.eqb_neq. intros ->. apply S. now left.
Qed.
Lemma append_steps : forall r l, l <> [] -> last l 0 <> 47 -> Forall a_step r -> fold_left append r l = l ++ spelled r.
Proof.
  induction r as [|n r IH]; intros l N L F; [now rewrite app_nil_r|]. inversion F as [|? ? Hn F']; subst. cbn [fold_left].
  rewrite append_step by assumption. rewrite IH; [|now destruct l| |exact F'].
  - change (spelled (n :: r)) with (47 :: n ++ spelled r). now rewrite <- app_assoc.
  - destruct Hn as (Nn & S). replace (l ++ 47 :: n) with ((l ++ [47]) ++ n) by (rewrite <- app_assoc; reflexivity). rewrite last_app_ne by assumption.
    intros E. apply S. rewrite <- E. now apply last_in.
Qed.
Lemma append_all : forall n r, Forall a_step (n :: r) -> fold_left append (n :: r) [] = Uri_Model.join (n :: r).
Proof.
  intros n r F. inversion F as [|? ? (Nn & S) F']; subst. cbn [fold_left]. rewrite join_spelled.
  replace (append [] n) with n by (unfold append; now destruct (rooted n)).
  apply append_steps; [exact Nn| |exact F']. intros E. apply S. rewrite <- E. now apply last_in.
Qed.
Lemma split_join : forall n r, Forall a_step (n :: r) -> split (Uri_Model.join (n :: r)) = n :: r.
Proof.
  intros n r F. rewrite join_spelled. inversion F as [|? ? (_ & S) F']; subst. apply split_spelled; [exact S|]. eapply Forall_impl; [|exact F']. now intros a (_ & H).
Qed.
Lemma text_join : forall n r, Forall a_step (n :: r) -> text slash (n :: r) (Uri_Model.join (n :: r)).
Proof.
  intros n r F. revert n F. induction r as [|m r IH]; intros n F; inversion F as [|? ? (_ & S) F']; subst.
  - apply TextOne. intros c I E. red in E. subst c. now apply S.
  - change (Uri_Model.join (n :: m :: r)) with (n ++ 47 :: Uri_Model.join (m :: r)). apply TextMore; [|reflexivity|now apply IH].
    intros c I E. red in E. subst c. now apply S.
Qed.
(** ** Its normal form *)
Definition DD : bytes := s2b "..".
Lemma keep_dots : forall k s, (s = [] \/ exists r, s = DD :: r) -> fold_left (Uri_Model.keep false) (repeat DD k) s = repeat DD k ++ s.
Proof.
  induction k as [|k IH]; intros s H; [reflexivity|]. cbn [repeat fold_left].
  assert (E : Uri_Model.keep false s DD = DD :: s) by (destruct H as [-> | (r & ->)]; reflexivity). rewrite E, IH by (right; eexists; reflexivity).
  clear. induction k as [|k IH]; [reflexivity|]. cbn [repeat app]. now rewrite IH.
Qed.
Lemma keep_names : forall f s, Forall a_name f -> fold_left (Uri_Model.keep false) f s = rev f ++ s.
Proof.
  induction f as [|n f IH]; intros s F; [reflexivity|]. inversion F as [|? ? Hn F']; subst. cbn [fold_left rev].
  replace (Uri_Model.keep false s n) with (n :: s).
  - rewrite IH by assumption. now rewrite <- app_assoc.
  - destruct Hn as (H1 & _ & H2 & H3). unfold Uri_Model.keep. now rewrite (proj2 (eqb_neq n []) H1), (proj2 (eqb_neq n Uri_Model.DOT) H2), (proj2 (eqb_neq n Uri_Model.DOTS) H3).
Qed.
Lemma rev_repeat : forall k (x : bytes), rev (repeat x k) = repeat x k.
Proof.
  induction k as [|k IH]; intros x; [reflexivity|]. cbn [repeat rev]. rewrite IH. clear. induction k as [|k IH]; [reflexivity|]. cbn [repeat app]. now rewrite IH.
Qed.
Lemma steps_ok : forall k f, Forall a_name f -> Forall a_step (repeat DD k ++ f).
Proof.
  intros k f F. apply Forall_app. split.
  - apply Forall_forall. intros x I. apply repeat_spec in I. subst x. split; [discriminate|]. cbn. intuition discriminate.
  - eapply Forall_impl; [|exact F]. intros n (H1 & H2 & _). now split.
Qed.
Lemma normal_steps : forall k f n r, Forall a_name f -> repeat DD k ++ f = n :: r -> normal (Uri_Model.join (n :: r)) = Uri_Model.join (n :: r).
Proof.
  intros k f n r F E. pose proof (steps_ok k f F) as S. rewrite E in S. pose proof (split_join n r S) as Sp.
  inversion S as [|? ? (Nn & Sn) _]; subst. assert (J : exists c x, Uri_Model.join (n :: r) = c :: x /\ c <> 47).
  { rewrite join_spelled. destruct n as [|c n]; [easy|]. exists c, (n ++ spelled r). split; [reflexivity|]. intros ->. apply Sn. now left. }
  destruct J as (c & x & J & Nc). unfold Uri_Model.lexically_normal. rewrite J. rewrite <- J, Sp.
  apply N.eqb_neq in Nc. change Uri_Model.SLASH with 47. rewrite Nc.
  assert (K : fold_left (Uri_Model.keep false) (n :: r) [] = rev (n :: r)).
  { rewrite <- E. rewrite fold_left_app, keep_dots by now left. rewrite app_nil_r, keep_names by assumption. now rewrite rev_app_distr, rev_repeat. }
  rewrite K. destruct (rev (n :: r)) as [|top st] eqn:Er.
  { apply (f_equal (@rev bytes)) in Er. rewrite rev_involutive in Er. discriminate. }
  rewrite <- Er, rev_involutive. cbn [app].
  assert (L : last (n :: r) [] = top).
  { apply (f_equal (@rev bytes)) in Er. rewrite rev_involutive in Er. cbn [rev] in Er. rewrite Er. apply last_last. }
  rewrite L. assert (T : top = DD \/ a_name top).
  { assert (I : In top (repeat DD k ++ f)) by (rewrite E; apply in_rev; rewrite Er; now left). apply in_app_or in I as [I|I].
    - left. symmetry. now apply repeat_spec in I.
    - right. rewrite Forall_forall in F. now apply F. }
  destruct T as [-> | (H1 & _ & H2 & H3)].
  - change (bytes_eqb DD Uri_Model.DOTS) with true. rewrite !orb_true_r. cbn [negb andb]. now rewrite app_nil_r.
  - rewrite (proj2 (eqb_neq top []) H1), (proj2 (eqb_neq top Uri_Model.DOT) H2), (proj2 (eqb_neq top Uri_Model.DOTS) H3). cbn [orb andb]. now rewrite app_nil_r.
Qed.
(** ** Up and down again *)
Lemma walk_up : forall w c, walk (c ++ w) (repeat DD (List.length w)) c.
Proof.
  induction w as [|x w IH] using rev_ind; intros c.
  - rewrite app_nil_r. constructor.
  - rewrite app_length, Nat.add_comm. cbn [List.length Nat.add repeat]. apply WalkUp. rewrite app_assoc, removelast_last. apply IH.
Qed.
Lemma walk_over : forall c w f, Forall a_name f -> walk (c ++ w) (repeat DD (List.length w) ++ f) (c ++ f).
Proof. intros c w f F. eapply walk_app; [apply walk_up|now apply walk_self]. Qed.
(** ** The whole *)
Definition steps (f' w' : list bytes) : list bytes := match repeat DD (List.length w') ++ f' with [] => [s2b "."] | l => l end.
Lemma relative_core : forall E f ws tail p q, Forall a_name f -> Forall a_name ws -> tail = [] \/ tail = [[]] ->
  rooted p = rooted q -> elements p = E ++ f -> elements q = E ++ ws ++ tail ->
  exists c f' w', f = c ++ f' /\ ws = c ++ w' /\ part f' w' /\ std_relative p q = Uri_Model.join (steps f' w') /\
    normal (Uri_Model.join (steps f' w')) = Uri_Model.join (steps f' w') /\ text slash (steps f' w') (Uri_Model.join (steps f' w')) /\
    walk ws (steps f' w') f.
Proof.
  intros E f ws tail p q Ff Fw T R Ep Eq. destruct (mismatch_parts f ws tail Ff T) as (c & f' & w' & -> & -> & M & P).
  apply Forall_app in Ff as (Fc & Ff). apply Forall_app in Fw as (_ & Fw).
  exists c, f', w'. split; [reflexivity|]. split; [reflexivity|]. split; [exact P|].
  assert (Mm : mismatch (elements p) (elements q) = (f', w' ++ tail)).
  { rewrite Ep, Eq. clear -M. induction E as [|e E IH]; [exact M|]. cbn [app mismatch]. now rewrite (proj2 (eqb_eq e e) eq_refl). }
  assert (W : walk (c ++ w') (steps f' w') (c ++ f')).
  { pose proof (walk_over c w' f' Ff) as W. unfold steps. destruct (repeat DD (List.length w') ++ f') eqn:Es; [|exact W].
    apply WalkStay; [now right|exact W]. }
  unfold std_relative. rewrite R, Mm. replace (Bool.eqb (rooted q) (rooted q)) with true by (now destruct (rooted q)). cbn [negb].
  rewrite (depth_names w' tail Fw T). rewrite Nat2Z.id.
  replace (Z.of_nat (List.length w') <? 0)%Z with false by (symmetry; apply Z.ltb_ge; lia).
  destruct (repeat DD (List.length w') ++ f') as [|n r] eqn:Es.
  - unfold steps in *. rewrite Es in *. apply app_eq_nil in Es as (Ew & ->). destruct w' as [|x w']; [|discriminate].
    split; [|split; [reflexivity|split; [|exact W]]].
    + destruct T as [-> | ->]; reflexivity.
    + apply (text_join (s2b ".") []). apply Forall_cons; [|constructor]. split; [discriminate|]. cbn. intuition discriminate.
  - pose proof (steps_ok (List.length w') f' Ff) as S. rewrite Es in S.
    unfold steps in *. rewrite Es in *. split; [|split; [exact (normal_steps _ _ _ _ Ff Es)|split; [now apply text_join|exact W]]].
    rewrite <- (append_all n r S).
    assert (G : ((Z.of_nat (List.length w') =? 0)%Z && match f' with [] | [] :: _ => true | _ => false end)%bool = false).
    { destruct w' as [|x w']; [|reflexivity]. cbn [List.length repeat app] in Es. subst f'. inversion Ff as [|? ? (Nn & _) _]; subst. now destruct n. }
    rewrite G. change (s2b "..") with DD. rewrite Es.
    destruct f' as [|x f']; [|reflexivity]. destruct w' as [|y w']; [discriminate|reflexivity].
Qed.
Lemma inside_steps : forall ws r c f' w', ws ++ r = c ++ f' -> ws = c ++ w' -> part f' w' -> r <> [] -> steps f' w' = r.
Proof.
  intros ws r c f' w' E -> P N. rewrite <- app_assoc in E. apply app_inv_head in E. subst f'.
  destruct w' as [|y w']; [unfold steps; cbn; now destruct r|]. now destruct P.
Qed.
Lemma walk_fun : forall d s a, walk d s a -> forall b, walk d s b -> a = b.
Proof.
  induction 1 as [d|d n r d' Hn H IH|d r d' H IH|d n r d' Hn H IH]; intros b W; inversion W as [|? ? ? ? Hn' W'|? ? ? W'|? ? ? ? Hn' W']; subst; auto;
    try (destruct Hn' as (X1 & _ & X2 & X3)); try (destruct Hn as (Y1 & _ & Y2 & Y3)); try (destruct Hn as [?|?]; congruence); try (destruct Hn' as [?|?]; congruence); congruence.
Qed.
