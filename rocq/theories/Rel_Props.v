(** * Rel_Props (C124): programs are found under their names relative to the workspace *)
From Coq Require Import String List NArith ZArith Bool Arith Lia.
From Verif Require Import Common Uri_Spec Pth_Spec Pth_Model Pth_Proof Rel_Model Rel_Proof.
From Verif Require Uri_Model Uri_Props Pth_Props.
Import ListNotations.
Open Scope list_scope.
Open Scope N_scope.

Lemma text_fun : forall c st x, text (eq c) st x -> forall y, text (eq c) st y -> x = y.
Proof.
  induction 1 as [n H|n a r t H Ha T IH]; intros y Y; inversion Y as [? ?|? b ? t' ? Hb T']; subst.
  - reflexivity.
  - inversion T'.
  - inversion T.
  - f_equal. f_equal. now apply IH.
Qed.
Lemma text_slash : forall st x, text slash st x <-> text (eq 47) st x.
Proof.
  intros st x. split; induction 1 as [n H|n a r t H Ha T IH].
  - apply TextOne. intros c I E. now apply (H c I).
  - apply TextMore; [intros c I E; now apply (H c I)|now symmetry|exact IH].
  - apply TextOne. intros c I E. now apply (H c I).
  - apply TextMore; [intros c I E; now apply (H c I)|now symmetry|exact IH].
Qed.
(** ** Linux *)
(** The name of a file says how to get to it from the workspace; of a file in the workspace it is the names below it. *)
Theorem C124_name : forall ws t f, Forall a_name ws -> names_directory ws t -> Forall a_name f -> f <> [] ->
  exists st, text slash st (program_name false (spelled f) t) /\ walk ws st f /\ forall r, f = ws ++ r -> r <> [] -> st = r.
Proof.
  intros ws t f Fw T Ff N. destruct (elements_ws ws t Fw T) as (R & tail & Tl & E).
  destruct (relative_core [[47]] f ws tail (spelled f) t Ff Fw Tl) as (c & f' & w' & E1 & E2 & P & S & Nm & Tx & W).
  - rewrite R. now destruct f.
  - now apply elements_file.
  - exact E.
  - exists (steps f' w'). unfold program_name, lexically_normal, lexically_relative. rewrite S, Nm. split; [exact Tx|]. split; [exact W|].
    intros r Er Nr. apply (inside_steps ws r c); congruence.
Qed.
Print Assumptions C124_name.
Theorem C124_different : forall ws t f g, Forall a_name ws -> names_directory ws t -> Forall a_name f -> f <> [] -> Forall a_name g -> g <> [] ->
  program_name false (spelled f) t = program_name false (spelled g) t -> f = g.
Proof.
  intros ws t f g Fw T Ff Nf Fg Ng E. destruct (C124_name ws t f Fw T Ff Nf) as (s1 & T1 & W1 & _). destruct (C124_name ws t g Fw T Fg Ng) as (s2 & T2 & W2 & _).
  rewrite E in T1. apply text_split in T1, T2. assert (s1 = s2) as -> by congruence. eapply walk_fun; eassumption.
Qed.
Print Assumptions C124_different.
(** An entry of the configuration without wildcards is that of a file of the workspace exactly when it writes the names below it. *)
Theorem C124_entry : forall ws t r pgm, Forall a_name ws -> names_directory ws t -> Forall a_name r -> r <> [] ->
  (program_name false (spelled (ws ++ r)) t = configured_name false pgm <-> text slash r pgm).
Proof.
  intros ws t r pgm Fw T Fr N. destruct (C124_name ws t (ws ++ r) Fw T) as (st & Tx & _ & Is).
  - apply Forall_app. now split.
  - intros E. apply app_eq_nil in E as (_ & E). now apply N.
  - rewrite (Is r eq_refl N) in Tx. cbn [configured_name]. split; [now intros <-|]. intros Y. apply text_slash in Y, Tx. eapply text_fun; eassumption.
Qed.
Print Assumptions C124_entry.
(** From the document the client opens. *)
Theorem C124_opened : forall ws t r u, Forall a_name ws -> names_directory ws t -> Forall a_name r -> r <> [] -> uri_of u (spelled (ws ++ r)) ->
  exists p, Uri_Model.uri_to_path u = Some p /\ text slash r (program_name false p t).
Proof.
  intros ws t r u Fw T Fr N U. exists (spelled (ws ++ r)).
  assert (F : Forall a_name (ws ++ r)) by (apply Forall_app; now split).
  assert (Ne : ws ++ r <> []) by (intros E; apply app_eq_nil in E as (_ & E); now apply N). split.
  - apply Uri_Props.C113_read; [exact U|]. exists (ws ++ r). now split; [|split].
  - destruct (C124_name ws t (ws ++ r) Fw T F Ne) as (st & Tx & _ & Is). now rewrite (Is r eq_refl N) in Tx.
Qed.
Print Assumptions C124_opened.

(** ** Windows *)
Definition head (r : root) : list bytes := match r with Drive c => [[c; 58]] | Share s h => [[47]; s; h] end.
Lemma nonempty_w : forall n, n <> [] -> nonempty n = true.
Proof. now intros [|c n]. Qed.
Lemma w_elements : forall r f, a_root r -> Forall a_name f -> elements (l_root r ++ spelled f) = head r ++ f.
Proof.
  intros r f H F. unfold elements. destruct r as [c|s h]; cbn [l_root a_root head] in *.
  - destruct (letter_not c H) as (N1 & _). rewrite Uri_Props.split_spelled; [|intros [E|[E|[]]]; [now apply N1|discriminate]|now apply a_name_slash].
    cbn [filter nonempty]. rewrite nonempty_names by assumption. cbn [rooted app]. replace (c =? SLASH) with false by (symmetry; now apply N.eqb_neq). cbn [app].
    assert (L : last ([c; 58] ++ spelled f) 0 <> 47) by (destruct f as [|n f]; [discriminate|]; apply name_end; [exact F|discriminate]).
    cbn [app] in L. apply N.eqb_neq in L. unfold SLASH. rewrite L. rewrite andb_false_r. now rewrite app_nil_r.
  - destruct H as ((Hs & _) & (Hh & _)). assert (A : Forall a_name (s :: h :: f)) by (apply Forall_cons; [exact Hs|]; apply Forall_cons; [exact Hh|exact F]).
    replace ((47 :: spelled [s; h]) ++ spelled f) with (47 :: spelled (s :: h :: f)).
    2:{ unfold spelled. cbn [flat_map app]. rewrite app_nil_r. repeat (rewrite <- app_assoc; cbn [app]). reflexivity. }
    change (Uri_Model.split (47 :: spelled (s :: h :: f))) with ([] :: Uri_Model.split (spelled (s :: h :: f))). rewrite split_spelled_all by assumption.
    cbn [filter nonempty]. change (filter nonempty (s :: h :: f)) with (filter nonempty (s :: h :: f)).
    pose proof (nonempty_names _ A) as E. cbn [filter] in E. rewrite E.
    pose proof (name_end [47] (s :: h :: f) A ltac:(discriminate)) as L. cbn [app] in L. apply N.eqb_neq in L. unfold SLASH in *. rewrite L. rewrite andb_false_r. now rewrite app_nil_r.
Qed.
Lemma w_elements_closed : forall r f, a_root r -> Forall a_name f -> elements ((l_root r ++ spelled f) ++ [47]) = head r ++ f ++ [[]].
Proof.
  intros r f H F. pose proof (w_elements r f H F) as E. unfold elements in *. rewrite last_last.
  assert (Nx : l_root r ++ spelled f <> []) by (intros X; apply app_eq_nil in X as (X & _); now apply root_end in X).
  replace (rooted ((l_root r ++ spelled f) ++ [47])) with (rooted (l_root r ++ spelled f)) by (now destruct (l_root r ++ spelled f)).
  rewrite (split_two (l_root r ++ spelled f) []), filter_app. cbn [Uri_Model.split filter nonempty]. rewrite app_nil_r.
  replace (nonempty ((l_root r ++ spelled f) ++ [47])) with true by (now destruct (l_root r ++ spelled f)). cbn [N.eqb andb].
  change (47 =? SLASH) with true. cbv iota.
  assert (L : (last (l_root r ++ spelled f) 0 =? SLASH) = false).
  { apply N.eqb_neq. destruct f as [|n f]; [cbn [spelled flat_map]; rewrite app_nil_r; now apply root_end|]. apply name_end; [exact F|discriminate]. }
  rewrite L, andb_false_r, app_nil_r in E.
  destruct (filter nonempty (Uri_Model.split (l_root r ++ spelled f))) as [|a l].
  - exfalso. rewrite app_nil_r in E. destruct r as [c|s h]; cbn in E; [destruct (c =? SLASH)|]; discriminate.
  - rewrite app_assoc, E. now rewrite <- app_assoc.
Qed.
Lemma text_w : forall st x, text slash st x -> text (eq 92) st (make_windows_preferred x) \/ exists n, In n st /\ In 92 n.
Proof.
  induction 1 as [n H|n a r t H Ha T IH].
  - destruct (in_dec N.eq_dec 92 n) as [J|J]; [right; exists n; split; [now left|exact J]|left]. rewrite to_w_plain by (intros I; now apply (H 47 I)). apply TextOne. intros c I <-. now apply J.
  - destruct (in_dec N.eq_dec 92 n) as [J|J]; [right; exists n; split; [now left|exact J]|]. destruct IH as [IH|(m & Im & J')]; [left|right; exists m; split; [now right|exact J']].
    rewrite to_w_app, to_w_plain by (intros I; now apply (H 47 I)). red in Ha. subst a. apply (TextMore _ n 92); [intros c I <-; now apply J|reflexivity|exact IH].
Qed.
Lemma text_no_share : forall st x, text slash st x -> (forall n, In n st -> n <> []) ->
  (match x with a :: b :: _ => (a =? SLASH) && (b =? SLASH) | _ => false end)%bool = false.
Proof.
  intros st x [n Hn|n a l y Hn Ha T] H.
  - destruct n as [|x0 [|y n]]; try reflexivity. apply andb_false_iff. left. apply N.eqb_neq. intros ->. apply (Hn 47); [now left|reflexivity].
  - destruct n as [|x0 n]; [exfalso; apply (H []); [now left|reflexivity]|]. cbn [app]. destruct (n ++ a :: y); [reflexivity|].
    apply andb_false_iff. left. apply N.eqb_neq. intros ->. apply (Hn 47); [now left|reflexivity].
Qed.
Theorem C124_windows_name : forall r ws t f, a_root r -> Forall w_name ws -> w_names_directory r ws t -> Forall w_name f ->
  exists st, text (eq 92) st (program_name true (w_root r ++ w_spelled f) t) /\ walk ws st f /\ forall q, f = ws ++ q -> q <> [] -> st = q.
Proof.
  intros r ws t f H Fw T Ff. pose proof (w_a _ Ff) as Af. pose proof (w_a _ Fw) as Aw.
  assert (Lf : make_linux_preferred (w_root r ++ w_spelled f) = l_root r ++ spelled f) by (rewrite to_l_app, root_l, w_spelled_l; auto using w_92).
  assert (Lw : exists tail, (tail = [] \/ tail = [[]]) /\ elements (make_linux_preferred t) = head r ++ ws ++ tail /\ rooted (make_linux_preferred t) = rooted (l_root r)).
  { assert (X : make_linux_preferred (w_root r ++ w_spelled ws) = l_root r ++ spelled ws) by (rewrite to_l_app, root_l, w_spelled_l; auto using w_92).
    destruct (root_end r H) as (Nr & _). destruct T as [-> | ->].
    - exists [[]]. split; [now right|]. unfold w_directory. rewrite app_assoc, to_l_app, X. change (make_linux_preferred [92]) with [47]. split; [now apply w_elements_closed|].
      now destruct (l_root r).
    - exists []. split; [now left|]. rewrite X, app_nil_r. split; [now apply w_elements|now destruct (l_root r)]. }
  destruct Lw as (tail & Tl & Ew & Rw).
  destruct (relative_core (head r) f ws tail (l_root r ++ spelled f) (make_linux_preferred t) Af Aw Tl) as (c & f' & w' & E1 & E2 & P & S & Nm & Tx & W).
  - rewrite Rw. destruct (root_end r H) as (Nr & _). now destruct (l_root r).
  - now apply w_elements.
  - exact Ew.
  - exists (steps f' w'). assert (St : forall n, In n (steps f' w') -> ~ In 92 n /\ n <> []).
    { intros n I. assert (K : n = s2b "." \/ n = DD \/ In n f').
      { unfold steps in I. destruct (repeat DD (List.length w') ++ f') eqn:Es; [destruct I as [<-|[]]; now left|]. rewrite <- Es in I. apply in_app_or in I as [I|I]; [right; left; now apply repeat_spec in I|now right; right]. }
      destruct K as [-> | [-> | K]]; try (split; [cbn; intuition discriminate|discriminate]).
      subst f. apply Forall_app in Ff as (_ & Ff). rewrite Forall_forall in Ff. destruct (Ff n K) as ((X & _) & Y & _). now split. }
    assert (N92 : ~ In 92 (Uri_Model.join (steps f' w'))).
    { intros I. destruct (text_in _ _ _ _ Tx I) as [X|(n & In' & X)]; [discriminate|]. exact (proj1 (St n In') X). }
    unfold program_name, lexically_normal, lexically_relative. rewrite Lf, S, to_l_to_w by exact N92. rewrite Nm.
    split; [|split; [exact W|intros q Eq Nq; apply (inside_steps ws q c); congruence]].
    assert (U : (match Uri_Model.join (steps f' w') with a :: b :: _ => (a =? SLASH) && (b =? SLASH) | _ => false end)%bool = false).
    { refine (text_no_share _ _ Tx _). intros n I. exact (proj2 (St n I)). }
    rewrite U. cbn [app]. destruct (text_w _ _ Tx) as [X|(n & In' & X)]; [exact X|]. exfalso. exact (proj1 (St n In') X).
Qed.
Print Assumptions C124_windows_name.
Lemma text_first : forall (sep : N -> Prop) n a r m b s, (forall c, In c n -> ~ sep c) -> (forall c, In c m -> ~ sep c) -> sep a -> sep b ->
  n ++ a :: r = m ++ b :: s -> n = m /\ a = b /\ r = s.
Proof.
  intros sep. induction n as [|x n IH]; intros a r [|y m] b s Hn Hm Ha Hb E; cbn in E; injection E as E1 E2.
  - now subst.
  - subst. exfalso. now apply (Hm y); [left|].
  - subst. exfalso. now apply (Hn b); [left|].
  - subst. destruct (IH a r m b s) as (-> & -> & ->); auto; intros c I; [apply Hn|apply Hm]; now right.
Qed.
Lemma text_inj : forall sep st x, text sep st x -> forall st', text sep st' x -> st = st'.
Proof.
  induction 1 as [n H|n a r t H Ha T IH]; intros st' Y; inversion Y as [m Hm Em Ex|m b r' t' Hm Hb T' Em Ex]; subst.
  - reflexivity.
  - exfalso. apply (H b); [apply in_or_app; right; now left|exact Hb].
  - exfalso. apply (Hm a); [apply in_or_app; right; now left|exact Ha].
  - symmetry in Ex. destruct (text_first sep n a t m b t') as (-> & -> & ->); auto. f_equal. now apply IH.
Qed.
Theorem C124_windows_different : forall r ws t f g, a_root r -> Forall w_name ws -> w_names_directory r ws t -> Forall w_name f -> Forall w_name g ->
  program_name true (w_root r ++ w_spelled f) t = program_name true (w_root r ++ w_spelled g) t -> f = g.
Proof.
  intros r ws t f g H Fw T Ff Fg E. destruct (C124_windows_name r ws t f H Fw T Ff) as (s1 & T1 & W1 & _). destruct (C124_windows_name r ws t g H Fw T Fg) as (s2 & T2 & W2 & _).
  rewrite E in T1. rewrite (text_inj _ _ _ T1 _ T2) in W1. eapply walk_fun; eassumption.
Qed.
Print Assumptions C124_windows_different.
Lemma either_w : forall q x, text either q x -> text (eq 92) q (make_windows_preferred x).
Proof.
  induction 1 as [n Hn|n c l x Hn Hc X IH].
  - rewrite to_w_plain by (intros I; apply (Hn 47 I); now left). apply TextOne. intros c I <-. apply (Hn 92 I). now right.
  - rewrite to_w_app, to_w_plain by (intros I; apply (Hn 47 I); now left).
    replace (make_windows_preferred (c :: x)) with (92 :: make_windows_preferred x) by (destruct Hc as [-> | ->]; reflexivity).
    apply TextMore; [intros y I <-; apply (Hn 92 I); now right|reflexivity|exact IH].
Qed.
Lemma to_w_same : forall n x, ~ In 92 n -> make_windows_preferred x = n -> x = n.
Proof.
  unfold make_windows_preferred, SLASH, BACKSLASH. induction n as [|c n IH]; intros [|d x] N E; try discriminate; [reflexivity|]. cbn in E. injection E as E1 E2.
  destruct (d =? 47) eqn:Q; [exfalso; apply N; left; congruence|]. f_equal; [exact E1|]. apply IH; [intros I; apply N; now right|exact E2].
Qed.
Lemma w_either : forall q y, text (eq 92) q y -> (forall n, In n q -> ~ In 47 n) -> forall x, make_windows_preferred x = y -> text either q x.
Proof.
  induction 1 as [n Hn|n c l y Hn Hc X IH]; intros H x E.
  - assert (x = n) as -> by (apply to_w_same; [intros I; now apply (Hn 92 I)|exact E]). apply TextOne.
    intros c I [-> | ->]; [apply (H n); [now left|exact I]|now apply (Hn 92 I)].
  - subst c. unfold make_windows_preferred in E. apply map_eq_app in E as (x1 & x2 & -> & E1 & E2). destruct x2 as [|d x2]; [discriminate|]. cbn in E2. injection E2 as E2 E3.
    assert (x1 = n) as -> by (apply to_w_same; [intros I; now apply (Hn 92 I)|exact E1]). apply TextMore.
    + intros c I [-> | ->]; [apply (H n); [now left|exact I]|now apply (Hn 92 I)].
    + destruct (d =? SLASH) eqn:Q; [left; now apply N.eqb_eq in Q|right; exact E2].
    + apply IH; [intros m I; apply H; now right|exact E3].
Qed.
(** The configuration may use either separator. *)
Theorem C124_windows_entry : forall r ws t q pgm, a_root r -> Forall w_name ws -> w_names_directory r ws t -> Forall w_name q -> q <> [] ->
  (program_name true (w_root r ++ w_spelled (ws ++ q)) t = configured_name true pgm <-> text either q pgm).
Proof.
  intros r ws t q pgm H Fw T Fq N. destruct (C124_windows_name r ws t (ws ++ q) H Fw T) as (st & Tx & _ & Is); [apply Forall_app; now split|].
  rewrite (Is q eq_refl N) in Tx. cbn [configured_name]. split.
  - intros E. apply (w_either q _ Tx); [|now symmetry]. intros n I. rewrite Forall_forall in Fq. destruct (Fq n I) as ((_ & S & _) & _). exact S.
  - intros X. eapply text_fun; [exact Tx|]. now apply either_w.
Qed.
Print Assumptions C124_windows_entry.
(** Another drive: the name leads nowhere. *)
Theorem C124_drives_refuted : program_name true (s2b "D:\a\X") (s2b "C:\ws") = s2b "..\..\D:\a\X".
Proof. vm_compute. reflexivity. Qed.
Print Assumptions C124_drives_refuted.

Example ex_names :
  program_name false (s2b "/home/ws/src/A.hlasm") (s2b "/home/ws") = s2b "src/A.hlasm" /\
  program_name false (s2b "/home/other/A") (s2b "/home/ws/") = s2b "../other/A" /\
  program_name false (s2b "/home") (s2b "/home/ws") = s2b ".." /\
  program_name true (s2b "C:\ws\src\A.hlasm") (s2b "C:\ws") = configured_name true (s2b "src/A.hlasm") /\
  program_name true (s2b "\\host\share\ws\A") (s2b "\\host\share\ws") = s2b "A".
Proof. vm_compute. intuition. Qed.
Example ex_hypotheses : Forall a_name [s2b "home"; s2b "ws"] /\ names_directory [s2b "home"; s2b "ws"] (s2b "/home/ws") /\
  Forall w_name [s2b "ws"] /\ a_root (Drive 67) /\ w_names_directory (Drive 67) [s2b "ws"] (s2b "C:\ws") /\ text either [s2b "src"; s2b "A"] (s2b "src/A").
Proof.
  split; [apply Forall_cons; [|apply Forall_cons; [|constructor]]; apply Pth_Props.plain; (discriminate || reflexivity)|].
  split; [right; split; [reflexivity|discriminate]|]. split; [apply Forall_cons; [apply Pth_Props.plain; (discriminate || reflexivity)|constructor]|].
  split; [left; split; discriminate|]. split; [now right|].
  assert (K : forall n, forallb (fun c => negb ((c =? 47) || (c =? 92))) n = true -> forall c, In c n -> ~ either c).
  { intros n H c I E. rewrite forallb_forall in H. specialize (H _ I). destruct E as [-> | ->]; discriminate. }
  apply (TextMore either (s2b "src") 47); [now apply K|now left|]. apply TextOne. now apply K.
Qed.
