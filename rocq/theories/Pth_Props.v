(** * Pth_Props (C123): the directories of libraries *)
From Coq Require Import String List NArith Bool Arith Lia.
From Verif Require Import Common Uri_Spec Pth_Spec Pth_Model Pth_Proof.
From Verif Require Uri_Model Uri_Props.
Import ListNotations.
Open Scope list_scope.
Open Scope N_scope.

(** ** Linux *)
(** The directory of a library is where its path, gone along from the workspace, leads. *)
Theorem C123_relative : forall ws t p st d, Forall a_name ws -> names_directory ws t -> ~ begins_with slash p -> text slash st p ->
  walk ws st d -> library_directory false t p = directory d.
Proof.
  intros ws t p st d F T B X W. apply text_split in X. subst st.
  assert (R : rooted p = false) by (destruct p as [|c p]; [reflexivity|]; apply N.eqb_neq; exact B).
  destruct (closed_ok p) as (R' & L & Wk & _). rewrite R in R'. apply Wk in W.
  change (library_directory false t p) with (Uri_Model.lexically_normal (if rooted (closed p) then closed p else append t (closed p))).
  rewrite R', (under ws t _ F T R'). destruct (after_slash ws (closed p) F) as (u & -> & S & _).
  apply linux_core; rewrite S.
  - pose proof (split_ne (closed p)). destruct (@exists_last _ (Uri_Model.split (closed p))) as (l & x & E); [assumption|]. rewrite E in *. rewrite last_last in L.
    now rewrite app_assoc, last_last.
  - eapply walk_app; [exact (Uri_Props.walk_self ws [] F)|exact W].
Qed.
Print Assumptions C123_relative.
Theorem C123_absolute : forall ws t st d, text slash st t -> walk [] st d -> library_directory false ws (47 :: t) = directory d.
Proof.
  intros ws t st d X W. apply text_split in X. subst st. destruct (closed_ok t) as (_ & L & Wk & _).
  unfold library_directory, join, is_absolute, lexically_normal. change (append (47 :: t) []) with (append ([] ++ 47 :: t) []). rewrite (closed_after [] t). cbn [app rooted]. change (47 =? SLASH) with true. cbv iota.
  apply linux_core; [exact L|now apply Wk].
Qed.
Print Assumptions C123_absolute.
Theorem C123_member : forall cwd d n, a_name n -> member false cwd (directory d) n = spelled (d ++ [n]).
Proof.
  intros cwd d n (N & S & _).
  assert (E : append (directory d) n = spelled (d ++ [n])).
  { unfold directory. rewrite append_closed.
    - unfold spelled. rewrite flat_map_app. cbn. now rewrite app_nil_r.
    - destruct n as [|c n]; [easy|]. apply N.eqb_neq. intros ->. apply S. now left. }
  assert (A : exists x, spelled (d ++ [n]) = 47 :: x) by (destruct d; eexists; reflexivity). destruct A as (x & A).
  unfold member, listed, absolute, join, is_absolute. rewrite E, A. reflexivity.
Qed.
Print Assumptions C123_member.
(** A macro found in a library and the file the client opens are the same. *)
Theorem C123_same_file : forall cwd ws t p st d n u, Forall a_name ws -> names_directory ws t -> ~ begins_with slash p -> text slash st p ->
  walk ws st d -> a_name n -> uri_of u (spelled (d ++ [n])) ->
  Uri_Model.uri_to_path u = Some (member false cwd (library_directory false t p) n).
Proof.
  intros cwd ws t p st d n u F T B X W N U. rewrite (C123_relative ws t p st d F T B X W), C123_member by assumption.
  apply Uri_Props.C113_read; [exact U|]. exists (d ++ [n]). split; [now destruct d|]. split; [|reflexivity]. apply Forall_app. split; [|apply Forall_cons; [exact N|constructor]].
  now destruct (Uri_Props.walk_fold _ _ _ W F).
Qed.
Print Assumptions C123_same_file.
Lemma plain : forall n, n <> [] -> forallb (fun c => negb ((c =? 47) || (c =? 92) || (c =? 58))) n = true -> n <> [46] -> n <> [46; 46] -> w_name n.
Proof.
  intros n N H D1 D2. rewrite forallb_forall in H. assert (forall c, In c n -> c <> 47 /\ c <> 92 /\ c <> 58) as K.
  { intros c I. specialize (H c I). apply negb_true_iff, orb_false_iff in H as (H & H3). apply orb_false_iff in H as (H1 & H2). apply N.eqb_neq in H1, H2, H3. auto. }
  split; [split; [exact N|split; [intros I; now apply K in I|now split]]|]. split; intros I; now apply K in I.
Qed.
Ltac name := apply plain; [discriminate|vm_compute; reflexivity|discriminate|discriminate].
Theorem C123_configuration : forall ws t, Forall a_name ws -> names_directory ws t ->
  proc_grps false t = spelled (ws ++ [s2b ".hlasmplugin"; s2b "proc_grps.json"]) /\
  pgm_conf false t = spelled (ws ++ [s2b ".hlasmplugin"; s2b "pgm_conf.json"]).
Proof.
  intros ws t F T.
  assert (K : forall n m, a_name n -> rooted n = false -> rooted m = false -> append (append t n) m = spelled (ws ++ [n; m])).
  { intros n m A Rn Rm. rewrite (under ws t n F T Rn). replace (spelled ws ++ 47 :: n) with (spelled (ws ++ [n])) by (unfold spelled; rewrite flat_map_app; cbn; now rewrite app_nil_r).
    rewrite append_open; [|exact Rm|destruct ws; discriminate|].
    - unfold spelled. rewrite !flat_map_app. cbn. rewrite !app_nil_r, <- app_assoc. reflexivity.
    - apply (name_end []); [apply Forall_app; split; [exact F|apply Forall_cons; [exact A|constructor]]|now destruct ws]. }
  split; apply K; try reflexivity; name.
Qed.
Print Assumptions C123_configuration.

(** ** Windows *)
Lemma closed_plain : forall p, ~ In 92 p -> ~ In 92 (closed p).
Proof. intros [|c p] H I; [destruct I|]. apply append_in in I as [I|[I|I]]; [now apply H|destruct I|discriminate]. Qed.
Lemma to_w_in : forall c s, c <> 47 -> c <> 92 -> In c (make_windows_preferred s) -> In c s.
Proof. intros c s N1 N2 I. apply in_map_iff in I as (x & E & I). destruct (x =? SLASH); [now subst c|now subst x]. Qed.
Lemma to_l_in : forall c s, c <> 47 -> c <> 92 -> In c (make_linux_preferred s) -> In c s.
Proof. intros c s N1 N2 I. apply in_map_iff in I as (x & E & I). destruct (x =? BACKSLASH); [now subst c|now subst x]. Qed.
Lemma no_colon : forall p, ~ In 58 p -> match p with c :: _ => c <> 92 | [] => True end -> is_absolute true p = false.
Proof.
  intros [|a [|b r]] H B; try reflexivity. cbn [is_absolute]. replace (b =? COLON) with false by (symmetry; apply N.eqb_neq; intros ->; apply H; right; now left).
  replace (a =? BACKSLASH) with false by (symmetry; now apply N.eqb_neq). now rewrite !andb_false_r.
Qed.
Theorem C123_windows_relative : forall r ws t p st d, a_root r -> Forall w_name ws -> w_names_directory r ws t ->
  ~ begins_with either p -> ~ In 58 p -> text either st p -> inside ws st d ->
  library_directory true t p = w_directory r d.
Proof.
  intros r ws t p st d H F T B C X I. pose proof (text_split _ _ (text_l _ _ X)) as S.
  set (p' := make_linux_preferred p) in *. assert (N92 : ~ In 92 p') by apply to_l_no.
  assert (R : rooted p' = false).
  { unfold p'. destruct p as [|c p]; [reflexivity|]. cbn in B |- *. destruct (N.eqb_spec c BACKSLASH) as [->|]; [destruct B; now right|].
    apply N.eqb_neq. intros ->. apply B. now left. }
  destruct (closed_ok p') as (R' & L & _ & In'). rewrite R in R'. subst st. apply In' in I.
  assert (E : match p with [] => [] | _ => join true p [] end = make_windows_preferred (closed p')).
  { unfold p'. destruct p as [|c p]; [reflexivity|]. reflexivity. }
  unfold library_directory. cbv zeta. rewrite E.
  assert (A : is_absolute true (make_windows_preferred (closed p')) = false).
  { apply no_colon.
    - intros J. apply to_w_in in J; [|discriminate|discriminate]. unfold closed in J. destruct p' as [|c q] eqn:Ep; [destruct J|]. rewrite <- Ep in J.
      apply append_in in J as [J|[J|J]]; [|destruct J|discriminate]. rewrite <- Ep in *. apply to_l_in in J; [now apply C|discriminate|discriminate].
    - destruct (closed p') as [|c q] eqn:Ec; [exact Logic.I|]. cbn in R' |- *. rewrite R'. intros ->. apply (closed_plain p' N92). rewrite Ec. now left. }
  rewrite A. unfold join. rewrite A. rewrite to_l_to_w by now apply closed_plain.
  rewrite (w_under r ws t _ H F T R'). destruct (after_slash ws (closed p') (w_a _ F)) as (u & -> & S & P).
  apply windows_core; [exact H| | |apply P; [now apply closed_plain|now apply w_92]]; rewrite S.
  - pose proof (split_ne (closed p')). destruct (@exists_last _ (Uri_Model.split (closed p'))) as (l & x & El); [assumption|]. rewrite El in *. rewrite last_last in L.
    now rewrite app_assoc, last_last.
  - eapply inside_app; [exact (inside_self ws [] (w_a _ F))|exact I].
Qed.
Print Assumptions C123_windows_relative.
Theorem C123_windows_absolute : forall ws r t0 c t st d, a_root r -> writes_root r t0 -> either c -> text either st t -> inside [] st d ->
  library_directory true ws (t0 ++ c :: t) = w_directory r d.
Proof.
  intros ws r t0 c t st d H W0 Hc X I. pose proof (text_split _ _ (text_l _ _ X)) as S. subst st.
  set (t' := make_linux_preferred t) in *. destruct (closed_ok t') as (_ & L & _ & In'). apply In' in I.
  assert (E : make_linux_preferred (t0 ++ c :: t) = l_root r ++ 47 :: t').
  { rewrite to_l_app, (root_written r t0 H W0). f_equal. unfold t'. destruct Hc as [-> | ->]; reflexivity. }
  assert (J : join true (t0 ++ c :: t) [] = make_windows_preferred (l_root r ++ 47 :: closed t')).
  { unfold join. change (is_absolute true []) with false. cbv iota. rewrite E. change (make_linux_preferred []) with (@nil N). now rewrite closed_after. }
  unfold library_directory. cbv zeta. replace (match t0 ++ c :: t with [] => [] | _ => join true (t0 ++ c :: t) [] end) with (join true (t0 ++ c :: t) []) by (now destruct t0).
  rewrite J. assert (A : is_absolute true (make_windows_preferred (l_root r ++ 47 :: closed t')) = true).
  { destruct r as [l|s h]; cbn [l_root a_root] in *.
    - destruct (letter_not l H) as (N1 & N2). cbn. apply N.eqb_neq in N1. unfold SLASH. rewrite N1. apply orb_true_iff. left. rewrite andb_true_r. unfold is_alpha.
      apply orb_true_iff. destruct H as [(H1 & H2)|(H1 & H2)]; [left|right]; apply andb_true_iff; split; now apply N.leb_le.
    - destruct H as (((Hs & _) & _) & ((Hh & _) & _)). destruct s as [|a s]; [easy|]. cbn. destruct s; reflexivity. }
  rewrite A. apply windows_core; [exact H|exact L|exact I|]. apply closed_plain. apply to_l_no.
Qed.
Print Assumptions C123_windows_absolute.
Lemma root_no_slash : forall r, a_root r -> ~ In 47 (w_root r).
Proof.
  intros [c|s h] H; cbn [w_root a_root] in *.
  - intros [E|[E|[]]]; [now apply letter_not in H|discriminate].
  - destruct H as (((_ & Hs & _) & _) & ((_ & Hh & _) & _)). cbn. rewrite app_nil_r. intros [E|[E|I]]; try discriminate.
    apply in_app_or in I as [I|[E|I]]; [now apply Hs|discriminate|now apply Hh].
Qed.
Lemma spelled_no_slash : forall d, Forall a_name d -> ~ In 47 (w_spelled d).
Proof.
  intros d F I. unfold w_spelled in I. apply in_flat_map in I as (n & In & [E|I]); [discriminate|]. rewrite Forall_forall in F. now destruct (F n In) as (_ & H & _).
Qed.
Lemma w_to_l_to_w : forall s, ~ In 47 s -> make_windows_preferred (make_linux_preferred s) = s.
Proof.
  intros s H. unfold make_linux_preferred, make_windows_preferred. rewrite map_map. rewrite <- (map_id s) at 2. apply map_ext_in. intros c I.
  destruct (N.eqb_spec c BACKSLASH) as [->|_]; [reflexivity|]. destruct (N.eqb_spec c SLASH) as [->|_]; [now destruct H|reflexivity].
Qed.
Lemma root_absolute : forall r x, a_root r -> is_absolute true (w_root r ++ x) = true.
Proof.
  intros [l|s h] x H; cbn [w_root a_root] in *.
  - cbn. apply orb_true_iff. left. rewrite andb_true_r. unfold is_alpha.
    apply orb_true_iff. destruct H as [(H1 & H2)|(H1 & H2)]; [left|right]; apply andb_true_iff; split; now apply N.leb_le.
  - destruct H as (((Hs & _) & _) & _). destruct s as [|a s]; [easy|]. cbn. destruct s; reflexivity.
Qed.
Theorem C123_windows_member : forall cwd r d n, a_root r -> Forall a_name d -> w_name n -> member true cwd (w_directory r d) n = w_root r ++ w_spelled (d ++ [n]).
Proof.
  intros cwd r d n H F ((N & S & _) & B & C).
  assert (E : join true (w_directory r d) n = w_root r ++ w_spelled (d ++ [n])).
  { unfold join. rewrite no_colon; [|exact C|destruct n; [exact Logic.I|intros ->; apply B; now left]].
    rewrite (to_l_plain n B). unfold w_directory. rewrite app_assoc, to_l_app. change (make_linux_preferred [92]) with [47].
    rewrite append_closed by (destruct n as [|c n]; [easy|]; apply N.eqb_neq; intros ->; apply S; now left).
    rewrite to_w_app. change (make_windows_preferred (47 :: n)) with (92 :: make_windows_preferred n). rewrite (to_w_plain n S).
    rewrite w_to_l_to_w.
    - unfold w_spelled. rewrite flat_map_app. cbn. now rewrite app_nil_r, <- app_assoc.
    - intros I. apply in_app_or in I as [I|I]; [now apply root_no_slash in I|now apply spelled_no_slash in I]. }
  unfold member, listed. rewrite E. pose proof (root_absolute r (w_spelled (d ++ [n])) H) as A. unfold absolute. rewrite A.
  replace (match w_root r ++ w_spelled (d ++ [n]) with [] => w_root r ++ w_spelled (d ++ [n]) | _ => _ end) with (w_root r ++ w_spelled (d ++ [n]))
    by (now destruct (w_root r ++ w_spelled (d ++ [n]))).
  unfold join at 1. now rewrite A.
Qed.
Print Assumptions C123_windows_member.
Theorem C123_windows_configuration : forall r ws t, a_root r -> Forall w_name ws -> w_names_directory r ws t ->
  proc_grps true t = w_root r ++ w_spelled (ws ++ [s2b ".hlasmplugin"; s2b "proc_grps.json"]) /\
  pgm_conf true t = w_root r ++ w_spelled (ws ++ [s2b ".hlasmplugin"; s2b "pgm_conf.json"]).
Proof.
  intros r ws t H F T.
  assert (J : forall ws t n, Forall w_name ws -> w_names_directory r ws t -> w_name n -> is_absolute true n = false -> rooted n = false ->
              join true t n = w_root r ++ w_spelled (ws ++ [n])).
  { clear ws t F T. intros ws t n F T (An & B & C) A R. unfold join. rewrite A. rewrite (to_l_plain n B), (w_under r ws t n H F T R).
    rewrite !to_w_app. change (make_windows_preferred (47 :: n)) with (92 :: make_windows_preferred n).
    rewrite (to_w_plain n) by apply An. rewrite spelled_w by (apply a_name_slash, w_a, F).
    rewrite <- (root_l r H), w_to_l_to_w by now apply root_no_slash.
    unfold w_spelled. rewrite flat_map_app. cbn. now rewrite app_nil_r. }
  assert (K : forall m, w_name m -> is_absolute true m = false -> rooted m = false -> join true (join true t (s2b ".hlasmplugin")) m = w_root r ++ w_spelled (ws ++ [s2b ".hlasmplugin"; m])).
  { intros m Am A R. assert (P : w_name (s2b ".hlasmplugin")) by name.
    rewrite (J ws t (s2b ".hlasmplugin") F T P eq_refl eq_refl).
    rewrite (J (ws ++ [s2b ".hlasmplugin"])); [now rewrite <- app_assoc|apply Forall_app; split; [exact F|apply Forall_cons; [exact P|constructor]]|now right|exact Am|exact A|exact R]. }
  split; apply K; try reflexivity; name.
Qed.
Print Assumptions C123_windows_configuration.

(** ** Where Windows goes wrong *)
(** Above the root of a drive there is nothing: the directory loses its drive. *)
Theorem C123_above_refuted : walk [s2b "ws"] [s2b ".."; s2b ".."; s2b "lib"] [s2b "lib"] /\
  library_directory true (s2b "C:\ws") (s2b "..\..\lib") = s2b "lib\" /\ is_absolute true (s2b "lib\") = false.
Proof.
  split; [|split; vm_compute; reflexivity]. apply WalkUp. apply WalkUp. apply WalkDown; [name|constructor].
Qed.
Print Assumptions C123_above_refuted.
(** A path from the root of the drive loses the drive of the workspace. *)
Theorem C123_drive_refuted : library_directory true (s2b "D:\ws") (s2b "\lib") = s2b "\lib\" /\
  library_directory true (s2b "C:\ws") (s2b "\lib") = s2b "\lib\".
Proof. split; vm_compute; reflexivity. Qed.
Print Assumptions C123_drive_refuted.

(** ** Examples *)
Example ex_linux : names_directory [s2b "home"; s2b "ws"] (s2b "/home/ws") /\ text slash [s2b ".."; []; s2b "."; s2b "lib"] (s2b "..//./lib") /\
  walk [s2b "home"; s2b "ws"] [s2b ".."; []; s2b "."; s2b "lib"] [s2b "home"; s2b "lib"] /\
  library_directory false (s2b "/home/ws") (s2b "..//./lib") = s2b "/home/lib/".
Proof.
  split; [right; split; [reflexivity|discriminate]|]. split; [|split; [|vm_compute; reflexivity]].
  - assert (K : forall n, forallb (fun c => negb (c =? 47)) n = true -> forall c, In c n -> ~ slash c).
    { intros n H c I ->. rewrite forallb_forall in H. now specialize (H _ I). }
    apply (TextMore slash (s2b "..") 47); [now apply K|reflexivity|]. apply (TextMore slash [] 47); [now apply K|reflexivity|].
    apply (TextMore slash (s2b ".") 47); [now apply K|reflexivity|]. apply TextOne. now apply K.
  - apply WalkUp. apply WalkStay; [now left|]. apply WalkStay; [now right|]. apply WalkDown; [name|constructor].
Qed.
Example ex_windows : w_names_directory (Drive 67) [s2b "ws"; s2b "a b"] (s2b "C:\ws\a b") /\ text either [s2b ".."; s2b "lib"; []] (s2b "..\lib/") /\
  inside [s2b "ws"; s2b "a b"] [s2b ".."; s2b "lib"; []] [s2b "ws"; s2b "lib"] /\
  library_directory true (s2b "C:\ws\a b") (s2b "..\lib/") = s2b "C:\ws\lib\" /\
  library_directory true (s2b "C:\ws") (s2b "//host/share/x/../lib") = s2b "\\host\share\lib\" /\
  library_directory true (s2b "\\host\share\ws") (s2b "lib") = s2b "\\host\share\ws\lib\".
Proof.
  split; [right; reflexivity|]. split; [|split; [|split; [vm_compute; reflexivity|split; vm_compute; reflexivity]]].
  - assert (K : forall n, forallb (fun c => negb ((c =? 47) || (c =? 92))) n = true -> forall c, In c n -> ~ either c).
    { intros n H c I E. rewrite forallb_forall in H. specialize (H _ I). destruct E as [-> | ->]; discriminate. }
    apply (TextMore either (s2b "..") 92); [now apply K|now right|]. apply (TextMore either (s2b "lib") 47); [now apply K|now left|]. apply TextOne. now apply K.
  - apply InUp; [discriminate|]. apply InDown; [name|]. apply InStay; [now left|]. constructor.
Qed.
