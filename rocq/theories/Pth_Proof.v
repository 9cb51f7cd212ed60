(** * Pth_Proof *)
From Coq Require Import String List NArith Bool Arith Lia.
From Verif Require Import Common Uri_Spec Pth_Spec Pth_Model.
From Verif Require Uri_Model Uri_Props.
Import ListNotations.
Open Scope list_scope.
Open Scope N_scope.
Import Uri_Props.
Notation split := Uri_Model.split.
Notation keep := Uri_Model.keep.
Notation normal := Uri_Model.lexically_normal.

(** ** Splitting *)
Lemma text_split : forall st t, text slash st t -> split t = st.
Proof.
  induction 1 as [n H|n c r t H Hc T IH].
  - apply split_name. intros I. now apply (H 47).
  - red in Hc. subst c. rewrite split_app; [now rewrite IH|]. intros I. now apply (H 47).
Qed.
Lemma split_two : forall a b, split (a ++ 47 :: b) = split a ++ split b.
Proof.
  induction a as [|c a IH]; intros b; [reflexivity|]. cbn [app Uri_Model.split]. rewrite IH. destruct (c =? Uri_Model.SLASH); [reflexivity|].
  destruct (split a) eqn:E; [|reflexivity]. destruct a as [|x a]; [discriminate|]. cbn in E. destruct (x =? _); [discriminate|]. now destruct (split a).
Qed.
Lemma split_ne : forall s, split s <> [].
Proof. intros [|c s]; [discriminate|]. cbn. destruct (c =? _); [discriminate|]. now destruct (split s). Qed.
Lemma split_names : forall names u, Forall (fun n => ~ In 47 n) names -> split (spelled names ++ 47 :: u) = [] :: names ++ split u.
Proof.
  intros names u F. rewrite split_two. destruct names as [|m r]; [reflexivity|]. inversion F; subst.
  change (spelled (m :: r)) with ([] ++ 47 :: m ++ spelled r). rewrite split_app by auto. now rewrite split_spelled.
Qed.
Lemma last_in : forall (l : bytes) d, l <> [] -> In (last l d) l.
Proof.
  induction l as [|x l IH]; intros d N; [easy|]. destruct l as [|y l]; [now left|]. right. apply (IH d). discriminate.
Qed.
Lemma last_app_ne : forall (l m : bytes) d, m <> [] -> last (l ++ m) d = last m d.
Proof.
  intros l m d N. destruct m as [|x r _] using rev_ind; [easy|]. rewrite app_assoc, !last_last. reflexivity.
Qed.
Lemma append_open : forall l v, rooted v = false -> l <> [] -> last l 0 <> 47 -> append l v = l ++ 47 :: v.
Proof.
  intros l v R N L. unfold append, SLASH. rewrite R. destruct l as [|x l]; [easy|]. now rewrite (proj2 (N.eqb_neq _ _) L).
Qed.
Lemma append_closed : forall l v, rooted v = false -> append (l ++ [47]) v = l ++ 47 :: v.
Proof.
  intros l v R. unfold append. rewrite R. replace (match l ++ [47] with [] => v | _ => _ end) with
    (if last (l ++ [47]) 0 =? SLASH then (l ++ [47]) ++ v else (l ++ [47]) ++ SLASH :: v) by (now destruct l).
  rewrite last_last. cbn [N.eqb]. now rewrite <- app_assoc.
Qed.
Lemma name_end : forall x names, Forall a_name names -> names <> [] -> last (x ++ spelled names) 0 <> 47.
Proof.
  intros x names F N. destruct names as [|n r _] using rev_ind; [easy|]. apply Forall_app in F as (_ & F). inversion F as [|? ? (H1 & H2 & _) _]; subst.
  unfold spelled. rewrite flat_map_app. cbn [flat_map]. rewrite app_nil_r. replace (x ++ flat_map _ r ++ 47 :: n) with ((x ++ flat_map (fun n => 47 :: n) r ++ [47]) ++ n)
    by (rewrite <- !app_assoc; reflexivity).
  rewrite last_app_ne by assumption. intros E. apply H2. rewrite <- E. now apply last_in.
Qed.
(** [join path ""] *)
Lemma closing : forall p, p <> [] ->
  rooted (append p []) = rooted p /\ last (split (append p [])) [] = [] /\
  (forall d d', walk d (split p) d' -> walk d (split (append p [])) d') /\ (forall d d', inside d (split p) d' -> inside d (split (append p [])) d').
Proof.
  assert (S : forall l, split (l ++ [47]) = split l ++ [[]]) by (intros l; apply (split_two l [])).
  intros p N. destruct p as [|x l _] using rev_ind; [easy|].
  destruct (N.eqb_spec x 47) as [->|Nx].
  - rewrite append_closed by reflexivity. split; [reflexivity|]. split; [rewrite S; apply last_last|]. now split.
  - rewrite append_open; [|reflexivity|assumption|rewrite last_last; exact Nx]. split; [|split; [rewrite S; apply last_last|]].
    + now destruct l.
    + rewrite S. split; intros d d' H; induction H; cbn [app].
      * apply WalkStay; [now left|constructor].
      * now apply WalkStay.
      * now apply WalkUp.
      * now apply WalkDown.
      * apply InStay; [now left|constructor].
      * now apply InStay.
      * now apply InUp.
      * now apply InDown.
Qed.
(** ** Normal forms that end with a separator *)
Lemma normal_open : forall c q l, last (split (c :: q)) [] = [] -> fold_left (keep (c =? 47)) (split (c :: q)) [] = rev l ->
  l <> [] -> Forall (fun n => n <> [46; 46]) l ->
  normal (c :: q) = (if c =? 47 then [47] else []) ++ Uri_Model.join l ++ [47].
Proof.
  intros c q l L F N Fl. unfold Uri_Model.lexically_normal. change Uri_Model.SLASH with 47. rewrite F, L.
  destruct (rev l) as [|top st] eqn:E.
  - apply (f_equal (@rev bytes)) in E. rewrite rev_involutive in E. now destruct N.
  - rewrite <- E, rev_involutive. replace (bytes_eqb top Uri_Model.DOTS) with false; [reflexivity|]. symmetry. apply eqb_neq.
    rewrite Forall_forall in Fl. apply Fl. apply in_rev. rewrite E. now left.
Qed.
Lemma a_name_dots : forall l, Forall a_name l -> Forall (fun n => n <> [46; 46]) l.
Proof. intros l F. eapply Forall_impl; [|exact F]. now intros n (_ & _ & _ & H). Qed.
Lemma a_name_slash : forall l, Forall a_name l -> Forall (fun n => ~ In 47 n) l.
Proof. intros l F. eapply Forall_impl; [|exact F]. now intros n (_ & H & _). Qed.
Lemma linux_core : forall u d, last (split u) [] = [] -> walk [] (split u) d -> normal (47 :: u) = directory d.
Proof.
  intros u d L W. destruct (walk_fold _ _ _ W (Forall_nil _)) as (E & F).
  assert (S : split (47 :: u) = [] :: split u) by reflexivity.
  assert (L' : last (split (47 :: u)) [] = []) by (rewrite S; cbn [last]; now destruct (split u)).
  destruct d as [|n d].
  - unfold Uri_Model.lexically_normal. change (47 =? Uri_Model.SLASH) with true. rewrite S. cbn [fold_left].
    change (keep true [] []) with (@rev bytes []). now rewrite E.
  - rewrite (normal_open 47 u (n :: d) L'); [|rewrite S; exact E|discriminate|now apply a_name_dots].
    rewrite join_spelled. unfold directory, spelled. cbn [N.eqb flat_map app]. reflexivity.
Qed.
Lemma inside_fold : forall d st d', inside d st d' -> forall b base, Forall a_name d ->
  fold_left (keep b) st (rev d ++ base) = rev d' ++ base /\ Forall a_name d'.
Proof.
  assert (K : forall b n s, a_name n -> keep b s n = n :: s).
  { intros b n s (H1 & _ & H2 & H3). unfold Uri_Model.keep. now rewrite (proj2 (eqb_neq n []) H1), (proj2 (eqb_neq n Uri_Model.DOT) H2), (proj2 (eqb_neq n Uri_Model.DOTS) H3). }
  induction 1 as [d|d n r d' Hn H IH|d r d' Ne H IH|d n r d' Hn H IH]; intros b base F; cbn [fold_left].
  - auto.
  - replace (keep b (rev d ++ base) n) with (rev d ++ base); [auto|]. unfold Uri_Model.keep. now destruct Hn as [-> | ->].
  - destruct d as [|x l _] using rev_ind; [easy|]. apply Forall_app in F as (F1 & F2). rewrite removelast_last in IH. rewrite rev_unit. inversion F2 as [|? ? Hx _]; subst.
    cbn [app]. replace (keep b (x :: rev l ++ base) [46; 46]) with (rev l ++ base); [auto|]. unfold Uri_Model.keep.
    destruct Hx as (_ & _ & _ & Hx). change (bytes_eqb [46; 46] [] || bytes_eqb [46; 46] Uri_Model.DOT) with false. cbv iota.
    change (bytes_eqb [46; 46] Uri_Model.DOTS) with true. cbv iota. now rewrite (proj2 (eqb_neq x Uri_Model.DOTS) Hx).
  - rewrite K by assumption. change (n :: rev d ++ base) with ((n :: rev d) ++ base). rewrite <- rev_unit. apply IH. apply Forall_app. auto.
Qed.

(** ** Separators of Windows *)
Notation to_w := make_windows_preferred.
Notation to_l := make_linux_preferred.
Lemma to_l_app : forall a b, to_l (a ++ b) = to_l a ++ to_l b.
Proof. intros. apply map_app. Qed.
Lemma to_w_app : forall a b, to_w (a ++ b) = to_w a ++ to_w b.
Proof. intros. apply map_app. Qed.
Lemma to_l_plain : forall s, ~ In 92 s -> to_l s = s.
Proof.
  intros s H. unfold make_linux_preferred. rewrite <- (map_id s) at 2. apply map_ext_in. intros c I. destruct (N.eqb_spec c BACKSLASH) as [->|_]; [now destruct H|reflexivity].
Qed.
Lemma to_w_plain : forall s, ~ In 47 s -> to_w s = s.
Proof.
  intros s H. unfold make_windows_preferred. rewrite <- (map_id s) at 2. apply map_ext_in. intros c I. destruct (N.eqb_spec c SLASH) as [->|_]; [now destruct H|reflexivity].
Qed.
Lemma to_l_no : forall s, ~ In 92 (to_l s).
Proof.
  intros s I. apply in_map_iff in I as (c & E & _). destruct (N.eqb_spec c BACKSLASH) as [_|N]; [discriminate|]. now apply N.
Qed.
Lemma to_l_to_w : forall s, ~ In 92 s -> to_l (to_w s) = s.
Proof.
  intros s H. unfold make_linux_preferred, make_windows_preferred. rewrite map_map. rewrite <- (map_id s) at 2. apply map_ext_in. intros c I.
  destruct (N.eqb_spec c SLASH) as [->|_]; [reflexivity|]. destruct (N.eqb_spec c BACKSLASH) as [->|_]; [now destruct H|reflexivity].
Qed.
Lemma append_in : forall c l r, In c (append l r) -> In c l \/ In c r \/ c = 47.
Proof.
  intros c l r. unfold append. destruct (rooted r); [tauto|]. destruct l as [|x l]; [tauto|]. destruct (last _ _ =? SLASH); intros I; apply in_app_or in I as [I|I]; try tauto.
  destruct I as [<-|I]; [now right; right|tauto].
Qed.
Lemma w_spelled_l : forall names, Forall (fun n => ~ In 92 n) names -> to_l (w_spelled names) = spelled names.
Proof.
  induction 1 as [|n r H F IH]; [reflexivity|]. change (w_spelled (n :: r)) with (92 :: n ++ w_spelled r). change (spelled (n :: r)) with (47 :: n ++ spelled r).
  cbn [make_linux_preferred map]. change (map _ (n ++ w_spelled r)) with (to_l (n ++ w_spelled r)). rewrite to_l_app, to_l_plain, IH by assumption. reflexivity.
Qed.
Lemma spelled_w : forall names, Forall (fun n => ~ In 47 n) names -> to_w (spelled names) = w_spelled names.
Proof.
  induction 1 as [|n r H F IH]; [reflexivity|]. change (w_spelled (n :: r)) with (92 :: n ++ w_spelled r). change (spelled (n :: r)) with (47 :: n ++ spelled r).
  cbn [make_windows_preferred map]. change (map _ (n ++ spelled r)) with (to_w (n ++ spelled r)). rewrite to_w_app, to_w_plain, IH by assumption. reflexivity.
Qed.
Lemma text_l : forall st t, text either st t -> text slash st (to_l t).
Proof.
  induction 1 as [n H|n c r t H Hc T IH].
  - rewrite to_l_plain by (intros I; apply (H 92 I); now right). apply TextOne. intros c I E. apply (H c I). now left.
  - rewrite to_l_app. rewrite to_l_plain by (intros I; apply (H 92 I); now right).
    replace (to_l (c :: t)) with (47 :: to_l t) by (destruct Hc as [-> | ->]; reflexivity).
    apply TextMore; [|reflexivity|exact IH]. intros x I E. apply (H x I). now left.
Qed.
Lemma text_in : forall sep st t c, text sep st t -> In c t -> sep c \/ exists n, In n st /\ In c n.
Proof.
  induction 1 as [n H|n x r t H Hc T IH]; intros I.
  - right. exists n. split; [now left|exact I].
  - apply in_app_or in I as [I|[<-|I]].
    + right. exists n. split; [now left|exact I].
    + now left.
    + destruct (IH I) as [X|(m & Im & X)]; [now left|right; exists m; split; [now right|exact X]].
Qed.

Definition l_root (r : root) : bytes := match r with Drive c => [c; 58] | Share s h => 47 :: spelled [s; h] end.
Lemma letter_not : forall c, letter c -> c <> 47 /\ c <> 92.
Proof. intros c [H|H]; lia. Qed.
Lemma root_l : forall r, a_root r -> to_l (w_root r) = l_root r.
Proof.
  intros [c|s h] H; cbn [w_root l_root a_root] in *.
  - cbn. destruct (letter_not c H) as (_ & N). apply N.eqb_neq in N. unfold BACKSLASH. now rewrite N.
  - change (to_l (92 :: w_spelled [s; h])) with (47 :: to_l (w_spelled [s; h])). destruct H as ((_ & H1 & _) & (_ & H2 & _)). now rewrite w_spelled_l by (repeat constructor; assumption).
Qed.
Lemma root_written : forall r t, a_root r -> writes_root r t -> to_l t = l_root r.
Proof.
  intros [c|s h] t H W; cbn [writes_root l_root a_root] in *.
  - subst t. exact (root_l (Drive c) H).
  - destruct W as (a & b & c & Ha & Hb & Hc & ->). destruct H as ((_ & H1 & _) & (_ & H2 & _)).
    assert (X : forall x y, either x -> to_l (x :: y) = 47 :: to_l y) by (intros x y [-> | ->]; reflexivity).
    rewrite !X by assumption. rewrite to_l_app, X by assumption. rewrite !to_l_plain by assumption. cbn. now rewrite app_nil_r.
Qed.
Lemma root_end : forall r, a_root r -> l_root r <> [] /\ last (l_root r) 0 <> 47.
Proof.
  intros [c|s h] H; cbn [l_root a_root] in *; (split; [discriminate|]).
  - cbn. discriminate.
  - destruct H as ((H1 & _) & (H2 & _)). apply (name_end [47] [s; h]); [apply Forall_cons; [exact H1|apply Forall_cons; [exact H2|constructor]]|discriminate].
Qed.
Lemma windows_core : forall r u d, a_root r -> last (split u) [] = [] -> inside [] (split u) d -> ~ In 92 u ->
  lexically_normal true (to_w (l_root r ++ 47 :: u)) = w_directory r d.
Proof.
  intros r u d H L I J. unfold lexically_normal.
  rewrite to_l_to_w.
  2:{ intros K. apply in_app_or in K as [K|[K|K]]; [|discriminate|now apply J]. rewrite <- root_l in K by assumption. now apply to_l_no in K. }
  cbv zeta. destruct (inside_fold _ _ _ I (match r with Drive _ => false | _ => true end) (match r with Drive c => [[c; 58]] | Share s h => [h; s] end) (Forall_nil _)) as (E & F).
  cbn [rev app] in E. unfold w_directory. destruct r as [c|s h]; cbn [l_root w_root a_root] in *.
  - destruct (letter_not c H) as (N1 & N2).
    assert (S : split ([c; 58] ++ 47 :: u) = [c; 58] :: split u).
    { apply (split_app [c; 58]). intros [E1|[E1|[]]]; [now apply N1|discriminate]. }
    assert (C47 : (c =? 47) = false) by now apply N.eqb_neq.
    change ([c; 58] ++ 47 :: u) with (c :: 58 :: 47 :: u) in *. cbn [andb].
    change (58 =? SLASH) with false. rewrite andb_false_r. cbn [app].
    rewrite (normal_open c (58 :: 47 :: u) ([c; 58] :: d)).
    + rewrite C47. cbn [app]. rewrite join_spelled, to_w_app, to_w_app, spelled_w by now apply a_name_slash.
      rewrite to_w_plain by (intros [E1|[E1|[]]]; [now apply N1|discriminate]). reflexivity.
    + rewrite S. cbn [last]. pose proof (split_ne u). destruct (split u); [easy|exact L].
    + rewrite S, C47. cbn [fold_left]. replace (keep false [] [c; 58]) with [[c; 58]]; [exact E|].
      unfold Uri_Model.keep. rewrite (proj2 (eqb_neq _ _)) by discriminate. rewrite (proj2 (eqb_neq [c; 58] Uri_Model.DOT)) by discriminate.
      now rewrite (proj2 (eqb_neq [c; 58] Uri_Model.DOTS)) by discriminate.
    + discriminate.
    + apply Forall_cons; [discriminate|now apply a_name_dots].
  - destruct H as ((Hs & _) & (Hh & _)).
    assert (A : Forall a_name [s; h]) by (apply Forall_cons; [exact Hs|apply Forall_cons; [exact Hh|constructor]]).
    assert (S : split ((47 :: spelled [s; h]) ++ 47 :: u) = [] :: [] :: s :: h :: split u).
    { cbn [app]. change (47 :: spelled [s; h] ++ 47 :: u) with ([] ++ 47 :: (spelled [s; h] ++ 47 :: u)). rewrite split_app by auto.
      rewrite split_names by now apply a_name_slash. reflexivity. }
    cbn [app] in *.
    assert (U : forall x, match 47 :: spelled [s; h] ++ x with [] => false | [a] => false | a :: b :: _ => (a =? SLASH) && (b =? SLASH) end = true) by reflexivity.
    rewrite U.
    rewrite (normal_open 47 (spelled [s; h] ++ 47 :: u) (s :: h :: d)).
    + change (47 =? 47) with true. cbv iota. rewrite join_spelled. rewrite !to_w_app.
      change (spelled (h :: d)) with (47 :: h ++ spelled d). change (to_w [47]) with [92].
      change (to_w (47 :: h ++ spelled d)) with (92 :: to_w (h ++ spelled d)). rewrite to_w_app, spelled_w by now apply a_name_slash.
      destruct Hs as (_ & Hs & _), Hh as (_ & Hh & _). rewrite !to_w_plain by assumption.
      cbn [w_spelled flat_map]. rewrite app_nil_r. cbn [app]. repeat (rewrite <- app_assoc; cbn [app]). reflexivity.
    + rewrite S. cbn [last]. pose proof (split_ne u). destruct (split u); [easy|exact L].
    + rewrite S. cbn [fold_left]. change (keep (47 =? 47) [] []) with (@nil bytes). change (keep (47 =? 47) [] []) with (@nil bytes).
      change (47 =? 47) with true. rewrite !name_keep by assumption. rewrite E. cbn [rev]. rewrite <- app_assoc. reflexivity.
    + discriminate.
    + apply a_name_dots. apply Forall_cons; [exact Hs|]. apply Forall_cons; [exact Hh|exact F].
Qed.

(** ** Going along two lists of names *)
Lemma walk_app : forall a s b, walk a s b -> forall s' c, walk b s' c -> walk a (s ++ s') c.
Proof.
  induction 1; intros s' c H'; cbn [app]; [exact H'|apply WalkStay; auto|apply WalkUp; auto|apply WalkDown; auto].
Qed.
Lemma inside_app : forall a s b, inside a s b -> forall s' c, inside b s' c -> inside a (s ++ s') c.
Proof.
  induction 1; intros s' c H'; cbn [app]; [exact H'|apply InStay; auto|apply InUp; auto|apply InDown; auto].
Qed.
Lemma inside_self : forall names d, Forall a_name names -> inside d names (d ++ names).
Proof.
  induction names as [|n r IH]; intros d F; [rewrite app_nil_r; constructor|]. inversion F; subst. apply InDown; [assumption|].
  replace (d ++ n :: r) with ((d ++ [n]) ++ r) by (rewrite <- app_assoc; reflexivity). now apply IH.
Qed.
Lemma w_a : forall l, Forall w_name l -> Forall a_name l.
Proof. intros l F. eapply Forall_impl; [|exact F]. now intros n (H & _). Qed.
Lemma w_92 : forall l, Forall w_name l -> Forall (fun n => ~ In 92 n) l.
Proof. intros l F. eapply Forall_impl; [|exact F]. now intros n (_ & H & _). Qed.

(** ** Below a directory *)
Lemma under : forall ws t v, Forall a_name ws -> names_directory ws t -> rooted v = false -> append t v = spelled ws ++ 47 :: v.
Proof.
  intros ws t v F [-> | (-> & N)] R.
  - now apply append_closed.
  - apply append_open; [exact R| |exact (name_end [] ws F N)]. now destruct ws.
Qed.
Lemma w_under : forall r ws t v, a_root r -> Forall w_name ws -> w_names_directory r ws t -> rooted v = false ->
  append (to_l t) v = l_root r ++ spelled ws ++ 47 :: v.
Proof.
  intros r ws t v H F T R.
  assert (E : to_l (w_root r ++ w_spelled ws) = l_root r ++ spelled ws) by (rewrite to_l_app, root_l, w_spelled_l; auto using w_92).
  destruct T as [-> | ->].
  - unfold w_directory. rewrite app_assoc, to_l_app, E. change (to_l [92]) with [47]. rewrite append_closed by assumption. now rewrite <- app_assoc.
  - rewrite E. rewrite append_open; [now rewrite <- app_assoc|exact R| |].
    + intros X. apply app_eq_nil in X as (X & _). now apply root_end in X.
    + destruct ws as [|n ws]; [rewrite app_nil_r; now apply root_end|]. apply name_end; [now apply w_a|discriminate].
Qed.
(** What comes after the first separator. *)
Lemma after_slash : forall ws v, Forall a_name ws -> exists u, spelled ws ++ 47 :: v = 47 :: u /\ split u = ws ++ split v /\ (~ In 92 v -> Forall (fun n => ~ In 92 n) ws -> ~ In 92 u).
Proof.
  intros ws v F. pose proof (split_names ws v (a_name_slash _ F)) as S. destruct ws as [|n ws].
  - exists v. now split; [|split].
  - exists (n ++ spelled ws ++ 47 :: v). split; [change (spelled (n :: ws)) with (47 :: n ++ spelled ws); cbn [app]; now rewrite <- app_assoc|]. split.
    + change (spelled (n :: ws) ++ 47 :: v) with (47 :: (n ++ spelled ws) ++ 47 :: v) in S. rewrite <- app_assoc in S. 
      change (split (47 :: n ++ spelled ws ++ 47 :: v)) with ([] :: split (n ++ spelled ws ++ 47 :: v)) in S. congruence.
    + intros Nv Fw I. inversion Fw as [|? ? Hn Fw']; subst. apply in_app_or in I as [I|I]; [now apply Hn|]. apply in_app_or in I as [I|[I|I]]; [|discriminate|now apply Nv].
      unfold spelled in I. apply in_flat_map in I as (m & Im & [I|I]); [discriminate|]. rewrite Forall_forall in Fw'. now apply (Fw' m).
Qed.
(** The library's path with its separator at the end. *)
Definition closed (p : bytes) : bytes := match p with [] => [] | _ => append p [] end.
Lemma closed_ok : forall p, rooted (closed p) = rooted p /\ last (split (closed p)) [] = [] /\ (forall d d', walk d (split p) d' -> walk d (split (closed p)) d') /\ (forall d d', inside d (split p) d' -> inside d (split (closed p)) d').
Proof.
  intros [|c p]; [cbn [closed]; split; [reflexivity|]; split; [reflexivity|now split]|]. apply (closing (c :: p)). discriminate.
Qed.
Lemma closed_after : forall a u, append (a ++ 47 :: u) [] = a ++ 47 :: closed u.
Proof.
  intros a u. destruct u as [|c u]; [exact (append_closed a [] eq_refl)|]. cbn [closed].
  destruct (@exists_last _ (c :: u)) as (l & x & E); [discriminate|]. rewrite E.
  destruct (N.eqb_spec x 47) as [->|Nx].
  - rewrite append_closed by reflexivity. replace (a ++ 47 :: l ++ [47]) with ((a ++ 47 :: l) ++ [47]) by (rewrite <- app_assoc; reflexivity).
    rewrite append_closed by reflexivity. now rewrite <- app_assoc.
  - replace (a ++ 47 :: l ++ [x]) with ((a ++ 47 :: l) ++ [x]) by (rewrite <- app_assoc; reflexivity).
    rewrite !append_open; try reflexivity; try (rewrite last_last; exact Nx); try (now destruct l); try (now destruct a).
    rewrite <- !app_assoc. reflexivity.
Qed.
