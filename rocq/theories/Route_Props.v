(** C15: which workspace serves a document. *)
From Coq Require Import List NArith Arith Bool Lia Permutation.
From Verif Require Import Common Route_Model Route_Spec Route_Proof.
Import ListNotations.

(** When folders are announced under their own paths, the open folders are exactly the ones the
    editor opened and did not close, and a document is served by the longest open folder whose
    path is a prefix of the document's path, by none exactly when there is none. *)
Theorem C15_longest_prefix : forall ops t doc, reach ops t -> Forall by_path ops -> ~ In [] (folders ops) ->
  match ws_path_match t doc with
  | Some w => In (snd w) (folders ops) /\ prefix (snd w) doc
      /\ forall p, In p (folders ops) -> prefix p doc -> length p <= length (snd w)
  | None => forall p, In p (folders ops) -> ~ prefix p doc
  end.
Proof.
  intros ops t doc H Hb Hne. destruct (reach_keyed ops t H Hb) as [K1 K2].
  assert (F : forall p, In p (folders ops) -> prefix p doc -> In (p, p) t /\ fits doc (p, p)).
  { intros p Hp Hd. split; [apply K2; exact Hp|]. apply prefix_match_prefix in Hd. split; cbn [fst snd]; [|lia].
    destruct p; [contradiction|cbn [length] in Hd; lia]. }
  pose proof (match_spec t doc) as M. destruct (ws_path_match t doc) as [[a b]|].
  - destruct M as (M1 & [M2 M3] & M4). pose proof (K1 _ M1) as E. cbn [fst snd] in *. subst a.
    split; [apply K2; exact M1|]. split; [apply prefix_match_prefix; lia|].
    intros p Hp Hd. destruct (F p Hp Hd) as [F1 F2]. specialize (M4 _ F1 F2). cbn [snd] in M4.
    apply prefix_match_prefix in Hd. pose proof (prefix_match_le doc b). lia.
  - intros p Hp Hd. destruct (F p Hp Hd) as [F1 F2]. exact (M _ F1 F2).
Qed.
Print Assumptions C15_longest_prefix.

(** So the result does not depend on the order in which the table is iterated. *)
Theorem C15_determined : forall ops t t' doc, reach ops t -> reach ops t' -> Forall by_path ops -> ~ In [] (folders ops) ->
  option_map snd (ws_path_match t doc) = option_map snd (ws_path_match t' doc).
Proof.
  intros ops t t' doc H H' Hb Hne.
  pose proof (C15_longest_prefix ops t doc H Hb Hne) as A. pose proof (C15_longest_prefix ops t' doc H' Hb Hne) as B.
  destruct (ws_path_match t doc) as [w|], (ws_path_match t' doc) as [w'|]; cbn [option_map].
  - destruct A as (A1 & A2 & A3), B as (B1 & B2 & B3). f_equal.
    apply (prefix_same_length _ _ doc A2 B2). specialize (A3 _ B1 B2). specialize (B3 _ A1 A2). lia.
  - destruct A as (A1 & A2 & _). destruct (B _ A1 A2).
  - destruct B as (B1 & B2 & _). destruct (A _ B1 B2).
  - reflexivity.
Qed.
Print Assumptions C15_determined.

(** A removed folder stops serving. *)
Theorem C15_removed : forall ops added removed t doc w p, reach (ops ++ [Folders added removed]) t ->
  Forall by_path (ops ++ [Folders added removed]) ->
  In p removed -> ~ In p (map snd added) -> ws_path_match t doc = Some w -> snd w <> p.
Proof.
  intros ops added removed t doc w p H Hb Hr Ha Hw E. destruct (reach_keyed _ _ H Hb) as [K1 K2].
  pose proof (match_spec t doc) as M. rewrite Hw in M. destruct M as (M1 & _).
  pose proof (K1 _ M1) as Ew. destruct w as [a b]. cbn [fst snd] in *. subst a b.
  apply K2 in M1. rewrite folders_app in M1. cbn [folders_step] in M1. apply in_app_iff in M1 as [M1|M1]; [|contradiction].
  apply filter_In in M1 as [_ M1]. apply negb_true_iff in M1.
  assert (X : existsb (bytes_eqb p) removed = true) by (apply existsb_in; exact Hr). congruence.
Qed.
Print Assumptions C15_removed.

(** With arbitrary names: a document of an open folder whose display name is not longer than its
    path is never left to the implicit workspace, and goes to a folder that lies in that folder
    (though not always to one that contains the document). *)
Theorem C15_covered : forall t doc name p, In (name, p) t -> p <> [] -> prefix p doc -> length name <= length p ->
  exists w, ws_path_match t doc = Some w /\ prefix p (snd w).
Proof.
  intros t doc name p Hin Hne Hd Hl.
  assert (Hf : fits doc (name, p)).
  { apply prefix_match_prefix in Hd. split; cbn [fst snd]; [|lia]. destruct p; [contradiction|cbn [length] in Hd; lia]. }
  pose proof (match_spec t doc) as M. destruct (ws_path_match t doc) as [w|]; [|destruct (M _ Hin Hf)].
  exists w. split; [reflexivity|]. destruct M as (_ & _ & M). specialize (M _ Hin Hf). cbn [snd] in M.
  apply prefix_match_prefix in Hd.
  destruct (prefix_match_common doc p (length p)) as (A & _); [lia|].
  destruct (prefix_match_common doc (snd w) (length p)) as (B & _ & C); [lia|].
  apply prefix_match_prefix. unfold ge. apply prefix_match_max; [exact C|lia|congruence].
Qed.
Print Assumptions C15_covered.

(** Whoever serves a document shares at least the length of its display name with it. *)
Theorem C15_serves : forall t doc w, ws_path_match t doc = Some w ->
  In w t /\ exists n, 0 < n /\ length (fst w) <= n /\ n <= length (snd w) /\ firstn n doc = firstn n (snd w).
Proof.
  intros t doc w H. pose proof (match_spec t doc) as M. rewrite H in M. destruct M as (M1 & [M2 M3] & _).
  split; [exact M1|]. exists (prefix_match doc (snd w)).
  destruct (prefix_match_common doc (snd w) (prefix_match doc (snd w))) as (A & B & C); [lia|]. auto.
Qed.
Print Assumptions C15_serves.

(** Editors announce folders under display names.  Then a document outside every folder is given
    to one of them, *)
Theorem C15_outside_refuted : exists ops t doc w, reach ops t /\ ws_path_match t doc = Some w
  /\ forall p, In p (folders ops) -> ~ prefix p doc.
Proof.
  exists [Folders [(s2b "a", s2b "/home/ws1")] []], [(s2b "a", s2b "/home/ws1")], (s2b "/home/other/x"), (s2b "a", s2b "/home/ws1").
  split; [apply (reach_step [] [] (Folders [(s2b "a", s2b "/home/ws1")] [])); [constructor|apply Permutation_refl]|].
  split; [reflexivity|]. cbn. intros p [<-|[]] [r E]. discriminate E.
Qed.
Print Assumptions C15_outside_refuted.

(** a removed folder keeps serving, *)
Theorem C15_removal_refuted : exists ops t doc w, reach ops t /\ folders ops = [] /\ ws_path_match t doc = Some w.
Proof.
  set (a := Folders [(s2b "ws1", s2b "/home/ws1")] []). set (r := Folders [] [s2b "/home/ws1"]).
  exists ([a] ++ [r]), [(s2b "ws1", s2b "/home/ws1")], (s2b "/home/ws1/x"), (s2b "ws1", s2b "/home/ws1").
  split; [|split; reflexivity].
  apply (reach_step [a] [(s2b "ws1", s2b "/home/ws1")] r); [|apply Permutation_refl].
  apply (reach_step [] [] a); [constructor|apply Permutation_refl].
Qed.
Print Assumptions C15_removal_refuted.

(** of two folders with the same name only the first is served, *)
Theorem C15_same_name_refuted : exists ops t p doc, reach ops t /\ In p (folders ops) /\ inside p doc
  /\ ws_path_match t doc = None.
Proof.
  set (a := Folders [(s2b "src", s2b "/x/src"); (s2b "src", s2b "C:/src")] []).
  exists ([] ++ [a]), [(s2b "src", s2b "/x/src")], (s2b "C:/src"), (s2b "C:/src/m").
  split; [apply (reach_step [] [] a); [constructor|apply Permutation_refl]|].
  split; [right; left; reflexivity|]. split; [exists (s2b "m"); reflexivity|reflexivity].
Qed.
Print Assumptions C15_same_name_refuted.

(** and with a root URI, which is longer than the path, no document is served at all. *)
Theorem C15_root_uri_refuted : exists ops t p doc, reach ops t /\ In p (folders ops) /\ inside p doc
  /\ ws_path_match t doc = None.
Proof.
  set (a := RootUri (s2b "file:///ws") (s2b "/ws")).
  exists ([] ++ [a]), [(s2b "file:///ws", s2b "/ws")], (s2b "/ws"), (s2b "/ws/m").
  split; [apply (reach_step [] [] a); [constructor|apply Permutation_refl]|].
  split; [left; reflexivity|]. split; [exists (s2b "m"); reflexivity|reflexivity].
Qed.
Print Assumptions C15_root_uri_refuted.

(** Even with paths as names, "prefix" is not "inside": /ws1 also serves /ws10. *)
Theorem C15_sibling_refuted : exists ops t doc w, reach ops t /\ Forall by_path ops /\ ws_path_match t doc = Some w
  /\ forall p, In p (folders ops) -> ~ inside p doc.
Proof.
  set (a := RootPath (s2b "/ws1")).
  exists ([] ++ [a]), [(s2b "/ws1", s2b "/ws1")], (s2b "/ws10/m"), (s2b "/ws1", s2b "/ws1").
  split; [apply (reach_step [] [] a); [constructor|apply Permutation_refl]|].
  split; [repeat constructor|]. split; [reflexivity|]. intros p [<-|[]] [r E]. discriminate E.
Qed.
Print Assumptions C15_sibling_refuted.

Example C15_example : exists ops t, reach ops t /\ Forall by_path ops /\ ~ In [] (folders ops)
  /\ option_map snd (ws_path_match t (s2b "/a/b/c")) = Some (s2b "/a/b")
  /\ option_map snd (ws_path_match t (s2b "/a/x")) = Some (s2b "/a")
  /\ option_map snd (ws_path_match t (s2b "/z")) = None.
Proof.
  set (a := Folders [(s2b "/a", s2b "/a"); (s2b "/a/b", s2b "/a/b"); (s2b "/z", s2b "/z")] []). set (r := Folders [] [s2b "/z"]).
  exists (([] ++ [a]) ++ [r]), [(s2b "/a/b", s2b "/a/b"); (s2b "/a", s2b "/a")].
  split.
  { eapply reach_step; [eapply reach_step; [constructor|apply Permutation_refl]|]. cbn. apply perm_swap. }
  split; [repeat constructor; cbn; intuition; subst; reflexivity|]. split; [cbn; intuition discriminate|]. repeat split.
Qed.
