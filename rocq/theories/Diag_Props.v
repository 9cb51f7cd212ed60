(** C06: published diagnostics. Reference vocabulary: Diag_Spec.v. *)
From Coq Require Import List NArith Bool Permutation.
From Verif Require Import Common Diag_Model Diag_Spec Diag_Proof.
From Verif Require Uri_Spec Uri_Model Uri_Props.
Import ListNotations.

(** C06. For every sequence of rounds - each iterating the old file set in any order - the
    client shows for every file exactly the diagnostics of the last round, in their order
    (none if the file has none), provided different ones of the files involved ([ok]) have different uris. *)
Theorem C06_client_shows_newest_round : forall D (uri_of : bytes -> bytes) (ok : bytes -> Prop),
  (forall f g, ok f -> ok g -> uri_of f = uri_of g -> f = g) ->
  forall (rs : list ((list bytes -> list bytes) * list (bytes * D))),
  Forall (fun r => forall l, Permutation l (fst r l)) rs ->
  Forall (fun r => forall g, In g (map fst (snd r)) -> ok g) rs ->
  forall f, ok f -> client_view (session uri_of [] rs) (uri_of f)
            = diags_of (fold_left (fun _ r => snd r) rs []) f.
Proof.
  intros D u ok I rs G O f.
  exact (session_view D u ok I rs [] [] [] G O (fun _ (x : In _ []) => match x with end) (fun _ _ => eq_refl) (fun _ => conj (fun x => x) (fun x => x)) f).
Qed.
Print Assumptions C06_client_shows_newest_round.

(** With the server's own mapping: local files without percent sign and backslash in their names, and documents not
    saved yet. *)
Definition shown (p : bytes) : Prop :=
  (Uri_Spec.file_name p /\ Uri_Spec.byte_string p /\ ~ In 37%N p /\ ~ In 92%N p) \/ exists s, p = s2b "untitled:" ++ s.
Theorem C06_local_files : forall D (rs : list ((list bytes -> list bytes) * list (bytes * D))),
  Forall (fun r => forall l, Permutation l (fst r l)) rs ->
  Forall (fun r => forall g, In g (map fst (snd r)) -> shown g) rs ->
  forall f, shown f -> client_view (session Uri_Model.path_to_uri [] rs) (Uri_Model.path_to_uri f)
            = diags_of (fold_left (fun _ r => snd r) rs []) f.
Proof.
  intros D rs. apply C06_client_shows_newest_round. intros f g [(F1 & F2 & F3 & F4)|(s & ->)] [(G1 & G2 & G3 & G4)|(t & ->)] E.
  - now apply Uri_Props.C113_different.
  - rewrite (proj2 (Uri_Props.C113_unsaved t)), (Uri_Props.path_file f F1) in E. discriminate.
  - rewrite (proj2 (Uri_Props.C113_unsaved s)), (Uri_Props.path_file g G1) in E. discriminate.
  - now rewrite (proj2 (Uri_Props.C113_unsaved s)), (proj2 (Uri_Props.C113_unsaved t)) in E.
Qed.
Print Assumptions C06_local_files.

(** The proviso is needed: the server's own mapping turns backslashes into slashes, so with
    files "a\b" and "a/b" (both legal names outside Windows) a diagnostic of the last round is
    erased at the client. *)
Theorem C06_backslash_file_names_refuted : forall enc,
  exists (rs : list ((list bytes -> list bytes) * list (bytes * nat))) f,
    Forall (fun r => forall l, Permutation l (fst r l)) rs /\
    diags_of (fold_left (fun _ r => snd r) rs []) f = [1] /\
    client_view (session (path_to_uri enc) [] rs) (path_to_uri enc f) = [].
Proof.
  intros enc. exists [(fun l => l, [(s2b "a\b", 0)]); (fun l => l, [(s2b "a/b", 1)])], (s2b "a/b").
  split; [repeat constructor; reflexivity|]. split; [reflexivity|].
  set (u1 := path_to_uri enc (s2b "a\b")). set (u2 := path_to_uri enc (s2b "a/b")).
  assert (E : u1 = u2) by reflexivity.
  change (client_view [(u1, [0]); (u2, [1]); (u1, [])] u2 = []).
  unfold client_view. cbn [fold_left fst snd]. rewrite E.
  replace (bytes_eqb u2 u2) with true; [easy|]. symmetry. now apply bytes_eqb_eq.
Qed.
Print Assumptions C06_backslash_file_names_refuted.

Example C06_ex :
  let id := fun l : list bytes => l in
  let ms := session (fun f => f) [] [(id, [(s2b "b", 1); (s2b "a", 2); (s2b "b", 3)]);
                                     (@rev bytes, [(s2b "c", 4)]); (id, [(s2b "c", 5); (s2b "a", 6)])] in
  client_view ms (s2b "a") = [6] /\ client_view ms (s2b "b") = [] /\ client_view ms (s2b "c") = [5] /\
  length ms = 7.
Proof. vm_compute. auto. Qed.
