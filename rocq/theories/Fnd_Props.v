(** * Fnd_Props (C125): the files that an opened program uses *)
From Coq Require Import String List NArith Bool Arith Lia.
From Verif Require Import Common Uri_Spec Pth_Spec Wild_Spec Conf_Model Conf_Spec Conf_Proof Fnd_Model Fnd_Spec.
From Verif Require Uri_Model Uri_Props Pth_Model Pth_Props Rel_Model Rel_Props Conf_Props.
Import ListNotations.
Open Scope list_scope.
Open Scope N_scope.

Lemma first_fun : forall {A} (P : A -> Prop) l x y, first_such P l x -> first_such P l y -> x = y.
Proof.
  intros A P l x y (a & b & E & Px & Nx) (c & d & E' & Py & Ny). subst l. revert c E' Nx Ny.
  induction a as [|z a IH]; intros [|w c] E' Nx Ny; cbn in E'; injection E' as E1 E2.
  - exact E1.
  - subst w. exfalso. apply (Ny x); [now left|exact Px].
  - subst z. exfalso. apply (Nx y); [now left|exact Py].
  - apply (IH c E2); intros q I; [apply Nx|apply Ny]; now right.
Qed.
Lemma first_in : forall {A} (P : A -> Prop) l x, first_such P l x -> In x l /\ P x.
Proof. intros A P l x (a & b & -> & Px & _). split; [apply in_or_app; right; now left|exact Px]. Qed.
Lemma configured_fun : forall gs es f s, configured gs es f s -> forall s', configured gs es f s' -> s = s'.
Proof.
  intros gs es f s [e H|e N H|N N'] s' [e' H'|e' M H'|M M'].
  - now rewrite (first_fun _ _ _ _ H H').
  - exfalso. apply first_in in H as (I & H). now apply (M e I).
  - exfalso. apply first_in in H as (I & H). now apply (M e I).
  - exfalso. apply first_in in H' as (I & H'). now apply (N e' I).
  - now rewrite (first_fun _ _ _ _ H H').
  - exfalso. apply first_in in H as (I & H). now apply (M' e I).
  - exfalso. apply first_in in H' as (I & H'). now apply (N e' I).
  - exfalso. apply first_in in H' as (I & H'). now apply (N' e' I).
  - reflexivity.
Qed.
Lemma last_ok_app : forall h1 h2 acc, last_ok (h1 ++ h2) acc = last_ok h2 (last_ok h1 acc).
Proof.
  induction h1 as [|[pr pg] h1 IH]; intros h2 acc; [reflexivity|]. cbn [app last_ok]. destruct pr; try apply IH. destruct pg; apply IH.
Qed.
Lemma last_ok_fails : forall h acc, (forall e, In e h -> fst e = DBad \/ fst e = DNotJson) -> last_ok h acc = acc.
Proof.
  induction h as [|[pr pg] h IH]; intros acc H; [reflexivity|]. cbn [last_ok].
  destruct (H (pr, pg) (or_introl eq_refl)) as [E|E]; cbn in E; subst pr; apply IH; intros e I; apply H; now right.
Qed.
Lemma read_force : forall ws h pc pm acc, in_force h pc pm -> last_ok (map (read ws) h) acc = (Some (resolved_groups ws pc, pm), false).
Proof.
  intros ws h pc pm acc (h1 & h2 & -> & F). rewrite map_app, last_ok_app. cbn [map read fst snd last_ok]. apply last_ok_fails.
  intros e I. apply in_map_iff in I as (e' & <- & I). destruct (F e' I) as [E|E]; unfold read; rewrite E; cbn [fst]; auto.
Qed.
Lemma group_names_read : forall ws pc, group_names (resolved_groups ws pc) = group_names pc.
Proof. intros ws pc. unfold group_names, resolved_groups. cbn [pc_groups]. rewrite map_map. now apply map_ext. Qed.
Lemma gfind_group : forall ws pc g libs, group_of pc g libs -> gfind g (pc_groups (resolved_groups ws pc)) = Some (map (resolved ws) libs).
Proof.
  intros ws pc g libs (a & b & E & _ & N). unfold resolved_groups. cbn [pc_groups]. rewrite E. clear E. induction a as [|[k v] a IH]; cbn [app map fst snd gfind].
  - assert (X : bytes_eqb g g = true) by now apply bytes_eqb_eq. now rewrite X.
  - destruct (bytes_eqb g k) eqn:Q; [|apply IH; intros y I; apply N; now right].
    apply bytes_eqb_eq in Q. subst k. exfalso. now apply (N (g, v)); [left|].
Qed.
Lemma leads_directory : forall ws t p d, Forall a_name ws -> names_directory ws t -> leads ws p d -> Pth_Model.library_directory false t p = directory d.
Proof.
  intros ws t p d F T [q st d' B X W|q st d' X W]; [now apply (Pth_Props.C123_relative ws t q st d')|now apply (Pth_Props.C123_absolute t q st d')].
Qed.
Lemma library_read : forall ws pc old lc, exists x dep, library_of (resolved_groups ws pc) old (resolved ws lc) = mk_library (Pth_Model.library_directory false ws (lc_path lc)) x dep /\ effective x dep = extensions pc old lc.
Proof.
  intros ws pc old lc. unfold library_of, extensions, effective. cbn [resolved lc_exts lc_path resolved_groups pc_exts].
  destruct (lc_exts lc) as [|a l] eqn:E1; [destruct (pc_exts pc) as [|b k] eqn:E2; [destruct old as [|c m]|]|]; do 2 eexists; (split; [reflexivity|reflexivity]).
Qed.

Section Program.
Variables (cwd : bytes) (files : bytes -> list bytes) (disk : list bytes -> list bytes).
(** the files of the disk *)
Hypothesis on_disk : forall d, files (directory d) = disk d.
Hypothesis names : forall d, Forall a_name (disk d).
Variables (ws : list bytes) (t : bytes).
Hypothesis ws_names : Forall a_name ws.
Hypothesis ws_text : names_directory ws t.

(** a library in which the member is *)
Definition in_library (pc : proc_conf) (old : list bytes) (m : bytes) (lc : lib_conf) (d : list bytes) (f : bytes) : Prop :=
  leads ws (lc_path lc) d /\ In f (disk d) /\ provides (extensions pc old lc) f m.

Lemma library_has : forall pc old m lc d, leads ws (lc_path lc) d ->
  (forall p, tfind m (fst (load_files (library_of (resolved_groups t pc) old (resolved t lc)) (listing cwd files (l_path (library_of (resolved_groups t pc) old (resolved t lc)))))) = Some p ->
     exists f, in_library pc old m lc d f /\ p = spelled (d ++ [f])) /\
  (~ has (listing cwd files) m (library_of (resolved_groups t pc) old (resolved t lc)) -> forall f, ~ in_library pc old m lc d f).
Proof.
  intros pc old m lc d L. destruct (library_read t pc old lc) as (x & dep & E & X). rewrite E. unfold has.
  rewrite (leads_directory ws t (lc_path lc) d ws_names ws_text L). cbn [mk_library l_path]. split.
  - intros p H. apply Conf_Props.C13_found_is_provided in H as (f & I & P). rewrite X in P. unfold listing in I. apply in_map_iff in I as (n & En & I). injection En as <- <-.
    rewrite on_disk in I. exists n. split; [now split; [|split]|]. pose proof (names d) as N. rewrite Forall_forall in N. apply Pth_Props.C123_member. now apply N.
  - intros H f (_ & I & P). destruct (tfind m (fst (load_files (mk_library (directory d) x dep) (listing cwd files (directory d))))) as [p|] eqn:Q; [apply H; now exists p|].
    eapply (Conf_Props.C13_missing_is_not_provided _ _ _ _ _ Q f (Pth_Model.member false cwd (directory d) f)).
    + unfold listing. apply in_map_iff. exists f. split; [reflexivity|now rewrite on_disk].
    + now rewrite X.
Qed.

(** The group of a program is found from the URI the client opens; the member is taken from the first library of the
    group that provides it, and its path is the normal name of that file. *)
Theorem C125_files : forall r u name h pc pm sel m, Forall a_name r -> r <> [] -> uri_of u (spelled (ws ++ r)) ->
  text slash r name -> one_line name -> in_force h pc pm -> configured (group_names pc) (pm_pgms pm) name sel ->
  match sel with
  | None => find_member cwd files t h u m = NoGroup
  | Some g => forall libs, group_of pc g libs -> Forall (fun lc => exists d, leads ws (lc_path lc) d) libs ->
      match find_member cwd files t h u m with
      | Found path => exists lc d f, first_such (fun lc => exists d f, in_library pc (compat_list (pm_always pm)) m lc d f) libs lc /\
          in_library pc (compat_list (pm_always pm)) m lc d f /\ path = spelled (d ++ [f])
      | Missing => forall lc d f, In lc libs -> ~ in_library pc (compat_list (pm_always pm)) m lc d f
      | Fails | NoGroup => False
      end
  end.
Proof.
  intros r u name h pc pm sel m Fr Nr U Tx O Fo C. set (old := compat_list (pm_always pm)).
  assert (F : Forall a_name (ws ++ r)) by (apply Forall_app; now split).
  assert (P : Uri_Model.uri_to_path u = Some (spelled (ws ++ r))).
  { apply Uri_Props.C113_read; [exact U|]. exists (ws ++ r). split; [|now split]. intros E. apply app_eq_nil in E as (_ & E). now apply Nr. }
  assert (Pn : Rel_Model.program_name false (spelled (ws ++ r)) t = name) by now apply (Rel_Props.C124_entry ws t r name ws_names ws_text Fr Nr).
  unfold find_member. rewrite P, Pn.
  pose proof (Conf_Props.C12_selection_any_history (map (read t) h) name O) as S. rewrite (read_force t h pc pm _ Fo) in S. destruct S as (sel' & C' & S).
  rewrite group_names_read in C'. rewrite (configured_fun _ _ _ _ C' _ C) in S. destruct sel as [g|]; [|now rewrite S].
  intros libs G Ls. destruct S as (libs' & G' & S). rewrite (gfind_group t pc g libs G) in G'. injection G' as <-. rewrite S. rewrite map_map.
  pose proof (Conf_Props.C13_first_library (listing cwd files) (map (fun lc => library_of (resolved_groups t pc) old (resolved t lc)) libs) m) as K. fold old.
  rewrite Forall_forall in Ls.
  assert (Out : forall lc, In lc libs -> ~ has (listing cwd files) m (library_of (resolved_groups t pc) old (resolved t lc)) -> forall d f, ~ in_library pc old m lc d f).
  { intros lc I H d f X. exact (proj2 (library_has pc old m lc d (proj1 X)) H f X). }
  destruct (parse_library _ _ m) as [[lp path]|].
  - destruct K as (l & (a & b & Em & Hl & Hn) & _ & Ft). apply map_eq_app in Em as (la & lb & El & Ea & Eb). destruct lb as [|lc lb]; [discriminate|]. cbn in Eb. injection Eb as Ec Eb.
    assert (I : In lc libs) by (subst libs; apply in_or_app; right; now left). destruct (Ls lc I) as (d & L).
    rewrite <- Ec in Ft. destruct (proj1 (library_has pc old m lc d L) path Ft) as (f & X & ->).
    exists lc, d, f. split; [|now split]. exists la, lb. split; [exact El|]. split; [now exists d, f|].
    intros y Iy (d' & f' & X'). revert X'. apply Out; [subst libs; apply in_or_app; now left|]. apply Hn. subst a. apply in_map_iff. now exists y.
  - intros lc d f I. apply Out; [exact I|]. apply K. apply in_map_iff. now exists lc.
Qed.
(** The file of the library is the document that the client opens with a URI of it. *)
Theorem C125_same_document : forall r u name h pc pm g libs m path u', Forall a_name r -> r <> [] -> uri_of u (spelled (ws ++ r)) ->
  text slash r name -> one_line name -> in_force h pc pm -> configured (group_names pc) (pm_pgms pm) name (Some g) ->
  group_of pc g libs -> Forall (fun lc => exists d, leads ws (lc_path lc) d) libs ->
  find_member cwd files t h u m = Found path -> uri_of u' path -> Uri_Model.uri_to_path u' = Some path.
Proof.
  intros r u name h pc pm g libs m path u' Fr Nr U Tx O Fo C G Ls E U'.
  pose proof (C125_files r u name h pc pm (Some g) m Fr Nr U Tx O Fo C libs G Ls) as K. rewrite E in K. destruct K as (lc & d & f & _ & (L & I & _) & ->).
  apply Uri_Props.C113_read; [exact U'|]. exists (d ++ [f]). split; [now destruct d|]. split; [|reflexivity].
  pose proof (names d) as N. rewrite Forall_forall in N. apply Forall_app. split; [|apply Forall_cons; [now apply N|constructor]].
  destruct L as [q st d' _ _ W|q st d' _ W]; [exact (proj2 (Uri_Props.walk_fold _ _ _ W ws_names))|exact (proj2 (Uri_Props.walk_fold _ _ _ W (Forall_nil _)))].
Qed.
End Program.
Print Assumptions C125_files.
Print Assumptions C125_same_document.

(** ** A workspace with two libraries that have the member *)
Definition ex_files (p : bytes) : list bytes :=
  if bytes_eqb p (s2b "/lib/") then [s2b "MAC.mac"; s2b "README"] else if bytes_eqb p (s2b "/ws/mac/") then [s2b "MAC.mac"; s2b "COPY.mac"] else [].
Definition ex_pc : proc_conf :=
  {| pc_groups := [(s2b "G", [{| lc_path := s2b "../lib"; lc_exts := [] |}; {| lc_path := s2b "mac/./"; lc_exts := [] |}])]; pc_exts := [s2b "mac"] |}.
Definition ex_pm : pgm_conf := {| pm_pgms := [(s2b "src/*", s2b "H"); (s2b "src/A", s2b "G"); (s2b "t/?", s2b "G")]; pm_always := [] |}.
Definition ex_find := find_member (s2b "/home") ex_files (s2b "/ws") [(DOk ex_pc, DOk ex_pm); (DNotJson, DOk ex_pm)].
Lemma plain : forall n, n <> [] -> forallb (fun c => negb ((c =? 47) || (c =? 92) || (c =? 58))) n = true -> n <> [46] -> n <> [46; 46] -> a_name n.
Proof. intros n A B C D. exact (proj1 (Pth_Props.plain n A B C D)). Qed.
Example ex_found :
  ex_find (s2b "file:///ws/src/A") (s2b "MAC") = Found (s2b "/lib/MAC.mac") /\ ex_find (s2b "file:///ws/t/%42") (s2b "COPY") = Found (s2b "/ws/mac/COPY.mac") /\
  ex_find (s2b "file:///ws/src/A") (s2b "README") = Missing /\ ex_find (s2b "file:///ws/src/B") (s2b "MAC") = NoGroup.
Proof. vm_compute. intuition. Qed.
Example ex_hypotheses :
  (forall d, Forall a_name (ex_files (directory d))) /\ in_force [(DOk ex_pc, DOk ex_pm); (DNotJson, DOk ex_pm)] ex_pc ex_pm /\
  configured (group_names ex_pc) (pm_pgms ex_pm) (s2b "src/A") (Some (s2b "G")) /\
  (exists libs, group_of ex_pc (s2b "G") libs /\ libs <> [] /\ Forall (fun lc => exists d, leads [s2b "ws"] (lc_path lc) d) libs).
Proof.
  split; [|split; [|split]].
  - intros d. unfold ex_files. destruct (bytes_eqb _ _); [|destruct (bytes_eqb _ _)]; repeat (apply Forall_cons; [apply plain; (discriminate || reflexivity)|]); constructor.
  - exists [], [(DNotJson, DOk ex_pm)]. split; [reflexivity|]. intros e [<-|[]]. now right.
  - apply (by_name _ _ _ (s2b "src/A", s2b "G")). exists [(s2b "src/*", s2b "H")], [(s2b "t/?", s2b "G")]. split; [reflexivity|]. split.
    + split; [now left|]. split; [split; vm_compute; intuition discriminate|reflexivity].
    + intros y [<-|[]] ([H|[]] & _). discriminate.
  - eexists. split; [exists [], []; split; [reflexivity|]; split; [reflexivity|]; intros y []|]. split; [discriminate|].
    assert (K : forall n, forallb (fun c => negb (c =? 47)) n = true -> forall c, In c n -> ~ slash c).
    { intros n H c I ->. rewrite forallb_forall in H. specialize (H _ I). discriminate. }
    apply Forall_cons; [|apply Forall_cons; [|constructor]]; cbn [lc_path].
    + exists [s2b "lib"]. apply (LeadsBelow _ _ [[46; 46]; s2b "lib"]); [discriminate| |].
      * apply (TextMore slash [46; 46] 47); [now apply K|reflexivity|]. apply TextOne. now apply K.
      * apply WalkUp. cbn [removelast]. apply WalkDown; [apply plain; (discriminate || reflexivity)|apply WalkStop].
    + exists [s2b "ws"; s2b "mac"]. apply (LeadsBelow _ _ [s2b "mac"; [46]; []]); [discriminate| |].
      * apply (TextMore slash (s2b "mac") 47); [now apply K|reflexivity|]. apply (TextMore slash [46] 47); [now apply K|reflexivity|]. apply TextOne. now apply K.
      * apply WalkDown; [apply plain; (discriminate || reflexivity)|]. apply WalkStay; [now right|]. apply WalkStay; [now left|]. apply WalkStop.
Qed.
