(** Properties C12 (processor group selection) and C13 (library lookup). *)
From Coq Require Import List NArith Bool.
From Verif Require Import Common Wild_Model Wild_Spec Conf_Model Conf_Spec Conf_Proof.
Import ListNotations.

(** C12, for every history of configuration loads: with no load that reads the group file
    but fails on the program file, the group is the configured one of the last good load, with
    the libraries of its first definition; no load so far means the implicit group. *)
Theorem C12_selection : forall h file, one_line file ->
  (forall e, In e h -> half e = false) ->
  match fst (last_ok h (None, false)) with
  | None => get_proc_grp (loads ws_init h) file = Implicit
  | Some (pc, pm) => exists sel, configured (group_names pc) (pm_pgms pm) file sel
      /\ match sel with
         | None => get_proc_grp (loads ws_init h) file = Implicit
         | Some g => exists libs, gfind g (pc_groups pc) = Some libs
             /\ get_proc_grp (loads ws_init h) file
                = Group g (map (library_of pc (compat_list (pm_always pm))) libs)
         end
  end.
Proof.
  intros h file Hl Hh. pose proof (select_history h file Hl) as H.
  pose proof (last_ok_no_half h (None, false) Hh eq_refl) as Hb.
  destruct (last_ok h (None, false)) as [[[pc pm]|] b]; cbn [fst snd] in *; [subst b; exact H|exact H].
Qed.
Print Assumptions C12_selection.

(** C12, every history: after a load that reads the group file but fails on the program file,
    every program with an entry makes the lookup throw. *)
Theorem C12_selection_any_history : forall h file, one_line file ->
  match last_ok h (None, false) with
  | (None, _) => get_proc_grp (loads ws_init h) file = Implicit
  | (Some (pc, pm), broken) => exists sel, configured (group_names pc) (pm_pgms pm) file sel
      /\ match sel with
         | None => get_proc_grp (loads ws_init h) file = Implicit
         | Some g =>
             if broken then get_proc_grp (loads ws_init h) file = Throw
             else exists libs, gfind g (pc_groups pc) = Some libs
               /\ get_proc_grp (loads ws_init h) file
                  = Group g (map (library_of pc (compat_list (pm_always pm))) libs)
         end
  end.
Proof. exact select_history. Qed.
Print Assumptions C12_selection_any_history.

Definition ex_pc : proc_conf :=
  {| pc_groups := [(s2b "P1", [{| lc_path := s2b "lib/"; lc_exts := [s2b "hlasm"] |}]);
                   (s2b "P1", []); (s2b "P2", [])];
     pc_exts := [] |}.
Definition ex_pm : pgm_conf :=
  {| pm_pgms := [(s2b "s/*", s2b "P2"); (s2b "s/a", s2b "P1"); (s2b "s/a", s2b "P2");
                 (s2b "t/*", s2b "P3")];
     pm_always := [] |}.

(** The witness: editing the program file into a syntax error makes lookups throw
    [std::out_of_range]. *)
Theorem C12_half_load_refuted : exists h file, one_line file
  /\ get_proc_grp (loads ws_init h) file = Throw.
Proof.
  exists [(DOk ex_pc, DOk ex_pm); (DOk ex_pc, DNotJson)], (s2b "s/a").
  split; [split; vm_compute; intuition discriminate|vm_compute; reflexivity].
Qed.
Print Assumptions C12_half_load_refuted.

Example C12_example :
  let h := [(DOk ex_pc, DOk ex_pm); (DBad, DBad); (DNotJson, DOk ex_pm)] in
  (forall e, In e h -> half e = false)
  /\ get_proc_grp (loads ws_init h) (s2b "s/a")
     = Group (s2b "P1") [mk_library (s2b "lib/") [s2b "hlasm"] false]
  /\ get_proc_grp (loads ws_init h) (s2b "s/b") = Group (s2b "P2") []
  /\ get_proc_grp (loads ws_init h) (s2b "t/b") = Implicit.
Proof.
  cbv zeta. split; [intros e [<-|[<-|[<-|[]]]]; reflexivity|]. vm_compute. auto.
Qed.

(** C13: the first library of the group that has the member is used. *)
Theorem C13_first_library : forall dir libs member,
  match parse_library dir libs member with
  | Some (path, p) => exists l, first_such (has dir member) libs l /\ l_path l = path
      /\ tfind member (fst (load_files l (dir (l_path l)))) = Some p
  | None => forall l, In l libs -> ~ has dir member l
  end.
Proof. exact parse_library_first. Qed.
Print Assumptions C13_first_library.

(** C13: a library has exactly the members its files provide. *)
Theorem C13_found_is_provided : forall path exts d listing m p,
  tfind m (fst (load_files (mk_library path exts d) listing)) = Some p ->
  exists f, In (f, p) listing /\ provides (effective exts d) f m.
Proof. exact find_sound. Qed.
Print Assumptions C13_found_is_provided.

Theorem C13_missing_is_not_provided : forall path exts d listing m,
  tfind m (fst (load_files (mk_library path exts d) listing)) = None ->
  forall f p, In (f, p) listing -> ~ provides (effective exts d) f m.
Proof. exact find_complete. Qed.
Print Assumptions C13_missing_is_not_provided.

(** C13: when one file provides the member the result does not depend on listing order. *)
Theorem C13_determined : forall path exts d listing m f p, In (f, p) listing ->
  provides (effective exts d) f m ->
  (forall f' p', In (f', p') listing -> provides (effective exts d) f' m -> p' = p) ->
  tfind m (fst (load_files (mk_library path exts d) listing)) = Some p.
Proof. exact find_determined. Qed.
Print Assumptions C13_determined.

(** C13: with extensions, a warning is given for exactly the members provided twice. *)
Theorem C13_ambiguity_reported : forall path exts d listing m, exts <> [] ->
  In m (snd (load_files (mk_library path exts d) listing)) <->
  exists a f1 p1 b f2 p2 c, listing = a ++ (f1, p1) :: b ++ (f2, p2) :: c
    /\ provides (effective exts d) f1 m /\ provides (effective exts d) f2 m.
Proof. exact warn_iff. Qed.
Print Assumptions C13_ambiguity_reported.

(** C13: between refreshes lookups do not change, whatever happens to the directory. *)
Theorem C13_stable_until_refresh : forall l t ops,
  (forall d o, In (d, o) ops -> exists m, o = LFind m) ->
  lib_run l (Some t) ops
  = (Some t, map (fun x => match snd x with LFind m => tfind m t | LRefresh => None end) ops).
Proof. exact finds_stable. Qed.
Print Assumptions C13_stable_until_refresh.

(** Which of two files with different extensions is used is decided by the order of the
    listing (an unordered container), not by the order of the extensions. *)
Theorem C13_extension_order_refuted : exists exts listing listing' m p p',
  (forall x, In x listing <-> In x listing') /\ p <> p'
  /\ tfind m (fst (load_files (mk_library [] exts false) listing)) = Some p
  /\ tfind m (fst (load_files (mk_library [] exts false) listing')) = Some p'.
Proof.
  exists [s2b "hlasm"; s2b "asm"],
    [(s2b "M.hlasm", s2b "1"); (s2b "M.asm", s2b "2")],
    [(s2b "M.asm", s2b "2"); (s2b "M.hlasm", s2b "1")], (s2b "M"), (s2b "1"), (s2b "2").
  split; [cbn; intuition|]. split; [discriminate|]. split; vm_compute; reflexivity.
Qed.
Print Assumptions C13_extension_order_refuted.

(** Without extensions files that differ in case hide each other silently. *)
Theorem C13_case_collision_refuted : exists listing m p,
  In (s2b "m", p) listing /\ provides [] (s2b "m") m
  /\ tfind m (fst (load_files (mk_library [] [] false) listing)) <> Some p
  /\ snd (load_files (mk_library [] [] false) listing) = [].
Proof.
  exists [(s2b "m", s2b "1"); (s2b "M", s2b "2")], (s2b "M"), (s2b "1").
  split; [left; reflexivity|]. split; [reflexivity|]. split; vm_compute; [discriminate|reflexivity].
Qed.
Print Assumptions C13_case_collision_refuted.

Example C13_example :
  let l := mk_library (s2b "lib/") [s2b "asm"; s2b ".x.asm"] true in
  let listing := [(s2b "m1.x.asm", s2b "1"); (s2b "m2.asm", s2b "2"); (s2b "m3", s2b "3");
                  (s2b ".asm", s2b "4")] in
  l_exts l = [s2b ".x.asm"; s2b ".asm"; []]
  /\ tfind (s2b "M1") (fst (load_files l listing)) = Some (s2b "1")
  /\ tfind (s2b "M1.X") (fst (load_files l listing)) = None
  /\ tfind (s2b "M3") (fst (load_files l listing)) = Some (s2b "3")
  /\ tfind (s2b ".ASM") (fst (load_files l listing)) = Some (s2b "4").
Proof. vm_compute. auto. Qed.
