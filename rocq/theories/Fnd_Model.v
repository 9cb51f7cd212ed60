(** * Fnd_Model: from an opened program to the file of a macro, copy member or other dependency

    Composition of Uri (language_server/src/feature.cpp 38-72), Rel (workspace.cpp 134), Conf (workspace.cpp 130-147,
    326-461, 515-526, library_local.cpp) and Pth (workspace.cpp 366-374, library_local.cpp 97,
    file_manager_impl.cpp 128-130), Linux. Conf takes the directories of libraries as given; here they are computed
    from the paths of the configuration. [files] lists the files of a directory (by its name), [cwd] is the current
    directory of the server; every library is freshly loaded, as in Conf. *)
From Coq Require Import String List NArith Bool.
From Verif Require Import Common Conf_Model.
From Verif Require Uri_Model Pth_Model Rel_Model.
Import ListNotations.
Open Scope list_scope.

(** workspace.cpp:366-374 *)
Definition resolved (ws : bytes) (lc : lib_conf) : lib_conf :=
  {| lc_path := Pth_Model.library_directory false ws (lc_path lc); lc_exts := lc_exts lc |}.
Definition resolved_groups (ws : bytes) (pc : proc_conf) : proc_conf :=
  {| pc_groups := map (fun g => (fst g, map (resolved ws) (snd g))) (pc_groups pc); pc_exts := pc_exts pc |}.
Definition read (ws : bytes) (e : doc proc_conf * doc pgm_conf) : doc proc_conf * doc pgm_conf :=
  (match fst e with DOk pc => DOk (resolved_groups ws pc) | DBad => DBad | DNotJson => DNotJson end, snd e).

(** file_manager_impl.cpp:113-143, library_local.cpp:97 *)
Definition listing (cwd : bytes) (files : bytes -> list bytes) (dir : bytes) : list (bytes * bytes) :=
  map (fun n => (n, Pth_Model.member false cwd dir n)) (files dir).
(** The outcome for the document [u]: [NoGroup] no libraries are configured, [Fails] std::out_of_range or no file URI. *)
Inductive outcome := Fails | NoGroup | Missing | Found (path : bytes).
Definition find_member (cwd : bytes) (files : bytes -> list bytes) (ws : bytes) (h : list (doc proc_conf * doc pgm_conf))
  (u member : bytes) : outcome :=
  match Uri_Model.uri_to_path u with
  | None => Fails
  | Some p =>
    match get_proc_grp (loads ws_init (map (read ws) h)) (Rel_Model.program_name false p ws) with
    | Throw => Fails
    | Implicit => NoGroup
    | Group _ libs =>
      match parse_library (listing cwd files) libs member with
      | Some (_, path) => Found path
      | None => Missing
      end
    end
  end.
