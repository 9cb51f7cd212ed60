(** Documents of one workspace: the file manager, open documents, dependencies, re-analysis.
    parser_library/src/workspaces/file_manager_impl.cpp, file_impl.cpp (37-70, 110-126, 182-205),
    processor_file_impl.cpp, workspace.cpp (84-120, 151-311, 326-340, 417-461, 467-513),
    workspace_manager_impl.h (73-118, 135-199).

    Simplifications.  One workspace (routing is modelled in [Route_Model]).  The analysis of a
    program is an oracle: which library files it loads, which of them it visits (the dependency
    set), whether it was cancelled.  Every operation carries its own oracle, so theorems hold for
    every analyser.  [files_] is a function; [dependants_] a duplicate-free list.  Diagnostics
    are not part of the state.  [p_seen] is a ghost: the texts the last analysis was given. *)
From Coq Require Import List NArith Arith Bool.
From Verif Require Import Common Text_Model.
Import ListNotations.

Notation uri := bytes.

(** processor_file_impl: [p_analysed] says [analyzer_] is not null. *)
Record proc := { p_analysed : bool; p_deps : list uri; p_close : list uri; p_seen : list (uri * bytes) }.
Definition new_proc : proc := {| p_analysed := false; p_deps := []; p_close := []; p_seen := [] |}.

(** file_impl, and whether the object is a processor file. *)
Record fobj := { fo_file : file; fo_fresh : bool; fo_edit : bool; fo_proc : option proc }.
Definition new_file : fobj :=
  {| fo_file := mkFile [] [] 0; fo_fresh := false; fo_edit := false; fo_proc := None |}.

Record st := { files : uri -> option fobj; dependants : list uri; disk : uri -> option bytes }.
Definition init (d : uri -> option bytes) : st :=
  {| files := fun _ => None; dependants := []; disk := d |}.

Inductive outcome := Ok (s : st) | Undef | Thrown.
Definition bind (o : outcome) (k : st -> outcome) : outcome :=
  match o with Ok s => k s | x => x end.

Definition put (s : st) (u : uri) (f : option fobj) : st :=
  {| files := fun v => if bytes_eqb v u then f else files s v;
     dependants := dependants s; disk := disk s |}.

Definition with_file (o : fobj) (f : file) : fobj :=
  {| fo_file := f; fo_fresh := fo_fresh o; fo_edit := fo_edit o; fo_proc := fo_proc o |}.
Definition with_proc (o : fobj) (p : proc) : fobj :=
  {| fo_file := fo_file o; fo_fresh := fo_fresh o; fo_edit := fo_edit o; fo_proc := Some p |}.

(** file_impl.cpp:44-70 [load_text]; the line table is not touched. *)
Definition load_text (s : st) (u : uri) (o : fobj) : fobj :=
  match disk s u with
  | Some b => {| fo_file := mkFile (repair b) (lines (fo_file o)) (version (fo_file o));
                 fo_fresh := true; fo_edit := fo_edit o; fo_proc := fo_proc o |}
  | None => {| fo_file := mkFile [] (lines (fo_file o)) (version (fo_file o));
               fo_fresh := false; fo_edit := fo_edit o; fo_proc := fo_proc o |}
  end.
(** file_impl.cpp:37-42 [get_text], with its effect. *)
Definition get_text (s : st) (u : uri) (o : fobj) : fobj :=
  if fo_fresh o then o else load_text s u o.

(** file_manager_impl.cpp:40-51. *)
Definition to_proc (o : fobj) : fobj :=
  match fo_proc o with Some _ => o | None => with_proc o new_proc end.
(** file_manager_impl.cpp:33-38, 53-65, 79-88, 100-108. *)
Definition add_file (s : st) (u : uri) : st :=
  match files s u with Some _ => s | None => put s u (Some new_file) end.
Definition add_processor_file (s : st) (u : uri) : st :=
  match files s u with
  | Some o => put s u (Some (to_proc o))
  | None => put s u (Some (to_proc new_file))
  end.
Definition remove_file (s : st) (u : uri) : st := put s u None.
Definition find_processor_file (s : st) (u : uri) : st * option fobj :=
  match files s u with
  | Some o => (put s u (Some (to_proc o)), Some (to_proc o))
  | None => (s, None)
  end.

(** file_manager_impl.cpp:134-144: when someone else holds the object a copy is made, and a
    copied processor file starts without analysis and dependencies. *)
Definition prepare (shared : bool) (o : fobj) : fobj :=
  match shared, fo_proc o with
  | true, Some _ => with_proc o new_proc
  | _, _ => o
  end.

(** file_manager_impl.cpp:146-152 with file_impl.cpp:110-122. *)
Definition fm_open (s : st) (u : uri) (v : N) (t : bytes) (shared : bool) : st :=
  let o := match files s u with Some o => o | None => new_file end in
  let o := prepare shared o in
  put s u (Some {| fo_file := did_open t v; fo_fresh := true; fo_edit := true; fo_proc := fo_proc o |}).
(** file_manager_impl.cpp:154-177. *)
Definition fm_change (s : st) (u : uri) (es : list edit) (shared : bool) : outcome :=
  match files s u with
  | None => Ok s
  | Some o =>
      let o := prepare shared o in
      match apply_edits (fo_file o) es with
      | Changed f => Ok (put s u (Some (with_file o f)))
      | CThrow => Thrown
      | CUndef => Undef
      end
  end.
(** file_manager_impl.cpp:179-191. *)
Definition fm_close (s : st) (u : uri) (shared : bool) : st :=
  match files s u with
  | None => s
  | Some o =>
      let o := prepare shared o in
      put s u (Some {| fo_file := fo_file o; fo_fresh := fo_fresh o; fo_edit := false;
                       fo_proc := fo_proc o |})
  end.

(** The oracle for one analysis. *)
Record analysis := { a_loads : list uri; a_visits : list uri; a_cancelled : bool }.

Definition mem (u : uri) (l : list uri) : bool := existsb (bytes_eqb u) l.
Definition minus (a b : list uri) : list uri := filter (fun x => negb (mem x b)) a.

(** A library file read during an analysis: library_local.cpp:97 adds it as a processor file,
    processor_file_impl.cpp:71-78 gets its text and creates its analyzer. *)
Definition load_dep (s : st) (u : uri) : st :=
  let s := add_processor_file s u in
  match files s u with
  | None => s
  | Some o =>
      let o := get_text s u o in
      let p := match fo_proc o with Some p => p | None => new_proc end in
      put s u (Some (with_proc o {| p_analysed := true; p_deps := p_deps p; p_close := p_close p;
                                    p_seen := p_seen p |}))
  end.
Definition text_of (s : st) (u : uri) : bytes :=
  match files s u with Some o => text (fo_file o) | None => [] end.

(** processor_file_impl.cpp:43-68 [parse] of the file [u]. *)
Definition parse (s : st) (u : uri) (a : analysis) : st :=
  match files s u with
  | None => s
  | Some o0 =>
      let s := put s u (Some (get_text s u (to_proc o0))) in
      let s := fold_left load_dep (a_loads a ++ a_visits a) s in
      match files s u with
      | None => s
      | Some o =>
          let p := match fo_proc o with Some p => p | None => new_proc end in
          let deps := if a_cancelled a then p_deps p else minus (a_visits a) [u] in
          put s u (Some (with_proc o
            {| p_analysed := true; p_deps := deps; p_close := minus (p_deps p) deps;
               p_seen := map (fun d => (d, text_of s d)) (u :: a_loads a ++ a_visits a) |}))
      end
  end.

Definition deps_of (s : st) (u : uri) : list uri :=
  match files s u with
  | Some o => match fo_proc o with Some p => p_deps p | None => [] end
  | None => []
  end.
Definition close_of (s : st) (u : uri) : list uri :=
  match files s u with
  | Some o => match fo_proc o with Some p => p_close p | None => [] end
  | None => []
  end.
Definition editing (s : st) (u : uri) : bool :=
  match files s u with Some o => fo_edit o | None => false end.
Definition present (s : st) (u : uri) : bool :=
  match files s u with Some _ => true | None => false end.

(** [find_processor_file] for its effect on the map only. *)
Definition touch (s : st) (u : uri) : st := fst (find_processor_file s u).

(** workspace.cpp:467-497 [filter_and_close_dependencies_] for the file [u]. *)
Definition close_one (s : st) (d : uri) : st := remove_file (fm_close s d false) d.
Definition filter_and_close (s : st) (deps : list uri) (u : uri) : st :=
  let s := fold_left touch deps s in
  let filtered := filter (fun d => present s d && negb (editing s d)) deps in
  let s := fold_left touch (dependants s) s in
  let others := filter (fun f => present s f && negb (bytes_eqb f u)) (dependants s) in
  let kept := flat_map (deps_of s) others in
  fold_left close_one (minus filtered kept) s.

(** workspace.cpp:499-513 [is_dependency_]. *)
Definition is_dependency (s : st) (u : uri) : bool :=
  existsb (fun f => mem u (deps_of s f)) (dependants s).

Definition add_dependant (s : st) (u : uri) : st :=
  {| files := files s; disk := disk s;
     dependants := if mem u (dependants s) then dependants s else dependants s ++ [u] |}.

(** workspace.cpp:200-205: parse one program and record it. *)
Definition parse_program (an : uri -> analysis) (s : st) (f : uri) : st :=
  let s := parse s f (an f) in
  match deps_of s f with [] => s | _ => add_dependant s f end.

(** workspace.cpp:417-461: both configuration files are registered and read when they are not
    being edited; [ok] is the result of decoding them. *)
Definition read_config (s : st) (u : uri) : st :=
  let s := add_file s u in
  match files s u with
  | Some o => if fo_edit o then s else put s u (Some (load_text s u o))
  | None => s
  end.

Definition proc_grps : uri := s2b ".hlasmplugin/proc_grps.json".
Definition pgm_conf : uri := s2b ".hlasmplugin/pgm_conf.json".
Definition is_config (u : uri) : bool := bytes_eqb u proc_grps || bytes_eqb u pgm_conf.

(** workspace.cpp:151-222 [parse_file]. *)
Definition parse_file (s : st) (u : uri) (an : uri -> analysis) (config_ok : bool) : st :=
  if is_config u then
    let s := read_config (read_config s proc_grps) pgm_conf in
    if config_ok then
      let todo := filter (present s) (dependants s) in
      let s := fold_left (fun s f => parse s f (an f)) todo s in
      fold_left (fun s f => if present s f then filter_and_close s (close_of s f) f else s)
        (dependants s) s
    else s
  else
    let s := fold_left touch (dependants s) s in
    let users := filter (fun f => mem u (deps_of s f)) (dependants s) in
    let todo := match users with
                | [] => if present s u then [u] else []
                | _ => users
                end in
    let s := fold_left (parse_program an) todo s in
    (* the file objects are held, so their close lists do not change any more *)
    fold_left (fun s fc => filter_and_close s (snd fc) (fst fc))
      (map (fun f => (f, close_of s f)) todo) s.

(** workspace.cpp:237-262 [did_close_file]; 254 dereferences the file of a dependant. *)
Definition ws_close (s : st) (u : uri) (shared : bool) : outcome :=
  let s := fold_left touch (dependants s) s in
  if is_dependency s u then Ok (fm_close s u shared)
  else
    let o :=
      if mem u (dependants s) then
        if present s u then
          let s := filter_and_close s (deps_of s u) u in
          Ok {| files := files s; disk := disk s; dependants := minus (dependants s) [u] |}
        else Undef
      else Ok s in
    bind o (fun s => Ok (remove_file (fm_close s u shared) u)).

(** workspace.cpp:84-103 [find_related_opencodes], 272-309: the analysis that answers a
    definition, references, hover or completion request; an object without analyzer is
    dereferenced (processor_file_impl.cpp:103). *)
Definition related (s : st) (u : uri) : list uri :=
  match filter (fun f => mem u (deps_of s f)) (dependants s) with
  | [] => if present s u then [u] else []
  | l => l
  end.
Definition analysed (s : st) (u : uri) : bool :=
  match files s u with
  | Some o => match fo_proc o with Some p => p_analysed p | None => false end
  | None => false
  end.
Inductive answer := NoFile | By (program : uri) | Crash.
Definition query (s : st) (u : uri) : st * answer :=
  let s := touch (fold_left touch (dependants s) s) u in
  match last (map Some (related s u)) None with
  | None => (s, NoFile)
  | Some f => (s, if analysed s f then By f else Crash)
  end.

(** workspace_manager_impl.h:73-118: messages of the editor, and what happens outside.
    [cancel] is the cancellation flag at the check after the file manager's part. *)
Inductive op :=
| Open (u : uri) (v : N) (t : bytes) (shared cancel : bool) (an : uri -> analysis) (config_ok : bool)
| Change (u : uri) (es : list edit) (shared cancel : bool) (an : uri -> analysis) (config_ok : bool)
| Close (u : uri) (shared : bool)
| Watched (u : uri) (an : uri -> analysis) (config_ok : bool)
| Query (u : uri)
| Disk (u : uri) (content : option bytes).

Definition step (s : st) (o : op) : outcome :=
  match o with
  | Open u v t shared cancel an ok =>
      let s := fm_open s u v t shared in
      Ok (if cancel then s else parse_file s u an ok)
  | Change u es shared cancel an ok =>
      bind (fm_change s u es shared) (fun s => Ok (if cancel then s else parse_file s u an ok))
  | Close u shared => ws_close s u shared
  | Watched u an ok => Ok (parse_file s u an ok)
  | Query u => match query s u with (_, Crash) => Undef | (s', _) => Ok s' end
  | Disk u c => Ok {| files := files s; dependants := dependants s;
                      disk := fun v => if bytes_eqb v u then c else disk s v |}
  end.

Fixpoint run (s : st) (ops : list op) : outcome :=
  match ops with
  | [] => Ok s
  | o :: ops' => bind (step s o) (fun s' => run s' ops')
  end.
