(** * Pth_Model: the directories of libraries and the names of their members, on Linux and on Windows

    utils/src/emscripten_path.cpp lines 26-35 (make_windows_preferred, make_linux_preferred), 39-50 (is_absolute),
    52-58 (absolute), 60-73 (join), 75-87 (lexically_normal); parser_library/src/workspaces/workspace.cpp lines 49-51 (the names of the
    configuration files), 366-374 (the directory of a library), library_local.cpp line 97 and
    file_manager_impl.cpp lines 128-130 (the name of a member).

    [windows] is what is_windows() says.  By its documentation: std::filesystem::path with / as the only separator
    (that of the WebAssembly build), [append] its operator/, lexically_normal as in [Uri_Model].  On Linux the
    functions are those of native_path.cpp too.  isalpha of bytes outside ASCII is false.  A listing gives a file
    the name [join] makes of the directory and the file (std::filesystem::directory_iterator; path.join of Node.js). *)
From Coq Require Import String List NArith Bool Arith.
From Verif Require Import Common.
From Verif Require Uri_Model.
Import ListNotations.
Open Scope list_scope.
Open Scope N_scope.

Definition SLASH : N := 47.
Definition BACKSLASH : N := 92.
Definition COLON : N := 58.
Definition is_alpha (c : N) : bool := ((65 <=? c) && (c <=? 90)) || ((97 <=? c) && (c <=? 122)).
(** 26-35 *)
Definition make_windows_preferred (s : bytes) : bytes := map (fun c => if c =? SLASH then BACKSLASH else c) s.
Definition make_linux_preferred (s : bytes) : bytes := map (fun c => if c =? BACKSLASH then SLASH else c) s.
(** operator/ of std::filesystem::path *)
Definition rooted (p : bytes) : bool := match p with c :: _ => c =? SLASH | [] => false end.
Definition append (l r : bytes) : bytes :=
  if rooted r then r
  else match l with
       | [] => r
       | _ => if last l 0 =? SLASH then l ++ r else l ++ SLASH :: r
       end.

Section Platform.
Variable windows : bool.
(** 39-50 *)
Definition is_absolute (p : bytes) : bool :=
  if windows then
    match p with
    | a :: b :: r => (is_alpha a && (b =? COLON)) || ((2 <=? List.length r)%nat && (a =? BACKSLASH) && (b =? BACKSLASH))
    | _ => false
    end
  else rooted p.
(** 60-73 *)
Definition join (left right : bytes) : bytes :=
  if windows then
    if is_absolute right then right
    else make_windows_preferred (append (make_linux_preferred left) (make_linux_preferred right))
  else append left right.
(** 75-87 *)
Definition lexically_normal (p : bytes) : bytes :=
  if windows then
    let p_ := make_linux_preferred p in
    let unc := match p_ with a :: b :: _ => (a =? SLASH) && (b =? SLASH) | _ => false end in
    (if unc then [BACKSLASH] else []) ++ make_windows_preferred (Uri_Model.lexically_normal p_)
  else Uri_Model.lexically_normal p.

(** workspace.cpp:366-374 *)
Definition library_directory (ws path : bytes) : bytes :=
  let lib := match path with [] => [] | _ => join path [] end in
  let lib := if is_absolute lib then lib else join ws lib in
  lexically_normal lib.
(** 52-58; [cwd]: the current directory of the server *)
Definition absolute (cwd p : bytes) : bytes := match p with [] => p | _ => if is_absolute p then p else join cwd p end.
(** The name of a file of a directory, as listed: file_manager_impl.cpp:128-130. *)
Definition listed (cwd dir name : bytes) : bytes := absolute cwd (join dir name).
(** library_local.cpp:97 *)
Definition member (cwd dir name : bytes) : bytes := join dir (listed cwd dir name).
(** workspace.cpp:49-51 *)
Definition proc_grps (ws : bytes) : bytes := join (join ws (s2b ".hlasmplugin")) (s2b "proc_grps.json").
Definition pgm_conf (ws : bytes) : bytes := join (join ws (s2b ".hlasmplugin")) (s2b "pgm_conf.json").
End Platform.
