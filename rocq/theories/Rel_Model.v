(** * Rel_Model: the name of a program, relative to the workspace

    parser_library/src/workspaces/workspace.cpp line 134 (the name that is looked for among the programs of
    pgm_conf.json), 400-402 (the names of the configuration on Windows); utils/src/emscripten_path.cpp lines 90-99
    (lexically_relative), native_path.cpp (the same, Linux).

    By its documentation: std::filesystem::path::lexically_relative with / as the only separator; [elements] are
    those its iterators go over. *)
From Coq Require Import String List NArith ZArith Bool Arith.
From Verif Require Import Common Pth_Model.
From Verif Require Uri_Model.
Import ListNotations.
Open Scope list_scope.

Definition nonempty (n : bytes) : bool := match n with [] => false | _ => true end.
Definition elements (p : bytes) : list bytes :=
  let names := filter nonempty (Uri_Model.split p) in
  (if rooted p then [[SLASH]] else []) ++ names ++
  (if nonempty p && (last p 0 =? SLASH)%N then match names with [] => [] | _ => [[]] end else []).
Fixpoint mismatch (a b : list bytes) : list bytes * list bytes :=
  match a, b with
  | x :: a', y :: b' => if bytes_eqb x y then mismatch a' b' else (a, b)
  | _, _ => (a, b)
  end.
(** how far the rest of the base leads down *)
Definition down (n : bytes) : Z :=
  if bytes_eqb n [] || bytes_eqb n (s2b ".") then 0 else if bytes_eqb n (s2b "..") then -1 else 1.
Definition depth (l : list bytes) : Z := fold_right (fun n z => (down n + z)%Z) 0%Z l.
Definition std_relative (p base : bytes) : bytes :=
  if negb (Bool.eqb (rooted p) (rooted base)) then []
  else
    let (a, b) := mismatch (elements p) (elements base) in
    match a, b with
    | [], [] => s2b "."
    | _, _ =>
      let n := depth b in
      if (n <? 0)%Z then []
      else if (n =? 0)%Z && match a with [] | [] :: _ => true | _ => false end then s2b "."
      else fold_left append (repeat (s2b "..") (Z.to_nat n) ++ a) []
    end.
Section Platform.
Variable windows : bool.
(** emscripten_path.cpp:90-99 *)
Definition lexically_relative (p q : bytes) : bytes :=
  if windows then make_windows_preferred (std_relative (make_linux_preferred p) (make_linux_preferred q))
  else std_relative p q.
(** workspace.cpp:134 *)
Definition program_name (file ws : bytes) : bytes := lexically_normal windows (lexically_relative file ws).
(** 400-402 *)
Definition configured_name (pgm : bytes) : bytes := if windows then make_windows_preferred pgm else pgm.
End Platform.
