(** Workspace folders and which of them serves a document.
    parser_library/src/workspace_manager_impl.h (55-71, 211-228, 255-267),
    language_server/src/lsp/feature_workspace_folders.cpp (54-124).

    Simplifications.  A workspace is its key and its folder path; what it does with a document is
    [Ws_Model].  [workspaces_] is a hash table: a list without repeated keys in iteration order,
    and every operation may reorder it.  Conversion of folder URIs to paths is not modelled
    (an operation carries the path).  Names and paths have no NUL byte (they pass through c_str). *)
From Coq Require Import List NArith Arith Bool.
From Verif Require Import Common.
Import ListNotations.

Definition ws := (bytes * bytes)%type. (* key in the table, folder path *)
Definition table := list ws.

(** workspace_manager_impl.h:255-267. *)
Fixpoint prefix_match (a b : bytes) : nat :=
  match a, b with
  | x :: a', y :: b' => if N.eqb x y then S (prefix_match a' b') else 0
  | _, _ => 0
  end.

(** workspace_manager_impl.h:211-228; [None] is the implicit workspace. *)
Fixpoint scan (doc : bytes) (t : table) (max : nat) (best : option ws) : option ws :=
  match t with
  | [] => best
  | w :: t' =>
      let m := prefix_match doc (snd w) in
      if Nat.ltb max m && Nat.leb (length (fst w)) m
      then scan doc t' m (Some w) else scan doc t' max best
  end.
Definition ws_path_match (t : table) (doc : bytes) : option ws := scan doc t 0 None.

(** workspace_manager_impl.h:55-62: emplace keeps an existing entry. *)
Definition has_key (k : bytes) (t : table) : bool := existsb (fun w => bytes_eqb (fst w) k) t.
Definition add_workspace (t : table) (name path : bytes) : table :=
  if has_key name t then t else t ++ [(name, path)].
(** workspace_manager_impl.h:64-71: the table is searched by the folder path. *)
Definition remove_workspace (t : table) (path : bytes) : table :=
  filter (fun w => negb (bytes_eqb (fst w) path)) t.

(** feature_workspace_folders.cpp:54-124. *)
Inductive fop :=
| Folders (added : list (bytes * bytes)) (removed : list bytes)  (* didChangeWorkspaceFolders *)
| RootUri (uri path : bytes)                                     (* initialize with rootUri *)
| RootPath (path : bytes).                                       (* initialize with rootPath *)
Definition fstep (t : table) (o : fop) : table :=
  match o with
  | Folders added removed =>
      fold_left (fun t a => add_workspace t (fst a) (snd a)) added
        (fold_left remove_workspace removed t)
  | RootUri uri path => add_workspace t uri path
  | RootPath path => add_workspace t path path
  end.
