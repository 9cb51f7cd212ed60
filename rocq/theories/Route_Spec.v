(** Folders and the documents in them. *)
From Coq Require Import List NArith.
From Verif Require Import Common Route_Model.
From Coq Require Import Permutation.
Import ListNotations.

Definition prefix (p d : bytes) : Prop := exists rest, d = p ++ rest.
(** A document lies in a folder. *)
Definition inside (p d : bytes) : Prop := exists rest, d = p ++ 47%N :: rest.

(** The folders the editor believes to be open. *)
Definition folders_step (l : list bytes) (o : fop) : list bytes :=
  match o with
  | Folders added removed =>
      filter (fun p => negb (existsb (bytes_eqb p) removed)) l ++ map snd added
  | RootUri _ path | RootPath path => l ++ [path]
  end.
Definition folders (ops : list fop) : list bytes := fold_left folders_step ops [].

(** Tables reachable by the operations, with any order of iteration. *)
Inductive reach : list fop -> table -> Prop :=
| reach_init : reach [] []
| reach_step : forall ops t o t', reach ops t -> Permutation t' (fstep t o) -> reach (ops ++ [o]) t'.

(** Every folder is announced under its own path. *)
Definition by_path (o : fop) : Prop :=
  match o with
  | Folders added _ => forall a, In a added -> fst a = snd a
  | RootUri uri path => uri = path
  | RootPath _ => True
  end.
