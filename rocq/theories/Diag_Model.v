(** Model of lsp/lsp_server.cpp:221-269 [consume_diagnostics] and feature.cpp:74-104
    [path_to_uri] (non-Windows branch). *)
From Coq Require Import List NArith Bool.
From Verif Require Import Common.
Import ListNotations.

(** feature.cpp:74-104. [enc] stands for network::detail::encode_char(c, out, "/.%;=") of the
    URI library. *)
Definition path_to_uri (enc : N -> bytes) (path : bytes) : bytes :=
  if starts_with (s2b "untitled") path then path
  else s2b "file://" ++ flat_map (fun c => enc (if (c =? 92)%N then 47%N else c)) path.

(** [std::string] comparison. *)
Fixpoint bytes_ltb (a b : bytes) : bool :=
  match a, b with
  | _, [] => false
  | [], _ :: _ => true
  | x :: a', y :: b' => (x <? y)%N || ((x =? y)%N && bytes_ltb a' b')
  end.

Section Diag.
  Variable D : Type.              (* a diagnostic, as converted to json *)
  Variable uri_of : bytes -> bytes.

  (** [diags[file].push_back(d)] on a std::map (lines 224-230). *)
  Fixpoint push (f : bytes) (d : D) (m : list (bytes * list D)) : list (bytes * list D) :=
    match m with
    | [] => [(f, [d])]
    | (g, l) :: m' =>
        if bytes_eqb f g then (g, l ++ [d]) :: m'
        else if bytes_ltb f g then (f, [d]) :: m
        else (g, l) :: push f d m'
    end.

  Definition group (ds : list (bytes * D)) : list (bytes * list D) :=
    fold_left (fun m fd => push (fst fd) (snd fd) m) ds [].

  (** A publishDiagnostics notification: uri and diagnostics. *)
  Definition message : Type := bytes * list D.

  (** Lines 232-268. [last]: last_diagnostics_files_. [ord]: the order in which the unordered
      set is iterated. Result: notifications sent, new last_diagnostics_files_. *)
  Definition consume (ord : list bytes -> list bytes) (last : list bytes) (ds : list (bytes * D))
    : list message * list bytes :=
    let m := group ds in
    let new_files := map fst m in
    let remaining := filter (fun f => negb (existsb (bytes_eqb f) new_files)) last in
    (map (fun fl => (uri_of (fst fl), snd fl)) m
       ++ map (fun f => (uri_of f, [])) (ord remaining),
     new_files).

  (** All rounds of a session; each round comes with its own iteration order. *)
  Fixpoint session (last : list bytes) (rs : list ((list bytes -> list bytes) * list (bytes * D)))
    : list message :=
    match rs with
    | [] => []
    | (ord, ds) :: rs' => let (ms, last') := consume ord last ds in ms ++ session last' rs'
    end.
End Diag.
Arguments consume {D}. Arguments session {D}. Arguments group {D}. Arguments push {D}.
