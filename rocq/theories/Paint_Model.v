(** * Paint_Model: the colours of the editor

    clients/vscode-hlasmplugin/src/semanticTokens.ts (constructor, lines 39-44; askForTokens, 82-90;
    applyDecorations, 92-129; colorize, 131-149), called from eventsHandler.ts lines 60-62, 94-108.

    Of VS Code, by its documentation: [createTextEditorDecorationType] makes a new type with a colour; [dispose]
    removes it and what it decorates from all editors; [setDecorations] replaces what a type decorates in an editor;
    an editor that becomes visible has no decorations; a document is closed when no editor has it open, and is
    closed and opened again when its language is changed, its editors staying as they are.

    The server's answers arrive as events ([Answer]); when they are asked for is not modelled.  Map keys are
    compared; [definedEditors] is a function, as only [get], [set] and [delete] are used on it.  An answer whose
    length is not a multiple of five has no outcome. *)
From Coq Require Import String List NArith Bool Arith.
From Verif Require Import Common.
Import ListNotations.
Open Scope list_scope.

(** legend.tokenTypes[n]; outside the legend it is undefined *)
Definition colour := option bytes.
Definition colour_eqb (a b : colour) : bool :=
  match a, b with Some x, Some y => bytes_eqb x y | None, None => true | _, _ => false end.
Record range := Range { r_line : N; r_from : N; r_to : N }.
Record deco := Deco { key : colour; ranges : list range; tid : nat }.
Definition upd {B} (f : nat -> B) (t : nat) (v : B) : nat -> B := fun x => if Nat.eqb x t then v else f x.

(** ** VS Code *)
Record editor := Ed { name : nat; e_uri : bytes; language : bytes; shown : nat -> list range }.
Record screen := Screen { live : nat -> option colour; fresh : nat; visible : list editor }.
Definition create (c : colour) (w : screen) : nat * screen :=
  (fresh w, Screen (upd (live w) (fresh w) (Some c)) (S (fresh w)) (visible w)).
Definition set_decorations (t : nat) (rs : list range) (e : editor) : editor :=
  Ed (name e) (e_uri e) (language e) (upd (shown e) t rs).
Definition dispose (t : nat) (w : screen) : screen :=
  Screen (upd (live w) t None) (fresh w) (map (set_decorations t []) (visible w)).

Section Legend.
Variable legend : list bytes.

(** ** applyDecorations *)
(** 102-109 *)
Fixpoint reset (D : list deco) (w : screen) : list deco * screen :=
  match D with
  | [] => ([], w)
  | d :: r =>
    let (t, w) := create (key d) (dispose (tid d) w) in
    let (r', w) := reset r w in
    (Deco (key d) [] t :: r', w)
  end.
(** 113-117, 123 *)
Definition has (c : colour) (D : list deco) : bool := existsb (fun d => colour_eqb (key d) c) D.
Definition push (c : colour) (r : range) (D : list deco) : list deco :=
  map (fun d => if colour_eqb (key d) c then Deco (key d) (ranges d ++ [r]) (tid d) else d) D.
Definition add (c : colour) (r : range) (D : list deco) (w : screen) : list deco * screen :=
  if has c D then (push c r D, w)
  else let (t, w) := create c w in (push c r (D ++ [Deco c [] t]), w).
(** 111-125 *)
Fixpoint tokens (line char : N) (data : list N) (D : list deco) (w : screen) : option (list deco * screen) :=
  match data with
  | [] => Some (D, w)
  | d0 :: d1 :: d2 :: d3 :: _ :: r =>
    let c := nth_error legend (N.to_nat d3) in
    let line' := (d0 + line)%N in
    let char' := (if N.eqb d0 0 then d1 + char else d1)%N in
    let (D, w) := add c (Range line' char' (char' + d2)) D w in
    tokens line' char' r D w
  | _ => None
  end.

(** ** colorize *)
Definition hlasm : bytes := s2b "hlasm".
Definition colour_editor (defined : bytes -> option (list deco)) (e : editor) : editor :=
  if bytes_eqb (language e) hlasm then
    match defined (e_uri e) with
    | Some D => fold_left (fun e d => set_decorations (tid d) (ranges d) e) D e
    | None => e
    end
  else e.
Definition colorize (defined : bytes -> option (list deco)) (w : screen) : screen :=
  Screen (live w) (fresh w) (map (colour_editor defined) (visible w)).

(** ** Events *)
Record st := St { defined : bytes -> option (list deco); scr : screen }.
Inductive ev :=
| Answer (u : bytes) (data : list N)
| Show (l : list (nat * bytes * bytes))       (* the visible editors from now on: which, of which document, in which language *)
| Close (u : bytes)
| Relanguage (u : bytes) (l : bytes).
Definition set_defined (f : bytes -> option (list deco)) (u : bytes) (v : option (list deco)) : bytes -> option (list deco) :=
  fun x => if bytes_eqb x u then v else f x.
Definition same (n : nat) (u l : bytes) (e : editor) : bool :=
  Nat.eqb (name e) n && bytes_eqb (e_uri e) u && bytes_eqb (language e) l.
Definition shows (w : screen) (p : nat * bytes * bytes) : editor :=
  let '(n, u, l) := p in
  match find (same n u l) (visible w) with Some e => e | None => Ed n u l (fun _ => []) end.
Definition step (s : st) (e : ev) : option st :=
  match e with
  | Answer u [] => Some s                                              (* 86 *)
  | Answer u data =>
    let D := match defined s u with Some D => D | None => [] end in
    let (D, w) := reset D (scr s) in
    match tokens 0 0 data D w with
    | Some (D, w) => let f := set_defined (defined s) u (Some D) in Some (St f (colorize f w))
    | None => None
    end
  | Show l =>
    let w := Screen (live (scr s)) (fresh (scr s)) (map (shows (scr s)) l) in
    Some (St (defined s) (if existsb (fun e => bytes_eqb (language e) hlasm) (visible w) then colorize (defined s) w else w))
  | Close u =>
    if existsb (fun e => bytes_eqb (e_uri e) u) (visible (scr s)) then None
    else Some (St (set_defined (defined s) u None) (scr s))
  | Relanguage u l =>
    Some (St (set_defined (defined s) u None)
      (Screen (live (scr s)) (fresh (scr s))
        (map (fun e => if bytes_eqb (e_uri e) u then Ed (name e) (e_uri e) l (shown e) else e) (visible (scr s)))))
  end.
End Legend.
Definition start : st := St (fun _ => None) (Screen (fun _ => None) 0 []).
(** What is seen in an editor. *)
Definition seen (s : st) (e : editor) (c : colour) (r : range) : Prop :=
  exists t, live (scr s) t = Some c /\ In r (shown e t).
