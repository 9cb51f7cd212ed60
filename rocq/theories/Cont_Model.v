(** Model of the editing commands that keep the continuation column in place:

      clients/vscode-hlasmplugin/src/customEditorCommands.ts:23-200, continuationHandler.ts:26-72,
      extension.ts:27-28

    for one cursor.  A document is a list of lines of UTF-16 code units; \r\n is one line end, as in the editor.
    The editor itself is not in the repository.  What is used of it: the positions of all edits of a command are
    those before the command, a position outside the document is moved to the nearest one in it, edits that
    overlap are refused, text inserted where something is deleted stands in place of it, and texts inserted at
    one position stand in the order of the calls. *)
From Coq Require Import List NArith ZArith Bool.
Import ListNotations.
Open Scope list_scope.
Open Scope nat_scope.

Notation line := (list N).
Notation doc := (list (list N)).
Record pos := mkPos { ln : nat; ch : nat }.
Record selection := mkSel { anchor : pos; active : pos }.

(** ** The editor *)
Inductive edit := Ins (p : pos) (t : list N) | Del (p q : pos).

Definition EOL : N := 10%N.
Fixpoint text (d : doc) : list N :=
  match d with
  | [] => []
  | [l] => l
  | l :: r => l ++ EOL :: text r
  end.
Definition line_at (d : doc) (i : nat) : line := nth i d [].
(** The place of a position in the text, after validation *)
Fixpoint place (d : doc) (i c : nat) : nat :=
  match d with
  | [] => 0
  | [l] => match i with O => Nat.min c (length l) | _ => length l end
  | l :: r => match i with O => Nat.min c (length l) | S k => length l + 1 + place r k c end
  end.

Notation splice := (nat * nat * list N)%type.
Definition to_splice (d : doc) (e : edit) : splice :=
  match e with
  | Ins p t => let a := place d (ln p) (ch p) in (a, a, t)
  | Del p q => let a := place d (ln p) (ch p) in let b := place d (ln q) (ch q) in (Nat.min a b, Nat.max a b, [])
  end.
Definition before (x y : splice) : bool :=
  let '(a, b, _) := x in let '(c, d, _) := y in (a <? c) || ((a =? c) && (b <=? d)).
Fixpoint insert (x : splice) (l : list splice) : list splice :=
  match l with
  | [] => [x]
  | y :: r => if before x y then x :: y :: r else y :: insert x r
  end.
Fixpoint sort (l : list splice) : list splice := match l with [] => [] | x :: r => insert x (sort r) end.
Fixpoint overlap (l : list splice) : bool :=
  match l with
  | (_, b, _) :: (((c, _, _) :: _) as r) => (c <? b) || overlap r
  | _ => false
  end.
Definition replace (s : splice) (t : list N) : list N := let '(a, b, x) := s in firstn a t ++ x ++ skipn b t.
(** None: refused *)
Definition apply (d : doc) (es : list edit) : option (list N) :=
  let l := sort (map (to_splice d) es) in
  if overlap l then None else Some (fold_right replace (text d) l).

(** ** customEditorCommands.ts *)
Definition BLANK : N := 32%N.
Definition blanks (n : nat) : list N := repeat BLANK n.
(** 193-200 *)
Definition isLineContinued (d : doc) (i : Z) (offset : nat) : bool :=
  if (i <? 0)%Z then false
  else if (length d <=? Z.to_nat i) then false
  else let l := line_at d (Z.to_nat i) in (offset <? length l) && negb (N.eqb (nth offset l 0%N) BLANK).

Definition same (s : selection) : bool := (ln (anchor s) =? ln (active s)) && (ch (anchor s) =? ch (active s)).
Definition isSingleLine (s : selection) : bool := ln (anchor s) =? ln (active s).
Definition diff (s : selection) : Z := (Z.of_nat (ch (active s)) - Z.of_nat (ch (anchor s)))%Z.

(** 127-171.  A position with a negative number throws: [None]; 152 cannot, as both ends are in front of the offset. *)
Definition removeLeft (d : doc) (s : selection) (offset : nat) : option (list edit) :=
  let i := ln (active s) in
  let a := ch (active s) in
  let size := if (diff s =? 0)%Z then 1%Z else diff s in
  let cursor := mkPos i (Z.to_nat (Z.of_nat a - (if ((0 <? size) && (0 <? Z.of_nat a))%Z then size else 0))) in
  let endPos := if a <? ch (anchor s) then ch (anchor s) else a in
  let handled := isLineContinued d (Z.of_nat i) offset && (endPos <? offset) && ((0 <? a) || (0 <? size)%Z) && isSingleLine s in
  let cursor := if handled then cursor
                else if (a =? 0) && (0 <? i) then mkPos (i - 1) (length (line_at d (i - 1))) else cursor in
  if handled && (Z.of_nat offset <? Z.abs size)%Z then None
  else Some ((if handled then [Ins (mkPos i offset) (blanks (Z.to_nat (Z.abs size)))] else []) ++
             [Del (active s) (if same s then cursor else anchor s)]).

(** 43-48; where the cursor is put is not modelled *)
Definition deleteLeft (d : doc) (s : selection) (offset : nat) : option (list edit) := removeLeft d s offset.
(** 27-36 *)
Definition cut (d : doc) (s : selection) (offset : nat) : option (list edit) :=
  if same s then Some [] else removeLeft d s offset.

(** 55-89 *)
Definition deleteRight (d : doc) (s : selection) (offset : nat) : option (list edit) :=
  let i := ln (active s) in
  let a := ch (active s) in
  let size := if (diff s =? 0)%Z then (-1)%Z else diff s in
  let cursor := mkPos i (Z.to_nat (Z.of_nat a - (if (-1 <=? size)%Z then size else 0))) in
  let handled := isLineContinued d (Z.of_nat i) offset && (a <? offset) && isSingleLine s in
  let cursor := match skipn a (line_at d i) with [] => mkPos (i + 1) 0 | _ => cursor end in
  if handled && (Z.of_nat offset <? Z.abs size)%Z then None
  else Some ((if handled then [Ins (mkPos i offset) (blanks (Z.to_nat (Z.abs size)))] else []) ++
             [Del (active s) (if same s then cursor else anchor s)]).

(** 174-186: from [p] back, [n] symbols to go.  None: no space. *)
Fixpoint findSpace (l : line) (a : nat) (n p : nat) : option nat :=
  match n with
  | O => Some p
  | S m => if N.eqb (nth p l 0%N) BLANK && (a <? p) then findSpace l a m (p - 1) else None
  end.
(** 97-125 *)
Definition insertChars (d : doc) (s : selection) (t : list N) (offset : nat) : option (list edit) :=
  let i := ln (active s) in
  let a := ch (active s) in
  match (if same s then Some [Ins (active s) t]
         else match removeLeft d s offset with
              | None => None
              | Some es =>
                  let at_active :=
                    if ln (active s) <? ln (anchor s) then true
                    else if ln (anchor s) <? ln (active s) then false
                    else negb (ch (anchor s) <? ch (active s)) in
                  Some (es ++ [Ins (if at_active then active s else anchor s) t])
              end) with
  | None => None
  | Some es =>
      Some (es ++ if negb (offset =? 0) && (a <? offset)
                  then match findSpace (line_at d i) a (length t) (offset - 1) with
                       | Some p => [Del (mkPos i p) (mkPos i (offset - 1))]
                       | None => []
                       end
                  else [])
  end.

(** ** continuationHandler.ts *)
Definition X : N := 88%N.
(** 27-55.  String.repeat of a negative number throws: [None] *)
Definition insertContinuation (d : doc) (p : pos) (offset column : nat) : option (list edit) :=
  let i := ln p in
  let len := length (line_at d i) in
  if negb (isLineContinued d (Z.of_nat i) offset) then
    let cont := [Del (mkPos i offset) (mkPos i (offset + 1)); Ins (mkPos i offset) (X :: EOL :: blanks column)] in
    if ch p <? offset then
      if offset <? len then None
      else Some (Ins (mkPos i len) (blanks (offset - len)) :: cont)
    else Some cont
  else Some [Ins (mkPos i len) (EOL :: blanks offset ++ [X])].
(** 58-72 *)
Definition removeContinuation (d : doc) (p : pos) (offset : nat) : option (list edit) :=
  let i := ln p in
  let this := isLineContinued d (Z.of_nat i) offset in
  let prev := isLineContinued d (Z.of_nat i - 1) offset in
  if (0 <? i) && prev then
    Some [Del (mkPos i (length (line_at d i))) (mkPos (i - 1) (offset + if this then 1 else 0))]
  else Some [].

(** extension.ts:27-28 *)
Definition OFFSET : nat := 71.
Definition COLUMN : nat := 15.

(** What a command makes of the text; [None]: it fails *)
Definition result (d : doc) (es : option (list edit)) : option (list N) :=
  match es with Some es => apply d es | None => None end.
