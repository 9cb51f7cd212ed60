(** Where a character of a text is, and what the tokens of a text are to look like. *)
From Coq Require Import List NArith Bool Arith.
From Verif Require Import Common Lex_Model.
Import ListNotations.

(** The part of the last line of [l]. *)
Definition tail_line (l : list char) : list char :=
  fold_left (fun acc x => if (x =? LF)%N then [] else acc ++ [x]) l [].
Definition line_of (text : list char) (k : nat) : nat := length (filter (fun x => (x =? LF)%N) (firstn k text)).
Definition column_of (text : list char) (k : nat) : nat := length (tail_line (firstn k text)).
(** UTF-16 code units of a character. *)
Definition units (x : char) : nat := if (x <? 65536)%N then 1 else 2.
Definition column16_of (text : list char) (k : nat) : nat := list_sum (map units (tail_line (firstn k text))).
(** Beyond the basic multilingual plane. *)
Definition astral (o : option char) : Prop := exists x, o = Some x /\ (65536 <= x)%N.

(** [ts] follow one another from [a] to [b] and leave nothing out.  The end of a logical line is
    given a second time, as ignored text, when something was cut off it. *)
Inductive chain : nat -> list token -> nat -> Prop :=
| chain_nil : forall a, chain a [] a
| chain_cons : forall t ts b, start t <= stop t -> chain (stop t) ts b -> chain (start t) (t :: ts) b
| chain_line : forall t u ts b, start t <= stop t -> ty t = EOLLN -> ty u = IGNORED -> start u = start t -> stop u = stop t ->
    chain (stop t) ts b -> chain (start t) (t :: u :: ts) b.

(** A lexer that gives its tokens one after another. *)
Section Run.
Variable wide_space : char -> bool.
Variable unlimited : bool.
Inductive emits : lexer -> list token -> lexer -> Prop :=
| emits_nil : forall s, emits s [] s
| emits_snoc : forall s ts s' n t s'', emits s ts s' -> next_token wide_space unlimited n s' = Some (t, s'') ->
    emits s (ts ++ [t]) s''.
End Run.

(** ** Which characters of a source are statements *)
Fixpoint lines (t : list char) : list (list char) :=
  match t with
  | [] => [[]]
  | x :: t => if (x =? LF)%N then [] :: lines t
              else match lines t with l :: ls => (x :: l) :: ls | [] => [[x]] end
  end.
Definition letter (text : list char) (l j : nat) : option char := nth_error (nth l (lines text) []) j.

Section Kind.
Variable wide_space : char -> bool.
Definition white (x : char) : bool := if (x <? 256)%N then existsb (N.eqb x) [9; 10; 11; 12; 13; 32]%N else wide_space x.
Variable text : list char.
Inductive kind := Statement | Comment | Process.
Definition reads (l : nat) (j : nat) (xs : list char) : bool :=
  existsb (fun x => match letter text l j with Some y => (x =? y)%N | None => false end) xs.
(** "*PROCESS", in any case *)
Definition process_line (l : nat) : bool :=
  (l <=? 10) && reads l 0 [42%N] && reads l 1 [80; 112]%N && reads l 2 [82; 114]%N && reads l 3 [79; 111]%N
  && reads l 4 [67; 99]%N && reads l 5 [69; 101]%N && reads l 6 [83; 115]%N && reads l 7 [83; 115]%N.
Definition begins (l : nat) : kind :=
  if process_line l then Process
  else if reads l 0 [42%N] || (reads l 0 [46%N] && reads l 1 [42%N]) then Comment else Statement.
Definition flagged (l : nat) : bool := match letter text l 71 with Some x => negb (white x) | None => false end.
(** Whether a line continues the one before, and what it is. *)
Fixpoint sort (l : nat) : bool * kind :=
  match l with
  | O => (false, begins O)
  | S m => match sort m with
           | (_, Process) => (false, begins l)
           | (_, k) => if flagged m then (true, k) else (false, begins l)
           end
  end.
(** The character at [p] belongs to a statement: columns 1 to 71, or 16 to 71 of a continuation line. *)
Definition statement_text (p : nat) : Prop :=
  let l := line_of text p in let j := column_of text p in
  snd (sort l) = Statement /\ (if fst (sort l) then 15 else 0) <= j < 71 /\
  exists x, nth_error text p = Some x /\ x <> LF /\ x <> CR.
Definition process_text (p : nat) : Prop := snd (sort (line_of text p)) = Process /\ column_of text p < 72.
End Kind.
(** Tokens that the parser sees as text of a statement. *)
Definition seen (t : token) : bool := negb (hidden t) && match ty t with EOLLN | EOF => false | _ => true end.

(** ** AREAD and AINSERT *)
(** The lines of a source; a carriage return before the line feed is not part of them. *)
Fixpoint source_lines (t : list char) : list (list char) :=
  match t with
  | [] => []
  | x :: t => if (x =? LF)%N then [] :: source_lines t
              else match source_lines t with
                   | l :: ls => (if (x =? CR)%N then l else x :: l) :: ls
                   | [] => [[x]]
                   end
  end.
(** Every line is ended, and carriage returns are before line feeds only. *)
Fixpoint orderly (t : list char) : Prop :=
  match t with
  | [] => True
  | [x] => x = LF
  | x :: (y :: _) as t => (x = CR -> y = LF) /\ orderly t
  end.
Inductive op := Insert (front : bool) (r : list char) | Read.
Definition record_ok (r : list char) : Prop := r <> [] /\ ~ In LF r /\ ~ In CR r.
Definition op_ok (o : op) : Prop := match o with Insert _ r => record_ok r | Read => True end.
(** What is to be read: inserted records, then lines of the source. *)
Record reader := { records : list (list char); source : list (list char) }.
Definition padded (r : list char) : list char := r ++ repeat BLANK (80 - length r).
Definition visible_line (l : list char) : list char := match l with [] => [BLANK] | _ => l end.
Definition do_op (o : op) (a : reader) : option (list char) * reader :=
  match o with
  | Insert true r => (None, {| records := padded r :: records a; source := source a |})
  | Insert false r => (None, {| records := records a ++ [padded r]; source := source a |})
  | Read =>
      match records a, source a with
      | r :: rs, _ => (Some r, {| records := rs; source := source a |})
      | [], l :: ls => (Some (visible_line l), {| records := []; source := ls |})
      | [], [] => (Some [], a)
      end
  end.
Fixpoint do_ops (os : list op) (a : reader) : list (list char) * reader :=
  match os with
  | [] => ([], a)
  | o :: os => let '(x, a) := do_op o a in let '(xs, a) := do_ops os a in
               (match x with Some x => x :: xs | None => xs end, a)
  end.
(** The lexer doing the same. *)
Fixpoint lex_ops (os : list op) (s : lexer) : option (list (list char) * lexer) :=
  match os with
  | [] => Some ([], s)
  | Insert f r :: os => match ainsert f r s with Some s => lex_ops os s | None => None end
  | Read :: os => let '(x, s) := aread s in
                  match lex_ops os s with Some (xs, s) => Some (x :: xs, s) | None => None end
  end.
(** The same mixed with lexing. *)
Section Runs.
Variable wide_space : char -> bool.
Variable unlimited : bool.
Inductive runs (text : list char) : lexer -> Prop :=
| runs_initial : runs text (initial text)
| runs_token : forall s n t s', runs text s -> next_token wide_space unlimited n s = Some (t, s') -> runs text s'
| runs_insert : forall s f r s', runs text s -> ainsert f r s = Some s' -> runs text s'
| runs_read : forall s, runs text s -> runs text (snd (aread s)).
End Runs.
(** Up to the end of the line. *)
Fixpoint until_end (t : list char) : list char :=
  match t with [] => [] | x :: t => if (x =? CR)%N || (x =? LF)%N then [] else x :: until_end t end.
