(** What a reader of tokens is to see: a list of tokens, the first of which is
    the next one, of which those are passed over that are not wanted. *)

From Coq Require Import List Arith Bool.
Import ListNotations.
From Verif Require Import Tks_Model.
Open Scope nat_scope.

(** Which tokens are wanted: those of the default channel and the end of the
    file always, the others when asked for. *)
Definition wanted (cont hid : bool) (t : token) : bool :=
  match ttyp t, hidden t with
  | EOF, _ => true
  | _, false => true
  | CONTINUATION, true => cont || hid
  | _, true => hid
  end.

(** The tokens that a lexer delivers until the end of the file. *)
Fixpoint file (src : list token) : list token :=
  match src with
  | [] => [end_token]
  | t :: r => if is_eof t then [t] else t :: file r
  end.

(** What is passed over, and the next wanted token. *)
Fixpoint skip (w : token -> bool) (l : list token) : list token :=
  match l with
  | [] => []
  | t :: r => if w t then t :: r else skip w r
  end.
Definition next (w : token -> bool) (l : list token) : option token := hd_error (skip w l).

(** A reader: the tokens to come and what is wanted. *)
Record reader := Reader { rest : list token; r_cont : bool; r_hid : bool }.

Inductive action := Look | Take | Continuations (b : bool) | Hidden (b : bool).

(** Looking shows the next wanted token.  Taking removes it together with what
    is not wanted around it.  What is wanted changes from then on. *)
Definition read (a : action) (r : reader) : option token * reader :=
  let w := wanted (r_cont r) (r_hid r) in
  match a with
  | Look => (next w (rest r), r)
  | Take => (None, Reader (skip w (tl (skip w (rest r)))) (r_cont r) (r_hid r))
  | Continuations b => (None, Reader (rest r) b (r_hid r))
  | Hidden b => (None, Reader (rest r) (r_cont r) b)
  end.

(** What is seen during a list of actions; taking the end of the file is an
    error, nothing is seen from then on. *)
Fixpoint seen (l : list action) (r : reader) : list (option token) * option reader :=
  match l with
  | [] => ([], Some r)
  | a :: l =>
      match a, next (wanted (r_cont r) (r_hid r)) (rest r) with
      | Take, Some t =>
          if is_eof t then ([], None)
          else let (o, r') := seen l (snd (read a r)) in (fst (read a r) :: o, r')
      | _, _ => let (o, r') := seen l (snd (read a r)) in (fst (read a r) :: o, r')
      end
  end.
