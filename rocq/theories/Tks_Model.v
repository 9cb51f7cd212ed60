(** The stream of tokens between the lexer and the parser, which hides tokens
    and is rewound: parser_library/src/lexing/token_stream.cpp.

    Scope.  The class [token_stream] with the operations of its base class
    [antlr4::BufferedTokenStream] (ANTLR 4 runtime, not part of the
    repository; modelled here as the runtime defines it).  The lexer is
    outside: it is the list of the tokens that it is going to deliver. *)

From Coq Require Import List Arith Bool.
Import ListNotations.
Open Scope nat_scope.

(** Types of tokens (lexing/lexer.h:87-90, grammar/lex.tokens) as far as the
    stream asks for them; [Other] is any other type. *)
Inductive ttype := EOF | EOLLN | CONTINUATION | Other (n : nat).

(** lexing/token.h:24-82.  [hidden]: the channel is HIDDEN_CHANNEL and not
    DEFAULT_CHANNEL (lexer.h:92-96; there are only these two); [tag] stands
    for the text and the place of the token, which the stream never looks
    at. *)
Record token := Token { ttyp : ttype; hidden : bool; tag : nat }.

Definition is_eof (t : token) : bool := match ttyp t with EOF => true | _ => false end.
Definition is_eolln (t : token) : bool := match ttyp t with EOLLN => true | _ => false end.
Definition is_continuation (t : token) : bool := match ttyp t with CONTINUATION => true | _ => false end.

(** What the lexer delivers behind the tokens of its list (lexer.cpp:290-328;
    the end of the file is delivered behind an end of a statement, lines
    309-313, which is in the list). *)
Definition end_token : token := Token EOF false 0.

(** token_stream.h:30-77 with the members of the base class: [tokens] =
    _tokens, [p] = _p, [fetched_eof] = _fetchedEOF, [base_setup] =
    _needSetup, [need_setup] = needSetup_, [source] what the lexer is going to
    deliver. *)
Record stream := Stream
  { tokens : list token;
    source : list token;
    p : nat;
    fetched_eof : bool;
    base_setup : bool;
    need_setup : bool;
    enabled_cont : bool;
    enabled_hidden : bool }.

(** token_stream.cpp:20-25. *)
Definition initial (src : list token) : stream := Stream [] src 0 false true true false false.

Inductive outcome (A : Type) :=
| Ok (a : A) (s : stream)
| OutOfBounds          (* IndexOutOfBoundsException of [get] *)
| EofConsumed          (* IllegalStateException: "cannot consume EOF" *)
| Hang.                (* the fuel of a loop ran out *)
Arguments Ok {A} _ _.
Arguments OutOfBounds {A}.
Arguments EofConsumed {A}.
Arguments Hang {A}.

Definition bind {A B} (x : outcome A) (f : A -> stream -> outcome B) : outcome B :=
  match x with
  | Ok a s => f a s
  | OutOfBounds => OutOfBounds
  | EofConsumed => EofConsumed
  | Hang => Hang
  end.

Definition with_p (v : nat) (s : stream) : stream :=
  Stream (tokens s) (source s) v (fetched_eof s) (base_setup s) (need_setup s) (enabled_cont s) (enabled_hidden s).
Definition size (s : stream) : nat := length (tokens s).

(** token_stream.cpp:27-33. *)
Definition set_continuation (b : bool) (s : stream) : stream :=
  Stream (tokens s) (source s) (p s) (fetched_eof s) (base_setup s) (need_setup s) b (enabled_hidden s).
Definition set_hidden (b : bool) (s : stream) : stream :=
  Stream (tokens s) (source s) (p s) (fetched_eof s) (base_setup s) (need_setup s) (enabled_cont s) b.

(** token_stream.cpp:237-242. *)
Definition is_on_channel (s : stream) (t : token) : bool :=
  negb (hidden t)
  || (enabled_hidden s && hidden t)
  || (enabled_cont s && is_continuation t)
  || is_eof t.

(** BufferedTokenStream::fetch: up to n tokens are taken from the lexer; none
    once the end of the file has been taken. *)
Fixpoint fetch (n : nat) (s : stream) : nat * stream :=
  match n with
  | O => (0, s)
  | S n =>
      if fetched_eof s then (0, s)
      else
        let (t, rest) := match source s with [] => (end_token, []) | t :: r => (t, r) end in
        let s := Stream (tokens s ++ [t]) rest (p s) (is_eof t) (base_setup s) (need_setup s)
                        (enabled_cont s) (enabled_hidden s) in
        let (k, s) := fetch n s in (S k, s)
  end.

(** BufferedTokenStream::sync: whether the token with index i is there. *)
Definition sync (i : nat) (s : stream) : bool * stream :=
  if i + 1 <? size s then (true, s)
  else
    let n := i + 1 - size s in
    if 0 <? n then let (k, s) := fetch n s in (n <=? k, s) else (true, s).

(** BufferedTokenStream::get. *)
Definition get (i : nat) (s : stream) : outcome token :=
  match nth_error (tokens s) i with Some t => Ok t s | None => OutOfBounds end.

(** The loops of token_stream.cpp:136-141 and 191-197 ([to_consume] is 0
    throughout in the former).  The fuel is a bound on the tokens that there
    are; running out of it would be a loop without end. *)
Fixpoint walk (fuel i to_consume : nat) (s : stream) : outcome nat :=
  match fuel with
  | O => Hang
  | S fuel =>
      bind (get i s) (fun t s =>
        if negb (is_on_channel s t) || negb (to_consume =? 0) then
          let to_consume := to_consume - (if is_on_channel s t then 1 else 0) in
          let (_, s) := sync (S i) s in
          walk fuel (S i) to_consume s
        else Ok i s)
  end.

Definition enough (s : stream) : nat := size s + length (source s) + 3.

(** token_stream.cpp:179-200. *)
Definition next_token_on_channel (i : nat) (s : stream) : outcome nat :=
  let (_, s) := sync i s in
  if size s <=? i then Ok (size s - 1) s
  else walk (enough s) (p s) (i - p s) s.

(** token_stream.cpp:123-149. *)
Definition adjustSeekIndex (i : nat) (s : stream) : outcome nat :=
  if need_setup s then
    let (_, s) := sync i s in
    if size s <=? i then Ok (size s - 1) s
    else walk (enough s) i 0 s
  else if i =? p s + 1 then next_token_on_channel i s
  else Ok i s.

(** token_stream.cpp:151-155 with BufferedTokenStream::setup, and
    BufferedTokenStream::lazyInit. *)
Definition setup (s : stream) : outcome unit :=
  let s := Stream (tokens s) (source s) (p s) (fetched_eof s) false (need_setup s) (enabled_cont s) (enabled_hidden s) in
  let (_, s) := sync 0 s in
  bind (adjustSeekIndex 0 s) (fun v s =>
    Ok tt (Stream (tokens s) (source s) v (fetched_eof s) (base_setup s) false (enabled_cont s) (enabled_hidden s))).
Definition lazyInit (s : stream) : outcome unit := if base_setup s then setup s else Ok tt s.

(** token_stream.cpp:157-177; None is the null pointer.  The loop walks down
    from _p. *)
Fixpoint back (i k : nat) (s : stream) : outcome (option token) :=
  match k with
  | O => bind (get i s) (fun t s => Ok (Some t) s)
  | S _ =>
      match i with
      | O => Ok None s
      | S i => bind (get i s) (fun t s => back i (if is_on_channel s t then k - 1 else k) s)
      end
  end.
Definition LB (k : nat) (s : stream) : outcome (option token) :=
  if (k =? 0) || (p s <? k) || (size s =? 0) then Ok None s else back (p s) k s.

(** token_stream.cpp:80-98 for a positive k; [ahead n] is the loop. *)
Fixpoint ahead (n i : nat) (s : stream) : outcome nat :=
  match n with
  | O => Ok i s
  | S n =>
      let (more, s) := sync (i + 1) s in
      if more then bind (next_token_on_channel (i + 1) s) (fun i s => ahead n i s)
      else ahead n i s
  end.
Definition LT (k : nat) (s : stream) : outcome token :=
  bind (lazyInit s) (fun _ s =>
  bind (ahead (k - 1) (p s) s) (fun i s =>
  bind (next_token_on_channel i s) (fun i s => get i s))).

(** token_stream.cpp:80-87 for a negative k. *)
Definition LT_back (k : nat) (s : stream) : outcome (option token) :=
  bind (lazyInit s) (fun _ s => LB k s).

(** BufferedTokenStream::consume. *)
Definition consume (s : stream) : outcome unit :=
  let skip_check :=
    if base_setup s then false
    else if fetched_eof s then p s <? size s - 1
    else p s <? size s in
  let step s :=
    let (more, s) := sync (p s + 1) s in
    if more then bind (adjustSeekIndex (p s + 1) s) (fun v s => Ok tt (with_p v s))
    else Ok tt s in
  if skip_check then step s
  else bind (LT 1 s) (fun t s => if is_eof t then EofConsumed else step s).

(** BufferedTokenStream::index and seek. *)
Definition index (s : stream) : nat := p s.
Definition seek (i : nat) (s : stream) : outcome unit :=
  bind (lazyInit s) (fun _ s => bind (adjustSeekIndex i s) (fun v s => Ok tt (with_p v s))).

(** token_stream.cpp:58-64; [src] is what the lexer, which has been reset
    before (parser_impl.cpp:130-136), is going to deliver. *)
Definition reset (src : list token) (s : stream) : stream :=
  snd (sync 0 (Stream [] src 0 false (base_setup s) (need_setup s) (enabled_cont s) (enabled_hidden s))).

(** token_stream.cpp:35-56 when the lexer is not at the place already (lines
    39-40); [src] is what it is going to deliver from there.  [None]: [back]
    of an empty vector. *)
Definition rewind_input (src : list token) (s : stream) : option stream :=
  match rev (tokens s) with
  | [] => None
  | last :: before =>
      let drop :=
        negb (is_eolln last)
        || match before with [] => false | t :: _ => is_eolln t end in
      let s :=
        if drop then
          Stream (rev before) src (length before) (fetched_eof s) (base_setup s) (need_setup s)
                 (enabled_cont s) (enabled_hidden s)
        else
          Stream (tokens s) src (p s) (fetched_eof s) (base_setup s) (need_setup s)
                 (enabled_cont s) (enabled_hidden s) in
      let s := Stream (tokens s) (source s) (p s) false (base_setup s) (need_setup s) (enabled_cont s) (enabled_hidden s) in
      Some (snd (sync (p s) s))
  end.
