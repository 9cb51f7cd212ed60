(** Messages about syntax errors: parser_library/src/parsing/
    parser_error_listener.cpp, error_strategy.h (reportError) and
    parser_error_listener_ctx.cpp.

    Scope.  The parser has found an error; ANTLR hands over the exception: for
    NoViableAltException the index of the token where the decision began, for
    InputMismatchException the offending token.  The tokens are those the lexer
    delivers up to and with EOF; [fetched] of them have been taken from it (see
    Tks_Model.v).  Tokens off the channel are in the list, as they are in
    TokenStream::get.  Whether the parser expected an apostrophe
    (getExpectedTokens) and the adjustment of positions (Rng_Model.v) are
    parameters.  Indices fit into int. *)

From Coq Require Import String List Arith ZArith Bool.
Import ListNotations.
Open Scope string_scope.
Open Scope list_scope.
Open Scope nat_scope.

(** grammar/lex.tokens. *)
Inductive tok :=
| IGNORED | CONTINUATION | COMMENT | EOLLN | SPACE | DOT | ASTERISK | MINUS | PLUS | LT | GT | COMMA | LPAR | RPAR
| APOSTROPHE | SLASH | AMPERSAND | EQUALS | ORDSYMBOL | IDENTIFIER | OR | AND | EQ | LE | LTx | GTx | GE | NE
| PROCESS | VERTICAL | AREAD | ATTR | NUM | EOF_.

(** parser_error_listener.cpp:28-32 *)
Definition is_comparative_sign (t : tok) : bool :=
  match t with LT | GT | EQUALS | EQ | OR | AND | LE | LTx | GTx | GE | NE => true | _ => false end.
(** 34-37 *)
Definition is_sign (t : tok) : bool :=
  match t with ASTERISK | MINUS | PLUS | SLASH => true | _ => is_comparative_sign t end.
(** 51-55 *)
Definition can_follow_sign (t : tok) : bool :=
  match t with IDENTIFIER | ORDSYMBOL | AMPERSAND | LPAR | CONTINUATION | COMMENT => true | _ => false end.
(** 57-61 *)
Definition can_be_before_sign (t : tok) : bool :=
  match t with IDENTIFIER | ORDSYMBOL | AMPERSAND | RPAR | CONTINUATION | COMMENT => true | _ => false end.

Definition is_eolln (t : tok) : bool := match t with EOLLN => true | _ => false end.
Definition is_space (t : tok) : bool := match t with SPACE => true | _ => false end.

(** TokenStream::get of the tokens fetched; None: IndexOutOfBoundsException. *)
Definition get (ts : list tok) (i : nat) : option tok := nth_error ts i.

(** 39-49: -1 is None; the index is one less than that of the EOLLN, as a Z. *)
Fixpoint get_end_index (fuel : nat) (ts : list tok) (start : nat) : Z :=
  match fuel with
  | O => (-1)%Z
  | S fuel =>
      match get ts start with
      | None => (-1)%Z
      | Some EOLLN => (Z.of_nat start - 1)%Z
      | Some _ => get_end_index fuel ts (S start)
      end
  end.

(** The flags of iterate_error_stream (63-108). *)
Record flags := Flags
  { right_prec : bool; only_par : bool; left_prec : bool; sign_followed : bool; sign_preceding : bool;
    unexpected_sign : bool; odd_apostrophes : bool; ampersand_followed : bool }.

(** One token (79-103): parentheses, apostrophes and flags. *)
Definition look (ts : list tok) (start : nat) (end_ : Z) (i : nat) (acc : Z * nat * flags)
    : option (Z * nat * flags) :=
  let '(par, apo, f) := acc in
  match get ts i with
  | None => None
  | Some LPAR => let par := (par - 1)%Z in
      Some (par, apo, if (0 <? par)%Z then Flags true (only_par f) (left_prec f) (sign_followed f) (sign_preceding f)
                        (unexpected_sign f) (odd_apostrophes f) (ampersand_followed f) else f)
  | Some RPAR => let par := (par + 1)%Z in
      Some (par, apo, if (0 <? par)%Z then Flags true (only_par f) (left_prec f) (sign_followed f) (sign_preceding f)
                        (unexpected_sign f) (odd_apostrophes f) (ampersand_followed f) else f)
  | Some t =>
      let amp := match t with AMPERSAND => true | _ => false end in
      (* 88: the next token is looked at only for signs and ampersands *)
      match (if is_sign t || amp
             then if (Z.of_nat i =? end_)%Z then Some true
                  else match get ts (i + 1) with None => None | Some n => Some (negb (can_follow_sign n)) end
             else Some false) with
      | None => None
      | Some bad_next =>
          match (if is_sign t && match t with PLUS | MINUS => false | _ => true end
                 then if i =? start then Some true
                      else match get ts (i - 1) with None => None | Some n => Some (negb (can_be_before_sign n)) end
                 else Some false) with
          | None => None
          | Some bad_before =>
              Some (par,
                    match t with APOSTROPHE => S apo | _ => apo end,
                    Flags (right_prec f || (0 <? par)%Z) false (left_prec f)
                      (if bad_next && is_sign t then false else sign_followed f)
                      (if bad_before then false else sign_preceding f)
                      (unexpected_sign f || is_comparative_sign t)
                      (odd_apostrophes f)
                      (if bad_next && amp then false else ampersand_followed f))
          end
      end
  end.

Fixpoint iterate (n : nat) (ts : list tok) (start : nat) (end_ : Z) (i : nat) (acc : Z * nat * flags)
    : option (Z * nat * flags) :=
  match n with
  | O => Some acc
  | S n => match look ts start end_ i acc with
           | None => None
           | Some acc => iterate n ts start end_ (S i) acc
           end
  end.

(** 157-164 *)
Definition no_flags : flags := Flags false true false true true false false true.

Definition iterate_error_stream (ts : list tok) (start : nat) (end_ : Z) : option flags :=
  match iterate (Z.to_nat (end_ + 1 - Z.of_nat start)) ts start end_ start (0%Z, 0, no_flags) with
  | None => None
  | Some (par, apo, f) =>
      Some (Flags (right_prec f) (only_par f) (left_prec f || (par <? 0)%Z) (sign_followed f) (sign_preceding f)
              (unexpected_sign f) (odd_apostrophes f || Nat.odd apo) (ampersand_followed f))
  end.

Inductive code := S0001 | S0002 | S0003 | S0004 | S0005 | S0006 | S0007 | S0008 | S0009 | S0010 | S0011 | S0012.

Definition message (c : code) : string :=
  match c with
  | S0001 => "C++ error"
  | S0002 => "Syntax error"
  | S0003 => "Unexpected end of statement"
  | S0004 => "Unfinished statement, the label cannot be alone on a line"
  | S0005 => "Expected an apostrophe"
  | S0006 => "Unexpected sign in an epxression"
  | S0007 => "A sign needs to be preceded by an expression"
  | S0008 => "Ampersand has to be followed by a name of a variable"
  | S0009 => "A sign has to be followed by an expression"
  | S0010 => "Only left and right paranthesis present"
  | S0011 => "Left parenthesis has no right match"
  | S0012 => "Right parenthesis has no left match"
  end.

(** 177-237 *)
Definition choose (f : flags) (apostrophe_expected column0 : bool) : code :=
  if right_prec f then S0012
  else if left_prec f then S0011
  else if only_par f then S0010
  else if negb (sign_followed f) then S0009
  else if negb (ampersand_followed f) then S0008
  else if negb (sign_preceding f) then S0007
  else if unexpected_sign f then S0006
  else if odd_apostrophes f && apostrophe_expected then S0005
  else if column0 then S0004
  else S0002.

(** 133-138: past the spaces. *)
Fixpoint skip_spaces (fuel : nat) (ts : list tok) (i : nat) : option nat :=
  match fuel with
  | O => None
  | S fuel =>
      match get ts i with
      | None => None
      | Some SPACE => skip_spaces fuel ts (S i)
      | Some _ => Some i
      end
  end.

(** 122-237; [ts] are the tokens fetched.  None: an exception escapes. *)
Definition no_viable_alternative (ts : list tok) (start : nat) (apostrophe_expected column0 : bool) : option code :=
  match skip_spaces (S (length ts)) ts start with
  | None => None
  | Some s =>
      let e := get_end_index (length ts) ts s in
      let e := if (e =? -1)%Z then (Z.of_nat (length ts) - 1)%Z else e in
      match iterate_error_stream ts s e with
      | None => None
      | Some f => Some (choose f apostrophe_expected column0)
      end
  end.

(** What has gone wrong. *)
Inductive error :=
| NoViableAlternative (start : nat) (apostrophe_expected column0 : bool)
| InputMismatch (offending : tok)
| OtherException
| NoException.           (* reported without an exception (reportUnwantedToken of ANTLR) *)

Record diag := Diag { d_code : code; d_text : string; d_pos : nat * nat }.

Inductive outcome := Reported (ds : list diag) | Escapes | Endless.

(** syntaxError (112-254), with the position handed over by ANTLR; a listener
    with a substituted text puts it before the message and moves the position
    (parser_error_listener_ctx.cpp:28-36). *)
Definition syntax_error (ts : list tok) (e : error) (pos : nat * nat)
    (substituted : option string) (adjust : nat * nat -> nat * nat) : outcome :=
  let add c :=
    Reported [Diag c (match substituted with
                      | Some s => "While substituting to '" ++ s ++ "' => " ++ message c
                      | None => message c
                      end)%string (adjust pos)] in
  match e with
  | NoException => Reported []
  | NoViableAlternative start a c0 =>
      match no_viable_alternative ts start a c0 with
      | None => Escapes
      | Some c => add c
      end
  | InputMismatch t => add (match t with EOLLN => S0003 | _ => S0002 end)
  | OtherException => add S0001
  end.

(** DefaultErrorStrategy::consumeUntil (ANTLR): the index of the first EOLLN or
    EOF at [i] or behind it; EOLLN and EOF are never off the channel. *)
Fixpoint consume_until (ts : list tok) (i : nat) : option nat :=
  match ts with
  | [] => None
  | t :: r =>
      match i with
      | S i => option_map S (consume_until r i)
      | O => match t with EOLLN | EOF_ => Some 0 | _ => option_map S (consume_until r 0) end
      end
  end.

(** error_strategy.h:32-63: nothing while recovering; else everything up to the
    end of the statement is taken first.  The result says whether the parser is
    recovering from now on and where it goes on. *)
Record state := State { all : list tok; fetched : nat; current : nat; recovering : bool }.

Definition report_error (s : state) (e : error) (pos : nat * nat) (substituted : option string)
    (adjust : nat * nat -> nat * nat) : outcome * state :=
  if recovering s then (Reported [], s)
  else match consume_until (all s) (current s) with
       | None => (Endless, s)
       | Some i =>
           let n := Nat.max (fetched s) (S i) in
           (syntax_error (firstn n (all s)) e pos substituted adjust, State (all s) n i true)
       end.

(** DefaultErrorStrategy::reportUnwantedToken (ANTLR, called at the end of a
    repetition): listeners are notified without an exception; the parser goes on
    behind the tokens that do not belong there, at [i]. *)
Definition report_unwanted (s : state) (i : nat) (pos : nat * nat) (substituted : option string)
    (adjust : nat * nat -> nat * nat) : outcome * state :=
  if recovering s then (Reported [], s)
  else (syntax_error (firstn (fetched s) (all s)) NoException pos substituted adjust,
        State (all s) (Nat.max (fetched s) (S i)) i true).
