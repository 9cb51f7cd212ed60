(** Model of the protocol channel: language_server/src/base_protocol_channel.cpp. *)
From Coq Require Import List NArith Bool.
From Verif Require Import Common.
Import ListNotations.
Open Scope N_scope.

(** base_protocol_channel.cpp:32 [content_length_string] = "Content-Length: ". *)
Definition content_length_string : bytes :=
  [67;111;110;116;101;110;116;45;76;101;110;103;116;104;58;32].
(** base_protocol_channel.cpp:33 [message_size_limit] = 1 << 30. *)
Definition message_size_limit : N := 1073741824.
(** base_protocol_channel.cpp:34 [lsp_header_end] = "\r\n\r\n". *)
Definition lsp_header_end : bytes := [13;10;13;10].

(** base_protocol_channel.cpp:36-51 [write_message], on a good output stream: the bytes
    appended to the output.  The write mutex makes the four writes one atomic append;
    the case of a failed output stream writes nothing and is not modelled. *)
Definition write_message (msg : bytes) : bytes :=
  content_length_string ++ dec (N.of_nat (length msg)) ++ lsp_header_end ++ msg.

(** The part of [std::istream] the reader uses: unread bytes, eofbit and failbit.  End of
    [rest] is the end of the connection (a blocking stream waits for bytes otherwise). *)
Record stream := mkS { rest : bytes; eof : bool; fail : bool }.

Fixpoint skip_nl (s : bytes) : bytes :=
  match s with c :: s' => if c =? 10 then skip_nl s' else s | [] => [] end.
Fixpoint take_line (s : bytes) : bytes * bytes :=
  match s with
  | c :: s' => if c =? 10 then ([], s) else let (a, b) := take_line s' in (c :: a, b)
  | [] => ([], [])
  end.

(** [input >> line] on a stream imbued with stream_helper.h:26-39 [newline_is_space]: skip
    '\n', then extract up to, not including, the next '\n'.  [old] is the previous content
    of [line], which survives if the sentry fails. *)
Definition extract_line (old : bytes) (s : stream) : bytes * stream :=
  if eof s || fail s then (old, mkS (rest s) (eof s) true)
  else match skip_nl (rest s) with
       | [] => (old, mkS [] true true)
       | r => let (l, r') := take_line r in
              (l, mkS r' (match r' with [] => true | _ => false end) false)
       end.

(** [input.ignore()]: drop one character. *)
Definition ignore1 (s : stream) : stream :=
  if eof s || fail s then mkS (rest s) (eof s) true
  else match rest s with
       | [] => mkS [] true false
       | _ :: r => mkS r false false
       end.

(** [input.read(buf, n)] in the loop base_protocol_channel.cpp:125-137: either all [n] bytes
    are there, or the stream hits its end, the next [read] returns 0 bytes and the function
    gives up.  [None] in the first component is "Input was aborted". *)
Definition read_body (n : N) (s : stream) : option bytes * stream :=
  if eof s || fail s then (None, mkS (rest s) (eof s) true)
  else if n <=? N.of_nat (length (rest s))
       then (Some (firstn (N.to_nat n) (rest s)),
             mkS (skipn (N.to_nat n) (rest s)) false false)
       else (None, mkS [] true true).

(** Result of the header loop. *)
Inductive hdr := HdrAbort | HdrLen (n : N) | HdrFuel.

(** base_protocol_channel.cpp:61-108, the header loop.  [fuel] bounds the iterations;
    exhausting it is the distinct result [HdrFuel], which never occurs with the fuel given
    by [read_message]. [2^64] is the range of [std::size_t]. *)
Fixpoint read_headers (fuel : nat) (content_length : N) (line : bytes) (s : stream)
  : hdr * stream :=
  match fuel with
  | O => (HdrFuel, s)
  | S f =>
    if eof s || fail s then (HdrAbort, s)
    else
      let (line', s1) := extract_line line s in
      if starts_with content_length_string line' then
        let v := fst (from_chars_dec (2^64) (skipn (length content_length_string) line')) in
        read_headers f (match v with Some n => n | None => content_length end) line' s1
      else if bytes_eqb line' [13] then (HdrLen content_length, ignore1 s1)
      else read_headers f content_length line' s1
  end.

(** base_protocol_channel.cpp:57-140 [read_message]: [Some (Some body)] is [true] with the
    body in [out]; [Some None] is [false]; [None] is fuel exhaustion. *)
Definition read_message (s : stream) : option (option bytes) * stream :=
  match read_headers (length (rest s) + 2) 0 [] s with
  | (HdrFuel, s1) => (None, s1)
  | (HdrAbort, s1) => (Some None, s1)
  | (HdrLen n, s1) =>
      if message_size_limit <? n then (Some None, s1)
      else if n =? 0 then (Some None, s1)
      else let (b, s2) := read_body n s1 in (Some b, s2)
  end.

Section Json.
  (** [nlohmann::json::parse]; [None] is a thrown exception. *)
  Variable J : Type.
  Variable parse : bytes -> option J.

  Inductive read_result := RJson (j : J) | REnd | RFuel.

  (** base_protocol_channel.cpp:142-173 [read]. *)
  Fixpoint read_json (fuel : nat) (s : stream) : read_result * stream :=
    match fuel with
    | O => (RFuel, s)
    | S f =>
      if fail s || eof s then (REnd, s)
      else match read_message s with
           | (None, s1) => (RFuel, s1)
           | (Some None, s1) => read_json f s1
           | (Some (Some b), s1) =>
               match parse b with Some j => (RJson j, s1) | None => read_json f s1 end
           end
    end.

  (** The read loop of dispatcher.cpp:25-60 [run_server_loop], reduced to what is read:
      read messages until the channel reports the end. *)
  Fixpoint read_all (fuel : nat) (s : stream) : option (list J) :=
    match fuel with
    | O => None
    | S f => match read_json (length (rest s) + 2) s with
             | (RFuel, _) => None
             | (REnd, _) => Some []
             | (RJson j, s1) => option_map (cons j) (read_all f s1)
             end
    end.
End Json.
Arguments RJson {J}. Arguments REnd {J}. Arguments RFuel {J}.

Definition fresh (b : bytes) : stream := mkS b false false.
