(** * Prx_Model: the debug adapter of the client and its proxy for Theia

      clients/vscode-hlasmplugin/src/hlasmDebugAdapterFactory.ts:20-115

    A front end connects to a local socket, writes framed messages in chunks of any size, and
    closes the connection; the proxy passes the messages to the language server under the name
    of a session of its own.

    Simplifications.
    - [JSON.parse] after decoding, and [JSON.stringify] followed by encoding, are functions on
      bytes ([parse], [print]); the empty text does not parse.  The conversion of a text to a
      number is exact for figures, 0 for the empty text and any function to whole numbers
      ([other]; None is NaN) for the rest: fractions are left out, and so are lengths over 2^53.
    - The language client is ready and sends what it is given, a missing parameter as none.
    - A disposed adapter passes nothing on.
    - An exception in the handler of incoming data leaves the buffer as it is; whether the host
      survives it is not modelled. *)
From Coq Require Import String List NArith ZArith Bool.
From Verif Require Import Common Json.
Import ListNotations.
Open Scope list_scope.

Definition CRLF : bytes := [13; 10]%N.
(** 46 *)
Definition content_length : bytes := s2b "Content-Length: ".

(** [Buffer.indexOf] *)
Fixpoint index_of (p s : bytes) : option nat :=
  if starts_with p s then Some 0
  else match s with [] => None | _ :: t => option_map S (index_of p t) end.
(** [Buffer.slice]: indices below zero count from the end *)
Definition clamp (n i : Z) : Z := if (i <? 0)%Z then Z.max (n + i) 0 else Z.min i n.
Definition slice (s : bytes) (from to : Z) : bytes :=
  let n := Z.of_nat (List.length s) in
  let a := clamp n from in
  firstn (Z.to_nat (clamp n to - a)) (skipn (Z.to_nat a) s).

Section Proxy.
Variable other : bytes -> option Z.
Variable parse : bytes -> option json.
Variable print : json -> bytes.

(** [+text] *)
Definition number (s : bytes) : option Z :=
  if forallb is_digit s then Some (Z.of_N (dec_val s)) else other s.

(** 64-80, one turn of the loop *)
Inductive turn := Wait | Throws | Message (m : json) (rest : bytes).
Definition next (b : bytes) : turn :=
  match index_of content_length b with
  | Some O =>
    match index_of CRLF b with
    | None => Wait
    | Some end_of_line =>
      let length := number (slice b (Z.of_nat (List.length content_length)) (Z.of_nat end_of_line)) in
      match index_of (CRLF ++ CRLF) b with
      | None => Wait
      | Some end_of_headers =>
        let data_start := (Z.of_nat end_of_headers + 4)%Z in
        match length with
        | None => Throws
        | Some l =>
          let data_end := (data_start + l)%Z in
          if (data_end >? Z.of_nat (List.length b))%Z then Wait
          else match slice b data_start data_end with
               | [] => Throws
               | t => match parse t with
                      | None => Throws
                      | Some m => Message m (slice b data_end (Z.of_nat (List.length b)))
                      end
               end
        end
      end
    end
  | _ => Wait
  end.
(** The loop; every message shortens the buffer. *)
Fixpoint loop (fuel : nat) (b : bytes) : list json * bytes :=
  match fuel with
  | O => ([], b)
  | S fuel => match next b with Message m r => let '(ms, r') := loop fuel r in (m :: ms, r') | _ => ([], b) end
  end.
Definition drain (b : bytes) : list json * bytes := loop (S (List.length b)) b.

(** 55-61 *)
Definition reply (m : json) : bytes :=
  let t := print m in content_length ++ dec (N.of_nat (List.length t)) ++ CRLF ++ CRLF ++ t.

(** 92-118 *)
Definition registration : bytes := s2b "hlasm/dap_tunnel".
Definition message_id (id : N) : bytes := registration ++ s2b "/" ++ dec id.
Definition notification (m : bytes) (p : option json) : json :=
  JObj ((s2b "jsonrpc", JStr (s2b "2.0")) :: (s2b "method", JStr m) ::
        match p with Some p => [(s2b "params", p)] | None => [] end).

(** A connection; [input]: all it received, [handled]: what was passed on. *)
Record conn := Conn { sid : N; input : bytes; buffer : bytes; handled : list json; is_open : bool; written : bytes }.
Record pst := Pst { conns : list conn; next_id : N; notes : list json }.
Definition pinit : pst := Pst [] 0 [].

Fixpoint change (k : nat) (f : conn -> conn) (l : list conn) : list conn :=
  match l with
  | [] => []
  | c :: r => match k with O => f c :: r | S k => c :: change k f r end
  end.

Inductive pev :=
| Connect
| Data (k : nat) (chunk : bytes)
| Close (k : nat)
| Incoming (m : bytes) (p : json).      (* a notification of the server *)

Definition deliver (m : bytes) (p : json) (c : conn) : conn :=
  if is_open c && bytes_eqb m (message_id (sid c)) then
    Conn (sid c) (input c) (buffer c) (handled c) (is_open c) (written c ++ reply p)
  else c.
Definition pstep (s : pst) (e : pev) : option pst :=
  match e with
  | Connect =>
    Some (Pst (conns s ++ [Conn (next_id s) [] [] [] true []]) (next_id s + 1)
              (notes s ++ [notification registration (Some (JNum (Z.of_N (next_id s))))]))
  | Data k chunk =>
    match nth_error (conns s) k with
    | Some c =>
      if is_open c then
        let '(ms, r) := drain (buffer c ++ chunk) in
        Some (Pst (change k (fun c => Conn (sid c) (input c ++ chunk) r (handled c ++ ms) true (written c)) (conns s))
                  (next_id s) (notes s ++ map (fun m => notification (message_id (sid c)) (Some m)) ms))
      else None
    | None => None
    end
  | Close k =>
    match nth_error (conns s) k with
    | Some c =>
      if is_open c then
        Some (Pst (change k (fun c => Conn (sid c) (input c) (buffer c) (handled c) false (written c)) (conns s))
                  (next_id s) (notes s ++ [notification (message_id (sid c)) None]))
      else None
    | None => None
    end
  | Incoming m p => Some (Pst (map (deliver m p) (conns s)) (next_id s) (notes s))
  end.
End Proxy.
