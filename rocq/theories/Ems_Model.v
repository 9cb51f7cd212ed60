(** * Ems_Model: the channel of the server that runs as WebAssembly under Node

    language_server/src/emscripten_server_streams.cpp.  The main thread gets the input in chunks ([data] events of
    process.stdin), cuts messages out of it and pushes them to a [blocking_queue] (process_elements, [Queue_Model]);
    the thread of the server pops them in [read].

    The JavaScript is run to completion for one event before the next one is taken; the other thread goes on in the
    meantime, so one turn of the loop is one step here.  [Buffer.indexOf], [Buffer.slice] and [Number] are modelled by
    their documentation.  The literals with x0D and x0A are taken for carriage return and line feed.

    Simplifications: [Number] of a text that is not ASCII, or that starts like a number without being a decimal
    integer (1.5, 1e3, 0x10, Infinity), has no outcome ([Odd]); integers are exact (above 2^53 they are rounded, far
    above any buffer); JSON is a parameter; the destructor is not modelled. *)
From Coq Require Import String List NArith ZArith Bool Arith.
From Verif Require Import Common Lts.
From Verif Require Queue_Model.
Import ListNotations.
Open Scope list_scope.
Notation length := List.length.

(** ** JavaScript *)
(** [indexOf] *)
Fixpoint index_of (p b : bytes) : option nat :=
  if starts_with p b then Some 0 else
  match b with
  | [] => None
  | _ :: r => option_map S (index_of p r)
  end.
Inductive num := Int (z : Z) | NaN | Odd.
Definition js_blank (c : N) : bool := (N.eqb c 32 || N.leb 9 c && N.leb c 13)%N.
Fixpoint ltrim (s : bytes) : bytes := match s with c :: r => if js_blank c then ltrim r else s | [] => [] end.
Definition trim (s : bytes) : bytes := rev (ltrim (rev (ltrim s))).
Definition unsigned (s : bytes) : num :=
  match s with
  | [] => NaN
  | c :: _ => if forallb is_digit s then Int (Z.of_N (dec_val s))
              else if is_digit c || N.eqb c 46 || N.eqb c 73 then Odd else NaN
  end.
Definition js_number (s : bytes) : num :=
  if existsb (fun c => N.leb 128 c) s then Odd else
  match trim s with
  | [] => Int 0
  | c :: r =>
    if N.eqb c 43 then unsigned r
    else if N.eqb c 45 then match unsigned r with Int z => Int (- z) | o => o end
    else unsigned (c :: r)
  end.
(** An offset of [slice] *)
Definition offset (z : Z) (len : nat) : nat :=
  if (z <? 0)%Z then Z.to_nat (Z.of_nat len + z) else Nat.min (Z.to_nat z) len.
Definition slice_from (b : bytes) (s : Z) : bytes := skipn (offset s (length b)) b.
Definition slice (b : bytes) (s e : Z) : bytes :=
  let s := offset s (length b) in let e := offset e (length b) in firstn (e - s) (skipn s b).
(** NaN as an offset is 0. *)
Definition as_offset (n : num) : Z := match n with Int z => z | _ => 0%Z end.

(** ** The loop of data_event_handler, lines 104-126 *)
Definition content_length : bytes := s2b "Content-Length: ".
Definition crlf : bytes := [13; 10]%N.
Inductive turn := Wait | Pass (m rest : bytes) | No_outcome.
Definition iteration (b : bytes) : turn :=
  match index_of content_length b with
  | Some 0 =>
    match index_of crlf b with
    | None => Wait
    | Some end_of_line =>
      let len := js_number (slice b (Z.of_nat (length content_length)) (Z.of_nat end_of_line)) in
      match index_of (crlf ++ crlf) b with
      | None => Wait
      | Some end_of_headers =>
        let data_start := (Z.of_nat end_of_headers + 4)%Z in
        let data_end := match len with Int n => Int (data_start + n) | o => o end in
        match data_end with
        | Odd => No_outcome
        | _ =>
          (* NaN is not greater than anything *)
          if match data_end with Int e => (e >? Z.of_nat (length b))%Z | _ => false end then Wait
          else Pass (slice b data_start (as_offset data_end)) (slice_from b (as_offset data_end))
        end
      end
    end
  | _ => Wait
  end.

(** ** The two threads *)
Record sys := Sys { buffer : bytes; busy : bool; queue : Queue_Model.st bytes }.
Inductive ev :=
| Arrive (chunk : bytes)                (* 101-103: a data event *)
| Iterate                               (* one turn of the loop *)
| End_of_input                          (* 100: an end event, after all data *)
| Wake (c : option nat) | Spurious (c : nat) | Pop (c : nat).   (* the queue's own steps *)
Definition qstep := Queue_Model.step bytes Queue_Model.process_elements.
Definition with_queue (s : sys) (r : option (Queue_Model.st bytes)) : option sys :=
  option_map (Sys (buffer s) (busy s)) r.
Definition step (s : sys) (e : ev) : option sys :=
  match e with
  | Arrive c => if busy s || Queue_Model.terminated (queue s) then None else Some (Sys (buffer s ++ c) true (queue s))
  | Iterate =>
    if busy s then
      match iteration (buffer s) with
      | Wait => Some (Sys (buffer s) false (queue s))
      | Pass m r => option_map (Sys r true) (qstep (queue s) (Queue_Model.EPush m))
      | No_outcome => None
      end
    else None
  | End_of_input => if busy s then None else with_queue s (qstep (queue s) Queue_Model.ETerminate)
  | Wake c => with_queue s (qstep (queue s) (Queue_Model.ENotify c))
  | Spurious c => with_queue s (qstep (queue s) (Queue_Model.ESpurious c))
  | Pop c => with_queue s (qstep (queue s) (Queue_Model.EPop c))
  end.
Definition start : sys := Sys [] false (Queue_Model.init bytes 1).

(** ** read, lines 71-89: from what [pop] gives, [None] being the end *)
Section Json.
Variable J : Type.
Variable parse : bytes -> option J.
Inductive got := Message (j : J) (later : list (option bytes)) | Finished | Blocked.
Fixpoint read (pops : list (option bytes)) : got :=
  match pops with
  | [] => Blocked
  | None :: _ => Finished
  | Some m :: r => match parse m with Some j => Message j r | None => read r end
  end.
(** The loop of dispatcher.cpp:25-60: what is read, and whether the end was seen. *)
Fixpoint read_all (fuel : nat) (pops : list (option bytes)) : list J * bool :=
  match fuel with
  | O => ([], false)
  | S f =>
    match read pops with
    | Message j r => let (l, e) := read_all f r in (j :: l, e)
    | Finished => ([], true)
    | Blocked => ([], false)
    end
  end.
End Json.
(** What the server has popped so far, with the end if it has seen it. *)
Definition pops (s : sys) : list (option bytes) :=
  map Some (Queue_Model.popped (queue s)) ++ repeat None (Queue_Model.nulls (queue s)).

(** ** write, lines 60-69 *)
Definition write (msg : bytes) : bytes :=
  content_length ++ dec (N.of_nat (length msg)) ++ crlf ++ crlf ++ msg.
