(** What the Language Server Protocol says a message on the wire looks like. *)
From Coq Require Import List NArith.
From Verif Require Import Common.
Import ListNotations.
Open Scope N_scope.

(** A header line other than Content-Length: non-empty, no line feed inside, not the
    lone carriage return that ends the header part. *)
Definition other_header (h : bytes) : Prop :=
  h <> [] /\ ~ In 10 h /\ h <> [13] /\ ~ (exists r, h = s2b "Content-Length: " ++ r).

Definition header_lines (hs : list bytes) : bytes := concat (map (fun h => h ++ [10]) hs).

(** One message on the wire: headers, Content-Length in decimal, headers, an empty line,
    the body. *)
Definition wire (pre post : list bytes) (body : bytes) : bytes :=
  header_lines pre ++ s2b "Content-Length: " ++ dec (N.of_nat (length body)) ++ [13; 10]
  ++ header_lines post ++ [13; 10] ++ body.

(** A frame: extra headers before and after Content-Length, and the body. *)
Record frame := mkFrame { pre : list bytes; post : list bytes; body : bytes }.

Definition good_frame (f : frame) : Prop :=
  Forall other_header (pre f) /\ Forall other_header (post f) /\
  1 <= N.of_nat (length (body f)) <= 2 ^ 30.

Definition wire_of (f : frame) : bytes := wire (pre f) (post f) (body f).
Definition wire_all (fs : list frame) : bytes := concat (map wire_of fs).

(** What a JSON consumer should see: the parseable bodies, in order. *)
Fixpoint parsed {J} (parse : bytes -> option J) (bs : list bytes) : list J :=
  match bs with
  | [] => []
  | b :: bs' => match parse b with Some j => j :: parsed parse bs' | None => parsed parse bs' end
  end.
