(** What a client makes of the array (LSP 3.16, "textDocument/semanticTokens": each token is
    five numbers - delta line, delta start character relative to the previous token's start when
    on the same line, length, type, modifiers), and which characters a symbol occupies. *)
From Coq Require Import List NArith.
From Verif Require Import Tok_Model.
Import ListNotations.
Local Open Scope N_scope.

Record abs_tok := Abs { a_line : N; a_start : N; a_len : N; a_type : N; a_mods : N }.

Fixpoint decode (pl pc : N) (d : list N) : option (list abs_tok) :=
  match d with
  | [] => Some []
  | dl :: dc :: len :: ty :: md :: rest =>
      let l := pl + dl in
      let c := if dl =? 0 then pc + dc else dc in
      match decode l c rest with
      | Some ts => Some (Abs l c len ty md :: ts)
      | None => None
      end
  | _ => None
  end.
Definition client_tokens (d : list N) : option (list abs_tok) := decode 0 0 d.

(** Lexicographic order of (line, column) positions. *)
Definition before (l c l' c' : N) : Prop := l < l' \/ (l = l' /\ c < c').

(** The character cells of a symbol from (l1,c1) up to (l2,c2), exclusive: continued text runs
    from column 15 up to column 71 (counted from 0) of every line but the first and last. *)
Definition cell_of (l1 c1 l2 c2 : N) (l c : N) : Prop :=
  l1 <= l <= l2 /\
  (if l =? l1 then c1 else 15) <= c /\ c < (if l =? l2 then c2 else 71).

(** A token sent to the client covers a cell. *)
Definition covers (t : abs_tok) (l c : N) : Prop :=
  a_line t = l /\ a_start t <= c /\ c < a_start t + a_len t.

(** In a list ordered by start position: the tokens whose start differs from that of the token
    sent before them. *)
Fixpoint first_per_start (prev : option (N * N)) (ts : list abs_tok) : list abs_tok :=
  match ts with
  | [] => []
  | t :: rest =>
      let p := (a_line t, a_start t) in
      match prev with
      | Some (l, c) => if (l =? a_line t) && (c =? a_start t)
                       then first_per_start prev rest
                       else t :: first_per_start (Some p) rest
      | None => t :: first_per_start (Some p) rest
      end
  end%bool.

(** The highlighted ranges handed over by the parser, as the record [token] of the model
    (only its fields are used). *)
Definition in_range (t : token) : Prop := sl t < 2 ^ 64 /\ sc t < 2 ^ 64.

(** A symbol lies on one line, or is continued: it then starts before column 71 and ends at or
    after column 15. *)
Definition wf_symbol (s : token) : Prop :=
  in_range s /\ el s < 2 ^ 64 /\ sl s <= el s /\
  (sl s = el s -> sc s <= ec s) /\ (sl s < el s -> sc s < 71 /\ 15 <= ec s).

Definition sym_cell (s : token) : N -> N -> Prop := cell_of (sl s) (sc s) (el s) (ec s).

(** No character belongs to both symbols. *)
Definition disjoint (s s' : token) : Prop := forall l c, ~ (sym_cell s l c /\ sym_cell s' l c).

(** Order of start positions, as [std::sort] establishes it. *)
Definition le_start (a b : token) : Prop := ~ before (sl b) (sc b) (sl a) (sc a).

(** What the client should see of one single-line range. *)
Definition shown (t : token) : abs_tok := Abs (sl t) (sc t) (ec t - sc t) (scope t) 0.
Definition abs_before (a b : abs_tok) : Prop := before (a_line a) (a_start a) (a_line b) (a_start b).
