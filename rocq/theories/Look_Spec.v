(** What COPY and the lookaheads are expected to do, said without cursors, snapshots and positions. *)
From Coq Require Import List Arith ZArith Bool.
From Verif Require Import Look_Model.
Import ListNotations.

Section Spec.
Context {attr data : Type}.
Notation stmt := (stmt attr data).
Variable program : list stmt.
Variable lib : id -> option (list stmt).
Variable macro_of : data -> id -> option (list stmt).

(** COPY in place: a member stands where it is named; a member that is being read already, and one that is
    not in the library, is reported and nothing is read.  [open]: the members being read. *)
Inductive expands : list id -> list stmt -> list (event attr data) -> Prop :=
| x_nil : forall open, expands open [] []
| x_copy : forall open s l n b out1 out2,
    s_kind s = KCopy (CName n) -> lib n = Some b -> ~ In n open ->
    expands (n :: open) b out1 -> expands open l out2 ->
    expands open (s :: l) (Did s :: out1 ++ out2)
| x_recursive : forall open s l n b out,
    s_kind s = KCopy (CName n) -> lib n = Some b -> In n open -> expands open l out ->
    expands open (s :: l) (Did s :: E062 :: out)
| x_missing : forall open s l n out,
    s_kind s = KCopy (CName n) -> lib n = None -> expands open l out ->
    expands open (s :: l) (Did s :: E058 :: out)
| x_no_name : forall open s l out,
    s_kind s = KCopy CExpr -> expands open l out -> expands open (s :: l) (Did s :: E058 :: out)
| x_wrong : forall open s l out,
    s_kind s = KCopy COther \/ s_kind s = KCopy CBad -> expands open l out ->
    expands open (s :: l) (Did s :: Checked :: out)
| x_plain : forall open s l out f,
    s_kind s = KPlain f -> expands open l out -> expands open (s :: l) (Did s :: out).

(** Repeated sequence symbols are reported besides. *)
Definition visible (l : list (event attr data)) : list (event attr data) :=
  filter (fun e => match e with E045 _ => false | _ => true end) l.

(** All the statements there are. *)
Definition everywhere (P : stmt -> Prop) : Prop :=
  (forall s, In s program -> P s) /\
  (forall n b s, lib n = Some b -> In s b -> P s) /\
  (forall d n b s, macro_of d n = Some b -> In s b -> P s).
(** Of open code and members only: what a lookahead can read. *)
Definition text (P : stmt -> Prop) : Prop :=
  (forall s, In s program -> P s) /\ (forall n b s, lib n = Some b -> In s b -> P s).

(** Straight-line source: no branches, macros and references to attributes. *)
Definition straight (s : stmt) : Prop :=
  (match s_kind s with KCopy _ | KPlain _ => True | _ => False end) /\
  (forall d r, s_wants1 s d r = []) /\ (forall d r, s_wants2 s d r = []).

(** A finite library. *)
Definition finite (members : list id) : Prop := forall n, lib n <> None -> In n members.

(** The reading order of the text from a place.  A place: the members being read, innermost first, each with
    what is left of it; what is left of open code; the number of macro definitions it is inside of.
    A member is entered by a COPY that is not in a macro definition, unless it is being read already.  In
    open code a statement that begins with a sequence symbol shows nothing but its name. *)
Definition item := (nat * bool * stmt)%type.
Definition shows (open : bool) (s : stmt) : kind data :=
  match open, s_lab s with true, LSeq _ => KPlain (fun d => d) | _, _ => s_kind s end.
Definition nest_after (k : nat) (open : bool) (s : stmt) : nat :=
  match shows open s with KMacro => S k | KMend => pred k | _ => k end.
Definition entered (k : nat) (open : bool) (s : stmt) (fs : list (id * list stmt)) : list (id * list stmt) :=
  match k, shows open s with
  | 0, KCopy (CName n) =>
      match lib n with
      | Some b => if existsb (fun f => Nat.eqb (fst f) n) fs then fs else (n, b) :: fs
      | None => fs
      end
  | _, _ => fs
  end.
Inductive reads : nat -> list (id * list stmt) -> list stmt -> list item -> Prop :=
| r_end : forall k, reads k [] [] []
| r_pop : forall k n fs o out, reads k fs o out -> reads k ((n, []) :: fs) o out
| r_open : forall k s o out,
    reads (nest_after k true s) (entered k true s []) o out -> reads k [] (s :: o) ((k, true, s) :: out)
| r_member : forall k n s r fs o out,
    reads (nest_after k false s) (entered k false s ((n, r) :: fs)) o out ->
    reads k ((n, s :: r) :: fs) o ((k, false, s) :: out).

(** The first statement outside macro definitions that is named by the symbol. *)
Definition names (n : id) (i : item) : bool :=
  let '(k, _, s) := i in Nat.eqb k 0 && match s_lab s with LOrd m => Nat.eqb m n | _ => false end.
Fixpoint first (n : id) (out : list item) : option stmt :=
  match out with
  | [] => None
  | i :: out => if names n i then Some (snd i) else first n out
  end.

(** Some statement outside macro definitions has the sequence symbol. *)
Definition labels (t : id) (i : item) : bool :=
  let '(k, _, s) := i in Nat.eqb k 0 && match s_lab s with LSeq m => Nat.eqb m t | _ => false end.

(** A state as a place. *)
Fixpoint rest_of (l : list frame) : option (list (id * list stmt)) :=
  match l with
  | [] => Some []
  | f :: l =>
      match lib (f_name f), rest_of l with
      | Some b, Some r => if Z.leb (-1) (f_cur f) then Some ((f_name f, skipn (Z.to_nat (f_cur f + 1)) b) :: r) else None
      | _, _ => None
      end
  end.

(** What is read next, wherever it comes from. *)
Definition same_place (a b : state attr data) : Prop :=
  macros a = macros b /\ frames (src a) = frames (src b) /\
  pos (src a) = pos (src b) /\ line (src a) = line (src b) /\ eof (src a) = eof (src b).

(** The statements of a macro definition, from behind its MACRO statement: the first one is the prototype ([p]), the
    last one the MEND that belongs to it ([k]: the MACRO statements without one).  Members are read in place.
    What is left of the members and of open code follows. *)
Definition inner (p : bool) (k : nat) (s : stmt) : nat :=
  if p then k else match s_kind s with KMacro => S k | KMend => pred k | _ => k end.
Definition brought (p : bool) (s : stmt) (fs : list (id * list stmt)) : list (id * list stmt) :=
  if p then fs else
  match s_kind s with
  | KCopy (CName n) =>
      match lib n with
      | Some b => if existsb (fun f => Nat.eqb (fst f) n) fs then fs else (n, b) :: fs
      | None => fs
      end
  | _ => fs
  end.
Definition last_of (p : bool) (k : nat) (s : stmt) : Prop := p = false /\ k = 1 /\ s_kind s = KMend.
Inductive collects : bool -> nat -> list (id * list stmt) -> list stmt -> list stmt -> list (id * list stmt) -> list stmt -> Prop :=
| d_end : forall p k, collects p k [] [] [] [] []
| d_pop : forall p k n fs o out fs' o', collects p k fs o out fs' o' -> collects p k ((n, []) :: fs) o out fs' o'
| d_last_open : forall p k s o, last_of p k s -> collects p k [] (s :: o) [s] [] o
| d_last_member : forall p k n s r fs o, last_of p k s -> collects p k ((n, s :: r) :: fs) o [s] ((n, r) :: fs) o
| d_open : forall p k s o out fs' o', ~ last_of p k s ->
    collects false (inner p k s) (brought p s []) o out fs' o' -> collects p k [] (s :: o) (s :: out) fs' o'
| d_member : forall p k n s r fs o out fs' o', ~ last_of p k s ->
    collects false (inner p k s) (brought p s ((n, r) :: fs)) o out fs' o' ->
    collects p k ((n, s :: r) :: fs) o (s :: out) fs' o'.

(** The line on which the statement [i] of open code begins. *)
Fixpoint starts (l : list stmt) (i : nat) : nat :=
  match i, l with
  | S i, s :: l => s_lines s + 1 + starts l i
  | _, _ => 0
  end.

(** The symbols that were looked for. *)
Definition searches (l : list (event attr data)) : list (list id) :=
  fold_right (fun e acc => match e with Searched x => x :: acc | _ => acc end) [] l.
End Spec.
