(** What is expected of the places of statements: the activations in the order in which they were entered, the
    innermost first.  Statements are read from the innermost activation only.  Nothing of the functions of
    Stk_Model.v is used; its types of members, places and operations are. *)
From Coq Require Import String.
From Coq Require Import List NArith ZArith Bool.
From Verif Require Import Common Stk_Model.
Import ListNotations.
Open Scope nat_scope.

(** A text with the place of its last statement; a member, a macro with the number of statements read so far *)
Inductive act :=
| AText (file : bytes) (p : pos)
| AMember (m : member) (done : nat)
| AMacro (nests : list (list loc)) (done : nat).

Definition is_macro (a : act) : bool := match a with AMacro _ _ => true | _ => false end.
Definition is_text (a : act) : bool := match a with AText _ _ => true | _ => false end.
Definition texts (l : list act) : nat := List.length (filter is_text l).
(** The places of an activation's current statement, outermost first: a statement of a macro may have got into the
    macro by COPY. *)
Definition frames (a : act) : list frame :=
  match a with
  | AText f p => [Frame (Loc p f) OPENCODE]
  | AMember m (S k) => match nth_error (m_stmts m) k with Some p => [Frame (Loc p (m_file m)) COPY] | None => [] end
  | AMacro nests (S k) =>
      match nth_error nests k with
      | Some (l :: r) => Frame l MACRO :: map (fun l => Frame l COPY) r
      | _ => []
      end
  | _ => []
  end.
(** all of them, innermost first *)
Fixpoint chain (l : list act) : list frame :=
  match l with
  | [] => []
  | a :: r => rev (frames a) ++ chain r
  end.

Record sp := Sp { acts : list act; saved : option (lookahead * list act); smarks : list (list act) }.
Definition sstart (file : bytes) : sp := Sp [AText file (0%N, 0%N)] None [].

(** The innermost activation is at a statement. *)
Definition at_stmt (l : list act) : Prop :=
  match l with
  | AText _ _ :: _ => True
  | AMember _ k :: _ | AMacro _ k :: _ => 0 < k
  | [] => False
  end.
Definition in_macro (l : list act) : Prop := match l with AMacro _ _ :: _ => True | _ => False end.

(** The statement is to be read again. *)
Definition again (l : list act) : list act :=
  match l with
  | AMember m k :: r => AMember m (k - 1) :: r
  | AMacro n k :: r => AMacro n (k - 1) :: r
  | l => l
  end.
Fixpoint without_macros (l : list act) : list act :=
  match l with
  | AMacro _ _ :: r => without_macros r
  | l => l
  end.
Fixpoint without_text (l : list act) : list act :=
  match l with
  | [] => []
  | AText _ _ :: r => r
  | _ :: r => without_text r
  end.

(** Which operations statements can cause.  COPY is not taken from a macro (see the finding), a macro is not called in
    a library file that is being read, and jumps and labels of open code are met in open code only. *)
Definition legal (o : op) (x : sp) : Prop :=
  match o with
  | Next _ => True
  | EnterCopy _ => at_stmt (acts x) /\ ~ in_macro (acts x)
  | EnterMacro nests => at_stmt (acts x) /\ texts (acts x) = 1 /\ saved x = None /\ Forall (fun n => n <> []) nests
  | PushSource _ => at_stmt (acts x)
  | PopSource => 1 < texts (acts x)
  | BranchMacro k => exists n d r, acts x = AMacro n d :: r /\ 0 < d /\ k < List.length n
  | Mark => at_stmt (acts x) /\ ~ in_macro (acts x) /\ texts (acts x) = 1
  | Jump n => at_stmt (acts x) /\ ~ in_macro (acts x) /\ texts (acts x) = 1 /\ saved x = None /\ n < List.length (smarks x)
  | LookStart a => at_stmt (acts x) /\ texts (acts x) = 1 /\ saved x = None /\ (a = SEQ -> ~ in_macro (acts x))
  | LookEnd => texts (acts x) = 1 /\ saved x <> None
  end.

Definition spec_step (o : op) (x : sp) : option (sp * option loc) :=
  let set l := Sp l (saved x) (smarks x) in
  match o with
  | Next p =>
      match acts x with
      | [] => None
      | AText f _ :: r => Some (set (AText f p :: r), Some (Loc p f))
      | AMember m k :: r =>
          match nth_error (m_stmts m) k with
          | Some q => Some (set (AMember m (S k) :: r), Some (Loc q (m_file m)))
          | None => Some (set r, None)
          end
      | AMacro n k :: r =>
          match nth_error n k with
          | Some nest => Some (set (AMacro n (S k) :: r), Some (last nest (Loc (0%N, 0%N) [])))
          | None => Some (set r, None)
          end
      end
  | EnterCopy m => Some (set (AMember m 0 :: acts x), None)
  | EnterMacro n => Some (set (AMacro n 0 :: acts x), None)
  | PushSource f => Some (set (AText f (0%N, 0%N) :: acts x), None)
  | PopSource => Some (set (without_text (acts x)), None)
  | BranchMacro k => match acts x with AMacro n _ :: r => Some (set (AMacro n k :: r), None) | _ => None end
  | Mark => Some (Sp (acts x) (saved x) (again (acts x) :: smarks x), None)
  | Jump n => match nth_error (smarks x) n with Some l => Some (set l, None) | None => None end
  | LookStart ORD => Some (Sp (without_macros (acts x)) (Some (ORD, again (acts x))) (smarks x), None)
  | LookStart SEQ => Some (Sp (acts x) (Some (SEQ, acts x)) (smarks x), None)
  | LookEnd => match saved x with Some (_, l) => Some (Sp l None (smarks x), None) | None => None end
  end.

(** A run of the program beside a run of the specification: the statements read, in order *)
Inductive runs (file : bytes) : list op -> ctx -> sp -> list (option loc) -> Prop :=
| runs_nil : runs file [] (start file) (sstart file) []
| runs_step : forall os c x out o c' x' l l',
    runs file os c x out -> legal o x -> step o c = Some (c', l) -> spec_step o x = Some (x', l') ->
    runs file (os ++ [o]) c' x' (out ++ [l]).

(** An attribute lookahead was started in a macro. *)
Definition looking_from_macro (x : sp) : Prop := exists l, saved x = Some (ORD, l) /\ in_macro l.

Definition said (l : loc) : related :=
  Related (l_file l) (l_pos l)
    (s2b "While compiling " ++ l_file l ++ s2b "(" ++ dec (N.succ (fst (l_pos l))) ++ s2b ")").

(** ** The places of the statements of a definition: those activations that the definition has entered, [below] of them
    having been there before the one with its MACRO statement. *)
Definition entered (below : nat) (l : list act) : list act := firstn (List.length l - below) l.
Definition places (l : list act) : list loc := map f_loc (rev (chain l)).

(** A run of statements of a body, from the prototype; each statement of the text with the definition and of the
    members that it copies is recorded, those of library files read meanwhile are not.  The last list: the places that
    are expected. *)
Inductive body (level below : nat) (c : ctx) (x : sp) (d : defining) : ctx -> sp -> defining -> list (list loc) -> Prop :=
| body_first : forall p c2 x2 d2 l l',
    step (Next p) c = Some (c2, Some l) -> spec_step (Next p) x = Some (x2, l') -> define l c2 d = Some d2 ->
    below < List.length (acts x2) ->
    body level below c x d c2 x2 d2 [places (entered below (acts x2))]
| body_stmt : forall c1 x1 d1 e p c2 x2 d2 l l',
    body level below c x d c1 x1 d1 e -> texts (acts x1) = level ->
    step (Next p) c1 = Some (c2, Some l) -> spec_step (Next p) x1 = Some (x2, l') -> define l c2 d1 = Some d2 ->
    below < List.length (acts x2) ->
    body level below c x d c2 x2 d2 (e ++ [places (entered below (acts x2))])
| body_other : forall c1 x1 d1 e o c2 x2 l l',
    body level below c x d c1 x1 d1 e ->
    match o with
    | Next _ => l = None \/ level < texts (acts x1)
    | EnterCopy _ | PushSource _ | PopSource | Mark => True
    | _ => False
    end ->
    legal o x1 -> step o c1 = Some (c2, l) -> spec_step o x1 = Some (x2, l') ->
    level <= texts (acts x2) -> below < List.length (acts x2) ->
    body level below c x d c2 x2 d1 e.

(** ** Going on from a state *)
Inductive goes : ctx -> sp -> list op -> list (option loc) -> ctx -> sp -> Prop :=
| goes_nil : forall c x, goes c x [] [] c x
| goes_cons : forall c x o l l' c1 x1 os ls c2 x2,
    legal o x -> step o c = Some (c1, l) -> spec_step o x = Some (x1, l') ->
    goes c1 x1 os ls c2 x2 -> goes c x (o :: os) (l :: ls) c2 x2.
(** the model alone *)
Fixpoint does (os : list op) (c : ctx) : option (ctx * list (option loc)) :=
  match os with
  | [] => Some (c, [])
  | o :: r => match step o c with
              | Some (c', l) => match does r c' with Some (c2, ls) => Some (c2, l :: ls) | None => None end
              | None => None
              end
  end.
