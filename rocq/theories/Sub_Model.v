(** Macro operands as data: sublists, their text and their parsing.

    Modelled: context/macro_param_data.cpp; is_data_def, find_single_macro_param and
    string_to_macrodata of processing/instruction_sets/macro_processor.cpp:38-169.

    Simplifications: the position in the text is the pair of what is before it (reversed) and
    what comes after it; the positions of the lower levels of [nests] are not kept, as they are
    overwritten before they are read (126-146).  The printed text of a list is not cached. *)
From Coq Require Import List NArith ZArith Bool.
From Verif Require Import Common.
Import ListNotations.
Open Scope N_scope.

(** macro_param_data.h:54-102 *)
Inductive data := Dummy | Single (s : bytes) | Composite (l : list data).

Definition LPAR : N := 40. Definition RPAR : N := 41. Definition COMMA : N := 44. Definition QUOTE : N := 39.

(** macro_param_data.cpp:63-68 *)
Fixpoint joined (l : list bytes) : bytes :=
  match l with
  | [] => []
  | [x] => x
  | x :: r => x ++ COMMA :: joined r
  end.
(** 29, 37, 58-72 *)
Fixpoint get_value (d : data) : bytes :=
  match d with
  | Dummy => []
  | Single s => s
  | Composite l => LPAR :: joined (map get_value l) ++ [RPAR]
  end.
(** 39, 43-48, 74-79; the index is 0-based. *)
Definition get_ith (d : data) (i : nat) : data :=
  match d with
  | Dummy => Dummy
  | Single _ => match i with O => d | _ => Dummy end
  | Composite l => nth i l Dummy
  end.
(** 33-35, 52-55, 84-87 *)
Definition number (d : data) : nat :=
  match d with
  | Dummy => 0
  | Single s => match s with [] => 0 | _ => 1 end
  | Composite l => length l
  end.

(** 38-42 *)
Definition toupper (c : N) : N := if (97 <=? c) && (c <=? 122) then c - 32 else c.
Definition is_data_def (c : N) : bool :=
  existsb (N.eqb (toupper c)) [76; 73; 83; 84; 68; 79; 78; 75].

(** 44-95.  The text up to the next comma or closing parenthesis; [Nested] is 57-68, [Quoted] 79. *)
Inductive mode := Top | Nested (nest : nat) | Quoted.
Fixpoint find_single (m : mode) (item before rest : bytes) : option (bytes * bytes * bytes) :=
  match rest with
  | [] => None
  | c :: r =>
      match m with
      | Top =>
          if c =? LPAR then find_single (Nested 1) (c :: item) (c :: before) r
          else if c =? QUOTE then
            match before with
            | p :: _ => if is_data_def p then find_single Top (c :: item) (c :: before) r
                        else find_single Quoted (c :: item) (c :: before) r
            | [] => find_single Quoted (c :: item) (c :: before) r
            end
          else if c =? COMMA then Some (rev item, c :: before, r)
          else if c =? RPAR then Some (rev item, before, rest)
          else find_single Top (c :: item) (c :: before) r
      | Nested n =>
          if c =? LPAR then find_single (Nested (S n)) (c :: item) (c :: before) r
          else if c =? RPAR then
            find_single (match n with S (S _) => Nested (pred n) | _ => Top end) (c :: item) (c :: before) r
          else find_single (Nested n) (c :: item) (c :: before) r
      | Quoted =>
          find_single (if c =? QUOTE then Top else Quoted) (c :: item) (c :: before) r
      end
  end.

(** The loop of 112-161: [macro_data], the top first, the bottom apart. *)
Record state := { before : bytes; rest : bytes; top : list data; lower : list (list data) }.
Inductive outcome := Continue (s : state) | Whole | Done (s : state).
Definition closes (c : N) : bool := (c =? COMMA) || (c =? RPAR).

(** One pass of the loop; [Whole]: the text as a single value. *)
Definition loop_body (s : state) : outcome :=
  match rest s with
  | [] => Whole                                              (* 116 *)
  | c :: r =>
      if c =? LPAR then                                      (* 119-123 *)
        Continue {| before := c :: before s; rest := r; top := []; lower := top s :: lower s |}
      else if c =? RPAR then                                 (* 124-152 *)
        match lower s with
        | [] => Whole                        (* cannot happen: the loop ends at the bottom level *)
        | up :: low =>
            let closed (d : data) (b r : bytes) :=
              (* 146 *)
              let '(b, r) := match r with
                             | c' :: r' => if c' =? COMMA then (c' :: b, r') else (b, r)
                             | [] => (b, r)
                             end in
              let s' := {| before := b; rest := r; top := up ++ [d]; lower := low |} in
              match low with [] => Done s' | _ => Continue s' end in
            match r with
            | c' :: _ =>
                if closes c' then closed (Composite (top s)) (c :: before s) r
                else match find_single Top [] (c :: before s) r with
                     | None => Whole
                     | Some (t, b, r') => closed (Single (get_value (Composite (top s)) ++ t)) b r'
                     end
            | [] => closed (Composite (top s)) (c :: before s) r
            end
        end
      else                                                   (* 153-160 *)
        match find_single Top [] (before s) (rest s) with
        | None => Whole
        | Some (t, b, r') => Continue {| before := b; rest := r'; top := top s ++ [Single t]; lower := lower s |}
        end
  end.

Fixpoint loop (fuel : nat) (s : state) : option (option state) :=
  match fuel with
  | O => None
  | S f => match loop_body s with
           | Continue s' => loop f s'
           | Whole => Some None
           | Done s' => Some (Some s')
           end
  end.

(** 97-169; [None] only if the loop does not end, [Dummy] for an assertion that fails (166). *)
Definition string_to_macrodata (t : bytes) : option data :=
  match t with
  | [] => Some Dummy
  | c :: _ =>
      if negb (c =? LPAR) || negb (last t 0 =? RPAR) then Some (Single t)
      else
        match loop (S (length t)) {| before := []; rest := t; top := []; lower := [] |} with
        | None => None
        | Some None => Some (Single t)
        | Some (Some s) =>
            match rest s with
            | [] => match top s with [d] => Some d | _ => Some Dummy end
            | _ => Some (Single t)
            end
        end
  end.
