(** * What is meant by the scope of a line of a macro definition

    Nothing here uses the processor of macro definitions or its slices: a body is a list of statements
    with their lines, nesting is the number of MACRO statements minus the number of MEND statements
    before a statement, and a line belongs to the last statement that starts on it or before it. *)
From Coq Require Import List Arith Bool Lia Permutation.
From Verif Require Import Nav_Model.
Import ListNotations.

Definition is_macro (x : stmt) : bool := match op x with OpMacro => true | _ => false end.
Definition is_mend (x : stmt) : bool := match op x with OpMend => true | _ => false end.
Definition macs (xs : list stmt) : nat := length (filter is_macro xs).
Definition mends (xs : list stmt) : nat := length (filter is_mend xs).

(** The definitions that are open before statement [i], the one that is looked at included. *)
Definition level (xs : list stmt) (i : nat) : nat := 1 + macs (firstn i xs) - mends (firstn i xs).

(** No statement comes after the MEND that closes the definition. *)
Definition open_before (xs : list stmt) (i : nat) : Prop := mends (firstn i xs) <= macs (firstn i xs).
(** The last statement, and only it, closes the definition. *)
Definition closed (xs : list stmt) : Prop :=
  xs <> [] /\ (forall i, i < length xs -> open_before xs i) /\ mends xs = S (macs xs).

Definition start (x : stmt) : nat := line (at_ x).
(** All statements stand in the file of the definition, in order, behind the prototype (line [p]). *)
Definition in_one_file (xs : list stmt) : Prop := forall x, In x xs -> members x = [].
Definition in_order (p : nat) (xs : list stmt) : Prop :=
  (forall x, nth_error xs 0 = Some x -> p < start x) /\
  (forall i x y, nth_error xs i = Some x -> nth_error xs (S i) = Some y -> start x < start y).

(** Where the lines of statement [i] end: at the next statement; the closing MEND has one line. *)
Definition next_line (xs : list stmt) (i : nat) : nat :=
  match nth_error xs (S i) with
  | Some y => start y
  | None => match nth_error xs i with Some x => S (start x) | None => 0 end
  end.

(** The lines that belong to the definition itself and not to a definition nested in it. *)
Definition own_line (p : nat) (xs : list stmt) (l : nat) : Prop :=
  (p <= l /\ exists x, nth_error xs 0 = Some x /\ l < start x) \/
  (exists i x, nth_error xs i = Some x /\ level xs i = 1 /\ start x <= l /\ l < next_line xs i).

(** ** Occurrences *)
Definition before (a b : pos) : Prop := line a < line b \/ (line a = line b /\ column a <= column b).
Definition covers (o : occ) (p : pos) : Prop := before (from o) p /\ before p (upto o).
Definition same_symbol (a b : occ) : Prop := kind_of a = kind_of b /\ symbol a = symbol b /\ opcode a = opcode b.
(** The occurrences recorded in a file. *)
Definition recorded (fo : list (file * list occ)) (f : file) (o : occ) : Prop := exists os, In (f, os) fo /\ In o os.

(** A macro with its body: the parameters, the file, the line of its name and its statements, all of them in
    that file, in order, up to the MEND that closes the definition. *)
Definition described (m : macro_info) (f : file) (params : list (name * pos)) (xs : list stmt) : Prop :=
  body m = define (after_prototype f params) xs /\ in_one_file xs /\ closed xs /\
  in_order (line (position (named m))) xs /\ in_file (named m) = f.
(** The line belongs to the macro. *)
Definition owns (m : macro_info) (g : file) (l : nat) : Prop :=
  exists params xs, described m g params xs /\ own_line (line (position (named m))) xs l.

(** The file of a statement: that of the innermost copy member, or that of the definition. *)
Definition file_of (f : file) (x : stmt) : file :=
  match rev (members x) with [] => f | l :: _ => in_file l end.

(** The closing MEND stands where another statement of the body has stood before, if there is one. *)
Definition closed_where_seen (f : file) (xs : list stmt) : Prop :=
  closed xs /\ (length xs = 1 \/ exists pre x y, xs = pre ++ [x] /\ In y pre /\ file_of f y = file_of f x).

(** Where a variable symbol is first declared or set by the definition itself: as a parameter or by the
    first such statement that is not nested. *)
Definition declarations (f : file) (params : list (name * pos)) (xs : list stmt) : list (name * loc) :=
  let at_first := match xs with [] => f | x :: _ => file_of f x end in
  map (fun q => (fst q, Loc (snd q) at_first)) params ++
  flat_map (fun i => match nth_error xs i with
                     | Some x => match op x with
                                 | OpOther => if level xs i =? 1 then map (fun q => (fst q, Loc (snd q) (file_of f x))) (sets x) else []
                                 | _ => []
                                 end
                     | None => []
                     end) (List.seq 0 (length xs)).
Definition sequence_labels (f : file) (xs : list stmt) : list (name * loc) :=
  flat_map (fun i => match nth_error xs i with
                     | Some x => match Nav_Model.seq x with
                                 | Some (n, q) => if level xs i =? 1 then [(n, Loc q (file_of f x))] else []
                                 | None => []
                                 end
                     | None => []
                     end) (List.seq 0 (length xs)).
(** The first entry with a name. *)
Fixpoint first_of {A} (n : name) (l : list (name * A)) : option A :=
  match l with
  | [] => None
  | (k, a) :: r => if Nat.eq_dec k n then Some a else first_of n r
  end.

(** ** The context before the end of the analysis: what was added, in any order *)
Inductive addition := AddCopy (f : file) (member : name) (d : loc) | AddMacro (m : macro_info).
Definition apply_addition (c : context) (a : addition) : context :=
  match a with AddCopy f n d => add_copy f n d c | AddMacro m => add_macro m c end.
Definition build (l : list addition) : context := fold_left apply_addition l empty_context.

(** What is recorded in a file, for a macro or for open code. *)
Definition present (l : list addition) (o : opencode_info) (g : file) (x : occ) : Prop :=
  (exists m, In m (macros (build l)) /\ recorded (mac_occs m) g x) \/ recorded (open_occs o) g x.
(** Where the references of a symbol are looked for: variable and sequence symbols have a scope. *)
Definition in_scope (l : list addition) (o : opencode_info) (x : occ) (sc : option mac) (g : file) (y : occ) : Prop :=
  match kind_of x, sc with
  | (SEQ | VAR), Some k => exists m, In m (macros (build l)) /\ mac_id m = k /\ recorded (mac_occs m) g y
  | (SEQ | VAR), None => recorded (open_occs o) g y
  | _, _ => present l o g y
  end.
(** All that is recorded at a position is one symbol. *)
Definition only (l : list addition) (o : opencode_info) (g : file) (p : pos) (x : occ) : Prop :=
  present l o g x /\ covers x p /\ forall y, present l o g y -> covers y p -> same_symbol y x.
(** Every file that something is recorded for is known. *)
Definition files_known (fs : fmap) (m : macro_info) : Prop :=
  (forall g ss, In (g, ss) (scopes (body m)) -> lookup g fs <> None) /\
  (forall g os, In (g, os) (mac_occs m) -> lookup g fs <> None).
(** A line belongs to one macro at most. *)
Definition apart (ms : list macro_info) : Prop :=
  forall m n g k, In m ms -> In n ms -> owns m g k -> owns n g k -> m = n.
Definition all_described (ms : list macro_info) : Prop :=
  forall m, In m ms -> exists g ps xs, described m g ps xs.
