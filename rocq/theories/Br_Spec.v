(** What AIF, AGO and ACTR do, in terms of the statements of the current macro or open code. *)
From Coq Require Import List NArith ZArith Bool.
From Verif Require Import Common Br_Model.
Import ListNotations.

Section Spec.
Variable data : Type.
Variable macro_of : data -> id -> option (list (stmt data)).
Notation stmt := (stmt data).
Notation state := (state data).

Definition labelled (b : list stmt) (i : nat) (t : id) : Prop :=
  exists s, nth_error b i = Some s /\ label s = Some t.
Definition first_labelled (b : list stmt) (i : nat) (t : id) : Prop :=
  labelled b i t /\ forall j, (j < i)%nat -> ~ labelled b j t.

(** AIF: one or more (condition).target, maybe with a comma at the end. *)
Definition is_branch {v} (o : operand data v) : Prop := exists e t, o = OBranch e t.
Definition aif_form (ops : list (operand data bool)) : Prop :=
  exists bs tail, ops = bs ++ tail /\ bs <> [] /\ Forall is_branch bs /\ (tail = [] \/ tail = [OEmpty]).
Definition aif_takes (ops : list (operand data bool)) (d : data) (t : id) : Prop :=
  exists l1 e l2, ops = l1 ++ OBranch e t :: l2 /\ e d = true
  /\ forall e' t', In (OBranch e' t') l1 -> e' d = false.
(** AGO: .target, or (number).target followed by more targets. *)
Inductive ago_form : list (operand data Z) -> (data -> Z) -> list id -> Prop :=
| ago_plain t : ago_form [OSeq t] (fun _ => 1%Z) [t]
| ago_computed e t ts : ago_form (OBranch e t :: map OSeq ts) e (t :: ts).

(** The next statement [s] of the state is executed (no limit was exceeded). *)
Definition proceeds (st : state) (s : stmt) : Prop :=
  finished st = false
  /\ nth_error (body (current st)) (next (current st)) = Some s
  /\ (length (stack st) < 100)%nat
  /\ (0 <= counter (current st))%Z /\ (changes (current st) <= 100)%nat.

(** All that stays as it is when control moves in the current scope. *)
Definition same_rest (st st' : state) : Prop :=
  store st' = store st /\ length (stack st') = length (stack st)
  /\ tl (stack st') = tl (stack st) /\ (stack st <> [] -> base st' = base st)
  /\ body (current st') = body (current st)
  /\ changes (current st') = changes (current st)
  /\ finished st' = false.
(** Control goes on with the next statement. *)
Definition falls_through (st st' : state) : Prop :=
  same_rest st st' /\ next (current st') = S (next (current st))
  /\ counter (current st') = counter (current st).
(** Control goes to the first statement with the label [t]; without one there is an error and
    control goes on with the next statement. *)
Definition branches (st : state) (t : id) (st' : state) : Prop :=
  let b := body (current st) in
  (exists i, first_labelled b i t /\ same_rest st st' /\ next (current st') = i
             /\ counter (current st') = (counter (current st) - 1)%Z)
  \/ ((forall i, ~ labelled b i t) /\ falls_through st st'
      /\ exists a r, log st' = Missing (length (stack st)) a t :: r).

(** Labels of open code are on statements that register them. *)
Definition registered_labels (program : list stmt) : Prop :=
  forall s t, In s program -> label s = Some t ->
  match operation s with Plain r _ => r = true | Actr _ | Ago _ | Aif _ => True | _ => False end.

(** Processing comes to an end. *)
Inductive halts : state -> Prop :=
| halted st : step macro_of st = None -> halts st
| halting st st' : step macro_of st = Some st' -> halts st' -> halts st.

(** The jumps at one depth since the counter was last set there, and the value it was set to.
    The log has the newest event first; every scope starts with 4096. *)
Fixpoint since (depth : nat) (l : list event) : nat * Z :=
  match l with
  | [] => (0%nat, 4096%Z)
  | Jump d _ _ _ :: l => let (n, v) := since depth l in if Nat.eqb d depth then (S n, v) else (n, v)
  | Set_counter d v :: l => if Nat.eqb d depth then (0%nat, v) else since depth l
  | Enter d :: l => if Nat.eqb d depth then (0%nat, 4096%Z) else since depth l
  | _ :: l => since depth l
  end.
End Spec.
Arguments labelled {data}.
Arguments first_labelled {data}.
Arguments is_branch {data v}.
Arguments aif_form {data}.
Arguments aif_takes {data}.
Arguments ago_form {data}.
Arguments proceeds {data}.
Arguments same_rest {data}.
Arguments falls_through {data}.
Arguments branches {data}.
Arguments registered_labels {data}.
Arguments halts {data}.
