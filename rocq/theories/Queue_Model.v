(** Model of language_server/src/blocking_queue.h. *)
From Coq Require Import List Arith Bool.
From Verif Require Import Lts.
Import ListNotations.

Section Q.
Variable T : Type.

(** blocking_queue.h:26-30. *)
Inductive policy := drop_elements | process_elements.

(** Where a consumer thread is with respect to [pop] (blocking_queue.h:71-86).
    [CIdle]: outside [pop]; [CWaiting]: asleep inside [cond_var.wait];
    [CWoken]: woken up, has to take the mutex and re-evaluate the predicate. *)
Inductive cstate := CIdle | CWaiting | CWoken.

(** The members of the class, plus ghost history: [accepted] - values appended by [push] in
    order, [popped] - values returned by [pop] in order, [nulls] - number of [nullopt]
    results.  [pending] counts the threads that left the critical section of [push] or
    [terminate] and still have to call [notify_one] (lines 51-54, 92-94). *)
Record st := mk {
  queue : list T; terminated : bool; pending : nat; consumers : list cstate;
  accepted : list T; popped : list T; nulls : nat }.

Inductive ev :=
| EPush (t : T)          (* critical section of push, any thread *)
| ETerminate             (* critical section of terminate *)
| ENotify (c : option nat) (* a pending notify_one runs; it wakes consumer c, or no one is waiting *)
| ESpurious (c : nat)    (* spurious wake-up *)
| EPop (c : nat).        (* consumer c, idle or woken, takes the mutex inside pop *)

Fixpoint set_nth {A} (n : nat) (x : A) (l : list A) : list A :=
  match l, n with
  | [], _ => []
  | _ :: l', O => x :: l'
  | y :: l', S n' => y :: set_nth n' x l'
  end.

Definition is_waiting (c : cstate) : bool := match c with CWaiting => true | _ => false end.

(** [pop] from taking the mutex on: blocking_queue.h:76-86.  Returning or going to sleep. *)
Definition pop_step (pol : policy) (s : st) (c : nat) : st :=
  if (match queue s with [] => false | _ => true end) || terminated s then
    match pol, terminated s, queue s with
    | drop_elements, true, _ =>
        mk (queue s) (terminated s) (pending s) (set_nth c CIdle (consumers s))
           (accepted s) (popped s) (S (nulls s))
    | _, _, [] =>
        mk (queue s) (terminated s) (pending s) (set_nth c CIdle (consumers s))
           (accepted s) (popped s) (S (nulls s))
    | _, _, t :: q =>
        mk q (terminated s) (pending s) (set_nth c CIdle (consumers s))
           (accepted s) (popped s ++ [t]) (nulls s)
    end
  else mk (queue s) (terminated s) (pending s) (set_nth c CWaiting (consumers s))
          (accepted s) (popped s) (nulls s).

Definition step (pol : policy) (s : st) (e : ev) : option st :=
  match e with
  | EPush t =>
      (* blocking_queue.h:42-69 *)
      if terminated s then Some s
      else Some (mk (queue s ++ [t]) false
                    (match queue s with [] => S (pending s) | _ => pending s end)
                    (consumers s) (accepted s ++ [t]) (popped s) (nulls s))
  | ETerminate =>
      (* blocking_queue.h:88-95 *)
      Some (mk (queue s) true (S (pending s)) (consumers s) (accepted s) (popped s) (nulls s))
  | ENotify w =>
      match pending s with
      | O => None
      | S p =>
        match w with
        | None => if existsb is_waiting (consumers s) then None
                  else Some (mk (queue s) (terminated s) p (consumers s)
                                (accepted s) (popped s) (nulls s))
        | Some c =>
          match nth_error (consumers s) c with
          | Some CWaiting => Some (mk (queue s) (terminated s) p (set_nth c CWoken (consumers s))
                                      (accepted s) (popped s) (nulls s))
          | _ => None
          end
        end
      end
  | ESpurious c =>
      match nth_error (consumers s) c with
      | Some CWaiting => Some (mk (queue s) (terminated s) (pending s) (set_nth c CWoken (consumers s))
                                  (accepted s) (popped s) (nulls s))
      | _ => None
      end
  | EPop c =>
      match nth_error (consumers s) c with
      | Some CWaiting => None
      | Some _ => Some (pop_step pol s c)
      | None => None
      end
  end.

(** A fresh queue used by [n] consumer threads. *)
Definition init (n : nat) : st := mk [] false 0 (repeat CIdle n) [] [] 0.
End Q.
Arguments queue {T}. Arguments terminated {T}. Arguments pending {T}. Arguments consumers {T}.
Arguments accepted {T}. Arguments popped {T}. Arguments nulls {T}.
Arguments EPush {T}. Arguments ETerminate {T}. Arguments ENotify {T}. Arguments ESpurious {T}.
Arguments EPop {T}.
