(** JSON values and the parts of nlohmann::json's interface the server uses.
    Simplifications: numbers are integers (the server reads no other); object members are
    an association list in which the first occurrence of a key counts. *)
From Coq Require Import List NArith ZArith Bool.
From Verif Require Import Common.
Import ListNotations.

Inductive json :=
| JNull | JBool (b : bool) | JNum (z : Z) | JStr (s : bytes)
| JArr (l : list json) | JObj (l : list (bytes * json)).

Fixpoint assoc {A} (k : bytes) (l : list (bytes * A)) : option A :=
  match l with
  | [] => None
  | (k', v) :: l' => if bytes_eqb k k' then Some v else assoc k l'
  end.

(** [j.find(k)]: [None] is the end iterator (also for values that are no object). *)
Definition jfind (k : bytes) (j : json) : option json :=
  match j with JObj l => assoc k l | _ => None end.

(** [j.size()] *)
Definition jsize (j : json) : nat :=
  match j with JNull => 0 | JArr l => length l | JObj l => length l | _ => 1 end.

(** Result of an operation that may throw a json exception or have undefined behaviour. *)
Inductive res (A : Type) := Ret (a : A) | Throws | Undef.
Arguments Ret {A}. Arguments Throws {A}. Arguments Undef {A}.

Definition bind {A B} (r : res A) (f : A -> res B) : res B :=
  match r with Ret a => f a | Throws => Throws | Undef => Undef end.

(** [j[k]] on a non-constant value: null turns into an empty object, a missing member is
    created as null, any other kind of value throws type_error.305. *)
Definition jindex (k : bytes) (j : json) : res json :=
  match j with
  | JNull => Ret JNull
  | JObj l => Ret (match assoc k l with Some v => v | None => JNull end)
  | _ => Throws
  end.

(** [j[k]] on a constant value: a missing member is undefined behaviour (an assertion in
    the library), a value that is no object throws. *)
Definition jindex_const (k : bytes) (j : json) : res json :=
  match j with
  | JObj l => match assoc k l with Some v => Ret v | None => Undef end
  | _ => Throws
  end.

(** [j[i]] on a constant value, for i = 0. *)
Definition jindex_0 (j : json) : res json :=
  match j with JArr (x :: _) => Ret x | JArr [] => Undef | _ => Throws end.

(** [j.get<std::string>()], [j.get<int64_t>()] *)
Definition get_string (j : json) : res bytes :=
  match j with JStr s => Ret s | _ => Throws end.
Definition get_int (j : json) : res Z :=
  match j with JNum z => Ret z | JBool b => Ret (if b then 1%Z else 0%Z) | _ => Throws end.
