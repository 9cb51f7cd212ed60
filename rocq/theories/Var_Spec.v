(** What variable symbols are, without pointers: every scope has its own local symbols, global
    symbols belong to their name, and a symbol is the history of its assignments. *)
From Coq Require Import List NArith ZArith Bool.
From Verif Require Import Common Var_Model.
Import ListNotations.
Open Scope Z_scope.

(** The assignments to a symbol, the latest first: the index (0 for a symbol without subscript)
    and the value. *)
Record svar := { v_type : ty; v_scalar : bool; v_log : list (Z * val) }.
Definition fresh (t : ty) (scalar : bool) : svar := {| v_type := t; v_scalar := scalar; v_log := [] |}.
Definition assigned (v : svar) (i : Z) (x : val) : svar :=
  {| v_type := v_type v; v_scalar := v_scalar v; v_log := (i, x) :: v_log v |}.

(** The value last assigned at [i], 0, false or the empty string if there is none. *)
Fixpoint latest (i : Z) (log : list (Z * val)) : option val :=
  match log with
  | [] => None
  | (j, x) :: r => if i =? j then Some x else latest i r
  end.
Definition content (v : svar) (i : Z) : val :=
  match latest i (v_log v) with
  | Some x => x
  | None => match v_type v with TA => VA 0 | TB => VB false | TC => VC [] end
  end.
(** The highest index assigned so far, 0 if none. *)
Definition highest (v : svar) : Z := fold_right (fun p h => Z.max (fst p) h) 0 (v_log v).

(** A name in a scope: a symbol of the scope's own, the global symbol of that name, or a
    parameter. *)
Inductive entry := Local (v : svar) | Shared | Formal.
Definition env := name -> option entry.
Record world := { shared : name -> option svar; here : env; callers : list env; calls : N }.

Definition upd {A} (f : name -> option A) (n : name) (x : A) : name -> option A :=
  fun m => if bytes_eqb m n then Some x else f m.
Definition with_here (w : world) (e : env) : world :=
  {| shared := shared w; here := e; callers := callers w; calls := calls w |}.

Definition symbol (w : world) (n : name) : option svar :=
  match here w n with
  | Some (Local v) => Some v
  | Some Shared => shared w n
  | _ => None
  end.
Definition replace (w : world) (n : name) (v : svar) : world :=
  match here w n with
  | Some Shared => {| shared := upd (shared w) n v; here := here w; callers := callers w; calls := calls w |}
  | _ => with_here w (upd (here w) n (Local v))
  end.

(** Reading. *)
Definition reads (w : world) (n : name) (sub : list Z) : read_result :=
  match here w n, symbol w n with
  | None, _ => Undef E010
  | Some Formal, _ => Param
  | _, None => Undef E010
  | _, Some v =>
      match sub with
      | [] => if v_scalar v then Value (content v 0) else Undef E013_subscript
      | [i] => if v_scalar v then Undef E013_subscript
               else if 1 <=? i then Value (content v i) else Undef E012_subscript
      | _ => Undef E020
      end
  end.
Definition count_of (w : world) (n : name) : option Z :=
  match symbol w n with
  | Some v => Some (if v_scalar v then 0 else highest v)
  | None => None
  end.
Fixpoint meaning (e : ex) (w : world) : val :=
  match e with
  | Ret v => v
  | Read n sub k => meaning (k (reads w n sub)) w
  | Num n k => meaning (k (count_of w n)) w
  end.

(** Assignment: the operands that are given, one after the other, to consecutive elements - or
    all to the same symbol if it has no subscript. *)
Fixpoint given (ops : list operand) : list ex :=
  match ops with
  | [] => []
  | Expr e :: r => e :: given r
  | _ :: r => given r
  end.
Definition not_expr (o : operand) : bool := match o with NotExpr => true | _ => false end.
Fixpoint assign_all (n : name) (i : Z) (es : list ex) (w : world) : world :=
  match es with
  | [] => w
  | e :: r =>
      match symbol w n with
      | Some v => assign_all n (i + 1) r
                    (replace w n (assigned v (if v_scalar v then 0 else i) (meaning e w)))
      | None => w
      end
  end.
Definition assigns (t : ty) (n : name) (sub : list Z) (ops : list operand) (w : world) : list vdiag * world :=
  let go (i : Z) (w : world) :=
    if existsb not_expr ops then ([E012_operand], w)
    else match given ops with
         | [] => ([E022], w)
         | es => ([], assign_all n i es w)
         end in
  match here w n with
  | Some Formal => ([E030], w)
  | _ =>
      match sub with
      | _ :: _ :: _ => ([E020], w)
      | [i] =>
          if i <? 1 then ([E012_subscript], w)
          else match symbol w n with
               | None => go i (with_here w (upd (here w) n (Local (fresh t false))))
               | Some v => if negb (ty_eqb (v_type v) t) then ([E013_type], w)
                           else if v_scalar v then ([E013_subscript], w) else go i w
               end
      | [] =>
          match symbol w n with
          | None => go 0 (with_here w (upd (here w) n (Local (fresh t true))))
          | Some v => if negb (ty_eqb (v_type v) t) then ([E013_type], w)
                      else if v_scalar v then go 0 w else ([E013_subscript], w)
          end
      end
  end.

(** Declaration: name by name; a name that the scope already has is diagnosed. *)
Definition declare (global : bool) (t : ty) (n : name) (scalar : bool) (w : world) : world :=
  if global then
    {| shared := match shared w n with Some _ => shared w | None => upd (shared w) n (fresh t scalar) end;
       here := upd (here w) n Shared; callers := callers w; calls := calls w |}
  else with_here w (upd (here w) n (Local (fresh t scalar))).
Fixpoint declare_all (global : bool) (t : ty) (ops : list declared) (w : world) : list vdiag * option world :=
  match ops with
  | [] => ([], Some w)
  | DOther :: _ => ([E010], None)
  | DVar (c :: cs) sub :: r =>
      match here w (c :: cs) with
      | Some Formal => let (ds, x) := declare_all global t r w in (E052 :: ds, x)
      | Some _ => let (ds, x) := declare_all global t r w in (E051 :: ds, x)
      | None => declare_all global t r
                  (declare global t (c :: cs) (match sub with [] => true | _ => false end) w)
      end
  | _ :: r => declare_all global t r w
  end.
Definition declares (global : bool) (t : ty) (ops : list declared) (w : world) : list vdiag * world :=
  match declare_all global t ops w with
  | (ds, None) => (ds, w)
  | (ds, Some w') => ((if forallb is_omitted ops then ds ++ [E022] else ds), w')
  end.

(** A macro call starts with the system variables and its parameters only. *)
Definition known (v : val) (t : ty) : svar := assigned (fresh t true) 0 v.
Definition system_names : list name :=
  [s2b "SYSDATC"; s2b "SYSDATE"; s2b "SYSTIME"; s2b "SYSPARM"; s2b "SYSOPT_RENT"].
(** The number of the call, in at least four digits. *)
Definition call_number (n : N) : bytes := repeat 48%N (4 - length (dec n)) ++ dec n.
Definition call_env (named : list name) (i : call_info) (number : N) (depth : Z) : env := fun n =>
  if bytes_eqb n (s2b "SYSECT") then Some (Local (known (VC (sect i)) TC))
  else if bytes_eqb n (s2b "SYSNDX") then Some (Local (known (VC (call_number number)) TC))
  else if bytes_eqb n (s2b "SYSSTYP")
       then Some (Local match styp i with Some s => known (VC s) TC | None => fresh TC true end)
  else if bytes_eqb n (s2b "SYSLOC")
       then Some (Local match loc i with Some s => known (VC s) TC | None => fresh TC true end)
  else if bytes_eqb n (s2b "SYSNEST") then Some (Local (known (VA depth) TA))
  else if existsb (bytes_eqb n) system_names then Some Shared
  else if existsb (bytes_eqb n) named then Some Formal
  else None.
Definition calls_macro (named : list name) (i : call_info) (w : world) : world :=
  {| shared := shared w; here := call_env named i (calls w) (Z.of_nat (length (callers w)) + 1);
     callers := here w :: callers w; calls := (calls w + 1)%N |}.
Definition returns (w : world) : world :=
  match callers w with
  | [] => w
  | e :: r => {| shared := shared w; here := e; callers := r; calls := calls w |}
  end.

Definition start (i : start_info) : world :=
  {| shared := fun n =>
       if bytes_eqb n (s2b "SYSDATC") then Some (known (VC (datc i)) TC)
       else if bytes_eqb n (s2b "SYSDATE") then Some (known (VC (date i)) TC)
       else if bytes_eqb n (s2b "SYSTIME") then Some (known (VC (time i)) TC)
       else if bytes_eqb n (s2b "SYSPARM") then Some (known (VC (sysparm i)) TC)
       else if bytes_eqb n (s2b "SYSOPT_RENT") then Some (fresh TB true)
       else None;
     here := fun n => if existsb (bytes_eqb n) system_names then Some Shared else None;
     callers := []; calls := 0%N |}.

Definition does (w : world) (s : step) : list vdiag * world :=
  match s with
  | SET t n sub ops => assigns t n sub ops w
  | DECL g t ops => declares g t ops w
  | CALL named i => ([], calls_macro named i w)
  | RETURN => ([], returns w)
  end.
Fixpoint history (w : world) (l : list step) : world :=
  match l with [] => w | s :: r => history (snd (does w s)) r end.

(** The indices of a statement stay below 2^31. *)
Definition small (s : step) : Prop :=
  match s with
  | SET _ _ sub ops => Forall (fun i => i + Z.of_nat (length ops) < 2 ^ 31) sub
  | _ => True
  end.
(** No more than 2^31 nested calls. *)
Fixpoint shallow (depth : Z) (l : list step) : Prop :=
  match l with
  | [] => True
  | CALL _ _ :: r => depth + 1 < 2 ^ 31 /\ shallow (depth + 1) r
  | RETURN :: r => shallow (Z.max 0 (depth - 1)) r
  | _ :: r => shallow depth r
  end.
