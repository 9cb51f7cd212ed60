(** Model of the values of the system variables: context/hlasm_context.cpp:57-247 (how they are inserted
    into the scopes is in Var_Model, how SYSMAC is read in Mac_Model). *)
From Coq Require Import String List NArith ZArith Bool.
From Verif Require Import Common Sub_Model Mac_Model Var_Model.
Import ListNotations.
Open Scope list_scope.
Open Scope Z_scope.

(** std::to_string *)
Definition to_string (n : Z) : bytes := if n <? 0 then 45%N :: dec (Z.to_N (- n)) else dec (Z.to_N n).

(** What std::localtime returns *)
Record tm := mkTm { tm_year : Z; tm_mon : Z; tm_mday : Z; tm_hour : Z; tm_min : Z }.
(** 182-186, 193-197, 213-214, 217-218 *)
Definition lead (n : Z) : bytes := if n <? 10 then [48%N] else [].
(** 179-204 *)
Definition datc_val (now : tm) : bytes :=
  to_string (tm_year now + 1900) ++ lead (tm_mon now + 1) ++ to_string (tm_mon now + 1) ++
  lead (tm_mday now) ++ to_string (tm_mday now).
(** 182-207; the year is a string of at least two characters *)
Definition date_val (now : tm) : bytes :=
  lead (tm_mon now + 1) ++ to_string (tm_mon now + 1) ++ [47%N] ++
  lead (tm_mday now) ++ to_string (tm_mday now) ++ [47%N] ++ skipn 2 (to_string (tm_year now + 1900)).
(** 212-221 *)
Definition time_val (now : tm) : bytes :=
  lead (tm_hour now) ++ to_string (tm_hour now) ++ [58%N] ++ lead (tm_min now) ++ to_string (tm_min now).
(** 224-230 *)
Definition start (now : tm) (parm : bytes) : start_info :=
  {| datc := datc_val now; date := date_val now; time := time_val now; sysparm := parm |}.

(** The current section: its name, its kind and the name of its current location counter *)
Inductive section_kind := DUMMY | COMMON | EXECUTABLE | READONLY.
Record section := mkSect { sect_name : bytes; sect_kind : section_kind; loctr : bytes }.
(** 61-68, 84-121 *)
Definition call (s : option section) : call_info :=
  {| sect := match s with Some s => sect_name s | None => [] end;
     styp := match s with
             | Some s => Some match sect_kind s with
                              | COMMON => s2b "COM" | DUMMY => s2b "DSECT" | READONLY => s2b "RSECT" | EXECUTABLE => s2b "CSECT"
                              end
             | None => None
             end;
     loc := match s with Some s => Some (loctr s) | None => None end |}.

(** 133-153: from the scope of the macro outwards; None is open code *)
Definition sysmac (scopes : list (option bytes)) : parameter :=
  Syslist (Composite (List.map (fun s => Single match s with Some m => m | None => s2b "OPEN CODE" end) scopes)).
(** 123-131 *)
Definition sysnest (scopes : list (option bytes)) : Z := Z.of_nat (length scopes) - 1.
