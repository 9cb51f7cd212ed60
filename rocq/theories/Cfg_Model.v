(** Model of the decoding and encoding of the configuration files:

      config/proc_conf.cpp:21-89, config/pgm_conf.cpp:21-50 (and the defaults in the headers)

    of values of nlohmann::json (not modelled: its parser and its printer).  An object is a list of
    members; [find] takes the first one of a name (in nlohmann::json there is only one). *)
From Coq Require Import String List NArith ZArith Bool.
From Verif Require Import Common.
Import ListNotations.
Open Scope list_scope.
Open Scope Z_scope.

(** A number is an uint64_t, a negative int64_t or a double, of which the integer part matters. *)
Inductive json :=
| JNull
| JBool (b : bool)
| JUInt (n : Z)
| JInt (z : Z)
| JFloat (integer_part : Z)
| JStr (s : bytes)
| JArr (l : list json)
| JObj (o : list (bytes * json)).

(** Throw: an exception derived from json::exception.  UB: undefined behaviour. *)
Inductive res (A : Type) := Ok (a : A) | Throw | UB.
Arguments Ok {A} a. Arguments Throw {A}. Arguments UB {A}.
Definition bind {A B} (r : res A) (f : A -> res B) : res B :=
  match r with Ok a => f a | Throw => Throw | UB => UB end.
Notation "'do' x <- e ; f" := (bind e (fun x => f)) (at level 200, x name, e at level 100, f at level 200).

Fixpoint find (k : bytes) (o : list (bytes * json)) : option json :=
  match o with
  | [] => None
  | (k', j) :: r => if bytes_eqb k k' then Some j else find k r
  end.
(** json::at *)
Definition at_ (k : string) (j : json) : res json :=
  match j with JObj o => match find (s2b k) o with Some x => Ok x | None => Throw end | _ => Throw end.
(** json::find; end() for what is no object *)
Definition find_ (k : string) (j : json) : option json :=
  match j with JObj o => find (s2b k) o | _ => None end.

(** get_to of the types used *)
Definition get_string (j : json) : res bytes := match j with JStr s => Ok s | _ => Throw end.
Definition get_bool (j : json) : res bool := match j with JBool b => Ok b | _ => Throw end.
Fixpoint get_all {A} (get : json -> res A) (l : list json) : res (list A) :=
  match l with
  | [] => Ok []
  | j :: r => do x <- get j; do xs <- get_all get r; Ok (x :: xs)
  end.
Definition get_vector {A} (get : json -> res A) (j : json) : res (list A) :=
  match j with JArr l => get_all get l | _ => Throw end.
(** get<unsigned>: any arithmetic type is converted with static_cast *)
Definition get_unsigned (j : json) : res Z :=
  match j with
  | JUInt n => Ok (n mod 2 ^ 32)
  | JInt z => Ok (z mod 2 ^ 32)
  | JFloat t => if (0 <=? t) && (t <? 2 ^ 32) then Ok t else UB
  | JBool b => Ok (if b then 1 else 0)
  | _ => Throw
  end.
(** A member that may be missing *)
Definition optional_member {A} (k : string) (j : json) (get : json -> res A) (default : A) : res A :=
  match find_ k j with Some x => get x | None => Ok default end.

(** ** proc_conf.h *)
Record library := mkLib { path : bytes; lib_extensions : list bytes; optional : bool }.
Record assembler_options := mkOpts { sysparm : bytes; profile : bytes }.
Record processor_group := mkGroup { name : bytes; libs : list library; asm_options : assembler_options }.
Record proc_conf := mkProc { pgroups : list processor_group; macro_extensions : list bytes }.

Definition strings (l : list bytes) : json := JArr (map JStr l).
(** j[k] = v of a new member, if there is something to write *)
Definition unless {A} (empty : bool) (l : list A) : list A := if empty then [] else l.
Definition is_nil {A} (l : list A) : bool := match l with [] => true | _ => false end.

(** proc_conf.cpp:21-26 *)
Definition library_to_json (p : library) : json :=
  JObj ([(s2b "path", JStr (path p)); (s2b "optional", JBool (optional p))] ++
        unless (is_nil (lib_extensions p)) [(s2b "macro_extensions", strings (lib_extensions p))]).
(** 27-41 *)
Definition library_from_json (j : json) : res library :=
  match j with
  | JStr s => Ok (mkLib s [] false)
  | JObj _ =>
      do j1 <- at_ "path" j;
      do p <- get_string j1;
      do o <- optional_member "optional" j get_bool false;
      do e <- optional_member "macro_extensions" j (get_vector get_string) [];
      Ok (mkLib p e o)
  | _ => Throw
  end.
(** 43-50 *)
Definition options_members (p : assembler_options) : list (bytes * json) :=
  unless (is_nil (profile p)) [(s2b "PROFILE", JStr (profile p))] ++
  unless (is_nil (sysparm p)) [(s2b "SYSPARM", JStr (sysparm p))].
(** 51-60 *)
Definition options_from_json (j : json) : res assembler_options :=
  match j with
  | JObj _ =>
      do pr <- optional_member "PROFILE" j get_string [];
      do sp <- optional_member "SYSPARM" j get_string [];
      Ok (mkOpts sp pr)
  | _ => Throw
  end.
(** 62-67 *)
Definition group_to_json (p : processor_group) : json :=
  JObj ([(s2b "name", JStr (name p)); (s2b "libs", JArr (map library_to_json (libs p)))] ++
        unless (is_nil (options_members (asm_options p))) [(s2b "asm_options", JObj (options_members (asm_options p)))]).
(** 68-74 *)
Definition group_from_json (j : json) : res processor_group :=
  do j1 <- at_ "name" j;
  do n <- get_string j1;
  do j2 <- at_ "libs" j;
  do l <- get_vector library_from_json j2;
  do a <- optional_member "asm_options" j options_from_json (mkOpts [] []);
  Ok (mkGroup n l a).
(** 76-81 *)
Definition proc_to_json (p : proc_conf) : json :=
  JObj ([(s2b "pgroups", JArr (map group_to_json (pgroups p)))] ++
        unless (is_nil (macro_extensions p)) [(s2b "macro_extensions", strings (macro_extensions p))]).
(** 82-87 *)
Definition proc_from_json (j : json) : res proc_conf :=
  do j1 <- at_ "pgroups" j;
  do g <- get_vector group_from_json j1;
  do e <- optional_member "macro_extensions" j (get_vector get_string) [];
  Ok (mkProc g e).

(** ** pgm_conf.h *)
Record program_mapping := mkMap { program : bytes; pgroup : bytes }.
Record pgm_conf := mkPgm {
  pgms : list program_mapping; always_recognize : list bytes; diagnostics_suppress_limit : option Z }.

(** pgm_conf.cpp:21-30 *)
Definition mapping_to_json (p : program_mapping) : json :=
  JObj [(s2b "program", JStr (program p)); (s2b "pgroup", JStr (pgroup p))].
Definition mapping_from_json (j : json) : res program_mapping :=
  do j1 <- at_ "program" j;
  do p <- get_string j1;
  do j2 <- at_ "pgroup" j;
  do g <- get_string j2;
  Ok (mkMap p g).
(** 32-39 *)
Definition pgm_to_json (p : pgm_conf) : json :=
  JObj ([(s2b "pgms", JArr (map mapping_to_json (pgms p)))] ++
        unless (is_nil (always_recognize p)) [(s2b "alwaysRecognize", strings (always_recognize p))] ++
        match diagnostics_suppress_limit p with
        | Some n => [(s2b "diagnosticsSuppressLimit", JUInt n)]
        | None => []
        end).
(** 41-48 *)
Definition pgm_from_json (j : json) : res pgm_conf :=
  do j1 <- at_ "pgms" j;
  do l <- get_vector mapping_from_json j1;
  do a <- optional_member "alwaysRecognize" j (get_vector get_string) [];
  do d <- optional_member "diagnosticsSuppressLimit" j (fun x => do n <- get_unsigned x; Ok (Some n)) None;
  Ok (mkPgm l a d).
