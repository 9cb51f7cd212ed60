(** The shapes of the configuration files. *)
From Coq Require Import String List NArith ZArith Bool.
From Verif Require Import Common Cfg_Model.
Import ListNotations.
Open Scope list_scope.
Open Scope Z_scope.

(** [k] is a member of the object with the value [j]; it is not a member. *)
Definition member (o : list (bytes * json)) (k : string) (j : json) : Prop :=
  exists a b, o = a ++ (s2b k, j) :: b /\ ~ In (s2b k) (map fst a).
Definition absent (o : list (bytes * json)) (k : string) : Prop := ~ In (s2b k) (map fst o).
(** A member that has to be of a shape, and one that may be missing. *)
Definition has {A} (o : list (bytes * json)) (k : string) (shape : json -> A -> Prop) (x : A) : Prop :=
  exists j, member o k j /\ shape j x.
Definition may_have {A} (o : list (bytes * json)) (k : string) (shape : json -> A -> Prop) (default x : A) : Prop :=
  has o k shape x \/ absent o k /\ x = default.

Definition text (j : json) (s : bytes) : Prop := j = JStr s.
Definition truth (j : json) (b : bool) : Prop := j = JBool b.
Definition array {A} (shape : json -> A -> Prop) (j : json) (xs : list A) : Prop :=
  exists l, j = JArr l /\ Forall2 shape l xs.

Inductive library_shape : json -> library -> Prop :=
| L_path p : library_shape (JStr p) (mkLib p [] false)
| L_object o p e b : has o "path" text p -> may_have o "optional" truth false b ->
    may_have o "macro_extensions" (array text) [] e -> library_shape (JObj o) (mkLib p e b).
Inductive options_shape : json -> assembler_options -> Prop :=
| O_object o s p : may_have o "PROFILE" text [] p -> may_have o "SYSPARM" text [] s ->
    options_shape (JObj o) (mkOpts s p).
Inductive group_shape : json -> processor_group -> Prop :=
| G_object o n l a : has o "name" text n -> has o "libs" (array library_shape) l ->
    may_have o "asm_options" options_shape (mkOpts [] []) a -> group_shape (JObj o) (mkGroup n l a).
Inductive proc_shape : json -> proc_conf -> Prop :=
| P_object o g e : has o "pgroups" (array group_shape) g -> may_have o "macro_extensions" (array text) [] e ->
    proc_shape (JObj o) (mkProc g e).

Inductive mapping_shape : json -> program_mapping -> Prop :=
| M_object o p g : has o "program" text p -> has o "pgroup" text g -> mapping_shape (JObj o) (mkMap p g).
(** A limit is a number that an unsigned int holds. *)
Definition limit (j : json) (n : option Z) : Prop := exists z, j = JUInt z /\ 0 <= z < 2 ^ 32 /\ n = Some z.
Inductive pgm_shape (limit : json -> option Z -> Prop) : json -> pgm_conf -> Prop :=
| Q_object o l a d : has o "pgms" (array mapping_shape) l -> may_have o "alwaysRecognize" (array text) [] a ->
    may_have o "diagnosticsSuppressLimit" limit None d -> pgm_shape limit (JObj o) (mkPgm l a d).
