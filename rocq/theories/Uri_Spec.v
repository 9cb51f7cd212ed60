(** What a URI says: names of files in percent encoding. *)
From Coq Require Import String List NArith Bool.
From Verif Require Import Common.
Import ListNotations.
Open Scope list_scope.
Open Scope N_scope.

(** a hexadecimal digit, of either case, and its value *)
Inductive hex : N -> N -> Prop :=
| HexD d : d <= 9 -> hex (48 + d) d
| HexU d : 10 <= d <= 15 -> hex (65 + (d - 10)) d
| HexL d : 10 <= d <= 15 -> hex (97 + (d - 10)) d.

(** [writes e p]: [e] is a way to write [p] in the path of a URI: a byte as itself, unless it is the percent sign,
    ? or #, or as % and its number *)
Inductive writes : bytes -> bytes -> Prop :=
| WNil : writes [] []
| WSelf c e p : c <> 37 -> c <> 63 -> c <> 35 -> writes e p -> writes (c :: e) (c :: p)
| WHex h l a b e p : hex h a -> hex l b -> writes e p -> writes (37 :: h :: l :: e) (16 * a + b :: p).

(** the absolute name of a file: /name/.../name, without the names . and .. *)
Definition a_name (n : bytes) : Prop := n <> [] /\ ~ In 47 n /\ n <> [46] /\ n <> [46; 46].
Definition spelled (names : list bytes) : bytes := flat_map (fun n => 47 :: n) names.
Definition file_name (p : bytes) : Prop := exists names, names <> [] /\ Forall a_name names /\ p = spelled names.

(** [u] is a URI of the local file [p] *)
Definition uri_of (u p : bytes) : Prop := exists e, u = s2b "file://" ++ 47 :: e /\ writes (47 :: e) p.
Definition byte_string (p : bytes) : Prop := Forall (fun c => c < 256) p.

(** going along names from a directory, which is the list of names that lead to it; the root is above itself *)
Inductive walk : list bytes -> list bytes -> list bytes -> Prop :=
| WalkStop d : walk d [] d
| WalkStay d n r d' : n = [] \/ n = [46] -> walk d r d' -> walk d (n :: r) d'
| WalkUp d r d' : walk (removelast d) r d' -> walk d ([46; 46] :: r) d'
| WalkDown d n r d' : a_name n -> walk (d ++ [n]) r d' -> walk d (n :: r) d'.
