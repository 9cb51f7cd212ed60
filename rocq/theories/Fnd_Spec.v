(** * Fnd_Spec: what the paths of the configuration lead to *)
From Coq Require Import String List NArith Bool.
From Verif Require Import Common Uri_Spec Pth_Spec Conf_Spec Conf_Model.
Import ListNotations.
Open Scope list_scope.
Open Scope N_scope.

(** The configuration in force: the last one that was read; the readings of the group file after it failed. *)
Definition in_force (h : list (doc proc_conf * doc pgm_conf)) (pc : proc_conf) (pm : pgm_conf) : Prop :=
  exists h1 h2, h = h1 ++ (DOk pc, DOk pm) :: h2 /\ forall e, In e h2 -> fst e = DBad \/ fst e = DNotJson.
(** The first group of a name. *)
Definition group_of (pc : proc_conf) (g : bytes) (libs : list lib_conf) : Prop :=
  first_such (fun x => fst x = g) (pc_groups pc) (g, libs).
(** The directory that the path of a library leads to. *)
Inductive leads (ws : list bytes) : bytes -> list bytes -> Prop :=
| LeadsBelow p st d : ~ begins_with slash p -> text slash st p -> walk ws st d -> leads ws p d
| LeadsRoot p st d : text slash st p -> walk [] st d -> leads ws (47 :: p) d.
(** The extensions of a library: its own, else the common ones; [old]: those of the deprecated patterns, to which no
    extension is added. *)
Definition extensions (pc : proc_conf) (old : list bytes) (lc : lib_conf) : list bytes :=
  match lc_exts lc, pc_exts pc, old with
  | _ :: _, _, _ => lc_exts lc
  | [], _ :: _, _ => pc_exts pc
  | [], [], [] => []
  | [], [], _ :: _ => old ++ [[]]
  end.
