(** What the editor believes: the documents it has open, with their text. *)
From Coq Require Import List NArith.
From Verif Require Import Common Text_Model Ws_Model.
Import ListNotations.

Definition docs := uri -> option file.
Definition no_docs : docs := fun _ => None.
Definition set (d : docs) (u : uri) (f : option file) : docs :=
  fun v => if bytes_eqb v u then f else d v.

Definition editor_step (d : docs) (o : op) : docs :=
  match o with
  | Open u v t _ _ _ _ => set d u (Some (mkFile t (create_line_indices t) v))
  | Change u es _ _ _ _ =>
      match d u with
      | Some f => match apply_edits f es with Changed f' => set d u (Some f') | _ => d end
      | None => d
      end
  | Close u _ => set d u None
  | _ => d
  end.
Definition editor (ops : list op) : docs := fold_left editor_step ops no_docs.

(** The text an analysis was given for a file. *)
Fixpoint seen (u : uri) (l : list (uri * bytes)) : option bytes :=
  match l with
  | [] => None
  | (v, t) :: l' => if bytes_eqb u v then Some t else seen u l'
  end.

(** An editor that changes and closes only what it has open, while no analysis is cancelled;
    configuration files are not library members. *)
Definition calm_an (an : uri -> analysis) : Prop :=
  forall f, a_cancelled (an f) = false
    /\ forall d, In d (a_loads (an f) ++ a_visits (an f)) -> is_config d = false.
Definition calm_op (d : docs) (o : op) : Prop :=
  match o with
  | Open _ _ _ _ cancel an _ => cancel = false /\ calm_an an
  | Change u _ _ cancel an _ => d u <> None /\ cancel = false /\ calm_an an
  | Close u _ => d u <> None
  | Watched _ an _ => calm_an an
  | Query _ => True
  | Disk _ _ => True
  end.
Fixpoint calm (d : docs) (ops : list op) : Prop :=
  match ops with
  | [] => True
  | o :: ops' => calm_op d o /\ calm (editor_step d o) ops'
  end.

(** No other component holds a file object while it is opened, changed or closed. *)
Definition unshared_op (o : op) : Prop :=
  match o with
  | Open _ _ _ sh _ _ _ | Change _ _ sh _ _ _ | Close _ sh => sh = false
  | _ => True
  end.
