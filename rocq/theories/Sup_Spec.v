(** Which diagnostics of a program without configuration are shown, as a function of what happened. *)
From Coq Require Import String List NArith ZArith Bool.
From Verif Require Import Common Cfg_Model Sup_Model.
Import ListNotations.
Open Scope list_scope.
Open Scope Z_scope.

(** The value of the last event that [pick] picks. *)
Definition latest {A} (pick : event -> option A) (h : list event) : option A :=
  fold_left (fun acc e => match pick e with Some x => Some x | None => acc end) h None.

(** What the configuration of the workspace says, and what the settings of the editor say; settings that
    are not a number are as if they had not been sent. *)
Definition conf_says (e : event) : option (option Z) :=
  match e with Loaded c _ => Some (diagnostics_suppress_limit c) | _ => None end.
Definition number (j : json) : option Z :=
  match j with JUInt n => Some n | JInt n => Some n | JFloat n => Some n | _ => None end.
Definition editor_says (e : event) : option (option Z) :=
  match e with
  | Settings (j :: _) =>
      match j with
      | JObj o =>
          match List.find (fun m => bytes_eqb (s2b "diagnosticsSuppressLimit") (fst m)) o with
          | None => Some None
          | Some (_, x) => match number x with Some n => Some (Some (Z.max 0 n)) | None => None end
          end
      | _ => Some None
      end
  | _ => None
  end.
(** The workspace goes before the editor, the editor before the default. *)
Definition limit_after (h : list event) : Z :=
  match latest conf_says h with
  | Some (Some n) => n
  | _ => match latest editor_says h with Some (Some n) => n | _ => 10 end
  end.

(** The analysis [e], after [h], is one whose diagnostics are not shown. *)
Definition too_many (h : list event) (f : file) (e : event) : Prop :=
  exists deps after, e = Analysed f deps after false true /\ limit_after h < Z.of_nat (length (after f)).
(** The user is to be told again about [f]: it was closed, or its diagnostics were shown. *)
Definition starts_anew (h : list event) (f : file) (e : event) : Prop :=
  (exists after, e = Closed f after) \/
  (exists deps after implicit, e = Analysed f deps after false implicit) /\ ~ too_many h f e.
(** The user knows: there was an analysis with too many diagnostics and nothing started anew since. *)
Definition knows (h : list event) (f : file) : Prop :=
  exists a e b, h = a ++ e :: b /\ too_many a f e /\
    forall b1 e1 b2, b = b1 ++ e1 :: b2 -> ~ starts_anew (a ++ e :: b1) f e1.

(** Numbers that int64_t holds *)
Definition proper (e : event) : Prop :=
  forall j r o x, e = Settings (j :: r) -> j = JObj o -> In (s2b "diagnosticsSuppressLimit", x) o ->
    forall n, number x = Some n -> - 2 ^ 63 <= n < 2 ^ 63.
