(** What a location counter should do, once all lengths are known: a current location and a
    high-water mark. *)
From Coq Require Import List ZArith Bool Arith.
From Verif Require Import Loctr_Model.
Import ListNotations.
Local Open Scope Z_scope.

(** The lengths the spaces finally get. *)
Definition lengths := nat -> Z.
Fixpoint total (p : lengths) (l : list (space * Z)) : Z :=
  match l with [] => 0 | (s, _) :: l' => p (sid s) + total p l' end.
(** The location a piece of location counter data stands for. *)
Definition loc_data (p : lengths) (d : data) : Z := storage d + total p (parts d).
Definition loc (p : lengths) (l : loctr) : Z := loc_data p (curr l).
Fixpoint target_total (p : lengths) (l : list (nat * Z)) : Z :=
  match l with [] => 0 | (i, n) :: l' => n * p i + target_total p l' end.
Definition target_loc (p : lengths) (t : target) : Z := t_offset t + target_total p (t_spaces t).
Fixpoint ids_total (p : lengths) (l : list nat) : Z := match l with [] => 0 | i :: l' => p i + ids_total p l' end.
Definition candidate_loc (p : lengths) (c : candidate) : Z := snd c + ids_total p (fst c).

(** The least distance to a location that is [byte] above a multiple of the boundary. *)
Definition skip (c byte boundary : Z) : Z := (byte - c) mod boundary.
Definition align_up (v b : Z) : Z := if b =? 0 then v else v + skip v 0 b.

(** Statements: storage of known length, storage of a length known only later, ORG to a known
    address, ORG to an address known only later, ORG without address. *)
Inductive op :=
| Reserve (n : Z) (a : alignment)
| Pending (a : alignment) (len : Z)
| Org (t : target) (b o : Z)
| OrgLater (t : target) (v b o : Z)
| OrgMax (b o : Z).

(** The specified location after a statement. *)
Definition moved (p : lengths) (o : op) (c h : Z) : Z :=
  match o with
  | Reserve n a => c + skip c (byte a) (boundary a) + n
  | Pending a len => c + len
  | Org t b o => align_up (target_loc p t) b + o
  | OrgLater t v b o => align_up v b + o
  | OrgMax b o => align_up h b + o
  end.
Definition spec_step (p : lengths) (o : op) (ch : Z * Z) : Z * Z :=
  let c' := moved p o (fst ch) (snd ch) in (c', Z.max (snd ch) c').
Definition spec_run (p : lengths) (os : list op) (ch : Z * Z) : Z * Z :=
  fold_left (fun s o => spec_step p o s) os ch.

(** One statement executed by the code, when every space it creates finally gets the length that
    the resolution code computes for it. *)
Inductive exec (p : lengths) : loctr -> op -> loctr -> Prop :=
| XReserve l n a l' sp : reserve l n a = (l', sp) ->
    (forall s, sp = Some s -> p (sid s) = alignment_length a (loc p l)) -> exec p l (Reserve n a) l'
| XPending l a len l' s : register_ordinary l a = (l', s) -> p (sid s) = len -> exec p l (Pending a len) l'
| XOrg l t b o l' sp : org l t b o false = Some (l', sp) ->
    (forall s, sp = Some s ->
       p (sid s) = match skind_of s with
                   | Alignment => alignment_length (mkAl 0 b) (target_loc p t)
                   | _ => set_length (target_loc p t) b o
                   end) -> exec p l (Org t b o) l'
| XOrgLater l t v b o l' s : org l t b o true = Some (l', Some s) -> p (sid s) = set_length v b o ->
    exec p l (OrgLater t v b o) l'
| XOrgMax l b o l' al mx : org_available l b o = (l', al, mx) ->
    (forall s, al = Some s -> p (sid s) = alignment_length (mkAl 0 b) (loc p (fst (set_available_value l)))) ->
    (forall s cs, mx = Some (s, cs) -> p (sid s) = max_length (map (candidate_loc p) cs) b o) ->
    exec p l (OrgMax b o) l'.
Definition pow2 (b : Z) : Prop := exists k, 0 <= k /\ b = 2 ^ k.
(** The restrictions under which the code is right, for a statement executed in state [l] at
    specified location [c] with high-water mark [h]. *)
Definition entries (l : loctr) : list data := curr l :: older l.
Definition sound_op (p : lengths) (l : loctr) (o : op) (c h : Z) : Prop :=
  match o with
  | Reserve n a => 0 <= n /\ byte a = 0 /\ pow2 (boundary a)
  | Pending a len =>
      (* the area ends on the boundary it starts on *)
      0 <= len /\ byte a = 0 /\ pow2 (boundary a) /\ (c + len) mod boundary a = 0
  | Org t b o =>
      (* a negative displacement is applied only when going back *)
      (b = 0 \/ pow2 b) /\ (0 <= o \/ target_loc p t < c) /\ 0 <= moved p (Org t b o) c h
  | OrgLater t v b o => (b = 0 \/ pow2 b) /\ 0 <= moved p (OrgLater t v b o) c h
  | OrgMax b o =>
      (* in a location counter other than the first one: no boundary, no earlier jump out of the
         area after the last pending length *)
      (b = 0 \/ pow2 b) /\ 0 <= o /\
      (starting l = true \/
       (b = 0 /\ forall d, In d (entries l) -> exists s, first_space d = Some s /\ skind_of s = LoctrBegin))
  end.

(** Sound executions of statement lists, and the location and high-water mark they should lead to. *)
Inductive runs (p : lengths) : loctr -> Z * Z -> list op -> loctr -> Z * Z -> Prop :=
| RNil l ch : runs p l ch [] l ch
| RCons l ch o l1 os l2 ch2 : exec p l o l1 -> sound_op p l o (fst ch) (snd ch) ->
    runs p l1 (spec_step p o ch) os l2 ch2 -> runs p l ch (o :: os) l2 ch2.
