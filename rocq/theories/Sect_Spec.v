(** What a user expects of sections, location counters and symbol definitions, said without the
    functions of Sect_Model.v. *)
From Coq Require Import ZArith Bool Arith List.
From Verif Require Import Sect_Model.
Import ListNotations.

Section Spec.
  Variable L : Type.
  Variable fresh : bool -> L.
  Variable A : Type.
  Variable here : nat -> nat -> L -> A.
  Variable no_align : L -> L.
  Notation st := (st L A).
  Notation entry := (entry A).
  Notation expr := (expr A).
  Notation operand := (operand L A).
  Notation stmt := (stmt L A).

  (** Counter [j] of section [i]. *)
  Definition counter (x : st) (i j : nat) (c : ctr L) : Prop :=
    exists s, nth_error (secs x) i = Some s /\ nth_error (s_ctrs s) j = Some c.
  Definition current (x : st) (i j : nat) : Prop :=
    exists s, cur x = Some i /\ nth_error (secs x) i = Some s /\ s_cur s = j.
  (** Where the next storage goes: the current counter, or the start of the private section when no
      section has been started yet. *)
  Definition next_at (x : st) (i j : nat) (l : L) : Prop :=
    (cur x = None /\ i = length (secs x) /\ j = 0 /\ l = fresh true)
    \/ (current x i j /\ exists c, counter x i j c /\ c_at c = l).
  Definition defined (x : st) (n : name) : Prop := exists e, find_sym (syms x) n = Some e.
  Definition has_section (x : st) (n : name) (k : skind) : Prop := exists s, In s (secs x) /\ s_name s = n /\ s_kind s = k.
  (** The private section, if it is about to be created, brings the counter without a name. *)
  Definition has_ctr (x : st) (n : name) : Prop := (exists i j c, counter x i j c /\ c_name c = n) \/ (cur x = None /\ n = 0).

  (** The operand expression waits for something. *)
  Definition waits (e : expr) : Prop := x_syms e = true \/ x_refs e = true \/ (x_unres e <> None /\ x_spaces e = true).
  Definition equ_value (e : expr) (v : value A) : Prop :=
    (~ waits e /\ v = x_val e)
    \/ (waits e /\ exists u, x_syms e = false /\ x_unres e = Some u /\ x_based e = true /\ v = VReloc u)
    \/ (waits e /\ (x_syms e = true \/ x_unres e = None \/ x_based e = false) /\ v = VUndef).
  (** The second and the third operand: absolute, known, in range. *)
  Definition given (o : option operand) (hi : Z) (x : st) (z : Z) : Prop :=
    exists f, o = Some (OExpr f) /\ ~ waits (f x) /\ x_val (f x) = VAbs z /\ (0 <= z <= hi)%Z.
  Definition absent (o : option operand) : Prop := o = None \/ o = Some OEmpty.
  (** The length attribute of the leftmost symbol of the value, [1] otherwise. *)
  Definition own_length (e : expr) (x : st) (l : option Z) : Prop :=
    (exists m y, x_left e = Some m /\ find_sym (syms x) m = Some y /\ e_value y <> VUndef /\ l = t_length (e_attrs y))
    \/ ((forall m y, x_left e = Some m -> find_sym (syms x) m = Some y -> e_value y = VUndef) /\ l = Some 1%Z).
  Definition equ_attrs (ops : list operand) (e : expr) (x : st) (a : attrs) : Prop :=
    t_origin a = EQU
    /\ ((exists z, given (nth_error ops 2) 255 x z /\ t_type a = TNum z)
        \/ ((forall z, ~ given (nth_error ops 2) 255 x z) /\ t_type a = TU))
    /\ ((exists z, given (nth_error ops 1) 65535 x z /\ t_length a = Some z)
        \/ ((forall z, ~ given (nth_error ops 1) 65535 x z) /\ own_length e x (t_length a))).

  (** Statement [s], processed in [x], defines [n] as [e]. *)
  Inductive defines : stmt -> st -> name -> entry -> Prop :=
  | D_sect x k n p : ~ has_section x n k ->
      defines (SSect k n p) x n (mkE (VReloc (here (length (secs x)) 0 (fresh true))) (mkAttrs SECT TJ (Some 1%Z)) p)
  | D_loctr x n p i j l w : ~ has_ctr x n -> next_at x i j l ->
      ((cur x = None /\ w = 1) \/ exists s, nth_error (secs x) i = Some s /\ w = length (s_ctrs s)) ->
      defines (SLoctr n p) x n (mkE (VReloc (here i w (fresh false))) (mkAttrs SECT TJ (Some 1%Z)) p)
  | D_equ x b n ops p f v a : n <> 0 -> nth_error ops 0 = Some (OExpr f) -> equ_value (f x) v -> equ_attrs ops (f x) x a ->
      defines (SEqu b n ops p) x n (mkE v a p)
  | D_mach x n len al re p i j l : n <> 0 -> next_at x i j l ->
      defines (SMach n len al re p) x n (mkE (VReloc (here i j (al l))) (mkAttrs MACH TI (Some len)) p)
  | D_data x n a al re p i j l : n <> 0 -> next_at x i j l ->
      defines (SData n true a al re p) x n (mkE (VReloc (here i j (al l))) a p)
  | D_org x n ops p i j l : n <> 0 -> next_at x i j l ->
      defines (SOrg n ops p) x n (mkE (VReloc (here i j (no_align l))) (mkAttrs SECT TU None) p)
  | D_extrn x n ns p i j l : next_at x i j l ->
      defines (SExtrn (Some n :: ns) p) x n (mkE (VReloc (here i j (no_align l))) (mkAttrs SECT TT (Some 1%Z)) p).

  (** What can happen to an entry afterwards: a value or a length that is not known becomes known. *)
  Definition later (e e' : entry) : Prop :=
    e_place e' = e_place e /\ t_origin (e_attrs e') = t_origin (e_attrs e) /\ t_type (e_attrs e') = t_type (e_attrs e)
    /\ (e_value e' = e_value e \/ e_value e = VUndef)
    /\ (t_length (e_attrs e') = t_length (e_attrs e) \/ t_length (e_attrs e) = None).

  (** The statement is another definition of its label. *)
  Definition redefines (s : stmt) (x : st) : Prop :=
    match s with
    | SSect k n _ => defined x n /\ ~ has_section x n k
    | SLoctr n _ => defined x n /\ ~ has_ctr x n
    | SEqu _ n _ _ | SMach n _ _ _ _ | SOrg n _ _ => n <> 0 /\ defined x n
    | SData n first _ _ _ _ => n <> 0 /\ first = true /\ defined x n
    | SExtrn _ _ | SOther => False
    end.
  Definition unlabelled (s : stmt) : stmt :=
    match s with
    | SMach _ len al re p => SMach 0 len al re p
    | SData _ b a al re p => SData 0 b a al re p
    | SOrg _ ops p => SOrg 0 ops p
    | s => s
    end.

  (** The operands of ORG. *)
  Definition power_of_two (z : Z) : Prop := exists k, (1 <= k <= 12)%Z /\ z = (2 ^ k)%Z.
  Definition known_abs (e : expr) (z : Z) : Prop := ~ waits e /\ x_val e = VAbs z.
  Definition right (i : nat) (e : expr) : Prop :=
    match i with
    | 0 => x_unres e <> None
    | 1 => exists z, known_abs e z /\ power_of_two z
    | 2 => exists z, known_abs e z
    | _ => True
    end.
  (** Operand [i] is where reading stops; everything in front of it is right. *)
  Definition readable (o : operand) (i : nat) (x : st) : Prop := o = OEmpty \/ exists f, o = OExpr f /\ right i (f x).
  Definition all_readable (ops : list operand) (x : st) : Prop := forall i o, nth_error ops i = Some o -> readable o i x.
  Definition wrong_at (ops : list operand) (x : st) (i : nat) : Prop :=
    exists f, nth_error ops i = Some (OExpr f) /\ ~ right i (f x) /\ all_readable (firstn i ops) x.
  Definition cut_at (ops : list operand) (x : st) (i : nat) : Prop :=
    nth_error ops i = Some ONoExpr /\ all_readable (firstn i ops) x.
  Definition number (ops : list operand) (i : nat) (x : st) (z : Z) : Prop :=
    (exists f, nth_error ops i = Some (OExpr f) /\ x_val (f x) = VAbs z) \/ (absent (nth_error ops i) /\ z = 0%Z).
  (** The address an ORG operand stands for. *)
  Definition target (e : expr) (a : A) : Prop :=
    (x_syms e = true \/ x_refs e = true) /\ x_unres e = Some a \/ (x_syms e = false /\ x_refs e = false /\ x_val e = VReloc a).

  (** States that can be reached. *)
  Record wf (x : st) : Prop := {
    w_none : cur x = None -> secs x = [];
    w_cur : forall i, cur x = Some i -> exists s, nth_error (secs x) i = Some s;
    w_ctr : forall i s, nth_error (secs x) i = Some s -> exists c, nth_error (s_ctrs s) (s_cur s) = Some c;
    w_first : forall i s, nth_error (secs x) i = Some s -> exists c, nth_error (s_ctrs s) 0 = Some c /\ c_name c = s_name s;
    w_label : forall i j c, counter x i j c -> c_name c <> 0 ->
      exists e, find_sym (syms x) (c_name c) = Some e /\ e_value e = VReloc (here i j (fresh (Nat.eqb j 0)))
             /\ e_attrs e = mkAttrs SECT TJ (Some 1%Z);
    w_uniq : forall i j c i' j' c', counter x i j c -> counter x i' j' c' -> c_name c = c_name c' -> c_name c <> 0 ->
      i = i' /\ j = j'
  }.
End Spec.
