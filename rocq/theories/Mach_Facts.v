(** Facts about the tables of machine instructions and extended mnemonics, by computation. *)
From Coq Require Import ZArith Bool Arith String List Lia.
From Verif Require Import Mach_Model Mach_Table Mach_Spec Mach_Proof Mach_Stmt.
Import ListNotations.
Local Open Scope Z_scope.

Definition absent_b (p : parameter) : bool :=
  negb (p_signed p) && (p_size p =? 0) && op_type_eqb (p_type p) NONE.
Definition type_in (t : op_type) (l : list op_type) : bool := existsb (op_type_eqb t) l.
Definition sane_b (f : op_format) : bool :=
  (0 <? p_size (f_id f)) &&
  (if absent_b (f_second f) then
     absent_b (f_first f) &&
     (if p_signed (f_id f) then type_in (p_type (f_id f)) [IMM; REG_IMM]
      else type_in (p_type (f_id f)) [REG; MASK; IMM; VEC_REG])
   else (0 <? p_size (f_second f)) &&
     (absent_b (f_first f) ||
      negb (p_signed (f_first f)) && (0 <? p_size (f_first f)) &&
      type_in (p_type (f_first f)) [LENGTH; DIS_REG; REG; VEC_REG])).

Lemma type_eqb : forall a b, op_type_eqb a b = true -> a = b.
Proof. intros a b. destruct a; destruct b; cbn; intros H; try discriminate H; reflexivity. Qed.
Lemma type_in_In : forall t l, type_in t l = true -> In t l.
Proof.
  intros t l H. apply existsb_exists in H. destruct H as (x & H & E). apply type_eqb in E. now subst.
Qed.
Lemma absent_b_iff : forall p, absent_b p = true <-> absent p.
Proof.
  intros [s n t]. unfold absent_b, absent. cbn [p_signed p_size p_type]. split.
  - rewrite !andb_true_iff. intros ((A & B) & C). apply type_eqb in C. apply Z.eqb_eq in B.
    destruct s; [discriminate A|]. now subst.
  - intros E. inversion E. reflexivity.
Qed.
Lemma sane_b_sane : forall f, sane_b f = true -> sane f.
Proof.
  intros f H. unfold sane_b in H. apply andb_prop in H. destruct H as (A & B). apply Z.ltb_lt in A.
  split; [exact A|]. destruct (absent_b (f_second f)) eqn:E2.
  - left. apply andb_prop in B. destruct B as (B & C). apply absent_b_iff in B. apply absent_b_iff in E2.
    split; [split; assumption|]. destruct (p_signed (f_id f)); [left|right]; (split; [reflexivity|now apply type_in_In]).
  - right. apply andb_prop in B. destruct B as (B & C). apply Z.ltb_lt in B. split; [exact B|].
    split; [intros X; apply absent_b_iff in X; congruence|]. apply orb_prop in C. destruct C as [C|C].
    + left. now apply absent_b_iff.
    + right. apply andb_prop in C. destruct C as (C & D). apply andb_prop in C. destruct C as (C & G).
      apply negb_true_iff in C. apply Z.ltb_lt in G. apply type_in_In in D. auto.
Qed.

Lemma instrs_sane : forall i, In i instrs -> Forall sane (i_ops i).
Proof.
  assert (H : forallb (fun i => forallb sane_b (i_ops i)) instrs = true) by (vm_compute; reflexivity).
  intros i Hi. rewrite forallb_forall in H. specialize (H i Hi). rewrite forallb_forall in H.
  apply Forall_forall. intros f Hf. now apply sane_b_sane, H.
Qed.

Lemma find_instr_in : forall l n i, find_instr l n = Some i -> In i l /\ i_name i = n.
Proof.
  intros l n i. induction l as [|x l IH]; cbn [find_instr]; intros H; [discriminate H|].
  destruct (String.eqb (i_name x) n) eqn:E.
  - inversion H. subst. apply String.eqb_eq in E. split; [now left|exact E].
  - destruct (IH H). split; [now right|assumption].
Qed.
Lemma find_mnem_in : forall l n m, find_mnem l n = Some m -> In m l /\ m_name m = n.
Proof.
  intros l n m. induction l as [|x l IH]; cbn [find_mnem]; intros H; [discriminate H|].
  destruct (String.eqb (m_name x) n) eqn:E.
  - inversion H. subst. apply String.eqb_eq in E. split; [now left|exact E].
  - destruct (IH H). split; [now right|assumption].
Qed.

(** The mnemonics by what happens to them. *)
Definition corrupting : list string := ["WFCSB"; "WFCDB"; "WFCXB"; "WFKSB"; "WFKDB"; "WFKXB"]%string.
Definition places_ok (m : mnem) (n : nat) : bool :=
  forallb (fun r => Nat.ltb (fst r) n) (m_replaced m) &&
  (fix nodup (l : list nat) : bool := match l with [] => true | x :: l' => negb (existsb (Nat.eqb x) l') && nodup l' end)
    (map fst (m_replaced m)).
Definition mnem_ok (m : mnem) : bool :=
  match find_instr instrs (m_instr m) with
  | None => false
  | Some i =>
      if existsb (String.eqb (m_name m)) corrupting
      then Nat.eqb (i_optional i) 0 && Nat.eqb (length (i_ops i)) 4 && Nat.eqb (length (m_replaced m)) 2 &&
           (match m_replaced m with [(3, _); (4, _)]%nat => true | _ => false end)
      else places_ok m (length (i_ops i) + i_optional i)
  end.
Lemma mnems_ok : forall m, In m mnems -> mnem_ok m = true.
Proof.
  assert (H : forallb mnem_ok mnems = true) by (vm_compute; reflexivity).
  rewrite forallb_forall in H. exact H.
Qed.
Lemma places_ok_spec : forall m n, places_ok m n = true ->
  NoDup (map fst (m_replaced m)) /\ Forall (fun r => (fst r < n)%nat) (m_replaced m).
Proof.
  intros m n H. unfold places_ok in H. apply andb_prop in H. destruct H as (A & B). split.
  - clear A. revert B. generalize (map fst (m_replaced m)). intros l. induction l as [|x l IH]; intros B; [constructor|].
    apply andb_prop in B. destruct B as (B & C). constructor; [|now apply IH].
    intros X. apply negb_true_iff in B. rewrite <- not_true_iff_false in B. apply B. apply existsb_exists.
    exists x. split; [exact X|apply Nat.eqb_refl].
  - rewrite forallb_forall in A. apply Forall_forall. intros r Hr. specialize (A r Hr). now apply Nat.ltb_lt.
Qed.
