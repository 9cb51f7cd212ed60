(** * Cag_Loose: what is written, strictly or not, has a reading *)
From Coq Require Import List NArith ZArith Bool Arith Lia.
From Coq Require Import ZifyBool ZifyNat.
From Verif Require Import Common Cag_Model Cag_Spec Cag_Proof.
Import ListNotations.

Section Loose.
Variable R : Type.
Local Notation orelse := (orelse R).

Lemma ok_left : forall a b, a <> None -> orelse a b <> None.
Proof. intros [y|] b H; [discriminate|now destruct H]. Qed.
Lemma ok_right : forall a b, b <> None -> orelse a b <> None.
Proof. intros [y|] b H; [discriminate|exact H]. Qed.
Lemma ok_spaces : forall i r k, k r <> None -> spaces R (blanks i ++ r) k <> None.
Proof.
  induction i as [|i IH]; intros r k H; cbn.
  - destruct r as [|[] r]; try exact H. cbn. now apply ok_right.
  - now apply ok_left, IH.
Qed.
Lemma ok_opt_space : forall i r k, i <= 1 -> k r <> None -> opt_space R (blanks i ++ r) k <> None.
Proof.
  intros [|[|i]] r k Hi H; [| |lia]; cbn.
  - destruct r as [|[] r]; try exact H. cbn. now apply ok_right.
  - now apply ok_left.
Qed.

Definition can {A} (f : nat -> list tok -> (A -> list tok -> option R) -> option R) (bound : nat) (v : A) (p : list tok) : Prop :=
  forall n rest k, bound <= n -> k v rest <> None -> f n (p ++ rest) k <> None.

Ltac len := do 4 (rewrite ?app_length in *; cbn [length] in *); lia.

Lemma loosely :
  (forall d e p, sum true d e p -> can (expr R) (10 * length p) e p) /\
  (forall d e x p, sums true d e x p -> can (fun n => sum_loop R n e) (10 * length p + 1) x p) /\
  (forall d e p, prod true d e p -> can (Cag_Model.prod R) (10 * length p - 1) e p) /\
  (forall d e x p, prods true d e x p -> can (fun n => prod_loop R n e) (10 * length p + 1) x p) /\
  (forall d e p, unary true d e p -> can (Cag_Model.unary R) (10 * length p - 2) e p) /\
  (forall d e p, term true d e p -> can (Cag_Model.term R) (10 * length p - 3) e p) /\
  (forall l p, plist true l p -> can (expr_list R) (10 * length p - 4) (XList l) p) /\
  (forall l p, items true l p -> forall m,
     can (fun n ts k => expr R n ts (fun e r => items_loop R n (m ++ [e]) r k)) (10 * length p) (m ++ l) p) /\
  (forall d e p, str true d e p -> can (string_b R) (10 * length p - 5) e p) /\
  (forall e x p, strs true e x p -> can (fun n => string_loop R n e) (10 * length p + 1) x p) /\
  (forall d m p, dup true d m p -> can (dupl R) (10 * length p + 1) m p) /\
  (forall u p, substr true u p -> can (substring R) (10 * length p + 1) u p) /\
  (forall l p, args true l p -> can (subscript_ne R) (10 * length p) l p) /\
  (forall l p, subscript true l p -> can (Cag_Model.subscript R) (10 * length p + 1) l p) /\
  (forall l p, commas true l p -> forall m, can (fun n => comma_list R n m) (10 * length p + 1) (m ++ l) p).
Proof.
  destruct (shape true) as (Ssum & _ & Sprod & _ & Sun & Sterm & _ & Sitems & Sstr & _).
  assert (L : forall p, starts p -> 1 <= length p) by (intros [|t p] H; [destruct H|cbn; lia]).
  apply written_ind.
  - intros d y a e b Wa Ha Wb Hb n rest k N E. apply Sprod in Wa as [_ Sa]. apply L in Sa.
    destruct n as [|n]; [len|]. cbn [expr]. rewrite <- app_assoc. apply Ha; [len|]. apply Hb; [len|exact E].
  - intros d e n rest k N E. destruct n as [|n]; [len|]. cbn [app sum_loop].
    destruct rest as [|[] rest]; try exact E; now apply ok_right.
  - intros d acc y a e b Wa Ha Wb Hb n rest k N E. destruct n as [|n]; [len|]. cbn [app sum_loop].
    rewrite <- app_assoc. apply ok_left. apply Ha; [len|]. apply Hb; [len|exact E].
  - intros d acc y a e b Wa Ha Wb Hb n rest k N E. destruct n as [|n]; [len|]. cbn [app sum_loop].
    rewrite <- app_assoc. apply ok_left. apply Ha; [len|]. apply Hb; [len|exact E].
  - intros d y a e b Wa Ha Wb Hb n rest k N E. apply Sun in Wa as [_ Sa]. apply L in Sa.
    destruct n as [|n]; [len|]. cbn [Cag_Model.prod]. rewrite <- app_assoc. apply Ha; [len|]. apply Hb; [len|exact E].
  - intros d e n rest k N E. destruct n as [|n]; [len|]. cbn [app prod_loop].
    destruct rest as [|[] rest]; try exact E; now apply ok_right.
  - intros d acc y a e b Wa Ha Wb Hb n rest k N E. destruct n as [|n]; [len|]. cbn [app prod_loop].
    rewrite <- app_assoc. apply ok_left. apply Ha; [len|]. apply Hb; [len|exact E].
  - intros d acc y a e b Wa Ha Wb Hb n rest k N E. destruct n as [|n]; [len|]. cbn [app prod_loop].
    rewrite <- app_assoc. apply ok_left. apply Ha; [len|]. apply Hb; [len|exact E].
  - intros d e a Wa Ha n rest k N E. assert (Sa : starts a) by (apply Sterm in Wa; apply Wa). assert (Sl := L _ Sa).
    destruct n as [|n]; [len|].
    assert (T : Cag_Model.term R n (a ++ rest) k <> None) by (apply Ha; auto; len). cbn [Cag_Model.unary].
    inversion Wa; subst; try exact T;
      try match goal with H : plist _ _ _ |- _ => inversion H; subst; exact T end;
      try match goal with H : str _ _ _ _ |- _ => inversion H; subst end;
      match goal with H : dup _ _ _ _ |- _ => inversion H; subst; exact T end.
  - intros d e a Wa Ha n rest k N E. destruct n as [|n]; [len|]. cbn [app Cag_Model.unary].
    apply Sun in Wa as [_ Sa]. apply L in Sa. apply Ha; [len|exact E].
  - intros d e a Wa Ha n rest k N E. destruct n as [|n]; [len|]. cbn [app Cag_Model.unary].
    apply Sun in Wa as [_ Sa]. apply L in Sa. apply Ha; [len|exact E].
  - intros d l a Wa Ha n rest k N E. assert (Hl : expr_list R (n - 1) (a ++ rest) k <> None) by (apply Ha; auto; len).
    inversion Wa; subst. destruct n as [|n]; [len|]. cbn [app Cag_Model.term]. apply ok_left.
    replace (S n - 1) with n in Hl by lia. exact Hl.
  - intros d v l a Wa Ha n rest k N E. destruct n as [|n]; [len|]. cbn [app Cag_Model.term]. apply Ha; [len|exact E].
  - intros d y a e b Wa Ha Wb Hb n rest k N E.
    assert (Hs : ca_string R (n - 1) (a ++ b ++ rest) k <> None).
    { assert (Sa : starts a) by (apply Sstr in Wa; apply Wa). apply L in Sa.
      destruct n as [|[|n]]; [len|len|]. cbn [Nat.sub ca_string]. apply Ha; [len|]. apply Hb; [len|exact E]. }
    rewrite <- app_assoc. inversion Wa; subst.
    match goal with H : dup _ _ _ _ |- _ => inversion H; subst end.
    + destruct n as [|n]; [len|]. replace (S n - 1) with n in Hs by lia. exact Hs.
    + destruct n as [|n]; [len|]. replace (S n - 1) with n in Hs by lia. cbn [app Cag_Model.term].
      apply ok_right. now apply ok_left.
  - intros d a s n rest k N E. destruct n as [|n]; [len|]. exact E.
  - intros d a v l b Wb Hb n rest k N E. destruct n as [|n]; [len|]. cbn [app Cag_Model.term]. apply Hb; [len|exact E].
  - intros d v n rest k N E. destruct n as [|n]; [len|]. exact E.
  - intros d f m l a b Wa Ha Wb Hb n rest k N E.
    assert (Hs : function R (n - 1) (a ++ TId f :: b ++ rest) k <> None).
    { destruct n as [|[|n]]; [len|len|]. cbn [Nat.sub function]. apply Ha; [len|]. apply Hb; [len|exact E]. }
    rewrite <- app_assoc. cbn [app]. inversion Wa; subst.
    + destruct n as [|n]; [len|]. replace (S n - 1) with n in Hs by lia. cbn [app Cag_Model.term]. now apply ok_left.
    + destruct n as [|n]; [len|]. replace (S n - 1) with n in Hs by lia. cbn [app Cag_Model.term].
      apply ok_right. now apply ok_right.
  - intros d s n rest k N E. destruct n as [|n]; [len|]. cbn [app Cag_Model.term]. now apply ok_right.
  - intros i l a j Wa Ha n rest k N E. destruct n as [|n]; [len|]. cbn [app expr_list]. rewrite <- !app_assoc. cbn [app].
    apply ok_spaces. apply (Ha []); [len|]. cbn [app]. apply ok_spaces. exact E.
  - intros e a Wa Ha m n rest k N E. apply Ha; [len|]. apply Ssum in Wa as [_ Sa]. apply L in Sa.
    destruct n as [|n]; [len|]. cbn [items_loop]. now apply ok_right.
  - intros e a i l b Wa Ha Hi Wb Hb m n rest k N E. apply Ssum in Wa as [_ Sa]. apply L in Sa.
    rewrite <- !app_assoc. apply Ha; [len|]. destruct n as [|n]; [len|]. cbn [items_loop]. apply ok_left.
    apply ok_spaces. apply Hb; [len|]. now rewrite <- app_assoc.
  - intros d m s u a b Wa Ha Wb Hb n rest k N E. destruct n as [|n]; [len|]. cbn [string_b].
    rewrite <- app_assoc. apply Ha; [len|]. cbn [app]. apply Hb; [len|exact E].
  - intros e n rest k N E. destruct n as [|n]; [len|]. cbn [app string_loop].
    destruct rest as [|[] rest]; try exact E; now apply ok_right.
  - intros acc y a e b Wa Ha Wb Hb n rest k N E. destruct n as [|n]; [len|]. cbn [app string_loop].
    rewrite <- app_assoc. apply ok_left. apply Ha; [len|]. apply Hb; [len|exact E].
  - intros d n rest k N E. destruct n as [|n]; [len|]. cbn [app dupl].
    destruct rest as [|[] rest]; try exact E; now apply ok_right.
  - intros d e a Hd Wa Ha n rest k N E. destruct n as [|n]; [len|]. cbn [app dupl]. apply ok_left.
    rewrite <- app_assoc. apply Ha; [len|exact E].
  - intros n rest k N E. destruct n as [|n]; [len|]. cbn [app substring].
    destruct rest as [|[] rest]; try exact E. now do 2 apply ok_right.
  - intros e1 a e2 b Wa Ha Wb Hb n rest k N E. destruct n as [|n]; [len|]. cbn [app substring]. apply ok_left.
    rewrite <- app_assoc. cbn [app]. apply Ha; [len|]. rewrite <- app_assoc. apply Hb; [len|exact E].
  - intros e a Wa Ha n rest k N E. destruct n as [|n]; [len|]. cbn [app substring].
    rewrite <- app_assoc. cbn [app]. apply ok_right, ok_left. apply Ha; [len|exact E].
  - intros i e a j Hi Hj Wa Ha n rest k N E. destruct n as [|n]; [len|]. cbn [app subscript_ne]. apply ok_left.
    rewrite <- !app_assoc. cbn [app]. apply ok_opt_space; [exact Hi|]. apply Ha; [len|]. now apply ok_opt_space.
  - intros e a l b Wa Ha Wb Hb n rest k N E. destruct n as [|n]; [len|]. cbn [app subscript_ne].
    rewrite <- app_assoc. cbn [app]. apply ok_right. apply Ha; [len|]. rewrite <- app_assoc.
    apply (Hb [e]); [len|exact E].
  - intros n rest k N E. destruct n as [|n]; [len|]. cbn [app Cag_Model.subscript].
    destruct rest as [|[] rest]; try exact E; now apply ok_right.
  - intros l b Wb Hb n rest k N E. destruct n as [|n]; [len|]. cbn [app Cag_Model.subscript]. apply ok_left.
    rewrite <- app_assoc. apply (Hb []); [len|exact E].
  - intros e a Wa Ha m n rest k N E. destruct n as [|n]; [len|]. cbn [comma_list]. apply Ha; [len|].
    destruct rest as [|[] rest]; try exact E. now apply ok_right.
  - intros e a l b Wa Ha Wb Hb m n rest k N E. destruct n as [|n]; [len|]. cbn [comma_list]. rewrite <- app_assoc. cbn [app].
    apply Ha; [len|]. apply ok_left. apply Hb; [len|]. now rewrite <- app_assoc.
Qed.
End Loose.
