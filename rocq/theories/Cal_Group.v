(** How the words of a condition are grouped. *)
From Coq Require Import String Ascii List NArith ZArith Bool Arith Lia ZifyBool ZifyNat ZifyN.
From Verif Require Import Common.
From Verif Require Ca_Model Exp_Model.
From Verif Require Import Grp_Model Grp_Spec Grp_Unique.
From Verif Require Import Cag_Model Caf_Model.
From Verif Require Caf_Spec.
From Verif Require Import Cal_Spec.
Import ListNotations.
Open Scope list_scope.
Notation length := List.length.

(** A condition as the parser has it: its terms, with their expressions. *)
Inductive pc :=
| PLeaf (cx : cexpr) (x : Exp_Model.expr)
| PRel (r : rel) (cx : cexpr) (x : Exp_Model.expr) (cy : cexpr) (y : Exp_Model.expr)
| PNot (p : pc)
| PJoin (o : joint) (n : bool) (l r : pc).

Definition relop (r : rel) : Ca_Model.op :=
  match r with Equal => Ca_Model.EQ | Unequal => Ca_Model.NE | AtMost => Ca_Model.LE | Less => Ca_Model.LT | AtLeast => Ca_Model.GE | More => Ca_Model.GT end.
Definition joinop (o : joint) (n : bool) : Ca_Model.op :=
  match o, n with
  | Both, false => Ca_Model.AND | Both, true => Ca_Model.AND_NOT
  | Either, false => Ca_Model.OR | Either, true => Ca_Model.OR_NOT
  | OneOf, false => Ca_Model.XOR | OneOf, true => Ca_Model.XOR_NOT
  end.
Definition nots (n : bool) : list cexpr := if n then [XSym not_word] else [].
Fixpoint cells (p : pc) : list cexpr :=
  match p with
  | PLeaf cx _ => [cx]
  | PRel r cx _ cy _ => [cx; XSym (rel_word r); cy]
  | PNot p => XSym not_word :: cells p
  | PJoin o n l r => cells l ++ XSym (joint_word o) :: nots n ++ cells r
  end.
Definition syms (l : list cexpr) : list Exp_Model.expr := map (fun c => match c with XSym n => Exp_Model.OrdSym n | _ => Exp_Model.Dot end) l.
Fixpoint exprs (p : pc) : list Exp_Model.expr :=
  match p with
  | PLeaf _ x => [x]
  | PRel r _ x _ y => [x; Exp_Model.OrdSym (rel_word r); y]
  | PNot p => Exp_Model.OrdSym not_word :: exprs p
  | PJoin o n l r => exprs l ++ Exp_Model.OrdSym (joint_word o) :: syms (nots n) ++ exprs r
  end.
Definition item_at (i : nat) (c : cexpr) : item := match c with XSym n => Sym n | _ => Term (N.of_nat i) end.
Fixpoint its (i : nat) (l : list cexpr) : list item := match l with [] => [] | c :: l => item_at i c :: its (S i) l end.
Fixpoint tree_at (i : nat) (p : pc) : tree :=
  match p with
  | PLeaf cx _ => Leaf (item_at i cx)
  | PRel r cx _ cy _ => Bin (relop r) (Leaf (item_at i cx)) (Leaf (item_at (S (S i)) cy))
  | PNot p => Un Ca_Model.NOT (tree_at (S i) p)
  | PJoin o n l r => Bin (joinop o n) (tree_at i l) (tree_at (i + length (cells l) + S (length (nots n))) r)
  end.
Fixpoint expr_of (p : pc) : Exp_Model.expr :=
  match p with
  | PLeaf _ x => x
  | PRel r _ x _ y => Exp_Model.Bin (relop r) KB x y
  | PNot p => Exp_Model.Un Ca_Model.NOT KB (expr_of p)
  | PJoin o n l r => Exp_Model.Bin (joinop o n) KB (expr_of l) (expr_of r)
  end.

Definition leaf_ok (cx : cexpr) (x : Exp_Model.expr) : Prop := term_of cx = Some x /\ cx <> XSym not_word.
Definition plevel (p : pc) : Z :=
  match p with PJoin Both _ _ _ => 2 | PJoin Either _ _ _ => 3 | PJoin OneOf _ _ _ => 4 | _ => 1 end%Z.
Definition psimple (p : pc) : Prop := match p with PLeaf _ _ | PRel _ _ _ _ _ => True | _ => False end.
Fixpoint ok (p : pc) : Prop :=
  match p with
  | PLeaf cx x => leaf_ok cx x
  | PRel _ cx x cy y => leaf_ok cx x /\ leaf_ok cy y
  | PNot p => plevel p = 1%Z /\ ok p
  | PJoin o n l r => (plevel l <= plevel (PJoin o n l r))%Z /\ psimple r /\ ok l /\ ok r
  end.

Lemma its_app : forall a b i, its i (a ++ b) = its i a ++ its (i + length a) b.
Proof.
  induction a as [|c a IH]; intros b i; cbn [its app length]; [now rewrite Nat.add_0_r|]. rewrite IH. do 3 f_equal. lia.
Qed.
Lemma leaf_item : forall i cx x, leaf_ok cx x -> item_of i cx = Some (item_at i cx).
Proof. intros i cx x (E & _). destruct cx; try reflexivity. discriminate. Qed.
Lemma items_its : forall l i, Forall (fun c => forall i, item_of i c = Some (item_at i c)) l -> items_of i l = Some (its i l).
Proof. intros l i H. revert i. induction H as [|c l H F IH]; intros i; [reflexivity|]. cbn [items_of its]. rewrite H, IH. reflexivity. Qed.
Lemma cells_items : forall p, ok p -> Forall (fun c => forall i, item_of i c = Some (item_at i c)) (cells p).
Proof.
  induction p as [cx x|r cx x cy y|p IH|o n l IHl r IHr]; cbn [ok cells].
  - intros H. constructor; [intros i; eapply leaf_item, H|constructor].
  - intros (H & H2). constructor; [intros i; eapply leaf_item, H|]. constructor; [reflexivity|]. constructor; [intros i; eapply leaf_item, H2|constructor].
  - intros (_ & H). constructor; [reflexivity|auto].
  - intros (_ & _ & Hl & Hr). apply Forall_app. split; [auto|]. constructor; [reflexivity|]. apply Forall_app. split; [|auto].
    destruct n; repeat constructor.
Qed.
Lemma all_app : forall A (a b : list (option A)) x y, all a = Some x -> all b = Some y -> all (a ++ b) = Some (x ++ y).
Proof.
  intros A a. induction a as [|o a IH]; intros b x y Ha Hb; [cbn in Ha; injection Ha as <-; exact Hb|]. cbn [app]. unfold all in *. cbn [fold_right] in *.
  destruct o as [v|]; [|discriminate]. destruct (fold_right _ _ a) as [vs|] eqn:E; [|discriminate]. injection Ha as <-. rewrite (IH b vs y eq_refl Hb). reflexivity.
Qed.
Lemma cells_terms : forall p, ok p -> all (map term_of (cells p)) = Some (exprs p).
Proof.
  induction p as [cx x|r cx x cy y|p IH|o n l IHl r IHr]; cbn [ok cells exprs].
  - intros (H & _). cbn. rewrite H. reflexivity.
  - intros ((H & _) & (H2 & _)). cbn. rewrite H, H2. reflexivity.
  - intros (_ & H). cbn [map]. specialize (IH H). unfold all in *. cbn [fold_right term_of]. rewrite IH. reflexivity.
  - intros (_ & _ & Hl & Hr). rewrite map_app. apply all_app; [auto|]. cbn [map]. change (term_of (XSym (joint_word o)) :: ?a) with ([term_of (XSym (joint_word o))] ++ a).
    apply (all_app _ _ _ [Exp_Model.OrdSym (joint_word o)]); [reflexivity|]. rewrite map_app. apply all_app; [destruct n; reflexivity|auto].
Qed.
Lemma exprs_length : forall p, length (exprs p) = length (cells p).
Proof.
  induction p as [cx x|r cx x cy y|p IH|o n l IHl r IHr]; cbn [cells exprs length]; auto.
  rewrite !app_length. cbn [length]. rewrite !app_length. unfold syms. rewrite map_length. lia.
Qed.
Lemma leaf_planted : forall pre cx x post, leaf_ok cx x -> planted KB (pre ++ x :: post) (Leaf (item_at (length pre) cx)) = Some x.
Proof.
  intros pre cx x post (H & _). assert (G : nth_error (pre ++ x :: post) (N.to_nat (N.of_nat (length pre))) = Some x).
  { rewrite Nat2N.id, nth_error_app2 by lia. rewrite Nat.sub_diag. reflexivity. }
  destruct cx; cbn [item_at planted]; try exact G. cbn in H. congruence.
Qed.
Lemma planted_bin : forall xs o a b, planted KB xs (Bin o a b) =
  match planted KB xs a, planted KB xs b with Some x, Some y => Some (Exp_Model.Bin o KB x y) | _, _ => None end.
Proof. reflexivity. Qed.
Lemma planted_un : forall xs o a, planted KB xs (Un o a) = match planted KB xs a with Some x => Some (Exp_Model.Un o KB x) | None => None end.
Proof. reflexivity. Qed.
Lemma tree_planted : forall p pre post, ok p -> planted KB (pre ++ exprs p ++ post) (tree_at (length pre) p) = Some (expr_of p).
Proof.
  induction p as [cx x|r cx x cy y|p IH|o n l IHl r IHr]; intros pre post; cbn [ok exprs tree_at expr_of].
  - intros H. now apply leaf_planted.
  - intros (H & H2). rewrite planted_bin. cbn [app]. rewrite (leaf_planted pre cx x _ H).
    replace (pre ++ x :: Exp_Model.OrdSym (rel_word r) :: y :: post) with ((pre ++ [x; Exp_Model.OrdSym (rel_word r)]) ++ y :: post) by (rewrite <- app_assoc; reflexivity).
    replace (S (S (length pre))) with (length (pre ++ [x; Exp_Model.OrdSym (rel_word r)])) by (rewrite app_length; cbn [length]; lia).
    rewrite (leaf_planted _ cy y post H2). reflexivity.
  - intros (_ & H). rewrite planted_un. cbn [app].
    replace (pre ++ Exp_Model.OrdSym not_word :: exprs p ++ post) with ((pre ++ [Exp_Model.OrdSym not_word]) ++ exprs p ++ post) by (rewrite <- app_assoc; reflexivity).
    replace (S (length pre)) with (length (pre ++ [Exp_Model.OrdSym not_word])) by (rewrite app_length; cbn [length]; lia).
    rewrite IH by exact H. reflexivity.
  - intros (_ & _ & Hl & Hr). rewrite planted_bin. rewrite <- app_assoc, IHl by exact Hl. cbn [app]. rewrite <- app_assoc.
    match goal with |- match planted _ ?xs _ with _ => _ end = _ =>
      replace xs with ((pre ++ exprs l ++ Exp_Model.OrdSym (joint_word o) :: syms (nots n)) ++ exprs r ++ post) end.
    2: { rewrite <- app_assoc. f_equal. rewrite <- app_assoc. f_equal. }
    match goal with |- match planted _ _ (tree_at ?i _) with _ => _ end = _ =>
      replace i with (length (pre ++ exprs l ++ Exp_Model.OrdSym (joint_word o) :: syms (nots n))) end.
    2: { rewrite !app_length. cbn [length]. unfold syms. rewrite map_length, exprs_length. lia. }
    rewrite IHr by exact Hr. reflexivity.
Qed.

(** ** Grouping *)
Open Scope Z_scope.
Definition next (m : Z) (r : list item) : Prop :=
  match r with [] => True | o :: r => exists b two, retrieve_binary_operator KB o r = Got (b, two) /\ m <= get_priority KB b end.
Lemma next_less : forall m m' r, m' <= m -> next m r -> next m' r.
Proof. intros m m' [|o r] L H; [exact I|]. destruct H as (b & two & E & H). exists b, two. split; [exact E|lia]. Qed.
Lemma leaf_unary : forall i cx x, leaf_ok cx x -> unary_at KB (item_at i cx) = None.
Proof.
  intros i cx x (_ & H). destruct cx as [|n| | | | | | | |]; try reflexivity.
  cbn [item_at unary_at]. destruct (is_unary KB (get_operator n)) eqn:U; [|reflexivity]. exfalso. apply H. f_equal.
  assert (G : get_operator n = Ca_Model.NOT) by (destruct (get_operator n); try discriminate; reflexivity). clear -G.
  unfold get_operator, operator_names in G. cbn [lookup] in G.
  repeat (match type of G with (if bytes_eqb n ?k then _ else _) = _ =>
    destruct (bytes_eqb n k) eqn:?; [try discriminate; apply bytes_eqb_eq; assumption|] end).
  discriminate.
Qed.
Lemma leaf_read : forall i cx x pri r, leaf_ok cx x -> next pri r ->
  retrieve_term KB (item_at i cx :: r) pri = Got (Leaf (item_at i cx), r).
Proof.
  intros i cx x pri r H Nx. destruct r as [|o r]; cbn [retrieve_term]; rewrite (leaf_unary i cx x H); [reflexivity|].
  destruct Nx as (b & two & E & P). rewrite E. replace (pri <=? get_priority KB b) with true by lia. reflexivity.
Qed.
Lemma rel_operator : forall r l, retrieve_binary_operator KB (Sym (rel_word r)) l = Got (relop r, false) /\ get_priority KB (relop r) = 0.
Proof. intros r l. destruct r; split; reflexivity. Qed.
Lemma read_step : forall i cx x o b r pri, leaf_ok cx x -> retrieve_binary_operator KB o r = Got (b, false) -> get_priority KB b < pri ->
  retrieve_term KB (item_at i cx :: o :: r) pri =
  match retrieve_term KB r (get_priority KB b) with Got (t, r') => Got (Bin b (Leaf (item_at i cx)) t, r') | Err d => Err d end.
Proof.
  intros i cx x o b r pri H E P. cbn [retrieve_term]. rewrite (leaf_unary i cx x H), E. replace (pri <=? get_priority KB b) with false by lia. reflexivity.
Qed.
(** An operand behind AND and so on, or behind NOT. *)
Lemma operand_read : forall p i r pri, ok p -> plevel p = 1 -> 1 <= pri -> next pri r ->
  retrieve_term KB (its i (cells p) ++ r) pri = Got (tree_at i p, r).
Proof.
  induction p as [cx x|q cx x cy y|p IH|o n l IHl r' IHr]; intros i r pri; cbn [ok cells its app tree_at].
  - intros H _ _ Nx. now apply (leaf_read i cx x).
  - intros (H & H2) _ Pr Nx. destruct (rel_operator q (item_at (S (S i)) cy :: r)) as (E & P0).
    change (item_at (S i) (XSym (rel_word q))) with (Sym (rel_word q)).
    rewrite (read_step i cx x _ _ _ pri H E) by lia. rewrite (leaf_read (S (S i)) cy y _ r H2); [reflexivity|].
    eapply next_less; [|exact Nx]. lia.
  - intros (Lv & H) _ Pr Nx. cbn [item_at retrieve_term]. change (unary_at KB (Sym not_word)) with (Some Ca_Model.NOT). cbv iota.
    rewrite IH; [reflexivity|exact H|exact Lv|cbn; lia|]. eapply next_less; [|exact Nx]. cbn. lia.
  - intros _ L. destruct o; discriminate.
Qed.
Lemma joint_operator : forall o l, (forall r, l <> Sym not_word :: r) ->
  retrieve_binary_operator KB (Sym (joint_word o)) l = Got (joinop o false, false).
Proof.
  intros o l H. assert (Q : match l with n :: _ => is_not n | [] => false end = false).
  { destruct l as [|[n| | |] l]; try reflexivity. cbn [is_not]. destruct (bytes_eqb n (s2b "NOT")) eqn:E; [|reflexivity].
    apply bytes_eqb_eq in E. subst n. destruct (H l eq_refl). }
  unfold retrieve_binary_operator. rewrite Q, andb_false_r. destruct o; reflexivity.
Qed.
Lemma joint_operator_not : forall o l, retrieve_binary_operator KB (Sym (joint_word o)) (Sym not_word :: l) = Got (joinop o true, true).
Proof. intros o l. destruct o; reflexivity. Qed.
Lemma joint_priority : forall o n, get_priority KB (joinop o n) = plevel (PJoin o n (PLeaf (XConst 0) Exp_Model.Dot) (PLeaf (XConst 0) Exp_Model.Dot)).
Proof. intros [] []; reflexivity. Qed.
Lemma simple_head : forall p i r, psimple p -> ok p -> forall r', its i (cells p) ++ r <> Sym not_word :: r'.
Proof.
  intros p i r S H r' E. assert (X : exists cx x l, cells p = cx :: l /\ leaf_ok cx x).
  { destruct p as [cx x|q cx x cy y|p|o n l r0]; try destruct S; cbn [cells ok] in *; [eauto|]. destruct H. eauto. }
  destruct X as (cx & x & l & C & (_ & Nn)). rewrite C in E. cbn [its app] in E. injection E as E _.
  destruct cx; cbn [item_at] in E; try discriminate. apply Nn. injection E as E. rewrite E. reflexivity.
Qed.
Lemma loop_step : forall n k final o r b two t r', retrieve_binary_operator k o r = Got (b, two) ->
  retrieve_term k (tails two r) (get_priority k b) = Got (t, r') -> loop (S n) k final (o :: r) = loop n k (Bin b final t) r'.
Proof. intros n k final o r b two t r' E R. cbn [loop]. rewrite E, R. reflexivity. Qed.

Definition start (l : list item) : option (tree + list gdiag) := resolve KB l.
Lemma start_cons : forall i l t r, retrieve_term KB (i :: l) 0 = Got (t, r) -> start (i :: l) = loop (length (i :: l)) KB t r.
Proof. intros i l t r E. unfold start, resolve. rewrite E. reflexivity. Qed.

Theorem reach : forall p i r, ok p -> next (Z.max 2 (plevel p)) r ->
  exists n, (length r <= n)%nat /\ start (its i (cells p) ++ r) = loop n KB (tree_at i p) r.
Proof.
  induction p as [cx x|q cx x cy y|p IH|o n l IHl r' IHr]; intros i r.
  - intros H Nx. cbn [cells its app tree_at]. exists (length (item_at i cx :: r)). split; [cbn; lia|]. apply start_cons.
    apply (leaf_read i cx x); [exact H|]. eapply next_less; [|exact Nx]. cbn. lia.
  - intros (H & H2) Nx. cbn [cells its app tree_at]. destruct (rel_operator q (item_at (S (S i)) cy :: r)) as (E & P0).
    change (item_at (S i) (XSym (rel_word q))) with (Sym (rel_word q)).
    exists (S (S (length r)))%nat. split; [lia|].
    rewrite (start_cons _ _ (Leaf (item_at i cx)) (Sym (rel_word q) :: item_at (S (S i)) cy :: r)).
    2: { apply (leaf_read i cx x); [exact H|]. exists (relop q), false. split; [exact E|lia]. }
    cbn [length]. apply (loop_step _ _ _ _ _ _ false _ _ E). cbn [tails]. apply (leaf_read _ cy y); [exact H2|].
    eapply next_less; [|exact Nx]. rewrite P0. lia.
  - intros (Lv & H) Nx. exists (length (its i (cells (PNot p)) ++ r)). split; [rewrite app_length; lia|].
    cbn [cells its app]. apply start_cons. cbn [item_at retrieve_term]. change (unary_at KB (Sym not_word)) with (Some Ca_Model.NOT). cbv iota.
    rewrite operand_read; [reflexivity|exact H|exact Lv|cbn; lia|]. eapply next_less; [|exact Nx]. cbn. lia.
  - intros (Lv & Sr & Hl & Hr) Nx. cbn [cells]. rewrite its_app, <- app_assoc.
    assert (Pr : 2 <= plevel (PJoin o n l r')) by (destruct o; cbn; lia).
    assert (L1 : plevel r' = 1) by (destruct r'; try reflexivity; destruct Sr).
    assert (Nr : next (plevel (PJoin o n l r')) r) by (eapply next_less; [|exact Nx]; lia).
    assert (Q : get_priority KB (joinop o n) = plevel (PJoin o n l r')) by (rewrite joint_priority; destruct o; reflexivity).
    destruct n.
    + cbn [nots app its]. change (item_at (i + length (cells l)) (XSym (joint_word o))) with (Sym (joint_word o)).
      change (item_at (S (i + length (cells l))) (XSym not_word)) with (Sym not_word).
      pose proof (joint_operator_not o (its (S (S (i + length (cells l)))) (cells r') ++ r)) as J.
      destruct (IHl i (Sym (joint_word o) :: Sym not_word :: its (S (S (i + length (cells l)))) (cells r') ++ r) Hl) as (m & Lm & E).
      { exists (joinop o true), true. split; [exact J|lia]. }
      rewrite E. cbn [length] in Lm. rewrite app_length in Lm. destruct m as [|m]; [lia|]. exists m. split; [lia|].
      cbn [tree_at]. replace (i + length (cells l) + S (length (nots true)))%nat with (S (S (i + length (cells l)))) by (cbn; lia).
      apply (loop_step _ _ _ _ _ _ true _ _ J). cbn [tails]. apply operand_read; [exact Hr|exact L1|lia|rewrite Q; exact Nr].
    + cbn [nots app its]. change (item_at (i + length (cells l)) (XSym (joint_word o))) with (Sym (joint_word o)).
      pose proof (joint_operator o (its (S (i + length (cells l))) (cells r') ++ r) (simple_head r' _ r Sr Hr)) as J.
      destruct (IHl i (Sym (joint_word o) :: its (S (i + length (cells l))) (cells r') ++ r) Hl) as (m & Lm & E).
      { exists (joinop o false), false. split; [exact J|lia]. }
      rewrite E. cbn [length] in Lm. rewrite app_length in Lm. destruct m as [|m]; [lia|]. exists m. split; [lia|].
      cbn [tree_at]. replace (i + length (cells l) + S (length (nots false)))%nat with (S (i + length (cells l))) by (cbn; lia).
      apply (loop_step _ _ _ _ _ _ false _ _ J). cbn [tails]. apply operand_read; [exact Hr|exact L1|lia|rewrite Q; exact Nr].
Qed.

Lemma no_calls : forall l i, flat_map unfold_call (its i l) = its i l.
Proof. induction l as [|c l IH]; intros i; [reflexivity|]. cbn [its flat_map]. rewrite IH. destruct c; reflexivity. Qed.
Theorem list_term : forall p, ok p -> exists ta tc, term_of (XList (cells p)) = Some (Exp_Model.Lst ta (Some (expr_of p)) tc).
Proof.
  intros p H. do 2 eexists. cbn [term_of]. rewrite (items_its _ 0%nat (cells_items p H)), (cells_terms p H). do 2 f_equal.
  unfold grouped, resolve_expression_tree. rewrite functions_spec, no_calls.
  destruct (reach p 0 [] H I) as (n & _ & E). rewrite app_nil_r in E. unfold start in E. rewrite E. destruct n; cbn [loop].
  all: pose proof (tree_planted p [] [] H) as T; cbn [app length] in T; rewrite app_nil_r in T; rewrite T; reflexivity.
Qed.
