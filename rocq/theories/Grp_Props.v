(** C24: logical, arithmetic and character expression lists group by operator priority and
    lose nothing. *)
From Coq Require Import List NArith ZArith Bool Lia.
From Verif Require Import Common Ca_Model Grp_Model Grp_Spec Grp_Proof Grp_Unique.
Import ListNotations.
Open Scope Z_scope.

Local Notation W s := (Sym (s2b s)) (only parsing).

(** The list is accepted exactly when operands (each with any number of prefix operators) and
    operators alternate; it is answered with a tree or with one diagnostic, never both. *)
Theorem C24_accepted : forall k l,
  (wants_term k l <-> exists t, resolve k l = Some (inl t)) /\
  (~ wants_term k l <-> exists d, resolve k l = Some (inr [d])).
Proof.
  intros k l. pose proof (resolve_spec k l) as H. destruct (resolve k l) as [[t|ds]|]; [| |contradiction].
  - destruct H as [_ H]. split; split; intros H'; eauto; [contradiction|].
    destruct H' as [d H']. discriminate.
  - destruct H as [[d ->] H]. split; split; intros H'; eauto; [contradiction|].
    destruct H' as [d' H']. discriminate.
Qed.
Print Assumptions C24_accepted.

(** Nothing is lost, added or reordered: read from left to right, the tree is the list. *)
Theorem C24_nothing_lost : forall k l t, resolve k l = Some (inl t) -> written k t l.
Proof. intros k l t H. pose proof (resolve_spec k l) as R. rewrite H in R. apply R. Qed.
Print Assumptions C24_nothing_lost.

(** The tree is grouped by priority exactly when the list has no dip: no run of ever stronger
    operators that is followed by an operator which is not stronger than the last of them but
    stronger than the first. *)
Theorem C24_grouped : forall k l t, resolve k l = Some (inl t) ->
  (grouped k t <-> ~ dip k (operators t)).
Proof. intros k l t H. pose proof (resolve_spec k l) as R. rewrite H in R. apply R. Qed.
Print Assumptions C24_grouped.

(** A condition that is easier to check: whenever an operator between operands is stronger than
    an earlier one it is stronger than everything in between. *)
Theorem C24_grouped_simple : forall k l t, resolve k l = Some (inl t) ->
  (forall a x b y c z d, operators t = a ++ x :: b ++ y :: c ++ (false, z) :: d ->
     stronger k z (snd x) -> stronger k z (snd y)) ->
  grouped k t.
Proof.
  intros k l t H Hs. apply (C24_grouped k l t H).
  intros (a & x & r & z & b & E & H1 & H2 & H3). destruct r as [|y r]; [now apply H2|].
  destruct (@exists_last _ (y :: r) ltac:(discriminate)) as (m & y' & Ey).
  rewrite Ey in *. change (x :: m ++ [y']) with ((x :: m) ++ [y']) in H2. rewrite last_snoc in H2.
  apply H2. apply (Hs a x m y' [] z b); [|exact H3]. rewrite E. cbn [app]. now rewrite <- app_assoc.
Qed.
Print Assumptions C24_grouped_simple.

(** Where the program groups by priority it builds the only such tree. *)
Theorem C24_only_grouping : forall k l t t', resolve k l = Some (inl t) -> ~ dip k (operators t) ->
  written k t' l -> grouped k t' -> t = t'.
Proof.
  intros k l t t' H Hd Hw Hg. apply (grouped_unique k l); auto.
  - now apply C24_nothing_lost.
  - now apply (C24_grouped k l t H).
Qed.
Print Assumptions C24_only_grouping.

(** A function that is not known is, in a logical expression, an operator followed by its
    parameter in parentheses; in the other kinds of expression the list is taken as it is. *)
Theorem C24_functions : forall l,
  resolve_expression_tree KB l = resolve KB (flat_map unfold_call l) /\
  resolve_expression_tree KA l = resolve KA l /\ resolve_expression_tree KC l = resolve KC l.
Proof.
  intros l. split; [|split; reflexivity]. unfold resolve_expression_tree. now rewrite functions_spec.
Qed.
Print Assumptions C24_functions.

(** Every ranked operator of the tree is a known operator of the expression's kind. *)
Theorem C24_operators_known : forall k l t, resolve k l = Some (inl t) ->
  Forall (fun x => exists p, rank k (snd x) p) (operators t).
Proof.
  intros k l t H. pose proof (resolve_spec k l) as R. rewrite H in R. destruct R as [R _].
  eapply Forall_impl; [|apply (so_ops k t l R)]. cbn. intros x Hx.
  exists (get_priority k (snd x)). now apply rank_iff.
Qed.
Print Assumptions C24_operators_known.

(** ** Where grouping fails *)
(** (A OR B AND C AND D) is grouped ((A OR (B AND C)) AND D). *)
Theorem C24_grouped_refuted :
  exists l t, resolve KB l = Some (inl t) /\ ~ grouped KB t /\
    l = [Term 1; W "OR"; Term 2; W "AND"; Term 3; W "AND"; Term 4] /\
    t = Bin AND (Bin OR (Leaf (Term 1)) (Bin AND (Leaf (Term 2)) (Leaf (Term 3)))) (Leaf (Term 4)).
Proof.
  eexists _, _. split; [|split; [|split; reflexivity]]; [vm_compute; reflexivity|].
  intros H. apply grouped_bin in H as (_ & _ & H & _). cbn [right_edge] in H. inversion H as [|? ? H1 _]; subst.
  apply H1. apply stronger_iff. repeat split.
Qed.
Print Assumptions C24_grouped_refuted.

(** (A EQ B OR C EQ D AND E EQ F) is grouped ((A EQ B OR C EQ D) AND E EQ F). *)
Theorem C24_comparisons_refuted :
  exists l t, resolve KB l = Some (inl t) /\ ~ grouped KB t /\
    l = [Term 1; W "EQ"; Term 2; W "OR"; Term 3; W "EQ"; Term 4; W "AND"; Term 5; W "EQ"; Term 6] /\
    t = Bin AND (Bin OR (Bin EQ (Leaf (Term 1)) (Leaf (Term 2))) (Bin EQ (Leaf (Term 3)) (Leaf (Term 4))))
                (Bin EQ (Leaf (Term 5)) (Leaf (Term 6))).
Proof.
  eexists _, _. split; [|split; [|split; reflexivity]]; [vm_compute; reflexivity|].
  intros H. apply grouped_bin in H as (_ & _ & H & _). cbn [right_edge] in H. inversion H as [|? ? H1 _]; subst.
  apply H1. apply stronger_iff. repeat split.
Qed.
Print Assumptions C24_comparisons_refuted.

(** NOT is accepted between two operands, and AND_NOT as one word. *)
Theorem C24_not_between_refuted :
  (forall k, k = KA \/ k = KB -> forall a b,
     resolve k [Term a; W "NOT"; Term b] = Some (inl (Bin NOT (Leaf (Term a)) (Leaf (Term b))))) /\
  (forall a b,
     resolve KB [Term a; W "AND_NOT"; Term b] = Some (inl (Bin AND_NOT (Leaf (Term a)) (Leaf (Term b))))).
Proof. split; [intros k [->| ->]; reflexivity|reflexivity]. Qed.
Print Assumptions C24_not_between_refuted.

(** ** Cases that meet the hypotheses *)
(** (NOT A EQ B AND NOT C EQ D OR E) *)
Example C24_case :
  let l := [W "NOT"; Term 1; W "EQ"; Term 2; W "AND"; W "NOT"; Term 3; W "EQ"; Term 4; W "OR"; Term 5] in
  let t := Bin OR (Bin AND_NOT (Un NOT (Bin EQ (Leaf (Term 1)) (Leaf (Term 2))))
                               (Bin EQ (Leaf (Term 3)) (Leaf (Term 4)))) (Leaf (Term 5)) in
  resolve KB l = Some (inl t) /\ wants_term KB l /\ grouped KB t.
Proof.
  cbv zeta. split; [vm_compute; reflexivity|]. split.
  - apply (proj1 (C24_accepted KB _)). eexists. vm_compute. reflexivity.
  - repeat (first [apply g_bin | apply g_un | apply g_leaf]);
      cbn [left_edge right_edge]; repeat apply Forall_cons; try apply Forall_nil;
      rewrite ?stronger_iff; cbn; intuition lia.
Qed.
Example C24_case_bad : ~ wants_term KA [Term 1; W "PLUS"; Term 2] /\
  resolve KA [Term 1; W "PLUS"; Term 2] = Some (inr [CE002]) /\
  resolve KB [Term 1; W "AND"] = Some (inr [CE003]) /\ resolve KB [Term 1; Term 2] = Some (inr [CE001]).
Proof.
  split; [|repeat split; reflexivity].
  apply (proj2 (C24_accepted KA _)). eexists. vm_compute. reflexivity.
Qed.
Example C24_case_function :
  resolve_expression_tree KB [Call (s2b "NOT") None [7%N]; Call (s2b "AND") None [8%N]] =
  Some (inl (Bin AND (Un NOT (Leaf (Paren 7))) (Leaf (Paren 8)))).
Proof. vm_compute. reflexivity. Qed.
