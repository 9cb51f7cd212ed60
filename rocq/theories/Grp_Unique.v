(** There is only one way to group a list by priority; function calls turned into operators. *)
From Coq Require Import List NArith ZArith Bool Lia.
From Coq Require Import ZifyBool ZifyNat ZifyN.
From Verif Require Import Common Ca_Model Grp_Model Grp_Spec Grp_Proof.
Import ListNotations.
Open Scope Z_scope.

(** An operator and what follows it, read from the front of a list. *)
Definition front (k : kind) (l : list item) : option (op * list item) :=
  match l with
  | o :: r => match retrieve_binary_operator k o r with
              | Got (b, two) => Some (b, tails two r)
              | Err _ => None
              end
  | [] => None
  end.

Lemma front_words : forall k b wo next, operator_words k b wo next ->
  front k (wo ++ next) = Some (b, next) /\ is_operator k b = true.
Proof.
  intros k b wo next H. inversion H as [p next' H1 H2|o next' H1 H2]; subst; cbn [app front].
  - apply rank_iff in H1 as [H1 _].
    cbn [retrieve_binary_operator].
    rewrite (proj2 (get_operator_iff (spelling b) b (is_operator_known _ _ H1)) eq_refl).
    rewrite H1. cbn [negb]. split; [|reflexivity].
    destruct (multiple_words k b && match next with n :: _ => is_not n | [] => false end) eqn:E; [|reflexivity].
    exfalso. apply andb_true_iff in E as [E1 E2]. destruct next as [|x next]; [discriminate|].
    apply is_not_iff in E2. subst x.
    assert (k = KB) by (destruct k; [discriminate|reflexivity|discriminate]). subst k.
    apply (H2 (get_operator (spelling b ++ s2b "_NOT")) next eq_refl); [|reflexivity].
    apply joined_iff. auto.
  - unfold joined in H2. cbn [In] in H2.
    destruct H2 as [H2|[H2|[H2|[]]]]; injection H2 as <- <-; split; reflexivity.
Qed.

(** A parser by priority, as a relation: [P p l t r] reads [t] off [l], taking operators of
    priority below [p]; [C] continues after a first operand. *)
Inductive P (k : kind) : Z -> list item -> tree -> list item -> Prop :=
  | P_un : forall p i u l t r t' r', prefix_word k i u -> P k (get_priority k u) l t r ->
      C k (Un u t) p r t' r' -> P k p (i :: l) t' r'
  | P_leaf : forall p i l t r, (forall u, ~ prefix_word k i u) -> C k (Leaf i) p l t r ->
      P k p (i :: l) t r
with C (k : kind) : tree -> Z -> list item -> tree -> list item -> Prop :=
  | C_stop : forall t p l,
      match front k l with Some (b, _) => p <= get_priority k b | None => True end -> C k t p l t l
  | C_go : forall left p l b l' t r t' r', front k l = Some (b, l') -> get_priority k b < p ->
      P k (get_priority k b) l' t r -> C k (Bin b left t) p r t' r' -> C k left p l t' r'.
Scheme P_ind2 := Induction for P Sort Prop with C_ind2 := Induction for C Sort Prop.
Combined Scheme PC_ind from P_ind2, C_ind2.

Lemma prefix_word_fun : forall k i u v, prefix_word k i u -> prefix_word k i v -> u = v.
Proof. intros k i u v H1 H2. apply unary_at_iff in H1, H2. congruence. Qed.

Lemma PC_det : forall k,
  (forall p l t r, P k p l t r -> forall t2 r2, P k p l t2 r2 -> t = t2 /\ r = r2) /\
  (forall a p l t r, C k a p l t r -> forall t2 r2, C k a p l t2 r2 -> t = t2 /\ r = r2).
Proof.
  intros k. apply PC_ind.
  - intros p i u l t r t' r' Hu H1 IH1 H2 IH2 t2 r2 H.
    inversion H as [? ? v ? a b ? ? Hv H3 H4|? ? ? ? ? Hv]; subst; [|now apply Hv in Hu].
    pose proof (prefix_word_fun _ _ _ _ Hu Hv). subst v.
    destruct (IH1 _ _ H3) as [<- <-]. now apply IH2.
  - intros p i l t r Hn H1 IH1 t2 r2 H.
    inversion H as [? ? v ? a b ? ? Hv H3 H4|? ? ? ? ? Hv]; subst; [now apply Hn in Hv|]. now apply IH1.
  - intros t p l Hs t2 r2 H. inversion H as [|? ? ? b l' ? ? ? ? E Hb]; subst; [auto|].
    rewrite E in Hs. lia.
  - intros left p l b l' t r t' r' E Hb H1 IH1 H2 IH2 t2 r2 H.
    inversion H as [? ? ? Hs|? ? ? b2 l2 a c ? ? E2 Hb2 H3 H4]; subst.
    + rewrite E in Hs. lia.
    + rewrite E in E2. injection E2 as <- <-. destruct (IH1 _ _ H3) as [<- <-]. now apply IH2.
Qed.

Lemma written_operators : forall k t w, written k t w -> w <> [] /\
  Forall (fun o => is_operator k o = true) (left_edge t) /\
  Forall (fun o => is_operator k o = true) (right_edge t).
Proof.
  intros k t w H. induction H as [i Hi|u i t w Hu H IH|b l r wl wo wr Hl IHl Hr IHr Hb].
  - repeat split; try constructor. discriminate.
  - destruct IH as (_ & _ & IH). repeat split; [discriminate|constructor|]. cbn [right_edge].
    constructor; [|exact IH]. destruct Hu as ((p & Hp) & _). now apply rank_iff in Hp as [? _].
  - destruct IHl as (L1 & L2 & L3), IHr as (R1 & R2 & R3). apply front_words in Hb as [_ Hb].
    split; [destruct wl; [contradiction|discriminate]|]. cbn [left_edge right_edge].
    split; constructor; assumption.
Qed.

Definition follows (k : kind) (t : tree) (r : list item) : Prop :=
  match front k r with
  | Some (b, _) => Forall (fun o => get_priority k o <= get_priority k b) (right_edge t)
  | None => True
  end.

Lemma complete : forall k t w, written k t w -> grouped k t -> forall p r x r',
  Forall (fun o => get_priority k o < p) (left_edge t) -> follows k t r ->
  C k t p r x r' -> P k p (w ++ r) x r'.
Proof.
  intros k t w H. induction H as [i Hi|u i t w Hu H IH|b l rt wl wo wr Hl IHl Hr IHr Hb];
    intros Hg p r x r' Hleft Hf HC.
  - cbn [app]. now apply P_leaf.
  - inversion Hg as [|? ? G1 G2|]; subst. cbn [app].
    apply P_un with u t r; [exact Hu| |exact HC]. apply IH; [exact G1| | |].
    + eapply Forall_impl; [|exact G2]. cbn. intros o Ho. apply stronger_iff in Ho. lia.
    + unfold follows in *. destruct (front k r) as [[b l']|]; [|exact I]. cbn [right_edge] in Hf. now inversion Hf.
    + apply C_stop. unfold follows in Hf. destruct (front k r) as [[b l']|]; [|exact I].
      cbn [right_edge] in Hf. now inversion Hf.
  - apply grouped_bin in Hg as (G1 & G2 & G3 & G4).
    cbn [left_edge right_edge] in *. inversion Hleft as [|? ? Hbp Hleft']; subst.
    destruct (written_operators _ _ _ Hl) as (_ & _ & Ol).
    destruct (written_operators _ _ _ Hr) as (Nr & _ & _).
    assert (Hb' : operator_words k b wo (wr ++ r)).
    { destruct wr as [|y wr]; [contradiction|].
      inversion Hb as [q next H1 H2|o next H1 H2]; subst.
      - apply one_word with q; [exact H1|]. intros c next' Hk Hj E. injection E as -> E.
        now apply (H2 c wr Hk Hj).
      - now apply two_words. }
    apply front_words in Hb' as [Hfr Hop].
    rewrite <- !app_assoc. apply IHl; [exact G1|exact Hleft'| |].
    + unfold follows. rewrite Hfr. apply Forall_forall. intros o Ho.
      rewrite Forall_forall in G3, Ol. specialize (G3 o Ho). specialize (Ol o Ho).
      destruct (Z.le_gt_cases (get_priority k o) (get_priority k b)) as [|Hc]; [assumption|].
      exfalso. apply G3. apply stronger_iff. repeat split; auto.
    + apply C_go with b (wr ++ r) rt r; [exact Hfr|exact Hbp| |exact HC].
      apply IHr; [exact G2| | |].
      * eapply Forall_impl; [|exact G4]. cbn. intros o Ho. apply stronger_iff in Ho. lia.
      * unfold follows in *. destruct (front k r) as [[b' l']|]; [|exact I]. cbn [right_edge] in Hf. now inversion Hf.
      * apply C_stop. unfold follows in Hf. destruct (front k r) as [[b' l']|]; [|exact I].
        cbn [right_edge] in Hf. now inversion Hf.
Qed.

Lemma priority_small : forall k o, get_priority k o < 100.
Proof. intros k o. destruct k, o; cbn; lia. Qed.

Theorem grouped_unique : forall k w t1 t2, written k t1 w -> grouped k t1 ->
  written k t2 w -> grouped k t2 -> t1 = t2.
Proof.
  intros k w t1 t2 W1 G1 W2 G2.
  assert (H : forall t, written k t w -> grouped k t -> P k 100 (w ++ []) t []).
  { intros t W G. apply complete with t; auto.
    - apply Forall_forall. intros. apply priority_small.
    - exact I.
    - now apply C_stop. }
  destruct (proj1 (PC_det k) _ _ _ _ (H _ W1 G1) _ _ (H _ W2 G2)) as [E _]. exact E.
Qed.

(** ** Function calls *)
Lemma set_nth_at : forall a x y l, set_nth (length a) y (a ++ x :: l) = a ++ y :: l.
Proof. induction a as [|z a IH]; intros; [reflexivity|]. cbn [length app set_nth]. now rewrite IH. Qed.
Lemma insert_behind : forall a x y l, insert_at (length a + 1) y (a ++ x :: l) = a ++ x :: y :: l.
Proof.
  intros. unfold insert_at. replace (a ++ x :: l) with ((a ++ [x]) ++ l) by (rewrite <- app_assoc; reflexivity).
  replace (length a + 1)%nat with (length (a ++ [x])) by (rewrite app_length; reflexivity).
  rewrite firstn_app, firstn_all, Nat.sub_diag, firstn_O, app_nil_r.
  rewrite skipn_app, skipn_all, Nat.sub_diag, skipn_O. now rewrite <- !app_assoc.
Qed.
Lemma convert_at_spec : forall a x l, convert_at (length a) (a ++ x :: l) = a ++ unfold_call x ++ l.
Proof.
  intros. unfold convert_at. rewrite nth_error_app2, Nat.sub_diag by lia. cbn [nth_error].
  destruct x as [n|n|n|n [d|] ps]; try reflexivity;
    (destruct ps as [|p [|q ps]]; [reflexivity| |reflexivity]);
    rewrite set_nth_at, !insert_behind; reflexivity.
Qed.
Lemma convert_spec : forall a l,
  unknown_functions_to_operators (length a) (a ++ l) = flat_map unfold_call a ++ l.
Proof.
  intros a. induction a as [|x a IH] using rev_ind; intros l; [reflexivity|].
  rewrite app_length, Nat.add_1_r. cbn [unknown_functions_to_operators].
  rewrite <- app_assoc. cbn [app]. rewrite convert_at_spec, IH.
  rewrite flat_map_app. cbn [flat_map]. rewrite app_nil_r, <- app_assoc. reflexivity.
Qed.
Lemma functions_spec : forall l, unknown_functions_to_operators (length l) l = flat_map unfold_call l.
Proof. intros l. pose proof (convert_spec l []) as H. now rewrite !app_nil_r in H. Qed.
