(** C30: sublists.  *)
From Coq Require Import List NArith ZArith Bool Lia String.
From Coq Require Import ZifyBool ZifyNat ZifyN.
From Verif Require Import Common Sub_Model Sub_Spec Sub_Proof Sub_Text.
Import ListNotations.
Open Scope N_scope.
Local Notation length := List.length.

(** Every operand text is parsed: into itself as one value, or into a list. *)
Theorem C30_parsed : forall t, t <> [] ->
  exists d, string_to_macrodata t = Some d /\ (d = Single t \/ exists l, d = Composite l).
Proof. intros t Ht. destruct (parse_any t Ht) as (d & H1 & H2 & _). eauto. Qed.
Print Assumptions C30_parsed.

(** A text that is not in parentheses is one value. *)
Theorem C30_single : forall t, t <> [] -> hd 0 t <> LPAR \/ last t 0 <> RPAR ->
  string_to_macrodata t = Some (Single t).
Proof.
  intros [|c r] Ht H; [contradiction|]. unfold string_to_macrodata. cbn [hd] in H.
  destruct (negb (c =? LPAR) || negb (last (c :: r) 0 =? RPAR)) eqn:E; [reflexivity|].
  apply orb_false_iff in E. destruct E as [E1 E2]. apply negb_false_iff, N.eqb_eq in E1, E2. destruct H; contradiction.
Qed.
Print Assumptions C30_single.

(** The parameter as a whole reads as the text that was passed, if that has no empty item
    before a closing parenthesis or before a comma. *)
Theorem C30_text : forall t, without COMMA RPAR t -> without COMMA COMMA t ->
  exists d, string_to_macrodata t = Some d /\ get_value d = t.
Proof.
  intros [|c r] H1 H2; [exists Dummy; auto|].
  destruct (parse_any (c :: r) ltac:(discriminate)) as (d & H & _ & Hv). eauto.
Qed.
Print Assumptions C30_text.

Theorem C30_text_refuted : exists t d, string_to_macrodata t = Some d /\ get_value d <> t.
Proof. exists (s2b "(A,)"%string). eexists. split; [vm_compute; reflexivity|discriminate]. Qed.
Print Assumptions C30_text_refuted.

(** The items of a list are the ones that stand between the commas. *)
Theorem C30_items : forall l, well_formed (List l []) -> clean (List l []) ->
  exists d, string_to_macrodata (text (List l [])) = Some d /\
    get_value d = text (List l []) /\
    number d = length l /\
    (forall i t, nth_error l i = Some t -> get_value (get_ith d i) = text t) /\
    (forall i, (length l <= i)%nat -> get_value (get_ith d i) = []).
Proof.
  intros l Hw Hc. exists (data_of (List l [])). pose proof (clean_text _ Hc) as Ht.
  refine (conj (parse_text l Hw) (conj Ht _)). apply clean_list in Hc. destruct Hc as [Hk Hc].
  rewrite data_of_list, Hk. cbn [number get_ith]. rewrite map_length. refine (conj eq_refl (conj _ _)).
  - intros i t Hi. rewrite (nth_error_nth _ _ Dummy (map_nth_error data_of _ _ Hi)). apply clean_text.
    rewrite Forall_forall in Hc. apply Hc. eapply nth_error_In; eauto.
  - intros i Hi. rewrite nth_overflow; [reflexivity|]. now rewrite map_length.
Qed.
Print Assumptions C30_items.

(** The number of items of an item: none of an empty one, one of a plain one, those between the commas of a list. *)
Theorem C30_item_number : forall l, well_formed (List l []) -> clean (List l []) ->
  exists d, string_to_macrodata (text (List l [])) = Some d /\
    (forall i t, nth_error l i = Some (Text t) -> number (get_ith d i) = match t with [] => 0 | _ => 1 end)%nat /\
    (forall i l', nth_error l i = Some (List l' []) -> number (get_ith d i) = length l') /\
    (forall i l' c s, nth_error l i = Some (List l' (c :: s)) -> number (get_ith d i) = 1)%nat /\
    (forall i, (length l <= i)%nat -> number (get_ith d i) = 0%nat).
Proof.
  intros l Hw Hc. exists (data_of (List l [])). split; [exact (parse_text l Hw)|]. apply clean_list in Hc. destruct Hc as [Hk Hc].
  rewrite data_of_list, Hk. cbn [get_ith]. refine (conj _ (conj _ (conj _ _))).
  - intros i t Hi. rewrite (nth_error_nth _ _ Dummy (map_nth_error data_of _ _ Hi)). reflexivity.
  - intros i l' Hi. rewrite (nth_error_nth _ _ Dummy (map_nth_error data_of _ _ Hi)).
    rewrite Forall_forall in Hc. apply nth_error_In, Hc, clean_list in Hi. destruct Hi as [Hk' _].
    rewrite data_of_list, Hk'. cbn [number]. apply map_length.
  - intros i l' c s Hi. rewrite (nth_error_nth _ _ Dummy (map_nth_error data_of _ _ Hi)). rewrite data_of_list. reflexivity.
  - intros i Hi. rewrite nth_overflow; [reflexivity|]. now rewrite map_length.
Qed.
Print Assumptions C30_item_number.

(** Items of items: the part of an operand that a path of positions (from 1) stands for. *)
Fixpoint part (t : tree) (path : list nat) : bytes :=
  match path with
  | [] => text t
  | i :: path =>
      match t, i with
      | List l [], S i => match nth_error l i with Some t => part t path | None => [] end
      | _, 1%nat => part t path
      | _, _ => []
      end
  end.
Definition read (d : data) (path : list nat) : data := fold_left (fun d i => get_ith d (pred i)) path d.

Lemma read_dummy : forall path, read Dummy path = Dummy.
Proof. induction path; [reflexivity|assumption]. Qed.
Lemma read_clean : forall path t, clean t -> Forall (fun i => 1 <= i)%nat path -> get_value (read (data_of t) path) = part t path.
Proof.
  induction path as [|i path IH]; intros t Hc Hp; [now apply clean_text|].
  inversion Hp as [|? ? Hi Hp']; subst. destruct i as [|i]; [lia|].
  unfold read. cbn [fold_left pred]. fold (read (get_ith (data_of t) i) path).
  assert (Hsingle : forall s, data_of t = Single s -> (forall l, t <> List l []) ->
      get_value (read (get_ith (data_of t) i) path) = part t (S i :: path)).
  { intros s Hs Hn. rewrite Hs. cbn [get_ith]. rewrite <- Hs.
    replace (part t (S i :: path)) with (match i with O => part t path | _ => [] end)
      by (destruct t as [?|l [|? ?]]; [reflexivity|congruence|reflexivity]).
    destruct i; [now apply IH|]. now rewrite read_dummy. }
  destruct t as [s|l [|c suffix]].
  - apply (Hsingle s); [reflexivity|congruence].
  - apply clean_list in Hc. destruct Hc as [Hk Hc]. rewrite data_of_list, Hk. cbn [get_ith part].
    destruct (nth_error l i) as [t|] eqn:E.
    + rewrite (nth_error_nth _ _ Dummy (map_nth_error data_of _ _ E)). apply IH; [|assumption].
      rewrite Forall_forall in Hc. apply Hc. eapply nth_error_In; eauto.
    + apply nth_error_None in E. rewrite nth_overflow by now rewrite map_length. now rewrite read_dummy.
  - eapply Hsingle; [rewrite data_of_list; reflexivity|congruence].
Qed.

Theorem C30_subscripts : forall l path, well_formed (List l []) -> clean (List l []) -> Forall (fun i => 1 <= i)%nat path ->
  exists d, string_to_macrodata (text (List l [])) = Some d /\ get_value (read d path) = part (List l []) path.
Proof.
  intros l path Hw Hc Hp. exists (data_of (List l [])). split; [now apply parse_text|]. now apply read_clean.
Qed.
Print Assumptions C30_subscripts.

(** Without the proviso: which items are lost. *)
Theorem C30_lost : forall l, well_formed (List l []) ->
  string_to_macrodata (text (List l [])) = Some (Composite (map data_of (kept false l))).
Proof. intros l Hw. rewrite (parse_text l Hw). now rewrite data_of_list. Qed.
Print Assumptions C30_lost.

Theorem C30_items_refuted : exists l d i t, well_formed (List l []) /\ string_to_macrodata (text (List l [])) = Some d /\
  nth_error l i = Some t /\ get_value (get_ith d i) <> text t /\ number d <> length l.
Proof.
  exists [List [Text (s2b "A"%string)] (s2b "B"%string); Text []; Text (s2b "C"%string)]. eexists. exists 2%nat, (Text (s2b "C"%string)).
  refine (conj _ (conj _ (conj eq_refl (conj _ _)))).
  - apply well_formed_list. repeat constructor; discriminate.
  - vm_compute. reflexivity.
  - discriminate.
  - discriminate.
Qed.
Print Assumptions C30_items_refuted.

(** ((A,L'B),X'',(C)D,'E,)',) is such a text but for its last item. *)
Example C30_case :
  let l := [List [Text (s2b "A"); Text (s2b "L'B")] []; Text []; List [Text (s2b "C")] (s2b "D"); Text (s2b "'E,)'")]%string in
  well_formed (List l []) /\ clean (List l []) /\ text (List l []) = s2b "((A,L'B),,(C)D,'E,)')"%string /\
  part (List l []) [1; 2]%nat = s2b "L'B"%string /\ part (List l []) [3]%nat = s2b "(C)D"%string /\
  (exists d, string_to_macrodata (text (List l [])) = Some d /\ number d = 4%nat /\ get_value (read d [4]%nat) = s2b "'E,)'"%string).
Proof.
  cbv zeta. refine (conj _ (conj _ (conj eq_refl (conj eq_refl (conj eq_refl _))))).
  - apply well_formed_list. split; [|reflexivity]. repeat (constructor; [cbn; repeat split; discriminate|]). constructor.
  - cbn. repeat split.
  - eexists. split; [vm_compute; reflexivity|]. split; reflexivity.
Qed.
