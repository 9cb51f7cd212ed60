(** C16, C17: relocatable addresses and symbol values. *)
From Coq Require Import List ZArith Bool Lia.
From Verif Require Import Addr_Model Addr_Spec Addr_Proof.
Import ListNotations.
Local Open Scope Z_scope.

(** * C16 *)

(** A fresh address is its section plus the offset plus its spaces. *)
Theorem C16_new_address : forall p b z l, forallb flat_space l = true ->
  denotes p (new_address b z l) = base_at p b + z + sum (map (space_value p) l).
Proof. exact new_address_denotes. Qed.
Print Assumptions C16_new_address.

Theorem C16_add : forall p a b, flat a = true -> flat b = true ->
  denotes p (add a b) = denotes p a + denotes p b.
Proof. exact add_linear. Qed.
Print Assumptions C16_add.

Theorem C16_add_integer : forall p a z, denotes p (add_int a z) = denotes p a + z.
Proof. exact add_int_linear. Qed.
Print Assumptions C16_add_integer.

Theorem C16_subtract_integer : forall p a z, flat a = true -> denotes p (sub_int a z) = denotes p a - z.
Proof. exact sub_int_linear. Qed.
Print Assumptions C16_subtract_integer.

Theorem C16_negate : forall p a, flat a = true -> denotes p (neg a) = - denotes p a.
Proof. exact neg_linear. Qed.
Print Assumptions C16_negate.

(** Subtraction is right when a section (or pending space) that both operands mention is mentioned
    by both equally often; in particular for two labels, or a label and anything in other sections. *)
Theorem C16_subtract : forall p a b, flat a = true -> flat b = true ->
  same_counts (bases a) (bases b) -> same_counts (normalized_spaces a) (normalized_spaces b) ->
  denotes p (sub a b) = denotes p a - denotes p b.
Proof. exact sub_linear. Qed.
Print Assumptions C16_subtract.

(** The results of an operation meet the condition on resolved spaces until a space they mention is
    resolved. *)
Theorem C16_results_flat : forall o a b, flat (combine o a b) = true.
Proof. intros. unfold combine. apply flat_as_spaces. Qed.
Print Assumptions C16_results_flat.

Definition la : address := new_address 1 8 [].
Definition lb : address := new_address 1 20 [Unres 3; Res 4 [(Unres 5, 1)]].
Example C16_ex_flat : flat la = true /\ flat lb = true /\
  denotes {| base_at := fun _ => 1000; space_len := fun k => Z.of_nat k |} (sub lb la) = 24.
Proof. repeat split. Qed.
Example C16_ex_counts : same_counts (bases lb) (bases la) /\ same_counts (normalized_spaces lb) (normalized_spaces la).
Proof.
  split; intros k n m H1 H2; cbn in H1, H2; [|contradiction].
  destruct H1 as [H1|[]], H2 as [H2|[]]. congruence.
Qed.

(** Without the condition the count of a common section is subtracted the wrong way round:
    [A+A-A] denotes minus the section's address. *)
Theorem C16_subtract_refuted : exists a b p, flat a = true /\ flat b = true /\
  denotes p (sub a b) <> denotes p a - denotes p b /\ denotes p (sub a b) = - base_at p 1 + 8.
Proof.
  exists (add la la), la, {| base_at := fun _ => 1000; space_len := fun _ => 0 |}.
  repeat split; vm_compute; congruence.
Qed.
Print Assumptions C16_subtract_refuted.

(** A space that is resolved after it came to be mentioned twice is counted once. *)
Theorem C16_resolved_multiplicity_refuted : exists a p,
  denotes p (sub_int a 0) <> denotes p a - 0.
Proof.
  exists (mkAddr [(1%nat, 2)] 0 [(Res 4 [], 2)]), {| base_at := fun _ => 0; space_len := fun _ => 0 |}.
  vm_compute. congruence.
Qed.
Print Assumptions C16_resolved_multiplicity_refuted.

(** * C17 *)

Definition flat_value (v : value) : Prop := match v with Reloc a => flat a = true | _ => True end.
Definition same_counts_value (x y : value) : Prop :=
  match x, y with
  | Reloc a, Reloc b => same_counts (bases a) (bases b) /\ same_counts (normalized_spaces a) (normalized_spaces b)
  | Abs _, Reloc _ => False
  | _, _ => True
  end.
Definition lift2 (f : Z -> Z -> Z) (x y : option Z) : option Z :=
  match x, y with Some a, Some b => Some (f a b) | _, _ => None end.

Theorem C17_plus : forall p x y v, flat_value x -> flat_value y -> vadd x y = Val v ->
  value_denotes p v = lift2 Z.add (value_denotes p x) (value_denotes p y).
Proof.
  intros p [|a|a] [|b|b] v Hx Hy H; cbn [vadd] in H; try (injection H as <-; reflexivity).
  - unfold abs in H. destruct (i32 _); [|discriminate]. injection H as <-. reflexivity.
  - injection H as <-. cbn [value_denotes lift2]. rewrite add_int_linear. f_equal. lia.
  - injection H as <-. cbn [value_denotes lift2]. rewrite add_int_linear. f_equal.
  - injection H as <-. unfold add, combine. rewrite collapse_denotes. fold (combine ADD a b). fold (add a b).
    cbn [value_denotes lift2]. rewrite <- add_linear by assumption. reflexivity.
Qed.
Print Assumptions C17_plus.

Theorem C17_minus : forall p x y v, flat_value x -> flat_value y -> same_counts_value x y -> vsub x y = Val v ->
  value_denotes p v = lift2 Z.sub (value_denotes p x) (value_denotes p y).
Proof.
  intros p [|a|a] [|b|b] v Hx Hy Hc H; cbn [vsub] in H; try (injection H as <-; reflexivity); try destruct Hc.
  - unfold abs in H. destruct (i32 _); [|discriminate]. injection H as <-. reflexivity.
  - injection H as <-. cbn [value_denotes lift2]. rewrite sub_int_linear by assumption. f_equal.
  - injection H as <-. unfold sub, combine. rewrite collapse_denotes. fold (combine SUB a b). fold (sub a b).
    cbn [value_denotes lift2]. rewrite <- sub_linear by assumption. reflexivity.
Qed.
Print Assumptions C17_minus.

Theorem C17_negation : forall p x v, flat_value x -> vneg x = Val v ->
  value_denotes p v = option_map Z.opp (value_denotes p x).
Proof.
  intros p [|a|a] v Hx H; cbn [vneg] in H; try (injection H as <-; reflexivity).
  - unfold abs in H. destruct (i32 _); [|discriminate]. injection H as <-. reflexivity.
  - injection H as <-. cbn [value_denotes option_map]. now rewrite neg_linear.
Qed.
Print Assumptions C17_negation.

(** A value is of the right kind when it is relocatable only if it really depends on where sections
    and spaces are placed; the operations keep values that way. *)
Definition right_kind (v : value) : Prop :=
  match v with Reloc a => wf (bases a) /\ flat a = true /\ ~ (forall p q, denotes p a = denotes q a) | _ => True end.

Lemma combine_kind : forall o a b, right_kind (Reloc a) -> right_kind (Reloc b) -> right_kind (collapse (combine o a b)).
Proof.
  intros o a b (Wa & Fa & _) (Wb & Fb & _). destruct (collapse (combine o a b)) as [|z|c] eqn:E; [exact I|exact I|].
  assert (c = combine o a b).
  { unfold collapse in E. destruct (bases (combine o a b)); [destruct (has_unresolved_space (combine o a b))|]; congruence. }
  subst c. unfold combine in *. cbn [right_kind bases]. split; [now apply merge_wf|]. split; [apply flat_as_spaces|].
  intros K. apply collapse_kind in K; [|now apply merge_wf|apply merge_wf; apply normalized_wf].
  destruct K as [v K]. congruence.
Qed.
Lemma opp_wf : forall l, wf l -> wf (merge SUB [] l).
Proof. intros l H. apply merge_wf; [split; [constructor|intros ? []]|exact H]. Qed.

Theorem C17_kind_plus : forall x y v, right_kind x -> right_kind y -> vadd x y = Val v -> right_kind v.
Proof.
  intros [|a|a] [|b|b] v Hx Hy H; cbn [vadd] in H; try (injection H as <-; exact I).
  - unfold abs in H. destruct (i32 _); [|discriminate]. injection H as <-. exact I.
  - injection H as <-. destruct Hy as (W & F & N). split; [exact W|]. split; [exact F|].
    intros K. apply N. intros p q. specialize (K p q). rewrite !add_int_linear in K. lia.
  - injection H as <-. destruct Hx as (W & F & N). split; [exact W|]. split; [exact F|].
    intros K. apply N. intros p q. specialize (K p q). rewrite !add_int_linear in K. lia.
  - injection H as <-. now apply combine_kind.
Qed.
Print Assumptions C17_kind_plus.

Theorem C17_kind_minus : forall x y v, right_kind x -> right_kind y -> vsub x y = Val v -> right_kind v.
Proof.
  assert (G : forall a z, right_kind (Reloc a) -> right_kind (Reloc (sub_int a z))).
  { intros a z (W & F & N). split; [exact W|]. split; [apply flat_as_spaces|].
    intros K. apply N. intros p q. specialize (K p q). rewrite !sub_int_linear in K by assumption. lia. }
  intros [|a|a] [|b|b] v Hx Hy H; cbn [vsub] in H; try (injection H as <-; exact I).
  - unfold abs in H. destruct (i32 _); [|discriminate]. injection H as <-. exact I.
  - injection H as <-. now apply G.
  - injection H as <-. now apply G.
  - injection H as <-. now apply combine_kind.
Qed.
Print Assumptions C17_kind_minus.

Theorem C17_kind_negation : forall x v, right_kind x -> vneg x = Val v -> right_kind v.
Proof.
  intros [|a|a] v Hx H; cbn [vneg] in H; try (injection H as <-; exact I).
  - unfold abs in H. destruct (i32 _); [|discriminate]. injection H as <-. exact I.
  - injection H as <-. destruct Hx as (W & F & N). split; [now apply opp_wf|]. split; [apply flat_as_spaces|].
    intros K. apply N. intros p q. specialize (K p q). rewrite !neg_linear in K by assumption. lia.
Qed.
Print Assumptions C17_kind_negation.

(** The label of a statement is of the right kind. *)
Theorem C17_kind_label : forall b z l, forallb flat_space l = true -> right_kind (Reloc (new_address b z l)).
Proof.
  intros b z l H. split; [|split; [apply flat_as_spaces|]].
  - split; [constructor; [intros []|constructor]|]. intros e [<-|[]]. cbn. lia.
  - intros K. specialize (K {| base_at := fun _ => 0; space_len := fun _ => 0 |} {| base_at := fun _ => 1; space_len := fun _ => 0 |}).
    rewrite !new_address_denotes in K by assumption. cbn [base_at] in K.
    assert (E : forall p q s, space_len p = space_len q -> space_value p s = space_value q s).
    { intros p q s E. induction s as [id|len ptrs IH] using space_ind2; cbn [space_value]; [now rewrite E|].
      f_equal. f_equal. apply map_ext_in. intros e He. f_equal. now apply IH. }
    assert (M : map (space_value {| base_at := fun _ => 0; space_len := fun _ => 0 |}) l =
                map (space_value {| base_at := fun _ => 1; space_len := fun _ => 0 |}) l).
    { apply map_ext. intros s. now apply E. }
    rewrite M in K. lia.
Qed.
Print Assumptions C17_kind_label.

(** The difference of two labels of one section is absolute once the storage between is known. *)
Theorem C17_label_difference : forall b z1 z2,
  vsub (Reloc (new_address b z1 [])) (Reloc (new_address b z2 [])) = Val (Abs (z1 - z2)).
Proof.
  intros b z1 z2. cbn [vsub]. f_equal. unfold sub, combine, new_address. cbn.
  rewrite Nat.eqb_refl. cbn. unfold collapse. cbn. f_equal. unfold offset. cbn. lia.
Qed.
Print Assumptions C17_label_difference.

Theorem C17_times_and_divide : forall x y,
  (forall a b, x = Abs a -> y = Abs b ->
     vmul x y = (if i32 (a * b) then Val (Abs (a * b)) else Ub) /\
     (b = 0 -> vdiv x y = Val (Abs 0)) /\
     (b <> 0 -> i32 (Z.quot a b) = true -> vdiv x y = Val (Abs (Z.quot a b)))) /\
  ((forall a b, ~ (x = Abs a /\ y = Abs b)) -> vmul x y = Val Undefined /\ vdiv x y = Val Undefined).
Proof.
  intros x y. split.
  - intros a b -> ->. cbn [vmul vdiv]. unfold abs. split; [reflexivity|]. split.
    + intros ->. reflexivity.
    + intros N E. apply Z.eqb_neq in N. rewrite N. now rewrite E.
  - intros H. destruct x, y; cbn [vmul vdiv]; auto. exfalso. apply (H z z0). auto.
Qed.
Print Assumptions C17_times_and_divide.

(** Undefined behaviour only where the exact result of two absolute values does not fit. *)
Theorem C17_only_overflow_is_undefined : forall x y,
  (vadd x y = Ub <-> exists a b, x = Abs a /\ y = Abs b /\ i32 (a + b) = false) /\
  (vsub x y = Ub <-> exists a b, x = Abs a /\ y = Abs b /\ i32 (a - b) = false) /\
  (vneg x = Ub <-> exists a, x = Abs a /\ i32 (- a) = false).
Proof.
  intros x y. repeat split.
  - destruct x, y; cbn [vadd]; try discriminate. unfold abs. intros H. exists z, z0. repeat split.
    destruct (i32 _); [discriminate|reflexivity].
  - intros (a & b & -> & -> & E). cbn. unfold abs. now rewrite E.
  - destruct x, y; cbn [vsub]; try discriminate. unfold abs. intros H. exists z, z0. repeat split.
    destruct (i32 _); [discriminate|reflexivity].
  - intros (a & b & -> & -> & E). cbn. unfold abs. now rewrite E.
  - destruct x; cbn [vneg]; try discriminate. unfold abs. intros H. exists z. split; [reflexivity|].
    destruct (i32 _); [discriminate|reflexivity].
  - intros (a & -> & E). cbn. unfold abs. now rewrite E.
Qed.
Print Assumptions C17_only_overflow_is_undefined.

(** An absolute value minus a relocatable one yields the negated difference with the section
    counted positively: [5 - A] is [A - 5]. *)
Theorem C17_absolute_minus_relocatable_refuted : forall p z a, flat a = true ->
  exists v, vsub (Abs z) (Reloc a) = Val v /\ value_denotes p v = Some (denotes p a - z).
Proof.
  intros p z a F. exists (Reloc (sub_int a z)). split; [reflexivity|]. cbn [value_denotes]. now rewrite sub_int_linear.
Qed.
Print Assumptions C17_absolute_minus_relocatable_refuted.

Example C17_ex : right_kind (Reloc la) /\ vsub (Reloc lb) (Reloc la) <> Val Undefined /\
  vsub (Reloc la) (Reloc (new_address 1 3 [])) = Val (Abs 5).
Proof. split; [apply C17_kind_label; reflexivity|]. split; [discriminate|reflexivity]. Qed.
