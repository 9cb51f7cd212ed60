(** * The checks accept what is acceptable *)
From Coq Require Import List ZArith NArith Bool Ascii Lia Arith.
From Coq Require Import ZifyBool ZifyNat ZifyN.
From Verif Require Import DD_Model DD_Spec DD_Str DD_Len.
Import ListNotations.
Open Scope Z_scope.

Lemma check_modifier_spec : forall m s, fst (check_modifier m s) = true <->
  forall v, m = Some v -> match s with Bound a b => a <= v <= b | NA => False | _ => True end.
Proof.
  intros [v|] s; [|split; [intros _ v; discriminate|destruct s; reflexivity]].
  assert ((forall w, Some v = Some w -> match s with Bound a b => a <= w <= b | NA => False | _ => True end) <->
          match s with Bound a b => a <= v <= b | NA => False | _ => True end) as ->.
  { split; [intro H; exact (H v eq_refl)|intros H w Hw; injection Hw as <-; exact H]. }
  destruct s as [a b| | |]; cbn [check_modifier]; try (cbn; intuition congruence).
  destruct ((v <? a) || (b <? v)) eqn:K; cbn [bad ok fst]; lia.
Qed.

Lemma symbolic_relocatable : forall l, existsb is_symbolic l = true <-> relocatable l.
Proof.
  intro l. rewrite existsb_exists. unfold relocatable. split.
  - intros (x & Hx & Hs). destruct x as [v k ig|b d]; [|discriminate]. cbn in Hs.
    destruct k, ig; try discriminate; (eexists _, _; split; [exact Hx|discriminate]).
  - intros (v & k & Hin & Hk). exists (Expr v k false). split; [exact Hin|]. destruct k; [contradiction|reflexivity|reflexivity].
Qed.

(** what the types add about the length modifier *)
Definition A_bounds (o : operand) (mna mxa mns mxs mnb mxb n : Z) : Prop :=
  if existsb is_symbolic (items_of o) then bitlen o = false /\ mns <= n <= mxs
  else if bitlen o then mnb <= n <= mxb else mna <= n <= mxa.
Definition extra_length (t : dtype) (o : operand) (n : Z) : Prop :=
  match t with
  | CU | G => Z.rem n 2 <> 1
  | RD | VD => n = 3 \/ n = 4 \/ n = 8
  | J | JD => n = 2 \/ n = 3 \/ n = 4 \/ n = 8
  | A => A_bounds o 1 8 2 4 1 128 n
  | AD => A_bounds o 1 8 2 8 1 128 n
  | Y => A_bounds o 1 2 2 2 1 16 n
  | _ => True
  end.

Lemma even_rem : forall n, 1 <= n -> (Z.rem n 2 <> 1 <-> Z.even n = true).
Proof. intros n H. rewrite Z.rem_mod_nonneg by lia. rewrite Zeven_mod, <- Zeq_is_eq_bool. pose proof (Z.mod_pos_bound n 2 eq_refl). lia. Qed.

Lemma reloc_if : forall o (P Q : Prop),
  (if existsb is_symbolic (items_of o) then P else Q) <-> (relocatable (items_of o) -> P) /\ (~ relocatable (items_of o) -> Q).
Proof.
  intros o P Q. destruct (existsb is_symbolic (items_of o)) eqn:K.
  - apply symbolic_relocatable in K. intuition.
  - assert (~ relocatable (items_of o)) by (intro H; apply symbolic_relocatable in H; congruence). intuition.
Qed.

Definition field_spec (i : instr) (t : dtype) (bits : bool) : spec :=
  match bits, i with
  | true, DC_ => bit_spec (desc t) | true, DS_ => ds_bit_spec (desc t)
  | false, DC_ => len_spec (desc t) | false, DS_ => ds_len_spec (desc t)
  end.

Lemma length_parts : forall i t o, (bitlen o = true -> len o <> None) ->
  (fst (check_length i t o) = true /\ forall n, len o = Some n -> extra_length t o n) <->
  (forall n, len o = Some n -> length_allowed i t o (bitlen o) n).
Proof.
  intros i t o Hb. unfold check_length.
  destruct (len o) as [v|] eqn:Hl.
  2:{ assert (bitlen o = false) as -> by (destruct (bitlen o); [destruct (Hb eq_refl eq_refl)|reflexivity]). cbn [andb].
      split; [intros _ n; discriminate|]. intros _. split; [|intros n; discriminate]. destruct i, t; reflexivity. }
  assert (forall P : Z -> Prop, (forall n, Some v = Some n -> P n) <-> P v) as Hone.
  { intro P. split; [intro H; exact (H v eq_refl)|intros H n Hn; injection Hn as <-; exact H]. }
  rewrite !Hone. clear Hone.
  pose proof (check_modifier_spec (Some v)) as Hm.
  assert (forall s, fst (check_modifier (Some v) s) = true <-> match s with Bound a b => a <= v <= b | NA => False | _ => True end) as Hc.
  { intro s. rewrite Hm. split; [intro H; exact (H v eq_refl)|intros H n Hn; injection Hn as <-; exact H]. }
  clear Hm.
  destruct t; cbn [extra_length length_allowed]; unfold A_bounds; rewrite <- ?reloc_if; unfold between;
    destruct (bitlen o), i;
    cbn [desc same diff d_C d_HF d_PZ d_A d_S d_sym d_EDL bit_spec len_spec ds_bit_spec ds_len_spec andb bad fst];
    rewrite ?Hc; try destruct (existsb is_symbolic (items_of o));
    try (pose proof (even_rem v)); try (intuition (congruence || lia)).
Qed.

Lemma length_small : forall i t o n, length_allowed i t o (bitlen o) n -> 0 <= (if bitlen o then n else 8 * n) < 2 ^ 19.
Proof.
  intros i t o n. destruct t; cbn [length_allowed]; rewrite <- ?reloc_if; unfold between;
    destruct (bitlen o); try destruct i; try destruct (existsb is_symbolic (items_of o)); intuition (try discriminate); lia.
Qed.

(** ** The nominal value *)
Definition kind_fits (t : dtype) (n : nominal) : Prop :=
  match nom_t (desc t), n with
  | STRING, NStr _ => True
  | EXPRESSIONS, NExprs l => forall b d, ~ In (Address b d) l
  | ADDRESS_OR_EXPRESSION, NExprs _ => True
  | _, _ => False
  end.
Lemma nominal_type_spec : forall t o n, nom o = Some n -> (fst (check_nominal_type t o) = true <-> kind_fits t n).
Proof.
  intros t o n Hn. unfold check_nominal_type, kind_fits. rewrite Hn. cbn [nom_value].
  destruct (nom_t (desc t)), n as [s|l]; cbn [bad ok fst]; try (intuition congruence).
  split.
  - intros H b d Hin. assert (In (Address b d) (filter is_address l)) as Hf by (apply filter_In; split; [exact Hin|reflexivity]).
    destruct (filter is_address l); [destruct Hf|discriminate].
  - intro H. destruct (filter is_address l) as [|[v k ig|b d] f] eqn:E; [reflexivity| |].
    + assert (In (Expr v k ig) (filter is_address l)) as Hf by (rewrite E; left; reflexivity).
      apply filter_In in Hf. destruct Hf as [_ Hf]. discriminate.
    + assert (In (Address b d) (filter is_address l)) as Hf by (rewrite E; left; reflexivity).
      apply filter_In in Hf. destruct Hf as [Hf _]. destruct (H _ _ Hf).
Qed.
Lemma allowed_kind : forall t x n, nominal_allowed t x n -> kind_fits t n.
Proof. intros t x n H. unfold kind_fits. destruct t, n; cbn in *; tauto. Qed.

Lemma S_fold : forall size signed l c, fst (fold_left (fun a i => both a (check_S_item size signed i)) l c) = true <->
  fst c = true /\ Forall (fun i => fst (check_S_item size signed i) = true) l.
Proof.
  intros size signed. induction l as [|i l IH]; intro c; cbn [fold_left].
  - intuition.
  - rewrite IH. cbn [both fst]. rewrite andb_true_iff, Forall_cons_iff. tauto.
Qed.
Lemma S_item_spec : forall size (signed : bool) lo hi,
  (forall v, (if signed then fits_signed v size else fits_unsigned v size) = true <-> lo <= v <= hi) ->
  forall i, fst (check_S_item size signed i) = true <-> item_allowed lo hi i.
Proof.
  intros size signed lo hi Hf i. unfold check_S_item, item_allowed, between.
  destruct i as [v k []|[b|] [d|]]; cbn [ok fst]; try tauto.
  - rewrite <- Hf. destruct signed, (fits_signed v size), (fits_unsigned v size); cbn; intuition congruence.
  - rewrite <- Hf. cbn [both fst]. rewrite andb_true_iff.
    assert (fst (if fits_unsigned b 4 then ok else bad D023) = true <-> 0 <= b <= 15) as ->.
    { unfold fits_unsigned. change (2 ^ 4 - 1) with 15. destruct ((0 <=? b) && (b <=? 15)) eqn:K; cbn [ok bad fst]; lia. }
    destruct signed, (fits_signed d size), (fits_unsigned d size); cbn [ok bad fst]; intuition congruence.
Qed.

Lemma type_nominal : forall t o n, nom o = Some n -> kind_fits t n ->
  exists c, check_type t o true = Val c /\
    (fst c = true <-> (forall v, len o = Some v -> extra_length t o v) /\ nominal_allowed t (ext o) n).
Proof.
  intros t o n Hn Hk.
  assert (forall f (P : text -> Prop), (forall s, exists r, f s = Some r /\ (r = None <-> P s)) ->
          forall s, n = NStr s -> exists c, on_string o f = Val c /\
            (fst c = true <-> (forall v, len o = Some v -> True) /\ P s)) as Hstr.
  { intros f Pr Hf s ->. unfold on_string. rewrite Hn. cbn [nom_value]. destruct (Hf s) as (r & -> & Hr).
    destruct r as [d|]; eexists; (split; [reflexivity|]); cbn [ok bad fst]; rewrite <- Hr; intuition congruence. }
  assert (forall (f : text -> option bool) (P : text -> Prop), (forall s, exists b, f s = Some b /\ (b = true <-> P s)) ->
          forall s, exists r, d010 (f s) = Some r /\ (r = None <-> P s)) as H010.
  { intros f Pr Hf s. destruct (Hf s) as (b & -> & Hb).
    destruct b; eexists; (split; [reflexivity|]); intuition congruence. }
  assert (forall l, n = NExprs l -> items_of o = l) as Hitems by (intros l ->; unfold items_of; rewrite Hn; reflexivity).
  assert (forall mna mxa mns mxs mnb mxb l, n = NExprs l -> (forall b d, ~ In (Address b d) l) ->
    exists c, check_A_length o mna mxa mns mxs mnb mxb = Val c /\
      (fst c = true <-> (forall v, len o = Some v -> A_bounds o mna mxa mns mxs mnb mxb v))) as HA.
  { intros mna mxa mns mxs mnb mxb l El Hl. unfold check_A_length. destruct (len o) as [v|].
    2:{ eexists. split; [reflexivity|]. split; [intros _ v; discriminate|reflexivity]. }
    rewrite Hn, El. cbn [nom_value].
    assert (forall k, (forall b d, ~ In (Address b d) k) ->
      (fix scan (l0 : list item) : res bool := match l0 with
         | [] => Val true
         | i :: l' => if is_address i then Throw else if is_symbolic i then Val false else scan l' end) k
      = Val (negb (existsb is_symbolic k))) as ->.
    { induction k as [|i k IH]; intro Hno; [reflexivity|]. cbn [existsb]. destruct i as [w e ig|b d].
      - cbn [is_address]. destruct (is_symbolic (Expr w e ig)); [reflexivity|]. cbn [orb]. apply IH. intros b d Hin. apply (Hno b d). right; exact Hin.
      - destruct (Hno b d (or_introl eq_refl)). }
    2:{ exact Hl. }
    cbn [bind]. eexists. split; [reflexivity|]. unfold A_bounds. rewrite (Hitems l El).
    assert (forall P : Z -> Prop, (forall n0, Some v = Some n0 -> P n0) <-> P v) as ->.
    { intro P. split; [intro H; exact (H v eq_refl)|intros H n0 Hn0; injection Hn0 as <-; exact H]. }
    destruct (existsb is_symbolic l); cbn [negb]; destruct (bitlen o); cbn [bad fst]; try (intuition congruence);
      match goal with |- context [if ?b then _ else _] => destruct b eqn:K end; cbn [ok bad fst]; lia. }
  assert (forall l v, existsb (Z.eqb v) l = true <-> In v l) as Hin.
  { intros l v. rewrite existsb_exists. split; [intros (x & Hx & He); apply Z.eqb_eq in He; subst; exact Hx|intro H; exists v; split; [exact H|apply Z.eqb_refl]]. }
  assert (forall l d, exists c, length_in l d o = Val c /\ (fst c = true <-> forall v, len o = Some v -> In v l)) as Hlin.
  { intros l d. unfold length_in. destruct (len o) as [v|]; eexists; (split; [reflexivity|]).
    - destruct (existsb (Z.eqb v) l) eqn:K; cbn [ok bad fst].
      + apply Hin in K. split; [intros _ w Hw; injection Hw as <-; exact K|reflexivity].
      + split; [discriminate|]. intro H. specialize (H v eq_refl). apply Hin in H. congruence.
    - split; [intros _ v; discriminate|reflexivity]. }
  assert (exists c, odd_length o = Val c /\ (fst c = true <-> forall v, len o = Some v -> Z.rem v 2 <> 1)) as Hodd.
  { unfold odd_length. destruct (len o) as [v|]; eexists; (split; [reflexivity|]).
    - destruct (Z.eqb_spec (Z.rem v 2) 1); cbn [ok bad fst].
      + split; [discriminate|]. intro H. destruct (H v eq_refl e).
      + split; [intros _ w Hw; injection Hw as <-; exact n0|reflexivity].
    - split; [intros _ v; discriminate|reflexivity]. }
  assert (forall s, exists r, (fun s => match EDL_nominal (ext o) s with
                            | Some Good => Some None | Some BadValue => Some (Some D010)
                            | Some BadRound => Some (Some D026) | None => None end) s = Some r /\
          (r = None <-> Forall (floating_value (ext o)) (pieces s))) as HEDL.
  { intro s. destruct (EDL_nominal_spec (ext o) s) as (r & -> & Hr). destruct r; eexists; (split; [reflexivity|]); intuition congruence. }
  unfold kind_fits in Hk.
  destruct t; cbn [check_type extra_length nominal_allowed desc same diff d_C d_HF d_PZ d_A d_S d_sym d_EDL nom_t] in *;
    destruct n as [s|l]; try (destruct Hk; fail);
    try (apply (Hstr _ (fun s => Forall (floating_value (ext o)) (pieces s)) HEDL s eq_refl));
    try (apply (Hstr _ (fun s => Forall fixed_value (pieces s)) (H010 _ _ HF_nominal_spec) s eq_refl));
    try (apply (Hstr _ (fun s => Forall packed_value (pieces s)) (H010 _ _ PZ_nominal_spec) s eq_refl));
    try (exists ok; split; [reflexivity|]; cbn; tauto);
    try (destruct Hodd as (c & Hc & Hi); exists c; split; [exact Hc|rewrite Hi; tauto]);
    try (match goal with |- context [length_in ?l ?d o] => destruct (Hlin l d) as (c & Hc & Hi) end;
         exists c; split; [exact Hc|]; rewrite Hi; cbn [In];
         split; [intro H; split; [intros v Hv; specialize (H v Hv); lia|exact Hk]|intros (H & _) v Hv; specialize (H v Hv); lia]);
    try (match goal with |- context [check_A_length o ?a ?b ?c ?d ?e ?f] => destruct (HA a b c d e f l eq_refl Hk) as (r & Hr & Hi) end;
         exists r; split; [exact Hr|]; rewrite Hi; tauto).
  - apply (Hstr _ (fun s => Forall (digits_value binary) (pieces s))); [|reflexivity]. intro s'.
    pose proof (comma_separated_values _ binary binary_digit ltac:(intro K; apply inb_in in K; discriminate)
                  ltac:(intro K; apply inb_in in K; discriminate) s') as Hcs.
    destruct (comma_separated _ _ _); cbn [d010]; eexists; (split; [reflexivity|]); intuition congruence.
  - apply (Hstr _ (fun s => Forall (digits_value hexadecimal) (pieces s))); [|reflexivity]. intro s'.
    pose proof (comma_separated_values _ hexadecimal hex_hexadecimal ltac:(intro K; apply inb_in in K; discriminate)
                  ltac:(intro K; apply inb_in in K; discriminate) s') as Hcs.
    destruct (comma_separated _ _ _); cbn [d010]; eexists; (split; [reflexivity|]); intuition congruence.
  - unfold check_S. rewrite Hn. cbn [nom_value]. eexists. split; [reflexivity|]. rewrite S_fold. cbn [ok fst].
    assert (forall i, fst (check_S_item 12 false i) = true <-> item_allowed 0 4095 i) as Hi.
    { apply S_item_spec. intro v. unfold fits_unsigned. change (2 ^ 12 - 1) with 4095. lia. }
    rewrite !Forall_forall. setoid_rewrite Hi. tauto.
  - unfold check_S. rewrite Hn. cbn [nom_value]. eexists. split; [reflexivity|]. rewrite S_fold. cbn [ok fst].
    assert (forall i, fst (check_S_item 20 true i) = true <-> item_allowed (-524288) 524287 i) as Hi.
    { apply S_item_spec. intro v. unfold fits_signed. change (2 ^ (20 - 1)) with 524288. lia. }
    rewrite !Forall_forall. setoid_rewrite Hi. tauto.
Qed.

Lemma type_alone : forall t o, exists c, check_type t o false = Val c /\
  (fst c = true <-> (address_type t = false -> forall v, len o = Some v -> extra_length t o v)).
Proof.
  intros t o.
  destruct t; cbn [check_type extra_length address_type]; try (exists ok; split; [reflexivity|]; cbn; intuition congruence).
  1,2: unfold odd_length; destruct (len o) as [v|]; eexists; (split; [reflexivity|]).
  1,3: destruct (Z.eqb_spec (Z.rem v 2) 1); cbn [ok bad fst]; split; try discriminate; try reflexivity;
       [intro H; destruct (H eq_refl v eq_refl e)|intros _ _ w Hw; injection Hw as <-; exact n].
  1,2: split; [intros _ _ v; discriminate|reflexivity].
  all: unfold length_in; destruct (len o) as [v|]; eexists; (split; [reflexivity|]);
       try (split; [intros _ _ v; discriminate|reflexivity]);
       match goal with |- context [existsb ?f ?l] => destruct (existsb f l) eqn:K end; cbn [ok bad fst existsb] in *;
       (split; [try discriminate; intros _ _ w Hw; injection Hw as <-; lia|try reflexivity; intro H; specialize (H eq_refl v eq_refl); lia]).
Qed.

(** what the checks common to all types ask, without the length and the nominal value *)
Definition rest_allowed (i : instr) (t : dtype) (o : operand) : Prop :=
  (forall n, dup o = Some n -> 0 <= n) /\ (forall n, scale o = Some n -> scale_allowed t n) /\
  (forall n, expo o = Some n -> exponent_allowed t n) /\ (nom o = None -> i = DC_ -> dup o = Some 0).
Lemma scale_spec_allowed : forall t n, match scale_spec (desc t) with Bound a b => a <= n <= b | NA => False | _ => True end <-> scale_allowed t n.
Proof. intros [] n; cbn; unfold between; tauto. Qed.
Lemma exp_spec_allowed : forall t n, match exp_spec (desc t) with Bound a b => a <= n <= b | NA => False | _ => True end <-> exponent_allowed t n.
Proof. intros [] n; cbn; unfold between; tauto. Qed.
Lemma check_dup_spec : forall o, fst (check_dup o) = true <-> forall n, dup o = Some n -> 0 <= n.
Proof.
  intro o. unfold check_dup. destruct (dup o) as [d|]; [|split; [intros _ n; discriminate|reflexivity]].
  destruct (d <? 0) eqn:K; cbn [bad ok fst]; split; try discriminate; try reflexivity.
  - intro H. specialize (H d eq_refl). lia.
  - intros _ n Hn. injection Hn as <-. lia.
Qed.

Definition nominal_fits (t : dtype) (o : operand) : Prop := forall n, nom o = Some n -> kind_fits t n.
Lemma check_base_spec : forall i t o,
  (fst (fst (check_base i t o)) = true <-> rest_allowed i t o /\ fst (check_length i t o) = true /\ nominal_fits t o) /\
  (snd (check_base i t o) = true <-> exists n, nom o = Some n /\ kind_fits t n).
Proof.
  intros i t o. unfold check_base, rest_allowed.
  assert (forall a b c d e, fst (both (both (both (both a b) c) d) e) = true <->
            fst a = true /\ fst b = true /\ fst c = true /\ fst d = true /\ fst e = true) as Hb.
  { intros. cbn [both fst]. rewrite !andb_true_iff. tauto. }
  assert (fst (check_modifier (scale o) (scale_spec (desc t))) = true <-> forall n, scale o = Some n -> scale_allowed t n) as Hs.
  { rewrite check_modifier_spec. split; intros H n Hn; apply scale_spec_allowed; exact (H n Hn). }
  assert (fst (check_modifier (expo o) (exp_spec (desc t))) = true <-> forall n, expo o = Some n -> exponent_allowed t n) as He.
  { rewrite check_modifier_spec. split; intros H n Hn; apply exp_spec_allowed; exact (H n Hn). }
  rewrite <- check_dup_spec, <- Hs, <- He. clear Hs He.
  destruct (nom o) as [n|] eqn:Hn.
  - pose proof (nominal_type_spec t o n Hn) as Hk.
    assert (check_nominal_present i o = (ok, true)) as -> by (unfold check_nominal_present; rewrite Hn; destruct i; reflexivity).
    cbn [fst snd]. split.
    + cbn [both fst]. rewrite !andb_true_iff, Hk. unfold nominal_fits. rewrite Hn. cbn [ok fst].
      split.
      * intros (((((H1 & H2) & H3) & H4) & _) & H6). repeat (refine (conj _ _)); try assumption; try discriminate.
        intros m Hm. injection Hm as <-. exact H6.
      * intros ((H1 & H2 & H3 & _) & H4 & H5). repeat (refine (conj _ _)); try assumption; try reflexivity. exact (H5 n eq_refl).
    + rewrite Hk. split; [intro H; exists n; split; [reflexivity|exact H]|intros (m & Hm & H); injection Hm as <-; exact H].
  - assert (exists p, check_nominal_present i o = (p, false) /\ (fst p = true <-> (i = DC_ -> dup o = Some 0))) as (p & -> & Hp).
    { unfold check_nominal_present. rewrite Hn. destruct i.
      - destruct (dup o) as [d|].
        + destruct (Z.eqb_spec d 0) as [->|Hd]; eexists; (split; [reflexivity|]); cbn; intuition congruence.
        + eexists; split; [reflexivity|]. cbn. split; [discriminate|]. intro H. specialize (H eq_refl). discriminate.
      - eexists; split; [reflexivity|]. cbn. split; [intros _ H; discriminate|reflexivity]. }
    cbn [fst snd]. split.
    + rewrite Hb, Hp. unfold nominal_fits. rewrite Hn. split.
      * intros (H1 & H2 & H3 & H4 & H5). repeat (refine (conj _ _)); try assumption; [intros _; exact H5|intros m; discriminate].
      * intros ((H1 & H2 & H3 & H5) & H4 & _). repeat (refine (conj _ _)); try assumption. exact (H5 eq_refl).
    + split; [discriminate|]. intros (m & Hm & _). discriminate.
Qed.

Theorem check_with_spec : forall i t o, has_type o t -> reasonable o -> seen_length t o ->
  exists c, check_with i t o = Val c /\ (fst c = true <-> acceptable i t o).
Proof.
  intros i t o Ht Hr Hseen. unfold check_with.
  destruct (check_base_spec i t o) as (Hb & Hcn). destruct (check_base i t o) as [base cn]. cbn [fst snd] in *.
  pose proof (proj1 (proj2 (proj2 (proj2 (proj2 Hr))))) as Hbit.
  pose proof (length_parts i t o Hbit) as Hlen.
  assert (exists c, check_type t o cn = Val c /\
    (fst base = true -> (fst c = true <-> (forall v, len o = Some v -> extra_length t o v) /\ forall n, nom o = Some n -> nominal_allowed t (ext o) n))) as (c & Hc & Hci).
  { destruct cn.
    - destruct (proj1 Hcn eq_refl) as (n & Hn & Hk). destruct (type_nominal t o n Hn Hk) as (c & Hc & Hi).
      exists c. split; [exact Hc|]. intros _. rewrite Hi, Hn.
      split; intros (H1 & H2); (split; [exact H1|]); [intros m Hm; injection Hm as <-; exact H2|exact (H2 n eq_refl)].
    - destruct (type_alone t o) as (c & Hc & Hi). exists c. split; [exact Hc|]. intro Hbt. rewrite Hi.
      destruct (proj1 Hb Hbt) as (_ & _ & Hf).
      assert (nom o = None) as Hno.
      { destruct (nom o) as [n|] eqn:Hn; [|reflexivity]. assert (false = true) as K by (apply Hcn; exists n; split; [reflexivity|apply Hf; exact Hn]). discriminate. }
      split.
      + intro H. split; [|rewrite Hno; intros n; discriminate]. destruct (address_type t) eqn:Ha; [|exact (H eq_refl)].
        intros v Hv. exfalso. apply (Hseen Ha); [rewrite Hv; discriminate|exact Hno].
      + intros (H & _) _. exact H. }
  rewrite Hc. cbn [bind].
  destruct (fst (both base c)) eqn:Hboth; cbn [negb].
  2:{ eexists. split; [reflexivity|]. rewrite Hboth. split; [discriminate|]. intro Ha. exfalso.
      destruct Ha as (H1 & H2 & H3 & H4 & H5 & H6 & _). apply Hlen in H2. destruct H2 as [H2 H2'].
      assert (fst base = true) as Hbt.
      { apply Hb. unfold rest_allowed. repeat (refine (conj _ _)); try assumption. intros n Hn. apply (allowed_kind _ (ext o)). apply H6. exact Hn. }
      assert (fst c = true) as Hct by (apply (Hci Hbt); split; assumption).
      cbn [both fst] in Hboth. rewrite Hbt, Hct in Hboth. discriminate. }
  assert (fst base = true /\ fst c = true) as (Hbt & Hct) by (cbn [both fst] in Hboth; apply andb_true_iff in Hboth; exact Hboth).
  destruct (proj1 Hb Hbt) as ((H1 & H3 & H4 & H5) & H2 & _). destruct (proj1 (Hci Hbt) Hct) as (H2' & H6).
  assert (forall n, len o = Some n -> length_allowed i t o (bitlen o) n) as Hl by (apply Hlen; split; assumption).
  rewrite (get_length_spec t o Ht H6). cbn [bind].
  assert (0 <= operand_bits t o < 2 ^ 64) as Hsz.
  { apply operand_bits_bound; [exact Hr|exact H1|]. intros n Hn. apply (length_small i t). apply Hl. exact Hn. }
  rewrite u64_small by exact Hsz. eexists. split; [reflexivity|].
  destruct (2 ^ 31 * 8 <=? operand_bits t o) eqn:K.
  - cbn [both bad fst]. rewrite andb_false_r. split; [discriminate|]. intros (_ & _ & _ & _ & _ & _ & H7). lia.
  - rewrite Hboth. split; [|reflexivity]. intros _. unfold acceptable. repeat (refine (conj _ _)); try assumption. lia.
Qed.

Theorem check_accepts : forall i t o, has_type o t -> reasonable o -> seen_length t o ->
  exists c, check i o = Val c /\ (fst c = true <-> acceptable i t o).
Proof. intros i t o Ht Hr Hs. unfold check. apply access_type in Ht as Ha. rewrite Ha. apply check_with_spec; assumption. Qed.
Theorem check_no_type : forall i o, (forall t, ~ has_type o t) -> exists d, check i o = Val (false, [d]).
Proof.
  intros i o H. unfold check. destruct (access (typ o) (ext o)) as [t|] eqn:E; [destruct (H t); apply access_type; exact E|].
  destruct (ext o); [destruct (access (typ o) None)|]; eexists; reflexivity.
Qed.

(** ** An operand is rejected when an error is reported about it *)
Lemma honest_both : forall a b, honest a -> honest b -> honest (both a b).
Proof.
  intros [a la] [b lb] Ha Hb. unfold honest, both in *. cbn [fst snd] in *. rewrite existsb_app, negb_orb, Ha, Hb. reflexivity.
Qed.
Lemma honest_ok : honest ok. Proof. reflexivity. Qed.
Lemma honest_bad : forall d, is_error d = true -> honest (bad d).
Proof. intros d H. unfold honest, bad. cbn. rewrite H. reflexivity. Qed.
Create HintDb hon. #[export] Hint Resolve honest_both honest_ok : hon.
#[export] Hint Extern 1 (honest (bad _)) => (apply honest_bad; reflexivity) : hon.
Ltac by_branches := repeat match goal with
  | |- honest (match ?x with _ => _ end) => destruct x
  | H : Val (match ?x with _ => _ end) = Val _ |- _ => destruct x
  | H : match ?x with _ => _ end = Val _ |- _ => destruct x
  | H : Val ?a = Val ?b |- _ => injection H as <-
  | H : Throw = Val _ |- _ => discriminate
  | H : Undef = Val _ |- _ => discriminate
  end; auto with hon.
Lemma honest_modifier : forall m s, honest (check_modifier m s).
Proof. intros m s. unfold check_modifier. by_branches. Qed.
Lemma honest_nominal_type : forall t o, honest (check_nominal_type t o).
Proof.
  intros t o. unfold check_nominal_type. by_branches.
  unfold honest. cbn [fst snd]. destruct (filter is_address l); reflexivity.
Qed.
#[export] Hint Resolve honest_modifier honest_nominal_type : hon.
Lemma honest_base : forall i t o, honest (fst (check_base i t o)).
Proof.
  intros i t o. unfold check_base.
  assert (honest (check_dup o)) by (unfold check_dup; by_branches).
  assert (honest (check_length i t o)) by (unfold check_length; by_branches).
  assert (honest (fst (check_nominal_present i o))) by (unfold check_nominal_present; destruct i, (nom o); cbn [fst]; auto with hon; destruct (match dup o with Some v => v =? 0 | None => false end); cbn [fst]; auto with hon).
  destruct (check_nominal_present i o) as [p []]; cbn [fst] in *; auto 10 with hon.
Qed.
Lemma honest_S : forall size signed l c, honest c -> honest (fold_left (fun a i => both a (check_S_item size signed i)) l c).
Proof.
  intros size signed. induction l as [|x l IH]; intros c Hc; [exact Hc|]. cbn [fold_left]. apply IH. apply honest_both; [exact Hc|].
  unfold check_S_item. destruct x as [v k []|[b|] [d|]]; cbv zeta; auto with hon; try (apply honest_both); by_branches.
Qed.
Lemma honest_type : forall t o cn c, check_type t o cn = Val c -> honest c.
Proof.
  intros t o cn c H.
  assert (forall a b d e f g, check_A_length o a b d e f g = Val c -> honest c) as HA.
  { intros a b d e f g. unfold check_A_length. destruct (len o); [|intro K; injection K as <-; auto with hon].
    destruct (nom_value (nom o)) as [|l]; [discriminate|]. destruct (_ l) as [r| |]; cbn [bind]; try discriminate. intro K. by_branches. }
  assert (forall sz sg, check_S o sz sg = Val c -> honest c) as HS.
  { intros sz sg. unfold check_S. destruct (nom_value (nom o)); [discriminate|]. intro K. injection K as <-. apply honest_S. auto with hon. }
  assert (forall f, (forall s d, f s = Some (Some d) -> is_error d = true) -> on_string o f = Val c -> honest c) as HO.
  { intros f Hf. unfold on_string. destruct (nom_value (nom o)) as [s|]; [|discriminate]. destruct (f s) as [[d|]|] eqn:E; try discriminate;
      intro K; injection K as <-; [apply honest_bad; exact (Hf s d E)|auto with hon]. }
  assert (forall b d, d010 b = Some (Some d) -> is_error d = true) as Hd by (intros [[]|] d; cbn; try discriminate; intro K; injection K as <-; reflexivity).
  destruct t; cbn [check_type] in H; try destruct cn; try (injection H as <-; auto with hon; fail);
    try (eapply HA; exact H); try (eapply HS; exact H); try (eapply HO; [|exact H]; intros s d; apply Hd);
    try (eapply HO; [|exact H]; intros s d; cbv beta; destruct (EDL_nominal (ext o) s) as [[]|]; try discriminate; intro K; injection K as <-; reflexivity);
    unfold odd_length, length_in in H; destruct (len o); by_branches.
Qed.
Theorem check_honest : forall i o c, check i o = Val c -> honest c.
Proof.
  intros i o c. unfold check. destruct (access (typ o) (ext o)) as [t|]; [|intro H; by_branches].
  unfold check_with. pose proof (honest_base i t o) as Hb. destruct (check_base i t o) as [base cn]. cbn [fst] in Hb.
  destruct (check_type t o cn) as [k| |] eqn:Ek; try discriminate. apply honest_type in Ek. cbn [bind].
  destruct (negb (fst (both base k))); [intro H; injection H as <-; auto with hon|].
  destruct (get_length_of t o) as [n| |]; try discriminate. cbn [bind]. intro H. injection H as <-.
  all: match goal with |- honest (if ?b then _ else _) => destruct b end; auto with hon.
Qed.
