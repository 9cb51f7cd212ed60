From Coq Require Import List ZArith Arith Bool Lia.
From Verif Require Import Addr_Model Addr_Spec.
Import ListNotations.
Local Open Scope Z_scope.

(** Induction on the resolution tree. *)
Section Ind.
  Variable P : space -> Prop.
  Hypothesis HU : forall id, P (Unres id).
  Hypothesis HR : forall len ptrs, (forall e, In e ptrs -> P (fst e)) -> P (Res len ptrs).
  Fixpoint space_ind2 (s : space) : P s :=
    match s with
    | Unres id => HU id
    | Res len ptrs => HR len ptrs
        ((fix go (l : list (space * Z)) : forall e, In e l -> P (fst e) :=
            match l with
            | [] => fun e H => match H with end
            | x :: l' => fun e H =>
                match H with
                | or_introl E => eq_ind x (fun y => P (fst y)) (space_ind2 (fst x)) e E
                | or_intror H' => go l' e H'
                end
            end) ptrs)
    end.
End Ind.

Definition wsum (f : nat -> Z) (l : list (nat * Z)) : Z := sum (map (fun e => snd e * f (fst e)) l).

Lemma wsum_insert : forall f id n l, wsum f (insert id n l) = wsum f l + n * f id.
Proof.
  intros f id n l. induction l as [|[j m] l IH]; cbn [insert]; unfold wsum in *; cbn [map sum fst snd].
  - ring.
  - destruct (Nat.eqb_spec id j) as [->|N]; cbn [map sum fst snd]; [ring|]. rewrite IH. ring.
Qed.
Lemma wsum_nonzero : forall f l, wsum f (filter nonzero l) = wsum f l.
Proof.
  intros f l. induction l as [|[j m] l IH]; [reflexivity|]. cbn [filter]. unfold nonzero at 1. cbn [snd].
  unfold wsum in *. destruct (Z.eqb_spec m 0) as [->|N]; cbn [negb map sum fst snd]; rewrite IH; ring.
Qed.
Lemma wsum_as_spaces : forall p l,
  sum (map (fun e => snd e * space_value p (fst e)) (as_spaces l)) = wsum (space_len p) l.
Proof.
  intros p l. unfold as_spaces, wsum. rewrite map_map. f_equal.
Qed.

(** Offsets and unresolved spaces together carry the value. *)
Definition ok_entry (e : sentry) : bool :=
  (match fst e with Unres _ => true | Res _ _ => snd e =? 1 end) && flat_space (fst e).

Lemma unres_entry : forall p s n acc, ok_entry (s, n) = true ->
  space_offset s + wsum (space_len p) (unres s n acc) = n * space_value p s + wsum (space_len p) acc.
Proof.
  intros p s. induction s as [id|len ptrs IH] using space_ind2; intros n acc H.
  - cbn [space_offset unres space_value]. rewrite wsum_insert. ring.
  - unfold ok_entry in H. cbn [fst snd] in H. apply andb_true_iff in H as [H1 H2]. apply Z.eqb_eq in H1. subst n.
    cbn [flat_space] in H2. cbn [space_offset unres space_value].
    assert (G : forall acc,
      fold_right (fun e acc => space_offset (fst e) + acc) 0 ptrs
      + wsum (space_len p) (fold_left (fun acc e => match e with (s', n') => unres s' n' acc end) ptrs acc)
      = sum (map (fun e => snd e * space_value p (fst e)) ptrs) + wsum (space_len p) acc).
    { clear acc. revert IH H2. induction ptrs as [|[s' n'] l IHl]; intros IH H2 acc; cbn [fold_right fold_left map sum fst snd forallb] in *; [lia|].
      apply andb_true_iff in H2 as [H3 H4].
      specialize (IHl (fun e He => IH e (or_intror He)) H4 (unres s' n' acc)).
      pose proof (IH (s', n') (or_introl eq_refl) n' acc H3) as K. cbn [fst] in K. lia. }
    specialize (G acc). lia.
Qed.

Lemma normalized : forall p a, flat a = true ->
  offset a + wsum (space_len p) (normalized_spaces a)
  = offset_ a + sum (map (fun e => snd e * space_value p (fst e)) (spaces a)).
Proof.
  intros p a H. unfold offset, normalized_spaces. rewrite wsum_nonzero. unfold flat in H.
  assert (G : forall l acc, forallb ok_entry l = true ->
    fold_right (fun e acc => space_offset (fst e) + acc) 0 l
    + wsum (space_len p) (fold_left (fun acc e => unresolved e acc) l acc)
    = sum (map (fun e => snd e * space_value p (fst e)) l) + wsum (space_len p) acc).
  { induction l as [|[s n] l IH]; intros acc Hl; cbn [fold_right fold_left map sum fst snd forallb] in *; [lia|].
    apply andb_true_iff in Hl as [H1 H2]. specialize (IH (unresolved (s, n) acc) H2).
    pose proof (unres_entry p s n acc H1). unfold unresolved in *. cbn [fst snd] in *. lia. }
  specialize (G (spaces a) [] H). unfold wsum at 2 in G. cbn [map sum] in G. lia.
Qed.

Lemma denotes_split : forall p a, flat a = true ->
  denotes p a = wsum (base_at p) (bases a) + offset a + wsum (space_len p) (normalized_spaces a).
Proof. intros p a H. pose proof (normalized p a H). unfold denotes, wsum in *. lia. Qed.

(** Merging. *)
Lemma take_wsum : forall f k l x r, take k l = Some (x, r) -> wsum f l = x * f k + wsum f r.
Proof.
  intros f k l. induction l as [|[j m] l IH]; intros x r H; cbn [take] in H; [discriminate|].
  destruct (Nat.eqb_spec k j) as [->|N].
  - injection H as <- <-. unfold wsum. cbn [map sum fst snd]. reflexivity.
  - destruct (take k l) as [[y q]|] eqn:E; [|discriminate]. injection H as <- <-.
    specialize (IH _ _ eq_refl). unfold wsum in *. cbn [map sum fst snd]. lia.
Qed.
Lemma take_in : forall k l x r, take k l = Some (x, r) -> In (k, x) l /\ forall e, In e r -> In e l.
Proof.
  intros k l. induction l as [|[j m] l IH]; intros x r H; cbn [take] in H; [discriminate|].
  destruct (Nat.eqb_spec k j) as [->|N].
  - injection H as <- <-. split; [left; reflexivity|]. intros; right; assumption.
  - destruct (take k l) as [[y q]|] eqn:E; [|discriminate]. injection H as <- <-.
    destruct (IH _ _ eq_refl) as [A B]. split; [right; exact A|]. intros e [<-|He]; [left; reflexivity|right; auto].
Qed.

Lemma merge_add : forall f l r, wsum f (merge ADD l r) = wsum f l + wsum f r.
Proof.
  intros f l. induction l as [|[k n] l IH]; intros r; cbn [merge].
  - unfold wsum at 2. cbn. lia.
  - destruct (take k r) as [[m r']|] eqn:E.
    + pose proof (take_wsum f k r m r' E) as K. cbv zeta. specialize (IH r').
      destruct (Z.eqb_spec (m + n) 0) as [Ez|Ez]; unfold wsum in *; cbn [map sum fst snd]; rewrite IH; nia.
    + unfold wsum in *. cbn [map sum fst snd]. rewrite IH. lia.
Qed.
Lemma merge_sub : forall f l r, same_counts l r -> wsum f (merge SUB l r) = wsum f l - wsum f r.
Proof.
  intros f l. induction l as [|[k n] l IH]; intros r H; cbn [merge].
  - unfold wsum. rewrite map_map. cbn [fst snd map sum]. clear. induction r as [|[j m] r IH]; cbn [map sum fst snd]; [reflexivity|].
    rewrite IH. ring.
  - destruct (take k r) as [[m r']|] eqn:E.
    + pose proof (take_wsum f k r m r' E) as K. destruct (take_in _ _ _ _ E) as [I1 I2].
      assert (n = m) by (eapply H; [left; reflexivity|exact I1]). subst m. cbv zeta. rewrite Z.sub_diag. cbn [Z.eqb].
      rewrite IH.
      * unfold wsum in *. cbn [map sum fst snd]. lia.
      * intros k' n' m' A B. eapply H; [right; exact A|apply I2; exact B].
    + unfold wsum in *. cbn [map sum fst snd]. rewrite IH; [lia|].
      intros k' n' m' A B. eapply H; [right; exact A|exact B].
Qed.

Lemma denotes_mk : forall p bs z l, denotes p (mkAddr bs z (as_spaces l)) = wsum (base_at p) bs + z + wsum (space_len p) l.
Proof. intros. unfold denotes. cbn [bases offset_ spaces]. rewrite wsum_as_spaces. reflexivity. Qed.

Lemma add_linear : forall p a b, flat a = true -> flat b = true -> denotes p (add a b) = denotes p a + denotes p b.
Proof.
  intros p a b Ha Hb. unfold add, combine. rewrite denotes_mk, !merge_add, (denotes_split p a Ha), (denotes_split p b Hb). lia.
Qed.
Lemma sub_linear : forall p a b, flat a = true -> flat b = true ->
  same_counts (bases a) (bases b) -> same_counts (normalized_spaces a) (normalized_spaces b) ->
  denotes p (sub a b) = denotes p a - denotes p b.
Proof.
  intros p a b Ha Hb H1 H2. unfold sub, combine.
  rewrite denotes_mk, !merge_sub, (denotes_split p a Ha), (denotes_split p b Hb) by assumption. lia.
Qed.
Lemma neg_linear : forall p a, flat a = true -> denotes p (neg a) = - denotes p a.
Proof.
  intros p a Ha. unfold neg. rewrite denotes_mk, (denotes_split p a Ha).
  rewrite !merge_sub by (intros ? ? ? []). unfold wsum. cbn [map sum]. lia.
Qed.
Lemma add_int_linear : forall p a z, denotes p (add_int a z) = denotes p a + z.
Proof. intros. unfold denotes, add_int. cbn [bases offset_ spaces]. lia. Qed.
Lemma sub_int_linear : forall p a z, flat a = true -> denotes p (sub_int a z) = denotes p a - z.
Proof. intros p a z Ha. unfold sub_int. rewrite denotes_mk, (denotes_split p a Ha). lia. Qed.
Lemma new_address_denotes : forall p b z l, forallb flat_space l = true ->
  denotes p (new_address b z l) = base_at p b + z + sum (map (space_value p) l).
Proof.
  intros p b z l H. unfold new_address. cbv zeta. rewrite denotes_mk.
  set (a := mkAddr _ _ _). assert (F : flat a = true).
  { unfold flat, a. cbn [spaces]. rewrite forallb_forall in *. intros e He. apply in_map_iff in He as (s & <- & Hs).
    cbn [fst snd]. rewrite (H s Hs). destruct s; reflexivity. }
  pose proof (normalized p a F) as K. unfold a in *. cbn [bases offset_ spaces] in *. unfold wsum at 1. cbn [map sum fst snd].
  rewrite map_map in K. cbn [fst snd] in K.
  assert (E : sum (map (fun x => 1 * space_value p x) l) = sum (map (space_value p) l)).
  { f_equal. apply map_ext. intros x. ring. }
  lia.
Qed.

Lemma flat_as_spaces : forall bs z l, flat (mkAddr bs z (as_spaces l)) = true.
Proof. intros. unfold flat, as_spaces. cbn [spaces]. apply forallb_forall. intros e He. apply in_map_iff in He as (x & <- & _). reflexivity. Qed.

Lemma offset_as_spaces : forall bs z l, offset (mkAddr bs z (as_spaces l)) = z.
Proof.
  intros. unfold offset. cbn [offset_ spaces].
  induction l as [|x l IH]; cbn; [lia|]. unfold as_spaces in IH. lia.
Qed.

Lemma collapse_denotes : forall p bs z l,
  value_denotes p (collapse (mkAddr bs z (as_spaces l))) = Some (denotes p (mkAddr bs z (as_spaces l))).
Proof.
  intros p bs z l. unfold collapse. cbn [bases]. destruct bs as [|b bs]; [|reflexivity].
  destruct (has_unresolved_space _) eqn:E; [reflexivity|]. cbn [value_denotes]. f_equal.
  rewrite offset_as_spaces, denotes_mk. unfold has_unresolved_space, as_spaces in E. cbn [spaces] in E.
  destruct l as [|x l]; [|discriminate]. unfold wsum. cbn. lia.
Qed.

(** Kinds. *)
Lemma collapse_abs : forall bs z l v, collapse (mkAddr bs z (as_spaces l)) = Abs v <-> bs = [] /\ l = [] /\ v = z.
Proof.
  intros bs z l v. unfold collapse. cbn [bases]. destruct bs as [|b bs].
  - destruct l as [|x l].
    + cbn [as_spaces map has_unresolved_space existsb spaces]. unfold offset. cbn. split.
      * intros H. injection H as <-. repeat split. lia.
      * intros (_ & _ & ->). f_equal. lia.
    + unfold has_unresolved_space. cbn. split; [discriminate|]. intros (_ & H & _). discriminate.
  - split; [discriminate|]. intros (H & _). discriminate.
Qed.

(** Well-formed lists: keys once, counts not zero. *)
Definition keys (l : list (nat * Z)) : list nat := map fst l.
Definition wf (l : list (nat * Z)) : Prop := NoDup (keys l) /\ forall e, In e l -> snd e <> 0.

Lemma insert_keys : forall id n l k, In k (keys (insert id n l)) <-> k = id \/ In k (keys l).
Proof.
  intros id n l k. induction l as [|[j m] l IH]; cbn [insert keys map In fst].
  - intuition.
  - destruct (Nat.eqb_spec id j) as [->|N]; unfold keys in *; cbn [map In fst] in *; intuition.
Qed.
Lemma insert_nodup : forall id n l, NoDup (keys l) -> NoDup (keys (insert id n l)).
Proof.
  intros id n l. induction l as [|[j m] l IH]; intros H; cbn [insert].
  - cbn. constructor; [intros []|constructor].
  - inversion_clear H as [|? ? H1 H2]. destruct (Nat.eqb_spec id j) as [->|N].
    + constructor; assumption.
    + constructor; [|auto]. intros K. apply insert_keys in K as [K|K]; [cbn in K; congruence|]. apply H1. exact K.
Qed.
Lemma unres_nodup : forall s n acc, NoDup (keys acc) -> NoDup (keys (unres s n acc)).
Proof.
  intros s. induction s as [id|len ptrs IH] using space_ind2; intros n acc H; cbn [unres].
  - apply insert_nodup. exact H.
  - revert acc H. induction ptrs as [|[s' n'] l IHl]; intros acc H; cbn [fold_left]; [exact H|].
    apply IHl; [intros e He; apply IH; right; exact He|]. apply (IH (s', n') (or_introl eq_refl)). exact H.
Qed.
Lemma filter_keys : forall f l, NoDup (keys l) -> NoDup (keys (filter f l)).
Proof.
  intros f l. induction l as [|e l IH]; intros H; [exact H|]. inversion_clear H as [|? ? H1 H2]. cbn [filter].
  destruct (f e); [|auto]. constructor; [|auto]. intros K. apply H1. unfold keys in *.
  apply in_map_iff in K as (x & E & Hx). apply filter_In in Hx as [Hx _]. rewrite <- E. apply in_map. exact Hx.
Qed.
Lemma normalized_wf : forall a, wf (normalized_spaces a).
Proof.
  intros a. unfold normalized_spaces. split.
  - apply filter_keys.
    assert (G : forall l acc, NoDup (keys acc) -> NoDup (keys (fold_left (fun acc e => unresolved e acc) l acc))).
    { induction l as [|e l IH]; intros acc H; [exact H|]. cbn [fold_left]. apply IH. apply unres_nodup. exact H. }
    apply G. constructor.
  - intros e He. apply filter_In in He as [_ He]. unfold nonzero in He. apply negb_true_iff in He. apply Z.eqb_neq. exact He.
Qed.
Lemma take_keys : forall k l x r, take k l = Some (x, r) -> NoDup (keys l) ->
  NoDup (keys r) /\ ~ In k (keys r) /\ forall j, In j (keys r) -> In j (keys l).
Proof.
  intros k l. induction l as [|[j m] l IH]; intros x r H Hn; cbn [take] in H; [discriminate|].
  inversion_clear Hn as [|? ? H1 H2]. destruct (Nat.eqb_spec k j) as [->|N].
  - injection H as <- <-. split; [exact H2|]. split; [exact H1|]. intros; right; assumption.
  - destruct (take k l) as [[y q]|] eqn:E; [|discriminate]. injection H as <- <-.
    destruct (IH _ _ eq_refl H2) as (A & B & C). cbn [keys map fst]. split.
    + constructor; [|exact A]. intros K. apply H1. apply C. exact K.
    + split.
      * intros [K|K]; [congruence|]. apply B. exact K.
      * intros i [K|K]; [left; exact K|right; apply C; exact K].
Qed.
Lemma take_none : forall k l, take k l = None -> ~ In k (keys l).
Proof.
  intros k l. induction l as [|[j m] l IH]; intros H; [intros []|]. cbn [take] in H.
  destruct (Nat.eqb_spec k j) as [->|N]; [discriminate|]. destruct (take k l) as [[? ?]|]; [discriminate|].
  intros [K|K]; [cbn in K; congruence|]. apply IH; [reflexivity|exact K].
Qed.
Lemma merge_keys : forall o l r, NoDup (keys r) -> forall j, In j (keys (merge o l r)) -> In j (keys l) \/ In j (keys r).
Proof.
  intros o l. induction l as [|[k n] l IH]; intros r Hr j H; cbn [merge] in H.
  - right. destruct o; [exact H|]. unfold keys in *. rewrite map_map in H. exact H.
  - destruct (take k r) as [[m r']|] eqn:E.
    + destruct (take_keys _ _ _ _ E Hr) as (A & B & C). cbv zeta in H.
      destruct (_ =? 0); [|destruct H as [H|H]; [left; left; exact H|]];
        (destruct (IH r' A j H) as [K|K]; [left; right; exact K|right; apply C; exact K]).
    + destruct H as [H|H]; [left; left; exact H|]. destruct (IH r Hr j H) as [K|K]; [left; right; exact K|right; exact K].
Qed.
Lemma merge_wf : forall o l r, wf l -> wf r -> wf (merge o l r).
Proof.
  intros o l. induction l as [|[k n] l IH]; intros r [L1 L2] [R1 R2]; cbn [merge].
  - destruct o; [split; assumption|]. split.
    + unfold keys. rewrite map_map. exact R1.
    + intros e He. apply in_map_iff in He as (x & <- & Hx). cbn [snd]. specialize (R2 x Hx). lia.
  - inversion_clear L1 as [|? ? L3 L4].
    assert (Wl : wf l) by (split; [exact L4|intros e He; apply L2; right; exact He]).
    destruct (take k r) as [[m r']|] eqn:E.
    + destruct (take_keys _ _ _ _ E R1) as (A & B & C). destruct (take_in _ _ _ _ E) as [_ I2].
      assert (Wr : wf r') by (split; [exact A|intros e He; apply R2; apply I2; exact He]).
      destruct (IH r' Wl Wr) as [K1 K2]. cbv zeta.
      destruct (Z.eqb_spec (match o with ADD => m + n | SUB => m - n end) 0) as [Ez|Ez]; [split; assumption|].
      split.
      * constructor; [|exact K1]. intros K. apply (merge_keys o l r' A) in K as [K|K]; contradiction.
      * intros e [<-|He]; [exact Ez|apply K2; exact He].
    + destruct (IH r Wl (conj R1 R2)) as [K1 K2]. split.
      * constructor; [|exact K1]. intros K. apply (merge_keys o l r R1) in K as [K|K]; [contradiction|].
        apply (take_none k r E). exact K.
      * intros e [<-|He]; [apply L2; left; reflexivity|apply K2; exact He].
Qed.

(** A well-formed combination is constant only if it is empty. *)
Lemma wsum_ext : forall f g l, (forall k, In k (keys l) -> f k = g k) -> wsum f l = wsum g l.
Proof.
  intros f g l H. unfold wsum. f_equal. apply map_ext_in. intros [k n] Hin. cbn [fst snd].
  rewrite (H k); [reflexivity|]. unfold keys. apply (in_map fst l (k, n)). exact Hin.
Qed.
Lemma wsum_constant : forall l, wf l -> (forall f, wsum f l = wsum (fun _ => 0) l) -> l = [].
Proof.
  intros [|[k n] l] [W1 W2] H; [reflexivity|]. exfalso. specialize (H (fun j => if Nat.eqb j k then 1 else 0)).
  inversion_clear W1 as [|? ? W3 W4]. unfold wsum in H. cbn [map sum fst snd] in H. rewrite Nat.eqb_refl in H.
  assert (E : wsum (fun j => if Nat.eqb j k then 1 else 0) l = wsum (fun _ => 0) l).
  { apply wsum_ext. intros j Hj. destruct (Nat.eqb_spec j k) as [->|]; [contradiction|reflexivity]. }
  unfold wsum in E. specialize (W2 (k, n) (or_introl eq_refl)). cbn [snd] in W2. lia.
Qed.

Lemma collapse_kind : forall bs z l, wf bs -> wf l ->
  ((exists v, collapse (mkAddr bs z (as_spaces l)) = Abs v)
   <-> forall p q, denotes p (mkAddr bs z (as_spaces l)) = denotes q (mkAddr bs z (as_spaces l))).
Proof.
  intros bs z l Wb Wl. split.
  - intros [v H]. apply collapse_abs in H as (-> & -> & ->). intros p q. rewrite !denotes_mk. reflexivity.
  - intros H. exists z. apply collapse_abs.
    assert (Eb : bs = []).
    { apply wsum_constant; [exact Wb|]. intros f.
      specialize (H {| base_at := f; space_len := fun _ => 0 |} {| base_at := fun _ => 0; space_len := fun _ => 0 |}).
      rewrite !denotes_mk in H. cbn [base_at space_len] in H. lia. }
    assert (El : l = []).
    { apply wsum_constant; [exact Wl|]. intros f.
      specialize (H {| base_at := fun _ => 0; space_len := f |} {| base_at := fun _ => 0; space_len := fun _ => 0 |}).
      rewrite !denotes_mk in H. cbn [base_at space_len] in H. lia. }
    auto.
Qed.
