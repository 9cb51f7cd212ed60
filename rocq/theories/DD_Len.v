(** * Lengths of operands *)
From Coq Require Import List ZArith NArith Bool Ascii Lia Arith.
From Coq Require Import ZifyBool ZifyNat ZifyN.
From Verif Require Import DD_Model DD_Spec DD_Str.
Import ListNotations.
Open Scope Z_scope.

Lemma access_type : forall o t, access (typ o) (ext o) = Some t <-> has_type o t.
Proof.
  intros o t. unfold access, has_type.
  assert (forall l tc e d, lookup l tc e = Some d -> In (tc, e, d) (map (fun x => (fst (fst x), snd (fst x), snd x)) l)) as Hin.
  { induction l as [|((tc', e'), d') l IH]; intros tc e d H; [discriminate|]. cbn [lookup] in H. cbn [map fst snd].
    destruct ((tc =c tc') && oascii_eqb e e') eqn:K.
    - injection H as <-. apply andb_true_iff in K. destruct K as [K1 K2]. apply Ascii.eqb_eq in K1. subst. left.
      destruct e, e'; cbn in K2; try discriminate; [apply Ascii.eqb_eq in K2; subst|]; reflexivity.
    - right. apply IH. exact H. }
  split.
  - intro H. apply Hin in H. exact H.
  - intro H. revert H. generalize (typ o) (ext o). intros tc e H. unfold type_names in H. cbn [In] in H.
    repeat (destruct H as [H|H]; [injection H as <- <- <-; reflexivity|]). destruct H.
Qed.

(** ** Modular arithmetic *)
Lemma u64_mul : forall a b, u64 (u64 a * b) = u64 (a * b).
Proof. intros. unfold u64. rewrite Z.mul_mod_idemp_l by lia. reflexivity. Qed.
Lemma u64_add : forall a b, u64 (u64 a + b) = u64 (a + b).
Proof. intros. unfold u64. rewrite Z.add_mod_idemp_l by lia. reflexivity. Qed.
Lemma u64_add_r : forall a b, u64 (a + u64 b) = u64 (a + b).
Proof. intros. unfold u64. rewrite Z.add_mod_idemp_r by lia. reflexivity. Qed.
Lemma u64_small : forall a, 0 <= a < 2 ^ 64 -> u64 a = a.
Proof. intros a H. unfold u64. apply Z.mod_small. exact H. Qed.

(** ** Sums over the values *)
Lemma total_cons : forall a l, total (a :: l) = a + total l.
Proof. reflexivity. Qed.
Lemma total_scale : forall k (f : value -> Z) l, total (map (fun v => k * f v) l) = k * total (map f l).
Proof. intros k f l. induction l as [|v l IH]; cbn [map]; rewrite ?total_cons; [cbn; lia|]. rewrite IH. lia. Qed.
Lemma total_const : forall {T} (k : Z) (l : list T), total (map (fun _ => k) l) = Z.of_nat (length l) * k.
Proof. intros T k l. induction l as [|v l IH]; cbn [map length]; rewrite ?total_cons; [cbn; lia|]. rewrite IH. lia. Qed.
Lemma total_map_ext : forall {T} (f g : T -> Z) l, Forall (fun x => f x = g x) l -> total (map f l) = total (map g l).
Proof. intros T f g l H. induction H as [|x l Hx H IH]; [reflexivity|]. cbn [map]. rewrite !total_cons, Hx, IH. reflexivity. Qed.

Definition not_space (c : ascii) : bool := negb (c =c " ").
Lemma XB_length_spec : forall frac s len one, XB_length frac len one s =
  match pieces s with
  | [] => 0
  | p :: ps => len + (one + count not_space p + frac - 1) / frac
               + total (map (fun p => (count not_space p + frac - 1) / frac) ps)
  end.
Proof.
  intros frac. induction s as [|c s IH]; intros len one.
  { cbn [XB_length pieces count map total fold_right]. rewrite (Z.add_0_r one). lia. }
  cbn [XB_length pieces]. destruct (pieces s) as [|p ps] eqn:E; [destruct (pieces_nonempty _ E)|].
  destruct (Ascii.eqb_spec c ",") as [->|Hc].
  - rewrite IH. cbn [map count]. rewrite total_cons. rewrite Z.add_0_r, Z.add_0_l. lia.
  - cbn [count]. unfold not_space at 1. destruct (c =c " "); cbn [negb]; rewrite IH.
    + replace (one + (0 + count not_space p)) with (one + count not_space p) by lia. reflexivity.
    + replace (one + (1 + count not_space p)) with (one + 1 + count not_space p) by lia. reflexivity.
Qed.
Lemma not_space_digits : forall l p, ~ In " "%char l -> digits_value l p -> count not_space p = how_many l p.
Proof.
  intros l p Hsp (H & _). induction p as [|c p IH]; [reflexivity|]. cbn [count]. rewrite how_many_cons.
  rewrite IH by (intros x Hx; apply H; right; exact Hx). f_equal. unfold not_space.
  destruct (Ascii.eqb_spec c " ") as [->|Hc]; cbn [negb].
  - destruct (inb l " ") eqn:K; [|reflexivity]. apply inb_in in K. contradiction.
  - destruct (H c (or_introl eq_refl)) as [K|K]; [|congruence]. apply inb_in in K. rewrite K. reflexivity.
Qed.
Lemma up_div : forall n d, d = 8 \/ d = 2 -> (n + d - 1) / d = up n d.
Proof. intros n d [->| ->]; unfold up; lia. Qed.
Lemma XB_length_values : forall frac l s, frac = 8 \/ frac = 2 -> ~ In " "%char l -> Forall (digits_value l) (pieces s) ->
  XB_length frac 0 0 s = total (map (fun p => up (how_many l p) frac) (pieces s)).
Proof.
  intros frac l s Hf Hsp H. rewrite XB_length_spec. destruct (pieces s) as [|p ps] eqn:E; [destruct (pieces_nonempty _ E)|].
  inversion H as [|a b H1 H2]; subst. cbn [map]. rewrite total_cons, !Z.add_0_l, (not_space_digits l p Hsp H1), up_div by exact Hf.
  f_equal. apply total_map_ext. revert H2. apply Forall_impl. intros q Hq. rewrite (not_space_digits l q Hsp Hq). apply up_div; exact Hf.
Qed.
Lemma P_length_spec : forall s bytes half, P_length bytes half s =
  match pieces s with
  | [] => 0
  | p :: ps => bytes + (half + how_many decimal p + 1) / 2 + total (map (fun p => up (how_many decimal p + 1) 2) ps)
  end.
Proof.
  induction s as [|c s IH]; intros bytes half.
  { cbn [P_length pieces map total fold_right]. rewrite how_many_nil, (Z.add_0_r half). lia. }
  cbn [P_length pieces]. destruct (pieces s) as [|p ps] eqn:E; [destruct (pieces_nonempty _ E)|].
  destruct (Ascii.eqb_spec c ",") as [->|Hc].
  - rewrite IH. cbn [map]. rewrite how_many_nil, total_cons, Z.add_0_r.
    rewrite <- (up_div (how_many decimal p + 1) 2) by auto.
    replace (1 + how_many decimal p + 1) with (how_many decimal p + 1 + 2 - 1) by lia. lia.
  - rewrite digit_decimal, how_many_cons. destruct (inb decimal c); rewrite IH.
    + replace (half + (1 + how_many decimal p) + 1) with (half + 1 + how_many decimal p + 1) by lia. reflexivity.
    + replace (half + (0 + how_many decimal p) + 1) with (half + how_many decimal p + 1) by lia. reflexivity.
Qed.
Lemma P_length_values : forall s, P_length 0 1 s = total (map (fun p => up (how_many decimal p + 1) 2) (pieces s)).
Proof.
  intro s. rewrite P_length_spec. destruct (pieces s) as [|p ps] eqn:E; [destruct (pieces_nonempty _ E)|]. cbn [map].
  rewrite total_cons, <- (up_div (how_many decimal p + 1) 2) by auto. f_equal. rewrite Z.add_0_l. f_equal. lia.
Qed.
Lemma pieces_total : forall (l : list ascii), ~ In ","%char l -> forall s, how_many l s = total (map (how_many l) (pieces s)).
Proof.
  intros l Hl. induction s as [|c s IH]; [reflexivity|]. cbn [pieces]. rewrite how_many_cons, IH.
  destruct (pieces s) as [|p ps] eqn:E; [destruct (pieces_nonempty _ E)|].
  destruct (Ascii.eqb_spec c ",") as [->|Hc]; cbn [map]; rewrite !total_cons.
  - rewrite how_many_nil. destruct (inb l ",") eqn:K; [apply inb_in in K; contradiction|]. lia.
  - rewrite how_many_cons. lia.
Qed.
Lemma count_pieces : forall s, count (fun c => c =c ",") s + 1 = Z.of_nat (length (pieces s)).
Proof.
  induction s as [|c s IH]; [reflexivity|]. cbn [count pieces].
  destruct (pieces s) as [|p ps] eqn:E; [destruct (pieces_nonempty _ E)|].
  destruct (c =c ","); cbn [length] in *; lia.
Qed.
Lemma count_not_quote : forall s, count not_quote s = Z.of_nat (length s) - how_many ["<"; ">"]%char s.
Proof.
  induction s as [|c s IH]; [reflexivity|]. cbn [count length]. rewrite how_many_cons, IH, quote_quote.
  destruct (inb ["<"; ">"]%char c); cbn [negb]; lia.
Qed.

(** ** The length of an operand *)
Definition C_family (t : dtype) : bool := match t with C | CA | CE | CU | G => true | _ => false end.
Lemma values_count : forall o t, has_type o t -> (C_family t = true -> forall l, nom o <> Some (NExprs l)) ->
  values_in_nominal (typ o) (nom o) = Z.of_nat (length (values t (nom o))).
Proof.
  intros o t Ht Hn. unfold values_in_nominal.
  assert (((typ o =c "C") || (typ o =c "G")) = C_family t) as ->.
  { unfold has_type, type_names in Ht. cbn [In] in Ht.
    repeat (destruct Ht as [Ht|Ht]; [injection Ht as <- _ <-; reflexivity|]). destruct Ht. }
  destruct (nom o) as [[s|l]|]; cbn [nom_value].
  - destruct t; cbn [C_family values]; rewrite ?map_length; try reflexivity; rewrite count_pieces; reflexivity.
  - destruct (C_family t) eqn:K; [destruct (Hn eq_refl l eq_refl)|].
    destruct t; try discriminate; cbn [values]; rewrite map_length; reflexivity.
  - destruct t; reflexivity.
Qed.

Lemma values_map : forall (f : value -> Z) s, total (map f (map TextValue s)) = total (map (fun p => f (TextValue p)) s).
Proof. intros f s. rewrite map_map. reflexivity. Qed.

Lemma nominal_length_spec : forall t x n, implicit_length (desc t) = AsNeeded ->
  (forall k, n = Some k -> nominal_allowed t x k) ->
  nominal_length t n = Val (total (map (natural_bytes t) (values t n))).
Proof.
  intros t x n Ht Hn. destruct n as [n|].
  2:{ destruct t; try discriminate; reflexivity. }
  specialize (Hn n eq_refl).
  destruct t; try discriminate; destruct n as [s|l]; try (destruct Hn; fail);
    cbn [nominal_length values]; f_equal; rewrite ?values_map; cbn [natural_bytes nominal_allowed] in *.
  - apply (XB_length_values 8 binary s); [auto|intro K; apply inb_in in K; discriminate|exact Hn].
  - cbn. unfold size. lia.
  - cbn. unfold size. lia.
  - cbn. unfold size. lia.
  - cbn -[Z.mul]. unfold size. lia.
  - cbn [map]. rewrite total_cons, count_not_quote. cbn [total fold_right natural_bytes]. lia.
  - apply (XB_length_values 2 hexadecimal s); [auto|intro K; apply inb_in in K; discriminate|exact Hn].
  - apply P_length_values.
  - rewrite (count_how_many digit decimal) by exact digit_decimal. apply pieces_total.
    intro K; apply inb_in in K; discriminate.
Qed.

Lemma fixed_natural : forall t n, implicit_length (desc t) = Fixed n -> forall v, natural_bytes t v = n.
Proof. intros t n H v. destruct t; cbn in H; try discriminate; injection H as <-; destruct v; reflexivity. Qed.
Lemma values_none : forall t, values t None = [NoValue].
Proof. intros []; reflexivity. Qed.

Theorem get_length_spec : forall t o, has_type o t ->
  (forall n, nom o = Some n -> nominal_allowed t (ext o) n) ->
  get_length_of t o = Val (u64 (operand_bits t o)).
Proof.
  intros t o Ht Hn. unfold get_length_of, operand_bits, copies.
  assert (C_family t = true -> forall l, nom o <> Some (NExprs l)) as HC.
  { intros HC l Hl. specialize (Hn _ Hl). destruct t; try discriminate; exact Hn. }
  assert (forall b, (let! bits := Val (u64 b) in Val (match dup o with Some d => u64 (bits * d) | None => bits end)) =
                    Val (u64 ((match dup o with Some n => n | None => 1 end) * b))) as Hd.
  { intro b. cbn [bind]. f_equal. destruct (dup o) as [d|]; [rewrite u64_mul; f_equal; lia|f_equal; lia]. }
  destruct (len o) as [v|] eqn:Hl.
  - rewrite (values_count o t Ht HC).
    assert (total (map (value_bits t o) (values t (nom o))) = Z.of_nat (length (values t (nom o))) * (if bitlen o then v else 8 * v)) as ->.
    { rewrite <- total_const. f_equal. apply map_ext. intro x. unfold value_bits. rewrite Hl. reflexivity. }
    rewrite <- Hd. destruct (bitlen o); [reflexivity|]. do 2 f_equal. rewrite u64_mul. f_equal. lia.
  - assert (total (map (value_bits t o) (values t (nom o))) = 8 * total (map (natural_bytes t) (values t (nom o)))) as ->.
    { rewrite <- total_scale. f_equal. apply map_ext. intro x. unfold value_bits. rewrite Hl. reflexivity. }
    rewrite <- Hd. destruct (implicit_length (desc t)) as [k|] eqn:Hi.
    + assert (total (map (natural_bytes t) (values t (nom o))) = Z.of_nat (length (values t (nom o))) * k) as ->.
      { rewrite <- total_const. f_equal. apply map_ext. apply fixed_natural. exact Hi. }
      destruct (nom o) as [n|] eqn:Hno.
      * rewrite <- Hno, (values_count o t Ht) by (rewrite Hno; exact HC). do 2 f_equal. rewrite Hno. f_equal. lia.
      * rewrite values_none. cbn [length]. do 2 f_equal. rewrite u64_small; [lia|].
        assert (0 <= k <= 16) by (destruct t; cbn in Hi; try discriminate; injection Hi as <-; lia). lia.
    + rewrite (nominal_length_spec t (ext o) (nom o) Hi Hn). rewrite (Z.mul_comm 8). reflexivity.
Qed.

(** ** Bounds *)
Lemma total_bounds : forall {T} (f : T -> Z) (k : Z) l, Forall (fun x => 0 <= f x <= k) l ->
  0 <= total (map f l) <= Z.of_nat (length l) * k.
Proof. intros T f k l H. induction H as [|x l Hx H IH]; cbn [map length]; [cbn; lia|]. rewrite total_cons. lia. Qed.
Lemma how_many_length : forall l v, how_many l v <= Z.of_nat (length v).
Proof. intros l v. induction v as [|c v IH]; [cbn; lia|]. rewrite how_many_cons. cbn [length]. destruct (inb l c); lia. Qed.
Lemma pieces_length : forall s, Forall (fun p => (length p <= length s)%nat) (pieces s) /\ (length (pieces s) <= S (length s))%nat.
Proof.
  induction s as [|c s (IH1 & IH2)]; [split; [repeat constructor|cbn; lia]|]. cbn [pieces].
  destruct (pieces s) as [|p ps] eqn:E; [destruct (pieces_nonempty _ E)|]. inversion IH1 as [|a b H1 H2]; subst.
  assert (Forall (fun p => (length p <= length (c :: s))%nat) ps) as Hps
    by (revert H2; apply Forall_impl; intros; cbn; lia).
  destruct (c =c ","); cbn [length] in *; (split; [|lia]).
  - constructor; [cbn; lia|]. constructor; [lia|exact Hps].
  - constructor; [cbn [length]; lia|exact Hps].
Qed.
Definition value_size (v : value) : Z := match v with TextValue s => Z.of_nat (length s) | _ => 0 end.
Lemma natural_bounds : forall t v, 0 <= natural_bytes t v <= 2 * value_size v + 16.
Proof.
  intros t v.
  assert (forall l s, 0 <= how_many l s <= Z.of_nat (length s)) as Hh
    by (intros; split; [apply how_many_nonneg|apply how_many_length]).
  destruct t, v; cbn [natural_bytes value_size]; try lia;
    try (pose proof (Hh binary v); unfold up; lia); try (pose proof (Hh hexadecimal v); unfold up; lia);
    try (pose proof (Hh decimal v); unfold up; lia); try (pose proof (Hh ["<"; ">"]%char v); lia).
Qed.
Lemma values_size : forall t o, nominal_size o < 2 ^ 13 ->
  Forall (fun v => 0 <= value_size v < 2 ^ 13) (values t (nom o)) /\ Z.of_nat (length (values t (nom o))) <= 2 ^ 13.
Proof.
  intros t o H. unfold nominal_size in H. destruct (nom o) as [[s|l]|].
  - assert (Forall (fun v => 0 <= value_size v < 2 ^ 13) (map TextValue (pieces s)) /\ Z.of_nat (length (map TextValue (pieces s))) <= 2 ^ 13) as Hp.
    { destruct (pieces_length s) as (H1 & H2). rewrite map_length. split; [|lia]. apply Forall_map. revert H1. apply Forall_impl.
      intros p Hp. cbn [value_size]. lia. }
    destruct t; cbn [values]; try exact Hp; (split; [constructor; [cbn [value_size]; lia|constructor]|cbn; lia]).
  - assert (Forall (fun v => 0 <= value_size v < 2 ^ 13) (map (fun _ : item => ItemValue) l) /\ Z.of_nat (length (map (fun _ : item => ItemValue) l)) <= 2 ^ 13) as Hp.
    { rewrite map_length. split; [|lia]. apply Forall_map. apply Forall_forall. intros x _. cbn. lia. }
    destruct t; cbn [values]; exact Hp.
  - rewrite values_none. split; [constructor; [cbn; lia|constructor]|cbn; lia].
Qed.
Lemma operand_bits_bound : forall t o, reasonable o -> (forall n, dup o = Some n -> 0 <= n) ->
  (forall n, len o = Some n -> 0 <= (if bitlen o then n else 8 * n) < 2 ^ 19) ->
  0 <= operand_bits t o < 2 ^ 64.
Proof.
  intros t o (Hd & _ & _ & _ & _ & Hs) Hd0 Hl. destruct (values_size t o Hs) as (H1 & H2).
  assert (Forall (fun v => 0 <= value_bits t o v <= 2 ^ 19) (values t (nom o))) as H3.
  { revert H1. apply Forall_impl. intros v Hv. unfold value_bits. destruct (len o) as [n|].
    - specialize (Hl n eq_refl). lia.
    - pose proof (natural_bounds t v). lia. }
  apply total_bounds in H3. unfold operand_bits, copies. destruct (dup o) as [d|].
  - specialize (Hd0 d eq_refl). specialize (Hd d eq_refl). unfold int32 in Hd.
    split; [apply Z.mul_nonneg_nonneg; lia|]. 
    apply Z.le_lt_trans with ((2 ^ 31 - 1) * (2 ^ 13 * 2 ^ 19)); [|lia].
    apply Z.mul_le_mono_nonneg; lia.
  - lia.
Qed.
