(** * Statements of data definitions: layout and attributes *)
From Coq Require Import List ZArith NArith Bool Ascii Lia Arith.
From Coq Require Import ZifyBool ZifyNat ZifyN.
From Verif Require Import DD_Model DD_Spec DD_Str DD_Len DD_Check.
Import ListNotations.
Open Scope Z_scope.

(** ** Boundaries *)
Lemma round_up_spec : forall n m, 0 < m ->
  (m | round_up n m) /\ n <= round_up n m /\ forall q, (m | q) -> n <= q -> round_up n m <= q.
Proof.
  intros n m Hm. unfold round_up. pose proof (Z.div_mod (n + m - 1) m ltac:(lia)) as Hd. pose proof (Z.mod_pos_bound (n + m - 1) m Hm) as Hb.
  split; [exists ((n + m - 1) / m); reflexivity|]. split; [lia|].
  intros q (k & ->) Hq. apply Z.mul_le_mono_nonneg_r; [lia|].
  assert ((n + m - 1) / m < k + 1); [|lia]. apply Z.div_lt_upper_bound; lia.
Qed.
Lemma round_up_bound : forall n m, 0 < m -> round_up n m < n + m.
Proof.
  intros n m Hm. unfold round_up. pose proof (Z.div_mod (n + m - 1) m ltac:(lia)) as Hd. pose proof (Z.mod_pos_bound (n + m - 1) m Hm) as Hb. lia.
Qed.
Lemma alignment_spec : forall o t, has_type o t ->
  get_alignment (typ o) (ext o) (match len o with Some _ => true | None => false end) = boundary_of t o.
Proof.
  intros o t Ht. unfold get_alignment, boundary_of. apply access_type in Ht. rewrite Ht. destruct (len o); [reflexivity|]. destruct t; reflexivity.
Qed.
Lemma boundary_bounds : forall t o, 1 <= boundary_of t o <= 16.
Proof. intros t o. unfold boundary_of. destruct (len o); [lia|]. destruct t; cbn; lia. Qed.
Definition next_bit (t : dtype) (o : operand) (bits : Z) : Z :=
  if bitlen o then bits else round_up (round_up bits 8) (boundary_of t o * 8).
Lemma next_begins : forall t o bits, begins t o bits (next_bit t o bits).
Proof.
  intros t o bits. unfold begins, next_bit. destruct (bitlen o); [reflexivity|].
  pose proof (boundary_bounds t o) as Hb. set (b := boundary_of t o) in *.
  destruct (round_up_spec bits 8 ltac:(lia)) as (H1 & H2 & H3).
  destruct (round_up_spec (round_up bits 8) (b * 8) ltac:(lia)) as (H4 & H5 & H6). rewrite (Z.mul_comm 8).
  split; [exact H4|]. split; [lia|]. intros q Hq Hle. apply H6; [exact Hq|]. apply H3; [|exact Hle].
  apply Z.divide_trans with (b * 8); [exists b; reflexivity|exact Hq].
Qed.
Lemma next_bounds : forall t o bits, bits <= next_bit t o bits <= bits + 136.
Proof.
  intros t o bits. unfold next_bit. destruct (bitlen o); [lia|]. pose proof (boundary_bounds t o) as Hb.
  destruct (round_up_spec bits 8 ltac:(lia)) as (_ & H2 & _). pose proof (round_up_bound bits 8 ltac:(lia)).
  destruct (round_up_spec (round_up bits 8) (boundary_of t o * 8) ltac:(lia)) as (_ & H5 & _).
  pose proof (round_up_bound (round_up bits 8) (boundary_of t o * 8) ltac:(lia)). lia.
Qed.
Lemma begins_unique : forall t o from p q, begins t o from p -> begins t o from q -> p = q.
Proof.
  intros t o from p q. unfold begins. destruct (bitlen o); [congruence|].
  intros (H1 & H2 & H3) (H4 & H5 & H6). specialize (H3 q H4 H5). specialize (H6 p H1 H2). lia.
Qed.
Lemma laid_out_unique : forall l from u v, laid_out from l u -> laid_out from l v -> u = v.
Proof.
  induction l as [|(t, o) l IH]; intros from u v Hu Hv; inversion Hu; inversion Hv; subst; [reflexivity|].
  assert (p = p0) as <- by (eapply begins_unique; eassumption). eapply IH; eassumption.
Qed.
Lemma begins_shift : forall t o from p k, (8 * boundary_of t o | k) -> begins t o from p -> begins t o (k + from) (k + p).
Proof.
  intros t o from p k Hk. unfold begins. destruct (bitlen o); [lia|]. intros (H1 & H2 & H3).
  split; [apply Z.divide_add_r; assumption|]. split; [lia|]. intros q Hq Hle.
  assert (p <= q - k); [|lia]. apply H3; [apply Z.divide_sub_r; assumption|lia].
Qed.
Lemma laid_out_shift : forall l from u k, Forall (fun x => (8 * boundary_of (fst x) (snd x) | k)) l ->
  laid_out from l u -> laid_out (k + from) l (k + u).
Proof.
  induction l as [|(t, o) l IH]; intros from u k Hf Hu; inversion Hu; subst; [constructor|].
  inversion Hf as [|a b H1 H2]; subst. econstructor; [apply begins_shift; eassumption|].
  rewrite <- Z.add_assoc. apply IH; assumption.
Qed.

(** ** The storage of a list of operands *)

Lemma acceptable_length : forall i t o, has_type o t -> reasonable o -> acceptable i t o ->
  get_length o = Val (operand_bits t o) /\ 0 <= operand_bits t o < 2 ^ 34.
Proof.
  intros i t o Ht Hr (H1 & H2 & _ & _ & _ & H6 & H7). unfold get_length. apply access_type in Ht as Ha. rewrite Ha, (get_length_spec t o Ht H6).
  assert (0 <= operand_bits t o < 2 ^ 64) as Hb.
  { apply operand_bits_bound; [exact Hr|exact H1|]. intros n Hn. apply (length_small i t). apply H2. exact Hn. }
  rewrite u64_small by exact Hb. split; [reflexivity|lia].
Qed.
Definition bit_limit (n : nat) : Z := Z.of_nat n * (2 ^ 34 + 136).
Lemma operands_bits_fine : forall i l bits, Forall good l -> Forall (fine i) l -> 0 <= bits -> bits + bit_limit (length l) < 2 ^ 64 ->
  exists upto, laid_out bits l upto /\ operands_bits i bits (map snd l) = Val (Some upto) /\ bits <= upto <= bits + bit_limit (length l).
Proof.
  intros i. induction l as [|(t, o) l IH]; intros bits Hg Hf Hb Hlim.
  - exists bits. split; [constructor|]. split; [reflexivity|]. unfold bit_limit. cbn. lia.
  - inversion Hg as [|a b (Ht & Hr & Hs) Hg']; subst. inversion Hf as [|a b Ha Hf']; subst. unfold fine in Ha. cbn [fst snd] in *.
    assert (bit_limit (length ((t, o) :: l)) = 2 ^ 34 + 136 + bit_limit (length l)) as El by (unfold bit_limit; cbn [length]; lia).
    rewrite El in Hlim. assert (0 <= bit_limit (length l)) by (unfold bit_limit; lia).
    destruct (check_accepts i t o Ht Hr Hs) as (c & Hc & Hi). destruct (acceptable_length i t o Ht Hr Ha) as (Hl & Hlb).
    pose proof (next_bounds t o bits) as Hn. pose proof (next_begins t o bits) as Hbeg.
    destruct (IH (next_bit t o bits + operand_bits t o) Hg' Hf' ltac:(lia) ltac:(lia)) as (upto & H1 & H2 & H3).
    exists upto. split; [econstructor; eassumption|]. split; [|lia].
    cbn [map snd operands_bits]. rewrite Hc. cbn [bind]. apply Hi in Ha. rewrite Ha. cbn [negb]. rewrite Hl. cbn [bind].
    rewrite (alignment_spec o t Ht). fold (next_bit t o bits). rewrite u64_small by lia. exact H2.
Qed.
Lemma operands_bits_bad : forall i l bits, Forall good l -> ~ Forall (fine i) l -> operands_bits i bits (map snd l) = Val None.
Proof.
  intros i. induction l as [|(t, o) l IH]; intros bits Hg Hf; [destruct (Hf (Forall_nil _))|].
  inversion Hg as [|a b (Ht & Hr & Hs) Hg']; subst. cbn [fst snd] in *. cbn [map snd operands_bits].
  destruct (check_accepts i t o Ht Hr Hs) as (c & Hc & Hi). rewrite Hc. cbn [bind].
  destruct (fst c) eqn:Hfc; cbn [negb]; [|reflexivity].
  assert (acceptable i t o) as Ha by (apply Hi; reflexivity). destruct (acceptable_length i t o Ht Hr Ha) as (Hl & _). rewrite Hl. cbn [bind].
  apply IH; [exact Hg'|]. intro H. apply Hf. constructor; [exact Ha|exact H].
Qed.
Lemma round_up_8 : forall b, round_up b 8 / 8 = up b 8.
Proof. intro b. unfold round_up. rewrite Z.div_mul by lia. apply up_div. auto. Qed.

Lemma few_limit : forall n, few n -> bit_limit n < 2 ^ 64.
Proof. intros n H. unfold few, bit_limit in *. lia. Qed.
Theorem operands_length_fine : forall i l, Forall good l -> few (length l) -> Forall (fine i) l ->
  exists upto, laid_out 0 l upto /\ operands_length i (map snd l) = Val (up upto 8) /\ 0 <= upto.
Proof.
  intros i l Hg Hfew Hf. apply few_limit in Hfew.
  destruct (operands_bits_fine i l 0 Hg Hf ltac:(lia) ltac:(lia)) as (upto & H1 & H2 & H3).
  exists upto. split; [exact H1|]. unfold operands_length. rewrite H2. cbn [bind]. rewrite round_up_8. split; [reflexivity|lia].
Qed.
Theorem operands_length_bad : forall i l, Forall good l -> ~ Forall (fine i) l -> operands_length i (map snd l) = Val 0.
Proof. intros i l Hg Hf. unfold operands_length. rewrite (operands_bits_bad i l 0 Hg Hf). reflexivity. Qed.

Lemma check_each_fine : forall i l, Forall good l -> exists c, check_each i (map (fun x => Some (snd x)) l) = Val c /\ honest c /\
  (fst c = true <-> Forall (fine i) l).
Proof.
  intros i. induction l as [|(t, o) l IH]; intro Hg.
  - exists ok. split; [reflexivity|]. split; [reflexivity|]. split; [constructor|reflexivity].
  - inversion Hg as [|a b (Ht & Hr & Hs) Hg']; subst. cbn [fst snd] in *. destruct (check_accepts i t o Ht Hr Hs) as (c & Hc & Hi).
    destruct (IH Hg') as (d & Hd & Hh & Hdi). exists (both c d). cbn [map snd check_each]. rewrite Hc, Hd. cbn [bind].
    split; [reflexivity|]. split; [apply honest_both; [eapply check_honest; exact Hc|exact Hh]|].
    cbn [both fst]. rewrite andb_true_iff, Hi, Hdi, Forall_cons_iff. unfold fine at 2. cbn [fst snd]. tauto.
Qed.
Lemma definitions_all : forall l : list (dtype * operand), definitions (map (fun x => Some (snd x)) l) = map snd l.
Proof. unfold definitions. induction l as [|x l IH]; [reflexivity|]. cbn [map flat_map app]. rewrite IH. reflexivity. Qed.
Theorem check_data_spec : forall i l, Forall good l -> few (length l) -> l <> [] ->
  exists c, check_data i (map (fun x => Some (snd x)) l) = Val c /\ honest c /\
    (fst c = true <-> Forall (fine i) l /\ exists upto, laid_out 0 l upto /\ up upto 8 < 2 ^ 31).
Proof.
  intros i l Hg Hfew Hne. unfold check_data.
  assert (forall A (x y : res A), match map (fun x => Some (snd x)) l with [] => x | _ :: _ => y end = y) as ->
    by (intros; destruct l; [contradiction|reflexivity]).
  destruct (check_each_fine i l Hg) as (c & Hc & Hh & Hi). rewrite Hc. cbn [bind]. rewrite definitions_all.
  destruct (fst c) eqn:Hfc; cbn [negb].
  - pose proof (proj1 Hi eq_refl) as Hall. destruct (operands_length_fine i l Hg Hfew Hall) as (upto & H1 & H2 & H3).
    rewrite H2. cbn [bind]. eexists. split; [reflexivity|]. unfold INT32_MAX. destruct (2 ^ 31 - 1 <? up upto 8) eqn:K.
    + split; [apply honest_both; [exact Hh|reflexivity]|]. cbn [both bad fst]. rewrite andb_false_r.
      split; [discriminate|]. intros (_ & u & Hu & Hlt). rewrite (laid_out_unique l 0 u upto Hu H1) in Hlt. lia.
    + split; [exact Hh|]. rewrite Hfc. split; [|reflexivity]. intros _. split; [exact Hall|]. exists upto. split; [exact H1|lia].
  - exists c. split; [reflexivity|]. split; [exact Hh|]. rewrite Hfc. split; [discriminate|]. intros (Hall & _). apply Hi in Hall. discriminate.
Qed.

(** ** Evaluation *)
Section Statement.
  Context {Ex : Type}.
  Variable eval : Ex -> outcome.
  Variable has_error : Ex -> bool.
  Notation means := (means eval has_error).
  Notation meaning := (meaning eval has_error).
  Notation evaluate := (evaluate eval has_error).

  Lemma stands_field : forall a v, stands eval a v -> field eval a = v /\ unresolved eval a = false.
  Proof.
    intros [[z|e]|] [v|] H; cbn in H; try contradiction; unfold field, unresolved, eval_amount.
    - subst. split; reflexivity.
    - rewrite H. split; reflexivity.
    - split; reflexivity.
  Qed.
  Lemma item_stands_eval : forall x_ p x, item_stands eval has_error x_ p x ->
    eval_item eval has_error p = x /\ (x_ = false -> item_unresolved eval p = false).
  Proof.
    intros x_ [e|b d] x H; cbn in H; cbn [eval_item item_unresolved unresolved eval_amount].
    - destruct H as [(-> & Hv & ->)|(He & [(v & Hv & ->)|[(Hv & ->)|(Hv & ->)]])]; [rewrite Hv; split; [reflexivity|discriminate]| | |]; rewrite Hv, He; split; reflexivity.
    - destruct H as (vb & vd & Hb & Hd & ->). rewrite Hb, Hd. split; reflexivity.
  Qed.
  Lemma nominal_stands_eval : forall x_ n m, nominal_stands eval has_error x_ n m ->
    eval_nominal eval has_error n = m /\ (x_ = false -> nominal_unresolved eval n = false).
  Proof.
    intros x_ [[s|l]|] [[s'|l']|] H; cbn in H; try contradiction.
    - subst. split; reflexivity.
    - cbn [eval_nominal nominal_unresolved].
      assert (map (eval_item eval has_error) l = l' /\ (x_ = false -> existsb (item_unresolved eval) l = false)) as (-> & Hx); [|split; [reflexivity|exact Hx]].
      induction H as [|p x l l' Hp H (IH1 & IH2)]; [split; reflexivity|]. apply item_stands_eval in Hp. destruct Hp as (Hp1 & Hp2).
      cbn [map existsb]. rewrite Hp1, IH1. split; [reflexivity|]. intro K. rewrite (Hp2 K), (IH2 K). reflexivity.
    - split; reflexivity.
  Qed.
  Lemma i16_id : forall n, - 2 ^ 15 <= n < 2 ^ 15 -> i16 n = n.
  Proof. intros n H. unfold i16. rewrite Z.mod_small; lia. Qed.
  Theorem means_evaluate : forall d o, means d o ->
    evaluate d = o /\ has_dependencies eval d = false /\ has_length_dependencies eval d = false /\
    unresolved eval (d_len d) = false /\ unresolved eval (d_scale d) = false /\
    given (d_len d) = given (len o) /\ given (d_scale d) = given (scale o).
  Proof.
    intros d o (H1 & H2 & H3 & H4 & H5 & H6 & H6' & H7 & H8).
    destruct (stands_field _ _ H1) as (E1 & U1). destruct (stands_field _ _ H4) as (E4 & U4).
    destruct (stands_field _ _ H6) as (E6 & U6). destruct (stands_field _ _ H7) as (E7 & U7).
    destruct (nominal_stands_eval _ _ _ H8) as (E8 & U8').
    assert (negb (d_type d =c "V") && nominal_unresolved eval (d_nom d) = false) as U8.
    { destruct (ascii_dec (d_type d) "V") as [->|N]; [reflexivity|]. rewrite (U8' eq_refl). apply andb_false_r. }
    split.
    - unfold evaluate. rewrite E1, E4, E6, E7, E8, <- H2, <- H3, <- H5. destruct o as [a b c l bl sc ex nm]; cbn in *.
      f_equal. destruct sc as [n|]; [|reflexivity]. rewrite i16_id; [reflexivity|]. apply H6'. reflexivity.
    - unfold has_dependencies, has_length_dependencies. rewrite U1, U4, U6, U7, U8.
      repeat (refine (conj _ _)); try reflexivity.
      + destruct (d_len d) as [[]|], (len o); cbn in H4 |- *; try contradiction; reflexivity.
      + destruct (d_scale d) as [[]|], (scale o); cbn in H6 |- *; try contradiction; reflexivity.
  Qed.

  (** ** Attributes *)
  Lemma u32_small : forall n, 0 <= n < 2 ^ 32 -> u32 n = n.
  Proof. intros n H. unfold u32. apply Z.mod_small. exact H. Qed.
  Lemma up_to_comma_first : forall s, up_to_comma s = hd [] (pieces s).
  Proof.
    induction s as [|c s IH]; [reflexivity|]. cbn [up_to_comma pieces]. rewrite IH.
    destruct (pieces s) as [|p ps] eqn:E; [destruct (pieces_nonempty _ E)|]. destruct (c =c ","); reflexivity.
  Qed.
  Lemma tight_digits : forall l p, ~ In " "%char p -> (forall c, In c p -> In c l \/ c = " "%char) -> how_many l p = Z.of_nat (length p).
  Proof.
    intros l p. induction p as [|c p IH]; intros H1 H2; [reflexivity|]. rewrite how_many_cons.
    rewrite IH; [|intro K; apply H1; right; exact K|intros x Hx; apply H2; right; exact Hx]. cbn [length].
    destruct (H2 c (or_introl eq_refl)) as [K|K]; [|subst; destruct (H1 (or_introl eq_refl))].
    apply inb_in in K. rewrite K. lia.
  Qed.
  Lemma Forall_hd : forall {T} (P : T -> Prop) d l, l <> [] -> Forall P l -> P (hd d l).
  Proof. intros T P d [|x l] Hl H; [contradiction|]. inversion H; assumption. Qed.
  Lemma hd_map : forall {S T} (f : S -> T) d l, l <> [] -> hd (f d) (map f l) = f (hd d l).
  Proof. intros S T f d [|x l] H; [contradiction|reflexivity]. Qed.
  Lemma first_text : forall t s, C_family t = false -> first_value t (Some (NStr s)) = TextValue (hd [] (pieces s)).
  Proof.
    intros t s Ht. unfold first_value. pose proof (pieces_nonempty s) as Hp.
    destruct t; try discriminate; cbn [values]; (destruct (pieces s); [contradiction|reflexivity]).
  Qed.
  Lemma first_size : forall o s, nominal_size o < 2 ^ 13 -> nom o = Some (NStr s) -> Z.of_nat (length (hd [] (pieces s))) < 2 ^ 13.
  Proof.
    intros o s H Hn. unfold nominal_size in H. rewrite Hn in H. destruct (pieces_length s) as (H1 & _).
    apply (Forall_hd _ []) in H1; [lia|apply pieces_nonempty].
  Qed.
  Theorem length_attr_spec : forall i t o, has_type o t -> reasonable o -> acceptable i t o -> tight t o ->
    get_length_attr t o = Val (L_wanted t o) /\ 0 <= L_wanted t o < 2 ^ 17.
  Proof.
    intros i t o Ht Hr (H1 & H2 & _ & _ & _ & H6 & _) Htight. unfold get_length_attr, L_wanted, value_bits.
    destruct (len o) as [v|] eqn:Hl.
    - specialize (H2 v eq_refl). apply length_small in H2. unfold up, INT32_MAX. destruct (bitlen o).
      + destruct (2 ^ 31 - 1 <? v + 7) eqn:K; [lia|]. rewrite Z.quot_div_nonneg by lia.
        rewrite u32_small by lia. split; [f_equal|]; lia.
      + rewrite u32_small by lia. split; [f_equal|]; lia.
    - assert (forall x, up (8 * x) 8 = x) as Hup by (intro x; unfold up; lia). rewrite Hup.
      destruct (implicit_length (desc t)) as [k|] eqn:Hi.
      + rewrite (fixed_natural t k Hi). split; [reflexivity|]. destruct t; cbn in Hi; try discriminate; injection Hi as <-; lia.
      + destruct Hr as (_ & _ & _ & _ & _ & Hsz).
        destruct (nom o) as [n|] eqn:Hn.
        2:{ unfold first_value. rewrite values_none. destruct t; try discriminate; cbn; split; try reflexivity; lia. }
        specialize (H6 n eq_refl). unfold tight in Htight. rewrite Hn in Htight.
        destruct n as [s|l]; [|destruct t; try discriminate; destruct H6].
        pose proof (first_size o s Hsz Hn) as Hfs. assert (Z.of_nat (length s) < 2 ^ 13) as Hss by (unfold nominal_size in Hsz; rewrite Hn in Hsz; exact Hsz).
        pose proof (how_many_length ["<"; ">"]%char s). pose proof (how_many_nonneg ["<"; ">"]%char s).
        pose proof (how_many_length decimal (hd [] (pieces s))) as Hd1. pose proof (how_many_nonneg decimal (hd [] (pieces s))) as Hd0.
        assert (forall d lst, (d = 8 \/ d = 2) -> Forall (digits_value lst) (pieces s) -> ~ In " "%char (hd [] (pieces s)) ->
                  XB_length_attr d s = up (how_many lst (hd [] (pieces s))) d) as HXB.
        { intros d lst Hd Hv Hts. unfold XB_length_attr. rewrite up_to_comma_first, up_div by exact Hd. f_equal. unfold size.
          symmetry. apply tight_digits; [exact Hts|]. apply (Forall_hd _ []) in Hv; [exact (proj1 Hv)|apply pieces_nonempty]. }
        destruct t; try discriminate; cbn [nominal_length_attr nominal_allowed] in *; unfold size.
        * rewrite first_text by reflexivity. cbn [natural_bytes]. rewrite (HXB 8 binary) by auto.
          pose proof (how_many_length binary (hd [] (pieces s))). pose proof (how_many_nonneg binary (hd [] (pieces s))).
          unfold up. rewrite u32_small by lia. split; [reflexivity|lia].
        * cbn [first_value values hd natural_bytes]. rewrite u32_small by lia. split; [reflexivity|lia].
        * cbn [first_value values hd natural_bytes]. rewrite u32_small by lia. split; [reflexivity|lia].
        * cbn [first_value values hd natural_bytes]. rewrite u32_small by lia. split; [reflexivity|lia].
        * cbn [first_value values hd natural_bytes]. rewrite u32_small by lia. split; [reflexivity|lia].
        * cbn [first_value values hd natural_bytes]. rewrite count_not_quote, u32_small by lia. split; [reflexivity|lia].
        * rewrite first_text by reflexivity. cbn [natural_bytes]. rewrite (HXB 2 hexadecimal) by auto.
          pose proof (how_many_length hexadecimal (hd [] (pieces s))). pose proof (how_many_nonneg hexadecimal (hd [] (pieces s))).
          unfold up. rewrite u32_small by lia. split; [reflexivity|lia].
        * rewrite first_text by reflexivity. cbn [natural_bytes]. rewrite (count_how_many digit decimal) by exact digit_decimal.
          rewrite up_to_comma_first. rewrite u32_small by lia. unfold up. split; [f_equal|]; lia.
        * rewrite first_text by reflexivity. cbn [natural_bytes]. rewrite (count_how_many digit decimal) by exact digit_decimal.
          rewrite up_to_comma_first. rewrite u32_small by lia. split; [reflexivity|lia].
  Qed.

  Definition not_point (c : ascii) : bool := negb (c =c ".").
  Lemma count_scale_first : forall s n c, count_scale c n s =
    n + count not_point (if c then up_to_comma s else after_point (up_to_comma s)).
  Proof.
    induction s as [|x s IH]; intros n c; [destruct c; cbn; lia|]. cbn [count_scale up_to_comma].
    destruct (Ascii.eqb_spec x ",") as [->|Hx]; [destruct c; cbn; lia|].
    destruct (Ascii.eqb_spec x ".") as [->|Hp].
    - rewrite IH. destruct c; [|reflexivity]. cbn [count]. change (not_point ".") with false. cbv iota. lia.
    - rewrite IH. apply Ascii.eqb_neq in Hp. destruct c; cbn [count after_point]; rewrite ?Hp; [|reflexivity].
      unfold not_point at 2. rewrite Hp. cbn [negb]. lia.
  Qed.
  Lemma after_point_in : forall p c, In c (after_point p) -> In c p.
  Proof. induction p as [|x p IH]; intros c H; [destruct H|]. cbn [after_point] in H. destruct (x =c "."); right; [exact H|apply IH; exact H]. Qed.
  Lemma count_all : forall f p, (forall c, In c p -> f c = true) -> count f p = Z.of_nat (length p).
  Proof. intros f p H. induction p as [|c p IH]; [reflexivity|]. cbn [count length]. rewrite (H c (or_introl eq_refl)), IH by (intros x Hx; apply H; right; exact Hx). lia. Qed.
  Lemma one_point : forall p, how_many ["."%char] p <= 1 -> ~ In "."%char (after_point p).
  Proof.
    induction p as [|c p IH]; intros H; [intros []|]. rewrite how_many_cons in H. cbn [after_point].
    destruct (Ascii.eqb_spec c ".") as [->|Hc].
    - change (inb ["."%char] ".") with true in H. intro K.
      assert (forall q, In "."%char q -> 0 < how_many ["."%char] q) as Hq.
      { induction q as [|x q IHq]; intros Hx; [destruct Hx|]. rewrite how_many_cons. pose proof (how_many_nonneg ["."%char] q).
        destruct Hx as [->|Hx]; [change (inb ["."%char] ".") with true; lia|]. specialize (IHq Hx). destruct (inb ["."%char] x); lia. }
      specialize (Hq _ K). lia.
    - apply IH. destruct (inb ["."%char] c); lia.
  Qed.
  Lemma packed_fraction : forall p, packed_value p -> forall c, In c (after_point p) -> In c decimal \/ c = " "%char.
  Proof.
    intros p (sign & body & -> & Hs & Hc & _ & Hp) c Hin.
    assert (after_point (sign ++ body) = after_point body) as E.
    { destruct Hs as [->|(x & -> & Hx)]; [reflexivity|]. cbn [app after_point]. cbn [In] in Hx.
      destruct Hx as [<-|[<-|[]]]; reflexivity. }
    rewrite E in Hin. destruct (Hc c (after_point_in _ _ Hin)) as [K|[->|K]]; auto.
    destruct (one_point body Hp Hin).
  Qed.
  Lemma fraction_counted : forall s, Forall packed_value (pieces s) -> ~ In " "%char (after_point (hd [] (pieces s))) ->
    Z.of_nat (length (hd [] (pieces s))) < 2 ^ 13 ->
    i16 (count_scale false 0 s) = how_many decimal (after_point (hd [] (pieces s))) /\
    0 <= how_many decimal (after_point (hd [] (pieces s))) < 2 ^ 13.
  Proof.
    intros s H6 Ht Hfs. apply (Forall_hd _ []) in H6; [|apply pieces_nonempty].
    pose proof (packed_fraction _ H6) as Hf. rewrite count_scale_first, up_to_comma_first.
    rewrite (count_all not_point); [|intros c Hc; destruct (Hf c Hc) as [K|K]; [cbn in K; intuition (subst; reflexivity)|subst; reflexivity]].
    rewrite (tight_digits decimal _ Ht Hf).
    assert (length (after_point (hd [] (pieces s))) <= length (hd [] (pieces s)))%nat as Hle.
    { generalize (hd [] (pieces s)). intro t. induction t as [|x t IH]; [cbn; lia|]. cbn [after_point length]. destruct (x =c "."); lia. }
    rewrite i16_id by lia. split; lia.
  Qed.
  Theorem scale_attr_spec : forall i t o, reasonable o -> acceptable i t o -> tight_fraction t o ->
    get_scale_attr t o = S_wanted t o /\ (scale o = None -> 0 <= S_wanted t o < 2 ^ 13).
  Proof.
    intros i t o (_ & _ & _ & _ & _ & Hsz) (_ & _ & H3 & _ & _ & H6 & _) Ht. unfold get_scale_attr, S_wanted.
    destruct (scale o) as [v|] eqn:Hs; [split; [reflexivity|discriminate]|].
    assert (t = P \/ t = Z_ \/ (t <> P /\ t <> Z_)) as [Et|[Et|(N1 & N2)]] by (destruct t; auto; right; right; split; discriminate).
    3:{ destruct t; try contradiction; (split; [reflexivity|intros _; cbn; lia]). }
    1,2: unfold tight_fraction in Ht; subst t; destruct (nom o) as [[s|l]|] eqn:Hn; cbn [implicit_scale];
         [|destruct (H6 _ eq_refl)|split; [reflexivity|cbn; lia]];
         rewrite first_text by reflexivity; specialize (H6 _ eq_refl); pose proof (first_size o s Hsz Hn) as Hfs;
         destruct (fraction_counted s H6 Ht Hfs) as (-> & Hb); (split; [reflexivity|intros _; exact Hb]).
  Qed.

  Lemma i32_small : forall n, - 2 ^ 31 <= n < 2 ^ 31 -> i32 n = n.
  Proof. intros n H. unfold i32. rewrite Z.mod_small; lia. Qed.
  Theorem integer_attr_spec : forall i t o, has_type o t -> reasonable o -> acceptable i t o -> tight t o -> tight_fraction t o ->
    get_integer_attr t o = Val (I_wanted t o).
  Proof.
    intros i t o Ht Hr Ha H1 H2. unfold get_integer_attr. destruct (length_attr_spec i t o Ht Hr Ha H1) as (E1 & B1). rewrite E1. cbn [bind].
    destruct (scale_attr_spec i t o Hr Ha H2) as (E2 & B2). rewrite E2. f_equal.
    assert (match t with ED | EB | DD | DB | LD | LB => True | _ => -187 <= S_wanted t o < 2 ^ 13 end) as B3.
    { destruct (scale o) as [v|] eqn:Hs; [|specialize (B2 eq_refl); destruct t; try exact Logic.I; lia]. destruct Ha as (_ & _ & H3 & _). specialize (H3 v Hs).
      unfold S_wanted. rewrite Hs. unfold scale_allowed, between in H3. destruct t; try (destruct H3; fail); try exact Logic.I; lia. }
    unfold integer_impl, I_wanted. destruct t; try reflexivity; try (destruct (8 <? L_wanted _ o)); rewrite i32_small; try reflexivity; lia.
  Qed.

  (** ** The statement *)
  Lemma meaning_evaluate : forall ds l, meaning ds l ->
    map evaluate ds = map snd l /\ existsb (fun d => negb (d_type d =c "V") && has_dependencies eval d) ds = false.
  Proof.
    intros ds l H. induction H as [|d x ds l Hd H (IH1 & IH2)]; [split; reflexivity|].
    destruct (means_evaluate d (snd x) Hd) as (E & U & _). cbn [map existsb]. rewrite E, U, IH1, IH2, andb_false_r. split; reflexivity.
  Qed.
  Lemma all_some : forall ds : list (definition Ex), all_definitions (map Some ds) = ds.
  Proof. unfold all_definitions. induction ds as [|d ds IH]; [reflexivity|]. cbn [map flat_map app]. rewrite IH. reflexivity. Qed.
  Lemma type_attr_spec : forall o t g, has_type o t -> type_attribute (typ o) g = T_wanted t g.
  Proof.
    intros o t g Ht. unfold has_type, type_names in Ht. cbn [In] in Ht.
    repeat (destruct Ht as [Ht|Ht]; [injection Ht as <- _ <-; destruct g; reflexivity|]). destruct Ht.
  Qed.

  Theorem label_spec : forall i d t o, means d o -> has_type o t -> reasonable o -> acceptable i t o -> tight t o -> tight_fraction t o ->
    scale o <> Some (2 ^ 15 - 1) ->
    exists a, label_attributes eval has_error d = Val a /\ a_type a = T_wanted t (given (len o)) /\
      a_length a = Some (L_wanted t o) /\ a_scale a = scale o /\ a_integer a = I_wanted t o.
  Proof.
    intros i d t o Hm Ht Hr Ha H1 H2 H3. destruct (means_evaluate d o Hm) as (E & _ & _ & U1 & U2 & G1 & G2).
    unfold label_attributes. rewrite E, U1, U2, G1, G2. unfold length_attribute, integer_attribute, scale_attribute.
    apply access_type in Ht as Hacc. rewrite Hacc.
    destruct (length_attr_spec i t o Ht Hr Ha H1) as (EL & BL). rewrite EL, (integer_attr_spec i t o Ht Hr Ha H1 H2). cbn [bind].
    eexists. split; [reflexivity|]. cbn [a_type a_length a_scale a_integer].
    assert (d_type d = typ o) as -> by (destruct Hm as (_ & -> & _); reflexivity).
    rewrite (type_attr_spec o t (given (len o)) Ht). split; [reflexivity|].
    destruct (L_wanted t o =? 2 ^ 32 - 1) eqn:K; [lia|]. split; [reflexivity|]. split; [|reflexivity].
    destruct (scale o) as [v|] eqn:Hs; [|reflexivity]. unfold get_scale_attr. rewrite Hs. cbn [given negb andb].
    destruct (v =? 2 ^ 15 - 1) eqn:K2; [|reflexivity]. exfalso. apply H3. f_equal. lia.
  Qed.

  Lemma first_alignment_spec : forall d ds t o l, means d o -> has_type o t ->
    first_alignment (map Some (d :: ds)) = boundary_of (fst (hd (t, o) ((t, o) :: l))) o.
  Proof.
    intros d ds t o l Hm Ht. cbn [map first_alignment hd fst]. destruct (means_evaluate d o Hm) as (_ & _ & _ & _ & _ & G & _).
    destruct Hm as (_ & E1 & E2 & _). rewrite G, <- E1, <- E2. apply (alignment_spec o t Ht).
  Qed.
  Lemma statement_length_fine : forall i ds l, meaning ds l -> Forall good l -> few (length l) -> Forall (fine i) l ->
    exists upto, laid_out 0 l upto /\
      statement_length eval has_error i (map Some ds) = Val (if up upto 8 <? 2 ^ 31 then up upto 8 else 0).
  Proof.
    intros i ds l Hm Hg Hfew Hf. destruct (operands_length_fine i l Hg Hfew Hf) as (upto & H1 & H2 & _).
    exists upto. split; [exact H1|]. unfold statement_length. rewrite all_some, (proj1 (meaning_evaluate ds l Hm)), H2. cbn [bind].
    f_equal. unfold INT32_MAX. destruct (2 ^ 31 - 1 <? up upto 8) eqn:K1, (up upto 8 <? 2 ^ 31) eqn:K2; try reflexivity; lia.
  Qed.
  Lemma statement_length_bad : forall i ds l, meaning ds l -> Forall good l -> ~ Forall (fine i) l ->
    statement_length eval has_error i (map Some ds) = Val 0.
  Proof.
    intros i ds l Hm Hg Hf. unfold statement_length. rewrite all_some, (proj1 (meaning_evaluate ds l Hm)), (operands_length_bad i l Hg Hf). reflexivity.
  Qed.
  Lemma check_args : forall ds l, meaning ds l -> map (option_map evaluate) (map Some ds) = map (fun x => Some (snd x)) l.
  Proof.
    intros ds l H. induction H as [|d x ds l Hd H IH]; [reflexivity|]. cbn [map option_map]. rewrite IH.
    rewrite (proj1 (means_evaluate d (snd x) Hd)). reflexivity.
  Qed.
  (** nothing waits: the statement takes the second way *)
  Lemma process_now : forall i labelled ds l loc, meaning ds l ->
    process eval has_error i labelled (map Some ds) loc =
    (let! sym := match labelled, map Some ds with
                 | true, Some d :: _ => let! a := label_attributes eval has_error d in Val (Some a)
                 | _, _ => Val None
                 end in
     let! n := statement_length eval has_error i (map Some ds) in
     let! c := check_data i (map (fun x => Some (snd x)) l) in
     Val (Effect (round_up loc (first_alignment (map Some ds))) sym (Known n) (Some c))).
  Proof.
    intros i labelled ds l loc Hm. unfold process. rewrite all_some, (proj2 (meaning_evaluate ds l Hm)), (check_args ds l Hm). reflexivity.
  Qed.

  Theorem process_fine : forall i labelled d ds t o l loc,
    meaning (d :: ds) ((t, o) :: l) -> Forall good ((t, o) :: l) -> few (length ((t, o) :: l)) -> Forall (fine i) ((t, o) :: l) ->
    (labelled = true -> tight t o /\ tight_fraction t o /\ scale o <> Some (2 ^ 15 - 1)) ->
    exists e, process eval has_error i labelled (map Some (d :: ds)) loc = Val e /\
      ((boundary_of t o | at_ e) /\ loc <= at_ e /\ forall q, (boundary_of t o | q) -> loc <= q -> at_ e <= q) /\
      (forall upto, laid_out 0 ((t, o) :: l) upto -> reserved e = Known (if up upto 8 <? 2 ^ 31 then up upto 8 else 0)) /\
      (exists c, report e = Some c /\ honest c /\
         (fst c = true <-> exists upto, laid_out 0 ((t, o) :: l) upto /\ up upto 8 < 2 ^ 31)) /\
      (if labelled then
         exists a, symbol e = Some a /\ a_type a = T_wanted t (given (len o)) /\ a_length a = Some (L_wanted t o) /\
           a_scale a = scale o /\ a_integer a = I_wanted t o
       else symbol e = None).
  Proof.
    intros i labelled d ds t o l loc Hm Hg Hfew Hf Hlab.
    assert (means d o) as Hd by (inversion Hm; assumption). pose proof Hg as Hg'. inversion Hg' as [|a b (Ht & Hr & Hs) Hg'']; subst.
    assert (acceptable i t o) as Ha by (inversion Hf; assumption). cbn [fst snd] in *.
    rewrite (process_now i labelled (d :: ds) _ loc Hm).
    destruct (statement_length_fine i (d :: ds) _ Hm Hg Hfew Hf) as (upto & H1 & H2). rewrite H2.
    destruct (check_data_spec i _ Hg Hfew ltac:(discriminate)) as (c & H3 & H4 & H5). rewrite H3.
    assert (exists sym, (match labelled, map Some (d :: ds) with
                 | true, Some d :: _ => let! a := label_attributes eval has_error d in Val (Some a)
                 | _, _ => Val None
                 end) = Val sym /\ if labelled then
         exists a, sym = Some a /\ a_type a = T_wanted t (given (len o)) /\ a_length a = Some (L_wanted t o) /\
           a_scale a = scale o /\ a_integer a = I_wanted t o
       else sym = None) as (sym & -> & Hsym).
    { destruct labelled; [|exists None; split; reflexivity]. destruct (Hlab eq_refl) as (T1 & T2 & T3).
      destruct (label_spec i d t o Hd Ht Hr Ha T1 T2 T3) as (a & Ha1 & Ha2). cbn [map]. rewrite Ha1. cbn [bind].
      exists (Some a). split; [reflexivity|]. exists a. split; [reflexivity|exact Ha2]. }
    cbn [bind]. eexists. split; [reflexivity|]. cbn [at_ reserved report symbol].
    split; [|split; [|split; [|exact Hsym]]].
    - rewrite (first_alignment_spec d ds t o l Hd Ht). cbn [hd fst]. apply round_up_spec. pose proof (boundary_bounds t o). lia.
    - intros u Hu. rewrite (laid_out_unique _ 0 u upto Hu H1). reflexivity.
    - exists c. split; [reflexivity|]. split; [exact H4|]. rewrite H5. tauto.
  Qed.
  Theorem process_bad : forall i ds l loc, meaning ds l -> Forall good l -> few (length l) -> l <> [] -> ~ Forall (fine i) l ->
    exists e c, process eval has_error i false (map Some ds) loc = Val e /\ reserved e = Known 0 /\
      report e = Some c /\ fst c = false /\ honest c.
  Proof.
    intros i ds l loc Hm Hg Hfew Hne Hf. rewrite (process_now i false ds l loc Hm), (statement_length_bad i ds l Hm Hg Hf).
    destruct (check_data_spec i l Hg Hfew Hne) as (c & H3 & H4 & H5). rewrite H3.
    destruct (map Some ds) eqn:E; cbn [bind]; eexists _, c; (split; [reflexivity|]); (split; [reflexivity|]); (split; [reflexivity|]);
      (split; [|exact H4]); (destruct (fst c); [destruct Hf; apply H5; reflexivity|reflexivity]).
  Qed.
End Statement.
