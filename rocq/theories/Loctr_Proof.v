From Coq Require Import List ZArith Bool Arith Lia.
From Coq Require Import ZifyBool ZifyNat.
From Verif Require Import Loctr_Model Loctr_Spec.
Import ListNotations.
Local Open Scope Z_scope.

(* ------------------------------------------------------------------ arithmetic *)
Lemma pow2_pos : forall b, pow2 b -> 0 < b.
Proof. intros b (k & Hk & ->). apply Z.pow_pos_nonneg; lia. Qed.
Lemma pow2_divide : forall a b, pow2 a -> pow2 b -> a <= b -> (a | b).
Proof.
  intros a b (k & Hk & ->) (j & Hj & ->) H.
  assert (k <= j). { destruct (Z_le_gt_dec k j) as [|G]; [assumption|]. assert (2 ^ j < 2 ^ k) by (apply Z.pow_lt_mono_r; lia). lia. }
  exists (2 ^ (j - k)). rewrite <- Z.pow_add_r by lia. f_equal. lia.
Qed.
Lemma pow2_1 : pow2 1.
Proof. exists 0. split; [lia|reflexivity]. Qed.

Lemma skip_of : forall v y b, 0 < b -> (b - v mod b + y) mod b = skip v y b.
Proof.
  intros v y b H. unfold skip. pose proof (Z.div_mod v b ltac:(lia)).
  replace (b - v mod b + y) with (y - v + (1 + v / b) * b) by lia. apply Z.mod_add. lia.
Qed.
Lemma skip_range : forall v y b, 0 < b -> 0 <= skip v y b < b.
Proof. intros. unfold skip. apply Z.mod_pos_bound. lia. Qed.
Lemma skip_aligned : forall v y b, 0 < b -> (v + skip v y b) mod b = y mod b.
Proof.
  intros v y b H. unfold skip. rewrite Z.add_mod_idemp_r by lia. f_equal. lia.
Qed.
Lemma skip_0 : forall v y b, 0 < b -> v mod b = y -> skip v y b = 0.
Proof.
  intros v y b H E. unfold skip. pose proof (Z.div_mod v b ltac:(lia)).
  replace (y - v) with ((- (v / b)) * b) by lia. apply Z.mod_mul. lia.
Qed.
Lemma skip_congr : forall v w y b, 0 < b -> v mod b = w mod b -> skip v y b = skip w y b.
Proof. intros v w y b H E. unfold skip. rewrite Zminus_mod, E, <- Zminus_mod. reflexivity. Qed.
Lemma skip_1 : forall v y, skip v y 1 = 0.
Proof. intros. unfold skip. apply Z.mod_1_r. Qed.
Lemma alignment_length_skip : forall a v, 0 < boundary a -> alignment_length a v = skip v (byte a) (boundary a).
Proof.
  intros a v H. unfold alignment_length. destruct (Z.eqb_spec (v mod boundary a) (byte a)) as [E|E]; cbn [negb].
  - now rewrite skip_0.
  - now apply skip_of.
Qed.
Lemma pad_up : forall v b, b = 0 \/ 0 < b -> v + pad v b = align_up v b.
Proof.
  intros v b H. unfold pad, align_up. destruct (Z.eqb_spec b 0) as [->|N]; [lia|].
  f_equal. replace (b - v mod b) with (b - v mod b + 0) by lia. apply skip_of. lia.
Qed.
Lemma set_length_up : forall v b o, b = 0 \/ 0 < b -> 0 <= align_up v b + o -> set_length v b o = align_up v b + o.
Proof.
  intros v b o H G. unfold set_length. rewrite pad_up by assumption. destruct (Z.leb_spec 0 (align_up v b + o)); lia.
Qed.

(* ------------------------------------------------------------------ parts *)
Fixpoint sumz (l : list (space * Z)) : Z := match l with [] => 0 | (_, z) :: l' => z + sumz l' end.

Lemma total_app : forall p a b, total p (a ++ b) = total p a + total p b.
Proof. intros p a b. induction a as [|[s z] a IH]; cbn [app total]; lia. Qed.
Lemma sumz_app : forall a b, sumz (a ++ b) = sumz a + sumz b.
Proof. intros a b. induction a as [|[s z] a IH]; cbn [app sumz]; lia. Qed.
Lemma add_last_cons2 : forall x y l st, add_last (x :: y :: l) st = x :: add_last (y :: l) st.
Proof. intros [s z] y l st. reflexivity. Qed.
Lemma last_part_cons2 : forall x y l, last_part (x :: y :: l) = last_part (y :: l).
Proof. reflexivity. Qed.
Lemma total_add_last : forall p l st, total p (add_last l st) = total p l.
Proof.
  intros p l st. induction l as [|[s z] [|y l] IH]; [reflexivity|reflexivity|].
  rewrite add_last_cons2. cbn [total] in *. lia.
Qed.
Lemma sumz_add_last : forall l st, l <> [] -> sumz (add_last l st) = sumz l + st.
Proof.
  intros l st. induction l as [|[s z] [|y l] IH]; intros H; [congruence|cbn; lia|].
  rewrite add_last_cons2. cbn [sumz] in *. rewrite IH by discriminate. destruct y; lia.
Qed.
Lemma last_add_last : forall l st, last_part (add_last l st) =
  match last_part l with Some (s, z) => Some (s, z + st) | None => None end.
Proof.
  intros l st. induction l as [|[s z] [|[s' z'] l] IH]; [reflexivity|reflexivity|].
  rewrite add_last_cons2, last_part_cons2.
  destruct (add_last ((s', z') :: l) st) as [|y q] eqn:E.
  - destruct l as [|[? ?] ?]; discriminate E.
  - rewrite last_part_cons2. exact IH.
Qed.
Lemma add_last_nil : forall l st, add_last l st = [] <-> l = [].
Proof. intros [|[s z] [|? ?]] st; cbn; split; congruence. Qed.
Lemma last_app1 : forall l x, last_part (l ++ [x]) = Some x.
Proof.
  induction l as [|y l IH]; intros x; [reflexivity|]. cbn [app].
  destruct (l ++ [x]) as [|z q] eqn:E; [destruct l; discriminate|]. rewrite last_part_cons2, <- E. apply IH.
Qed.
Lemma last_none : forall l, last_part l = None <-> l = [].
Proof.
  induction l as [|x [|y l] IH]; cbn; [tauto|split; discriminate|].
  cbn [last_part] in IH. rewrite IH. split; discriminate.
Qed.
Lemma first_add_last : forall l st x, match add_last l st with [] => None | (s, _) :: _ => Some s end = Some x <->
  match l with [] => None | (s, _) :: _ => Some s end = Some x.
Proof. intros [|[s z] [|? ?]] st x; cbn; reflexivity. Qed.

(* ------------------------------------------------------------------ invariant *)
Definition good (p : lengths) (d : data) : Prop :=
  storage d = initial d + sumz (parts d) /\
  match last_part (parts d) with
  | None => True
  | Some (s, z) => (loc_data p d - z) mod boundary (salign s) = 0 /\ byte (salign s) = 0 /\ pow2 (boundary (salign s))
  end.
Definition below (p : lengths) (l : loctr) : Prop :=
  pot (curr l) = false ->
  exists prev rest, older l = prev :: rest /\ pot prev = true /\
    total p (parts (curr l)) = total p (parts prev) /\ storage (curr l) < storage prev.
Definition begins (l : loctr) : Prop :=
  forall d s, In d (entries l) -> first_space d = Some s -> skind_of s = LoctrBegin -> sid s = 0%nat /\ salign s = no_align.
Definition inv (p : lengths) (l : loctr) : Prop :=
  (forall d, In d (entries l) -> good p d) /\ below p l /\ begins l.
Fixpoint maxl (l : list Z) (z : Z) : Z := match l with [] => z | x :: l' => Z.max x (maxl l' z) end.
Definition high (p : lengths) (l : loctr) : Z := maxl (map (loc_data p) (older l)) (loc p l).

Lemma maxl_mono : forall l a b, a <= b -> maxl l a <= maxl l b.
Proof. induction l as [|x l IH]; intros a b H; cbn [maxl]; [lia|]. specialize (IH a b H). lia. Qed.
Lemma maxl_ge : forall l a, a <= maxl l a.
Proof. induction l as [|x l IH]; intros a; cbn [maxl]; [lia|]. specialize (IH a). lia. Qed.
Lemma maxl_max : forall l a b, maxl l (Z.max a b) = Z.max (maxl l a) b.
Proof. induction l as [|x l IH]; intros a b; cbn [maxl]; [lia|]. rewrite IH. lia. Qed.
Lemma maxl_up : forall l a b, a <= b -> maxl l b = Z.max (maxl l a) b.
Proof. intros. rewrite <- maxl_max. f_equal. lia. Qed.

(* ------------------------------------------------------------------ data operations *)
Lemma loc_append : forall p d n, loc_data p (append_storage d n) = loc_data p d + n.
Proof. intros. unfold loc_data, append_storage. cbn [storage parts]. rewrite total_add_last. lia. Qed.
Lemma good_append : forall p d n, good p d -> good p (append_storage d n).
Proof.
  intros p d n [G1 G2]. split.
  - unfold append_storage. cbn [storage parts initial]. destruct (parts d) as [|x l] eqn:E.
    + cbn. cbn [sumz] in G1. lia.
    + rewrite sumz_add_last by discriminate. lia.
  - rewrite loc_append. unfold append_storage. cbn [parts]. rewrite last_add_last.
    destruct (last_part (parts d)) as [[s z]|]; [|exact I].
    replace (loc_data p d + n - (z + n)) with (loc_data p d - z) by lia. exact G2.
Qed.
Lemma first_append : forall d n, first_space (append_storage d n) = first_space d.
Proof.
  intros d n. unfold first_space, append_storage. cbn [parts]. destruct (parts d) as [|[s z] [|? ?]]; reflexivity.
Qed.
Lemma pot_append : forall d n, pot (append_storage d n) = pot d.
Proof. reflexivity. Qed.

Lemma good_space : forall p d s, good p d -> byte (salign s) = 0 -> pow2 (boundary (salign s)) ->
  (loc_data p d + p (sid s)) mod boundary (salign s) = 0 ->
  good p (append_space d s) /\ loc_data p (append_space d s) = loc_data p d + p (sid s).
Proof.
  intros p d s [G1 G2] B P A.
  assert (L : loc_data p (append_space d s) = loc_data p d + p (sid s)).
  { unfold loc_data, append_space. cbn [storage parts]. rewrite total_app. cbn [total]. lia. }
  split; [|exact L]. split.
  - unfold append_space. cbn [storage parts initial]. rewrite sumz_app. cbn [sumz]. lia.
  - rewrite L. unfold append_space. cbn [parts]. rewrite last_app1. rewrite Z.sub_0_r. auto.
Qed.

Lemma good_pot : forall p d b, good p d -> good p (mkData (storage d) (parts d) (initial d) (safe d) b).
Proof. intros p d b H. exact H. Qed.

(** Whether and how far to skip. *)
Lemma none_storage : forall d, good (fun _ => 0) d -> parts d = [] -> storage d = initial d.
Proof. intros d [G _] E. rewrite E in G. cbn in G. lia. Qed.

Lemma has_alignment_ok : forall p d a, good p d -> 0 <= byte a < boundary a -> pow2 (boundary a) ->
  has_alignment d a = true -> skip (loc_data p d) (byte a) (boundary a) = 0.
Proof.
  intros p d a [G1 G2] Ha Hp H. pose proof (pow2_pos _ Hp) as Hpos. unfold has_alignment in H.
  destruct (last_part (parts d)) as [[s z]|] eqn:E.
  - destruct (Z.gtb_spec (boundary a) (boundary (salign s))) as [G|G]; [discriminate|].
    destruct G2 as (A & B & C). apply Z.eqb_eq in H. rewrite B in H.
    pose proof (pow2_divide _ _ Hp C ltac:(lia)) as [q Hq].
    apply skip_0; [assumption|]. rewrite <- H.
    pose proof (pow2_pos _ C). apply Z.mod_divide in A; [|lia]. destruct A as [r Hr].
    replace (loc_data p d) with (z + (r * q) * boundary a) by nia.
    replace (boundary (salign s) + 0 + z) with (z + q * boundary a) by lia.
    rewrite !Z.mod_add by lia. reflexivity.
  - apply Z.eqb_eq in H. apply last_none in E. unfold loc_data. rewrite E. cbn [total]. rewrite Z.add_0_r.
    now apply skip_0.
Qed.
Lemma align_ok : forall p d a, good p d -> 0 <= byte a < boundary a -> pow2 (boundary a) ->
  need_space_alignment d a = false ->
  (boundary a - last_storage d mod boundary a + byte a) mod boundary a = skip (loc_data p d) (byte a) (boundary a).
Proof.
  intros p d a [G1 G2] Ha Hp H. pose proof (pow2_pos _ Hp) as Hpos. rewrite skip_of by assumption.
  unfold need_space_alignment in H. unfold last_storage.
  destruct (last_part (parts d)) as [[s z]|] eqn:E.
  - destruct G2 as (A & B & C). apply Z.ltb_ge in H.
    pose proof (pow2_divide _ _ Hp C ltac:(lia)) as [q Hq]. pose proof (pow2_pos _ C).
    apply Z.mod_divide in A; [|lia]. destruct A as [r Hr].
    apply skip_congr; [assumption|].
    replace (loc_data p d) with (z + (r * q) * boundary a) by nia. now rewrite Z.mod_add by lia.
  - apply last_none in E. rewrite E in G1. cbn [sumz] in G1.
    replace (loc_data p d) with (initial d); [reflexivity|]. unfold loc_data. rewrite E. cbn [total]. lia.
Qed.

(* ------------------------------------------------------------------ counters *)
Lemma inv_append : forall p l n, inv p l -> pot (curr l) = true ->
  inv p (with_curr l (append_storage (curr l) n)).
Proof.
  intros p l n (I1 & I2 & I3) Hp. split; [|split].
  - intros d [<-|Hd]; [apply good_append; apply I1; now left|apply I1; now right].
  - intros K. cbn [with_curr curr] in K. rewrite pot_append in K. congruence.
  - intros d s [<-|Hd] F K; [|apply (I3 d s); auto; now right].
    cbn [with_curr curr] in F. rewrite first_append in F. apply (I3 (curr l) s); auto. now left.
Qed.

(** Appending storage and checking for a new maximum. *)
Lemma append_check : forall p l n, inv p l -> 0 <= n \/ pot (curr l) = false ->
  let l' := check_available_value (with_curr l (append_storage (curr l) n)) in
  inv p l' /\ loc p l' = loc p l + n /\ high p l' = Z.max (high p l) (loc p l + n) /\
  starting l' = starting l /\ (pot (curr l) = true -> older l' = older l /\ pot (curr l') = true) /\
  (forall d, In d (entries l') -> exists d0, In d0 (entries l) /\ first_space d = first_space d0).
Proof.
  intros p l n (I1 & I2 & I3) Hn. cbv zeta. unfold check_available_value. cbn [with_curr curr older next starting].
  rewrite pot_append. unfold high. destruct (pot (curr l)) eqn:Ep.
  - destruct Hn as [Hn|Hn]; [|discriminate].
    split; [apply inv_append; [split; auto|assumption]|]. unfold loc. cbn [with_curr curr older]. rewrite loc_append.
    split; [reflexivity|]. split; [apply maxl_up; lia|]. split; [reflexivity|]. split; [intros _; split; [reflexivity|]|].
    + cbn [with_curr curr]. rewrite pot_append. exact Ep.
    + intros d [<-|Hd]; [exists (curr l); split; [now left|apply first_append]|exists d; split; [now right|reflexivity]].
  - destruct (I2 Ep) as (prev & rest & Eo & Pp & Et & Hlt). rewrite Eo.
    assert (Lp : loc_data p prev > loc_data p (curr l)) by (unfold loc_data; lia).
    assert (Ga : good p (append_storage (curr l) n)) by (apply good_append; apply I1; now left).
    assert (Hst : storage (append_storage (curr l) n) = storage (curr l) + n) by reflexivity.
    destruct (Z.leb_spec (storage prev) (storage (append_storage (curr l) n))) as [Hle|Hgt].
    + (* the previous maximum is passed *)
      split; [|split; [|split; [|split; [reflexivity|split; [congruence|]]]]].
      * split; [|split].
        -- intros d [<-|Hd]; [exact Ga|]. apply I1. right. rewrite Eo. now right.
        -- intros K. cbn [curr pot] in K. congruence.
        -- intros d s [<-|Hd] F K.
           ++ apply (I3 (curr l) s); [now left| |assumption]. rewrite <- F. cbn [curr]. symmetry.
              unfold first_space at 1. cbn [parts]. exact (first_append (curr l) n).
           ++ apply (I3 d s); auto. right. rewrite Eo. now right.
      * unfold loc. cbn [curr]. change (loc_data p (append_storage (curr l) n) = loc_data p (curr l) + n). apply loc_append.
      * unfold loc. cbn [curr older map maxl].
        change (maxl (map (loc_data p) rest) (loc_data p (append_storage (curr l) n)) =
                Z.max (Z.max (loc_data p prev) (maxl (map (loc_data p) rest) (loc_data p (curr l)))) (loc_data p (curr l) + n)).
        rewrite loc_append. assert (loc_data p prev <= loc_data p (curr l) + n) by (unfold loc_data in *; lia).
        rewrite (maxl_up _ (loc_data p (curr l)) (loc_data p (curr l) + n)) by lia. lia.
      * intros d [<-|Hd].
        -- exists (curr l). split; [now left|]. exact (first_append (curr l) n).
        -- exists d. split; [right; rewrite Eo; now right|reflexivity].
    + split; [|split; [|split; [|split; [reflexivity|split; [congruence|]]]]].
      * split; [|split].
        -- intros d [<-|Hd]; [exact Ga|apply I1; right; exact Hd].
        -- intros _. exists prev, rest. repeat split; auto. cbn [with_curr curr].
           unfold append_storage. cbn [parts]. now rewrite total_add_last.
        -- intros d s [<-|Hd] F K; [|apply (I3 d s); auto; now right].
           cbn [with_curr curr] in F. rewrite first_append in F. apply (I3 (curr l) s); auto. now left.
      * unfold loc. cbn [with_curr curr]. apply loc_append.
      * unfold loc. cbn [with_curr curr older]. rewrite Eo. cbn [map maxl]. rewrite loc_append.
        assert (Hb : loc_data p (curr l) + n < loc_data p prev) by (unfold loc_data in *; lia).
        assert (Q : maxl (map (loc_data p) rest) (loc_data p prev) =
                    Z.max (maxl (map (loc_data p) rest) (loc_data p (curr l))) (loc_data p prev)) by (apply maxl_up; lia).
        assert (R : maxl (map (loc_data p) rest) (loc_data p prev) =
                    Z.max (maxl (map (loc_data p) rest) (loc_data p (curr l) + n)) (loc_data p prev)) by (apply maxl_up; lia).
        lia.
      * intros d [<-|Hd]; [exists (curr l); split; [now left|apply first_append]|exists d; split; [now right|reflexivity]].
Qed.

Lemma first_space_app : forall d s s', first_space (append_space d s) = Some s' ->
  first_space d = Some s' \/ (parts d = [] /\ s' = s).
Proof.
  intros d s s' H. unfold first_space, append_space in *. cbn [parts] in H. destruct (parts d) as [|[x z] q]; cbn in H.
  - right. split; congruence.
  - left. exact H.
Qed.

(** A space is added whose length keeps its alignment. *)
Lemma register_ok : forall p l a k l' s, inv p l -> register_space l a k = (l', s) -> k <> LoctrBegin ->
  byte a = 0 -> pow2 (boundary a) -> (loc p l + p (sid s)) mod boundary a = 0 ->
  0 <= p (sid s) \/ pot (curr l) = false ->
  inv p l' /\ loc p l' = loc p l + p (sid s) /\ high p l' = Z.max (high p l) (loc p l + p (sid s)) /\
  starting l' = starting l /\ pot (curr l') = true /\ older l' = older l /\ salign s = a /\ skind_of s = k.
Proof.
  intros p l a k l' s (I1 & I2 & I3) E Hk B P A Hn. unfold register_space in E. injection E as <- <-.
  set (s := mkSp (next l) k a) in *. destruct (good_space p (curr l) s (I1 _ (or_introl eq_refl)) B P A) as [G L].
  change (sid s) with (next l) in *.
  set (l' := mkLoctr _ (older l) (S (next l)) (starting l)).
  assert (HL : loc p l' = loc p l + p (next l)) by exact L.
  split; [|split; [exact HL|split; [|repeat split]]].
  - split; [|split].
    + intros d [<-|Hd]; [exact G|apply I1; now right].
    + intros K. cbn in K. discriminate.
    + intros d x [<-|Hd] F K; [|apply (I3 d x); auto; now right].
      change (first_space (append_space (curr l) s) = Some x) in F. apply first_space_app in F as [F|[_ ->]].
      * apply (I3 (curr l) x); auto. now left.
      * cbn in K. congruence.
  - unfold high. rewrite HL. change (older l') with (older l). destruct Hn as [Hn|Hn]; [apply maxl_up; lia|].
    destruct (I2 Hn) as (prev & rest & Eo & Pp & Et & Hlt). rewrite Eo. cbn [map maxl].
    assert (Hb : loc p l < loc_data p prev) by (unfold loc, loc_data; lia).
    assert (Q : forall x, maxl (map (loc_data p) rest) (Z.max x (loc_data p prev)) =
                  Z.max (maxl (map (loc_data p) rest) x) (loc_data p prev)) by (intros; apply maxl_max).
    pose proof (Q (loc p l)) as Q1. pose proof (Q (loc p l + p (next l))) as Q2.
    pose proof (maxl_max (map (loc_data p) rest) (loc p l) (loc p l + p (next l))) as Q3.
    destruct (Z_le_gt_dec 0 (p (next l))).
    + rewrite Z.max_r in Q3 by lia. lia.
    + pose proof (maxl_max (map (loc_data p) rest) (loc p l + p (next l)) (loc p l)) as Q4.
      rewrite Z.max_r in Q4 by lia. lia.
Qed.

Definition jump_free (l l' : loctr) : Prop :=
  forall d, In d (entries l') -> exists d0, In d0 (entries l) /\ first_space d = first_space d0.

(** Reserving storage. *)
Lemma reserve_ok : forall p l n a l' sp, inv p l -> reserve l n a = (l', sp) ->
  byte a = 0 -> pow2 (boundary a) -> 0 <= n \/ pot (curr l) = false ->
  (forall s, sp = Some s -> p (sid s) = alignment_length a (loc p l)) ->
  inv p l' /\ loc p l' = loc p l + skip (loc p l) 0 (boundary a) + n /\
  high p l' = Z.max (high p l) (loc p l') /\ starting l' = starting l /\
  (forall s, sp = Some s -> skind_of s = Alignment).
Proof.
  intros p l n a l' sp I E B P Hn Hsp. pose proof (pow2_pos _ P) as Hpos. unfold reserve in E.
  pose proof I as (I1 & I2 & I3). pose proof (I1 _ (or_introl eq_refl)) as Gc.
  destruct (has_alignment (curr l) a) eqn:EA.
  - injection E as <- <-. pose proof (has_alignment_ok p (curr l) a Gc ltac:(lia) P EA) as S0. rewrite B in S0.
    fold (loc p l) in S0. rewrite S0.
    destruct (append_check p l n I Hn) as (J & L & H & S & _). rewrite L.
    split; [exact J|]. split; [lia|]. split; [exact H|]. split; [exact S|]. intros s Es. discriminate Es.
  - destruct (need_space_alignment (curr l) a) eqn:EN.
    + destruct (register_space l a Alignment) as [l1 s] eqn:ER. injection E as <- <-.
      specialize (Hsp s eq_refl). rewrite alignment_length_skip in Hsp by assumption. rewrite B in Hsp.
      pose proof (skip_range (loc p l) 0 _ Hpos) as SR.
      destruct (register_ok p l a Alignment l1 s I ER ltac:(discriminate) B P) as (J & L & H & S & Pt & Ol & _ & K).
      { rewrite Hsp. rewrite skip_aligned by assumption. apply Z.mod_0_l. lia. }
      { left. lia. }
      destruct Hn as [Hn|Hn].
      * destruct (append_check p l1 n J (or_introl Hn)) as (J' & L' & H' & S' & _).
        split; [exact J'|]. rewrite L', L, Hsp. split; [lia|]. rewrite H', H, L, Hsp.
        split; [lia|]. split; [congruence|]. intros s' Es. injection Es as <-. exact K.
      * (* a negative length below the previous maximum *)
        destruct (Z_le_gt_dec 0 n) as [Hn0|Hn0].
        { destruct (append_check p l1 n J (or_introl Hn0)) as (J' & L' & H' & S' & _).
          split; [exact J'|]. rewrite L', L, Hsp. split; [lia|]. rewrite H', H, L, Hsp.
          split; [lia|]. split; [congruence|]. intros s' Es. injection Es as <-. exact K. }
        assert (EQ : check_available_value (with_curr l1 (append_storage (curr l1) n)) = with_curr l1 (append_storage (curr l1) n)).
        { unfold check_available_value. cbn [with_curr curr]. rewrite pot_append, Pt. reflexivity. }
        rewrite EQ. split; [now apply inv_append|].
        assert (L2 : loc p (with_curr l1 (append_storage (curr l1) n)) = loc p l + skip (loc p l) 0 (boundary a) + n).
        { unfold loc at 1. cbn [with_curr curr]. rewrite loc_append. fold (loc p l1). lia. }
        rewrite L2. split; [reflexivity|]. split; [|split; [exact S|intros s' Es; injection Es as <-; exact K]].
        unfold high. rewrite L2. cbn [with_curr older]. rewrite Ol.
        destruct (I2 Hn) as (prev & rest & Eo & Pp & Et & Hlt). rewrite Eo. cbn [map maxl].
        assert (Hb : loc p l < loc_data p prev) by (unfold loc, loc_data; lia).
        set (X := loc p l + skip (loc p l) 0 (boundary a) + n).
        pose proof (maxl_max (map (loc_data p) rest) (loc p l) (loc_data p prev)) as Q1.
        pose proof (maxl_max (map (loc_data p) rest) X (loc_data p prev)) as Q2.
        pose proof (maxl_max (map (loc_data p) rest) (loc p l) X) as Q3.
        pose proof (maxl_max (map (loc_data p) rest) X (loc p l)) as Q4.
        destruct (Z_le_gt_dec X (loc p l)); [rewrite Z.max_r in Q4 by lia|rewrite Z.max_r in Q3 by lia]; lia.
    + assert (El : l' = check_available_value (with_curr (with_curr l (align_data (curr l) a))
                      (append_storage (curr (with_curr l (align_data (curr l) a))) n))) by congruence.
      assert (Esp : sp = None) by congruence. clear E Hsp. subst sp. rewrite El. clear El.
      assert (S0 : align_data (curr l) a = append_storage (curr l) (skip (loc p l) 0 (boundary a))).
      { unfold align_data. rewrite EN. f_equal. rewrite (align_ok p) by (auto; lia). rewrite B. reflexivity. }
      pose proof (skip_range (loc p l) 0 _ Hpos) as SR.
      assert (AA : append_storage (curr (with_curr l (align_data (curr l) a))) n =
                   append_storage (curr l) (skip (loc p l) 0 (boundary a) + n)).
      { cbn [with_curr curr]. rewrite S0. unfold append_storage. cbn [storage parts initial safe pot].
        f_equal; try lia.
        - generalize (parts (curr l)). induction l0 as [|[s z] [|y q] IH]; [reflexivity|cbn; f_equal; f_equal; lia|].
          rewrite !add_last_cons2. destruct (add_last (y :: q) (skip (loc p l) 0 (boundary a))) as [|y' q'] eqn:Eq.
          + apply add_last_nil in Eq. discriminate.
          + rewrite add_last_cons2, IH. reflexivity.
        - destruct (parts (curr l)) as [|[s z] [|? ?]]; cbn; lia. }
      assert (WW : with_curr (with_curr l (align_data (curr l) a)) (append_storage (curr (with_curr l (align_data (curr l) a))) n)
                   = with_curr l (append_storage (curr l) (skip (loc p l) 0 (boundary a) + n))).
      { rewrite AA. reflexivity. }
      rewrite WW.
      assert (Hn' : 0 <= skip (loc p l) 0 (boundary a) + n \/ pot (curr l) = false) by (destruct Hn; [left; lia|right; assumption]).
      destruct (append_check p l _ I Hn') as (J & L & H & S & _).
      split; [exact J|]. rewrite L. split; [lia|]. split; [exact H|]. split; [exact S|]. intros s Es. discriminate Es.
Qed.
