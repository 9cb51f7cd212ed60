From Coq Require Import List ZArith Bool Arith Lia.
From Coq Require Import ZifyBool ZifyNat.
From Verif Require Import Loctr_Model Loctr_Spec Loctr_Proof.
Import ListNotations.
Local Open Scope Z_scope.

Lemma eqb_spaces_total : forall p d l, eqb_spaces (space_list d) l = true -> target_total p l = total p (parts d).
Proof.
  intros p d. unfold space_list. induction (parts d) as [|[s z] q IH]; intros [|[i n] l] H; cbn [map eqb_spaces fst] in H; try discriminate; [reflexivity|].
  apply andb_true_iff in H as [H1 H2]. apply andb_true_iff in H1 as [H0 H1].
  apply Nat.eqb_eq in H0. apply Z.eqb_eq in H1. subst. cbn [target_total total].
  rewrite (IH _ H2). lia.
Qed.

Lemma push_ok : forall p l k l' s, inv p l -> k <> LoctrBegin ->
  register_space (mkLoctr (new_data false) (curr l :: older l) (next l) (starting l)) no_align k = (l', s) ->
  inv p l' /\ loc p l' = p (sid s) /\ high p l' = Z.max (high p l) (loc p l') /\ starting l' = starting l /\ skind_of s = k.
Proof.
  intros p l k l' s (I1 & I2 & I3) Hk E. unfold register_space in E. injection E as <- <-.
  match goal with |- inv p ?x /\ _ => set (l' := x) end.
  assert (L : loc p l' = p (next l)) by (unfold loc, loc_data; cbn; lia).
  split; [|split; [exact L|split; [|split; reflexivity]]].
  - split; [|split].
    + intros d [<-|Hd]; [|apply I1; exact Hd]. split; [reflexivity|]. cbn. repeat split; [apply Z.mod_1_r|apply pow2_1].
    + intros K. discriminate.
    + intros d x [<-|Hd] F K; [|apply (I3 d x); auto]. cbn in F. injection F as <-. cbn in K. congruence.
  - unfold high. rewrite L. change (older l') with (curr l :: older l). cbn [map maxl]. fold (loc p l).
    pose proof (maxl_max (map (loc_data p) (older l)) (loc p l) (p (next l))) as Q1.
    pose proof (maxl_max (map (loc_data p) (older l)) (p (next l)) (loc p l)) as Q2.
    rewrite (Z.max_comm (p (next l))) in Q2. lia.
Qed.

(** Going back inside the area after the last space. *)
Definition back (l : loctr) (diff : Z) : loctr :=
  let l1 := if (diff <? 0) && pot (curr l)
            then let d := curr l in
                 mkLoctr (mkData (storage d) (parts d) (initial d) (safe d) false) (d :: older l) (next l) (starting l)
            else l in
  check_available_value (with_curr l1 (append_storage (curr l1) diff)).
Lemma back_ok : forall p l diff, inv p l -> diff < 0 ->
  inv p (back l diff) /\ loc p (back l diff) = loc p l + diff /\ high p (back l diff) = high p l /\
  pot (curr (back l diff)) = false /\ starting (back l diff) = starting l.
Proof.
  intros p l diff I Hd. pose proof I as (I1 & I2 & I3). unfold back.
  replace (diff <? 0) with true by lia. cbn [andb]. destruct (pot (curr l)) eqn:Ep.
  - set (l1 := mkLoctr _ (curr l :: older l) (next l) (starting l)). cbv zeta.
    assert (EQ : check_available_value (with_curr l1 (append_storage (curr l1) diff)) = with_curr l1 (append_storage (curr l1) diff)).
    { unfold check_available_value. cbn. destruct (Z.leb_spec (storage (curr l)) (storage (curr l) + diff)); [lia|reflexivity]. }
    rewrite EQ.
    assert (L : loc p (with_curr l1 (append_storage (curr l1) diff)) = loc p l + diff).
    { unfold loc. cbn [with_curr curr]. rewrite loc_append. reflexivity. }
    split; [|split; [exact L|split; [|split; reflexivity]]].
    + split; [|split].
      * intros d [<-|H]; [|apply I1; exact H]. cbn [with_curr curr]. apply good_append. apply (I1 (curr l)). now left.
      * intros _. exists (curr l), (older l). repeat split; [exact Ep| |cbn; lia].
        cbn [with_curr curr append_storage parts l1]. now rewrite total_add_last.
      * intros d s [<-|H] F K; [|apply (I3 d s); auto].
        cbn [with_curr curr] in F. rewrite first_append in F. apply (I3 (curr l) s); auto. now left.
    + unfold high. rewrite L. cbn [with_curr older l1 map maxl]. fold (loc p l).
      pose proof (maxl_max (map (loc_data p) (older l)) (loc p l + diff) (loc p l)) as Q.
      rewrite Z.max_r in Q by lia. lia.
  - destruct (I2 Ep) as (prev & rest & Eo & Pp & Et & Hlt). cbv zeta.
    assert (EQ : check_available_value (with_curr l (append_storage (curr l) diff)) = with_curr l (append_storage (curr l) diff)).
    { unfold check_available_value. cbn [with_curr curr older]. rewrite pot_append, Ep, Eo.
      destruct (Z.leb_spec (storage prev) (storage (append_storage (curr l) diff))) as [K|K]; [cbn in K; lia|reflexivity]. }
    destruct (append_check p l diff I (or_intror Ep)) as (J & L & H & S & _). cbv zeta in *.
    split; [exact J|]. split; [exact L|]. split; [|split; [|exact S]].
    + rewrite H. unfold high. rewrite Eo. cbn [map maxl].
      assert (loc p l < loc_data p prev) by (unfold loc, loc_data; lia).
      pose proof (maxl_ge (map (loc_data p) rest) (loc p l)). lia.
    + rewrite EQ. cbn [with_curr curr]. rewrite pot_append. exact Ep.
Qed.
Lemma forth_ok : forall p l diff, inv p l -> 0 <= diff ->
  inv p (back l diff) /\ loc p (back l diff) = loc p l + diff /\
  high p (back l diff) = Z.max (high p l) (loc p l + diff) /\ starting (back l diff) = starting l.
Proof.
  intros p l diff I Hd. unfold back. replace (diff <? 0) with false by lia. cbn [andb].
  destruct (append_check p l diff I (or_introl Hd)) as (J & L & H & S & _). auto.
Qed.

Lemma up_align : forall v b, (b = 0 \/ pow2 b) -> v + skip v 0 (if b =? 0 then 1 else b) = align_up v b.
Proof.
  intros v b H. unfold align_up. destruct (Z.eqb_spec b 0); [rewrite skip_1; lia|reflexivity].
Qed.
Lemma up_ge : forall v b, (b = 0 \/ pow2 b) -> v <= align_up v b.
Proof.
  intros v b H. unfold align_up. destruct (Z.eqb_spec b 0); [lia|]. destruct H as [H|H]; [lia|].
  pose proof (skip_range v 0 b (pow2_pos _ H)). lia.
Qed.
Lemma bpos : forall b, (b = 0 \/ pow2 b) -> b = 0 \/ 0 < b.
Proof. intros b [H|H]; [now left|right; now apply pow2_pos]. Qed.
Lemma bal : forall b, (b = 0 \/ pow2 b) -> pow2 (if b =? 0 then 1 else b).
Proof. intros b [->|H]; [apply pow2_1|]. destruct (Z.eqb_spec b 0); [apply pow2_1|exact H]. Qed.

Definition step_ok (p : lengths) (l : loctr) (c' : Z) (l' : loctr) : Prop :=
  inv p l' /\ loc p l' = c' /\ high p l' = Z.max (high p l) c' /\ starting l' = starting l.

Lemma org_ok : forall p l t b o l' sp, inv p l -> (b = 0 \/ pow2 b) ->
  (0 <= o \/ target_loc p t < loc p l) -> 0 <= align_up (target_loc p t) b + o ->
  org l t b o false = Some (l', sp) ->
  (forall s, sp = Some s ->
       p (sid s) = match skind_of s with
                   | Alignment => alignment_length (mkAl 0 b) (target_loc p t)
                   | _ => set_length (target_loc p t) b o
                   end) ->
  step_ok p l (align_up (target_loc p t) b + o) l'.
Proof.
  intros p l t b o l' sp I Hb Ho Hpos E Hs. unfold org, set_value in E.
  destruct (negb (t_same t) || _); [discriminate|].
  destruct (negb (eqb_spaces (space_list (curr l)) (t_spaces t)) || (storage (curr l) - t_offset t >? safe (curr l))
            || (negb (b =? 0) && (storage (curr l) - t_offset t >? safe (curr l) + o))) eqn:EC.
  - destruct (register_space _ no_align LoctrSet) as [l1 s] eqn:ER. injection E as <- <-.
    destruct (push_ok p l LoctrSet l1 s I ltac:(discriminate) ER) as (J & L & H & S & K).
    specialize (Hs s eq_refl). rewrite K in Hs. rewrite set_length_up in Hs by (auto using bpos).
    rewrite Hs in L. split; [exact J|]. split; [exact L|]. rewrite <- L. split; [exact H|exact S].
  - apply orb_false_iff in EC as [EC _]. apply orb_false_iff in EC as [EC _]. apply negb_false_iff in EC.
    pose proof (eqb_spaces_total p _ _ EC) as ET.
    assert (V : t_offset t - storage (curr l) = target_loc p t - loc p l).
    { unfold target_loc, loc, loc_data. lia. }
    set (diff := t_offset t - storage (curr l)) in *.
    change (match Some (back l diff, @None space) with
            | Some (l1, Some s) => Some (l1, Some s)
            | Some (l1, None) => Some (reserve l1 o (mkAl 0 (if b =? 0 then 1 else b)))
            | None => None end = Some (l', sp)) in E. cbv beta iota in E. injection E as E.
    destruct (Z_lt_ge_dec diff 0) as [Hlt|Hge].
    + destruct (back_ok p l diff I Hlt) as (J & L & H & Pt & S).
      assert (LV : loc p (back l diff) = target_loc p t) by lia.
      destruct (reserve_ok p _ _ _ _ _ J E eq_refl (bal b Hb) (or_intror Pt)) as (J' & L' & H' & S' & KA).
      { intros s Es. pose proof (Hs s Es) as Q.
        assert (K : skind_of s = Alignment).
        { subst sp. unfold reserve in E. destruct (has_alignment _ _); [discriminate|].
          destruct (need_space_alignment _ _); [|discriminate].
          injection E as _ <-. reflexivity. }
        rewrite K in Q. rewrite Q, LV. unfold alignment_length. cbn [boundary byte].
        destruct (Z.eqb_spec b 0) as [->|N]; [|reflexivity].
        (* no alignment space for boundary 0 *)
        exfalso. subst sp. unfold reserve in E. clear -E J.
        destruct J as (J1 & _). pose proof (J1 _ (or_introl eq_refl)) as [_ G].
        unfold has_alignment, need_space_alignment in E. destruct (last_part (parts (curr (back l diff)))) as [[s' z]|] eqn:EL.
        - destruct G as (_ & _ & G). apply pow2_pos in G. cbn [boundary] in E.
          replace (1 >? boundary (salign s')) with false in E by lia. rewrite Z.mod_1_r in E. cbn in E. discriminate.
        - cbn [boundary byte] in E. rewrite Z.mod_1_r in E. cbn in E. discriminate. }
      cbn [boundary] in L'. rewrite LV, up_align in L' by assumption.
      split; [exact J'|]. split; [exact L'|]. rewrite L' in H'. rewrite H', H. split; [reflexivity|congruence].
    + destruct Ho as [Ho|Ho]; [|lia].
      destruct (forth_ok p l diff I ltac:(lia)) as (J & L & H & S).
      assert (LV : loc p (back l diff) = target_loc p t) by lia.
      destruct (reserve_ok p _ _ _ _ _ J E eq_refl (bal b Hb) (or_introl Ho)) as (J' & L' & H' & S' & KA).
      { intros s Es. pose proof (Hs s Es) as Q.
        assert (K : skind_of s = Alignment).
        { subst sp. unfold reserve in E. destruct (has_alignment _ _); [discriminate|].
          destruct (need_space_alignment _ _); [|discriminate].
          injection E as _ <-. reflexivity. }
        rewrite K in Q. rewrite Q, LV. unfold alignment_length. cbn [boundary byte].
        destruct (Z.eqb_spec b 0) as [->|N]; [|reflexivity].
        exfalso. subst sp. unfold reserve in E. clear -E J.
        destruct J as (J1 & _). pose proof (J1 _ (or_introl eq_refl)) as [_ G].
        unfold has_alignment, need_space_alignment in E. destruct (last_part (parts (curr (back l diff)))) as [[s' z]|] eqn:EL.
        - destruct G as (_ & _ & G). apply pow2_pos in G. cbn [boundary] in E.
          replace (1 >? boundary (salign s')) with false in E by lia. rewrite Z.mod_1_r in E. cbn in E. discriminate.
        - cbn [boundary byte] in E. rewrite Z.mod_1_r in E. cbn in E. discriminate. }
      cbn [boundary] in L'. rewrite LV, up_align in L' by assumption.
      split; [exact J'|]. split; [exact L'|]. rewrite L' in H'. rewrite H', H.
      pose proof (up_ge (target_loc p t) b Hb). split; [lia|congruence].
Qed.

Lemma org_later_ok : forall p l t v b o l' s, inv p l -> (b = 0 \/ pow2 b) -> 0 <= align_up v b + o ->
  org l t b o true = Some (l', Some s) -> p (sid s) = set_length v b o -> step_ok p l (align_up v b + o) l'.
Proof.
  intros p l t v b o l' s I Hb Hpos E Hs. unfold org, set_value in E.
  destruct (negb (t_same t) || _); [discriminate|].
  destruct (register_space _ no_align LoctrUnknown) as [l1 s1] eqn:ER. injection E as -> ->.
  destruct (push_ok p l LoctrUnknown l' s I ltac:(discriminate) ER) as (J & L & H & S & K).
  rewrite set_length_up in Hs by (auto using bpos). rewrite Hs in L.
  split; [exact J|]. split; [exact L|]. rewrite <- L. split; [exact H|exact S].
Qed.

(* ------------------------------------------------------------------ the maximum *)
Lemma first_greatest_spec : forall l best cur,
  (first_greatest l best cur = cur /\ forall x, In x l -> x <= best) \/
  (In (first_greatest l best cur) l /\ best < first_greatest l best cur /\ forall x, In x l -> x <= first_greatest l best cur).
Proof.
  induction l as [|x l IH]; intros best cur; cbn [first_greatest].
  - left. split; [reflexivity|intros ? []].
  - rewrite Z.gtb_ltb. destruct (Z.ltb_spec best x) as [G|G].
    + right. destruct (IH x x) as [(E & B)|(E1 & E2 & B)].
      * rewrite E. split; [now left|]. split; [lia|]. intros y [<-|H]; [lia|apply B; exact H].
      * split; [now right|]. split; [lia|]. intros y [<-|H]; [lia|apply B; exact H].
    + destruct (IH best cur) as [(E & B)|(E1 & E2 & B)].
      * left. split; [exact E|]. intros y [<-|H]; [lia|apply B; exact H].
      * right. split; [now right|]. split; [lia|]. intros y [<-|H]; [lia|apply B; exact H].
Qed.
Lemma maxl_in : forall l z, In (maxl l z) (z :: l).
Proof.
  induction l as [|x l IH]; intros z; cbn [maxl]; [now left|].
  destruct (IH z) as [H|H]; destruct (Z.max_spec x (maxl l z)) as [[_ ->]|[_ ->]]; auto.
  - left. exact H.
  - right. now left.
  - right. now right.
  - right. now left.
Qed.
Lemma maxl_le : forall l z x, In x (z :: l) -> x <= maxl l z.
Proof.
  induction l as [|y l IH]; intros z x [H|H]; cbn [maxl].
  - lia.
  - destruct H.
  - specialize (IH z x (or_introl H)). lia.
  - destruct H as [->|H]; [lia|]. specialize (IH z x (or_intror H)). lia.
Qed.
Lemma greatest : forall l h, In h l -> (forall x, In x l -> x <= h) -> 0 <= h -> first_greatest l (-1) (hd 0 l) = h.
Proof.
  intros l h Hin Hmax Hpos. destruct (first_greatest_spec l (-1) (hd 0 l)) as [(_ & B)|(E1 & _ & B)].
  - specialize (B h Hin). lia.
  - pose proof (Hmax _ E1). pose proof (B h Hin). lia.
Qed.

Lemma drop_lower_ok : forall p l, inv p l -> inv p (drop_lower l) /\ high p (drop_lower l) = high p l /\
  pot (curr (drop_lower l)) = true /\ starting (drop_lower l) = starting l /\
  (forall d, In d (entries (drop_lower l)) -> In d (entries l)).
Proof.
  intros p l I. pose proof I as (I1 & I2 & I3). unfold drop_lower. destruct (pot (curr l)) eqn:Ep.
  - cbn [negb andb]. destruct (older l); (split; [exact I|]); auto.
  - destruct (I2 Ep) as (prev & rest & Eo & Pp & Et & Hlt). rewrite Eo. cbn [negb andb].
    destruct (Z.leb_spec (storage (curr l)) (storage prev)) as [_|K]; [|lia].
    assert (Sub : forall d, In d (prev :: rest) -> In d (entries l)).
    { intros d Hd. right. rewrite Eo. exact Hd. }
    split; [split; [|split]|split; [|split; [exact Pp|split; [reflexivity|exact Sub]]]].
    + intros d Hd. apply I1. apply Sub. exact Hd.
    + intros K. cbn in K. congruence.
    + intros d s Hd. apply I3. apply Sub. exact Hd.
    + unfold high. rewrite Eo. unfold loc. cbn [curr older map maxl].
      assert (loc_data p (curr l) < loc_data p prev) by (unfold loc_data; lia).
      pose proof (maxl_max (map (loc_data p) rest) (loc_data p (curr l)) (loc_data p prev)) as Q.
      rewrite Z.max_r in Q by lia. lia.
Qed.

Lemma ids_total_map : forall p l, ids_total p (map (fun e : space * Z => sid (fst e)) l) = total p l.
Proof. intros p l. induction l as [|[s z] l IH]; cbn [map ids_total total fst]; [reflexivity|]. rewrite IH. reflexivity. Qed.

Lemma high_in : forall p l, exists d, In d (entries l) /\ loc_data p d = high p l.
Proof.
  intros p l. unfold high. pose proof (maxl_in (map (loc_data p) (older l)) (loc p l)) as H.
  change (loc p l :: map (loc_data p) (older l)) with (map (loc_data p) (entries l)) in H.
  apply in_map_iff in H as (d & E & Hd). exists d. auto.
Qed.
Lemma high_le : forall p l d, In d (entries l) -> loc_data p d <= high p l.
Proof.
  intros p l d H. unfold high. apply maxl_le.
  change (loc p l :: map (loc_data p) (older l)) with (map (loc_data p) (entries l)). now apply in_map.
Qed.
Definition floor_of (p : lengths) (start : bool) : Z := if start then 0 else p 0%nat.

Lemma last_in : forall (l : list data) x, In (last l x) (x :: l).
Proof.
  induction l as [|y l IH]; intros x; [now left|]. destruct l as [|z l]; [right; now left|].
  change (last (y :: z :: l) x) with (last (z :: l) x). destruct (IH x) as [H|H]; [now left|right; now right].
Qed.

Lemma org_available_ok : forall p l b o l' al mx, inv p l -> (b = 0 \/ pow2 b) -> 0 <= o ->
  (starting l = true \/
   (b = 0 /\ forall d, In d (entries l) -> exists s, first_space d = Some s /\ skind_of s = LoctrBegin)) ->
  floor_of p (starting l) <= high p l ->
  org_available l b o = (l', al, mx) ->
  (forall s, al = Some s -> p (sid s) = alignment_length (mkAl 0 b) (loc p (fst (set_available_value l)))) ->
  (forall s cs, mx = Some (s, cs) -> p (sid s) = max_length (map (candidate_loc p) cs) b o) ->
  step_ok p l (align_up (high p l) b + o) l'.
Proof.
  intros p l b o l' al mx I Hb Ho Hst Hf E Ha Hm. unfold org_available in E.
  destruct (drop_lower_ok p l I) as (J & Hh & Pt & S & Sub).
  pose proof (up_ge (high p l) b Hb) as Hup.
  destruct (set_available_value l) as [l1 x] eqn:EV. unfold set_available_value in EV. cbv zeta in EV.
  destruct (only_value (drop_lower l)) eqn:EO.
  - injection EV as <- <-. cbn [fst] in Ha.
    assert (LH : loc p (drop_lower l) = high p l).
    { rewrite <- Hh. unfold high. unfold only_value in EO. destruct (older (drop_lower l)); [reflexivity|discriminate]. }
    destruct (b =? 0) eqn:E0.
    + apply Z.eqb_eq in E0. subst b. destruct (reserve (drop_lower l) o no_align) as [l2 sp] eqn:ER.
      cbn [fst] in E. injection E as <- _ _.
      destruct (reserve_ok p _ _ _ _ _ J ER eq_refl pow2_1 (or_introl Ho)) as (J' & L' & H' & S' & K').
      { intros s Es. subst sp. exfalso. unfold reserve in ER. unfold has_alignment, need_space_alignment in ER.
        destruct J as (J1 & _). pose proof (J1 _ (or_introl eq_refl)) as [_ G].
        destruct (last_part (parts (curr (drop_lower l)))) as [[s' z]|] eqn:EL.
        - destruct G as (_ & _ & G). apply pow2_pos in G. cbn [boundary no_align] in ER.
          replace (1 >? boundary (salign s')) with false in ER by lia. rewrite Z.mod_1_r in ER. cbn in ER. discriminate.
        - cbn [boundary byte no_align] in ER. rewrite Z.mod_1_r in ER. cbn in ER. discriminate. }
      cbn [no_align boundary] in L'. rewrite skip_1, LH in L'. unfold align_up. cbn [Z.eqb].
      split; [exact J'|]. split; [lia|]. rewrite H', L', Hh. split; [lia|congruence].
    + destruct (reserve (drop_lower l) 0 (mkAl 0 b)) as [l2 sp] eqn:ER.
      destruct (reserve l2 o no_align) as [l3 sp3] eqn:ER3. cbn [fst] in E. injection E as <- <- _.
      assert (Pb : pow2 b) by (destruct Hb; [lia|assumption]).
      destruct (reserve_ok p _ _ _ _ _ J ER eq_refl Pb (or_introl (Z.le_refl 0)) Ha) as (J2 & L2 & H2 & S2 & K2).
      destruct (reserve_ok p _ _ _ _ _ J2 ER3 eq_refl pow2_1 (or_introl Ho)) as (J3 & L3 & H3 & S3 & K3).
      { intros s Es. subst sp3. exfalso. unfold reserve in ER3. unfold has_alignment, need_space_alignment in ER3.
        destruct J2 as (J1 & _). pose proof (J1 _ (or_introl eq_refl)) as [_ G].
        destruct (last_part (parts (curr l2))) as [[s' z]|] eqn:EL.
        - destruct G as (_ & _ & G). apply pow2_pos in G. cbn [boundary no_align] in ER3.
          replace (1 >? boundary (salign s')) with false in ER3 by lia. rewrite Z.mod_1_r in ER3. cbn in ER3. discriminate.
        - cbn [boundary byte no_align] in ER3. rewrite Z.mod_1_r in ER3. cbn in ER3. discriminate. }
      cbn [boundary no_align] in L2, L3. rewrite skip_1 in L3. rewrite LH in L2.
      assert (UA : align_up (high p l) b = high p l + skip (high p l) 0 b) by (unfold align_up; now rewrite E0).
      split; [exact J3|]. split; [lia|]. rewrite H3, H2, Hh. split; [lia|congruence].
  - set (d1 := if starting (drop_lower l) then new_data true
               else match first_space (last (older (drop_lower l)) (curr (drop_lower l))) with
                    | Some s => append_space (new_data true) s | None => new_data true end) in *.
    destruct (register_space (mkLoctr d1 (curr (drop_lower l) :: older (drop_lower l)) (next (drop_lower l)) (starting (drop_lower l)))
                no_align LoctrMax) as [l3 s] eqn:ER.
    injection EV as <- <-. injection E as <- <- <-. specialize (Hm s _ eq_refl).
    unfold register_space in ER. injection ER as <- <-. cbn [sid] in Hm.
    set (l0 := drop_lower l) in *. match goal with |- step_ok p l _ ?x => set (l' := x) end.
    assert (HD : exists f, loc_data p d1 = f /\ f = floor_of p (starting l) /\ good p d1 /\
      (forall s, first_space d1 = Some s -> skind_of s = LoctrBegin -> sid s = 0%nat /\ salign s = no_align) /\
      (forall c, In c (map (candidate_loc p) (candidates l0)) <-> In (c + f) (map (loc_data p) (entries l0))) /\
      (b = 0 \/ f = 0)).
    { assert (Aux : forall c f (g : data -> candidate), (forall d, In d (entries l0) -> candidate_loc p (g d) + f = loc_data p d) ->
        In c (map (candidate_loc p) (map g (rev (entries l0)))) <-> In (c + f) (map (loc_data p) (entries l0))).
      { intros c f g Hg. rewrite map_map, !in_map_iff. split.
        - intros (d & Ed & Hd). apply in_rev in Hd. exists d. split; [|exact Hd]. rewrite <- (Hg d Hd). lia.
        - intros (d & Ed & Hd). exists d. rewrite <- in_rev. split; [|exact Hd]. rewrite <- (Hg d Hd) in Ed. lia. }
      unfold d1, floor_of, candidates. rewrite S. destruct (starting l) eqn:Es.
      - exists 0. split; [reflexivity|]. split; [reflexivity|]. split; [split; [reflexivity|exact Logic.I]|].
        split; [discriminate|]. split; [|now right]. intros c. apply Aux. intros d Hd.
        unfold candidate_loc. cbn [fst snd]. rewrite ids_total_map. unfold loc_data. lia.
      - destruct Hst as [Hst|[-> Hst]]; [discriminate|].
        destruct (Hst (last (older l0) (curr l0))) as (s & Fs & Ks).
        { apply Sub. apply last_in. }
        rewrite Fs. assert (Id : sid s = 0%nat /\ salign s = no_align).
        { destruct J as (_ & _ & J3). apply (J3 _ s (last_in (older l0) (curr l0)) Fs Ks). }
        destruct Id as [Id Al]. exists (p 0%nat).
        assert (L1 : loc_data p (append_space (new_data true) s) = p 0%nat) by (unfold loc_data; cbn; rewrite Id; lia).
        split; [exact L1|]. split; [reflexivity|]. split; [|split; [|split; [|now left]]].
        + split; [reflexivity|]. cbn [append_space new_data parts app last_part].
          rewrite Al. cbn [no_align boundary byte]. repeat split; [apply Z.mod_1_r|apply pow2_1].
        + intros s' Fs' _. cbn in Fs'. injection Fs' as <-. auto.
        + intros c. apply Aux. intros d Hd. destruct (Hst d (Sub d Hd)) as (s' & Fd & Kd).
          destruct J as (_ & _ & J3). destruct (J3 d s' Hd Fd Kd) as [Id' _].
          unfold candidate_loc. cbn [fst snd]. rewrite ids_total_map. unfold loc_data.
          unfold first_space in Fd. destruct (parts d) as [|[s2 z2] q]; [discriminate|]. injection Fd as ->.
          cbn [strip_begin]. rewrite Kd. cbn [total]. rewrite Id'. lia. }
    destruct HD as (f & L1 & Ef & G1 & B1 & C1 & Bf).
    assert (Mx : max_length (map (candidate_loc p) (candidates l0)) b o = align_up (high p l) b + o - f).
    { unfold max_length. rewrite (greatest _ (high p l - f)).
      - rewrite set_length_up; [|now apply bpos|].
        + destruct Bf as [-> | ->]; [unfold align_up; cbn; lia|rewrite Z.sub_0_r; lia].
        + pose proof (up_ge (high p l - f) b Hb). rewrite Ef in *. lia.
      - apply C1. replace (high p l - f + f) with (high p l) by lia. rewrite <- Hh.
        destruct (high_in p l0) as (d & Hd & <-). now apply in_map.
      - intros x Hx. apply C1 in Hx. apply in_map_iff in Hx as (d & Ed & Hd). pose proof (high_le p l0 d Hd). lia.
      - lia. }
    assert (L : loc p l' = align_up (high p l) b + o).
    { unfold loc, l'. cbn [curr]. unfold loc_data. cbn [storage parts append_space]. rewrite total_app. cbn [total sid].
      unfold loc_data in L1. cbn [next]. rewrite Hm, Mx. cbn [curr]. lia. }
    split; [|split; [exact L|split; [|exact S]]].
    + split; [|split].
      * intros d [<-|Hd]; [|destruct J as (J1 & _); apply J1; exact Hd].
        set (sm := mkSp (next l0) LoctrMax no_align).
        destruct (good_space p d1 sm G1 eq_refl pow2_1 ltac:(apply Z.mod_1_r)) as [G _]. exact G.
      * intros K. discriminate.
      * intros d x [<-|Hd] F K; [|destruct J as (_ & _ & J3); apply (J3 d x); auto].
        change (first_space (append_space d1 (mkSp (next l0) LoctrMax no_align)) = Some x) in F.
        apply first_space_app in F as [F|[_ ->]]; [apply B1; auto|discriminate].
    + rewrite <- Hh. set (X := align_up (high p l0) b + o).
      assert (LX : loc p l' = X) by (unfold X; rewrite Hh; exact L).
      unfold high at 1. rewrite LX. change (older l') with (curr l0 :: older l0). cbn [map maxl]. fold (loc p l0).
      unfold high at 1.
      pose proof (maxl_max (map (loc_data p) (older l0)) (loc p l0) X) as Q1.
      pose proof (maxl_max (map (loc_data p) (older l0)) X (loc p l0)) as Q2.
      rewrite (Z.max_comm X) in Q2. lia.
Qed.

(* ------------------------------------------------------------------ whole runs *)
Lemma step : forall p l o l', exec p l o l' -> inv p l -> sound_op p l o (loc p l) (high p l) ->
  floor_of p (starting l) <= high p l -> step_ok p l (moved p o (loc p l) (high p l)) l'.
Proof.
  intros p l o l' X I Hs Hf. destruct X as [l n a l' sp E Hp|l a len l' s E Hp|l t b o l' sp E Hp|l t v b o l' s E Hp|l b o l' al mx E Ha Hm];
    cbn [sound_op moved] in *.
  - destruct Hs as (H1 & H2 & H3). destruct (reserve_ok p _ _ _ _ _ I E H2 H3 (or_introl H1) Hp) as (J & L & H & S & _).
    rewrite H2. split; [exact J|]. split; [exact L|]. rewrite <- L. split; [exact H|exact S].
  - destruct Hs as (H1 & H2 & H3 & H4). unfold register_ordinary in E.
    destruct (register_ok p _ _ _ _ _ I E ltac:(discriminate) H2 H3) as (J & L & H & S & _); [rewrite Hp; exact H4|left; lia|].
    rewrite Hp in *. split; [exact J|]. split; [exact L|]. split; [exact H|exact S].
  - destruct Hs as (H1 & H2 & H3). eapply org_ok; eauto.
  - destruct Hs as (H1 & H2). eapply org_later_ok; eauto.
  - destruct Hs as (H1 & H2 & H3). eapply org_available_ok; eauto.
Qed.

Lemma run_ok : forall p l ch os l' ch', runs p l ch os l' ch' -> inv p l -> ch = (loc p l, high p l) ->
  floor_of p (starting l) <= high p l ->
  inv p l' /\ ch' = (loc p l', high p l') /\ floor_of p (starting l') <= high p l'.
Proof.
  intros p l ch os l' ch' R. induction R as [l ch|l ch o l1 os l2 ch2 X Hs R IH]; intros I E Hf; [auto|].
  subst ch. cbn [fst snd] in *. destruct (step p l o l1 X I Hs Hf) as (J & L & H & S).
  apply IH; [exact J| |].
  - unfold spec_step. cbn [fst snd]. cbv zeta. rewrite L, H. reflexivity.
  - rewrite S, H. lia.
Qed.

Lemma inv_new : forall p start, inv p (new_loctr start) /\ loc p (new_loctr start) = floor_of p start /\ high p (new_loctr start) = floor_of p start /\ starting (new_loctr start) = start.
Proof.
  intros p start. split; [|destruct start; repeat split; unfold loc, high, loc_data; cbn; try lia].
  destruct start; split; [|split| |split].
  - intros d [<-|[]]. split; [reflexivity|exact I].
  - intros K. discriminate.
  - intros d s [<-|[]] F. discriminate.
  - intros d [<-|[]]. split; [reflexivity|]. cbn. repeat split; [apply Z.mod_1_r|apply pow2_1].
  - intros K. discriminate.
  - intros d s [<-|[]] F K. cbn in F. injection F as <-. split; reflexivity.
Qed.
