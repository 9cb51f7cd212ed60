(** C18, C19: location counters. *)
From Coq Require Import List ZArith Bool Arith Lia.
From Coq Require Import ZifyBool ZifyNat.
From Verif Require Import Loctr_Model Loctr_Spec Loctr_Proof Org_Proof.
Import ListNotations.
Local Open Scope Z_scope.

(** * C19 *)

(** After any sound sequence of statements the code's location is the specified one, and the highest
    of the values it keeps is the high-water mark. *)
Theorem C19_location_and_high_water_mark : forall p start os l' ch',
  runs p (new_loctr start) (floor_of p start, floor_of p start) os l' ch' ->
  loc p l' = fst ch' /\ (forall d, In d (entries l') -> loc_data p d <= snd ch') /\
  (exists d, In d (entries l') /\ loc_data p d = snd ch').
Proof.
  intros p start os l' ch' R. destruct (inv_new p start) as (I & L & H & S).
  destruct (run_ok p _ _ _ _ _ R I) as (_ & E & _).
  - now rewrite L, H.
  - rewrite S, H. lia.
  - subst ch'. cbn [fst snd]. split; [reflexivity|]. split; [intros; now apply high_le|apply high_in].
Qed.
Print Assumptions C19_location_and_high_water_mark.

(** In particular ORG without an address continues at the high-water mark. *)
Theorem C19_org_without_address : forall p start os l ch l', 
  runs p (new_loctr start) (floor_of p start, floor_of p start) os l ch ->
  exec p l (OrgMax 0 0) l' -> sound_op p l (OrgMax 0 0) (fst ch) (snd ch) ->
  loc p l' = snd ch /\ forall d, In d (entries l) -> loc_data p d <= loc p l'.
Proof.
  intros p start os l ch l' R X Hs. destruct (inv_new p start) as (I & L & H & S).
  destruct (run_ok p _ _ _ _ _ R I) as (J & E & F).
  - now rewrite L, H.
  - rewrite S, H. lia.
  - subst ch. cbn [fst snd] in *. destruct (step p l _ l' X J Hs F) as (_ & L' & _).
    cbn [moved] in L'. unfold align_up in L'. cbn in L'. split; [lia|]. intros d Hd. pose proof (high_le p l d Hd). lia.
Qed.
Print Assumptions C19_org_without_address.

(** The value that stands for the maximum is the greatest candidate, aligned and displaced. *)
Theorem C19_maximum : forall vs b o h, (b = 0 \/ pow2 b) -> In h vs -> (forall x, In x vs -> x <= h) -> 0 <= h -> 0 <= o ->
  max_length vs b o = align_up h b + o.
Proof.
  intros vs b o h Hb H1 H2 H3 H4. unfold max_length. rewrite (greatest vs h) by assumption.
  apply set_length_up; [now apply bpos|]. pose proof (up_ge h b Hb). lia.
Qed.
Print Assumptions C19_maximum.

(** [DS 10C; ORG *-4; DS C; ORG ,] is sound and ends at 10; with a pending length of 7 before it, at 17. *)
Definition p7 : lengths := fun i => match i with 0%nat => 7 | _ => 17 end.
Definition l_a : loctr := fst (register_ordinary (new_loctr true) no_align).
Definition l_b : loctr := fst (reserve l_a 10 no_align).
Definition back4 : target := mkTarget [(0%nat, 1)] 6 true true.
Definition l_c : loctr := match org l_b back4 0 0 false with Some (x, _) => x | None => l_b end.
Definition l_d : loctr := fst (reserve l_c 1 no_align).
Definition l_e : loctr := fst (fst (org_available l_d 0 0)).
Example C19_ex :
  runs p7 (new_loctr true) (floor_of p7 true, floor_of p7 true)
    [Pending no_align 7; Reserve 10 no_align; Org back4 0 0; Reserve 1 no_align; OrgMax 0 0] l_e (17, 17).
Proof.
  assert (P1 : pow2 1) by apply pow2_1.
  apply (RCons p7 _ _ _ l_a).
  - eapply XPending; reflexivity.
  - cbn. repeat split; auto; lia.
  - apply (RCons p7 _ _ _ l_b).
    + eapply XReserve; [reflexivity|discriminate].
    + cbn. repeat split; auto; lia.
    + apply (RCons p7 _ _ _ l_c).
      * eapply XOrg; [reflexivity|discriminate].
      * cbn. repeat split; auto; lia.
      * apply (RCons p7 _ _ _ l_d).
        -- eapply XReserve; [reflexivity|discriminate].
        -- cbn. repeat split; auto; lia.
        -- apply (RCons p7 _ _ _ l_e).
           ++ eapply XOrgMax; [reflexivity|discriminate|]. intros s cs E. injection E as <- <-. vm_compute. reflexivity.
           ++ cbn. repeat split; auto; lia.
           ++ apply RNil.
Qed.

(** Outside those conditions the mark is lost: a negative displacement from the current location ... *)
Theorem C19_negative_displacement_refuted : forall p,
  let l1 := fst (reserve (new_loctr true) 10 no_align) in
  exists l2 sp, org l1 (mkTarget [] 10 true false) 0 (-5) false = Some (l2, sp) /\
    loc p l1 = 10 /\ loc p (fst (fst (org_available l2 0 0))) = 5.
Proof. intros p. eexists. eexists. split; [reflexivity|]. split; reflexivity. Qed.
Print Assumptions C19_negative_displacement_refuted.

(** ... and in a later location counter an ORG across a pending length counts the counter's own
    start twice: starting at 100 with 14 bytes used, ORG without address goes to 200. *)
Theorem C19_later_counter_refuted : 
  let p := fun i => match i with 0%nat => 100 | 1%nat => 4 | 2%nat => 100 | _ => 100 end in
  let l1 := fst (register_ordinary (fst (reserve (new_loctr false) 10 no_align)) no_align) in
  exists l2 l3, exec p l1 (Org (mkTarget [(0%nat, 1)] 0 true false) 0 0) l2 /\ exec p l2 (OrgMax 0 0) l3 /\
    loc p l1 = 114 /\ loc p l2 = 100 /\ loc p l3 = 200.
Proof.
  eexists. eexists. split; [|split].
  - eapply XOrg; [reflexivity|]. intros s E. injection E as <-. reflexivity.
  - eapply XOrgMax; [reflexivity|discriminate|]. intros s cs E. injection E as <- <-. vm_compute. reflexivity.
  - split; [reflexivity|]. split; reflexivity.
Qed.
Print Assumptions C19_later_counter_refuted.

(** The next location counter of a section begins at the location where this one was left, not at its
    high-water mark. *)
Theorem C19_next_counter_refuted : forall p,
  let l1 := fst (reserve (new_loctr true) 100 no_align) in
  exists l2 sp, org l1 (mkTarget [] 0 true false) 0 0 false = Some (l2, sp) /\
    high p l2 = 100 /\ layout 0 [l2; new_loctr false] = [0; 0].
Proof. intros p. eexists. eexists. split; [reflexivity|]. split; reflexivity. Qed.
Print Assumptions C19_next_counter_refuted.

(** * C18 *)

(** A reserved area starts at the next multiple of its boundary. *)
Theorem C18_reserved_area : forall p start os l ch n a l',
  runs p (new_loctr start) (floor_of p start, floor_of p start) os l ch ->
  exec p l (Reserve n a) l' -> 0 <= n -> byte a = 0 -> pow2 (boundary a) ->
  exists s, loc p l <= s < loc p l + boundary a /\ s mod boundary a = 0 /\ loc p l' = s + n.
Proof.
  intros p start os l ch n a l' R X Hn B P. destruct (inv_new p start) as (I & L & H & S).
  destruct (run_ok p _ _ _ _ _ R I) as (J & E & F).
  - now rewrite L, H.
  - rewrite S, H. lia.
  - destruct (step p l _ l' X J (conj Hn (conj B P)) F) as (_ & L' & _). cbn [moved] in L'. rewrite B in L'.
    pose proof (pow2_pos _ P) as Hp. pose proof (skip_range (loc p l) 0 _ Hp).
    exists (loc p l + skip (loc p l) 0 (boundary a)). split; [lia|]. split; [|exact L'].
    rewrite skip_aligned by assumption. apply Z.mod_0_l. lia.
Qed.
Print Assumptions C18_reserved_area.

(** Areas reserved one after the other do not overlap ... *)
Definition no_org (o : op) : Prop := match o with Reserve _ _ | Pending _ _ => True | _ => False end.
Theorem C18_areas_follow_each_other : forall p start os l ch os' l' ch',
  runs p (new_loctr start) (floor_of p start, floor_of p start) os l ch ->
  runs p l ch os' l' ch' -> Forall no_org os' -> loc p l <= loc p l'.
Proof.
  intros p start os l ch os' l' ch' R R' HF. destruct (inv_new p start) as (I & L & H & S).
  destruct (run_ok p _ _ _ _ _ R I) as (J & E & F).
  - now rewrite L, H.
  - rewrite S, H. lia.
  - clear R I L H S. revert J E F HF. induction R' as [|l ch o l1 os' l2 ch2 X Hs R IH]; intros J E F HF; [lia|].
    inversion HF as [|? ? Ho HF']; subst. cbn [fst snd] in *.
    destruct (step p l o l1 X J Hs F) as (J1 & L1 & H1 & S1).
    assert (loc p l <= loc p l1).
    { rewrite L1. destruct o as [n a|a len| | |]; try destruct Ho; cbn [moved sound_op] in *.
      - destruct Hs as (Hn & _ & P). pose proof (skip_range (loc p l) (byte a) _ (pow2_pos _ P)). lia.
      - lia. }
    assert (loc p l1 <= loc p l2).
    { apply IH; auto.
      - unfold spec_step. cbn [fst snd]. cbv zeta. rewrite L1, H1. reflexivity.
      - rewrite S1, H1. lia. }
    lia.
Qed.
Print Assumptions C18_areas_follow_each_other.

(** ... and every location ever reached stays below the high-water mark. *)
Theorem C18_below_high_water_mark : forall p start os l ch os' l' ch',
  runs p (new_loctr start) (floor_of p start, floor_of p start) os l ch -> runs p l ch os' l' ch' ->
  loc p l <= snd ch' /\ exists d, In d (entries l') /\ loc_data p d = snd ch'.
Proof.
  intros p start os l ch os' l' ch' R R'. destruct (inv_new p start) as (I & L & H & S).
  destruct (run_ok p _ _ _ _ _ R I) as (J & E & F).
  - now rewrite L, H.
  - rewrite S, H. lia.
  - destruct (run_ok p _ _ _ _ _ R' J E F) as (J' & E' & _). split.
    + subst ch. clear R I L H S J F E'.
      assert (M : snd (loc p l, high p l) <= snd ch').
      { clear J'. induction R' as [l ch|l ch o l1 os' l2 ch2 X Hs R IH]; [lia|].
        unfold spec_step in IH. cbn [snd] in IH. lia. }
      cbn [snd] in M. pose proof (high_le p l (curr l) (or_introl eq_refl)). unfold loc. lia.
    + subst ch'. apply high_in.
Qed.
Print Assumptions C18_below_high_water_mark.

(** The same for one alignment step with a displacement from the boundary, as long as the last
    pending length ends on its boundary itself. *)
Theorem C18_align_with_displacement : forall p d a, good p d -> 0 <= byte a < boundary a -> pow2 (boundary a) ->
  need_space_alignment d a = false ->
  let d' := if has_alignment d a then d else align_data d a in
  loc_data p d' mod boundary a = byte a /\ loc_data p d <= loc_data p d' < loc_data p d + boundary a.
Proof.
  intros p d a G Ha P N. pose proof (pow2_pos _ P) as Hp. cbv zeta.
  pose proof (skip_range (loc_data p d) (byte a) _ Hp) as SR.
  pose proof (skip_aligned (loc_data p d) (byte a) _ Hp) as SA. rewrite (Z.mod_small (byte a)) in SA by lia.
  destruct (has_alignment d a) eqn:E.
  - rewrite (has_alignment_ok p d a G Ha P E) in *. rewrite Z.add_0_r in SA. split; [exact SA|lia].
  - unfold align_data. rewrite N, (align_ok p d a G Ha P N), loc_append. split; [exact SA|lia].
Qed.
Print Assumptions C18_align_with_displacement.

(** The length an alignment space gets. *)
Theorem C18_alignment_space : forall a v, 0 <= byte a < boundary a ->
  (v + alignment_length a v) mod boundary a = byte a /\ 0 <= alignment_length a v < boundary a.
Proof.
  intros a v H. rewrite alignment_length_skip by lia. split; [|apply skip_range; lia].
  rewrite skip_aligned by lia. apply Z.mod_small. lia.
Qed.
Print Assumptions C18_alignment_space.

(** Resolving a space does not move anything. *)
Lemma resolve_total : forall p id len l c r, p id = len -> resolve_parts l id len = Some (c, r) ->
  total p r + len = total p l /\ sumz r + c = sumz l + len.
Proof.
  intros p id len l. induction l as [|[s z] l IH]; intros c r Hp E; cbn [resolve_parts] in E; [discriminate|].
  destruct (Nat.eqb_spec (sid s) id) as [Es|Es].
  - injection E as <- <-. cbn [total sumz]. subst id. lia.
  - destruct (resolve_parts l id len) as [[c' r']|]; [|discriminate]. injection E as <- <-.
    destruct (IH _ _ Hp eq_refl) as [A B]. cbn [total sumz]. lia.
Qed.
Lemma resolve_data_loc : forall p d id len, p id = len -> loc_data p (resolve_data d id len) = loc_data p d.
Proof.
  intros p d id len Hp. unfold resolve_data. destruct (resolve_parts (parts d) id len) as [[c r]|] eqn:E; [|reflexivity].
  destruct (resolve_total p id len _ _ _ Hp E) as [A _]. unfold loc_data. cbn [storage parts]. lia.
Qed.
Lemma drop_before_suffix : forall id l prev all, (exists pre, all = pre ++ prev :: l) ->
  exists pre, all = pre ++ drop_before id prev l all.
Proof.
  intros id l. induction l as [|d l IH]; intros prev all [pre E]; cbn [drop_before]; [now exists []|].
  destruct (starts_with id d); [now exists pre|]. apply IH. exists (pre ++ [prev]). rewrite <- app_assoc. exact E.
Qed.
Theorem C18_resolution_moves_nothing : forall p l s len, p (sid s) = len ->
  loc p (loctr_resolve l s len) = loc p l /\
  forall d', In d' (entries (loctr_resolve l s len)) -> exists d, In d (entries l) /\ loc_data p d' = loc_data p d.
Proof.
  intros p l s len Hp. unfold loctr_resolve. set (all := rev (curr l :: older l)).
  set (kept := match skind_of s, all with LoctrMax, d :: l' => drop_before (sid s) d l' all | _, _ => all end).
  assert (Suf : exists pre, all = pre ++ kept).
  { unfold kept. destruct (skind_of s); try (now exists []). destruct all as [|d q]; [now exists []|].
    apply drop_before_suffix. now exists []. }
  destruct Suf as [pre Suf].
  assert (E : curr l :: older l = rev kept ++ rev pre).
  { rewrite <- rev_app_distr, <- Suf. unfold all. now rewrite rev_involutive. }
  rewrite <- map_rev. destruct (rev kept) as [|k ks] eqn:EK.
  - cbn [map]. split; [reflexivity|]. intros d' Hd'. exists d'. auto.
  - cbn [app] in E. injection E as E1 E2. cbn [map]. split.
    + unfold loc. cbn [curr]. rewrite resolve_data_loc by assumption. now rewrite E1.
    + intros d' Hd'. change (In d' (map (fun d => resolve_data d (sid s) len) (k :: ks))) in Hd'.
      apply in_map_iff in Hd' as (d & <- & Hd). exists d. split; [|now apply resolve_data_loc].
      destruct Hd as [<-|Hd]; [left; exact E1|right; rewrite E2; apply in_or_app; now left].
Qed.
Print Assumptions C18_resolution_moves_nothing.

(** An area whose length becomes known later is assumed to end on its own boundary; when it does
    not ([DS F,(X)C] with X=1), a following fullword is not aligned. *)
Theorem C18_pending_area_refuted : 
  let p := fun _ => 5 in
  let l1 := fst (register_ordinary (new_loctr true) (mkAl 0 4)) in
  exists l2, exec p l1 (Reserve 0 (mkAl 0 4)) l2 /\ loc p l2 = 5.
Proof.
  eexists. split; [eapply XReserve; [reflexivity|discriminate]|reflexivity].
Qed.
Print Assumptions C18_pending_area_refuted.

(** After an alignment space with a displacement the displacement is forgotten. *)
Theorem C18_displaced_space_refuted :
  let p := fun i => match i with 0%nat => 1 | _ => 1 end in
  let l1 := fst (register_ordinary (new_loctr true) no_align) in
  exists l2 l3, exec p l1 (Reserve 0 (mkAl 2 4)) l2 /\ exec p l2 (Reserve 0 (mkAl 0 4)) l3 /\
    loc p l2 = 2 /\ loc p l3 = 2.
Proof.
  eexists. eexists. split; [|split].
  - eapply XReserve; [reflexivity|]. intros s E. injection E as <-. reflexivity.
  - eapply XReserve; [reflexivity|discriminate].
  - split; reflexivity.
Qed.
Print Assumptions C18_displaced_space_refuted.

Definition p8 : lengths := fun _ => 7.
Example C18_ex : exists l', exec p8 l_b (Reserve 3 (mkAl 0 8)) l' /\ loc p8 l_b = 17 /\ loc p8 l' = 27.
Proof.
  eexists. split; [eapply XReserve; [reflexivity|]; intros s E; injection E as <-; reflexivity|]. split; reflexivity.
Qed.
