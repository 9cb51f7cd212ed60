(** Proofs about the copy nests of a macro definition. *)
From Coq Require Import String.
From Coq Require Import List NArith ZArith Bool Lia.
From Coq Require Import ZifyBool ZifyNat ZifyN.
From Verif Require Import Common Stk_Model Stk_Spec Stk_Proof Stk_Frames.
Import ListNotations.
Open Scope nat_scope.

(** the same activation, further on *)
Definition same (a b : act) : Prop :=
  match a, b with
  | AText f _, AText g _ => f = g
  | AMember m _, AMember n _ => m = n
  | _, _ => False
  end.
Definition plain (a : act) : Prop := is_macro a = false.
Definition file_of (a : act) : bytes := match a with AText f _ => f | AMember m _ => m_file m | AMacro _ _ => [] end.

Lemma same_trans : forall a b c, same a b -> same b c -> same a c.
Proof. intros [] [] []; cbn; intros; try contradiction; congruence. Qed.
Lemma same_plain : forall a b, same a b -> plain b.
Proof. intros [] []; cbn; intros; try contradiction; reflexivity. Qed.
Lemma same_text : forall a b, same a b -> is_text a = is_text b.
Proof. intros [] []; cbn; intros; try contradiction; reflexivity. Qed.
Lemma same_file : forall a b, same a b -> file_of a = file_of b.
Proof. intros [] []; cbn; intros; try contradiction; congruence. Qed.

Lemma plain_frames : forall a, plain a -> good a -> exists l, frames a = [Frame l (match a with AText _ _ => OPENCODE | _ => COPY end)] /\ l_file l = file_of a.
Proof.
  intros [f p|m [|k]|n k] P [G1 G2]; cbn in P, G1, G2; try discriminate; try lia.
  - eexists. split; reflexivity.
  - cbn [frames]. destruct (nth_error (m_stmts m) k) eqn:Q; [eexists; split; reflexivity|]. apply nth_error_None in Q. lia.
Qed.

(** the statement that is read is the innermost place *)
Lemma next_place : forall p l l' q, wf l -> spec_next p l = Some (l', Some q) -> exists f r, chain l' = f :: r /\ f_loc f = q.
Proof.
  intros p l l' q W E. destruct l as [|[f r|m k|n k] l]; cbn [spec_next] in E; [discriminate| | |].
  - injection E as <- <-. eexists. eexists. split; reflexivity.
  - destruct (nth_error (m_stmts m) k) eqn:Q; [|discriminate]. injection E as <- <-.
    cbn [chain frames]. rewrite Q. eexists. eexists. split; reflexivity.
  - destruct (nth_error n k) as [nest|] eqn:Q; [|discriminate]. injection E as <- <-.
    destruct W as [[_ GN] _]. cbn [chain frames]. rewrite Q.
    destruct nest as [|a nest]; [apply nth_error_In in Q; apply (proj1 (Forall_forall _ _) GN) in Q; congruence|].
    destruct nest as [|b nest] using rev_ind; [eexists; eexists; split; reflexivity|]. clear IHnest.
    rewrite map_app. cbn [map rev]. rewrite !rev_app_distr. cbn [rev app]. eexists. eexists. split; [reflexivity|].
    cbn [f_loc]. rewrite app_comm_cons, last_last. reflexivity.
Qed.

(** the innermost source and the activations *)
Lemma top_source : forall file c x rest s0, inv file c x rest s0 -> match acts x with a :: _ => plain a | [] => False end ->
  exists s r R, sources c = s :: r /\ acts x = text s ++ R /\ oks s.
Proof.
  intros file c x rest s0 H P. pose proof (inv_acts _ _ _ _ _ H) as E. destruct H. destruct rest as [|s rest].
  - rewrite flat_nil in E. destruct (shown c) as [|m ms].
    + exists s0, [], []. inversion iv_oks; subst. rewrite app_nil_r. auto.
    + rewrite E in P. discriminate P.
  - rewrite flat_cons in E. exists s, (rest ++ [s0]), (flat (shown c) rest s0). inversion iv_oks; subst. auto.
Qed.

Lemma without_text_plain : forall xs l, texts xs = 0 -> without_text (xs ++ l) = without_text l.
Proof.
  induction xs as [|a xs IH]; intros l T; [reflexivity|]. destruct a; cbn in T; [discriminate| |]; cbn [app without_text]; apply IH; exact T.
Qed.
Lemma without_text_deep : forall xs l, 0 < texts xs -> without_text (xs ++ l) = without_text xs ++ l /\ S (texts (without_text xs)) = texts xs /\
  (Forall plain xs -> Forall plain (without_text xs)).
Proof.
  induction xs as [|a xs IH]; intros l T; [cbn in T; lia|]. destruct a.
  - cbn [app without_text]. split; [reflexivity|]. split; [reflexivity|]. intros F. inversion F; assumption.
  - destruct (IH l T) as (A & B & C). cbn [app without_text]. split; [exact A|]. split; [exact B|]. intros F. inversion F; auto.
  - destruct (IH l T) as (A & B & C). cbn [app without_text]. split; [exact A|]. split; [exact B|]. intros F. inversion F; auto.
Qed.
Lemma texts_cons : forall a l, texts (a :: l) = (if is_text a then 1 else 0) + texts l.
Proof. intros. unfold texts. cbn [filter]. destruct (is_text a); reflexivity. Qed.
Lemma without_text_same : forall a b r, same a b -> without_text (a :: r) = without_text (b :: r).
Proof. intros [] []; cbn; intros; try contradiction; reflexivity. Qed.
Lemma opened_split : forall cs f p R xs b r, opened cs f p ++ R = xs ++ b :: r -> texts xs = 0 -> Forall plain xs ->
  exists cs1 cs2, cs = cs1 ++ cs2 /\ xs = map act_i cs1 /\ opened cs2 f p ++ R = b :: r.
Proof.
  induction cs as [|i cs IH]; intros f p R xs b r E T P.
  - destruct xs as [|a xs]; [exists [], []; auto|]. cbn in E. injection E as <- E. cbn in T. discriminate.
  - destruct xs as [|a xs]; [exists [], (i :: cs); auto|]. unfold opened in E. cbn [map app] in E. injection E as <- E.
    inversion P; subst. destruct (IH f p R xs b r E T ltac:(assumption)) as (c1 & c2 & A & B & C).
    exists (i :: c1), c2. subst. auto.
Qed.

(** [b]: the activation with the MACRO statement; [n0] members were there *)
Record during (file : bytes) (level : nat) (b : act) (r : list act) (n0 : nat) (c : ctx) (x : sp) (d : defining) : Prop := {
  dr_inv : exists rest s0, inv file c x rest s0;
  dr_level : texts (b :: r) = level;
  dr_d : d_initial d = n0 /\ d_file d = file_of b;
  dr_n0 : n0 + 1 + List.length (without_text (b :: r)) = List.length (b :: r);
  dr_acts : exists xs b', acts x = xs ++ b' :: r /\ same b b' /\ Forall plain xs /\
                          map f_loc (frames b') = [Loc (d_outer d) (d_file d)] }.

Lemma out_members : forall l, okc l -> Forall good (map act_i l) ->
  map f_loc (out_frames (map act_i l)) = map place_i (rev l).
Proof.
  intros l O G. unfold out_frames. rewrite <- map_rev.
  destruct (copies_frames (rev l)) as [_ E].
  - apply Forall_rev. exact O.
  - rewrite map_rev. apply Forall_rev. exact G.
  - rewrite E, map_map. reflexivity.
Qed.

Lemma define_ok : forall file c x d b r n0 xs b' l,
  (exists rest s0, inv file c x rest s0) -> at_stmt (acts x) ->
  d_initial d = n0 /\ d_file d = file_of b -> n0 + 1 + List.length (without_text (b :: r)) = List.length (b :: r) ->
  acts x = xs ++ b' :: r -> same b b' -> Forall plain xs -> texts xs = 0 ->
  (exists f r', chain (acts x) = f :: r' /\ f_loc f = l) ->
  (xs <> [] -> map f_loc (frames b') = [Loc (d_outer d) (d_file d)]) ->
  exists d2, define l c d = Some d2 /\ d_initial d2 = d_initial d /\ d_file d2 = d_file d /\
    d_nests d2 = d_nests d ++ [places (xs ++ [b'])] /\ map f_loc (frames b') = [Loc (d_outer d2) (d_file d2)].
Proof.
  intros file c x d b r n0 xs b' l (rest & s0 & IV) AT [DI DF] N0 AC SM PL T0 CH OUT.
  assert (PH : match acts x with a :: _ => plain a | [] => False end).
  { rewrite AC. destruct xs as [|a xs]; [apply (same_plain _ _ SM)|]. inversion PL; assumption. }
  destruct (top_source _ _ _ _ _ IV PH) as (s & rs & R & SR & AR & OK).
  pose proof (wf_all _ (iv_wf _ _ _ _ _ IV) AT) as G.
  destruct (opened_split (s_copies s) (s_file s) (s_pos s) R xs b' r) as (c1 & c2 & E1 & E2 & E3); [unfold text in AR; congruence|assumption|assumption|].
  assert (L2 : List.length c2 = n0).
  { pose proof (f_equal without_text E3) as WT. rewrite without_text_opened, <- (without_text_same _ _ r SM) in WT.
    pose proof (f_equal (@List.length act) E3) as LL. unfold opened in LL. rewrite !app_length, map_length in LL. cbn [List.length] in *.
    rewrite <- WT in N0. lia. }
  unfold define. rewrite SR. unfold oks in OK. rewrite E1 in OK. apply Forall_app in OK. destruct OK as [O1 O2].
  rewrite AC in G. apply Forall_app in G. destruct G as [G1 G2]. 
  assert (SK : skipn (d_initial d) (rev (s_copies s)) = rev c1).
  { rewrite DI, E1, rev_app_distr, <- L2, <- (rev_length c2), skipn_app, skipn_all, Nat.sub_diag. reflexivity. }
  rewrite SK. rewrite E2 in G1. destruct (copies_frames (rev c1)) as [EC _].
  { apply Forall_rev. exact O1. }
  { rewrite map_rev. apply Forall_rev. exact G1. }
  rewrite EC. cbn [bind]. eexists. split; [reflexivity|]. cbn [d_initial d_file d_nests d_outer].
  split; [reflexivity|]. split; [reflexivity|].
  set (outer := if List.length (s_copies s) =? d_initial d then l_pos l else d_outer d).
  assert (FB : map f_loc (frames b') = [Loc outer (d_file d)]).
  { assert (GB' : good b') by (inversion G2; assumption).
    destruct (plain_frames b' (same_plain _ _ SM) GB') as (q & Q1 & Q2).
    unfold outer. destruct xs as [|a xs].
    - destruct c1; [|discriminate]. rewrite E1. cbn [app]. rewrite L2, DI, Nat.eqb_refl.
      destruct CH as (f & r' & C1 & C2). rewrite AC in C1. cbn [app chain] in C1. rewrite Q1 in C1. cbn in C1. injection C1 as <- _.
      cbn in C2. rewrite Q1. cbn. subst l. rewrite DF, (same_file _ _ SM), <- Q2. destruct q; reflexivity.
    - destruct c1 as [|i c1]; [discriminate|]. rewrite E1, app_length, L2, DI. cbn [List.length].
      replace (S (List.length c1) + n0 =? n0) with false by (symmetry; apply Nat.eqb_neq; lia). apply OUT. discriminate. }
  split; [|exact FB]. f_equal. f_equal. unfold places. rewrite rev_chain, out_app, map_app.
  assert (OB : out_frames [b'] = frames b') by (unfold out_frames; cbn; apply app_nil_r).
  rewrite OB, FB, E2, (out_members c1 O1 G1). reflexivity.
Qed.

Lemma step_sound : forall file c x rest s0 o c' x' l l', inv file c x rest s0 -> legal o x ->
  step o c = Some (c', l) -> spec_step o x = Some (x', l') ->
  l = l' /\ (exists rest' s0', inv file c' x' rest' s0') /\ (l <> None -> at_stmt (acts x')).
Proof.
  intros file c x rest s0 o c' x' l l' IV LG S1 S2.
  destruct (step_ok _ _ _ _ _ _ IV LG) as (c1 & x1 & l1 & r1 & s1 & E1 & E2 & IV' & A).
  rewrite S1 in E1. rewrite S2 in E2. injection E1 as <- <-. injection E2 as <- <-.
  split; [reflexivity|]. split; [exists r1, s1; exact IV'|exact A].
Qed.

(** what reading the next statement does to the activations above [r] *)
Lemma next_above : forall p xs b r l' o, spec_next p (xs ++ b :: r) = Some (l', o) -> plain b -> Forall plain xs ->
  List.length r < List.length l' ->
  exists xs' b', l' = xs' ++ b' :: r /\ same b b' /\ Forall plain xs' /\ (xs <> [] -> b' = b) /\ (xs = [] -> xs' = []) /\
    texts xs' = texts xs.
Proof.
  intros p xs b r l' o E PB PX LT. destruct xs as [|a xs].
  - cbn [app] in E. destruct b as [f q|m k|n k]; cbn [spec_next] in E; [| |discriminate PB].
    + injection E as <- <-. exists [], (AText f p). cbn. repeat split; auto; try congruence.
    + destruct (nth_error (m_stmts m) k); injection E as <- <-; [|lia].
      exists [], (AMember m (S k)). cbn. repeat split; auto; try congruence.
  - inversion PX as [|? ? PA PX']; subst. cbn [app] in E. destruct a as [f q|m k|n k]; cbn [spec_next] in E; [| |discriminate PA].
    + injection E as <- <-. exists (AText f p :: xs), b. split; [reflexivity|]. split; [destruct b; cbn; auto; discriminate PB|].
      split; [constructor; assumption|]. split; [reflexivity|]. split; [discriminate|]. reflexivity.
    + destruct (nth_error (m_stmts m) k); injection E as <- <-.
      * exists (AMember m (S k) :: xs), b. split; [reflexivity|]. split; [destruct b; cbn; auto; discriminate PB|].
        split; [constructor; assumption|]. split; [reflexivity|]. split; [discriminate|]. reflexivity.
      * exists xs, b. split; [reflexivity|]. split; [destruct b; cbn; auto; discriminate PB|].
        split; [assumption|]. split; [reflexivity|]. split; [discriminate|]. reflexivity.
Qed.

Lemma entered_split : forall xs b r, entered (List.length r) (xs ++ b :: r) = xs ++ [b].
Proof.
  intros. unfold entered. rewrite app_length. cbn [List.length].
  replace (List.length xs + S (List.length r) - List.length r) with (List.length (xs ++ [b])) by (rewrite app_length; cbn; lia).
  change (b :: r) with ([b] ++ r). rewrite app_assoc. rewrite firstn_app, Nat.sub_diag, firstn_all, firstn_O, app_nil_r. reflexivity.
Qed.

Lemma body_during : forall file level b r n0 c x d c1 x1 d1 e,
  (exists rest s0, inv file c x rest s0) -> texts (b :: r) = level ->
  d_initial d = n0 /\ d_file d = file_of b -> n0 + 1 + List.length (without_text (b :: r)) = List.length (b :: r) ->
  (exists b', acts x = b' :: r /\ same b b') -> d_nests d = [] ->
  body level (List.length r) c x d c1 x1 d1 e -> during file level b r n0 c1 x1 d1 /\ d_nests d1 = e.
Proof.
  intros file level b r n0 c x d c1 x1 d1 e IV0 LV DD N0 A0 DN H.
  induction H as [p c2 x2 d2 l l' S1 S2 DF LT|c1 x1 d1 e p c2 x2 d2 l l' H IH TX S1 S2 DF LT|c1 x1 d1 e o c2 x2 l l' H IH OP LG S1 S2 LE LT].
  - destruct IV0 as (rest & s0 & IV). destruct A0 as (b' & A0 & SM).
    destruct (step_sound _ _ _ _ _ (Next p) _ _ _ _ IV Logic.I S1 S2) as (EL & IV2 & AT). subst l'.
    rewrite spec_step_next in S2. destruct (spec_next p (acts x)) as [[la oa]|] eqn:SN; [|discriminate]. injection S2 as <- ->.
    pose proof (next_place _ _ _ _ (iv_wf _ _ _ _ _ IV) SN) as CH. rewrite A0 in SN. cbn [acts] in *.
    destruct (next_above p [] b' r la (Some l) SN (same_plain _ _ SM) (Forall_nil _) LT) as (xs & b2 & E & SM2 & PL & _ & XN & TT).
    rewrite (XN eq_refl) in *. cbn [app] in E.
    assert (SB : same b b2) by (apply (same_trans _ _ _ SM SM2)).
    destruct (define_ok file c2 _ d b r n0 [] b2 l IV2 (AT ltac:(discriminate)) DD N0 E SB PL eq_refl CH ltac:(congruence)) as (d3 & D1 & D2 & D3 & D4 & D5).
    rewrite DF in D1. injection D1 as <-. split.
    + constructor; try assumption; [destruct DD; split; congruence|]. exists [], b2. auto.
    + rewrite D4, DN. cbn [app]. rewrite E. change (b2 :: r) with ([] ++ b2 :: r) at 1. rewrite entered_split. reflexivity.
  - destruct IH as [IH NE]. destruct IH as [(rest & s0 & IV) _ DD1 _ (xs & b' & AC & SM & PL & FB)].
    destruct (step_sound _ _ _ _ _ (Next p) _ _ _ _ IV Logic.I S1 S2) as (EL & IV2 & AT). subst l'.
    rewrite spec_step_next in S2. destruct (spec_next p (acts x1)) as [[la oa]|] eqn:SN; [|discriminate]. injection S2 as <- ->.
    pose proof (next_place _ _ _ _ (iv_wf _ _ _ _ _ IV) SN) as CH. rewrite AC in SN. cbn [acts] in *.
    destruct (next_above p xs b' r la (Some l) SN (same_plain _ _ SM) PL LT) as (xs2 & b2 & E & SM2 & PL2 & XB & XN & TT).
    assert (SB : same b b2) by (apply (same_trans _ _ _ SM SM2)).
    assert (T0 : texts xs2 = 0).
    { rewrite AC, texts_app in TX. rewrite texts_cons in TX, LV. rewrite (same_text _ _ SM) in LV.
      lia. }
    destruct (define_ok file c2 _ d1 b r n0 xs2 b2 l IV2 (AT ltac:(discriminate)) DD1 N0 E SB PL2 T0 CH) as (d3 & D1 & D2 & D3 & D4 & D5).
    { intros N2. destruct xs as [|a xs]; [rewrite (XN eq_refl) in N2; congruence|]. rewrite (XB ltac:(discriminate)). exact FB. }
    rewrite DF in D1. injection D1 as <-. split.
    + constructor; try assumption; [destruct DD1; split; congruence|]. exists xs2, b2. auto.
    + rewrite D4, NE, E, entered_split. reflexivity.
  - destruct IH as [IH NE]. split; [|exact NE]. destruct IH as [(rest & s0 & IV) _ DD1 _ (xs & b' & AC & SM & PL & FB)].
    destruct (step_sound _ _ _ _ _ _ _ _ _ _ IV LG S1 S2) as (EL & IV2 & AT). subst l'.
    assert (TX : texts xs + level = texts (acts x1)).
    { rewrite AC, texts_app. rewrite texts_cons in LV. rewrite texts_cons, <- (same_text _ _ SM). lia. }
    constructor; try assumption.
    destruct o; try contradiction; cbn [spec_step] in S2.
    + change (spec_step (Next p) x1 = Some (x2, l)) in S2.
      rewrite spec_step_next in S2. destruct (spec_next p (acts x1)) as [[la oa]|] eqn:SN; [|discriminate]. injection S2 as <- ->.
      rewrite AC in SN. cbn [acts] in *.
      destruct (next_above p xs b' r la l SN (same_plain _ _ SM) PL LT) as (xs2 & b2 & E & SM2 & PL2 & XB & XN & TT).
      exists xs2, b2. split; [exact E|]. split; [apply (same_trans _ _ _ SM SM2)|]. split; [exact PL2|].
      destruct xs as [|a xs]; [|rewrite (XB ltac:(discriminate)); exact FB]. exfalso.
      destruct OP as [->|OP]; [|cbn in TX; lia].
      cbn [app] in SN. destruct b' as [f q|m k|n k]; cbn [spec_next] in SN; [discriminate| |destruct b; contradiction].
      destruct (nth_error (m_stmts m) k); [discriminate|]. injection SN as <-. lia.
    + injection S2 as <- <-. cbn [acts]. exists (AMember m 0 :: xs), b'. split; [rewrite AC; reflexivity|]. split; [exact SM|].
      split; [constructor; [reflexivity|exact PL]|exact FB].
    + injection S2 as <- <-. cbn [acts]. exists (AText file0 (0%N, 0%N) :: xs), b'. split; [rewrite AC; reflexivity|]. split; [exact SM|].
      split; [constructor; [reflexivity|exact PL]|exact FB].
    + injection S2 as <- <-. cbn [acts] in *.
      destruct (Nat.eq_dec (texts xs) 0) as [Z|NZ].
      * exfalso. rewrite AC, (without_text_plain _ _ Z) in LE.
        assert (texts (without_text (b' :: r)) < level); [|lia].
        rewrite <- LV, <- (without_text_same _ _ r SM).
        assert (0 < texts (b :: r)).
        { cbn [legal] in LG. rewrite <- TX, Z in LG. rewrite LV. lia. }
        destruct (without_text_deep (b :: r) [] ltac:(assumption)) as (_ & W & _). lia.
      * destruct (without_text_deep xs (b' :: r) ltac:(lia)) as (W1 & W2 & W3).
        rewrite AC, W1. exists (without_text xs), b'. auto.
    + injection S2 as <- <-. cbn [acts]. exists xs, b'. auto.
Qed.
