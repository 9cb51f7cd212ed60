(** Proofs about the stacks of sources, members and macros. *)
From Coq Require Import String.
From Coq Require Import List NArith ZArith Bool Lia.
From Coq Require Import ZifyBool ZifyNat ZifyN.
From Verif Require Import Common Stk_Model Stk_Spec.
Import ListNotations.
Open Scope Z_scope.

Definition act_i (i : invo) : act := AMember (i_member i) (Z.to_nat (i_cur i + 1)).
Definition act_m (m : minvo) : act := AMacro (v_nests m) (Z.to_nat (v_cur m + 1)).
Definition opened (copies : list invo) (file : bytes) (p : pos) : list act := map act_i copies ++ [AText file p].
Definition text (s : source) : list act := opened (s_copies s) (s_file s) (s_pos s).
Definition flat (ms : list minvo) (rest : list source) (s0 : source) : list act :=
  flat_map text rest ++ map act_m ms ++ text s0.

(** within the member or macro; at a statement *)
Definition inside (a : act) : Prop :=
  match a with
  | AText _ _ => True
  | AMember m k => (k <= List.length (m_stmts m))%nat
  | AMacro n k => (k <= List.length n)%nat /\ Forall (fun x => x <> []) n
  end.
Definition here (a : act) : Prop :=
  match a with AText _ _ => True | AMember _ k | AMacro _ k => (0 < k)%nat end.
Definition wf (l : list act) : Prop :=
  match l with
  | [] => False
  | a :: r => inside a /\ Forall (fun a => inside a /\ here a) r
  end.
Definition from_start (z : Z) : Prop := -1 <= z.
Definition okc (l : list invo) : Prop := Forall (fun i => from_start (i_cur i)) l.
Definition oks (s : source) : Prop := okc (s_copies s).
Definition okm (l : list minvo) : Prop := Forall (fun m => from_start (v_cur m)) l.
Definition back (a : lookahead) (l : list minvo) : list minvo :=
  match a, l with
  | ORD, m :: ms => Minvo (v_nests m) (v_cur m - 1) :: ms
  | _, ms => ms
  end.
Definition mark_of (file : bytes) (n : snapshot) : list act := opened (n_copies n) file (n_pos n).

Record inv (file : bytes) (c : ctx) (x : sp) (rest : list source) (s0 : source) : Prop := {
  iv_sources : sources c = rest ++ [s0];
  iv_file : s_file s0 = file;
  iv_oks : Forall oks (rest ++ [s0]);
  iv_okm : okm (macros c);
  iv_marks : smarks x = map (mark_of file) (marks c);
  iv_okn : Forall (fun n => okc (n_copies n)) (marks c);
  iv_wfm : Forall wf (smarks x);
  iv_wf : wf (acts x);
  iv_acts : match looking c, saved x with
            | None, None => acts x = flat (macros c) rest s0
            | Some (a, n), Some (a', l) =>
                a = a' /\ acts x = flat [] rest s0 /\ (a = SEQ -> macros c = []) /\
                l = map act_m (back a (macros c)) ++ mark_of file n /\ okm (back a (macros c)) /\ okc (n_copies n) /\ wf l
            | _, _ => False
            end }.

Lemma inv_start : forall file, inv file (start file) (sstart file) [] (Source file (0%N, 0%N) []).
Proof.
  intros file. constructor; cbn; try reflexivity; try constructor; try constructor; auto.
Qed.

(** ** Lists *)
Lemma nth_at : forall A (l : list A) z, 0 <= z -> at_ l z = nth_error l (Z.to_nat z).
Proof. intros A l z H. unfold at_. replace (z <? 0) with false by lia. reflexivity. Qed.
Lemma texts_app : forall a b, texts (a ++ b) = (texts a + texts b)%nat.
Proof. intros. unfold texts. rewrite filter_app, app_length. reflexivity. Qed.
Lemma texts_i : forall l, texts (map act_i l) = 0%nat.
Proof. induction l; [reflexivity|]. exact IHl. Qed.
Lemma texts_m : forall l, texts (map act_m l) = 0%nat.
Proof. induction l; [reflexivity|]. exact IHl. Qed.
Lemma texts_opened : forall l f p, texts (opened l f p) = 1%nat.
Proof. intros. unfold opened. rewrite texts_app, texts_i. reflexivity. Qed.
Lemma texts_flat_map : forall r, texts (flat_map text r) = List.length r.
Proof. induction r; [reflexivity|]. cbn [flat_map List.length]. rewrite texts_app, IHr. unfold text. rewrite texts_opened. reflexivity. Qed.
Lemma texts_flat : forall ms r s, texts (flat ms r s) = S (List.length r).
Proof. intros. unfold flat, text. rewrite !texts_app, texts_m, texts_opened. rewrite texts_flat_map. lia. Qed.
Lemma opened_nil : forall l f p, opened l f p <> [].
Proof. intros l f p H. destruct l; discriminate. Qed.
Lemma without_text_opened : forall l f p r, without_text (opened l f p ++ r) = r.
Proof. induction l; intros; [reflexivity|]. exact (IHl f p r). Qed.
Lemma without_macros_m : forall l r, without_macros (map act_m l ++ r) = without_macros r.
Proof. induction l; intros; [reflexivity|]. exact (IHl r). Qed.
Lemma without_macros_opened : forall l f p, without_macros (opened l f p) = opened l f p.
Proof. destruct l; reflexivity. Qed.
Lemma opened_not_macro : forall l f p r, ~ in_macro (opened l f p ++ r).
Proof. destruct l; intros f p r H; exact H. Qed.
Lemma wf_tail : forall a l, wf (a :: l) -> l <> [] -> wf l.
Proof. intros a [|b l] [_ H] N; [now elim N|]. inversion H; subst. split; tauto. Qed.
Lemma wf_all : forall l, wf l -> at_stmt l -> Forall (fun a => inside a /\ here a) l.
Proof. intros [|a l] H A; [contradiction|]. destruct H as [H1 H2]. constructor; [|exact H2]. split; [exact H1|]. destruct a; exact A. Qed.
Lemma wf_cons : forall a l, inside a -> Forall (fun a => inside a /\ here a) l -> wf (a :: l).
Proof. intros. split; assumption. Qed.
Lemma wf_suffix : forall a b, wf (a ++ b) -> b <> [] -> wf b.
Proof.
  induction a as [|x a IH]; intros b H N; [exact H|]. apply IH; [|exact N]. apply (wf_tail x); [exact H|].
  destruct a; [exact N|discriminate].
Qed.
Lemma all_suffix : forall l, Forall (fun a => inside a /\ here a) l -> l <> [] -> wf l /\ at_stmt l.
Proof.
  intros [|a l] H N; [now elim N|]. inversion H; subst. split; [split; tauto|]. destruct a; cbn in *; tauto.
Qed.
Lemma wf_again : forall l, wf l -> wf (again l).
Proof. intros [|[f p|m k|n k] l] H; [exact H|exact H| |]; destruct H as [H1 H2]; (split; [|exact H2]); cbn in *; intuition lia. Qed.
Lemma again_opened : forall l f p, again (opened l f p) = opened (pred_top l) f p.
Proof.
  intros [|i l] f p; [reflexivity|]. unfold opened. cbn [pred_top map app again act_i i_member i_cur].
  replace (Z.to_nat (i_cur i + 1) - 1)%nat with (Z.to_nat (i_cur i - 1 + 1)) by lia. reflexivity.
Qed.
Lemma again_m : forall l r, l <> [] -> again (map act_m l ++ r) = map act_m (back ORD l) ++ r.
Proof.
  intros [|m l] r N; [now elim N|]. cbn [back map app again act_m v_nests v_cur].
  replace (Z.to_nat (v_cur m + 1) - 1)%nat with (Z.to_nat (v_cur m - 1 + 1)) by lia. reflexivity.
Qed.
Lemma okc_pred : forall l f p r, okc l -> at_stmt (opened l f p ++ r) -> okc (pred_top l).
Proof.
  intros [|i l] f p r H A; [exact H|]. inversion H; subst. constructor; [|assumption].
  cbn in A. unfold from_start in *. cbn. lia.
Qed.

(** ** The steps *)
Lemma copies_at : forall l, okc l -> Forall (fun a => inside a /\ here a) (map act_i l) ->
  each copy_loc l = Some (map (fun i => Loc (nth (Z.to_nat (i_cur i)) (m_stmts (i_member i)) (0%N, 0%N)) (m_file (i_member i))) l) /\
  Forall (fun i => 0 <= i_cur i < Z.of_nat (List.length (m_stmts (i_member i)))) l.
Proof.
  induction l as [|i l IH]; intros H A; [split; constructor|].
  inversion H; subst. inversion A; subst. destruct (IH ltac:(assumption) ltac:(assumption)) as [E F].
  match goal with X : inside _ /\ here _ |- _ => destruct X as [X1 X2] end. cbn [inside here act_i] in X1, X2. unfold from_start in *. cbn beta in *.
  split; [|constructor; [lia|exact F]].
  cbn [each map]. rewrite E. unfold copy_loc at 1. rewrite nth_at by lia.
  rewrite (nth_error_nth' (m_stmts (i_member i)) (0%N, 0%N) (n := Z.to_nat (i_cur i))) by lia. reflexivity.
Qed.

Lemma set_last_flat : forall c s r s', sources c = s :: r -> sources (set_last s' c) = s' :: r.
Proof. intros c s r s' H. unfold set_last. cbn. rewrite H. reflexivity. Qed.

(** what the innermost text gives *)
Definition spec_next (p : pos) (l : list act) : option (list act * option loc) :=
  match l with
  | [] => None
  | AText f _ :: r => Some (AText f p :: r, Some (Loc p f))
  | AMember m k :: r =>
      match nth_error (m_stmts m) k with
      | Some q => Some (AMember m (S k) :: r, Some (Loc q (m_file m)))
      | None => Some (r, None)
      end
  | AMacro n k :: r =>
      match nth_error n k with
      | Some nest => Some (AMacro n (S k) :: r, Some (last nest (Loc (0%N, 0%N) [])))
      | None => Some (r, None)
      end
  end.
Lemma spec_step_next : forall p x, spec_step (Next p) x =
  match spec_next p (acts x) with Some (l, o) => Some (Sp l (saved x) (smarks x), o) | None => None end.
Proof.
  intros p x. unfold spec_step, spec_next. destruct (acts x) as [|[f q|m k|n k] r]; try reflexivity;
    destruct (nth_error _ k); reflexivity.
Qed.

Lemma spec_next_wf : forall p l l' o, wf l -> spec_next p l = Some (l', o) -> l' <> [] -> wf l' /\ (o <> None -> at_stmt l').
Proof.
  intros p l l' o H E N. destruct l as [|[f q|m k|n k] r]; cbn in E; [discriminate| | |].
  - injection E as <- <-. destruct H as [H1 H2]. split; [split; [exact Logic.I|exact H2]|intros _; exact Logic.I].
  - destruct (nth_error (m_stmts m) k) eqn:Q; injection E as <- <-.
    + assert (L : (k < List.length (m_stmts m))%nat) by (apply nth_error_Some; congruence).
      destruct H as [H1 H2]. split; [split; [cbn; lia|exact H2]|intros _; cbn; lia].
    + split; [apply (wf_tail _ _ H N)|congruence].
  - destruct (nth_error n k) eqn:Q; injection E as <- <-.
    + assert (L : (k < List.length n)%nat) by (apply nth_error_Some; congruence).
      destruct H as [H1 H2]. split; [split; [cbn in *; split; [lia|tauto]|exact H2]|intros _; cbn; lia].
    + split; [apply (wf_tail _ _ H N)|congruence].
Qed.

(** the copy provider and the text *)
Lemma text_next : forall p s r c R, sources c = s :: r -> oks s -> wf (text s ++ R) ->
  exists s' o, match s_copies s with [] => open_next p s c | _ => copy_next s c end = Some (set_last s' c, o) /\
    spec_next p (text s ++ R) = Some (text s' ++ R, o) /\ oks s' /\ s_file s' = s_file s.
Proof.
  intros p s r c R E O W. destruct s as [f q cs]. unfold oks in O. cbn [s_copies s_file s_pos] in *.
  unfold text, opened in *. cbn [s_copies s_file s_pos] in *.
  destruct cs as [|i cs].
  - exists (Source f p []), (Some (Loc p f)). repeat split. constructor.
  - cbn [map app] in *. destruct W as [W1 W2]. inversion O; subst. unfold from_start in *.
    cbn [inside act_i] in W1. unfold copy_next. cbn [s_copies s_file s_pos].
    destruct (i_cur i + 1 =? Z.of_nat (List.length (m_stmts (i_member i)))) eqn:Q.
    + exists (Source f q cs), None. split; [reflexivity|]. split; [|split; [assumption|reflexivity]].
      cbn [spec_next act_i]. replace (nth_error (m_stmts (i_member i)) (Z.to_nat (i_cur i + 1))) with (@None pos); [reflexivity|].
      symmetry. apply nth_error_None. lia.
    + exists (Source f q (Invo (i_member i) (i_cur i + 1) :: cs)).
      exists (Some (Loc (nth (Z.to_nat (i_cur i + 1)) (m_stmts (i_member i)) (0%N, 0%N)) (m_file (i_member i)))).
      assert (N : nth_error (m_stmts (i_member i)) (Z.to_nat (i_cur i + 1)) =
                  Some (nth (Z.to_nat (i_cur i + 1)) (m_stmts (i_member i)) (0%N, 0%N))) by (apply nth_error_nth'; lia).
      split.
      { unfold copy_loc. cbn [i_member i_cur]. rewrite nth_at by lia. rewrite N. reflexivity. }
      split.
      { cbn [spec_next act_i]. rewrite N. cbn [map app s_copies s_file s_pos]. unfold act_i at 2. cbn [i_member i_cur].
        replace (Z.to_nat (i_cur i + 1 + 1)) with (S (Z.to_nat (i_cur i + 1))) by lia. reflexivity. }
      split; [|reflexivity]. constructor; [unfold from_start; cbn; lia|assumption].
Qed.

Lemma macro_next_ok : forall p m ms c R, from_start (v_cur m) -> wf (act_m m :: R) ->
  exists ms' o, macro_next m ms c = Some (set_macros ms' c, o) /\
    spec_next p (act_m m :: map act_m ms ++ R) = Some (map act_m ms' ++ R, o) /\
    (okm ms -> okm ms').
Proof.
  intros p m ms c R O [[W1 W2] _]. unfold from_start in O. unfold macro_next.
  destruct (v_cur m + 1 =? Z.of_nat (List.length (v_nests m))) eqn:Q.
  - exists ms, None. split; [reflexivity|]. split; [|auto]. cbn [spec_next act_m].
    replace (nth_error (v_nests m) (Z.to_nat (v_cur m + 1))) with (@None (list loc)); [reflexivity|].
    symmetry. apply nth_error_None. lia.
  - set (nest := nth (Z.to_nat (v_cur m + 1)) (v_nests m) []).
    assert (N : nth_error (v_nests m) (Z.to_nat (v_cur m + 1)) = Some nest) by (apply nth_error_nth'; lia).
    exists (Minvo (v_nests m) (v_cur m + 1) :: ms), (Some (last nest (Loc (0%N, 0%N) []))).
    assert (NE : nest <> []) by (apply (proj1 (Forall_forall _ _) W2); apply (nth_error_In _ _ N)).
    split; [|split].
    + rewrite nth_at by lia. rewrite N. cbn [bind]. unfold last_loc.
      destruct (exists_last NE) as [a [b ->]]. rewrite rev_app_distr, last_last. reflexivity.
    + cbn [spec_next act_m]. rewrite N. cbn [map app]. unfold act_m at 2. cbn [v_nests v_cur].
      replace (Z.to_nat (v_cur m + 1 + 1)) with (S (Z.to_nat (v_cur m + 1))) by lia. reflexivity.
    + intros K. constructor; [unfold from_start; cbn; lia|exact K].
Qed.

Lemma flat_cons : forall ms s rest s0, flat ms (s :: rest) s0 = text s ++ flat ms rest s0.
Proof. intros. unfold flat. cbn [flat_map]. rewrite <- app_assoc. reflexivity. Qed.
Lemma flat_nil : forall ms s0, flat ms [] s0 = map act_m ms ++ text s0.
Proof. reflexivity. Qed.
Lemma flat_ne : forall ms rest s0, flat ms rest s0 <> [].
Proof.
  intros ms rest s0 H. unfold flat in H. apply app_eq_nil in H. destruct H as [_ H]. apply app_eq_nil in H.
  destruct H as [_ H]. exact (opened_nil _ _ _ H).
Qed.
Lemma text_ne : forall s R, text s ++ R <> [].
Proof. intros s R H. apply app_eq_nil in H. exact (opened_nil _ _ _ (proj1 H)). Qed.

(** the innermost source changes *)
Lemma inv_top_text : forall file c x s rest s0 s' o p,
  inv file c x (s :: rest) s0 -> oks s' -> spec_next p (acts x) = Some (text s' ++ match looking c with None => flat (macros c) rest s0 | Some _ => flat [] rest s0 end, o) ->
  inv file (set_last s' c) (Sp (text s' ++ match looking c with None => flat (macros c) rest s0 | Some _ => flat [] rest s0 end) (saved x) (smarks x)) (s' :: rest) s0
  /\ (o <> None -> at_stmt (text s' ++ match looking c with None => flat (macros c) rest s0 | Some _ => flat [] rest s0 end)).
Proof.
  intros file c x s rest s0 s' o p H O E. destruct H.
  destruct (spec_next_wf _ _ _ _ iv_wf0 E (text_ne _ _)) as [W A]. split; [|exact A].
  constructor; cbn [sources macros looking marks set_last acts saved smarks]; try assumption.
  - rewrite iv_sources0. reflexivity.
  - inversion iv_oks0; subst. constructor; assumption.
  - destruct (looking c) as [[a n]|], (saved x) as [[a' l]|]; try contradiction.
    + rewrite flat_cons. tauto.
    + rewrite flat_cons. reflexivity.
Qed.
Lemma inv_top_text0 : forall file c x s0 s' o p,
  inv file c x [] s0 -> oks s' -> s_file s' = s_file s0 -> acts x = text s0 ->
  spec_next p (acts x) = Some (text s', o) -> (looking c = None -> macros c = []) ->
  inv file (set_last s' c) (Sp (text s') (saved x) (smarks x)) [] s' /\ (o <> None -> at_stmt (text s')).
Proof.
  intros file c x s0 s' o p H O F E1 E M. destruct H.
  assert (NE : text s' <> []) by apply opened_nil.
  destruct (spec_next_wf _ _ _ _ iv_wf0 E NE) as [W A]. split; [|exact A].
  constructor; cbn [sources macros looking marks set_last acts saved smarks]; try assumption.
  - rewrite iv_sources0. reflexivity.
  - congruence.
  - constructor; [assumption|constructor].
  - destruct (looking c) as [[a n]|] eqn:L, (saved x) as [[a' l]|]; try contradiction.
    + rewrite flat_nil. cbn [map app]. tauto.
    + rewrite (M eq_refl). reflexivity.
Qed.

Lemma next_ok : forall file c x rest s0 p, inv file c x rest s0 ->
  exists c' x' l rest' s0', step (Next p) c = Some (c', l) /\ spec_step (Next p) x = Some (x', l) /\
    inv file c' x' rest' s0' /\ (l <> None -> at_stmt (acts x')) /\ List.length rest' = List.length rest.
Proof.
  intros file c x rest s0 p H. pose proof H as K. destruct H. rewrite spec_step_next.
  destruct rest as [|s rest].
  - cbn [app] in iv_sources0. unfold step, next. rewrite iv_sources0.
    inversion iv_oks0 as [|? ? O1 O2]; subst.
    assert (TXT : acts x = text s0 -> (looking c = None -> macros c = []) ->
      exists c' x' l rest' s0',
        match s_copies s0 with [] => open_next p s0 c | _ :: _ => copy_next s0 c end = Some (c', l) /\
        match spec_next p (acts x) with Some (l0, o) => Some (Sp l0 (saved x) (smarks x), o) | None => None end = Some (x', l) /\
        inv (s_file s0) c' x' rest' s0' /\ (l <> None -> at_stmt (acts x')) /\ List.length rest' = 0%nat).
    { intros E M. destruct (text_next p s0 [] c [] iv_sources0 O1) as (s' & o & P1 & P2 & P3 & P4).
      { rewrite app_nil_r, <- E. exact iv_wf0. }
      rewrite !app_nil_r in P2. rewrite <- E in P2.
      destruct (inv_top_text0 _ _ _ _ s' o p K P3 P4 E P2 M) as [Q1 Q2].
      exists (set_last s' c), (Sp (text s') (saved x) (smarks x)), o, [], s'.
      rewrite P2. split; [exact P1|]. split; [reflexivity|]. split; [exact Q1|]. split; [exact Q2|reflexivity]. }
    unfold attr_lookahead_active. destruct (looking c) as [[a n]|] eqn:L.
    + destruct (saved x) as [[a' l]|] eqn:SV; [|contradiction]. destruct iv_acts0 as (-> & E & M & _).
      assert (E' : acts x = text s0) by exact E.
      destruct (TXT E' ltac:(discriminate)) as (c' & x' & l' & r' & s' & T).
      exists c', x', l', r', s'. rewrite <- L in *. destruct a'; [exact T|]. rewrite (M eq_refl). exact T.
    + destruct (saved x) as [[a' l]|] eqn:SV; [contradiction|]. rewrite flat_nil in iv_acts0.
      destruct (macros c) as [|m ms] eqn:MC.
      * destruct (TXT iv_acts0 ltac:(reflexivity)) as (c' & x' & l' & r' & s' & T).
        exists c', x', l', r', s'. exact T.
      * cbn [map app] in iv_acts0. inversion iv_okm0 as [|? ? B1 B2]; subst.
        destruct (macro_next_ok p m ms c (text s0) B1) as (ms' & o & P1 & P2 & P3).
        { rewrite iv_acts0 in iv_wf0. destruct iv_wf0 as [W1 W2]. split; [exact W1|].
          apply Forall_app in W2. tauto. }
        rewrite <- iv_acts0 in P2.
        exists (set_macros ms' c), (Sp (map act_m ms' ++ text s0) None (smarks x)), o, [], s0.
        rewrite P2. split; [exact P1|]. split; [reflexivity|].
        assert (NE : map act_m ms' ++ text s0 <> []).
        { intros Z. apply app_eq_nil in Z. exact (opened_nil _ _ _ (proj2 Z)). }
        destruct (spec_next_wf _ _ _ _ iv_wf0 P2 NE) as [W A].
        split; [|split; [exact A|reflexivity]].
        constructor; cbn [sources macros looking marks set_macros acts saved smarks]; try assumption; auto.
        rewrite L. reflexivity.
  - cbn [app] in iv_sources0. unfold step, next. rewrite iv_sources0.
    inversion iv_oks0 as [|? ? O1 O2]; subst.
    set (R := match looking c with None => flat (macros c) rest s0 | Some _ => flat [] rest s0 end).
    assert (E : acts x = text s ++ R).
    { unfold R. destruct (looking c) as [[a n]|], (saved x) as [[a' l]|]; try contradiction.
      - destruct iv_acts0 as (_ & E & _). rewrite E. apply flat_cons.
      - rewrite iv_acts0. apply flat_cons. }
    destruct (text_next p s (rest ++ [s0]) c R iv_sources0 O1) as (s' & o & P1 & P2 & P3 & P4).
    { rewrite <- E. exact iv_wf0. }
    rewrite <- E in P2. destruct (inv_top_text _ _ _ _ _ _ s' o p K P3 P2) as [Q1 Q2].
    exists (set_last s' c), (Sp (text s' ++ R) (saved x) (smarks x)), o, (s' :: rest), s0.
    rewrite P2. split; [|split; [reflexivity|split; [exact Q1|split; [exact Q2|reflexivity]]]].
    destruct (rest ++ [s0]) eqn:RR; [destruct rest; discriminate|]. exact P1.
Qed.

Lemma inv_texts : forall file c x rest s0, inv file c x rest s0 -> texts (acts x) = S (List.length rest).
Proof.
  intros file c x rest s0 []. destruct (looking c) as [[a n]|], (saved x) as [[a' l]|]; try contradiction.
  - destruct iv_acts0 as (_ & E & _). rewrite E. apply texts_flat.
  - rewrite iv_acts0. apply texts_flat.
Qed.
Definition shown (c : ctx) : list minvo := match looking c with Some _ => [] | None => macros c end.
Lemma inv_acts : forall file c x rest s0, inv file c x rest s0 -> acts x = flat (shown c) rest s0.
Proof.
  intros file c x rest s0 []. unfold shown. destruct (looking c) as [[a n]|], (saved x) as [[a' l]|]; try contradiction; tauto.
Qed.
Lemma inv_saved : forall file c x rest s0, inv file c x rest s0 -> saved x = None -> looking c = None.
Proof.
  intros file c x rest s0 [] E. rewrite E in *. destruct (looking c) as [[a n]|]; [contradiction|reflexivity].
Qed.
Lemma not_in_macro : forall ms s0 , ~ in_macro (flat ms [] s0) -> ms = [].
Proof. intros [|m ms] s0 H; [reflexivity|]. elim H. exact Logic.I. Qed.
Lemma wf_mark : forall l f p, wf (opened l f p) -> at_stmt (opened l f p) -> wf (opened (pred_top l) f p).
Proof. intros. rewrite <- again_opened. apply wf_again. assumption. Qed.

Lemma source_top : forall rest (s0 : source), exists s r, rest ++ [s0] = s :: r /\ (r = [] -> rest = [] /\ s = s0).
Proof.
  intros [|s rest] s0; [exists s0, []; auto|]. exists s, (rest ++ [s0]). split; [reflexivity|].
  intros H. destruct rest; discriminate.
Qed.

Lemma step_ok : forall file c x rest s0 o, inv file c x rest s0 -> legal o x ->
  exists c' x' l rest' s0', step o c = Some (c', l) /\ spec_step o x = Some (x', l) /\
    inv file c' x' rest' s0' /\ (l <> None -> at_stmt (acts x')).
Proof.
  intros file c x rest s0 o H LG.
  pose proof (inv_texts _ _ _ _ _ H) as TX. pose proof (inv_acts _ _ _ _ _ H) as AC.
  destruct o; cbn [legal] in LG.
  - destruct (next_ok file c x rest s0 p H) as (c' & x' & l & r' & s' & A & B & C & D & _).
    exists c', x', l, r', s'. exact (conj A (conj B (conj C D))).
  - (* EnterCopy *)
    destruct LG as [AT NM]. pose proof H as K. destruct H.
    destruct rest as [|s rest].
    + rewrite AC in NM. pose proof (not_in_macro _ _ NM) as SH.
      set (s' := Source (s_file s0) (s_pos s0) (Invo m (-1) :: s_copies s0)).
      exists (set_last s' c), (Sp (AMember m 0 :: acts x) (saved x) (smarks x)), None, [], s'.
      cbn [app] in iv_sources0. unfold step. rewrite iv_sources0.
      split; [reflexivity|]. split; [reflexivity|]. split; [|congruence].
      constructor; cbn [sources macros looking marks set_last acts saved smarks]; try assumption.
      * rewrite iv_sources0. reflexivity.
      * inversion iv_oks0; subst. constructor; [|constructor]. constructor; [unfold from_start; cbn; lia|assumption].
      * split; [cbn; lia|]. apply wf_all; assumption.
      * unfold shown in SH. destruct (looking c) as [[a n]|], (saved x) as [[a' l]|]; try contradiction.
        -- destruct iv_acts0 as (A1 & A2 & A3). rewrite A2. split; [exact A1|]. split; [reflexivity|exact A3].
        -- rewrite iv_acts0, SH. reflexivity.
    + set (s' := Source (s_file s) (s_pos s) (Invo m (-1) :: s_copies s)).
      exists (set_last s' c), (Sp (AMember m 0 :: acts x) (saved x) (smarks x)), None, (s' :: rest), s0.
      cbn [app] in iv_sources0. unfold step. rewrite iv_sources0.
      split; [reflexivity|]. split; [reflexivity|]. split; [|congruence].
      constructor; cbn [sources macros looking marks set_last acts saved smarks]; try assumption.
      * rewrite iv_sources0. reflexivity.
      * inversion iv_oks0; subst. constructor; [|assumption]. constructor; [unfold from_start; cbn; lia|assumption].
      * split; [cbn; lia|]. apply wf_all; assumption.
      * destruct (looking c) as [[a n]|], (saved x) as [[a' l]|]; try contradiction.
        -- destruct iv_acts0 as (A1 & A2 & A3). rewrite A2, !flat_cons. split; [exact A1|]. split; [reflexivity|exact A3].
        -- rewrite iv_acts0, !flat_cons. reflexivity.
  - (* EnterMacro *)
    destruct LG as (AT & T1 & SV & NN). assert (rest = []) by (destruct rest; [reflexivity|cbn in TX; lia]). subst rest.
    pose proof (inv_saved _ _ _ _ _ H SV) as LK. pose proof H as K. destruct H.
    exists (set_macros (Minvo nests (-1) :: macros c) c), (Sp (AMacro nests 0 :: acts x) (saved x) (smarks x)), None, [], s0.
    cbn [app] in iv_sources0. unfold step. rewrite iv_sources0.
    split; [reflexivity|]. split; [reflexivity|]. split; [|congruence].
    constructor; cbn [sources macros looking marks set_macros acts saved smarks]; try assumption.
    + constructor; [unfold from_start; cbn; lia|assumption].
    + split; [cbn; split; [lia|exact NN]|]. apply wf_all; assumption.
    + rewrite LK in *. rewrite SV in *. rewrite iv_acts0. reflexivity.
  - (* PushSource *)
    pose proof H as K. destruct H. destruct (source_top rest s0) as (s & r & ST & _).
    exists (Ctx (Source file0 (0%N, 0%N) [] :: sources c) (macros c) (looking c) (marks c)),
      (Sp (AText file0 (0%N, 0%N) :: acts x) (saved x) (smarks x)), None, (Source file0 (0%N, 0%N) [] :: rest), s0.
    unfold step. rewrite iv_sources0, ST.
    split; [reflexivity|]. split; [reflexivity|]. split; [|congruence].
    constructor; cbn [sources macros looking marks acts saved smarks]; try assumption.
    + cbn [app]. rewrite ST. reflexivity.
    + constructor; [constructor|assumption].
    + split; [exact Logic.I|]. apply wf_all; assumption.
    + destruct (looking c) as [[a n]|], (saved x) as [[a' l]|]; try contradiction.
      * destruct iv_acts0 as (A1 & A2 & A3). rewrite A2, !flat_cons. split; [exact A1|]. split; [reflexivity|exact A3].
      * rewrite iv_acts0, !flat_cons. reflexivity.
  - (* PopSource *)
    destruct rest as [|s rest]; [cbn in TX; lia|]. pose proof H as K. destruct H.
    exists (Ctx (rest ++ [s0]) (macros c) (looking c) (marks c)),
      (Sp (without_text (acts x)) (saved x) (smarks x)), None, rest, s0.
    unfold step. rewrite iv_sources0. cbn [app].
    split; [reflexivity|]. split; [reflexivity|]. split; [|congruence].
    rewrite AC, flat_cons. unfold text at 1. rewrite without_text_opened.
    constructor; cbn [sources macros looking marks acts saved smarks]; try assumption.
    + reflexivity.
    + inversion iv_oks0; subst. assumption.
    + rewrite AC, flat_cons in iv_wf0. apply (wf_suffix _ _ iv_wf0). apply flat_ne.
    + unfold shown in *. destruct (looking c) as [[a n]|], (saved x) as [[a' l]|]; try contradiction.
      * tauto.
      * reflexivity.
  - (* BranchMacro *)
    destruct LG as (n & d & r & E & D & KN). rewrite E in AC.
    assert (rest = [] /\ exists m ms, shown c = m :: ms) as [-> (m & ms & SH)].
    { destruct rest as [|s rest].
      - split; [reflexivity|]. destruct (shown c) as [|m ms]; [|eauto].
        exfalso. apply (opened_not_macro (s_copies s0) (s_file s0) (s_pos s0) []). rewrite app_nil_r.
        unfold flat in AC. cbn [flat_map map app] in AC. unfold text in AC. rewrite <- AC. exact Logic.I.
      - exfalso. rewrite flat_cons in AC. apply (opened_not_macro (s_copies s) (s_file s) (s_pos s) (flat (shown c) rest s0)).
        unfold text in AC. rewrite <- AC. exact Logic.I. }
    rewrite SH, flat_nil in AC. cbn [map app] in AC. injection AC as -> -> ->.
    assert (LK : looking c = None) by (unfold shown in SH; destruct (looking c); [discriminate|reflexivity]).
    unfold shown in SH. rewrite LK in SH. pose proof H as K. destruct H.
    exists (set_macros (Minvo (v_nests m) (Z.of_nat k - 1) :: ms) c),
      (Sp (AMacro (v_nests m) k :: map act_m ms ++ text s0) (saved x) (smarks x)), None, [], s0.
    cbn [app] in iv_sources0. unfold step, spec_step. rewrite iv_sources0, SH, E.
    split; [reflexivity|]. split; [reflexivity|]. split; [|congruence].
    rewrite SH in iv_okm0. inversion iv_okm0; subst.
    constructor; cbn [sources macros looking marks set_macros acts saved smarks]; try assumption; try reflexivity.
    + constructor; [unfold from_start; cbn; lia|assumption].
    + rewrite E in iv_wf0. destruct iv_wf0 as [[W0 W1] W2]. split; [|exact W2]. split; [lia|exact W1].
    + rewrite LK in *. destruct (saved x) as [[a' l]|]; [contradiction|]. rewrite flat_nil. cbn [map app].
      unfold act_m at 2. cbn [v_nests v_cur]. replace (Z.to_nat (Z.of_nat k - 1 + 1)) with k by lia. reflexivity.
  - (* Mark *)
    destruct LG as (AT & NM & T1). assert (rest = []) by (destruct rest; [reflexivity|cbn in TX; lia]). subst rest.
    rewrite AC in NM. pose proof (not_in_macro _ _ NM) as SH. rewrite SH, flat_nil in AC. cbn [map app] in AC.
    pose proof H as K. destruct H.
    assert (BS : begin_snapshot (attr_lookahead_active c) s0 c = create_snapshot s0).
    { unfold begin_snapshot, attr_lookahead_active. unfold shown in SH.
      destruct (looking c) as [[[|] n]|], (saved x) as [[a' l]|]; try contradiction; [reflexivity| |rewrite SH; reflexivity].
      destruct iv_acts0 as (_ & _ & M & _). rewrite (M eq_refl). reflexivity. }
    exists (Ctx (sources c) (macros c) (looking c) (create_snapshot s0 :: marks c)),
      (Sp (acts x) (saved x) (again (acts x) :: smarks x)), None, [], s0.
    cbn [app] in iv_sources0. unfold step. rewrite iv_sources0, BS.
    split; [reflexivity|]. split; [reflexivity|]. split; [|congruence].
    rewrite AC in AT.
    constructor; cbn [sources macros looking marks acts saved smarks]; try assumption; try reflexivity.
    + cbn [map]. rewrite AC, iv_marks0. unfold text. rewrite again_opened, iv_file0. reflexivity.
    + constructor; [|assumption]. inversion iv_oks0; subst. cbn [n_copies create_snapshot].
      apply (okc_pred _ (s_file s0) (s_pos s0) []); [assumption|]. rewrite app_nil_r. exact AT.
    + constructor; [|assumption]. apply wf_again. assumption.
  - (* Jump *)
    destruct LG as (AT & NM & T1 & SV & NN). assert (rest = []) by (destruct rest; [reflexivity|cbn in TX; lia]). subst rest.
    rewrite AC in NM. pose proof (not_in_macro _ _ NM) as SH.
    pose proof (inv_saved _ _ _ _ _ H SV) as LK. pose proof H as K. destruct H.
    unfold shown in SH. rewrite LK in SH.
    destruct (nth_error (marks c) n) as [k|] eqn:NK.
    2: { apply nth_error_None in NK. rewrite iv_marks0, map_length in NN. lia. }
    assert (NS : nth_error (smarks x) n = Some (mark_of file k)) by (rewrite iv_marks0; apply map_nth_error; exact NK).
    exists (set_last (apply k s0) c), (Sp (mark_of file k) (saved x) (smarks x)), None, [], (apply k s0).
    cbn [app] in iv_sources0. unfold step, spec_step. rewrite iv_sources0, NK, NS.
    split; [reflexivity|]. split; [reflexivity|]. split; [|congruence].
    constructor; cbn [sources macros looking marks set_last acts saved smarks]; try assumption.
    + rewrite iv_sources0. reflexivity.
    + constructor; [|constructor]. apply (proj1 (Forall_forall _ _) iv_okn0). apply (nth_error_In _ _ NK).
    + apply (proj1 (Forall_forall _ _) iv_wfm0). apply (nth_error_In _ _ NS).
    + rewrite LK, SV, SH. unfold flat, mark_of, text, apply. cbn. rewrite iv_file0. reflexivity.
  - (* LookStart *)
    destruct LG as (AT & T1 & SV & SQ). assert (rest = []) by (destruct rest; [reflexivity|cbn in TX; lia]). subst rest.
    pose proof (inv_saved _ _ _ _ _ H SV) as LK. pose proof H as K. destruct H.
    unfold shown in AC. rewrite LK, flat_nil in AC.
    cbn [app] in iv_sources0. unfold step, spec_step. rewrite iv_sources0.
    destruct a.
    + exists (Ctx (sources c) (macros c) (Some (ORD, begin_snapshot false s0 c)) (marks c)).
      exists (Sp (without_macros (acts x)) (Some (ORD, again (acts x))) (smarks x)), None, [], s0.
      rewrite iv_sources0. split; [reflexivity|]. split; [reflexivity|]. split; [|congruence].
      assert (WM : without_macros (acts x) = text s0).
      { rewrite AC, without_macros_m. apply without_macros_opened. }
      constructor; cbn [sources macros looking marks acts saved smarks]; try assumption; try reflexivity.
      * rewrite WM. rewrite AC in iv_wf0. apply (wf_suffix _ _ iv_wf0). apply opened_nil.
      * split; [reflexivity|]. split; [exact WM|]. split; [discriminate|].
        inversion iv_oks0 as [|? ? O1 O2]; subst.
        split; [|split; [|split; [|apply wf_again; assumption]]].
        -- rewrite AC. unfold begin_snapshot. destruct (macros c) as [|m ms] eqn:MC.
           ++ cbn [map app back]. unfold text. rewrite again_opened. reflexivity.
           ++ rewrite again_m by discriminate. reflexivity.
        -- destruct (macros c) as [|m ms] eqn:MC; [constructor|]. inversion iv_okm0; subst. constructor; [|assumption].
           rewrite AC in AT. cbn in AT. unfold from_start in *. cbn. lia.
        -- unfold begin_snapshot. destruct (macros c) as [|m ms] eqn:MC; [|exact O1].
           cbn [n_copies create_snapshot]. apply (okc_pred _ (s_file s0) (s_pos s0) []); [exact O1|].
           rewrite AC in AT. rewrite app_nil_r. exact AT.
    + exists (Ctx (sources c) (macros c) (Some (SEQ, end_snapshot s0)) (marks c)).
      exists (Sp (acts x) (Some (SEQ, acts x)) (smarks x)), None, [], s0.
      rewrite iv_sources0. split; [reflexivity|]. split; [reflexivity|]. split; [|congruence].
      pose proof (SQ eq_refl) as NM. rewrite AC in NM. pose proof (not_in_macro _ _ NM) as MN. rewrite MN in AC. cbn [map app] in AC.
      inversion iv_oks0 as [|? ? O1 O2]; subst.
      constructor; cbn [sources macros looking marks acts saved smarks]; try assumption; try reflexivity.
      split; [reflexivity|]. split; [exact AC|]. split; [intros _; exact MN|].
      split; [rewrite AC, MN; reflexivity|]. split; [exact iv_okm0|]. split; [exact O1|exact iv_wf0].
  - (* LookEnd *)
    destruct LG as (T1 & SV). assert (rest = []) by (destruct rest; [reflexivity|cbn in TX; lia]). subst rest.
    pose proof H as K. destruct H. destruct (saved x) as [[a l]|] eqn:SX; [|congruence].
    destruct (looking c) as [[a' n]|] eqn:LK; [|contradiction]. destruct iv_acts0 as (-> & A2 & A3 & A4 & A5 & A6 & A7).
    exists (Ctx [apply n s0] (back a (macros c)) None (marks c)), (Sp l None (smarks x)), None, [], (apply n s0).
    cbn [app] in iv_sources0. unfold step, spec_step. rewrite iv_sources0, LK, SX.
    split; [cbn [bind fst snd]; unfold back; destruct a, (macros c); reflexivity|]. split; [reflexivity|]. split; [|congruence].
    constructor; cbn [sources macros looking marks acts saved smarks]; try assumption; try reflexivity.
    + constructor; [exact A6|constructor].
    + rewrite A4. unfold flat, mark_of, text, apply. cbn. rewrite iv_file0. reflexivity.
Qed.

Lemma runs_inv : forall file os c x out, runs file os c x out -> exists rest s0, inv file c x rest s0.
Proof.
  intros file os c x out H. induction H as [|os c x out o c' x' l l' _ [rest [s0 IH]] L S1 S2].
  - exists [], (Source file (0%N, 0%N) []). apply inv_start.
  - destruct (step_ok _ _ _ _ _ _ IH L) as (c1 & x1 & l1 & r1 & s1 & E1 & E2 & IV & _).
    rewrite S1 in E1. rewrite S2 in E2. injection E1 as <- <-. injection E2 as <- _. exists r1, s1. exact IV.
Qed.
