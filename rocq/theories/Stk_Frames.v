(** Proofs about processing_stack, current_statement_location and the diagnostics. *)
From Coq Require Import String.
From Coq Require Import List NArith ZArith Bool Lia.
From Coq Require Import ZifyBool ZifyNat ZifyN.
From Verif Require Import Common Stk_Model Stk_Spec Stk_Proof.
Import ListNotations.
Open Scope Z_scope.

Definition good (a : act) : Prop := inside a /\ here a.
Definition out_frames (l : list act) : list frame := List.concat (map frames (rev l)).

Lemma rev_chain : forall l, rev (chain l) = out_frames l.
Proof.
  unfold out_frames. induction l as [|a l IH]; [reflexivity|]. cbn [chain rev]. rewrite rev_app_distr, rev_involutive, IH.
  rewrite map_app, concat_app. cbn [map List.concat]. rewrite app_nil_r. reflexivity.
Qed.
Lemma out_app : forall a b, out_frames (a ++ b) = out_frames b ++ out_frames a.
Proof. intros. unfold out_frames. rewrite rev_app_distr, map_app, concat_app. reflexivity. Qed.
Lemma each_map : forall A B (f : A -> option B) g l, (forall x, In x l -> f x = Some (g x)) -> each f l = Some (map g l).
Proof.
  intros A B f g l. induction l as [|x l IH]; intros H; [reflexivity|]. cbn [each map].
  rewrite (H x (or_introl eq_refl)), (IH (fun y Y => H y (or_intror Y))). reflexivity.
Qed.

Definition place_i (i : invo) : loc := Loc (nth (Z.to_nat (i_cur i)) (m_stmts (i_member i)) (0%N, 0%N)) (m_file (i_member i)).
Lemma copy_loc_good : forall i, from_start (i_cur i) -> good (act_i i) ->
  copy_loc i = Some (place_i i) /\ frames (act_i i) = [Frame (place_i i) COPY].
Proof.
  intros i F [G1 G2]. unfold from_start in F. cbn [inside here act_i] in G1, G2.
  assert (N : nth_error (m_stmts (i_member i)) (Z.to_nat (i_cur i)) =
              Some (nth (Z.to_nat (i_cur i)) (m_stmts (i_member i)) (0%N, 0%N))) by (apply nth_error_nth'; lia).
  split.
  - unfold copy_loc. rewrite nth_at by lia. rewrite N. reflexivity.
  - unfold act_i. replace (Z.to_nat (i_cur i + 1)) with (S (Z.to_nat (i_cur i))) by lia. cbn [frames]. rewrite N. reflexivity.
Qed.
Lemma copies_frames : forall l, Forall (fun i => from_start (i_cur i)) l -> Forall good (map act_i l) ->
  each copy_loc l = Some (map place_i l) /\
  List.concat (map frames (map act_i l)) = map (fun i => Frame (place_i i) COPY) l.
Proof.
  induction l as [|i l IH]; intros F G; [split; reflexivity|]. inversion F; subst. inversion G; subst.
  destruct (IH ltac:(assumption) ltac:(assumption)) as [E1 E2].
  destruct (copy_loc_good i ltac:(assumption) ltac:(assumption)) as [C1 C2].
  cbn [each map List.concat]. rewrite C1, E1, C2, E2. split; reflexivity.
Qed.
Lemma source_good : forall s, oks s -> Forall good (text s) -> source_frames s = Some (out_frames (text s)).
Proof.
  intros s O G. unfold source_frames. unfold text, opened in *. apply Forall_app in G. destruct G as [G _].
  destruct (copies_frames (rev (s_copies s))) as [E1 E2].
  - apply Forall_rev. exact O.
  - rewrite map_rev. apply Forall_rev. exact G.
  - rewrite E1. cbn [bind]. f_equal. rewrite out_app. change (out_frames [AText (s_file s) (s_pos s)]) with [Frame (Loc (s_pos s) (s_file s)) OPENCODE].
    unfold out_frames. rewrite <- map_rev, E2, map_map. reflexivity.
Qed.
Lemma macro_good : forall m, from_start (v_cur m) -> good (act_m m) -> macro_frames m = Some (frames (act_m m)).
Proof.
  intros m F [[G1 GN] G2]. unfold from_start in F. cbn [here act_m] in G2.
  assert (N : nth_error (v_nests m) (Z.to_nat (v_cur m)) = Some (nth (Z.to_nat (v_cur m)) (v_nests m) [])) by (apply nth_error_nth'; lia).
  unfold macro_frames, act_m. rewrite nth_at by lia. replace (Z.to_nat (v_cur m + 1)) with (S (Z.to_nat (v_cur m))) by lia.
  cbn [frames]. rewrite N. unfold nest_frames. cbn [bind]. destruct (nth (Z.to_nat (v_cur m)) (v_nests m) []); reflexivity.
Qed.
Lemma flat_map_out : forall rest, List.concat (map (fun s => out_frames (text s)) (rev rest)) = out_frames (flat_map text rest).
Proof.
  induction rest as [|s rest IH]; [reflexivity|]. cbn [rev flat_map]. rewrite map_app, concat_app, IH, out_app.
  cbn [map List.concat]. rewrite app_nil_r. reflexivity.
Qed.

Lemma stack_flat : forall c rest s0, sources c = rest ++ [s0] -> Forall oks (rest ++ [s0]) -> okm (macros c) ->
  Forall good (flat (macros c) rest s0) -> processing_stack c = Some (out_frames (flat (macros c) rest s0)).
Proof.
  intros c rest s0 E O M G. unfold processing_stack. rewrite E, rev_app_distr. cbn [rev app].
  apply Forall_app in O. destruct O as [O1 O2]. inversion O2; subst.
  unfold flat in *. apply Forall_app in G. destruct G as [G1 G]. apply Forall_app in G. destruct G as [G2 G3].
  rewrite (source_good s0) by assumption. cbn [bind].
  rewrite (each_map _ _ macro_frames (fun m => frames (act_m m))).
  2: { intros m I. apply in_rev in I. apply macro_good.
       - apply (proj1 (Forall_forall _ _) M m I).
       - apply (proj1 (Forall_forall _ _) G2). apply in_map. exact I. }
  cbn [bind]. rewrite (each_map _ _ source_frames (fun s => out_frames (text s))).
  2: { intros s I. apply in_rev in I. apply source_good.
       - apply (proj1 (Forall_forall _ _) O1 s I).
       - apply Forall_forall. intros a A. apply (proj1 (Forall_forall _ _) G1). apply in_flat_map. exists s. split; assumption. }
  cbn [bind]. rewrite flat_map_out, !out_app. rewrite app_assoc.
  replace (out_frames (map act_m (macros c))) with (List.concat (map (fun m => frames (act_m m)) (rev (macros c)))); [reflexivity|].
  unfold out_frames. rewrite <- map_rev, map_map. reflexivity.
Qed.

Lemma shown_all : forall file c x rest s0, inv file c x rest s0 -> ~ looking_from_macro x -> shown c = macros c.
Proof.
  intros file c x rest s0 [] N. unfold shown. destruct (looking c) as [[a n]|] eqn:L, (saved x) as [[a' l]|] eqn:SV; try contradiction; [|reflexivity].
  destruct iv_acts as (<- & _ & M & E & _). destruct a; [|symmetry; exact (M eq_refl)].
  destruct (macros c) as [|m ms]; [reflexivity|]. elim N. exists l. split; [exact SV|]. subst l. exact Logic.I.
Qed.

Lemma stack_ok : forall file c x rest s0, inv file c x rest s0 -> at_stmt (acts x) -> ~ looking_from_macro x ->
  processing_stack c = Some (rev (chain (acts x))).
Proof.
  intros file c x rest s0 H A N. pose proof (inv_acts _ _ _ _ _ H) as E. rewrite (shown_all _ _ _ _ _ H N) in E.
  destruct H. rewrite rev_chain, E. apply stack_flat; try assumption. rewrite <- E. apply wf_all; assumption.
Qed.

(** the innermost place *)
Lemma chain_ne : forall a l, good a -> exists f r, chain (a :: l) = f :: r.
Proof.
  intros a l [G1 G2]. cbn [chain]. assert (frames a <> []) as N.
  { destruct a as [f p|m [|k]|n [|k]]; cbn [frames here inside] in *; try lia; [discriminate| |].
    - destruct (nth_error (m_stmts m) k) eqn:Q; [discriminate|]. apply nth_error_None in Q. lia.
    - destruct G1 as [G1 GN]. destruct (nth_error n k) as [[|x y]|] eqn:Q; [|discriminate|apply nth_error_None in Q; lia].
      apply nth_error_In in Q. apply (proj1 (Forall_forall _ _) GN) in Q. congruence. }
  destruct (rev (frames a)) as [|f r] eqn:R.
  - apply (f_equal (@rev frame)) in R. rewrite rev_involutive in R. contradiction.
  - exists f, (r ++ chain l). reflexivity.
Qed.
Lemma current_ok : forall file c x rest s0, inv file c x rest s0 -> at_stmt (acts x) -> ~ looking_from_macro x ->
  exists f r, chain (acts x) = f :: r /\ current_statement_location c = Some (f_loc f).
Proof.
  intros file c x rest s0 H A N. pose proof (inv_acts _ _ _ _ _ H) as E. rewrite (shown_all _ _ _ _ _ H N) in E.
  destruct H. pose proof (wf_all _ iv_wf A) as G. rewrite E in *. unfold current_statement_location. rewrite iv_sources.
  assert (TXT : forall s R, oks s -> Forall (fun a => inside a /\ here a) (text s ++ R) ->
    exists f r, chain (text s ++ R) = f :: r /\
      match s_copies s with i :: _ => copy_loc i | [] => Some (Loc (s_pos s) (s_file s)) end = Some (f_loc f)).
  { intros s R OS GS. unfold text, opened, oks in *. destruct (s_copies s) as [|i cs].
    - eexists. eexists. split; reflexivity.
    - cbn [map app] in *. inversion GS; subst. inversion OS; subst.
      destruct (copy_loc_good i ltac:(assumption) ltac:(assumption)) as [C1 C2].
      cbn [chain]. rewrite C1, C2. eexists. eexists. split; reflexivity. }
  destruct rest as [|s rest].
  - cbn [app]. rewrite flat_nil in *. inversion iv_oks; subst. destruct (macros c) as [|m ms] eqn:MC.
    + cbn [map app] in *. destruct (TXT s0 []) as (f & r & T1 & T2); [assumption|rewrite app_nil_r; exact G|].
      rewrite app_nil_r in T1. exists f, r. split; assumption.
    + cbn [map app] in *. inversion G as [|? ? GM _]; subst. inversion iv_okm as [|? ? FM _]; subst.
      destruct GM as [[G1 GN] G2]. unfold from_start in FM. cbn [here act_m] in G2.
      assert (Q : nth_error (v_nests m) (Z.to_nat (v_cur m)) = Some (nth (Z.to_nat (v_cur m)) (v_nests m) [])) by (apply nth_error_nth'; lia).
      rewrite nth_at by lia. cbn [chain]. unfold act_m at 1. replace (Z.to_nat (v_cur m + 1)) with (S (Z.to_nat (v_cur m))) by lia.
      cbn [frames]. rewrite Q. cbn [bind]. destruct (nth (Z.to_nat (v_cur m)) (v_nests m) []) as [|l lr] eqn:NQ.
      * apply nth_error_In in Q. apply (proj1 (Forall_forall _ _) GN) in Q. congruence.
      * unfold last_loc. destruct lr as [|a b] using rev_ind; [eexists; eexists; split; reflexivity|].
        clear IHb. rewrite map_app. cbn [map rev]. rewrite !rev_app_distr. cbn [rev app]. eexists. eexists. split; reflexivity.
  - cbn [app]. rewrite flat_cons in *. inversion iv_oks; subst. destruct (TXT s (flat (macros c) rest s0)) as (f & r & T1 & T2); [assumption|exact G|].
    exists f, r. split; [exact T1|]. destruct (rest ++ [s0]) eqn:RR; [destruct rest; discriminate|]. exact T2.
Qed.
