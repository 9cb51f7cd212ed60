From Coq Require Import List NArith ZArith Bool Lia.
From Coq Require Import ZifyBool ZifyNat ZifyN.
From Verif Require Import Common Sub_Model Sub_Spec Sub_Proof.
Import ListNotations.
Open Scope N_scope.

(** ** Parsing the text of a tree *)
Lemma text_last : forall l, last (text (List l [])) 0 = RPAR.
Proof.
  intros l. cbn [text]. change (LPAR :: commas (map text l) ++ [RPAR]) with ((LPAR :: commas (map text l)) ++ [RPAR]).
  apply last_last.
Qed.

Lemma list_steps : forall l b r V low, Forall well_formed l ->
  exists b', steps {| before := b; rest := LPAR :: commas (map text l) ++ RPAR :: r; top := V; lower := low |}
                   {| before := b'; rest := RPAR :: r; top := map data_of (kept false l); lower := V :: low |}.
Proof.
  intros l b r V low Hw.
  assert (Hok : Forall (fun t => well_formed t -> item_ok t) l)
    by (apply Forall_forall; intros; now apply item_steps).
  destruct (items_steps l Hw Hok false (LPAR :: b) r [] (V :: low) eq_refl ltac:(discriminate)) as (b1 & Hst).
  rewrite pending_false in Hst. exists b1. eapply steps_trans; [|exact Hst]. now apply steps_one.
Qed.

Theorem parse_text : forall l, well_formed (List l []) ->
  string_to_macrodata (text (List l [])) = Some (data_of (List l [])).
Proof.
  intros l Hw. apply well_formed_list in Hw. destruct Hw as [Hw _].
  unfold string_to_macrodata. pose proof (text_last l) as Hlast. cbn [text] in *.
  rewrite Hlast. change (negb (LPAR =? LPAR) || negb (RPAR =? RPAR)) with false. cbv iota.
  set (t := LPAR :: commas (map text l) ++ [RPAR]) in *.
  destruct (list_steps l [] [] [] [] Hw) as (b' & n & Hn). fold t in Hn.
  assert (Hend : loop (n + 1) {| before := []; rest := t; top := []; lower := [] |} =
                 Some (Some {| before := RPAR :: b'; rest := []; top := [Composite (map data_of (kept false l))]; lower := [] |}))
    by (rewrite Hn; reflexivity).
  destruct (loop (S (length t)) {| before := []; rest := t; top := []; lower := [] |}) as [o|] eqn:E.
  - rewrite (loop_any _ _ _ _ _ E Hend). cbn [rest top]. now rewrite data_of_list.
  - exfalso. revert E. apply loop_ends. cbn [rest]. lia.
Qed.

Lemma clean_text : forall t, clean t -> get_value (data_of t) = text t.
Proof.
  induction t as [s|l suffix IH] using tree_ind'; intros Hc; [reflexivity|].
  apply clean_list in Hc. destruct Hc as [Hk Hc]. rewrite data_of_list, Hk.
  assert (E : map get_value (map data_of l) = map text l).
  { rewrite map_map. apply map_ext_in. intros t Ht. rewrite Forall_forall in IH, Hc. apply IH; auto. }
  destruct suffix as [|c suffix]; cbn [get_value text]; rewrite ?joined_commas, E; reflexivity.
Qed.

(** ** Every text *)
Definition seq_done (V : list data) : bytes := flat_map (fun d => get_value d ++ [COMMA]) V.
Fixpoint render (low : list (list data)) : bytes :=
  match low with
  | [] => []
  | V :: low => render low ++ seq_done V ++ [LPAR]
  end.

Lemma commas_snoc : forall l x, commas (l ++ [x]) = flat_map (fun y => y ++ [COMMA]) l ++ x.
Proof.
  induction l as [|y l IH]; intros x; [reflexivity|]. cbn [app flat_map].
  assert (commas (y :: l ++ [x]) = y ++ COMMA :: commas (l ++ [x])) as -> by (destruct (l ++ [x]) eqn:E; [destruct l; discriminate|reflexivity]).
  rewrite IH, <- !app_assoc. reflexivity.
Qed.
Lemma joined_snoc : forall V d, joined (map get_value (V ++ [d])) = seq_done V ++ get_value d.
Proof.
  intros V d. rewrite joined_commas, map_app. cbn [map]. rewrite commas_snoc. f_equal. unfold seq_done.
  rewrite (flat_map_concat_map _ V), (flat_map_concat_map _ (map get_value V)), map_map. reflexivity.
Qed.
Lemma seq_done_snoc : forall V d, seq_done (V ++ [d]) = seq_done V ++ get_value d ++ [COMMA].
Proof. intros V d. unfold seq_done. rewrite flat_map_app. cbn [flat_map]. now rewrite app_nil_r. Qed.
Lemma seq_done_end : forall V, V <> [] -> exists u, seq_done V = u ++ [COMMA].
Proof.
  intros V HV. destruct (exists_last HV) as (V' & d & ->). rewrite seq_done_snoc, app_assoc. eauto.
Qed.

Section Run.
Variable full : bytes.

Definition rendered (s : state) : Prop :=
  without COMMA RPAR full -> without COMMA COMMA full ->
  rest s = [] \/
  rev (before s) = render (lower s) ++ seq_done (top s) \/
  (rev (before s) = render (lower s) ++ joined (map get_value (top s)) /\ exists q, rest s = RPAR :: q).

Record inv (s : state) : Prop := {
  i_full : full = rev (before s) ++ rest s;
  i_bottom : lower s = [] -> before s = [] /\ top s = [];
  i_lowest : lower s <> [] -> last (lower s) [] = [];
  i_text : rendered s }.

(** The end of the loop. *)
Record finished (s : state) : Prop := {
  f_full : full = rev (before s) ++ rest s;
  f_one : exists d, top s = [d] /\
    (rest s = [] -> last full 0 = RPAR ->
     (exists l, d = Composite l) /\
     (without COMMA RPAR full -> without COMMA COMMA full -> get_value d = full)) }.

Lemma last_snoc_comma : forall (p : bytes), last (p ++ [COMMA]) 0 = RPAR -> False.
Proof. intros p. rewrite last_last. discriminate. Qed.

Lemma step_inv : forall s, inv s -> (lower s = [] -> exists r, rest s = LPAR :: r) ->
  match loop_body s with
  | Continue s' => inv s' /\ lower s' <> []
  | Whole => True
  | Done s' => finished s'
  end.
Proof.
  intros s [Hf Hb Hl Ht] Hstart. unfold loop_body. destruct (rest s) as [|c r] eqn:Er; [exact Logic.I|].
  destruct (c =? LPAR) eqn:E1.
  { apply N.eqb_eq in E1. subst c. split; [|discriminate]. constructor; cbn [before rest lower top].
    - rewrite Hf. cbn [rev]. rewrite <- app_assoc. reflexivity.
    - discriminate.
    - intros _. destruct (lower s) as [|V low] eqn:El; [cbn; now apply Hb|]. now apply Hl.
    - intros H1 H2. right. left. cbn [before lower top rev render]. change (seq_done []) with (@nil N). rewrite app_nil_r, app_assoc.
      f_equal. destruct (Ht H1 H2) as [H|[H|[_ [q H]]]]; [congruence|exact H|]. rewrite Er in H. discriminate. }
  destruct (lower s) as [|up low] eqn:El.
  { destruct (Hstart eq_refl) as [r' Hr]. injection Hr as -> ->. discriminate. }
  destruct (c =? RPAR) eqn:E2.
  - apply N.eqb_eq in E2. subst c.
    assert (Hcl : without COMMA RPAR full -> without COMMA COMMA full ->
                  rev (before s) ++ [RPAR] = render low ++ seq_done up ++ get_value (Composite (top s))).
    { intros H1 H2. assert (G : rev (before s) = render (up :: low) ++ joined (map get_value (top s))).
      { destruct (Ht H1 H2) as [H|[H|[H _]]]; [congruence| |rewrite H, El; reflexivity]. rewrite El in H.
        destruct (top s) as [|d V] eqn:Ev; [rewrite H; reflexivity|]. exfalso.
        destruct (seq_done_end (d :: V) ltac:(discriminate)) as [u Hu]. rewrite Hu in H.
        apply (H1 (render (up :: low) ++ u) r). rewrite Hf, H, <- !app_assoc. reflexivity. }
      rewrite G. cbn [render get_value]. rewrite <- !app_assoc. reflexivity. }
    set (P := render low) in *.
    assert (Hup : low = [] -> up = []) by (intros ->; exact (Hl ltac:(discriminate))).
    assert (Hnew : forall d b q,
      full = rev b ++ q ->
      (q = [] /\ (exists l, d = Composite l) /\
         (without COMMA RPAR full -> without COMMA COMMA full -> rev b = P ++ joined (map get_value (up ++ [d])))) \/
      (match q with x :: _ => closes x = true | [] => False end /\
         (without COMMA RPAR full -> without COMMA COMMA full -> rev b = P ++ joined (map get_value (up ++ [d])))) \/
      ((exists b0, b = COMMA :: b0) /\
         (without COMMA RPAR full -> without COMMA COMMA full -> rev b = P ++ seq_done (up ++ [d]))) ->
      match
       (let '(b, r) := match q with c' :: r' => if c' =? COMMA then (c' :: b, r') else (b, q) | [] => (b, q) end in
        let s' := {| before := b; rest := r; top := up ++ [d]; lower := low |} in
        match low with [] => Done s' | _ => Continue s' end) with
      | Continue s' => inv s' /\ lower s' <> []
      | Whole => True
      | Done s' => finished s'
      end).
    { intros d b q Hfull Hq.
      set (q' := match q with c' :: r' => if c' =? COMMA then r' else q | [] => q end).
      set (b' := match q with c' :: r' => if c' =? COMMA then c' :: b else b | [] => b end).
      replace (match q with c' :: r' => if c' =? COMMA then (c' :: b, r') else (b, q) | [] => (b, q) end) with (b', q')
        by (unfold b', q'; destruct q as [|c' r']; [reflexivity|destruct (c' =? COMMA); reflexivity]).
      assert (Hfull' : full = rev b' ++ q').
      { rewrite Hfull. unfold b', q'. destruct q as [|c' r']; [reflexivity|]. destruct (c' =? COMMA); [|reflexivity].
        cbn [rev]. rewrite <- app_assoc. reflexivity. }
      assert (Hr' : without COMMA RPAR full -> without COMMA COMMA full ->
        q' = [] \/ rev b' = P ++ seq_done (up ++ [d]) \/
        (rev b' = P ++ joined (map get_value (up ++ [d])) /\ exists z, q' = RPAR :: z)).
      { intros H1 H2. unfold b', q'. destruct q as [|c' r']; [auto|].
        destruct Hq as [[Y _]|[[Y X]|[[b0 Y] X]]]; [discriminate| |].
        - specialize (X H1 H2). unfold closes in Y. destruct (c' =? COMMA) eqn:Ec.
          + right. left. cbn [rev]. rewrite X, joined_snoc, seq_done_snoc, <- !app_assoc.
            assert (c' = COMMA) as -> by lia. reflexivity.
          + right. right. split; [exact X|]. cbn [orb] in Y. apply N.eqb_eq in Y. subst. eauto.
        - specialize (X H1 H2). destruct (c' =? COMMA) eqn:Ec; [|auto]. exfalso.
          assert (c' = COMMA) as -> by lia. subst b. apply (H2 (rev b0) r'). rewrite Hfull. cbn [rev].
          rewrite <- app_assoc. reflexivity. }
      cbv zeta. destruct low as [|lw low'].
      - constructor; cbn [before rest top]; [exact Hfull'|]. exists d. rewrite (Hup eq_refl) in *. split; [reflexivity|].
        intros Hq0 Hlast. cbn [app] in *.
        destruct Hq as [[Y [C X]]|[[Y X]|[[b0 Y] X]]].
        + split; [exact C|]. intros H1 H2. rewrite Hfull, Y, app_nil_r, (X H1 H2). cbn. reflexivity.
        + exfalso. unfold q' in Hq0. destruct q as [|c' r']; [exact Y|]. destruct (c' =? COMMA) eqn:Ec; [|discriminate].
          apply (last_snoc_comma (rev b)). rewrite <- Hlast, Hfull, Hq0. f_equal. f_equal. f_equal. lia.
        + exfalso. apply (last_snoc_comma (if match q with [] => true | _ => false end then rev b0 else rev b)).
          rewrite <- Hlast, Hfull, Y. unfold q' in Hq0. destruct q as [|c' r'].
          * rewrite app_nil_r. reflexivity.
          * destruct (c' =? COMMA) eqn:Ec; [|discriminate]. rewrite Hq0. assert (c' = COMMA) as -> by lia. reflexivity.
      - split; [|discriminate]. constructor; cbn [before rest top lower]; [exact Hfull'|discriminate| |exact Hr'].
        intros _. exact (Hl ltac:(discriminate)). }
    assert (Hrev : forall z, rev (before s) ++ RPAR :: z = (rev (before s) ++ [RPAR]) ++ z)
      by (intros z; rewrite <- app_assoc; reflexivity).
    destruct r as [|c' r'].
    + apply (Hnew (Composite (top s)) (RPAR :: before s) []).
      * rewrite app_nil_r. exact Hf.
      * left. refine (conj eq_refl (conj (ex_intro _ _ eq_refl) _)). intros H1 H2. cbn [rev].
        rewrite joined_snoc. rewrite (Hcl H1 H2). reflexivity.
    + destruct (closes c') eqn:Ec.
      * apply (Hnew (Composite (top s)) (RPAR :: before s) (c' :: r')).
        -- rewrite Hf. cbn [rev]. apply Hrev.
        -- right. left. split; [exact Ec|]. intros H1 H2. cbn [rev]. rewrite joined_snoc. rewrite (Hcl H1 H2). reflexivity.
      * destruct (find_single Top [] (RPAR :: before s) (c' :: r')) as [[[t b] q]|] eqn:Ef; [|exact Logic.I].
        destruct (find_single_text _ _ _ _ _ _ _ Ef) as (u & Hu & [[Hb' Hr]|[Hb' [Hr [q' Hq']]]]); cbn [rev app] in Hu; subst u.
        -- apply Hnew.
           ++ rewrite Hf, Hb', Hr. cbn [rev]. rewrite rev_app_distr, rev_involutive. cbn [rev]. rewrite <- !app_assoc. reflexivity.
           ++ right. right. split; [eauto|]. intros H1 H2. rewrite Hb'. cbn [rev].
              rewrite rev_app_distr, rev_involutive. cbn [rev]. rewrite (Hcl H1 H2), seq_done_snoc. cbn [get_value].
              rewrite <- !app_assoc. reflexivity.
        -- apply Hnew.
           ++ rewrite Hf, Hb', Hr. rewrite rev_app_distr, rev_involutive. cbn [rev]. rewrite <- !app_assoc. reflexivity.
           ++ right. left. split; [subst q; reflexivity|]. intros H1 H2. rewrite Hb'.
              rewrite rev_app_distr, rev_involutive. cbn [rev]. rewrite (Hcl H1 H2), joined_snoc. cbn [get_value].
              rewrite <- !app_assoc. reflexivity.
  - destruct (find_single Top [] (before s) (c :: r)) as [[[t b] q]|] eqn:Ef; [|exact Logic.I].
    split; [|cbn [lower]; discriminate].
    assert (Ht' : without COMMA RPAR full -> without COMMA COMMA full -> rev (before s) = render (up :: low) ++ seq_done (top s)).
    { intros H1 H2. destruct (Ht H1 H2) as [H|[H|[_ [q0 H]]]]; [congruence|rewrite H, El; reflexivity|].
      rewrite Er in H. injection H as -> _. discriminate. }
    destruct (find_single_text _ _ _ _ _ _ _ Ef) as (u & Hu & [[Hb' Hr]|[Hb' [Hr [q' Hq']]]]); cbn [rev app] in Hu; subst u;
      constructor; cbn [before rest top lower].
    + rewrite Hf, Hb', Hr. cbn [rev]. rewrite rev_app_distr, rev_involutive, <- !app_assoc. reflexivity.
    + discriminate.
    + intros _. exact (Hl ltac:(discriminate)).
    + intros H1 H2. right. left. cbn [before lower top]. rewrite Hb'. cbn [rev]. rewrite rev_app_distr, rev_involutive, (Ht' H1 H2), seq_done_snoc.
      cbn [get_value]. rewrite <- !app_assoc. reflexivity.
    + rewrite Hf, Hb', Hr. rewrite rev_app_distr, rev_involutive, <- !app_assoc. reflexivity.
    + discriminate.
    + intros _. exact (Hl ltac:(discriminate)).
    + intros H1 H2. right. right. cbn [before lower top rest]. split; [|eauto]. rewrite Hb', rev_app_distr, rev_involutive, (Ht' H1 H2), joined_snoc.
      cbn [get_value]. rewrite <- !app_assoc. reflexivity.
Qed.

Lemma loop_inv : forall f s, inv s -> (lower s = [] -> exists r, rest s = LPAR :: r) ->
  forall s', loop f s = Some (Some s') -> finished s'.
Proof.
  induction f as [|f IH]; intros s Hi Hs s' H; [discriminate|]. cbn [loop] in H.
  pose proof (step_inv s Hi Hs) as X. destruct (loop_body s) as [s1| |s1].
  - apply (IH s1); [apply X| |exact H]. intros E. destruct X as [_ X]. contradiction.
  - discriminate.
  - injection H as <-. exact X.
Qed.
End Run.

Theorem parse_any : forall t, t <> [] -> exists d, string_to_macrodata t = Some d /\
  (d = Single t \/ exists l, d = Composite l) /\
  (without COMMA RPAR t -> without COMMA COMMA t -> get_value d = t).
Proof.
  intros t Ht. unfold string_to_macrodata. destruct t as [|c r]; [contradiction|]. set (t := c :: r) in *.
  assert (Hw : exists d, Some (Single t) = Some d /\ (d = Single t \/ exists l, d = Composite l) /\
    (without COMMA RPAR t -> without COMMA COMMA t -> get_value d = t)) by (exists (Single t); auto).
  destruct (negb (c =? LPAR) || negb (last t 0 =? RPAR)) eqn:E; [exact Hw|].
  apply orb_false_iff in E. destruct E as [E1 E2]. apply negb_false_iff, N.eqb_eq in E1, E2.
  destruct (loop (S (length t)) {| before := []; rest := t; top := []; lower := [] |}) as [[s|]|] eqn:El.
  - assert (Hfin : finished t s).
    { eapply loop_inv; [| |exact El].
      - constructor; cbn [before rest lower top]; [reflexivity|auto|contradiction|]. intros _ _. right. left. reflexivity.
      - intros _. cbn [rest]. unfold t. rewrite E1. eauto. }
    destruct Hfin as [Hf (d & Hd & Hr)]. destruct (rest s); [|exact Hw]. rewrite Hd. exists d. split; [reflexivity|].
    destruct (Hr eq_refl E2) as [Hc Hv]. auto.
  - exact Hw.
  - exfalso. revert El. apply loop_ends. cbn [rest]. lia.
Qed.
