(** Proofs about the limit on diagnostics without configuration. *)
From Coq Require Import String List NArith ZArith Bool Lia.
From Verif Require Import Common Cfg_Model Sup_Model Sup_Spec.
Import ListNotations.
Open Scope list_scope.
Open Scope Z_scope.

Lemma run_app : forall a b s, run (a ++ b) s = match run a s with Some s' => run b s' | None => None end.
Proof.
  induction a as [|e a IH]; intros b s; cbn [run app]; [reflexivity|]. destruct (step e s); [apply IH|reflexivity].
Qed.
Lemma run_snoc : forall h e s, run (h ++ [e]) s = match run h s with Some s' => step e s' | None => None end.
Proof. intros. rewrite run_app. destruct (run h s) as [s'|]; [cbn [run]; destruct (step e s'); reflexivity|reflexivity]. Qed.
Lemma latest_snoc : forall A (pick : event -> option A) h e,
  latest pick (h ++ [e]) = match pick e with Some x => Some x | None => latest pick h end.
Proof. intros. unfold latest. rewrite fold_left_app. reflexivity. Qed.

Lemma set_same : forall A f (x : A) t, set f x t f = x.
Proof. intros. unfold set. rewrite (proj2 (bytes_eqb_eq f f) eq_refl). reflexivity. Qed.
Lemma set_other : forall A f g (x : A) t, g <> f -> set f x t g = t g.
Proof.
  intros A f g x t N. unfold set. destruct (bytes_eqb g f) eqn:E; [|reflexivity]. apply bytes_eqb_eq in E. elim N. exact E.
Qed.

(** ** The settings of the editor *)
Lemma find_list : forall k o, find k o = option_map snd (List.find (fun m : bytes * json => bytes_eqb k (fst m)) o).
Proof.
  intros k o. induction o as [|[k' x] r IH]; cbn [find List.find fst]; [reflexivity|].
  destruct (bytes_eqb k k'); [reflexivity|exact IH].
Qed.
Lemma to_int64_small : forall n, - 2 ^ 63 <= n < 2 ^ 63 -> to_int64 n = n.
Proof. intros n B. unfold to_int64. rewrite Z.mod_small by lia. lia. Qed.

Lemma settings_read : forall j r, proper (Settings (j :: r)) ->
  match editor_says (Settings (j :: r)) with
  | Some c => load_settings j = Ok c
  | None => load_settings j = Throw
  end.
Proof.
  intros j r P. unfold editor_says, load_settings, find_. destruct j as [| | | | | | |o]; try reflexivity.
  rewrite find_list. destruct (List.find _ o) as [[k x]|] eqn:F; cbn [option_map snd]; [|reflexivity].
  apply find_some in F. cbn [fst] in F. destruct F as [F1 F2]. apply bytes_eqb_eq in F2. subst k.
  specialize (P _ _ o x eq_refl eq_refl F1).
  destruct x as [| |n|n|n| | |]; cbn [number get_int64 bind] in *; try reflexivity; specialize (P _ eq_refl).
  - rewrite to_int64_small by exact P. destruct (Z.ltb_spec n 0); do 2 f_equal; lia.
  - destruct (Z.ltb_spec n 0); do 2 f_equal; lia.
  - replace ((- 2 ^ 63 <=? n) && (n <? 2 ^ 63)) with true by (symmetry; apply andb_true_intro; lia).
    cbn [bind]. destruct (Z.ltb_spec n 0); do 2 f_equal; lia.
Qed.

(** ** What the user knows *)
Lemma knows_snoc : forall h e f, knows (h ++ [e]) f <-> too_many h f e \/ knows h f /\ ~ starts_anew h f e.
Proof.
  intros h e f. split.
  - intros (a & x & b & E & T & N). destruct b as [|y b'] using rev_ind.
    + apply app_inj_tail in E. destruct E as [-> ->]. left. exact T.
    + clear IHb'. change (a ++ x :: b' ++ [y]) with (a ++ (x :: b') ++ [y]) in E. rewrite app_assoc in E.
      apply app_inj_tail in E. destruct E as [-> ->]. right. split.
      * exists a, x, b'. split; [reflexivity|]. split; [exact T|]. intros b1 e1 b2 ->. apply (N b1 e1 (b2 ++ [y])).
        rewrite <- app_assoc. reflexivity.
      * apply (N b' y []). reflexivity.
  - intros [T|[(a & x & b & -> & T & N) S0]].
    + exists h, e, []. split; [reflexivity|]. split; [exact T|]. intros b1 e1 b2 E. destruct b1; discriminate.
    + exists a, x, (b ++ [e]). split; [rewrite <- app_assoc; reflexivity|]. split; [exact T|].
      intros b1 e1 b2 E. destruct b2 as [|y b2'] using rev_ind.
      * apply app_inj_tail in E. destruct E as [<- <-]. exact S0.
      * clear IHb2'. change (b1 ++ e1 :: b2' ++ [y]) with (b1 ++ (e1 :: b2') ++ [y]) in E. rewrite app_assoc in E.
        apply app_inj_tail in E. destruct E as [-> _]. apply (N b1 e1 b2'). reflexivity.
Qed.

Definition agrees (h : list event) (s : state) : Prop :=
  local_config s = match latest conf_says h with Some c => c | None => None end /\
  global_config s = match latest editor_says h with Some c => c | None => None end /\
  forall f, notified s f = true <-> knows h f.

Lemma agrees_limit : forall h s, agrees h s -> get_config s = Some (limit_after h).
Proof.
  intros h s (L & G & _). unfold get_config, fill_missing_settings, combine_two_configs, limit_after. rewrite L, G.
  destruct (latest conf_says h) as [[n|]|]; [reflexivity| |]; destruct (latest editor_says h) as [[n|]|]; reflexivity.
Qed.

Lemma too_many_iff : forall h f deps after c i,
  too_many h f (Analysed f deps after c i) <-> c = false /\ i = true /\ limit_after h < Z.of_nat (length (after f)).
Proof.
  intros h f deps after c i. unfold too_many. split.
  - intros (d & a & E & L). injection E as -> -> -> ->. split; [reflexivity|]. split; [reflexivity|exact L].
  - intros (-> & -> & L). exists deps, after. split; [reflexivity|exact L].
Qed.
Lemma exceeds_iff : forall h s n, agrees h s -> (exceeds n (get_config s) = true <-> limit_after h < n).
Proof. intros h s n A. rewrite (agrees_limit h s A). cbn [exceeds]. apply Z.ltb_lt. Qed.

Definition quiet (e : event) : Prop := match e with Settings _ | Loaded _ _ => True | _ => False end.
Lemma quiet_knows : forall h e f, quiet e -> (knows (h ++ [e]) f <-> knows h f).
Proof.
  intros h e f Q. rewrite knows_snoc. split.
  - intros [(d & a & E & _)|[K _]]; [|exact K]. subst e. elim Q.
  - intro K. right. split; [exact K|]. intros [(a & E)|[(d & a & i & E) _]]; subst e; elim Q.
Qed.

(** An event about another file, or one that was cancelled *)
Lemma other_knows : forall h g deps after c i f, f <> g -> (knows (h ++ [Analysed g deps after c i]) f <-> knows h f).
Proof.
  intros h g deps after c i f N. rewrite knows_snoc. split.
  - intros [(d & a & E & _)|[K _]]; [injection E as E _ _ _ _; elim N; symmetry; exact E|exact K].
  - intro K. right. split; [exact K|]. intros [(a & E)|[(d & a & i' & E) _]]; [discriminate|].
    injection E as E _ _ _ _. elim N. symmetry. exact E.
Qed.
Lemma cancelled_knows : forall h g deps after i f, knows (h ++ [Analysed g deps after true i]) f <-> knows h f.
Proof.
  intros h g deps after i f. rewrite knows_snoc. split.
  - intros [(d & a & E & _)|[K _]]; [discriminate|exact K].
  - intro K. right. split; [exact K|]. intros [(a & E)|[(d & a & i' & E) _]]; discriminate.
Qed.

(** What a step does, when the state agrees with the past *)
Lemma step_analysed : forall h s f deps after c i, agrees h s ->
  exists s', step (Analysed f deps after c i) s = Some s' /\ local_config s' = local_config s /\ global_config s' = global_config s /\
    (too_many h f (Analysed f deps after c i) ->
       diags s' = fold_left (fun t g => set g [] t) deps (set f [] after) /\ notified s' = set f true (notified s) /\
       messages s' = if notified s f then messages s else messages s ++ [f]) /\
    (~ too_many h f (Analysed f deps after c i) ->
       diags s' = after /\ messages s' = messages s /\ notified s' = if c then notified s else set f false (notified s)).
Proof.
  intros h s f deps after c i A. setoid_rewrite too_many_iff. cbn [step]. cbv zeta.
  set (s1 := mkSt (local_config s) (global_config s) after (notified s) (messages s)).
  assert (A1 : agrees h s1) by exact A.
  destruct c.
  - exists s1. split; [reflexivity|]. split; [reflexivity|]. split; [reflexivity|]. split.
    + intros (E & _). discriminate.
    + intros _. split; [reflexivity|]. split; reflexivity.
  - destruct i; cbn [andb].
    + destruct (exceeds (Z.of_nat (length (after f))) (get_config s1)) eqn:X.
      * eexists. split; [reflexivity|]. split; [reflexivity|]. split; [reflexivity|]. split.
        -- intros _. split; [reflexivity|]. split; reflexivity.
        -- intro N. elim N. split; [reflexivity|]. split; [reflexivity|]. apply (exceeds_iff h s1 _ A1). exact X.
      * eexists. split; [reflexivity|]. split; [reflexivity|]. split; [reflexivity|]. split.
        -- intros (_ & _ & L). apply (exceeds_iff h s1 _ A1) in L. rewrite L in X. discriminate.
        -- intros _. split; [reflexivity|]. split; reflexivity.
    + eexists. split; [reflexivity|]. split; [reflexivity|]. split; [reflexivity|]. split.
      * intros (_ & E & _). discriminate.
      * intros _. split; [reflexivity|]. split; reflexivity.
Qed.

Lemma too_many_dec : forall h f e, too_many h f e \/ ~ too_many h f e.
Proof.
  intros h f e. destruct e as [| |g deps after c i|]; try (right; intros (d & a & E & _); discriminate).
  destruct (bytes_eqb g f) eqn:B.
  - apply bytes_eqb_eq in B. subst g. rewrite too_many_iff.
    destruct c; [right; intros (E & _); discriminate|]. destruct i; [|right; intros (_ & E & _); discriminate].
    destruct (Z_lt_dec (limit_after h) (Z.of_nat (length (after f)))).
    + left. split; [reflexivity|]. split; [reflexivity|assumption].
    + right. intros (_ & _ & L). contradiction.
  - right. intros (d & a & E & _). injection E as -> _ _ _ _. rewrite (proj2 (bytes_eqb_eq f f) eq_refl) in B. discriminate.
Qed.

Lemma bytes_dec : forall f g : bytes, f = g \/ f <> g.
Proof.
  intros f g. destruct (bytes_eqb f g) eqn:E; [left; apply bytes_eqb_eq; exact E|right; intro H].
  apply bytes_eqb_eq in H. rewrite H in E. discriminate.
Qed.

Lemma step_agrees : forall h s e, agrees h s -> proper e -> exists s', step e s = Some s' /\ agrees (h ++ [e]) s'.
Proof.
  intros h s e A P. destruct e as [params|c after|f deps after c i|f after].
  - destruct A as (L & G & N). destruct params as [|j r].
    + exists s. split; [reflexivity|]. split; [rewrite latest_snoc; exact L|]. split; [rewrite latest_snoc; exact G|].
      intro f. rewrite quiet_knows by exact Logic.I. apply N.
    + cbn [step]. pose proof (settings_read j r P) as R. destruct (editor_says (Settings (j :: r))) as [c|] eqn:E.
      * rewrite R. eexists. split; [reflexivity|]. split; [rewrite latest_snoc; exact L|].
        split; [rewrite latest_snoc, E; reflexivity|]. intro f. rewrite quiet_knows by exact Logic.I. apply N.
      * rewrite R. eexists. split; [reflexivity|]. split; [rewrite latest_snoc; exact L|].
        split; [rewrite latest_snoc, E; exact G|]. intro f. rewrite quiet_knows by exact Logic.I. apply N.
  - destruct A as (L & G & N). eexists. split; [reflexivity|]. split.
    + rewrite latest_snoc. cbn [conf_says local_config]. unfold load_conf. destruct (diagnostics_suppress_limit c); reflexivity.
    + split; [rewrite latest_snoc; exact G|]. intro f. rewrite quiet_knows by exact Logic.I. apply N.
  - destruct (step_analysed h s f deps after c i A) as (s' & E & L' & G' & T & F). exists s'. split; [exact E|].
    pose proof A as (L & G & N).
    split; [rewrite latest_snoc, L'; exact L|]. split; [rewrite latest_snoc, G'; exact G|]. intro g.
    destruct (too_many_dec h f (Analysed f deps after c i)) as [D|D].
    + destruct (T D) as (_ & -> & _). destruct (bytes_dec g f) as [->|Ng].
      * rewrite set_same. split; [intros _; apply knows_snoc; left; exact D|reflexivity].
      * rewrite set_other by exact Ng. rewrite other_knows by exact Ng. apply N.
    + destruct (F D) as (_ & _ & ->). destruct c; [rewrite cancelled_knows; apply N|].
      destruct (bytes_dec g f) as [->|Ng].
      * rewrite set_same. split; [discriminate|]. intro K. apply knows_snoc in K. destruct K as [K|[_ K]]; [elim (D K)|].
        elim K. right. split; [exists deps, after, i; reflexivity|exact D].
      * rewrite set_other by exact Ng. rewrite other_knows by exact Ng. apply N.
  - destruct A as (L & G & N). eexists. split; [reflexivity|]. split; [rewrite latest_snoc; exact L|].
    split; [rewrite latest_snoc; exact G|]. intro g. cbn [notified]. rewrite knows_snoc. destruct (bytes_dec g f) as [->|Ng].
    + rewrite set_same. split; [discriminate|]. intros [(d & a & E & _)|[_ K]]; [discriminate|].
      elim K. left. exists after. reflexivity.
    + rewrite set_other by exact Ng. rewrite (N g). split.
      * intro K. right. split; [exact K|]. intros [(a & E)|[(d & a & i & E) _]]; [|discriminate].
        injection E as E _. elim Ng. symmetry. exact E.
      * intros [(d & a & E & _)|[K _]]; [discriminate|exact K].
Qed.

Lemma run_agrees : forall h, Forall proper h -> exists s, run h initial = Some s /\ agrees h s.
Proof.
  intro h. induction h as [|e h IH] using rev_ind; intro P.
  - exists initial. split; [reflexivity|]. split; [reflexivity|]. split; [reflexivity|]. intro f. split; [discriminate|].
    intros (a & x & b & E & _). destruct a; discriminate.
  - apply Forall_app in P. destruct P as [P1 P2]. inversion P2 as [|? ? P3 _]; subst.
    destruct (IH P1) as (s & E & A). destruct (step_agrees h s e A P3) as (s' & E' & A').
    exists s'. split; [rewrite run_snoc, E; exact E'|exact A'].
Qed.

Lemma cleared : forall deps t g, (In g deps -> fold_left (fun t g => set g [] t) deps t g = ([] : list N)) /\
  (~ In g deps -> fold_left (fun t g => set g [] t) deps t g = t g).
Proof.
  induction deps as [|d deps IH]; intros t g; cbn [fold_left In].
  - split; [intros []|reflexivity].
  - destruct (IH (set d [] t) g) as [I1 I2]. split.
    + intros [->|H]; [|apply I1; exact H]. destruct (in_dec (list_eq_dec N.eq_dec) g deps) as [Y|Y]; [apply I1; exact Y|].
      rewrite I2 by exact Y. apply set_same.
    + intro N. rewrite I2 by (intro H; apply N; right; exact H). apply set_other. intros ->. apply N. left. reflexivity.
Qed.
