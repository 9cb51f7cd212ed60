From Coq Require Import List NArith ZArith Bool Lia.
From Coq Require Import ZifyBool ZifyNat ZifyN.
From Verif Require Import Common Sub_Model Sub_Spec Sub_Proof Mac_Model Mac_Spec Mac_Proof Var_Proof.
Import ListNotations.
Open Scope N_scope.

(** ** The bindings of a call *)
Fixpoint bindings (d : definition) (args : list arg) (k : nat) : list (id * parameter) :=
  match args with
  | [] => []
  | (Some n, v) :: args =>
      match lookup n (named d) with Some (Keyword df) => [(n, Key df (Some v))] | _ => [] end ++ bindings d args k
  | (None, v) :: args =>
      match nth_error (positional d) k with Some (Some n) => [(n, Pos v)] | _ => [] end ++ bindings d args (S k)
  end.
Definition keywords_known (d : definition) (args : list arg) : Prop :=
  forall n v, In (Some n, v) args -> exists df, lookup n (named d) = Some (Keyword df).

Lemma bind_args_ok : forall d args m sl, keywords_known d args ->
  bind_args d args m sl = Some (emplace_all (bindings d args (length sl)) m, sl ++ operands args).
Proof.
  intros d args. induction args as [|[[n|] v] args IH]; intros m sl Hk; cbn [bind_args bindings].
  - cbn. now rewrite app_nil_r.
  - destruct (Hk n v) as [df E]; [now left|]. rewrite E.
    rewrite IH by (intros x w H; apply (Hk x w); now right). reflexivity.
  - assert (Hk' : keywords_known d args) by (intros x w H; apply (Hk x w); now right).
    rewrite IH by exact Hk'. rewrite app_length. cbn [length]. rewrite Nat.add_1_r.
    cbn [operands flat_map fst snd]. rewrite <- app_assoc. f_equal. f_equal.
    destruct (nth_error (positional d) (length sl)) as [[n|]|]; reflexivity.
Qed.

Lemma bind_missing_ok : forall l m, bind_missing l m =
  emplace_all (flat_map (fun p => match p with Some n => [(n, Pos Dummy)] | None => [] end) l) m.
Proof.
  induction l as [|[n|] l IH]; intros m; [reflexivity| |]; cbn [bind_missing fold_left flat_map app].
  - change (fold_left _ l ?x) with (bind_missing l x). now rewrite IH.
  - change (fold_left _ l ?x) with (bind_missing l x). now rewrite IH.
Qed.
Lemma bind_defaults_ok : forall l m, bind_defaults l m = emplace_all (map (fun '(n, v) => (n, Key v None)) l) m.
Proof.
  induction l as [|[n v] l IH]; intros m; [reflexivity|]. cbn [bind_defaults fold_left map].
  change (fold_left _ l ?x) with (bind_defaults l x). now rewrite IH.
Qed.

Lemma lookup_label : forall A (lab : option id) n (k : A), lookup n (match lab with Some n => [(n, k)] | None => [] end) =
  if match lab with Some m => bytes_eqb n m | None => false end then Some k else None.
Proof. intros A [m|] n k; reflexivity. Qed.

Section Call.
Variables (lab : option id) (params : list param) (d : definition).
Hypothesis Hdef : define lab params = Some d.
Hypothesis Hnodup : NoDup ((match lab with Some n => [n] | None => [] end) ++ param_names params).

Let label_names := match lab with Some n => [n] | None => [] end.

Lemma d_positional : positional d = lab :: positionals params.
Proof. destruct (add_params_ok _ _ _ Hdef) as (H & _). exact H. Qed.
Lemma d_keywords : keywords d = flat_map (fun p => match p with (Some n, Some v) => [(n, v)] | _ => [] end) params.
Proof. destruct (add_params_ok _ _ _ Hdef) as (_ & H & _). exact H. Qed.

Lemma in_names : forall n (o : option data), In (Some n, o) params -> In n (param_names params).
Proof. intros n o H. unfold param_names. apply in_flat_map. exists (Some n, o). split; [exact H|]. now left. Qed.

Lemma params_unique : forall n (a b : option data), In (Some n, a) params -> In (Some n, b) params -> a = b.
Proof.
  assert (H : NoDup (param_names params)) by (destruct lab; [inversion Hnodup; assumption|exact Hnodup]).
  clear Hdef Hnodup. revert H. induction params as [|[[m|] o] l IH]; intros H n a b Ha Hb.
  - contradiction.
  - cbn [param_names flat_map fst app] in H. inversion H as [|? ? H1 H2]; subst.
    assert (K : forall o', In (Some m, o') l -> False).
    { intros o' Ho. apply H1. unfold param_names. apply in_flat_map. exists (Some m, o'). split; [exact Ho|now left]. }
    destruct Ha as [Ha|Ha], Hb as [Hb|Hb].
    + congruence.
    + injection Ha as -> <-. exfalso. eauto.
    + injection Hb as -> <-. exfalso. eauto.
    + eapply IH; eauto.
  - destruct Ha as [Ha|Ha]; [discriminate|]. destruct Hb as [Hb|Hb]; [discriminate|]. eapply IH; eauto.
Qed.
Lemma label_not_param : forall n o, lab = Some n -> ~ In (Some n, o) params.
Proof.
  intros n o E H. rewrite E in Hnodup. inversion Hnodup as [|? ? H1 _]; subst. apply H1. now apply in_names in H.
Qed.

Lemma named_keyword : forall n df, lookup n (named d) = Some (Keyword df) <-> In (Some n, Some df) params.
Proof.
  destruct (add_params_ok _ _ _ Hdef) as (_ & _ & H). cbn [named] in H.
  set (nl := flat_map (fun p : param => match p with (Some n, Some v) => [(n, Keyword v)] | (Some n, None) => [(n, Positional)] | _ => [] end) params) in *.
  assert (Hfst : map fst nl = param_names params).
  { unfold nl, param_names. clear. induction params as [|[[n|] [v|]] l IH]; cbn; rewrite ?IH; reflexivity. }
  assert (Hnd : NoDup (map fst nl)) by (rewrite Hfst; destruct lab; [inversion Hnodup; assumption|exact Hnodup]).
  assert (Hin : forall n df, In (n, Keyword df) nl <-> In (Some n, Some df) params).
  { intros n df. unfold nl. rewrite in_flat_map. split.
    - intros ([[m|] [v|]] & X & Y); cbn in Y; try contradiction; destruct Y as [Y|[]]; try discriminate; injection Y as -> ->; exact X.
    - intros X. exists (Some n, Some df). split; [exact X|now left]. }
  intros n df. rewrite H, lookup_label.
  destruct (match lab with Some m => bytes_eqb n m | None => false end) eqn:E.
  - split; [discriminate|]. intros X. exfalso. refine (label_not_param n _ _ X).
    destruct lab; [apply bytes_eqb_eq in E; congruence|discriminate].
  - change (lookup n nl = Some (Keyword df) <-> In (Some n, Some df) params).
    rewrite (lookup_in _ n _ nl Hnd). apply Hin.
Qed.

(** The names of positional parameters are at one position only. *)
Lemma nth_positional_in : forall j n, nth_error (lab :: positionals params) j = Some (Some n) ->
  (j = 0%nat /\ lab = Some n) \/ In (Some n, None) params.
Proof.
  intros [|j] n H; cbn [nth_error] in H; [injection H as H; auto|]. right.
  apply nth_error_In in H. unfold positionals in H. apply in_flat_map in H. destruct H as ([o [v|]] & X & Y); [contradiction|].
  destruct Y as [Y|[]]. cbn in Y. now subst o.
Qed.
Lemma positional_unique : forall i j n, nth_error (lab :: positionals params) i = Some (Some n) ->
  nth_error (lab :: positionals params) j = Some (Some n) -> i = j.
Proof.
  assert (G : forall l, NoDup (param_names l) -> forall i j n, nth_error (positionals l) i = Some (Some n) ->
    nth_error (positionals l) j = Some (Some n) -> i = j).
  { induction l as [|[[m|] [v|]] l IH]; intros Hl i j n Hi Hj.
    - destruct i; discriminate.
    - cbn [positionals flat_map snd app] in Hi, Hj. inversion Hl; subst. eapply IH; eauto.
    - cbn [positionals flat_map snd fst app] in Hi, Hj. inversion Hl as [|? ? H1 H2]; subst.
      assert (K : forall k, nth_error (positionals l) k <> Some (Some m)).
      { intros k X. apply H1. apply nth_error_In in X. unfold positionals in X. apply in_flat_map in X.
        destruct X as ([o [v|]] & X & Y); [contradiction|]. destruct Y as [Y|[]]. cbn in Y. subst o.
        apply in_flat_map. exists (Some m, None). split; [exact X|now left]. }
      destruct i as [|i], j as [|j]; cbn [nth_error] in Hi, Hj; [reflexivity| | |f_equal; eapply IH; eauto].
      + injection Hi as <-. exfalso. now apply (K j).
      + injection Hj as <-. exfalso. now apply (K i).
    - eapply IH; eauto.
    - cbn [positionals flat_map snd fst app] in Hi, Hj.
      destruct i as [|i], j as [|j]; cbn [nth_error] in Hi, Hj; try discriminate; f_equal; eapply IH; eauto. }
  intros [|i] [|j] n Hi Hj; [reflexivity| | |].
  - exfalso. cbn in Hi. injection Hi as Hi. destruct (nth_positional_in (S j) n Hj) as [[? _]|X]; [discriminate|]. eapply label_not_param; eauto.
  - exfalso. cbn in Hj. injection Hj as Hj. destruct (nth_positional_in (S i) n Hi) as [[? _]|X]; [discriminate|]. eapply label_not_param; eauto.
  - f_equal. cbn in Hi, Hj. eapply G; eauto. destruct lab; [inversion Hnodup; assumption|exact Hnodup].
Qed.
Lemma positional_not_keyword : forall j n df, nth_error (lab :: positionals params) j = Some (Some n) -> lookup n (named d) <> Some (Keyword df).
Proof.
  intros j n df H X. apply named_keyword in X. apply nth_positional_in in H. destruct H as [[_ H]|H].
  - eapply label_not_param; eauto.
  - pose proof (params_unique _ _ _ H X). discriminate.
Qed.

(** Lookup in the bindings of the operands. *)
Lemma bindings_positional : forall args k j n, nth_error (positional d) j = Some (Some n) ->
  lookup n (bindings d args k) = if (j <? k)%nat then None else option_map Pos (nth_error (operands args) (j - k)).
Proof.
  rewrite d_positional. induction args as [|[[m|] v] args IH]; intros k j n Hj; cbn [bindings].
  - cbn [lookup operands flat_map]. destruct (j - k)%nat; destruct (j <? k)%nat; reflexivity.
  - rewrite lookup_app. cbn [operands flat_map fst app]. fold (operands args).
    assert (lookup n (match lookup m (named d) with Some (Keyword df) => [(m, Key df (Some v))] | _ => [] end) = None) as ->.
    { destruct (lookup m (named d)) as [[|df]|] eqn:E; try reflexivity. cbn [lookup]. destruct (bytes_eqb n m) eqn:En; [|reflexivity].
      apply bytes_eqb_eq in En. subst m. exfalso. eapply positional_not_keyword; eauto. }
    now apply IH.
  - rewrite lookup_app. cbn [operands flat_map fst snd app]. fold (operands args). rewrite (IH (S k) j n Hj).
    rewrite d_positional. destruct (Nat.eq_dec j k) as [->|Hne].
    + rewrite Hj. cbn [lookup]. rewrite bytes_eqb_refl. rewrite Nat.ltb_irrefl, Nat.sub_diag. reflexivity.
    + assert (lookup n (match nth_error (lab :: positionals params) k with Some (Some m) => [(m, Pos v)] | _ => [] end) = None) as ->.
      { destruct (nth_error (lab :: positionals params) k) as [[m|]|] eqn:E; try reflexivity. cbn [lookup].
        destruct (bytes_eqb n m) eqn:En; [|reflexivity]. apply bytes_eqb_eq in En. subst m. exfalso. apply Hne.
        eapply positional_unique; eauto. }
      destruct (Nat.ltb_spec j k); destruct (Nat.ltb_spec j (S k)); try lia; [reflexivity|].
      replace (j - k)%nat with (S (j - S k))%nat by lia. reflexivity.
Qed.
Lemma bindings_keyword : forall args k n df, lookup n (named d) = Some (Keyword df) ->
  lookup n (bindings d args k) = option_map (fun v => Key df (Some v)) (assigned n args).
Proof.
  induction args as [|[[m|] v] args IH]; intros k n df H; cbn [bindings assigned]; [reflexivity| |].
  - rewrite lookup_app. destruct (bytes_eqb n m) eqn:En.
    + apply bytes_eqb_eq in En. subst m. rewrite H. cbn [lookup]. now rewrite bytes_eqb_refl.
    + rewrite (IH k n df H). destruct (lookup m (named d)) as [[|df']|]; try reflexivity. cbn [lookup]. now rewrite En.
  - rewrite lookup_app, (IH (S k) n df H). rewrite d_positional.
    destruct (nth_error (lab :: positionals params) k) as [[m|]|] eqn:E; try reflexivity. cbn [lookup].
    destruct (bytes_eqb n m) eqn:En; [|reflexivity]. apply bytes_eqb_eq in En. subst m. exfalso. eapply positional_not_keyword; eauto.
Qed.
Lemma bindings_other : forall args k n, keywords_known d args ->
  (forall df, lookup n (named d) <> Some (Keyword df)) -> (forall j, nth_error (positional d) j <> Some (Some n)) ->
  lookup n (bindings d args k) = None.
Proof.
  induction args as [|[[m|] v] args IH]; intros k n Hk H1 H2; cbn [bindings]; [reflexivity| |];
    assert (Hk' : keywords_known d args) by (intros x w H; apply (Hk x w); now right); rewrite lookup_app, IH by auto.
  - destruct (lookup m (named d)) as [[|df]|] eqn:E; try reflexivity. cbn [lookup]. destruct (bytes_eqb n m) eqn:En; [|reflexivity].
    apply bytes_eqb_eq in En. subst m. exfalso. eapply H1; eauto.
  - destruct (nth_error (positional d) k) as [[m|]|] eqn:E; try reflexivity. cbn [lookup]. destruct (bytes_eqb n m) eqn:En; [|reflexivity].
    apply bytes_eqb_eq in En. subst m. exfalso. eapply H2; eauto.
Qed.

Lemma missing_lookup : forall l n, lookup n (flat_map (fun p => match p with Some n => [(n, Pos Dummy)] | None => [] end) l) =
  if existsb (fun p => match p with Some m => bytes_eqb n m | None => false end) l then Some (Pos Dummy) else None.
Proof.
  induction l as [|[m|] l IH]; intros n; cbn [flat_map app lookup existsb orb]; [reflexivity| |apply IH].
  rewrite IH. destruct (bytes_eqb n m); reflexivity.
Qed.
Lemma existsb_nth : forall l n, existsb (fun p : option id => match p with Some m => bytes_eqb n m | None => false end) l = true <->
  exists j, nth_error l j = Some (Some n).
Proof.
  intros l n. rewrite existsb_exists. split.
  - intros ([m|] & H & E); [|discriminate]. apply bytes_eqb_eq in E. subst m. now apply In_nth_error in H.
  - intros [j H]. exists (Some n). split; [eapply nth_error_In; eauto|apply bytes_eqb_refl].
Qed.
Lemma nth_error_skipn' : forall A (l : list A) k j, nth_error (skipn k l) j = nth_error l (k + j).
Proof. induction l as [|x l IH]; intros [|k] j; try reflexivity; [destruct j; reflexivity|]. apply IH. Qed.
Lemma defaults_lookup : forall n, lookup n (map (fun '(n, v) => (n, Key v None)) (keywords d)) =
  match lookup n (keywords d) with Some v => Some (Key v None) | None => None end.
Proof.
  intros n. induction (keywords d) as [|[m v] l IH]; [reflexivity|]. cbn [map lookup]. destruct (bytes_eqb n m); auto.
Qed.
Lemma keywords_lookup : forall n df, In (Some n, Some df) params -> lookup n (keywords d) = Some df.
Proof.
  intros n df H. rewrite d_keywords. set (kl := flat_map (fun p : param => match p with (Some n, Some v) => [(n, v)] | _ => [] end) params). change (lookup n kl = Some df).
  destruct (lookup n kl) as [v|] eqn:E.
  - f_equal. assert (X : In (n, v) kl).
    { clear -E. induction kl as [|[m w] kl IH]; [discriminate|]. cbn [lookup] in E. destruct (bytes_eqb n m) eqn:En.
      - apply bytes_eqb_eq in En. left. congruence.
      - right. now apply IH. }
    unfold kl in X. apply in_flat_map in X. destruct X as ([[m|] [w|]] & X & Y); cbn in Y; try contradiction; destruct Y as [Y|[]]. injection Y as -> ->.
    pose proof (params_unique _ _ _ X H). congruence.
  - exfalso. apply lookup_none in E. apply E. unfold kl. apply in_map_iff. exists (n, df). split; [reflexivity|].
    apply in_flat_map. exists (Some n, Some df). split; [exact H|now left].
Qed.
Lemma keywords_lookup_in : forall n df, lookup n (keywords d) = Some df -> In (Some n, Some df) params.
Proof.
  intros n df E. rewrite d_keywords in E. set (kl := flat_map (fun p : param => match p with (Some n, Some v) => [(n, v)] | _ => [] end) params). change (lookup n kl = Some df) in E.
  assert (X : In (n, df) kl).
  { clear -E. induction kl as [|[m w] kl IH]; [discriminate|]. cbn [lookup] in E. destruct (bytes_eqb n m) eqn:En.
    - apply bytes_eqb_eq in En. left. congruence.
    - right. now apply IH. }
  unfold kl in X. apply in_flat_map in X. destruct X as ([[m|] [w|]] & X & Y); cbn in Y; try contradiction; destruct Y as [Y|[]]. now injection Y as -> ->.
Qed.

Section Args.
Variables (given : option data) (args : list arg).
Hypothesis Hargs : forall n v, In (Some n, v) args -> exists df, keyword_in params n df.
Let lv := match given with Some v => v | None => Dummy end.

Lemma args_known : keywords_known d args.
Proof. intros n v H. destruct (Hargs n v H) as [df X]. exists df. now apply named_keyword. Qed.

Lemma call_lookup : exists m, call d given args = Some m /\ forall n, lookup n m =
  match lookup n (match lab with Some n => [(n, Pos lv)] | None => [] end) with
  | Some x => Some x
  | None =>
      match lookup n (bindings d args 1) with
      | Some x => Some x
      | None =>
          if existsb (fun p => match p with Some m => bytes_eqb n m | None => false end) (skipn (S (length (operands args))) (positional d))
          then Some (Pos Dummy)
          else match lookup n (keywords d) with
               | Some v => Some (Key v None)
               | None => if bytes_eqb n SYSLIST then Some (Syslist (Composite (lv :: operands args))) else None
               end
      end
  end.
Proof.
  unfold call. fold lv. rewrite d_positional. rewrite (bind_args_ok d args _ _ args_known). eexists. split; [reflexivity|].
  intros n. rewrite lookup_emplace, bind_defaults_ok, lookup_emplace_all, bind_missing_ok, lookup_emplace_all, lookup_emplace_all.
  cbn [length app]. rewrite missing_lookup, defaults_lookup.
  replace (match lab :: positionals params with [] => [] | Some n0 :: _ => [(n0, Pos lv)] | None :: _ => [] end)
    with (match lab with Some n => [(n, Pos lv)] | None => [] end) by (destruct lab; reflexivity).
  destruct (lookup n (match lab with Some n => [(n, Pos lv)] | None => [] end)); [reflexivity|].
  destruct (lookup n (bindings d args 1)); [reflexivity|].
  destruct (existsb _ _); [reflexivity|]. destruct (lookup n (keywords d)); reflexivity.
Qed.

Lemma start_none : forall n, lab <> Some n -> lookup n (match lab with Some n => [(n, Pos lv)] | None => [] end) = None.
Proof.
  intros n H. destruct lab as [l|]; [|reflexivity]. cbn [lookup]. destruct (bytes_eqb n l) eqn:E; [|reflexivity].
  apply bytes_eqb_eq in E. congruence.
Qed.

Theorem call_bound : exists m, call d given args = Some m /\
  (forall n, lab = Some n -> exists p, lookup n m = Some p /\ real_data p = lv) /\
  (forall i n, nth_error (positionals params) i = Some (Some n) ->
     exists p, lookup n m = Some p /\ (forall x, p <> Syslist x) /\ real_data p = nth i (operands args) Dummy) /\
  (forall n df, keyword_in params n df -> exists p, lookup n m = Some p /\ (forall x, p <> Syslist x) /\
     real_data p = match assigned n args with Some v => v | None => df end) /\
  (lab <> Some SYSLIST -> ~ In SYSLIST (param_names params) -> lookup SYSLIST m = Some (Syslist (Composite (lv :: operands args)))) /\
  (forall n, lab <> Some n -> ~ In n (param_names params) -> n <> SYSLIST -> lookup n m = None).
Proof.
  destruct call_lookup as (m & Hm & HL). exists m. refine (conj Hm (conj _ (conj _ (conj _ (conj _ _))))).
  - intros n E. exists (Pos lv). split; [|reflexivity]. rewrite HL, E. cbn [lookup]. now rewrite bytes_eqb_refl.
  - intros i n Hi. assert (Hpos : nth_error (lab :: positionals params) (S i) = Some (Some n)) by exact Hi.
    assert (Hl : lab <> Some n).
    { intros E. assert (X : nth_error (lab :: positionals params) 0 = Some (Some n)) by (cbn; congruence).
      pose proof (positional_unique _ _ _ Hpos X). discriminate. }
    exists (Pos (nth i (operands args) Dummy)). split; [|split; [discriminate|reflexivity]].
    rewrite HL, start_none by exact Hl. rewrite (bindings_positional args 1 (S i) n) by (rewrite d_positional; exact Hpos).
    cbn [Nat.ltb Nat.leb Nat.sub]. rewrite Nat.sub_0_r. change (S i <? 1)%nat with false. cbv iota.
    destruct (nth_error (operands args) i) as [v|] eqn:E; cbn [option_map].
    + now rewrite (nth_error_nth _ _ Dummy E).
    + apply nth_error_None in E. rewrite nth_overflow by exact E.
      assert (existsb (fun p => match p with Some m => bytes_eqb n m | None => false end) (skipn (S (length (operands args))) (positional d)) = true) as ->; [|reflexivity].
      apply existsb_nth. exists (i - length (operands args))%nat. rewrite nth_error_skipn', d_positional.
      replace (S (length (operands args)) + (i - length (operands args)))%nat with (S i) by lia. exact Hpos.
  - intros n df Hk. assert (Hn : lookup n (named d) = Some (Keyword df)) by now apply named_keyword.
    assert (Hl : lab <> Some n) by (intros E; eapply label_not_param; eauto).
    assert (Hnp : forall j, nth_error (positional d) j <> Some (Some n)).
    { intros j X. rewrite d_positional in X. eapply positional_not_keyword; eauto. }
    destruct (assigned n args) as [v|] eqn:E.
    + exists (Key df (Some v)). split; [|split; [discriminate|reflexivity]].
      rewrite HL, start_none by exact Hl. rewrite (bindings_keyword args 1 n df Hn), E. reflexivity.
    + exists (Key df None). split; [|split; [discriminate|reflexivity]].
      rewrite HL, start_none by exact Hl. rewrite (bindings_keyword args 1 n df Hn), E. cbn [option_map].
      assert (existsb (fun p => match p with Some m => bytes_eqb n m | None => false end) (skipn (S (length (operands args))) (positional d)) = false) as ->.
      { destruct (existsb _ _) eqn:X; [|reflexivity]. exfalso. apply existsb_nth in X. destruct X as [j X].
        rewrite nth_error_skipn' in X. eapply Hnp; eauto. }
      now rewrite (keywords_lookup n df Hk).
  - assert (G : forall n, lab <> Some n -> ~ In n (param_names params) ->
      lookup n m = if bytes_eqb n SYSLIST then Some (Syslist (Composite (lv :: operands args))) else None).
    { intros n Hl Hn. rewrite HL, start_none by exact Hl.
      assert (Hnp : forall j, nth_error (positional d) j <> Some (Some n)).
      { intros j X. rewrite d_positional in X. apply nth_positional_in in X. destruct X as [[_ X]|X]; [contradiction|].
        apply Hn. now apply in_names in X. }
      assert (Hnk : forall df, ~ In (Some n, Some df) params) by (intros df X; apply Hn; now apply in_names in X).
      rewrite bindings_other; [|apply args_known| |exact Hnp].
      - assert (existsb (fun p => match p with Some m => bytes_eqb n m | None => false end) (skipn (S (length (operands args))) (positional d)) = false) as ->.
        { destruct (existsb _ _) eqn:X; [|reflexivity]. exfalso. apply existsb_nth in X. destruct X as [j X].
          rewrite nth_error_skipn' in X. eapply Hnp; eauto. }
        destruct (lookup n (keywords d)) as [v|] eqn:E; [|reflexivity]. exfalso. apply keywords_lookup_in in E. now apply Hnk in E.
      - intros df X. apply named_keyword in X. now apply Hnk in X. }
    intros Hl Hn. rewrite (G SYSLIST Hl Hn). now rewrite bytes_eqb_refl.
  - intros n Hl Hn Hs. rewrite HL, start_none by exact Hl.
    assert (Hnp : forall j, nth_error (positional d) j <> Some (Some n)).
    { intros j X. rewrite d_positional in X. apply nth_positional_in in X. destruct X as [[_ X]|X]; [contradiction|].
      apply Hn. now apply in_names in X. }
    assert (Hnk : forall df, ~ In (Some n, Some df) params) by (intros df X; apply Hn; now apply in_names in X).
    rewrite bindings_other; [|apply args_known| |exact Hnp].
    + assert (existsb (fun p => match p with Some m => bytes_eqb n m | None => false end) (skipn (S (length (operands args))) (positional d)) = false) as ->.
      { destruct (existsb _ _) eqn:X; [|reflexivity]. exfalso. apply existsb_nth in X. destruct X as [j X].
        rewrite nth_error_skipn' in X. eapply Hnp; eauto. }
      destruct (lookup n (keywords d)) as [v|] eqn:E; [exfalso; apply keywords_lookup_in in E; now apply Hnk in E|].
      destruct (bytes_eqb n SYSLIST) eqn:Es; [|reflexivity]. apply bytes_eqb_eq in Es. contradiction.
    + intros df X. apply named_keyword in X. now apply Hnk in X.
Qed.
End Args.

(** ** The operands of a call only use keywords of the macro. *)
Lemma get_arg_known : forall seen op n v seen' notes, get_arg d seen op = Arg (Some n, v) seen' notes ->
  exists df, keyword_in params n df.
Proof.
  intros seen op n v seen' notes H. unfold get_arg in H. destruct op as [|c]; [discriminate|].
  assert (Plain : forall r, match r with Some v => Arg (None, v) seen [] | None => Overflow end <> Arg (Some n, v) seen' notes)
    by (intros [r|]; discriminate).
  destruct (keyword_of c) as [[s k]|].
  - destruct (lookup k (named d)) as [[|df]|] eqn:E; [discriminate| |discriminate].
    apply named_keyword in E. exists df. destruct (match tl (tl c) with [Sub _] => _ | _ => _ end); [|discriminate].
    injection H as <- _ _ _. exact E.
  - exfalso. destruct c as [|p c]; [now apply Plain in H|].
    destruct p; try (now apply Plain in H); destruct c; now apply Plain in H.
Qed.
Lemma get_args_known : forall ops seen args notes, get_args d seen ops = Some (args, notes) ->
  forall n v, In (Some n, v) args -> exists df, keyword_in params n df.
Proof.
  induction ops as [|op ops IH]; intros seen args notes H n v Hin; cbn [get_args] in H.
  - injection H as <- _. contradiction.
  - destruct (get_arg d seen op) as [a seen' ns|] eqn:E; [|discriminate].
    destruct (get_args d seen' ops) as [[l more]|] eqn:E2; [|discriminate]. injection H as <- _.
    destruct Hin as [->|Hin]; [eapply get_arg_known; eauto|eapply IH; eauto].
Qed.
End Call.

(** ** The prototype *)
Lemma has_in : forall n l, has n l = true <-> In n l.
Proof.
  intros n l. unfold has. rewrite existsb_exists. split.
  - intros (m & H & E). apply bytes_eqb_eq in E. now subst.
  - intros H. exists n. split; [exact H|apply bytes_eqb_refl].
Qed.
Lemma prototype_operand_ok : forall names op l names', prototype_operand names op = (l, names') ->
  names' = names ++ param_names l /\ (NoDup names -> NoDup names') /\ (forall v, ~ In (None, Some v) l).
Proof.
  intros names op l names' H.
  assert (One : forall v k, plain_name v <> None \/ plain_name v = None ->
    (match test_validity v names k with inl n => ([(Some n, None)], names ++ [n]) | inr l => (l, names) end = (l, names') \/
     exists w, match test_validity v names k with inl n => ([(Some n, Some w)], names ++ [n]) | inr l => (l, names) end = (l, names')) ->
    names' = names ++ param_names l /\ (NoDup names -> NoDup names') /\ (forall v, ~ In (None, Some v) l)).
  { intros v k _ X. unfold test_validity in X. destruct (plain_name v) as [n|].
    - destruct (has n names) eqn:E.
      + assert (Y : (if k then [(None, None)] else []) = l /\ names = names') by (destruct X as [X|[w X]]; injection X as <- <-; auto).
        destruct Y as [<- <-]. destruct k; cbn; rewrite app_nil_r; refine (conj eq_refl (conj _ _)); auto.
        intros w [Y|[]]. discriminate.
      + assert (Hn : ~ In n names) by (intros Y; apply has_in in Y; congruence).
        assert (Hd : NoDup names -> NoDup (names ++ [n])).
        { intros Hd. clear -Hn Hd. induction names as [|m names IH]; cbn [app]; [constructor; [auto|constructor]|].
          inversion Hd; subst. constructor.
          - intros Y. apply in_app_iff in Y. destruct Y as [Y|[Y|[]]]; [contradiction|]. subst. apply Hn. now left.
          - apply IH; [intros Y; apply Hn; now right|assumption]. }
        destruct X as [X|[w X]]; injection X as <- <-; refine (conj eq_refl (conj Hd _)); intros w' [Y|[]]; discriminate.
    - assert (Y : [(None, None)] = l /\ names = names') by (destruct X as [X|[w X]]; injection X as <- <-; auto).
      destruct Y as [<- <-]. cbn. rewrite app_nil_r. refine (conj eq_refl (conj _ _)); auto. intros w [Y|[]]. discriminate. }
  assert (Nil : forall o, (l, names') = (o, names) -> o = [] \/ o = [(None, None)] ->
    names' = names ++ param_names l /\ (NoDup names -> NoDup names') /\ (forall v, ~ In (None, Some v) l)).
  { intros o E Ho. injection E as -> ->. destruct Ho as [-> | ->]; cbn; rewrite app_nil_r; refine (conj eq_refl (conj _ _)); auto.
    intros w [Y|[]]. discriminate. }
  assert (Dec : forall v, plain_name v <> None \/ plain_name v = None) by (intros v; destruct (plain_name v); [left; discriminate|auto]).
  unfold prototype_operand in H. destruct op as [|[|p c]]; [eapply Nil; eauto|eapply Nil; eauto|].
  destruct p; try (eapply Nil; eauto; fail).
  destruct c as [|q c]; [eapply (One v true); eauto|].
  destruct q; try (eapply Nil; eauto; fail). eapply (One v false); eauto.
Qed.
Lemma prototype_operands_ok : forall ops names l, NoDup names -> prototype_operands names ops = l ->
  NoDup (names ++ param_names l) /\ forall v, ~ In (None, Some v) l.
Proof.
  induction ops as [|op ops IH]; intros names l Hn H; cbn [prototype_operands] in H.
  - subst l. cbn. rewrite app_nil_r. auto.
  - destruct (prototype_operand names op) as [l1 names1] eqn:E. destruct (prototype_operand_ok _ _ _ _ E) as (H1 & H2 & H3).
    destruct (IH names1 _ (H2 Hn) eq_refl) as [H4 H5]. subst l names1. split.
    + unfold param_names in *. rewrite flat_map_app, app_assoc. exact H4.
    + intros v X. apply in_app_iff in X. destruct X as [X|X]; [now apply H3 in X|now apply H5 in X].
Qed.
Lemma add_params_total : forall l d, (forall v, ~ In (None, Some v) l) -> exists d', add_params d l = Some d'.
Proof.
  induction l as [|[[n|] [v|]] l IH]; intros d H; cbn [add_params add_param]; eauto.
  - apply IH. intros w X. apply (H w). now right.
  - apply IH. intros w X. apply (H w). now right.
  - exfalso. apply (H v). now left.
  - apply IH. intros w X. apply (H w). now right.
Qed.
Theorem prototype_defines : forall label ops name_param params, prototype label ops = (name_param, params) ->
  NoDup ((match name_param with Some n => [n] | None => [] end) ++ param_names params) /\
  exists d, define name_param params = Some d.
Proof.
  intros label ops name_param params H. unfold prototype in H. injection H as <- <-.
  set (np := match label with Some v => plain_name v | None => None end).
  destruct (prototype_operands_ok ops (match np with Some n => [n] | None => [] end) _ ltac:(destruct np; repeat constructor; auto) eq_refl) as [H1 H2].
  split; [exact H1|]. now apply add_params_total.
Qed.
