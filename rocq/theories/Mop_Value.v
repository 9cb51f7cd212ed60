(** * Mop_Value: the values of operands without variable symbols *)
From Coq Require Import List NArith ZArith Bool Lia.
From Verif Require Import Common Sub_Model Mac_Model Mac_Proof Mop_Model Mop_Spec Mop_Proof.
Import ListNotations.
Open Scope N_scope.

Lemma source_app : forall a b, source (a ++ b) = source a ++ source b.
Proof. intros. apply flat_map_app. Qed.
Lemma source_cons : forall t b, source (t :: b) = shows t ++ source b.
Proof. reflexivity. Qed.

Lemma cat_some : forall a b, cat (Some a) (Some b) = Some (a ++ b). Proof. reflexivity. Qed.

Lemma eval_tok : forall t c, no_var t ->
  evaluate_from false (point_of t :: c) = cat (Some (shows t)) (evaluate_from false c).
Proof. intros t c H. destruct t; try reflexivity. destruct H. Qed.

Lemma eval_toks : forall b c, Forall no_var b ->
  evaluate_from false (map point_of b ++ c) = cat (Some (source b)) (evaluate_from false c).
Proof.
  induction b as [|t b IH]; intros c H.
  - cbn. destruct (evaluate_from false c); reflexivity.
  - inversion H as [|? ? Ht Hb]; subst. cbn [map app]. rewrite (eval_tok _ _ Ht), (IH _ Hb), source_cons.
    destruct (evaluate_from false c); cbn [cat]; [now rewrite app_assoc|reflexivity].
Qed.

Lemma no_var_app : forall a b, Forall no_var (a ++ b) -> Forall no_var a /\ Forall no_var b.
Proof. intros a b H. now apply Forall_app. Qed.

Lemma eval_its :
  (forall i, Forall no_var (itext i) -> evaluate_from false (chain_of i) = Some (source (itext i))) /\
  (forall p, Forall no_var (ptext p) ->
     exists ts, all_some (map evaluate (chains_of p)) = Some ts /\ ts <> [] /\ joined ts = source (ptext p)).
Proof.
  apply its_parts_ind.
  - reflexivity.
  - intros t r IH H. cbn [itext chain_of] in *. inversion H as [|? ? Ht Hr]; subst.
    rewrite (eval_tok _ _ Ht), (IH Hr). reflexivity.
  - intros a b z r IH H. cbn [itext chain_of] in *. inversion H as [|? ? Ha H1]; subst.
    apply no_var_app in H1. destruct H1 as [Hb H1]. inversion H1 as [|? ? Hz Hr]; subst.
    rewrite (eval_tok _ _ Ha), (eval_toks _ _ Hb), (eval_tok _ _ Hz), (IH Hr). cbn [cat].
    rewrite source_cons, source_app, source_cons. reflexivity.
  - intros p IHp r IHr H. cbn [itext chain_of] in *. inversion H as [|? ? _ H1]; subst.
    apply no_var_app in H1. destruct H1 as [Hp H1]. inversion H1 as [|? ? _ Hr]; subst.
    change (evaluate_from false (Sub (chains_of p) :: chain_of r))
      with (cat (evaluate_point (Sub (chains_of p))) (evaluate_from false (chain_of r))).
    rewrite evaluate_sub. destruct (IHp Hp) as (ts & -> & _ & Hj). rewrite (IHr Hr), Hj.
    rewrite source_cons, source_app, source_cons. cbn [cat shows app]. now rewrite <- app_assoc.
  - intros i IH H. cbn [ptext chains_of map all_some] in *.
    unfold evaluate. rewrite (IH H). eexists; repeat split. discriminate.
  - intros i IHi p IHp H. cbn [ptext chains_of map all_some] in *.
    apply no_var_app in H. destruct H as [Hi H]. inversion H as [|? ? _ Hp]; subst.
    destruct (IHp Hp) as (ts & E & Hn & Hj). unfold evaluate at 1. rewrite (IHi Hi), E.
    eexists; repeat split; [discriminate|]. rewrite source_app, source_cons, <- Hj.
    destruct ts; [contradiction|reflexivity].
Qed.

Lemma eval_text : forall i, Forall no_var (itext i) -> evaluate (chain_of i) = Some (source (itext i)).
Proof. intros i. apply (proj1 eval_its). Qed.

Lemma point_data_sub : forall l, point_data evaluate (Sub l) =
  match all_some (map create_data l) with Some ds => Some (Composite ds) | None => None end.
Proof.
  intros l. cbn [point_data].
  assert (E : (fix items (l : list (list point)) : option (list data) :=
           match l with
           | [] => Some []
           | c :: l' =>
               match (match c with
                      | [] => Some Dummy
                      | [p] => point_data evaluate p
                      | _ => match evaluate c with Some t => Some (Single t) | None => None end
                      end), items l' with
               | Some d, Some ds => Some (d :: ds)
               | _, _ => None
               end
           end) l = all_some (map create_data l)).
  { induction l as [|c l IH]; [reflexivity|]. rewrite IH. cbn [map all_some].
    change (create_data c) with (create_inner evaluate c). unfold create_inner.
    destruct (match c with
              | [] => Some Dummy
              | [p] => point_data evaluate p
              | _ :: _ :: _ => match evaluate c with Some t => Some (Single t) | None => None end
              end); [|reflexivity].
    destruct (all_some (map create_data l)); reflexivity. }
  rewrite E. reflexivity.
Qed.

Lemma data_long : forall c t, evaluate c = Some t -> (2 <= length c)%nat -> create_data c = Some (Single t).
Proof.
  intros c t E H. unfold create_data, create_inner. destruct c as [|p [|q c]]; cbn [length] in H; try lia.
  now rewrite E.
Qed.

Lemma data_its :
  (forall i, proper i -> Forall no_var (itext i) -> create_data (chain_of i) = Some (value_of i)) /\
  (forall p, pproper p -> Forall no_var (ptext p) -> all_some (map create_data (chains_of p)) = Some (values_of p)).
Proof.
  apply its_parts_ind.
  - reflexivity.
  - intros t r IH Hp H. pose proof (eval_text _ H) as E.
    assert (V : value_of (ITok t r) = Single (source (itext (ITok t r)))) by reflexivity. rewrite V.
    destruct r; [|apply data_long; [exact E|cbn [chain_of length]; try rewrite len_app; cbn [length]; lia]..].
    cbn [chain_of] in E |- *. unfold create_data, create_inner.
    destruct Hp as [Ht _]. destruct t; cbn in Ht; try contradiction; cbn [point_of] in *;
      cbn [point_data]; rewrite E; reflexivity.
  - intros a b z r IH Hp H. pose proof (eval_text _ H) as E.
    assert (V : value_of (IStr a b z r) = Single (source (itext (IStr a b z r)))) by reflexivity. rewrite V.
    apply data_long; [exact E|]. cbn [chain_of length]. rewrite len_app. cbn [length]. lia.
  - intros p IHp r IHr Hp H. pose proof (eval_text _ H) as E. destruct Hp as [Hp Hr].
    destruct r.
    + cbn [chain_of value_of]. unfold create_data, create_inner. rewrite point_data_sub.
      cbn [itext] in H. inversion H as [|? ? _ H1]; subst. apply no_var_app in H1. destruct H1 as [H1 _].
      now rewrite (IHp Hp H1).
    + assert (V : value_of (ISub p (ITok t r)) = Single (source (itext (ISub p (ITok t r))))) by reflexivity.
      rewrite V. apply data_long; [exact E|cbn [chain_of length]; lia].
    + assert (V : value_of (ISub p (IStr a b z r)) = Single (source (itext (ISub p (IStr a b z r))))) by reflexivity.
      rewrite V. apply data_long; [exact E|]. cbn [chain_of length]. lia.
    + assert (V : value_of (ISub p (ISub p0 r)) = Single (source (itext (ISub p (ISub p0 r))))) by reflexivity.
      rewrite V. apply data_long; [exact E|cbn [chain_of length]; lia].
  - intros i IH Hp H. cbn [chains_of map all_some values_of]. now rewrite (IH Hp H).
  - intros i IHi p IHp [Hi Hp] H. cbn [chains_of map all_some values_of ptext] in *.
    apply no_var_app in H. destruct H as [H1 H]. inversion H as [|? ? _ H2]; subst.
    now rewrite (IHi Hi H1), (IHp Hp H2).
Qed.

(** The value has the text of the operand. *)
Lemma value_text : 
  (forall i, get_value (value_of i) = source (itext i)) /\
  (forall p, joined (map get_value (values_of p)) = source (ptext p)).
Proof.
  apply its_parts_ind; try reflexivity.
  - intros p IHp r IHr. destruct r; try reflexivity.
    cbn [value_of get_value itext]. rewrite IHp, source_cons, source_app, source_cons. reflexivity.
  - intros i IH. cbn [values_of map joined ptext]. exact IH.
  - intros i IHi p IHp. cbn [values_of map ptext]. rewrite source_app, source_cons, <- IHp, <- IHi.
    assert (map get_value (values_of p) <> []) by (destruct p; discriminate).
    destruct (map get_value (values_of p)); [contradiction|reflexivity].
Qed.

Lemma values_nth : forall p, values_of p = map value_of (part_list p).
Proof. induction p as [i|i p IH]; cbn [values_of part_list map]; [reflexivity|now rewrite IH]. Qed.

(** An operand that begins with a word and an equals sign *)
Definition keyword_form (i : its) : Prop :=
  exists s r n, i = ITok (TText s) (ITok TEqu r) /\ symbol_name s = Some n.

Lemma point_text : forall t s, proper (ITok t INil) -> point_of t = Str s -> t = TText s \/ t = TAttr.
Proof. intros t s [H _] E; destruct t; cbn in *; try discriminate; try contradiction; auto.
  injection E as ->. now left.
Qed.

Lemma quote_no_name : symbol_name [39] = None. Proof. reflexivity. Qed.

Lemma not_keyword : forall i, proper i -> ~ keyword_form i -> keyword_of (chain_of i) = None.
Proof.
  intros i Hp Hk. destruct i as [|t r|a b z r|p r]; cbn [chain_of keyword_of]; try reflexivity.
  - destruct (point_of t) eqn:E; try reflexivity.
    destruct (chain_of r) as [|q c] eqn:Er; [reflexivity|]. destruct q; try reflexivity.
    destruct (symbol_name s) as [n|] eqn:En; [|reflexivity]. exfalso.
    destruct Hp as [Ht Hr].
    destruct (point_text t s (conj Ht I) E) as [->| ->].
    + apply Hk. destruct r as [|t' r|a b z r|p r]; cbn [chain_of] in Er; try discriminate.
      * destruct Hr as [Ht' _]. destruct t'; cbn in Er, Ht'; try discriminate; try contradiction.
        exists s, r, n. split; [reflexivity|exact En].
      * destruct Hr as (-> & _). discriminate.
    + cbn in E. injection E as <-. now rewrite quote_no_name in En.
  - destruct Hp as (-> & Hb & Hz & _). cbn [point_of shows].
    destruct (map point_of b ++ point_of z :: chain_of r) as [|q c]; [reflexivity|].
    destruct q; reflexivity.
Qed.

Lemma plain_value : forall d seen i, proper i -> Forall no_var (itext i) -> ~ keyword_form i ->
  get_arg d seen (operand_of i) = Arg (None, value_of i) seen [].
Proof.
  intros d seen i Hp Hv Hk. destruct i as [|t r|a b z r|p r]; [reflexivity|..]; unfold operand_of, get_arg;
    rewrite (not_keyword _ Hp Hk);
    match goal with |- match ?c with _ => _ end = _ => 
      assert (N : forall v, c <> [Var v]) end.
  - intros v. cbn [chain_of]. destruct t; try discriminate. inversion Hv as [|? ? Ht _]. destruct Ht.
  - pose proof (proj1 data_its _ Hp Hv) as D. cbn [chain_of] in *. destruct t; cbn [point_of] in *;
      try (rewrite D; reflexivity). inversion Hv as [|? ? Ht _]. destruct Ht.
  - intros v. cbn [chain_of]. destruct b; discriminate.
  - pose proof (proj1 data_its _ Hp Hv) as D. destruct Hp as (-> & _). cbn [chain_of point_of] in *.
    rewrite D. reflexivity.
  - discriminate.
  - pose proof (proj1 data_its _ Hp Hv) as D. cbn [chain_of] in *. rewrite D. reflexivity.
Qed.

Lemma keyword_list : forall d seen s n p def, proper (ISub p INil) -> Forall no_var (ptext p) ->
  symbol_name s = Some n -> lookup n (named d) = Some (Keyword def) ->
  exists notes seen', get_arg d seen (operand_of (ITok (TText s) (ITok TEqu (ISub p INil)))) =
    Arg (Some n, Composite (map value_of (part_list p))) seen' notes.
Proof.
  intros d seen s n p def Hp Hv Hs Hl. cbn [operand_of chain_of point_of shows get_arg keyword_of].
  rewrite Hs, Hl. cbn [tl].
  assert (V : Forall no_var (itext (ISub p INil))).
  { cbn [itext]. constructor; [exact I|]. apply Forall_app. split; [exact Hv|]. repeat constructor. }
  pose proof (proj1 data_its _ Hp V) as D. cbn [chain_of value_of] in D. rewrite D.
  rewrite values_nth. eauto.
Qed.

Lemma keyword_text : forall d seen s n i def, proper i -> Forall no_var (itext i) ->
  (forall p, i <> ISub p INil) ->
  symbol_name s = Some n -> lookup n (named d) = Some (Keyword def) ->
  get_arg d seen (operand_of (ITok (TText s) (ITok TEqu i))) =
    match string_to_macrodata (source (itext i)) with
    | Some v => Arg (Some n, v) (if has n seen then seen else seen ++ [n]) (if has n seen then [E011] else [])
    | None => Overflow
    end.
Proof.
  intros d seen s n i def Hp Hv Hi Hs Hl. cbn [operand_of chain_of point_of shows get_arg keyword_of].
  rewrite Hs, Hl. cbn [tl].
  replace (match chain_of i with
    | [Sub _] => create_data (chain_of i)
    | _ => parsed (evaluate (chain_of i))
    end) with (string_to_macrodata (source (itext i))).
  { reflexivity. }
  rewrite (eval_text _ Hv). cbn [parsed].
  destruct i as [|t r|a b z r|p r]; cbn [chain_of].
  - reflexivity.
  - destruct t; reflexivity.
  - destruct Hp as (-> & _). reflexivity.
  - destruct (chain_of r) eqn:E; [|reflexivity]. apply chain_nil in E. subst r. now destruct (Hi p).
Qed.
