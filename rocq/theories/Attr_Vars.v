(** Attributes of variable symbols, and what lookaheads are asked for. *)
From Coq Require Import String List NArith ZArith Bool Lia.
From Coq Require Import ZifyBool ZifyNat ZifyN.
From Verif Require Import Common Var_Model Sub_Model Ca_Model Attr_Model Attr_Spec Attr_Proof.
Import ListNotations.
Open Scope Z_scope.

Lemma as_int_small z : 0 <= z < 2 ^ 31 -> as_int z = z.
Proof. intros H. unfold as_int. rewrite Z.mod_small by lia. destruct (Z.ltb_spec z (2 ^ 31)); lia. Qed.

Definition no_references (e : env) : env :=
  {| symbols := symbols e; references := fun _ => None; variables := variables e;
     macros := macros e; instructions := instructions e; library := library e |}.

(** ** The substituted text *)
Lemma substituted_symbol e a v subs t x :
  stands_for v subs (VC t) -> ints subs -> leads t x ->
  evaluate_substituted e a (Some v) subs = let (r, ds) := evaluate_ordsym e a (UPPER x) in Res r ds.
Proof.
  intros H F Ld. destruct (stands_read _ _ _ H F) as (_ & E). unfold evaluate_substituted. rewrite E.
  apply leads_extract in Ld as (-> & ->). reflexivity.
Qed.
Lemma substituted_other e a v subs t :
  stands_for v subs (VC t) -> ints subs -> ~ only_parens t -> (forall x, ~ leads t x) ->
  evaluate_substituted e a (Some v) subs = Res (default_ca a) (if quiet a then [] else [E65]).
Proof.
  intros H F Np Nl. destruct (stands_read _ _ _ H F) as (_ & E). unfold evaluate_substituted. rewrite E.
  destruct (extract t) as [x|] eqn:X; [|apply extract_none in X; contradiction].
  destruct (valid_name x) eqn:V; [|reflexivity].
  exfalso. apply (Nl x). apply leads_extract. now split.
Qed.
Lemma substituted_bad e a v subs t :
  stands_for v subs (VC t) -> ints subs -> only_parens t -> evaluate_substituted e a (Some v) subs = Bad.
Proof.
  intros H F Np. destruct (stands_read _ _ _ H F) as (_ & E). unfold evaluate_substituted. rewrite E.
  apply extract_none in Np. now rewrite Np.
Qed.
Lemma substituted_number e a v subs x :
  stands_for v subs x -> ints subs -> (forall t, x <> VC t) ->
  evaluate_substituted e a (Some v) subs = Res (default_ca a) (if quiet a then [] else [E66]).
Proof.
  intros H F Np. destruct (stands_read _ _ _ H F) as (_ & E). unfold evaluate_substituted. rewrite E.
  destruct x; [reflexivity|reflexivity|]. now destruct (Np s).
Qed.
Lemma substituted_misread e a v subs c :
  misread v subs c ->
  evaluate_substituted e a (Some v) subs = Res (default_ca a) ((c, AtVariable) :: if quiet a then [] else [E66]).
Proof.
  intros H. apply test_misread in H. unfold evaluate_substituted, var_value. now rewrite H.
Qed.

(** ** Types of texts *)
Lemma bytes_U x : bytes_eqb x U = true <-> x = s2b "U".
Proof. change (s2b "U") with U. unfold U. destruct x as [|c [|d r]]; cbn; rewrite ?andb_false_r; try (split; congruence).
  rewrite andb_true_r, N.eqb_eq. split; congruence. Qed.
Lemma self_ok x : is_self_defining x = Some true <-> exists z, self_defining_term x = Ca_Model.Ok z.
Proof. unfold is_self_defining. destruct (self_defining_term x); split; intros H; try congruence; try (now destruct H); eauto. Qed.
Lemma self_fail x : is_self_defining x = Some false <-> exists z, self_defining_term x = Ca_Model.Fail z.
Proof. unfold is_self_defining. destruct (self_defining_term x); split; intros H; try congruence; try (now destruct H); eauto. Qed.

(** What is known without lookaheads. *)
Lemma type_defined e t x : type_of_text e t = Some x <-> type_letter (no_references e) t x.
Proof.
  split.
  - intros H. destruct t as [|c r].
    + injection H as <-. now apply ty_omitted.
    + unfold type_of_text in H. destruct (extract (c :: r)) as [y|] eqn:X; [|discriminate].
      assert (Fr := X). apply extract_front in Fr.
      destruct (is_self_defining y) as [[]|] eqn:Sd; [| |discriminate].
      * injection H as <-. apply self_ok in Sd. eapply ty_number; eauto. easy.
      * apply self_fail in Sd. destruct (symbols e (UPPER y)) as [s|] eqn:Y; injection H as <-.
        -- eapply ty_symbol; eauto. easy.
        -- eapply ty_unknown; eauto. easy.
  - intros [->|y N Fr Sd|y s N Fr Sd Y|y s N Fr Sd Y V R|y N Fr Sd Y V]; [reflexivity|..];
      destruct t as [|c r]; try easy; unfold type_of_text; apply extract_front in Fr; rewrite Fr;
      try (apply self_ok in Sd; rewrite Sd; reflexivity); apply self_fail in Sd; rewrite Sd;
      cbn [no_references symbols] in Y; rewrite Y; try reflexivity.
Qed.

(** After that, the name in the text. *)
Lemma then_found e v subs t x :
  stands_for v subs (VC t) -> ints subs -> t <> [] ->
  type_of_text e t = Some (s2b "U") ->
  evaluate_substituted e T (Some v) subs = Res (VC x) [] <-> type_letter e t x.
Proof.
  intros H F Ne Ty. assert (Ty' := Ty). apply type_defined in Ty'.
  destruct (stands_read _ _ _ H F) as (_ & E). unfold evaluate_substituted. rewrite E.
  unfold type_of_text in Ty. destruct t as [|c r]; [easy|].
  destruct (extract (c :: r)) as [y|] eqn:X; [|discriminate].
  assert (Fr := X). apply extract_front in Fr.
  assert (Un : forall z, front (c :: r) z -> z = y) by (intros z Hz; apply extract_front in Hz; congruence).
  destruct (is_self_defining y) as [[]|] eqn:Sd; [discriminate| |discriminate].
  assert (Sd' := Sd). apply self_fail in Sd'.
  assert (NoOk : forall z, front (c :: r) z -> ~ exists q, self_defining_term z = Ca_Model.Ok q).
  { intros z Hz K. apply Un in Hz. subst z. apply self_ok in K. congruence. }
  cbn [quiet default_ca]. change (@nil diag) with (@nil diag).
  destruct (valid_name y) eqn:V.
  - apply valid_name_iff in V. unfold evaluate_ordsym, get_ordsym. cbn [is_ordinary retrieve_value].
    destruct (symbols e (UPPER y)) as [s|] eqn:Y.
    + split.
      * intros K. assert (x = [o_type s]) by (unfold char in K; congruence). subst. eapply ty_symbol; eauto.
      * intros K. inversion K; subst; try easy.
        -- exfalso. eapply NoOk; eauto.
        -- apply Un in H1. subst. unfold char. congruence.
        -- apply Un in H1. subst. congruence.
        -- apply Un in H1. subst. congruence.
    + destruct (references e (UPPER y)) as [s|] eqn:R.
      * split.
        -- intros K. assert (x = [o_type s]) by (unfold char in K; congruence). subst. eapply ty_found; eauto.
        -- intros K. inversion K; subst; try easy.
           ++ exfalso. eapply NoOk; eauto.
           ++ apply Un in H1. subst. congruence.
           ++ apply Un in H1. subst. unfold char. congruence.
           ++ apply Un in H1. subst. destruct H4 as [H4|H4]; [contradiction|congruence].
      * split.
        -- intros K. assert (x = U) by congruence. subst. eapply ty_unknown; eauto.
        -- intros K. inversion K; subst; try easy.
           ++ exfalso. eapply NoOk; eauto.
           ++ apply Un in H1. subst. congruence.
           ++ apply Un in H1. subst. congruence.
  - assert (V' : ~ symbol_name y) by (rewrite <- valid_name_iff; congruence).
    assert (Y : symbols e (UPPER y) = None \/ exists s, symbols e (UPPER y) = Some s /\ o_type s = 85%N).
    { destruct (symbols e (UPPER y)) as [s|]; [right|now left]. exists s. split; [easy|]. injection Ty as Ty. exact Ty. }
    split.
    + intros K. assert (x = U) by congruence. subst. destruct Y as [Y|(s & Y & Es)].
      * eapply ty_unknown; eauto.
      * replace U with [o_type s] by (now rewrite Es). eapply ty_symbol; eauto.
    + intros K. inversion K; subst; try easy.
      * exfalso. eapply NoOk; eauto.
      * apply Un in H1. subst. destruct Y as [Y|(s' & Y & Es)]; [congruence|].
        assert (s' = s) by congruence. subst. rewrite Es. reflexivity.
      * apply Un in H1. subst. contradiction.
Qed.
Lemma more_than_defined e t x : type_letter (no_references e) t x -> x <> s2b "U" ->
  forall y, type_letter e t y <-> y = x.
Proof.
  intros H Nu. assert (Un : forall a b, front t a -> front t b -> a = b).
  { intros a b Ha Hb. apply extract_front in Ha, Hb. congruence. }
  intros y. split.
  - intros K. inversion H; subst; inversion K; subst; try easy;
      repeat match goal with A : front ?t ?a, B : front ?t ?b |- _ =>
        lazymatch a with b => fail | _ => assert (a = b) by (eapply Un; eauto); subst; clear A end end;
      repeat match goal with A : exists _, _ |- _ => destruct A end; cbn [no_references symbols references] in *; try congruence.
  - intros ->. inversion H; subst.
    + now apply ty_omitted.
    + eapply ty_number; eauto.
    + eapply ty_symbol; eauto.
    + cbn in *. discriminate.
    + easy.
Qed.

(** ** T' *)
Section T_.
Variable to_string : Z -> bytes.
Lemma eval_T e n v subs : variables e n = Some v -> test_for_read v subs = None ->
  evaluate to_string e T (VarSym n subs) =
  match get_type_attr e v subs with
  | None => Bad
  | Some t => if bytes_eqb t U then evaluate_substituted e T (Some v) subs else Res (VC t) []
  end.
Proof. intros V R. cbn [evaluate]. unfold evaluate_varsym. now rewrite V, R. Qed.

(** A text that is both what is looked at first and what is substituted. *)
Lemma T_text e n v subs t x :
  variables e n = Some v -> stands_for v subs (VC t) -> ints subs ->
  get_type_attr e v subs = type_of_text e t ->
  evaluate to_string e T (VarSym n subs) = Res (VC x) [] <-> type_letter e t x.
Proof.
  intros V H F G. destruct (stands_read _ _ _ H F) as (R & _). rewrite (eval_T _ _ _ _ V R), G.
  destruct (type_of_text e t) as [y|] eqn:Ty.
  - destruct (bytes_eqb y U) eqn:Yu.
    + apply bytes_U in Yu. subst y. apply then_found; auto. intros ->. discriminate.
    + assert (y <> s2b "U") by (rewrite <- bytes_U; congruence).
      apply type_defined in Ty. rewrite (more_than_defined _ _ _ Ty H0 x). split; congruence.
  - split; [discriminate|]. intros K. exfalso.
    assert (exists z, type_of_text e t = Some z) as (z & Z); [|congruence].
    destruct t as [|c r]; [eexists; reflexivity|]. unfold type_of_text.
    assert (Q : forall w, front (c :: r) w -> extract (c :: r) = Some w) by (intros w; apply extract_front).
    inversion K as [E|w N Fr Sd|w s N Fr Sd Y|w s N Fr Sd Y W B|w N Fr Sd Y W]; [discriminate|..];
      apply Q in Fr; rewrite Fr;
      try (apply self_ok in Sd; rewrite Sd; eauto); apply self_fail in Sd; rewrite Sd; eauto.
Qed.
End T_.

(** The text at the start of a list. *)
Inductive first_text : data -> bytes -> Prop :=
| ft_omitted : first_text Dummy []
| ft_single s : first_text (Single s) s
| ft_empty : first_text (Composite []) []
| ft_list x l t : first_text x t -> first_text (Composite (x :: l)) t.
Lemma leftmost_text d t : first_text d t -> Sub_Model.get_value (leftmost d) = t.
Proof. induction 1; try reflexivity. exact IHfirst_text. Qed.
