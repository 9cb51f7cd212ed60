(** * Gram_Proof: expressions are read as the specification says *)
From Coq Require Import String List ZArith Bool Lia.
From Verif Require Import Gram_Model Gram_Spec.
Import ListNotations.
Open Scope list_scope.

Lemma rank_max : forall s, (rank s <= 3)%nat.
Proof. destruct s; cbn; try lia. destruct (tk t); cbn; lia. Qed.

(** ** Everything read is a proper tree *)
Definition reads (k : nat) (ts : list tok) (o : out) : Prop :=
  match o with
  | (e, a, z, rest) =>
      exists s, ts = text s ++ rest /\ proper s /\ (k <= rank s)%nat /\ means s e /\
                first_tok s = a /\ last_tok s = z
  end.

Definition good (c : cat) (ts : list tok) (o : out) : Prop :=
  match c with
  | CSum => reads 1 ts o
  | CProd => reads 2 ts o
  | CUnary | CTerm => reads 3 ts o
  | CSumRest e a z set =>
      set = false -> forall s, proper s -> (1 <= rank s)%nat -> means s e ->
        first_tok s = a -> last_tok s = z -> reads 1 (text s ++ ts) o
  | CProdRest e a z set =>
      set = false -> forall s, proper s -> (2 <= rank s)%nat -> means s e ->
        first_tok s = a -> last_tok s = z -> reads 2 (text s ++ ts) o
  end.

Lemma reads_here : forall k s e rest, proper s -> (k <= rank s)%nat -> means s e ->
  reads k (text s ++ rest) (e, first_tok s, last_tok s, rest).
Proof. intros. exists s. tauto. Qed.

Lemma infix_good : forall s t s2 o e e2, infix_means (tk t) o ->
  proper s -> proper s2 -> (rank_of (tk t) <= rank s)%nat -> (rank_of (tk t) < rank s2)%nat ->
  means s e -> means s2 e2 ->
  proper (Infix s t s2) /\ rank (Infix s t s2) = rank_of (tk t) /\
  means (Infix s t s2) (MBinary o e e2 (get_range (first_tok s) (last_tok s2))).
Proof.
  intros s t s2 o e e2 Ho P1 P2 R1 R2 M1 M2. split.
  - cbn [proper]. split; [|tauto]. inversion Ho; cbn; lia.
  - split; [reflexivity|]. exact (me_infix s t s2 o e e2 Ho M1 M2).
Qed.

Lemma rest_step : forall k s t ts o e, (* one round of a loop *)
  forall s2 e2 rest a2 z2 op,
  ts = text s2 ++ rest -> proper s2 -> means s2 e2 -> first_tok s2 = a2 -> last_tok s2 = z2 ->
  infix_means (tk t) op -> proper s -> means s e ->
  (rank_of (tk t) <= rank s)%nat -> (rank_of (tk t) < rank s2)%nat -> (k <= rank_of (tk t))%nat ->
  (forall s', proper s' -> (k <= rank s')%nat ->
     means s' (MBinary op e e2 (get_range (first_tok s) z2)) ->
     first_tok s' = first_tok s -> last_tok s' = z2 -> reads k (text s' ++ rest) o) ->
  reads k (text s ++ t :: ts) o.
Proof.
  intros k s t ts o e s2 e2 rest a2 z2 op -> P2 M2 F2 L2 Hop P1 M1 R1 R2 Hk H.
  destruct (infix_good s t s2 op e e2 Hop P1 P2 R1 R2 M1 M2) as [Pi [Ri Mi]].
  specialize (H (Infix s t s2)). rewrite Ri in H. rewrite <- L2 in H.
  assert (E : text s ++ t :: text s2 ++ rest = text (Infix s t s2) ++ rest).
  { cbn [text]. rewrite <- app_assoc. reflexivity. }
  rewrite E. apply H; auto.
Qed.

Lemma parse_sound : forall n c ts o, parse n c ts = Some o -> good c ts o.
Proof.
  induction n; intros c ts o H; [discriminate|].
  cbn [parse] in H. destruct c as [|e a z set| |e a z set| |].
  - (* sum *)
    destruct (parse n CProd ts) as [[[[e a] z] rest]|] eqn:E; [|discriminate].
    apply IHn in E. apply IHn in H. cbn [good reads] in E. cbn [good] in H |- *.
    destruct E as [s [-> [Ps [Rs [Ms [Fs Ls]]]]]]. apply H; auto; lia.
  - (* sum, rest *)
    cbn [good]. intros -> s Ps Rs Ms Fs Ls.
    assert (D : ts = ts /\ Some (e, a, z, ts) = Some o -> reads 1 (text s ++ ts) o).
    { intros [_ E]. injection E as <-. subst. apply reads_here; auto. }
    destruct ts as [|t ts']; [apply D; auto|].
    destruct (tk t) eqn:Et; try (apply D; auto; fail).
    + destruct (parse n CProd ts') as [[[[e2 a2] z2] rest]|] eqn:E; [|discriminate].
      apply IHn in E. apply IHn in H. cbn [good reads] in E. cbn [good] in H.
      destruct E as [s2 [E2 [P2 [R2 [M2 [F2 L2]]]]]].
      eapply rest_step with (s2 := s2) (op := OAdd) (e := e); eauto;
        rewrite ?Et; cbn; try constructor; try lia.
      subst a. intros. apply H; auto.
    + destruct (parse n CProd ts') as [[[[e2 a2] z2] rest]|] eqn:E; [|discriminate].
      apply IHn in E. apply IHn in H. cbn [good reads] in E. cbn [good] in H.
      destruct E as [s2 [E2 [P2 [R2 [M2 [F2 L2]]]]]].
      eapply rest_step with (s2 := s2) (op := OSub) (e := e); eauto;
        rewrite ?Et; cbn; try constructor; try lia.
      subst a. intros. apply H; auto.
  - (* product *)
    destruct (parse n CUnary ts) as [[[[e a] z] rest]|] eqn:E; [|discriminate].
    apply IHn in E. apply IHn in H. cbn [good reads] in E. cbn [good] in H |- *.
    destruct E as [s [-> [Ps [Rs [Ms [Fs Ls]]]]]]. apply H; auto; lia.
  - (* product, rest *)
    cbn [good]. intros -> s Ps Rs Ms Fs Ls.
    assert (D : ts = ts /\ Some (e, a, z, ts) = Some o -> reads 2 (text s ++ ts) o).
    { intros [_ E]. injection E as <-. subst. apply reads_here; auto. }
    destruct ts as [|t ts']; [apply D; auto|].
    destruct (tk t) eqn:Et; try (apply D; auto; fail).
    + destruct (parse n CUnary ts') as [[[[e2 a2] z2] rest]|] eqn:E; [|discriminate].
      apply IHn in E. apply IHn in H. cbn [good reads] in E. cbn [good] in H.
      destruct E as [s2 [E2 [P2 [R2 [M2 [F2 L2]]]]]].
      eapply rest_step with (s2 := s2) (op := OMul) (e := e); eauto;
        rewrite ?Et; cbn; try constructor; try lia.
      subst a. intros. apply H; auto.
    + destruct (parse n CUnary ts') as [[[[e2 a2] z2] rest]|] eqn:E; [|discriminate].
      apply IHn in E. apply IHn in H. cbn [good reads] in E. cbn [good] in H.
      destruct E as [s2 [E2 [P2 [R2 [M2 [F2 L2]]]]]].
      eapply rest_step with (s2 := s2) (op := ODiv) (e := e); eauto;
        rewrite ?Et; cbn; try constructor; try lia.
      subst a. intros. apply H; auto.
  - (* unary *)
    cbn [good]. destruct ts as [|t ts']; [discriminate|].
    assert (D : forall u, sign_means (tk t) u ->
      forall e a2 z rest, parse n CUnary ts' = Some (e, a2, z, rest) ->
      reads 3 (t :: ts') (MUnary u e (get_range t z), t, z, rest)).
    { intros u Hu e a2 z rest E. apply IHn in E. cbn [good reads] in E.
      destruct E as [s [-> [Ps [Rs [Ms [Fs Ls]]]]]]. exists (Sign t s).
      assert (R3 : rank s = 3) by (pose proof (rank_max s); lia).
      cbn [text app proper rank first_tok last_tok].
      repeat (split; [solve [auto|inversion Hu; auto]|]). split; [|auto].
      rewrite <- Ls. apply (me_sign t s u e Hu Ms). }
    destruct (tk t) eqn:Et;
      try (apply IHn in H; cbn [good] in H; exact H).
    + destruct (parse n CUnary ts') as [[[[e a2] z] rest]|] eqn:E; [|discriminate].
      injection H as <-. eapply D; eauto. constructor.
    + destruct (parse n CUnary ts') as [[[[e a2] z] rest]|] eqn:E; [|discriminate].
      injection H as <-. eapply D; eauto. constructor.
  - (* term *)
    cbn [good]. destruct ts as [|t ts']; [discriminate|].
    assert (D : forall m, leaf_means (tk t) (get_range t t) m ->
      reads 3 (t :: ts') (m, t, t, ts')).
    { intros m Hm. exists (Leaf t). cbn [text app proper rank first_tok last_tok].
      split; [reflexivity|]. split; [inversion Hm; constructor|]. split; [lia|].
      split; [constructor; exact Hm|auto]. }
    destruct (tk t) eqn:Et; cbn [atom_of] in H; try discriminate;
      try (injection H as <-; apply D; constructor).
    destruct (parse n CSum ts') as [[[[e a2] z2] [|z rest]]|] eqn:E; try discriminate.
    destruct (tk z) eqn:Ez; try discriminate. injection H as <-.
    apply IHn in E. cbn [good reads] in E.
    destruct E as [s [-> [Ps [Rs [Ms [Fs Ls]]]]]]. exists (Paren t s z).
    cbn [text app proper rank first_tok last_tok]. rewrite <- app_assoc.
    split; [reflexivity|]. split; [auto|]. split; [lia|].
    split; [apply (me_paren t s z e Ms)|auto].
Qed.

(** ** Every proper tree is read *)
Definition P (c : cat) (ts : list tok) (o : out) : Prop :=
  exists n, forall m, (n <= m)%nat -> parse m c ts = Some o.

Lemma P_sum : forall ts e a z rest o,
  P CProd ts (e, a, z, rest) -> P (CSumRest e a z false) rest o -> P CSum ts o.
Proof.
  intros ts e a z rest o [n1 H1] [n2 H2]. exists (S (Nat.max n1 n2)). intros m Hm.
  destruct m; [lia|]. cbn [parse]. rewrite H1 by lia. apply H2. lia.
Qed.

Lemma P_prod : forall ts e a z rest o,
  P CUnary ts (e, a, z, rest) -> P (CProdRest e a z false) rest o -> P CProd ts o.
Proof.
  intros ts e a z rest o [n1 H1] [n2 H2]. exists (S (Nat.max n1 n2)). intros m Hm.
  destruct m; [lia|]. cbn [parse]. rewrite H1 by lia. apply H2. lia.
Qed.

Lemma P_sum_rest : forall e a z t op ts e2 a2 z2 rest o,
  infix_means (tk t) op -> rank_of (tk t) = 1 ->
  P CProd ts (e2, a2, z2, rest) ->
  P (CSumRest (MBinary op e e2 (get_range a z2)) a z2 false) rest o ->
  P (CSumRest e a z false) (t :: ts) o.
Proof.
  intros e a z t op ts e2 a2 z2 rest o Hop Hr [n1 H1] [n2 H2].
  exists (S (Nat.max n1 n2)). intros m Hm. destruct m; [lia|]. cbn [parse].
  inversion Hop as [E|E|E|E]; rewrite <- E in Hr; try discriminate Hr;
    rewrite H1 by lia; subst op; apply H2; lia.
Qed.

Lemma P_prod_rest : forall e a z t op ts e2 a2 z2 rest o,
  infix_means (tk t) op -> rank_of (tk t) = 2 ->
  P CUnary ts (e2, a2, z2, rest) ->
  P (CProdRest (MBinary op e e2 (get_range a z2)) a z2 false) rest o ->
  P (CProdRest e a z false) (t :: ts) o.
Proof.
  intros e a z t op ts e2 a2 z2 rest o Hop Hr [n1 H1] [n2 H2].
  exists (S (Nat.max n1 n2)). intros m Hm. destruct m; [lia|]. cbn [parse].
  inversion Hop as [E|E|E|E]; rewrite <- E in Hr; try discriminate Hr;
    rewrite H1 by lia; subst op; apply H2; lia.
Qed.

(** The tokens do not go on with an operator of rank [k] or tighter. *)
Definition stops (k : nat) (ts : list tok) : Prop :=
  match ts with [] => True | t :: _ => ~ (k <= rank_of (tk t))%nat end.

Lemma P_sum_stop : forall e a z rest, stops 1 rest -> P (CSumRest e a z false) rest (e, a, z, rest).
Proof.
  intros e a z rest H. exists 1. intros m Hm. destruct m; [lia|]. cbn [parse].
  destruct rest as [|t rest]; [reflexivity|]. cbn in H.
  destruct (tk t); try reflexivity; cbn in H; lia.
Qed.

Lemma P_prod_stop : forall e a z rest, stops 2 rest -> P (CProdRest e a z false) rest (e, a, z, rest).
Proof.
  intros e a z rest H. exists 1. intros m Hm. destruct m; [lia|]. cbn [parse].
  destruct rest as [|t rest]; [reflexivity|]. cbn in H.
  destruct (tk t); try reflexivity; cbn in H; lia.
Qed.

Lemma stops_weaken : forall rest, stops 1 rest -> stops 2 rest.
Proof. intros [|t rest]; cbn; [auto|]. lia. Qed.

Lemma P_complete : forall s m, proper s -> means s m ->
  (rank s = 3 -> forall rest,
     P CUnary (text s ++ rest) (m, first_tok s, last_tok s, rest)) /\
  ((2 <= rank s)%nat -> forall rest o,
     P (CProdRest m (first_tok s) (last_tok s) false) rest o -> P CProd (text s ++ rest) o) /\
  (forall rest o, stops 2 rest ->
     P (CSumRest m (first_tok s) (last_tok s) false) rest o -> P CSum (text s ++ rest) o).
Proof.
  assert (up : forall s m,
    (forall rest, P CUnary (text s ++ rest) (m, first_tok s, last_tok s, rest)) ->
    (forall rest o,
       P (CProdRest m (first_tok s) (last_tok s) false) rest o -> P CProd (text s ++ rest) o)).
  { intros s m H rest o Ho. eapply P_prod; [apply H|exact Ho]. }
  assert (up2 : forall s m,
    (forall rest o,
       P (CProdRest m (first_tok s) (last_tok s) false) rest o -> P CProd (text s ++ rest) o) ->
    (forall rest o, stops 2 rest ->
       P (CSumRest m (first_tok s) (last_tok s) false) rest o -> P CSum (text s ++ rest) o)).
  { intros s m H rest o Hs Ho. eapply P_sum; [apply H, P_prod_stop, Hs|exact Ho]. }
  assert (all : forall s m,
    (forall rest, P CUnary (text s ++ rest) (m, first_tok s, last_tok s, rest)) ->
    (rank s = 3 -> forall rest,
       P CUnary (text s ++ rest) (m, first_tok s, last_tok s, rest)) /\
    ((2 <= rank s)%nat -> forall rest o,
       P (CProdRest m (first_tok s) (last_tok s) false) rest o -> P CProd (text s ++ rest) o) /\
    (forall rest o, stops 2 rest ->
       P (CSumRest m (first_tok s) (last_tok s) false) rest o -> P CSum (text s ++ rest) o)).
  { intros s m H. split; [intros _; exact H|]. split; [intros _; apply up, H|].
    apply up2, up, H. }
  induction s as [t|t s IH|p s IH q|l IHl t r IHr]; intros m Hp Hm.
  - (* leaf *)
    apply all. intros rest. exists 2. intros k Hk. destruct k as [|[|k]]; try lia.
    inversion Hm as [t' m' Hl E1 E2| | |]; subst. cbn [text app first_tok last_tok covers] in *.
    inversion Hl; subst;
      match goal with E : _ = tk t |- _ => rename E into Et end;
      cbn [parse]; rewrite <- Et; reflexivity.
  - (* sign *)
    apply all. intros rest. cbn [proper] in Hp. destruct Hp as [Ht [R3 Ps]].
    inversion Hm as [|t' s' o m' Ho Hm' E1 E2| |]; subst.
    destruct (IH m' Ps Hm') as [U _]. destruct (U R3 rest) as [n Hn].
    exists (S n). intros k Hk. destruct k; [lia|].
    cbn [text app first_tok last_tok covers parse].
    inversion Ho as [E|E]; rewrite Hn by lia; reflexivity.
  - (* parentheses *)
    apply all. intros rest. cbn [proper] in Hp. destruct Hp as [Hl [Hr Ps]].
    inversion Hm as [| |p' s' q' m' Hm' E1 E2|]; subst.
    destruct (IH m' Ps Hm') as [_ [_ Su]].
    destruct (Su (q :: rest) (m', first_tok s, last_tok s, q :: rest)) as [n Hn].
    { cbn. rewrite Hr. cbn. lia. }
    { apply P_sum_stop. cbn. rewrite Hr. cbn. lia. }
    exists (S (S n)). intros k Hk. destruct k as [|[|k]]; try lia.
    cbn [text app first_tok last_tok covers]. rewrite <- app_assoc. cbn [app].
    cbn [parse]. rewrite Hl. rewrite Hn by lia. rewrite Hr. reflexivity.
  - (* infix *)
    cbn [proper] in Hp. destruct Hp as [R0 [R1 [R2 [Pl Pr]]]].
    inversion Hm as [| | |l' t' r' o ml mr Ho Hml Hmr E1 E2]; subst.
    destruct (IHl ml Pl Hml) as [_ [Prl Sul]]. destruct (IHr mr Pr Hmr) as [Unr [Prr _]].
    cbn [rank first_tok last_tok].
    assert (E : forall rest, text (Infix l t r) ++ rest = text l ++ t :: text r ++ rest).
    { intros rest. cbn [text]. rewrite <- app_assoc. reflexivity. }
    assert (R : rank_of (tk t) = 1 \/ rank_of (tk t) = 2) by (inversion Ho; cbn; auto).
    split; [intros; lia|]. destruct R as [R|R].
    + split; [intros; lia|]. intros rest o' Hs Ho'. rewrite E.
      apply Sul; [cbn; lia|].
      eapply P_sum_rest; [exact Ho|exact R| |exact Ho'].
      apply Prr; [lia|]. apply P_prod_stop, Hs.
    + assert (Pd : forall rest o',
        P (CProdRest (MBinary o ml mr (covers (Infix l t r))) (first_tok l) (last_tok r) false)
          rest o' -> P CProd (text (Infix l t r) ++ rest) o').
      { intros rest o' Ho'. rewrite E. apply Prl; [lia|].
        eapply P_prod_rest; [exact Ho|exact R| |exact Ho']. apply Unr. pose proof (rank_max r). lia. }
      split; [intros _; exact Pd|].
      apply (up2 (Infix l t r)). exact Pd.
Qed.

(** ** The number of steps suffices *)
Lemma text_len : forall s, (1 <= List.length (text s))%nat.
Proof.
  induction s; cbn [text List.length]; try lia. rewrite app_length. cbn. lia.
Qed.

Lemma parse_left : forall n c ts e a z rest, parse n c ts = Some (e, a, z, rest) ->
  match c with
  | CSumRest _ _ _ _ | CProdRest _ _ _ _ => (List.length rest <= List.length ts)%nat
  | _ => (S (List.length rest) <= List.length ts)%nat
  end.
Proof.
  induction n; intros c ts e a z rest H; [discriminate|]. cbn [parse] in H.
  destruct c as [|e0 a0 z0 set| |e0 a0 z0 set| |].
  - destruct (parse n CProd ts) as [[[[e1 a1] z1] r1]|] eqn:E; [|discriminate].
    apply IHn in E. apply IHn in H. lia.
  - destruct ts as [|t ts']; [injection H as <- <- <- <-; lia|].
    destruct (tk t); try (injection H as <- <- <- <-; lia);
      (destruct (parse n CProd ts') as [[[[e1 a1] z1] r1]|] eqn:E; [|discriminate];
       apply IHn in E; apply IHn in H; cbn; lia).
  - destruct (parse n CUnary ts) as [[[[e1 a1] z1] r1]|] eqn:E; [|discriminate].
    apply IHn in E. apply IHn in H. lia.
  - destruct ts as [|t ts']; [injection H as <- <- <- <-; lia|].
    destruct (tk t); try (injection H as <- <- <- <-; lia);
      (destruct (parse n CUnary ts') as [[[[e1 a1] z1] r1]|] eqn:E; [|discriminate];
       apply IHn in E; apply IHn in H; cbn; lia).
  - destruct ts as [|t ts']; [discriminate|].
    destruct (tk t); try (apply IHn in H; exact H);
      (destruct (parse n CUnary ts') as [[[[e1 a1] z1] r1]|] eqn:E; [|discriminate];
       injection H as <- <- <- <-; apply IHn in E; cbn; lia).
  - destruct ts as [|t ts']; [discriminate|].
    destruct (tk t); cbn [atom_of] in H; try discriminate;
      try (injection H as <- <- <- <-; cbn; lia).
    destruct (parse n CSum ts') as [[[[e1 a1] z1] [|q r1]]|] eqn:E; try discriminate.
    destruct (tk q); try discriminate. injection H as <- <- <- <-. apply IHn in E. cbn in *. lia.
Qed.

Definition weight (c : cat) : nat :=
  match c with
  | CSum => 5 | CProd => 4 | CUnary => 3 | CTerm => 2 | CSumRest _ _ _ _ => 1
  | CProdRest _ _ _ _ => 1
  end.

Lemma parse_stable : forall n c ts, (6 * List.length ts + weight c <= n)%nat ->
  parse (S n) c ts = parse n c ts.
Proof.
  induction n as [|n IHn]; intros c ts Hn; [destruct c; cbn in Hn; lia|].
  set (n' := S n) in *. assert (En : n' = S n) by reflexivity. clearbody n'.
  assert (IH : forall c ts, (6 * List.length ts + weight c <= n)%nat ->
    parse n' c ts = parse n c ts) by exact IHn. clear IHn.
  transitivity (parse (S n) c ts); [|rewrite En; reflexivity].
  rewrite En in Hn.
  destruct c as [|e0 a0 z0 set| |e0 a0 z0 set| |]; cbn [weight] in Hn; cbn [parse].
  - rewrite (IH CProd) by (cbn; lia).
    destruct (parse n CProd ts) as [[[[e1 a1] z1] r1]|] eqn:E; [|reflexivity].
    apply parse_left in E. apply IH. cbn. lia.
  - destruct ts as [|t ts']; [reflexivity|]. cbn [List.length] in Hn.
    destruct (tk t); try reflexivity;
      (rewrite (IH CProd) by (cbn; lia);
       destruct (parse n CProd ts') as [[[[e1 a1] z1] r1]|] eqn:E; [|reflexivity];
       apply parse_left in E; apply IH; cbn; lia).
  - rewrite (IH CUnary) by (cbn; lia).
    destruct (parse n CUnary ts) as [[[[e1 a1] z1] r1]|] eqn:E; [|reflexivity].
    apply parse_left in E. apply IH. cbn. lia.
  - destruct ts as [|t ts']; [reflexivity|]. cbn [List.length] in Hn.
    destruct (tk t); try reflexivity;
      (rewrite (IH CUnary) by (cbn; lia);
       destruct (parse n CUnary ts') as [[[[e1 a1] z1] r1]|] eqn:E; [|reflexivity];
       apply parse_left in E; apply IH; cbn; lia).
  - destruct ts as [|t ts']; [reflexivity|]. cbn [List.length] in Hn.
    destruct (tk t); try (apply IH; cbn; lia);
      (rewrite (IH CUnary) by (cbn; lia); reflexivity).
  - destruct ts as [|t ts']; [reflexivity|]. cbn [List.length] in Hn.
    destruct (tk t); try reflexivity. rewrite (IH CSum) by (cbn; lia). reflexivity.
Qed.

Lemma parse_enough : forall c ts k, parse (enough ts + k) c ts = parse (enough ts) c ts.
Proof.
  intros c ts k. induction k; [now rewrite Nat.add_0_r|].
  rewrite Nat.add_succ_r. rewrite parse_stable; [exact IHk|].
  unfold enough. destruct c; cbn [weight]; lia.
Qed.

Lemma P_expr : forall ts o, P CSum ts o -> expr ts = Some o.
Proof.
  intros ts o [n H]. unfold expr. rewrite <- (parse_enough CSum ts n). apply H. lia.
Qed.

(** ** Expressions *)
Lemma expr_sound : forall ts e a z rest, expr ts = Some (e, a, z, rest) ->
  exists s, ts = text s ++ rest /\ proper s /\ means s e /\ first_tok s = a /\ last_tok s = z.
Proof.
  intros ts e a z rest H. unfold expr in H. apply parse_sound in H. cbn [good reads] in H.
  destruct H as [s H]. exists s. tauto.
Qed.

Lemma expr_complete : forall s m rest, proper s -> means s m -> stops 1 rest ->
  expr (text s ++ rest) = Some (m, first_tok s, last_tok s, rest).
Proof.
  intros s m rest Hp Hm Hs. apply P_expr.
  destruct (P_complete s m Hp Hm) as [_ [_ H]]. apply H.
  - apply stops_weaken, Hs.
  - apply P_sum_stop, Hs.
Qed.

(** A reading stops only where no + or - follows: it takes all it can. *)
Lemma parse_stops : forall n c ts e a z rest, parse n c ts = Some (e, a, z, rest) ->
  match c with
  | CSum | CSumRest _ _ _ _ => rank_of (match rest with t :: _ => tk t | [] => KSpace end) <> 1
  | _ => True
  end.
Proof.
  induction n; intros c ts e a z rest H; [discriminate|]. cbn [parse] in H.
  destruct c as [|e0 a0 z0 set| |e0 a0 z0 set| |]; auto.
  - destruct (parse n CProd ts) as [[[[e1 a1] z1] r1]|] eqn:E; [|discriminate].
    apply IHn in H. exact H.
  - destruct ts as [|t ts']; [injection H as <- <- <- <-; discriminate|].
    destruct (tk t) eqn:Et;
      try (injection H as <- <- <- <-; rewrite Et; discriminate);
      (destruct (parse n CProd ts') as [[[[e1 a1] z1] r1]|] eqn:E; [|discriminate];
       apply IHn in H; exact H).
Qed.

(** ** What a tree means is determined, and exists for proper trees *)
Lemma leaf_means_det : forall k r m1 m2, leaf_means k r m1 -> leaf_means k r m2 -> m1 = m2.
Proof. intros k r m1 m2 H1 H2. destruct H1; inversion H2; reflexivity. Qed.

Lemma means_det : forall s m1, means s m1 -> forall m2, means s m2 -> m1 = m2.
Proof.
  induction 1; intros m2 H2; inversion H2; subst.
  - eapply leaf_means_det; eauto.
  - f_equal; [|auto]. match goal with A : sign_means _ _, B : sign_means _ _ |- _ =>
      destruct A; inversion B; reflexivity end.
  - f_equal; auto.
  - f_equal; auto. match goal with A : infix_means _ _, B : infix_means _ _ |- _ =>
      destruct A; inversion B; reflexivity end.
Qed.

Lemma means_total : forall s, proper s -> exists m, means s m.
Proof.
  induction s as [t|t s IH|p s IH q|l IHl t r IHr]; intros Hp; cbn [proper] in Hp.
  - assert (L : exists m, leaf_means (tk t) (covers (Leaf t)) m).
    { inversion Hp; eexists; constructor. }
    destruct L as [m Hm]. exists m. constructor. exact Hm.
  - destruct Hp as [Ht [_ Ps]]. destruct (IH Ps) as [m Hm].
    destruct Ht as [E|E]; eexists; eapply me_sign; try eassumption; rewrite E; constructor.
  - destruct Hp as [_ [_ Ps]]. destruct (IH Ps) as [m Hm]. eexists; apply me_paren; eassumption.
  - destruct Hp as [R0 [_ [_ [Pl Pr]]]]. destruct (IHl Pl) as [ml Hl], (IHr Pr) as [mr Hr].
    assert (O : exists o, infix_means (tk t) o).
    { destruct (tk t); cbn in R0; try lia; eexists; constructor. }
    destruct O as [o Ho]. eexists. eapply me_infix; eauto.
Qed.

(** ** One text, one tree *)

(** The tree can be recovered from what it means and the text, so two proper
    trees with one text are equal.  Proved directly on the texts. *)
Lemma shape_text : forall s1 s2 m, means s1 m -> means s2 m ->
  List.length (text s1) = List.length (text s2).
Proof.
  intros s1 s2 m H1. revert s2. induction H1; intros s2 H2.
  - inversion H; subst; inversion H2; subst; try reflexivity;
      try match goal with A : leaf_means _ _ (MUnary _ _ _) |- _ => inversion A end;
      try match goal with A : leaf_means _ _ (MBinary _ _ _ _) |- _ => inversion A end.
  - inversion H2; subst.
    + match goal with A : leaf_means _ _ (MUnary _ _ _) |- _ => inversion A end.
    + cbn [text List.length]. f_equal. eauto.
    + match goal with A : sign_means _ UPar |- _ => inversion A end.
  - inversion H2; subst.
    + match goal with A : leaf_means _ _ (MUnary _ _ _) |- _ => inversion A end.
    + match goal with A : sign_means _ UPar |- _ => inversion A end.
    + cbn [text List.length]. f_equal. rewrite !app_length. cbn. f_equal. eauto.
  - inversion H2; subst.
    + match goal with A : leaf_means _ _ (MBinary _ _ _ _) |- _ => inversion A end.
    + cbn [text]. rewrite !app_length. cbn [List.length].
      rewrite (IHmeans1 l0), (IHmeans2 r0) by auto. reflexivity.
Qed.

Lemma app_split : forall (A : Type) (a b c d : list A),
  a ++ b = c ++ d -> List.length a = List.length c -> a = c /\ b = d.
Proof.
  induction a as [|x a IH]; intros b [|y c] d H L; try discriminate L; [auto|].
  injection H as -> H. injection L as L. destruct (IH b c d H L) as [-> ->]. auto.
Qed.

Lemma tree_unique_m : forall s1 m, means s1 m -> forall s2, means s2 m -> text s1 = text s2 ->
  s1 = s2.
Proof.
  induction 1 as [t m Hl|t e o m Ho He IH|p e q m He IH|l t r o ml mr Ho Hl IHl Hr IHr];
    intros s2 H2 E.
  - inversion Hl; subst; inversion H2; subst; cbn [text] in E;
      try (injection E as ->; reflexivity);
      try match goal with A : leaf_means _ _ (MUnary _ _ _) |- _ => inversion A end;
      try match goal with A : leaf_means _ _ (MBinary _ _ _ _) |- _ => inversion A end.
  - inversion H2; subst.
    + match goal with A : leaf_means _ _ (MUnary _ _ _) |- _ => inversion A end.
    + cbn [text] in E. injection E as -> E. f_equal. auto.
    + match goal with A : sign_means _ UPar |- _ => inversion A end.
  - inversion H2; subst.
    + match goal with A : leaf_means _ _ (MUnary _ _ _) |- _ => inversion A end.
    + match goal with A : sign_means _ UPar |- _ => inversion A end.
    + cbn [text] in E. injection E as -> E. apply app_inj_tail in E. destruct E as [E ->].
      f_equal. auto.
  - inversion H2; subst.
    + match goal with A : leaf_means _ _ (MBinary _ _ _ _) |- _ => inversion A end.
    + cbn [text] in E. apply app_split in E; [|eapply shape_text; eauto].
      destruct E as [E1 E2]. injection E2 as -> E2. f_equal; auto.
Qed.

Lemma tree_unique : forall s1 s2, proper s1 -> proper s2 -> text s1 = text s2 -> s1 = s2.
Proof.
  intros s1 s2 P1 P2 E. destruct (means_total s1 P1) as [m1 M1].
  destruct (means_total s2 P2) as [m2 M2].
  pose proof (expr_complete s1 m1 [] P1 M1 I) as X1.
  pose proof (expr_complete s2 m2 [] P2 M2 I) as X2.
  rewrite !app_nil_r in *. rewrite E in X1. rewrite X1 in X2. injection X2 as -> _ _.
  eapply tree_unique_m; eauto.
Qed.
