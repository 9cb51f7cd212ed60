From Coq Require Import List NArith ZArith Bool Lia.
From Coq Require Import ZifyBool ZifyNat ZifyN.
From Verif Require Import Common Sub_Model Sub_Spec Sub_Proof Mac_Model Mac_Spec Var_Proof CaNum_Proof.
Import ListNotations.
Open Scope N_scope.

(** ** Texts *)
Definition point_ind' (P : point -> Prop) (H1 : forall s, P (Str s)) (H2 : forall v, P (Var v)) (H3 : P Dot) (H4 : P Equ)
  (H5 : forall l, Forall (Forall P) l -> P (Sub l)) : forall p, P p :=
  fix go (p : point) : P p :=
    match p with
    | Str s => H1 s | Var v => H2 v | Dot => H3 | Equ => H4
    | Sub l => H5 l ((fix all (l : list (list point)) : Forall (Forall P) l :=
        match l with
        | [] => Forall_nil _
        | c :: r => Forall_cons c ((fix each (c : list point) : Forall P c :=
            match c with [] => Forall_nil P | x :: r => Forall_cons x (go x) (each r) end) c) (all r)
        end) l)
    end.

Fixpoint all_some {A} (l : list (option A)) : option (list A) :=
  match l with
  | [] => Some []
  | Some a :: l => match all_some l with Some r => Some (a :: r) | None => None end
  | None :: _ => None
  end.

Lemma evaluate_sub : forall l, evaluate_point (Sub l) =
  match all_some (map evaluate l) with Some ts => Some (LPAR :: joined ts ++ [RPAR]) | None => None end.
Proof.
  intros l. cbn [evaluate_point].
  assert (Chain : forall c b,
    (fix go (was_var : bool) (c : list point) : option bytes :=
                    match c with
                    | [] => Some []
                    | Dot :: c' => if was_var then go false c' else cat (Some [DOT]) (go false c')
                    | p :: c' => cat (evaluate_point p) (go (match p with Var _ => true | _ => false end) c')
                    end) b c = evaluate_from b c).
  { induction c as [|p c IH]; intros b; [reflexivity|]. destruct p; cbn [evaluate_from]; rewrite !IH; reflexivity. }
  assert (All : forall l,
    (fix items (l : list (list point)) : option (list bytes) :=
           match l with
           | [] => Some []
           | c :: l' =>
               match
                 (fix go (was_var : bool) (c : list point) : option bytes :=
                    match c with
                    | [] => Some []
                    | Dot :: c' => if was_var then go false c' else cat (Some [DOT]) (go false c')
                    | p :: c' => cat (evaluate_point p) (go (match p with Var _ => true | _ => false end) c')
                    end) false c, items l' with
               | Some t, Some ts => Some (t :: ts)
               | _, _ => None
               end
           end) l = all_some (map evaluate l)).
  { induction l0 as [|c l0 IH]; [reflexivity|]. rewrite Chain, IH. cbn [map all_some].
    change (evaluate_from false c) with (evaluate c).
    destruct (evaluate c); [|reflexivity]. destruct (all_some (map evaluate l0)); reflexivity. }
  rewrite All. reflexivity.
Qed.

(** Decimal numbers *)
Definition no_zero (t : bytes) : Prop := Forall (fun c => is_digit c = true) t /\ hd 49 t <> 48.
Lemma no_zero_pos : forall t, no_zero t -> t <> [] -> 0 < dec_val t.
Proof.
  induction t as [|c t IH] using rev_ind; intros [Hd Hh] Hne; [contradiction|]. rewrite dec_val_app.
  apply Forall_app in Hd. destruct Hd as [Hd Hc]. inversion Hc as [|? ? Hc' _]; subst. unfold is_digit in Hc'.
  destruct t as [|x t].
  - cbn [app hd] in Hh. unfold dec_val. cbn. lia.
  - assert (0 < dec_val (x :: t)) by (apply IH; [split; [exact Hd|exact Hh]|discriminate]). lia.
Qed.
Lemma no_zero_unique : forall t u, no_zero t -> no_zero u -> dec_val t = dec_val u -> t = u.
Proof.
  induction t as [|c t IH] using rev_ind; intros u Ht Hu E.
  - destruct u as [|d u]; [reflexivity|]. apply no_zero_pos in Hu; [|discriminate]. change (dec_val []) with 0 in E. lia.
  - destruct u as [|d u] using rev_ind.
    + apply no_zero_pos in Ht; [|destruct t; discriminate]. change (dec_val []) with 0 in E. lia.
    + clear IHu. rewrite !dec_val_app in E. destruct Ht as [H1 H2], Hu as [H3 H4].
      apply Forall_app in H1, H3. destruct H1 as [H1 Hc], H3 as [H3 Hd].
      inversion Hc as [|? ? Hc' _]; subst. inversion Hd as [|? ? Hd' _]; subst. unfold is_digit in *.
      assert (c = d /\ dec_val t = dec_val u) as [-> E'] by lia. f_equal. apply IH; [| |exact E'].
      * split; [exact H1|]. destruct t; [cbn; lia|exact H2].
      * split; [exact H3|]. destruct u; [cbn; lia|exact H4].
Qed.
Lemma dec_no_zero : forall n, 0 < n -> no_zero (dec n).
Proof.
  intros n H. split; [apply dec_digits|]. pose proof (dec_lead n H) as L. pose proof (dec_nonempty n).
  destruct (dec n); [contradiction|exact L].
Qed.
Lemma dec_first : forall n, hd 0 (dec n) = 48 -> dec n = [48].
Proof.
  intros n H. destruct (N.eq_dec n 0) as [->|Hn]; [reflexivity|].
  pose proof (dec_lead n ltac:(lia)) as L. pose proof (dec_nonempty n). destruct (dec n); [contradiction|]. contradiction.
Qed.
Lemma forallb_Forall : forall A (f : A -> bool) l, forallb f l = true <-> Forall (fun x => f x = true) l.
Proof. intros. now rewrite forallb_forall, Forall_forall. Qed.

Lemma var_text_shows : forall v t, var_text v = Some t <-> shows v t.
Proof.
  intros v t. split.
  - destruct v as [z|b|s|]; cbn [var_text]; intros H.
    + destruct (Z.eqb_spec z (-2147483648)); [discriminate|]. injection H as <-. constructor.
      * apply dec_nonempty.
      * apply forallb_Forall, dec_digits.
      * apply dec_first.
      * rewrite dec_value. lia.
      * assumption.
    + injection H as <-. destruct b; constructor.
    + injection H as <-. constructor.
    + injection H as <-. constructor.
  - intros H. destruct H as [z t H1 H2 H3 H4 H5| | | |]; cbn [var_text]; try reflexivity.
    destruct (Z.eqb_spec z (-2147483648)); [contradiction|]. f_equal. apply forallb_Forall in H2.
    destruct (N.eq_dec (dec_val t) 0) as [E|E].
    + assert (Z.abs z = 0%Z) as -> by lia. destruct t as [|c t]; [contradiction|].
      destruct (N.eq_dec c 48) as [->|Hc]; [rewrite (H3 eq_refl); reflexivity|].
      exfalso. assert (0 < dec_val (c :: t)) by (apply no_zero_pos; [split; [exact H2|exact Hc]|discriminate]). lia.
    + apply no_zero_unique.
      * apply dec_no_zero. lia.
      * split; [exact H2|]. destruct t as [|c t]; [contradiction|]. cbn [hd]. intros ->.
        rewrite (H3 eq_refl) in E. cbn in E. lia.
      * rewrite dec_value. lia.
Qed.

Scheme gp_ind2 := Induction for generates_point Sort Prop
  with g_ind2 := Induction for generates Sort Prop
  with ga_ind2 := Induction for generates_all Sort Prop.
Combined Scheme generates_mutind from gp_ind2, g_ind2, ga_ind2.

Lemma evaluate_other : forall p c b, p <> Dot \/ b = false ->
  evaluate_from b (p :: c) = cat (evaluate_point p) (evaluate_from (match p with Var _ => true | _ => false end) c).
Proof. intros p c b H. destruct p; try reflexivity. destruct H as [H| ->]; [contradiction|reflexivity]. Qed.
Lemma evaluate_skip : forall c, (forall c', c <> Dot :: c') -> evaluate_from true c = evaluate_from false c.
Proof. intros [|p c] H; [reflexivity|]. destruct p; try reflexivity. exfalso. eapply H. reflexivity. Qed.

Lemma generates_evaluate :
  (forall p t, generates_point p t -> evaluate_point p = Some t) /\
  (forall c t, generates c t -> evaluate c = Some t) /\
  (forall l ts, generates_all l ts -> all_some (map evaluate l) = Some ts).
Proof.
  apply generates_mutind.
  - reflexivity.
  - reflexivity.
  - reflexivity.
  - intros v t H. apply var_text_shows in H. exact H.
  - intros l ts _ IH. rewrite evaluate_sub, IH. reflexivity.
  - reflexivity.
  - intros v c t u H _ IH. unfold evaluate in *. apply var_text_shows in H. cbn [evaluate_from evaluate_point].
    rewrite H, IH. reflexivity.
  - intros p c t u Hn _ IHp _ IH. unfold evaluate in *. rewrite evaluate_other by auto. rewrite IHp.
    assert (evaluate_from (match p with Var _ => true | _ => false end) c = Some u) as ->; [|reflexivity].
    destruct p; try exact IH. rewrite evaluate_skip; [exact IH|]. intros c' ->. apply Hn. eauto.
  - reflexivity.
  - intros c l t ts _ IH1 _ IH2. cbn [map all_some]. rewrite IH1, IH2. reflexivity.
Qed.

Lemma chain_generates : forall c, Forall (fun p => forall t, evaluate_point p = Some t -> generates_point p t) c ->
  forall t, evaluate c = Some t -> generates c t.
Proof.
  unfold evaluate. intros c. remember (length c) as n eqn:En. assert (Hn : (length c <= n)%nat) by lia. clear En.
  revert c Hn. induction n as [|n IH]; intros c Hn Hall t H.
  - destruct c; [|cbn in Hn; lia]. injection H as <-. constructor.
  - destruct c as [|p c]; [injection H as <-; constructor|]. cbn [length] in Hn. inversion Hall as [|? ? Hp Hc]; subst.
    rewrite evaluate_other in H by auto.
    destruct (evaluate_point p) as [t1|] eqn:E1; [|discriminate].
    destruct (evaluate_from (match p with Var _ => true | _ => false end) c) as [u|] eqn:E2; [|discriminate].
    injection H as <-.
    destruct p as [s|v| | |l].
    + apply g_other; [intros (v & c' & X & _); discriminate|auto|]. apply IH; auto; lia.
    + destruct c as [|q c].
      * apply g_other; [intros (? & ? & _ & X); discriminate|auto|]. injection E2 as <-. constructor.
      * assert (Hq : q = Dot \/ q <> Dot) by (destruct q; auto; right; discriminate). destruct Hq as [->|Hq].
        -- cbn [evaluate_from] in E2. inversion Hc; subst. cbn [length] in Hn. apply g_var_dot.
           ++ specialize (Hp _ eq_refl). inversion Hp; assumption.
           ++ apply IH; [lia|assumption|exact E2].
        -- apply g_other; [intros (? & ? & _ & X); injection X as X _; contradiction|auto|].
           apply IH; [lia|assumption|]. rewrite <- evaluate_skip; [exact E2|]. intros c' X. injection X as X _. contradiction.
    + apply g_other; [intros (v & c' & X & _); discriminate|auto|]. apply IH; auto; lia.
    + apply g_other; [intros (v & c' & X & _); discriminate|auto|]. apply IH; auto; lia.
    + apply g_other; [intros (v & c' & X & _); discriminate|auto|]. apply IH; auto; lia.
Qed.
Lemma point_generates : forall p t, evaluate_point p = Some t -> generates_point p t.
Proof.
  induction p as [s|v| | |l IH] using point_ind'; intros t H.
  - injection H as <-. constructor.
  - constructor. now apply var_text_shows.
  - injection H as <-. constructor.
  - injection H as <-. constructor.
  - rewrite evaluate_sub in H. destruct (all_some (map evaluate l)) as [ts|] eqn:E; [|discriminate]. injection H as <-.
    apply gp_sub. revert ts E. induction IH as [|c l Hc Hl IHl]; intros ts E.
    + injection E as <-. constructor.
    + cbn [map all_some] in E. destruct (evaluate c) as [u|] eqn:Ec; [|discriminate].
      destruct (all_some (map evaluate l)) as [us|]; [|discriminate]. injection E as <-.
      constructor; [|now apply IHl]. now apply chain_generates.
Qed.
Theorem evaluate_generates : forall c t, evaluate c = Some t <-> generates c t.
Proof.
  intros c t. split; [|apply generates_evaluate].
  apply chain_generates. apply Forall_forall. intros p _. apply point_generates.
Qed.

(** ** The data of a text *)
Lemma point_data_value : forall p t, evaluate_point p = Some t ->
  exists d, point_data evaluate p = Some d /\ get_value d = t.
Proof.
  induction p as [s|v| | |l IH] using point_ind'; intros t H.
  1-4: exists (Single t); split; [|reflexivity]; cbn [point_data]; unfold evaluate; rewrite evaluate_other by auto;
       rewrite H; cbn [cat evaluate_from]; rewrite app_nil_r; reflexivity.
  rewrite evaluate_sub in H. destruct (all_some (map evaluate l)) as [ts|] eqn:E; [|discriminate]. injection H as <-.
  cbn [point_data].
  assert (G : exists ds,
    (fix items (l : list (list point)) : option (list data) :=
           match l with
           | [] => Some []
           | c :: l' =>
               match (match c with
                      | [] => Some Dummy
                      | [p] => point_data evaluate p
                      | _ => match evaluate c with Some t => Some (Single t) | None => None end
                      end), items l' with
               | Some d, Some ds => Some (d :: ds)
               | _, _ => None
               end
           end) l = Some ds /\ map get_value ds = ts).
  { revert ts E. induction IH as [|c l Hc Hl IHl]; intros ts E.
    - injection E as <-. exists []. auto.
    - cbn [map all_some] in E. destruct (evaluate c) as [u|] eqn:Ec; [|discriminate].
      destruct (all_some (map evaluate l)) as [us|]; [|discriminate]. injection E as <-.
      destruct (IHl us eq_refl) as (ds & H1 & H2). rewrite H1.
      assert (X : exists d, (match c with [] => Some Dummy | [p] => point_data evaluate p | _ => Some (Single u) end) = Some d /\ get_value d = u).
      { destruct c as [|p [|q c]].
        - injection Ec as <-. exists Dummy. auto.
        - inversion Hc as [|? ? Hp _]; subst. apply Hp. unfold evaluate in Ec. rewrite evaluate_other in Ec by auto.
          destruct (evaluate_point p) as [x|]; [|discriminate]. destruct p; cbn [evaluate_from cat] in Ec; rewrite app_nil_r in Ec; exact Ec.
        - exists (Single u). auto. }
      destruct X as (d & X1 & X2). rewrite X1. exists (d :: ds). split; [reflexivity|]. cbn [map]. now rewrite X2, H2. }
  destruct G as (ds & -> & <-). eexists. split; reflexivity.
Qed.
Theorem create_data_value : forall c t, evaluate c = Some t -> exists d, create_data c = Some d /\ get_value d = t.
Proof.
  intros [|p [|q c]] t H; unfold create_data, create_inner.
  - injection H as <-. exists Dummy. auto.
  - apply point_data_value. unfold evaluate in H. rewrite evaluate_other in H by auto.
    destruct (evaluate_point p) as [x|]; [|discriminate]. destruct p; cbn [evaluate_from cat] in H; rewrite app_nil_r in H; exact H.
  - rewrite H. exists (Single t). auto.
Qed.

Lemma evaluate_single : forall p, evaluate [p] = evaluate_point p.
Proof.
  intros p. unfold evaluate. rewrite evaluate_other by auto. destruct (evaluate_point p) as [t|]; [|reflexivity].
  destruct p; cbn [evaluate_from cat]; rewrite app_nil_r; reflexivity.
Qed.
Lemma point_data_fails : forall p, evaluate_point p = None -> point_data evaluate p = None.
Proof.
  induction p as [s|v| | |l IH] using point_ind'; intros H; try discriminate.
  - cbn [point_data]. rewrite evaluate_single, H. reflexivity.
  - rewrite evaluate_sub in H. destruct (all_some (map evaluate l)) eqn:Ea; [discriminate|]. clear H.
    cbn [point_data].
    match goal with |- (match ?f l with _ => _ end) = None => assert (G : f l = None); [|now rewrite G] end.
    induction IH as [|c l Hc Hl IHl]; [discriminate|]. cbn [map all_some] in Ea.
    destruct (evaluate c) as [u|] eqn:Ec.
    + destruct (all_some (map evaluate l)) eqn:Er; [discriminate|]. rewrite IHl by reflexivity.
      match goal with |- (match ?x with _ => _ end) = None => destruct x; reflexivity end.
    + assert (X : match c with [] => Some Dummy | [p] => point_data evaluate p | _ => None end = @None data).
      { destruct c as [|p [|q c]]; [discriminate| |reflexivity]. inversion Hc as [|? ? Hp _]; subst. apply Hp.
        now rewrite <- evaluate_single. }
      destruct c as [|p [|q c]]; [discriminate X|rewrite X; reflexivity|reflexivity].
Qed.
Theorem create_data_inv : forall c d, create_data c = Some d -> evaluate c = Some (get_value d).
Proof.
  intros c d H. destruct (evaluate c) as [t|] eqn:E.
  - destruct (create_data_value _ _ E) as (d' & X & Y). congruence.
  - exfalso. unfold create_data, create_inner in H. destruct c as [|p [|q c]]; [discriminate| |].
    + rewrite evaluate_single in E. apply point_data_fails in E. congruence.
    + rewrite E in H. discriminate.
Qed.

(** ** Maps *)
Lemma lookup_app : forall A n (l r : list (id * A)), lookup n (l ++ r) = match lookup n l with Some a => Some a | None => lookup n r end.
Proof. intros A n l r. induction l as [|[m a] l IH]; [reflexivity|]. cbn [app lookup]. destruct (bytes_eqb n m); auto. Qed.
Lemma lookup_emplace : forall A n k (a : A) m, lookup n (emplace k a m) =
  match lookup n m with Some x => Some x | None => if bytes_eqb n k then Some a else None end.
Proof.
  intros A n k a m. unfold emplace. destruct (lookup k m) eqn:E.
  - destruct (lookup n m) eqn:En; [reflexivity|]. destruct (bytes_eqb n k) eqn:Ek; [|reflexivity].
    apply bytes_eqb_eq in Ek. subst. congruence.
  - rewrite lookup_app. reflexivity.
Qed.
Lemma lookup_in : forall A n (a : A) l, NoDup (map fst l) -> (lookup n l = Some a <-> In (n, a) l).
Proof.
  intros A n a l. induction l as [|[m b] l IH]; intros H; [split; [discriminate|contradiction]|].
  inversion H as [|? ? H1 H2]; subst. cbn [lookup In]. destruct (bytes_eqb n m) eqn:E.
  - apply bytes_eqb_eq in E. subst m. split.
    + intros X. injection X as ->. auto.
    + intros [X|X]; [congruence|]. exfalso. apply H1. apply in_map_iff. exists (n, a). auto.
  - rewrite IH by assumption. split; [auto|]. intros [X|X]; [|exact X]. injection X as -> ->.
    now rewrite bytes_eqb_refl in E.
Qed.
Lemma lookup_none : forall A n (l : list (id * A)), lookup n l = None <-> ~ In n (map fst l).
Proof.
  intros A n l. induction l as [|[m a] l IH]; [split; auto|]. cbn [lookup map fst In]. destruct (bytes_eqb n m) eqn:E.
  - apply bytes_eqb_eq in E. subst. split; [discriminate|]. intros H. exfalso. apply H. auto.
  - rewrite IH. split; intros H; [intros [X|X]; [subst; now rewrite bytes_eqb_refl in E|auto]|auto].
Qed.
Definition emplace_all {A} (bs m : list (id * A)) : list (id * A) := fold_left (fun m '(n, a) => emplace n a m) bs m.
Lemma lookup_emplace_all : forall A n (bs m : list (id * A)), lookup n (emplace_all bs m) =
  match lookup n m with Some x => Some x | None => lookup n bs end.
Proof.
  intros A n bs. induction bs as [|[k a] bs IH]; intros m; cbn [emplace_all fold_left].
  - now destruct (lookup n m).
  - fold (@emplace_all A). change (fold_left (fun m '(n, a) => emplace n a m) bs (emplace k a m)) with (emplace_all bs (emplace k a m)).
    rewrite IH, lookup_emplace. cbn [lookup]. destruct (lookup n m); [reflexivity|]. destruct (bytes_eqb n k); reflexivity.
Qed.

(** ** The definition *)
Lemma add_params_ok : forall l d d', add_params d l = Some d' ->
  positional d' = positional d ++ positionals l /\
  keywords d' = keywords d ++ flat_map (fun p => match p with (Some n, Some v) => [(n, v)] | _ => [] end) l /\
  (forall n, lookup n (named d') = match lookup n (named d) with
     | Some k => Some k
     | None => lookup n (flat_map (fun p => match p with (Some n, Some v) => [(n, Keyword v)] | (Some n, None) => [(n, Positional)] | _ => [] end) l)
     end).
Proof.
  induction l as [|[[n|] [v|]] l IH]; intros d d' H; cbn [add_params add_param] in H.
  - injection H as <-. cbn. rewrite !app_nil_r. refine (conj eq_refl (conj eq_refl _)). intros n. now destruct (lookup n (named d)).
  - destruct (IH _ _ H) as (H1 & H2 & H3). cbn [positional keywords named] in *.
    cbn [positionals flat_map snd fst]. fold (positionals l). refine (conj H1 (conj _ _)).
    + rewrite H2, <- app_assoc. reflexivity.
    + intros m. rewrite H3, lookup_emplace. destruct (lookup m (named d)); [reflexivity|]. cbn [app lookup].
      destruct (bytes_eqb m n); reflexivity.
  - destruct (IH _ _ H) as (H1 & H2 & H3). cbn [positional keywords named] in *.
    cbn [positionals flat_map snd fst]. fold (positionals l). refine (conj _ (conj H2 _)).
    + rewrite H1, <- app_assoc. reflexivity.
    + intros m. rewrite H3, lookup_emplace. destruct (lookup m (named d)); [reflexivity|]. cbn [app lookup].
      destruct (bytes_eqb m n); reflexivity.
  - discriminate.
  - destruct (IH _ _ H) as (H1 & H2 & H3). cbn [positional keywords named] in *.
    cbn [positionals flat_map snd fst]. fold (positionals l). refine (conj _ (conj H2 H3)).
    rewrite H1, <- app_assoc. reflexivity.
Qed.
