From Coq Require Import List NArith ZArith Bool Lia.
From Coq Require Import ZifyBool ZifyNat ZifyN.
From Verif Require Import Common Sub_Model Sub_Spec.
Import ListNotations.
Open Scope N_scope.

Lemma joined_commas : forall l, joined l = commas l.
Proof. reflexivity. Qed.

(** ** Trees *)
Definition tree_ind' (P : tree -> Prop) (H1 : forall s, P (Text s))
  (H2 : forall l suffix, Forall P l -> P (List l suffix)) : forall t, P t :=
  fix go (t : tree) : P t :=
    match t with
    | Text s => H1 s
    | List l suffix => H2 l suffix ((fix all (l : list tree) : Forall P l :=
        match l with [] => Forall_nil P | x :: r => Forall_cons x (go x) (all r) end) l)
    end.

Lemma well_formed_list : forall l suffix, well_formed (List l suffix) <-> Forall well_formed l /\ plain 0 false RPAR suffix = true.
Proof.
  intros l suffix. cbn [well_formed].
  assert (G : forall l, (fix all (l : list tree) : Prop := match l with [] => True | x :: r => well_formed x /\ all r end) l
                        <-> Forall well_formed l).
  { induction l0 as [|x r IH]; [split; auto; constructor|]. split.
    - intros [H1 H2]. constructor; [exact H1|now apply IH].
    - intros H. inversion H; subst. split; [assumption|now apply IH]. }
  now rewrite G.
Qed.
Lemma clean_list : forall l suffix, clean (List l suffix) <-> kept false l = l /\ Forall clean l.
Proof.
  intros l suffix. cbn [clean].
  assert (G : forall l, (fix all (l : list tree) : Prop := match l with [] => True | x :: r => clean x /\ all r end) l
                        <-> Forall clean l).
  { induction l0 as [|x r IH]; [split; auto; constructor|]. split.
    - intros [H1 H2]. constructor; [exact H1|now apply IH].
    - intros H. inversion H; subst. split; [assumption|now apply IH]. }
  now rewrite G.
Qed.
Lemma data_of_list : forall l suffix, data_of (List l suffix) =
  match suffix with
  | [] => Composite (map data_of (kept false l))
  | _ => Single (LPAR :: commas (map get_value (map data_of (kept false l))) ++ RPAR :: suffix)
  end.
Proof.
  intros l suffix. cbn [data_of].
  assert (G : forall l b,
    (fix go (after_suffix : bool) (l : list tree) : list data :=
           match l with
           | [] => []
           | t :: r =>
               if is_empty t && (after_suffix || match r with [] => true | _ => false end) then go false r
               else data_of t :: go (suffixed t) r
           end) b l = map data_of (kept b l)).
  { induction l0 as [|t r IH]; intros b; [reflexivity|]. cbn [kept].
    destruct (is_empty t && (b || match r with [] => true | _ => false end)); [apply IH|].
    cbn [map]. now rewrite IH. }
  rewrite G. reflexivity.
Qed.

(** ** find_single *)
Definition mode_of (depth : nat) (quoted : bool) : mode :=
  if quoted then Quoted else match depth with O => Top | _ => Nested depth end.

Lemma is_data_def_letter : forall c, is_data_def c = attribute_letter c.
Proof.
  intros c. destruct (N.lt_ge_cases c 128) as [H|H].
  - assert (G : forallb (fun c => Bool.eqb (is_data_def c) (attribute_letter c)) (map N.of_nat (seq 0 128)) = true)
      by (vm_compute; reflexivity).
    rewrite forallb_forall in G. apply Bool.eqb_prop. apply G. apply in_map_iff. exists (N.to_nat c).
    split; [lia|]. apply in_seq. lia.
  - assert (toupper c = c) as E by (unfold toupper; destruct ((97 <=? c) && (c <=? 122)) eqn:E; [lia|reflexivity]).
    assert (K : forall l, Forall (fun x => x < 128) l -> existsb (N.eqb c) l = false).
    { induction 1 as [|x l Hx Hl IH]; [reflexivity|]. cbn [existsb]. rewrite IH, orb_false_r. apply N.eqb_neq. lia. }
    unfold is_data_def, attribute_letter. rewrite E, !K; [reflexivity| |]; repeat constructor.
Qed.

Lemma find_plain : forall s depth quoted item b c r,
  (quoted = true -> depth = 0%nat) ->
  plain depth quoted (hd 0 b) s = true -> closes c = true ->
  find_single (mode_of depth quoted) item b (s ++ c :: r) =
  Some (rev item ++ s, (if c =? COMMA then c :: rev s ++ b else rev s ++ b), (if c =? COMMA then r else c :: r)).
Proof.
  induction s as [|x s IH]; intros depth quoted item b c r Hq Hp Hc.
  - cbn [plain] in Hp. assert (depth = 0%nat /\ quoted = false) as [-> ->] by (destruct depth, quoted; try discriminate Hp; auto).
    unfold closes in Hc. cbn [app find_single mode_of].
    destruct (c =? COMMA) eqn:E1.
    + apply N.eqb_eq in E1. subst c. cbn. now rewrite app_nil_r.
    + assert (c = RPAR) by lia. subst c. cbn. now rewrite app_nil_r.
  - assert (Hcons : forall (l : bytes), rev (x :: l) ++ s = rev l ++ x :: s) by (intros; cbn [rev]; rewrite <- app_assoc; reflexivity).
    assert (Hr : rev (x :: s) ++ b = rev s ++ x :: b) by (cbn [rev]; rewrite <- app_assoc; reflexivity).
    cbn [plain] in Hp. cbn [app]. rewrite Hr. destruct quoted.
    + rewrite (Hq eq_refl) in *. cbn [mode_of find_single].
      replace (if x =? QUOTE then Top else Quoted) with (mode_of 0 (negb (x =? QUOTE)))
        by (destruct (x =? QUOTE); reflexivity).
      rewrite (IH 0%nat (negb (x =? QUOTE)) (x :: item) (x :: b)) by auto. now rewrite Hcons.
    + destruct depth as [|d].
      * cbn [mode_of find_single]. destruct (x =? LPAR) eqn:E1.
        -- rewrite (IH 1%nat false (x :: item) (x :: b)) by (auto || discriminate). now rewrite Hcons.
        -- destruct (x =? QUOTE) eqn:E2.
           ++ destruct b as [|p b].
              ** change (attribute_letter (hd 0 [])) with false in Hp.
                 rewrite (IH 0%nat true (x :: item) [x]) by auto. now rewrite Hcons.
              ** cbn [hd] in Hp. rewrite is_data_def_letter. destruct (attribute_letter p).
                 --- rewrite (IH 0%nat false (x :: item) (x :: p :: b)) by (auto || discriminate). now rewrite Hcons.
                 --- rewrite (IH 0%nat true (x :: item) (x :: p :: b)) by auto. now rewrite Hcons.
           ++ destruct (x =? COMMA) eqn:E3; [discriminate|]. destruct (x =? RPAR) eqn:E4; [discriminate|].
              rewrite (IH 0%nat false (x :: item) (x :: b)) by (auto || discriminate). now rewrite Hcons.
      * cbn [mode_of find_single]. destruct (x =? LPAR) eqn:E1.
        -- rewrite (IH (S (S d)) false (x :: item) (x :: b)) by (auto || discriminate). now rewrite Hcons.
        -- destruct (x =? RPAR) eqn:E2.
           ++ replace (match S d with S (S _) => Nested (pred (S d)) | _ => Top end) with (mode_of d false)
                by (destruct d; reflexivity).
              rewrite (IH d false (x :: item) (x :: b)) by (auto || discriminate). now rewrite Hcons.
           ++ rewrite (IH (S d) false (x :: item) (x :: b)) by (auto || discriminate). now rewrite Hcons.
Qed.

(** What [find_single] returns, on any text. *)
Lemma find_single_text : forall rest m item b t b' r', find_single m item b rest = Some (t, b', r') ->
  exists u, t = rev item ++ u /\
    ((b' = COMMA :: rev u ++ b /\ rest = u ++ COMMA :: r') \/
     (b' = rev u ++ b /\ rest = u ++ r' /\ exists q, r' = RPAR :: q)).
Proof.
  induction rest as [|c r IH]; intros m item b t b' r' H; [discriminate|].
  assert (S : forall m', find_single m' (c :: item) (c :: b) r = Some (t, b', r') ->
    exists u, t = rev item ++ u /\
    ((b' = COMMA :: rev u ++ b /\ c :: r = u ++ COMMA :: r') \/
     (b' = rev u ++ b /\ c :: r = u ++ r' /\ exists q, r' = RPAR :: q))).
  { intros m' H'. destruct (IH _ _ _ _ _ _ H') as (u & Hu & Hc). exists (c :: u). split.
    - rewrite Hu. cbn [rev]. rewrite <- app_assoc. reflexivity.
    - cbn [rev app]. rewrite <- app_assoc. cbn [app].
      destruct Hc as [[-> ->]|[-> [-> Hq]]]; [left|right]; auto. }
  cbn [find_single] in H. destruct m as [|n|].
  - destruct (c =? LPAR); [now apply S in H|]. destruct (c =? QUOTE).
    + destruct b as [|p b]; [now apply S in H|]. destruct (is_data_def p); now apply S in H.
    + destruct (c =? COMMA) eqn:E1.
      * apply N.eqb_eq in E1. subst c. injection H as <- <- <-. exists []. rewrite app_nil_r. cbn. auto.
      * destruct (c =? RPAR) eqn:E2.
        -- apply N.eqb_eq in E2. subst c. injection H as <- <- <-. exists []. rewrite app_nil_r. cbn. split; [reflexivity|]. right.
           refine (conj eq_refl (conj eq_refl _)). eauto.
        -- now apply S in H.
  - destruct (c =? LPAR); [now apply S in H|]. destruct (c =? RPAR); now apply S in H.
  - now apply S in H.
Qed.
Lemma find_single_shorter : forall rest m item b t b' r', find_single m item b rest = Some (t, b', r') ->
  (length r' <= length rest)%nat.
Proof.
  intros rest m item b t b' r' H. destruct (find_single_text _ _ _ _ _ _ _ H) as (u & _ & [[_ ->]|[_ [-> _]]]);
    rewrite app_length; cbn [length]; lia.
Qed.

(** ** The loop ends *)
Lemma loop_body_shorter : forall s s', loop_body s = Continue s' -> (length (rest s') < length (rest s))%nat.
Proof.
  intros s s' H. unfold loop_body in H. destruct (rest s) as [|c r] eqn:Er; [discriminate|].
  destruct (c =? LPAR) eqn:E1; [injection H as <-; cbn; lia|].
  destruct (c =? RPAR) eqn:E2.
  - destruct (lower s) as [|up low]; [discriminate|].
    assert (K : forall d b q, (length q <= length r)%nat ->
      (let '(b, r) := match q with c' :: r' => if c' =? COMMA then (c' :: b, r') else (b, q) | [] => (b, q) end in
       let s' := {| before := b; rest := r; top := up ++ [d]; lower := low |} in
       match low with [] => Done s' | _ => Continue s' end) = Continue s' -> (length (rest s') < S (length r))%nat).
    { intros d b q Hq Hk. destruct q as [|c' q'].
      - destruct low; [discriminate|]. injection Hk as <-. cbn. lia.
      - cbn [length] in Hq. destruct (c' =? COMMA); destruct low; try discriminate; injection Hk as <-; cbn [rest length]; lia. }
    destruct r as [|c' r'].
    + exact (K (Composite (top s)) (c :: before s) [] ltac:(cbn; lia) H).
    + destruct (closes c').
      * exact (K (Composite (top s)) (c :: before s) (c' :: r') ltac:(cbn; lia) H).
      * destruct (find_single Top [] (c :: before s) (c' :: r')) as [[[t b] q]|] eqn:Ef; [|discriminate].
        apply find_single_shorter in Ef. exact (K _ b q Ef H).
  - destruct (find_single Top [] (before s) (c :: r)) as [[[t b] q]|] eqn:Ef; [|discriminate].
    injection H as <-. cbn [rest length].
    destruct (find_single_text _ _ _ _ _ _ _ Ef) as (u & _ & [[_ E]|[_ [E [q' Eq]]]]).
    + apply (f_equal (@length N)) in E. rewrite app_length in E. cbn [length] in E. lia.
    + subst q. destruct u as [|x u].
      * cbn in E. injection E as -> ->. cbn in E2. discriminate.
      * apply (f_equal (@length N)) in E. rewrite app_length in E. cbn [length] in *. lia.
Qed.
Lemma loop_ends : forall f s, (length (rest s) < f)%nat -> loop f s <> None.
Proof.
  induction f as [|f IH]; intros s H; [lia|]. cbn [loop]. destruct (loop_body s) as [s'| |s'] eqn:E; try discriminate.
  apply loop_body_shorter in E. apply IH. lia.
Qed.
Lemma loop_more : forall f s x k, loop f s = Some x -> loop (f + k) s = Some x.
Proof.
  induction f as [|f IH]; intros s x k H; [discriminate|]. cbn [loop Nat.add] in *.
  destruct (loop_body s); auto.
Qed.
Lemma loop_any : forall f g s x y, loop f s = Some x -> loop g s = Some y -> x = y.
Proof.
  intros f g s x y H1 H2. apply (loop_more f s x g) in H1. apply (loop_more g s y f) in H2.
  rewrite Nat.add_comm in H2. congruence.
Qed.

(** ** Parsing the text of a tree *)
Definition steps (s s' : state) : Prop := exists n, forall f, loop (n + f) s = loop f s'.
Lemma steps_refl : forall s, steps s s.
Proof. intros s. exists 0%nat. reflexivity. Qed.
Lemma steps_trans : forall a b c, steps a b -> steps b c -> steps a c.
Proof.
  intros a b c [n Hn] [m Hm]. exists (n + m)%nat. intros f. rewrite <- Nat.add_assoc, Hn. apply Hm.
Qed.
Lemma steps_one : forall s s', loop_body s = Continue s' -> steps s s'.
Proof. intros s s' H. exists 1%nat. intros f. cbn [Nat.add loop]. now rewrite H. Qed.

Definition at_start (b : bytes) : Prop := attribute_letter (hd 0 b) = false.
Definition drop_comma (r : bytes) : bytes := match r with c :: r' => if c =? COMMA then r' else r | [] => r end.
Definition after (t : tree) (c : N) (r : bytes) : bytes :=
  if c =? COMMA then (if suffixed t then drop_comma r else r) else c :: r.

Lemma plain_start : forall s p q, attribute_letter p = false -> attribute_letter q = false ->
  plain 0 false p s = plain 0 false q s.
Proof. intros [|c s] p q Hp Hq; [reflexivity|]. cbn [plain]. rewrite Hp, Hq. reflexivity. Qed.

Lemma text_start : forall t c r, well_formed t -> match text t ++ c :: r with x :: _ => text t = [] \/ closes x = false | [] => False end.
Proof.
  intros [s|l suffix] c r H; cbn [text app].
  - destruct s as [|x s]; cbn [app]; [auto|]. right. destruct H as [H _]. cbn [plain] in H. unfold closes.
    destruct (x =? LPAR) eqn:E1; [assert (x = LPAR) by lia; subst x; reflexivity|].
    destruct (x =? QUOTE) eqn:E2; [assert (x = QUOTE) by lia; subst x; reflexivity|].
    destruct (x =? COMMA), (x =? RPAR); try discriminate; reflexivity.
  - right. reflexivity.
Qed.

Definition pending (skip : bool) (l : list tree) : bytes :=
  match l with
  | t :: (_ :: _) as l' => if skip && is_empty t then commas (map text (tl l)) else commas (map text l)
  | _ => commas (map text l)
  end.
Lemma pending_false : forall l, pending false l = commas (map text l).
Proof. intros [|? [|? ?]]; reflexivity. Qed.

Definition item_ok (t : tree) : Prop := forall b c r V low, at_start b -> closes c = true ->
  (is_empty t = true -> c = COMMA) -> low <> [] ->
  exists b', steps {| before := b; rest := text t ++ c :: r; top := V; lower := low |}
                   {| before := b'; rest := after t c r; top := V ++ [data_of t]; lower := low |} /\
             (c = COMMA -> at_start b').

Lemma items_steps : forall l, Forall well_formed l -> Forall (fun t => well_formed t -> item_ok t) l ->
  forall skip b r V low, at_start b -> low <> [] ->
  exists b', steps {| before := b; rest := pending skip l ++ RPAR :: r; top := V; lower := low |}
                   {| before := b'; rest := RPAR :: r; top := V ++ map data_of (kept skip l); lower := low |}.
Proof.
    induction l as [|t l IHl]; intros Hwf Hall skip b r V low Hb Hl.
      - exists b. cbn [map commas app kept]. rewrite app_nil_r. apply steps_refl.
      - inversion Hwf as [|? ? W1 W2]; subst. inversion Hall as [|? ? A1 A2]; subst. specialize (IHl W2 A2).
        destruct l as [|t2 l].
        + cbn [pending map commas]. cbn [kept]. rewrite orb_true_r, andb_true_r. destruct (is_empty t) eqn:Et.
          * exists b. assert (text t = []) as -> by (destruct t as [[|? ?]|]; try discriminate; reflexivity).
            cbn [app map kept]. rewrite app_nil_r. apply steps_refl.
          * destruct (A1 W1 b RPAR r V low Hb eq_refl ltac:(congruence) Hl) as (b' & Hst & _).
            exists b'. cbn [map]. exact Hst.
        + set (l' := t2 :: l) in *. cbn [kept]. replace (match l' with [] => true | _ => false end) with false by reflexivity.
          rewrite orb_false_r, (andb_comm (is_empty t)). destruct (skip && is_empty t) eqn:Es.
          * destruct (IHl false b r V low Hb Hl) as (b' & Hst). rewrite pending_false in Hst.
            exists b'. unfold l' at 1. cbn [pending]. rewrite Es. exact Hst.
          * assert (Ht : commas (map text (t :: l')) ++ RPAR :: r = text t ++ COMMA :: (commas (map text l') ++ RPAR :: r)).
            { change (commas (map text (t :: l'))) with (text t ++ COMMA :: commas (map text l')).
              now rewrite <- app_assoc. }
            unfold l' at 1. cbn [pending]. rewrite Es. fold l'. rewrite Ht.
            destruct (A1 W1 b COMMA (commas (map text l') ++ RPAR :: r) V low Hb eq_refl ltac:(auto) Hl) as (b1 & Hst1 & Hb1).
            destruct (IHl (suffixed t) b1 r (V ++ [data_of t]) low (Hb1 eq_refl) Hl) as (b2 & Hst2).
            exists b2. eapply steps_trans; [exact Hst1|].
            assert (Hafter : after t COMMA (commas (map text l') ++ RPAR :: r) =
                   pending (suffixed t) l' ++ RPAR :: r).
            { unfold after. change (COMMA =? COMMA) with true. cbv iota. inversion W2 as [|? ? W3 _]; subst.
              unfold pending. destruct (suffixed t); cbn [andb].
              - unfold l'. destruct l as [|t3 l].
                + cbn [map commas]. pose proof (text_start t2 RPAR r W3) as X. unfold drop_comma.
                  destruct (text t2 ++ RPAR :: r) as [|x q] eqn:Ex; [contradiction|].
                  destruct X as [X|X]; [rewrite X in Ex; cbn in Ex; injection Ex as <- <-; reflexivity|].
                  unfold closes in X. destruct (x =? COMMA); [discriminate|reflexivity].
                + change (commas (map text (t2 :: t3 :: l))) with (text t2 ++ COMMA :: commas (map text (t3 :: l))).
                  rewrite <- app_assoc. cbn [app tl]. destruct (is_empty t2) eqn:E2.
                  * assert (text t2 = []) as -> by (destruct t2 as [[|? ?]|]; try discriminate; reflexivity). reflexivity.
                  * pose proof (text_start t2 COMMA (commas (map text (t3 :: l)) ++ RPAR :: r) W3) as X. unfold drop_comma.
                    destruct (text t2) as [|x q] eqn:Ex.
                    -- destruct t2 as [[|? ?]|]; try discriminate.
                    -- cbn [app] in *. destruct X as [X|X]; [discriminate|]. unfold closes in X.
                       destruct (x =? COMMA); [discriminate|]. rewrite <- app_assoc. reflexivity.
              - unfold l'. destruct l; reflexivity. }
            rewrite Hafter. cbn [map]. replace (V ++ data_of t :: map data_of (kept (suffixed t) l'))
              with ((V ++ [data_of t]) ++ map data_of (kept (suffixed t) l')) by (rewrite <- app_assoc; reflexivity).
            exact Hst2.
Qed.

Theorem item_steps : forall t, well_formed t -> item_ok t.
Proof.
  induction t as [s|l suffix IH] using tree_ind'; intros Hw b c r V low Hb Hc He Hl.
  - destruct Hw as [Hp Hs]. cbn [text data_of]. unfold after. cbn [suffixed].
    assert (Hf := find_plain s 0 false [] b c r ltac:(discriminate)
      ltac:(rewrite (plain_start s _ 0 Hb eq_refl); exact Hp) Hc). cbn [mode_of rev app] in Hf.
    assert (Hbody : exists x q, s ++ c :: r = x :: q /\ x =? LPAR = false /\ x =? RPAR = false).
    { destruct s as [|x s].
      - exists c, r. rewrite (He eq_refl). auto.
      - exists x, (s ++ c :: r). split; [reflexivity|]. split; [lia|].
        cbn [plain] in Hp. destruct (x =? LPAR) eqn:E1; [lia|]. destruct (x =? QUOTE) eqn:E2; [unfold QUOTE, RPAR in *; lia|].
        destruct (x =? COMMA), (x =? RPAR); try discriminate; reflexivity. }
    destruct Hbody as (x & q & E & E1 & E2).
    eexists. split.
    + apply steps_one. unfold loop_body. cbn [rest before top lower]. rewrite E. rewrite E1, E2. rewrite <- E. rewrite Hf. reflexivity.
    + intros ->. reflexivity.
  - apply well_formed_list in Hw. destruct Hw as [Hw Hp].
    (* the items *)
    destruct (items_steps l Hw IH false (LPAR :: b) (suffix ++ c :: r) [] (V :: low) eq_refl ltac:(discriminate)) as (b1 & Hst).
    rewrite pending_false in Hst.
    cbn [app] in Hst. rewrite data_of_list.
    assert (Hopen : steps {| before := b; rest := text (List l suffix) ++ c :: r; top := V; lower := low |}
                          {| before := b1; rest := RPAR :: suffix ++ c :: r; top := map data_of (kept false l); lower := V :: low |}).
    { eapply steps_trans; [|exact Hst]. apply steps_one. unfold loop_body. cbn [rest text app].
      change (LPAR =? LPAR) with true. cbv iota. cbn [before top lower]. rewrite <- app_assoc. reflexivity. }
    set (items := map data_of (kept false l)) in *.
    destruct suffix as [|x suffix].
    + cbn [app] in *. exists (if c =? COMMA then c :: RPAR :: b1 else RPAR :: b1). split.
      * eapply steps_trans; [exact Hopen|]. apply steps_one. unfold loop_body. cbn [rest lower top before].
        change (RPAR =? LPAR) with false. change (RPAR =? RPAR) with true. cbv iota. rewrite Hc.
        unfold after. cbn [suffixed]. destruct (c =? COMMA); destruct low; try contradiction; reflexivity.
      * intros ->. reflexivity.
    + assert (Hf := find_plain (x :: suffix) 0 false [] (RPAR :: b1) c r ltac:(discriminate) Hp Hc).
      cbn [mode_of rev app] in Hf. cbn [app] in Hopen.
      assert (Hx : closes x = false).
      { cbn [plain] in Hp. unfold closes. destruct (x =? LPAR) eqn:E1; [unfold LPAR, COMMA, RPAR in *; lia|].
        destruct (x =? QUOTE) eqn:E2; [unfold QUOTE, COMMA, RPAR in *; lia|].
        destruct (x =? COMMA), (x =? RPAR); try discriminate; reflexivity. }
      set (b2 := (if c =? COMMA then c :: (rev suffix ++ [x]) ++ RPAR :: b1 else (rev suffix ++ [x]) ++ RPAR :: b1)) in *.
      set (r2 := (if c =? COMMA then r else c :: r)) in *.
      assert (Hv : get_value (Composite items) ++ x :: suffix = LPAR :: commas (map get_value items) ++ RPAR :: x :: suffix).
      { cbn [get_value app]. rewrite joined_commas, <- app_assoc. reflexivity. }
      assert (Hr2 : after (List l (x :: suffix)) c r = drop_comma r2 \/ c = RPAR /\ after (List l (x :: suffix)) c r = r2).
      { unfold after, r2. cbn [suffixed]. destruct (c =? COMMA) eqn:E; [auto|]. right. unfold closes in Hc. split; [lia|reflexivity]. }
      assert (Hd : drop_comma r2 = after (List l (x :: suffix)) c r).
      { destruct Hr2 as [->|[-> ->]]; [reflexivity|]. unfold r2. reflexivity. }
      exists (match r2 with c' :: _ => if c' =? COMMA then c' :: b2 else b2 | [] => b2 end). split.
      * eapply steps_trans; [exact Hopen|]. apply steps_one. unfold loop_body. cbn [rest lower top before].
        change (RPAR =? LPAR) with false. change (RPAR =? RPAR) with true. cbv iota. rewrite Hx, Hf, Hv.
        rewrite <- Hd. unfold drop_comma. destruct low; [contradiction|]. destruct r2 as [|c' r2]; [reflexivity|].
        destruct (c' =? COMMA); reflexivity.
      * intros ->. unfold b2. cbn [N.eqb]. change (COMMA =? COMMA) with true. cbv iota.
        destruct r2 as [|c' r2]; [reflexivity|]. destruct (c' =? COMMA) eqn:E; [assert (c' = COMMA) by lia; subst; reflexivity|reflexivity].
Qed.
