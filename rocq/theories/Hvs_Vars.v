(** The type of a variable symbol of open code is that of its first definition there. *)
From Coq Require Import String.
From Coq Require Import List NArith ZArith Bool Arith Lia.
From Verif Require Import Common Var_Model Var_Proof Hvs_Model Hvs_Spec.
Import ListNotations.
Open Scope nat_scope.

(** ** What every step keeps *)
Definition in_heap (c : ctx) (s : scope) : Prop := forall m a, lookup m (variables s) = Some a -> a < length (heap c).
Definition bound (c : ctx) : Prop :=
  (forall m a, lookup m (globals c) = Some a -> a < length (heap c)) /\
  in_heap c (current c) /\ Forall (in_heap c) (outer c).
Definition keep (c c' : ctx) : Prop :=
  length (heap c) <= length (heap c') /\
  (forall a, a < length (heap c) -> s_type (deref a c') = s_type (deref a c)) /\
  (forall m a, lookup m (variables (open_scope c)) = Some a -> lookup m (variables (open_scope c')) = Some a).
(** The global variable of a name has a type unless open code has the name already. *)
Definition typed (n : name) (t : ty) (c : ctx) : Prop :=
  forall a, lookup n (globals c) = Some a ->
    s_type (deref a c) = t \/ lookup n (variables (open_scope c)) <> None.
Definition good (n : name) (t : ty) (c c' : ctx) : Prop := bound c' /\ keep c c' /\ (typed n t c -> typed n t c').

Lemma keep_refl : forall c, keep c c.
Proof. intros c. split; [lia|]. auto. Qed.
Lemma keep_trans : forall a b c, keep a b -> keep b c -> keep a c.
Proof.
  intros a b c (L & T & V) (L' & T' & V'). split; [lia|]. split.
  - intros x H. rewrite T' by lia. auto.
  - auto.
Qed.
Lemma good_refl : forall n t c, bound c -> good n t c c.
Proof. intros n t c B. split; [exact B|]. split; [apply keep_refl|auto]. Qed.
Lemma good_trans : forall n t a b c, good n t a b -> good n t b c -> good n t a c.
Proof.
  intros n t a b c (B & K & T) (B' & K' & T'). split; [exact B'|]. split; [eapply keep_trans; eauto|auto].
Qed.
Lemma typed_keep : forall n t c c', bound c -> keep c c' -> globals c' = globals c -> typed n t c -> typed n t c'.
Proof.
  intros n t c c' (B & _) (L & T & V) G H a E. rewrite G in E. destruct (H a E) as [X|X].
  - left. rewrite T; eauto.
  - right. destruct (lookup n (variables (open_scope c))) as [b|] eqn:EB; [|contradiction]. rewrite (V n b EB). discriminate.
Qed.
Lemma last_any : forall {A} (l : list A) a b, l <> [] -> last l a = last l b.
Proof.
  induction l as [|x l IH]; intros a b H; [contradiction|]. destruct l as [|y l]; [reflexivity|]. cbn [last]. apply IH. discriminate.
Qed.

Lemma in_heap_more : forall c c' s, length (heap c) <= length (heap c') -> in_heap c s -> in_heap c' s.
Proof. intros c c' s L H m a E. specialize (H m a E). lia. Qed.

Lemma make_good : forall n t s c, bound c -> good n t c (snd (make_shared s c)).
Proof.
  intros n t s c B. assert (L : length (heap c) <= length (heap (snd (make_shared s c)))) by (cbn; rewrite app_length; lia).
  assert (K : keep c (snd (make_shared s c))).
  { split; [exact L|]. split; [|auto]. intros a H. f_equal. apply deref_app. exact H. }
  split; [|split; [exact K|]].
  - destruct B as (B1 & B2 & B3). split; [intros m a E; specialize (B1 m a E); lia|].
    split; [apply (in_heap_more c); assumption|]. eapply Forall_impl; [|exact B3]. intros x. now apply in_heap_more.
  - apply typed_keep; auto.
Qed.
Lemma insert_more : forall m a t k b, lookup k t = Some b -> lookup k (insert m a t) = Some b.
Proof.
  intros m a t k b H. unfold insert. destruct (lookup m t) eqn:E; [exact H|]. cbn. destruct (bytes_eqb k m) eqn:EK; [|exact H].
  apply bytes_eqb_eq in EK. subst. congruence.
Qed.
Lemma insert_which : forall m a t k b, lookup k (insert m a t) = Some b -> (k = m /\ b = a /\ lookup k t = None) \/ lookup k t = Some b.
Proof.
  intros m a t k b H. unfold insert in H. destruct (lookup m t) eqn:E; [right; exact H|]. cbn in H. destruct (bytes_eqb k m) eqn:EK.
  - left. apply bytes_eqb_eq in EK. subst. assert (b = a) by congruence. auto.
  - right. exact H.
Qed.
Lemma variable_good : forall n t m a c, bound c -> a < length (heap c) -> good n t c (insert_variable m a c).
Proof.
  intros n t m a c B H. assert (K : keep c (insert_variable m a c)).
  { split; [cbn; lia|]. split; [reflexivity|]. intros k b E. unfold open_scope in *. cbn [insert_variable outer current].
    destruct (outer c) as [|s l] eqn:EO.
    - cbn [last] in *. cbn [variables]. now apply insert_more.
    - rewrite (last_any (s :: l) _ (current c)) by discriminate. exact E. }
  split; [|split; [exact K|apply typed_keep; auto]].
  destruct B as (B1 & B2 & B3). split; [exact B1|]. split; [|exact B3].
  intros k b E. cbn in E. apply insert_which in E. destruct E as [(_ & -> & _)|E]; [exact H|apply (B2 k b E)].
Qed.
Lemma global_good : forall n t m a c, bound c -> a < length (heap c) ->
  (m = n -> s_type (deref a c) = t) -> good n t c (insert_global m a c).
Proof.
  intros n t m a c B H Hm. split; [|split].
  - destruct B as (B1 & B2 & B3). split; [|split; assumption]. intros k b E. cbn in E. apply insert_which in E.
    destruct E as [(_ & -> & _)|E]; [exact H|apply (B1 k b E)].
  - split; [cbn; lia|]. split; [reflexivity|]. auto.
  - intros P b E. cbn in E. apply insert_which in E. destruct E as [(E1 & E2 & _)|E]; [left; subst; now apply Hm|apply (P b E)].
Qed.
Lemma store_good : forall n t a s c, bound c -> s_type s = s_type (deref a c) -> good n t c (store a s c).
Proof.
  intros n t a s c B H. assert (K : keep c (store a s c)).
  { split; [cbn; rewrite set_nth_length; lia|]. split; [|auto]. intros b Hb. rewrite deref_store.
    destruct ((b =? a) && (a <? length (heap c)))%nat eqn:E; [|reflexivity]. apply andb_true_iff in E. destruct E as [E _].
    apply Nat.eqb_eq in E. now subst. }
  split; [|split; [exact K|apply typed_keep; auto]].
  destruct B as (B1 & B2 & B3). assert (L : length (heap (store a s c)) = length (heap c)) by apply set_nth_length.
  split; [intros m b E; rewrite L; eauto|]. split; [intros m b E; rewrite L; eauto|].
  eapply Forall_impl; [|exact B3]. intros x X m b E. rewrite L. eauto.
Qed.

Lemma values_good : forall n t es a idx c, bound c -> good n t c (set_values a idx es c).
Proof.
  intros n t es. induction es as [|e es IH]; intros a idx c B; [now apply good_refl|]. cbn [set_values].
  assert (G : good n t c (store a (set_value (deref a c) (eval e c) idx) c)) by (apply store_good; [exact B|reflexivity]).
  eapply good_trans; [exact G|]. apply IH. apply G.
Qed.

Lemma new_local_good : forall n t t' m b c, bound c ->
  let c' := insert_variable m (length (heap c)) (snd (make_shared (new_sym t' b) c)) in
  good n t c c' /\ s_type (deref (length (heap c)) c') = t'.
Proof.
  intros n t t' m b c B. cbv zeta. pose proof (make_good n t (new_sym t' b) c B) as G. split.
  - eapply good_trans; [exact G|]. apply variable_good; [apply G|]. cbn. rewrite app_length. cbn. lia.
  - unfold deref. cbn. rewrite app_nth2, Nat.sub_diag by lia. reflexivity.
Qed.

Lemma create_local_good : forall n t t' m b c, bound c ->
  let r := create_local_variable t' m b c in
  good n t c (snd r) /\ lookup m (variables (current (snd r))) = Some (fst r) /\
  (lookup m (variables (current c)) = None -> s_type (deref (fst r) (snd r)) = t').
Proof.
  intros n t t' m b c B. cbv zeta. unfold create_local_variable. destruct (lookup m (variables (current c))) as [a|] eqn:E.
  - cbn [fst snd]. split; [now apply good_refl|]. split; [exact E|discriminate].
  - cbn [make_shared fst snd]. destruct (new_local_good n t t' m b c B) as [G T]. cbn [make_shared snd] in G, T. split; [exact G|].
    split; [|intros _; exact T]. cbn [insert_variable current variables]. unfold insert. rewrite E. cbn. now rewrite bytes_eqb_refl.
Qed.
Lemma create_global_good : forall n t t' m b c, bound c -> (m = n -> t' = t) ->
  let r := create_global_variable t' m b c in
  good n t c (snd r) /\ lookup m (variables (current (snd r))) = Some (fst r) /\
  (lookup m (variables (current c)) = None -> m = n -> outer c = [] -> typed n t c -> s_type (deref (fst r) (snd r)) = t').
Proof.
  intros n t t' m b c B Hm. cbv zeta. unfold create_global_variable. destruct (lookup m (variables (current c))) as [a|] eqn:E.
  - cbn [fst snd]. split; [now apply good_refl|]. split; [exact E|discriminate].
  - assert (LI : forall c1 a, current c1 = current c -> lookup m (variables (current (insert_variable m a c1))) = Some a).
    { intros c1 a E1. cbn [insert_variable current variables]. rewrite E1. unfold insert. rewrite E. cbn. now rewrite bytes_eqb_refl. }
    destruct (lookup m (globals c)) as [a|] eqn:EG.
    + cbn [fst snd]. split; [apply variable_good; [exact B|apply B in EG; exact EG]|]. split; [now apply LI|].
      intros _ -> O P. destruct (P a EG) as [X|X].
      * rewrite <- (Hm eq_refl) in X. exact X.
      * exfalso. apply X. unfold open_scope. rewrite O. exact E.
    + cbn [make_shared fst snd]. set (c1 := {| heap := heap c ++ [new_sym t' b]; globals := globals c; current := current c; outer := outer c; SYSNDX_ := SYSNDX_ c |}).
      pose proof (make_good n t (new_sym t' b) c B) as G1. change (snd (make_shared (new_sym t' b) c)) with c1 in G1.
      assert (LH : length (heap c) < length (heap c1)) by (cbn; rewrite app_length; cbn; lia).
      assert (D : s_type (deref (length (heap c)) c1) = t').
      { unfold deref, c1. cbn. rewrite app_nth2, Nat.sub_diag by lia. reflexivity. }
      assert (G2 : good n t c1 (insert_global m (length (heap c)) c1)).
      { apply global_good; [apply G1|exact LH|]. intros Em. rewrite D. auto. }
      split; [|split].
      * eapply good_trans; [exact G1|]. eapply good_trans; [exact G2|]. apply variable_good; [apply G2|exact LH].
      * apply LI. reflexivity.
      * intros _ _ _ _. exact D.
Qed.

Definition declares (ids : list (name * bool)) (n : name) : Prop := exists b, In (n, b) ids.
Lemma create_all_good : forall n t g t' ids c, bound c -> (g = true -> declares ids n -> t' = t) ->
  good n t c (create_all g t' ids c) /\
  (outer c = [] -> typed n t c -> declares ids n -> t' = t -> lookup n (variables (current c)) = None ->
   exists a, lookup n (variables (open_scope (create_all g t' ids c))) = Some a /\ a < length (heap (create_all g t' ids c)) /\
     s_type (deref a (create_all g t' ids c)) = t).
Proof.
  intros n t g t' ids. induction ids as [|[m b] ids IH]; intros c B Hg.
  - split; [now apply good_refl|]. intros _ _ [x []].
  - cbn [create_all].
    assert (Hm : g = true -> m = n -> t' = t) by (intros X ->; apply (Hg X); exists b; left; reflexivity).
    assert (Hr : g = true -> declares ids n -> t' = t) by (intros X [y Y]; apply (Hg X); exists y; right; exact Y).
    set (r := if g then create_global_variable t' m b c else create_local_variable t' m b c).
    assert (F : good n t c (snd r) /\ lookup m (variables (current (snd r))) = Some (fst r) /\ outer (snd r) = outer c /\
                (lookup m (variables (current c)) = None -> m = n -> t' = t -> outer c = [] -> typed n t c -> s_type (deref (fst r) (snd r)) = t)).
    { assert (O : outer (snd r) = outer c).
      { subst r. destruct g; unfold create_global_variable, create_local_variable; destruct (lookup m (variables (current c)));
          try reflexivity. destruct (lookup m (globals c)); reflexivity. }
      subst r. destruct g.
      - destruct (create_global_good n t t' m b c B (Hm eq_refl)) as (X & Y & Z). repeat split; try apply X; auto.
        intros E1 E2 E3 E4 E5. rewrite <- E3. auto.
      - destruct (create_local_good n t t' m b c B) as (X & Y & Z). repeat split; try apply X; auto.
        intros E1 E2 E3 E4 E5. rewrite <- E3. auto. }
    destruct F as (G & LK & O & TY). destruct (IH (snd r) (proj1 G) Hr) as [G' W].
    split; [eapply good_trans; eauto|]. intros EO P D ET EN.
    destruct (bytes_eqb m n) eqn:E.
    + apply bytes_eqb_eq in E. subst m. exists (fst r). destruct G' as (B' & (L' & T' & V') & _).
      assert (EL : lookup n (variables (open_scope (snd r))) = Some (fst r)) by (unfold open_scope; rewrite O, EO; exact LK).
      assert (HB : fst r < length (heap (snd r))) by (apply (proj1 (proj2 (proj1 G))) in LK; exact LK).
      split; [apply V'; exact EL|]. split; [lia|]. rewrite T' by exact HB. auto.
    + apply W; [now rewrite O|apply G; exact P| |exact ET|].
      * destruct D as [x [D|D]]; [|exists x; exact D]. assert (m = n) by congruence. subst. now rewrite bytes_eqb_refl in E.
      * assert (M : n <> m) by (intros ->; now rewrite bytes_eqb_refl in E).
        assert (EV : lookup n (variables (current (snd r))) = lookup n (variables (current c))).
        { subst r. unfold create_global_variable, create_local_variable.
          destruct g; destruct (lookup m (variables (current c))) eqn:EM; try reflexivity;
            try destruct (lookup m (globals c)); cbn; unfold insert; rewrite EM; cbn;
            (destruct (bytes_eqb n m) eqn:EE; [apply bytes_eqb_eq in EE; contradiction|reflexivity]). }
        rewrite EV. exact EN.
Qed.

(** The names that a declaration creates are among those written, and all of them if nothing is reported. *)
Lemma prepare_ids : forall ops ids c ds r, prepare_GBL_LCL ops ids c = (ds, Some r) ->
  (forall n b, In (n, b) r -> In (n, b) ids \/ exists sub, In (DVar n sub) ops) /\
  (forall n b, In (n, b) ids -> In (n, b) r) /\
  (ds = [] -> forall n sub, In (DVar n sub) ops -> n <> [] -> declares r n /\ get_var_sym n c = None).
Proof.
  induction ops as [|o ops IH]; intros ids c ds r E; cbn [prepare_GBL_LCL] in E.
  - assert (ds = []) by congruence. assert (r = ids) by congruence. subst. split; [auto|]. split; [auto|]. intros _ n sub [].
  - destruct o as [| |m sub]; [| discriminate |].
    + destruct (IH _ _ _ _ E) as (A & B & C). split; [|split; [exact B|]].
      * intros n b H. destruct (A n b H) as [X|[s X]]; [auto|right; exists s; right; exact X].
      * intros Z n s [X|X] N; [discriminate|eapply C; eauto].
    + destruct m as [|c0 m].
      { destruct (IH _ _ _ _ E) as (A & B & C). split; [|split; [exact B|]].
        - intros n b H. destruct (A n b H) as [X|[s X]]; [auto|right; exists s; right; exact X].
        - intros Z n s [X|X] N; [exfalso; apply N; congruence|eapply C; eauto]. }
      destruct (get_var_sym (c0 :: m) c) as [[a|]|] eqn:EV.
      * destruct (prepare_GBL_LCL ops ids c) as [ds' x] eqn:EP. assert (x = Some r) by congruence. subst x.
        destruct (IH _ _ _ _ EP) as (A & B & C). split; [|split; [exact B|]].
        -- intros n b H. destruct (A n b H) as [X|[s X]]; [auto|right; exists s; right; exact X].
        -- intros Z. exfalso. subst ds. congruence.
      * destruct (prepare_GBL_LCL ops ids c) as [ds' x] eqn:EP. assert (x = Some r) by congruence. subst x.
        destruct (IH _ _ _ _ EP) as (A & B & C). split; [|split; [exact B|]].
        -- intros n b H. destruct (A n b H) as [X|[s X]]; [auto|right; exists s; right; exact X].
        -- intros Z. exfalso. subst ds. congruence.
      * destruct (existsb (fun p => bytes_eqb (c0 :: m) (fst p)) ids) eqn:EX.
        { destruct (prepare_GBL_LCL ops ids c) as [ds' x] eqn:EP. assert (x = Some r) by congruence. subst x.
          destruct (IH _ _ _ _ EP) as (A & B & C). split; [|split; [exact B|]].
          - intros n b H. destruct (A n b H) as [X|[s X]]; [auto|right; exists s; right; exact X].
          - intros Z. exfalso. subst ds. congruence. }
        destruct (IH _ _ _ _ E) as (A & B & C). split; [|split].
        -- intros n b H. destruct (A n b H) as [X|[s X]].
           ++ apply in_app_or in X. destruct X as [X|[X|[]]]; [auto|]. right. exists sub. left. f_equal. congruence.
           ++ right. exists s. right. exact X.
        -- intros n b H. apply B. apply in_or_app. auto.
        -- intros Z n s [X|X] N; [|eapply C; eauto]. assert (c0 :: m = n) by congruence. subst n. split; [|exact EV].
           eexists. apply B. apply in_or_app. right. left. reflexivity.
Qed.

(** A declaration. *)
Lemma decl_good : forall n t g t' ops c, bound c ->
  (g = true -> forall sub, In (DVar n sub) ops -> t' = t) ->
  good n t c (snd (process_GBL_LCL g t' ops c)) /\
  (fst (process_GBL_LCL g t' ops c) = [] -> outer c = [] -> typed n t c -> n <> [] -> t' = t ->
   (exists sub, In (DVar n sub) ops) ->
   exists a, lookup n (variables (open_scope (snd (process_GBL_LCL g t' ops c)))) = Some a /\
     a < length (heap (snd (process_GBL_LCL g t' ops c))) /\
     s_type (deref a (snd (process_GBL_LCL g t' ops c))) = t).
Proof.
  intros n t g t' ops c B Hg. unfold process_GBL_LCL. destruct (prepare_GBL_LCL ops [] c) as [ds [ids|]] eqn:EP.
  - destruct (prepare_ids _ _ _ _ _ EP) as (A1 & _ & A3).
    assert (D : g = true -> declares ids n -> t' = t).
    { intros X [b Y]. destruct (A1 n b Y) as [[]|[sub Z]]. eauto. }
    destruct (create_all_good n t g t' ids c B D) as [G W].
    destruct (forallb is_omitted ops) eqn:EO; cbn [fst snd].
    + split; [now apply good_refl|]. intros E. exfalso. destruct ds; discriminate E.
    + split; [exact G|]. intros E O P N ET [sub X]. destruct (A3 E n sub X N) as [DI GV].
      apply W; auto. unfold get_var_sym in GV. destruct (lookup n (variables (current c))); [discriminate|reflexivity].
  - cbn [fst snd]. split; [now apply good_refl|]. intros E O P N ET [sub X]. exfalso.
    assert (K : forall ops ids c, fst (prepare_GBL_LCL ops ids c) = [] -> snd (prepare_GBL_LCL ops ids c) <> None).
    { clear. induction ops as [|o ops IH]; intros ids c; cbn [prepare_GBL_LCL]; [discriminate|].
      destruct o as [| |m sub]; [apply IH|discriminate|]. destruct m as [|c0 m]; [apply IH|].
      destruct (get_var_sym (c0 :: m) c) as [[a|]|]; try (destruct (prepare_GBL_LCL ops ids c); discriminate).
      destruct (existsb (fun p => bytes_eqb (c0 :: m) (fst p)) ids); [destruct (prepare_GBL_LCL ops ids c); discriminate|apply IH]. }
    specialize (K ops [] c). rewrite EP in K. apply K; auto.
Qed.

(** An assignment. *)
Lemma set_good : forall n t t' m sub ops c, bound c ->
  good n t c (snd (process_SET t' m sub ops c)) /\
  (fst (process_SET t' m sub ops c) = [] -> outer c = [] -> m = n -> t' = t ->
   exists a, lookup n (variables (open_scope (snd (process_SET t' m sub ops c)))) = Some a /\
     a < length (heap (snd (process_SET t' m sub ops c))) /\
     s_type (deref a (snd (process_SET t' m sub ops c))) = t).
Proof.
  intros n t t' m sub ops c B. unfold process_SET.
  destruct (test_symbol_for_assignment t' m sub c) as [d|[index symbol]] eqn:ET.
  - cbn. split; [now apply good_refl|discriminate].
  - set (r := match symbol with Some a => (a, c) | None => create_local_variable t' m (index =? -1)%Z c end).
    assert (F : good n t c (snd r) /\ lookup m (variables (current (snd r))) = Some (fst r) /\ outer (snd r) = outer c /\
                s_type (deref (fst r) (snd r)) = t').
    { unfold test_symbol_for_assignment in ET. subst r. destruct symbol as [a|].
      - cbn [fst snd]. split; [now apply good_refl|]. unfold get_var_sym in ET.
        destruct (lookup m (variables (current c))) as [b|] eqn:EL.
        + destruct (match sub with [] => _ | _ => _ end) as [?|idx]; [discriminate|].
          destruct (ty_eqb (s_type (deref b c)) t') eqn:EQ; [|discriminate]. cbn [negb] in ET.
          destruct (_ || _); [discriminate|]. assert (b = a) by congruence. subst b. split; [reflexivity|]. split; [reflexivity|].
          destruct (s_type (deref a c)), t'; try discriminate; reflexivity.
        + destruct (existsb _ _); [discriminate|]. destruct (match sub with [] => _ | _ => _ end); discriminate.
      - assert (EL : lookup m (variables (current c)) = None).
        { unfold get_var_sym in ET. destruct (lookup m (variables (current c))) as [b|] eqn:EL; [|reflexivity].
          destruct (match sub with [] => _ | _ => _ end); [discriminate|]. destruct (negb _); [discriminate|]. destruct (_ || _); discriminate. }
        destruct (create_local_good n t t' m (index =? -1)%Z c B) as (G & L & T). split; [exact G|]. split; [exact L|]. split; [|auto].
        unfold create_local_variable. rewrite EL. reflexivity. }
    destruct F as (G & LK & O & TY). destruct r as [a c'] eqn:ER. cbn [fst snd] in *.
    destruct (prepare_SET_operands ops) as [d|[|e es]].
    + cbn. split; [exact G|discriminate].
    + cbn. split; [exact G|discriminate].
    + cbn [fst snd]. pose proof (values_good n t (e :: es) a (index - 1)%Z c' (proj1 G)) as GV.
      split; [eapply good_trans; eauto|]. intros _ EO -> ->. exists a. destruct GV as (_ & (L' & T' & V') & _).
      assert (HB : a < length (heap c')) by (apply (proj1 (proj2 (proj1 G))) in LK; exact LK).
      split; [|split; [lia|rewrite T' by exact HB; exact TY]]. apply V'. unfold open_scope. rewrite O, EO. exact LK.
Qed.

(** Calls. *)
Lemma push_good : forall n t s c, bound c -> variables s = [] ->
  good n t c {| heap := heap c; globals := globals c; current := s; outer := scopes c; SYSNDX_ := SYSNDX_ c |}.
Proof.
  intros n t s c B ES. set (c' := {| heap := heap c; globals := globals c; current := s; outer := scopes c; SYSNDX_ := SYSNDX_ c |}).
  assert (K : keep c c').
  { split; [cbn; lia|]. split; [reflexivity|]. intros m a. unfold open_scope, c', scopes. cbn [outer current].
    destruct (outer c) as [|x l]; [cbn; auto|]. cbn [last]. destruct l as [|y l]; [cbn; auto|].
    rewrite (last_any (y :: l) s (current c)) by discriminate. auto. }
  split; [|split; [exact K|apply typed_keep; auto]].
  destruct B as (B1 & B2 & B3). split; [exact B1|]. split; [|constructor; assumption].
  intros m a E. cbn in E. rewrite ES in E. discriminate.
Qed.
Lemma system_good : forall n t m ty v c, bound c -> good n t c (add_system_var m ty v c).
Proof.
  intros n t m ty v c B. unfold add_system_var. cbn [make_shared].
  set (s := match v with Some v0 => _ | None => _ end). pose proof (make_good n t s c B) as G. cbn [make_shared snd] in G.
  eapply good_trans; [exact G|]. apply variable_good; [apply G|]. cbn. rewrite app_length. cbn. lia.
Qed.
Lemma global_var_good : forall n t l c, bound c -> good n t c (fold_left add_global_var l c).
Proof.
  intros n t l. induction l as [|m l IH]; intros c B; [now apply good_refl|]. cbn [fold_left].
  assert (G : good n t c (add_global_var c m)).
  { unfold add_global_var. destruct (lookup m (globals c)) eqn:E; [|now apply good_refl]. apply variable_good; [exact B|]. apply B in E. exact E. }
  eapply good_trans; [exact G|]. apply IH. apply G.
Qed.
Lemma count_good : forall n t c c' k, good n t c c' ->
  good n t c {| heap := heap c'; globals := globals c'; current := current c'; outer := outer c'; SYSNDX_ := k |}.
Proof. intros n t c c' k G. exact G. Qed.
Lemma enter_good : forall n t named i c, bound c -> good n t c (enter_macro named i c).
Proof.
  intros n t named i c B. unfold enter_macro. cbv zeta. apply count_good.
  set (c0 := {| heap := heap c; globals := globals c; current := _; outer := scopes c; SYSNDX_ := SYSNDX_ c |}).
  assert (G : good n t c c0) by (apply push_good; [exact B|reflexivity]). unfold add_system_vars_to_scope. cbv zeta.
  repeat match goal with
  | |- good _ _ c (fold_left add_global_var _ ?x) =>
      assert (GX : good n t c x); [|eapply good_trans; [exact GX|apply global_var_good; apply GX]]
  | |- good _ _ c (add_system_var ?m ?ty ?v ?x) =>
      let GX := fresh "GX" in assert (GX : good n t c x); [|eapply good_trans; [exact GX|apply system_good; apply GX]]
  end. exact G.
Qed.
Lemma leave_good : forall n t c, bound c -> good n t c (leave_macro c).
Proof.
  intros n t c B. unfold leave_macro. destruct (outer c) as [|s r] eqn:EO; [now apply good_refl|].
  set (c' := {| heap := heap c; globals := globals c; current := s; outer := r; SYSNDX_ := SYSNDX_ c |}).
  assert (K : keep c c').
  { split; [cbn; lia|]. split; [reflexivity|]. intros m a. unfold open_scope, c'. cbn [outer current]. rewrite EO.
    destruct r as [|x l]; [cbn; auto|]. cbn [last]. destruct l as [|y l]; [cbn; auto|].
    rewrite (last_any (y :: l) s (current c)) by discriminate. auto. }
  split; [|split; [exact K|apply typed_keep; auto]].
  destruct B as (B1 & B2 & B3). rewrite EO in B3. inversion B3; subst. split; [exact B1|]. split; assumption.
Qed.

Lemma exec_good : forall n t s c, bound c ->
  (forall t' ops sub, s = DECL true t' ops -> In (DVar n sub) ops -> t' = t) ->
  good n t c (snd (exec c s)).
Proof.
  intros n t [t' m sub ops|g t' ops|named i|] c B H; cbn [exec snd].
  - apply set_good. exact B.
  - apply decl_good; [exact B|]. intros -> sub X. eapply H; eauto.
  - now apply enter_good.
  - now apply leave_good.
Qed.

(** ** The start *)
Definition system_names : list name := [s2b "SYSOPT_RENT"; s2b "SYSPARM"; s2b "SYSTIME"; s2b "SYSDATE"; s2b "SYSDATC"].
Lemma initial_parts : forall i,
  outer (initial i) = [] /\ length (heap (initial i)) = 5 /\
  List.map fst (globals (initial i)) = system_names /\ List.map fst (variables (current (initial i))) = system_names /\
  Forall (fun e => snd e < 5) (globals (initial i)) /\ Forall (fun e => snd e < 5) (variables (current (initial i))).
Proof.
  intros i. split; [vm_compute; reflexivity|]. split; [vm_compute; reflexivity|]. split; [vm_compute; reflexivity|].
  split; [vm_compute; reflexivity|]. split; vm_compute; repeat constructor.
Qed.
Lemma lookup_bound : forall (tb : table) m a k, Forall (fun e => snd e < k) tb -> lookup m tb = Some a -> a < k.
Proof.
  induction tb as [|[x b] tb IH]; intros m a k F E; [discriminate|]. inversion F; subst. cbn in E.
  destruct (bytes_eqb m x); [assert (b = a) by congruence; subst; assumption|eauto].
Qed.
Lemma lookup_names : forall (tb : table) m, lookup m tb <> None <-> In m (List.map fst tb).
Proof.
  induction tb as [|[x b] tb IH]; intros m; cbn; [tauto|]. destruct (bytes_eqb m x) eqn:E.
  - apply bytes_eqb_eq in E. subst. split; [auto|discriminate].
  - rewrite IH. split; [auto|]. intros [X|X]; [subst; rewrite bytes_eqb_refl in E; discriminate|exact X].
Qed.
Lemma initial_bound : forall i, bound (initial i).
Proof.
  intros i. destruct (initial_parts i) as (O & H & _ & _ & G & V). unfold bound, in_heap. rewrite O, H.
  split; [intros m a; apply lookup_bound; exact G|]. split; [intros m a; apply lookup_bound; exact V|constructor].
Qed.
Lemma initial_typed : forall n t i, typed n t (initial i).
Proof.
  intros n t i a E. right. destruct (initial_parts i) as (O & _ & G & V & _). unfold open_scope. rewrite O. cbn [last].
  apply lookup_names. rewrite V, <- G. apply lookup_names. congruence.
Qed.

(** ** The first definition *)
Lemma add_def_find : forall cr m t g ds n,
  definition_of n (add_def cr m t g ds) =
  match definition_of n ds with
  | Some d => Some d
  | None => if cr then None else if bytes_eqb m n then Some {| d_name := m; d_type := t; d_global := g |} else None
  end.
Proof.
  intros cr m t g ds n. unfold add_def, definition_of. destruct cr; [destruct (List.find _ ds); reflexivity|].
  destruct (existsb (fun d => bytes_eqb (d_name d) m) ds) eqn:EX.
  - destruct (List.find (fun d => bytes_eqb (d_name d) n) ds) eqn:EF; [reflexivity|]. destruct (bytes_eqb m n) eqn:E; [|reflexivity].
    exfalso. apply bytes_eqb_eq in E. subst m. apply existsb_exists in EX. destruct EX as (d & I & X).
    pose proof (List.find_none _ _ EF d I) as Y. cbn in Y. congruence.
  - assert (FA : forall l, List.find (fun d => bytes_eqb (d_name d) n) (l ++ [{| d_name := m; d_type := t; d_global := g |}]) =
        match List.find (fun d => bytes_eqb (d_name d) n) l with Some d => Some d
        | None => if bytes_eqb m n then Some {| d_name := m; d_type := t; d_global := g |} else None end).
    { clear. induction l as [|d l IH]; cbn; [reflexivity|]. destruct (bytes_eqb (d_name d) n); [reflexivity|exact IH]. }
    apply FA.
Qed.
Lemma declared_find : forall g t ops ds n,
  match definition_of n ds with
  | Some d => definition_of n (fold_left (add_declared g t) ops ds) = Some d
  | None => match definition_of n (fold_left (add_declared g t) ops ds) with
            | Some d => d_type d = t /\ exists sub, In (false, DVar n sub) ops
            | None => forall sub, ~ In (false, DVar n sub) ops
            end
  end.
Proof.
  intros g t. induction ops as [|[cr o] ops IH]; intros ds n; cbn [fold_left].
  - destruct (definition_of n ds); [reflexivity|]. intros sub [].
  - unfold add_declared at 2 4. cbn [fst snd]. destruct o as [| |m sub].
    + specialize (IH ds n). destruct (definition_of n ds); [exact IH|].
      destruct (definition_of n (fold_left _ ops ds)).
      * destruct IH as [A [s B]]. split; [exact A|]. exists s. right. exact B.
      * intros s [X|X]; [discriminate|exact (IH s X)].
    + specialize (IH ds n). destruct (definition_of n ds); [exact IH|].
      destruct (definition_of n (fold_left _ ops ds)).
      * destruct IH as [A [s B]]. split; [exact A|]. exists s. right. exact B.
      * intros s [X|X]; [discriminate|exact (IH s X)].
    + specialize (IH (add_def cr m t g ds) n). rewrite add_def_find in IH. destruct (definition_of n ds) eqn:ED; [exact IH|].
      destruct cr.
      * destruct (definition_of n (fold_left _ ops _)).
        -- destruct IH as [A [s B]]. split; [exact A|]. exists s. right. exact B.
        -- intros s [X|X]; [discriminate|exact (IH s X)].
      * destruct (bytes_eqb m n) eqn:E.
        -- rewrite IH. cbn. split; [reflexivity|]. apply bytes_eqb_eq in E. subst. exists sub. left. reflexivity.
        -- destruct (definition_of n (fold_left _ ops _)).
           ++ destruct IH as [A [s B]]. split; [exact A|]. exists s. right. exact B.
           ++ intros s [X|X]; [|exact (IH s X)]. assert (m = n) by congruence. subst. now rewrite bytes_eqb_refl in E.
Qed.
Lemma collect_find : forall s ds n,
  match definition_of n ds with
  | Some d => definition_of n (collect_definition ds s) = Some d
  | None => match definition_of n (collect_definition ds s) with
            | Some d => defines s n (d_type d)
            | None => forall t, ~ defines s n t
            end
  end.
Proof.
  intros [cr t m sub ops|g t ops] ds n; cbn [collect_definition defines].
  - rewrite add_def_find. destruct (definition_of n ds); [reflexivity|]. destruct cr; [intros t' [X _]; discriminate|].
    destruct (bytes_eqb m n) eqn:E.
    + apply bytes_eqb_eq in E. cbn. auto.
    + intros t' (_ & X & _). subst. now rewrite bytes_eqb_refl in E.
  - pose proof (declared_find g t ops ds n) as D. destruct (definition_of n ds); [exact D|].
    destruct (definition_of n (fold_left _ ops ds)) as [d|]; [destruct D as [A B]; auto|]. intros t' [_ [s X]]. exact (D s X).
Qed.
Lemma collect_all_find : forall es ds n,
  match definition_of n ds with
  | Some d => definition_of n (collect_definitions ds es) = Some d
  | None => match definition_of n (collect_definitions ds es) with
            | Some d => first_definition es n (d_type d)
            | None => forall s t, In (Open s) es -> ~ defines s n t
            end
  end.
Proof.
  induction es as [|e es IH]; intros ds n; cbn [collect_definitions].
  - destruct (definition_of n ds); [reflexivity|]. intros s t [].
  - destruct e as [s|s].
    + pose proof (collect_find s ds n) as C. specialize (IH (collect_definition ds s) n). destruct (definition_of n ds) as [d|].
      * rewrite C in IH. exact IH.
      * destruct (definition_of n (collect_definition ds s)) as [d|].
        -- rewrite IH. exists [], s, es. split; [reflexivity|]. split; [exact C|]. intros s' t' [].
        -- destruct (definition_of n (collect_definitions _ es)) as [d|].
           ++ destruct IH as (b & s' & a & -> & D & F). exists (Open s :: b), s', a. split; [reflexivity|]. split; [exact D|].
              intros x t' [X|X]; [assert (s = x) by congruence; subst; apply C|eauto].
           ++ intros x t' [X|X]; [assert (s = x) by congruence; subst; apply C|eauto].
    + specialize (IH ds n). destruct (definition_of n ds); [exact IH|].
      destruct (definition_of n (collect_definitions ds es)) as [d|].
      * destruct IH as (b & s' & a & -> & D & F). exists (Inner s :: b), s', a. split; [reflexivity|]. split; [exact D|].
        intros x t' [X|X]; [discriminate|eauto].
      * intros x t' [X|X]; [discriminate|eauto].
Qed.

(** ** The type it has *)
Lemma defined_now : forall n t s c, bound c -> typed n t c -> n <> [] -> outer c = [] ->
  fst (exec c (as_step (Open s))) = [] -> defines s n t ->
  (forall t' ops sub, as_step (Open s) = DECL true t' ops -> In (DVar n sub) ops -> t' = t) ->
  exists a, lookup n (variables (open_scope (snd (exec c (as_step (Open s)))))) = Some a /\
    a < length (heap (snd (exec c (as_step (Open s))))) /\ s_type (deref a (snd (exec c (as_step (Open s))))) = t.
Proof.
  intros n t s c B P N O F D G. destruct s as [cr t' m sub ops|g t' ops]; cbn [as_step exec] in *.
  - destruct D as (_ & -> & ->). destruct (set_good n t t n sub ops c B) as [_ W]. apply W; auto.
  - destruct D as (-> & sub & X).
    assert (I : In (DVar n sub) (List.map snd ops)) by (change (DVar n sub) with (snd (false, DVar n sub)); now apply in_map).
    destruct (decl_good n t g t (List.map snd ops) c B) as [_ W]; [auto|]. apply W; eauto.
Qed.
Lemma kept : forall n t es c, bound c -> global_as es n t ->
  (exists a, lookup n (variables (open_scope c)) = Some a /\ a < length (heap c) /\ s_type (deref a c) = t) ->
  variable_type (run c (List.map as_step es)) n = Some t.
Proof.
  intros n t es. induction es as [|e es IH]; intros c B G (a & L & H & T); cbn [List.map run].
  - unfold variable_type. rewrite L. cbn. now rewrite T.
  - assert (X : good n t c (snd (exec c (as_step e)))).
    { apply exec_good; [exact B|]. intros t' ops sub E I. apply (G e t' ops sub); [left; reflexivity|exact E|exact I]. }
    destruct X as (B' & (L' & T' & V') & _). apply IH; [exact B'| |].
    + intros e' t' ops sub I. apply G. right. exact I.
    + exists a. split; [auto|]. split; [lia|]. rewrite T'; auto.
Qed.
Theorem type_of_first : forall n t es c, bound c -> typed n t c -> n <> [] -> accepted c es -> global_as es n t ->
  first_definition es n t -> variable_type (run c (List.map as_step es)) n = Some t.
Proof.
  intros n t es. induction es as [|e es IH]; intros c B P N A G (b & s & a & E & D & F).
  - destruct b; discriminate.
  - assert (GE : forall t' ops sub, as_step e = DECL true t' ops -> In (DVar n sub) ops -> t' = t).
    { intros t' ops sub X Y. apply (G e t' ops sub); [left; reflexivity|exact X|exact Y]. }
    assert (GR : global_as es n t) by (intros e' t' ops sub I; apply G; right; exact I).
    pose proof (exec_good n t (as_step e) c B GE) as X. cbn [List.map run]. cbn [accepted] in A. destruct A as [A0 A].
    destruct b as [|e' b].
    + assert (e = Open s) by (cbn in E; congruence). subst e. destruct A0 as [O R].
      apply kept; [apply X|exact GR|]. apply defined_now; auto.
    + assert (e' = e /\ es = b ++ Open s :: a) as [-> ->] by (cbn in E; split; congruence).
      apply IH; [apply X|apply X; exact P|exact N|exact A|exact GR|].
      exists b, s, a. split; [reflexivity|]. split; [exact D|]. intros s' t' I. apply F. right. exact I.
Qed.
