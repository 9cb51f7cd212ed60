(** The context with its heap behaves like the worlds of Var_Spec.v. *)
From Coq Require Import List NArith ZArith Bool Lia.
From Coq Require Import ZifyBool ZifyNat ZifyN.
From Verif Require Import Common Var_Model Var_Spec.
Import ListNotations.
Open Scope Z_scope.

(** ** SET symbols *)
Lemma find_insert : forall k v j m, find j (insert_or_assign k v m) = if j =? k then Some v else find j m.
Proof.
  induction m as [|[k' v'] m IH]; cbn [insert_or_assign find]; [reflexivity|].
  destruct (k <? k') eqn:E1; [cbn [find]; reflexivity|].
  destruct (k =? k') eqn:E2; cbn [find].
  - destruct (j =? k) eqn:E3; [reflexivity|]. replace (j =? k') with false by lia. reflexivity.
  - rewrite IH. destruct (j =? k') eqn:E3; [|reflexivity]. replace (j =? k) with false by lia. reflexivity.
Qed.

Fixpoint sorted (m : map) : Prop :=
  match m with [] => True | (k, _) :: m' => Forall (fun p => k < fst p) m' /\ sorted m' end.
Lemma insert_keys : forall b k v m, b < k -> Forall (fun p : Z * val => b < fst p) m ->
  Forall (fun p => b < fst p) (insert_or_assign k v m).
Proof.
  induction m as [|[k' v'] m IH]; intros Hb H; cbn [insert_or_assign]; [now constructor|].
  inversion H as [|? ? H1 H2]; subst. cbn [fst] in H1.
  destruct (k <? k'); [constructor; [exact Hb|exact H]|].
  destruct (k =? k'); constructor; cbn [fst]; auto.
Qed.
Lemma insert_sorted : forall k v m, sorted m -> sorted (insert_or_assign k v m).
Proof.
  induction m as [|[k' v'] m IH]; intros H; cbn [insert_or_assign]; [cbn; auto|].
  destruct H as [H1 H2]. destruct (k <? k') eqn:E1.
  - cbn [sorted]. split; [|auto]. constructor; [cbn; lia|].
    eapply Forall_impl; [|exact H1]. cbn. intros p Hp. lia.
  - destruct (k =? k') eqn:E2; cbn [sorted].
    + replace k with k' by lia. auto.
    + split; [|now apply IH]. apply insert_keys; [lia|exact H1].
Qed.
Lemma find_in : forall k m v, find k m = Some v -> In (k, v) m.
Proof.
  induction m as [|[k' v'] m IH]; intros v H; cbn [find] in H; [discriminate|].
  destruct (k =? k') eqn:E; [injection H as ->; left; f_equal; lia|right; auto].
Qed.
Lemma in_find : forall k m v, In (k, v) m -> exists v', find k m = Some v'.
Proof.
  induction m as [|[k' v'] m IH]; intros v H; [destruct H|]. cbn [find].
  destruct (k =? k') eqn:E; [eauto|]. destruct H as [H|H]; [injection H as <- <-; lia|eauto].
Qed.
Lemma rbegin_spec : forall m, sorted m ->
  match rbegin m with
  | None => m = []
  | Some k => (exists v, In (k, v) m) /\ Forall (fun p => fst p <= k) m
  end.
Proof.
  induction m as [|[k v] m IH]; intros H; [reflexivity|]. destruct H as [H1 H2].
  destruct m as [|p m].
  - cbn. split; [eauto|]. constructor; [cbn; lia|constructor].
  - change (rbegin ((k, v) :: p :: m)) with (rbegin (p :: m)). specialize (IH H2).
    destruct (rbegin (p :: m)) as [k'|]; [|discriminate]. destruct IH as [[v' Hv'] HF].
    split; [exists v'; now right|]. constructor; [|exact HF].
    rewrite Forall_forall in H1. specialize (H1 _ Hv'). cbn in *. lia.
Qed.

Record sym_ok (s : sym) (v : svar) : Prop := {
  k_type : s_type s = v_type v;
  k_scalar : s_scalar s = v_scalar v;
  k_sorted : sorted (s_data s);
  k_one : s_scalar s = true -> find 0 (s_data s) = latest 0 (v_log v);
  k_all : s_scalar s = false -> forall k, find k (s_data s) = latest (k + 1) (v_log v);
  k_range : s_scalar s = false -> Forall (fun p => 1 <= fst p < 2 ^ 31) (v_log v) }.

Lemma sym_ok_new : forall t b, sym_ok (new_sym t b) (fresh t b).
Proof. intros. constructor; auto; cbn; auto. Qed.

Lemma sym_ok_set : forall s v x i, sym_ok s v -> (s_scalar s = false -> 1 <= i < 2 ^ 31) ->
  sym_ok (set_value s x (i - 1)) (assigned v (if v_scalar v then 0 else i) x).
Proof.
  intros s v x i [K1 K2 K3 K4 K5 K6] Hi. constructor; cbn [set_value s_type s_scalar s_data assigned v_type v_scalar v_log]; auto.
  - now apply insert_sorted.
  - intros E. rewrite <- K2, E, find_insert. cbn [latest]. rewrite Z.eqb_refl. reflexivity.
  - intros E k. rewrite <- K2, E, find_insert. cbn [latest]. rewrite (K5 E k).
    replace (k =? i - 1) with (k + 1 =? i) by lia. reflexivity.
  - intros E. rewrite <- K2, E. constructor; [cbn; auto|auto].
Qed.

Lemma content_at : forall s v i, sym_ok s v -> s_scalar s = false -> get_value_at s (i - 1) = content v i.
Proof.
  intros s v i [K1 K2 K3 K4 K5 K6] E. unfold get_value_at, content. rewrite E, (K5 E), K1.
  replace (i - 1 + 1) with i by lia. reflexivity.
Qed.
Lemma content_one : forall s v, sym_ok s v -> s_scalar s = true -> get_value s = content v 0.
Proof.
  intros s v [K1 K2 K3 K4 K5 K6] E. unfold get_value, content. rewrite E, (K4 E), K1. reflexivity.
Qed.

Lemma latest_in : forall i log x, latest i log = Some x -> In (i, x) log.
Proof.
  induction log as [|[j y] log IH]; intros x H; cbn [latest] in H; [discriminate|].
  destruct (i =? j) eqn:E; [injection H as ->; left; f_equal; lia|right; auto].
Qed.
Lemma in_latest : forall i log x, In (i, x) log -> exists y, latest i log = Some y.
Proof.
  induction log as [|[j y] log IH]; intros x H; [destruct H|]. cbn [latest].
  destruct (i =? j) eqn:E; [eauto|]. destruct H as [H|H]; [injection H as <- <-; lia|eauto].
Qed.
Lemma highest_bound : forall log, Forall (fun p : Z * val => fst p <= fold_right (fun p h => Z.max (fst p) h) 0 log) log.
Proof.
  induction log as [|[j y] log IH]; [constructor|]. cbn [fold_right fst]. constructor; [cbn; lia|].
  eapply Forall_impl; [|exact IH]. cbn. intros p Hp. lia.
Qed.
Lemma highest_in : forall log, log <> [] -> Forall (fun p : Z * val => 1 <= fst p) log ->
  exists x, In (fold_right (fun p h => Z.max (fst p) h) 0 log, x) log.
Proof.
  induction log as [|[j y] log IH]; intros Hn H; [contradiction|]. inversion H as [|? ? H1 H2]; subst.
  cbn [fold_right fst] in *. destruct log as [|p log].
  - cbn. exists y. left. f_equal. lia.
  - destruct (IH ltac:(discriminate) H2) as [x Hx].
    set (h := fold_right (fun p h => Z.max (fst p) h) 0 (p :: log)) in *.
    destruct (Z.max_spec j h) as [[_ ->]|[_ ->]]; [exists x; now right|exists y; now left].
Qed.

Lemma number_ok : forall s v, sym_ok s v -> number s = if v_scalar v then 0 else highest v.
Proof.
  intros s v [K1 K2 K3 K4 K5 K6]. unfold number. rewrite K2.
  destruct (v_scalar v) eqn:E; [reflexivity|]. rewrite K2 in *.
  specialize (K5 eq_refl). specialize (K6 eq_refl).
  pose proof (rbegin_spec _ K3) as R. unfold highest.
  pose proof (highest_bound (v_log v)) as HB.
  assert (H1 : Forall (fun p : Z * val => 1 <= fst p) (v_log v)) by (eapply Forall_impl; [|exact K6]; cbn; lia).
  destruct (rbegin (s_data s)) as [k|].
  - destruct R as [[x Hx] HF].
    destruct (in_find _ _ _ Hx) as [x' Hx']. rewrite K5 in Hx'. pose proof (latest_in _ _ _ Hx') as Hin.
    rewrite Forall_forall in K6, HB. pose proof (K6 _ Hin) as Hr. cbn [fst] in Hr.
    assert (Hne : v_log v <> []) by (intros E'; rewrite E' in Hin; destruct Hin).
    destruct (highest_in _ Hne H1) as [y Hy].
    set (h := fold_right (fun p h => Z.max (fst p) h) 0 (v_log v)) in *.
    pose proof (HB _ Hin) as Hle. cbn [fst] in Hle.
    destruct (in_latest _ _ _ Hy) as [z Hz]. replace h with (h - 1 + 1) in Hz by lia. rewrite <- K5 in Hz.
    apply find_in in Hz. rewrite Forall_forall in HF. specialize (HF _ Hz). cbn [fst] in HF.
    assert (h = k + 1) by lia. unfold as_int. rewrite Z.mod_small by lia.
    replace (k + 1 <? 2 ^ 31) with true by lia. lia.
  - assert (v_log v = []) as ->; [|reflexivity].
    destruct (v_log v) as [|[j x] log] eqn:El; [reflexivity|]. exfalso.
    specialize (K5 (j - 1)). rewrite R in K5. cbn [find latest] in K5.
    replace (j - 1 + 1 =? j) with true in K5 by lia. discriminate.
Qed.

(** ** Tables and heaps *)
Lemma bytes_eqb_refl : forall a, bytes_eqb a a = true.
Proof. intros. now apply bytes_eqb_eq. Qed.
Lemma bytes_eqb_sym : forall a b, bytes_eqb a b = bytes_eqb b a.
Proof.
  intros a b. destruct (bytes_eqb a b) eqn:E.
  - apply bytes_eqb_eq in E. subst. now rewrite bytes_eqb_refl.
  - destruct (bytes_eqb b a) eqn:E2; [|reflexivity]. apply bytes_eqb_eq in E2. subst. now rewrite bytes_eqb_refl in E.
Qed.
Lemma lookup_insert : forall n a t m, lookup n t = None ->
  lookup m (insert n a t) = if bytes_eqb m n then Some a else lookup m t.
Proof. intros n a t m H. unfold insert. rewrite H. reflexivity. Qed.

Lemma nth_set_nth : forall {A} (l : list A) i j x d,
  nth i (set_nth j x l) d = if ((i =? j) && (j <? length l))%nat then x else nth i l d.
Proof.
  induction l as [|y l IH]; intros i j x d; cbn [set_nth length].
  - replace ((i =? j) && (j <? 0))%nat with false by lia. destruct i, j; reflexivity.
  - destruct j as [|j]; destruct i as [|i]; cbn [set_nth nth]; try reflexivity.
    rewrite IH. destruct (i =? j)%nat eqn:E1, (j <? length l)%nat eqn:E2; cbn [andb];
      destruct ((S i =? S j) && (S j <? S (length l)))%nat eqn:E3; auto; exfalso; lia.
Qed.
Lemma set_nth_length : forall {A} (l : list A) i x, length (set_nth i x l) = length l.
Proof. induction l as [|y l IH]; intros [|i] x; cbn; auto. Qed.

Definition uses (c : ctx) (k : nat) (n : name) (a : addr) : Prop :=
  exists s, nth_error (scopes c) k = Some s /\ lookup n (variables s) = Some a.

Record inv (c : ctx) : Prop := {
  i_bound : forall k n a, uses c k n a -> (a < length (heap c))%nat;
  i_gbound : forall n a, lookup n (globals c) = Some a -> (a < length (heap c))%nat;
  i_gg : forall n m a, lookup n (globals c) = Some a -> lookup m (globals c) = Some a -> n = m;
  i_uu : forall k n k' n' a, uses c k n a -> uses c k' n' a ->
           (k = k' /\ n = n') \/ (n = n' /\ lookup n (globals c) = Some a);
  i_ug : forall k n m a, uses c k n a -> lookup m (globals c) = Some a -> m = n }.

Definition entry_ok (c : ctx) (s : scope) (n : name) (e : option entry) : Prop :=
  match lookup n (variables s), e with
  | Some a, Some Shared => lookup n (globals c) = Some a
  | Some a, Some (Local v) => lookup n (globals c) <> Some a /\ sym_ok (deref a c) v
  | None, Some Formal => existsb (bytes_eqb n) (params s) = true
  | None, None => existsb (bytes_eqb n) (params s) = false
  | _, _ => False
  end.

Record rel (c : ctx) (w : world) : Prop := {
  r_inv : inv c;
  r_depth : length (outer c) = length (callers w);
  r_scopes : forall k s e, nth_error (scopes c) k = Some s -> nth_error (here w :: callers w) k = Some e ->
               forall n, entry_ok c s n (e n);
  r_shared : forall n, match lookup n (globals c), shared w n with
                       | Some a, Some v => sym_ok (deref a c) v
                       | None, None => True
                       | _, _ => False
                       end;
  r_calls : SYSNDX_ c = calls w;
  r_system : forall n, In n system_names -> lookup n (globals c) <> None }.

Lemma r_here : forall c w, rel c w -> forall n, entry_ok c (current c) n (here w n).
Proof. intros c w R n. apply (r_scopes c w R 0%nat (current c) (here w)); reflexivity. Qed.

Lemma rel_ext : forall c w e, rel c w -> (forall n, e n = here w n) -> rel c (with_here w e).
Proof.
  intros c w e [R1 R2 R3 R4 R5 R6] H. constructor; cbn; auto.
  intros k s e' Hs He n. destruct k as [|k].
  - cbn in He. injection He as <-. rewrite H. now apply (R3 0%nat s (here w)).
  - now apply (R3 (S k) s e').
Qed.

(** ** Reading *)
Lemma symbol_ok : forall c w n, rel c w ->
  match get_var_sym n c with
  | Some (SetSymbol a) => exists v, symbol w n = Some v /\ sym_ok (deref a c) v /\
      (here w n = Some Shared \/ exists v, here w n = Some (Local v))
  | Some MacroParam => here w n = Some Formal
  | None => here w n = None
  end.
Proof.
  intros c w n R. pose proof (r_here c w R n) as H. unfold get_var_sym, entry_ok, symbol in *.
  destruct (lookup n (variables (current c))) as [a|] eqn:E.
  - destruct (here w n) as [[v| |]|] eqn:Eh; try contradiction.
    + exists v. destruct H as [_ H]. eauto.
    + pose proof (r_shared c w R n) as Hs. rewrite H in Hs.
      destruct (shared w n) as [v|]; [|contradiction]. exists v. auto.
  - destruct (here w n) as [[v| |]|] eqn:Eh; try contradiction; rewrite H; reflexivity.
Qed.

Lemma reads_ok : forall c w n sub, rel c w -> get_var_sym_value n sub c = reads w n sub.
Proof.
  intros c w n sub R. pose proof (symbol_ok c w n R) as H. unfold get_var_sym_value, reads.
  destruct (get_var_sym n c) as [[a|]|]; [|now rewrite H|now rewrite H].
  destruct H as (v & Hv & Hk & Hh). rewrite Hv.
  assert (forall A (x y z : A), match here w n with None => x | Some Formal => y | _ => z end = z) as Hm
    by (intros; destruct Hh as [->|[? ->]]; reflexivity).
  transitivity (match sub with
      | [] => if v_scalar v then Value (content v 0) else Undef E013_subscript
      | [i] => if v_scalar v then Undef E013_subscript
               else if 1 <=? i then Value (content v i) else Undef E012_subscript
      | _ => Undef E020
      end).
  - pose proof (k_scalar _ _ Hk) as Ks. destruct sub as [|i [|j sub]]; [| |reflexivity]; rewrite Ks.
    + destruct (v_scalar v) eqn:E; [|reflexivity]. rewrite (content_one _ v); auto.
    + destruct (v_scalar v) eqn:E; [reflexivity|]. destruct (i <? 1) eqn:E1.
      * now replace (1 <=? i) with false by lia.
      * replace (1 <=? i) with true by lia. rewrite (content_at _ v); auto.
  - destruct Hh as [->|[? ->]]; reflexivity.
Qed.
Lemma number_ok' : forall c w n, rel c w -> get_number n c = count_of w n.
Proof.
  intros c w n R. pose proof (symbol_ok c w n R) as H. unfold get_number, count_of.
  destruct (get_var_sym n c) as [[a|]|].
  - destruct H as (v & Hv & Hk & Hh). rewrite Hv. f_equal. now apply number_ok.
  - unfold symbol. now rewrite H.
  - unfold symbol. now rewrite H.
Qed.
Lemma eval_ok : forall e c w, rel c w -> eval e c = meaning e w.
Proof.
  induction e as [v|n sub k IH|n k IH]; intros c w R; cbn [eval meaning]; [reflexivity| |].
  - rewrite (reads_ok c w) by exact R. now apply IH.
  - rewrite (number_ok' c w) by exact R. now apply IH.
Qed.

(** ** New symbols *)
Lemma deref_app : forall s c a, (a < length (heap c))%nat ->
  deref a (snd (make_shared s c)) = deref a c.
Proof. intros s c a H. unfold deref. cbn. now rewrite app_nth1. Qed.
Lemma deref_new : forall s c, deref (length (heap c)) (snd (make_shared s c)) = s.
Proof. intros. unfold deref. cbn. rewrite app_nth2, Nat.sub_diag by lia. reflexivity. Qed.

(** Inserting an address under an unused name of the current scope. *)
Lemma uses_insert : forall c n a k m b, lookup n (variables (current c)) = None ->
  uses (insert_variable n a c) k m b <-> (k = 0%nat /\ m = n /\ b = a) \/ uses c k m b.
Proof.
  intros c n a k m b H. unfold uses. split.
  - intros (s & Hs & Hl). destruct k as [|k]; cbn [scopes insert_variable current outer nth_error] in Hs.
    + injection Hs as <-. cbn [variables] in Hl. rewrite lookup_insert in Hl by exact H.
      destruct (bytes_eqb m n) eqn:E.
      * apply bytes_eqb_eq in E. injection Hl as <-. left. auto.
      * right. exists (current c). auto.
    + right. exists s. auto.
  - intros [(-> & -> & ->)|(s & Hs & Hl)].
    + eexists. cbn. split; [reflexivity|]. cbn [variables]. rewrite lookup_insert by exact H.
      now rewrite bytes_eqb_refl.
    + destruct k as [|k].
      * cbn in Hs. injection Hs as <-. eexists. cbn. split; [reflexivity|]. cbn [variables].
        rewrite lookup_insert by exact H. destruct (bytes_eqb m n) eqn:E; [|exact Hl].
        apply bytes_eqb_eq in E. subst. congruence.
      * exists s. auto.
Qed.

Lemma rel_add_local : forall c w n s v, rel c w -> lookup n (variables (current c)) = None -> sym_ok s v ->
  rel (insert_variable n (length (heap c)) (snd (make_shared s c))) (with_here w (upd (here w) n (Local v))).
Proof.
  intros c w n s v [R1 R2 R3 R4 R5 R6] Hn Hk.
  set (c1 := snd (make_shared s c)). set (a := length (heap c)).
  assert (Hn1 : lookup n (variables (current c1)) = None) by exact Hn.
  assert (U1 : forall k m b, uses c1 k m b <-> uses c k m b) by (intros; reflexivity).
  assert (U : forall k m b, uses (insert_variable n a c1) k m b <-> (k = 0%nat /\ m = n /\ b = a) \/ uses c k m b)
    by (intros; rewrite uses_insert by exact Hn1; rewrite U1; reflexivity).
  assert (G : globals (insert_variable n a c1) = globals c) by reflexivity.
  assert (Lh : length (heap (insert_variable n a c1)) = S a) by (cbn; rewrite app_length; cbn; unfold a; lia).
  destruct R1 as [I1 I2 I3 I4 I5].
  assert (Ga : forall m, lookup m (globals c) <> Some a).
  { intros m Hm. apply I2 in Hm. unfold a in Hm. lia. }
  constructor.
  - constructor.
    + intros k m b. rewrite U. intros [(-> & -> & ->)|H]; rewrite Lh; [lia|]. apply I1 in H. unfold a. lia.
    + intros m b. rewrite G, Lh. intros H. apply I2 in H. unfold a. lia.
    + rewrite G. exact I3.
    + intros k m k' m' b. rewrite !U, G. intros [(-> & -> & ->)|H] [(-> & -> & E)|H'].
      * auto.
      * apply I1 in H'. unfold a in H'. lia.
      * subst b. apply I1 in H. unfold a in H. lia.
      * eauto.
    + intros k m m' b. rewrite U, G. intros [(-> & -> & ->)|H] H'; [now apply Ga in H'|eauto].
  - exact R2.
  - intros k s' e Hs He m. unfold entry_ok. rewrite G. destruct k as [|k].
    + cbn in Hs, He. injection Hs as <-. injection He as <-. cbn [variables params].
      specialize (R3 0%nat (current c) (here w) eq_refl eq_refl m). unfold entry_ok in R3.
      change (variables (current c1)) with (variables (current c)).
      rewrite lookup_insert by exact Hn. unfold upd. destruct (bytes_eqb m n) eqn:E.
      * apply bytes_eqb_eq in E. subst m. split; [apply Ga|].
        change (deref a (insert_variable n a c1)) with (deref (length (heap c)) (snd (make_shared s c))).
        now rewrite deref_new.
      * destruct (lookup m (variables (current c))) as [b|] eqn:Eb; [|exact R3].
        destruct (here w m) as [[v'| |]|]; auto. destruct R3 as [R3a R3b]. split; [exact R3a|].
        change (deref b (insert_variable n a c1)) with (deref b (snd (make_shared s c))).
        rewrite deref_app; [exact R3b|]. apply (I1 0%nat m). exists (current c). auto.
    + change (nth_error (scopes c) (S k) = Some s') in Hs.
      specialize (R3 (S k) s' e Hs He m). unfold entry_ok in R3.
      destruct (lookup m (variables s')) as [b|] eqn:Eb; [|exact R3].
      destruct (e m) as [[v'| |]|]; auto. destruct R3 as [R3a R3b]. split; [exact R3a|].
      change (deref b (insert_variable n a c1)) with (deref b (snd (make_shared s c))).
      rewrite deref_app; [exact R3b|]. apply (I1 (S k) m). exists s'. auto.
  - intros m. rewrite G. specialize (R4 m). cbn [shared with_here].
    destruct (lookup m (globals c)) as [b|] eqn:Eb; [|exact R4].
    change (deref b (insert_variable n a c1)) with (deref b (snd (make_shared s c))).
    rewrite deref_app by eauto. exact R4.
  - exact R5.
  - rewrite G. exact R6.
Qed.

Lemma rel_add_shared : forall c w n a, rel c w -> lookup n (variables (current c)) = None ->
  lookup n (globals c) = Some a ->
  rel (insert_variable n a c) (with_here w (upd (here w) n Shared)).
Proof.
  intros c w n a [R1 R2 R3 R4 R5 R6] Hn Hg.
  assert (U := fun k m b => uses_insert c n a k m b Hn).
  destruct R1 as [I1 I2 I3 I4 I5]. constructor; auto.
  - constructor; auto.
    + intros k m b. rewrite U. intros [(-> & -> & ->)|H]; [now apply I2 in Hg|now apply I1 in H].
    + intros k m k' m' b. rewrite !U. intros [(-> & -> & ->)|H] [(-> & -> & E)|H'].
      * auto.
      * right. pose proof (I5 _ _ _ _ H' Hg). auto.
      * subst b. pose proof (I5 _ _ _ _ H Hg). subst m. auto.
      * eauto.
    + intros k m m' b. rewrite U. intros [(-> & -> & ->)|H] H'; [symmetry; eapply I3; eauto|eauto].
  - intros k s' e Hs He m. unfold entry_ok. destruct k as [|k].
    + cbn in Hs, He. injection Hs as <-. injection He as <-. cbn [variables params].
      specialize (R3 0%nat (current c) (here w) eq_refl eq_refl m). unfold entry_ok in R3.
      rewrite lookup_insert by exact Hn. unfold upd. destruct (bytes_eqb m n) eqn:E.
      * apply bytes_eqb_eq in E. subst m. exact Hg.
      * exact R3.
    + apply (R3 (S k) s' e Hs He m).
Qed.

(** A new global symbol. *)
Lemma rel_new_global : forall c w n s v, rel c w -> lookup n (globals c) = None -> sym_ok s v ->
  lookup n (variables (current c)) = None ->
  rel (insert_global n (length (heap c)) (snd (make_shared s c)))
      {| shared := upd (shared w) n v; here := here w; callers := callers w; calls := calls w |}.
Proof.
  intros c w n s v [R1 R2 R3 R4 R5 R6] Hg Hk Hn.
  set (a := length (heap c)).
  set (c2 := insert_global n a (snd (make_shared s c))).
  assert (U : forall k m b, uses c2 k m b <-> uses c k m b) by (intros; reflexivity).
  assert (G : forall m, lookup m (globals c2) = if bytes_eqb m n then Some a else lookup m (globals c)).
  { intros m. unfold c2. cbn [insert_global globals]. now rewrite lookup_insert. }
  assert (Lh : length (heap c2) = S a) by (cbn; rewrite app_length; cbn; unfold a; lia).
  destruct R1 as [I1 I2 I3 I4 I5].
  assert (D : forall b, (b < a)%nat -> deref b c2 = deref b c) by (intros b Hb; apply deref_app; exact Hb).
  assert (Da : deref a c2 = s) by apply deref_new.
  constructor; auto.
  - constructor.
    + intros k m b. rewrite U, Lh. intros H. apply I1 in H. unfold a. lia.
    + intros m b. rewrite G, Lh. destruct (bytes_eqb m n); intros H; [injection H as <-; lia|].
      apply I2 in H. unfold a. lia.
    + intros m m' b. rewrite !G. destruct (bytes_eqb m n) eqn:E1, (bytes_eqb m' n) eqn:E2; intros H H'.
      * apply bytes_eqb_eq in E1, E2. congruence.
      * injection H as <-. apply I2 in H'. unfold a in H'. lia.
      * injection H' as <-. apply I2 in H. unfold a in H. lia.
      * eauto.
    + intros k m k' m' b. rewrite !U. intros H H'. destruct (I4 _ _ _ _ _ H H') as [E|[-> E]]; [auto|].
      right. split; [reflexivity|]. rewrite G. destruct (bytes_eqb m' n) eqn:E1; [|exact E].
      apply bytes_eqb_eq in E1. congruence.
    + intros k m m' b. rewrite U, G. intros H. destruct (bytes_eqb m' n) eqn:E1; intros H'; [|eauto].
      injection H' as <-. apply I1 in H. unfold a in H. lia.
  - intros k s' e Hs He m. specialize (R3 k s' e Hs He m). unfold entry_ok in *.
    destruct (lookup m (variables s')) as [b|] eqn:Eb; [|exact R3].
    assert (Hb : (b < a)%nat) by (apply (I1 k m); exists s'; auto).
    rewrite G. destruct (e m) as [[v'| |]|]; auto.
    + destruct R3 as [R3a R3b]. rewrite D by exact Hb. split; [|exact R3b].
      destruct (bytes_eqb m n); [|exact R3a]. intros E. injection E as <-. lia.
    + destruct (bytes_eqb m n) eqn:E1; [|exact R3]. apply bytes_eqb_eq in E1. congruence.
  - intros m. rewrite G. cbn [shared]. unfold upd. destruct (bytes_eqb m n) eqn:E1.
    + rewrite Da. exact Hk.
    + specialize (R4 m). destruct (lookup m (globals c)) as [b|] eqn:Eb; [|exact R4].
      rewrite D by (eapply I2; eauto). exact R4.
  - intros m Hm. rewrite G. destruct (bytes_eqb m n); [discriminate|auto].
Qed.

(** ** Assigning *)
Lemma deref_store : forall a s c b, deref b (store a s c) =
  if ((b =? a) && (a <? length (heap c)))%nat then s else deref b c.
Proof. intros. unfold deref. cbn [store heap]. apply nth_set_nth. Qed.

Lemma rel_store : forall c w n a s v, rel c w -> lookup n (variables (current c)) = Some a -> sym_ok s v ->
  rel (store a s c) (replace w n v).
Proof.
  intros c w n a s v R Hn Hk. pose proof (r_here c w R n) as Hh. unfold entry_ok in Hh. rewrite Hn in Hh.
  destruct R as [R1 R2 R3 R4 R5 R6]. pose proof R1 as [I1 I2 I3 I4 I5].
  assert (Hu : uses c 0 n a) by (exists (current c); auto).
  assert (Ha : (a < length (heap c))%nat) by (eapply I1; eauto).
  assert (D : forall b, deref b (store a s c) = if (b =? a)%nat then s else deref b c).
  { intros b. rewrite deref_store. replace (a <? length (heap c))%nat with true by lia. now rewrite andb_true_r. }
  assert (Inv : inv (store a s c)).
  { constructor; auto; cbn [store heap]; rewrite set_nth_length; assumption. }
  unfold replace. destruct (here w n) as [[v0| |]|] eqn:Eh; try contradiction.
  - (* a local symbol *)
    destruct Hh as [Hna _]. constructor; auto.
    + intros k s' e Hs He m. unfold entry_ok. change (globals (store a s c)) with (globals c).
      assert (Hcase : lookup m (variables s') = Some a -> k = 0%nat /\ m = n).
      { intros Hl. assert (Hu' : uses c k m a) by (exists s'; auto).
        destruct (I4 _ _ _ _ _ Hu Hu') as [[<- <-]|[<- E]]; [auto|contradiction]. }
      destruct k as [|k].
      * cbn in Hs, He. injection Hs as <-. injection He as <-. unfold upd.
        specialize (R3 0%nat (current c) (here w) eq_refl eq_refl m). unfold entry_ok in R3.
        destruct (bytes_eqb m n) eqn:E.
        -- apply bytes_eqb_eq in E. subst m. rewrite Hn. split; [exact Hna|]. rewrite D.
           now rewrite Nat.eqb_refl.
        -- destruct (lookup m (variables (current c))) as [b|] eqn:Eb; [|exact R3].
           destruct (here w m) as [[v'| |]|]; auto. destruct R3 as [R3a R3b]. split; [exact R3a|].
           rewrite D. destruct (b =? a)%nat eqn:Eba; [|exact R3b].
           apply Nat.eqb_eq in Eba. subst b. destruct (Hcase eq_refl) as [_ ->].
           rewrite bytes_eqb_refl in E. discriminate.
      * change (nth_error (scopes c) (S k) = Some s') in Hs.
        specialize (R3 (S k) s' e Hs He m). unfold entry_ok in R3.
        destruct (lookup m (variables s')) as [b|] eqn:Eb; [|exact R3].
        destruct (e m) as [[v'| |]|]; auto. destruct R3 as [R3a R3b]. split; [exact R3a|].
        rewrite D. destruct (b =? a)%nat eqn:Eba; [|exact R3b].
        apply Nat.eqb_eq in Eba. subst b. destruct (Hcase eq_refl). discriminate.
    + intros m. specialize (R4 m). cbn [shared with_here]. change (globals (store a s c)) with (globals c).
      destruct (lookup m (globals c)) as [b|] eqn:Eb; [|exact R4]. rewrite D.
      destruct (b =? a)%nat eqn:Eba; [|exact R4]. apply Nat.eqb_eq in Eba. subst b.
      pose proof (I5 _ _ _ _ Hu Eb). subst m. contradiction.
  - (* the global symbol *)
    constructor; auto.
    + intros k s' e Hs He m. specialize (R3 k s' e Hs He m). unfold entry_ok in *.
      change (globals (store a s c)) with (globals c).
      destruct (lookup m (variables s')) as [b|] eqn:Eb; [|exact R3].
      destruct (e m) as [[v'| |]|]; auto. destruct R3 as [R3a R3b]. split; [exact R3a|].
      rewrite D. destruct (b =? a)%nat eqn:Eba; [|exact R3b]. apply Nat.eqb_eq in Eba. subst b.
      exfalso. assert (Hu' : uses c k m a) by (exists s'; auto).
      pose proof (I5 _ _ _ _ Hu' Hh). subst m. contradiction.
    + intros m. specialize (R4 m). cbn [shared]. change (globals (store a s c)) with (globals c).
      unfold upd. destruct (bytes_eqb m n) eqn:E.
      * apply bytes_eqb_eq in E. subst m. rewrite Hh, D, Nat.eqb_refl. exact Hk.
      * destruct (lookup m (globals c)) as [b|] eqn:Eb; [|exact R4]. rewrite D.
        destruct (b =? a)%nat eqn:Eba; [|exact R4]. apply Nat.eqb_eq in Eba. subst b.
        pose proof (I3 _ _ _ Eb Hh). subst m. rewrite bytes_eqb_refl in E. discriminate.
Qed.

Lemma symbol_at : forall c w n a, rel c w -> lookup n (variables (current c)) = Some a ->
  exists v, symbol w n = Some v /\ sym_ok (deref a c) v.
Proof.
  intros c w n a R H. pose proof (symbol_ok c w n R) as Hs. unfold get_var_sym in Hs. rewrite H in Hs.
  destruct Hs as (v & Hv & Hk & _). eauto.
Qed.

Lemma set_values_ok : forall es c w n a idx, rel c w -> lookup n (variables (current c)) = Some a ->
  (s_scalar (deref a c) = false -> 1 <= idx /\ idx + Z.of_nat (length es) <= 2 ^ 31) ->
  rel (set_values a (idx - 1) es c) (assign_all n idx es w).
Proof.
  induction es as [|e es IH]; intros c w n a idx R Hn Hi; [exact R|].
  destruct (symbol_at c w n a R Hn) as (v & Hv & Hk).
  cbn [set_values assign_all length] in *. rewrite Hv, (eval_ok e c w R).
  replace (idx - 1 + 1) with (idx + 1 - 1) by lia.
  assert (Hk' : sym_ok (set_value (deref a c) (meaning e w) (idx - 1))
                       (assigned v (if v_scalar v then 0 else idx) (meaning e w)))
    by (apply sym_ok_set; [exact Hk|lia]).
  apply IH; [now apply rel_store|exact Hn|].
  assert (Hb : (a < length (heap c))%nat) by (apply (i_bound c (r_inv c w R) 0%nat n); exists (current c); auto).
  rewrite deref_store. replace (a <? length (heap c))%nat with true by lia. rewrite Nat.eqb_refl. cbn [andb].
  cbn [set_value s_scalar]. lia.
Qed.

Lemma operands_ok : forall ops,
  prepare_SET_operands ops = if existsb not_expr ops then inl E012_operand else inr (given ops).
Proof.
  induction ops as [|[| |e] ops IH]; cbn [prepare_SET_operands existsb not_expr given orb]; auto.
  rewrite IH. destruct (existsb not_expr ops); reflexivity.
Qed.
Lemma given_length : forall ops, (length (given ops) <= length ops)%nat.
Proof. induction ops as [|[| |e] ops IH]; cbn [given length]; lia. Qed.

Lemma finish_set : forall ops c w n a idx, rel c w -> lookup n (variables (current c)) = Some a ->
  (s_scalar (deref a c) = false -> 1 <= idx /\ idx + Z.of_nat (length ops) <= 2 ^ 31) ->
  let r := match prepare_SET_operands ops with
           | inl d => ([d], c)
           | inr [] => ([E022], c)
           | inr es => ([], set_values a (idx - 1) es c)
           end in
  let q := if existsb not_expr ops then ([E012_operand], w)
           else match given ops with [] => ([E022], w) | es => ([], assign_all n idx es w) end in
  fst r = fst q /\ rel (snd r) (snd q).
Proof.
  intros ops c w n a idx R Hn Hi. cbv zeta. rewrite operands_ok.
  destruct (existsb not_expr ops); [auto|]. pose proof (given_length ops) as Hl.
  destruct (given ops) as [|e es] eqn:Eg; [auto|]. cbn [fst snd]. split; [reflexivity|].
  apply set_values_ok; auto. intros E. specialize (Hi E). lia.
Qed.

Lemma create_local_new : forall c w n t b, rel c w -> lookup n (variables (current c)) = None ->
  exists a c', create_local_variable t n b c = (a, c') /\
    rel c' (with_here w (upd (here w) n (Local (fresh t b)))) /\
    lookup n (variables (current c')) = Some a /\ s_scalar (deref a c') = b.
Proof.
  intros c w n t b R Hn. unfold create_local_variable. rewrite Hn. cbn [make_shared].
  eexists _, _. split; [reflexivity|]. split.
  - apply (rel_add_local c w n (new_sym t b) (fresh t b)); auto using sym_ok_new.
  - split.
    + cbn [insert_variable current variables]. rewrite lookup_insert by exact Hn. now rewrite bytes_eqb_refl.
    + match goal with |- s_scalar (deref _ (insert_variable _ _ ?d)) = _ =>
        change (s_scalar (deref (length (heap c)) (snd (make_shared (new_sym t b) c))) = b) end.
      now rewrite deref_new.
Qed.

Lemma scalar_idx : forall a idx idx' es c, (a < length (heap c))%nat -> s_scalar (deref a c) = true ->
  set_values a idx es c = set_values a idx' es c.
Proof.
  intros a idx idx' es. revert idx idx'. induction es as [|e es IH]; intros idx idx' c Ha H; [reflexivity|].
  cbn [set_values].
  assert (E : set_value (deref a c) (eval e c) idx = set_value (deref a c) (eval e c) idx')
    by (unfold set_value; rewrite H; reflexivity).
  rewrite E. apply IH; [cbn [store heap]; now rewrite set_nth_length|].
  rewrite deref_store. replace (a <? length (heap c))%nat with true by lia. now rewrite Nat.eqb_refl.
Qed.

Theorem SET_ok : forall t n sub ops c w, rel c w -> small (SET t n sub ops) ->
  fst (process_SET t n sub ops c) = fst (assigns t n sub ops w) /\
  rel (snd (process_SET t n sub ops c)) (snd (assigns t n sub ops w)).
Proof.
  intros t n sub ops c w R Hsmall. cbn [small] in Hsmall.
  unfold process_SET, test_symbol_for_assignment, assigns.
  pose proof (symbol_ok c w n R) as Hs.
  destruct (get_var_sym n c) as [[a|]|] eqn:Ev.
  - destruct Hs as (v & Hv & Hk & Hh).
    assert (Hn : lookup n (variables (current c)) = Some a).
    { unfold get_var_sym in Ev. destruct (lookup n (variables (current c))); [injection Ev as ->; reflexivity|].
      destruct (existsb _ _); discriminate. }
    assert (Ha : (a < length (heap c))%nat) by (apply (i_bound c (r_inv c w R) 0%nat n); exists (current c); auto).
    rewrite Hv. pose proof (k_type _ _ Hk) as Kt. pose proof (k_scalar _ _ Hk) as Ks.
    replace (match here w n with Some Formal => ([E030], w) | _ => _ end)
      with (match sub with
            | _ :: _ :: _ => ([E020], w)
            | [i] => if i <? 1 then ([E012_subscript], w)
                     else if negb (ty_eqb (v_type v) t) then ([E013_type], w)
                     else if v_scalar v then ([E013_subscript], w)
                     else (if existsb not_expr ops then ([E012_operand], w)
                           else match given ops with [] => ([E022], w) | es => ([], assign_all n i es w) end)
            | [] => if negb (ty_eqb (v_type v) t) then ([E013_type], w)
                    else if v_scalar v then
                           (if existsb not_expr ops then ([E012_operand], w)
                            else match given ops with [] => ([E022], w) | es => ([], assign_all n 0 es w) end)
                    else ([E013_subscript], w)
            end)
      by (destruct Hh as [->|[? ->]]; reflexivity).
    destruct sub as [|i [|j sub]]; cbn [length Nat.eqb]; [| |auto].
    + rewrite Kt, Ks. destruct (negb (ty_eqb (v_type v) t)); [auto|].
      destruct (v_scalar v) eqn:E; cbn [andb orb negb]; [|auto].
      pose proof (finish_set ops c w n a 0 R Hn ltac:(rewrite Ks; discriminate)) as F. cbv zeta in F.
      destruct (prepare_SET_operands ops) as [d|[|e es]]; auto.
      rewrite (scalar_idx a (-1 - 1) (0 - 1)) by auto. exact F.
    + destruct (i <? 1) eqn:Ei; [auto|]. rewrite Kt, Ks. destruct (negb (ty_eqb (v_type v) t)); [auto|].
      destruct (v_scalar v) eqn:E; cbn [andb orb negb]; [auto|].
      inversion Hsmall as [|? ? Hi _]; subst.
      apply (finish_set ops c w n a i R Hn). intros _. lia.
  - rewrite Hs. auto.
  - assert (Hn : lookup n (variables (current c)) = None).
    { unfold get_var_sym in Ev. destruct (lookup n (variables (current c))); [discriminate|reflexivity]. }
    assert (Hv : symbol w n = None) by (unfold symbol; now rewrite Hs).
    rewrite Hv, Hs. destruct sub as [|i [|j sub]]; [| |auto].
    + change (-1 =? -1) with true.
      destruct (create_local_new c w n t true R Hn) as (a & c' & -> & R' & Hn' & Hsc).
      assert (Ha : (a < length (heap c'))%nat) by (apply (i_bound c' (r_inv c' _ R') 0%nat n); exists (current c'); auto).
      pose proof (finish_set ops c' _ n a 0 R' Hn' ltac:(rewrite Hsc; discriminate)) as F. cbv zeta in F.
      destruct (prepare_SET_operands ops) as [d|[|e es]]; auto.
      rewrite (scalar_idx a (-1 - 1) (0 - 1)) by auto. exact F.
    + destruct (i <? 1) eqn:Ei; [auto|]. replace (i =? -1) with false by lia.
      destruct (create_local_new c w n t false R Hn) as (a & c' & -> & R' & Hn' & Hsc).
      inversion Hsmall as [|? ? Hi _]; subst.
      apply (finish_set ops c' _ n a i R' Hn'). intros _. lia.
Qed.
