(** Sections, counters and symbols: the states that can be reached and what a statement changes. *)
From Coq Require Import ZArith Bool Arith List Lia.
From Verif Require Import Sect_Model Sect_Spec.
Import ListNotations.

Lemma nth_upd {X} : forall (l : list X) i f j,
  nth_error (upd l i f) j = if Nat.eqb i j then option_map f (nth_error l j) else nth_error l j.
Proof.
  induction l as [|x l IH]; intros i f j; cbn [upd].
  - destruct j; destruct (Nat.eqb i _); reflexivity.
  - destruct i as [|i], j as [|j]; cbn [upd nth_error Nat.eqb option_map]; auto.
Qed.
Lemma index_some {X} (p : X -> bool) : forall l i, index p l = Some i -> exists x, nth_error l i = Some x /\ p x = true.
Proof.
  induction l as [|x l IH]; intros i H; cbn [index] in H; [discriminate|].
  destruct (p x) eqn:E; [inversion H; subst; exists x; auto|].
  destruct (index p l) as [j|]; [|discriminate]. inversion H; subst. apply (IH j eq_refl).
Qed.
Lemma index_none {X} (p : X -> bool) : forall l, index p l = None -> forall x, In x l -> p x = false.
Proof.
  induction l as [|x l IH]; intros H y Hy; [destruct Hy|]. cbn [index] in H.
  destruct (p x) eqn:E; [discriminate|]. destruct Hy as [->|Hy]; [exact E|].
  destruct (index p l); [discriminate|]. apply IH; auto.
Qed.
Lemma skind_eqb_eq a b : skind_eqb a b = true <-> a = b.
Proof. destruct a, b; cbn; split; intros H; congruence. Qed.

Lemma pending_spec {A} (e : expr A) : x_pending e = true <-> Sect_Spec.waits A e.
Proof.
  unfold x_pending, Sect_Spec.waits, has_unres. rewrite !orb_true_iff, andb_true_iff.
  destruct (x_unres e); split; intuition congruence.
Qed.
Lemma not_pending {A} (e : expr A) : x_pending e = false <-> ~ Sect_Spec.waits A e.
Proof. rewrite <- pending_spec. destruct (x_pending e); split; congruence. Qed.

Section Proofs.
  Variable L : Type.
  Variable fresh : bool -> L.
  Variable A : Type.
  Variable here : nat -> nat -> L -> A.
  Notation st := (st L A).
  Notation entry := (entry A).
  Notation counter := (counter L A).
  Notation current := (current L A).
  Notation defined := (defined L A).
  Notation has_section := (has_section L A).
  Notation has_ctr := (has_ctr L A).
  Notation next_at := (next_at L fresh A).
  Notation wf := (wf L fresh A here).
  Notation later := (later A).
  Implicit Types x y z : st.

  Lemma symbol_defined_spec n x : symbol_defined n x = true <-> defined x n.
  Proof.
    unfold symbol_defined, Sect_Spec.defined. destruct (find_sym (syms x) n) as [e|]; split; intros H; try discriminate; eauto.
    destruct H as [e H]. discriminate.
  Qed.
  Lemma symbol_undefined n x : symbol_defined n x = false <-> find_sym (syms x) n = None.
  Proof. unfold symbol_defined. destruct (find_sym (syms x) n); split; intros H; congruence. Qed.
  Lemma section_defined_spec n k x : section_defined n k x = true <-> has_section x n k.
  Proof.
    unfold section_defined, Sect_Spec.has_section. rewrite existsb_exists. unfold is_section. split.
    - intros (s & Hs & H). apply andb_true_iff in H. destruct H as [H1 H2]. apply Nat.eqb_eq in H1.
      apply (proj1 (skind_eqb_eq _ _)) in H2. exists s. auto.
    - intros (s & Hs & H1 & H2). exists s. split; [exact Hs|]. apply andb_true_iff. split; [apply Nat.eqb_eq; exact H1|].
      apply skind_eqb_eq. exact H2.
  Qed.
  Lemma has_counter_spec n (s : sec L) : has_counter n s = true <-> exists j c, nth_error (s_ctrs s) j = Some c /\ c_name c = n.
  Proof.
    unfold has_counter. rewrite existsb_exists. split.
    - intros (c & Hc & H). apply Nat.eqb_eq in H. apply In_nth_error in Hc. destruct Hc as [j Hj]. eauto.
    - intros (j & c & Hj & H). exists c. split; [eapply nth_error_In; eauto|]. apply Nat.eqb_eq; exact H.
  Qed.
  Lemma last_with_some n : forall l i j, last_with n l i = Some j ->
    exists k (s : sec L), j = i + k /\ nth_error l k = Some s /\ has_counter n s = true.
  Proof.
    induction l as [|s l IH]; intros i j H; cbn [last_with] in H; [discriminate|].
    destruct (last_with n l (S i)) as [j'|] eqn:E.
    - inversion H; subst j'. destruct (IH _ _ E) as (k & s' & Hj & Hn & Hc). exists (S k), s'. split; [lia|]. auto.
    - destruct (has_counter n s) eqn:Ec; [|discriminate]. inversion H; subst. exists 0, s. split; [lia|]. auto.
  Qed.
  Lemma last_with_none n : forall (l : list (sec L)) i, last_with n l i = None -> forall s, In s l -> has_counter n s = false.
  Proof.
    induction l as [|s l IH]; intros i H s' Hs; [destruct Hs|]. cbn [last_with] in H.
    destruct (last_with n l (S i)) eqn:E; [discriminate|]. destruct (has_counter n s) eqn:Ec; [discriminate|].
    destruct Hs as [<-|Hs]; [exact Ec|]. eapply IH; eauto.
  Qed.

  Lemma ensure_cur x : exists i, cur (ensure fresh x) = Some i.
  Proof. unfold ensure. destruct (cur x) as [i|] eqn:E; [exists i; exact E|]. cbn [cur]. eauto. Qed.
  Lemma ensure_syms x : syms (ensure fresh x) = syms x.
  Proof. unfold ensure. destruct (cur x); reflexivity. Qed.
  Lemma ensure_some x i : cur x = Some i -> ensure fresh x = x.
  Proof. intros H. unfold ensure. rewrite H. reflexivity. Qed.
  Lemma ensure_twice x : ensure fresh (ensure fresh x) = ensure fresh x.
  Proof. destruct (ensure_cur x) as [i Hi]. eapply ensure_some; eauto. Qed.

  (** ** Adding a section *)
  Lemma counter_app x y s i j c : secs y = secs x ++ [s] ->
    counter y i j c <-> counter x i j c \/ (i = length (secs x) /\ nth_error (s_ctrs s) j = Some c).
  Proof.
    intros Hy. unfold Sect_Spec.counter. rewrite Hy. split.
    - intros (t & Ht & Hc). destruct (Nat.lt_ge_cases i (length (secs x))) as [Hi|Hi].
      + rewrite nth_error_app1 in Ht by exact Hi. left. eauto.
      + rewrite nth_error_app2 in Ht by exact Hi. destruct (i - length (secs x)) as [|d] eqn:E.
        * cbn in Ht. inversion Ht; subst. right. split; [lia|exact Hc].
        * cbn in Ht. destruct d; discriminate.
    - intros [(t & Ht & Hc)|[-> Hc]].
      + exists t. split; [|exact Hc]. rewrite nth_error_app1; [exact Ht|]. apply nth_error_Some. congruence.
      + exists s. split; [|exact Hc]. rewrite nth_error_app2 by lia. rewrite Nat.sub_diag. reflexivity.
  Qed.
  Lemma nth_app_one {X} (l : list X) s i t : nth_error (l ++ [s]) i = Some t ->
    nth_error l i = Some t \/ (i = length l /\ t = s).
  Proof.
    intros Ht. destruct (Nat.lt_ge_cases i (length l)) as [Hi|Hi].
    - rewrite nth_error_app1 in Ht by exact Hi. auto.
    - rewrite nth_error_app2 in Ht by exact Hi. destruct (i - length l) as [|d] eqn:E.
      + cbn in Ht. inversion Ht; subst. right. split; [lia|reflexivity].
      + cbn in Ht. destruct d; discriminate.
  Qed.
  Lemma nth_app_old {X} (l : list X) r i t : nth_error l i = Some t -> nth_error (l ++ r) i = Some t.
  Proof. intros H. rewrite nth_error_app1; [exact H|]. apply nth_error_Some. congruence. Qed.
  Lemma nth_app_new {X} (l : list X) s : nth_error (l ++ [s]) (length l) = Some s.
  Proof. rewrite nth_error_app2 by lia. rewrite Nat.sub_diag. reflexivity. Qed.

  Lemma wf_append x n k sy : wf x ->
    (forall m e, find_sym (syms x) m = Some e -> find_sym sy m = Some e) ->
    (n <> 0 -> find_sym (syms x) n = None /\
       exists e, find_sym sy n = Some e /\ e_value e = VReloc (here (length (secs x)) 0 (fresh true))
             /\ e_attrs e = mkAttrs SECT TJ (Some 1%Z)) ->
    wf (mk (secs x ++ [new_section fresh n k]) (Some (length (secs x))) sy).
  Proof.
    intros W Hsy Hn. set (y := mk _ _ sy).
    assert (Hy : secs y = secs x ++ [new_section fresh n k]) by reflexivity.
    assert (Hc : forall i j c, counter y i j c -> counter x i j c \/ (i = length (secs x) /\ j = 0 /\ c = mkC n (fresh true))).
    { intros i j c H. apply (proj1 (counter_app x y _ i j c Hy)) in H. destruct H as [H|[Hi H]]; [left; exact H|].
      right. destruct j as [|[|j]]; cbn in H; try discriminate. inversion H. auto. }
    constructor.
    - discriminate.
    - intros i H. cbn [cur y] in H. inversion H; subst. eexists. rewrite Hy. apply nth_app_new.
    - intros i s H. rewrite Hy in H. apply nth_app_one in H. destruct H as [H|[_ ->]]; [eapply (w_ctr _ _ _ _ _ W); eauto|].
      exists (mkC n (fresh true)). reflexivity.
    - intros i s H. rewrite Hy in H. apply nth_app_one in H. destruct H as [H|[_ ->]]; [eapply (w_first _ _ _ _ _ W); eauto|].
      exists (mkC n (fresh true)). split; reflexivity.
    - intros i j c H Hz. destruct (Hc i j c H) as [H'|(-> & -> & ->)].
      + destruct (w_label _ _ _ _ _ W _ _ _ H' Hz) as (e & He & Hv & Ha). exists e. split; [apply Hsy; exact He|]. auto.
      + cbn [c_name] in Hz |- *. destruct (Hn Hz) as (_ & e & He & Hv & Ha). exists e. auto.
    - intros i j c i' j' c' H H' E Hz. destruct (Hc _ _ _ H) as [G|(-> & -> & ->)], (Hc _ _ _ H') as [G'|(-> & -> & ->)].
      + eapply (w_uniq _ _ _ _ _ W); eauto.
      + cbn [c_name] in E. exfalso. destruct (w_label _ _ _ _ _ W _ _ _ G Hz) as (e & He & _).
        rewrite E in He, Hz. destruct (Hn Hz) as (Hu & _). congruence.
      + cbn [c_name] in E, Hz. exfalso. assert (Hz' : c_name c' <> 0) by congruence.
        destruct (w_label _ _ _ _ _ W _ _ _ G' Hz') as (e & He & _). rewrite <- E in He. destruct (Hn Hz) as (Hu & _). congruence.
      + auto.
  Qed.
  Lemma wf_ensure x : wf x -> wf (ensure fresh x).
  Proof.
    intros W. unfold ensure. destruct (cur x) eqn:E; [exact W|].
    apply wf_append; [exact W|auto|intros H; congruence].
  Qed.

  (** ** Changes that keep the shape *)
  Definition shape (s s' : sec L) : Prop :=
    s_name s' = s_name s /\ s_kind s' = s_kind s /\ s_cur s' = s_cur s /\ map c_name (s_ctrs s') = map c_name (s_ctrs s).
  Definition shaped x y : Prop :=
    forall i, match nth_error (secs x) i, nth_error (secs y) i with
              | None, None => True
              | Some s, Some s' => shape s s'
              | _, _ => False
              end.
  Lemma shape_refl s : shape s s.
  Proof. unfold shape; auto. Qed.
  Lemma map_nth_error_inv {X Y} (f : X -> Y) : forall l l' j c', map f l' = map f l -> nth_error l' j = Some c' ->
    exists c, nth_error l j = Some c /\ f c' = f c.
  Proof.
    induction l as [|a l IH]; intros [|b l'] j c' H Hj; cbn in H; try discriminate.
    - destruct j; discriminate.
    - inversion H. destruct j as [|j]; cbn in Hj |- *; [inversion Hj; subst; eauto|]. eapply IH; eauto.
  Qed.
  Lemma shape_nth s s' j c' : shape s s' -> nth_error (s_ctrs s') j = Some c' ->
    exists c, nth_error (s_ctrs s) j = Some c /\ c_name c' = c_name c.
  Proof. intros (_ & _ & _ & H) Hj. eapply map_nth_error_inv; eauto. Qed.
  Lemma shape_nth' s s' j c : shape s s' -> nth_error (s_ctrs s) j = Some c ->
    exists c', nth_error (s_ctrs s') j = Some c' /\ c_name c' = c_name c.
  Proof.
    intros (_ & _ & _ & H) Hj. destruct (map_nth_error_inv c_name (s_ctrs s') (s_ctrs s) j c (eq_sym H) Hj) as (c' & H1 & H2). eauto.
  Qed.
  Lemma shaped_fwd x y i s : shaped x y -> nth_error (secs x) i = Some s -> exists s', nth_error (secs y) i = Some s' /\ shape s s'.
  Proof. intros H Hs. specialize (H i). rewrite Hs in H. destruct (nth_error (secs y) i); [eauto|destruct H]. Qed.
  Lemma shaped_bwd x y i s' : shaped x y -> nth_error (secs y) i = Some s' -> exists s, nth_error (secs x) i = Some s /\ shape s s'.
  Proof. intros H Hs. specialize (H i). rewrite Hs in H. destruct (nth_error (secs x) i); [eauto|destruct H]. Qed.
  Lemma wf_shaped x y : wf x -> shaped x y -> cur y = cur x ->
    (forall m e a, find_sym (syms x) m = Some e -> e_value e = VReloc a -> e_attrs e = mkAttrs SECT TJ (Some 1%Z) ->
       exists e', find_sym (syms y) m = Some e' /\ e_value e' = e_value e /\ e_attrs e' = e_attrs e) -> wf y.
  Proof.
    intros W Hs Hcur Hsy.
    assert (Hc : forall i j c', counter y i j c' -> exists c, counter x i j c /\ c_name c' = c_name c).
    { intros i j c' (s' & Hs' & Hj). destruct (shaped_bwd _ _ _ _ Hs Hs') as (s & Hx & Hsh).
      destruct (shape_nth _ _ _ _ Hsh Hj) as (c & Hc & Hn). exists c. split; [exists s; auto|exact Hn]. }
    constructor.
    - intros H. rewrite Hcur in H. pose proof (w_none _ _ _ _ _ W H) as He.
      destruct (secs y) as [|s' l] eqn:E; [reflexivity|]. exfalso. specialize (Hs 0). rewrite He, E in Hs. exact Hs.
    - intros i H. rewrite Hcur in H. destruct (w_cur _ _ _ _ _ W i H) as [s Hx].
      destruct (shaped_fwd _ _ _ _ Hs Hx) as (s' & Hy & _). eauto.
    - intros i s' H. destruct (shaped_bwd _ _ _ _ Hs H) as (s & Hx & Hsh). destruct (w_ctr _ _ _ _ _ W _ _ Hx) as [c Hcc].
      destruct Hsh as (H1 & H2 & H3 & H4). rewrite H3.
      destruct (shape_nth' s s' (s_cur s) c) as (c' & Hc' & _); [unfold shape; auto|exact Hcc|]. eauto.
    - intros i s' H. destruct (shaped_bwd _ _ _ _ Hs H) as (s & Hx & Hsh). destruct (w_first _ _ _ _ _ W _ _ Hx) as (c & Hcc & Hn).
      destruct (shape_nth' _ _ _ _ Hsh Hcc) as (c' & Hc' & Hn'). exists c'. split; [exact Hc'|].
      destruct Hsh as (H1 & _). congruence.
    - intros i j c' H Hz. destruct (Hc _ _ _ H) as (c & Hx & Hn). rewrite Hn in Hz |- *.
      destruct (w_label _ _ _ _ _ W _ _ _ Hx Hz) as (e & He & Hv & Ha).
      destruct (Hsy _ _ _ He Hv Ha) as (e' & He' & Hv' & Ha'). exists e'. split; [exact He'|]. split; congruence.
    - intros i j c i' j' c' H H' E Hz. destruct (Hc _ _ _ H) as (d & G & Hn), (Hc _ _ _ H') as (d' & G' & Hn').
      eapply (w_uniq _ _ _ _ _ W); eauto; congruence.
  Qed.

  Lemma use_shaped f x : shaped (ensure fresh x) (use fresh f x).
  Proof.
    unfold use. destruct (ensure_cur x) as [i0 Hi]. rewrite Hi. intros i. cbn [secs]. rewrite nth_upd.
    destruct (nth_error (secs (ensure fresh x)) i) as [s|]; destruct (Nat.eqb i0 i); cbn [option_map]; auto using shape_refl.
    unfold shape. cbn [s_name s_kind s_cur s_ctrs]. repeat split.
    clear. generalize (s_cur s) as k. induction (s_ctrs s) as [|c l IH]; intros [|k]; cbn [upd map]; f_equal; auto.
  Qed.
  Lemma use_cur f x : cur (use fresh f x) = cur (ensure fresh x).
  Proof. unfold use. destruct (ensure_cur x) as [i0 Hi]. rewrite Hi. reflexivity. Qed.
  Lemma use_syms f x : syms (use fresh f x) = syms x.
  Proof. unfold use. destruct (ensure_cur x) as [i0 Hi]. rewrite Hi. cbn [syms]. apply ensure_syms. Qed.
  Lemma wf_use f x : wf x -> wf (use fresh f x).
  Proof.
    intros W. apply (wf_shaped (ensure fresh x)); [apply wf_ensure; exact W|apply use_shaped|apply use_cur|].
    intros m e a H _ _. exists e. rewrite use_syms. rewrite ensure_syms in H. auto.
  Qed.
  Lemma wf_emplace n e x y : wf x -> emplace n e x = Some y -> wf y.
  Proof.
    intros W H. unfold emplace in H. destruct (symbol_defined n x) eqn:E; [discriminate|]. inversion H; subst; clear H.
    apply (wf_shaped x); [exact W| |reflexivity|].
    - intros i. cbn [secs]. destruct (nth_error (secs x) i); auto using shape_refl.
    - intros m e' a Hm _ _. exists e'. cbn [syms find_sym]. apply symbol_undefined in E.
      destruct (Nat.eqb n m) eqn:En; [apply Nat.eqb_eq in En; congruence|]. auto.
  Qed.
  Lemma find_settle lv ll x n :
    find_sym (syms (settle lv ll x)) n = option_map (settle_entry lv ll x n) (find_sym (syms x) n).
  Proof.
    unfold settle. cbn [syms]. generalize (settle_entry lv ll x) as g. intros g.
    induction (syms x) as [|[m e] l IH]; cbn [map find_sym fst snd]; [reflexivity|].
    destruct (Nat.eqb m n) eqn:E; [|exact IH]. apply Nat.eqb_eq in E. subst. reflexivity.
  Qed.
  Lemma wf_settle lv ll x : wf x -> wf (settle lv ll x).
  Proof.
    intros W. apply (wf_shaped x); [exact W| |reflexivity|].
    - intros i. cbn [secs settle]. destruct (nth_error (secs x) i); auto using shape_refl.
    - intros m e a Hm Hv Ha. rewrite find_settle, Hm. cbn [option_map]. eexists. split; [reflexivity|].
      unfold settle_entry. rewrite Hv, Ha. cbn. auto.
  Qed.

  Lemma wf_set_section n k p x y : wf x -> set_section fresh here n k p x = Some y -> wf y.
  Proof.
    intros W H. unfold set_section in H. destruct (index (is_section n k) (secs x)) as [i|] eqn:E.
    - inversion H; subst. destruct (index_some _ _ _ E) as (s & Hs & _). constructor; cbn [secs cur syms].
      + discriminate.
      + intros j Hj. inversion Hj; subst. eauto.
      + apply (w_ctr _ _ _ _ _ W).
      + apply (w_first _ _ _ _ _ W).
      + apply (w_label _ _ _ _ _ W).
      + apply (w_uniq _ _ _ _ _ W).
    - destruct (symbol_defined n x) eqn:Ed; [discriminate|]. inversion H; subst; clear H. apply symbol_undefined in Ed.
      apply wf_append; [exact W| |].
      + intros m e Hm. cbn [find_sym]. destruct (Nat.eqb n m) eqn:En; [apply Nat.eqb_eq in En; congruence|exact Hm].
      + intros _. split; [exact Ed|]. eexists. cbn [find_sym]. rewrite Nat.eqb_refl. split; [reflexivity|]. split; reflexivity.
  Qed.

  (** ** LOCTR *)
  Lemma set_counter_found n (s : sec L) : has_counter n s = true ->
    exists j c, nth_error (s_ctrs s) j = Some c /\ c_name c = n /\ set_counter fresh n s = mkS (s_name s) (s_kind s) (s_ctrs s) j.
  Proof.
    intros H. unfold set_counter. destruct (index (fun c => Nat.eqb (c_name c) n) (s_ctrs s)) as [j|] eqn:E.
    - destruct (index_some _ _ _ E) as (c & Hc & Hn). apply Nat.eqb_eq in Hn. eauto.
    - exfalso. apply (proj1 (has_counter_spec n s)) in H. destruct H as (j & c & Hj & Hn).
      pose proof (index_none _ _ E c (nth_error_In _ _ Hj)) as Hf. cbn in Hf. rewrite Hn, Nat.eqb_refl in Hf. discriminate.
  Qed.
  Lemma set_counter_new n (s : sec L) : has_counter n s = false ->
    set_counter fresh n s = mkS (s_name s) (s_kind s) (s_ctrs s ++ [mkC n (fresh false)]) (length (s_ctrs s)).
  Proof.
    intros H. unfold set_counter. destruct (index (fun c => Nat.eqb (c_name c) n) (s_ctrs s)) as [j|] eqn:E; [|reflexivity].
    exfalso. destruct (index_some _ _ _ E) as (c & Hc & Hn). apply Nat.eqb_eq in Hn.
    assert (has_counter n s = true) by (apply has_counter_spec; eauto). congruence.
  Qed.
  Lemma wf_switch x i s j : wf x -> nth_error (secs x) i = Some s -> (exists c, nth_error (s_ctrs s) j = Some c) ->
    forall g, g s = mkS (s_name s) (s_kind s) (s_ctrs s) j ->
    wf (mk (upd (secs x) i g) (Some i) (syms x)).
  Proof.
    intros W Hs [c Hj] g Hg. set (y := mk _ _ _).
    assert (Hn : forall k, nth_error (secs y) k = if Nat.eqb i k then Some (g s) else nth_error (secs x) k).
    { intros k. cbn [secs y]. rewrite nth_upd. destruct (Nat.eqb i k) eqn:E; [|reflexivity]. apply Nat.eqb_eq in E. subst k.
      rewrite Hs. reflexivity. }
    assert (Hc : forall a b c', counter y a b c' -> counter x a b c').
    { intros a b c' (t & Ht & Hb). rewrite Hn in Ht. destruct (Nat.eqb i a) eqn:E.
      - apply Nat.eqb_eq in E. subst a. inversion Ht; subst t. rewrite Hg in Hb. exists s. auto.
      - exists t. auto. }
    constructor.
    - discriminate.
    - intros k Hk. cbn [cur y] in Hk. inversion Hk; subst k. rewrite Hn, Nat.eqb_refl. eauto.
    - intros k t Ht. rewrite Hn in Ht. destruct (Nat.eqb i k); [|eapply (w_ctr _ _ _ _ _ W); eauto].
      inversion Ht; subst t. rewrite Hg. cbn. eauto.
    - intros k t Ht. rewrite Hn in Ht. destruct (Nat.eqb i k); [|eapply (w_first _ _ _ _ _ W); eauto].
      inversion Ht; subst t. rewrite Hg. cbn. eapply (w_first _ _ _ _ _ W); eauto.
    - intros a b c' H. apply Hc in H. eapply (w_label _ _ _ _ _ W); eauto.
    - intros a b c' a' b' c'' H H'. apply Hc in H. apply Hc in H'. eapply (w_uniq _ _ _ _ _ W); eauto.
  Qed.
  Lemma set_location_counter_cases n p x y : wf x -> set_location_counter fresh here n p x = Some y ->
    let x' := ensure fresh x in
    (exists i s j c, nth_error (secs x') i = Some s /\ nth_error (s_ctrs s) j = Some c /\ c_name c = n
       /\ set_counter fresh n s = mkS (s_name s) (s_kind s) (s_ctrs s) j
       /\ y = mk (upd (secs x') i (set_counter fresh n)) (Some i) (syms x))
    \/ (exists i s, cur x' = Some i /\ nth_error (secs x') i = Some s
         /\ (forall t, In t (secs x') -> has_counter n t = false) /\ find_sym (syms x) n = None
         /\ set_counter fresh n s = mkS (s_name s) (s_kind s) (s_ctrs s ++ [mkC n (fresh false)]) (length (s_ctrs s))
         /\ y = mk (upd (secs x') i (set_counter fresh n)) (Some i)
                  ((n, mkE (VReloc (here i (length (s_ctrs s)) (fresh false))) section_attrs p) :: syms x)).
  Proof.
    intros W H x'. unfold set_location_counter in H. fold x' in H.
    assert (Wx : wf x') by (apply wf_ensure; exact W).
    assert (Hsy : syms x' = syms x) by apply ensure_syms.
    destruct (last_with n (secs x') 0) as [i|] eqn:E.
    - left. destruct (last_with_some _ _ _ _ E) as (k & s & Hk & Hs & Hc). cbn in Hk. subst k.
      destruct (set_counter_found n s Hc) as (j & c & Hj & Hn & Hset). exists i, s, j, c. inversion H; subst y. rewrite Hsy. auto 8.
    - right. pose proof (last_with_none _ _ _ E) as Hall. destruct (cur x') as [i|] eqn:Ec; [|discriminate].
      destruct (w_cur _ _ _ _ _ Wx i Ec) as [s Hs]. exists i, s.
      assert (Hno : has_counter n s = false) by (apply Hall; eapply nth_error_In; eauto).
      pose proof (set_counter_new n s Hno) as Hset.
      unfold address_in in H. cbn [cur secs] in H. rewrite nth_upd, Nat.eqb_refl, Hs in H. cbn [option_map] in H.
      rewrite Hset in H. cbn [s_ctrs s_cur] in H. rewrite nth_app_new in H. cbn [c_at] in H.
      unfold emplace in H. unfold symbol_defined in H. cbn [syms] in H. rewrite Hsy in H.
      destruct (find_sym (syms x) n) eqn:Ef; [discriminate|]. inversion H; subst y. cbn [secs cur].
      rewrite Hset. auto 8.
  Qed.
  Lemma wf_set_location_counter n p x y : wf x -> set_location_counter fresh here n p x = Some y -> wf y.
  Proof.
    intros W H. assert (Wx : wf (ensure fresh x)) by (apply wf_ensure; exact W).
    destruct (set_location_counter_cases n p x y W H) as [(i & s & j & c & Hs & Hj & Hn & Hset & ->)|(i & s & Hc & Hs & Hall & Hu & Hset & ->)].
    - rewrite <- (ensure_syms x). eapply wf_switch; eauto.
    - set (x' := ensure fresh x) in *. set (e := mkE _ _ p).
      set (y := mk _ _ _).
      assert (Hnth : forall k, nth_error (secs y) k = if Nat.eqb i k then Some (set_counter fresh n s) else nth_error (secs x') k).
      { intros k. cbn [secs y]. rewrite nth_upd. destruct (Nat.eqb i k) eqn:E; [|reflexivity]. apply Nat.eqb_eq in E. subst k.
        rewrite Hs. reflexivity. }
      assert (Hcc : forall a b c', counter y a b c' -> counter x' a b c' \/ (a = i /\ b = length (s_ctrs s) /\ c' = mkC n (fresh false))).
      { intros a b c' (t & Ht & Hb). rewrite Hnth in Ht. destruct (Nat.eqb i a) eqn:E.
        - apply Nat.eqb_eq in E. subst a. inversion Ht; subst t. rewrite Hset in Hb. cbn [s_ctrs] in Hb.
          apply nth_app_one in Hb. destruct Hb as [Hb|[-> ->]]; [left; exists s; auto|right; auto].
        - left. exists t. auto. }
      assert (Hold : forall a b c', counter x' a b c' -> c_name c' <> n).
      { intros a b c' (t & Ht & Hb) En. pose proof (Hall t (nth_error_In _ _ Ht)) as Hf.
        assert (has_counter n t = true) by (apply has_counter_spec; eauto). congruence. }
      destruct (w_first _ _ _ _ _ Wx _ _ Hs) as (c0 & Hc0 & Hn0).
      assert (Hlen : 0 < length (s_ctrs s)) by (apply nth_error_Some; congruence).
      assert (Hsx : syms x' = syms x) by apply ensure_syms.
      constructor.
      + discriminate.
      + intros k Hk. cbn [cur y] in Hk. inversion Hk; subst k. rewrite Hnth, Nat.eqb_refl. eauto.
      + intros k t Ht. rewrite Hnth in Ht. destruct (Nat.eqb i k); [|eapply (w_ctr _ _ _ _ _ Wx); eauto].
        inversion Ht; subst t. rewrite Hset. cbn [s_ctrs s_cur]. rewrite nth_app_new. eauto.
      + intros k t Ht. rewrite Hnth in Ht. destruct (Nat.eqb i k); [|eapply (w_first _ _ _ _ _ Wx); eauto].
        inversion Ht; subst t. rewrite Hset. cbn [s_ctrs s_name]. exists c0. split; [apply nth_app_old; exact Hc0|exact Hn0].
      + intros a b c' H' Hz. destruct (Hcc _ _ _ H') as [G|(-> & -> & ->)].
        * destruct (w_label _ _ _ _ _ Wx _ _ _ G Hz) as (e' & He' & Hv & Ha). exists e'. cbn [syms y find_sym].
          pose proof (Hold _ _ _ G) as Hne. destruct (Nat.eqb n (c_name c')) eqn:E; [apply Nat.eqb_eq in E; congruence|].
          rewrite Hsx in He'. auto.
        * cbn [c_name] in *. exists e. cbn [syms y find_sym]. rewrite Nat.eqb_refl. split; [reflexivity|].
          unfold e. cbn [e_value e_attrs]. split; [|reflexivity]. destruct (length (s_ctrs s)); [lia|]. reflexivity.
      + intros a b c' a' b' c'' H1 H2 E Hz. destruct (Hcc _ _ _ H1) as [G|(-> & -> & ->)], (Hcc _ _ _ H2) as [G'|(-> & -> & ->)].
        * eapply (w_uniq _ _ _ _ _ Wx); eauto.
        * exfalso. apply (Hold _ _ _ G). exact E.
        * exfalso. apply (Hold _ _ _ G'). symmetry. exact E.
        * auto.
  Qed.
End Proofs.
