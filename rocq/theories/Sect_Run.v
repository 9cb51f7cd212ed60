(** Sections, counters and symbols: one statement and whole runs. *)
From Coq Require Import ZArith Bool Arith List Lia.
From Verif Require Import Sect_Model Sect_Spec Sect_Proof.
Import ListNotations.

Section Run.
  Variable L : Type.
  Variable fresh : bool -> L.
  Variable A : Type.
  Variable here : nat -> nat -> L -> A.
  Variable cycle : st L A -> bool.
  Variable dep_cycle : name -> st L A -> bool.
  Variable org_check : A -> A -> Z -> Z -> option nat.
  Variable org_to : A -> Z -> Z -> bool -> L -> L.
  Variable org_max : Z -> Z -> L -> L.
  Variable no_align : L -> L.
  Variable late_value : st L A -> name -> value A.
  Variable late_length : st L A -> name -> option Z.
  Notation st := (st L A).
  Notation entry := (entry A).
  Notation counter := (counter L A).
  Notation current := (current L A).
  Notation defined := (defined L A).
  Notation has_section := (has_section L A).
  Notation has_ctr := (has_ctr L A).
  Notation next_at := (next_at L fresh A).
  Notation wf := (wf L fresh A here).
  Notation later := (later A).
  Notation waits := (waits A).
  Notation defines := (defines L fresh A here no_align).
  Notation redefines := (redefines L A).
  Notation proc := (proc fresh here cycle dep_cycle org_check org_to org_max no_align).
  Notation step := (step fresh here cycle dep_cycle org_check org_to org_max no_align late_value late_length).
  Notation run := (run fresh here cycle dep_cycle org_check org_to org_max no_align late_value late_length).
  Notation use := (use fresh).
  Notation ensure := (ensure fresh).
  Notation asked := (asked fresh no_align).
  Notation settle := (settle late_value late_length).
  Implicit Types x : st.

  Lemma wf_init : wf init.
  Proof.
    constructor; try discriminate; cbn.
    - reflexivity.
    - intros [|i] s H; discriminate.
    - intros [|i] s H; discriminate.
    - intros i j c (s & H & _). destruct i; discriminate.
    - intros i j c i' j' c' (s & H & _). destruct i; discriminate.
  Qed.

  (** ** The current location *)
  Lemma next_at_fun x i j l i' j' l' : next_at x i j l -> next_at x i' j' l' -> i = i' /\ j = j' /\ l = l'.
  Proof.
    intros [(H1 & H2 & H3 & H4)|((s & H1 & H2 & H3) & c & (t & H4 & H5) & H6)]
           [(G1 & G2 & G3 & G4)|((s' & G1 & G2 & G3) & c' & (t' & G4 & G5) & G6)]; try congruence.
    - subst. auto.
    - assert (i = i') by congruence. subst i'. assert (s = s') by congruence. subst s'. subst j j'.
      assert (t = t') by congruence. subst t'. assert (c = c') by congruence. subst. auto.
  Qed.
  Lemma next_at_ex x : wf x -> exists i j l, next_at x i j l.
  Proof.
    intros W. destruct (cur x) as [i|] eqn:E.
    - destruct (w_cur _ _ _ _ _ W i E) as [s Hs]. destruct (w_ctr _ _ _ _ _ W _ _ Hs) as [c Hc].
      exists i, (s_cur s), (c_at c). right. split; [exists s; auto|]. exists c. split; [exists s; auto|reflexivity].
    - exists (length (secs x)), 0, (fresh true). left. auto.
  Qed.
  Lemma address_use f x i j l : next_at x i j l -> address_in here (use f x) = Some (here i j (f l)).
  Proof.
    intros H. unfold Sect_Model.use. destruct H as [(H1 & -> & -> & ->)|((s & H1 & H2 & <-) & c & (t & H4 & H5) & <-)].
    - unfold Sect_Model.ensure. rewrite H1. cbn [cur]. unfold address_in. cbn [cur secs].
      rewrite nth_upd, Nat.eqb_refl. rewrite nth_app_new. cbn. reflexivity.
    - rewrite (ensure_some L fresh A x i H1), H1. unfold address_in. cbn [cur secs]. rewrite nth_upd, Nat.eqb_refl, H2.
      cbn [option_map s_ctrs s_cur]. assert (t = s) by congruence. subst t. rewrite nth_upd, Nat.eqb_refl, H5. reflexivity.
  Qed.
  Lemma address_ensure x i j l : next_at x i j l -> address_in here (ensure x) = Some (here i j l).
  Proof.
    intros [(H1 & -> & -> & ->)|((s & H1 & H2 & <-) & c & (t & H4 & H5) & <-)].
    - unfold Sect_Model.ensure. rewrite H1. unfold address_in. cbn [cur secs]. rewrite nth_app_new. reflexivity.
    - rewrite (ensure_some L fresh A x i H1). unfold address_in. rewrite H1, H2. assert (t = s) by congruence. subst t.
      rewrite H5. reflexivity.
  Qed.

  (** ** Operand expressions *)
  Lemma attr_operand_spec o hi bad x : forall r ds, attr_operand (L:=L) (A:=A) o hi bad x = (r, ds) ->
    (forall z, r = Some z <-> given L A o hi x z)
    /\ ((ds = [] /\ (absent L A o \/ exists z, given L A o hi x z)) \/ (ds = [bad] /\ ~ absent L A o /\ forall z, ~ given L A o hi x z)).
  Proof.
    intros r ds H. unfold attr_operand in H.
    assert (Hno : r = None -> (forall z, ~ given L A o hi x z) -> forall z, r = Some z <-> given L A o hi x z).
    { intros -> Hz z. split; [discriminate|]. intros Hg. destruct (Hz z Hg). }
    assert (Hempty : absent L A o -> forall z, ~ given L A o hi x z).
    { intros [->| ->] z (f & E & _); discriminate. }
    destruct o as [[| |f]|].
    - inversion H; subst. assert (Ha : absent L A (Some OEmpty)) by (right; reflexivity). split; [apply Hno; auto|]. left. auto.
    - inversion H; subst. assert (Hg : forall z, ~ given L A (Some ONoExpr) hi x z) by (intros z (f & E & _); discriminate).
      split; [apply Hno; auto|]. right. split; [reflexivity|]. split; [intros [E|E]; discriminate|exact Hg].
    - assert (Hab : ~ absent L A (Some (OExpr f))) by (intros [E|E]; discriminate).
      assert (Hbad : r = None -> ds = [bad] -> (forall z, ~ given L A (Some (OExpr f)) hi x z) ->
        (forall z, r = Some z <-> given L A (Some (OExpr f)) hi x z)
        /\ ((ds = [] /\ (absent L A (Some (OExpr f)) \/ exists z, given L A (Some (OExpr f)) hi x z))
            \/ (ds = [bad] /\ ~ absent L A (Some (OExpr f)) /\ forall z, ~ given L A (Some (OExpr f)) hi x z))).
      { intros -> -> Hg. split; [apply Hno; auto|]. right. auto. }
      destruct (x_pending (f x)) eqn:Ep.
      { inversion H; subst. apply Hbad; auto. intros z (g & E & Hw & _). inversion E; subst g. apply Hw. apply pending_spec. exact Ep. }
      destruct (x_val (f x)) as [|z|a] eqn:Ev.
      + inversion H; subst. apply Hbad; auto. intros z (g & E & _ & Hv & _). inversion E; subst g. congruence.
      + destruct ((0 <=? z)%Z && (z <=? hi)%Z) eqn:Er.
        * inversion H; subst. apply andb_true_iff in Er. destruct Er as [E1 E2]. apply Z.leb_le in E1, E2.
          assert (Hg : given L A (Some (OExpr f)) hi x z).
          { exists f. split; [reflexivity|]. split; [apply not_pending; exact Ep|]. split; [exact Ev|]. lia. }
          split; [|left; eauto]. intros z'. split; [intros E; inversion E; subst; exact Hg|].
          intros (g & E & _ & Hv & _). inversion E; subst g. congruence.
        * inversion H; subst. apply Hbad; auto. intros z' (g & E & _ & Hv & Hr). inversion E; subst g.
          rewrite Ev in Hv. inversion Hv; subst z'. apply andb_false_iff in Er.
          destruct Er as [Er|Er]; apply Z.leb_gt in Er; lia.
      + inversion H; subst. apply Hbad; auto. intros z (g & E & _ & Hv & _). inversion E; subst g. congruence.
    - inversion H; subst. assert (Ha : absent L A None) by (left; reflexivity). split; [apply Hno; auto|]. left. auto.
  Qed.
  Lemma left_length_spec (e : expr A) x : own_length L A e x (left_length e x).
  Proof.
    unfold left_length, own_length. destruct (x_left e) as [m|] eqn:El.
    - destruct (find_sym (syms x) m) as [y|] eqn:Ef.
      + destruct (e_value y) eqn:Ev.
        * right. split; [|reflexivity]. intros m' y' E1 E2. inversion E1; subst m'. congruence.
        * left. exists m, y. split; [reflexivity|]. split; [exact Ef|]. split; [congruence|reflexivity].
        * left. exists m, y. split; [reflexivity|]. split; [exact Ef|]. split; [congruence|reflexivity].
      + right. split; [|reflexivity]. intros m' y' E1 E2. congruence.
    - right. split; [|reflexivity]. intros m' y' E1. discriminate.
  Qed.
  Lemma own_length_fun (e : expr A) x l l' : own_length L A e x l -> own_length L A e x l' -> l = l'.
  Proof.
    intros [(m & y & H1 & H2 & H3 & ->)|[H1 ->]] [(m' & y' & G1 & G2 & G3 & ->)|[G1 ->]]; auto.
    - congruence.
    - exfalso. apply H3. eapply G1; eauto.
    - exfalso. apply G3. eapply H1; eauto.
  Qed.
  Lemma given_fun o hi x z z' : given L A o hi x z -> given L A o hi x z' -> z = z'.
  Proof. intros (f & H1 & _ & H2 & _) (g & G1 & _ & G2 & _). congruence. Qed.
  Lemma equ_attrs_fun ops e x a a' : equ_attrs L A ops e x a -> equ_attrs L A ops e x a' -> a = a'.
  Proof.
    intros (H1 & H2 & H3) (G1 & G2 & G3). destruct a as [o t l], a' as [o' t' l']. cbn in *.
    assert (Et : t = t').
    { destruct H2 as [(z & H & ->)|[H ->]], G2 as [(z' & G & ->)|[G ->]]; auto.
      - f_equal. eapply given_fun; eauto.
      - destruct (G z H).
      - destruct (H z' G). }
    assert (El : l = l').
    { destruct H3 as [(z & H & ->)|[H Hl]], G3 as [(z' & G & ->)|[G Gl]]; auto.
      - f_equal. eapply given_fun; eauto.
      - destruct (G z H).
      - destruct (H z' G).
      - eapply own_length_fun; eauto. }
    congruence.
  Qed.
  Lemma equ_value_fun (e : expr A) v v' : equ_value A e v -> equ_value A e v' -> v = v'.
  Proof.
    intros [(H1 & H2)|[(H1 & u & H2 & H3 & H4 & H5)|(H1 & H2 & H3)]] [(G1 & G2)|[(G1 & u' & G2 & G3 & G4 & G5)|(G1 & G2 & G3)]];
      try congruence; try contradiction; exfalso; intuition congruence.
  Qed.
  Lemma defines_fun s x n e n' e' : defines s x n e -> defines s x n' e' -> n = n' /\ e = e'.
  Proof.
    intros H H'. destruct H; inversion H'; subst; (split; [reflexivity|]); try reflexivity.
    - match goal with H1 : next_at _ _ _ _, H2 : next_at _ _ _ _ |- _ => destruct (next_at_fun _ _ _ _ _ _ _ H1 H2) as (<- & <- & <-) end.
      assert (w = w0); [|congruence].
      repeat match goal with H : _ \/ _ |- _ => destruct H | H : _ /\ _ |- _ => destruct H | H : exists _, _ |- _ => destruct H end; subst; try congruence;
      match goal with H1 : next_at _ _ _ _ |- _ => destruct H1 as [(Q1 & Q2 & _)|((s & Q1 & _) & _)] end;
      try congruence; subst;
      match goal with H : nth_error (secs x) (length (secs x)) = Some _ |- _ => assert (length (secs x) < length (secs x)) by (apply nth_error_Some; congruence); lia end.
    - match goal with H1 : nth_error ops 0 = Some (OExpr f), H2 : nth_error ops 0 = Some (OExpr ?g) |- _ => assert (g = f) by congruence; subst g end.
      f_equal; [eapply equ_value_fun; eauto|eapply equ_attrs_fun; eauto].
    - match goal with H1 : next_at _ _ _ _, H2 : next_at _ _ _ _ |- _ => destruct (next_at_fun _ _ _ _ _ _ _ H1 H2) as (<- & <- & <-) end. reflexivity.
    - match goal with H1 : next_at _ _ _ _, H2 : next_at _ _ _ _ |- _ => destruct (next_at_fun _ _ _ _ _ _ _ H1 H2) as (<- & <- & <-) end. reflexivity.
    - match goal with H1 : next_at _ _ _ _, H2 : next_at _ _ _ _ |- _ => destruct (next_at_fun _ _ _ _ _ _ _ H1 H2) as (<- & <- & <-) end. reflexivity.
    - match goal with H1 : next_at _ _ _ _, H2 : next_at _ _ _ _ |- _ => destruct (next_at_fun _ _ _ _ _ _ _ H1 H2) as (<- & <- & <-) end. reflexivity.
  Qed.

  (** ** One statement *)
  Definition added n (e : entry) x : st := mk (secs x) (cur x) ((n, e) :: syms x).
  Lemma create_ok n v a p x ds y ds' : create cycle n v a p x ds = Ok y ds' ->
    find_sym (syms x) n = None /\ y = added n (mkE v a p) x
    /\ ds' = ds ++ match v with VReloc _ => if cycle y then [E033] else [] | _ => [] end.
  Proof.
    unfold create, emplace. intros H. destruct (symbol_defined n x) eqn:E; [discriminate|]. apply symbol_undefined in E.
    inversion H; subst. auto.
  Qed.
  Lemma create_throws n v a p x ds : create cycle n v a p x ds = Throws <-> defined x n.
  Proof.
    unfold create, emplace. destruct (symbol_defined n x) eqn:E; split; intros H; try discriminate.
    - apply symbol_defined_spec. exact E.
    - reflexivity.
    - apply symbol_defined_spec in H. congruence.
  Qed.
  Lemma wf_added n e x : wf x -> find_sym (syms x) n = None -> wf (added n e x).
  Proof.
    intros W H. apply (wf_emplace L fresh A here n e x); [exact W|]. unfold emplace. apply symbol_undefined in H. rewrite H. reflexivity.
  Qed.
  Lemma undefined_not n x : find_sym (syms x) n = None -> ~ defined x n.
  Proof. intros H [e He]. congruence. Qed.

  Definition no_definition s x : Prop := forall n e, find_sym (syms x) n = None -> ~ defines s x n e.
  Definition outcome s x (y : st) : Prop :=
    (syms y = syms x /\ no_definition s x)
    \/ exists n e, find_sym (syms x) n = None /\ defines s x n e /\ syms y = (n, e) :: syms x.

  Lemma has_ctr_spec n x : counter_defined fresh n x = true <-> has_ctr x n.
  Proof.
    unfold counter_defined, Sect_Spec.has_ctr. rewrite existsb_exists.
    assert (Hbase : (exists t, In t (secs x) /\ has_counter n t = true) <-> exists i j c, counter x i j c /\ c_name c = n).
    { split.
      - intros (t & Ht & Hc). apply In_nth_error in Ht. destruct Ht as [i Hi]. apply (proj1 (has_counter_spec L n t)) in Hc.
        destruct Hc as (j & c & Hj & Hn). exists i, j, c. split; [exists t; auto|exact Hn].
      - intros (i & j & c & (t & Ht & Hj) & Hn). exists t. split; [eapply nth_error_In; eauto|]. apply has_counter_spec. eauto. }
    unfold Sect_Model.ensure. destruct (cur x) as [i|] eqn:E.
    - rewrite Hbase. split; [auto|]. intros [H|[H _]]; [exact H|discriminate].
    - cbn [secs]. split.
      + intros (t & Ht & Hc). apply in_app_or in Ht. destruct Ht as [Ht|[<-|[]]]; [left; apply Hbase; eauto|].
        right. split; [reflexivity|]. destruct n; [reflexivity|discriminate].
      + intros [H|[_ ->]].
        * apply Hbase in H. destruct H as (t & Ht & Hc). exists t. split; [apply in_or_app; auto|exact Hc].
        * exists (new_section fresh 0 EXECUTABLE). split; [apply in_or_app; right; left; reflexivity|reflexivity].
  Qed.

  Lemma proc_sect_ok k n p x y ds : wf x -> proc_sect fresh here k n p x = Ok y ds ->
    wf y /\ outcome (SSect k n p) x y.
  Proof.
    intros W H. unfold proc_sect in H. destruct (symbol_defined n x && negb (section_defined n k x)) eqn:E.
    - inversion H; subst. split; [exact W|]. left. split; [reflexivity|]. intros m e Hm D. inversion D; subst.
      apply andb_true_iff in E. destruct E as [E _]. apply symbol_defined_spec in E. exact (undefined_not _ _ Hm E).
    - destruct (set_section fresh here n k p x) as [z|] eqn:Es; [|discriminate]. inversion H; subst z; subst.
      split; [eapply wf_set_section; eauto|]. unfold set_section in Es.
      destruct (index (is_section n k) (secs x)) as [i|] eqn:Ei.
      + inversion Es; subst. left. split; [reflexivity|]. intros m e Hm D. inversion D as [x0 k0 n0 p0 Hno|x0 n0 p0 i0 j l w|x0 b n0 ops p0 f v a|x0 n0 len al re p0 i0 j l|x0 n0 a al re p0 i0 j l|x0 n0 ops p0 i0 j l|x0 n0 p0 i0 j l]; subst. apply Hno. apply section_defined_spec.
        destruct (index_some _ _ _ Ei) as (t & Ht & Hp). apply existsb_exists. exists t. split; [eapply nth_error_In; eauto|exact Hp].
      + destruct (symbol_defined n x) eqn:Ed; [discriminate|]. inversion Es; subst. right. apply symbol_undefined in Ed.
        eexists n, _. split; [exact Ed|]. split; [|reflexivity]. apply D_sect. intros Hs.
        apply (proj2 (section_defined_spec L A n k x)) in Hs. apply existsb_exists in Hs. destruct Hs as (t & Ht & Hp).
        rewrite (index_none _ _ Ei t Ht) in Hp. discriminate.
  Qed.
  Lemma proc_sect_never k n p x : proc_sect fresh here k n p x <> Throws.
  Proof.
    unfold proc_sect. destruct (symbol_defined n x && negb (section_defined n k x)) eqn:E; [discriminate|].
    unfold set_section. destruct (index (is_section n k) (secs x)) as [i|] eqn:Ei; [discriminate|].
    destruct (symbol_defined n x); [|discriminate]. cbn in E. apply negb_false_iff in E.
    unfold section_defined in E. apply existsb_exists in E. destruct E as (t & Ht & Hp).
    rewrite (index_none _ _ Ei t Ht) in Hp. discriminate.
  Qed.

  Lemma wf_section_index x i : wf x -> cur (ensure x) = Some i ->
    exists j l, next_at x i j l.
  Proof.
    intros W H. destruct (next_at_ex x W) as (i' & j & l & Hn). exists j, l. destruct Hn as [(H1 & -> & -> & ->)|((s & H1 & H2) & H3)].
    - unfold Sect_Model.ensure in H. rewrite H1 in H. cbn in H. inversion H; subst. left. auto.
    - rewrite (ensure_some L fresh A x i' H1) in H. assert (i = i') by congruence. subst. right. split; [exists s; auto|exact H3].
  Qed.
  Lemma loctr_ok n p x y : wf x -> set_location_counter fresh here n p x = Some y ->
    wf y /\ outcome (SLoctr n p) x y.
  Proof.
    intros W H. split; [eapply wf_set_location_counter; eauto|].
    destruct (set_location_counter_cases L fresh A here n p x y W H) as [(i & s & j & c & Hs & Hj & Hn & Hset & ->)|(i & s & Hc & Hs & Hall & Hu & Hset & ->)].
    - left. split; [reflexivity|]. intros m e Hm D. inversion D as [|x0 n0 p0 i0 j0 l w Hno Hnx Hw E1 E2 E3| | | | |]; subst.
      apply Hno. apply has_ctr_spec. unfold counter_defined. apply existsb_exists. exists s. split; [eapply nth_error_In; eauto|].
      apply has_counter_spec. eauto.
    - right. eexists n, _. split; [exact Hu|]. split; [|reflexivity].
      destruct (wf_section_index x i W Hc) as (j & l & Hnx). eapply D_loctr; [|exact Hnx|].
      + intros Hh. apply (proj2 (has_ctr_spec n x)) in Hh. unfold counter_defined in Hh. apply existsb_exists in Hh.
        destruct Hh as (t & Ht & Hp). rewrite (Hall t Ht) in Hp. discriminate.
      + destruct Hnx as [(H1 & H2 & H3 & H4)|((t & H1 & H2) & _)].
        * left. split; [exact H1|]. unfold Sect_Model.ensure in Hs. rewrite H1 in Hs. cbn [secs] in Hs. subst i.
          rewrite nth_app_new in Hs. inversion Hs; subst s. reflexivity.
        * right. exists s. rewrite (ensure_some L fresh A x i H1) in Hs. auto.
  Qed.
  Lemma loctr_total n p x : wf x -> (defined x n -> has_ctr x n) -> exists y, set_location_counter fresh here n p x = Some y.
  Proof.
    intros W Hd. unfold set_location_counter.
    assert (Wx : wf (ensure x)) by (apply wf_ensure; exact W).
    destruct (last_with n (secs (ensure x)) 0) as [i|] eqn:E; [eauto|].
    destruct (ensure_cur L fresh A x) as [i Hi]. rewrite Hi.
    destruct (w_cur _ _ _ _ _ Wx i Hi) as [s Hs].
    pose proof (last_with_none L n _ _ E) as Hall.
    pose proof (set_counter_new L fresh n s (Hall s (nth_error_In _ _ Hs))) as Hset.
    unfold address_in. cbn [cur secs]. rewrite nth_upd, Nat.eqb_refl, Hs. cbn [option_map]. rewrite Hset. cbn [s_ctrs s_cur].
    rewrite nth_app_new. unfold emplace, symbol_defined. cbn [syms]. rewrite ensure_syms.
    destruct (find_sym (syms x) n) eqn:Ef; [|eauto]. exfalso. assert (Hh : has_ctr x n) by (apply Hd; eexists; eauto).
    apply (proj2 (has_ctr_spec n x)) in Hh. unfold counter_defined in Hh. apply existsb_exists in Hh.
    destruct Hh as (t & Ht & Hp). rewrite (Hall t Ht) in Hp. discriminate.
  Qed.
  Lemma set_loc_ensure n p x : set_location_counter fresh here n p (ensure x) = set_location_counter fresh here n p x.
  Proof. unfold set_location_counter. rewrite ensure_twice. reflexivity. Qed.
  Lemma proc_loctr_ok n p x y ds : wf x -> proc_loctr fresh here n p x = Ok y ds -> wf y /\ outcome (SLoctr n p) x y.
  Proof.
    intros W H. unfold proc_loctr in H. rewrite set_loc_ensure in H. destruct (symbol_defined n x) eqn:E.
    - destruct (counter_defined fresh n x).
      + destruct (set_location_counter fresh here n p x) as [z|] eqn:Es; [|discriminate]. inversion H; subst. eapply loctr_ok; eauto.
      + inversion H; subst. split; [apply wf_ensure; exact W|]. left. split; [apply ensure_syms|].
        intros m e Hm D. inversion D as [|x0 n0 p0 i0 j0 l w Hno Hnx Hw E1 E2 E3| | | | |]; subst.
        apply symbol_defined_spec in E. exact (undefined_not _ _ Hm E).
    - destruct (set_location_counter fresh here n p x) as [z|] eqn:Es; [|discriminate]. inversion H; subst. eapply loctr_ok; eauto.
  Qed.
  Lemma proc_loctr_never n p x : wf x -> proc_loctr fresh here n p x <> Throws.
  Proof.
    intros W. unfold proc_loctr. rewrite set_loc_ensure. destruct (symbol_defined n x) eqn:E.
    - destruct (counter_defined fresh n x) eqn:Ec; [|discriminate].
      destruct (loctr_total n p x W) as [y Hy]; [intros _; apply has_ctr_spec; exact Ec|]. rewrite Hy. discriminate.
    - destruct (loctr_total n p x W) as [y Hy]; [|rewrite Hy; discriminate].
      intros Hd. apply symbol_defined_spec in Hd. congruence.
  Qed.

  Lemma proc_equ_ok b n ops p x y ds : proc_equ cycle dep_cycle b n ops p x = Ok y ds ->
    secs y = secs x /\ cur y = cur x /\ outcome (SEqu b n ops p) x y.
  Proof.
    intros H. unfold proc_equ in H. destruct (Nat.eqb n 0) eqn:E0.
    { apply Nat.eqb_eq in E0. inversion H; subst. split; [reflexivity|]. split; [reflexivity|]. left. split; [reflexivity|].
      intros m e Hm D. inversion D; subst; congruence. }
    apply Nat.eqb_neq in E0. destruct (symbol_defined n x) eqn:Ed.
    { inversion H; subst. split; [reflexivity|]. split; [reflexivity|]. left. split; [reflexivity|].
      intros m e Hm D. inversion D; subst. apply symbol_defined_spec in Ed. exact (undefined_not _ _ Hm Ed). }
    apply symbol_undefined in Ed.
    destruct (attr_operand (nth_error ops 2) 255 A134 x) as [t d1] eqn:E2.
    destruct (attr_operand (nth_error ops 1) 65535 A133 x) as [l d2] eqn:E1.
    destruct (attr_operand_spec _ _ _ _ _ _ E2) as [S2 _]. destruct (attr_operand_spec _ _ _ _ _ _ E1) as [S1 _].
    destruct (nth_error ops 0) as [[| |f]|] eqn:Eo;
      try (inversion H; subst; split; [reflexivity|]; split; [reflexivity|]; left; split; [reflexivity|];
           intros m e Hm D; inversion D; subst; congruence).
    set (a := mkAttrs EQU (match t with Some z => TNum z | None => TU end) (match l with Some z => Some z | None => left_length (f x) x end)) in H.
    assert (Ha : equ_attrs L A ops (f x) x a).
    { split; [reflexivity|]. split.
      - destruct t as [z|]; cbn.
        + left. exists z. split; [apply S2; reflexivity|reflexivity].
        + right. split; [|reflexivity]. intros z Hz. apply S2 in Hz. discriminate.
      - destruct l as [z|]; cbn.
        + left. exists z. split; [apply S1; reflexivity|reflexivity].
        + right. split; [|apply left_length_spec]. intros z Hz. apply S1 in Hz. discriminate. }
    assert (Hdone : forall v, equ_value A (f x) v -> y = added n (mkE v a p) x ->
              secs y = secs x /\ cur y = cur x /\ outcome (SEqu b n ops p) x y).
    { intros v Hv ->. split; [reflexivity|]. split; [reflexivity|]. right. exists n, (mkE v a p). split; [exact Ed|].
      split; [|reflexivity]. eapply D_equ; eauto. }
    destruct (x_pending (f x)) eqn:Ep; cbn [negb] in H.
    - apply pending_spec in Ep. destruct (x_is_addr (f x)) eqn:Ea; cbn [negb] in H.
      + destruct (x_unres (f x)) as [u|] eqn:Eu; [|discriminate]. apply create_ok in H. destruct H as (_ & Hy & _).
        apply (Hdone (VReloc u)); [|exact Hy]. right. left. split; [exact Ep|]. exists u.
        unfold x_is_addr in Ea. apply andb_true_iff in Ea. destruct Ea as [Ea Eb]. apply andb_true_iff in Ea. destruct Ea as [Es _].
        apply negb_true_iff in Es. auto.
      + destruct (create cycle n VUndef a p x (d1 ++ d2)) as [y' ds'|] eqn:Ec; [|discriminate].
        apply create_ok in Ec. destruct Ec as (_ & Hy & _). injection H as Ey _. apply (Hdone VUndef); [|congruence].
        right. right. split; [exact Ep|]. split; [|reflexivity]. unfold x_is_addr, has_unres in Ea.
        destruct (x_syms (f x)); [auto|]. destruct (x_unres (f x)); [|auto]. destruct (x_based (f x)); [discriminate|auto].
    - apply not_pending in Ep. apply create_ok in H. destruct H as (_ & Hy & _). apply (Hdone (x_val (f x))); [|exact Hy].
      left. auto.
  Qed.
  Lemma proc_equ_never b n ops p x : proc_equ cycle dep_cycle b n ops p x <> Throws.
  Proof.
    unfold proc_equ. destruct (Nat.eqb n 0); [discriminate|]. destruct (symbol_defined n x) eqn:Ed; [discriminate|].
    assert (Hc : forall v a ds, create cycle n v a p x ds <> Throws).
    { intros v a ds H. apply create_throws in H. apply symbol_defined_spec in H. congruence. }
    destruct (attr_operand (nth_error ops 2) 255 A134 x) as [t d1]. destruct (attr_operand (nth_error ops 1) 65535 A133 x) as [l d2].
    destruct (nth_error ops 0) as [[| |f]|]; try discriminate.
    destruct (negb (x_pending (f x))); [apply Hc|]. destruct (negb (x_is_addr (f x))) eqn:Ea.
    - destruct (create cycle n VUndef _ p x (d1 ++ d2)) eqn:E; [discriminate|]. exfalso. eapply Hc; eauto.
    - destruct (x_unres (f x)) eqn:Eu; [apply Hc|]. apply negb_false_iff in Ea. unfold x_is_addr, has_unres in Ea.
      rewrite Eu in Ea. rewrite andb_false_r in Ea. discriminate.
  Qed.

  Lemma defined_use f x n : defined (use f x) n <-> defined x n.
  Proof. unfold Sect_Spec.defined. rewrite use_syms. reflexivity. Qed.
  Lemma find_use f x n : find_sym (syms (use f x)) n = find_sym (syms x) n.
  Proof. rewrite use_syms. reflexivity. Qed.
  (** Definition of a label at the current location. *)
  Lemma labelled_ok n a p f x y ds : wf x -> define_at cycle n a p (address_in here (use f x)) (use f x) = Ok y ds ->
    wf y /\ find_sym (syms x) n = None
    /\ exists i j l, next_at x i j l /\ y = added n (mkE (VReloc (here i j (f l))) a p) (use f x).
  Proof.
    intros W H. destruct (next_at_ex x W) as (i & j & l & Hn). rewrite (address_use f x i j l Hn) in H. cbn [define_at] in H.
    apply create_ok in H. destruct H as (Hu & Hy & _). split; [|split; [rewrite use_syms in Hu; exact Hu|]].
    - subst y. apply wf_added; [apply wf_use; exact W|exact Hu].
    - exists i, j, l. auto.
  Qed.
  Lemma labelled_throws n a p f x : wf x ->
    (define_at cycle n a p (address_in here (use f x)) (use f x) = Throws <-> defined x n).
  Proof.
    intros W. destruct (next_at_ex x W) as (i & j & l & Hn). rewrite (address_use f x i j l Hn). cbn [define_at].
    rewrite create_throws. apply defined_use.
  Qed.
  Lemma proc_mach_ok n len al re p x y ds : wf x -> proc_mach fresh here cycle n len al re p x = Ok y ds ->
    wf y /\ outcome (SMach n len al re p) x y.
  Proof.
    intros W H. unfold proc_mach, align in H. destruct (Nat.eqb n 0) eqn:E0.
    { apply Nat.eqb_eq in E0. cbn [after] in H. inversion H; subst. split; [apply wf_use; exact W|]. left. split; [apply use_syms|].
      intros m e Hm D. inversion D; subst; congruence. }
    apply Nat.eqb_neq in E0. destruct (symbol_defined n x) eqn:Ed.
    { cbn [after] in H. inversion H; subst. split; [apply wf_use; exact W|]. left. split; [apply use_syms|].
      intros m e Hm D. inversion D; subst. apply symbol_defined_spec in Ed. exact (undefined_not _ _ Hm Ed). }
    destruct (define_at cycle n (machine_attrs len) p (address_in here (use al x)) (use al x)) as [z dz|] eqn:Ez; [|discriminate].
    cbn [after] in H. inversion H; subst. destruct (labelled_ok _ _ _ _ _ _ _ W Ez) as (Wz & Hu & i & j & l & Hn & ->).
    split; [apply wf_use; exact Wz|]. right. eexists n, _. split; [exact Hu|]. split; [eapply D_mach; eauto|].
    rewrite use_syms. cbn [added syms]. rewrite use_syms. reflexivity.
  Qed.
  Lemma proc_mach_never n len al re p x : wf x -> proc_mach fresh here cycle n len al re p x <> Throws.
  Proof.
    intros W. unfold proc_mach, align. destruct (Nat.eqb n 0); [discriminate|]. destruct (symbol_defined n x) eqn:Ed; [discriminate|].
    destruct (define_at cycle n (machine_attrs len) p (address_in here (use al x)) (use al x)) as [z dz|] eqn:Ez; [discriminate|].
    apply labelled_throws in Ez; [|exact W]. apply symbol_defined_spec in Ez. congruence.
  Qed.
  Lemma proc_data_ok n b a al re p x y ds : wf x -> proc_data fresh here cycle n b a al re p x = Ok y ds ->
    wf y /\ outcome (SData n b a al re p) x y.
  Proof.
    intros W H. unfold proc_data, align in H. destruct (negb (Nat.eqb n 0) && b) eqn:E0.
    - apply andb_true_iff in E0. destruct E0 as [E0 ->]. apply negb_true_iff in E0. apply Nat.eqb_neq in E0.
      destruct (symbol_defined n (use al x)) eqn:Ed.
      { cbn [after] in H. inversion H; subst. split; [apply wf_use, wf_use; exact W|]. left. split; [rewrite !use_syms; reflexivity|].
        intros m e Hm D. inversion D; subst. apply symbol_defined_spec in Ed. exact (undefined_not _ _ Hm (proj1 (defined_use _ _ _) Ed)). }
      destruct (define_at cycle n a p (address_in here (use al x)) (use al x)) as [z dz|] eqn:Ez; [|discriminate].
      cbn [after] in H. inversion H; subst. destruct (labelled_ok _ _ _ _ _ _ _ W Ez) as (Wz & Hu & i & j & l & Hn & ->).
      split; [apply wf_use; exact Wz|]. right. eexists n, _. split; [exact Hu|]. split; [eapply D_data; eauto|].
      rewrite use_syms. cbn [added syms]. rewrite use_syms. reflexivity.
    - cbn [after] in H. inversion H; subst. split; [apply wf_use, wf_use; exact W|]. left. split; [rewrite !use_syms; reflexivity|].
      intros m e Hm D. inversion D; subst. apply andb_false_iff in E0. destruct E0 as [E0|E0]; [|discriminate].
      apply negb_false_iff in E0. apply Nat.eqb_eq in E0. congruence.
  Qed.
  Lemma proc_data_never n b a al re p x : wf x -> proc_data fresh here cycle n b a al re p x <> Throws.
  Proof.
    intros W. unfold proc_data, align. destruct (negb (Nat.eqb n 0) && b); [|discriminate].
    destruct (symbol_defined n (use al x)) eqn:Ed; [discriminate|].
    destruct (define_at cycle n a p (address_in here (use al x)) (use al x)) as [z dz|] eqn:Ez; [discriminate|].
    apply labelled_throws in Ez; [|exact W]. assert (Hd : defined (use al x) n) by (apply defined_use; exact Ez).
    apply symbol_defined_spec in Hd. congruence.
  Qed.
  Lemma proc_extrn_ok n p x y ds : wf x -> proc_extrn fresh here cycle no_align n p x = Ok y ds -> wf y /\ outcome (SExtrn n p) x y.
  Proof.
    intros W H. unfold proc_extrn, align in H. destruct n as [|[m|] ns]; [| |].
    - inversion H; subst. split; [exact W|]. left. split; [reflexivity|]. intros m e Hm D. inversion D.
    - destruct (labelled_ok _ _ _ _ _ _ _ W H) as (Wy & Hu & i & j & l & Hn & ->). split; [exact Wy|]. right.
      eexists m, _. split; [exact Hu|]. split; [eapply D_extrn; eauto|]. cbn [added syms]. rewrite use_syms. reflexivity.
    - inversion H; subst. split; [exact W|]. left. split; [reflexivity|]. intros m e Hm D. inversion D.
  Qed.
  Lemma proc_extrn_throws ns p x : wf x ->
    (proc_extrn fresh here cycle no_align ns p x = Throws <-> exists m r, ns = Some m :: r /\ defined x m).
  Proof.
    intros W. unfold proc_extrn, align. destruct ns as [|[m|] ns].
    - split; [discriminate|]. intros (m' & r & E & _). discriminate.
    - rewrite labelled_throws by exact W. split; [eauto|]. intros (m' & r & E & H). inversion E; subst. exact H.
    - split; [discriminate|]. intros (m' & r & E & _). discriminate.
  Qed.

  (** The label of ORG. *)
  Definition org_label n p x : result L A :=
    if Nat.eqb n 0 then Ok x []
    else if symbol_defined n x then Ok x [E031]
    else let '(y, o) := align fresh here no_align x in define_at cycle n org_attrs p o y.
  Definition org_rest ops x (d1 : list diag) : result L A :=
    match org_loop 0 ops x None 0 0 with
    | Returned ds => Ok x (d1 ++ ds)
    | Left None b o ds => Ok (use (org_max b o) x) (d1 ++ ds)
    | Left (Some e) b o ds =>
        match (if x_parts e then x_unres e else match x_val e with VReloc a => Some a | _ => None end) with
        | None => Throws
        | Some a =>
            let '(y, h) := align fresh here no_align x in
            match h with
            | None => Throws
            | Some h =>
                match org_check a h b o with
                | Some d => Ok y (d1 ++ ds ++ [Other d])
                | None => Ok (use (org_to a b o (x_parts e)) y) (d1 ++ ds)
                end
            end
        end
    end.
  Lemma proc_org_split n ops p x : proc_org fresh here cycle org_check org_to org_max no_align n ops p x =
    match org_label n p x with Throws => Throws | Ok y d => org_rest ops y d end.
  Proof. reflexivity. Qed.
  Lemma org_label_ok n ops p x y ds : wf x -> org_label n p x = Ok y ds -> wf y /\ outcome (SOrg n ops p) x y.
  Proof.
    intros W H. unfold org_label, align in H. destruct (Nat.eqb n 0) eqn:E0.
    { apply Nat.eqb_eq in E0. inversion H; subst. split; [exact W|]. left. split; [reflexivity|].
      intros m e Hm D. inversion D; subst; congruence. }
    apply Nat.eqb_neq in E0. destruct (symbol_defined n x) eqn:Ed.
    { inversion H; subst. split; [exact W|]. left. split; [reflexivity|].
      intros m e Hm D. inversion D; subst. apply symbol_defined_spec in Ed. exact (undefined_not _ _ Hm Ed). }
    destruct (labelled_ok _ _ _ _ _ _ _ W H) as (Wz & Hu & i & j & l & Hn & ->). split; [exact Wz|]. right.
    eexists n, _. split; [exact Hu|]. split; [eapply D_org; eauto|]. cbn [added syms]. rewrite use_syms. reflexivity.
  Qed.
  Lemma org_label_never n p x : wf x -> org_label n p x <> Throws.
  Proof.
    intros W H. unfold org_label, align in H. destruct (Nat.eqb n 0); [discriminate|].
    destruct (symbol_defined n x) eqn:Ed; [discriminate|]. apply labelled_throws in H; [|exact W].
    apply symbol_defined_spec in H. congruence.
  Qed.
  Lemma org_rest_ok ops x d1 y ds : wf x -> org_rest ops x d1 = Ok y ds -> wf y /\ syms y = syms x.
  Proof.
    intros W H. unfold org_rest in H. destruct (org_loop 0 ops x None 0 0) as [[e|] b o dl|dl].
    - destruct (if x_parts e then x_unres e else match x_val e with VReloc a => Some a | _ => None end) as [a|]; [|discriminate].
      unfold align in H. destruct (address_in here (use no_align x)) as [h|]; [|discriminate].
      destruct (org_check a h b o); inversion H; subst.
      + split; [apply wf_use; exact W|apply use_syms].
      + split; [apply wf_use, wf_use; exact W|]. rewrite !use_syms. reflexivity.
    - inversion H; subst. split; [apply wf_use; exact W|apply use_syms].
    - inversion H; subst. auto.
  Qed.

  Theorem proc_ok s x y ds : wf x -> proc s x = Ok y ds -> wf y /\ outcome s x y.
  Proof.
    intros W H. destruct s as [k n p|n p|b n ops p|n len al re p|n b a al re p|n ops p|n p|]; cbn [Sect_Model.proc] in H.
    - eapply proc_sect_ok; eauto.
    - eapply proc_loctr_ok; eauto.
    - destruct (proc_equ_ok _ _ _ _ _ _ _ H) as (Hs & Hc & Ho). split; [|exact Ho]. destruct Ho as [[Hsy _]|(m & e & Hm & _ & Hsy)].
      + destruct x as [s1 c1 m1], y as [s2 c2 m2]. cbn in *. subst. exact W.
      + pose proof (wf_added m e x W Hm) as Wa. unfold added in Wa. rewrite <- Hs, <- Hc, <- Hsy in Wa. destruct y; exact Wa.
    - eapply proc_mach_ok; eauto.
    - eapply proc_data_ok; eauto.
    - rewrite proc_org_split in H. destruct (org_label n p x) as [z dz|] eqn:El; [|discriminate].
      destruct (org_label_ok n ops p x z dz W El) as [Wz Oz]. destruct (org_rest_ok _ _ _ _ _ Wz H) as [Wy Hy].
      split; [exact Wy|]. unfold outcome in *. rewrite Hy. exact Oz.
    - eapply proc_extrn_ok; eauto.
    - inversion H; subst. split; [exact W|]. left. split; [reflexivity|]. intros n e _ D. inversion D.
  Qed.
End Run.
