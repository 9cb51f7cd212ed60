(** Sections, counters and symbols: what is reported, what interrupts, where statements lead. *)
From Coq Require Import ZArith Bool Arith List Lia.
From Verif Require Import Sect_Model Sect_Spec Sect_Proof Sect_Run Sect_Org Sect_Frame.
Import ListNotations.

Section Diag.
  Variable L : Type.
  Variable fresh : bool -> L.
  Variable A : Type.
  Variable here : nat -> nat -> L -> A.
  Variable cycle : st L A -> bool.
  Variable dep_cycle : name -> st L A -> bool.
  Variable org_check : A -> A -> Z -> Z -> option nat.
  Variable org_to : A -> Z -> Z -> bool -> L -> L.
  Variable org_max : Z -> Z -> L -> L.
  Variable no_align : L -> L.
  Variable late_value : st L A -> name -> value A.
  Variable late_length : st L A -> name -> option Z.
  Notation st := (st L A).
  Notation entry := (entry A).
  Notation counter := (counter L A).
  Notation current := (current L A).
  Notation defined := (defined L A).
  Notation has_section := (has_section L A).
  Notation has_ctr := (has_ctr L A).
  Notation next_at := (next_at L fresh A).
  Notation wf := (wf L fresh A here).
  Notation later := (later A).
  Notation shape := (shape L).
  Notation defines := (defines L fresh A here no_align).
  Notation redefines := (redefines L A).
  Notation proc := (proc fresh here cycle dep_cycle org_check org_to org_max no_align).
  Notation step := (step fresh here cycle dep_cycle org_check org_to org_max no_align late_value late_length).
  Notation run := (run fresh here cycle dep_cycle org_check org_to org_max no_align late_value late_length).
  Notation use := (use fresh).
  Notation ensure := (ensure fresh).
  Notation asked := (asked fresh no_align).
  Notation settle := (settle late_value late_length).
  Notation added := (added L A).
  Implicit Types x : st.


  (** ** Redefinitions *)
  Lemma create_no_E031 n v a p x ds y ds' : create cycle n v a p x ds = Ok y ds' -> (In E031 ds' <-> In E031 ds).
  Proof.
    intros H. apply create_ok in H. destruct H as (_ & _ & ->). rewrite in_app_iff. split; [|auto].
    intros [H|H]; [exact H|]. destruct v; [destruct H|destruct H|]. destruct (cycle y); cbn in H; intuition discriminate.
  Qed.
  Lemma define_at_no_E031 n a p o x y ds : define_at cycle n a p o x = Ok y ds -> ~ In E031 ds.
  Proof.
    intros H. destruct o as [v|]; [|discriminate]. cbn [define_at] in H. apply create_no_E031 in H. rewrite H. auto.
  Qed.
  Lemma loop_no_E031 ops x : match org_loop 0 ops x None 0 0 with Left _ _ _ ds | Returned ds => ~ In E031 ds end.
  Proof.
    destruct (org_loop_reads L A ops x) as [i _|b o _ _ _|i b o _ _ _].
    - intros [H|[]]. destruct i as [|[|i]]; discriminate.
    - auto.
    - intros [H|[]]. destruct i; discriminate.
  Qed.
  Lemma org_rest_E031 ops x d1 y ds : org_rest L fresh A here org_check org_to org_max no_align ops x d1 = Ok y ds -> (In E031 ds <-> In E031 d1).
  Proof.
    intros H. unfold org_rest in H. pose proof (loop_no_E031 ops x) as N. destruct (org_loop 0 ops x None 0 0) as [[e|] b o dl|dl].
    - destruct (if x_parts e then x_unres e else match x_val e with VReloc a => Some a | _ => None end) as [a|]; [|discriminate].
      unfold align in H. destruct (address_in here (use no_align x)) as [h|]; [|discriminate].
      destruct (org_check a h b o); inversion H; subst; rewrite !in_app_iff; cbn; intuition discriminate.
    - inversion H; subst. rewrite in_app_iff. tauto.
    - inversion H; subst. rewrite in_app_iff. tauto.
  Qed.
  Lemma attr_no_E031 o hi bad x r ds : bad <> E031 -> attr_operand (L:=L) (A:=A) o hi bad x = (r, ds) -> ~ In E031 ds.
  Proof.
    intros Hb H. destruct (attr_operand_spec _ _ _ _ _ _ _ _ H) as [_ [[-> _]|[-> _]]]; cbn; intuition.
  Qed.
  Lemma andb_redefined n k x : symbol_defined n x && negb (section_defined n k x) = true <-> defined x n /\ ~ has_section x n k.
  Proof.
    rewrite andb_true_iff, negb_true_iff, <- symbol_defined_spec. rewrite <- section_defined_spec.
    destruct (section_defined n k x); intuition congruence.
  Qed.
  Theorem proc_E031 s x y ds : wf x -> proc s x = Ok y ds -> (In E031 ds <-> redefines s x).
  Proof.
    intros W H. destruct s as [k n p|n p|b n ops p|n len al re p|n b a al re p|n ops p|n p|]; cbn [Sect_Model.proc Sect_Spec.redefines] in H |- *.
    - unfold proc_sect in H. rewrite <- andb_redefined. destruct (symbol_defined n x && negb (section_defined n k x)).
      + inversion H; subst. cbn. tauto.
      + destruct (set_section fresh here n k p x); inversion H; subst. cbn. intuition discriminate.
    - unfold proc_loctr in H. rewrite <- symbol_defined_spec, <- (has_ctr_spec L fresh A). rewrite set_loc_ensure in H.
      assert (Hd : ~ In E031 (if Nat.eqb n 0 then [E053] else [])) by (destruct (Nat.eqb n 0); cbn; intuition discriminate).
      destruct (symbol_defined n x), (counter_defined fresh n x);
        repeat match goal with H : match ?t with _ => _ end = Ok _ _ |- _ => destruct t; [|discriminate] end; inversion H; subst;
        rewrite ?in_app_iff; cbn; intuition discriminate.
    - rewrite <- symbol_defined_spec. unfold proc_equ in H. destruct (Nat.eqb_spec n 0) as [->|Hn].
      { inversion H; subst. destruct b; cbn; intuition discriminate. }
      destruct (symbol_defined n x) eqn:Ed; [inversion H; subst; cbn; intuition|].
      destruct (attr_operand (nth_error ops 2) 255 A134 x) as [t d1] eqn:E2.
      destruct (attr_operand (nth_error ops 1) 65535 A133 x) as [l d2] eqn:E1.
      pose proof (attr_no_E031 _ _ A134 _ _ _ ltac:(discriminate) E2) as N2. pose proof (attr_no_E031 _ _ A133 _ _ _ ltac:(discriminate) E1) as N1.
      assert (N : ~ In E031 (d1 ++ d2)) by (rewrite in_app_iff; tauto).
      assert (G : ~ In E031 ds); [|intuition discriminate].
      destruct (nth_error ops 0) as [[| |f]|]; try (inversion H; subst; exact N).
      destruct (negb (x_pending (f x))); [apply create_no_E031 in H; tauto|].
      destruct (negb (x_is_addr (f x))).
      + destruct (create cycle n VUndef _ p x (d1 ++ d2)) as [z dz|] eqn:Ec; [|discriminate]. apply create_no_E031 in Ec.
        inversion H; subst. rewrite in_app_iff. destruct (dep_cycle n y); cbn; intuition discriminate.
      + destruct (x_unres (f x)); [apply create_no_E031 in H; tauto|discriminate].
    - rewrite <- symbol_defined_spec. unfold proc_mach, align in H. destruct (Nat.eqb_spec n 0) as [->|Hn].
      { inversion H; subst. cbn. intuition. }
      destruct (symbol_defined n x); [inversion H; subst; cbn; intuition|].
      destruct (define_at cycle n (machine_attrs len) p (address_in here (use al x)) (use al x)) as [z dz|] eqn:Ez; [|discriminate].
      inversion H; subst. apply define_at_no_E031 in Ez. intuition discriminate.
    - unfold proc_data, align in H. destruct (Nat.eqb_spec n 0) as [->|Hn].
      { inversion H; subst. cbn. intuition. }
      destruct b; cbn [negb andb] in H; [|inversion H; subst; cbn; intuition discriminate].
      destruct (symbol_defined n (use al x)) eqn:Ed.
      { inversion H; subst. apply symbol_defined_spec in Ed. apply (proj1 (defined_use L fresh A _ _ _)) in Ed. cbn. intuition. }
      destruct (define_at cycle n a p (address_in here (use al x)) (use al x)) as [z dz|] eqn:Ez; [|discriminate].
      inversion H; subst. apply define_at_no_E031 in Ez. split; [contradiction|]. intros (_ & _ & Hd).
      apply (proj2 (defined_use L fresh A al x n)) in Hd. apply symbol_defined_spec in Hd. congruence.
    - rewrite proc_org_split in H. destruct (org_label L fresh A here cycle no_align n p x) as [z dz|] eqn:El; [|discriminate].
      rewrite (org_rest_E031 _ _ _ _ _ H). rewrite <- symbol_defined_spec. unfold org_label, align in El. destruct (Nat.eqb_spec n 0) as [->|Hn].
      { inversion El; subst. cbn. intuition. }
      destruct (symbol_defined n x); [inversion El; subst; cbn; intuition|].
      apply define_at_no_E031 in El. intuition discriminate.
    - unfold proc_extrn, align in H. destruct n as [|[m|] ns]; [inversion H; subst; cbn; tauto| |inversion H; subst; cbn; tauto].
      apply define_at_no_E031 in H. tauto.
    - inversion H; subst. cbn. tauto.
  Qed.
  Definition reported (r : result L A) : result L A := match r with Ok y ds => Ok y (E031 :: ds) | Throws => Throws end.
  Theorem proc_redefines s x : redefines s x ->
    match s with
    | SSect _ _ _ | SEqu _ _ _ _ => proc s x = Ok x [E031]
    | SLoctr n _ => proc s x = Ok (ensure x) ((if Nat.eqb n 0 then [E053] else []) ++ [E031])
    | _ => proc s x = reported (proc (unlabelled L A s) x)
    end.
  Proof.
    intros H. destruct s as [k n p|n p|b n ops p|n len al re p|n b a al re p|n ops p|n p|];
      cbn [Sect_Model.proc Sect_Spec.redefines unlabelled] in H |- *; try tauto.
    - apply andb_redefined in H. unfold proc_sect. rewrite H. reflexivity.
    - destruct H as [Hd Hc]. unfold proc_loctr. apply symbol_defined_spec in Hd. rewrite Hd.
      destruct (counter_defined fresh n x) eqn:E; [|reflexivity]. exfalso. apply Hc. apply (has_ctr_spec L fresh A). exact E.
    - destruct H as [Hn Hd]. unfold proc_equ. apply Nat.eqb_neq in Hn. rewrite Hn. apply symbol_defined_spec in Hd. rewrite Hd. reflexivity.
    - destruct H as [Hn Hd]. unfold proc_mach. apply Nat.eqb_neq in Hn. rewrite Hn. apply symbol_defined_spec in Hd. rewrite Hd. reflexivity.
    - destruct H as (Hn & -> & Hd). unfold proc_data, align. apply Nat.eqb_neq in Hn. rewrite Hn. cbn [negb andb Nat.eqb].
      apply (proj2 (defined_use L fresh A al x n)) in Hd. apply symbol_defined_spec in Hd. rewrite Hd. reflexivity.
    - destruct H as [Hn Hd]. rewrite !proc_org_split. unfold org_label. apply Nat.eqb_neq in Hn. rewrite Hn. apply symbol_defined_spec in Hd. rewrite Hd.
      cbn [Nat.eqb]. unfold org_rest. destruct (org_loop 0 ops x None 0 0) as [[e|] bb o dl|dl]; try reflexivity.
      destruct (if x_parts e then x_unres e else match x_val e with VReloc a => Some a | _ => None end) as [a|]; [|reflexivity].
      unfold align. destruct (address_in here (use no_align x)) as [h|]; [|reflexivity].
      destruct (org_check a h bb o); reflexivity.
  Qed.

  (** ** ORG *)
  Lemma parts_spec (e : expr A) : x_parts e = true <-> x_syms e = true \/ x_refs e = true.
  Proof. unfold x_parts. apply orb_true_iff. Qed.
  Definition chosen (e : expr A) : option A := if x_parts e then x_unres e else match x_val e with VReloc a => Some a | _ => None end.
  Lemma chosen_spec e a : chosen e = Some a <-> target A e a.
  Proof.
    unfold chosen, target. destruct (x_parts e) eqn:E.
    - apply parts_spec in E. split; [intros H; left; auto|]. intros [[_ H]|(H1 & H2 & _)]; [exact H|]. destruct E; congruence.
    - unfold x_parts in E. apply orb_false_iff in E. destruct E as [E1 E2]. split.
      + intros H. right. destruct (x_val e); try discriminate. inversion H; subst. auto.
      + intros [[[H|H] _]|(_ & _ & ->)]; congruence.
  Qed.
  Lemma org_rest_throws ops x d : wf x ->
    (org_rest L fresh A here org_check org_to org_max no_align ops x d = Throws <->
     exists f, nth_error ops 0 = Some (OExpr f) /\ x_unres (f x) <> None /\ (forall a, ~ target A (f x) a)
       /\ forall i, ~ wrong_at L A ops x i).
  Proof.
    intros W. destruct (next_at_ex L fresh A here x W) as (hi & hj & hl & Hn).
    assert (Hfirst : forall e b o ds, (match chosen e with
        | None => Throws
        | Some a => let '(y, h) := align fresh here no_align x in
            match h with
            | None => Throws
            | Some h => match org_check a h b o with
                | Some q => Ok y (d ++ ds ++ [Other q])
                | None => Ok (use (org_to a b o (x_parts e)) y) (d ++ ds)
                end
            end
        end = Throws) <-> forall a, ~ target A e a).
    { intros e b o ds. unfold align. rewrite (address_use L fresh A here _ _ _ _ _ Hn). destruct (chosen e) as [a|] eqn:E.
      - apply chosen_spec in E. split; [destruct (org_check a (here hi hj (no_align hl)) b o); discriminate|]. intros H. destruct (H a E).
      - split; [|reflexivity]. intros _ a Ha. apply chosen_spec in Ha. congruence. }
    unfold org_rest. destruct (org_loop_reads L A ops x) as [i Hi|b o Ha Hb Ho|i b o Hi Hb Ho].
    - split; [discriminate|]. intros (f & _ & _ & _ & H). destruct (H i Hi).
    - destruct (nth_error ops 0) as [[| |f]|] eqn:E0; cbn [first_of].
      + split; [discriminate|]. intros (f & E & _). discriminate.
      + split; [discriminate|]. intros (f & E & _). discriminate.
      + fold (chosen (f x)). rewrite Hfirst. split.
        * intros H. exists f. split; [reflexivity|]. split; [|split; [exact H|]].
          -- destruct (Ha 0 _ E0) as [H0|(g & H0 & Hr)]; [discriminate|]. inversion H0; subst g. exact Hr.
          -- intros i Hi. exact (stops_not_all L A _ _ _ (wrong_stops L A _ _ _ Hi) Ha).
        * intros (g & E & _ & H & _). inversion E; subst g. exact H.
      + split; [discriminate|]. intros (f & E & _). discriminate.
    - assert (Hnw : forall j, ~ wrong_at L A ops x j) by (intros j Hj; exact (wrong_not_cut L A _ _ _ _ Hj Hi)).
      assert (H0 : forall f, nth_error (firstn i ops) 0 = Some (OExpr f) <-> nth_error ops 0 = Some (OExpr f)).
      { intros f. destruct i as [|i], ops as [|o0 ops]; cbn; try tauto.
        - destruct Hi as [Hi _]. cbn in Hi. split; [discriminate|congruence]. }
      destruct (nth_error (firstn i ops) 0) as [[| |f]|] eqn:E0; cbn [first_of].
      + split; [discriminate|]. intros (f & E & _). apply H0 in E. congruence.
      + split; [discriminate|]. intros (f & E & _). apply H0 in E. congruence.
      + fold (chosen (f x)). rewrite Hfirst. split.
        * intros H. exists f. split; [apply H0; reflexivity|]. split; [|split; [exact H|exact Hnw]].
          destruct Hi as [_ Hr]. destruct (Hr 0 _ E0) as [H1|(g & H1 & Hg)]; [discriminate|]. inversion H1; subst g. exact Hg.
        * intros (g & E & _ & H & _). apply H0 in E. inversion E; subst g. exact H.
      + split; [discriminate|]. intros (f & E & _). apply H0 in E. congruence.
  Qed.

  (** ** Interruptions *)
  Theorem proc_throws s x : wf x ->
    (proc s x = Throws <->
     match s with
     | SExtrn (Some n :: _) _ => defined x n
     | SOrg n ops p => exists y d f, org_label L fresh A here cycle no_align n p x = Ok y d /\ nth_error ops 0 = Some (OExpr f)
         /\ x_unres (f y) <> None /\ (forall a, ~ target A (f y) a) /\ forall i, ~ wrong_at L A ops y i
     | _ => False
     end).
  Proof.
    intros W. destruct s as [k n p|n p|b n ops p|n len al re p|n b a al re p|n ops p|ns p|]; cbn [Sect_Model.proc].
    - split; [|tauto]. apply proc_sect_never.
    - split; [|tauto]. apply proc_loctr_never. exact W.
    - split; [|tauto]. intros H. exact (proc_equ_never L A cycle dep_cycle _ _ _ _ _ H).
    - split; [|tauto]. apply proc_mach_never. exact W.
    - split; [|tauto]. apply proc_data_never. exact W.
    - rewrite proc_org_split. destruct (org_label L fresh A here cycle no_align n p x) as [z dz|] eqn:El.
      + destruct (org_label_ok L fresh A here cycle no_align n ops p x z dz W El) as [Wz _]. rewrite org_rest_throws by exact Wz. split.
        * intros (f & H). exists z, dz, f. auto.
        * intros (y & d & f & E & H). inversion E; subst. eauto.
      + destruct (org_label_never L fresh A here cycle no_align n p x W El).
    - rewrite proc_extrn_throws by exact W. destruct ns as [|[m|] ns].
      + split; [|tauto]. intros (m & r & E & _). discriminate.
      + split; [intros (m' & r & E & H); inversion E; subst; exact H|eauto].
      + split; [|tauto]. intros (m & r & E & _). discriminate.
    - split; [discriminate|tauto].
  Qed.

  (** ** Switching *)
  Theorem sect_switches k n p x y ds : proc (SSect k n p) x = Ok y ds -> ~ In E031 ds ->
    exists i s, cur y = Some i /\ nth_error (secs y) i = Some s /\ s_name s = n /\ s_kind s = k
      /\ (nth_error (secs x) i = Some s \/ (i = length (secs x) /\ ~ has_section x n k /\ s = mkS n k [mkC n (fresh true)] 0)).
  Proof.
    cbn [Sect_Model.proc]. unfold proc_sect. intros H Hn. destruct (symbol_defined n x && negb (section_defined n k x)).
    { inversion H; subst. exfalso. apply Hn. left. reflexivity. }
    unfold set_section in H. destruct (index (is_section n k) (secs x)) as [i|] eqn:E.
    - inversion H; subst. destruct (index_some _ _ _ E) as (s & Hs & Hp). exists i, s. cbn [cur secs]. split; [reflexivity|]. split; [exact Hs|].
      unfold is_section in Hp. apply andb_true_iff in Hp. destruct Hp as [H1 H2]. apply Nat.eqb_eq in H1. apply (proj1 (skind_eqb_eq _ _)) in H2. auto.
    - destruct (symbol_defined n x); [discriminate|]. inversion H; subst. exists (length (secs x)), (new_section fresh n k). cbn [cur secs].
      split; [reflexivity|]. split; [apply nth_app_new|]. split; [reflexivity|]. split; [reflexivity|]. right. split; [reflexivity|]. split; [|reflexivity].
      intros (s & Hs & H1 & H2). pose proof (index_none _ _ E s Hs) as Hf. unfold is_section in Hf. rewrite H1, H2, Nat.eqb_refl in Hf.
      destruct k; discriminate.
  Qed.
  Theorem loctr_switches n p x y ds : wf x -> proc (SLoctr n p) x = Ok y ds -> ~ In E031 ds ->
    exists i j c, current y i j /\ counter y i j c /\ c_name c = n
      /\ (counter x i j c \/ (~ has_ctr x n /\ c_at c = fresh false) \/ (cur x = None /\ n = 0 /\ c_at c = fresh true)).
  Proof.
    intros W H Hn. cbn [Sect_Model.proc] in H. unfold proc_loctr in H. rewrite set_loc_ensure in H.
    assert (Hs : set_location_counter fresh here n p x = Some y).
    { destruct (symbol_defined n x).
      - destruct (counter_defined fresh n x).
        + destruct (set_location_counter fresh here n p x); [|discriminate]. inversion H; subst. reflexivity.
        + inversion H; subst. exfalso. apply Hn. apply in_or_app. right. left. reflexivity.
      - destruct (set_location_counter fresh here n p x); [|discriminate]. inversion H; subst. reflexivity. }
    destruct (set_location_counter_cases L fresh A here n p x y W Hs) as [(i & s & j & c & Hs' & Hj & Hc & Hset & ->)|(i & s & Hc & Hs' & Hall & Hu & Hset & ->)].
    - exists i, j, c.
      assert (Hnth : nth_error (upd (secs (ensure x)) i (set_counter fresh n)) i = Some (mkS (s_name s) (s_kind s) (s_ctrs s) j)).
      { rewrite nth_upd, Nat.eqb_refl, Hs'. cbn. rewrite Hset. reflexivity. }
      split; [eexists; split; [reflexivity|]; split; [exact Hnth|reflexivity]|].
      split; [eexists; split; [exact Hnth|exact Hj]|]. split; [exact Hc|].
      unfold Sect_Model.ensure in Hs'. destruct (cur x) eqn:Ec.
      + left. exists s. auto.
      + cbn [secs] in Hs'. apply nth_app_one in Hs'. destruct Hs' as [Hs'|[-> ->]]; [left; exists s; auto|].
        right. right. destruct j as [|[|j]]; cbn in Hj; try discriminate. inversion Hj; subst c. cbn in Hc |- *. auto.
    - exists i, (length (s_ctrs s)), (mkC n (fresh false)).
      assert (Hnth : nth_error (upd (secs (ensure x)) i (set_counter fresh n)) i
                     = Some (mkS (s_name s) (s_kind s) (s_ctrs s ++ [mkC n (fresh false)]) (length (s_ctrs s)))).
      { rewrite nth_upd, Nat.eqb_refl, Hs'. cbn. rewrite Hset. reflexivity. }
      split; [eexists; split; [reflexivity|]; split; [exact Hnth|reflexivity]|].
      split; [eexists; split; [exact Hnth|apply nth_app_new]|]. split; [reflexivity|]. right. left. split; [|reflexivity].
      intros Hh. apply (proj2 (has_ctr_spec L fresh A n x)) in Hh. unfold counter_defined in Hh. apply existsb_exists in Hh.
      destruct Hh as (t & Ht & Hp). rewrite (Hall t Ht) in Hp. discriminate.
  Qed.
End Diag.
