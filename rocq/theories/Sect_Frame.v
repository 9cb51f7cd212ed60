(** What a statement leaves alone; runs; reports and interruptions. *)
From Coq Require Import ZArith Bool Arith List Lia.
From Verif Require Import Sect_Model Sect_Spec Sect_Proof Sect_Run Sect_Org.
Import ListNotations.

Section Frame.
  Variable L : Type.
  Variable fresh : bool -> L.
  Variable A : Type.
  Variable here : nat -> nat -> L -> A.
  Variable cycle : st L A -> bool.
  Variable dep_cycle : name -> st L A -> bool.
  Variable org_check : A -> A -> Z -> Z -> option nat.
  Variable org_to : A -> Z -> Z -> bool -> L -> L.
  Variable org_max : Z -> Z -> L -> L.
  Variable no_align : L -> L.
  Variable late_value : st L A -> name -> value A.
  Variable late_length : st L A -> name -> option Z.
  Notation st := (st L A).
  Notation entry := (entry A).
  Notation counter := (counter L A).
  Notation current := (current L A).
  Notation defined := (defined L A).
  Notation has_section := (has_section L A).
  Notation has_ctr := (has_ctr L A).
  Notation next_at := (next_at L fresh A).
  Notation wf := (wf L fresh A here).
  Notation later := (later A).
  Notation shape := (shape L).
  Notation defines := (defines L fresh A here no_align).
  Notation redefines := (redefines L A).
  Notation proc := (proc fresh here cycle dep_cycle org_check org_to org_max no_align).
  Notation step := (step fresh here cycle dep_cycle org_check org_to org_max no_align late_value late_length).
  Notation run := (run fresh here cycle dep_cycle org_check org_to org_max no_align late_value late_length).
  Notation use := (use fresh).
  Notation ensure := (ensure fresh).
  Notation asked := (asked fresh no_align).
  Notation settle := (settle late_value late_length).
  Notation added := (added L A).
  Implicit Types x : st.

  (** ** What stays *)
  Definition kept x (y : st) : Prop :=
    forall i s, nth_error (secs x) i = Some s -> exists s', nth_error (secs y) i = Some s' /\ shape s s'
         /\ (cur x <> Some i -> s' = s)
         /\ (forall j c, nth_error (s_ctrs s) j = Some c -> j <> s_cur s -> nth_error (s_ctrs s') j = Some c).
  Definition keeps x (y : st) : Prop := (forall i, cur x = Some i -> cur y = Some i) /\ kept x y.
  Lemma keeps_same x (y : st) : secs y = secs x -> cur y = cur x -> keeps x y.
  Proof.
    intros Hs Hc. split; [intros i; congruence|]. intros i s H. exists s. rewrite Hs. split; [exact H|]. split; [apply shape_refl|]. auto.
  Qed.
  Lemma shape_trans s s' s'' : shape s s' -> shape s' s'' -> shape s s''.
  Proof. unfold Sect_Proof.shape. intuition congruence. Qed.
  Lemma keeps_trans x (y z : st) : wf x -> keeps x y -> keeps y z -> keeps x z.
  Proof.
    intros W [Hc H] [Gc G]. split; [auto|]. intros i s Hs. destruct (H i s Hs) as (s' & Hs' & Sh & He & Hj).
    destruct (G i s' Hs') as (s'' & Hs'' & Sh' & Ge & Gj). exists s''. split; [exact Hs''|]. split; [eapply shape_trans; eauto|].
    split.
    - intros Hne. rewrite <- (He Hne). apply Ge. destruct (cur x) as [k|] eqn:E.
      + rewrite (Hc k eq_refl). exact Hne.
      + exfalso. rewrite (w_none _ _ _ _ _ W E) in Hs. destruct i; discriminate.
    - intros j c Hcj Hne. apply Gj; [apply Hj; assumption|]. destruct Sh as (_ & _ & -> & _). exact Hne.
  Qed.
  Lemma keeps_use f x : wf x -> keeps x (use f x).
  Proof.
    intros W. destruct (cur x) as [k|] eqn:E.
    - assert (He : ensure x = x) by (eapply ensure_some; eauto).
      pose proof (use_shaped L fresh A f x) as Sh. rewrite He in Sh. split.
      + intros i Hi. rewrite use_cur, He. congruence.
      + intros i s Hs. destruct (shaped_fwd _ _ _ _ _ _ Sh Hs) as (s' & Hs' & Hsh). exists s'. split; [exact Hs'|]. split; [exact Hsh|].
        unfold Sect_Model.use in Hs'. rewrite He, E in Hs'. cbn [secs] in Hs'. rewrite nth_upd, Hs in Hs'. split.
        * intros Hne. destruct (Nat.eqb_spec k i); [congruence|]. congruence.
        * intros j c Hj Hne. destruct (Nat.eqb k i); [|congruence]. cbn [option_map] in Hs'. inversion Hs'; subst s'. cbn [s_ctrs].
          rewrite nth_upd. destruct (Nat.eqb_spec (s_cur s) j); [congruence|exact Hj].
    - split; [intros i Hi; congruence|]. intros i s Hs. rewrite (w_none _ _ _ _ _ W E) in Hs. destruct i; discriminate.
  Qed.
  Lemma keeps_added n e x : keeps x (added n e x).
  Proof. apply keeps_same; reflexivity. Qed.
  Definition switches (s : stmt L A) : bool := match s with SSect _ _ _ | SLoctr _ _ => true | _ => false end.
  Lemma labelled_keeps n a p f x y ds : wf x -> define_at cycle n a p (address_in here (use f x)) (use f x) = Ok y ds -> wf y /\ keeps x y.
  Proof.
    intros W H. destruct (labelled_ok L fresh A here cycle _ _ _ _ _ _ _ W H) as (Wy & _ & i & j & l & _ & Hy). split; [exact Wy|].
    subst y. eapply keeps_trans; [exact W|apply keeps_use; exact W|apply keeps_added].
  Qed.
  Lemma keeps_then f x (y : st) : wf x -> wf y -> keeps x y -> keeps x (use f y).
  Proof. intros W Wy H. eapply keeps_trans; [exact W|exact H|apply keeps_use; exact Wy]. Qed.
  Lemma keeps_refl x : keeps x x.
  Proof. apply keeps_same; reflexivity. Qed.
  Lemma proc_keeps s x y ds : wf x -> switches s = false -> proc s x = Ok y ds -> keeps x y.
  Proof.
    intros W Hs H. destruct s as [k n p|n p|b n ops p|n len al re p|n b a al re p|n ops p|n p|]; cbn [Sect_Model.proc switches] in H, Hs; try discriminate.
    - destruct (proc_equ_ok L fresh A here cycle dep_cycle no_align _ _ _ _ _ _ _ H) as (H1 & H2 & _). apply keeps_same; assumption.
    - unfold proc_mach, align in H. destruct (Nat.eqb n 0); [inversion H; subst; apply keeps_use; exact W|].
      destruct (symbol_defined n x); [inversion H; subst; apply keeps_use; exact W|].
      destruct (define_at cycle n (machine_attrs len) p (address_in here (use al x)) (use al x)) as [z dz|] eqn:Ez; [|discriminate].
      inversion H; subst. destruct (labelled_keeps _ _ _ _ _ _ _ W Ez) as [Wz Kz]. apply keeps_then; assumption.
    - unfold proc_data, align in H.
      assert (Hu : keeps x (use re (use al x))) by (apply keeps_then; [exact W|apply wf_use; exact W|apply keeps_use; exact W]).
      destruct (negb (Nat.eqb n 0) && b); [|inversion H; subst; exact Hu].
      destruct (symbol_defined n (use al x)); [inversion H; subst; exact Hu|].
      destruct (define_at cycle n a p (address_in here (use al x)) (use al x)) as [z dz|] eqn:Ez; [|discriminate].
      inversion H; subst. destruct (labelled_keeps _ _ _ _ _ _ _ W Ez) as [Wz Kz]. apply keeps_then; assumption.
    - rewrite proc_org_split in H. destruct (org_label L fresh A here cycle no_align n p x) as [z dz|] eqn:El; [|discriminate].
      assert (Hz : wf z /\ keeps x z).
      { unfold org_label, align in El. destruct (Nat.eqb n 0); [inversion El; subst; split; [exact W|apply keeps_refl]|].
        destruct (symbol_defined n x); [inversion El; subst; split; [exact W|apply keeps_refl]|].
        eapply labelled_keeps; eauto. }
      destruct Hz as [Wz Kz]. unfold org_rest in H. destruct (org_loop 0 ops z None 0 0) as [[e|] b o dl|dl].
      + destruct (if x_parts e then x_unres e else match x_val e with VReloc a => Some a | _ => None end) as [a|]; [|discriminate].
        unfold align in H. destruct (address_in here (use no_align z)) as [h|]; [|discriminate].
        destruct (org_check a h b o); inversion H; subst.
        * apply keeps_then; assumption.
        * apply keeps_then; [exact W|apply wf_use; exact Wz|apply keeps_then; assumption].
      + inversion H; subst. apply keeps_then; assumption.
      + inversion H; subst. exact Kz.
    - unfold proc_extrn, align in H. destruct n as [|[m|] ns]; [inversion H; subst; apply keeps_refl| |inversion H; subst; apply keeps_refl]. eapply labelled_keeps; eauto.
    - inversion H; subst. apply keeps_refl.
  Qed.

  (** Statements that change the section or the counter. *)
  Definition moved x (y : st) : Prop :=
    forall i s, nth_error (secs x) i = Some s -> exists s', nth_error (secs y) i = Some s' /\ s_name s' = s_name s /\ s_kind s' = s_kind s
      /\ (exists r, s_ctrs s' = s_ctrs s ++ r) /\ (cur y <> Some i -> s' = s).
  Lemma moved_same x (y : st) : secs y = secs x -> moved x y.
  Proof. intros H i s Hs. exists s. rewrite H. split; [exact Hs|]. repeat split. exists []. rewrite app_nil_r. reflexivity. Qed.
  Lemma moved_app x (y : st) r : secs y = secs x ++ r -> moved x y.
  Proof.
    intros H i s Hs. exists s. rewrite H. split; [apply nth_app_old; exact Hs|]. repeat split. exists []. rewrite app_nil_r. reflexivity.
  Qed.
  Lemma moved_ensure x : moved x (ensure x).
  Proof. unfold Sect_Model.ensure. destruct (cur x); [apply moved_same; reflexivity|]. eapply moved_app. reflexivity. Qed.
  Lemma moved_loctr n p x y : wf x -> set_location_counter fresh here n p x = Some y -> moved x y.
  Proof.
    intros W H.
    assert (Hin : forall i s, nth_error (secs x) i = Some s -> nth_error (secs (ensure x)) i = Some s).
    { intros i s Hs. unfold Sect_Model.ensure. destruct (cur x); [exact Hs|]. apply nth_app_old. exact Hs. }
    destruct (set_location_counter_cases L fresh A here n p x y W H) as [(i & s & j & c & Hs & Hj & Hn & Hset & ->)|(i & s & Hc & Hs & Hall & Hu & Hset & ->)];
      intros k t Ht; cbn [secs cur]; rewrite nth_upd, (Hin _ _ Ht); destruct (Nat.eqb_spec i k) as [->|Hne]; cbn [option_map].
    - assert (t = s) by (apply Hin in Ht; congruence). subst t. rewrite Hset. eexists. split; [reflexivity|]. cbn. repeat split.
      + exists []. rewrite app_nil_r. reflexivity.
      + congruence.
    - exists t. repeat split. exists []. rewrite app_nil_r. reflexivity.
    - assert (t = s) by (apply Hin in Ht; congruence). subst t. rewrite Hset. eexists. split; [reflexivity|]. cbn. repeat split.
      + eexists. reflexivity.
      + congruence.
    - exists t. repeat split. exists []. rewrite app_nil_r. reflexivity.
  Qed.
  Lemma proc_moved s x y ds : wf x -> switches s = true -> proc s x = Ok y ds -> moved x y.
  Proof.
    intros W Hs H. destruct s as [k n p|n p|b n ops p|n len al re p|n b a al re p|n ops p|n p|]; cbn [Sect_Model.proc switches] in H, Hs; try discriminate.
    - unfold proc_sect in H. destruct (symbol_defined n x && negb (section_defined n k x)); [inversion H; subst; apply moved_same; reflexivity|].
      unfold set_section in H. destruct (index (is_section n k) (secs x)); [inversion H; subst; apply moved_same; reflexivity|].
      destruct (symbol_defined n x); [discriminate|]. inversion H; subst. eapply moved_app. reflexivity.
    - unfold proc_loctr in H. rewrite set_loc_ensure in H. destruct (symbol_defined n x).
      + destruct (counter_defined fresh n x).
        * destruct (set_location_counter fresh here n p x) as [z|] eqn:Es; [|discriminate]. inversion H; subst. eapply moved_loctr; eauto.
        * inversion H; subst. apply moved_ensure.
      + destruct (set_location_counter fresh here n p x) as [z|] eqn:Es; [|discriminate]. inversion H; subst. eapply moved_loctr; eauto.
  Qed.

  (** ** One line *)
  Definition framed x (y : st) : Prop :=
    forall i s, nth_error (secs x) i = Some s -> exists s', nth_error (secs y) i = Some s'
      /\ s_name s' = s_name s /\ s_kind s' = s_kind s
      /\ (exists r, map c_name (s_ctrs s') = map c_name (s_ctrs s) ++ r)
      /\ (cur x <> Some i -> cur y <> Some i -> s' = s)
      /\ (forall j c, nth_error (s_ctrs s) j = Some c -> ~ (cur x = Some i /\ s_cur s = j) -> nth_error (s_ctrs s') j = Some c).
  Lemma keeps_framed x y : keeps x y -> framed x y.
  Proof.
    intros [_ H] i s Hs. destruct (H i s Hs) as (s' & Hs' & Sh & He & Hj). exists s'. split; [exact Hs'|].
    destruct Sh as (S1 & S2 & S3 & S4). split; [exact S1|]. split; [exact S2|]. split; [exists []; rewrite app_nil_r; exact S4|].
    split; [auto|]. intros j c Hc Hn. destruct (Nat.eq_dec j (s_cur s)) as [->|Hne].
    - rewrite He; [exact Hc|]. intros E. apply Hn. auto.
    - apply Hj; assumption.
  Qed.
  Lemma keeps_moved x y z : wf x -> keeps x y -> moved y z -> framed x z.
  Proof.
    intros W [Hc H] G i s Hs. destruct (H i s Hs) as (s' & Hs' & (S1 & S2 & S3 & S4) & He & Hj).
    destruct (G i s' Hs') as (s'' & Hs'' & G1 & G2 & (r & G3) & G4). exists s''. split; [exact Hs''|].
    split; [congruence|]. split; [congruence|]. split; [exists (map c_name r); rewrite G3, map_app, S4; reflexivity|].
    split.
    - intros Hx Hz. rewrite <- (He Hx). apply G4. exact Hz.
    - intros j c Hcj Hn. rewrite G3. apply nth_app_old. destruct (Nat.eq_dec j (s_cur s)) as [->|Hne].
      + rewrite He; [exact Hcj|]. intros E. apply Hn. auto.
      + apply Hj; assumption.
  Qed.
  Lemma asked_ok l x : wf x -> wf (asked l x) /\ keeps x (asked l x) /\ syms (asked l x) = syms x.
  Proof.
    intros W. unfold Sect_Model.asked. destruct (l_expr l).
    - split; [apply wf_use; exact W|]. split; [apply keeps_use; exact W|apply use_syms].
    - split; [exact W|]. split; [apply keeps_refl|reflexivity].
  Qed.
  Theorem step_framed l x y ds : wf x -> step l x = Ok y ds -> framed x y.
  Proof.
    intros W H. unfold Sect_Model.step in H. destruct (proc (l_stmt l) (asked l x)) as [z dz|] eqn:E; [|discriminate].
    cbn [after] in H. inversion H; subst. destruct (asked_ok l x W) as (Wa & Ka & _).
    assert (F : framed x z).
    { destruct (switches (l_stmt l)) eqn:Es.
      - eapply keeps_moved; [exact W|exact Ka|]. eapply proc_moved; eauto.
      - apply keeps_framed. eapply keeps_trans; [exact W|exact Ka|]. eapply proc_keeps; eauto. }
    exact F.
  Qed.

  (** ** Symbols *)
  Lemma later_refl e : later e e.
  Proof. unfold Sect_Spec.later. auto 8. Qed.
  Lemma later_trans e e' e'' : later e e' -> later e' e'' -> later e e''.
  Proof.
    intros (H1 & H2 & H3 & H4 & H5) (G1 & G2 & G3 & G4 & G5). split; [congruence|]. split; [congruence|]. split; [congruence|].
    split.
    - destruct H4 as [H4|H4]; [|auto]. destruct G4 as [G4|G4]; [left; congruence|right; congruence].
    - destruct H5 as [H5|H5]; [|auto]. destruct G5 as [G5|G5]; [left; congruence|right; congruence].
  Qed.
  Lemma later_settle x n e : later e (settle_entry late_value late_length x n e).
  Proof.
    unfold settle_entry, Sect_Spec.later. cbn. split; [reflexivity|]. split; [reflexivity|]. split; [reflexivity|]. split.
    - destruct (e_value e); auto.
    - destruct (t_length (e_attrs e)); auto.
  Qed.
  Theorem step_ok l x y ds : wf x -> step l x = Ok y ds ->
    wf y
    /\ (forall n e, find_sym (syms x) n = Some e -> exists e', find_sym (syms y) n = Some e' /\ later e e')
    /\ (forall n e', find_sym (syms x) n = None -> find_sym (syms y) n = Some e' ->
         exists e, defines (l_stmt l) (asked l x) n e /\ later e e')
    /\ (forall n e, find_sym (syms x) n = None -> defines (l_stmt l) (asked l x) n e ->
         exists e', find_sym (syms y) n = Some e' /\ later e e').
  Proof.
    intros W H. unfold Sect_Model.step in H. destruct (proc (l_stmt l) (asked l x)) as [z dz|] eqn:E; [|discriminate].
    cbn [after] in H. inversion H; subst. destruct (asked_ok l x W) as (Wa & _ & Hsy).
    destruct (proc_ok L fresh A here cycle dep_cycle org_check org_to org_max no_align _ _ _ _ Wa E) as [Wz Oz]. split; [apply wf_settle; exact Wz|].
    unfold outcome, no_definition in Oz. rewrite Hsy in Oz. split; [|split].
    - intros n e He. rewrite find_settle. exists (settle_entry late_value late_length z n e). split; [|apply later_settle].
      destruct Oz as [[-> _]|(m & e1 & Hm & _ & ->)]; [rewrite He; reflexivity|]. cbn [find_sym].
      destruct (Nat.eqb_spec m n); [congruence|]. rewrite He. reflexivity.
    - intros n e' Hn He. rewrite find_settle in He. destruct Oz as [[Hz _]|(m & e1 & Hm & D & Hz)]; rewrite Hz in He.
      + rewrite Hn in He. discriminate.
      + cbn [find_sym] in He. destruct (Nat.eqb_spec m n); [|rewrite Hn in He; discriminate]. subst m. cbn [option_map] in He. inversion He; subst e'.
        exists e1. split; [exact D|apply later_settle].
    - intros n e Hn D. rewrite find_settle. destruct Oz as [[_ Hno]|(m & e1 & Hm & D' & Hz)]; [destruct (Hno n e Hn D)|].
      destruct (defines_fun L fresh A here org_check org_to no_align _ _ _ _ _ _ D D') as [<- <-]. rewrite Hz. cbn [find_sym]. rewrite Nat.eqb_refl.
      eexists. split; [reflexivity|apply later_settle].
  Qed.

  (** ** Runs *)
  Lemma run_app a : forall b x, run (a ++ b) x = match run a x with
    | Throws => Throws
    | Ok y d => match run b y with Ok z d' => Ok z (d ++ d') | Throws => Throws end
    end.
  Proof.
    induction a as [|l a IH]; intros b x; cbn [app Sect_Model.run].
    - destruct (run b x); reflexivity.
    - destruct (step l x) as [y d|]; [|reflexivity]. rewrite IH. destruct (run a y) as [z d1|]; [|reflexivity].
      destruct (run b z) as [w d2|]; [|reflexivity]. rewrite app_assoc. reflexivity.
  Qed.
  Lemma run_wf a : forall x y d, wf x -> run a x = Ok y d -> wf y.
  Proof.
    induction a as [|l a IH]; intros x y d W H; cbn [Sect_Model.run] in H; [inversion H; subst; exact W|].
    destruct (step l x) as [z d1|] eqn:E; [|discriminate]. destruct (run a z) as [w d2|] eqn:Er; [|discriminate].
    inversion H; subst. eapply IH; [|exact Er]. eapply step_ok; eauto.
  Qed.
  Theorem run_kept a : forall x y d n e, wf x -> run a x = Ok y d -> find_sym (syms x) n = Some e ->
    exists e', find_sym (syms y) n = Some e' /\ later e e'.
  Proof.
    induction a as [|l a IH]; intros x y d n e W H He; cbn [Sect_Model.run] in H; [inversion H; subst; exists e; split; [exact He|apply later_refl]|].
    destruct (step l x) as [z d1|] eqn:E; [|discriminate]. destruct (run a z) as [w d2|] eqn:Er; [|discriminate].
    inversion H; subst. destruct (step_ok _ _ _ _ W E) as (Wz & Hk & _). destruct (Hk n e He) as (e1 & He1 & L1).
    destruct (IH _ _ _ _ _ Wz Er He1) as (e2 & He2 & L2). exists e2. split; [exact He2|eapply later_trans; eauto].
  Qed.
  Theorem run_from a : forall x y d n e', wf x -> run a x = Ok y d -> find_sym (syms x) n = None -> find_sym (syms y) n = Some e' ->
    exists a1 l a2 z dz e, a = a1 ++ l :: a2 /\ run a1 x = Ok z dz /\ find_sym (syms z) n = None
      /\ defines (l_stmt l) (asked l z) n e /\ later e e'.
  Proof.
    induction a as [|l a IH]; intros x y d n e' W H Hn He; cbn [Sect_Model.run] in H; [inversion H; subst; congruence|].
    destruct (step l x) as [z d1|] eqn:E; [|discriminate]. destruct (run a z) as [w d2|] eqn:Er; [|discriminate].
    inversion H; subst. destruct (step_ok _ _ _ _ W E) as (Wz & Hk & Hnew & _).
    destruct (find_sym (syms z) n) as [e1|] eqn:Ez.
    - destruct (Hnew n e1 Hn Ez) as (e & D & L1). destruct (run_kept _ _ _ _ _ _ Wz Er Ez) as (e2 & He2 & L2).
      exists [], l, a, x, [], e. split; [reflexivity|]. split; [reflexivity|]. split; [exact Hn|]. split; [exact D|].
      assert (e2 = e') by congruence. subst e2. eapply later_trans; eauto.
    - destruct (IH _ _ _ _ _ Wz Er Ez He) as (a1 & l1 & a2 & z1 & dz & e & Ha & Hr & Hz & D & L1).
      exists (l :: a1), l1, a2, z1, (d1 ++ dz), e. split; [rewrite Ha; reflexivity|]. split; [|auto].
      cbn [Sect_Model.run]. rewrite E, Hr. reflexivity.
  Qed.
  Theorem run_to a1 l a2 x y d z dz n e : wf x -> run (a1 ++ l :: a2) x = Ok y d -> run a1 x = Ok z dz ->
    find_sym (syms z) n = None -> defines (l_stmt l) (asked l z) n e -> exists e', find_sym (syms y) n = Some e' /\ later e e'.
  Proof.
    intros W H Hz Hn D. rewrite run_app, Hz in H. cbn [Sect_Model.run] in H.
    destruct (step l z) as [z1 d1|] eqn:E; [|discriminate]. destruct (run a2 z1) as [w d2|] eqn:Er; [|discriminate]. inversion H; subst.
    pose proof (run_wf _ _ _ _ W Hz) as Wz. destruct (step_ok _ _ _ _ Wz E) as (Wz1 & _ & _ & Hd).
    destruct (Hd n e Hn D) as (e1 & He1 & L1). destruct (run_kept _ _ _ _ _ _ Wz1 Er He1) as (e2 & He2 & L2).
    exists e2. split; [exact He2|eapply later_trans; eauto].
  Qed.
  (** A section that is not current at any point of the run. *)
  Definition away (a : list (line L A)) x i : Prop :=
    forall a1 a2 z d, a = a1 ++ a2 -> run a1 x = Ok z d -> cur z <> Some i.
  Theorem run_away a : forall x y d i s, wf x -> run a x = Ok y d -> away a x i -> nth_error (secs x) i = Some s -> nth_error (secs y) i = Some s.
  Proof.
    induction a as [|l a IH]; intros x y d i s W H Ha Hs; [cbn in H; inversion H; subst; exact Hs|].
    pose proof H as H0. cbn [Sect_Model.run] in H. destruct (step l x) as [z d1|] eqn:E; [|discriminate]. destruct (run a z) as [w d2|] eqn:Er; [|discriminate].
    inversion H; subst. destruct (step_framed _ _ _ _ W E i s Hs) as (s' & Hs' & _ & _ & _ & He & _).
    assert (Hx : cur x <> Some i) by (apply (Ha [] (l :: a) x []); reflexivity).
    assert (Hz : cur z <> Some i). { apply (Ha [l] a z (d1 ++ [])); [reflexivity|]. cbn [Sect_Model.run]. rewrite E. reflexivity. }
    rewrite (He Hx Hz) in Hs'. eapply IH; [eapply step_ok; eauto|exact Er| |exact Hs'].
    intros a1 a2 v dv Hsp Hr. apply (Ha (l :: a1) a2 v (d1 ++ dv)); [rewrite Hsp; reflexivity|]. cbn [Sect_Model.run]. rewrite E, Hr. reflexivity.
  Qed.
End Frame.
