(** C64: symbols are defined once, sections and location counters are resumed where they were left.
    C65: the operands of EQU and ORG. *)
From Coq Require Import ZArith Bool Arith List Lia.
From Verif Require Import Sect_Model Sect_Spec Sect_Proof Sect_Run Sect_Org Sect_Frame Sect_Diag.
Import ListNotations.

Section Props.
  Variable L : Type.
  Variable fresh : bool -> L.
  Variable A : Type.
  Variable here : nat -> nat -> L -> A.
  Variable cycle : st L A -> bool.
  Variable dep_cycle : name -> st L A -> bool.
  Variable org_check : A -> A -> Z -> Z -> option nat.
  Variable org_to : A -> Z -> Z -> bool -> L -> L.
  Variable org_max : Z -> Z -> L -> L.
  Variable no_align : L -> L.
  Variable late_value : st L A -> name -> value A.
  Variable late_length : st L A -> name -> option Z.
  Notation st := (st L A).
  Notation entry := (entry A).
  Notation counter := (counter L A).
  Notation current := (current L A).
  Notation defined := (defined L A).
  Notation has_section := (has_section L A).
  Notation has_ctr := (has_ctr L A).
  Notation next_at := (next_at L fresh A).
  Notation wf := (wf L fresh A here).
  Notation later := (later A).
  Notation defines := (defines L fresh A here no_align).
  Notation redefines := (redefines L A).
  Notation proc := (proc fresh here cycle dep_cycle org_check org_to org_max no_align).
  Notation step := (step fresh here cycle dep_cycle org_check org_to org_max no_align late_value late_length).
  Notation run := (run fresh here cycle dep_cycle org_check org_to org_max no_align late_value late_length).
  Notation use := (use fresh).
  Notation ensure := (ensure fresh).
  Notation asked := (asked fresh no_align).
  Notation settle := (settle late_value late_length).
  Implicit Types x : st.


  Lemma reach ss x d : run ss init = Ok x d -> wf x.
  Proof. intros H. eapply run_wf; [apply wf_init|exact H]. Qed.

  (** ** C64 *)
  (** Every symbol comes from the first statement that defines it ... *)
  Theorem C64_from ss y d n e' : run ss init = Ok y d -> find_sym (syms y) n = Some e' ->
    exists a l b x dx e, ss = a ++ l :: b /\ run a init = Ok x dx /\ find_sym (syms x) n = None
      /\ defines (l_stmt l) (asked l x) n e /\ later e e'.
  Proof. intros H He. eapply run_from; [apply wf_init|exact H|reflexivity|exact He]. Qed.
  (** ... and every such statement defines its symbol. *)
  Theorem C64_to a l b y d x dx n e : run (a ++ l :: b) init = Ok y d -> run a init = Ok x dx -> find_sym (syms x) n = None ->
    defines (l_stmt l) (asked l x) n e -> exists e', find_sym (syms y) n = Some e' /\ later e e'.
  Proof. intros H. eapply run_to; [apply wf_init|exact H]. Qed.
  (** A definition stays; only a value or length that is not known yet can become known. *)
  Theorem C64_kept a b x y d d' n e : run a init = Ok x d -> run b x = Ok y d' -> find_sym (syms x) n = Some e ->
    exists e', find_sym (syms y) n = Some e' /\ later e e'.
  Proof. intros H H'. eapply run_kept; [eapply reach; eauto|exact H']. Qed.
  (** E031 is reported for redefinitions and for nothing else ... *)
  Theorem C64_reported a x d l y ds : run a init = Ok x d -> step l x = Ok y ds -> (In E031 ds <-> redefines (l_stmt l) (asked l x)).
  Proof.
    intros H Hs. pose proof (reach _ _ _ H) as W. destruct (asked_ok L fresh A here no_align l x W) as (Wa & _).
    unfold Sect_Model.step in Hs. destruct (proc (l_stmt l) (asked l x)) as [z dz|] eqn:E; [|discriminate]. inversion Hs; subst.
    eapply proc_E031; eauto.
  Qed.
  (** ... and a redefinition does what the statement does without its label. *)
  Theorem C64_redefinition s x : redefines s x ->
    match s with
    | SSect _ _ _ | SEqu _ _ _ _ => proc s x = Ok x [E031]
    | SLoctr n _ => proc s x = Ok (ensure x) ((if Nat.eqb n 0 then [E053] else []) ++ [E031])
    | _ => exists r, proc (unlabelled L A s) x = r /\ proc s x = match r with Ok y ds => Ok y (E031 :: ds) | Throws => Throws end
    end.
  Proof.
    intros H. pose proof (proc_redefines L fresh A here cycle dep_cycle org_check org_to org_max no_align late_value late_length s x H) as P.
    destruct s; try exact P; try (eexists; split; [reflexivity|exact P]); destruct H.
  Qed.
  (** A statement changes at most the counter that is current; names, kinds, counters and their order stay. *)
  Theorem C64_frame a x d l y ds : run a init = Ok x d -> step l x = Ok y ds ->
    forall i s, nth_error (secs x) i = Some s -> exists s', nth_error (secs y) i = Some s'
      /\ s_name s' = s_name s /\ s_kind s' = s_kind s
      /\ (exists r, map c_name (s_ctrs s') = map c_name (s_ctrs s) ++ r)
      /\ (cur x <> Some i -> cur y <> Some i -> s' = s)
      /\ (forall j c, nth_error (s_ctrs s) j = Some c -> ~ (cur x = Some i /\ s_cur s = j) -> nth_error (s_ctrs s') j = Some c).
  Proof. intros H Hs. eapply step_framed; [eapply reach; eauto|exact Hs]. Qed.
  (** Coming back to a section resumes it where it was left. *)
  Theorem C64_resume a x d b y d' i s k n p z dz : run a init = Ok x d -> run b x = Ok y d' ->
    nth_error (secs x) i = Some s -> s_name s = n -> s_kind s = k -> n <> 0 ->
    (forall b1 b2 w dw, b = b1 ++ b2 -> run b1 x = Ok w dw -> cur w <> Some i) ->
    proc (SSect k n p) y = Ok z dz ->
    dz = [] /\ cur z = Some i /\ nth_error (secs z) i = Some s /\ secs z = secs y /\ syms z = syms y.
  Proof.
    intros H H' Hs Hn Hk Hz Haway Hp. pose proof (reach _ _ _ H) as W.
    assert (Hy : nth_error (secs y) i = Some s).
    { eapply run_away; [exact W|exact H'|exact Haway|exact Hs]. }
    assert (Wy : wf y) by (eapply run_wf; eauto).
    assert (Hsec : section_defined n k y = true). { apply section_defined_spec. exists s. split; [eapply nth_error_In; eauto|auto]. }
    cbn [Sect_Model.proc] in Hp. unfold proc_sect in Hp. rewrite Hsec in Hp. rewrite andb_false_r in Hp.
    unfold set_section in Hp. destruct (index (is_section n k) (secs y)) as [j|] eqn:Ei.
    - inversion Hp; subst z dz. cbn [cur secs syms]. destruct (index_some _ _ _ Ei) as (t & Ht & Hpt).
      assert (j = i); [|subst j; auto].
      unfold is_section in Hpt. apply andb_true_iff in Hpt. destruct Hpt as [Hname _]. apply Nat.eqb_eq in Hname.
      destruct (w_first _ _ _ _ _ Wy _ _ Ht) as (c & Hc & Ec). destruct (w_first _ _ _ _ _ Wy _ _ Hy) as (c' & Hc' & Ec').
      destruct (w_uniq _ _ _ _ _ Wy j 0 c i 0 c') as [E _]; [exists t; auto|exists s; auto|congruence|congruence|exact E].
    - exfalso. unfold section_defined in Hsec. apply existsb_exists in Hsec. destruct Hsec as (t & Ht & Hpt).
      rewrite (index_none _ _ Ei t Ht) in Hpt. discriminate.
  Qed.
  (** A section or LOCTR statement that is not a redefinition makes its section or counter current;
      a new one starts at the beginning. *)
  Theorem C64_sect k n p x y ds : proc (SSect k n p) x = Ok y ds -> ~ In E031 ds ->
    exists i s, cur y = Some i /\ nth_error (secs y) i = Some s /\ s_name s = n /\ s_kind s = k
      /\ (nth_error (secs x) i = Some s \/ (i = length (secs x) /\ ~ has_section x n k /\ s = mkS n k [mkC n (fresh true)] 0)).
  Proof. intros H. eapply sect_switches. exact H. Qed.
  Theorem C64_loctr a x d n p y ds : run a init = Ok x d -> proc (SLoctr n p) x = Ok y ds -> ~ In E031 ds ->
    exists i j c, current y i j /\ counter y i j c /\ c_name c = n
      /\ (counter x i j c \/ (~ has_ctr x n /\ c_at c = fresh false) \/ (cur x = None /\ n = 0 /\ c_at c = fresh true)).
  Proof. intros H Hp. eapply loctr_switches; [eapply reach; eauto|exact Hp]. Qed.
  (** A name stands for one counter, and the symbol of that name for its start. *)
  Theorem C64_unique ss x d i j c i' j' c' : run ss init = Ok x d -> counter x i j c -> counter x i' j' c' ->
    c_name c = c_name c' -> c_name c <> 0 -> i = i' /\ j = j'.
  Proof. intros H. eapply (w_uniq _ _ _ _ _ (reach _ _ _ H)). Qed.
  Theorem C64_label ss x d i j c : run ss init = Ok x d -> counter x i j c -> c_name c <> 0 ->
    exists e, find_sym (syms x) (c_name c) = Some e /\ e_value e = VReloc (here i j (fresh (Nat.eqb j 0)))
      /\ e_attrs e = mkAttrs SECT TJ (Some 1%Z).
  Proof. intros H. apply (w_label _ _ _ _ _ (reach _ _ _ H)). Qed.
  (** The analysis is interrupted by an EXTRN of a defined symbol and by an ORG to something that is no
      address, and by nothing else. *)
  (** (ORG with a label is reduced to ORG without one by [C64_redefinition] and [C65_org_label].) *)
  Theorem C64_interrupted a x d s : run a init = Ok x d -> match s with SOrg n _ _ => n = 0 | _ => True end ->
    (proc s x = Throws <->
     match s with
     | SExtrn (Some n :: _) _ => defined x n
     | SOrg _ ops p => exists f, nth_error ops 0 = Some (OExpr f)
         /\ x_unres (f x) <> None /\ (forall a, ~ target A (f x) a) /\ forall i, ~ wrong_at L A ops x i
     | _ => False
     end).
  Proof.
    intros H H0. pose proof (reach _ _ _ H) as W.
    assert (P := proc_throws L fresh A here cycle dep_cycle org_check org_to org_max no_align late_value late_length s x W).
    destruct s as [k n p|n p|b n ops p|n len al re p|n b a' al re p|n ops p|ns p|]; try exact P.
    subst n. rewrite P. cbn [org_label Nat.eqb]. split.
    - intros (y & dy & f & E & Hf). inversion E; subst. eauto.
    - intros (f & Hf). exists x, [], f. auto.
  Qed.

  (** ** C65 *)
  (** EQU: what is reported about its second and third operand. *)
  Theorem C65_equ_reports b n ops p x y ds : n <> 0 -> find_sym (syms x) n = None -> proc (SEqu b n ops p) x = Ok y ds ->
    (In A133 ds <-> ~ absent L A (nth_error ops 1) /\ forall z, ~ given L A (nth_error ops 1) 65535 x z)
    /\ (In A134 ds <-> ~ absent L A (nth_error ops 2) /\ forall z, ~ given L A (nth_error ops 2) 255 x z).
  Proof.
    intros Hn Hu H. cbn [Sect_Model.proc] in H. unfold proc_equ in H. apply Nat.eqb_neq in Hn. rewrite Hn in H.
    apply symbol_undefined in Hu. rewrite Hu in H.
    destruct (attr_operand (nth_error ops 2) 255 A134 x) as [t d1] eqn:E2.
    destruct (attr_operand (nth_error ops 1) 65535 A133 x) as [l d2] eqn:E1.
    destruct (attr_operand_spec _ _ _ _ _ _ _ _ E2) as [_ S2]. destruct (attr_operand_spec _ _ _ _ _ _ _ _ E1) as [_ S1].
    assert (Hds : forall dd, dd <> E033 -> (In dd ds <-> In dd (d1 ++ d2))).
    { intros dd Hdd. destruct (nth_error ops 0) as [[| |f]|]; try (inversion H; subst; reflexivity).
      destruct (negb (x_pending (f x))).
      { apply create_ok in H. destruct H as (_ & _ & ->). rewrite (in_app_iff (d1 ++ d2)). destruct (x_val (f x)); [cbn; tauto|cbn; tauto|].
        destruct (cycle y); cbn; intuition congruence. }
      destruct (negb (x_is_addr (f x))).
      - destruct (create cycle n VUndef _ p x (d1 ++ d2)) as [z dz|] eqn:Ec; [|discriminate]. apply create_ok in Ec. destruct Ec as (_ & _ & ->).
        inversion H; subst. rewrite app_nil_r. rewrite (in_app_iff (d1 ++ d2)). destruct (dep_cycle n y); cbn; intuition congruence.
      - destruct (x_unres (f x)) as [u|]; [|discriminate]. apply create_ok in H. destruct H as (_ & _ & ->). rewrite (in_app_iff (d1 ++ d2)).
        destruct (cycle y); cbn; intuition congruence. }
    split; rewrite Hds by discriminate; rewrite in_app_iff.
    - destruct S1 as [[-> H1]|[-> H1]], S2 as [[-> H2]|[-> H2]]; cbn; split; intros G.
      + destruct G as [G|G]; destruct G.
      + exfalso. destruct G as [G1 G2]. destruct H1 as [H1|[z H1]]; [exact (G1 H1)|exact (G2 z H1)].
      + intuition discriminate.
      + exfalso. destruct G as [G1 G2]. destruct H1 as [H1|[z H1]]; [exact (G1 H1)|exact (G2 z H1)].
      + exact H1.
      + auto.
      + exact H1.
      + auto.
    - destruct S1 as [[-> H1]|[-> H1]], S2 as [[-> H2]|[-> H2]]; cbn; split; intros G; auto.
      + destruct G as [G|G]; destruct G.
      + exfalso. destruct G as [G1 G2]. destruct H2 as [H2|[z H2]]; [exact (G1 H2)|exact (G2 z H2)].
      + intuition discriminate.
      + exfalso. destruct G as [G1 G2]. destruct H2 as [H2|[z H2]]; [exact (G1 H2)|exact (G2 z H2)].
  Qed.
  (** ... its value, length and type attribute. *)
  Theorem C65_equ_defines b n ops p x y ds f : n <> 0 -> find_sym (syms x) n = None -> nth_error ops 0 = Some (OExpr f) ->
    proc (SEqu b n ops p) x = Ok y ds ->
    exists v a, find_sym (syms y) n = Some (mkE v a p) /\ equ_value A (f x) v /\ equ_attrs L A ops (f x) x a /\ secs y = secs x /\ cur y = cur x.
  Proof.
    intros Hn Hu Hf H. cbn [Sect_Model.proc] in H.
    destruct (proc_equ_ok L fresh A here cycle dep_cycle no_align _ _ _ _ _ _ _ H) as (Hs & Hc & O).
    destruct O as [[Hsy Hno]|(m & e & Hm & D & Hsy)].
    - exfalso.
      assert (Hex : exists v a, equ_value A (f x) v /\ equ_attrs L A ops (f x) x a).
      { assert (Hv : exists v, equ_value A (f x) v).
        { destruct (x_pending (f x)) eqn:Ep.
          - apply pending_spec in Ep. destruct (x_syms (f x)) eqn:E1; [exists VUndef; right; right; auto|].
            destruct (x_unres (f x)) as [u|] eqn:E2; [|exists VUndef; right; right; auto].
            destruct (x_based (f x)) eqn:E3; [|exists VUndef; right; right; auto].
            exists (VReloc u). right. left. split; [exact Ep|]. exists u. auto.
          - apply not_pending in Ep. exists (x_val (f x)). left. auto. }
        destruct Hv as [v Hv].
        destruct (attr_operand (nth_error ops 2) 255 A134 x) as [t d1] eqn:E2.
        destruct (attr_operand (nth_error ops 1) 65535 A133 x) as [l d2] eqn:E1.
        destruct (attr_operand_spec _ _ _ _ _ _ _ _ E2) as [S2 _]. destruct (attr_operand_spec _ _ _ _ _ _ _ _ E1) as [S1 _].
        exists v, (mkAttrs EQU (match t with Some z => TNum z | None => TU end) (match l with Some z => Some z | None => left_length (f x) x end)).
        split; [exact Hv|]. split; [reflexivity|]. split; cbn.
        - destruct t as [z|]; [left; exists z; split; [apply S2; reflexivity|reflexivity]|right; split; [|reflexivity]].
          intros z Hz. apply S2 in Hz. discriminate.
        - destruct l as [z|]; [left; exists z; split; [apply S1; reflexivity|reflexivity]|right; split; [|apply left_length_spec]].
          intros z Hz. apply S1 in Hz. discriminate. }
      destruct Hex as (v & a & Hv & Ha). apply (Hno n (mkE v a p) Hu). eapply D_equ; eauto.
    - inversion D as [ | | x0 b0 n0 ops0 p0 f0 v a Hn0 Hf0 Hv Ha| | | |]; subst. rewrite Hf in Hf0. inversion Hf0; subst f0.
      exists v, a. rewrite Hsy. cbn [find_sym]. rewrite Nat.eqb_refl. auto.
  Qed.

  Lemma next_at_use f x i j l : next_at x i j l -> next_at (use f x) i j (f l).
  Proof.
    intros H. right. unfold Sect_Model.use. destruct H as [(H1 & -> & -> & ->)|((s & H1 & H2 & <-) & c & (t & H4 & H5) & <-)].
    - unfold Sect_Model.ensure. rewrite H1. cbn [cur].
      assert (Hnth : nth_error (upd (secs x ++ [new_section fresh 0 EXECUTABLE]) (length (secs x)) (fun s => mkS (s_name s) (s_kind s)
                       (upd (s_ctrs s) (s_cur s) (fun c => mkC (c_name c) (f (c_at c)))) (s_cur s))) (length (secs x))
                     = Some (mkS 0 EXECUTABLE [mkC 0 (f (fresh true))] 0)).
      { rewrite nth_upd, Nat.eqb_refl, nth_app_new. reflexivity. }
      split; [eexists; split; [reflexivity|]; split; [exact Hnth|reflexivity]|].
      exists (mkC 0 (f (fresh true))). split; [|reflexivity]. eexists. split; [exact Hnth|reflexivity].
    - rewrite (ensure_some L fresh A x i H1), H1. assert (t = s) by congruence. subst t.
      set (g := fun _ => _).
      assert (Hnth : nth_error (upd (secs x) i g) i = Some (g s)) by (rewrite nth_upd, Nat.eqb_refl, H2; reflexivity).
      split; [exists (g s); split; [reflexivity|]; split; [exact Hnth|reflexivity]|].
      exists (mkC (c_name c) (f (c_at c))). split; [|reflexivity]. exists (g s). split; [exact Hnth|]. unfold g. cbn [s_ctrs].
      rewrite nth_upd, Nat.eqb_refl, H5. reflexivity.
  Qed.
  (** ORG: a wrong operand is reported and nothing moves. *)
  Theorem C65_org_wrong ops p x i : wrong_at L A ops x i ->
    proc (SOrg 0 ops p) x = Ok x [match i with 0 => A245 | 1 => A116 | _ => A115 end].
  Proof. intros H. cbn [Sect_Model.proc]. rewrite proc_org_split. cbn [org_label Nat.eqb]. unfold org_rest. rewrite (loop_wrong _ _ _ _ _ H). reflexivity. Qed.
  (** Without an address the counter goes to the next free location ... *)
  Theorem C65_org_free ops p x b o i j l : all_readable L A ops x -> number L A ops 1 x b -> number L A ops 2 x o ->
    absent L A (nth_error ops 0) -> next_at x i j l ->
    exists y, proc (SOrg 0 ops p) x = Ok y [] /\ next_at y i j (org_max b o l) /\ syms y = syms x.
  Proof.
    intros Hr Hb Ho Ha Hn. exists (use (org_max b o) x). cbn [Sect_Model.proc]. rewrite proc_org_split. cbn [org_label Nat.eqb].
    unfold org_rest. rewrite (loop_all _ _ _ _ _ _ Hr Hb Ho). destruct Ha as [-> | ->]; cbn [first_of];
      (split; [reflexivity|split; [apply next_at_use; exact Hn|apply use_syms]]).
  Qed.
  (** ... with one, to that address, if it is in the current counter; otherwise it is reported. *)
  Theorem C65_org_to ops p x b o f a i j l : all_readable L A ops x -> number L A ops 1 x b -> number L A ops 2 x o ->
    nth_error ops 0 = Some (OExpr f) -> target A (f x) a -> next_at x i j l ->
    exists y ds, proc (SOrg 0 ops p) x = Ok y ds /\ syms y = syms x
      /\ match org_check a (here i j (no_align l)) b o with
         | Some d => ds = [Other d] /\ next_at y i j (no_align l)
         | None => ds = [] /\ next_at y i j (org_to a b o (x_syms (f x) || x_refs (f x)) (no_align l))
         end.
  Proof.
    intros Hr Hb Ho Hf Ht Hn. cbn [Sect_Model.proc]. rewrite proc_org_split. cbn [org_label Nat.eqb].
    unfold org_rest. rewrite (loop_all _ _ _ _ _ _ Hr Hb Ho), Hf. cbn [first_of].
    assert (Hc : chosen A (f x) = Some a) by (eapply chosen_spec; eauto). unfold chosen in Hc. rewrite Hc. unfold align.
    rewrite (address_use L fresh A here no_align x i j l Hn).
    destruct (org_check a (here i j (no_align l)) b o) as [d|].
    - eexists _, _. split; [reflexivity|]. split; [apply use_syms|]. split; [reflexivity|apply next_at_use; exact Hn].
    - eexists _, _. split; [reflexivity|]. split; [rewrite !use_syms; reflexivity|]. split; [reflexivity|].
      apply next_at_use, next_at_use. exact Hn.
  Qed.
  (** An operand that is no expression is reported; those in front of it take effect all the same. *)
  Theorem C65_org_cut ops p x i y ds : cut_at L A ops x i -> proc (SOrg 0 (firstn i ops) p) x = Ok y ds ->
    exists ds', proc (SOrg 0 ops p) x = Ok y ds' /\ forall q, In q ds' <-> In q ds \/ q = match i with 0 => A245 | _ => A115 end.
  Proof.
    intros H. cbn [Sect_Model.proc]. rewrite !proc_org_split. cbn [org_label Nat.eqb]. unfold org_rest.
    destruct (loop_cut _ _ _ _ _ H) as (f & b & o & -> & ->). destruct f as [e|].
    - destruct (if x_parts e then x_unres e else match x_val e with VReloc a => Some a | _ => None end) as [a|]; [|discriminate].
      unfold align. destruct (address_in here (use no_align x)) as [h|]; [|discriminate].
      destruct (org_check a h b o) as [d|]; intros E; inversion E; subst; eexists; (split; [reflexivity|]); intros q; destruct i; cbn; intuition congruence.
    - intros E. inversion E; subst. eexists. split; [reflexivity|]. intros q. destruct i; cbn; intuition congruence.
  Qed.
  (** With a label, ORG first defines it and then acts on the state in which it is defined. *)
  Theorem C65_org_label n ops p x i j l : n <> 0 -> find_sym (syms x) n = None -> next_at x i j l ->
    exists x1 d, syms x1 = (n, mkE (VReloc (here i j (no_align l))) (mkAttrs SECT TU None) p) :: syms x
      /\ next_at x1 i j (no_align l)
      /\ (d = [] \/ d = [E033])
      /\ proc (SOrg n ops p) x = match proc (SOrg 0 ops p) x1 with Ok y ds => Ok y (d ++ ds) | Throws => Throws end.
  Proof.
    intros Hz Hu Hn. set (x1 := added L A n (mkE (VReloc (here i j (no_align l))) (mkAttrs SECT TU None) p) (use no_align x)).
    exists x1, (if cycle x1 then [E033] else []). split; [cbn; rewrite use_syms; reflexivity|].
    split. { pose proof (next_at_use no_align x i j l Hn) as H. exact H. }
    split; [destruct (cycle x1); auto|]. cbn [Sect_Model.proc]. rewrite !proc_org_split. unfold org_label at 1.
    apply Nat.eqb_neq in Hz. rewrite Hz. pose proof Hu as Hd. apply symbol_undefined in Hd. rewrite Hd.
    unfold align. rewrite (address_use L fresh A here no_align x i j l Hn). cbn [define_at]. unfold create, emplace.
    assert (Hd' : symbol_defined n (use no_align x) = false) by (apply symbol_undefined; rewrite use_syms; exact Hu).
    rewrite Hd'. change (mk _ _ _) with x1. cbn [org_label Nat.eqb app]. unfold org_rest.
    destruct (org_loop 0 ops x1 None 0 0) as [[e|] bb o dl|dl]; try reflexivity.
    destruct (if x_parts e then x_unres e else match x_val e with VReloc a => Some a | _ => None end) as [a|]; [|reflexivity].
    unfold align. destruct (address_in here (use no_align x1)) as [h|]; [|reflexivity].
    destruct (org_check a h bb o); reflexivity.
  Qed.
End Props.

Print Assumptions C64_from.
Print Assumptions C64_to.
Print Assumptions C64_kept.
Print Assumptions C64_reported.
Print Assumptions C64_redefinition.
Print Assumptions C64_frame.
Print Assumptions C64_resume.
Print Assumptions C64_sect.
Print Assumptions C64_loctr.
Print Assumptions C64_unique.
Print Assumptions C64_label.
Print Assumptions C64_interrupted.
Print Assumptions C65_equ_reports.
Print Assumptions C65_equ_defines.
Print Assumptions C65_org_wrong.
Print Assumptions C65_org_free.
Print Assumptions C65_org_to.
Print Assumptions C65_org_label.
Print Assumptions C65_org_cut.

(** ** Cases: counters as numbers of bytes, addresses as section, counter and displacement *)
Definition addr := (nat * nat * Z)%type.
Definition start0 (_ : bool) : Z := 0%Z.
Definition at0 (i j : nat) (l : Z) : addr := (i, j, l).
Definition move (a : addr) (b o : Z) (_ : bool) (l : Z) : Z := (snd a + o)%Z.
Definition st0 := st Z addr.
Definition run0 := run start0 at0 (fun _ : st0 => false) (fun _ _ => false)
  (fun a b _ _ => if Nat.eqb (fst (fst a)) (fst (fst b)) then None else Some 68) move (fun _ o l => (l + o)%Z) (fun l => l)
  (fun _ _ => VUndef) (fun _ _ => None).
Definition up4 (l : Z) : Z := ((l + 3) / 4 * 4)%Z.
Definition ds_ (n : name) (p : nat) : line Z addr := mkL false (SData n true (mkAttrs DAT TU (Some 4%Z)) up4 (fun l => (l + 4)%Z) p).
Definition line_ (s : stmt Z addr) : line Z addr := mkL false s.
Definition value_of (n : name) (r : result Z addr) : option (value addr) :=
  match r with Ok x _ => option_map e_value (find_sym (syms x) n) | Throws => None end.
Definition diags_of (r : result Z addr) : option (list diag) := match r with Ok _ ds => Some ds | Throws => None end.

(** [A CSECT; X DS F; B CSECT; Y DS F; A CSECT; Z DS F; X DS F]: [Z] follows [X], the last line is reported. *)
Definition resumed := run0 [line_ (SSect EXECUTABLE 1 0); ds_ 10 1; line_ (SSect EXECUTABLE 2 2); ds_ 11 3; line_ (SSect EXECUTABLE 1 4); ds_ 12 5; ds_ 10 6] init.
Example C64_resume_case : value_of 10 resumed = Some (VReloc (0, 0, 0%Z)) /\ value_of 11 resumed = Some (VReloc (1, 0, 0%Z))
  /\ value_of 12 resumed = Some (VReloc (0, 0, 4%Z)) /\ value_of 2 resumed = Some (VReloc (1, 0, 0%Z)) /\ diags_of resumed = Some [E031].
Proof. repeat split. Qed.
(** [A CSECT; P LOCTR; X DS F; B CSECT; P LOCTR; Y DS F]: [P LOCTR] goes back to its section. *)
Definition loctr_case := run0 [line_ (SSect EXECUTABLE 1 0); line_ (SLoctr 3 1); ds_ 10 2; line_ (SSect EXECUTABLE 2 3); line_ (SLoctr 3 4); ds_ 11 5] init.
Example C64_loctr_case : value_of 10 loctr_case = Some (VReloc (0, 1, 0%Z)) /\ value_of 11 loctr_case = Some (VReloc (0, 1, 4%Z))
  /\ diags_of loctr_case = Some [].
Proof. repeat split. Qed.
Definition num (z : Z) : operand Z addr := OExpr (fun _ => mkX false false None false false (VAbs z) None).
Definition sym (n : name) : operand Z addr := OExpr (fun x => match find_sym (syms x) n with
  | Some e => mkX false false (match e_value e with VReloc a => Some a | _ => None end) true false (e_value e) (Some n)
  | None => mkX true false None false false VUndef (Some n) end).
(** [A CSECT; X DS F; Y DS F; L EQU X,8,5; ORG X,,2; Z DS F]. *)
Definition equ_org := run0 [line_ (SSect EXECUTABLE 1 0); ds_ 10 1; ds_ 11 2; mkL true (SEqu true 20 [sym 10; num 8; num 5] 3);
  mkL true (SOrg 0 [sym 10; OEmpty; num 2] 4); ds_ 12 5] init.
Example C65_case : value_of 12 equ_org = Some (VReloc (0, 0, 4%Z)) /\ diags_of equ_org = Some []
  /\ match equ_org with Ok x _ => find_sym (syms x) 20 = Some (mkE (VReloc (0, 0, 0%Z)) (mkAttrs EQU (TNum 5) (Some 8%Z)) 3) | Throws => False end.
Proof. repeat split. Qed.

(** *** What does not hold *)
(** An EXTRN of a symbol that is defined is not reported but ends the analysis. *)
Theorem C64_extrn_refuted : exists ss : list (line Z addr), run0 ss init = Throws /\ ss = [ds_ 10 0; line_ (SExtrn [Some 10] 1)].
Proof. eexists. split; [|reflexivity]. reflexivity. Qed.
Print Assumptions C64_extrn_refuted.
(** Of several EXTRN operands only the first is defined; the others stay undefined without a report. *)
Theorem C64_extrn_list_refuted : exists x ds, run0 [line_ (SExtrn [Some 10; Some 11] 0)] init = Ok x ds
  /\ ds = [] /\ find_sym (syms x) 10 <> None /\ find_sym (syms x) 11 = None.
Proof. eexists _, _. split; [reflexivity|]. repeat split. discriminate. Qed.
Print Assumptions C64_extrn_list_refuted.
(** An unlabelled CSECT after an unlabelled DSECT is reported as a redefinition and not entered. *)
Theorem C64_unnamed_refuted : exists x ds i s, run0 [line_ (SSect DUMMY 0 0); line_ (SSect EXECUTABLE 0 1)] init = Ok x ds
  /\ ds = [E031] /\ cur x = Some i /\ nth_error (secs x) i = Some s /\ s_kind s = DUMMY.
Proof. eexists _, _, _, _. split; [reflexivity|]. repeat split. Qed.
Print Assumptions C64_unnamed_refuted.
(** LOCTR without a label is reported and all the same switches to a counter without a name: here
    storage after it goes to the section's own counter although [P LOCTR] was current. *)
Theorem C64_loctr_refuted : exists x ds, run0 [ds_ 10 0; line_ (SLoctr 3 1); ds_ 11 2; line_ (SLoctr 0 3); ds_ 12 4] init = Ok x ds
  /\ ds = [E053] /\ option_map e_value (find_sym (syms x) 11) = Some (VReloc (0, 1, 0%Z))
  /\ option_map e_value (find_sym (syms x) 12) = Some (VReloc (0, 0, 4%Z)).
Proof. eexists _, _. split; [reflexivity|]. repeat split. Qed.
Print Assumptions C64_loctr_refuted.
(** EQU without a value is not reported and defines nothing. *)
Theorem C65_equ_silent_refuted : exists x, run0 [line_ (SEqu true 20 [] 0)] init = Ok x [] /\ find_sym (syms x) 20 = None.
Proof. eexists. split; reflexivity. Qed.
Print Assumptions C65_equ_silent_refuted.
(** The length of a symbol whose own length is not known yet is copied as unknown, not waited for. *)
Theorem C65_equ_length_refuted : exists x ds e, run0 [mkL false (SData 10 true (mkAttrs DAT TU None) up4 (fun l => (l + 4)%Z) 0);
    mkL true (SEqu true 20 [sym 10] 1)] init = Ok x ds /\ ds = [] /\ find_sym (syms x) 20 = Some e
    /\ e_value e = VReloc (0, 0, 0%Z) /\ t_length (e_attrs e) = None.
Proof. eexists _, _, _. split; [reflexivity|]. repeat split. Qed.
Print Assumptions C65_equ_length_refuted.
(** An operand of ORG that is not an expression is reported, and the statement then acts as if the
    operands ended in front of it: [ORG 'A'] moves to the next free location. *)
Theorem C65_org_cut_refuted : forall x : st0, exists y, proc start0 at0 (fun _ => false) (fun _ _ => false) (fun _ _ _ _ => None) move
    (fun _ _ l => (l + 100)%Z) (fun l => l) (SOrg 0 [ONoExpr] 0) x = Ok y [A245]
  /\ proc start0 at0 (fun _ => false) (fun _ _ => false) (fun _ _ _ _ => None) move (fun _ _ l => (l + 100)%Z) (fun l => l) (SOrg 0 [] 0) x = Ok y [].
Proof. intros x. eexists. split; reflexivity. Qed.
Print Assumptions C65_org_cut_refuted.
(** An ORG to a difference of addresses ends the analysis. *)
Theorem C65_org_difference_refuted : exists ss : list (line Z addr), run0 ss init = Throws
  /\ ss = [ds_ 10 0; line_ (SOrg 0 [OExpr (fun _ => mkX false false (Some (0, 0, 0%Z)) false false (VAbs 0) None)] 1)].
Proof. eexists. split; [|reflexivity]. reflexivity. Qed.
Print Assumptions C65_org_difference_refuted.
