(** * Which operands *PROCESS accepts, and all instructions together *)
From Coq Require Import String Ascii.
From Coq Require Import List ZArith Bool Lia Arith ZifyBool ZifyNat.
From Verif Require Import Asm_Model Asm_Spec Asm_Base Asm_Values Asm_Options.
Import ListNotations.
Open Scope string_scope.
Open Scope list_scope.

Lemma fail_param_yes ps : fst (check_fail ps) = Yes <-> Forall (word ["NOMSG"; "NOMNOTE"]) ps.
Proof.
  unfold check_fail. yes. apply Forall_iff. intros o. destruct o as [id d v r|id qs r|r].
  - yes. rewrite word_simple, orb_true_iff, !eqb_eq. cbn [In]. intuition congruence.
  - rewrite word_complex. yes. split; [|tauto]. intros [H _]. revert H.
    destruct (String.eqb id "MNOTE") eqn:E1; [apply String.eqb_eq in E1; subst id; cbn; discriminate|].
    destruct (String.eqb id "MSG") eqn:E2; [apply String.eqb_eq in E2; subst id; cbn; discriminate|].
    cbn. discriminate.
  - rewrite word_empty. yes. tauto.
Qed.

Lemma using_param_yes ps : fst (check_using ps) = Yes <-> Forall Process_using ps.
Proof.
  unfold check_using. yes. apply Forall_iff. intros o. unfold Process_using. destruct o as [id d v r|id qs r|r].
  - yes. rewrite word_simple, mem_in. split; [auto|]. intros [H|[H|H]]; [exact H|crush..].
  - rewrite word_complex. yes. rewrite orb_true_iff, !eqb_eq. split.
    + intros [N H]. right. destruct qs as [|q [|q' t]]; [cbn in H; discriminate H| |destruct q; cbn in H; discriminate H].
      destruct q as [n d v r'| |]; try (cbn in H; discriminate H).
      destruct N as [-> | ->].
      * left. revert H. decide_words. intros H. exists (Simple n d v r'), n.
        destruct (stoi n) as [z|] eqn:Z0; [|cbn in H; discriminate H]. exists z. revert H. yes. intros H.
        split; [apply complex_is; auto|]. split; [apply simple_is|]. split; [apply stoi_leading; exact Z0|].
        unfold is_byte in H. lia.
      * right. revert H. decide_words. cbv zeta. intros H. exists (Simple n d v r'), n.
        split; [apply complex_is; auto|]. split; [apply simple_is|].
        destruct (chars n) as [|c t] eqn:C; [cbn in H; destruct (stoi n) eqn:Z0; [|cbn in H; discriminate H]|].
        { right. exists z. split; [apply stoi_leading; exact Z0|]. revert H. yes. lia. }
        destruct (Ascii.eqb c "X") eqn:X.
        -- apply Ascii.eqb_eq in X. subst c.
           destruct (enclosed ("X"%char :: t)) as [h|] eqn:EN.
           ++ destruct (is_value_hexa h) eqn:V.
              ** left. unfold is_value_hexa in V. apply andb_true_iff in V. destruct V as [V1 V2].
                 assert (h <> []) as HN by (destruct h; [discriminate V1|discriminate]).
                 rewrite (stoul_digits h V2 HN) in H. exists (hexadecimal 0 h).
                 destruct (hexadecimal 0 h <? 2 ^ 64)%Z eqn:B; [|cbn in H; discriminate H]. revert H. yes. intros H.
                 split; [|lia]. apply hex_literal_spec; auto; [rewrite C; exact EN|unfold first_char; rewrite C; reflexivity].
              ** right. destruct (stoi n) as [z|] eqn:Z0; [|cbn in H; discriminate H]. exists z.
                 split; [apply stoi_leading; exact Z0|]. revert H. yes. lia.
           ++ right. destruct (stoi n) as [z|] eqn:Z0; [|cbn in H; discriminate H]. exists z.
              split; [apply stoi_leading; exact Z0|]. revert H. yes. lia.
        -- right. destruct (stoi n) as [z|] eqn:Z0; [|cbn in H; discriminate H]. exists z.
           split; [apply stoi_leading; exact Z0|]. revert H. yes. lia.
    + intros [H|[(q & s & z & C & T & L & B)|(q & s & C & T & H)]]; [tauto|..];
        apply complex_is in C; destruct C as [-> ->]; unfold text in T; destruct T as (d & v & r' & ->).
      * split; [auto|]. decide_words. apply stoi_leading in L. rewrite L. yes. unfold is_byte. lia.
      * split; [auto|]. decide_words. cbv zeta. destruct H as [(z & HL & B)|(z & L & B)].
        -- apply hex_literal_inv in HL. destruct HL as (h & C & EN & V & N & ->). rewrite C in *.
           rewrite Ascii.eqb_refl, EN. unfold is_value_hexa. rewrite V.
           assert (negb (match h with [] => true | _ => false end) && true = true) as -> by (destruct h; [congruence|reflexivity]).
           rewrite (stoul_digits h V N). assert ((hexadecimal 0 h <? 2 ^ 64)%Z = true) as -> by lia. yes. lia.
        -- assert (forall c t, chars s = c :: t -> Ascii.eqb c "X" = false) as NX.
           { intros c t C. destruct L as (bl & sg & ds & rest & E & FB & SG & N & D0 & _). fold (chars s) in E. rewrite C in E.
             destruct (Ascii.eqb c "X") eqn:X; [|reflexivity]. exfalso. apply Ascii.eqb_eq in X. subst c.
             destruct bl as [|x bl].
             - cbn [app] in E. cbn [In] in SG. destruct SG as [<-|[<-|[<-|[]]]]; cbn [app] in E; try discriminate E.
               destruct ds as [|x ds]; [congruence|]. cbn [app] in E. injection E as <- _.
               specialize (D0 "X"%char (or_introl eq_refl)). cbn in D0. decompose [or] D0; try discriminate; tauto.
             - cbn [app] in E. injection E as <- _. inversion FB as [|? ? BX _]; subst. unfold blank in BX. cbn in BX. lia. }
           assert (match chars s with
                   | [] => None
                   | c :: _ => if Ascii.eqb c "X" then match enclosed (chars s) with
                                                       | Some h => if is_value_hexa h then Some h else None
                                                       | None => None
                                                       end else None
                   end = None) as ->
             by (destruct (chars s) as [|c t] eqn:C; [reflexivity|rewrite (NX c t eq_refl); reflexivity]).
           apply stoi_leading in L. rewrite L. yes. lia.
  - rewrite word_empty. yes. split; [tauto|]. intros H. decompose [or] H; crush.
Qed.

Lemma xref_yes ps : ps <> [] -> fst (check_xref ps) = Yes <-> Xref ps.
Proof.
  intros N. unfold check_xref, Xref. destruct ps as [|o t]; [congruence|].
  assert (forall l, fst (each (fun p => need (keyword ["SHORT"; "UNREFS"] p) "A224" (op_range p)) l) = Yes
                    <-> Forall (word ["SHORT"; "UNREFS"]) l) as SU.
  { intros l. yes. apply Forall_iff. intros p. yes. reflexivity. }
  destruct o as [id d v r|id qs r|r].
  - destruct t as [|p t].
    + destruct (String.eqb id "FULL") eqn:E.
      * apply String.eqb_eq in E. subst id. yes. split; [|tauto]. intros _. left. eexists. split; [reflexivity|].
        apply word_simple. cbn. auto.
      * rewrite SU. split; [auto|]. intros [(p & E' & W)|[_ H]]; [|exact H]. injection E' as <-.
        apply word_simple in W. cbn in W. destruct W as [<-|[]]. discriminate E.
    + rewrite SU. split; [auto|]. intros [(q & E' & W)|[_ H]]; [discriminate E'|exact H].
  - yes. split; [tauto|]. intros [(q & E' & W)|[_ H]].
    + injection E' as <- ->. apply word_complex in W. exact W.
    + inversion H as [|? ? W _]; subst. apply word_complex in W. exact W.
  - yes. split; [tauto|]. intros [(q & E' & W)|[_ H]].
    + injection E' as <- ->. apply word_empty in W. exact W.
    + inversion H as [|? ? W _]; subst. apply word_empty in W. exact W.
Qed.

Lemma suprwarn_yes ps :
  fst (check_suprwarn ps) = Yes <-> Forall (fun p => exists s, text p s /\ digits s /\ (1 <= String.length s <= 4)%nat) ps.
Proof.
  unfold check_suprwarn. yes. apply Forall_iff. intros o. destruct o as [id d v r|id qs r|r].
  - yes. rewrite digits_spec. split.
    + intros [D0 L]. exists id. split; [apply simple_is|]. split; [exact D0|lia].
    + intros (s & T & D0 & L). apply text_simple in T. subst s. split; [exact D0|lia].
  - yes. split; [tauto|]. intros H. crush.
  - yes. split; [tauto|]. intros H. crush.
Qed.

Lemma pcontrol_yes ps :
  fst (check_pcontrol ps) = Yes <->
  Forall (word (["ON"; "OFF"] ++ with_no ["DATA"; "GEN"; "MCALL"; "MC"; "MSOURCE"; "MS"; "UHEAD"; "UHD"])) ps.
Proof. unfold check_pcontrol. yes. apply Forall_iff. intros o. yes. apply word_same. same_words. Qed.

Lemma process_flag_yes ps :
  fst (check_process_flag ps) = Yes <-> Forall (fun p => Flag p \/ word (with_no ["PUSH"; "PU"; "RECORD"; "RC"]) p) ps.
Proof.
  unfold check_process_flag. yes. apply Forall_iff. intros o. destruct o as [id d v r|id qs r|r].
  - rewrite word_simple. pose proof (flag_operand_yes id d v r) as F.
    assert (mem id other_pairs = true <-> In id (with_no ["PUSH"; "PU"; "RECORD"; "RC"])) as M.
    { rewrite mem_in. revert id F. intros id _. revert id. same_words. }
    rewrite <- F, <- M. destruct (check_flag_operand id d v r) as [w ds]. destruct w; cbn [fst].
    + split; auto.
    + destruct (mem id other_pairs); cbn [fst]; intuition congruence.
    + destruct (mem id other_pairs); cbn [fst]; intuition congruence.
    + destruct (mem id other_pairs); cbn [fst]; intuition congruence.
  - rewrite word_complex. yes. split; [tauto|]. intros [H|H]; [|exact H]. apply Flag_simple in H. crush.
  - rewrite word_empty. yes. split; [tauto|]. intros [H|H]; [|exact H]. apply Flag_simple in H. crush.
Qed.

(** ** The options with parameters, one kind after another *)

Definition option_ok (id : string) (ps : list op) (r : rng) : Prop := fst (check_process_operand (Complex id ps r)) = Yes.

Ltac start M := unfold option_ok; cbn [check_process_operand]; each_word M; decide_words; yes.

Lemma opt_codepage id ps r : In id ["CODEPAGE"; "CP"] ->
  option_ok id ps r <-> exists p s, ps = [p] /\ text p s /\ Codepage s.
Proof.
  intros M. start M;
  (split; [intros [_ H]; destruct ps as [|p [|q t]]; try (cbn in H; discriminate H);
           destruct p as [i d v r'| |]; try (cbn in H; discriminate H);
           eexists _, i; split; [reflexivity|]; split; [apply simple_is|]; apply codepage_yes; exact H
          |intros (p & s & -> & T & C); unfold text in T; destruct T as (d & v & r' & ->); split; [reflexivity|];
           apply codepage_yes; exact C]).
Qed.

Lemma opt_info ps r : option_ok "INFO" ps r <-> exists t v r', ps = [Simple t false v r'] /\ Date t.
Proof.
  unfold option_ok; cbn [check_process_operand]; decide_words; yes. split.
  - intros [_ H]. destruct ps as [|p [|q t]]; try (cbn in H; discriminate H). revert H. yes. intros H.
    destruct p as [i d v r'| |]; try discriminate H. destruct d; [discriminate H|].
    exists i, v, r'. split; [reflexivity|]. apply date_yes. exact H.
  - intros (t & v & r' & -> & D0). split; [reflexivity|]. yes. apply date_yes in D0. rewrite D0. reflexivity.
Qed.

Lemma opt_mxref id ps r : In id ["MXREF"; "MX"] ->
  option_ok id ps r <-> exists p, ps = [p] /\ word ["FULL"; "SOURCE"; "XREF"] p.
Proof.
  intros M. start M;
  (split; [intros [_ H]; destruct ps as [|p [|q t]]; try (cbn in H; discriminate H); revert H; yes; intros H; exists p; auto
          |intros (p & -> & W); split; [reflexivity|]; yes; exact W]).
Qed.

Lemma opt_sectalgn ps r : option_ok "SECTALGN" ps r <-> exists p z, ps = [p] /\ literal p z /\ power_of_two 8 4096 z.
Proof.
  unfold option_ok; cbn [check_process_operand]; decide_words; yes. split.
  - intros [_ H]. destruct ps as [|p [|q t]]; try (cbn in H; discriminate H).
    destruct p as [i d v r'| |]; try (cbn in H; discriminate H). revert H. yes. intros [L P].
    exists (Simple i d v r'), v. split; [reflexivity|]. split; [apply literal_simple; auto|].
    apply power_range; [lia..|]. rewrite <- P, <- !andb_assoc, (andb_comm (negb (4096 <? v)%Z)). reflexivity.
  - intros (p & z & -> & L & P). split; [reflexivity|].
    destruct p as [i d v r'| |]; [|exfalso; unfold literal in L; crush..].
    apply literal_simple in L. destruct L as [L <-]. yes. split; [exact L|].
    apply power_range in P; [|lia..]. rewrite <- P, <- !andb_assoc, (andb_comm (negb (4096 <? v)%Z)). reflexivity.
Qed.

Lemma opt_profile id ps r : In id ["PROFILE"; "PROF"] -> option_ok id ps r <-> exists p, ps = [p].
Proof.
  intros M. start M;
  (split; [intros [_ H]; destruct ps as [|p [|q t]]; try (cbn in H; discriminate H); exists p; auto
          |intros (p & ->); split; [reflexivity|]; yes; exact Logic.I]).
Qed.

Lemma opt_machine id ps r : In id ["MACHINE"; "MAC"] ->
  option_ok id ps r <->
  exists a t, ps = a :: t
        /\ word ["S370"; "S370XA"; "S370ESA"; "S390"; "S390E"; "ZSERIES"; "ZS";
                 "ZSERIES-2"; "ZSERIES-3"; "ZSERIES-4"; "ZSERIES-5"; "ZSERIES-6"; "ZSERIES-7"; "ZSERIES-8";
                 "ZS-2"; "ZS-3"; "ZS-4"; "ZS-5"; "ZS-6"; "ZS-7"; "ZS-8"] a
        /\ (t = [] \/ exists b, t = [b] /\ word ["LIST"; "NOLIST"] b).
Proof.
  intros M.
  assert (forall a, word machine_words a <-> word ["S370"; "S370XA"; "S370ESA"; "S390"; "S390E"; "ZSERIES"; "ZS";
                 "ZSERIES-2"; "ZSERIES-3"; "ZSERIES-4"; "ZSERIES-5"; "ZSERIES-6"; "ZSERIES-7"; "ZSERIES-8";
                 "ZS-2"; "ZS-3"; "ZS-4"; "ZS-5"; "ZS-6"; "ZS-7"; "ZS-8"] a) as W by (intros a; apply word_same; same_words).
  start M;
  (split;
   [intros (_ & L & H); destruct ps as [|a [|b [|c t]]]; try (cbn in L; discriminate L); revert H; yes; intros [H1 H2];
    [exists a, []; split; [reflexivity|]; split; [apply W; exact H1|auto]
    |exists a, [b]; split; [reflexivity|]; split; [apply W; exact H1|]; right; exists b; revert H2; yes; auto]
   |intros (a & t & -> & H & [->|(b & -> & H')]); (split; [reflexivity|]); (split; [reflexivity|]); yes;
    (split; [apply W; exact H|]); auto]).
Qed.

Lemma opt_optable id ps r : In id ["OPTABLE"; "OP"] -> option_ok id ps r <-> Optable ps.
Proof.
  intros M. start M;
  (split; [intros (_ & L & H); apply optable_yes; [destruct ps; [discriminate L|discriminate]|lia|exact H]
          |intros H; destruct (Optable_size _ H) as [N L]; split; [reflexivity|];
           split; [destruct ps; [congruence|cbn [List.length] in *; lia]|apply optable_yes; auto]]).
Qed.

Lemma opt_plus id ps r (f : list op -> res) (P : Prop) :
  (ps <> [] -> (fst (f ps) = Yes <-> P)) ->
  option_ok id ps r <-> True /\ negb (List.length ps =? 0)%nat = true /\ fst (f ps) = Yes ->
  option_ok id ps r <-> ps <> [] /\ P.
Proof.
  intros F E. rewrite E, length_zero. split.
  - intros (_ & N & H). split; [exact N|]. apply F; auto.
  - intros (N & H). split; [exact Logic.I|]. split; [exact N|]. apply F; auto.
Qed.

Ltac plus M f := intros M; apply (opt_plus _ _ _ f); [intros N|start M; tauto].

Lemma opt_compat id ps r : In id ["COMPAT"; "CPAT"] -> option_ok id ps r <-> ps <> [] /\ Forall Compat ps.
Proof. plus M check_compat. apply compat_yes. Qed.
Lemma opt_typecheck id ps r : In id ["TYPECHECK"; "TC"] -> option_ok id ps r <-> ps <> [] /\ Forall Typecheck ps.
Proof. plus M check_typecheck. apply typecheck_yes. Qed.
Lemma opt_pcontrol id ps r : In id ["PCONTROL"; "PC"] -> option_ok id ps r <-> ps <> []
  /\ Forall (word (["ON"; "OFF"] ++ with_no ["DATA"; "GEN"; "MCALL"; "MC"; "MSOURCE"; "MS"; "UHEAD"; "UHD"])) ps.
Proof. plus M check_pcontrol. apply pcontrol_yes. Qed.
Lemma opt_suprwarn id ps r : In id ["SUPRWARN"; "SUP"; "NOSUPRWARN"; "NOSUP"] -> option_ok id ps r <-> ps <> []
  /\ Forall (fun p => exists s, text p s /\ digits s /\ (1 <= String.length s <= 4)%nat) ps.
Proof. plus M check_suprwarn. apply suprwarn_yes. Qed.
Lemma opt_xref id ps r : In id ["XREF"] -> option_ok id ps r <-> ps <> [] /\ Xref ps.
Proof. plus M check_xref. apply xref_yes. exact N. Qed.
Lemma opt_flag id ps r : In id ["FLAG"] -> option_ok id ps r <-> ps <> []
  /\ Forall (fun p => Flag p \/ word (with_no ["PUSH"; "PU"; "RECORD"; "RC"]) p) ps.
Proof. plus M check_process_flag. apply process_flag_yes. Qed.

Lemma opt_fail ps r : option_ok "FAIL" ps r <-> Forall (word ["NOMSG"; "NOMNOTE"]) ps.
Proof. unfold option_ok; cbn [check_process_operand]; decide_words; yes. rewrite fail_param_yes. tauto. Qed.
Lemma opt_using id ps r : In id ["USING"; "US"] -> option_ok id ps r <-> Forall Process_using ps.
Proof. intros M. start M; rewrite using_param_yes; tauto. Qed.

Definition option_names : list string :=
  one_simple_param ++ one_plus_params ++ two_simple_param ++ complex_params.

Lemma option_named id ps r : option_ok id ps r -> In id option_names.
Proof.
  unfold option_ok, option_names. cbn [check_process_operand]. yes. intros [H _].
  rewrite !orb_true_iff, !mem_in in H. rewrite !in_app_iff. tauto.
Qed.

Lemma process_operand_yes o : fst (check_process_operand o) = Yes <-> Process_option o.
Proof.
  destruct o as [id d v r|id ps r|r].
  - cbn [check_process_operand]. unfold Process_option. yes. rewrite word_simple, mem_in. split.
    + intros H. left. revert id H. intros id. apply in_forallb. vm_compute. reflexivity.
    + intros [H|H]; [|exfalso; decompose [or] H; crush].
      revert id H. intros id. apply in_forallb. vm_compute. reflexivity.
  - fold (option_ok id ps r). unfold Process_option. rewrite word_complex. split.
    + intros H. right. pose proof (option_named _ _ _ H) as M.
      assert (In id ["CODEPAGE"; "CP"] \/ id = "INFO" \/ In id ["MXREF"; "MX"] \/ id = "SECTALGN"
              \/ In id ["PROFILE"; "PROF"] \/ In id ["MACHINE"; "MAC"] \/ In id ["OPTABLE"; "OP"]
              \/ In id ["COMPAT"; "CPAT"] \/ In id ["TYPECHECK"; "TC"] \/ In id ["PCONTROL"; "PC"] \/ id = "XREF"
              \/ In id ["SUPRWARN"; "SUP"; "NOSUPRWARN"; "NOSUP"] \/ id = "FLAG" \/ id = "FAIL" \/ In id ["USING"; "US"]) as K
        by (clear H; each_word M; cbn [In]; tauto).
      clear M.
      destruct K as [K|K]; [left|right].
      { apply opt_codepage in H; [|exact K]. destruct H as (p & s & -> & H). exists id, p, s. rewrite complex_is. tauto. }
      destruct K as [K|K]; [left|right].
      { subst id. apply opt_info in H. destruct H as (t & v & r' & -> & D0). exists (Simple t false v r'), t, v, r'.
        rewrite complex_is. auto. }
      destruct K as [K|K]; [left|right].
      { apply opt_mxref in H; [|exact K]. destruct H as (p & -> & H). exists id, p. rewrite complex_is. tauto. }
      destruct K as [K|K]; [left|right].
      { subst id. apply opt_sectalgn in H. destruct H as (p & z & -> & H). exists p, z. rewrite complex_is. tauto. }
      destruct K as [K|K]; [left|right].
      { apply opt_profile in H; [|exact K]. destruct H as (p & ->). exists id, p. rewrite complex_is. tauto. }
      destruct K as [K|K]; [left|right].
      { apply opt_machine in H; [|exact K]. destruct H as (a & t & -> & H). exists id, a, t. rewrite complex_is. tauto. }
      destruct K as [K|K]; [left|right].
      { apply opt_optable in H; [|exact K]. exists id, ps. rewrite complex_is. tauto. }
      destruct K as [K|K]; [left|right].
      { apply opt_compat in H; [|exact K]. exists id, ps. rewrite complex_is. tauto. }
      destruct K as [K|K]; [left|right].
      { apply opt_typecheck in H; [|exact K]. exists id, ps. rewrite complex_is. tauto. }
      destruct K as [K|K]; [left|right].
      { apply opt_pcontrol in H; [|exact K]. exists id, ps. rewrite complex_is. tauto. }
      destruct K as [K|K]; [left|right].
      { apply opt_xref in H; [|subst; cbn; auto]. exists ps. rewrite complex_is. tauto. }
      destruct K as [K|K]; [left|right].
      { apply opt_suprwarn in H; [|exact K]. exists id, ps. rewrite complex_is. tauto. }
      destruct K as [K|K]; [left|right].
      { apply opt_flag in H; [|subst; cbn; auto]. exists ps. rewrite complex_is. tauto. }
      destruct K as [K|K]; [left|right].
      { subst id. apply opt_fail in H. exists ps. rewrite complex_is. tauto. }
      apply opt_using in H; [|exact K]. exists id, ps. rewrite complex_is. tauto.
    + intros [H|H]; [tauto|].
      destruct H as [(i & p & s & C & K & T & H)|H].
      { apply complex_is in C. destruct C as [-> ->]. apply opt_codepage; eauto. }
      destruct H as [(p & t & v & r' & C & -> & H)|H].
      { apply complex_is in C. destruct C as [-> ->]. apply opt_info; eauto. }
      destruct H as [(i & p & C & K & H)|H].
      { apply complex_is in C. destruct C as [-> ->]. apply opt_mxref; eauto. }
      destruct H as [(p & z & C & K & H)|H].
      { apply complex_is in C. destruct C as [-> ->]. apply opt_sectalgn; eauto. }
      destruct H as [(i & p & C & K)|H].
      { apply complex_is in C. destruct C as [-> ->]. apply opt_profile; eauto. }
      destruct H as [(i & a & t & C & K & H)|H].
      { apply complex_is in C. destruct C as [-> ->]. apply opt_machine; [exact K|]. exists a, t. tauto. }
      destruct H as [(i & qs & C & K & H)|H].
      { apply complex_is in C. destruct C as [-> ->]. apply opt_optable; auto. }
      destruct H as [(i & qs & C & K & H)|H].
      { apply complex_is in C. destruct C as [-> ->]. apply opt_compat; auto. }
      destruct H as [(i & qs & C & K & H)|H].
      { apply complex_is in C. destruct C as [-> ->]. apply opt_typecheck; auto. }
      destruct H as [(i & qs & C & K & H)|H].
      { apply complex_is in C. destruct C as [-> ->]. apply opt_pcontrol; auto. }
      destruct H as [(qs & C & H)|H].
      { apply complex_is in C. destruct C as [-> ->]. apply opt_xref; [cbn; auto|]. split; [|exact H].
        destruct H as [(p & -> & _)|[N _]]; [discriminate|exact N]. }
      destruct H as [(i & qs & C & K & H)|H].
      { apply complex_is in C. destruct C as [-> ->]. apply opt_suprwarn; auto. }
      destruct H as [(qs & C & H)|H].
      { apply complex_is in C. destruct C as [-> ->]. apply opt_flag; [cbn; auto|]. exact H. }
      destruct H as [(qs & C & H)|H].
      { apply complex_is in C. destruct C as [-> ->]. apply opt_fail. exact H. }
      destruct H as (i & qs & C & K & H). apply complex_is in C. destruct C as [-> ->]. apply opt_using; auto.
  - cbn [check_process_operand]. unfold Process_option. rewrite word_empty. yes. split; [tauto|].
    intros H. decompose [or] H; crush.
Qed.

Lemma process_yes ops stmt : fst (check_process ops stmt) = Yes <-> Process ops.
Proof.
  unfold check_process, Process. yes. rewrite nonempty.
  assert (forall l, fst (each check_process_operand l) = Yes <-> Forall Process_option l) as EA.
  { intros l. yes. apply Forall_iff. intros o. apply process_operand_yes. }
  split.
  - intros [N H].
    destruct ops as [|o [|o' t]]; [congruence| |].
    + destruct o as [id d v r|id ps r|r]; try (right; split; [exact N|apply EA; exact H]).
      destruct (String.eqb id "OVERRIDE") eqn:E.
      * apply String.eqb_eq in E. subst id. left. eexists _, ps. split; [reflexivity|]. rewrite complex_is.
        split; [auto|]. apply EA. exact H.
      * right. split; [exact N|]. apply EA. exact H.
    + right. split; [exact N|]. apply EA. destruct o; exact H.
  - intros [(o & ps & -> & C & F)|[N F]].
    + split; [discriminate|]. unfold complex in C. destruct C as [r ->]. decide_words. apply EA. exact F.
    + split; [exact N|]. destruct ops as [|o [|o' t]]; [congruence| |destruct o; apply EA; exact F].
      destruct o as [id d v r|id ps r|r]; try (apply EA; exact F).
      destruct (String.eqb id "OVERRIDE") eqn:E; [|apply EA; exact F].
      exfalso. apply String.eqb_eq in E. subst id. inversion F as [|? ? P0 _]; subst.
      apply process_operand_yes in P0. cbn [check_process_operand] in P0.
      change (mem "OVERRIDE" one_simple_param || mem "OVERRIDE" one_plus_params || mem "OVERRIDE" two_simple_param
              || mem "OVERRIDE" complex_params) with false in P0. cbn in P0. discriminate.
Qed.

(** ** All of them *)

Lemma lookup_in A name (l : list (string * A)) a : lookup name l = Some a -> In (name, a) l.
Proof.
  induction l as [|[n x] t IH]; cbn [lookup]; [discriminate|].
  destruct (String.eqb n name) eqn:E; [apply String.eqb_eq in E; subst; intros H; injection H as ->; left; reflexivity|].
  intros H. right. auto.
Qed.

Lemma check_accepts name P ops stmt :
  lookup name accepts = Some P -> fst (asm_check name ops stmt) = Yes <-> P ops.
Proof.
  intros L. pose proof (lookup_in _ _ _ _ L) as I0. unfold asm_check.
  assert (forall c : res, fst (let (v, ds) := c in
            match v with Yes => (Yes, ds) | Undefined => (Undefined, ds) | _ => (No, ds) end) = Yes <-> fst c = Yes) as TH.
  { intros [[] ds]; cbn; intuition congruence. }
  unfold accepts in I0. cbn [In] in I0.
  repeat match type of I0 with _ \/ _ => destruct I0 as [I0|I0] end; [..|destruct I0].
  all: injection I0 as <- <-.
  all: match goal with |- context [lookup ?n checkers] =>
         let v := eval lazy [lookup checkers String.eqb Ascii.eqb Bool.eqb] in (lookup n checkers) in
         change (lookup n checkers) with v; cbv iota end.
  all: rewrite TH.
  all: first [ apply process_yes | apply acontrol_yes | apply adata_yes | apply ainsert_yes | apply alias_yes
             | apply amode_yes | apply cattr_yes | apply ccw_yes | apply expr_yes | apply cnop_yes | apply none_yes
             | apply copy_yes | apply drop_yes | apply dxd_no | apply end_yes | apply entry_yes | apply equ_yes
             | apply exitctl_yes | apply external_yes | apply ictl_yes | apply iseq_yes | apply mnote_yes
             | apply opsyn_yes | apply org_yes | apply stack_yes | apply print_yes | apply punch_yes
             | apply rmode_yes | apply title_yes | apply using_instr_yes | apply xattr_yes ].
Qed.

(** the same names in both tables *)
Lemma same_names : map fst checkers = map fst accepts.
Proof. reflexivity. Qed.

Lemma lookup_none A name (l : list (string * A)) : lookup name l = None <-> ~ In name (map fst l).
Proof.
  induction l as [|[n x] t IH]; cbn [lookup map fst In]; [tauto|].
  destruct (String.eqb n name) eqn:E.
  - apply String.eqb_eq in E. split; [discriminate|tauto].
  - apply String.eqb_neq in E. rewrite IH. tauto.
Qed.

Lemma check_unknown name ops stmt : lookup name accepts = None -> asm_check name ops stmt = (No, []).
Proof.
  intros L. unfold asm_check.
  assert (lookup name checkers = None) as ->; [|reflexivity].
  apply lookup_none. rewrite same_names. apply lookup_none. exact L.
Qed.
