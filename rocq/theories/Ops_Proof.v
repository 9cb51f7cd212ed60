From Coq Require Import List NArith Bool Lia.
From Verif Require Import Common Var_Proof Ops_Model Ops_Spec.
Import ListNotations.

Lemma find_assign {A} n m (a : A) l : find n (assign m a l) = if bytes_eqb n m then Some a else find n l.
Proof. reflexivity. Qed.

Section Tables.
Variable instruction_map : id -> option kind.
Variable library : id -> option (option definition).
Notation goc := (get_operation_code instruction_map).

(** Every recorded operation code is either a deletion or a whole operation code. *)
Definition whole (o : opcode_t) : Prop :=
  match opcode_detail o with Mono => o = no_opcode | _ => exists n, opcode o = Some n end.
Definition ok (c : context) : Prop := forall n o, find n (opcode_mnemo c) = Some o -> whole o.

Lemma ok_initial : ok initial.
Proof. intros n o H. discriminate. Qed.
Lemma goc_whole c n : ok c -> whole (goc c n).
Proof.
  intros H. unfold get_operation_code. destruct (find n (opcode_mnemo c)) as [o|] eqn:E.
  - exact (H _ _ E).
  - destruct (find n (macros c)); [exists n; reflexivity|].
    destruct (instruction_map n); [exists n; reflexivity|reflexivity].
Qed.
Lemma whole_none o : whole o -> is_some o = false -> o = no_opcode.
Proof. unfold whole, is_some. destruct (opcode_detail o); congruence. Qed.

Lemma add_mnemonic_spec c l s : is_some (goc c s) = true ->
  add_mnemonic instruction_map c l s
  = Some {| opcode_mnemo := assign l (goc c s) (opcode_mnemo c); macros := macros c |}.
Proof.
  unfold add_mnemonic, get_operation_code. destruct (find s (opcode_mnemo c)) as [o|].
  - intros ->. reflexivity.
  - destruct (find s (macros c)); [reflexivity|]. destruct (instruction_map s); [reflexivity|discriminate].
Qed.
Lemma remove_mnemonic_spec c l : is_some (goc c l) = true ->
  remove_mnemonic instruction_map c l
  = Some {| opcode_mnemo := assign l no_opcode (opcode_mnemo c); macros := macros c |}.
Proof.
  unfold remove_mnemonic, get_operation_code, is_opcode. destruct (find l (opcode_mnemo c)) as [o|]; [reflexivity|].
  destruct (find l (macros c)); [reflexivity|]. destruct (instruction_map l); [reflexivity|discriminate].
Qed.

(** What OPSYN does to any context. *)
Inductive opsyn_effect (c : context) (label : id) (op : opsyn_operand) : context -> option error -> Prop :=
| Eff_label : label = [] -> opsyn_effect c label op c (Some NoLabel)
| Eff_given s : label <> [] -> op = Symbol s -> s <> [] -> is_some (goc c s) = true ->
    opsyn_effect c label op
      {| opcode_mnemo := assign label (goc c s) (opcode_mnemo c); macros := macros c |} None
| Eff_unknown s : label <> [] -> op = Symbol s -> s <> [] -> is_some (goc c s) = false ->
    opsyn_effect c label op c (Some A246)
| Eff_deleted : label <> [] -> operand_id op = [] -> is_some (goc c label) = true ->
    opsyn_effect c label op
      {| opcode_mnemo := assign label no_opcode (opcode_mnemo c); macros := macros c |} None
| Eff_absent : label <> [] -> operand_id op = [] -> is_some (goc c label) = false ->
    opsyn_effect c label op c (Some E049).

Lemma process_OPSYN_effect c label op :
  exists c' e, process_OPSYN instruction_map c label op = Done c' e /\ opsyn_effect c label op c' e.
Proof.
  unfold process_OPSYN. destruct label as [|x label].
  - eexists _, _. split; [reflexivity|]. apply Eff_label. reflexivity.
  - assert (HL : x :: label <> []) by discriminate. revert HL. generalize (x :: label) as lab. intros lab HL.
    destruct (operand_id op) as [|y s] eqn:Eo.
    + destruct (is_some (goc c lab)) eqn:Es.
      * rewrite (remove_mnemonic_spec c lab Es). eexists _, _. split; [reflexivity|]. apply Eff_deleted; assumption.
      * eexists _, _. split; [reflexivity|]. apply Eff_absent; assumption.
    + destruct op as [|s'|]; try discriminate. cbn in Eo. subst s'.
      assert (HS : y :: s <> []) by discriminate. revert HS. generalize (y :: s) as t. intros t HS.
      destruct (is_some (goc c t)) eqn:Es.
      * rewrite (add_mnemonic_spec c lab t Es). eexists _, _. split; [reflexivity|]. eapply Eff_given; eauto.
      * eexists _, _. split; [reflexivity|]. eapply Eff_unknown; eauto.
Qed.

Lemma goc_assign c l o n :
  goc {| opcode_mnemo := assign l o (opcode_mnemo c); macros := macros c |} n
  = if bytes_eqb n l then o else goc c n.
Proof. unfold get_operation_code. cbn [opcode_mnemo macros]. rewrite find_assign. destruct (bytes_eqb n l); reflexivity. Qed.
Lemma goc_macro c m d n :
  goc (add_macro c m d) n
  = match find n (opcode_mnemo c) with
    | Some o => o
    | None => if bytes_eqb n m then {| opcode := Some n; opcode_detail := Mac d |} else goc c n
    end.
Proof.
  unfold get_operation_code, add_macro. cbn [opcode_mnemo macros]. rewrite find_assign.
  destruct (find n (opcode_mnemo c)); [reflexivity|]. destruct (bytes_eqb n m); reflexivity.
Qed.

(** The context after a statement: unchanged, or with the library's macro. *)
Lemma run_statement_context c i :
  fst (run_statement instruction_map library c i)
  = match opcode_detail (goc c i), opcode (goc c i), i, library i with
    | (Mono | Instr _), None, _ :: _, Some (Some d) => add_macro c i d
    | _, _, _, _ => c
    end.
Proof.
  unfold run_statement. destruct (opcode_detail (goc c i)); try reflexivity;
    (destruct (opcode (goc c i)); [reflexivity|]); (destruct i; [reflexivity|]);
    destruct (library _) as [[d|]|]; reflexivity.
Qed.

Lemma ok_step c e : ok c -> exists c', step instruction_map library c e = Some c' /\ ok c'.
Proof.
  intros H. destruct e as [label op|m d|i]; cbn [step].
  - destruct (process_OPSYN_effect c label op) as (c' & e & -> & E). exists c'. split; [reflexivity|].
    destruct E as [?|s ? ? ? Es|s ? ? ? Es|? ? Es|? ? Es]; try exact H.
    + intros n o. cbn [opcode_mnemo]. rewrite find_assign. destruct (bytes_eqb n label).
      * intros [= <-]. apply goc_whole. exact H.
      * apply H.
    + intros n o. cbn [opcode_mnemo]. rewrite find_assign. destruct (bytes_eqb n label).
      * intros [= <-]. reflexivity.
      * apply H.
  - eexists. split; [reflexivity|]. exact H.
  - eexists. split; [reflexivity|]. rewrite run_statement_context.
    destruct (opcode_detail (goc c i)); try exact H; (destruct (opcode (goc c i)); [exact H|]); (destruct i; [exact H|]);
    destruct (library _) as [[d|]|]; exact H.
Qed.
Lemma run_ok l : forall c, ok c -> exists c', run instruction_map library c l = Some c' /\ ok c'.
Proof.
  induction l as [|e l IH]; intros c H; cbn [run].
  - exists c. split; [reflexivity|exact H].
  - destruct (ok_step c e H) as (c1 & -> & H1). exact (IH _ H1).
Qed.
Lemma run_app l1 : forall l2 c,
  run instruction_map library c (l1 ++ l2)
  = match run instruction_map library c l1 with Some c' => run instruction_map library c' l2 | None => None end.
Proof.
  induction l1 as [|e l1 IH]; intros l2 c; cbn [run app]; [reflexivity|].
  destruct (step _ _ c e); [apply IH|reflexivity].
Qed.

(** What a statement does, by what its operation code shows. *)
Lemma macro_found c n d : opcode_detail (goc c n) = Mac d -> get_macro_definition c n = Some d.
Proof.
  unfold get_operation_code, get_macro_definition. destruct (find n (opcode_mnemo c)) as [[o dt]|].
  - cbn [opcode_detail]. intros ->. reflexivity.
  - destruct (find n (macros c)) as [d'|]; [|destruct (instruction_map n); discriminate]. cbn. congruence.
Qed.
Lemma run_shows c n o : shows (goc c n) (Some o) ->
  run_statement instruction_map library c n = (c, match o with OMacro d => Calls d | OInstr m k => Runs m k end).
Proof.
  intros H. unfold run_statement. destruct o as [d|m k]; cbn [shows] in H.
  - rewrite H, (macro_found c n d H). reflexivity.
  - rewrite H. reflexivity.
Qed.
Lemma run_none c n : goc c n = no_opcode -> n <> [] ->
  run_statement instruction_map library c n
  = match library n with
    | Some (Some d) => (add_macro c n d, Calls d)
    | Some None => (c, match find n (macros c) with Some d => Calls d | None => Undefined end)
    | None => (c, Undefined)
    end.
Proof.
  intros H Hn. unfold run_statement. rewrite H. cbn [opcode_detail opcode no_opcode].
  destruct n as [|x n]; [contradiction|]. destruct (library (x :: n)) as [[d|]|] eqn:El; [| |reflexivity].
  - cbn [add_macro macros]. rewrite find_assign, bytes_eqb_refl.
    unfold get_macro_definition. cbn [add_macro opcode_mnemo macros]. rewrite find_assign, bytes_eqb_refl.
    unfold get_operation_code in H. destruct (find (x :: n) (opcode_mnemo c)) as [o|]; [subst o; reflexivity|reflexivity].
  - unfold get_macro_definition. unfold get_operation_code in H.
    destruct (find (x :: n) (opcode_mnemo c)) as [o|]; [subst o; cbn|].
    + destruct (find (x :: n) (macros c)); reflexivity.
    + destruct (find (x :: n) (macros c)); reflexivity.
Qed.

Lemma shows_is_some o m : shows o m -> is_some o = match m with Some _ => true | None => false end.
Proof. destruct m as [[d|n k]|]; cbn [shows]; unfold is_some; [intros ->|intros ->|intros ->]; reflexivity. Qed.

Lemma macros_first_tail e h : macros_first instruction_map library (e :: h) -> macros_first instruction_map library h.
Proof. intros H h2 e1 h1 n op -> Hd. apply (H (e :: h2) e1 h1 n op); [reflexivity|exact Hd]. Qed.

(** The history decides what every mnemonic stands for. *)
Lemma follows h : macros_first instruction_map library h -> Forall named h ->
  exists c, run instruction_map library initial (rev h) = Some c
  /\ (forall n, shows (goc c n) (stands instruction_map library h n))
  /\ (forall n o, find n (opcode_mnemo c) = Some o -> exists op, In (Opsyn n op) h).
Proof.
  induction h as [|e h IH]; intros HM HN.
  - exists initial. split; [reflexivity|]. split; [|discriminate]. intros n. unfold get_operation_code. cbn.
    destruct (instruction_map n); reflexivity.
  - inversion HN as [|x y Hn HN']; subst x y.
    destruct (IH (macros_first_tail e h HM) HN') as (c & Hr & Hs & Ho). clear IH.
    cbn [rev]. rewrite run_app, Hr. cbn [run].
    destruct e as [label op|m d|i].
    + cbn [step]. destruct (process_OPSYN_effect c label op) as (c' & er & -> & E). exists c'.
      split; [reflexivity|]. destruct Hn as (Hn1 & Hn2). cbn [stands].
      assert (Hkeep : (forall n, shows (goc c n) (stands instruction_map library (Opsyn label op :: h) n)) ->
        (forall n, shows (goc c n) (stands instruction_map library (Opsyn label op :: h) n)) /\
        (forall n o, find n (opcode_mnemo c) = Some o -> exists op0, In (Opsyn n op0) (Opsyn label op :: h))).
      { intros H. split; [exact H|]. intros n o F. destruct (Ho n o F) as (q & Hq). exists q. right. exact Hq. }
      assert (Hset : forall v o, find v (assign label o (opcode_mnemo c)) = Some o -> True) by trivial.
      destruct E as [?|s ? -> ? Es|s ? -> ? Es|? Eo Es|? Eo Es]; [contradiction| | | |].
      * split.
        -- intros n. rewrite goc_assign. destruct (bytes_eqb n label) eqn:Eb; [|apply Hs].
           pose proof (shows_is_some _ _ (Hs s)) as Hi. rewrite Es in Hi. specialize (Hs s).
           destruct (stands instruction_map library h s); [exact Hs|discriminate].
        -- intros n o. cbn [opcode_mnemo]. rewrite find_assign. destruct (bytes_eqb n label) eqn:Eb.
           ++ intros _. apply bytes_eqb_eq in Eb. subst n. eexists. left. reflexivity.
           ++ intros F. destruct (Ho n o F) as (q & Hq). exists q. right. exact Hq.
      * apply Hkeep. intros n. cbn [stands]. destruct (bytes_eqb n label) eqn:Eb; [|apply Hs].
        pose proof (shows_is_some _ _ (Hs s)) as Hi. rewrite Es in Hi.
        destruct (stands instruction_map library h s); [discriminate|]. apply Hs.
      * split.
        -- intros n. rewrite goc_assign. destruct (bytes_eqb n label) eqn:Eb; [|apply Hs].
           destruct op as [|s|]; try reflexivity. cbn in Eo. subst s. destruct (Hn2 eq_refl).
        -- intros n o. cbn [opcode_mnemo]. rewrite find_assign. destruct (bytes_eqb n label) eqn:Eb.
           ++ intros _. apply bytes_eqb_eq in Eb. subst n. eexists. left. reflexivity.
           ++ intros F. destruct (Ho n o F) as (q & Hq). exists q. right. exact Hq.
      * apply Hkeep. intros n. cbn [stands]. destruct (bytes_eqb n label) eqn:Eb; [|apply Hs].
        apply bytes_eqb_eq in Eb. subst n. specialize (Hs label).
        pose proof (shows_is_some _ _ Hs) as Hi. rewrite Es in Hi.
        destruct (stands instruction_map library h label); [discriminate|].
        destruct op as [|s|]; try exact Hs. cbn in Eo. subst s. destruct (Hn2 eq_refl).
    + cbn [step]. exists (add_macro c m d). split; [reflexivity|].
      split; [|intros n o F; destruct (Ho n o F) as (q & Hq); exists q; right; exact Hq].
      intros n. rewrite goc_macro. cbn [stands]. destruct (bytes_eqb n m) eqn:Eb.
      * apply bytes_eqb_eq in Eb. subst n. destruct (find m (opcode_mnemo c)) as [o|] eqn:F; [|reflexivity].
        destruct (Ho m o F) as (q & Hq). destruct (HM [] (Macro m d) h m q eq_refl eq_refl Hq).
      * specialize (Hs n). unfold get_operation_code in Hs |- *. destruct (find n (opcode_mnemo c)); exact Hs.
    + cbn [step]. eexists. split; [reflexivity|].
      pose proof (Hs i) as Hi. cbn [named] in Hn.
      destruct (stands instruction_map library h i) as [o|] eqn:Est.
      * rewrite (run_shows c i o Hi). cbn [fst]. split.
        -- intros n. cbn [stands]. destruct (bytes_eqb n i) eqn:Eb; [|apply Hs].
           apply bytes_eqb_eq in Eb. subst n. rewrite Est. exact Hi.
        -- intros n o' F. destruct (Ho n o' F) as (q & Hq). exists q. right. exact Hq.
      * rewrite (run_none c i Hi Hn).
        assert (Hkeep : (forall d, library i <> Some (Some d)) ->
          (forall n, shows (goc c n) (stands instruction_map library (Statement i :: h) n)) /\
          (forall n o, find n (opcode_mnemo c) = Some o -> exists op0, In (Opsyn n op0) (Statement i :: h))).
        { intros Hl. split.
          - intros n. cbn [stands]. destruct (bytes_eqb n i) eqn:Eb; [|apply Hs].
            apply bytes_eqb_eq in Eb. subst n. rewrite Est.
            destruct (library i) as [[d|]|]; [destruct (Hl d eq_refl)|exact Hi|exact Hi].
          - intros n o F. destruct (Ho n o F) as (q & Hq). exists q. right. exact Hq. }
        destruct (library i) as [[d|]|] eqn:El; cbn [fst].
        -- split; [|intros n o F; destruct (Ho n o F) as (q & Hq); exists q; right; exact Hq].
           intros n. rewrite goc_macro. cbn [stands]. destruct (bytes_eqb n i) eqn:Eb.
           ++ apply bytes_eqb_eq in Eb. subst n. rewrite Est, El.
              destruct (find i (opcode_mnemo c)) as [o|] eqn:F; [|reflexivity].
              destruct (Ho i o F) as (q & Hq).
              assert (Hd : defines instruction_map library (Statement i) h i) by (cbn; eauto).
              destruct (HM [] (Statement i) h i q eq_refl Hd Hq).
           ++ specialize (Hs n). unfold get_operation_code in Hs |- *. destruct (find n (opcode_mnemo c)); exact Hs.
        -- apply Hkeep. congruence.
        -- apply Hkeep. congruence.
Qed.

(** A mnemonic that OPSYN gave a meaning keeps it until the next OPSYN with this label. *)
Lemma opsyn_kept l n : (forall e, In e l -> match e with Opsyn m _ => m <> n | _ => True end) ->
  forall c c' o, find n (opcode_mnemo c) = Some o -> run instruction_map library c l = Some c' ->
  find n (opcode_mnemo c') = Some o.
Proof.
  induction l as [|e l IH]; intros Hl c c' o F; cbn [run].
  - intros [= <-]. exact F.
  - destruct (step instruction_map library c e) as [c1|] eqn:Es; [|discriminate]. intros R.
    refine (IH (fun x Hx => Hl x (or_intror Hx)) c1 c' o _ R).
    pose proof (Hl e (or_introl eq_refl)) as He. destruct e as [label op|m d|i]; cbn [step] in Es.
    + destruct (process_OPSYN_effect c label op) as (c2 & er & E1 & E). rewrite E1 in Es. injection Es as ->.
      destruct E; try exact F; cbn [opcode_mnemo]; rewrite find_assign;
        (destruct (bytes_eqb n label) eqn:Eb; [apply bytes_eqb_eq in Eb; subst; contradiction|exact F]).
    + injection Es as <-. exact F.
    + injection Es as <-. rewrite run_statement_context.
      destruct (opcode_detail (goc c i)); try exact F; (destruct (opcode (goc c i)); [exact F|]); (destruct i; [exact F|]);
      destruct (library _) as [[d|]|]; exact F.
Qed.
End Tables.
