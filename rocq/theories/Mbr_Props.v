(** C85: macro definitions.  C86: copy members.  C87: statements that are read again. *)
From Coq Require Import String List NArith ZArith Bool Arith Lia.
From Verif Require Import Common Mbr_Model Mbr_Spec Mbr_Proof.
Import ListNotations.
Open Scope string_scope.
Open Scope list_scope.
Local Notation length := List.length.

(** ** C85 *)

(** The MEND that ends a definition is determined by the text. *)
Theorem C85_one_end : forall l e r l' e' r', Balanced l -> op e = KMend -> Balanced l' -> op e' = KMend ->
  l ++ e :: r = l' ++ e' :: r' -> l = l' /\ e = e' /\ r = r'.
Proof.
  assert (P : forall l e r l' e' r' n, level n l = Some 0 -> op e = KMend -> level n l' = Some 0 -> op e' = KMend ->
    l ++ e :: r = l' ++ e' :: r' -> l = l' /\ e = e' /\ r = r').
  { induction l as [|s l IH]; intros e r l' e' r' n Hl He Hl' He' E.
    - injection Hl as ->. destruct l' as [|s' l']; cbn in E.
      + injection E as -> ->. auto.
      + injection E as -> _. cbn [level] in Hl'. rewrite He in Hl'. discriminate.
    - destruct l' as [|s' l']; cbn in E.
      + injection E as -> _. injection Hl' as ->. cbn [level] in Hl. rewrite He' in Hl. discriminate.
      + injection E as -> E. cbn [level] in Hl, Hl'.
        assert (exists m, level m l = Some 0 /\ level m l' = Some 0) as (m & A & B).
        { destruct (op s'); eauto. destruct n; [discriminate|eauto]. }
        destruct (IH _ _ _ _ _ _ A He B He' E) as (-> & -> & ->). auto. }
  intros l e r l' e' r' Hl He Hl' He' E. apply (P l e r l' e' r' 0); auto; now apply balanced_iff.
Qed.
Print Assumptions C85_one_end.

Definition after (p : stmt) (n : id) : mdef := Mdef None false false 1 0 false false n [] [] [].

Lemma prototype_named : forall p n, opname p = Some n -> process (start None) p = after p n.
Proof. intros p n H. unfold process, start, after, prototype. cbn. now rewrite H. Qed.

Lemma after_body : forall p n, in_body (after p n). Proof. repeat split. Qed.

(** A definition has the name of its prototype; it is made of the statements from there to its own
    MEND and leaves the rest alone.  Its sequence symbols are those of its own statements, not of
    the definitions inside; the first one with a name counts, each further one is reported, and
    nothing else is. *)
Theorem C85_defined : forall p n l e rest, opname p = Some n -> Balanced l -> op e = KMend ->
  exists labels reports,
    define None (p :: l ++ e :: rest) = (Some (Macro n (map kept (l ++ [e])) labels), reports, rest) /\
    (forall x k, lookup x labels = Some k <-> label_at (l ++ [e]) x k) /\
    (forall k, In (E044 k) reports <-> exists x s j, nth_error (l ++ [e]) k = Some s /\ seq s = Some x /\
       own (l ++ [e]) k /\ label_at (l ++ [e]) x j /\ j < k) /\
    (forall r, In r reports -> exists k, r = E044 k).
Proof.
  intros p n l e rest Hp Hl He.
  assert (Hv : level 0 l = Some 0) by now apply balanced_iff.
  pose proof (steps_body l (after p n) 0 0 (after_body p n) eq_refl Hv) as (Q1 & Q2 & Q3 & Q4 & Q5 & Q6).
  set (d1 := fold_left process l (after p n)) in *.
  destruct (process_body d1 e Q1) as (P1 & P2 & P3 & P4 & P5). rewrite He in P4, P5. rewrite Q2 in P5. cbn in P5.
  set (d2 := process d1 e) in *.
  assert (R : run (start None) (p :: l ++ e :: rest) = (d2, rest)).
  { cbn [run start finished]. rewrite (prototype_named p n Hp), Q6. cbn [run].
    destruct Q1 as (_ & _ & ->). fold d2. destruct rest; cbn [run]; rewrite P5; reflexivity. }
  assert (L : labels_of (l ++ [e]) d2).
  { apply (labels_step l 0); auto. apply (labels_steps l 0); auto using after_body. }
  exists (labels d2), (reports d2). unfold define. rewrite R. cbn [fst].
  split; [|split; [apply L|split; [apply L|]]].
  - unfold result. destruct (same_trans _ _ _ Q3 P1) as (_ & -> & -> & _ & _). cbn [invalid macro_name after].
    rewrite P2, Q4. cbn [body after app]. now rewrite map_app.
  - intros r Hr. destruct r; try (eexists; reflexivity); exfalso;
      (apply (process_other _ _ _ Q1) in Hr; [|intros k; discriminate]);
      (apply (steps_other l (after p n) 0 0 _ (after_body p n) eq_refl Hv) in Hr; [|intros k; discriminate]);
      destruct Hr.
Qed.
Print Assumptions C85_defined.

(** Branching to a sequence symbol goes to the statement that has it. *)
Theorem C85_branch : forall p n l e rest m reports x k, opname p = Some n -> Balanced l -> op e = KMend ->
  define None (p :: l ++ e :: rest) = (Some m, reports, rest) -> lookup x (m_labels m) = Some k ->
  exists s, nth_error (m_body m) k = Some (kept s) /\ nth_error (l ++ [e]) k = Some s /\ seq s = Some x /\ own (l ++ [e]) k.
Proof.
  intros p n l e rest m reports x k Hp Hl He Hd Hx.
  destruct (C85_defined p n l e rest Hp Hl He) as (labels & reports' & E & HL & _).
  rewrite E in Hd. injection Hd as <- <-. cbn [m_labels m_body] in *.
  apply HL in Hx. destruct Hx as [(s & A & B & C) _]. exists s. rewrite (map_nth_error kept _ _ A). auto.
Qed.
Print Assumptions C85_branch.

(** A definition that is not closed is reported and takes the rest of the text. *)
Theorem C85_unclosed : forall p n ts, opname p = Some n ->
  (forall l e r, ts = l ++ e :: r -> Balanced l -> op e <> KMend) ->
  exists labels reports,
    define None (p :: ts) = (Some (Macro n (map kept ts) labels), reports ++ [E046], []) /\
    (forall x k, lookup x labels = Some k <-> label_at ts x k) /\ (forall r, In r reports -> exists k, r = E044 k).
Proof.
  intros p n ts Hp Hno.
  assert (exists m, level 0 ts = Some m) as [m Hv].
  { destruct (close_split ts 0) as [(b & e & r & -> & He & Hb)|H]; [|exact H].
    exfalso. apply (Hno b e r eq_refl); [now apply balanced_iff|exact He]. }
  pose proof (steps_body ts (after p n) 0 m (after_body p n) eq_refl Hv) as (Q1 & Q2 & Q3 & Q4 & Q5 & Q6).
  set (d1 := fold_left process ts (after p n)) in *.
  assert (R : run (start None) (p :: ts) = (end_processing d1, [])).
  { cbn [run start finished]. rewrite (prototype_named p n Hp). rewrite <- (app_nil_r ts) at 1. rewrite Q6. cbn [run].
    destruct Q1 as (_ & _ & ->). reflexivity. }
  exists (labels d1), (reports d1). unfold define. rewrite R. unfold end_processing.
  destruct Q1 as (F1 & F2 & F3). rewrite F3. cbn [result invalid macro_name body labels reports].
  destruct Q3 as (_ & S2 & S3 & _ & _). cbn [invalid macro_name after] in S2, S3.
  unfold result. cbn [invalid macro_name body labels]. rewrite S2, S3, Q4. split; [reflexivity|]. split.
  - apply (labels_steps ts m); auto using after_body.
  - intros r Hr. destruct r; try (eexists; reflexivity); exfalso;
      (apply (steps_other ts (after p n) 0 m _ (after_body p n) eq_refl Hv) in Hr; [|intros k; discriminate]);
      destruct Hr.
Qed.
Print Assumptions C85_unclosed.

(** A member of a library defines a macro if it begins with MACRO and a prototype that has the name
    of the member; otherwise there is one report and no macro. *)
Theorem C85_library : forall n m p x ts, opname p = Some x ->
  define (Some n) (m :: p :: ts) =
  match op m with
  | KMacro => if bytes_eqb x n then define None (p :: ts) else (None, [E060], ts)
  | _ => (None, [E059], p :: ts)
  end.
Proof.
  intros n m p x ts Hp.
  assert (No : op m <> KMacro -> define (Some n) (m :: p :: ts) = (None, [E059], p :: ts)).
  { intros Hm. unfold define. cbn [run start finished].
    assert (process (start (Some n)) m = Mdef (Some n) true true 1 0 true true n [] [] [E059]) as Em
      by (unfold process; cbn [expecting_MACRO start]; destruct (op m); try reflexivity; now destruct Hm).
    rewrite Em. reflexivity. }
  destruct (op m) eqn:Hm; try (apply No; discriminate). clear No.
  assert (Em : process (start (Some n)) m = Mdef (Some n) false true 1 0 false false n [] [] [])
    by (unfold process; cbn [expecting_MACRO start]; now rewrite Hm).
  assert (Ep : process (Mdef (Some n) false true 1 0 false false n [] [] []) p =
    if bytes_eqb x n then Mdef (Some n) false false 1 0 false false x [] [] []
    else Mdef (Some n) false false 1 0 true true n [] [] [E060]).
  { unfold process, prototype. cbn. rewrite Hp. now destruct (bytes_eqb x n). }
  assert (Ei : define None (p :: ts) = let (d, rest) := run (after p x) ts in (result d, reports d, rest)).
  { unfold define. rewrite <- (prototype_named p x Hp). reflexivity. }
  rewrite Ei. unfold define.
  replace (run (start (Some n)) (m :: p :: ts)) with (run (process (process (start (Some n)) m) p) ts)
    by (cbn [run start finished]; rewrite Em; reflexivity).
  rewrite Em, Ep.
  destruct (bytes_eqb x n) eqn:E; [|destruct ts; reflexivity].
  assert (G : forall ts d d', external d = Some n -> external d' = None ->
    expecting_MACRO d = false -> expecting_prototype d = false ->
    expecting_MACRO d' = false -> expecting_prototype d' = false ->
    nest d = nest d' -> line d = line d' -> finished d = finished d' -> invalid d = invalid d' ->
    macro_name d = macro_name d' -> body d = body d' -> labels d = labels d' -> reports d = reports d' ->
    (let (d, rest) := run d ts in (result d, reports d, rest)) = (let (d, rest) := run d' ts in (result d, reports d, rest))).
  { clear. induction ts as [|s ts IH]; intros d d' E1 E2 M1 P1 M2 P2 N L F I B Y Lb R; cbn [run]; rewrite <- F.
    - destruct (finished d) eqn:Fd.
      + unfold result. now rewrite I, B, Y, Lb, R.
      + unfold end_processing. rewrite <- F, Fd. unfold result. cbn. now rewrite I, B, Y, Lb, R.
    - destruct (finished d) eqn:Fd.
      + unfold result. now rewrite I, B, Y, Lb, R.
      + unfold process. rewrite M1, P1, M2, P2.
        assert (Sq : let a := sequence_symbol d s in let b := sequence_symbol d' s in
          external a = Some n /\ external b = None /\ expecting_MACRO a = false /\ expecting_prototype a = false /\
          expecting_MACRO b = false /\ expecting_prototype b = false /\ nest a = nest b /\ line a = line b /\
          finished a = finished b /\ invalid a = invalid b /\ macro_name a = macro_name b /\ body a = body b /\
          labels a = labels b /\ reports a = reports b).
        { unfold sequence_symbol. rewrite N, Lb, L, R.
          destruct (seq s); [|cbn; repeat split; congruence]. destruct (nest d' =? 1)%nat; [|cbn; repeat split; congruence].
          destruct (lookup i (labels d')); cbn; repeat split; congruence. }
        cbn zeta in Sq. destruct Sq as (A1 & A2 & A3 & A4 & A5 & A6 & A7 & A8 & A9 & A10 & A11 & A12 & A13 & A14).
        apply IH; unfold operate; cbn; rewrite ?A7, ?A8, ?A9, ?A10, ?A11, ?A12, ?A13, ?A14; auto. }
  apply G; reflexivity.
Qed.
Print Assumptions C85_library.

(** A blank line after MACRO defines a macro that is called ASPACE. *)
Theorem C85_blank_refuted : exists p ts m reports rest, opname p = None /\
  define None (p :: ts) = (Some m, reports, rest) /\ m_name m = s2b "ASPACE" /\ reports = [E042].
Proof.
  exists (Stmt KOther None None 0), [Stmt KMend (Some (s2b "MEND")) None 1].
  eexists. eexists. eexists. split; [reflexivity|]. split; [reflexivity|]. split; reflexivity.
Qed.
Print Assumptions C85_blank_refuted.

(** An empty member defines a macro without statements, and so does one that ends after MACRO. *)
Theorem C85_empty_refuted : forall n, define (Some n) [] = (Some (Macro n [] []), [E046], []) /\
  forall m, op m = KMacro -> define (Some n) [m] = (Some (Macro n [] []), [E046], []).
Proof.
  intros n. split; [reflexivity|]. intros m Hm. unfold define. cbn [run start finished].
  unfold process. cbn [expecting_MACRO start]. rewrite Hm. reflexivity.
Qed.
Print Assumptions C85_empty_refuted.

(** ** C86 *)
Lemma copy_fold : forall l,
  let c := fold_left copy_statement l (Cdef 0 false [] []) in
  c_stmts c = l /\
  match level 0 l with
  | Some m => c_nest c = Z.of_nat m /\ c_invalid c = false /\ c_reports c = []
  | None => c_invalid c = true /\ c_reports c <> []
  end.
Proof.
  induction l as [|s l IH] using rev_ind; [cbn; auto|].
  rewrite fold_left_app, level_app. cbn [fold_left]. cbn zeta in IH. destruct IH as [IHs IH].
  set (c := fold_left copy_statement l (Cdef 0 false [] [])) in *.
  split; [unfold copy_statement; destruct (op s); cbn; try (now rewrite IHs);
          destruct (c_nest c - 1 <? 0)%Z; cbn; now rewrite IHs|].
  destruct (level 0 l) as [m|].
  - destruct IH as (A & B & C). cbn [level]. unfold copy_statement. destruct (op s); cbn [c_nest c_invalid c_reports].
    + rewrite A. repeat split; auto. lia.
    + destruct m as [|m].
      * rewrite A. cbn. rewrite C. split; [reflexivity|discriminate].
      * rewrite A. replace (Z.of_nat (S m) - 1 <? 0)%Z with false by (symmetry; apply Z.ltb_ge; lia).
        cbn [c_nest c_invalid c_reports]. repeat split; auto. lia.
    + auto.
    + auto.
  - destruct IH as [A B]. unfold copy_statement. destruct (op s); cbn [c_invalid c_reports]; auto.
    destruct (c_nest c - 1 <? 0)%Z; cbn [c_invalid c_reports]; auto.
    split; [reflexivity|]. intros H. apply app_eq_nil in H. now destruct H.
Qed.

(** A copy member in which every MACRO has its MEND is taken as it is, without a report; any other
    is reported and taken as empty. *)
Theorem C86_balanced : forall ts, Balanced ts -> copy_member ts = (ts, []).
Proof.
  intros ts H. apply balanced_iff in H. pose proof (copy_fold ts) as [A B]. rewrite H in B. destruct B as (B & C & D).
  unfold copy_member, copy_end. rewrite B. cbn. now rewrite C, A, D.
Qed.
Print Assumptions C86_balanced.

Theorem C86_unbalanced : forall ts, ~ Balanced ts -> exists reports, copy_member ts = ([], reports) /\ reports <> [] /\
  Forall (fun r => r = E061) reports.
Proof.
  intros ts H. rewrite balanced_iff in H. pose proof (copy_fold ts) as [A B].
  assert (R : forall l c, Forall (fun r => r = E061) (c_reports c) ->
    Forall (fun r => r = E061) (c_reports (copy_end (fold_left copy_statement l c)))).
  { induction l as [|s l IH]; intros c Hc; cbn [fold_left].
    - unfold copy_end. destruct (0 <? c_nest c)%Z; [|exact Hc]. cbn. apply Forall_app. split; [exact Hc|repeat constructor].
    - apply IH. unfold copy_statement. destruct (op s); cbn; auto. destruct (c_nest c - 1 <? 0)%Z; cbn; auto.
      apply Forall_app. split; [exact Hc|repeat constructor]. }
  specialize (R ts (Cdef 0 false [] []) ltac:(constructor)).
  set (c := fold_left copy_statement ts (Cdef 0 false [] [])) in *.
  unfold copy_member. fold c. exists (c_reports (copy_end c)). split; [|split; [|exact R]].
  - f_equal. unfold copy_end. destruct (level 0 ts) as [[|m]|].
    + congruence.
    + destruct B as (B & _). rewrite B. replace (0 <? Z.of_nat (S m))%Z with true by (symmetry; apply Z.ltb_lt; lia). reflexivity.
    + destruct B as (B & _). destruct (0 <? c_nest c)%Z; cbn; [reflexivity|now rewrite B].
  - unfold copy_end. destruct (level 0 ts) as [[|m]|].
    + congruence.
    + destruct B as (B & _). rewrite B. replace (0 <? Z.of_nat (S m))%Z with true by (symmetry; apply Z.ltb_lt; lia).
      cbn. intros E. apply app_eq_nil in E. now destruct E.
    + destruct B as (_ & B). destruct (0 <? c_nest c)%Z; cbn; [|exact B].
      intros E. apply app_eq_nil in E. now destruct E.
Qed.
Print Assumptions C86_unbalanced.

(** ** C87 *)
Section C87.
Variable operand : Type.
Variable read : form -> bytes -> list operand.

Lemma form_eqb_eq : forall a b, form_eqb a b = true <-> a = b.
Proof. intros [] []; split; intros H; try reflexivity; try discriminate. Qed.
Lemma form_eqb_refl : forall a, form_eqb a a = true. Proof. intros a. now apply form_eqb_eq. Qed.

Lemma get_app : forall f (c : cache operand) g ops, get f (c ++ [(g, ops)]) =
  match get f c with Some x => Some x | None => if form_eqb g f then Some ops else None end.
Proof.
  induction c as [|[h x] c IH]; intros g ops; cbn [app get]; [reflexivity|]. destruct (form_eqb h f); auto.
Qed.

Definition fresh (s : status) (text : bytes) : list operand :=
  match s_occ s, s_form s with
  | PRESENT, (MACH | ASM | MAC | DAT) => read (s_form s) text
  | _, _ => []
  end.

Lemma fill_fresh : forall s text c, s_form s <> DEFERRED -> fill read (s_form s) (s_occ s) text c = c ++ [(s_form s, fresh s text)].
Proof. intros s text c H. unfold fill, fresh, parse_operand_field. destruct (s_occ s), (s_form s); reflexivity. Qed.

Definition holds (text : bytes) (before : list status) (c : cache operand) : Prop :=
  forall f ops, get f c = Some ops -> exists s, In s before /\ s_form s = f /\ ops = fresh s text.

Lemma preprocess_holds : forall text before c s r c', holds text before c -> preprocess read s text c = (r, c') ->
  holds text (s :: before) c' /\
  (s_form s <> DEFERRED -> (forall x, In x before -> s_form x = s_form s -> s_occ x = s_occ s) -> r = Some (s, fresh s text)).
Proof.
  intros text before c s r c' H E. unfold preprocess in E.
  assert (Hold : holds text (s :: before) c).
  { intros f ops G. destruct (H f ops G) as (x & A & B & C). exists x. split; [now right|auto]. }
  destruct (form_eqb (s_form s) DEFERRED) eqn:Ed.
  - apply form_eqb_eq in Ed. rewrite Ed in E. injection E as <- <-. split; [exact Hold|congruence].
  - assert (Hd : s_form s <> DEFERRED) by (intros Hd; rewrite Hd in Ed; discriminate).
    assert (E' : (let c1 := match get (s_form s) c with Some _ => c | None => fill read (s_form s) (s_occ s) text c end in
      match get (s_form s) c1 with Some ops => (Some (s, ops), c1) | None => (None, c1) end) = (r, c'))
      by (destruct (s_form s); try exact E; now destruct Hd).
    clear E. cbn zeta in E'. destruct (get (s_form s) c) as [ops|] eqn:G.
    + rewrite G in E'. injection E' as <- <-. split; [exact Hold|]. intros _ Hocc.
      destruct (H _ _ G) as (x & A & B & ->). unfold fresh. now rewrite (Hocc x A B), B.
    + rewrite fill_fresh in E' by exact Hd. rewrite get_app, G, form_eqb_refl in E'. injection E' as <- <-. split; [|reflexivity].
      intros f ops G'. rewrite get_app in G'. destruct (get f c) eqn:G2.
      * injection G' as <-. apply Hold. exact G2.
      * destruct (form_eqb (s_form s) f) eqn:Eq; [|discriminate]. injection G' as <-. apply form_eqb_eq in Eq.
        exists s. split; [now left|split; [exact Eq|reflexivity]].
Qed.

(** A stored statement has, each time it is used as an instruction that is no instruction of
    conditional assembly, the operands that its text has as one, if the operations it was used
    with before and that are read in the same form all take operands, or all take none, as this one. *)
Theorem C87_operands : forall text l k s, nth_error l k = Some s ->
  s_form s <> DEFERRED -> s_form s <> CA ->
  (forall j x, j < k -> nth_error l j = Some x -> s_form x = s_form s -> s_occ x = s_occ s) ->
  nth_error (uses read text [] l) k = Some (Some (s, reading read s text)).
Proof.
  intros text l k s Hk Hd Hca Hocc.
  assert (G : forall l before c k, holds text before c -> nth_error l k = Some s ->
    (forall x, In x before -> s_form x = s_form s -> s_occ x = s_occ s) ->
    (forall j x, j < k -> nth_error l j = Some x -> s_form x = s_form s -> s_occ x = s_occ s) ->
    nth_error (uses read text c l) k = Some (Some (s, fresh s text))).
  { clear k Hk Hocc l. induction l as [|x l IH]; intros before c k H Hk Hb Hocc; [now destruct k|].
    cbn [uses]. destruct (preprocess read x text c) as [r c'] eqn:E.
    destruct (preprocess_holds text before c x r c' H E) as [H' R].
    destruct k as [|k]; cbn [nth_error] in *.
    - injection Hk as ->. rewrite R; auto.
    - apply (IH (x :: before) c' k H' Hk).
      + intros y [<-|Hy]; [apply (Hocc 0 x); [lia|reflexivity]|apply Hb; exact Hy].
      + intros j y Hj Hy. apply (Hocc (S j) y); [lia|exact Hy]. }
  rewrite (G l [] [] k); auto.
  - unfold fresh, reading. destruct (s_occ s), (s_form s); try reflexivity; contradiction.
  - intros f ops H. discriminate.
  - intros x [].
Qed.

(** In particular a statement with a name in its operation field, as long as the meaning of that name
    stays: then lookaheads and macro calls or COPYs may read it in any order. *)
Theorem C87_same_meaning : forall t library text n l k s,
  (forall x, In x l -> x = ordinary_status t library (Name n) \/ x = lookahead_status t (Name n)) ->
  nth_error l k = Some s -> s_form s <> DEFERRED -> s_form s <> CA ->
  nth_error (uses read text [] l) k = Some (Some (s, reading read s text)).
Proof.
  intros t library text n l k s Hl Hk Hd Hca. apply C87_operands; auto.
  intros j x _ Hj Hf.
  assert (D : forall a b, (a = ordinary_status t library (Name n) \/ a = lookahead_status t (Name n)) ->
    (b = ordinary_status t library (Name n) \/ b = lookahead_status t (Name n)) -> s_form a = s_form b -> s_occ a = s_occ b).
  { clear. intros a b Ha Hb E. unfold ordinary_status, lookahead_status in *.
    destruct (instruction_status t n) as [u|].
    - destruct (s_type u) eqn:T; destruct Ha as [->| ->]; destruct Hb as [->| ->]; cbn in *; auto.
    - assert (O : forall y, (y = match library n with
                 | Some defined => Status MAC PRESENT n (if defined then TMAC else TUNDEF)
                 | None => Status UNKNOWN PRESENT n TUNDEF end \/ y = Status IGNORED PRESENT [] TUNDEF) -> s_occ y = PRESENT).
      { intros y [->| ->]; [destruct (library n)|]; reflexivity. }
      now rewrite (O a Ha), (O b Hb). }
  apply D; auto; apply Hl; eapply nth_error_In; eauto.
Qed.
End C87.
Print Assumptions C87_operands.
Print Assumptions C87_same_meaning.

(** Which statements of a member are read at once, and not again: those of conditional assembly,
    COPY and blank ones. *)
Theorem C87_at_once : forall t i, s_form (member_status t i) <> DEFERRED <->
  i = NoInstr \/ exists n o d, i = Name n /\ t n = Some (o, d) /\ ((exists takes, d = DCa takes) \/ o = s2b "COPY").
Proof.
  intros t i. unfold member_status. destruct i as [n|n|].
  - destruct (t n) as [[o d]|] eqn:E.
    + split.
      * intros H. right. exists n, o, d. repeat split; auto. destruct d; eauto;
          (destruct (bytes_eqb o COPY) eqn:Eo; [right; now apply bytes_eqb_eq|now destruct H]).
      * intros [H|(n' & o' & d' & H1 & H2 & H3)]; [discriminate|]. injection H1 as <-. rewrite E in H2. injection H2 as <- <-.
        destruct H3 as [[takes ->]| ->]; [discriminate|].
        destruct d; try discriminate; rewrite (proj2 (bytes_eqb_eq _ _) eq_refl); discriminate.
    + split; [intros H; now destruct H|]. intros [H|(n' & o' & d' & H1 & H2 & _)]; [discriminate|].
      injection H1 as <-. congruence.
  - split; [intros H; now destruct H|]. intros [H|(n' & o' & d' & H1 & _)]; discriminate.
  - split; [auto|discriminate].
Qed.
Print Assumptions C87_at_once.

(** &OP 1,2 in a macro: called with PR and then with LR, the LR has no operands; called with LR and
    then with PR, the PR has two. *)
Theorem C87_operands_refuted : exists (operand : Type) (read : form -> bytes -> list operand) text pr lr,
  s_form pr = MACH /\ s_form lr = MACH /\ reading read lr text <> reading read pr text /\
  uses read text [] [pr; lr] = [Some (pr, reading read pr text); Some (lr, reading read pr text)] /\
  uses read text [] [lr; pr] = [Some (lr, reading read lr text); Some (pr, reading read lr text)].
Proof.
  exists N, (fun _ t => t), [49; 44; 50]%N, (Status MACH ABSENT (s2b "PR") TMACH), (Status MACH PRESENT (s2b "LR") TMACH).
  repeat split. discriminate.
Qed.
Print Assumptions C87_operands_refuted.

(** A name that becomes one of conditional assembly after the definition of the macro loses its operands. *)
Theorem C87_conditional_refuted : forall (operand : Type) (read : form -> bytes -> list operand) text s,
  s_form s = CA -> uses read text [] [s] = [Some (s, [])].
Proof. intros operand read text s H. unfold uses, preprocess, fill, parse_operand_field. rewrite H. cbn. now destruct (s_occ s). Qed.
Print Assumptions C87_conditional_refuted.

(** ** Cases *)
Definition st (o : opk) (n : string) (q : option string) (k : nat) : stmt :=
  Stmt o (Some (s2b n)) (match q with Some q => Some (s2b q) | None => None end) k.
Definition case_body : list stmt :=
  [st KOther "AIF" (Some ".A") 1; st KMacro "MACRO" None 2; st KOther "INNER" (Some ".B") 3; st KMend "MEND" (Some ".C") 4;
   st KCopy "COPY" (Some ".B") 5; st KOther "LR" (Some ".A") 6].
Example case_balanced : Balanced case_body.
Proof. apply balanced_iff. reflexivity. Qed.
Example case_defined : define None (st KOther "M" None 0 :: case_body ++ st KMend "MEND" None 7 :: [st KOther "LA" None 8]) =
  (Some (Macro (s2b "M") (map kept (case_body ++ [st KMend "MEND" None 7])) [(s2b ".A", 0); (s2b ".B", 4)]), [E044 5],
   [st KOther "LA" None 8]).
Proof. reflexivity. Qed.
Example case_unclosed : snd (define None (st KOther "M" None 0 :: case_body)) = [].
Proof. reflexivity. Qed.
Example case_copy : copy_member [st KMend "MEND" None 0; st KMacro "MACRO" None 1] = ([], [E061]).
Proof. reflexivity. Qed.
