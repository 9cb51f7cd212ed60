(** C66: COPY members.  C67: lookaheads for attributes and sequence symbols. *)
From Coq Require Import List Arith ZArith Bool Lia.
From Verif Require Import Look_Model Look_Spec Look_Proof Look_Copy Look_Expand Look_Scan Look_Back Look_Whole Look_Once Look_Def.
Import ListNotations.

Section Props.
Context {attr data : Type}.
Variable unknown_attr : attr.
Variable defined : data -> id -> bool.
Variable program : list (stmt attr data).
Variable lib : id -> option (list (stmt attr data)).
Variable macro_of : data -> id -> option (list (stmt attr data)).
Variable define : list (stmt attr data) -> data -> data.
Variable members : list id.
Notation state := (state attr data).
Notation stmt := (stmt attr data).
Notation step := (step unknown_attr defined program lib macro_of define).
Notation steps := (steps unknown_attr defined program lib macro_of define).

(** Source without branches, macros and references to attributes is processed to its end as if every member stood
    in place of the COPY that names it; there is one such sequence of statements and messages. *)
Theorem C66_expansion : text program lib straight -> finite lib members -> forall d,
  exists out k st, expands lib [] program out /\ (forall out', expands lib [] program out' -> out' = out) /\
    steps k (initial d) = Done st /\ rev (visible (log st)) = out.
Proof.
  intros Hs Hf d.
  destruct (expands_some lib members Hf (length members) []) with (l := program) as (out & H).
  - constructor.
  - intros n [].
  - cbn. lia.
  - apply Hs.
  - apply Hs.
  - destruct (open_runs unknown_attr defined program lib macro_of define Hs program out H (initial d)) as (k & st & E & L); try reflexivity; [split; reflexivity|].
    exists out, k, st. split; [exact H|]. split; [intros out' H'; symmetry; eapply expands_one; eauto|]. split; [exact E|].
    rewrite L. cbn. rewrite app_nil_r, rev_involutive. reflexivity.
Qed.

(** The members being read are different ones, so they are never nested deeper than there are members. *)
Theorem C66_nested : finite lib members -> forall d n st, steps n (initial d) = Next st ->
  NoDup (map f_name (frames (src st))) /\ length (frames (src st)) <= length members.
Proof. intros Hf d n st H. eapply nested; eauto. Qed.

(** Without names on COPY statements and operands that are no expressions nothing undefined happens. *)
Theorem C66_safe : unnamed_copies program lib -> copies_of_names program lib macro_of -> forall d n,
  match steps n (initial d) with Out_of_bounds | Null_operand | No_member => False | Next _ | Done _ => True end.
Proof.
  intros U C d n. pose proof (safe unknown_attr defined program lib macro_of define U C d n) as S. unfold crash in S.
  destruct (steps n (initial d)); auto.
Qed.

(** The line counter of open code is right. *)
Theorem C66_lines : plain_instructions program -> forall d n st, steps n (initial d) = Next st ->
  line (src st) = starts program (pos (src st)).
Proof. intros G d n st H. destruct (inv_reach _ _ _ _ _ _ _ _ _ H) as ((I & _) & _). auto. Qed.

(** A macro definition outside macros ends, and consists of the statements up to the MEND that belongs to its MACRO,
    read with members in place; processing continues behind them. *)
Theorem C66_definition : unnamed_copies program lib -> copies_of_names program lib macro_of -> finite lib members ->
  forall d n st, steps n (initial d) = Next st -> st_mode st = MDef 1 true [] -> macros st = [] -> eof (src st) = false ->
  exists fs body fs' rest k st2,
    rest_of lib (frames (src st)) = Some fs /\ collects lib true 1 fs (skipn (pos (src st)) program) body fs' rest /\
    steps k st = Next st2 /\ st_mode st2 = MOrd /\ st_data st2 = define body (st_data st) /\ macros st2 = [] /\
    rest_of lib (frames (src st2)) = Some fs' /\ skipn (pos (src st2)) program = rest /\
    refs st2 = refs st /\ seqs st2 = seqs st.
Proof.
  intros U C F d n st H Hm Hma He.
  destruct (ok_kept unknown_attr defined program lib macro_of define U d n st H) as (K & _).
  destruct (nested unknown_attr defined program lib macro_of define members d n st F H) as (Nd & _).
  destruct (frames_are_exists lib define (frames (src st)) K) as (fs & Ha). pose proof (frames_names lib _ _ (proj2 Ha)) as Hn.
  destruct (collects_some lib members F fs) with (o := skipn (pos (src st)) program) (p := true) (k := 1) as (body & fs' & rest & Cl).
  - rewrite Hn. exact Nd.
  - rewrite Hn. intros m Hin. apply in_map_iff in Hin. destruct Hin as (f & <- & Hin). rewrite Forall_forall in K. destruct (K f Hin) as (b & Hb & _). apply F. congruence.
  - destruct (definition_runs unknown_attr defined program lib macro_of define) with (p := true) (k := 1) (fs := fs) (o := skipn (pos (src st)) program) (out := body) (fs' := fs') (o' := rest) (st := st) (body := @nil stmt)
      as (k & st2 & E & (U1 & U2 & U3 & (_ & U4) & U5 & U6 & U7 & _)); auto.
    + destruct C as (C1 & C2 & _). split; assumption.
    + exists fs, body, fs', rest, k, st2. split; [exact (proj2 Ha)|]. auto 12.
Qed.

(** What the statements of a definition are is determined. *)
Theorem C66_definition_unique : forall p k fs o out1 f1 o1 out2 f2 o2, collects lib p k fs o out1 f1 o1 -> collects lib p k fs o out2 f2 o2 ->
  out1 = out2 /\ f1 = f2 /\ o1 = o2.
Proof. intros. eapply collects_one; eauto. Qed.

(** A statement without references to attributes that is read from a macro is the next one of the macro; a macro that
    has ended gives way to its caller, which is left as it was; a macro call begins at the first statement. *)
Theorem C66_macro : forall st m rest, st_mode st = MOrd -> macros st = m :: rest ->
  match nth_error (m_body m) (m_next m) with
  | None => exists st1, step st = Next st1 /\ macros st1 = rest /\ src st1 = src st /\ st_data st1 = st_data st /\ st_mode st1 = MOrd /\ log st1 = log st
  | Some s =>
      s_wants1 s (st_data st) (fun n => lookup n (refs st)) = [] -> s_wants2 s (st_data st) (fun n => lookup n (refs st)) = [] ->
      match s_kind s with
      | KPlain f => exists st1, step st = Next st1 /\ macros st1 = mkM (m_body m) (S (m_next m)) :: rest /\ src st1 = src st /\
                      st_data st1 = f (st_data st) /\ st_mode st1 = MOrd /\ log st1 = Did s :: log st
      | KCall n => forall b, macro_of (st_data st) n = Some b ->
                      exists st1, step st = Next st1 /\ macros st1 = mkM b 0 :: mkM (m_body m) (S (m_next m)) :: rest /\ src st1 = src st /\
                      st_data st1 = st_data st /\ st_mode st1 = MOrd /\ log st1 = Did s :: log st
      | KGo f => exists st1, step st = Next st1 /\ src st1 = src st /\ st_data st1 = st_data st /\ st_mode st1 = MOrd /\
                      match f (st_data st) with
                      | None => macros st1 = mkM (m_body m) (S (m_next m)) :: rest /\ log st1 = Did s :: log st
                      | Some t =>
                          (exists i x, nth_error (m_body m) i = Some x /\ s_lab x = LSeq t /\
                             (forall j y, j < i -> nth_error (m_body m) j = Some y -> s_lab y <> LSeq t) /\
                             macros st1 = mkM (m_body m) i :: rest /\ log st1 = Did s :: log st) \/
                          ((forall y, In y (m_body m) -> s_lab y <> LSeq t) /\
                             macros st1 = mkM (m_body m) (S (m_next m)) :: rest /\ log st1 = E047 t :: Did s :: log st)
                      end
      | _ => True
      end
  end.
Proof.
  intros st m rest Hm Hma.
  assert (At : at_end st = false) by (unfold at_end; now rewrite Hma).
  assert (Rd : read_any program lib st = match nth_error (m_body m) (m_next m) with
            | None => inl (None, set_macros rest st)
            | Some x => inl (Some (x, false), set_macros (mkM (m_body m) (S (m_next m)) :: rest) st) end) by (unfold read_any; now rewrite Hma).
  assert (Reg : forall (s : stmt) (x : state), macros x <> [] -> attr_lookahead x = false -> register_label s x = x).
  { intros s x A B. unfold register_label, register. rewrite B. destruct (s_lab s); auto. destruct (macros x); [now destruct A|reflexivity]. }
  assert (LI : forall l t, match label_index l t with
             | Some i => exists x, nth_error l i = Some x /\ s_lab x = LSeq t /\ forall j (y : stmt), j < i -> nth_error l j = Some y -> s_lab y <> LSeq t
             | None => forall y : stmt, In y l -> s_lab y <> LSeq t
             end).
  { clear. induction l as [|s l IH]; intros t; cbn [label_index]; [intros y []|]. specialize (IH t).
    assert (Tl : (s_lab s <> LSeq t) -> match option_map S (label_index l t) with
             | Some i => exists x, nth_error (s :: l) i = Some x /\ s_lab x = LSeq t /\ forall j (y : stmt), j < i -> nth_error (s :: l) j = Some y -> s_lab y <> LSeq t
             | None => forall y : stmt, In y (s :: l) -> s_lab y <> LSeq t
             end).
    { intros Hs. destruct (label_index l t) as [i|]; cbn.
      - destruct IH as (x & A & B & D). exists x. split; [exact A|]. split; [exact B|]. intros [|j] y Hj Hy; [injection Hy as <-; exact Hs|].
        apply (D j y); [lia|exact Hy].
      - intros y [<-|Hy]; auto. }
    destruct (s_lab s) as [|n|n] eqn:El; [apply Tl; discriminate|apply Tl; discriminate|].
    destruct (Nat.eqb_spec n t) as [->|Hne]; [|apply Tl; congruence].
    exists s. split; [reflexivity|]. split; [exact El|]. intros j y Hj. inversion Hj. }
  unfold Look_Model.step. rewrite Hm. unfold step_ordinary. rewrite At, Rd.
  destruct (nth_error (m_body m) (m_next m)) as [s|].
  - intros W1 W2. unfold wanted. cbn [set_macros st_data refs]. rewrite W1, W2. cbn [filter]. unfold ordinary_statement.
    assert (Al : attr_lookahead (tell (Did s) (set_macros (mkM (m_body m) (S (m_next m)) :: rest) st)) = false) by (unfold attr_lookahead; cbn; now rewrite Hm).
    assert (Rs : register_label s (tell (Did s) (set_macros (mkM (m_body m) (S (m_next m)) :: rest) st)) = tell (Did s) (set_macros (mkM (m_body m) (S (m_next m)) :: rest) st))
      by (apply Reg; [cbn; discriminate|exact Al]).
    destruct (s_kind s) as [c| | |f|n|f]; auto.
    + rewrite Rs. cbn [tell set_macros st_data]. destruct (f (st_data st)) as [t|].
      * eexists. split; [reflexivity|]. unfold jump_in_statements. cbn [tell set_macros macros m_body m_next]. specialize (LI (m_body m) t).
        destruct (label_index (m_body m) t) as [i|]; cbn.
        -- destruct LI as (x & A & B & D). do 3 (split; [first [reflexivity|exact Hm]|]). left. exists i, x. auto 10.
        -- do 3 (split; [first [reflexivity|exact Hm]|]). right. auto.
      * eexists. split; [reflexivity|]. cbn. auto 10.
    + intros b Hb. cbn [tell set_macros st_data macros]. rewrite Hb. eexists. split; [reflexivity|]. cbn. auto 10.
    + rewrite Rs. destruct (s_reg s); (eexists; split; [reflexivity|]; cbn; auto 10).
  - eexists. split; [reflexivity|]. cbn. auto 10.
Qed.

(** A statement of open code that carries a sequence symbol: when the symbol is known from another place this is
    reported and the earlier statement stays the target of branches; otherwise it becomes the target. *)
Theorem C67_repeated : forall n (st : state), macros st = [] \/ attr_lookahead st = true ->
  match lookup n (seqs st) with
  | None => lookup n (seqs (register n st)) <> None /\ log (register n st) = log st
  | Some (p, old) => seqs (register n st) = seqs st /\
      log (register n st) = (if snapshot_eqb old (snd (begin_snapshot (attr_lookahead st) st)) then [] else [E045 n]) ++ log st
  end /\ (forall m, m <> n -> lookup m (seqs (register n st)) = lookup m (seqs st)).
Proof.
  intros n st H. unfold register.
  assert (G : negb (attr_lookahead st) && match macros st with [] => false | _ :: _ => true end = false).
  { destruct H as [->| ->]; [apply andb_false_r|reflexivity]. }
  rewrite G. destruct (begin_snapshot (attr_lookahead st) st) as [p sn]. cbn [snd]. destruct (lookup n (seqs st)) as [[p0 old]|] eqn:E.
  - destruct (snapshot_eqb old sn); cbn; auto.
  - cbn. rewrite Nat.eqb_refl. split; [split; [discriminate|reflexivity]|]. intros m Hm. destruct (Nat.eqb_spec m n); congruence.
Qed.

(** A lookahead for attributes ends, goes back to the statement that began it with nothing changed but what is known,
    and gives every symbol it looked for the attributes of the first definition from where it began, or the unknown ones. *)
Theorem C67_lookahead : unnamed_copies program lib -> copies_of_names program lib macro_of -> finite lib members ->
  forall d n st st1 todo nest fin found bk sv,
  steps n (initial d) = Next st -> st_mode st = MOrd -> step st = Next st1 -> st_mode st1 = MLook AOrd todo nest fin found bk sv ->
  exists fs out k st2,
    rest_of lib (frames (src st1)) = Some fs /\ reads lib 0 fs (skipn (pos (src st1)) program) out /\
    steps k st1 = Next st2 /\ st_mode st2 = MOrd /\ st_data st2 = st_data st /\
    macros st2 = macros st /\ frames (src st2) = frames (src st) /\ pos (src st2) = pos (src st) /\ eof (src st2) = eof (src st) /\
    (next_plain program st -> line (src st2) = line (src st)) /\
    (forall m v, lookup m (refs st) = Some v -> lookup m (refs st2) = Some v) /\
    (forall m, In m todo -> lookup m (refs st) = None /\ defined (st_data st) m = false /\
       match first m out with
       | Some s => s_attr s (st_data st) <> None -> lookup m (refs st2) = s_attr s (st_data st)
       | None => lookup m (refs st2) = Some unknown_attr
       end).
Proof. intros U C F d n st st1 todo nest fin found bk sv. eapply lookahead; eauto. Qed.

(** The reading order is determined by the place. *)
Theorem C67_order : forall k fs o out1 out2, reads lib k fs o out1 -> reads lib k fs o out2 -> out1 = out2.
Proof. intros. eapply reads_one; eauto. Qed.

(** A branch to a sequence symbol that is not known yet ends, either in front of a statement with this symbol, or,
    if no such statement is found, with a message and behind the branch. *)
Theorem C67_branch : unnamed_copies program lib -> copies_of_names program lib macro_of -> finite lib members ->
  forall d n st st1 t todo nest fin found bk sv,
  steps n (initial d) = Next st -> st_mode st = MOrd -> step st = Next st1 -> st_mode st1 = MLook (ASeq t) todo nest fin found bk sv ->
  exists fs out k st2,
    rest_of lib (frames (src st1)) = Some fs /\ reads lib 0 fs (skipn (pos (src st1)) program) out /\
    steps k st1 = Next st2 /\ st_mode st2 = MOrd /\ st_data st2 = st_data st /\ macros st2 = [] /\
    (forall m v, lookup m (refs st) = Some v -> lookup m (refs st2) = Some v) /\
    if existsb (labels t) out
    then exists s o st3, read_text program lib st2 = inl (Some (s, o), st3) /\ s_lab s = LSeq t
    else (exists l, log st2 = E047 t :: l) /\
         exists s o sta, read_any program lib st = inl (Some (s, o), sta) /\ same_place sta st2.
Proof. intros U C F d n st st1 t todo nest fin found bk sv. eapply branch; eauto. Qed.

(** A branch to a sequence symbol that is known goes to a statement with this symbol. *)
Theorem C67_known : unnamed_copies program lib -> forall d n st t p sn,
  steps n (initial d) = Next st -> macros st = [] -> lookup t (seqs st) = Some (p, sn) ->
  exists s o st1, read_text program lib (jump_in_statements t st) = inl (Some (s, o), st1) /\ s_lab s = LSeq t.
Proof.
  intros U d n st t p sn H Hm Hl. unfold jump_in_statements. rewrite Hm, Hl. eapply jump_known; eauto.
Qed.

(** No symbol is looked for twice. *)
Theorem C67_once : answers program lib -> forall d n st, steps n (initial d) = Next st ->
  ForallOrdPairs (fun a b => forall m, In m a -> ~ In m b) (searches (log st)).
Proof. intros A d n st H. exact (proj1 (once_reach unknown_attr defined program lib macro_of define A d n st H)). Qed.
End Props.
Print Assumptions C66_expansion. Print Assumptions C66_nested. Print Assumptions C66_safe. Print Assumptions C66_lines. Print Assumptions C66_definition. Print Assumptions C66_definition_unique. Print Assumptions C66_macro.
Print Assumptions C67_lookahead. Print Assumptions C67_order. Print Assumptions C67_branch. Print Assumptions C67_known. Print Assumptions C67_once. Print Assumptions C67_repeated.

(** * Concrete source *)
Notation st0 := (stmt nat nat).
Definition none (d : nat) (r : id -> option nat) : list id := [].
Definition on (l : lab) (k : kind nat) : st0 := mkStmt l k 0 none none (fun _ => Some 7) true.
Definition op (l : lab) : st0 := on l (KPlain (fun d => d)).
(** a statement with the attributes [a] *)
Definition ds (n : id) (a : nat) : st0 := mkStmt (LOrd n) (KPlain (fun d => d)) 0 none none (fun _ => Some a) true.
(** a statement whose operands refer to attributes *)
Definition wants (l : lab) (w : list id) : st0 := mkStmt l (KPlain S) 0 none (fun _ _ => w) (fun _ => Some 7) true.
Definition no_symbol (d : nat) (n : id) : bool := false.
Definition no_macro (d : nat) (n : id) : option (list st0) := None.
Definition skip_define (b : list st0) (d : nat) : nat := d.
Definition run (p : list st0) (lib : id -> option (list st0)) (n : nat) : outcome nat nat :=
  steps 0 no_symbol p lib no_macro skip_define n (initial 0).

(** Members 1 and 2; member 1 copies member 2 and itself. *)
Definition ex_lib (n : id) : option (list st0) :=
  match n with
  | 1 => Some [op (LOrd 10); on LNone (KCopy (CName 2)); on LNone (KCopy (CName 1)); op (LOrd 11)]
  | 2 => Some [op (LSeq 12)]
  | _ => None
  end.
Definition ex_copy : list st0 := [on LNone (KCopy (CName 1)); op (LOrd 13); on LNone (KCopy (CName 2)); on LNone (KCopy (CName 3))].
Example ex_expansion : text ex_copy ex_lib straight /\ finite ex_lib [1; 2] /\
  match run ex_copy ex_lib 20 with
  | Done st => rev (visible (log st)) =
      [Did (on LNone (KCopy (CName 1))); Did (op (LOrd 10)); Did (on LNone (KCopy (CName 2))); Did (op (LSeq 12));
       Did (on LNone (KCopy (CName 1))); E062; Did (op (LOrd 11)); Did (op (LOrd 13));
       Did (on LNone (KCopy (CName 2))); Did (op (LSeq 12)); Did (on LNone (KCopy (CName 3))); E058] /\ In (E045 12) (log st)
  | _ => False
  end.
Proof.
  assert (St : forall s, In s (ex_copy ++ match ex_lib 1 with Some b => b | None => [] end ++ match ex_lib 2 with Some b => b | None => [] end) -> straight s).
  { cbn. intros s Hs. repeat (destruct Hs as [<-|Hs]; [repeat split|]). contradiction. }
  split; [split|split].
  - intros s Hs. apply St. apply in_or_app. now left.
  - intros [|[|[|n]]] b s Hb Hs; try discriminate; injection Hb as <-; apply St; apply in_or_app; right; apply in_or_app; [left|right]; exact Hs.
  - intros [|[|[|n]]]; cbn; intros H; try congruence; auto.
  - vm_compute. split; [reflexivity|]. auto 20.
Qed.

(** A lookahead through a member: [T'21] is asked for in front of [COPY 1]; symbol 21 is in member 1, symbol 22 nowhere. *)
Definition ex_lib2 (n : id) : option (list st0) := match n with 1 => Some [op LNone; ds 21 5; ds 23 6] | _ => None end.
Definition ex_look : list st0 := [wants LNone [21; 22]; on LNone KMacro; ds 21 9; on LNone KMend; on LNone (KCopy (CName 1)); ds 21 8].
Example ex_lookahead : unnamed_copies ex_look ex_lib2 /\ copies_of_names ex_look ex_lib2 no_macro /\ finite ex_lib2 [1] /\ answers ex_look ex_lib2 /\
  match run ex_look ex_lib2 1, run ex_look ex_lib2 40 with
  | Next st, Done st' => st_mode st = MLook AOrd [21; 22] 0 false false (0, 0) (mkN 0 0 1 0 []) /\
                         lookup 21 (refs st') = Some 5 /\ lookup 22 (refs st') = Some 0 /\ lookup 23 (refs st') = Some 6
  | _, _ => False
  end.
Proof.
  assert (L : forall n b, ex_lib2 n = Some b -> n = 1 /\ b = [op LNone; ds 21 5; ds 23 6]) by (intros [|[|n]] b H; try discriminate; injection H as <-; auto).
  split; [split|split; [split; [|split]|split; [|split; [split|]]]].
  - intros s c Hs Hk n. cbn in Hs. repeat (destruct Hs as [<-|Hs]; [discriminate|]). contradiction.
  - intros m b s c Hb Hs Hk. destruct (L _ _ Hb) as (-> & ->). cbn in Hs. repeat (destruct Hs as [<-|Hs]; [discriminate|]). contradiction.
  - intros s Hs. cbn in Hs. repeat (destruct Hs as [<-|Hs]; [discriminate|]). contradiction.
  - intros m b s Hb Hs. destruct (L _ _ Hb) as (-> & ->). cbn in Hs. repeat (destruct Hs as [<-|Hs]; [discriminate|]). contradiction.
  - discriminate.
  - intros [|[|n]] H; cbn in *; try congruence. auto.
  - intros s Hs. cbn in Hs. repeat (destruct Hs as [<-|Hs]; [discriminate|]). contradiction.
  - intros m b s Hb Hs. destruct (L _ _ Hb) as (-> & ->). cbn in Hs. repeat (destruct Hs as [<-|Hs]; [discriminate|]). contradiction.
  - vm_compute. auto.
Qed.

(** A macro definition with a definition inside that comes from a member: six statements. *)
Definition ex_lib3 (n : id) : option (list st0) := match n with 1 => Some [on LNone KMacro; op LNone; on LNone KMend] | _ => None end.
Definition ex_def : list st0 := [on LNone KMacro; op LNone; on LNone (KCopy (CName 1)); on LNone KMend; ds 21 8].
Definition counting (b : list st0) (d : nat) : nat := d + length b.
Example ex_definition : unnamed_copies ex_def ex_lib3 /\ copies_of_names ex_def ex_lib3 no_macro /\ finite ex_lib3 [1] /\
  match steps 0 no_symbol ex_def ex_lib3 no_macro counting 1 (initial 0), steps 0 no_symbol ex_def ex_lib3 no_macro counting 8 (initial 0) with
  | Next st, Next st2 => st_mode st = MDef 1 true [] /\ macros st = [] /\ eof (src st) = false /\
                         st_mode st2 = MOrd /\ st_data st2 = 6 /\ pos (src st2) = 4
  | _, _ => False
  end.
Proof.
  assert (L : forall n b, ex_lib3 n = Some b -> b = [on LNone KMacro; op LNone; on LNone KMend]) by (intros [|[|n]] b H; try discriminate; injection H as <-; auto).
  split; [split|split; [split; [|split]|split]].
  - intros s c Hs Hk n. cbn in Hs. repeat (destruct Hs as [<-|Hs]; [discriminate|]). contradiction.
  - intros m b s c Hb Hs Hk. rewrite (L _ _ Hb) in Hs. cbn in Hs. repeat (destruct Hs as [<-|Hs]; [discriminate|]). contradiction.
  - intros s Hs. cbn in Hs. repeat (destruct Hs as [<-|Hs]; [discriminate|]). contradiction.
  - intros m b s Hb Hs. rewrite (L _ _ Hb) in Hs. cbn in Hs. repeat (destruct Hs as [<-|Hs]; [discriminate|]). contradiction.
  - discriminate.
  - intros [|[|n]] H; cbn in *; try congruence. auto.
  - vm_compute. auto 10.
Qed.

(** * What does not hold *)
(** A COPY with a name that is looked for: the next lookahead reads in front of the member. *)
Theorem C66_safe_refuted : exists p lib n, finite lib [1] /\ copies_of_names p lib no_macro /\ run p lib n = Out_of_bounds.
Proof.
  exists [wants LNone [21]; wants LNone [22]; on (LOrd 21) (KCopy (CName 1))], ex_lib2, 7.
  assert (L : forall n b, ex_lib2 n = Some b -> n = 1 /\ b = [op LNone; ds 21 5; ds 23 6]) by (intros [|[|n]] b H; try discriminate; injection H as <-; auto).
  split; [|split; [split; [|split]|]].
  - intros [|[|n]] H; cbn in *; try congruence. auto.
  - intros s Hs. cbn in Hs. repeat (destruct Hs as [<-|Hs]; [discriminate|]). contradiction.
  - intros m b s Hb Hs. destruct (L _ _ Hb) as (-> & ->). cbn in Hs. repeat (destruct Hs as [<-|Hs]; [discriminate|]). contradiction.
  - discriminate.
  - vm_compute. reflexivity.
Qed.
Print Assumptions C66_safe_refuted.

(** An operand of COPY that is no expression: in a macro definition and in a lookahead. *)
Theorem C66_operand_refuted : exists p q lib n m, unnamed_copies p lib /\ unnamed_copies q lib /\ run p lib n = Null_operand /\ run q lib m = Null_operand.
Proof.
  exists [on LNone KMacro; op LNone; on LNone (KCopy COther)], [wants LNone [21]; on LNone (KCopy COther)], (fun _ => None), 3, 2.
  split; [split|split; [split|split; vm_compute; reflexivity]]; try discriminate; intros s c Hs Hk n; cbn in Hs; repeat (destruct Hs as [<-|Hs]; [discriminate|]); contradiction.
Qed.
Print Assumptions C66_operand_refuted.

(** An instruction that refers to an attribute: the line counter goes back too far. *)
Definition long : st0 := mkStmt LNone (KPlain (fun d => d)) 2 none none (fun _ => Some 7) true.
Definition wants_instruction : st0 := mkStmt LNone (KPlain (fun d => d)) 0 (fun _ _ => [21]) none (fun _ => Some 7) true.
Theorem C66_lines_refuted : exists p lib n, match run p lib n with Next st => line (src st) <> starts p (pos (src st)) | _ => False end.
Proof. exists [long; wants_instruction], (fun _ => None), 4. vm_compute. discriminate. Qed.
Print Assumptions C66_lines_refuted.

(** A named statement without attributes in a member: the lookahead is repeated for ever. *)
Definition no_answer (n : id) : st0 := mkStmt (LOrd n) (KPlain (fun d => d)) 0 none none (fun _ => None) true.
Definition hang_lib (n : id) : option (list st0) := match n with 1 => Some [wants LNone [21]; no_answer 21] | _ => None end.
Definition hang_program : list st0 := [on LNone (KCopy (CName 1))].
Definition hang_state (l : list (event nat nat)) : state nat nat :=
  mk 0 (mkS 0 0 1 0 [mkF 1 (-1)] 1 1 false) [] [] [] (mkN 0 0 1 0 [mkF 1 0]) MOrd l.
Lemma hang_loop : forall l, steps 0 no_symbol hang_program hang_lib no_macro skip_define 3 (hang_state l) = Next (hang_state (Searched [21] :: l)).
Proof. intros l. vm_compute. reflexivity. Qed.
Lemma hang_start : exists l, run hang_program hang_lib 4 = Next (hang_state l).
Proof. eexists. vm_compute. reflexivity. Qed.
Lemma hang_all : forall k, exists l, run hang_program hang_lib (3 * k + 4) = Next (hang_state l).
Proof.
  induction k as [|k (l & IH)]; [exact hang_start|]. exists (Searched [21] :: l).
  replace (3 * S k + 4) with ((3 * k + 4) + 3) by lia.
  unfold run in *. rewrite (steps_app _ _ _ _ _ _ _ _ _ _ IH). apply hang_loop.
Qed.
Theorem C67_hang_refuted : exists p lib, unnamed_copies p lib /\ copies_of_names p lib no_macro /\ finite lib [1] /\
  forall n, exists st, run p lib n = Next st.
Proof.
  exists hang_program, hang_lib.
  assert (L : forall n b, hang_lib n = Some b -> b = [wants LNone [21]; no_answer 21]) by (intros [|[|n]] b H; try discriminate; injection H as <-; auto).
  split; [split|split; [split; [|split]|split]].
  - intros s c Hs Hk n. cbn in Hs. repeat (destruct Hs as [<-|Hs]; [discriminate|]). contradiction.
  - intros m b s c Hb Hs Hk. rewrite (L _ _ Hb) in Hs. cbn in Hs. repeat (destruct Hs as [<-|Hs]; [discriminate|]). contradiction.
  - intros s Hs. cbn in Hs. repeat (destruct Hs as [<-|Hs]; [discriminate|]). contradiction.
  - intros m b s Hb Hs. rewrite (L _ _ Hb) in Hs. cbn in Hs. repeat (destruct Hs as [<-|Hs]; [discriminate|]). contradiction.
  - discriminate.
  - intros [|[|n]] H; cbn in *; try congruence. auto.
  - pose proof hang_all as All.
    assert (Snoc : forall n, run hang_program hang_lib (S n) = match run hang_program hang_lib n with Next st => step 0 no_symbol hang_program hang_lib no_macro skip_define st | o => o end)
      by (intros n; unfold run; apply steps_snoc).
    revert All Snoc. generalize (run hang_program hang_lib). intros f All Snoc n. destruct (All n) as (l & H).
    destruct (f n) as [st|st| | |] eqn:E; [eauto| | | |]; exfalso;
      (assert (G : forall j, f (n + j) = f n) by (induction j as [|j IHj]; [now rewrite Nat.add_0_r|]; rewrite Nat.add_succ_r, Snoc, IHj, E; reflexivity));
      specialize (G (4 + 2 * n)); replace (n + (4 + 2 * n)) with (3 * n + 4) in G by lia; rewrite G, E in H; discriminate H.
Qed.
Print Assumptions C67_hang_refuted.

(** After a branch back, the text in front of the end of the last lookahead is not searched: symbol 21 names a macro call
    behind the statement that asks for it, yet its attributes are unknown. *)
Definition back_program : list st0 :=
  [mkStmt (LSeq 31) (KPlain S) 0 none (fun d _ => if Nat.eqb d 0 then [] else [21]) (fun _ => Some 7) true;
   mkStmt (LOrd 21) (KCall 9) 0 none none (fun _ => Some 5) true; wants LNone [22]; ds 22 6;
   on LNone (KGo (fun d => if Nat.ltb d 3 then Some 31 else None))].
Theorem C67_skip_refuted : exists p n k out, reads (fun _ => None) 0 [] (skipn 1 p) out /\
  option_map (fun s => s_attr s 0) (first 21 out) = Some (Some 5) /\
  match run p (fun _ => None) n with
  | Next st => pos (src st) = 0 /\ st_mode st = MOrd /\ lookup 21 (refs st) = None
  | _ => False
  end /\
  match run p (fun _ => None) (n + k) with
  | Next st => pos (src st) = 0 /\ st_mode st = MOrd /\ lookup 21 (refs st) = Some 0
  | _ => False
  end.
Proof.
  exists back_program, 8, 4. eexists. split; [|split; [|split]].
  - repeat (apply r_open || apply r_end).
  - reflexivity.
  - vm_compute. auto.
  - vm_compute. auto.
Qed.
Print Assumptions C67_skip_refuted.

(** In open code a COPY with a sequence symbol is not seen by a lookahead: symbol 21 is defined, yet its attributes are unknown. *)
Theorem C67_labelled_refuted : exists p lib n, match run p lib n with
  | Done st => In (Did (ds 21 5)) (log st) /\ lookup 21 (refs st) = Some 0
  | _ => False
  end.
Proof.
  exists [wants LNone [21]; on (LSeq 31) (KCopy (CName 1))], ex_lib2, 20. vm_compute. auto.
Qed.
Print Assumptions C67_labelled_refuted.
