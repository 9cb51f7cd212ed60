(** Straight-line source is processed as if every member stood where it is copied. *)
From Coq Require Import List Arith ZArith Bool Lia.
From Coq Require Import ZifyBool ZifyNat.
From Verif Require Import Look_Model Look_Spec Look_Proof Look_Copy.
Import ListNotations.

Section Expand.
Context {attr data : Type}.
Variable unknown_attr : attr.
Variable defined : data -> id -> bool.
Variable program : list (stmt attr data).
Variable lib : id -> option (list (stmt attr data)).
Variable macro_of : data -> id -> option (list (stmt attr data)).
Variable define : list (stmt attr data) -> data -> data.
Notation state := (state attr data).
Notation stmt := (stmt attr data).
Notation step := (step unknown_attr defined program lib macro_of define).
Notation steps := (steps unknown_attr defined program lib macro_of define).

Lemma steps_app : forall n m st st1, steps n st = Next st1 -> steps (n + m) st = steps m st1.
Proof.
  induction n as [|n IH]; intros m st st1 H; cbn in *; [now injection H as <-|].
  destruct (step st); try discriminate. now apply IH.
Qed.

Lemma register_log : forall s (st : state), visible (log (register_label s st)) = visible (log st).
Proof.
  intros s st. unfold register_label. destruct (s_lab s); auto. unfold register.
  destruct (negb _ && _); [reflexivity|]. destruct (begin_snapshot _ st) as [p sn]. destruct (lookup n (seqs st)) as [[? ?]|]; [|reflexivity].
  now destruct (snapshot_eqb _ _).
Qed.

(** What one statement adds. *)
Definition told (open : list id) (s : stmt) : list (event attr data) :=
  match s_kind s with
  | KCopy (CName n) => match lib n with
                       | None => [E058]
                       | Some _ => if existsb (Nat.eqb n) open then [E062] else []
                       end
  | KCopy CExpr => [E058]
  | KCopy _ => [Checked]
  | _ => []
  end.
Definition adds (open : list id) (s : stmt) : list frame :=
  match s_kind s with
  | KCopy (CName n) => match lib n with
                       | None => []
                       | Some _ => if existsb (Nat.eqb n) open then [] else [mkF n (-1)]
                       end
  | _ => []
  end.

Definition quiet (st : state) : Prop := st_mode st = MOrd /\ macros st = [].

Lemma existsb_map : forall n l, existsb (fun f => Nat.eqb (f_name f) n) l = existsb (Nat.eqb n) (map f_name l).
Proof. intros n l. induction l as [|f l IH]; cbn; [reflexivity|]. now rewrite IH, Nat.eqb_sym. Qed.

Lemma ordinary_straight : forall s st, straight s -> quiet st -> exists st1,
  ordinary_statement lib macro_of s st = Next st1 /\ quiet st1 /\
  src st1 = set_frames (adds (map f_name (frames (src st))) s ++ frames (src st)) (src st) /\
  visible (log st1) = told (map f_name (frames (src st))) s ++ Did s :: visible (log st).
Proof.
  intros s st (Hk & _) (Q1 & Q2). unfold ordinary_statement, told, adds.
  assert (Sf : src st = set_frames (frames (src st)) (src st)) by (destruct (src st); reflexivity).
  pose proof (register_log s (tell (Did s) st)) as L.
  destruct (register_label_mode s (tell (Did s) st)) as (R1 & R2 & R3 & _). set (st1 := register_label s (tell (Did s) st)) in *.
  cbn in R1, R2, R3, L.
  destruct (s_kind s) as [[n| | |]| | | | |f] eqn:E; try contradiction.
  - unfold process_copy. rewrite R2, existsb_map. destruct (lib n) eqn:El.
    + destruct (existsb (Nat.eqb n) _) eqn:Ex; eexists; (split; [reflexivity|]); (split; [split; cbn; congruence|]); cbn.
      * split; [congruence|]. unfold visible in *. cbn. now rewrite L.
      * split; [reflexivity|]. exact L.
    + eexists. split; [reflexivity|]. split; [split; cbn; congruence|]. cbn. split; [congruence|]. unfold visible in *. cbn. now rewrite L.
  - cbn [process_copy report]. eexists. split; [reflexivity|]. split; [split; cbn; congruence|]. cbn. split; [congruence|]. unfold visible in *. cbn. now rewrite L.
  - eexists. split; [reflexivity|]. split; [split; cbn; congruence|]. cbn. split; [congruence|]. unfold visible in *. cbn. now rewrite L.
  - eexists. split; [reflexivity|]. split; [split; cbn; congruence|]. cbn. split; [congruence|]. unfold visible in *. cbn. now rewrite L.
  - eexists. split; [reflexivity|]. destruct (s_reg s); cbn.
    + split; [split; cbn; congruence|]. split; [congruence|exact L].
    + split; [split; cbn; congruence|]. split; [exact Sf|reflexivity].
Qed.

Lemma step_straight : forall st s o st1, quiet st -> at_end st = false -> read_text program lib st = inl (Some (s, o), st1) -> straight s ->
  exists st2, step st = Next st2 /\ quiet st2 /\ frames (src st2) = adds (map f_name (frames (src st1))) s ++ frames (src st1) /\
    pos (src st2) = pos (src st1) /\ eof (src st2) = eof (src st1) /\
    visible (log st2) = told (map f_name (frames (src st1))) s ++ Did s :: visible (log st).
Proof.
  intros st s o st1 Q He Hr Hs. pose proof Q as (Q1 & Q2). unfold Look_Model.step. rewrite Q1. unfold step_ordinary. rewrite He.
  unfold read_any. rewrite Q2, Hr. destruct Hs as (Hk & W1 & W2). unfold wanted. rewrite W1. cbn [filter]. cbv zeta. rewrite W2. cbn [filter].
  pose proof (read_text_spec _ _ _ _ _ Hr) as (R1 & _ & _ & _ & R2 & _ & R3 & _).
  set (st2 := if o then _ else st1).
  assert (Q3 : quiet st2) by (subst st2; split; destruct o; cbn; congruence).
  destruct (ordinary_straight s st2 (conj Hk (conj W1 W2)) Q3) as (st3 & E1 & E2 & E3 & E4).
  exists st3. split; [exact E1|]. split; [exact E2|]. rewrite E3, E4. subst st2. destruct o; cbn; rewrite R3; auto.
Qed.

Lemma at_end_frames : forall (st : state) f l, frames (src st) = f :: l -> at_end st = false.
Proof. intros st f l H. unfold at_end. rewrite H. now destruct (macros st). Qed.

Lemma nth_skipn : forall {A} n (l : list A) s r, skipn n l = s :: r -> nth_error l n = Some s /\ skipn (S n) l = r.
Proof.
  intros A n. induction n as [|n IH]; intros [|a l] s r H; cbn in *; try discriminate; [injection H as -> ->; auto|].
  destruct (IH l s r H). auto.
Qed.

Hypothesis all_straight : text program lib straight.

(** Reading the rest of a member. *)
Lemma member_runs : forall open l out, expands lib open l out -> forall n c fs b st,
  quiet st -> frames (src st) = mkF n c :: fs -> map f_name (mkF n c :: fs) = open -> lib n = Some b ->
  (-1 <= c < Z.of_nat (length b))%Z -> skipn (Z.to_nat (c + 1)) b = l ->
  exists k st1, steps k st = Next st1 /\ quiet st1 /\ frames (src st1) = fs /\ pos (src st1) = pos (src st) /\ eof (src st1) = eof (src st) /\
    visible (log st1) = rev out ++ visible (log st).
Proof.
  intros open l out H. 
  assert (Read : forall n c fs b s r st, quiet st -> frames (src st) = mkF n c :: fs -> lib n = Some b ->
     (-1 <= c < Z.of_nat (length b))%Z -> skipn (Z.to_nat (c + 1)) b = s :: r ->
     exists st1, step st = Next st1 /\ quiet st1 /\ frames (src st1) = adds (n :: map f_name fs) s ++ mkF n (c + 1) :: fs /\
       pos (src st1) = pos (src st) /\ eof (src st1) = eof (src st) /\
       visible (log st1) = told (n :: map f_name fs) s ++ Did s :: visible (log st) /\
       (-1 <= c + 1 < Z.of_nat (length b))%Z /\ skipn (Z.to_nat (c + 1 + 1)) b = r).
  { intros n c fs b s r st Q Hf Hb Hc Hs. destruct (nth_skipn _ _ _ _ Hs) as (Hn & Hs').
    assert (Hlt : Z.to_nat (c + 1) < length b) by (apply nth_error_Some; congruence).
    assert (R : read_text program lib st = inl (Some (s, false), set_src (set_frames (mkF n (c + 1) :: fs) (src st)) st)).
    { unfold read_text. rewrite Hf. unfold read_copy. cbn [f_name f_cur]. rewrite Hb. 
      destruct (Z.eqb_spec (c + 1) (Z.of_nat (length b))); [lia|]. destruct (Z.ltb_spec (c + 1) 0); [lia|]. now rewrite Hn. }
    assert (Hst : straight s). { destruct all_straight as [_ A]. apply (A n b s Hb). apply nth_error_In in Hn. exact Hn. }
    destruct (step_straight _ _ _ _ Q (at_end_frames _ _ _ Hf) R Hst) as (st2 & E1 & E2 & E3 & E4 & E5 & E6).
    exists st2. split; [exact E1|]. split; [exact E2|]. cbn in *. repeat (split; [assumption|]). split; [lia|].
    replace (Z.to_nat (c + 1 + 1)) with (S (Z.to_nat (c + 1))) by lia. exact Hs'. }
  assert (Ins : forall n open, In n open -> existsb (Nat.eqb n) open = true).
  { intros n o Hi. apply existsb_exists. exists n. split; [exact Hi|apply Nat.eqb_refl]. }
  assert (Nins : forall n open, ~ In n open -> existsb (Nat.eqb n) open = false).
  { intros n o Hi. apply not_true_is_false. intros E. apply existsb_exists in E. destruct E as (x & Hx & E). apply Nat.eqb_eq in E. now subst. }
  induction H as [open|open s l n0 b0 out1 out2 Hk Hl Ho H1 IH1 H2 IH2|open s l n0 b0 out Hk Hl Ho H IH|open s l n0 out Hk Hl H IH|open s l out Hk H IH|open s l out Hk H IH|open s l out f Hk H IH];
    intros n c fs b st Q Hf Hopen Hb Hc Hs.
  - exists 1. cbn [Look_Model.steps]. unfold Look_Model.step. destruct Q as (Q1 & Q2). rewrite Q1. unfold step_ordinary.
    rewrite (at_end_frames _ _ _ Hf). unfold read_any. rewrite Q2. unfold read_text. rewrite Hf. unfold read_copy. cbn [f_name f_cur]. rewrite Hb.
    assert (Hle : length b <= Z.to_nat (c + 1)).
    { rewrite <- (firstn_skipn (Z.to_nat (c + 1)) b), Hs, app_nil_r. rewrite firstn_length. lia. }
    replace (Z.eqb (c + 1) (Z.of_nat (length b))) with true by lia.
    eexists. split; [reflexivity|]. cbn. repeat split; auto.
  - destruct (Read _ _ _ _ _ _ _ Q Hf Hb Hc Hs) as (st1 & S1 & Q1 & F1 & P1 & E1 & L1 & C1 & K1).
    unfold adds, told in F1, L1. rewrite Hk, Hl in F1, L1. cbn in Hopen. rewrite Hopen, (Nins _ _ Ho) in F1, L1. cbn [app] in F1, L1.
    assert (Hb0 : (-1 <= -1 <= Z.of_nat (length b0))%Z) by lia.
    destruct (Nat.eq_dec (length b0) 0) as [Hz|Hz].
    + (* an empty member *)
      destruct b0; [|discriminate]. inversion H1; subst out1.
      assert (X : exists st2, step st1 = Next st2 /\ quiet st2 /\ frames (src st2) = mkF n (c + 1) :: fs /\ pos (src st2) = pos (src st1) /\ eof (src st2) = eof (src st1) /\ visible (log st2) = visible (log st1)).
      { unfold Look_Model.step. destruct Q1 as (Q1 & Q2). rewrite Q1. unfold step_ordinary.
        rewrite (at_end_frames _ _ _ F1). unfold read_any. rewrite Q2. unfold read_text. rewrite F1. unfold read_copy. cbn [f_name f_cur]. rewrite Hl. cbn.
        eexists. split; [reflexivity|]. cbn. repeat split; auto. }
      destruct X as (st2 & S2 & Q2 & F2 & P2 & E2 & L2).
      destruct (IH2 n (c + 1)%Z fs b st2 Q2 F2 Hopen Hb C1 K1) as (k & st3 & S3 & Q3 & F3 & P3 & E3 & L3).
      exists (S (S k)), st3. cbn [Look_Model.steps]. rewrite S1, S2. split; [exact S3|]. split; [exact Q3|]. split; [exact F3|].
      split; [congruence|]. split; [congruence|]. rewrite L3, L2, L1. cbn. rewrite <- app_assoc. reflexivity.
    + destruct (IH1 n0 (-1)%Z (mkF n (c + 1) :: fs) b0 st1 Q1 F1) as (k1 & st2 & S2 & Q2 & F2 & P2 & E2 & L2); [cbn; congruence|exact Hl|lia|reflexivity|].
      destruct (IH2 n (c + 1)%Z fs b st2 Q2 F2 Hopen Hb C1 K1) as (k & st3 & S3 & Q3 & F3 & P3 & E3 & L3).
      exists (S (k1 + k)), st3. cbn [Look_Model.steps]. rewrite S1, (steps_app _ _ _ _ S2). split; [exact S3|]. split; [exact Q3|]. split; [exact F3|].
      split; [congruence|]. split; [congruence|]. rewrite L3, L2, L1. cbn. rewrite rev_app_distr, <- !app_assoc. reflexivity.
  - destruct (Read _ _ _ _ _ _ _ Q Hf Hb Hc Hs) as (st1 & S1 & Q1 & F1 & P1 & E1 & L1 & C1 & K1).
    unfold adds, told in F1, L1. rewrite Hk, Hl in F1, L1. cbn in Hopen. rewrite Hopen, (Ins _ _ Ho) in F1, L1. cbn [app] in F1, L1.
    destruct (IH n (c + 1)%Z fs b st1 Q1 F1 Hopen Hb C1 K1) as (k & st3 & S3 & Q3 & F3 & P3 & E3 & L3).
    exists (S k), st3. cbn [Look_Model.steps]. rewrite S1. split; [exact S3|]. split; [exact Q3|]. split; [exact F3|].
    split; [congruence|]. split; [congruence|]. rewrite L3, L1. cbn. rewrite <- !app_assoc. reflexivity.
  - destruct (Read _ _ _ _ _ _ _ Q Hf Hb Hc Hs) as (st1 & S1 & Q1 & F1 & P1 & E1 & L1 & C1 & K1).
    unfold adds, told in F1, L1. rewrite Hk, Hl in F1, L1. cbn [app] in F1, L1.
    destruct (IH n (c + 1)%Z fs b st1 Q1 F1 Hopen Hb C1 K1) as (k & st3 & S3 & Q3 & F3 & P3 & E3 & L3).
    exists (S k), st3. cbn [Look_Model.steps]. rewrite S1. split; [exact S3|]. split; [exact Q3|]. split; [exact F3|].
    split; [congruence|]. split; [congruence|]. rewrite L3, L1. cbn. rewrite <- !app_assoc. reflexivity.
  - destruct (Read _ _ _ _ _ _ _ Q Hf Hb Hc Hs) as (st1 & S1 & Q1 & F1 & P1 & E1 & L1 & C1 & K1).
    unfold adds, told in F1, L1. rewrite Hk in F1, L1. cbn [app] in F1, L1.
    destruct (IH n (c + 1)%Z fs b st1 Q1 F1 Hopen Hb C1 K1) as (k & st3 & S3 & Q3 & F3 & P3 & E3 & L3).
    exists (S k), st3. cbn [Look_Model.steps]. rewrite S1. split; [exact S3|]. split; [exact Q3|]. split; [exact F3|].
    split; [congruence|]. split; [congruence|]. rewrite L3, L1. cbn. rewrite <- !app_assoc. reflexivity.
  - destruct (Read _ _ _ _ _ _ _ Q Hf Hb Hc Hs) as (st1 & S1 & Q1 & F1 & P1 & E1 & L1 & C1 & K1).
    assert (X : frames (src st1) = mkF n (c + 1) :: fs /\ visible (log st1) = Checked :: Did s :: visible (log st)).
    { unfold adds, told in F1, L1. destruct Hk as [Hk|Hk]; rewrite Hk in F1, L1; auto. }
    destruct X as (F1' & L1'). clear F1 L1.
    destruct (IH n (c + 1)%Z fs b st1 Q1 F1' Hopen Hb C1 K1) as (k & st3 & S3 & Q3 & F3 & P3 & E3 & L3).
    exists (S k), st3. cbn [Look_Model.steps]. rewrite S1. split; [exact S3|]. split; [exact Q3|]. split; [exact F3|].
    split; [congruence|]. split; [congruence|]. rewrite L3, L1'. cbn. rewrite <- !app_assoc. reflexivity.
  - destruct (Read _ _ _ _ _ _ _ Q Hf Hb Hc Hs) as (st1 & S1 & Q1 & F1 & P1 & E1 & L1 & C1 & K1).
    unfold adds, told in F1, L1. rewrite Hk in F1, L1. cbn [app] in F1, L1.
    destruct (IH n (c + 1)%Z fs b st1 Q1 F1 Hopen Hb C1 K1) as (k & st3 & S3 & Q3 & F3 & P3 & E3 & L3).
    exists (S k), st3. cbn [Look_Model.steps]. rewrite S1. split; [exact S3|]. split; [exact Q3|]. split; [exact F3|].
    split; [congruence|]. split; [congruence|]. rewrite L3, L1. cbn. rewrite <- !app_assoc. reflexivity.
Qed.

(** A whole member, also an empty one. *)
Lemma member_runs_all : forall n b fs out st, lib n = Some b -> expands lib (n :: map f_name fs) b out ->
  quiet st -> frames (src st) = mkF n (-1) :: fs ->
  exists k st1, steps k st = Next st1 /\ quiet st1 /\ frames (src st1) = fs /\ pos (src st1) = pos (src st) /\ eof (src st1) = eof (src st) /\
    visible (log st1) = rev out ++ visible (log st).
Proof.
  intros n b fs out st Hb He Q Hf. destruct b as [|s b].
  - inversion He; subst. exists 1. cbn [Look_Model.steps]. unfold Look_Model.step. destruct Q as (Q1 & Q2). rewrite Q1. unfold step_ordinary.
    rewrite (at_end_frames _ _ _ Hf). unfold read_any. rewrite Q2. unfold read_text. rewrite Hf. unfold read_copy. cbn [f_name f_cur]. rewrite Hb. cbn.
    eexists. split; [reflexivity|]. cbn. repeat split; auto.
  - apply (member_runs _ _ _ He n (-1)%Z fs (s :: b) st Q Hf); [reflexivity|exact Hb|cbn; lia|reflexivity].
Qed.

Lemma open_runs : forall l out, expands lib [] l out -> forall st,
  quiet st -> frames (src st) = [] -> eof (src st) = false -> skipn (pos (src st)) program = l ->
  exists k st1, steps k st = Done st1 /\ visible (log st1) = rev out ++ visible (log st).
Proof.
  intros l. induction l as [|s l IH]; intros out H st Q Hf He Hs.
  - inversion H; subst. exists 2. cbn [Look_Model.steps]. destruct Q as (Q1 & Q2).
    assert (N : nth_error program (pos (src st)) = None).
    { apply nth_error_None. rewrite <- (firstn_skipn (pos (src st)) program), Hs, app_nil_r, firstn_length. lia. }
    eexists. split.
    + unfold Look_Model.step at 1. rewrite Q1. unfold step_ordinary. unfold at_end at 1. rewrite Q2, Hf, He. unfold read_any. rewrite Q2.
      unfold read_text. rewrite Hf. unfold read_open. rewrite N. unfold Look_Model.step. cbn [set_src st_mode]. rewrite Q1.
      unfold step_ordinary, at_end. cbn. rewrite Q2, Hf. reflexivity.
    + reflexivity.
  - destruct (nth_skipn _ _ _ _ Hs) as (Hn & Hs').
    assert (R : exists st1, read_text program lib st = inl (Some (s, true), st1) /\ frames (src st1) = [] /\ pos (src st1) = S (pos (src st)) /\ eof (src st1) = false).
    { unfold read_text. rewrite Hf. unfold read_open. rewrite Hn, Hf. eexists. split; [reflexivity|]. cbn. auto. }
    destruct R as (st1 & R & F1 & P1 & E1).
    assert (Ha : at_end st = false) by (unfold at_end; destruct Q as (_ & ->); now rewrite Hf).
    assert (Hst : straight s). { destruct all_straight as [A _]. apply A. apply nth_error_In in Hn. exact Hn. }
    destruct (step_straight _ _ _ _ Q Ha R Hst) as (st2 & S2 & Q2 & F2 & P2 & E2 & L2).
    rewrite F1 in F2, L2. cbn [map app] in F2, L2. rewrite app_nil_r in F2. unfold adds, told in F2, L2.
    assert (G : forall o2 (st3 : state), expands lib [] l o2 -> quiet st3 -> frames (src st3) = [] -> pos (src st3) = pos (src st2) -> eof (src st3) = eof (src st2) ->
      exists k st4, steps k st3 = Done st4 /\ visible (log st4) = rev o2 ++ visible (log st3)).
    { intros o2 st3 H3 Q3 F3 P3 E3. apply IH; auto; [congruence|]. rewrite P3, P2, P1. exact Hs'. }
    assert (G2 : forall o2 ev, expands lib [] l o2 -> frames (src st2) = [] -> visible (log st2) = ev ++ Did s :: visible (log st) ->
      exists k st4, steps k st = Done st4 /\ visible (log st4) = rev o2 ++ ev ++ Did s :: visible (log st)).
    { intros o2 ev H3 F3 L3. destruct (G o2 st2 H3 Q2 F3 eq_refl eq_refl) as (k & st4 & S4 & L4). exists (S k), st4. cbn [Look_Model.steps]. rewrite S2.
      split; [exact S4|]. now rewrite L4, L3. }
    inversion H as [|open s0 l0 n0 b0 out1 out2 Hk Hl Ho H1 H2|open s0 l0 n0 b0 out0 Hk Hl Ho H2|open s0 l0 n0 out0 Hk Hl H2|open s0 l0 out0 Hk H2|open s0 l0 out0 Hk H2|open s0 l0 out0 f Hk H2]; subst.
    + rewrite Hk, Hl in F2, L2. cbn in F2, L2.
      destruct (member_runs_all n0 b0 [] out1 st2 Hl H1 Q2 F2) as (k1 & st3 & S3 & Q3 & F3 & P3 & E3 & L3).
      destruct (G out2 st3 H2 Q3 F3 P3 E3) as (k & st4 & S4 & L4).
      exists (S (k1 + k)), st4. cbn [Look_Model.steps]. rewrite S2, (steps_app _ _ _ _ S3). split; [exact S4|]. rewrite L4, L3, L2. cbn.
      rewrite rev_app_distr, <- !app_assoc. reflexivity.
    + destruct Ho.
    + rewrite Hk, Hl in F2, L2. destruct (G2 _ [E058] H2 F2 L2) as (k & st4 & S4 & L4). exists k, st4. split; [exact S4|]. rewrite L4. cbn. now rewrite <- !app_assoc.
    + rewrite Hk in F2, L2. destruct (G2 _ [E058] H2 F2 L2) as (k & st4 & S4 & L4). exists k, st4. split; [exact S4|]. rewrite L4. cbn. now rewrite <- !app_assoc.
    + assert (X : frames (src st2) = [] /\ visible (log st2) = [Checked] ++ Did s :: visible (log st)).
      { destruct Hk as [Hk|Hk]; rewrite Hk in F2, L2; auto. }
      destruct X as (F2' & L2'). destruct (G2 _ [Checked] H2 F2' L2') as (k & st4 & S4 & L4). exists k, st4. split; [exact S4|]. rewrite L4. cbn. now rewrite <- !app_assoc.
    + rewrite Hk in F2, L2. destruct (G2 _ [] H2 F2 L2) as (k & st4 & S4 & L4). exists k, st4. split; [exact S4|]. rewrite L4. cbn. now rewrite <- !app_assoc.
Qed.
End Expand.

(** There is one expansion, and exactly one. *)
Section Total.
Context {attr data : Type}.
Notation stmt := (stmt attr data).
Variable lib : id -> option (list stmt).

Lemma expands_one : forall open l o1, expands lib open l o1 -> forall o2, expands lib open l o2 -> o1 = o2.
Proof.
  induction 1 as [open|open s l n0 b0 out1 out2 Hk Hl Ho H1 IH1 H2 IH2|open s l n0 b0 out Hk Hl Ho H IH|open s l n0 out Hk Hl H IH|open s l out Hk H IH|open s l out Hk H IH|open s l out f Hk H IH];
    intros o X; inversion X; subst; try congruence; try (exfalso; intuition congruence); try (f_equal; try f_equal; auto; congruence).
  - assert (n = n0) by congruence. subst. assert (b = b0) by congruence. subst. f_equal. f_equal; auto.
Qed.

Variable members : list id.
Hypothesis fin : finite lib members.
Lemma expands_some : forall k open, NoDup open -> (forall n, In n open -> In n members) -> length members <= length open + k ->
  forall l, (forall s, In s l -> straight s) -> (forall n b s, lib n = Some b -> In s b -> straight s) -> exists out, expands lib open l out.
Proof.
  induction k as [|k IH]; intros open Hd Hi Hk; induction l as [|s l IHl]; intros Hs Hm; try (eexists; apply x_nil);
    (destruct IHl as (out & H); [intros; apply Hs; now right|exact Hm|]); (assert (Hst : straight s) by (apply Hs; now left));
    destruct Hst as (Hst & _); destruct (s_kind s) as [[n| | |]| | | | |f] eqn:E; try contradiction;
    try (eexists; first [eapply x_plain; now eauto|eapply x_no_name; now eauto|eapply x_wrong; now eauto]);
    (destruct (lib n) as [b|] eqn:El; [|eexists; eapply x_missing; eauto]);
    (destruct (in_dec Nat.eq_dec n open) as [Hin|Hin]; [eexists; eapply x_recursive; now eauto|]);
    assert (Hn : In n members) by (apply fin; congruence).
  - exfalso. assert (X : length (n :: open) <= length members).
    { apply NoDup_incl_length; [constructor; auto|]. intros x [<-|Hx]; auto. }
    cbn in X. lia.
  - destruct (IH (n :: open)) with (l := b) as (out1 & H1); auto.
    + constructor; auto.
    + intros x [<-|Hx]; auto.
    + cbn. lia.
    + intros s0 Hs0. eapply Hm; eauto.
    + eexists. eapply x_copy; eauto.
Qed.
End Total.
