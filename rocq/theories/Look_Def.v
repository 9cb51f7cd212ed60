(** A macro definition is read up to its MEND. *)
From Coq Require Import List Arith ZArith Bool Lia.
From Coq Require Import ZifyBool ZifyNat.
From Verif Require Import Look_Model Look_Spec Look_Proof Look_Copy Look_Expand Look_Scan.
Import ListNotations.

Section Collects.
Context {attr data : Type}.
Notation stmt := (stmt attr data).
Variable lib : id -> option (list stmt).

Lemma collects_one : forall p k fs o out1 f1 o1, collects lib p k fs o out1 f1 o1 -> forall out2 f2 o2, collects lib p k fs o out2 f2 o2 ->
  out1 = out2 /\ f1 = f2 /\ o1 = o2.
Proof.
  induction 1; intros out2 f2 o2 X; inversion X; subst; auto; try contradiction;
    match goal with IH : forall out2 f2 o2, _ -> _ |- _ => now (edestruct IH as (-> & -> & ->); eauto) end.
Qed.

Lemma last_dec : forall p k (s : stmt), last_of p k s \/ ~ last_of p k s.
Proof.
  intros p k s. unfold last_of. destruct p; [right; intros (? & _); discriminate|]. destruct (Nat.eq_dec k 1); [|right; intros (_ & ? & _); contradiction].
  destruct (s_kind s) eqn:E; try (right; intros (_ & _ & ?); discriminate). left. auto.
Qed.

Variable members : list id.
Hypothesis fin : finite lib members.

Lemma brought_cases : forall p (s : stmt) fs, brought lib p s fs = fs \/
  exists n b, brought lib p s fs = (n, b) :: fs /\ lib n = Some b /\ ~ In n (map fst fs).
Proof.
  intros p s fs. unfold brought. destruct p; auto. destruct (s_kind s) as [[n| | |]| | | | |]; auto.
  destruct (lib n) as [b|] eqn:E; auto. destruct (existsb (fun f => Nat.eqb (fst f) n) fs) eqn:X; auto. right. exists n, b. split; [reflexivity|]. split; [exact E|].
  intros H. apply in_map_iff in H. destruct H as (f & Hf & Hin).
  assert (Y : existsb (fun f => Nat.eqb (fst f) n) fs = true) by (apply existsb_exists; exists f; split; [exact Hin|now apply Nat.eqb_eq]).
  congruence.
Qed.

Definition some (fs : list (id * list stmt)) (o : list stmt) : Prop := forall p k, exists out fs' o', collects lib p k fs o out fs' o'.

Lemma some_member : forall j n r fs o, NoDup (n :: map fst fs) -> (forall m, In m (n :: map fst fs) -> In m members) ->
  length members <= S (length fs) + j -> some fs o -> some ((n, r) :: fs) o.
Proof.
  induction j as [|j IHj]; intros n r fs o Hd Hi Hj Hc; induction r as [|s r IHr]; intros p k;
    try (destruct (Hc p k) as (out & fs' & o' & H); exists out, fs', o'; now apply d_pop);
    (destruct (last_dec p k s) as [L|L]; [do 3 eexists; now apply d_last_member|]);
    destruct (brought_cases p s ((n, r) :: fs)) as [E|(m & b & E & Hb & Hn)];
    try (destruct (IHr false (inner p k s)) as (out & fs' & o' & H); do 3 eexists; apply d_member; [exact L|]; rewrite E; exact H).
  - exfalso. assert (X : length (m :: n :: map fst fs) <= length members).
    { apply NoDup_incl_length; [constructor; auto|]. intros x [<-|Hx]; [apply fin; congruence|auto]. }
    cbn in X. rewrite map_length in X. lia.
  - destruct (IHj m b ((n, r) :: fs) o) with (p := false) (k := inner p k s) as (out & fs' & o' & H).
    + cbn in *. constructor; auto.
    + cbn. intros x [<-|Hx]; [apply fin; congruence|auto].
    + cbn. lia.
    + exact IHr.
    + do 3 eexists. apply d_member; [exact L|]. rewrite E. exact H.
Qed.

Lemma collects_some : forall fs, NoDup (map fst fs) -> (forall m, In m (map fst fs) -> In m members) -> forall o, some fs o.
Proof.
  induction fs as [|[n r] fs IH]; intros Hd Hi o.
  - induction o as [|s o IHo]; intros p k; [do 3 eexists; apply d_end|].
    destruct (last_dec p k s) as [L|L]; [do 3 eexists; now apply d_last_open|].
    destruct (brought_cases p s []) as [E|(m & b & E & Hb & Hn)].
    + destruct (IHo false (inner p k s)) as (out & fs' & o' & H). do 3 eexists. apply d_open; [exact L|]. rewrite E. exact H.
    + destruct (some_member (length members) m b [] o) with (p := false) (k := inner p k s) as (out & fs' & o' & H).
      * repeat constructor. intros [].
      * intros x [<-|[]]. apply fin. congruence.
      * lia.
      * exact IHo.
      * do 3 eexists. apply d_open; [exact L|]. rewrite E. exact H.
  - cbn in Hd, Hi. apply some_member with (j := length members); auto; [cbn; lia|]. apply IH; [now inversion Hd|auto].
Qed.
End Collects.

Section Define.
Context {attr data : Type}.
Variable unknown_attr : attr.
Variable defined : data -> id -> bool.
Variable program : list (stmt attr data).
Variable lib : id -> option (list (stmt attr data)).
Variable macro_of : data -> id -> option (list (stmt attr data)).
Variable define : list (stmt attr data) -> data -> data.
Notation state := (state attr data).
Notation stmt := (stmt attr data).
Notation step := (step unknown_attr defined program lib macro_of define).
Notation steps := (steps unknown_attr defined program lib macro_of define).

Hypothesis no_other : text program lib (fun s => s_kind s <> KCopy COther).

(** The state when the definition has been read. *)
Definition read_up (st st1 : state) (body : list stmt) (fs' : list (id * list stmt)) (o' : list stmt) : Prop :=
  st_mode st1 = MOrd /\ st_data st1 = define body (st_data st) /\ macros st1 = [] /\
  frames_are lib (frames (src st1)) fs' /\ skipn (pos (src st1)) program = o' /\
  refs st1 = refs st /\ seqs st1 = seqs st /\ stop st1 = stop st.

Lemma def_statement : forall (st st0 : state) p k body s ob fs,
  st_mode st = MDef k p body -> macros st = [] -> at_end st = false -> k >= 1 ->
  read_text program lib st = inl (Some (s, ob), st0) -> s_kind s <> KCopy COther ->
  frames_are lib (frames (src st0)) fs -> eof (src st0) = false -> st0 = set_src (src st0) st ->
  exists st1, step st = Next st1 /\ macros st1 = [] /\ pos (src st1) = pos (src st0) /\ eof (src st1) = false /\
    refs st1 = refs st /\ seqs st1 = seqs st /\ stop st1 = stop st /\
    ((last_of p k s -> st_mode st1 = MOrd /\ st_data st1 = define (rev (s :: body)) (st_data st) /\ frames_are lib (frames (src st1)) fs) /\
     (~ last_of p k s -> st_mode st1 = MDef (inner p k s) false (s :: body) /\ inner p k s >= 1 /\ st_data st1 = st_data st /\
        frames_are lib (frames (src st1)) (brought lib p s fs))).
Proof.
  clear no_other. intros st st0 p k body s ob fs Hm Hma Ha Hk Hr Hs Hf He E0. unfold Look_Model.step. rewrite Hm. unfold step_definition. rewrite Ha.
  unfold read_any. rewrite Hma, Hr.
  set (st1 := if ob then set_src (set_iline (line (src st)) (src st0)) st0 else st0).
  assert (B : frames (src st1) = frames (src st0) /\ pos (src st1) = pos (src st0) /\ eof (src st1) = false /\ macros st1 = [] /\
    refs st1 = refs st /\ seqs st1 = seqs st /\ stop st1 = stop st /\ st_data st1 = st_data st).
  { subst st1. rewrite E0. destruct ob; cbn; auto 10. }
  clearbody st1. destruct B as (B1 & B2 & B3 & B4 & B5 & B6 & B7 & B8).
  assert (Go : forall nest', exists st2, Next (set_mode (MDef nest' false (s :: body)) st1) = Next st2 /\ macros st2 = [] /\ pos (src st2) = pos (src st0) /\ eof (src st2) = false /\
    refs st2 = refs st /\ seqs st2 = seqs st /\ stop st2 = stop st /\ st_mode st2 = MDef nest' false (s :: body) /\ st_data st2 = st_data st /\ frames (src st2) = frames (src st0)).
  { intros nest'. eexists. split; [reflexivity|]. cbn. auto 10. }
  assert (Plain : forall nest', ~ last_of p k s -> inner p k s = nest' -> nest' >= 1 -> brought lib p s fs = fs ->
    exists st2, Next (set_mode (MDef nest' false (s :: body)) st1) = Next st2 /\ macros st2 = [] /\ pos (src st2) = pos (src st0) /\ eof (src st2) = false /\
    refs st2 = refs st /\ seqs st2 = seqs st /\ stop st2 = stop st /\
    ((last_of p k s -> st_mode st2 = MOrd /\ st_data st2 = define (rev (s :: body)) (st_data st) /\ frames_are lib (frames (src st2)) fs) /\
     (~ last_of p k s -> st_mode st2 = MDef (inner p k s) false (s :: body) /\ inner p k s >= 1 /\ st_data st2 = st_data st /\
        frames_are lib (frames (src st2)) (brought lib p s fs)))).
  { intros nest' L I1 I2 I3. destruct (Go nest') as (st2 & G0 & G1 & G2 & G3 & G4 & G5 & G6 & G7 & G8 & G9). exists st2.
    do 7 (split; [assumption|]). split; [intros X; contradiction|]. intros _. rewrite I1, I3, G9. auto. }
  destruct p.
  - apply Plain; auto; intros (X & _); discriminate.
  - destruct (s_kind s) as [c| | |f|n|f] eqn:Ek.
    + assert (L : ~ last_of false k s) by (intros (_ & _ & X); congruence).
      assert (I1 : inner false k s = k) by (unfold inner; now rewrite Ek).
      destruct c as [n| | |]; [| |now destruct Hs|].
      * unfold brought. rewrite Ek. cbn [process_copy]. cbn [set_mode src].
        assert (X : existsb (fun f => Nat.eqb (f_name f) n) (frames (src st1)) = existsb (fun f => Nat.eqb (fst f) n) fs).
        { destruct Hf as [_ Hf]. rewrite B1. rewrite existsb_map, <- (frames_names _ _ _ Hf). clear. induction fs as [|f fs IH]; cbn; [reflexivity|].
          now rewrite IH, Nat.eqb_sym. }
        rewrite X, I1. destruct (lib n) as [b|] eqn:El; [destruct (existsb (fun f => Nat.eqb (fst f) n) fs)|].
        -- eexists. split; [reflexivity|]. cbn. do 6 (split; [assumption|]). split; [intros Y; contradiction|]. intros _. rewrite B1. auto.
        -- eexists. split; [reflexivity|]. cbn. do 6 (split; [assumption|]). split; [intros Y; contradiction|]. intros _.
           split; [reflexivity|]. split; [exact Hk|]. split; [exact B8|]. destruct Hf as [Hf1 Hf2]. rewrite B1. split.
           ++ constructor; [|exact Hf1]. exists b. cbn. split; [exact El|lia].
           ++ cbn. rewrite El, Hf2. reflexivity.
        -- eexists. split; [reflexivity|]. cbn. do 6 (split; [assumption|]). split; [intros Y; contradiction|]. intros _. rewrite B1. auto.
      * cbn [process_copy report]. rewrite I1. unfold brought. rewrite Ek. eexists. split; [reflexivity|]. cbn. do 6 (split; [assumption|]).
        split; [intros Y; contradiction|]. intros _. rewrite B1. auto.
      * cbn [process_copy report]. rewrite I1. unfold brought. rewrite Ek. eexists. split; [reflexivity|]. cbn. do 6 (split; [assumption|]).
        split; [intros Y; contradiction|]. intros _. rewrite B1. auto.
    + apply Plain; [intros (_ & _ & X); congruence|unfold inner; now rewrite Ek|lia|unfold brought; now rewrite Ek].
    + destruct k as [|[|k]]; [lia| |].
      * eexists. split; [reflexivity|]. unfold finish_definition. cbn. do 6 (split; [assumption|]). split; [|intros X; exfalso; apply X; repeat split; assumption].
        intros _. rewrite B1, B8. auto.
      * apply Plain; [intros (_ & X & _); discriminate|unfold inner; now rewrite Ek|lia|unfold brought; now rewrite Ek].
    + apply Plain; [intros (_ & _ & X); congruence|unfold inner; now rewrite Ek|exact Hk|unfold brought; now rewrite Ek].
    + apply Plain; [intros (_ & _ & X); congruence|unfold inner; now rewrite Ek|exact Hk|unfold brought; now rewrite Ek].
    + apply Plain; [intros (_ & _ & X); congruence|unfold inner; now rewrite Ek|exact Hk|unfold brought; now rewrite Ek].
Qed.

Lemma definition_runs : forall p k fs o out fs' o', collects lib p k fs o out fs' o' -> forall (st : state) body,
  st_mode st = MDef k p body -> macros st = [] -> frames_are lib (frames (src st)) fs -> skipn (pos (src st)) program = o -> eof (src st) = false -> k >= 1 ->
  exists n st1, steps n st = Next st1 /\ read_up st st1 (rev body ++ out) fs' o'.
Proof.
  assert (Le : forall st : state, eof (src st) = false -> at_end st = false).
  { intros st H. unfold at_end. rewrite H. now destruct (macros st), (frames (src st)). }
  assert (Txt : forall (st : state) s ob st0, read_text program lib st = inl (Some (s, ob), st0) -> s_kind s <> KCopy COther).
  { clear Le. intros st s ob st0 H. destruct no_other as [A B]. unfold read_text in H. destruct (frames (src st)) as [|f l].
    - unfold read_open in H. destruct (nth_error program (pos (src st))) as [x|] eqn:E; [|discriminate]. injection H as <- _ _. apply A. eapply nth_error_In; eauto.
    - unfold read_copy in H. destruct (lib (f_name f)) as [b|] eqn:El; [|discriminate]. destruct (Z.eqb _ _); [discriminate|]. destruct (Z.ltb _ _); [discriminate|].
      destruct (nth_error b _) as [x|] eqn:E; [|discriminate]. injection H as <- _ _. eapply B; eauto. eapply nth_error_In; eauto. }
  induction 1 as [p k|p k n fs o out fs' o' H IH|p k s o L|p k n s r fs o L|p k s o out fs' o' L H IH|p k n s r fs o out fs' o' L H IH];
    intros st body Hm Hma Hf Ho He Hk; pose proof (look_reads program lib st _ _ Hf Ho He) as R; cbn in R.
  - destruct R as (st1 & R & F1 & E1 & S1). exists 2. cbn [Look_Model.steps]. unfold Look_Model.step at 1. rewrite Hm. unfold step_definition at 1. rewrite (Le _ He).
    unfold read_any at 1. rewrite Hma, R. rewrite S1. unfold Look_Model.step. cbn [set_src st_mode]. rewrite Hm. unfold step_definition.
    unfold at_end. cbn [set_src macros src]. rewrite Hma, F1, E1. eexists. split; [reflexivity|]. unfold read_up. cbn. rewrite F1, app_nil_r.
    do 3 (split; [auto; fail|]). split; [split; [constructor|reflexivity]|].
    split; [|auto]. unfold read_text in R. destruct (frames (src st)) as [|f l] eqn:Ef.
    + unfold read_open in R. destruct (nth_error program (pos (src st))) eqn:N; [discriminate|]. injection R as R. rewrite <- R. cbn. exact Ho.
    + destruct Hf as (_ & Hf). cbn in Hf. destruct (lib (f_name f)); [|discriminate]. destruct (rest_of lib l); [|discriminate]. destruct (Z.leb _ _); discriminate.
  - assert (R' : exists st1, read_text program lib st = inl (None, st1) /\ frames_are lib (frames (src st1)) fs /\ pos (src st1) = pos (src st) /\ eof (src st1) = false /\ st1 = set_src (src st1) st) by exact R.
    destruct R' as (st1 & R1 & F1 & P1 & E1 & S1).
    destruct (IH st1 body) as (j & st2 & S2 & U).
    + rewrite S1. exact Hm.
    + rewrite S1. exact Hma.
    + exact F1.
    + now rewrite P1.
    + exact E1.
    + exact Hk.
    + exists (S j), st2. cbn [Look_Model.steps]. unfold Look_Model.step at 1. rewrite Hm. unfold step_definition. rewrite (Le _ He). unfold read_any. rewrite Hma, R1.
      split; [exact S2|]. unfold read_up in *. rewrite S1 in U. exact U.
  - destruct R as (st0 & R & F0 & P0 & E0 & S0).
    destruct (def_statement st st0 p k body s true [] Hm Hma (Le _ He) Hk R (Txt _ _ _ _ R) F0 E0 S0) as (st1 & D0 & D1 & D2 & D3 & D4 & D5 & D6 & D7 & _).
    destruct (D7 L) as (D8 & D9 & D10). exists 1, st1. cbn [Look_Model.steps]. rewrite D0. split; [reflexivity|]. unfold read_up. cbn [rev] in D9. rewrite D2. auto 10.
  - destruct R as (st0 & R & F0 & P0 & E0 & S0).
    destruct (def_statement st st0 p k body s false ((n, r) :: fs) Hm Hma (Le _ He) Hk R (Txt _ _ _ _ R) F0 E0 S0) as (st1 & D0 & D1 & D2 & D3 & D4 & D5 & D6 & D7 & _).
    destruct (D7 L) as (D8 & D9 & D10). exists 1, st1. cbn [Look_Model.steps]. rewrite D0. split; [reflexivity|]. unfold read_up. cbn [rev] in D9. rewrite D2, P0. auto 10.
  - destruct R as (st0 & R & F0 & P0 & E0 & S0).
    destruct (def_statement st st0 p k body s true [] Hm Hma (Le _ He) Hk R (Txt _ _ _ _ R) F0 E0 S0) as (st1 & D0 & D1 & D2 & D3 & D4 & D5 & D6 & _ & D7).
    destruct (D7 L) as (D8 & D9 & D10 & D11). destruct (IH st1 (s :: body) D8 D1 D11) as (j & st2 & S2 & U); [rewrite D2; exact P0|exact D3|exact D9|].
    exists (S j), st2. cbn [Look_Model.steps]. rewrite D0. split; [exact S2|]. unfold read_up in *. rewrite D10, D4, D5, D6 in U. cbn [rev] in U. rewrite <- app_assoc in U. exact U.
  - destruct R as (st0 & R & F0 & P0 & E0 & S0).
    destruct (def_statement st st0 p k body s false ((n, r) :: fs) Hm Hma (Le _ He) Hk R (Txt _ _ _ _ R) F0 E0 S0) as (st1 & D0 & D1 & D2 & D3 & D4 & D5 & D6 & _ & D7).
    destruct (D7 L) as (D8 & D9 & D10 & D11). destruct (IH st1 (s :: body) D8 D1 D11) as (j & st2 & S2 & U); [rewrite D2, P0; exact Ho|exact D3|exact D9|].
    exists (S j), st2. cbn [Look_Model.steps]. rewrite D0. split; [exact S2|]. unfold read_up in *. rewrite D10, D4, D5, D6 in U. cbn [rev] in U. rewrite <- app_assoc in U. exact U.
Qed.
End Define.
