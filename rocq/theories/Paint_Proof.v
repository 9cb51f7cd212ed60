(** * Paint_Proof: the colours shown are those of the last answer *)
From Coq Require Import String List NArith Bool Arith Lia.
From Verif Require Import Common Lts.
From Verif Require Import Tok_Spec Paint_Model Paint_Spec.
Import ListNotations.
Open Scope list_scope.
Open Scope nat_scope.

Lemma colour_eqb_eq : forall a b, colour_eqb a b = true <-> a = b.
Proof.
  intros [a|] [b|]; cbn; split; intros H; try easy.
  - f_equal. now apply bytes_eqb_eq.
  - injection H as <-. now apply bytes_eqb_eq.
Qed.
Lemma upd_same : forall {B} (f : nat -> B) t v, upd f t v t = v.
Proof. intros. unfold upd. now rewrite Nat.eqb_refl. Qed.
Lemma upd_other : forall {B} (f : nat -> B) t v x, x <> t -> upd f t v x = f x.
Proof. intros B f t v x N. unfold upd. apply Nat.eqb_neq in N. now rewrite N. Qed.
Lemma bytes_eqb_neq : forall a b, bytes_eqb a b = false <-> a <> b.
Proof.
  intros a b. split.
  - intros H ->. now rewrite (proj2 (bytes_eqb_eq b b) eq_refl) in H.
  - intros N. destruct (bytes_eqb a b) eqn:E; [|reflexivity]. now apply bytes_eqb_eq in E.
Qed.

(** A table in order: its types are alive, with its colours, and differ. *)
Definition ordered (D : list deco) (w : screen) : Prop :=
  (forall d, In d D -> tid d < fresh w /\ live w (tid d) = Some (key d)) /\
  (forall d d', In d D -> In d' D -> tid d = tid d' -> d = d').
Definition holding (D : list deco) (c : colour) (r : range) : Prop := exists d, In d D /\ key d = c /\ In r (ranges d).
(** Nothing changes for the types [t] of a list and for those not yet made. *)
Definition untouched (P : nat -> Prop) (w w' : screen) : Prop :=
  fresh w <= fresh w' /\ forall t, t < fresh w -> P t -> live w' t = live w t.

Lemma reset_ok : forall D w, (forall d, In d D -> tid d < fresh w) ->
  let D' := fst (reset D w) in let w' := snd (reset D w) in
  ordered D' w' /\ (forall d, In d D' -> fresh w <= tid d /\ ranges d = []) /\ untouched (fun t => ~ In t (map tid D)) w w' /\
  (forall e', In e' (visible w') -> exists e, In e (visible w) /\ e_uri e' = e_uri e /\ language e' = language e /\
     forall t r, In r (shown e' t) <-> ~ In t (map tid D) /\ In r (shown e t)).
Proof.
  induction D as [|d D IH]; intros w H; cbn [reset].
  - cbn. split; [split; easy|]. split; [easy|]. split; [split; [lia|reflexivity]|].
    intros e' I. exists e'. split; [exact I|]. split; [reflexivity|]. split; [reflexivity|]. intuition.
  - set (w1 := Screen (upd (live (dispose (tid d) w)) (fresh w) (Some (key d))) (S (fresh w)) (visible (dispose (tid d) w))).
    assert (C : create (key d) (dispose (tid d) w) = (fresh w, w1)) by reflexivity. rewrite C.
    assert (H1 : forall d0, In d0 D -> tid d0 < fresh w1) by (intros d0 I; specialize (H d0 (or_intror I)); cbn; lia).
    specialize (IH w1 H1). cbv zeta in IH. destruct (reset D w1) as [D' w'] eqn:R. cbn [fst snd] in *.
    destruct IH as ((A1 & A2) & B & (U1 & U2) & V). change (fresh w1) with (S (fresh w)) in *.
    assert (Dt : tid d < fresh w) by (apply H; now left).
    split; [split|split; [|split; [split|]]].
    + intros d0 [<-|I]; [|now apply A1]. cbn [tid key]. split; [lia|]. rewrite U2.
      * cbn [live w1]. apply upd_same.
      * lia.
      * intros I. apply in_map_iff in I as (d1 & E & I). specialize (H d1 (or_intror I)). lia.
    + intros d0 d0' [<-|I] [<-|I']; try reflexivity; cbn [tid]; intros E.
      * specialize (B d0' I'). lia.
      * specialize (B d0 I). lia.
      * now apply A2.
    + intros d0 [<-|I]; [now split|]. specialize (B d0 I). split; [lia|apply B].
    + lia.
    + intros t L N. rewrite U2; [|lia|intros I; apply N; now right]. cbn [live w1].
      rewrite upd_other by lia. cbn [dispose live]. apply upd_other. intros ->. apply N. now left.
    + intros e' I. destruct (V e' I) as (e1 & I1 & -> & -> & S1). cbn [visible w1 dispose] in I1. apply in_map_iff in I1 as (e & <- & I1).
      exists e. split; [exact I1|]. split; [reflexivity|]. split; [reflexivity|]. intros t r. rewrite S1. cbn [set_decorations shown map In].
      destruct (Nat.eq_dec t (tid d)) as [->|N].
      * rewrite upd_same. cbn. intuition.
      * rewrite upd_other by assumption. intuition.
Qed.

Lemma push_tids : forall c r D, map tid (push c r D) = map tid D.
Proof. intros c r D. unfold push. rewrite map_map. apply map_ext. intros d. now destruct (colour_eqb _ _). Qed.
Lemma push_ordered : forall c r D w, ordered D w -> ordered (push c r D) w.
Proof.
  intros c r D w (A & B). unfold push. split.
  - intros d I. apply in_map_iff in I as (d0 & <- & I). destruct (colour_eqb (key d0) c); cbn [tid key]; now apply A.
  - intros d d' I I' E. apply in_map_iff in I as (d0 & <- & I). apply in_map_iff in I' as (d0' & <- & I').
    assert (tid d0 = tid d0') by (destruct (colour_eqb (key d0) c), (colour_eqb (key d0') c); exact E). now rewrite (B d0 d0').
Qed.
Lemma push_holding : forall c r D c' r', has c D = true -> (holding (push c r D) c' r' <-> holding D c' r' \/ c' = c /\ r' = r).
Proof.
  intros c r D c' r' H. unfold holding, push. split.
  - intros (d & I & K & R). apply in_map_iff in I as (d0 & <- & I). destruct (colour_eqb (key d0) c) eqn:E.
    + cbn [key ranges] in *. apply in_app_or in R as [R|[R|[]]].
      * left. now exists d0.
      * right. apply colour_eqb_eq in E. split; congruence.
    + left. now exists d0.
  - intros [(d & I & K & R)|(-> & ->)].
    + eexists. split; [apply in_map; exact I|]. cbn beta. destruct (colour_eqb (key d) c); [|now split].
      split; [exact K|]. cbn [ranges]. apply in_or_app. now left.
    + apply existsb_exists in H as (d & I & E). eexists. split; [apply in_map; exact I|]. cbn beta. rewrite E. cbn [key ranges].
      split; [now apply colour_eqb_eq|]. apply in_or_app. right. now left.
Qed.
Lemma add_ok : forall c r D w, ordered D w ->
  let D' := fst (add c r D w) in let w' := snd (add c r D w) in
  ordered D' w' /\ untouched (fun _ => True) w w' /\ visible w' = visible w /\ (forall d, In d D' -> fresh w <= tid d \/ In (tid d) (map tid D)) /\
  forall c' r', holding D' c' r' <-> holding D c' r' \/ c' = c /\ r' = r.
Proof.
  intros c r D w O. unfold add. destruct (has c D) eqn:H; cbn [fst snd].
  - split; [now apply push_ordered|]. split; [split; [lia|reflexivity]|]. split; [reflexivity|]. split.
    + intros d I. right. rewrite <- (push_tids c r). now apply in_map.
    + intros c' r'. now apply push_holding.
  - cbn [create fst snd]. set (w1 := Screen _ _ _). set (D1 := D ++ [Deco c [] (fresh w)]).
    assert (O1 : ordered D1 w1).
    { destruct O as (A & B). split.
      - intros d I. apply in_app_or in I as [I|[<-|[]]].
        + destruct (A d I) as (L & E). cbn [w1 fresh live]. split; [lia|]. rewrite upd_other by lia. exact E.
        + cbn [w1 fresh live tid key]. split; [lia|apply upd_same].
      - intros d d' I I' E. apply in_app_or in I as [I|[<-|[]]]; apply in_app_or in I' as [I'|[<-|[]]]; cbn [tid] in E; try reflexivity.
        + now apply B.
        + destruct (A d I). lia.
        + destruct (A d' I'). lia. }
    split; [now apply push_ordered|]. split; [|split; [reflexivity|split]].
    + split; [cbn; lia|]. intros t L _. cbn [w1 live]. apply upd_other. lia.
    + intros d I. assert (J : In (tid d) (map tid D1)) by (rewrite <- (push_tids c r); now apply in_map).
      unfold D1 in J. rewrite map_app in J. apply in_app_or in J as [J|[<-|[]]]; [now right|now left].
    + intros c' r'. rewrite push_holding.
      * assert (X : holding D1 c' r' <-> holding D c' r'); [|tauto]. unfold holding, D1. split.
        -- intros (d & I & K & R). apply in_app_or in I as [I|[<-|[]]]; [now exists d|destruct R].
        -- intros (d & I & K & R). exists d. split; [apply in_or_app; now left|now split].
      * unfold has, D1. rewrite existsb_app. cbn. rewrite (proj2 (colour_eqb_eq c c) eq_refl). now rewrite orb_true_r.
Qed.

Lemma tokens_ok : forall legend n data line char D w D' w', List.length data <= n -> ordered D w -> tokens legend line char data D w = Some (D', w') ->
  ordered D' w' /\ untouched (fun _ => True) w w' /\ visible w' = visible w /\ (forall d, In d D' -> fresh w <= tid d \/ In (tid d) (map tid D)) /\
  exists toks, decode line char data = Some toks /\
    forall c r, holding D' c r <-> holding D c r \/ exists t, In t toks /\ colour_of legend t = c /\ place_of t = r.
Proof.
  intros legend. induction n as [|n IH]; intros data line char D w D' w' L O H.
  - destruct data; [|cbn in L; lia]. injection H as <- <-. split; [exact O|]. split; [split; [lia|reflexivity]|]. split; [reflexivity|].
    split; [intros d I; right; now apply in_map|]. exists []. split; [reflexivity|]. intros c r. split; [now left|]. intros [X|(t & [] & _)]. exact X.
  - destruct data as [|d0 data].
    { injection H as <- <-. split; [exact O|]. split; [split; [lia|reflexivity]|]. split; [reflexivity|].
      split; [intros d I; right; now apply in_map|]. exists []. split; [reflexivity|]. intros c r. split; [now left|]. intros [X|(t & [] & _)]. exact X. }
    destruct data as [|d1 [|d2 [|d3 [|d4 data]]]]; try discriminate. cbn [tokens] in H.
    set (c0 := nth_error legend (N.to_nat d3)) in *. set (l0 := (d0 + line)%N) in *. set (k0 := (if (d0 =? 0)%N then (d1 + char)%N else d1)) in *.
    pose proof (add_ok c0 (Range l0 k0 (k0 + d2)) D w O) as A. cbv zeta in A.
    destruct (add c0 (Range l0 k0 (k0 + d2)) D w) as [D1 w1] eqn:E. cbn [fst snd] in A. destruct A as (O1 & (U1 & U2) & V1 & T1 & H1).
    destruct (IH data l0 k0 D1 w1 D' w') as (O2 & (U3 & U4) & V2 & T2 & toks & Dc & H2); [cbn in L; lia|exact O1|exact H|].
    split; [exact O2|]. split; [split; [lia|intros t Lt _; rewrite U4, U2 by (try lia; exact I); reflexivity]|]. split; [congruence|]. split.
    + intros d I. destruct (T2 d I) as [X|X]; [left; lia|]. apply in_map_iff in X as (d' & X & I'). rewrite <- X. destruct (T1 d' I') as [Y|Y]; [left; lia|now right].
    + cbn [decode]. rewrite (N.add_comm line d0), (N.add_comm char d1). fold l0 k0. rewrite Dc. eexists. split; [reflexivity|].
      intros c r. rewrite H2, H1. split.
      * intros [[X|(-> & ->)]|(t & I & X)]; [now left| |].
        -- right. eexists. split; [now left|]. now split.
        -- right. exists t. split; [now right|exact X].
      * intros [X|(t & [<-|I] & C & P)]; [left; now left| |].
        -- left. right. now split; symmetry.
        -- right. now exists t.
Qed.

(** ** colorize *)
Lemma painted : forall D e t r, (forall d d', In d D -> In d' D -> tid d = tid d' -> d = d') ->
  let e' := fold_left (fun e d => set_decorations (tid d) (ranges d) e) D e in
  e_uri e' = e_uri e /\ language e' = language e /\
  (In r (shown e' t) <-> (exists d, In d D /\ tid d = t /\ In r (ranges d)) \/ ~ In t (map tid D) /\ In r (shown e t)).
Proof.
  induction D as [|d D IH]; intros e t r U; cbn [fold_left].
  - split; [reflexivity|]. split; [reflexivity|]. cbn. split; [intros H; right; auto|]. intros [(d & [] & _)|(_ & H)]. exact H.
  - destruct (IH (set_decorations (tid d) (ranges d) e) t r) as (E1 & E2 & S).
    { intros a b Ia Ib. apply U; now right. }
    split; [exact E1|]. split; [exact E2|]. rewrite S. cbn [set_decorations shown map In]. destruct (Nat.eq_dec t (tid d)) as [->|N].
    + rewrite upd_same. split.
      * intros [(d' & I & X)|(_ & X)]; left; [exists d'; split; [now right|exact X]|exists d; split; [now left|now split]].
      * intros [(d' & [<-|I] & X & R)|(X & _)].
        -- destruct (in_dec Nat.eq_dec (tid d) (map tid D)) as [J|J]; [|now right]. left. apply in_map_iff in J as (d2 & E & J).
           exists d2. split; [exact J|]. split; [exact E|]. rewrite (U d2 d); [exact R|now right|now left|exact E].
        -- left. now exists d'.
        -- destruct X. now left.
    + rewrite upd_other by assumption. split.
      * intros [(d' & I & X)|(X & R)]; [left; exists d'; split; [now right|exact X]|]. right. split; [|exact R]. intros [Y|J]; [now symmetry in Y|now apply X].
      * intros [(d' & [<-|I] & X & R)|(X & R)]; [now destruct N|left; now exists d'|right; split; [intros J; apply X; now right|exact R]].
Qed.

(** ** The invariant *)
Record inv (legend : list bytes) (s : st) (last : bytes -> list N) : Prop := {
  i_order : forall u D, defined s u = Some D -> ordered D (scr s);
  i_apart : forall u u' D D' d d', defined s u = Some D -> defined s u' = Some D' -> In d D -> In d' D' -> tid d = tid d' -> u = u';
  i_held : forall u c r, (exists D, defined s u = Some D /\ holding D c r) <-> coloured legend (last u) c r;
  i_shown : forall e, In e (visible (scr s)) -> language e = hlasm -> forall t r,
     In r (shown e t) <-> exists D d, defined s (e_uri e) = Some D /\ In d D /\ tid d = t /\ In r (ranges d);
  i_plain : forall e, In e (visible (scr s)) -> language e <> hlasm -> forall t, shown e t = [] }.

Lemma nothing_coloured : forall legend c r, ~ coloured legend [] c r.
Proof. intros legend c r (toks & t & E & I & _). injection E as <-. destruct I. Qed.
Lemma start_inv : forall legend, inv legend start (fun _ => []).
Proof.
  intros legend. split; try easy. intros u c r. split; [now intros (D & H & _)|]. intros H. now apply nothing_coloured in H.
Qed.
Lemma colour_editor_same : forall f e, e_uri (colour_editor f e) = e_uri e /\ language (colour_editor f e) = language e.
Proof.
  intros f e. unfold colour_editor. destruct (bytes_eqb _ _); [|now split]. destruct (f (e_uri e)) as [D|]; [|now split].
  revert e. induction D as [|d D IH]; intros e; [now split|]. cbn [fold_left]. destruct (IH (set_decorations (tid d) (ranges d) e)) as (A & B). now split.
Qed.
Lemma answer_inv : forall legend s last u data s', inv legend s last -> data <> [] -> step legend s (Answer u data) = Some s' ->
  inv legend s' (fun v => if bytes_eqb v u then data else last v).
Proof.
  intros legend s last u data s' I Ne H. cbn [step] in H.
  replace (match data with [] => Some s | _ :: _ => _ end) with
    (let D := match defined s u with Some D => D | None => [] end in
     let (D, w) := reset D (scr s) in
     match tokens legend 0 0 data D w with
     | Some (D, w) => let f := set_defined (defined s) u (Some D) in Some (St f (colorize f w))
     | None => None end) in H by (destruct data; [easy|reflexivity]).
  cbv zeta in H. set (D0 := match defined s u with Some D => D | None => [] end) in *.
  assert (O0 : ordered D0 (scr s)).
  { unfold D0. destruct (defined s u) as [D|] eqn:E; [exact (i_order _ _ _ I u D E)|]. split; easy. }
  pose proof (reset_ok D0 (scr s)) as R. cbv zeta in R. destruct (reset D0 (scr s)) as [D1 w1]. cbn [fst snd] in R.
  destruct R as (O1 & Em & (U1 & U2) & V); [intros d Id; now apply O0|].
  destruct (tokens legend 0 0 data D1 w1) as [[D2 w2]|] eqn:Tk; [|discriminate]. injection H as <-.
  destruct (tokens_ok legend _ data 0 0 D1 w1 D2 w2 (le_n _) O1 Tk) as (O2 & (U3 & U4) & V2 & T2 & toks & Dc & H2).
  set (f := set_defined (defined s) u (Some D2)).
  assert (Fu : f u = Some D2) by (unfold f, set_defined; now rewrite (proj2 (bytes_eqb_eq u u) eq_refl)).
  assert (Fo : forall v, v <> u -> f v = defined s v) by (intros v N; unfold f, set_defined; apply bytes_eqb_neq in N; now rewrite N).
  assert (New : forall d, In d D2 -> fresh (scr s) <= tid d).
  { intros d Id. destruct (T2 d Id) as [X|X]; [lia|]. apply in_map_iff in X as (d1 & X & I1). specialize (Em d1 I1). lia. }
  assert (Old : forall v D d, v <> u -> defined s v = Some D -> In d D -> ~ In (tid d) (map tid D0) /\ tid d < fresh (scr s)).
  { intros v D d N E Id. split.
    - intros J. apply in_map_iff in J as (d0 & X & J). unfold D0 in J. destruct (defined s u) as [Du|] eqn:Eu; [|destruct J].
      apply N. eapply (i_apart _ _ _ I); [exact E|exact Eu|exact Id|exact J|now symmetry].
    - now apply (i_order _ _ _ I v D E). }
  assert (Oo : forall v D, v <> u -> defined s v = Some D -> ordered D w2).
  { intros v D N E. destruct (i_order _ _ _ I v D E) as (A & B). split; [|exact B]. intros d Id. destruct (A d Id) as (L & Lv).
    destruct (Old v D d N E Id) as (N0 & L0). split; [lia|]. rewrite U4, U2; [exact Lv|lia|exact N0|lia|exact Logic.I]. }
  assert (Mid : forall e2, In e2 (visible w2) -> exists e, In e (visible (scr s)) /\ e_uri e2 = e_uri e /\ language e2 = language e /\
     forall t r, In r (shown e2 t) <-> ~ In t (map tid D0) /\ In r (shown e t)) by (rewrite V2; exact V).
  split; cbn [defined scr].
  - intros v D E. destruct (bytes_eqb v u) eqn:X.
    + apply bytes_eqb_eq in X. subst v. rewrite Fu in E. injection E as <-. exact O2.
    + apply bytes_eqb_neq in X. rewrite Fo in E by assumption. exact (Oo v D X E).
  - intros v v' D D' d d' E E' Id Id' Et. destruct (bytes_eqb v u) eqn:X, (bytes_eqb v' u) eqn:X';
      (apply bytes_eqb_eq in X || (assert (v <> u) by (now apply bytes_eqb_neq); clear X; rename H into X));
      (apply bytes_eqb_eq in X' || (assert (v' <> u) by (now apply bytes_eqb_neq); clear X'; rename H into X')).
    + congruence.
    + subst v. rewrite Fu in E. injection E as <-. rewrite Fo in E' by assumption. specialize (New d Id).
      destruct (Old v' D' d' X' E' Id'). lia.
    + subst v'. rewrite Fu in E'. injection E' as <-. rewrite Fo in E by assumption. specialize (New d' Id').
      destruct (Old v D d X E Id). lia.
    + rewrite Fo in E, E' by assumption. eapply (i_apart _ _ _ I); eassumption.
  - intros v c r. destruct (bytes_eqb v u) eqn:X.
    + apply bytes_eqb_eq in X. subst v. rewrite Fu. split.
      * intros (D & E & Hd). injection E as <-. apply H2 in Hd as [(d & Id & _ & R)|(t & It & C & P)].
        -- destruct (Em d Id) as (_ & E). rewrite E in R. destruct R.
        -- exists toks, t. now split.
      * intros (toks' & t & E & It & C & P). unfold client_tokens in E. rewrite Dc in E. injection E as <-.
        exists D2. split; [reflexivity|]. apply H2. right. now exists t.
    + apply bytes_eqb_neq in X. rewrite Fo by assumption. apply (i_held _ _ _ I).
  - intros e3 I3 Lg t r. cbn [colorize visible] in I3. apply in_map_iff in I3 as (e2 & <- & I2).
    destruct (colour_editor_same f e2) as (Eu & El). rewrite El in Lg. rewrite Eu.
    unfold colour_editor. rewrite (proj2 (bytes_eqb_eq _ _) Lg). destruct (Mid e2 I2) as (e & Ie & Eu2 & El2 & Sh).
    assert (Lge : language e = hlasm) by congruence. pose proof (i_shown _ _ _ I e Ie Lge) as Se.
    destruct (f (e_uri e2)) as [D|] eqn:Fe.
    + assert (Od : ordered D w2).
      { destruct (bytes_eqb (e_uri e2) u) eqn:X.
        - apply bytes_eqb_eq in X. rewrite X, Fu in Fe. injection Fe as <-. exact O2.
        - apply bytes_eqb_neq in X. rewrite Fo in Fe by assumption. exact (Oo _ _ X Fe). }
      destruct (painted D e2 t r (proj2 Od)) as (_ & _ & ->). split.
      * intros [(d & Id & X)|(N & X)]; [exists D, d; now split|]. exfalso. apply Sh in X as (N0 & X). apply Se in X as (De & d & E & Id & Et & R).
        rewrite <- Eu2 in E. destruct (bytes_eqb (e_uri e2) u) eqn:Y.
        -- apply bytes_eqb_eq in Y. apply N0. unfold D0. rewrite <- Y, E. rewrite <- Et. now apply in_map.
        -- apply bytes_eqb_neq in Y. rewrite Fo in Fe by assumption. apply N. assert (De = D) as -> by congruence. rewrite <- Et. now apply in_map.
      * intros (D' & d & E & X). injection E as <-. left. now exists d.
    + rewrite Sh, Se. split.
      * intros (_ & D & d & E & X). exfalso. assert (N : e_uri e2 <> u) by (intros Y; rewrite Y, Fu in Fe; discriminate).
        rewrite Fo in Fe by assumption. rewrite Eu2 in Fe. congruence.
      * intros (D & d & E & _). discriminate.
  - intros e3 I3 Lg t. cbn [colorize visible] in I3. apply in_map_iff in I3 as (e2 & <- & I2).
    destruct (colour_editor_same f e2) as (_ & El). rewrite El in Lg. unfold colour_editor. rewrite (proj2 (bytes_eqb_neq _ _) Lg).
    destruct (Mid e2 I2) as (e & Ie & _ & El2 & Sh). destruct (shown e2 t) as [|r l] eqn:E; [reflexivity|]. exfalso.
    assert (X : In r (shown e2 t)) by (rewrite E; now left). apply Sh in X as (_ & X). rewrite (i_plain _ _ _ I e Ie) in X by congruence. destruct X.
Qed.
Lemma show_inv : forall legend s last l s', inv legend s last -> step legend s (Show l) = Some s' -> inv legend s' last.
Proof.
  intros legend s last l s' I H. cbn [step] in H.
  set (w := Screen (live (scr s)) (fresh (scr s)) (map (shows (scr s)) l)) in *.
  (* every editor is an old one, or has no decorations *)
  assert (W : forall e, In e (visible w) -> In e (visible (scr s)) \/ forall t, shown e t = []).
  { intros e Ie. cbn [w visible] in Ie. apply in_map_iff in Ie as ((p & l0) & <- & _). destruct p as (n & u). unfold shows.
    destruct (find (same n u l0) (visible (scr s))) as [e|] eqn:F; [|now right]. left. now apply find_some in F. }
  assert (G : inv legend (St (defined s) (colorize (defined s) w)) last).
  { split; cbn [defined scr]; try apply I.
    - intros e3 I3 Lg t r. cbn [colorize visible] in I3. apply in_map_iff in I3 as (e2 & <- & I2).
      destruct (colour_editor_same (defined s) e2) as (Eu & El). rewrite El in Lg. rewrite Eu.
      unfold colour_editor. rewrite (proj2 (bytes_eqb_eq _ _) Lg).
      destruct (defined s (e_uri e2)) as [D|] eqn:Fe.
      + destruct (painted D e2 t r (proj2 (i_order _ _ _ I _ _ Fe))) as (_ & _ & ->). split.
        * intros [(d & Id & X)|(N & X)]; [exists D, d; now split|]. exfalso. destruct (W e2 I2) as [J|J].
          -- apply (i_shown _ _ _ I e2 J Lg) in X as (De & d & E & Id & Et & R). apply N. assert (De = D) as -> by congruence. rewrite <- Et. now apply in_map.
          -- rewrite J in X. destruct X.
        * intros (D' & d & E & X). injection E as <-. left. now exists d.
      + split; [|now intros (D & d & E & _)]. intros X. exfalso. destruct (W e2 I2) as [J|J].
        * apply (i_shown _ _ _ I e2 J Lg) in X as (De & d & E & _). congruence.
        * rewrite J in X. destruct X.
    - intros e3 I3 Lg t. cbn [colorize visible] in I3. apply in_map_iff in I3 as (e2 & <- & I2).
      destruct (colour_editor_same (defined s) e2) as (_ & El). rewrite El in Lg. unfold colour_editor. rewrite (proj2 (bytes_eqb_neq _ _) Lg).
      destruct (W e2 I2) as [J|J]; [now apply (i_plain _ _ _ I)|apply J]. }
  destruct (existsb _ (visible w)) eqn:X; injection H as <-; [exact G|].
  assert (NH : forall e, In e (visible w) -> language e <> hlasm).
  { intros e Ie Lg. assert (existsb (fun e => bytes_eqb (language e) hlasm) (visible w) = true); [|congruence].
    apply existsb_exists. exists e. split; [exact Ie|]. now apply bytes_eqb_eq. }
  split; cbn [defined scr]; try apply I.
  - intros e Ie Lg. now apply NH in Ie.
  - intros e Ie Lg t. destruct (W e Ie) as [J|J]; [now apply (i_plain _ _ _ I)|apply J].
Qed.
Lemma close_inv : forall legend s last u s', inv legend s last -> step legend s (Close u) = Some s' ->
  inv legend s' (fun v => if bytes_eqb v u then [] else last v).
Proof.
  intros legend s last u s' I H. cbn [step] in H. destruct (existsb _ _) eqn:X; [discriminate|]. injection H as <-.
  assert (F : forall v D, set_defined (defined s) u None v = Some D -> v <> u /\ defined s v = Some D).
  { intros v D E. unfold set_defined in E. destruct (bytes_eqb v u) eqn:Y; [discriminate|]. split; [now apply bytes_eqb_neq|exact E]. }
  assert (NE : forall e, In e (visible (scr s)) -> bytes_eqb (e_uri e) u = false).
  { intros e Ie. destruct (bytes_eqb (e_uri e) u) eqn:Y; [|reflexivity].
    assert (existsb (fun e => bytes_eqb (e_uri e) u) (visible (scr s)) = true); [|congruence]. apply existsb_exists. now exists e. }
  split; cbn [defined scr].
  - intros v D E. apply F in E as (_ & E). exact (i_order _ _ _ I v D E).
  - intros v v' D D' d d' E E'. apply F in E as (_ & E), E' as (_ & E'). eapply (i_apart _ _ _ I); eassumption.
  - intros v c r. unfold set_defined. destruct (bytes_eqb v u); [|apply (i_held _ _ _ I)].
    split; [now intros (D & E & _)|]. intros H. now apply nothing_coloured in H.
  - intros e Ie Lg t r. unfold set_defined. rewrite (NE e Ie). now apply (i_shown _ _ _ I).
  - apply (i_plain _ _ _ I).
Qed.
Lemma run_inv : forall legend es s s' last, keeps_languages es -> inv legend s last -> run (step legend) s es = Some s' ->
  inv legend s' (fun u => fold_left (newer u) es (last u)).
Proof.
  intros legend. induction es as [|e es IH]; intros s s' last K I R.
  - injection R as <-. exact I.
  - cbn [run] in R. destruct (step legend s e) as [s1|] eqn:E; [|discriminate]. cbn [fold_left].
    assert (K' : keeps_languages es) by (intros u l J; apply (K u l); now right).
    assert (I1 : exists last1, inv legend s1 last1 /\ forall u, last1 u = newer u (last u) e).
    { destruct e as [u data|l|u|u l].
      - destruct data as [|x data].
        + injection E as <-. exists last. split; [exact I|reflexivity].
        + eexists. split; [eapply answer_inv; [exact I| |exact E]; discriminate|]. intros v. cbn [newer].
          destruct (bytes_eqb v u) eqn:X.
          * apply bytes_eqb_eq in X. subst v. now rewrite (proj2 (bytes_eqb_eq u u) eq_refl).
          * replace (bytes_eqb u v) with false; [reflexivity|]. symmetry. apply bytes_eqb_neq. apply bytes_eqb_neq in X. congruence.
      - exists last. split; [now apply (show_inv _ _ _ _ _ I E)|reflexivity].
      - eexists. split; [exact (close_inv _ _ _ _ _ I E)|]. intros v. cbn [newer]. destruct (bytes_eqb v u) eqn:X.
        + apply bytes_eqb_eq in X. subst v. now rewrite (proj2 (bytes_eqb_eq u u) eq_refl).
        + replace (bytes_eqb u v) with false; [reflexivity|]. symmetry. apply bytes_eqb_neq. apply bytes_eqb_neq in X. congruence.
      - destruct (K u l). now left. }
    destruct I1 as (last1 & I1 & E1). pose proof (IH s1 s' last1 K' I1 R) as J.
    destruct J as [A B C D F]. split; try assumption. intros u c r. rewrite C. now rewrite E1.
Qed.
