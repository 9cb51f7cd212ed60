From Coq Require Import List Arith Bool Lia.
From Verif Require Import Common Lts Req_Model Req_Spec.
Import ListNotations.

Lemma sm_invalidate : forall f r, sm (invalidate f r) = sm r.
Proof. intros. unfold invalidate. destruct (bytes_eqb _ _); reflexivity. Qed.
Lemma rid_invalidate : forall f r, rid (invalidate f r) = rid r.
Proof. intros. unfold invalidate. destruct (bytes_eqb _ _); reflexivity. Qed.
Lemma srv_invalidate : forall f r, rsrv (invalidate f r) = rsrv r.
Proof. intros. unfold invalidate. destruct (bytes_eqb _ _); reflexivity. Qed.
Lemma msg_invalidate : forall f r, rmsg (invalidate f r) = rmsg r.
Proof. intros. unfold invalidate. destruct (bytes_eqb _ _); reflexivity. Qed.

Lemma filter_invalidate : forall s f l,
  map sm (filter (on_server s) (map (invalidate f) l)) = map sm (filter (on_server s) l).
Proof.
  intros s f. induction l as [|r l IH]; simpl; [reflexivity|].
  assert (E : on_server s (invalidate f r) = on_server s r) by (unfold on_server; now rewrite srv_invalidate).
  rewrite E. destruct (on_server s r); simpl; rewrite ?IH, ?sm_invalidate; reflexivity.
Qed.

Lemma map_sm_invalidate : forall f l, map sm (map (invalidate f) l) = map sm l.
Proof. intros. rewrite map_map. apply map_ext. intros; apply sm_invalidate. Qed.

Lemma arrivals_app : forall a b, arrivals (a ++ b) = arrivals a ++ arrivals b.
Proof. induction a as [|e a IH]; simpl; intros; [reflexivity|]. destruct e; simpl; now rewrite IH. Qed.

(** Induction from the end of the execution, so that the history is available. *)
Lemma run_snoc : forall es e x s, run step x (es ++ [e]) = Some s ->
  exists s1, run step x es = Some s1 /\ step s1 e = Some s.
Proof.
  intros es e x s R. rewrite run_app in R. destruct (run step x es) as [s1|]; [|discriminate].
  exists s1. split; [reflexivity|]. simpl in R. destruct (step s1 e); congruence.
Qed.

Lemma run_ind_hist : forall (P : list ev -> st -> Prop),
  P [] init ->
  (forall es x e x', run step init es = Some x -> P es x -> step x e = Some x' -> P (es ++ [e]) x') ->
  forall es x, run step init es = Some x -> P es x.
Proof.
  intros P H0 Hs es. induction es as [|e es IH] using rev_ind; intros x R.
  - simpl in R. injection R as <-. exact H0.
  - apply run_snoc in R as (s1 & R1 & R2). eauto.
Qed.

Ltac inv_step H :=
  simpl in H;
  repeat match type of H with
  | context [match fin ?x with _ => _ end] => let F := fresh "F" in destruct (fin x) eqn:F; try discriminate H
  | context [match wrk ?x with _ => _ end] => let W := fresh "W" in destruct (wrk x) eqn:W; try discriminate H
  | context [match pending ?x with _ => _ end] => let W := fresh "P" in destruct (pending x) eqn:W; try discriminate H
  | context [match reqs ?x with _ => _ end] => let W := fresh "Q" in destruct (reqs x) eqn:W; try discriminate H
  | context [if ending ?x then _ else _] => let W := fresh "N" in destruct (ending x) eqn:W; try discriminate H
  | context [if runs_on ?s ?x then _ else _] => let W := fresh "N" in destruct (runs_on s x) eqn:W; try discriminate H
  | context [match ?t with nil => _ | _ => _ end] => is_var t; destruct t; try discriminate H
  end;
  injection H as <-.

(* ---------------------------------------------------------------- per-server order *)
Definition order_inv (es : list ev) (x : st) : Prop :=
  (forall s, for_server s (arrivals es)
     = map sm (filter (on_server s) (started x)) ++ map sm (outstanding x s)) /\
  naccepted x = length (arrivals es) /\
  (forall s todo, fin x = FExec s todo -> forall r, In r todo -> rsrv r = s).

Lemma for_server_sm : forall s l, for_server s (map sm l) = map sm (filter (on_server s) l).
Proof.
  intros s. induction l as [|r l IH]; simpl; [reflexivity|]. unfold on_server at 1.
  destruct (rsrv r =? s); simpl; now rewrite IH.
Qed.

Lemma for_server_app : forall s a b, for_server s (a ++ b) = for_server s a ++ for_server s b.
Proof. intros. apply filter_app. Qed.

Lemma filter_neg_other : forall s s' l, s <> s' ->
  filter (on_server s) (filter (fun r => negb (on_server s' r)) l) = filter (on_server s) l.
Proof.
  intros s s' l Hn. induction l as [|r l IH]; simpl; [reflexivity|].
  destruct (on_server s' r) eqn:E; simpl.
  - rewrite IH. replace (on_server s r) with false; [reflexivity|].
    unfold on_server in *. apply Nat.eqb_eq in E. symmetry. apply Nat.eqb_neq. congruence.
  - destruct (on_server s r); now rewrite IH.
Qed.
Lemma filter_neg_same : forall s l,
  filter (on_server s) (filter (fun r => negb (on_server s r)) l) = [].
Proof.
  intros s l. induction l as [|r l IH]; simpl; [reflexivity|].
  destruct (on_server s r) eqn:E; simpl; [exact IH|]. now rewrite E.
Qed.

Lemma order_all : forall es x, run step init es = Some x -> order_inv es x.
Proof.
  apply run_ind_hist.
  - repeat split; simpl; try easy.
  - intros es x e x' _ (H1 & H2 & H3) St. unfold order_inv. rewrite arrivals_app.
    destruct e; inv_step St; cbn [arrivals started naccepted fin]; rewrite ?app_nil_r.
    all: try (split; [intros s9; rewrite H1; unfold outstanding; cbn [fin reqs];
               repeat match goal with E : fin _ = _ |- _ => rewrite E
                                    | E : reqs _ = _ |- _ => rewrite E end; reflexivity
             | split; [exact H2|first [discriminate | exact H3]]]).
    all: try (split; [exact H1|split; [exact H2|match goal with E : fin _ = _ |- _ => rewrite E end; exact H3]]).
    + (* add *)
      split; [|split; [rewrite app_length; simpl; lia|discriminate]].
      intros s0. rewrite for_server_app, H1, <- app_assoc. f_equal.
      unfold outstanding. cbn [fin reqs]. rewrite F.
      rewrite filter_app, map_app. f_equal.
      * destruct (_ && _ && _); [now rewrite filter_invalidate|reflexivity].
      * simpl. unfold on_server. simpl. destruct (s =? s0); reflexivity.
    + (* pick *) split; [|split; [exact H2|discriminate]]. intros s. rewrite H1. unfold outstanding.
      cbn [fin reqs]. rewrite F, Q, filter_app, map_app, <- app_assoc. f_equal.
      simpl. destruct (on_server s r); reflexivity.
    + (* FinGo *) split; [|split; [exact H2|]].
      * intros s0. rewrite H1. unfold outstanding. cbn [fin reqs]. rewrite F.
        destruct (Nat.eqb_spec s s0); [now subst|reflexivity].
      * intros s0 todo E r Hr. injection E as <- <-. apply filter_In in Hr as [_ Hr].
        now apply Nat.eqb_eq in Hr.
    + (* FinRun *) split; [|split; [exact H2|]].
      * intros s0. rewrite H1. unfold outstanding. cbn [fin reqs]. rewrite F.
        rewrite filter_app, map_app, <- app_assoc. f_equal. simpl.
        assert (Er : rsrv r = s) by (eapply H3; [reflexivity|now left]).
        unfold on_server at 2. rewrite Er. destruct (s =? s0); reflexivity.
      * intros s0 todo0 E r0 Hr. injection E as <- <-. eapply H3; [reflexivity|now right].
    + (* FinEnd *) split; [|split; [exact H2|discriminate]].
      intros s0. rewrite H1. unfold outstanding. cbn [fin reqs]. rewrite F.
      destruct (Nat.eqb_spec s s0).
      * subst. now rewrite filter_neg_same.
      * now rewrite filter_neg_other by congruence.
Qed.

(* ------------------------------------------------------ global order without finishing *)
Lemma run_no_finish : forall es x, existsb is_finish es = false -> run step init es = Some x -> fin x = FNone.
Proof.
  induction es as [|e es IH] using rev_ind; intros x Hf R.
  - injection R as <-. reflexivity.
  - rewrite existsb_app in Hf. apply orb_false_iff in Hf as [Hf1 Hf2].
    apply run_snoc in R as (s1 & R1 & St). specialize (IH _ Hf1 R1).
    destruct e; simpl in Hf2; try discriminate; inv_step St; simpl; congruence.
Qed.

Lemma order_global : forall es x, existsb is_finish es = false -> run step init es = Some x ->
  arrivals es = map sm (started x) ++ map sm (reqs x).
Proof.
  induction es as [|e es IH] using rev_ind; intros x Hf R.
  - injection R as <-. reflexivity.
  - rewrite existsb_app in Hf. apply orb_false_iff in Hf as [Hf1 Hf2].
    apply run_snoc in R as (s1 & R1 & St). specialize (IH _ Hf1 R1).
    pose proof (run_no_finish _ _ Hf1 R1) as HF. rewrite arrivals_app, IH.
    destruct e; simpl in Hf2; try discriminate; inv_step St; simpl;
      rewrite ?app_nil_r; try congruence; try reflexivity.
    + rewrite map_app, <- app_assoc. do 2 f_equal.
      destruct (_ && _ && _); [now rewrite map_sm_invalidate|reflexivity].
    + rewrite map_app, <- app_assoc. reflexivity.
Qed.

(* ----------------------------------------------------------------- mutual exclusion *)
Definition excl (x : st) : Prop :=
  match fin x with FExec s _ => runs_on s (wrk x) = false | _ => True end.
Lemma excl_all : forall es x, run step init es = Some x -> excl x.
Proof.
  intros es x R. refine (run_inv _ _ step excl _ es init x _ R); [|exact I].
  intros s e s' H St. unfold excl in *.
  destruct e; inv_step St; simpl; auto; rewrite ?F, ?W in *; auto.
  destruct (fin s); auto. 
Qed.

(* ----------------------------------------------------------------- no lost wake-up *)
Definition awake (x : st) : Prop :=
  wrk x = WWaiting -> (reqs x <> [] \/ ending x = true) -> 1 <= pending x.
Lemma awake_all : forall es x, run step init es = Some x -> awake x.
Proof.
  intros es x R. refine (run_inv _ _ step awake _ es init x _ R); [|discriminate].
  intros s e s' H St. unfold awake in *.
  destruct e; inv_step St; simpl; try discriminate; try lia; auto.
  all: try (intros A [B|B]; (apply H; [congruence|]); try (left; congruence); right; congruence).
  - intros A [B|B]; apply H; auto. left. intros E. rewrite E in B. now apply B.
Qed.

(* ----------------------------------------------------------------- cancellation *)
Definition cancel_inv (es : list ev) (x : st) : Prop :=
  naccepted x = length (arrivals es) /\
  (forall r, In r (reqs x) -> nth_error (arrivals es) (rid r) = Some (sm r)) /\
  (forall r, In r (reqs x) -> rvalid r = false -> superseded (arrivals es) (rid r)) /\
  (forall i, In (i, true) (log x) -> superseded (arrivals es) i) /\
  (forall r, wrk x = WRunning r -> nth_error (arrivals es) (rid r) = Some (sm r) /\
     cur_file x = get_request_file (rmsg r)) /\
  (existsb is_finish es = false -> forall r, wrk x = WRunning r -> cancel x = true -> superseded (arrivals es) (rid r)) /\
  (forall s todo, fin x = FExec s todo -> incl todo (reqs x)).

Lemma superseded_app : forall a b i, superseded a i -> superseded (a ++ b) i.
Proof.
  intros a b i (j & si & mi & sj & mj & H1 & H2 & H3 & H4).
  exists j, si, mi, sj, mj. repeat split; try tauto.
  - rewrite nth_error_app1; [exact H2|]. apply nth_error_Some. congruence.
  - rewrite nth_error_app1; [exact H3|]. apply nth_error_Some. congruence.
Qed.

Lemma nth_error_ext_app : forall (A : Type) (a b : list A) i x, nth_error a i = Some x -> nth_error (a ++ b) i = Some x.
Proof. intros. rewrite nth_error_app1; [assumption|]. apply nth_error_Some. congruence. Qed.

Lemma superseded_new : forall a i s m r, nth_error a i = Some (sm r) -> rid r = i ->
  get_request_file (rmsg r) = get_request_file m -> parsing_required m = true -> get_request_file m <> [] ->
  superseded (a ++ [(s, m)]) i.
Proof.
  intros a i s m r Hn Hr Hf Hp He. exists (length a), (rsrv r), (rmsg r), s, m.
  assert (i < length a) by (apply nth_error_Some; congruence).
  repeat split; auto.
  - now apply nth_error_ext_app.
  - rewrite nth_error_app2, Nat.sub_diag; [reflexivity|lia].
Qed.

Lemma cancel_all : forall es x, run step init es = Some x -> cancel_inv es x.
Proof.
  apply run_ind_hist.
  - unfold cancel_inv. simpl. repeat split; try easy.
  - intros es x e x' R (H0 & H1 & H2 & H3 & H4 & H5 & H6) St.
    unfold cancel_inv. rewrite arrivals_app, existsb_app.
    assert (X : e <> e -> False) by congruence. clear X.
    destruct e; inv_step St; cbn [arrivals reqs wrk cur_file cancel log fin existsb is_finish orb naccepted];
      rewrite ?app_nil_r, ?orb_false_r, ?orb_true_r.
    all: try (rewrite ?F, ?W, ?Q in *; repeat split; auto; try discriminate; try congruence;
      intros; first [now apply H4 | now apply H5 | now eapply H6 | idtac]; fail).
    + (* add *)
      set (f := get_request_file m).
      destruct (bytes_eqb (cur_file x) f && negb (bytes_eqb (cur_file x) []) && parsing_required m) eqn:Hit.
      * apply andb_true_iff in Hit as [Hit Hp]. apply andb_true_iff in Hit as [Hc Hne].
        apply bytes_eqb_eq in Hc. apply negb_true_iff in Hne.
        assert (Hne' : f <> []) by (intros E; rewrite Hc, E in Hne; discriminate).
        split; [rewrite app_length; simpl; lia|]. split; [|split; [|split; [|split; [|split]]]].
        -- intros r Hr. apply in_app_or in Hr as [Hr|[<-|[]]].
           ++ apply in_map_iff in Hr as (r0 & <- & Hr0). rewrite rid_invalidate, sm_invalidate.
              now apply nth_error_ext_app, H1.
           ++ simpl. rewrite H0, nth_error_app2, Nat.sub_diag; [reflexivity|lia].
        -- intros r Hr Hv. apply in_app_or in Hr as [Hr|[<-|[]]]; [|discriminate].
           apply in_map_iff in Hr as (r0 & <- & Hr0). rewrite rid_invalidate.
           unfold invalidate in Hv. destruct (bytes_eqb (get_request_file (rmsg r0)) f) eqn:Ef.
           ++ apply bytes_eqb_eq in Ef. eapply superseded_new; eauto.
           ++ apply superseded_app. now apply H2.
        -- intros i Hi. apply superseded_app. now apply H3.
        -- intros r Hr. destruct (H4 r Hr) as [A B]. split; [now apply nth_error_ext_app|exact B].
        -- intros Hf r Hr _. destruct (H4 r Hr) as [A B]. eapply superseded_new with (r := r); [exact A|reflexivity|unfold f in *; congruence|exact Hp|exact Hne'].
        -- discriminate.
      * split; [rewrite app_length; simpl; lia|]. split; [|split; [|split; [|split; [|split]]]].
        -- intros r Hr. apply in_app_or in Hr as [Hr|[<-|[]]].
           ++ now apply nth_error_ext_app, H1.
           ++ simpl. rewrite H0, nth_error_app2, Nat.sub_diag; [reflexivity|lia].
        -- intros r Hr Hv. apply in_app_or in Hr as [Hr|[<-|[]]]; [|discriminate].
           apply superseded_app. now apply H2.
        -- intros i Hi. apply superseded_app. now apply H3.
        -- intros r Hr. destruct (H4 r Hr) as [A B]. split; [now apply nth_error_ext_app|exact B].
        -- intros Hf r Hr Hcn. apply superseded_app. now apply H5.
        -- discriminate.
    + (* pick *)
      split; [exact H0|]. split; [intros; apply H1; now right|].
      split; [intros; apply H2; [now right|assumption]|]. split; [|split; [|split]].
      * intros i Hi. apply in_app_or in Hi as [Hi|[E|[]]]; [now apply H3|].
        injection E as <- E. apply negb_true_iff in E. apply H2; [now left|exact E].
      * intros r0 E. injection E as <-. split; [apply H1; now left|reflexivity].
      * intros _ r0 E Hc. injection E as <-. apply negb_true_iff in Hc. apply H2; [now left|exact Hc].
      * discriminate.
    + (* FinGo *) repeat split; auto; try (intros; now apply H4).
      intros s0 todo E. injection E as <- <-. intros r Hr. now apply filter_In in Hr.
    + (* FinRun *) repeat split; auto; try (intros; now apply H4).
      intros s0 todo0 E. injection E as <- <-. intros r0 Hr. eapply H6; [reflexivity|now right].
    + (* FinEnd *)
      repeat split; auto; try (intros; now apply H4); try discriminate;
        intros r Hr; apply filter_In in Hr as [Hr _]; auto.
Qed.

(* ----------------------------------------------------------------- finishing *)
Definition none_of (s : nat) (x : st) : Prop :=
  fin x = FNone /\ filter (on_server s) (reqs x) = [] /\ runs_on s (wrk x) = false.

Lemma finish_nonempty : forall es x x', run step init es = Some x -> 
  forall s, fin x = FExec s [] -> step x EFinEnd = Some x' -> none_of s x'.
Proof.
  intros es x x' R s F St. pose proof (excl_all _ _ R) as E. unfold excl in E. rewrite F in E.
  simpl in St. rewrite F in St. injection St as <-. split; [reflexivity|]. simpl.
  split; [apply filter_neg_same|exact E].
Qed.

(** Once clear, the server stays clear while no new request for it arrives. *)
Definition not_add (s : nat) (e : ev) : Prop := match e with EAdd s' _ => s' <> s | _ => True end.
Definition clear_of (s : nat) (x : st) : Prop :=
  filter (on_server s) (reqs x) = [] /\ runs_on s (wrk x) = false /\
  match fin x with FExec s' todo => filter (on_server s) todo = [] | _ => True end.

Lemma clear_stays : forall s es x x', Forall (not_add s) es -> clear_of s x -> run step x es = Some x' ->
  clear_of s x' /\ filter (on_server s) (started x') = filter (on_server s) (started x).
Proof.
  intros s es x x' HQ H R.
  refine (run_inv_ev _ _ step (not_add s)
    (fun y => clear_of s y /\ filter (on_server s) (started y) = filter (on_server s) (started x)) _
    es x x' HQ (conj H eq_refl) R).
  clear. intros y e y' HQ ((H1 & H2 & H3) & H4) St. unfold clear_of.
  destruct e as [s0 m| | | | | | s0 | | | ]; inv_step St; cbn [reqs wrk fin started];
    rewrite ?Q, ?W, ?F in *; auto.
  - split; [|exact H4]. split; [|auto]. rewrite filter_app.
    assert (E : filter (on_server s) [mkReq (naccepted y) s0 m true] = []).
    { simpl. unfold on_server. simpl. simpl in HQ. destruct (Nat.eqb_spec s0 s); [congruence|reflexivity]. }
    rewrite E, app_nil_r. destruct (_ && _ && _); [|exact H1].
    apply map_eq_nil with (f := sm). rewrite filter_invalidate, H1. reflexivity.
  - simpl in H1. destruct (on_server s r) eqn:E; [discriminate|].
    split; [split; [exact H1|split; [exact E|exact I]]|].
    rewrite filter_app, H4. simpl. rewrite E. now rewrite app_nil_r.
  - split; [|exact H4]. split; [exact H1|]. split; [exact H2|].
    clear - H1. induction (reqs y) as [|r l IH]; [reflexivity|]. simpl in *.
    destruct (on_server s r) eqn:E; [discriminate|].
    destruct (on_server s0 r); simpl; rewrite ?E; now apply IH.
  - simpl in H3. destruct (on_server s r) eqn:E; [discriminate|].
    split; [auto|]. rewrite filter_app, H4. simpl. rewrite E. now rewrite app_nil_r.
  - split; [|exact H4]. split; [|auto]. 
    clear - H1. induction (reqs y) as [|r l IH]; [reflexivity|]. simpl in *.
    destruct (on_server s r) eqn:E; [discriminate|].
    destruct (on_server s0 r); simpl; rewrite ?E; now apply IH.
Qed.
