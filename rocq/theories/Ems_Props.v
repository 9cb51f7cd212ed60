(** * Ems_Props: C121, the input of the server that runs as WebAssembly *)
From Coq Require Import String List NArith ZArith Bool Arith Lia ZifyBool ZifyNat ZifyN.
From Verif Require Import Common Lts.
From Verif Require Queue_Model Queue_Proof Framing_Model Framing_Spec Framing_Props.
From Verif Require Import Ems_Model Ems_Spec Ems_Proof.
Import ListNotations.
Open Scope list_scope.
Open Scope nat_scope.
Import (notations) Ems_Model.

(** The bytes that have arrived, and the messages handed to the other thread. *)
Definition arrived (es : list ev) : bytes := concat (map (fun e => match e with Arrive c => c | _ => [] end) es).
Definition handed (s : sys) : list bytes := Queue_Model.popped (queue s) ++ Queue_Model.queue (queue s).
Definition delivered {J} (parse : bytes -> option J) (s : sys) : list J * bool := read_all J parse (S (length (pops s))) (pops s).

Section Runs.
Variable fs : list letter.
Hypothesis Hp : Forall proper fs.

Record inv (s : sys) (a : bytes) (fs1 fs2 : list letter) : Prop := {
  i_split : fs = fs1 ++ fs2;
  i_accepted : Queue_Model.accepted (queue s) = map body fs1;
  i_fifo : Queue_Model.accepted (queue s) = handed s;
  i_buffer : a = all_on_wire fs1 ++ buffer s;
  i_idle : busy s = false -> match fs2 with f :: _ => length (buffer s) < length (on_wire f) | [] => buffer s = [] end;
  i_over : Queue_Model.terminated (queue s) = true -> busy s = false;
  i_null : Queue_Model.nulls (queue s) <> 0 -> Queue_Model.queue (queue s) = [] /\ Queue_Model.terminated (queue s) = true }.

Lemma wire_app : forall a b, all_on_wire (a ++ b) = all_on_wire a ++ all_on_wire b.
Proof. intros. unfold all_on_wire. now rewrite map_app, concat_app. Qed.

Lemma wire_one : forall f, all_on_wire [f] = on_wire f.
Proof. intros. unfold all_on_wire. cbn [map concat]. apply app_nil_r. Qed.

Lemma queue_only : forall q q' e, qstep q e = Some q' -> (forall t, e <> Queue_Model.EPush t) ->
  Queue_Model.accepted q' = Queue_Model.accepted q /\
  (Queue_Model.terminated q' = Queue_Model.terminated q \/ e = Queue_Model.ETerminate).
Proof.
  intros q q' e H N. destruct e as [t| |w|c|c]; cbn [Queue_Model.step qstep] in H; unfold qstep in H; cbn [Queue_Model.step] in H.
  - now destruct (N t).
  - injection H as <-. now split; [|right].
  - destruct (Queue_Model.pending q); [discriminate|]. destruct w as [c|].
    + destruct (nth_error (Queue_Model.consumers q) c) as [[| |]|]; try discriminate. injection H as <-. now split; [|left].
    + destruct (existsb _ _); [discriminate|]. injection H as <-. now split; [|left].
  - destruct (nth_error (Queue_Model.consumers q) c) as [[| |]|]; try discriminate. injection H as <-. now split; [|left].
  - assert (G : Queue_Model.accepted (Queue_Model.pop_step bytes Queue_Model.process_elements q c) = Queue_Model.accepted q /\
      Queue_Model.terminated (Queue_Model.pop_step bytes Queue_Model.process_elements q c) = Queue_Model.terminated q).
    { unfold Queue_Model.pop_step. destruct (_ || _); [|now split]. destruct (Queue_Model.terminated q), (Queue_Model.queue q); now split. }
    destruct (nth_error (Queue_Model.consumers q) c) as [[| |]|]; try discriminate; injection H as <-; split; try left; apply G.
Qed.
Lemma nulls_kept : forall q q' e, qstep q e = Some q' -> (forall t, e <> Queue_Model.EPush t) ->
  (Queue_Model.nulls q <> 0 -> Queue_Model.queue q = [] /\ Queue_Model.terminated q = true) ->
  Queue_Model.nulls q' <> 0 -> Queue_Model.queue q' = [] /\ Queue_Model.terminated q' = true.
Proof.
  intros q q' e H N I. destruct e as [t| |w|c|c]; unfold qstep in H; cbn [Queue_Model.step] in H.
  - now destruct (N t).
  - injection H as <-. cbn. intros K. split; [now apply I|reflexivity].
  - destruct (Queue_Model.pending q); [discriminate|]. destruct w as [c|].
    + destruct (nth_error (Queue_Model.consumers q) c) as [[| |]|]; try discriminate. now injection H as <-.
    + destruct (existsb _ _); [discriminate|]. now injection H as <-.
  - destruct (nth_error (Queue_Model.consumers q) c) as [[| |]|]; try discriminate. now injection H as <-.
  - assert (G : Queue_Model.nulls (Queue_Model.pop_step bytes Queue_Model.process_elements q c) <> 0 ->
      Queue_Model.queue (Queue_Model.pop_step bytes Queue_Model.process_elements q c) = [] /\
      Queue_Model.terminated (Queue_Model.pop_step bytes Queue_Model.process_elements q c) = true).
    { unfold Queue_Model.pop_step. destruct (Queue_Model.queue q) eqn:Q, (Queue_Model.terminated q) eqn:T; cbn; intros K.
      - now split.
      - apply I in K as (_ & K). congruence.
      - apply I in K as (K & _). congruence.
      - apply I in K as (K & _). congruence. }
    destruct (nth_error (Queue_Model.consumers q) c) as [[| |]|]; try discriminate; injection H as <-; exact G.
Qed.

Lemma one_step : forall s e s' a fs1 fs2, inv s a fs1 fs2 -> prefix (a ++ arrived [e]) (all_on_wire fs) -> step s e = Some s' ->
  exists g1 g2, inv s' (a ++ arrived [e]) g1 g2.
Proof.
  intros s e s' a fs1 fs2 I P H.
  assert (Q : forall qe, with_queue s (qstep (queue s) qe) = Some s' -> (forall t, qe <> Queue_Model.EPush t) ->
    (qe = Queue_Model.ETerminate -> busy s = false) -> exists g1 g2, inv s' a g1 g2).
  { intros qe Hq N T. unfold with_queue in Hq. destruct (qstep (queue s) qe) as [q'|] eqn:E; [|discriminate]. injection Hq as <-.
    destruct (queue_only _ _ _ E N) as (A & B). exists fs1, fs2. split; cbn [queue buffer busy]; try apply I.
    - rewrite A. apply I.
    - unfold handed. cbn [queue]. eapply Queue_Proof.fifo_step; [|exact E]. apply I.
    - intros K. destruct B as [B|B]; [|now apply T]. apply I. now rewrite <- B.
    - eapply nulls_kept; [exact E|exact N|apply I]. }
  destruct e as [c| | |w|c|c]; cbn [step] in H;
    try (replace (a ++ arrived _) with a by (cbn; now rewrite app_nil_r)).
  - destruct (busy s) eqn:B; [discriminate|]. destruct (Queue_Model.terminated (queue s)) eqn:T; [discriminate|]. injection H as <-.
    exists fs1, fs2. cbn. rewrite app_nil_r. split; cbn [queue buffer busy]; try apply I; try discriminate.
    + rewrite app_assoc. now rewrite <- (i_buffer _ _ _ _ I).
    + now rewrite T.
  - replace (a ++ arrived [Iterate]) with a in P by (cbn; now rewrite app_nil_r).
    destruct (busy s) eqn:B; [|discriminate].
    assert (T : Queue_Model.terminated (queue s) = false).
    { destruct (Queue_Model.terminated (queue s)) eqn:T; [|reflexivity]. pose proof (i_over _ _ _ _ I T). congruence. }
    destruct P as (x & P). assert (W : buffer s ++ x = all_on_wire fs2).
    { rewrite (i_split _ _ _ _ I), wire_app, (i_buffer _ _ _ _ I), <- app_assoc in P. symmetry. now apply app_inv_head in P. }
    assert (P2 : Forall proper fs2) by (pose proof Hp as X; rewrite (i_split _ _ _ _ I) in X; now apply Forall_app in X).
    destruct (cut fs2 (buffer s) x P2 W) as [(Ei & L)|(f & g2 & r & -> & Ei & Eb & Er)].
    + rewrite Ei in H. injection H as <-. exists fs1, fs2. split; cbn [queue buffer busy]; try apply I; [intros _; exact L|reflexivity].
    + rewrite Ei in H. destruct (qstep (queue s) (Queue_Model.EPush (body f))) as [q'|] eqn:E; [|discriminate]. injection H as <-.
      exists (fs1 ++ [f]), g2. pose proof E as E'. unfold qstep in E'. cbn [Queue_Model.step] in E'. rewrite T in E'. injection E' as <-.
      split; cbn [queue buffer busy Queue_Model.accepted Queue_Model.terminated Queue_Model.nulls Queue_Model.queue]; try discriminate.
      * rewrite <- app_assoc. apply I.
      * rewrite map_app, (i_accepted _ _ _ _ I). reflexivity.
      * unfold handed. cbn [queue Queue_Model.popped Queue_Model.queue]. pose proof (i_fifo _ _ _ _ I) as X. unfold handed in X.
        rewrite X, <- app_assoc. reflexivity.
      * rewrite (i_buffer _ _ _ _ I), Eb, wire_app, wire_one. now rewrite <- app_assoc.
      * intros K. exfalso. apply (i_null _ _ _ _ I) in K as (_ & K). congruence.
  - destruct (busy s) eqn:B; [discriminate|]. eapply Q; [exact H|easy|easy].
  - eapply Q; [exact H|easy|easy].
  - eapply Q; [exact H|easy|easy].
  - eapply Q; [exact H|easy|easy].
Qed.
Lemma prefix_less : forall {A} (a b c : list A), prefix (a ++ b) c -> prefix a c.
Proof. intros A a b c (r & ->). exists (b ++ r). now rewrite app_assoc. Qed.
Lemma many_steps : forall es s s' a fs1 fs2, inv s a fs1 fs2 -> prefix (a ++ arrived es) (all_on_wire fs) -> run step s es = Some s' ->
  exists g1 g2, inv s' (a ++ arrived es) g1 g2.
Proof.
  induction es as [|e es IH]; intros s s' a fs1 fs2 I P H.
  - injection H as <-. cbn. rewrite app_nil_r. eauto.
  - cbn [run] in H. destruct (step s e) as [s1|] eqn:E; [|discriminate].
    assert (X : arrived (e :: es) = arrived [e] ++ arrived es) by (unfold arrived; cbn; now rewrite app_nil_r).
    rewrite X, app_assoc in *. destruct (one_step s e s1 a fs1 fs2 I (prefix_less _ _ _ P) E) as (g1 & g2 & I').
    eapply IH; eassumption.
Qed.
Lemma start_inv : inv start [] [] fs.
Proof.
  split; try reflexivity; try easy. intros _. destruct fs as [|f l]; [reflexivity|]. rewrite on_wire_head, app_length.
  inversion Hp; subst. destruct (found_all f [] ltac:(assumption)) as (_ & _ & _ & L & _). cbn [start buffer length]. lia.
Qed.
Lemma any_run : forall es s, run step start es = Some s -> prefix (arrived es) (all_on_wire fs) ->
  exists g1 g2, inv s (arrived es) g1 g2.
Proof. intros es s R P. exact (many_steps es start s [] [] fs start_inv P R). Qed.
Lemma inv_complete : forall s a g1 g2, inv s a g1 g2 -> busy s = false -> complete_in a fs g1.
Proof.
  intros s a g1 g2 I B. exists g2. split; [apply I|]. split; [exists (buffer s); apply I|]. intros f r ->.
  pose proof (i_idle _ _ _ _ I B) as L. cbn in L. rewrite (i_buffer _ _ _ _ I), wire_app, wire_one, !app_length. apply Nat.add_lt_mono_l. exact L.
Qed.
End Runs.

(** However the input is cut into chunks, and however the threads take turns: what was handed over are the first
    messages, whole, in order; and all that are complete, once the handler has nothing more to do. *)
Theorem C121_received : forall fs es s, Forall proper fs -> run step start es = Some s -> prefix (arrived es) (all_on_wire fs) ->
  exists fs1, prefix fs1 fs /\ handed s = map body fs1 /\ prefix (all_on_wire fs1) (arrived es) /\
    (busy s = false -> complete_in (arrived es) fs fs1).
Proof.
  intros fs es s Hp R P. destruct (any_run fs Hp es s R P) as (g1 & g2 & I). exists g1.
  split; [exists g2; apply I|]. split; [rewrite <- (i_fifo _ _ _ _ _ I); apply I|]. split; [exists (buffer s); apply I|].
  intros B. eapply inv_complete; eassumption.
Qed.
Print Assumptions C121_received.

(** In particular, when all has arrived. *)
Theorem C121_all : forall fs es s, Forall proper fs -> run step start es = Some s -> arrived es = all_on_wire fs -> busy s = false ->
  handed s = map body fs.
Proof.
  intros fs es s Hp R E B. destruct (C121_received fs es s Hp R) as (g1 & _ & H & _ & C); [exists []; now rewrite E, app_nil_r|].
  destruct (C B) as (g2 & -> & _ & L). rewrite H. destruct g2 as [|f r]; [now rewrite app_nil_r|].
  specialize (L f r eq_refl). rewrite E, !wire_app, wire_one, all_cons, !app_length in L. lia.
Qed.
Print Assumptions C121_all.

(** The handler comes to an end. *)
Theorem C121_settles : forall fs es s, Forall proper fs -> run step start es = Some s -> prefix (arrived es) (all_on_wire fs) ->
  exists n s', n <= S (length fs) /\ run step s (repeat Iterate n) = Some s' /\ busy s' = false.
Proof.
  intros fs es s Hp R P. destruct (any_run fs Hp es s R P) as (g1 & g2 & I).
  assert (G : forall g2 g1 s, inv fs s (arrived es) g1 g2 -> exists n s', n <= S (length g2) /\ run step s (repeat Iterate n) = Some s' /\ busy s' = false).
  { clear - Hp P. induction g2 as [|f g2 IH]; intros g1 s I; destruct (busy s) eqn:B;
      try (exists 0, s; cbn; split; [lia|now split]).
    all: destruct P as (x & P); rewrite (i_split _ _ _ _ _ I), wire_app, (i_buffer _ _ _ _ _ I), <- app_assoc in P; apply app_inv_head in P; symmetry in P.
    all: assert (P2 : Forall proper (skipn (length g1) fs)) by (rewrite <- (firstn_skipn (length g1) fs) in Hp; now apply Forall_app in Hp).
    all: rewrite (i_split _ _ _ _ _ I), skipn_app, skipn_all, Nat.sub_diag in P2; cbn [app skipn] in P2.
    all: destruct (cut _ (buffer s) x P2 P) as [(E & L)|(f' & g2' & r & E0 & Ei & Eb & Er)].
    all: try (exists 1, (Sys (buffer s) false (queue s)); cbn [length repeat run step]; rewrite B, E; split; [lia|now split]).
    - discriminate.
    - injection E0 as <- <-.
      assert (St : exists s1, step s Iterate = Some s1).
      { cbn [step]. rewrite B, Ei. unfold qstep. cbn [Queue_Model.step]. destruct (Queue_Model.terminated (queue s)); eexists; reflexivity. }
      destruct St as (s1 & St).
      assert (I1 : inv fs s1 (arrived es) (g1 ++ [f]) g2).
      { cbn [step] in St. rewrite B, Ei in St.
        assert (T : Queue_Model.terminated (queue s) = false).
        { destruct (Queue_Model.terminated (queue s)) eqn:T; [|reflexivity]. pose proof (i_over _ _ _ _ _ I T). congruence. }
        unfold qstep in St. cbn [Queue_Model.step] in St. rewrite T in St. injection St as <-.
        split; cbn [queue buffer busy Queue_Model.accepted Queue_Model.terminated Queue_Model.nulls Queue_Model.queue]; try discriminate.
        - rewrite <- app_assoc. apply I.
        - rewrite map_app, (i_accepted _ _ _ _ _ I). reflexivity.
        - unfold handed. cbn [queue Queue_Model.popped Queue_Model.queue]. pose proof (i_fifo _ _ _ _ _ I) as X. unfold handed in X.
          rewrite X, <- app_assoc. reflexivity.
        - rewrite (i_buffer _ _ _ _ _ I), Eb, wire_app, wire_one. now rewrite <- app_assoc.
        - intros K. exfalso. apply (i_null _ _ _ _ _ I) in K as (_ & K). congruence. }
      destruct (IH _ _ I1) as (n & s' & L & Rn & Bn). exists (S n), s'. split; [cbn [length]; lia|]. cbn [repeat run]. now rewrite St. }
  destruct (G g2 g1 s I) as (n & s' & L & Rn & Bn). exists n, s'. split; [|now split].
  rewrite (i_split _ _ _ _ _ I), app_length. lia.
Qed.
Print Assumptions C121_settles.

(** What [read] returns: the messages that are JSON; and the end when the input is over and all was read. *)
Lemma read_some : forall J (parse : bytes -> option J) ms k n, length ms < n ->
  read_all J parse n (map Some ms ++ repeat None k) = (Framing_Spec.parsed parse ms, negb (k =? 0)).
Proof.
  intros J parse ms k. induction ms as [|m ms IH]; intros n L.
  - cbn [map app]. destruct n; [cbn in L; lia|]. now destruct k.
  - destruct n as [|n]; [cbn in L; lia|]. cbn [map app Framing_Spec.parsed]. destruct (parse m) eqn:E.
    + cbn [read_all read]. rewrite E, IH by (cbn [length] in L; lia). reflexivity.
    + rewrite <- (IH (S n)) by (cbn [length] in L; lia). cbn [read_all read]. now rewrite E.
Qed.
Theorem C121_delivered : forall J (parse : bytes -> option J) fs es s, Forall proper fs -> run step start es = Some s ->
  prefix (arrived es) (all_on_wire fs) ->
  prefix (fst (delivered parse s)) (Framing_Spec.parsed parse (map body fs)) /\
  (snd (delivered parse s) = true -> Queue_Model.terminated (queue s) = true /\
    exists fs1, complete_in (arrived es) fs fs1 /\ fst (delivered parse s) = Framing_Spec.parsed parse (map body fs1)).
Proof.
  intros J parse fs es s Hp R P. destruct (any_run fs Hp es s R P) as (g1 & g2 & I).
  assert (D : delivered parse s = (Framing_Spec.parsed parse (Queue_Model.popped (queue s)), negb (Queue_Model.nulls (queue s) =? 0))).
  { unfold delivered, pops. apply read_some. rewrite app_length, map_length. lia. }
  assert (PA : forall a b, Framing_Spec.parsed parse (a ++ b) = Framing_Spec.parsed parse a ++ Framing_Spec.parsed parse b).
  { induction a as [|m a IHa]; intros b; [reflexivity|]. cbn [app Framing_Spec.parsed]. destruct (parse m); rewrite IHa; reflexivity. }
  pose proof (i_fifo _ _ _ _ _ I) as F. rewrite (i_accepted _ _ _ _ _ I) in F. unfold handed in F. rewrite D. cbn [fst snd]. split.
  - exists (Framing_Spec.parsed parse (Queue_Model.queue (queue s) ++ map body g2)).
    rewrite <- PA, app_assoc, <- F, <- map_app. now rewrite (i_split _ _ _ _ _ I).
  - intros N. destruct (i_null _ _ _ _ _ I) as (Q & T); [intros K; rewrite K in N; discriminate|]. split; [exact T|].
    exists g1. split; [eapply inv_complete; [exact I|now apply (i_over _ _ _ _ _ I)]|]. rewrite F, Q, app_nil_r. reflexivity.
Qed.
Print Assumptions C121_delivered.

(** The answers have the form of messages, the same as those of the native server. *)
Theorem C121_written : forall m, write m = on_wire (Letter [] m) /\ write m = Framing_Model.write_message m.
Proof. intros m. split; reflexivity. Qed.
Print Assumptions C121_written.

(** The native server, given the same input, reads the same messages. *)
Theorem C121_native : forall J (parse : bytes -> option J) fs es s, Forall proper fs ->
  Forall (fun f => (1 <= N.of_nat (length (body f)) <= 2 ^ 30)%N /\
                   Forall (fun h => ~ prefix (s2b "Content-Length: ") h) (headers f)) fs ->
  run step start es = Some s -> arrived es = all_on_wire fs -> snd (delivered parse s) = true ->
  Framing_Model.read_all J parse (length (arrived es) + 2) (Framing_Model.fresh (arrived es)) = Some (fst (delivered parse s)).
Proof.
  intros J parse fs es s Hp Hn R E D. destruct (C121_delivered J parse fs es s Hp R) as (_ & K); [exists []; now rewrite E, app_nil_r|].
  destruct (K D) as (_ & g1 & (g2 & S2 & _ & L) & ->).
  assert (g2 = []) as ->.
  { destruct g2 as [|f r]; [reflexivity|]. specialize (L f r eq_refl). rewrite E, S2, !wire_app, wire_one, all_cons, !app_length in L. lia. }
  rewrite app_nil_r in S2. subst g1.
  set (g := fun f => Framing_Spec.mkFrame [] (map (fun h => h ++ [13%N]) (headers f)) (body f)).
  assert (W : all_on_wire fs = Framing_Spec.wire_all (map g fs)).
  { unfold all_on_wire, Framing_Spec.wire_all. rewrite map_map. f_equal. apply map_ext. intros f.
    unfold on_wire, Framing_Spec.wire_of, Framing_Spec.wire, g, Framing_Spec.header_lines. cbn [Framing_Spec.pre Framing_Spec.post Framing_Spec.body map concat app].
    rewrite map_map. do 4 f_equal. f_equal. f_equal. apply map_ext. intros h. now rewrite <- app_assoc. }
  rewrite E, W, Framing_Props.C01_extra_headers.
  - now rewrite map_map.
  - apply Forall_map. clear - Hp Hn. induction fs as [|f fs IH]; [constructor|]. inversion Hp as [|? ? P Ps]; inversion Hn as [|? ? (B & C) Cs]; subst.
    constructor; [|now apply IH]. split; [constructor|]. split; [|exact B]. cbn [g Framing_Spec.post]. apply Forall_map.
    revert C. unfold proper in P. revert P. clear. intros P C. rewrite Forall_forall in *. intros h I. specialize (P h I). specialize (C h I).
    destruct P as (Ne & N13 & N10). split; [|split; [|split]].
    + now destruct h.
    + intros K. apply in_app_or in K as [K|[K|[]]]; [easy|discriminate].
    + intros K. destruct h as [|c [|]]; easy.
    + intros (r & K). apply C. destruct (rev r) as [|z r'] eqn:V.
      * apply (f_equal (@rev N)) in V. rewrite rev_involutive in V. subst r. rewrite app_nil_r in K.
        apply (f_equal (@rev N)) in K. rewrite rev_app_distr in K. cbn in K. discriminate.
      * apply (f_equal (@rev N)) in V. rewrite rev_involutive in V. cbn [rev] in V. subst r. rewrite app_assoc in K.
        apply app_inj_tail in K as (-> & _). now exists (rev r').
Qed.
Print Assumptions C121_native.

(** ** What is not so *)
(** Input that does not begin with Content-Length stops everything: nothing is handed over, whatever follows.
    The native server reads such messages ([C01_extra_headers]). *)
Theorem C121_order_refuted : forall x es s, starts_with content_length x = false -> run step start es = Some s -> prefix (arrived es) x ->
  handed s = [].
Proof.
  intros x es s N R P.
  assert (G : forall es s s' a, Queue_Model.accepted (queue s) = [] -> Queue_Model.accepted (queue s) = handed s -> buffer s = a ->
    prefix (a ++ arrived es) x -> run step s es = Some s' -> Queue_Model.accepted (queue s') = [] /\ Queue_Model.accepted (queue s') = handed s').
  { clear - N. induction es as [|e es IH]; intros s s' a A F B P R.
    - injection R as <-. now split.
    - cbn [run] in R. destruct (step s e) as [s1|] eqn:E; [|discriminate].
      assert (X : arrived (e :: es) = arrived [e] ++ arrived es) by (unfold arrived; cbn; now rewrite app_nil_r).
      rewrite X, app_assoc in P.
      assert (Q : forall qe, with_queue s (qstep (queue s) qe) = Some s1 -> (forall t, qe <> Queue_Model.EPush t) ->
        Queue_Model.accepted (queue s1) = [] /\ Queue_Model.accepted (queue s1) = handed s1 /\ buffer s1 = a).
      { intros qe Hq Nq. unfold with_queue in Hq. destruct (qstep (queue s) qe) as [q'|] eqn:Eq; [|discriminate]. injection Hq as <-.
        destruct (queue_only _ _ _ Eq Nq) as (Aq & _). cbn [queue buffer]. split; [congruence|]. split; [|exact B].
        unfold handed. cbn [queue]. eapply Queue_Proof.fifo_step; [|exact Eq]. exact F. }
      assert (S1 : Queue_Model.accepted (queue s1) = [] /\ Queue_Model.accepted (queue s1) = handed s1 /\ buffer s1 = a ++ arrived [e]).
      { destruct e as [c| | |w|c|c]; cbn [step] in E; cbn [arrived map concat]; rewrite ?app_nil_r.
        - destruct (busy s || _); [discriminate|]. injection E as <-. cbn [queue buffer]. split; [exact A|]. split; [exact F|now rewrite B].
        - destruct (busy s); [|discriminate].
          assert (W : iteration (buffer s) = Wait).
          { unfold iteration. destruct (index_of content_length (buffer s)) as [[|i]|] eqn:I; try reflexivity. exfalso.
            destruct (buffer s) as [|d b'] eqn:Bs; [discriminate|]. cbn [index_of] in I.
            destruct (starts_with content_length (d :: b')) eqn:Sw; [|destruct (index_of content_length b'); discriminate].
            destruct P as (r & P). assert (starts_with content_length x = true); [|congruence].
            apply starts_with_app in Sw as (u & Sw). apply starts_with_app. exists (u ++ (arrived [Iterate] ++ arrived es) ++ r).
            rewrite P, <- B, Sw, <- !app_assoc. reflexivity. }
          rewrite W in E. injection E as <-. now split; [|split].
        - destruct (busy s); [discriminate|]. eapply Q; [exact E|easy].
        - eapply Q; [exact E|easy].
        - eapply Q; [exact E|easy].
        - eapply Q; [exact E|easy]. }
      destruct S1 as (A1 & F1 & B1). eapply IH; [exact A1|exact F1|reflexivity| |exact R]. now rewrite B1. }
  destruct (G es start s [] eq_refl eq_refl eq_refl P R) as (A & F). congruence.
Qed.
Print Assumptions C121_order_refuted.

(** A length that is not a number never lets go of the main thread: every turn hands over an empty message. *)
Definition broken : bytes := s2b "Content-Length: abc" ++ crlf ++ crlf.
Theorem C121_number_refuted : forall n, exists s, run step start (Arrive broken :: repeat Iterate n) = Some s /\
  busy s = true /\ handed s = repeat [] n.
Proof.
  assert (W : iteration broken = Pass [] broken) by (vm_compute; reflexivity).
  assert (G : forall n q, Queue_Model.terminated q = false -> exists s, run step (Sys broken true q) (repeat Iterate n) = Some s /\
    busy s = true /\ handed s = (Queue_Model.popped q ++ Queue_Model.queue q) ++ repeat [] n).
  { induction n as [|n IH]; intros q T.
    - exists (Sys broken true q). cbn [repeat]. rewrite app_nil_r. now split; [|split].
    - cbn [repeat run step busy buffer queue]. rewrite W. unfold qstep. cbn [Queue_Model.step]. rewrite T. cbn [option_map].
      match goal with |- context [Sys broken true ?q'] => destruct (IH q' eq_refl) as (s & R & B & H) end.
      exists s. split; [exact R|]. split; [exact B|]. rewrite H. cbn [Queue_Model.popped Queue_Model.queue]. rewrite <- !app_assoc. reflexivity. }
  intros n. destruct (G n (Queue_Model.init bytes 1) eq_refl) as (s & R & B & H). exists s. split; [exact R|]. split; [exact B|exact H].
Qed.
Print Assumptions C121_number_refuted.

(** With a negative length even the cuts matter. *)
Definition negative : bytes := s2b "Content-Length: -60" ++ crlf ++ crlf.
Theorem C121_negative_refuted :
  let x := on_wire (Letter [] (s2b "{}")) in
  (exists s, run step start [Arrive negative; Iterate] = Some s /\ buffer s = negative) /\
  (exists s, run step start [Arrive (negative ++ x ++ x ++ x); Iterate] = Some s /\ buffer s <> negative ++ x ++ x ++ x).
Proof. cbv zeta. split; eexists; (split; [vm_compute; reflexivity|]); vm_compute; [reflexivity|discriminate]. Qed.
Print Assumptions C121_negative_refuted.

(** ** Cases *)
Definition two : list letter := [Letter [s2b "Content-Type: utf-8"] (s2b "{}"); Letter [] (s2b "[1]")].
Example C121_case_proper : Forall proper two.
Proof. repeat constructor; try discriminate; cbn; intuition discriminate. Qed.
Example C121_case_chunks :
  exists es s, run step start es = Some s /\ arrived es = all_on_wire two /\ busy s = false /\ handed s = [s2b "{}"; s2b "[1]"].
Proof.
  exists ([Pop 0; Arrive (firstn 5 (all_on_wire two)); Iterate; Arrive (firstn 43 (skipn 5 (all_on_wire two))); Iterate; Wake (Some 0); Pop 0; Iterate;
    Arrive (skipn 48 (all_on_wire two)); Iterate; Iterate]). eexists. vm_compute. split; [reflexivity|]. split; [reflexivity|]. split; reflexivity.
Qed.
Example C121_case_end :
  exists es s, run step start es = Some s /\ arrived es = all_on_wire two /\
    delivered (fun b => if bytes_eqb b (s2b "{}") then None else Some b) s = ([s2b "[1]"], true).
Proof.
  exists [Arrive (all_on_wire two); Iterate; Iterate; Iterate; End_of_input; Pop 0; Pop 0; Pop 0]. eexists.
  vm_compute. split; [reflexivity|]. split; reflexivity.
Qed.
