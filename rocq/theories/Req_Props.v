(** C03, C04, C05: the request manager. Reference vocabulary: Req_Spec.v. *)
From Coq Require Import List Arith Bool Lia.
From Verif Require Import Common Lts Req_Model Req_Spec Req_Proof.
Import ListNotations.

(** C03. Under every interleaving of arrivals, worker, finishing threads and shutdown: for
    each server the requests handed to it, followed by those still waiting, are exactly the
    requests that arrived for it, in order of arrival. *)
Theorem C03_each_server_in_order_exactly_once : forall es x,
  run step init es = Some x ->
  forall s, for_server s (arrivals es)
            = map sm (filter (on_server s) (started x)) ++ map sm (outstanding x s).
Proof. intros es x R. exact (proj1 (order_all es x R)). Qed.
Print Assumptions C03_each_server_in_order_exactly_once.

(** C03. As long as no server is finished, this holds across servers too. *)
Theorem C03_global_order : forall es x,
  existsb is_finish es = false -> run step init es = Some x ->
  arrivals es = map sm (started x) ++ map sm (reqs x).
Proof. exact order_global. Qed.
Print Assumptions C03_global_order.

(** C03. A server never executes two requests at a time: while a finishing thread executes
    requests of server [s] the worker is not executing one of [s]. *)
Theorem C03_one_at_a_time : forall es x s todo,
  run step init es = Some x -> fin x = FExec s todo ->
  forall r, wrk x = WRunning r -> rsrv r <> s.
Proof.
  intros es x s todo R F r W. pose proof (excl_all es x R) as E. unfold excl in E. rewrite F, W in E.
  simpl in E. now apply Nat.eqb_neq.
Qed.
Print Assumptions C03_one_at_a_time.

(** C03. The worker never sleeps on work: if it waits although a request is queued or the
    end was requested, a notification is still under way. *)
Theorem C03_worker_not_left_asleep : forall es x,
  run step init es = Some x -> wrk x = WWaiting -> (reqs x <> [] \/ ending x = true) ->
  1 <= pending x.
Proof. exact awake_all. Qed.
Print Assumptions C03_worker_not_left_asleep.

(** C04. A request that was started with the cancellation flag raised is superseded: a later
    request opens or changes the same file. Hence the newest open/change of a file is always
    started uncancelled. *)
Theorem C04_only_superseded_started_cancelled : forall es x i,
  run step init es = Some x -> In (i, true) (log x) -> superseded (arrivals es) i.
Proof. intros es x i R. exact (proj1 (proj2 (proj2 (proj2 (cancel_all es x R)))) i). Qed.
Print Assumptions C04_only_superseded_started_cancelled.

(** C04. The same for cancellation during execution, as long as no server is finished. *)
Theorem C04_only_superseded_cancelled_running : forall es x r,
  run step init es = Some x -> existsb is_finish es = false ->
  wrk x = WRunning r -> cancel x = true -> superseded (arrivals es) (rid r).
Proof.
  intros es x r R F. pose proof (cancel_all es x R) as (_ & _ & _ & _ & _ & H & _). auto.
Qed.
Print Assumptions C04_only_superseded_cancelled_running.

(** C04. What it means to be about a file and to open or change it, in the words of the protocol. *)
Definition about (u : bytes) (m : msg) : Prop :=
  (exists rest, mmethod m = Some (s2b "textDocument" ++ rest)) /\ muri m = u.
Definition opens_or_changes (u : bytes) (m : msg) : Prop :=
  (mmethod m = Some (s2b "textDocument/didOpen") \/ mmethod m = Some (s2b "textDocument/didChange")) /\ muri m = u.

Lemma file_about : forall u m, u <> [] -> (get_request_file m = u <-> about u m).
Proof.
  intros u [[me|] v] Hu; unfold get_request_file, about; cbn [mmethod muri].
  - destruct (starts_with td_prefix me) eqn:E.
    + apply starts_with_app in E as (rest & ->). split; [intros <-; split; [now exists rest|reflexivity]|now intros [_ ->]].
    + split; [intros <-; now destruct Hu|]. intros [(rest & [= ->]) _].
      rewrite (proj2 (starts_with_app td_prefix _)) in E; [discriminate|]. now exists rest.
  - split; [intros <-; now destruct Hu|]. intros [(rest & H) _]. discriminate.
Qed.
Lemma changes_required : forall u m, u <> [] ->
  (get_request_file m = u /\ parsing_required m = true <-> opens_or_changes u m).
Proof.
  intros u [[me|] v] Hu; unfold get_request_file, parsing_required, opens_or_changes; cbn [mmethod muri].
  - split.
    + destruct (starts_with td_prefix me); [|intros [<- _]; now destruct Hu].
      intros [-> H]. apply orb_true_iff in H as [H|H]; apply bytes_eqb_eq in H; subst me; auto.
    + intros [[[= ->]|[= ->]] ->]; split; reflexivity.
  - split; [intros [<- _]; now destruct Hu|]. intros [[H|H] _]; discriminate.
Qed.

(** [superseded] in these words. *)
Theorem C04_superseded_means : forall arr i, superseded arr i <->
  exists j si mi sj mj u, i < j /\ nth_error arr i = Some (si, mi) /\ nth_error arr j = Some (sj, mj) /\
    u <> [] /\ about u mi /\ opens_or_changes u mj.
Proof.
  intros arr i. split.
  - intros (j & si & mi & sj & mj & L & I & J & P & E & N). exists j, si, mi, sj, mj, (get_request_file mj).
    do 4 (split; [assumption|]). split; [apply file_about; auto|apply changes_required; auto].
  - intros (j & si & mi & sj & mj & u & L & I & J & N & A & C). exists j, si, mi, sj, mj.
    apply file_about in A; [|exact N]. apply changes_required in C as [C P]; [|exact N].
    do 3 (split; [assumption|]). split; [exact P|]. split; congruence.
Qed.
Print Assumptions C04_superseded_means.

Definition told (k : nat) (y : st) : Prop :=
  k < naccepted y /\ (forall r, In r (reqs y) -> rid r = k -> rvalid r = false) /\
  (forall r, wrk y = WRunning r -> rid r = k -> cancel y = true).
Lemma told_step : forall k y e y', told k y -> step y e = Some y' -> told k y'.
Proof.
  intros k y e y' (A & B & C) St. destruct e; cbn [step] in St.
  - destruct (fin y); try discriminate St. injection St as <-. split; [cbn; lia|]. cbn [reqs wrk cancel]. split.
    + intros r Hr K. apply in_app_or in Hr as [Hr|[<-|[]]]; [|cbn in K; lia].
      destruct (_ && _); [|now apply B]. apply in_map_iff in Hr as (r0 & <- & Hr0). unfold invalidate in *.
      destruct (bytes_eqb _ _); [reflexivity|]. now apply B.
    + intros r Hr K. destruct (_ && _); [reflexivity|]. now apply (C r).
  - destruct (pending y); try discriminate St. injection St as <-. split; [exact A|]. split; [exact B|]. cbn [wrk cancel].
    intros r Hr K. apply (C r); [|exact K]. destruct (wrk y); congruence.
  - destruct (wrk y); try discriminate St. injection St as <-. split; [exact A|]. split; [exact B|]. discriminate.
  - destruct (fin y); try discriminate St. destruct (wrk y); try discriminate St.
    destruct (ending y); [injection St as <-; split; [exact A|]; split; [exact B|discriminate]|].
    destruct (reqs y) as [|r rs]; injection St as <-; [split; [exact A|]; split; [easy|discriminate]|].
    split; [exact A|]. cbn [reqs wrk cancel]. split; [intros r' Hr; apply B; now right|].
    intros r' [= <-] K. now rewrite (B r (or_introl eq_refl) K).
  - destruct (wrk y); try discriminate St. injection St as <-. split; [exact A|]. split; [exact B|]. discriminate.
  - destruct (fin y); try discriminate St. injection St as <-. split; [exact A|]. split; [exact B|exact C].
  - destruct (fin y); try discriminate St. destruct (reqs y) eqn:Q; injection St as <-; [split; [exact A|]; rewrite Q; split; [exact B|exact C]|].
    split; [exact A|]. split; [exact B|]. reflexivity.
  - destruct (fin y); try discriminate St. destruct (runs_on s (wrk y)); try discriminate St. injection St as <-. split; [exact A|]. split; [exact B|exact C].
  - destruct (fin y) as [| |s [|r todo]]; try discriminate St. injection St as <-. split; [exact A|]. split; [exact B|exact C].
  - destruct (fin y) as [| |s [|r todo]]; try discriminate St. injection St as <-. split; [exact A|]. cbn [reqs wrk cancel]. split; [|exact C].
    intros r Hr. apply filter_In in Hr as [Hr _]. now apply B.
Qed.
Lemma told_run : forall k es y z, told k y -> run step y es = Some z -> told k z.
Proof.
  intros k es. induction es as [|e es IH]; intros y z T R; cbn in R; [now injection R as <-|].
  destruct (step y e) as [y1|] eqn:E; [|discriminate]. apply (IH y1); [|exact R]. now apply (told_step k y e).
Qed.

(** C04. While a request about a file is running, a request that opens or changes the file cancels it; and every
    other request about the file that has arrived before and that the worker has not finished runs cancelled. *)
Theorem C04_change_cancels : forall es x r u s m x',
  run step init es = Some x -> wrk x = WRunning r -> u <> [] -> about u (rmsg r) -> opens_or_changes u m ->
  step x (EAdd s m) = Some x' ->
  wrk x' = WRunning r /\ cancel x' = true /\
  forall k sk mk es' y r', nth_error (arrivals es) k = Some (sk, mk) -> about u mk ->
    run step x' es' = Some y -> wrk y = WRunning r' -> rid r' = k -> cancel y = true.
Proof.
  intros es x r u s m x' R W N A Ch St. destruct (cancel_all es x R) as (H0 & H1 & _ & _ & H4 & _ & _).
  destruct (H4 r W) as [_ F]. apply file_about in A; [|exact N]. apply changes_required in Ch as [G P]; [|exact N].
  cbn [step] in St. destruct (fin x); try discriminate St. injection St as <-. rewrite F, A, G, P. cbn [wrk cancel].
  assert (E1 : bytes_eqb u u = true) by now apply bytes_eqb_eq.
  assert (E2 : bytes_eqb u [] = false). { destruct (bytes_eqb u []) eqn:E; [|reflexivity]. apply bytes_eqb_eq in E. now subst. }
  rewrite E1, E2. cbn [negb andb]. split; [exact W|]. split; [reflexivity|].
  intros k sk mk es' y r' Nk Ak Ry Wy K. apply file_about in Ak; [|exact N].
  assert (T : told k y); [|exact (proj2 (proj2 T) r' Wy K)]. eapply told_run; [|exact Ry].
  assert (L : k < length (arrivals es)) by (apply nth_error_Some; congruence).
  split; [cbn; lia|]. cbn [reqs wrk cancel]. split; [|reflexivity].
  intros q Hq Kq. apply in_app_or in Hq as [Hq|[<-|[]]]; [|cbn in Kq; lia].
  apply in_map_iff in Hq as (q0 & <- & Hq0). unfold invalidate in *. destruct (bytes_eqb (get_request_file (rmsg q0)) u) eqn:E; [reflexivity|].
  specialize (H1 q0 Hq0). rewrite Kq, Nk in H1. injection H1 as -> ->. rewrite Ak, E1 in E. discriminate.
Qed.
Print Assumptions C04_change_cancels.

(** C05 says: when [finish_server_requests s] returns, no request of [s] is queued or
    running.  It returns in two places: at once (empty queue), or after executing what was
    queued ([EFinEnd]). *)
Definition finish_returns (x : st) (s : nat) (x' : st) : Prop :=
  (fin x = FNone /\ reqs x = [] /\ step x (EFinish s) = Some x') \/
  (fin x = FExec s [] /\ step x EFinEnd = Some x').

Definition server_idle (s : nat) (x : st) : Prop :=
  filter (on_server s) (reqs x) = [] /\ forall r, wrk x = WRunning r -> rsrv r <> s.

(** C05 is false of the code: the early return does not wait for the running request. *)
Theorem C05_finish_leaves_server_idle_refuted :
  exists es x x', run step init es = Some x /\ finish_returns x 0 x' /\ ~ server_idle 0 x'.
Proof.
  exists [EAdd 0 (mkMsg None []); EWorker]. eexists. eexists.
  split; [vm_compute; reflexivity|]. split.
  - left. vm_compute. auto.
  - intros [_ H]. eapply H; [vm_compute; reflexivity|]. reflexivity.
Qed.
Print Assumptions C05_finish_leaves_server_idle_refuted.

(** C05, exactly: on return nothing of the server is queued, and the server is idle unless
    the call returned at once (empty queue) while the worker was executing a request of it. *)
Theorem C05_idle_exactly : forall es x x' s,
  run step init es = Some x -> finish_returns x s x' ->
  filter (on_server s) (reqs x') = [] /\
  (server_idle s x' <->
   ~ (reqs x = [] /\ fin x = FNone /\ exists r, wrk x = WRunning r /\ rsrv r = s)).
Proof.
  intros es x x' s R [(F & Q & St)|(F & St)].
  - cbn [step] in St. rewrite F, Q in St. injection St as <-. rewrite Q.
    split; [reflexivity|]. split.
    + intros [_ H] (_ & _ & r & W & E). exact (H r W E).
    + intros H. unfold server_idle. rewrite Q. split; [reflexivity|]. intros r W E. apply H. eauto.
  - destruct (finish_nonempty es x x' R s F St) as (A & B & C). split; [exact B|]. split.
    + intros _ (_ & F' & _). congruence.
    + intros _. split; [exact B|]. intros r W. rewrite W in C. now apply Nat.eqb_neq.
Qed.
Print Assumptions C05_idle_exactly.

(** C05. If the queue was not empty on entry, the server is idle on return, and it stays idle -
    nothing of it is ever started - until a new request for it arrives.  The same holds after
    the early return if no request of the server was being executed. *)
Theorem C05_finish_leaves_server_idle : forall es x x' s,
  run step init es = Some x -> finish_returns x s x' ->
  fin x = FExec s [] \/ (forall r, wrk x = WRunning r -> rsrv r <> s) ->
  server_idle s x' /\
  forall es' y, Forall (not_add s) es' -> run step x' es' = Some y ->
    server_idle s y /\ filter (on_server s) (started y) = filter (on_server s) (started x').
Proof.
  intros es x x' s R Fr D.
  assert (K : clear_of s x').
  { destruct Fr as [(F & Q & St)|(F & St)].
    - cbn [step] in St. rewrite F, Q in St. injection St as <-. unfold clear_of. rewrite F, Q.
      split; [reflexivity|]. split; [|exact Logic.I].
      destruct D as [D|D]; [congruence|]. destruct (wrk x) eqn:W; try reflexivity.
      apply Nat.eqb_neq. now apply D.
    - destruct (finish_nonempty es x x' R s F St) as (A & B & C). unfold clear_of. rewrite A. auto. }
  assert (I : forall z, clear_of s z -> server_idle s z).
  { intros z (Z1 & Z2 & _). split; [exact Z1|]. intros r W. rewrite W in Z2. simpl in Z2.
    now apply Nat.eqb_neq. }
  split; [now apply I|]. intros es' y Q R'.
  destruct (clear_stays s es' x' y Q K R') as [G1 G2]. auto.
Qed.
Print Assumptions C05_finish_leaves_server_idle.

(** C05. A call that has not returned needs at most the worker's return from the request it is
    executing, and then its own actions - one for each queued request of the server, which are
    executed in order of arrival - and two more. *)
Theorem C05_finish_returns : forall x s,
  fin x = FWait s ->
  exists x1 x',
    run step x ((if runs_on s (wrk x) then [EDone] else []) ++ [EFinGo]
                ++ repeat EFinRun (length (filter (on_server s) (reqs x)))) = Some x1 /\
    finish_returns x1 s x' /\ fin x' = FNone /\
    started x' = started x ++ filter (on_server s) (reqs x).
Proof.
  intros x s F.
  assert (G : forall l z, fin z = FExec s l ->
    exists z1, run step z (repeat EFinRun (length l)) = Some z1 /\ fin z1 = FExec s [] /\
      started z1 = started z ++ l).
  { induction l as [|r l IH]; intros z Z.
    - exists z. cbn. rewrite app_nil_r. auto.
    - cbn [length repeat run step]. rewrite Z.
      edestruct IH as (z1 & R1 & Z1 & S1); [|exists z1; split; [exact R1|split; [exact Z1|]]]; [reflexivity|].
      rewrite S1. cbn [started]. now rewrite <- app_assoc. }
  assert (H : forall z, fin z = FWait s -> runs_on s (wrk z) = false ->
    exists x1 x', run step z (EFinGo :: repeat EFinRun (length (filter (on_server s) (reqs z)))) = Some x1 /\
      finish_returns x1 s x' /\ fin x' = FNone /\ started x' = started z ++ filter (on_server s) (reqs z)).
  { intros z Z W. cbn [run step]. rewrite Z, W.
    edestruct G as (z1 & R1 & Z1 & S1); [|rewrite R1; exists z1]; [reflexivity|].
    eexists. split; [reflexivity|]. split; [right; split; [exact Z1|]; cbn [step]; rewrite Z1; reflexivity|].
    split; [reflexivity|]. cbn [started]. exact S1. }
  destruct (runs_on s (wrk x)) eqn:W.
  - cbn [app run]. destruct (wrk x) as [| |r|] eqn:E; try discriminate W. cbn [step]. rewrite E.
    destruct (H (mk (reqs x) WReady (cur_file x) (cancel x) (ending x) (pending x) (fin x)
                    (naccepted x) (started x) (log x)) F eq_refl) as (x1 & x' & R1 & K).
    exists x1, x'. split; [exact R1|exact K].
  - exact (H x F W).
Qed.
Print Assumptions C05_finish_returns.

(** From the moment the call has found something queued until it returns the cancellation flag is raised: the
    request that is running, and the ones the call executes itself, are told to stop. *)
Theorem C05_finishing_cancels : forall es x,
  run step init es = Some x -> fin x <> FNone -> cancel x = true.
Proof.
  intros es. induction es as [|e es IH] using rev_ind; intros x R F.
  - injection R as <-. now destruct F.
  - apply run_snoc in R as (s1 & R1 & St). specialize (IH _ R1). destruct e; cbn [step] in St.
    + destruct (fin s1); try discriminate St. injection St as <-. now destruct F.
    + destruct (pending s1); try discriminate St. injection St as <-. cbn in *. auto.
    + destruct (wrk s1); try discriminate St. injection St as <-. cbn in *. auto.
    + destruct (fin s1); try discriminate St. destruct (wrk s1); try discriminate St.
      destruct (ending s1); [injection St as <-; now destruct F|]. destruct (reqs s1); injection St as <-; now destruct F.
    + destruct (wrk s1); try discriminate St. injection St as <-. cbn in *. auto.
    + destruct (fin s1); try discriminate St. injection St as <-. now destruct F.
    + destruct (fin s1) eqn:E; try discriminate St. destruct (reqs s1); injection St as <-; [now destruct F|reflexivity].
    + destruct (fin s1) eqn:E; try discriminate St. destruct (runs_on s (wrk s1)); try discriminate St. injection St as <-. cbn in *. apply IH. discriminate.
    + destruct (fin s1) as [| |s [|r todo]] eqn:E; try discriminate St. injection St as <-. cbn in *. apply IH. discriminate.
    + destruct (fin s1) as [| |s [|r todo]] eqn:E; try discriminate St. injection St as <-. now destruct F.
Qed.
Print Assumptions C05_finishing_cancels.

(** So C04 cannot be said of a request that is running or executed while a server is being finished: here nothing
    replaces request 0 of server 1, and it is cancelled because server 0 is finished. *)
Theorem C04_finish_cancels_others_refuted :
  exists es x r, run step init es = Some x /\ wrk x = WRunning r /\ cancel x = true /\
    fin x = FWait 0 /\ rsrv r = 1 /\ ~ superseded (arrivals es) (rid r).
Proof.
  exists [EAdd 1 (mkMsg (Some did_change) []); EAdd 0 (mkMsg None []); EWorker; EFinish 0].
  eexists. eexists. split; [vm_compute; reflexivity|]. do 4 (split; [reflexivity|]).
  intros (j & si & mi & sj & mj & L & _ & J & P & _). cbn in J, L. destruct j as [|[|j]].
  - inversion L.
  - cbn in J. injection J as <- <-. discriminate P.
  - destruct j; discriminate J.
Qed.
Print Assumptions C04_finish_cancels_others_refuted.

(** Non-vacuity. *)
Definition ch (f : String.string) := mkMsg (Some did_change) (s2b f).
Arguments ch f%string_scope.
Example C04_ex : exists x,
  run step init [EAdd 0 (ch "a"); EWorker; EAdd 0 (ch "a"); EAdd 0 (ch "b"); EAdd 0 (ch "a"); EDone; EWorker]
    = Some x /\ In (1, true) (log x) /\ In (0, false) (log x) /\ length (reqs x) = 2.
Proof. eexists. split; [vm_compute; reflexivity|]. vm_compute. auto. Qed.
Example C04_ex_running : exists x r,
  run step init [EAdd 0 (ch "a"); EWorker; EAdd 0 (ch "a")] = Some x /\
  wrk x = WRunning r /\ cancel x = true.
Proof. eexists. eexists. split; [vm_compute; reflexivity|]. vm_compute. auto. Qed.
Example C05_ex : exists x x',
  run step init [EAdd 0 (ch "a"); EAdd 1 (ch "b"); EAdd 0 (ch "a"); EWorker; EFinish 0; EDone; EFinGo; EFinRun]
    = Some x /\ fin x = FExec 0 [] /\ step x EFinEnd = Some x' /\ length (reqs x') = 1.
Proof. eexists. eexists. split; [vm_compute; reflexivity|]. vm_compute. auto. Qed.
Example C03_ex : exists x,
  run step init [EWorker; EAdd 0 (ch "a")] = Some x /\ wrk x = WWaiting /\ reqs x <> [].
Proof. eexists. split; [vm_compute; reflexivity|]. split; [reflexivity|discriminate]. Qed.
Example C03_ex_exec : exists x r todo,
  run step init [EAdd 1 (ch "a"); EAdd 0 (ch "b"); EWorker; EFinish 0; EFinGo] = Some x /\
  fin x = FExec 0 todo /\ wrk x = WRunning r.
Proof. eexists. eexists. eexists. split; [vm_compute; reflexivity|]. vm_compute. auto. Qed.
