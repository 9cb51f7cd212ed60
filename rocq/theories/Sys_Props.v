(** C36, C41: the server process. Reference vocabulary: Sys_Spec.v. *)
From Coq Require Import List NArith ZArith Bool.
From Verif Require Import Common Lts Json Lsp_Model Lsp_Spec Req_Model Sys_Model Sys_Spec Sys_Proof Sys_Exit.
Import ListNotations.

(** C36, C41. The messages of the language server are those whose method does not begin with hlasm/dap_tunnel. *)
Theorem C36_lsp_part_means : forall input j,
  In j (lsp_part input) <-> In j input /\ ~ exists rest, jfind (s2b "method") j = Some (JStr (s2b "hlasm/dap_tunnel" ++ rest)).
Proof.
  intros input j. unfold lsp_part. rewrite filter_In, negb_true_iff. split; intros [A B]; (split; [exact A|]).
  - intros (rest & E). unfold is_dap in B. rewrite E in B.
    rewrite (proj2 (starts_with_app dap_method _)) in B; [discriminate|]. now exists rest.
  - unfold is_dap. destruct (jfind (s2b "method") j) as [[| | |m| |]|] eqn:E; try reflexivity.
    destruct (starts_with dap_method m) eqn:S; [|reflexivity]. apply starts_with_app in S as (rest & ->).
    destruct B. now exists rest.
Qed.
Print Assumptions C36_lsp_part_means.

(** C36, under every schedule of the three threads: if every exit in the input is preceded by a
    shutdown, the process ends with 0; so code 1 always means that the client exited without
    shutdown. *)
Theorem C36_orderly_session_exits_zero : forall answer sync init_rest input es x c,
  run (sstep answer sync init_rest) (sys0 input) es = Some x -> code x = Some c ->
  orderly (lsp_part input) -> c = 0%Z.
Proof. exact exit_code. Qed.
Print Assumptions C36_orderly_session_exits_zero.

(** C36, exactly: the code is 0 or 1, and it is 1 if and only if, before the end of the input was
    seen, the server loop had found an exit handled and no shutdown, and had returned. *)
Theorem C36_code_exactly : forall answer sync init_rest input es x c,
  let run_from_start := run (sstep answer sync init_rest) (sys0 input) in
  run_from_start es = Some x -> code x = Some c ->
  (c = 0 \/ c = 1)%Z /\
  (c = 1%Z <-> exists a b d y z,
     es = a ++ SLsp :: b ++ SEof :: d /\
     run_from_start a = Some y /\ pc y = LCheckShut /\ exited (sv y) = true /\ shut (sv y) = false /\
     run_from_start (a ++ SLsp :: b) = Some z /\ pc z = LReturned).
Proof.
  intros answer sync init_rest input es x c f R C.
  destruct (code_exactly answer sync init_rest input es x c R C) as [A B]. split; [exact A|].
  rewrite B. split.
  - intros (a & b & d & z & E & (y & Y) & Z). exists a, b, d, y, z. split; [exact E|]. tauto.
  - intros (a & b & d & y & z & E & Y). exists a, b, d, z. split; [exact E|]. unfold saw. split; [exists y; tauto|tauto].
Qed.
Print Assumptions C36_code_exactly.

Definition note (m : String.string) : json := JObj [(s2b "method", JStr (s2b m)); (s2b "params", JNull)].
Arguments note m%string_scope.

(** The proviso is needed: main evaluates [return ret] before it joins the LSP thread, so a lost
    connection ends with 0 ... *)
Theorem C36_lost_input_exits_one_refuted : forall answer sync init_rest,
  exists es x, run (sstep answer sync init_rest) (sys0 []) es = Some x /\
    code x = Some 0%Z /\ pc x = LReturned /\ ret x = 1%Z.
Proof.
  intros. exists [SEof; STerm; SLsp; SLsp; SLsp]. eexists. split; [vm_compute; reflexivity|]. auto.
Qed.
Print Assumptions C36_lost_input_exits_one_refuted.

(** ... and so does exit without shutdown, even if it was handled before the input ended. *)
Theorem C36_exit_without_shutdown_refuted : forall answer sync init_rest,
  exists es x, run (sstep answer sync init_rest) (sys0 [note "exit"]) es = Some x /\
    code x = Some 0%Z /\ exited (sv x) = true /\ shut (sv x) = false.
Proof.
  intros. exists [SRead; SLsp; SLsp; SLsp; SReq EWorker; SEffect; SReq EDone; SEof]. eexists.
  split; [vm_compute; reflexivity|]. auto.
Qed.
Print Assumptions C36_exit_without_shutdown_refuted.

(** The server loop itself may return 1 although exit followed shutdown: it looks at the flags
    right after queueing a message, before the worker has handled it. *)
Theorem C36_loop_result_refuted : forall answer sync init_rest,
  exists es x, run (sstep answer sync init_rest) (sys0 [note "shutdown"; note "exit"]) es = Some x /\
    pc x = LReturned /\ ret x = 1%Z.
Proof.
  intros. exists [SRead; SRead; SLsp; SLsp; SLsp; SLsp; SLsp; SLsp; SEof; STerm; SLsp; SLsp;
                  SReq EFinGo; SReq EFinRun; SReq EFinRun; SReq EFinEnd; SLsp]. eexists.
  split; [vm_compute; reflexivity|]. auto.
Qed.
Print Assumptions C36_loop_result_refuted.

(** C41: input in which every message respects the protocol and names its
    document never takes the process or the LSP thread down, under every schedule. *)
Theorem C41_conforming_input_is_survived : forall answer sync init_rest,
  (forall m p, answer m p <> Undef) -> (forall m p, snd (sync m p) <> Undef) ->
  (forall p, init_rest p <> Undef) ->
  forall input es x, Forall (fun j => well_formed j /\ names_document j) input ->
  run (sstep answer sync init_rest) (sys0 input) es = Some x -> dead x = false /\ pc x <> LFailed.
Proof. exact alive_run. Qed.
Print Assumptions C41_conforming_input_is_survived.

(** C41. And it goes on accepting messages: unless an exit was handled or the queue closed, the
    next queued message (after one the loop may already hold) is accepted within four steps of
    the LSP thread, whatever the other threads are doing. *)
Theorem C41_goes_on_accepting : forall answer sync init_rest,
  (forall m p, answer m p <> Undef) -> (forall m p, snd (sync m p) <> Undef) ->
  (forall p, init_rest p <> Undef) ->
  forall input es x j rest, Forall (fun j => well_formed j /\ names_document j) input ->
  run (sstep answer sync init_rest) (sys0 input) es = Some x ->
  exited (sv x) = false -> term x = false -> q x = j :: rest ->
  exists n y, n <= 4 /\ run (sstep answer sync init_rest) x (repeat SLsp n) = Some y /\
    acc y = acc x ++ (match pc x with LGot i => [i] | _ => [] end) ++ [j] /\ q y = rest.
Proof. exact accepts_next. Qed.
Print Assumptions C41_goes_on_accepting.

(** The provisos are needed: after a textDocument message without uri no message is ever
    accepted again, whatever the client sends and however the threads are scheduled. *)
Theorem C41_missing_uri_refuted : forall answer sync init_rest,
  exists j, jfind (s2b "method") j = Some (JStr (s2b "textDocument/hover")) /\
  forall rest, exists es x,
    run (sstep answer sync init_rest) (sys0 (j :: rest)) es = Some x /\
    forall es' y, run (sstep answer sync init_rest) x es' = Some y -> acc y = [].
Proof.
  intros. exists (note "textDocument/hover"). split; [reflexivity|]. intros rest.
  exists [SRead; SLsp; SLsp]. eexists. split; [vm_compute; reflexivity|].
  intros es' y R. eapply failed_forever in R; [|reflexivity]. destruct R as [_ R]. exact R.
Qed.
Print Assumptions C41_missing_uri_refuted.

(** Non-vacuity. *)
Example C36_ex : orderly (lsp_part [note "initialized"; note "shutdown"; note "exit"]) /\
  ~ orderly (lsp_part [note "exit"; note "shutdown"]).
Proof.
  split.
  - intros a j b E A. cbn in E.
    destruct a as [|x a]; [injection E as <- <-; discriminate|].
    injection E as <- E. destruct a as [|x a]; [injection E as <- <-; discriminate|].
    injection E as <- E. reflexivity.
  - intros O. discriminate (O [] (note "exit") [note "shutdown"] eq_refl eq_refl).
Qed.

(** Code 1 does occur: exit handled, then one more message while the input is still open. *)
Example C36_ex_one : exists es x,
  run (sstep (fun _ p => Ret p) (fun _ _ => ([], Ret tt)) (fun _ => Ret tt)) (sys0 [note "exit"; note "x"]) es = Some x /\
  code x = Some 1%Z.
Proof.
  exists [SRead; SLsp; SLsp; SReq EWorker; SEffect; SLsp; SLsp; SLsp; SLsp; SRead; SEof]. eexists.
  split; [vm_compute; reflexivity|]. auto.
Qed.

Definition open_doc : json :=
  JObj [(s2b "method", JStr (s2b "textDocument/didOpen"));
        (s2b "params", JObj [(s2b "textDocument", JObj [(s2b "uri", JStr (s2b "file:///a"))])])].
Example C41_ex : well_formed open_doc /\ names_document open_doc.
Proof.
  split.
  - repeat split; cbn; try discriminate.
  - intros m H. injection H as <-. eexists. split; [reflexivity|]. intros _. repeat eexists.
Qed.
Example C41_ex_accept : exists x,
  run (sstep (fun _ p => Ret p) (fun _ _ => ([], Ret tt)) (fun _ => Ret tt)) (sys0 [open_doc; open_doc]) [SRead; SRead; SLsp]
    = Some x /\ pc x = LGot open_doc /\ q x = [open_doc] /\ exited (sv x) = false /\ term x = false.
Proof. eexists. split; [vm_compute; reflexivity|]. vm_compute. auto. Qed.
