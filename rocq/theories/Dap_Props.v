(** C35 (DAP part), C41: the debug adapter's messages. *)
From Coq Require Import List NArith ZArith Bool Lia.
From Verif Require Import Common Lts Json Dap_Model Dap_Proof.
Import ListNotations.

(** C35. However the sending threads interleave, no sequence number is used twice
    (below 2^64 messages). *)
Theorem C35_dap_numbers_distinct : forall es x,
  (N.of_nat (takes es) < 2 ^ 64)%N -> run seq_step seq0 es = Some x -> NoDup (numbers x).
Proof. intros es x B R. exact (proj1 (proj2 (seq_run es x B R))). Qed.
Print Assumptions C35_dap_numbers_distinct.

(** C35. Of the messages one thread sends, each carries a greater number than all earlier
    ones, however many other threads send in between. *)
Theorem C35_dap_numbers_increase : forall t es x,
  (N.of_nat (takes es) < 2 ^ 64)%N -> run seq_step seq0 es = Some x -> sorted (numbers_of t x).
Proof. intros t es x B R. exact (proj1 (one_thread t es x B R)). Qed.
Print Assumptions C35_dap_numbers_increase.

(** C35. A message that one starts to send after others have been sent carries a greater number
    than all of those, whichever threads sent them. *)
Theorem C35_dap_numbers_follow : forall es x t y n,
  (N.of_nat (S (takes es)) < 2 ^ 64)%N -> run seq_step seq0 es = Some x ->
  seq_step x (Take t) = Some y -> holding y t = Some n ->
  forall m, In m (numbers x) -> (m < n)%N.
Proof.
  intros es x t y n B R Q H m M. destruct (seq_run es x ltac:(fold two64 in *; lia) R) as (L & _ & W & _).
  apply W in M. cbn [seq_step] in Q. destruct (holding x t); [discriminate|]. injection Q as <-.
  cbn [holding] in H. unfold upd in H. rewrite Nat.eqb_refl in H. injection H as <-.
  rewrite N.mod_small; fold two64 in *; lia.
Qed.
Print Assumptions C35_dap_numbers_follow.

(** Across threads the numbers need not grow on the wire: the debugger's event may overtake a
    response. *)
Theorem C35_dap_numbers_increase_refuted :
  exists es x, run seq_step seq0 es = Some x /\ numbers x = [2; 1]%N.
Proof. exists [Take 0; Take 1; Write 1; Write 0]. eexists. split; reflexivity. Qed.
Print Assumptions C35_dap_numbers_increase_refuted.

(** C35. A received message causes at most one response, and that names the message's own
    sequence number and command. *)
Theorem C35_dap_response_names_request : forall act j s s' ok,
  dreceive act j s = (s', ok) ->
  responses (dsent s') = responses (dsent s) \/
  exists q c, jfind (s2b "seq") j = Some q /\ jfind (s2b "command") j = Some (JStr c) /\
    jfind (s2b "type") j = Some (JStr (s2b "request")) /\
    responses (dsent s') = responses (dsent s) ++ [(q, c)].
Proof. exact dreceive_responses. Qed.
Print Assumptions C35_dap_response_names_request.

(** C35. Which requests are answered: the commands below, the second list only while there is a debugger and if it can
    carry out the command; everything else gets no response. *)
Definition always : list bytes :=
  [s2b "initialize"; s2b "disconnect"; s2b "setExceptionBreakpoints"; s2b "configurationDone"; s2b "threads"].
Definition debugging : list bytes :=
  [s2b "launch"; s2b "setBreakpoints"; s2b "stackTrace"; s2b "scopes"; s2b "next"; s2b "stepIn"; s2b "variables"; s2b "continue"].
Definition request (j : json) (c : bytes) (q a : json) : Prop :=
  jfind (s2b "type") j = Some (JStr (s2b "request")) /\ jfind (s2b "command") j = Some (JStr c) /\ jfind (s2b "seq") j = Some q /\
  (jfind (s2b "arguments") j = Some a \/ jfind (s2b "arguments") j = None /\ a = JNull).
Lemma request_call : forall act j c q a s, request j c q a -> dreceive act j s = dcall act c q a s.
Proof.
  intros act j c q a s (T & C & Q & A). unfold dreceive. rewrite T, C, Q. change (bytes_eqb (s2b "request") (s2b "request")) with true. cbv iota.
  destruct A as [-> | (-> & ->)]; reflexivity.
Qed.
Lemma dmem_in : forall k l, dmem k l = true <-> In k l.
Proof.
  intros k l. unfold dmem. rewrite existsb_exists. split.
  - intros (x & I & E). apply bytes_eqb_eq in E. now subst.
  - intros I. exists k. split; [exact I|now apply bytes_eqb_eq].
Qed.
Theorem C35_dap_answered : forall act j c q a s, request j c q a ->
  (In c always -> responses (dsent (fst (dreceive act j s))) = responses (dsent s) ++ [(q, c)]) /\
  (In c debugging -> responses (dsent (fst (dreceive act j s))) =
     responses (dsent s) ++ (if dbg s then match act c a with Ret _ => [(q, c)] | _ => [] end else [])) /\
  (~ In c always -> ~ In c debugging -> fst (dreceive act j s) = s).
Proof.
  intros act j c q a s R. rewrite (request_call act j c q a s R). split; [|split].
  - intros I. cbn [always In] in I. destruct I as [<-|[<-|[<-|[<-|[<-|[]]]]]]; try (cbn -[responses]; rewrite responses_app; reflexivity).
    unfold dcall. change (bytes_eqb (s2b "initialize") c_initialize) with true. cbv iota.
    destruct (init_args a); cbn -[responses]; rewrite ?responses_app; cbn; now rewrite ?app_nil_r.
  - intros I. cbn [debugging In] in I.
    destruct I as [<-|[<-|[<-|[<-|[<-|[<-|[<-|[<-|[]]]]]]]]]; cbn -[responses]; (destruct (dbg s); [destruct (act _ a)|]; cbn -[responses]; rewrite ?responses_app, ?app_nil_r; reflexivity).
  - intros N1 N2. unfold dcall.
    assert (E1 : bytes_eqb c c_initialize = false). { destruct (bytes_eqb c c_initialize) eqn:E; [|reflexivity]. apply bytes_eqb_eq in E. subst. exfalso. apply N1. now left. }
    assert (E2 : bytes_eqb c c_disconnect = false). { destruct (bytes_eqb c c_disconnect) eqn:E; [|reflexivity]. apply bytes_eqb_eq in E. subst. exfalso. apply N1. right. now left. }
    assert (E3 : dmem c free_commands = false). { destruct (dmem c free_commands) eqn:E; [|reflexivity]. apply dmem_in in E. exfalso. apply N1. right. now right. }
    assert (E4 : dmem c dbg_commands = false). { destruct (dmem c dbg_commands) eqn:E; [|reflexivity]. apply dmem_in in E. exfalso. now apply N2. }
    now rewrite E1, E2, E3, E4.
Qed.
Print Assumptions C35_dap_answered.
(** C35. Only disconnect ends the session, and it takes the debugger away; only an initialize request brings one. *)
Theorem C35_dap_session : forall act j s,
  (ddisc (fst (dreceive act j s)) = true <-> ddisc s = true \/ exists q a, request j (s2b "disconnect") q a) /\
  ((exists q a, request j (s2b "disconnect") q a) -> dbg (fst (dreceive act j s)) = false) /\
  (dbg s = false -> dbg (fst (dreceive act j s)) = true -> exists q a, request j (s2b "initialize") q a) /\
  (forall q a, request j (s2b "initialize") q a -> init_args a = Ret tt -> dbg (fst (dreceive act j s)) = true).
Proof.
  intros act j s.
  assert (K : (exists c q a, request j c q a) \/ (fst (dreceive act j s) = s /\ forall c q a, ~ request j c q a)).
  { unfold dreceive, request. destruct (jfind (s2b "type") j) as [[| | |t| |]|]; try (right; split; [reflexivity|intros c q a (X & _); discriminate]).
    destruct (bytes_eqb t (s2b "request")) eqn:T; [|right; split; [reflexivity|]; intros c q a (X & _); injection X as ->; vm_compute in T; discriminate].
    apply bytes_eqb_eq in T. subst t.
    destruct (jfind (s2b "command") j) as [[| | |c| |]|]; try (right; split; [reflexivity|intros c' q a (_ & X & _); discriminate]).
    destruct (jfind (s2b "seq") j) as [q|]; [|right; split; [reflexivity|intros c' q a (_ & _ & X & _); discriminate]].
    left. exists c, q. destruct (jfind (s2b "arguments") j) as [a|]; [exists a|exists JNull]; auto 10. }
  destruct K as [(c & q & a & R)|(E & N)].
  2:{ rewrite E. split; [split; [now left|intros [X|(q & a & X)]; [exact X|now apply N in X]]|]. split; [intros (q & a & X); now apply N in X|]. split; [congruence|intros q a X; now apply N in X]. }
  assert (U : forall c' q' a', request j c' q' a' -> c' = c /\ a' = a).
  { intros c' q' a' (_ & C' & _ & A'). destruct R as (_ & C & _ & A). split; [congruence|]. destruct A as [A|(A & ->)], A' as [A'|(A' & ->)]; congruence. }
  rewrite (request_call act j c q a s R). unfold dcall.
  destruct (bytes_eqb c c_initialize) eqn:E1.
  - apply bytes_eqb_eq in E1. subst c.
    assert (ND : ~ exists q a, request j (s2b "disconnect") q a) by (intros (q' & a' & X); apply U in X as (X & _); discriminate).
    split; [|split; [intros X; now apply ND in X|split; [intros _ _; now exists q, a|]]].
    + destruct (init_args a); cbn; (split; [now left|intros [X|X]; [exact X|now apply ND in X]]).
    + intros q' a' X. apply U in X as (_ & ->). intros ->. reflexivity.
  - assert (NI : forall q a, ~ request j (s2b "initialize") q a).
    { intros q' a' X. apply U in X as (X & _). subst c. vm_compute in E1. discriminate. }
    destruct (bytes_eqb c c_disconnect) eqn:E2.
    + apply bytes_eqb_eq in E2. subst c. cbn. split; [split; [intros _; right; now exists q, a|reflexivity]|]. split; [reflexivity|]. split; [discriminate|intros q' a' X; now apply NI in X].
    + assert (ND : ~ exists q a, request j (s2b "disconnect") q a).
      { intros (q' & a' & X). apply U in X as (X & _). subst c. vm_compute in E2. discriminate. }
      assert (Sm : forall z, ddisc z = ddisc s -> dbg z = dbg s -> (ddisc z = true <-> ddisc s = true \/ exists q a, request j (s2b "disconnect") q a) /\
        ((exists q a, request j (s2b "disconnect") q a) -> dbg z = false) /\ (dbg s = false -> dbg z = true -> exists q a, request j (s2b "initialize") q a) /\
        (forall q a, request j (s2b "initialize") q a -> init_args a = Ret tt -> dbg z = true)).
      { intros z -> ->. split; [split; [now left|intros [X|X]; [exact X|now apply ND in X]]|]. split; [intros X; now apply ND in X|]. split; [congruence|intros q' a' X; now apply NI in X]. }
      destruct (dmem c free_commands); [now apply Sm|]. destruct (dmem c dbg_commands); [|now apply Sm]. destruct (dbg s) eqn:Eb; [|now apply Sm].
      destruct (act c a); now apply Sm.
Qed.
Print Assumptions C35_dap_session.
Example C35_request_case :
  request (JObj [(s2b "command", JStr (s2b "threads")); (s2b "seq", JNum 4); (s2b "type", JStr (s2b "request"))]) (s2b "threads") (JNum 4) JNull.
Proof. unfold request. auto 10. Qed.

(** C41, the debug adapter, exactly: a message runs into undefined behaviour if and only if it is
    an initialize request whose arguments lack one of the three members read (the earlier ones
    being of the right type). *)
Definition lacks (a : json) : Prop :=
  exists l, a = JObj l /\
  (jfind (s2b "linesStartAt1") a = None \/
   exists b, jfind (s2b "linesStartAt1") a = Some (JBool b) /\
   (jfind (s2b "columnsStartAt1") a = None \/
    exists c, jfind (s2b "columnsStartAt1") a = Some (JBool c) /\ jfind (s2b "pathFormat") a = None)).

Lemma init_args_undef : forall a, init_args a = Undef <-> lacks a.
Proof.
  intros a. unfold init_args, lacks. destruct a as [| | | | |l]; cbn [jindex_const bind jfind];
    try (split; [discriminate|intros (? & E & _); discriminate]).
  destruct (assoc (s2b "linesStartAt1") l) as [v1|] eqn:E1; cbn [bind].
  2:{ split; [|reflexivity]. intros _. exists l. auto. }
  destruct v1 as [|b1| | | |]; cbn [get_bool bind];
    try (split; [discriminate|intros (? & _ & [?|(b & ? & _)]); discriminate]).
  destruct (assoc (s2b "columnsStartAt1") l) as [v2|] eqn:E2; cbn [bind].
  2:{ split; [|reflexivity]. intros _. exists l. split; [reflexivity|]. right. exists b1. auto. }
  destruct v2 as [|b2| | | |]; cbn [get_bool bind];
    try (split; [discriminate|intros (? & _ & [?|(b & _ & [?|(c & ? & _)])]); discriminate]).
  destruct (assoc (s2b "pathFormat") l) as [v3|] eqn:E3; cbn [bind].
  - split; [destruct v3; discriminate|]. intros (? & _ & [?|(b & _ & [?|(c & _ & ?)])]); discriminate.
  - split; [|reflexivity]. intros _. exists l. split; [reflexivity|]. right. exists b1. split; [reflexivity|].
    right. exists b2. auto.
Qed.

Theorem C41_dap_exactly : forall act, (forall c a, act c a <> Undef) -> forall j s,
  snd (dreceive act j s) = false <->
  exists a q, jfind (s2b "type") j = Some (JStr (s2b "request")) /\
    jfind (s2b "command") j = Some (JStr (s2b "initialize")) /\ jfind (s2b "seq") j = Some q /\
    jfind (s2b "arguments") j = Some a /\ lacks a.
Proof.
  intros act A j s. unfold dreceive.
  destruct (jfind (s2b "type") j) as [[| | |t| |]|]; cbn [snd];
    try (split; [discriminate|intros (a & q & ? & _); discriminate]).
  destruct (bytes_eqb t (s2b "request")) eqn:T; cbn [snd].
  2:{ split; [discriminate|]. intros (a & q & E & _). injection E as ->. vm_compute in T. discriminate. }
  apply bytes_eqb_eq in T. subst t.
  destruct (jfind (s2b "command") j) as [[| | |c| |]|]; cbn [snd];
    try (split; [discriminate|intros (a & q & _ & ? & _); discriminate]).
  destruct (jfind (s2b "seq") j) as [q|]; cbn [snd].
  2:{ split; [discriminate|intros (a & q & _ & _ & ? & _); discriminate]. }
  unfold dcall. destruct (bytes_eqb c c_initialize) eqn:C.
  - apply bytes_eqb_eq in C. subst c. destruct (jfind (s2b "arguments") j) as [a|].
    + destruct (init_args a) eqn:I; cbn [snd].
      * split; [discriminate|]. intros (a' & q' & _ & _ & _ & E & L). injection E as <-.
        apply init_args_undef in L. congruence.
      * split; [discriminate|]. intros (a' & q' & _ & _ & _ & E & L). injection E as <-.
        apply init_args_undef in L. congruence.
      * split; [|reflexivity]. intros _. exists a, q. apply init_args_undef in I. auto 6.
    + cbn. split; [discriminate|]. intros (a' & q' & _ & _ & _ & E & _). discriminate.
  - assert (N : ~ exists (a q' : json), Some (JStr (s2b "request")) = Some (JStr (s2b "request")) /\
      Some (JStr c) = Some (JStr (s2b "initialize")) /\ Some q = Some q' /\
      jfind (s2b "arguments") j = Some a /\ lacks a).
    { intros (a & q' & _ & E & _). injection E as ->. vm_compute in C. discriminate. }
    split; [|intros H; now apply N in H]. intros H. exfalso.
    destruct (bytes_eqb c c_disconnect); [discriminate|]. destruct (dmem c free_commands); [discriminate|].
    destruct (dmem c dbg_commands); [|discriminate]. destruct (dbg s); [|discriminate].
    destruct (act c _) eqn:E; try discriminate. now apply A in E.
Qed.
Print Assumptions C41_dap_exactly.

(** C41 for the debug adapter is false: initialize without the optional member linesStartAt1
    runs into undefined behaviour. *)
Theorem C41_dap_initialize_refuted : forall act,
  exists j, snd (dreceive act j (mkDap false [] false)) = false.
Proof.
  intros. exists (JObj [(s2b "type", JStr (s2b "request")); (s2b "command", JStr (s2b "initialize"));
                 (s2b "seq", JNum 1); (s2b "arguments", JObj [(s2b "adapterID", JStr (s2b "hlasm"))])]).
  vm_compute. reflexivity.
Qed.
Print Assumptions C41_dap_initialize_refuted.

Definition dreq (n : Z) (c : String.string) (a : json) : json :=
  JObj [(s2b "type", JStr (s2b "request")); (s2b "command", JStr (s2b c)); (s2b "seq", JNum n); (s2b "arguments", a)].
Arguments dreq n%Z_scope c%string_scope a.
Example C35_ex :
  let r s j := fst (dreceive (fun _ _ => Ret tt) j s) in
  responses (dsent (fold_left r
    [dreq 1 "next" JNull;
     dreq 2 "initialize" (JObj [(s2b "linesStartAt1", JBool true); (s2b "columnsStartAt1", JBool true);
                                (s2b "pathFormat", JStr (s2b "path"))]);
     dreq 3 "next" JNull; dreq 4 "disconnect" JNull; dreq 5 "continue" JNull] (mkDap false [] false)))
  = [(JNum 2, s2b "initialize"); (JNum 3, s2b "next"); (JNum 4, s2b "disconnect")].
Proof. vm_compute. reflexivity. Qed.
Example C35_ex_wire : exists x, run seq_step seq0 [Take 0; Write 0; Take 1; Take 0; Write 0; Write 1] = Some x /\
  numbers x = [1; 3; 2]%N.
Proof. eexists. split; reflexivity. Qed.
