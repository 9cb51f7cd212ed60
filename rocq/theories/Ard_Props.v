(** Property C108: AREAD assigns the next record or the time of day. *)
From Coq Require Import String List NArith ZArith Bool Lia.
From Coq Require Import ZifyBool ZifyNat ZifyN.
From Verif Require Import Common Var_Model Var_Spec Var_Proof Var_Run Var_Facts Var_Props Text_Spec.
From Verif Require Import Ard_Model Ard_Spec Ard_Proof.
From Verif Require Lex_Model.
Import ListNotations.
Open Scope list_scope.
Open Scope Z_scope.
Local Ltac Zify.zify_post_hook ::= Z.div_mod_to_equations.

(** AREAD without a variable symbol in front, outside macros or with other operands is one report
    and changes nothing; no record is read. *)
Theorem C108_refused : forall now l ops c o,
  (l = LOther -> process_AREAD now l ops c o = ([E010_label], c, o)) /\
  (l <> LOther -> is_in_macro c = false -> process_AREAD now l ops c o = ([E069], c, o)) /\
  (l <> LOther -> is_in_macro c = true -> (~ exists v, asks ops v) ->
   process_AREAD now l ops c o = ([E070], c, o)).
Proof.
  intros now l ops c o. split; [now intros ->|]. split.
  - intros Hl Hm. destruct l as [n sub|]; [|congruence]. unfold process_AREAD. now rewrite Hm.
  - intros Hl Hm Hv. destruct l as [n sub|]; [|congruence]. unfold process_AREAD. rewrite Hm. cbn [negb].
    destruct (aread_variant ops) as [v|] eqn:E; [|reflexivity].
    exfalso. apply Hv. exists v. now apply asks_iff.
Qed.
Print Assumptions C108_refused.

(** Otherwise it does what SETC does with the text, and it reads a record if and only if it asks
    for one and the assignment is accepted. *)
Definition text_of (now : Z) (v : variant) (o : source) : bytes :=
  match v with reader => fst (aread o) | clockb => time_to_clockb now | clockd => time_to_clockd now end.
Theorem C108_setc : forall now n sub ops v c o, is_in_macro c = true -> asks ops v ->
  let t := text_of now v o in
  let '(ds, c', o') := process_AREAD now (LVar n sub) ops c o in
  ds = List.map Assignment (fst (SETC n sub t c)) /\ c' = snd (SETC n sub t c) /\
  o' = match v, ds with reader, [] => snd (aread o) | _, _ => o end.
Proof.
  intros now n sub ops v c o Hm Hv t. apply asks_iff in Hv. unfold process_AREAD, SETC, process_SET.
  rewrite Hm, Hv. cbn [negb].
  destruct (test_symbol_for_assignment TC n sub c) as [d|[index symbol]].
  - cbn. repeat split. now destruct v.
  - destruct symbol as [a|].
    + unfold t, text_of. destruct v; [destruct (aread o) as [x o'] eqn:E| |]; repeat split.
    + destruct (create_local_variable TC n (index =? -1) c) as [a c'].
      unfold t, text_of. destruct v; [destruct (aread o) as [x o'] eqn:E| |]; repeat split.
Qed.
Print Assumptions C108_setc.

(** So the variable has the text afterwards and every other one what it had. *)
Theorem C108_assigned : forall now n sub ops v c o c' o', reachable c ->
  is_in_macro c = true -> asks ops v -> process_AREAD now (LVar n sub) ops c o = ([], c', o') ->
  (forall i, In i sub -> i + 1 < 2 ^ 31) ->
  get_var_sym_value n sub c' = Value (VC (text_of now v o)) /\
  forall m sub', m <> n -> get_var_sym_value m sub' c' = get_var_sym_value m sub' c.
Proof.
  intros now n sub ops v c o c' o' Hr Hm Hv E Hs.
  pose proof (C108_setc now n sub ops v c o Hm Hv) as H. cbn zeta in H. rewrite E in H.
  destruct H as (Hd & Hc & _). symmetry in Hd. apply map_eq_nil in Hd. subst c'. unfold SETC in *.
  split.
  - destruct sub as [|i [|j r]].
    + exact (C28_scalar c TC n [VC (text_of now v o)] (VC []) Hr Hd).
    + assert (Hi : i + Z.of_nat (length [VC (text_of now v o)]) < 2 ^ 31)
        by (cbn [length]; specialize (Hs i (or_introl eq_refl)); lia).
      destruct (C28_elements c TC n i [VC (text_of now v o)] Hr Hi Hd) as [H _].
      specialize (H 0%nat _ eq_refl). now replace (i + Z.of_nat 0) with i in H by lia.
    + exfalso. unfold process_SET, test_symbol_for_assignment in Hd.
      destruct (get_var_sym n c) as [[a|]|]; discriminate.
  - intros m sub' Hne.
    assert (Hsm : small (SET TC n sub [Expr (Ret (VC (text_of now v o)))])).
    { cbn. apply Forall_forall. intros i Hi. specialize (Hs i Hi). cbn [length]. lia. }
    exact (proj1 (C28_others c TC n sub _ m sub' Hr Hsm Hne)).
Qed.
Print Assumptions C108_assigned.

(** What is read: the line in 80 bytes, nothing at the end of the source only; it is the end of
    open code when nothing is left. *)
Theorem C108_record : forall o,
  let l := fst (Lex_Model.aread (lex o)) in
  (l = [] -> fst (aread o) = []) /\ (l <> [] -> card (flat_map encode l) (fst (aread o))) /\
  lex (snd (aread o)) = snd (Lex_Model.aread (lex o)) /\
  finished_flag (snd (aread o)) = (finished_flag o || Lex_Model.eof_generated (lex (snd (aread o))))%bool /\
  input_tokens_invalidated (snd (aread o)) = true.
Proof.
  intros o l. unfold l, aread. destruct (Lex_Model.aread (lex o)) as [x s]. cbn [fst snd].
  split; [now intros ->|]. split; [|cbn; repeat split].
  - intros Hx. destruct (flat_map encode x) eqn:E; [apply (proj1 (flat_encode_nil x)) in E; elim Hx; exact E|].
    rewrite <- E. apply resize_card.
  - destruct (Lex_Model.eof_generated s), (finished_flag o); reflexivity.
Qed.
Print Assumptions C108_record.

(** The record is a text exactly if no character is cut in two. *)
Theorem C108_text : forall o, let l := fst (Lex_Model.aread (lex o)) in
  Forall scalar_value l ->
  strict_utf8 (fst (aread o)) <->
  (length (flat_map encode l) <= 80)%nat \/
  exists a b, l = a ++ b /\ length (flat_map encode a) = 80%nat.
Proof.
  intros o l F. unfold l in *. unfold aread. destruct (Lex_Model.aread (lex o)) as [x s]. cbn [fst] in *.
  destruct (flat_map encode x) as [|b0 r0] eqn:E0.
  - split; [intros _; left; cbn; lia|intros _; constructor].
  - rewrite <- E0. clear b0 r0 E0. unfold resize80. split.
    + intros H. destruct (le_lt_dec (length (flat_map encode x)) 80) as [Hl|Hl]; [now left|]. right.
      replace (80 - length (flat_map encode x))%nat with 0%nat in H by lia. cbn [repeat] in H.
      rewrite app_nil_r in H.
      destruct (strict_prefix _ H x (skipn 80 (flat_map encode x)) F) as (a & b & -> & Ea).
      * now rewrite firstn_skipn.
      * exists a, b. split; [reflexivity|]. rewrite Ea, firstn_length. lia.
    + intros [Hl|(a & b & -> & Ha)].
      * rewrite firstn_all2 by exact Hl. apply strict_app; [now apply strict_text|apply strict_blanks].
      * apply Forall_app in F. destruct F as [Fa Fb]. rewrite flat_map_app.
        assert (E : forall r, firstn 80 (flat_map encode a ++ r) = flat_map encode a).
        { intros r. rewrite <- Ha at 1. rewrite firstn_app, Nat.sub_diag, firstn_all. cbn [firstn]. apply app_nil_r. }
        rewrite E. apply strict_app; [now apply strict_text|apply strict_blanks].
Qed.
Print Assumptions C108_text.

(** The time of day, also in a leap second: hundredths of a second in eight figures, or hours,
    minutes, seconds and hundredths in two figures each. *)
Theorem C108_clockb : forall d, 0 <= d < day + 1000000000 -> figure 8 (time_to_clockb d) (hundredths d).
Proof.
  intros d H. unfold time_to_clockb, hundredths. replace (d / 10000000) with (d / 1000000 / 10) by lia.
  apply figure_pad; [lia|]. unfold day in H. change (10 ^ Z.of_nat 8) with 100000000. lia.
Qed.
Print Assumptions C108_clockb.
Theorem C108_clockd : forall d, 0 <= d < day + 1000000000 ->
  exists h m s t hh mm ss tt, time_to_clockd d = hh ++ mm ++ ss ++ tt /\
    figure 2 hh h /\ figure 2 mm m /\ figure 2 ss s /\ figure 2 tt t /\
    0 <= m < 60 /\ 0 <= s < 60 /\ 0 <= t < 100 /\ hundredths d = ((h * 60 + m) * 60 + s) * 100 + t.
Proof.
  intros d H. unfold day in H. unfold hundredths.
  exists (d / 3600000000000), (d / 60000000000 mod 60), (d / 1000000000 mod 60), (d / 1000000 mod 1000 / 10).
  do 4 eexists. split; [unfold time_to_clockd; reflexivity|].
  assert (R : 0 <= d / 3600000000000 < 100 /\ 0 <= d / 60000000000 mod 60 < 60 /\
    0 <= d / 1000000000 mod 60 < 60 /\ 0 <= d / 1000000 mod 1000 / 10 < 100) by lia.
  destruct R as (R1 & R2 & R3 & R4).
  split; [apply figure_pad; [lia|change (10 ^ Z.of_nat 2) with 100; lia]|].
  split; [apply figure_pad; [lia|change (10 ^ Z.of_nat 2) with 100; lia]|].
  split; [apply figure_pad; [lia|change (10 ^ Z.of_nat 2) with 100; lia]|].
  split; [apply figure_pad; [lia|change (10 ^ Z.of_nat 2) with 100; lia]|].
  repeat split; lia.
Qed.
Print Assumptions C108_clockd.

(** ** Concrete cases *)
Example half_past : time_to_clockd 34205678000000 = s2b "09300567" /\ time_to_clockb 34205678000000 = s2b "03420567".
Proof. split; vm_compute; reflexivity. Qed.
Definition start_data : start_info := {| datc := []; date := []; time := []; sysparm := [] |}.
Definition in_macro : ctx :=
  run (Var_Model.initial start_data) [CALL [s2b "P"] {| sect := []; styp := None; loc := None |}].
Definition source_of (l : list N) : source := mkSource (Lex_Model.initial l) false false.
Example reads_a_line :
  reachable in_macro /\ is_in_macro in_macro = true /\
  exists c' o', process_AREAD 0 (LVar (s2b "REC") []) [] in_macro (source_of (s2b "ABC" ++ [10%N] ++ s2b "D" ++ [10%N]))
    = ([], c', o') /\
  get_var_sym_value (s2b "REC") [] c' = Value (VC (s2b "ABC" ++ repeat 32%N 77)) /\
  fst (aread o') = s2b "D" ++ repeat 32%N 79.
Proof.
  split.
  - exists start_data, [CALL [s2b "P"] {| sect := []; styp := None; loc := None |}].
    split; [repeat constructor|]. split; [cbn; lia|reflexivity].
  - split; [reflexivity|].
    eexists. eexists. split; [vm_compute; reflexivity|]. split; vm_compute; reflexivity.
Qed.

(** ** Finding *)
(** A line in which the eightieth byte is in the middle of a character: what AREAD assigns is no
    text. *)
Lemma strict_ascii b t : (b < 128)%N -> strict_utf8 (b :: t) -> strict_utf8 t.
Proof.
  intros Hb H. inversion H as [|c r Hc Hr E]; subst.
  destruct (strict_same [b] c t r (S1 b Hb) Hc (eq_sym E)) as [_ ->]. exact Hr.
Qed.
Theorem C108_cut_refuted : exists o, Forall scalar_value (fst (Lex_Model.aread (lex o))) /\
  length (fst (Lex_Model.aread (lex o))) = 80%nat /\ ~ strict_utf8 (fst (aread o)).
Proof.
  exists (source_of (repeat 65%N 79 ++ [233; 10]%N)). split; [|split].
  - apply Forall_forall. intros x Hx. unfold scalar_value. vm_compute in Hx.
    repeat (destruct Hx as [<-|Hx]; [lia|]). destruct Hx.
  - vm_compute. reflexivity.
  - assert (E : fst (aread (source_of (repeat 65%N 79 ++ [233; 10]%N))) = repeat 65%N 79 ++ [195%N])
      by (vm_compute; reflexivity).
    rewrite E. clear E. generalize 79%nat. intros k H. induction k as [|k IH].
    + cbn [repeat app] in H. inversion H as [|c r Hc Hr E]; subst.
      destruct (strict_length c Hc) as (b & q & -> & L). injection E as -> E.
      apply app_eq_nil in E. destruct E as [-> _]. discriminate L.
    + apply IH. cbn [repeat app] in H. exact (strict_ascii 65%N _ eq_refl H).
Qed.
Print Assumptions C108_cut_refuted.
