(** C120: programs of conditional assembly, written in lines of characters, do what they say. *)
From Coq Require Import String Ascii List NArith ZArith Bool Arith Lia ZifyBool ZifyNat ZifyN.
From Verif Require Import Common.
From Verif Require Fld_Spec Ca_Spec Exp_Model Var_Model Var_Spec Var_Proof Var_Run Br_Model Br_Proof Cal_Props.
From Verif Require Import Caf_Spec Cal_Spec Prg_Model Prg_Spec Prg_Proof Prg_Run.
Import ListNotations.
Open Scope list_scope.
Notation length := List.length.
Notation big := Fld_Spec.big.
Open Scope nat_scope.

(** The run of the program, and the run that is described. *)
Section Program.
Variables (wide : N -> bool) (abs : bytes -> option Z) (i : Var_Model.start_info) (prog : list sline) (srcs : list source).
Hypothesis Hw : Forall2 line_written prog srcs.
Hypothesis Hd : distinct prog.
Notation after k := (run wide abs k srcs (Var_Model.initial i)).

Lemma ran_inv : forall k j c, ran abs prog (Var_Spec.start i, 0) k j c -> j <= 4096 ->
  inv wide abs srcs (Var_Model.initial i) k j (fst c) (snd c) (after k).
Proof.
  intros k j c H. induction H as [|k j (w & pc) b (w' & pc') H IH D]; intros Hj.
  - split; try reflexivity.
    + split; [reflexivity|constructor|]. intros n p. discriminate.
    + cbn. apply Var_Run.start_ok.
  - assert (Hj' : j <= 4096) by (destruct b; lia). specialize (IH Hj'). cbn [fst snd] in *.
    exact (proj1 (line_done wide abs prog srcs Hw Hd _ _ _ _ _ _ _ _ _ IH Hj' D)).
Qed.

(** After any number of lines, with at most 4096 jumps, control is at the line and the variables have the values
    described; only jumps are in the log. *)
Theorem run_as_written : forall k j w pc, ran abs prog (Var_Spec.start i, 0) k j (w, pc) -> j <= 4096 ->
  position (after k) = pc /\
  (forall n zs, Var_Model.get_var_sym_value n zs (data (after k)) = Var_Spec.reads w n zs) /\
  Br_Model.finished (after k) = false /\
  Forall (fun e => exists d a t p, e = Br_Model.Jump d a t p) (Br_Model.log (after k)).
Proof.
  intros k j w pc H Hj. pose proof (ran_inv k j _ H Hj) as I. cbn [fst snd] in I. split; [apply I|]. split; [|split; [apply I|]].
  - intros n zs. apply Var_Proof.reads_ok. apply I.
  - eapply Forall_impl; [|apply (t_log _ _ _ (i_tidy _ _ _ _ _ _ _ _ _ I))]. intros e Je. destruct e; try destruct Je. eauto.
Qed.
Theorem run_silent : forall k j c b c', ran abs prog (Var_Spec.start i, 0) k j c -> j <= 4096 -> does abs prog c b c' ->
  announced wide abs srcs (after k) = Some [].
Proof.
  intros k j (w & pc) b (w' & pc') H Hj D. pose proof (ran_inv k j _ H Hj) as I.
  exact (proj2 (line_done wide abs prog srcs Hw Hd _ _ _ _ _ _ _ _ _ I Hj D)).
Qed.
Theorem run_ends : forall k j w, ran abs prog (Var_Spec.start i, 0) k j (w, length prog) -> j <= 4096 ->
  next_step (after k) = None /\ forall k', k <= k' -> after k' = after k.
Proof.
  intros k j w H Hj. pose proof (ran_inv k j _ H Hj) as I. cbn [fst snd] in I.
  assert (E : next_step (after k) = None).
  { unfold next_step, Br_Model.step. rewrite (i_finished _ _ _ _ _ _ _ _ _ I). unfold Br_Model.current.
    rewrite (t_stack _ _ _ (i_tidy _ _ _ _ _ _ _ _ _ I)), (i_body _ _ _ _ _ _ _ _ _ I), (i_next _ _ _ _ _ _ _ _ _ I).
    replace (nth_error (map (statement wide abs) srcs) (length prog)) with (@None (Br_Model.stmt Var_Model.ctx)); [reflexivity|].
    symmetry. apply nth_error_None. rewrite map_length. rewrite (Cal_Props.Forall2_length _ _ _ _ _ Hw). lia. }
  split; [exact E|]. intros k' L. unfold next_step in E. induction L as [|m L IH]; [reflexivity|].
  unfold run in *. rewrite Br_Proof.steps_S, IH, E. reflexivity.
Qed.
Theorem run_reported : forall k j c, ran abs prog (Var_Spec.start i, 0) k j c -> j <= 4096 -> wrong abs prog c ->
  announced wide abs srcs (after k) <> Some [].
Proof.
  intros k j (w & pc) H Hj X. pose proof (ran_inv k j _ H Hj) as I. exact (line_wrong wide abs prog srcs Hw _ _ _ _ _ _ I X).
Qed.
Theorem run_lost : forall k j w pc t, ran abs prog (Var_Spec.start i, 0) k j (w, pc) -> j <= 4096 -> heads abs prog (w, pc) t ->
  (forall p, ~ at_mark prog t p) ->
  position (after (S k)) = S pc /\ data (after (S k)) = data (after k) /\
  exists a r, Br_Model.log (after (S k)) = Br_Model.Missing 0 a t :: r.
Proof.
  intros k j w pc t H Hj X N. pose proof (ran_inv k j _ H Hj) as I. cbn [fst snd] in I.
  destruct (line_heads wide abs prog srcs Hw Hd _ _ _ _ _ _ _ I Hj X) as (s & Es & Ho & Ex).
  destruct (lost_step wide abs prog srcs Hw Hd _ _ _ _ _ _ s I Hj Es t Ho Ex N) as (A & B & C).
  split; [exact B|]. split; [exact A|exact C].
Qed.
End Program.

Theorem C120_run : forall wide abs i prog srcs k j w pc, Forall2 line_written prog srcs -> distinct prog ->
  ran abs prog (Var_Spec.start i, 0) k j (w, pc) -> j <= 4096 ->
  let st := run wide abs k srcs (Var_Model.initial i) in
  position st = pc /\
  (forall n zs, Var_Model.get_var_sym_value n zs (data st) = Var_Spec.reads w n zs) /\
  Br_Model.finished st = false /\
  Forall (fun e => exists d a t p, e = Br_Model.Jump d a t p) (Br_Model.log st).
Proof. intros. eapply run_as_written; eassumption. Qed.
Print Assumptions C120_run.

(** No line of such a run reports anything. *)
Theorem C120_silent : forall wide abs i prog srcs k j c b c', Forall2 line_written prog srcs -> distinct prog ->
  ran abs prog (Var_Spec.start i, 0) k j c -> j <= 4096 -> does abs prog c b c' ->
  announced wide abs srcs (run wide abs k srcs (Var_Model.initial i)) = Some [].
Proof. intros. eapply run_silent; eassumption. Qed.
Print Assumptions C120_silent.

(** Behind the last line it is over. *)
Theorem C120_end : forall wide abs i prog srcs k j w, Forall2 line_written prog srcs -> distinct prog ->
  ran abs prog (Var_Spec.start i, 0) k j (w, length prog) -> j <= 4096 ->
  next_step (run wide abs k srcs (Var_Model.initial i)) = None /\
  forall k', k <= k' -> run wide abs k' srcs (Var_Model.initial i) = run wide abs k srcs (Var_Model.initial i).
Proof. intros. eapply run_ends; eassumption. Qed.
Print Assumptions C120_end.

(** A line in error does not go by in silence. *)
Theorem C120_reported : forall wide abs i prog srcs k j c, Forall2 line_written prog srcs -> distinct prog ->
  ran abs prog (Var_Spec.start i, 0) k j c -> j <= 4096 -> wrong abs prog c ->
  announced wide abs srcs (run wide abs k srcs (Var_Model.initial i)) <> Some [].
Proof. intros. eapply run_reported; eassumption. Qed.
Print Assumptions C120_reported.

(** A jump to a mark that no line has is reported, and the next line follows. *)
Theorem C120_lost : forall wide abs i prog srcs k j w pc t, Forall2 line_written prog srcs -> distinct prog ->
  ran abs prog (Var_Spec.start i, 0) k j (w, pc) -> j <= 4096 -> heads abs prog (w, pc) t -> (forall p, ~ at_mark prog t p) ->
  let st := run wide abs k srcs (Var_Model.initial i) in let st' := run wide abs (S k) srcs (Var_Model.initial i) in
  position st' = S pc /\ data st' = data st /\ exists a r, Br_Model.log st' = Br_Model.Missing 0 a t :: r.
Proof. intros. eapply run_lost; eassumption. Qed.
Print Assumptions C120_lost.

(** ** What is not so *)
Definition i0 : Var_Model.start_info := {| Var_Model.datc := []; Var_Model.date := []; Var_Model.time := []; Var_Model.sysparm := [] |}.
Definition src (n : string) (c : opcode) (o : string) : source := Src (s2b n) c (s2b o) 14.
Definition value_at (k : nat) (srcs : list source) (n : string) (zs : list Z) : Var_Model.read_result :=
  Var_Model.get_var_sym_value (s2b n) zs (data (run (fun _ => false) (fun _ => None) k srcs (Var_Model.initial i0))).
(** A variable that does not exist is an error, but not in its own first assignment: it is created before. *)
Theorem C120_created_refuted :
  let e := WBinary Add (WVariable (s2b "A") []) (WNumber (s2b "1")) in
  worth (seen (fun _ => None) (Var_Spec.start i0)) e None /\
  announced (fun _ => false) (fun _ => None) [src "&A" SETA " &A+1"] (run (fun _ => false) (fun _ => None) 0 [src "&A" SETA " &A+1"] (Var_Model.initial i0)) = Some [] /\
  value_at 1 [src "&A" SETA " &A+1"] "A" [] = Var_Model.Value (Var_Model.VA 1) /\
  announced (fun _ => false) (fun _ => None) [src "&B" SETA " &A+1"] (run (fun _ => false) (fun _ => None) 0 [src "&B" SETA " &A+1"] (Var_Model.initial i0)) <> Some [].
Proof.
  cbv zeta. split; [|split; [|split]].
  - eapply w_binary_left with (b := Some 1%Z).
    + apply (w_unknown _ (s2b "A") [] [] 10); [constructor|vm_compute; reflexivity].
    + apply (w_number _ (s2b "1") [1%Z]); [repeat constructor; cbv; discriminate|cbv; reflexivity|cbn; lia].
  - vm_compute. reflexivity.
  - vm_compute. reflexivity.
  - vm_compute. discriminate.
Qed.
Print Assumptions C120_created_refuted.
(** The operand of a SETA in error still assigns: the variable is 0 afterwards, not what it was. *)
Theorem C120_overwritten_refuted :
  let p := [src "&A" SETA " 5"; src "&A" SETA " &A*2000000000"] in
  value_at 1 p "A" [] = Var_Model.Value (Var_Model.VA 5) /\ value_at 2 p "A" [] = Var_Model.Value (Var_Model.VA 0).
Proof. vm_compute. split; reflexivity. Qed.
Print Assumptions C120_overwritten_refuted.

(** ** Cases *)
Definition sums : list source :=
  [src "&N" SETA " 5"; src "&S" SETA " 0"; src ".LOOP" AIF " (&N LE 0).DONE   until it is 0";
   src "&S" SETA " &S+&N"; src "&T(&N)" SETA " &S"; src "&n" SETA "   &N-1"; src "" AGO " .loop"; src ".done" ANOP "";
   src "" AGO " (&T(5)-3).A,.B"; src ".A" ANOP ""; src "&S" SETA " 0"; src ".B" ANOP ""].
Example C120_case_sums : let st := run (fun _ => false) (fun _ => None) 60 sums (Var_Model.initial i0) in
  position st = 12 /\ next_step st = None /\ value_at 60 sums "S" [] = Var_Model.Value (Var_Model.VA 15) /\
  value_at 60 sums "T" [3%Z] = Var_Model.Value (Var_Model.VA 12) /\ value_at 60 sums "N" [] = Var_Model.Value (Var_Model.VA 0).
Proof. vm_compute. repeat split. Qed.

Definition vN : wexpr := WVariable (s2b "N") [].
Definition num (n : string) : wexpr := WNumber (s2b n).
Definition small_prog : list sline :=
  [Line None (Number (s2b "N") [] (num "1")); Line (Some (s2b "L")) (Test [(Compare Equal vN (num "0"), s2b "D")]);
   Line None (Number (s2b "N") [] (WBinary Sub vN (num "1"))); Line None (Go (s2b "l")); Line (Some (s2b "d")) Nothing].
Definition small_srcs : list source :=
  [src "&N" SETA " 1"; src ".L" AIF " (&N EQ 0).D"; src "&N" SETA " &N-1"; src "" AGO " .l"; src ".d" ANOP ""].
Ltac sym := cbn [Fld_Spec.symbol]; split; [split; [|repeat (apply Forall_cons || apply Forall_nil)]|cbn; lia]; unfold Fld_Spec.letter, Fld_Spec.national, Fld_Spec.digit; cbn; lia.
Lemma vN_regular : regular vN.
Proof. split; [sym|exact I]. Qed.
Lemma num_regular : forall n, s2b n <> [] -> Forall Fld_Spec.digit (s2b n) -> regular (num n).
Proof. intros n A B. split; assumption. Qed.
Ltac nreg := apply num_regular; [discriminate|repeat (apply Forall_cons || apply Forall_nil); unfold Fld_Spec.digit; cbn; lia].
Ltac fld k r := split; [cbn; lia|split; [cbn; lia|exists k, r; split; [exact I|reflexivity]]].
Example C120_case_written : Forall2 line_written small_prog small_srcs.
Proof.
  constructor; [|constructor; [|constructor; [|constructor; [|constructor; [|constructor]]]]].
  - split; [reflexivity|]. split; [reflexivity|]. split; [split; [reflexivity|split; [apply vN_regular|cbn; lia]]|]. split; [nreg|]. fld 0 (@nil N).
  - split; [split; [sym|reflexivity]|]. split; [reflexivity|]. split; [discriminate|]. split.
    { constructor; [|constructor]. split; [|sym]. split; split; [apply vN_regular|exact I|nreg|exact I]. }
    exists [s2b "(&N EQ 0).D"]. split; [|fld 0 (@nil N)]. constructor; [|constructor]. exists (s2b "(&N EQ 0)"). split; [|reflexivity].
    apply (t_paren _ (s2b "&N EQ 0") [] []); [exists 0; reflexivity|exists 0; reflexivity|].
    apply (t_compare Equal vN (num "0") (s2b " ") (s2b "EQ") (s2b " ")); [exists 0; reflexivity|exists 0; reflexivity|reflexivity].
  - split; [reflexivity|]. split; [reflexivity|]. split; [split; [reflexivity|split; [apply vN_regular|cbn; lia]]|].
    split; [split; [cbn; lia|split; [apply vN_regular|nreg]]|]. fld 0 (@nil N).
  - split; [reflexivity|]. split; [reflexivity|]. split; [sym|]. fld 0 (@nil N).
  - split; [split; [sym|reflexivity]|reflexivity].
Qed.
Example C120_case_distinct : distinct small_prog.
Proof.
  intros a b l l' n n' A B M M' E.
  assert (Ma : a = 1 /\ n = s2b "L" \/ a = 4 /\ n = s2b "d").
  { destruct a as [|[|[|[|[|a]]]]]; cbn in A; [| | | | |destruct a; discriminate]; injection A as <-; cbn in M; try discriminate; injection M as <-; auto. }
  assert (Mb : b = 1 /\ n' = s2b "L" \/ b = 4 /\ n' = s2b "d").
  { destruct b as [|[|[|[|[|b]]]]]; cbn in B; [| | | | |destruct b; discriminate]; injection B as <-; cbn in M'; try discriminate; injection M' as <-; auto. }
  destruct Ma as [(-> & ->)|(-> & ->)], Mb as [(-> & ->)|(-> & ->)]; try reflexivity; discriminate.
Qed.
Definition none_abs : bytes -> option Z := fun _ => None.
Lemma digit_worth : forall w n d, Forall2 Ca_Spec.dec_digit (s2b n) [d] -> (0 <= d < 10)%Z -> worth w (num n) (Some d).
Proof.
  intros w n d D L. pose proof (w_number w (s2b n) [d] D) as Q. assert (V : Ca_Spec.numeral 10 [d] = d) by (unfold Ca_Spec.numeral; cbn; lia). rewrite V in Q.
  apply Q; [lia|]. inversion D as [|? ? ? ? ? D']; subst. inversion D'; subst. cbn. lia.
Qed.
Ltac dig := apply digit_worth; [repeat constructor; cbv; discriminate|lia].
Lemma vN_worth : forall w z, Var_Spec.reads w (s2b "N") [] = Var_Model.Value (Var_Model.VA z) -> worth (seen none_abs w) vN (Some z).
Proof. intros w z H. apply (w_variable _ _ [] [] (Exp_Model.VNum z)); [constructor| |constructor]. cbn [Exp_Model.variable seen]. change (map big (s2b "N")) with (s2b "N"). now rewrite H. Qed.
Definition w1 : Var_Spec.world := snd (Var_Spec.assigns Var_Model.TA (s2b "N") [] [Var_Model.Expr (Var_Model.Ret (Var_Model.VA 1))] (Var_Spec.start i0)).
Definition w2 : Var_Spec.world := snd (Var_Spec.assigns Var_Model.TA (s2b "N") [] [Var_Model.Expr (Var_Model.Ret (Var_Model.VA 0))] w1).
Lemma mark_L : at_mark small_prog (s2b "L") 1.
Proof.
  split; [eexists; eexists; split; [reflexivity|split; reflexivity]|]. intros j l n Lj H M E.
  destruct j as [|j]; [cbn in H; injection H as <-; discriminate|lia].
Qed.
Lemma mark_D : at_mark small_prog (s2b "D") 4.
Proof.
  split; [eexists; eexists; split; [reflexivity|split; reflexivity]|]. intros j l n Lj H M E.
  destruct j as [|[|[|[|j]]]]; cbn in H; [| | | |lia]; injection H as <-; cbn in M; try discriminate; injection M as <-; discriminate.
Qed.
Example C120_case_ran : ran none_abs small_prog (Var_Spec.start i0, 0) 6 2 (w2, 5) /\ Var_Spec.reads w2 (s2b "N") [] = Var_Model.Value (Var_Model.VA 0).
Proof.
  split; [|reflexivity].
  assert (R1 : ran none_abs small_prog (Var_Spec.start i0, 0) 1 0 (w1, 1)).
  { eapply (ran_more _ _ _ 0 0 _ false); [constructor|]. eapply (d_number _ _ _ _ 0 _ (s2b "N") [] (num "1") [] 1%Z); [reflexivity|reflexivity|apply o_none|dig|].
    split; [constructor|]. vm_compute. reflexivity. }
  assert (R2 : ran none_abs small_prog (Var_Spec.start i0, 0) 2 0 (w1, 2)).
  { eapply (ran_more _ _ _ 1 0 _ false); [exact R1|]. eapply (d_stay _ _ _ 1 _ _ [Some false]); [reflexivity|reflexivity| |reflexivity].
    constructor; [|constructor]. apply (h_compare _ Equal vN (num "0") 1 0); [apply vN_worth; reflexivity|dig|lia]. }
  assert (R3 : ran none_abs small_prog (Var_Spec.start i0, 0) 3 0 (w2, 3)).
  { eapply (ran_more _ _ _ 2 0 _ false); [exact R2|].
    eapply (d_number _ _ _ _ 2 _ (s2b "N") [] (WBinary Sub vN (num "1")) [] 0%Z); [reflexivity|reflexivity|apply o_none| |].
    - apply (w_binary _ Sub _ _ 1 1); [apply vN_worth; reflexivity|dig].
    - split; [constructor|]. vm_compute. reflexivity. }
  assert (R4 : ran none_abs small_prog (Var_Spec.start i0, 0) 4 1 (w2, 1)).
  { eapply (ran_more _ _ _ 3 0 _ true); [exact R3|]. eapply (d_go _ _ _ 3 _ (s2b "l") 1); [reflexivity|reflexivity|apply mark_L]. }
  assert (R5 : ran none_abs small_prog (Var_Spec.start i0, 0) 5 2 (w2, 4)).
  { eapply (ran_more _ _ _ 4 1 _ true); [exact R4|]. eapply (d_jump _ _ _ 1 _ _ [Some true] (s2b "D") 4); [reflexivity|reflexivity| |reflexivity|apply mark_D].
    constructor; [|constructor]. apply (h_compare _ Equal vN (num "0") 0 0); [apply vN_worth; reflexivity|dig|lia]. }
  eapply (ran_more _ _ _ 5 2 _ false); [exact R5|]. eapply d_nothing; reflexivity.
Qed.
Example C120_case_wrong : exists w, ran none_abs [Line None (Choose (WVariable (s2b "Q") []) (s2b "L") [])] (Var_Spec.start i0, 0) 0 0 (w, 0) /\
  wrong none_abs [Line None (Choose (WVariable (s2b "Q") []) (s2b "L") [])] (w, 0).
Proof.
  eexists. split; [constructor|]. eapply x_choose; [reflexivity|reflexivity|]. apply (w_unknown _ (s2b "Q") [] [] 10); [constructor|reflexivity].
Qed.
