(** C32: OPSYN and the operation codes. *)
From Coq Require Import List NArith Bool.
From Verif Require Import Common Var_Proof Ops_Model Ops_Spec Ops_Proof.
Import ListNotations.

(** The program's history decides what each mnemonic stands for. *)
Theorem C32_history : forall instruction_map library h,
  macros_first instruction_map library h -> Forall named h ->
  exists c, run instruction_map library initial (rev h) = Some c
  /\ forall n, shows (get_operation_code instruction_map c n) (stands instruction_map library h n).
Proof.
  intros im lib h H1 H2. destruct (follows im lib h H1 H2) as (c & Hr & Hs & _). eauto.
Qed.
Print Assumptions C32_history.

(** A statement does what its mnemonic stands for; one that stands for nothing is a library macro
    or undefined. *)
Theorem C32_runs : forall instruction_map library h n c,
  macros_first instruction_map library h -> Forall named h ->
  run instruction_map library initial (rev h) = Some c -> n <> [] ->
  match stands instruction_map library h n with
  | Some o => fst (run_statement instruction_map library c n) = c
              /\ does (snd (run_statement instruction_map library c n)) o
  | None => match library n with
            | Some (Some d) => snd (run_statement instruction_map library c n) = Calls d
            | Some None => True
            | None => run_statement instruction_map library c n = (c, Undefined)
            end
  end.
Proof.
  intros im lib h n c H1 H2 Hr Hn. destruct (follows im lib h H1 H2) as (c' & Hr' & Hs & _).
  rewrite Hr in Hr'. injection Hr' as <-. specialize (Hs n). destruct (stands im lib h n) as [o|].
  - rewrite (run_shows im lib c n o Hs). split; [reflexivity|]. destruct o; reflexivity.
  - rewrite (run_none im lib c n Hs Hn). destruct (lib n) as [[d|]|]; [reflexivity|exact Logic.I|reflexivity].
Qed.
Print Assumptions C32_runs.

(** No history makes OPSYN throw, and none makes a statement fail to find its operation. *)
Theorem C32_total : forall instruction_map library l,
  exists c, run instruction_map library initial l = Some c
  /\ forall n, snd (run_statement instruction_map library c n) <> Fails.
Proof.
  intros im lib l. destruct (run_ok im lib l initial ok_initial) as (c & Hr & Hok). exists c. split; [exact Hr|].
  intros n. pose proof (goc_whole im c n Hok) as W. unfold whole in W. unfold run_statement.
  destruct (opcode_detail (get_operation_code im c n)) as [|k|d] eqn:E.
  - rewrite W. cbn [opcode no_opcode]. destruct n as [|x n]; [discriminate|]. destruct (lib (x :: n)) as [[d|]|]; [| |discriminate].
    + cbn [snd add_macro macros]. rewrite find_assign, bytes_eqb_refl.
      unfold get_macro_definition. cbn [opcode_mnemo macros add_macro]. rewrite find_assign, bytes_eqb_refl.
      destruct (find (x :: n) (opcode_mnemo c)) as [[? []]|]; discriminate.
    + cbn [snd]. unfold get_macro_definition. destruct (find (x :: n) (macros c)); [|discriminate].
      destruct (find (x :: n) (opcode_mnemo c)) as [[? []]|]; discriminate.
  - destruct W as (m & ->). discriminate.
  - rewrite (macro_found im c n d E). discriminate.
Qed.
Print Assumptions C32_total.

(** An accepted OPSYN gives its label what the operand stands for at that moment; whatever
    happens later, short of an OPSYN for the same label, it keeps it. *)
Theorem C32_given : forall instruction_map library c label s l c1,
  label <> [] -> s <> [] -> is_some (get_operation_code instruction_map c s) = true ->
  (forall e, In e l -> match e with Opsyn m _ => m <> label | _ => True end) ->
  run instruction_map library c (Opsyn label (Symbol s) :: l) = Some c1 ->
  get_operation_code instruction_map c1 label = get_operation_code instruction_map c s.
Proof.
  intros im lib c label s l c1 Hl Hs Hi Hx. cbn [run step].
  destruct (process_OPSYN_effect im c label (Symbol s)) as (c2 & e & -> & E).
  destruct E as [?|s' ? [= <-] ? Es|s' ? [= <-] ? Es|? Eo Es|? Eo Es]; try (cbn in *; congruence).
  intros R. unfold get_operation_code at 1.
  erewrite (opsyn_kept im lib l label Hx _ c1 (get_operation_code im c s)); [reflexivity| |exact R].
  cbn [opcode_mnemo]. rewrite find_assign, bytes_eqb_refl. reflexivity.
Qed.
Print Assumptions C32_given.

(** A deleted mnemonic stands for nothing until it is given an operation again. *)
Theorem C32_deleted : forall instruction_map library c label l c1,
  label <> [] ->
  (forall e, In e l -> match e with Opsyn m _ => m <> label | _ => True end) ->
  is_some (get_operation_code instruction_map c label) = true ->
  run instruction_map library c (Opsyn label Omitted :: l) = Some c1 ->
  get_operation_code instruction_map c1 label = no_opcode
  /\ (library label = None -> run_statement instruction_map library c1 label = (c1, Undefined)).
Proof.
  intros im lib c label l c1 Hl Hx Hi. cbn [run step].
  destruct (process_OPSYN_effect im c label Omitted) as (c2 & e & -> & E).
  destruct E as [?|s' ? ? ? Es|s' ? ? ? Es|? Eo Es|? Eo Es]; try (cbn in *; congruence).
  intros R. assert (G : get_operation_code im c1 label = no_opcode).
  { unfold get_operation_code. erewrite (opsyn_kept im lib l label Hx _ c1 no_opcode); [reflexivity| |exact R].
    cbn [opcode_mnemo]. rewrite find_assign, bytes_eqb_refl. reflexivity. }
  split; [exact G|]. intros HL. rewrite (run_none im lib c1 label G Hl), HL. reflexivity.
Qed.
Print Assumptions C32_deleted.

(** OPSYN leaves all other mnemonics alone, and a rejected OPSYN leaves all of them alone. *)
Theorem C32_others : forall instruction_map c label op c' e,
  process_OPSYN instruction_map c label op = Done c' e ->
  macros c' = macros c
  /\ (forall n, n <> label -> get_operation_code instruction_map c' n = get_operation_code instruction_map c n)
  /\ (e <> None -> c' = c).
Proof.
  intros im c label op c' e H. destruct (process_OPSYN_effect im c label op) as (c2 & e2 & H2 & E).
  rewrite H in H2. injection H2 as <- <-.
  assert (D : forall n (a b : opcode_t), n <> label -> (if bytes_eqb n label then a else b) = b).
  { intros n a b Hn. destruct (bytes_eqb n label) eqn:Eb; [apply bytes_eqb_eq in Eb; contradiction|reflexivity]. }
  destruct E; try (refine (conj eq_refl (conj _ _)); [reflexivity|reflexivity]);
    (refine (conj eq_refl (conj _ _)); [intros n Hn; rewrite goc_assign; apply D; exact Hn|congruence]).
Qed.
Print Assumptions C32_others.

(** An OPSYN is rejected exactly when the operand (or, to delete, the label) stands for nothing. *)
Theorem C32_rejected : forall instruction_map c label s c' e,
  label <> [] -> s <> [] ->
  (process_OPSYN instruction_map c label (Symbol s) = Done c' e ->
    (e = Some A246 <-> is_some (get_operation_code instruction_map c s) = false) /\ (e = None \/ e = Some A246))
  /\ (process_OPSYN instruction_map c label Omitted = Done c' e ->
    (e = Some E049 <-> is_some (get_operation_code instruction_map c label) = false) /\ (e = None \/ e = Some E049)).
Proof.
  intros im c label s c' e Hl Hs. split; intros H.
  - destruct (process_OPSYN_effect im c label (Symbol s)) as (c2 & e2 & H2 & E). rewrite H in H2. injection H2 as <- <-.
    destruct E as [?|s' ? [= <-] ? Es|s' ? [= <-] ? Es|? Eo Es|? Eo Es]; try (cbn in *; congruence);
      rewrite Es; (split; [split; congruence|auto]).
  - destruct (process_OPSYN_effect im c label Omitted) as (c2 & e2 & H2 & E). rewrite H in H2. injection H2 as <- <-.
    destruct E as [?|s' ? ? ? Es|s' ? ? ? Es|? Eo Es|? Eo Es]; try (cbn in *; congruence);
      rewrite Es; (split; [split; congruence|auto]).
Qed.
Print Assumptions C32_rejected.

Section Examples.
Let L : id := [76]. Let A : id := [65]. Let ST : id := [83; 84]. Let M : id := [77].
Let table (n : id) : option kind := if bytes_eqb n L then Some MACH else if bytes_eqb n ST then Some MACH else None.
Let nothing (n : id) : option (option definition) := None.

(** Two mnemonics exchanged through a third one. *)
Example C32_history_case :
  let h := rev [Opsyn A (Symbol L); Opsyn L (Symbol ST); Opsyn ST (Symbol A); Opsyn A Omitted] in
  macros_first table nothing h /\ Forall named h
  /\ stands table nothing h L = Some (OInstr ST MACH)
  /\ stands table nothing h ST = Some (OInstr L MACH)
  /\ stands table nothing h A = None.
Proof.
  cbn zeta. refine (conj _ (conj _ (conj eq_refl (conj eq_refl eq_refl)))).
  - intros h2 e h1 n op E D. exfalso.
    assert (In e (rev [Opsyn A (Symbol L); Opsyn L (Symbol ST); Opsyn ST (Symbol A); Opsyn A Omitted])) as HI
      by (rewrite E; apply in_or_app; right; left; reflexivity).
    cbn in HI. destruct HI as [<-|[<-|[<-|[<-|[]]]]]; exact D.
  - cbn. repeat constructor; discriminate.
Qed.
Example C32_given_case :
  let c := initial in
  is_some (get_operation_code table c L) = true
  /\ option_map (fun c => snd (run_statement table nothing c A)) (run table nothing c [Opsyn A (Symbol L); Opsyn L Omitted; Macro L 3; Statement A])
     = Some (Runs L MACH).
Proof. split; reflexivity. Qed.
Example C32_deleted_case :
  is_some (get_operation_code table initial L) = true
  /\ option_map (fun c => snd (run_statement table nothing c L)) (run table nothing initial [Opsyn L Omitted; Opsyn A (Symbol ST)])
     = Some Undefined.
Proof. split; reflexivity. Qed.

(** A macro defined after its name was used in OPSYN is never called under that name. *)
Theorem C32_macro_refuted : exists table nothing h c,
  Forall named h /\ run table nothing initial (rev h) = Some c
  /\ stands table nothing h M = Some (OMacro 7)
  /\ snd (run_statement table nothing c M) = Undefined.
Proof.
  exists table, nothing, (rev [Macro M 1; Opsyn M Omitted; Macro M 7]). eexists.
  split; [cbn; repeat constructor; discriminate|]. split; [reflexivity|]. split; reflexivity.
Qed.
Print Assumptions C32_macro_refuted.

(** An operand that is not a symbol deletes the label as if there were no operand. *)
Theorem C32_operand_refuted : exists table c,
  process_OPSYN table initial L Other = Done c None
  /\ get_operation_code table initial L <> no_opcode /\ get_operation_code table c L = no_opcode.
Proof. exists table. eexists. split; [reflexivity|]. split; [discriminate|reflexivity]. Qed.
Print Assumptions C32_operand_refuted.

(** A deleted macro is called again when the library has a member of its name, even one that
    does not define it. *)
Theorem C32_deleted_refuted : exists table library c,
  run table library initial [Macro M 1; Opsyn M Omitted] = Some c
  /\ get_operation_code table c M = no_opcode
  /\ library M = Some None
  /\ snd (run_statement table library c M) = Calls 1.
Proof. exists table, (fun _ => Some None). eexists. split; [reflexivity|]. split; [|split]; reflexivity. Qed.
Print Assumptions C32_deleted_refuted.
End Examples.
