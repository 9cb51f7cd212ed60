(** C68: what the check of an assembler instruction reports.  C69: what it accepts.
    C70: where reports are in the source.  C71: how operands are read.  C72: numbers of
    operands. *)
From Coq Require Import String Ascii.
From Coq Require Import List ZArith Bool Lia Arith.
From Verif Require Import Asm_Model Asm_Spec Asm_Base Asm_Values Asm_Options Asm_Process Asm_Tidy Asm_Count Asm_Codes.
Import ListNotations.
Open Scope string_scope.
Open Scope list_scope.

(** ** C68 *)

(** An instruction is accepted without a report, or rejected with exactly one, which is
    at the statement, an operand, a parameter of one, or the first two operands. *)
Theorem C68_one_report name ops stmt : In name (map fst accepts) -> ~ strange name ops ->
  asm_check name ops stmt = (Yes, [])
  \/ exists c q, asm_check name ops stmt = (No, [D c q]) /\ placed ops stmt q.
Proof. intros. apply tidy_check; assumption. Qed.
Print Assumptions C68_one_report.

(** So a report means that the instruction is rejected, and nothing undefined happens. *)
Theorem C68_reported name ops stmt : In name (map fst accepts) -> ~ strange name ops ->
  (fst (asm_check name ops stmt) = Yes <-> snd (asm_check name ops stmt) = [])
  /\ fst (asm_check name ops stmt) <> Undefined /\ fst (asm_check name ops stmt) <> Thrown.
Proof.
  intros H N. destruct (C68_one_report name ops stmt H N) as [->|(c & q & -> & _)]; cbn;
    repeat split; intros; try discriminate; reflexivity.
Qed.
Print Assumptions C68_reported.

(** The messages of an instruction are among those of its list. *)
Theorem C68_codes name ops stmt : In name (map fst accepts) ->
  exists L, In (name, L) codes /\ (forall L', In (name, L') codes -> L' = L)
            /\ forall d, In d (snd (asm_check name ops stmt)) -> In (d_code d) L.
Proof.
  intros H. apply codes_names in H. apply in_map_iff in H. destruct H as ((m & L) & E & H). cbn in E. subst m.
  exists L. split; [exact H|]. split; [|intros d; apply check_codes; exact H].
  intros L' H'.
  assert (NoDup (map fst codes)) as N.
  { assert (forallb (fun p => (count_occ string_dec (map fst codes) p =? 1)%nat) (map fst codes) = true) as E by (vm_compute; reflexivity).
    apply (NoDup_count_occ' string_dec). intros x X. rewrite forallb_forall in E. apply E in X. apply Nat.eqb_eq in X. exact X. }
  revert H H' N. generalize codes. clear. induction l as [|[m K] t IH]; cbn; [tauto|]. intros H H' N. inversion N; subst.
  destruct H as [H|H], H' as [H'|H'].
  - congruence.
  - injection H as -> ->. exfalso. apply (in_map fst) in H'. contradiction.
  - injection H' as -> ->. exfalso. apply (in_map fst) in H. contradiction.
  - apply IH; assumption.
Qed.
Print Assumptions C68_codes.

Definition at_ : rng := (1, 40)%Z.
Definition w (s : string) : op := Simple s true 0 (10, 12)%Z.
Definition n (s : string) (z : Z) : op := Simple s false z (20, 22)%Z.
Definition c (id : string) (ps : list op) : op := Complex id ps (30, 35)%Z.

Example C68_not_strange : ~ strange "TITLE" [w "'HEADING'"] /\ In "TITLE" (map fst accepts).
Proof.
  split; [|cbn; tauto]. intros [[H _]|[[H _]|[[H _]|[H|[H _]]]]]; discriminate.
Qed.
Example C68_not_strange_process : ~ strange "*PROCESS" [c "FLAG" [w "ALIGN"]; c "CODEPAGE" [w "1140"]].
Proof.
  assert (forall o, In o [c "FLAG" [w "ALIGN"]; c "CODEPAGE" [w "1140"]] -> ~ strange_option o) as H.
  { intros o [<-|[<-|[]]] [(ps & p & s & C & I0 & T & I1)|[(id & p & s & C & I0 & T & I1)|(id & ps & p & q & s & z & C & I0 & _)]];
      apply complex_is in C; destruct C as [E F]; try discriminate E.
    - subst ps. destruct I0 as [<-|[]]. destruct T as (d & v & r & T). injection T as <- _ _ _.
      cbn in I1. repeat destruct I1 as [I1|I1]; try discriminate I1. destruct I1.
    - subst id. cbn in I0. repeat destruct I0 as [I0|I0]; try discriminate I0. destruct I0.
    - subst id. cbn in I0. repeat destruct I0 as [I0|I0]; try discriminate I0. destruct I0.
    - injection F as F. rewrite <- F in T. destruct T as (d & v & r & T). injection T as <- _ _ _. apply I1. right.
      split; [discriminate|]. split; [apply digits_spec; reflexivity|]. vm_compute; split; discriminate.
    - subst id. cbn in I0. repeat destruct I0 as [I0|I0]; try discriminate I0. destruct I0. }
  intros [[X _]|[[X _]|[[X _]|[X|[_ [(o & I0 & X)|(o & ps & p & X & _)]]]]]]; try discriminate X.
  apply (H o I0 X).
Qed.

(** Rejected without a report: an ALIAS that is neither C'...' nor X'...', a code page and
    a limit that are too large to be converted. *)
Theorem C68_silent_refuted :
  asm_check "ALIAS" [w "D'AB'"] at_ = (No, [])
  /\ asm_check "*PROCESS" [c "CODEPAGE" [w "99999999999"]] at_ = (No, [])
  /\ asm_check "*PROCESS" [c "USING" [c "LIMIT" [w "X'10000000000000000'"]]] at_ = (No, []).
Proof. split; [|split]; vm_compute; reflexivity. Qed.
Print Assumptions C68_silent_refuted.

(** Accepted with a report that says the opposite: FLAG(PUSH), and an ADATA string
    without apostrophes. *)
Theorem C68_accepted_refuted :
  asm_check "*PROCESS" [c "FLAG" [w "PUSH"]] at_ = (Yes, [D "A211" (10, 12)%Z])
  /\ asm_check "ADATA" [n "1" 1; n "1" 1; n "1" 1; n "1" 1; w "AB"] at_ = (Yes, [D "A300" (10, 12)%Z]).
Proof. split; vm_compute; reflexivity. Qed.
Print Assumptions C68_accepted_refuted.

(** Two reports. *)
Theorem C68_twice_refuted :
  asm_check "ADATA" [n "1" 1; n "1" 1; n "1" 1; n "1" 1; w "A"] at_ = (No, [D "A300" (10, 12)%Z; D "A160" (10, 12)%Z])
  /\ asm_check "DXD" [w "A"; w "B"] at_ = (No, [D "A004" (0, 0)%Z; D "A004" (0, 0)%Z]).
Proof. split; vm_compute; reflexivity. Qed.
Print Assumptions C68_twice_refuted.

(** A report that is nowhere. *)
Theorem C68_place_refuted :
  asm_check "*PROCESS" [c "CODEPAGE" [w "1"]] at_ = (No, [D "A216" (0, 0)%Z])
  /\ ~ placed [c "CODEPAGE" [w "1"]] at_ (0, 0)%Z.
Proof.
  split; [vm_compute; reflexivity|]. intros [H|[(o & p & [<-|[]] & W & H)|(a & b & t & H & _)]]; try discriminate H.
  inversion W as [|o p' id ps r I0 W']; subst; [discriminate H|]. destruct I0 as [<-|[]].
  inversion W'; subst. discriminate H.
Qed.
Print Assumptions C68_place_refuted.

(** Undefined behaviour on texts that the parser may not produce: an empty code page,
    a code page X'', and an empty name or a single ampersand in DROP. *)
Theorem C68_undefined_refuted :
  fst (asm_check "*PROCESS" [c "CODEPAGE" [w ""]] at_) = Undefined
  /\ fst (asm_check "*PROCESS" [c "CODEPAGE" [w "X''"]] at_) = Undefined
  /\ fst (asm_check "DROP" [w ""] at_) = Undefined
  /\ fst (asm_check "DROP" [w "&"] at_) = Undefined.
Proof. repeat match goal with |- _ /\ _ => split end; vm_compute; reflexivity. Qed.
Print Assumptions C68_undefined_refuted.

(** ** C69 *)

(** Every instruction accepts exactly the operands of its description. *)
Theorem C69_accepts name P ops stmt : lookup name accepts = Some P ->
  (fst (asm_check name ops stmt) = Yes <-> P ops).
Proof. apply check_accepts. Qed.
Print Assumptions C69_accepts.

(** The instructions checked are those of the table; every other name is rejected without
    a report. *)
Theorem C69_names name ops stmt : (~ exists P, lookup name accepts = Some P) -> asm_check name ops stmt = (No, []).
Proof.
  intros H. destruct (lookup name accepts) as [P|] eqn:E; [exfalso; apply H; eauto|].
  apply check_unknown. exact E.
Qed.
Print Assumptions C69_names.

Example C69_title : fst (asm_check "TITLE" [w "'HEADING'"] at_) = Yes /\ fst (asm_check "CNOP" [n "2" 2; n "8" 8] at_) = Yes
  /\ fst (asm_check "*PROCESS" [c "FLAG" [w "ALIGN"]; c "CODEPAGE" [w "1140"]] at_) = Yes
  /\ fst (asm_check "END" [w "A"; c "" [w "MYCOMP"; w "0101"; w "00273"]] at_) = Yes.
Proof. repeat match goal with |- _ /\ _ => split end; vm_compute; reflexivity. Qed.

Lemma append_length (a b : string) : String.length (a ++ b) = (String.length a + String.length b)%nat.
Proof. induction a as [|x t IH]; cbn; [reflexivity|]. rewrite IH. reflexivity. Qed.

(** In full for three of them. *)
Theorem C69_title_length body d v r stmt :
  fst (asm_check "TITLE" [Simple (apostrophes body) d v r] stmt) = Yes <-> (1 <= String.length body <= 100)%nat.
Proof.
  rewrite (C69_accepts "TITLE" Title) by reflexivity. unfold Title. split.
  - intros (o & b & E & (d' & v' & r' & T) & L). injection E as <-.
    assert (apostrophes body = apostrophes b) as T' by congruence. apply (f_equal String.length) in T'. rename T' into X.
    unfold apostrophes in X. cbn in X. rewrite !append_length in X. cbn in X. lia.
  - intros L. eexists _, body. split; [reflexivity|]. split; [exists d, v, r; reflexivity|exact L].
Qed.
Print Assumptions C69_title_length.

Theorem C69_cnop_values ta tb byte bound ra rb stmt :
  fst (asm_check "CNOP" [Simple ta false byte ra; Simple tb false bound rb] stmt) = Yes
  <-> ((0 <= byte)%Z /\ Z.Even byte /\ power_of_two 2 4096 bound /\ (byte <= bound - 2)%Z).
Proof.
  rewrite (C69_accepts "CNOP" Cnop) by reflexivity. unfold Cnop. split.
  - intros (a & b & x & y & E & (t & r & A) & (t' & r' & B) & H). injection E as <- <-. injection A as _ <- _.
    injection B as _ <- _. exact H.
  - intros H. eexists _, _, byte, bound. split; [reflexivity|]. split; [exists ta, ra; reflexivity|].
    split; [exists tb, rb; reflexivity|exact H].
Qed.
Print Assumptions C69_cnop_values.

(** A text for PUNCH without pairs may have 79 characters, not 80: the opening
    apostrophe is counted. *)
Theorem C69_punch_length body d v r stmt : body <> "" -> (forall x, In x (list_ascii_of_string body) -> ~ doubled x) ->
  (fst (asm_check "PUNCH" [Simple (apostrophes body) d v r] stmt) = Yes <-> (String.length body <= 79)%nat).
Proof.
  intros NE H. rewrite (C69_accepts "PUNCH" Punch) by reflexivity. unfold Punch.
  assert (list_ascii_of_string (apostrophes body) = "'"%char :: list_ascii_of_string body ++ ["'"%char]) as E.
  { unfold apostrophes. cbn [append list_ascii_of_string]. f_equal. clear. induction body as [|a t IH]; cbn; congruence. }
  assert (List.length (list_ascii_of_string body) = String.length body) as LE
    by (clear; induction body; cbn; congruence).
  assert (list_ascii_of_string body <> []) as NE' by (destruct body; [congruence|discriminate]).
  split.
  - intros (o & b & k & X & (d' & v' & r' & T) & C & L). injection X as <-.
    assert (apostrophes body = apostrophes b) as T' by congruence. rewrite <- T', E in C. apply columns_plain in C; [lia|exact H|left; exact NE'].
  - intros L. eexists _, body, (S (String.length body)). split; [reflexivity|]. split; [exists d, v, r; reflexivity|].
    split; [|lia]. rewrite E. apply columns_plain; [exact H|left; exact NE'|congruence].
Qed.
Print Assumptions C69_punch_length.

(** Valid source that is rejected: START 0 and SPACE 0, a begin column of 16 or more in
    ICTL with one operand, names with national characters in DROP, ALIAS in hexadecimal,
    FAIL(MSG(n)) and FAIL(MAXERRS(n)); invalid source that is accepted: an empty
    instruction set, a code page modulo 2^32, a text after a number, a negative limit. *)
Theorem C69_rejected_refuted :
  Forall (fun p => fst (asm_check (fst p) (snd p) at_) = No)
    [ ("START", [n "0" 0]); ("SPACE", [n "0" 0]); ("ICTL", [n "16" 16]); ("DROP", [w "A_B"]); ("DROP", [w "A#B"]);
      ("ALIAS", [w "X'C1'"]); ("ALIAS", [w "X'C1C1'"]); ("*PROCESS", [c "FAIL" [c "MSG" [n "3" 3]]]);
      ("*PROCESS", [c "FAIL" [c "MAXERRS" [n "3" 3]]]) ].
Proof. repeat (constructor; [vm_compute; reflexivity|]). constructor. Qed.
Print Assumptions C69_rejected_refuted.
Theorem C69_accepted_refuted :
  Forall (fun p => fst (asm_check (fst p) (snd p) at_) = Yes)
    [ ("ACONTROL", [c "OPTABLE" [w ""]]); ("*PROCESS", [c "CODEPAGE" [w "X'100000474'"]]);
      ("*PROCESS", [c "USING" [c "WARN" [w "12AB"]]]); ("*PROCESS", [c "USING" [c "LIMIT" [w "-5"]]]) ].
Proof. repeat (constructor; [vm_compute; reflexivity|]). constructor. Qed.
Print Assumptions C69_accepted_refuted.

(** ** C72 *)

(** The number of operands is checked against the table that completion shows: outside
    the range exactly one report, at the statement, which says what is expected, and
    inside none. *)
Theorem C72_counts name mn mx ops stmt :
  In (name, (mn, mx)) operand_table -> ~ In name ["DC"; "DS"; "EQU"; "ISEQ"] ->
  ~ (In name ["CEJECT"; "SPACE"; "START"] /\ exists a b, ops = [a; b] /\ empty a /\ empty b) ->
  (counted (asm_check name ops stmt) <-> ~ in_range mn mx (List.length ops))
  /\ (~ in_range mn mx (List.length ops) -> exists c, count_code mn mx c /\ asm_check name ops stmt = (No, [D c stmt])).
Proof. apply table_counts. Qed.
Print Assumptions C72_counts.

(** ISEQ takes none or two. *)
Theorem C72_iseq ops stmt : (List.length ops <> 0 /\ List.length ops <> 2)%nat -> asm_check "ISEQ" ops stmt = (No, [D "A013" stmt]).
Proof. destruct ops as [|a [|b [|d t]]]; cbn; intros [H H']; try congruence; reflexivity. Qed.
Print Assumptions C72_iseq.

Example C72_case : In ("EXITCTL", (2, Some 5))%nat operand_table
  /\ asm_check "EXITCTL" [w "SOURCE"] at_ = (No, [D "A012" at_])
  /\ asm_check "TITLE" [w "'A'"; w "'B'"] at_ = (No, [D "A011" at_])
  /\ asm_check "MNOTE" [] at_ = (No, [D "A013" at_])
  /\ asm_check "USING" [w "A"] at_ = (No, [D "A010" at_]).
Proof. split; [cbn; tauto|]. repeat match goal with |- _ /\ _ => split end; vm_compute; reflexivity. Qed.

(** The table says one to five operands for EQU and at most one for START; the checks
    take an EQU without operands and a START with a comma. *)
Theorem C72_range_refuted :
  asm_check "EQU" [] at_ = (Yes, []) /\ asm_check "START" [Empty (5, 5)%Z; Empty (6, 6)%Z] at_ = (Yes, []).
Proof. split; vm_compute; reflexivity. Qed.
Print Assumptions C72_range_refuted.

(** ** C70, C71 *)

Section Source.
Variable to_string : Z -> string.
Notation process_other := (process_other to_string).
Notation reads name := (Forall2 (read to_string (if in_dec string_dec name symbolic then true else false))).

Lemma symbolic_ord name : mem name ord_symbols = if in_dec string_dec name symbolic then true else false.
Proof.
  destruct (in_dec string_dec name symbolic) as [I0|N].
  - apply mem_in. exact I0.
  - destruct (mem name ord_symbols) eqn:E; [|reflexivity]. exfalso. apply N. apply mem_in in E. exact E.
Qed.

(** Nothing is checked when an instruction takes symbols for values and an operand
    depends on symbols that are not defined. *)
Theorem C71_skipped name l stmt :
  process_other name l stmt = None <-> (In name symbolic /\ exists s, In s l /\ depends s).
Proof.
  unfold Asm_Model.process_other. rewrite symbolic_ord. destruct (in_dec string_dec name symbolic) as [I0|N]; cbn [andb].
  - destruct (existsb has_deps l) eqn:E.
    + split; [intros _|reflexivity]. split; [exact I0|]. apply existsb_exists in E. destruct E as (s & I1 & D0).
      exists s. split; [exact I1|]. destruct s; cbn in D0; try discriminate; subst; [left; eauto|right; eauto].
    + split; [discriminate|]. intros (_ & s & I1 & D0). exfalso.
      assert (existsb has_deps l = true) as X; [|congruence]. apply existsb_exists. exists s. split; [exact I1|].
      destruct D0 as [(t & sym & v & r & ->)|(r & ->)]; reflexivity.
  - split; [discriminate|]. tauto.
Qed.

(** Otherwise the operands are read one by one, in one way only, and checked. *)
Theorem C71_read name l stmt r : process_other name l stmt = Some r ->
  exists ops, reads name l ops /\ (forall ops', reads name l ops' -> ops' = ops) /\ r = asm_check name ops stmt.
Proof.
  intros H. apply process_other_some in H. rewrite symbolic_ord in H.
  eexists. split; [|split; [|exact H]].
  - clear. induction l as [|s t IH]; cbn [map]; constructor; [apply value_read|exact IH].
  - intros ops' H'. eapply read_all_fun; [exact H'|].
    clear. induction l as [|s t IH]; cbn [map]; constructor; [apply value_read|exact IH].
Qed.

(** So what is accepted is known from the source. *)
Theorem C71_accepts name P l ops stmt : lookup name accepts = Some P -> reads name l ops ->
  ((exists ds, process_other name l stmt = Some (Yes, ds))
   <-> (~ (In name symbolic /\ exists s, In s l /\ depends s) /\ P ops)).
Proof.
  intros L R. destruct (process_other name l stmt) as [[v ds]|] eqn:E.
  - destruct (C71_read _ _ _ _ E) as (ops' & _ & U & X). rewrite <- (U ops R) in X.
    rewrite <- (C69_accepts name P ops stmt L). split.
    + intros (ds' & Y). injection Y as -> ->. split; [|rewrite <- X; reflexivity].
      intros D0. apply C71_skipped with (stmt := stmt) in D0. congruence.
    + intros (_ & Y). rewrite <- X in Y. cbn in Y. subst v. eauto.
  - apply C71_skipped in E. split; [intros (ds & X); discriminate|tauto].
Qed.

Theorem C71_title body r stmt :
  (exists ds, process_other "TITLE" [SString body r] stmt = Some (Yes, ds)) <-> (1 <= String.length body <= 100)%nat.
Proof.
  rewrite (C71_accepts "TITLE" Title _ [Simple (apostrophes body) true 0 r]) by (try reflexivity; repeat constructor).
  rewrite <- (C69_title_length body true 0 r stmt), (C69_accepts "TITLE" Title) by reflexivity.
  split; [tauto|]. intros H. split; [|exact H]. intros [I0 _]. cbn in I0.
  repeat destruct I0 as [I0|I0]; try discriminate I0. destruct I0.
Qed.

(** A report is at the statement, an operand, a part of an operand, or the first two
    operands, or has no place and an operand has a part with parts of its own. *)
Theorem C70_placed name l ops stmt r : In name (map fst accepts) -> reads name l ops -> ~ strange name ops ->
  process_other name l stmt = Some r ->
  forall d, In d (snd r) ->
  spot l stmt (d_at d) \/ (d_at d = (0, 0)%Z /\ exists s p, In s l /\ part_of p (parts s) /\ composite p).
Proof.
  intros N R S0 H d I0. destruct (C71_read _ _ _ _ H) as (ops' & _ & U & X). rewrite <- (U ops R) in X. clear ops' U.
  clear H. assert (ops = map (operand_value to_string (if in_dec string_dec name symbolic then true else false)) l) as E.
  { eapply read_all_fun; [exact R|]. clear. induction l as [|s t IH]; cbn [map]; constructor; [apply value_read|exact IH]. }
  destruct (C68_one_report name ops stmt N S0) as [Y|(k & q & Y & P)]; rewrite Y in X; subst r; cbn in I0; [tauto|].
  destruct I0 as [<-|[]]. cbn [d_at]. rewrite E in P. eapply placed_spot. exact P.
Qed.

(** Without such parts it is in the source. *)
Theorem C70_in_source name l ops stmt r : In name (map fst accepts) -> reads name l ops -> ~ strange name ops ->
  (forall s p, In s l -> part_of p (parts s) -> ~ composite p) ->
  process_other name l stmt = Some r -> forall d, In d (snd r) -> spot l stmt (d_at d).
Proof.
  intros N R S0 F H d I0. destruct (C70_placed name l ops stmt r N R S0 H d I0) as [X|(_ & s & p & I1 & I2 & C)]; [exact X|].
  exfalso. eapply F; eauto.
Qed.

(** A composite part loses its place. *)
Theorem C70_place_refuted :
  process_other "*PROCESS" [SComplex "FAIL" [PComposite "MSG" [PInt 3 (22, 23)%Z] (18, 24)%Z] (13, 25)%Z] (0, 25)%Z
  = Some (No, [D "A233" (0, 0)%Z]).
Proof. reflexivity. Qed.

(** Options of *PROCESS are taken for symbols: with a name that is not defined nothing
    is checked, neither the option nor the others. *)
Theorem C71_process_refuted :
  process_other "*PROCESS" [SExpr "NONSENSE" true true VUndef (10, 18)%Z] (0, 25)%Z = None
  /\ process_other "*PROCESS" [SExpr "ALIGN" true true VUndef (10, 15)%Z; SComplex "CODEPAGE" [PText "1" (20, 21)%Z] (16, 22)%Z]
       (0, 25)%Z = None.
Proof. split; reflexivity. Qed.

Example C71_case :
  process_other "CNOP" [SExpr "TWO" true false (VAbs 2) (10, 13)%Z; SExpr "8" false false (VAbs 8) (14, 15)%Z] (0, 15)%Z = Some (Yes, [])
  /\ process_other "CNOP" [SExpr "TWO" true false (VAbs 2) (10, 13)%Z; SExpr "7" false false (VAbs 7) (14, 15)%Z] (0, 15)%Z
     = Some (No, [D "A145" (14, 15)%Z])
  /\ process_other "CNOP" [SExpr "TWO" true true VUndef (10, 13)%Z; SExpr "7" false false (VAbs 7) (14, 15)%Z] (0, 15)%Z = None
  /\ process_other "AMODE" [SExpr "ANY" true true VUndef (10, 13)%Z] (0, 15)%Z = Some (Yes, []).
Proof. repeat match goal with |- _ /\ _ => split end; reflexivity. Qed.
End Source.
Print Assumptions C71_skipped.
Print Assumptions C71_read.
Print Assumptions C71_accepts.
Print Assumptions C71_title.
Print Assumptions C71_process_refuted.
Print Assumptions C70_placed.
Print Assumptions C70_in_source.
Print Assumptions C70_place_refuted.
