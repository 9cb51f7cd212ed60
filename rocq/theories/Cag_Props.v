(** * Cag_Props: C88, the operands of conditional assembly instructions *)
From Coq Require Import String.
From Coq Require Import List NArith ZArith Bool Arith Lia.
From Verif Require Import Common Cag_Model Cag_Spec Cag_Proof Cag_Strict Cag_Loose Cag_Line.
Import ListNotations.

(** ** C88 *)

(** What is read is written on the line in that way. *)
Theorem C88_sound : forall def ts, ca_line def ts <> [] -> line true def (ca_line def ts) ts.
Proof.
  intros def ts H. unfold ca_line in *. destruct (fields (S (length ts)) def ts) as [l|] eqn:E; [|now destruct H].
  now apply fields_sound in E.
Qed.
Print Assumptions C88_sound.

(** Whatever can be read as operands is. *)
Theorem C88_accepted : forall def ts, (exists l, line true def l ts) <-> ca_line def ts <> [].
Proof.
  intros def ts. split.
  - intros (l & H). unfold ca_line. assert (Z := fields_can def l ts H (S (length ts)) ltac:(lia)).
    destruct (fields (S (length ts)) def ts) as [m|] eqn:E; [|now destruct Z].
    apply fields_sound in E. intros ->. inversion E.
  - intros H. eexists. now apply C88_sound.
Qed.
Print Assumptions C88_accepted.

(** A line whose list items are separated by spaces, and with no duplication factor directly in an item, is read as it
    is written. *)
Theorem C88_as_written : forall def l ts, line false def l ts -> ca_line def ts = l.
Proof. intros def l ts H. unfold ca_line. now rewrite (fields_strict def l ts H (S (length ts))) by lia. Qed.
Print Assumptions C88_as_written.

(** So there is one way to understand it. *)
Theorem C88_one_reading : forall def l1 l2 ts, line false def l1 ts -> line false def l2 ts -> l1 = l2.
Proof. intros def l1 l2 ts H1 H2. apply C88_as_written in H1, H2. congruence. Qed.
Print Assumptions C88_one_reading.

(** Operators of the same rank group from the left whatever is between them. *)
Theorem C88_left : forall x y z px py pz,
  prod false true x px -> prod false true y py -> prod false true z pz ->
  ca_line false (px ++ TMinus :: py ++ TMinus :: pz) = [Value (XBin OSub (XBin OSub x y) z)] /\
  ca_line false (px ++ TPlus :: py ++ TMinus :: pz) = [Value (XBin OSub (XBin OAdd x y) z)] /\
  ca_line false (px ++ TMinus :: py ++ TPlus :: pz) = [Value (XBin OAdd (XBin OSub x y) z)].
Proof.
  intros x y z px py pz X Y Z.
  repeat split; apply C88_as_written;
    match goal with |- line _ _ [?v] ?t => rewrite <- (app_nil_r t) end; apply line_one; try exact I; apply w_value;
    apply sum_i with x; auto.
  - apply sums_sub with y; auto. rewrite <- (app_nil_r pz), app_comm_cons. apply sums_sub with z; auto. apply sums_nil.
  - apply sums_add with y; auto. rewrite <- (app_nil_r pz), app_comm_cons. apply sums_sub with z; auto. apply sums_nil.
  - apply sums_sub with y; auto. rewrite <- (app_nil_r pz), app_comm_cons. apply sums_add with z; auto. apply sums_nil.
Qed.
Print Assumptions C88_left.

(** What cannot be read is not reported; the line has no operands (op_rem_body_ca takes it as a remark). *)
Theorem C88_unreadable_refuted : exists ts, ts <> [] /\ (forall r, ts <> TSpace :: r) /\
  (forall l, ~ line true false l ts) /\ ca_line false ts = [].
Proof.
  (* &A SETA 1+(2 *)
  exists [TConst 1; TPlus; TLpar; TConst 2].
  split; [discriminate|split; [discriminate|]]. assert (E : ca_line false [TConst 1; TPlus; TLpar; TConst 2] = []) by reflexivity.
  split; [|exact E]. intros l H. assert (Z := proj1 (C88_accepted _ _) (ex_intro _ l H)). congruence.
Qed.
Print Assumptions C88_unreadable_refuted.

Definition n (s : string) : bytes := s2b s.

(** AIF ((5)'A' EQ 'AAAAA').X : the duplication factor is read as an item of its own. *)
Theorem C88_duplicated_refuted : exists l1 l2 ts, line true false l1 ts /\ ca_line false ts = l2 /\ l1 <> l2 /\
  l1 = [Branch (XList [XStr (Some (XConst 5)) (n "A") None; XSym (n "EQ"); XStr None (n "AAAAA") None]) (n "X")] /\
  l2 = [Branch (XList [XList [XConst 5]; XStr None (n "A") None; XSym (n "EQ"); XStr None (n "AAAAA") None]) (n "X")].
Proof.
  eexists. eexists.
  exists [TLpar; TLpar; TConst 5; TRpar; TStr (n "A"); TSpace; TId (n "EQ"); TSpace; TStr (n "AAAAA"); TRpar; TDot; TId (n "X")].
  split; [|split; [vm_compute; reflexivity|split; [|split; [reflexivity|reflexivity]]]]; [|discriminate].
  assert (T : forall d e p, term true d e p -> sum true d e p).
  { intros d e p H. rewrite <- (app_nil_r p). apply sum_i with e; [|apply sums_nil].
    rewrite <- (app_nil_r p). apply prod_i with e; [|apply prods_nil]. now apply unary_t. }
  assert (TS : forall s, sum true false (XStr None s None) [TStr s]).
  { intros s. apply T. apply (term_string true false (XStr None s None) [TStr s] _ []); [|apply strs_nil].
    apply (str_i true false None s None [] []); [apply dup_none|apply substr_none]. }
  match goal with |- line _ _ _ ?t => rewrite <- (app_nil_r t) end. apply line_one; [|exact I].
  apply (w_branch true false _ [TLpar; TLpar; TConst 5; TRpar; TStr (n "A"); TSpace; TId (n "EQ"); TSpace; TStr (n "AAAAA"); TRpar]).
  apply (plist_i true 0 _ [TLpar; TConst 5; TRpar; TStr (n "A"); TSpace; TId (n "EQ"); TSpace; TStr (n "AAAAA")] 0).
  apply (items_more true _ [TLpar; TConst 5; TRpar; TStr (n "A")] 1 _ [TId (n "EQ"); TSpace; TStr (n "AAAAA")]); [|now left|].
  - apply T. apply (term_string true false (XStr (Some (XConst 5)) (n "A") None) [TLpar; TConst 5; TRpar; TStr (n "A")] _ []);
      [|apply strs_nil].
    apply (str_i true false (Some (XConst 5)) (n "A") None [TLpar; TConst 5; TRpar] []); [|apply substr_none].
    apply (dup_some true false (XConst 5) [TConst 5]); [now left|]. apply T, term_const.
  - apply (items_more true _ [TId (n "EQ")] 1 _ [TStr (n "AAAAA")]); [apply T, term_sym|now left|]. apply items_one, TS.
Qed.
Print Assumptions C88_duplicated_refuted.

(** The items of a list may touch each other, so (A-B) could be two of them; the parser reads a difference. *)
Theorem C88_touching_refuted : exists l1 l2 ts, line true false l1 ts /\ line true false l2 ts /\ l1 <> l2 /\ ca_line false ts = l2 /\
  l1 = [Value (XList [XSym (n "A"); XUn UMinus (XSym (n "B"))])] /\
  l2 = [Value (XList [XBin OSub (XSym (n "A")) (XSym (n "B"))])].
Proof.
  exists [Value (XList [XSym (n "A"); XUn UMinus (XSym (n "B"))])], [Value (XList [XBin OSub (XSym (n "A")) (XSym (n "B"))])],
    [TLpar; TId (n "A"); TMinus; TId (n "B"); TRpar].
  assert (U : forall d e p, unary true d e p -> sum true d e p).
  { intros d e p H. rewrite <- (app_nil_r p). apply sum_i with e; [|apply sums_nil].
    rewrite <- (app_nil_r p). apply prod_i with e; [assumption|apply prods_nil]. }
  assert (E : ca_line false [TLpar; TId (n "A"); TMinus; TId (n "B"); TRpar] = [Value (XList [XBin OSub (XSym (n "A")) (XSym (n "B"))])])
    by (vm_compute; reflexivity).
  split; [|split; [|split; [discriminate|split; [exact E|split; reflexivity]]]].
  - match goal with |- line _ _ _ ?t => rewrite <- (app_nil_r t) end. apply line_one; [|exact I].
    apply w_value, U, unary_t, term_list. apply (plist_i true 0 _ [TId (n "A"); TMinus; TId (n "B")] 0).
    apply (items_more true _ [TId (n "A")] 0 _ [TMinus; TId (n "B")]); [|now left|].
    + apply U, unary_t, term_sym.
    + apply items_one, U, unary_minus, unary_t, term_sym.
  - rewrite <- E. apply C88_sound. rewrite E. discriminate.
Qed.
Print Assumptions C88_touching_refuted.

(** ** Cases *)

(** AIF ('&A'(1,star) EQ &B(1,K'&C)  AND F(1)).SEQ,,.T REMARK, the star being an asterisk *)
Definition case_tokens : list tok :=
  [TLpar; TStr (n "&A"); TLpar; TConst 1; TComma; TStar; TRpar; TSpace; TId (n "EQ"); TSpace; TVar (n "B"); TLpar; TConst 1; TComma;
   TAttr (n "K"); TVar (n "C"); TRpar; TSpace; TSpace; TId (n "AND"); TSpace; TId (n "F"); TLpar; TConst 1; TRpar; TRpar; TDot; TId (n "SEQ");
   TComma; TComma; TDot; TId (n "T"); TSpace; TId (n "REMARK")].
Definition case_operands : list operand :=
  [Branch (XList [XStr None (n "&A") (Some (XConst 1, None)); XSym (n "EQ"); XVar (n "B") [XConst 1; XAttr (n "K") (XVar (n "C") [])];
                  XSym (n "AND"); XCall (n "F") None [XConst 1]]) (n "SEQ"); Empty; Seq (n "T")].
Example case_strict : line false false case_operands case_tokens.
Proof.
  assert (T : forall d e p, term false d e p -> sum false d e p).
  { intros d e p H. rewrite <- (app_nil_r p). apply sum_i with e; [|apply sums_nil].
    rewrite <- (app_nil_r p). apply prod_i with e; [|apply prods_nil]. now apply unary_t. }
  assert (Tc : forall v d, sum false d (XConst v) [TConst v]) by (intros; apply T, term_const).
  unfold case_tokens, case_operands.
  apply (line_more false false _
    [TLpar; TStr (n "&A"); TLpar; TConst 1; TComma; TStar; TRpar; TSpace; TId (n "EQ"); TSpace; TVar (n "B"); TLpar; TConst 1; TComma;
     TAttr (n "K"); TVar (n "C"); TRpar; TSpace; TSpace; TId (n "AND"); TSpace; TId (n "F"); TLpar; TConst 1; TRpar; TRpar; TDot; TId (n "SEQ")]).
  - apply (w_branch false false _
      [TLpar; TStr (n "&A"); TLpar; TConst 1; TComma; TStar; TRpar; TSpace; TId (n "EQ"); TSpace; TVar (n "B"); TLpar; TConst 1; TComma;
       TAttr (n "K"); TVar (n "C"); TRpar; TSpace; TSpace; TId (n "AND"); TSpace; TId (n "F"); TLpar; TConst 1; TRpar; TRpar]).
    apply (plist_i false 0 _ [TStr (n "&A"); TLpar; TConst 1; TComma; TStar; TRpar; TSpace; TId (n "EQ"); TSpace; TVar (n "B"); TLpar; TConst 1;
      TComma; TAttr (n "K"); TVar (n "C"); TRpar; TSpace; TSpace; TId (n "AND"); TSpace; TId (n "F"); TLpar; TConst 1; TRpar] 0).
    apply (items_more false _ [TStr (n "&A"); TLpar; TConst 1; TComma; TStar; TRpar] 1); [|right; lia|].
    { apply T. apply (term_string false false (XStr None (n "&A") (Some (XConst 1, None)))
        [TStr (n "&A"); TLpar; TConst 1; TComma; TStar; TRpar] _ []); [|apply strs_nil].
      apply (str_i false false None _ _ []); [apply dup_none|]. apply (substr_rest false _ [TConst 1]). apply Tc. }
    apply (items_more false _ [TId (n "EQ")] 1); [apply T, term_sym|right; lia|].
    apply (items_more false _ [TVar (n "B"); TLpar; TConst 1; TComma; TAttr (n "K"); TVar (n "C"); TRpar] 2); [|right; lia|].
    { apply T, term_var. apply (sub_some false _ [TConst 1; TComma; TAttr (n "K"); TVar (n "C")]).
      apply (commas_more false _ [TConst 1]); [apply Tc|]. apply commas_one. apply T. apply term_attr_var, sub_none. }
    apply (items_more false _ [TId (n "AND")] 1); [apply T, term_sym|right; lia|].
    apply items_one, T. apply (term_call false false (n "F") None _ []); [apply dup_none|].
    apply (args_one false 0 _ [TConst 1] 0); auto.
  - apply line_more_empty. apply (line_one false false (Seq (n "T")) [TDot; TId (n "T")]); [apply w_seq|exact I].
Qed.
Example case_read : ca_line false case_tokens = case_operands.
Proof. vm_compute. reflexivity. Qed.
(** SETA ((1)SLA(2)), and with spaces *)
Example case_shift :
  ca_line false [TLpar; TLpar; TConst 1; TRpar; TId (n "SLA"); TLpar; TConst 2; TRpar; TRpar] =
    [Value (XList [XList [XConst 1]; XCall (n "SLA") None [XConst 2]])] /\
  ca_line false [TLpar; TLpar; TConst 1; TRpar; TSpace; TId (n "SLA"); TSpace; TLpar; TConst 2; TRpar; TRpar] =
    [Value (XList [XList [XConst 1]; XSym (n "SLA"); XList [XConst 2]])].
Proof. split; vm_compute; reflexivity. Qed.
(** LCLA &A,B(10) *)
Example case_lcl : ca_line true [TVar (n "A"); TComma; TId (n "B"); TLpar; TConst 10; TRpar] = [Def (n "A") None; Def (n "B") (Some 10%Z)].
Proof. vm_compute. reflexivity. Qed.
