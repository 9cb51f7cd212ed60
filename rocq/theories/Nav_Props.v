(** * Properties of navigation: C54 (scopes), C55 (references), C56 (definition and completion) *)
From Coq Require Import List Arith Bool Lia Permutation ZifyBool ZifyNat.
From Verif Require Import Nav_Model Nav_Spec Nav_Proof Nav_Ctx Nav_Main Nav_Body Nav_Use.
Import ListNotations.

(** ** C54: a line of a macro definition is looked at in the scope of that definition *)

Theorem C54_sound : forall l f o c', add_opencode f o (build l) = Some c' -> all_described (macros (build l)) ->
  forall g p k, scope_at c' g p = Some k -> exists m, In m (macros (build l)) /\ mac_id m = k /\ owns m g (line p).
Proof. exact scope_sound. Qed.
Print Assumptions C54_sound.

Theorem C54_exact : forall l f o c', add_opencode f o (build l) = Some c' ->
  all_described (macros (build l)) -> apart (macros (build l)) ->
  forall g p m, lookup g (files c') <> None -> In m (macros (build l)) ->
  (scope_at c' g p = Some (mac_id m) <-> owns m g (line p)).
Proof.
  intros l f o c' A D U g p m L M. split.
  - intros H. destruct (scope_sound l f o c' A D g p _ H) as (n & N & E & W).
    replace m with n; [exact W|].
    pose proof (ids l f o c' A m M) as I1. pose proof (ids l f o c' A n N) as I2. congruence.
  - intros W. pose proof (scope_complete l f o c' A m g p M W L) as H.
    destruct (scope_at c' g p) as [k|] eqn:E; [|congruence].
    destruct (scope_sound l f o c' A D g p k E) as (n & N & K & W'). rewrite <- K. f_equal. f_equal. exact (U n m g (line p) N M W' W).
Qed.
Print Assumptions C54_exact.

(** Every other line is looked at as open code. *)
Theorem C54_open_code : forall l f o c', add_opencode f o (build l) = Some c' -> all_described (macros (build l)) ->
  forall g p, lookup g (files c') <> None ->
  (scope_at c' g p = None <-> forall m, In m (macros (build l)) -> ~ owns m g (line p)).
Proof.
  intros l f o c' A D g p L. split.
  - intros H m M W. exact (scope_complete l f o c' A m g p M W L H).
  - intros H. destruct (scope_at c' g p) as [k|] eqn:E; [|reflexivity].
    destruct (scope_sound l f o c' A D g p k E) as (m & M & _ & W). destruct (H m M W).
Qed.
Print Assumptions C54_open_code.

(** No vector is read out of range when every definition is closed, in a file where it was seen. *)
Theorem C54_safe : forall l f o,
  (forall m, In m (macros (build l)) -> exists h ps xs, body m = define (after_prototype h ps) xs /\ closed_where_seen h xs) ->
  (forall m, In m (macros (build l)) -> files_known (files (add_file f OpenFile (build l))) m) ->
  (forall g os, In (g, os) (open_occs o) -> lookup g (files (add_file f OpenFile (build l))) <> None) ->
  exists c', add_opencode f o (build l) = Some c'.
Proof. intros l f o. apply opencode_some. Qed.
Print Assumptions C54_safe.

(** *** A definition with a nested one *)
Definition ln (k : nat) : pos := Pos k 0.
Definition plain (k : nat) : stmt := Stmt [] (ln k) None [] OpOther.
Definition mac_ (k : nat) : stmt := Stmt [] (ln k) None [] OpMacro.
Definition mend (k : nat) : stmt := Stmt [] (ln k) None [] OpMend.
Definition no_open : opencode_info := Ocode [] [] [] (fun _ => None).

(** Lines: 0 MACRO, 1 M, 2 .A, 3 MACRO, 4 N, 5 .A, 6 MEND, 7 .A, 8 MEND. *)
Definition lab (k : nat) (n : name) (o : operation) : stmt := Stmt [] (ln k) (Some (n, ln k)) [] o.
Definition sq (n : name) (k : nat) : occ := Occ SEQ n None (ln k) (Pos k 2).
Definition outer_ : list noted :=
  [(lab 2 5 OpOther, [sq 5 2]); (mac_ 3, []); (plain 4, []); (lab 5 5 OpOther, [sq 5 5]); (mend 6, []); (lab 7 5 OpOther, [sq 5 7]); (mend 8, [])].
Definition inner_ : list noted := [(lab 5 5 OpOther, [sq 5 5]); (mend 6, [])].
Definition mM : macro_info := macro_record 100 false 1 (ln 1) (Pos 1 1) 0 [] [] outer_.
Definition mN : macro_info := macro_record 101 false 2 (ln 4) (Pos 4 1) 0 [] [] inner_.
Definition both : list addition := [AddMacro mM; AddMacro mN].

Lemma closed_dec : forall xs, (match xs with [] => false | _ => true end) &&
  forallb (fun i => mends (firstn i xs) <=? macs (firstn i xs)) (List.seq 0 (length xs)) && (mends xs =? S (macs xs)) = true -> closed xs.
Proof.
  intros xs H. apply andb_true_iff in H. destruct H as [H C]. apply andb_true_iff in H. destruct H as [A B].
  split; [destruct xs; [discriminate|discriminate]|]. split; [|apply Nat.eqb_eq; exact C].
  intros i Hi. rewrite forallb_forall in B. apply Nat.leb_le. apply B. apply in_seq. lia.
Qed.
Lemma order_dec : forall p xs, forallb (fun i => match nth_error xs i, nth_error xs (S i) with Some x, Some y => start x <? start y | _, _ => true end)
  (List.seq 0 (length xs)) && match xs with [] => true | x :: _ => p <? start x end = true -> in_order p xs.
Proof.
  intros p xs H. apply andb_true_iff in H. destruct H as [A B]. split.
  - intros x E. destruct xs; [discriminate|]. cbn in E. injection E as ->. apply Nat.ltb_lt. exact B.
  - intros i x y X Y. rewrite forallb_forall in A. assert (Hi : i < length xs) by (apply nth_error_Some; congruence).
    specialize (A i ltac:(apply in_seq; lia)). rewrite X, Y in A. apply Nat.ltb_lt. exact A.
Qed.

Example C54_described : described mM 0 [] (map fst outer_) /\ described mN 0 [] (map fst inner_).
Proof.
  split; (split; [reflexivity|]; split; [intros x H; cbn in H; intuition; subst; reflexivity|];
          split; [apply closed_dec; vm_compute; reflexivity|]; split; [apply order_dec; vm_compute; reflexivity|reflexivity]).
Qed.
Example C54_scopes : match add_opencode 0 no_open (build both) with
  | Some c => map (fun k => scope_at c 0 (ln k)) (List.seq 0 10)
  | None => [] end = [None; Some 100; Some 100; Some 100; Some 101; Some 101; Some 101; Some 100; Some 100; None].
Proof. vm_compute. reflexivity. Qed.

(** *** Findings *)

(** A definition that is not closed, with a closed one nested at its end: the analysis of the file reads
    past the end of the vector of copy nests. *)
Theorem C54_unclosed_refuted : exists xs, in_one_file xs /\ in_order 1 xs /\ (forall i, open_before xs i) /\
  forall k n, add_opencode 0 no_open (build [AddMacro (Minfo k false (Loc (ln 1) n) (define (after_prototype 0 []) xs) [])]) = None.
Proof.
  exists [mac_ 2; plain 3; mend 4]. split; [intros x H; cbn in H; intuition; subst; reflexivity|].
  split; [apply order_dec; vm_compute; reflexivity|]. split.
  - intros i. unfold open_before. destruct i as [|[|[|i]]]; try (cbn; lia). rewrite firstn_all2 by (cbn; lia). cbn. lia.
  - intros k n. reflexivity.
Qed.
Print Assumptions C54_unclosed_refuted.

(** So does a definition whose closing MEND is the first statement of a copy member that is seen. *)
Theorem C54_member_mend_refuted : exists xs, closed xs /\
  forall k n t d, add_opencode 0 no_open (build [AddCopy 7 t d; AddMacro (Minfo k false (Loc (ln 1) n) (define (after_prototype 0 []) xs) [])]) = None.
Proof.
  exists [Stmt [] (ln 2) None [] OpCopy; Stmt [Loc (ln 0) 7] (ln 0) None [] OpMend].
  split; [apply closed_dec; vm_compute; reflexivity|]. intros k n t d. reflexivity.
Qed.
Print Assumptions C54_member_mend_refuted.

(** The statements of a copy member in the body of a macro: the first one is looked at as open code. *)
Theorem C54_member_refuted : exists xs m c',
  closed_where_seen 0 xs /\ body m = define (after_prototype 0 []) xs /\
  add_opencode 0 no_open (build [AddCopy 7 3 (Loc (ln 0) 7); AddMacro m]) = Some c' /\
  (exists x, In x xs /\ file_of 0 x = 7 /\ at_ x = ln 0) /\ scope_at c' 7 (ln 0) = None /\ scope_at c' 7 (ln 1) = Some (mac_id m).
Proof.
  set (xs := [plain 2; Stmt [] (ln 5) None [] OpCopy; Stmt [Loc (ln 0) 7] (ln 0) None [] OpOther;
              Stmt [Loc (ln 1) 7] (ln 1) None [] OpOther; plain 6; mend 7]).
  exists xs. set (m := Minfo 9 false (Loc (ln 1) 0) (define (after_prototype 0 []) xs) []). exists m. eexists.
  split; [split; [apply closed_dec; vm_compute; reflexivity|]|].
  { right. exists (firstn 5 xs), (mend 7), (plain 2). subst xs. cbn. auto. }
  split; [reflexivity|]. split; [vm_compute; reflexivity|]. split; [|split; vm_compute; reflexivity].
  exists (Stmt [Loc (ln 0) 7] (ln 0) None [] OpOther). subst xs. cbn. auto.
Qed.
Print Assumptions C54_member_refuted.

(** ** C55: references *)

(** References are those of the symbol at the position, in its scope; nothing is read out of range. *)
Theorem C55_references : forall l f o c', add_opencode f o (build l) = Some c' ->
  forall g p x, lookup g (files c') <> None -> only l o g p x ->
  exists ls, references c' g p = Some ls /\
    forall q h, In (Loc q h) ls <-> exists y, in_scope l o x (scope_at c' g p) h y /\ same_symbol x y /\ from y = q.
Proof. intros l f o c' A g p x L U. exact (references_only l f o c' A g p x U L). Qed.
Print Assumptions C55_references.

(** Nothing is found where nothing is recorded, and an answer is given for every file and position. *)
Theorem C55_total : forall l f o c', add_opencode f o (build l) = Some c' ->
  forall g p, exists ls, references c' g p = Some ls /\
    ((forall x, present l o g x -> ~ covers x p) -> ls = []).
Proof.
  intros l f o c' A g p. destruct (references_spec l f o c' A g p) as (ls & R & [[-> _]|(x & P & C & _)]); eexists; split; eauto.
  intros H. destruct (H x P C).
Qed.
Print Assumptions C55_total.

(** From each of the references of a symbol the same references are found. *)
Theorem C55_symmetric : forall l f o c', add_opencode f o (build l) = Some c' ->
  forall g p x h q y, lookup g (files c') <> None -> lookup h (files c') <> None -> only l o g p x -> only l o h q y ->
  same_symbol x y -> scope_at c' g p = scope_at c' h q ->
  exists ls ls', references c' g p = Some ls /\ references c' h q = Some ls' /\ forall e, In e ls <-> In e ls'.
Proof.
  intros l f o c' A g p x h q y L L' U U' S E.
  destruct (C55_references l f o c' A g p x L U) as (ls & R & H). destruct (C55_references l f o c' A h q y L' U') as (ls' & R' & H').
  exists ls, ls'. split; [exact R|]. split; [exact R'|]. intros [r d]. rewrite H, H', E.
  assert (IS : forall z, in_scope l o x (scope_at c' h q) d z <-> in_scope l o y (scope_at c' h q) d z).
  { intros z. unfold in_scope. rewrite (proj1 S). tauto. }
  split; intros (z & B & C & D); exists z; (split; [apply IS; exact B|]); split; auto.
  - exact (same_trans _ _ _ (same_sym _ _ S) C).
  - exact (same_trans _ _ _ S C).
Qed.
Print Assumptions C55_symmetric.

(** The references of a variable or sequence symbol in the body of a macro: the places of the definition, not
    of nested ones, where it occurs; its own place is among them. *)
Theorem C55_in_macro : forall l f o c', add_opencode f o (build l) = Some c' ->
  all_described (macros (build l)) -> apart (macros (build l)) ->
  forall k ext n w u h ps proto xs, let m := macro_record k ext n w u h ps proto xs in
  In m (macros (build l)) -> described m h ps (map fst xs) -> lookup h (files c') <> None ->
  forall i x os y, nth_error xs i = Some (x, os) -> In y os -> (kind_of y = VAR \/ kind_of y = SEQ) ->
  level (map fst xs) i = 1 -> op x <> OpMacro ->
  start x <= line (from y) -> line (from y) < next_line (map fst xs) i -> only l o h (from y) y ->
  exists ls, references c' h (from y) = Some ls /\ In (Loc (from y) h) ls /\
    forall q g, In (Loc q g) ls <-> g = h /\ exists z, same_symbol y z /\ from z = q /\
      (In z proto \/ exists j x' os', nth_error xs j = Some (x', os') /\ In z os' /\ level (map fst xs) (S j) <= 1).
Proof.
  intros l f o c' A D U k ext n w u h ps proto xs m M DE L i x os y X Y K LV NM S1 S2 ON.
  destruct (C55_references l f o c' A h (from y) y L ON) as (ls & R & H). exists ls. split; [exact R|].
  pose proof DE as (_ & OF & CL & _ & _). clear R.
  assert (X' : nth_error (map fst xs) i = Some x) by exact (map_nth_error fst i xs X).
  assert (W : owns m h (line (from y))).
  { exists ps, (map fst xs). split; [exact DE|]. right. exists i, x. auto. }
  apply (C54_exact l f o c' A D U h (from y) m L M) in W. rewrite W in H.
  assert (IS : forall g z, in_scope l o y (Some (mac_id m)) g z <-> recorded (mac_occs m) g z).
  { intros g z. unfold in_scope. replace (match kind_of y with VAR | SEQ => _ | _ => _ end) with
      (exists m', In m' (macros (build l)) /\ mac_id m' = mac_id m /\ recorded (mac_occs m') g z) by (destruct K as [-> | ->]; reflexivity).
    split.
    - intros (m' & M' & E & Q). replace m with m'; [exact Q|]. pose proof (ids l f o c' A m M) as I1. pose proof (ids l f o c' A m' M') as I2. congruence.
    - intros Q. exists m. auto. }
  assert (G : forall q g, In (Loc q g) ls <-> g = h /\ exists z, same_symbol y z /\ from z = q /\
      (In z proto \/ exists j x' os', nth_error xs j = Some (x', os') /\ In z os' /\ level (map fst xs) (S j) <= 1)).
  { intros q g. rewrite H. split.
    - intros (z & I & S & F). apply IS in I. apply (record_spec k ext n w u h ps proto xs g z CL) in I.
      destruct I as [[-> [I| ->]]|(j & x' & os' & J1 & J2 & -> & J4)].
      + split; [reflexivity|]. exists z. auto.
      + exfalso. destruct S as (S & _). cbn in S. destruct K; congruence.
      + assert (I : In x' (map fst xs)) by (apply nth_error_In in J1; apply (in_map fst) in J1; exact J1).
        unfold file_of. rewrite (OF x' I). cbn. split; [reflexivity|]. exists z. repeat split; try apply S; auto. right. exists j, x', os'. auto.
    - intros (-> & z & S & F & I). exists z. split; [|auto]. apply IS. apply (record_spec k ext n w u h ps proto xs h z CL).
      destruct I as [I|(j & x' & os' & J1 & J2 & J4)]; [auto|]. right. exists j, x', os'.
      assert (I : In x' (map fst xs)) by (apply nth_error_In in J1; apply (in_map fst) in J1; exact J1).
      unfold file_of. rewrite (OF x' I). cbn. auto. }
  split; [|exact G]. apply G. split; [reflexivity|]. exists y. split; [split; auto|]. split; [reflexivity|]. right. exists i, x, os.
  split; [exact X|]. split; [exact Y|]. unfold level in *. destruct CL as (_ & O & _).
  assert (Hi : i < length (map fst xs)) by (apply nth_error_Some; congruence). specialize (O i Hi). unfold open_before in O.
  replace (firstn (S i) (map fst xs)) with (firstn i (map fst xs) ++ [x]).
  - rewrite macs_snoc, mends_snoc. unfold is_macro, is_mend. destruct (op x); try congruence; lia.
  - clear - X'. revert i X'. induction (map fst xs) as [|a r IH]; intros i X'; [destruct i; discriminate|]. destruct i as [|i].
    + cbn in *. congruence.
    + cbn in X'. change (firstn (S (S i)) (a :: r)) with (a :: firstn (S i) r). cbn [firstn app]. f_equal. apply IH. exact X'.
Qed.
Print Assumptions C55_in_macro.

(** The label of line 2 is found on lines 2 and 7, not on line 5, which is that of the nested macro. *)
Example C55_nested : match add_opencode 0 no_open (build both) with
  | Some c => (references c 0 (ln 2), references c 0 (ln 5), references c 0 (ln 7))
  | None => (None, None, None) end =
  (Some [Loc (ln 2) 0; Loc (ln 7) 0], Some [Loc (ln 5) 0], Some [Loc (ln 2) 0; Loc (ln 7) 0]).
Proof. vm_compute. reflexivity. Qed.

(** The label of the MEND of a nested definition is found as a reference of the label of the same name of the
    outer definition, though its line is not in the scope of the outer definition. *)
Theorem C55_nested_mend_refuted : exists k xs h ps proto w u n c' ls,
  let m := macro_record k false n w u h ps proto xs in
  described m h ps (map fst xs) /\ add_opencode h no_open (build [AddMacro m]) = Some c' /\
  references c' h (ln 2) = Some ls /\ scope_at c' h (ln 2) = Some k /\
  In (Loc (ln 5) h) ls /\ ~ own_line 1 (map fst xs) 5 /\ scope_at c' h (ln 5) = None.
Proof.
  set (xs := [(lab 2 5 OpOther, [sq 5 2]); (mac_ 3, []); (plain 4, []); (lab 5 5 OpMend, [sq 5 5]); (mend 6, [])] : list noted).
  exists 100, xs, 0, [], [], (ln 1), (Pos 1 1), 1. eexists. eexists. cbv zeta. split.
  - split; [reflexivity|]. split; [intros x H; cbn in H; intuition; subst; reflexivity|].
    split; [apply closed_dec; vm_compute; reflexivity|]. split; [apply order_dec; vm_compute; reflexivity|reflexivity].
  - split; [vm_compute; reflexivity|]. split; [vm_compute; reflexivity|]. split; [vm_compute; reflexivity|]. split; [cbn; auto|]. split; [|vm_compute; reflexivity].
    intros [(_ & x & E & H)|(i & x & E & V & H1 & H2)].
    + cbn in E. injection E as <-. cbn in H. lia.
    + destruct i as [|[|[|[|[|i]]]]]; cbn in E; try (injection E as <-); unfold next_line in H2; cbn in *; try lia; try discriminate.
      destruct i; discriminate.
Qed.
Print Assumptions C55_nested_mend_refuted.

(** ** C56: definition and completion *)

(** The definition of a variable symbol in a macro is its first declaration or assignment in the macro. *)
Theorem C56_variable : forall l f o c', add_opencode f o (build l) = Some c' ->
  all_described (macros (build l)) -> apart (macros (build l)) ->
  forall m h ps xs, In m (macros (build l)) -> described m h ps xs -> lookup h (files c') <> None ->
  forall p x, owns m h (line p) -> only l o h p x -> kind_of x = VAR ->
  definition c' h p = Some (match first_of (symbol x) (declarations h ps xs) with Some d => d | None => Loc p h end).
Proof.
  intros l f o c' A D U m h ps xs M DE L p x W ON K. rewrite (definition_only l f o c' A h p x ON L).
  apply (C54_exact l f o c' A D U h p m L M) in W. rewrite W. unfold definition_of.
  destruct (opencode_files f o (build l) c' h (build_fresh l) A) as (_ & OC & _). rewrite OC, K, (ids l f o c' A m M).
  destruct DE as (B & _ & CL & _). rewrite (definition_var m h ps xs (symbol x) B CL). destruct (first_of _ _); reflexivity.
Qed.
Print Assumptions C56_variable.

(** The definition of a sequence symbol in a macro is the first statement of the macro that has it. *)
Theorem C56_sequence : forall l f o c', add_opencode f o (build l) = Some c' ->
  all_described (macros (build l)) -> apart (macros (build l)) ->
  forall m h ps xs, In m (macros (build l)) -> described m h ps xs -> lookup h (files c') <> None ->
  forall p x, owns m h (line p) -> only l o h p x -> kind_of x = SEQ ->
  definition c' h p = Some (match first_of (symbol x) (sequence_labels h xs) with Some d => d | None => Loc p h end).
Proof.
  intros l f o c' A D U m h ps xs M DE L p x W ON K. rewrite (definition_only l f o c' A h p x ON L).
  apply (C54_exact l f o c' A D U h p m L M) in W. rewrite W. unfold definition_of.
  destruct (opencode_files f o (build l) c' h (build_fresh l) A) as (_ & OC & _). rewrite OC, K, (ids l f o c' A m M).
  destruct DE as (B & _ & CL & _). cbn [option_map]. pose proof (g_labels _ _ _ _ (general_closed h ps xs CL) (symbol x)) as G.
  rewrite <- B in G. rewrite G. unfold sequence_labels, label_at. destruct (first_of _ _); reflexivity.
Qed.
Print Assumptions C56_sequence.

(** The definition of a macro instruction is the name in the prototype of the macro it calls. *)
Theorem C56_macro : forall l f o c', add_opencode f o (build l) = Some c' ->
  forall m g p x, In m (macros (build l)) -> lookup g (files c') <> None ->
  only l o g p x -> kind_of x = INSTR -> opcode x = Some (mac_id m) -> definition c' g p = Some (named m).
Proof.
  intros l f o c' A m g p x M L ON K E. rewrite (definition_only l f o c' A g p x ON L). unfold definition_of.
  destruct (opencode_files f o (build l) c' g (build_fresh l) A) as (_ & OC & _). rewrite OC, K, E, (ids l f o c' A m M). reflexivity.
Qed.
Print Assumptions C56_macro.

(** In open code the definitions of variable, sequence and ordinary symbols are those of the analysis, and where
    nothing is recorded the position itself is the answer. *)
Theorem C56_open_code : forall l f o c', add_opencode f o (build l) = Some c' ->
  forall g p, lookup g (files c') <> None ->
  (forall x, only l o g p x ->
     let answer d := definition c' g p = Some (match d with Some r => r | None => Loc p g end) in
     (kind_of x = ORD -> answer (symbols o (symbol x))) /\
     (scope_at c' g p = None -> kind_of x = VAR -> answer (lookup (symbol x) (open_vars o))) /\
     (scope_at c' g p = None -> kind_of x = SEQ -> answer (lookup (symbol x) (sequence o)))) /\
  ((forall x, present l o g x -> ~ covers x p) -> definition c' g p = Some (Loc p g)).
Proof.
  intros l f o c' A g p L. destruct (opencode_files f o (build l) c' g (build_fresh l) A) as (_ & OC & _). split.
  - intros x ON. cbv zeta. rewrite (definition_only l f o c' A g p x ON L). unfold definition_of. rewrite OC.
    refine (conj _ (conj _ _)).
    + intros ->. destruct (symbols o (symbol x)); reflexivity.
    + intros -> ->. destruct (lookup (symbol x) (open_vars o)); reflexivity.
    + intros -> ->. destruct (lookup (symbol x) (sequence o)); reflexivity.
  - intros N. unfold definition. pose proof (find_occ_spec l f o c' A g p L) as F. destruct (find_occ c' g p) as [[x sc]|]; [|reflexivity].
    destruct F as (P & C & _). destruct (N x P C).
Qed.
Print Assumptions C56_open_code.

Lemma in_fst_lookup : forall {A} n (m : list (nat * A)), In n (map fst m) <-> lookup n m <> None.
Proof.
  induction m as [|[k a] r IH]; cbn; [intuition|]. destruct (Nat.eqb_spec n k) as [->|N]; [intuition discriminate|].
  rewrite <- IH. intuition congruence.
Qed.
Lemma in_vars_find : forall n vs, In n (map vname vs) <-> find (named_ n) vs <> None.
Proof.
  induction vs as [|v r IH]; cbn; [intuition|]. unfold named_ at 1. destruct (Nat.eqb_spec (vname v) n) as [E|N]; [intuition discriminate|].
  rewrite <- IH. intuition.
Qed.

(** The symbols offered in a macro are those the macro declares, sets or has as labels, each once. *)
Theorem C56_completion : forall l f o c', add_opencode f o (build l) = Some c' ->
  all_described (macros (build l)) -> apart (macros (build l)) ->
  forall m h ps xs, In m (macros (build l)) -> described m h ps xs -> lookup h (files c') <> None ->
  forall p, owns m h (line p) ->
  exists vs ss, complete_var c' h p = Some vs /\ complete_seq c' h p = Some ss /\
    (forall n, In n vs <-> first_of n (declarations h ps xs) <> None) /\ (NoDup (map fst ps) -> NoDup vs) /\
    (forall n, In n ss <-> first_of n (sequence_labels h xs) <> None) /\ NoDup ss.
Proof.
  intros l f o c' A D U m h ps xs M DE L p W. destruct (lookup h (files c')) as [i|] eqn:LI; [|congruence].
  destruct (completion_spec l f o c' A h p i LI) as [CV CS].
  assert (L' : lookup h (files c') <> None) by congruence.
  apply (C54_exact l f o c' A D U h p m L' M) in W. rewrite W in CV, CS.
  pose proof (ids l f o c' A m M) as E. destruct (opencode_files f o (build l) c' h (build_fresh l) A) as (EM & _ & _). rewrite EM in E.
  rewrite E in CV, CS. eexists. eexists. split; [exact CV|]. split; [exact CS|].
  destruct DE as (B & _ & CL & _). pose proof (general_closed h ps xs CL) as G. rewrite <- B in G.
  refine (conj _ (conj (g_unique _ _ _ _ G) (conj _ (g_once _ _ _ _ G)))).
  - intros n. rewrite in_vars_find, (g_vars _ _ _ _ G n), find_first. destruct (find (named_ n) (decls ps xs)); cbn; split; intros; congruence.
  - intros n. rewrite in_fst_lookup, (g_labels _ _ _ _ G n). unfold sequence_labels, label_at. reflexivity.
Qed.
Print Assumptions C56_completion.

(** In open code they are those of open code. *)
Theorem C56_completion_open : forall l f o c', add_opencode f o (build l) = Some c' ->
  forall g p, lookup g (files c') <> None -> scope_at c' g p = None ->
  complete_var c' g p = Some (map fst (open_vars o)) /\ complete_seq c' g p = Some (map fst (sequence o)).
Proof.
  intros l f o c' A g p L W. destruct (lookup g (files c')) as [i|] eqn:LI; [|congruence].
  destruct (completion_spec l f o c' A g p i LI) as [CV CS]. rewrite W in CV, CS. auto.
Qed.
Print Assumptions C56_completion_open.

(** A macro that declares a symbol twice: the first declaration is the definition. *)
Definition decl (k : nat) (n : name) : noted := (Stmt [] (ln k) None [(n, ln k)] OpOther, [Occ VAR n None (ln k) (Pos k 2)]).
Definition mV : macro_info :=
  macro_record 100 false 1 (ln 1) (Pos 1 1) 0 [(8, Pos 1 3)] [Occ VAR 8 None (Pos 1 3) (Pos 1 5)]
    [decl 2 9; (mac_ 3, []); (plain 4, []); decl 5 10; (mend 6, []); decl 7 8; decl 8 9; (mend 9, [])].
Example C56_first : match add_opencode 0 no_open (build [AddMacro mV]) with
  | Some c => (definition c 0 (ln 8), definition c 0 (ln 7), complete_var c 0 (ln 8))
  | None => (None, None, None) end = (Some (Loc (ln 2) 0), Some (Loc (Pos 1 3) 0), Some [8; 9]).
Proof. vm_compute. reflexivity. Qed.
Example C56_described : described mV 0 [(8, Pos 1 3)] (map fst [decl 2 9; (mac_ 3, []); (plain 4, []); decl 5 10; (mend 6, []); decl 7 8; decl 8 9; (mend 9, [])]).
Proof.
  split; [reflexivity|]; split; [intros x H; cbn in H; intuition; subst; reflexivity|];
          split; [apply closed_dec; vm_compute; reflexivity|]; split; [apply order_dec; vm_compute; reflexivity|reflexivity].
Qed.

(** Completion in a file that is known, when the analysis was cancelled before its end: the null open code is
    used. *)
Theorem C56_cancelled_refuted : forall l g p, lookup g (files (build l)) <> None ->
  complete_var (build l) g p = None /\ complete_seq (build l) g p = None.
Proof.
  intros l g p L. destruct (build_fresh l) as (O & F & _). unfold complete_var, complete_seq.
  destruct (lookup g (files (build l))) as [i|] eqn:E; [|congruence]. destruct (F g i E) as [-> _]. cbn [find_scope]. rewrite O. split; reflexivity.
Qed.
Print Assumptions C56_cancelled_refuted.
