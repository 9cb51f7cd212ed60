(** * The number of operands, and from the source to the check *)
From Coq Require Import String Ascii.
From Coq Require Import List ZArith Bool Lia Arith ZifyBool ZifyNat.
From Verif Require Import Asm_Model Asm_Spec Asm_Base Asm_Values Asm_Options Asm_Process Asm_Tidy.
Import ListNotations.
Open Scope string_scope.
Open Scope list_scope.

(** ** Checks that say nothing about the number *)

Definition quiet (r : res) : Prop := forall d, In d (snd r) -> mem (d_code d) count_codes = false.

Lemma Q_ok : quiet ok.
Proof. intros d []. Qed.
Lemma Q_fail c q : mem c count_codes = false -> quiet (fail c q).
Proof. intros H d [<-|[]]. exact H. Qed.
Lemma Q_need b c q : mem c count_codes = false -> quiet (need b c q).
Proof. destruct b; [intros _; apply Q_ok|apply Q_fail]. Qed.
Lemma Q_then x k : quiet x -> quiet k -> quiet (x ;; k).
Proof.
  intros X K d. destruct x as [[] ds], k as [v ds']; cbn [andthen snd]; try apply X.
  rewrite in_app_iff. intros [H|H]; [apply X; exact H|apply K; exact H].
Qed.
Lemma Q_each A (f : A -> res) l : (forall x, quiet (f x)) -> quiet (each f l).
Proof. intros H. induction l; cbn [each]; [apply Q_ok|apply Q_then; auto]. Qed.
Lemma Q_each_i A (f : nat -> A -> res) l : (forall j x, quiet (f j x)) -> forall i, quiet (each_i f i l).
Proof. intros H. induction l; intros i; cbn [each_i]; [apply Q_ok|apply Q_then; auto]. Qed.
Lemma Q_none v : quiet (v, []).
Proof. intros d []. Qed.

Ltac qstep := match goal with
  | |- quiet ok => apply Q_ok
  | |- quiet (_, []) => apply Q_none
  | |- quiet (fail _ _) => apply Q_fail; reflexivity
  | |- quiet (fail_at _ _) => unfold fail_at
  | |- quiet (need _ _ _) => apply Q_need; reflexivity
  | |- quiet (_ ;; _) => apply Q_then
  | |- quiet (each _ _) => apply Q_each; intros ?x
  | |- quiet (each_i _ _ _) => apply Q_each_i; intros ?i ?x
  | |- quiet (let _ := _ in _) => cbv zeta
  | |- quiet (match ?x with _ => _ end) => destruct x
  end.
Ltac q := repeat qstep.

Lemma q_stack stmt n ops : forall i ac pr us, quiet (stack_ops stmt n i ac pr us ops).
Proof. induction ops as [|o t IH]; intros; cbn [stack_ops]; repeat first [apply IH | qstep]. Qed.
Lemma q_ref ps : forall cd di, quiet (ref_params cd di ps).
Proof. induction ps as [|o t IH]; intros; cbn [ref_params]; repeat first [apply IH | qstep]. Qed.
Lemma q_pairs r n : forall l, (List.length l <= n)%nat -> quiet (alias_pairs r l).
Proof.
  induction n as [|n IH]; intros l L; destruct l as [|a [|b t]]; cbn [alias_pairs List.length] in *; try lia; q.
  all: apply IH; lia.
Qed.
Lemma q_flag id d v r : quiet (check_flag_operand id d v r).
Proof. unfold check_flag_operand. q. Qed.
Lemma q_codepage s : quiet (check_codepage s).
Proof. unfold check_codepage. q. Qed.
Lemma q_optable ps : quiet (check_optable ps).
Proof. unfold check_optable. q. Qed.
Lemma q_process_flag ps : quiet (check_process_flag ps).
Proof.
  unfold check_process_flag. apply Q_each. intros [i d v r| |]; [|q..].
  pose proof (q_flag i d v r) as H. destruct (check_flag_operand i d v r) as [[] ds]; cbn [snd] in *; try exact H;
    destruct (mem i other_pairs); exact H.
Qed.
Lemma q_process_operand o : quiet (check_process_operand o).
Proof.
  unfold check_process_operand, check_fail, check_using, check_compat, check_typecheck, check_pcontrol, check_xref,
    check_suprwarn.
  repeat first [apply q_codepage | apply q_optable | apply q_process_flag | qstep].
Qed.
Lemma q_acontrol stmt o : quiet (acontrol_operand stmt o).
Proof.
  unfold acontrol_operand, check_compat, check_typecheck. repeat first [apply q_optable | apply q_flag | qstep].
Qed.

(** a check of the number, then others *)
Definition counts_first (f : list op -> rng -> res) (mn : nat) (mx : option nat) : Prop :=
  exists k, (forall ops stmt, quiet (k ops stmt)) /\ forall ops stmt, f ops stmt = (sizes mn mx ops stmt ;; k ops stmt).

Ltac cf := eexists (fun ops stmt => _); split; [|intros; reflexivity]; cbv beta; intros.

Lemma then_ok x : x = (x ;; ok).
Proof. destruct x as [[] ds]; cbn; rewrite ?app_nil_r; reflexivity. Qed.

Lemma cf_sizes (f : list op -> rng -> res) mn mx : (forall ops stmt, f ops stmt = sizes mn mx ops stmt) -> counts_first f mn mx.
Proof.
  intros H. exists (fun _ _ => ok). split; [intros; apply Q_ok|]. intros ops stmt. rewrite H. apply then_ok.
Qed.

Lemma cf_process : counts_first check_process 1 None.
Proof. cf. repeat first [apply q_process_operand | qstep]. Qed.
Lemma cf_acontrol : counts_first check_acontrol 1 None.
Proof. cf. repeat first [apply q_acontrol | qstep]. Qed.
Lemma cf_adata : counts_first check_adata 5 (Some 5%nat).
Proof.
  cf. apply Q_then; [unfold adata_value; q|]. destruct (back ops); [|q..]. cbv zeta. apply Q_then; [|q].
  destruct (_ || _); [intros d [<-|[]]; reflexivity|apply Q_none].
Qed.
Lemma cf_ainsert : counts_first check_ainsert 2 (Some 2%nat).
Proof. cf. q. Qed.
Lemma cf_alias : counts_first check_alias 1 (Some 1%nat).
Proof. cf. q. eapply q_pairs. reflexivity. Qed.
Lemma cf_amode : counts_first check_amode 1 (Some 1%nat).
Proof. cf. q. Qed.
Lemma cf_cattr : counts_first check_cattr 1 None.
Proof. cf. unfold cattr_operand. q. Qed.
Lemma cf_ccw : counts_first check_ccw 4 (Some 4%nat).
Proof. cf. q. Qed.
Lemma cf_cnop : counts_first check_cnop 2 (Some 2%nat).
Proof. cf. q. Qed.
Lemma cf_none : counts_first check_none 0 (Some 0%nat).
Proof. apply cf_sizes. reflexivity. Qed.
Lemma cf_copy : counts_first check_copy 1 (Some 1%nat).
Proof. cf. q. Qed.
Lemma cf_dxd : counts_first check_dxd 1 None.
Proof.
  cf. destruct ops as [|a t]; [q|]. intros d I0. cbn [snd] in I0. apply in_map_iff in I0. destruct I0 as (x & <- & _).
  reflexivity.
Qed.
Lemma cf_end : counts_first check_end 0 (Some 2%nat).
Proof. cf. unfold end_language. q. Qed.
Lemma cf_entry : counts_first check_entry 1 None.
Proof. cf. q. Qed.
Lemma cf_exitctl : counts_first check_exitctl 2 (Some 5%nat).
Proof. cf. unfold exit_value. q. Qed.
Lemma cf_external : counts_first check_external 1 None.
Proof. cf. unfold external_operand. q. Qed.
Lemma cf_ictl : counts_first check_ictl 1 (Some 3%nat).
Proof. cf. q. Qed.
Lemma cf_mnote : counts_first check_mnote 1 (Some 2%nat).
Proof. cf. unfold mnote_first. q. Qed.
Lemma cf_opsyn : counts_first check_opsyn 0 (Some 1%nat).
Proof. cf. q. Qed.
Lemma cf_org : counts_first check_org 0 (Some 3%nat).
Proof. cf. unfold org_operand. q. Qed.
Lemma cf_stack : counts_first check_stack 1 (Some 4%nat).
Proof. cf. apply q_stack. Qed.
Lemma cf_print : counts_first check_print 1 None.
Proof. cf. q. Qed.
Lemma cf_punch : counts_first check_punch 1 (Some 1%nat).
Proof. cf. q. Qed.
Lemma cf_rmode : counts_first check_rmode 1 (Some 1%nat).
Proof. cf. q. Qed.
Lemma cf_title : counts_first check_title 1 (Some 1%nat).
Proof. cf. q. Qed.
Lemma cf_using : counts_first check_using_instr 2 None.
Proof. apply cf_sizes. reflexivity. Qed.
Lemma cf_xattr : counts_first check_xattr 1 None.
Proof. cf. unfold xattr_operand. repeat first [apply q_ref | qstep]. Qed.

(** what the claim says of one check *)
Definition counts (r : res) (mn : nat) (mx : option nat) (ops : list op) (stmt : rng) : Prop :=
  (counted r <-> ~ in_range mn mx (List.length ops))
  /\ (~ in_range mn mx (List.length ops) -> exists c, count_code mn mx c /\ r = (No, [D c stmt])).

Lemma quiet_counted r : quiet r -> ~ counted r.
Proof. intros Q0 (d & I0 & C). apply Q0 in I0. apply mem_in in C. congruence. Qed.

Lemma sizes_spec mn mx ops stmt :
  (in_range mn mx (List.length ops) /\ sizes mn mx ops stmt = ok)
  \/ (~ in_range mn mx (List.length ops) /\ exists c, count_code mn mx c /\ sizes mn mx ops stmt = fail c stmt).
Proof.
  unfold sizes, in_range, count_code. destruct mx as [m|].
  - destruct ((mn <=? List.length ops) && (List.length ops <=? m))%nat eqn:E.
    + left. split; [|reflexivity]. split; [lia|]. intros m' H. injection H as <-. lia.
    + right. split; [intros [A B]; specialize (B m eq_refl); lia|].
      destruct (mn =? m)%nat eqn:E1; [exists "A011"; split; [|reflexivity]; right; left; split; [f_equal; lia|reflexivity]|].
      destruct (m =? mn + 1)%nat eqn:E2;
        [exists "A013"; split; [|reflexivity]; right; right; left; split; [f_equal; lia|reflexivity]|].
      exists "A012". split; [|reflexivity]. right. right. right. exists m. repeat split; lia.
  - destruct ((mn <=? List.length ops) && true)%nat eqn:E.
    + left. split; [|reflexivity]. split; [lia|]. discriminate.
    + right. split; [intros [A B]; lia|]. exists "A010". auto.
Qed.

Lemma count_code_in mn mx c : count_code mn mx c -> In c count_codes.
Proof. unfold count_codes. intros [[_ ->]|[[_ ->]|[[_ ->]|(m & _ & _ & _ & ->)]]]; cbn; auto. Qed.

Lemma settled_counts f mn mx ops stmt : counts_first f mn mx ->
  counts (let (v, ds) := f ops stmt in match v with Yes => (Yes, ds) | Undefined => (Undefined, ds) | _ => (No, ds) end)
         mn mx ops stmt.
Proof.
  intros (k & Q0 & E). rewrite E. specialize (Q0 ops stmt). unfold counts.
  destruct (sizes_spec mn mx ops stmt) as [[I0 ->]|(N & c & C & ->)].
  - split; [|tauto]. split; [|tauto]. intros H. exfalso. revert H. apply quiet_counted.
    intros d. specialize (Q0 d). destruct (k ops stmt) as [[] ds]; exact Q0.
  - cbn. split; [|intros _; eauto]. split; [tauto|]. intros _. eexists. split; [left; reflexivity|].
    eapply count_code_in. exact C.
Qed.

Lemma expr_counts ops stmt : one_comma ops = false ->
  counts (let (v, ds) := check_expr ops stmt in match v with Yes => (Yes, ds) | Undefined => (Undefined, ds) | _ => (No, ds) end)
         0 (Some 1%nat) ops stmt.
Proof.
  intros OC. unfold check_expr. rewrite OC.
  destruct ops as [|a t].
  { split; [|intros N; exfalso; apply N; split; [lia|intros m H; injection H as <-; cbn; lia]].
    split; [intros (d & [] & _)|]. intros N. exfalso. apply N. split; [lia|]. intros m H. injection H as <-. cbn. lia. }
  apply (settled_counts (fun ops stmt => sizes 0 (Some 1%nat) ops stmt ;;
      match ops with
      | Simple _ d v r :: _ => need (negb (d || negb (is_positive v))) "A148" r
      | o :: _ => fail "A240" (op_range o)
      | [] => (Undefined, [])
      end)). cf. q.
Qed.

Lemma drop_counts ops stmt :
  counts (let (v, ds) := check_drop ops stmt in match v with Yes => (Yes, ds) | Undefined => (Undefined, ds) | _ => (No, ds) end)
         0 None ops stmt.
Proof.
  assert (in_range 0 None (List.length ops)) as I0 by (split; [lia|discriminate]).
  split; [|tauto]. split; [|tauto]. intros H. exfalso. revert H. apply quiet_counted.
  assert (quiet (check_drop ops stmt)) as Q0 by (unfold check_drop, drop_operand; q).
  intros d. specialize (Q0 d). destruct (check_drop ops stmt) as [[] ds]; exact Q0.
Qed.

Lemma table_counts name mn mx ops stmt :
  In (name, (mn, mx)) operand_table -> ~ In name ["DC"; "DS"; "EQU"; "ISEQ"] ->
  ~ (In name ["CEJECT"; "SPACE"; "START"] /\ exists a b, ops = [a; b] /\ empty a /\ empty b) ->
  counts (asm_check name ops stmt) mn mx ops stmt.
Proof.
  intros I0 N1 N2. unfold operand_table in I0. cbn [In] in I0. unfold asm_check.
  repeat match type of I0 with _ \/ _ => destruct I0 as [I0|I0] end; [..|destruct I0].
  all: injection I0 as <- <- <-; try (exfalso; apply N1; cbn; tauto).
  all: match goal with |- context [lookup ?n checkers] =>
         let v := eval lazy [lookup checkers String.eqb Ascii.eqb Bool.eqb] in (lookup n checkers) in
         change (lookup n checkers) with v; cbv iota end.
  all: first [ apply drop_counts
             | apply expr_counts; destruct (one_comma ops) eqn:OC; [exfalso; apply N2; split; [cbn; tauto|apply one_comma_spec; exact OC]|reflexivity]
             | apply settled_counts;
               first [ apply cf_process | apply cf_acontrol | apply cf_adata | apply cf_ainsert | apply cf_alias | apply cf_amode
                     | apply cf_cattr | apply cf_ccw | apply cf_cnop | apply cf_none | apply cf_copy | apply cf_dxd | apply cf_end
                     | apply cf_entry | apply cf_exitctl | apply cf_external | apply cf_ictl | apply cf_mnote | apply cf_opsyn
                     | apply cf_org | apply cf_stack | apply cf_print | apply cf_punch | apply cf_rmode | apply cf_title
                     | apply cf_using | apply cf_xattr ] ].
Qed.

(** ** From the source *)

Section Decimal.
Variable to_string : Z -> string.
Notation create := (create to_string).
Notation operand_value := (operand_value to_string).
Notation transform := (transform to_string).
Notation check_statement := (check_statement to_string).
Notation process_other := (process_other to_string).

Lemma transform_free ord l : ord && existsb has_deps l = false -> transform ord l = inl (map (operand_value ord) l).
Proof.
  induction l as [|s t IH]; cbn [transform existsb map]; [reflexivity|]. intros H.
  destruct ord; cbn [andb] in *.
  - apply orb_false_iff in H. destruct H as [-> H]. rewrite IH by exact H. reflexivity.
  - rewrite IH by reflexivity. reflexivity.
Qed.

Lemma process_other_some name l stmt r : process_other name l stmt = Some r ->
  r = asm_check name (map (operand_value (mem name ord_symbols)) l) stmt.
Proof.
  unfold process_other, check_statement. destruct (mem name ord_symbols && existsb has_deps l) eqn:E; [discriminate|].
  intros H. injection H as <-. rewrite transform_free by exact E. reflexivity.
Qed.

(** a size for the induction over parts *)
Fixpoint size (p : part) : nat :=
  match p with
  | PComposite _ ps _ => S (fold_right (fun p n => size p + n)%nat O ps)
  | _ => 1%nat
  end.
Lemma size_in p ps : In p ps -> (size p <= fold_right (fun p n => size p + n)%nat O ps)%nat.
Proof. induction ps as [|a t IH]; cbn; [tauto|]. intros [->|H]; [lia|]. specialize (IH H). lia. Qed.

Lemma create_read p : read_part to_string p (create p).
Proof.
  remember (size p) as n eqn:E. assert (size p <= n)%nat as L by lia. clear E. revert p L.
  induction n as [|n IH]; intros p L; [destruct p; cbn in L; lia|].
  destruct p as [v r|s r|id ps r]; cbn [create]; constructor.
  cbn [size] in L.
  assert (forall q, In q ps -> read_part to_string q (create q)) as H.
  { intros q I0. apply IH. apply size_in in I0. lia. }
  clear L. induction ps as [|q t IHt]; cbn [map]; constructor; [apply H; left; reflexivity|].
  apply IHt. intros; apply H; right; assumption.
Qed.

Lemma value_read ord s : read to_string ord s (operand_value ord s).
Proof.
  destruct s as [t sym d v r|t r|id ps r|d r|r]; cbn [operand_value].
  - destruct (negb ord && sym) eqn:E.
    + apply andb_true_iff in E. destruct E as [E ->]. constructor. destruct ord; [discriminate|reflexivity].
    + assert (ord = false -> sym = false) as H by (intros ->; exact E). destruct v; constructor; exact H.
  - apply rd_string.
  - constructor. induction ps as [|p t IH]; cbn [map]; constructor; [apply create_read|exact IH].
  - constructor.
  - constructor.
Qed.

Lemma part_trans p q ps : part_of p (match q with PComposite _ qs _ => qs | _ => [] end) -> part_of q ps -> part_of p ps.
Proof.
  intros A B. induction B as [q ps I0|q id qs r ps I0 B IH].
  - destruct q as [v r|s r|id qs r]; try (inversion A; cbn in *; tauto). eapply po_deeper; eauto.
  - eapply po_deeper; [exact I0|]. apply IH. exact A.
Qed.

Lemma within_create o p : within o (create p) -> o = create p \/ exists q, part_of q (match p with PComposite _ qs _ => qs | _ => [] end) /\ o = create q.
Proof.
  intros W. remember (create p) as c eqn:E. revert p E. induction W as [o|o p' id ps r I0 W IH]; intros p E; [left; reflexivity|].
  right. destruct p as [v r'|s r'|i qs r']; cbn [create] in E; try discriminate E. injection E as <- -> ->.
  apply in_map_iff in I0. destruct I0 as (q & <- & I0). destruct (IH q eq_refl) as [->|(q' & P & ->)].
  - exists q. split; [constructor; exact I0|reflexivity].
  - exists q'. split; [|reflexivity]. eapply part_trans; [exact P|]. constructor. exact I0.
Qed.

Lemma placed_spot ord l stmt rng0 : placed (map (operand_value ord) l) stmt rng0 ->
  spot l stmt rng0 \/ (rng0 = (0, 0)%Z /\ exists s p, In s l /\ part_of p (parts s) /\ composite p).
Proof.
  assert (forall s, op_range (operand_value ord s) = src_range s) as R.
  { intros [t sym d v r|t r|id ps r|d r|r]; cbn; try reflexivity. destruct (negb ord && sym); [reflexivity|].
    destruct v; reflexivity. }
  intros [->|[(o & p & I0 & W & ->)|(a & b & t & E & ->)]].
  - left. left. reflexivity.
  - apply in_map_iff in I0. destruct I0 as (s & <- & I0).
    inversion W as [|o' p' id ps r I1 W' E1 E2]; subst.
    + left. right. left. exists s. auto.
    + assert (exists q, part_of q (parts s) /\ p = create q) as (q & P & ->).
      { destruct s as [t sym d v r0|t r0|i qs r0|d r0|r0]; cbn [operand_value] in *; try discriminate.
        - destruct (negb ord && sym); [discriminate|]. destruct v; discriminate.
        - match goal with H : Complex _ _ _ = Complex _ _ _ |- _ => injection H as <- -> <- end.
          apply in_map_iff in I1. destruct I1 as (q & <- & I1). cbn [parts].
          destruct (within_create _ _ W') as [->|(q' & P & ->)].
          + exists q. split; [constructor; exact I1|reflexivity].
          + exists q'. split; [|reflexivity]. eapply part_trans; [exact P|]. constructor. exact I1.
        - injection E2 as _ E2 _. rewrite E2 in I1. destruct I1. }
      destruct q as [v r0|t r0|i qs r0].
      * left. right. right. left. exists s, (PInt v r0). repeat split; auto. intros (? & ? & ? & X). discriminate.
      * left. right. right. left. exists s, (PText t r0). repeat split; auto. intros (? & ? & ? & X). discriminate.
      * right. split; [reflexivity|]. exists s, (PComposite i qs r0). repeat split; auto. exists i, qs, r0. reflexivity.
  - left. right. right. right. destruct l as [|a' [|b' t']]; try discriminate E. injection E as <- <- <-.
    exists a', b', t'. rewrite !R. auto.
Qed.

End Decimal.

(** ** Reading is a function *)

Lemma read_part_fun dec p : forall a b, read_part dec p a -> read_part dec p b -> a = b.
Proof.
  remember (size p) as n eqn:E. assert (size p <= n)%nat as L by lia. clear E. revert p L.
  induction n as [|n IH]; intros p L a b A B; [destruct p; cbn in L; lia|].
  destruct p as [v r|s r|id ps r]; inversion A; inversion B; subst; try reflexivity.
  cbn [size] in L. f_equal.
  assert (forall q x y, In q ps -> read_part dec q x -> read_part dec q y -> x = y) as H.
  { intros q x y I0. apply IH. apply size_in in I0. lia. }
  clear A B. match goal with X : Forall2 _ ps ?u, Y : Forall2 _ ps ?v |- ?u = ?v => revert v Y; clear - H X;
    induction X as [|q x t u' P X IHX] end;
    intros v Y; inversion Y; subst; [reflexivity|].
  f_equal; [eapply H; [left; reflexivity|eassumption..]|]. apply IHX; [|assumption].
  intros; eapply H; [right; eassumption|eassumption..].
Qed.

Lemma read_fun dec ord s a b : read dec ord s a -> read dec ord s b -> a = b.
Proof.
  intros A B. inversion A; subst; inversion B; subst; try reflexivity;
    try (match goal with Y : false = false -> true = false |- _ => discriminate (Y eq_refl) end).
  f_equal. clear A B.
  match goal with X : Forall2 _ ?p ?u, Y : Forall2 _ ?p ?v |- ?u = ?v => revert v Y; clear - X;
    induction X as [|q x t u' P X IHX] end;
    intros v Y; inversion Y; subst; [reflexivity|].
  f_equal; [eapply read_part_fun; eassumption|]. apply IHX. assumption.
Qed.

Lemma read_all_fun dec ord l : forall a b, Forall2 (read dec ord) l a -> Forall2 (read dec ord) l b -> a = b.
Proof.
  induction l as [|s t IH]; intros a b A B; inversion A; inversion B; subst; [reflexivity|].
  f_equal; [eapply read_fun; eassumption|apply IH; assumption].
Qed.

(** ** Columns of a text without pairs *)

Lemma columns_plain l : (forall c, In c l -> ~ doubled c) -> forall a n, (l <> [] \/ ~ doubled a) ->
  (columns (a :: l ++ ["'"%char]) n <-> n = S (List.length l)).
Proof.
  induction l as [|b t IH]; intros H a n N; cbn [app List.length].
  - destruct N as [N|N]; [congruence|]. split.
    + intros C. inversion C as [| | c t n' D0 C' | a' b t n' D0 C']; subst; [tauto|]. inversion C'; subst. reflexivity.
    + intros ->. apply col_one; [tauto|constructor].
  - assert (~ doubled b) as NB by (apply H; left; reflexivity).
    assert (forall m, columns (b :: t ++ ["'"%char]) m <-> m = S (List.length t)) as E.
    { intros m. apply IH; [|auto]. intros; apply H; right; assumption. }
    split.
    + intros C. inversion C as [| | c t' n' D0 C' | a' b' t' n' D0 C']; subst; [tauto|]. apply E in C'. congruence.
    + intros ->. apply col_one; [intros [-> D0]; tauto|]. apply E. reflexivity.
Qed.
