(** * How the checks report: at most once, and where *)
From Coq Require Import String Ascii.
From Coq Require Import List ZArith Bool Lia Arith ZifyBool ZifyNat.
From Verif Require Import Asm_Model Asm_Spec Asm_Base Asm_Values Asm_Options.
Import ListNotations.
Open Scope string_scope.
Open Scope list_scope.

Lemma T_ok ops stmt : tidy ops stmt ok.
Proof. left. reflexivity. Qed.
Lemma T_fail ops stmt c q : placed ops stmt q -> tidy ops stmt (fail c q).
Proof. right. eexists _, _. split; [reflexivity|assumption]. Qed.
Lemma T_need ops stmt b c q : placed ops stmt q -> tidy ops stmt (need b c q).
Proof. destruct b; [left; reflexivity|apply T_fail]. Qed.
Lemma T_then ops stmt x k : tidy ops stmt x -> (fst x = Yes -> tidy ops stmt k) -> tidy ops stmt (x ;; k).
Proof.
  intros [->|(c & q & -> & P)] K.
  - specialize (K eq_refl). cbn. destruct k as [v ds]. exact K.
  - right. exists c, q. split; [reflexivity|exact P].
Qed.
Lemma T_each ops stmt A (f : A -> res) l : (forall x, In x l -> tidy ops stmt (f x)) -> tidy ops stmt (each f l).
Proof.
  induction l as [|x t IH]; intros H; cbn [each]; [apply T_ok|].
  apply T_then; [apply H; left; reflexivity|]. intros _. apply IH. intros y I0. apply H. right. exact I0.
Qed.
Lemma T_each_i ops stmt A (f : nat -> A -> res) l : forall i,
  (forall j x, In x l -> tidy ops stmt (f j x)) -> tidy ops stmt (each_i f i l).
Proof.
  induction l as [|x t IH]; intros i H; cbn [each_i]; [apply T_ok|].
  apply T_then; [apply H; left; reflexivity|]. intros _. apply IH. intros j y I0. apply H. right. exact I0.
Qed.

(** ** Places *)

Definition inside (ops : list op) (p : op) : Prop := exists o, In o ops /\ within p o.

Lemma inside_op ops o : In o ops -> inside ops o.
Proof. intros H. exists o. split; [exact H|constructor]. Qed.

Lemma within_param p id ps r o : within (Complex id ps r) o -> In p ps -> within p o.
Proof.
  intros W I0. remember (Complex id ps r) as c eqn:E. induction W as [|o' p' id' ps' r' I1 W IH].
  - subst. econstructor; [exact I0|constructor].
  - econstructor; [exact I1|]. apply IH. exact E.
Qed.

Lemma inside_param ops id ps r p : inside ops (Complex id ps r) -> In p ps -> inside ops p.
Proof. intros (o & I0 & W) I1. exists o. split; [exact I0|]. eapply within_param; eauto. Qed.

Lemma at_stmt ops stmt : placed ops stmt stmt.
Proof. left. reflexivity. Qed.
Lemma at_op ops stmt p : inside ops p -> placed ops stmt (op_range p).
Proof. intros (o & I0 & W). right. left. exists o, p. auto. Qed.
Lemma at_simple ops stmt id d v r : inside ops (Simple id d v r) -> placed ops stmt r.
Proof. apply (at_op ops stmt (Simple id d v r)). Qed.
Lemma at_complex ops stmt id ps r : inside ops (Complex id ps r) -> placed ops stmt r.
Proof. apply (at_op ops stmt (Complex id ps r)). Qed.
Lemma at_empty ops stmt r : inside ops (Empty r) -> placed ops stmt r.
Proof. apply (at_op ops stmt (Empty r)). Qed.

#[local] Hint Resolve at_stmt at_op inside_op in_eq in_cons : asm.
#[local] Hint Extern 2 (placed _ _ _) => eapply at_simple : asm.
#[local] Hint Extern 2 (placed _ _ _) => eapply at_complex : asm.
#[local] Hint Extern 2 (placed _ _ _) => eapply at_empty : asm.
#[local] Hint Extern 3 (inside _ _) => eapply inside_param : asm.

Ltac pl := cbn [op_range head_range]; eauto 7 with asm.

(** One step: the outermost construct. A condition or a value that is matched is
    taken case by case. *)
Ltac step := match goal with
  | |- tidy _ _ ok => apply T_ok
  | |- tidy _ _ (fail _ _) => apply T_fail
  | |- tidy _ _ (need _ _ _) => apply T_need
  | |- tidy _ _ (_ ;; _) => apply T_then; [|intros ?Y]
  | |- tidy _ _ (each _ _) => apply T_each; intros ?x ?I0
  | |- tidy _ _ (each_i _ _ _) => apply T_each_i; intros ?i ?x ?I0
  | |- tidy _ _ (match ?x with _ => _ end) => destruct x eqn:?E
  | |- placed _ _ _ => solve [pl]
  end.

Lemma T_sizes ops stmt mn mx : tidy ops stmt (sizes mn mx ops stmt).
Proof. unfold sizes. repeat step. Qed.

Lemma tidy_title ops stmt : tidy ops stmt (check_title ops stmt).
Proof.
  unfold check_title. apply T_then; [apply T_sizes|]. rewrite sizes_yes, one_op. intros [o ->].
  repeat step.
Qed.
Lemma tidy_rmode ops stmt : tidy ops stmt (check_rmode ops stmt).
Proof. unfold check_rmode. apply T_then; [apply T_sizes|]. rewrite sizes_yes, one_op. intros [o ->]. repeat step. Qed.
Lemma tidy_amode ops stmt : tidy ops stmt (check_amode ops stmt).
Proof. unfold check_amode. apply T_then; [apply T_sizes|]. rewrite sizes_yes, one_op. intros [o ->]. repeat step. Qed.
Lemma tidy_punch ops stmt : tidy ops stmt (check_punch ops stmt).
Proof. unfold check_punch. apply T_then; [apply T_sizes|]. rewrite sizes_yes, one_op. intros [o ->]. repeat step. Qed.
Lemma tidy_print ops stmt : tidy ops stmt (check_print ops stmt).
Proof. unfold check_print. apply T_then; [apply T_sizes|]. intros _. repeat step. Qed.

Lemma tidy_stack_ops all stmt n ops : (forall o, In o ops -> In o all) ->
  forall i ac pr us, tidy all stmt (stack_ops stmt n i ac pr us ops).
Proof.
  induction ops as [|o t IH]; intros H i ac pr us; cbn [stack_ops]; [apply T_ok|].
  assert (In o all) as I0 by (apply H; left; reflexivity).
  assert (forall o, In o t -> In o all) as H' by (intros; apply H; right; assumption).
  specialize (IH H'). repeat first [apply IH | step].
Qed.
Lemma tidy_stack ops stmt : tidy ops stmt (check_stack ops stmt).
Proof. unfold check_stack. apply T_then; [apply T_sizes|]. intros _. apply tidy_stack_ops. auto. Qed.

Lemma tidy_org ops stmt : tidy ops stmt (check_org ops stmt).
Proof.
  unfold check_org. apply T_then; [apply T_sizes|]. intros _. destruct (one_comma ops); [apply T_ok|].
  apply T_then.
  - apply T_each_i. intros i x I0. unfold org_operand. repeat step.
  - intros _. repeat step.
Qed.

Lemma tidy_opsyn ops stmt : tidy ops stmt (check_opsyn ops stmt).
Proof. unfold check_opsyn. apply T_then; [apply T_sizes|]. intros _. repeat step. Qed.

Lemma back_in (ops : list op) : ops <> [] -> In (back ops) ops.
Proof.
  intros N. unfold back. rewrite (app_removelast_last (Empty no_range) N) at 2. apply in_or_app. right. left. reflexivity.
Qed.

Lemma sizes_nonempty mn mx ops stmt : (1 <= mn)%nat -> fst (sizes mn mx ops stmt) = Yes -> ops <> [].
Proof. rewrite sizes_yes. intros L [H _] ->. cbn in H. lia. Qed.

Lemma tidy_mnote ops stmt : tidy ops stmt (check_mnote ops stmt).
Proof.
  unfold check_mnote. apply T_then; [apply T_sizes|]. intros Y. apply sizes_nonempty in Y; [|lia].
  pose proof (back_in ops Y) as B. unfold mnote_first. repeat step.
Qed.

Lemma at_hull a b t stmt : placed (a :: b :: t) stmt (fst (op_range a), snd (op_range b)).
Proof. right. right. exists a, b, t. auto. Qed.

Lemma at_hull_simple a b t stmt ia da va ra ib db vb rb :
  a = Simple ia da va ra -> b = Simple ib db vb rb -> placed (a :: b :: t) stmt (fst ra, snd rb).
Proof. intros -> ->. apply (at_hull (Simple ia da va ra) (Simple ib db vb rb)). Qed.

#[local] Hint Resolve at_hull : asm.
#[local] Hint Extern 1 (placed _ _ (fst _, snd _)) => eapply at_hull_simple; reflexivity : asm.

Lemma tidy_iseq ops stmt : tidy ops stmt (check_iseq ops stmt).
Proof. unfold check_iseq. repeat first [step | progress cbv zeta]. Qed.

Lemma tidy_ictl ops stmt : tidy ops stmt (check_ictl ops stmt).
Proof.
  unfold check_ictl. apply T_then; [apply T_sizes|]. rewrite sizes_yes. intros [L1 L2].
  apply T_then; [repeat step|]. intros _.
  apply T_then; [apply T_each_i; intros i x I0; repeat step|]. intros _.
  destruct ops as [|a [|b [|c [|? ?]]]]; cbn [List.length] in *; try lia; cbv zeta; cbn [nth_error fail_at Nat.eqb orb].
  - change (72 =? 80)%Z with false. cbv iota. change ((72 <? 41) || (80 <? 72))%Z with false. cbv iota.
    change (16 =? -1)%Z with false. change ((16 <? 2) || (40 <? 16))%Z with false. cbv iota.
    destruct ((value_of a <? 1) || (40 <? value_of a))%Z eqn:E; [apply T_fail; pl|].
    assert ((72 <? value_of a + 5)%Z = false) as -> by lia. repeat step.
  - repeat step. discriminate.
  - repeat step.
Qed.

Lemma tidy_external ops stmt : tidy ops stmt (check_external ops stmt).
Proof.
  unfold check_external. apply T_then; [apply T_sizes|]. intros _. apply T_each. intros x I0. unfold external_operand.
  repeat step.
Qed.
Lemma tidy_exitctl ops stmt : tidy ops stmt (check_exitctl ops stmt).
Proof.
  unfold check_exitctl. apply T_then; [apply T_sizes|]. intros Y. apply sizes_nonempty in Y; [|lia].
  destruct ops as [|a t]; [congruence|]. unfold exit_value. repeat step.
Qed.
Lemma tidy_entry ops stmt : tidy ops stmt (check_entry ops stmt).
Proof. unfold check_entry. apply T_then; [apply T_sizes|]. intros _. repeat step. Qed.
Lemma tidy_end ops stmt : tidy ops stmt (check_end ops stmt).
Proof.
  unfold check_end. apply T_then; [apply T_sizes|]. intros _. apply T_then; [repeat step|]. intros _.
  destruct ops as [|a [|l [|? ?]]]; try apply T_ok.
  unfold end_language. destruct l as [|id ps r|]; [repeat step| |repeat step].
  apply T_then; [repeat step|]. rewrite need_yes. intros L. apply T_then; [repeat step|]. intros _.
  apply T_then; [repeat step|]. rewrite each_yes. intros F.
  destruct ps as [|x [|y [|z [|? ?]]]]; try discriminate L.
  inversion F as [|? ? F1 F']; subst. inversion F' as [|? ? F2 F'']; subst. inversion F'' as [|? ? F3 _]; subst.
  destruct x as [x dx vx rx| |]; try (cbn in F1; discriminate F1).
  destruct y as [y dy vy ry| |]; try (cbn in F2; discriminate F2).
  destruct z as [z dz vz rz| |]; try (cbn in F3; discriminate F3).
  repeat step.
Qed.

Lemma tidy_drop ops stmt : ~ (exists o, In o ops /\ (nameless o "" \/ nameless o "&")) -> tidy ops stmt (check_drop ops stmt).
Proof.
  intros N. unfold check_drop. destruct (one_comma ops); [apply T_ok|]. apply T_each. intros x I0. unfold drop_operand.
  destruct x as [id d v r| |]; [|repeat step..]. destruct d; cbn [negb]; [|repeat step].
  destruct id as [|c t].
  { exfalso. apply N. exists (Simple "" true v r). split; [exact I0|]. left. exists v, r. reflexivity. }
  unfold is_ord_symbol. cbn [chars list_ascii_of_string].
  destruct ((String.length (String c t) <=? 63)%nat && is_alpha c && forallb is_alnum (c :: list_ascii_of_string t)) eqn:E;
    [apply T_ok|].
  unfold is_var_symbol. destruct (Ascii.eqb c amp) eqn:EC; [|repeat step].
  destruct t as [|c' t']; cbn [is_ord_symbol chars list_ascii_of_string].
  - exfalso. apply N. apply Ascii.eqb_eq in EC. subst c. exists (Simple "&" true v r). split; [exact I0|]. right.
    exists v, r. reflexivity.
  - unfold is_ord_symbol. cbn [chars list_ascii_of_string]. repeat step.
Qed.

Lemma tidy_copy ops stmt : tidy ops stmt (check_copy ops stmt).
Proof. unfold check_copy. apply T_then; [apply T_sizes|]. rewrite sizes_yes, one_op. intros [o ->]. repeat step. Qed.
Lemma tidy_cnop ops stmt : tidy ops stmt (check_cnop ops stmt).
Proof.
  unfold check_cnop. apply T_then; [apply T_sizes|]. rewrite sizes_yes. intros [L1 L2].
  destruct ops as [|a [|b [|? ?]]]; cbn [List.length] in *; try lia. repeat first [step | progress cbv zeta].
Qed.
Lemma tidy_ccw ops stmt : tidy ops stmt (check_ccw ops stmt).
Proof. unfold check_ccw. apply T_then; [apply T_sizes|]. intros _. repeat step. Qed.
Lemma tidy_expr ops stmt : tidy ops stmt (check_expr ops stmt).
Proof.
  unfold check_expr. destruct ops as [|a t]; [apply T_ok|]. destruct (one_comma (a :: t)); [apply T_ok|].
  apply T_then; [apply T_sizes|]. intros _. repeat step.
Qed.
Lemma tidy_ainsert ops stmt : tidy ops stmt (check_ainsert ops stmt).
Proof.
  unfold check_ainsert. apply T_then; [apply T_sizes|]. rewrite sizes_yes. intros [L1 L2].
  destruct ops as [|a [|b [|? ?]]]; cbn [List.length] in *; try lia. repeat step.
Qed.
Lemma tidy_none ops stmt : tidy ops stmt (check_none ops stmt).
Proof. apply T_sizes. Qed.
Lemma tidy_using_instr ops stmt : tidy ops stmt (check_using_instr ops stmt).
Proof. apply T_sizes. Qed.
Lemma tidy_equ ops stmt : tidy ops stmt (check_equ ops stmt).
Proof. apply T_ok. Qed.

Lemma tidy_adata ops stmt :
  ~ (exists vs l s, ops = vs ++ [l] /\ text l s /\ s <> "" /\ ~ exists body, s = apostrophes body) ->
  tidy ops stmt (check_adata ops stmt).
Proof.
  intros N. unfold check_adata. apply T_then; [apply T_sizes|]. intros Y. apply sizes_nonempty in Y; [|lia].
  pose proof (back_in ops Y) as B.
  apply T_then.
  { apply T_each. intros x I0.
    assert (In x ops) as I1.
    { rewrite (app_removelast_last (Empty no_range) Y). apply in_or_app. left. exact I0. }
    unfold adata_value. repeat step. }
  intros _. destruct (back ops) as [id d v r|id ps r|r] eqn:E; [|repeat step..].
  assert ((String.length id =? 1)%nat || ((1 <? String.length id)%nat && negb (quoted id)) = false) as W.
  { destruct ((String.length id =? 1)%nat || ((1 <? String.length id)%nat && negb (quoted id))) eqn:W; [|reflexivity].
    exfalso. apply N. exists (removelast ops), (back ops), id.
    split; [apply app_removelast_last; exact Y|]. rewrite E. split; [apply simple_is|].
    split; [intros ->; discriminate W|]. intros Q. apply quoted_spec in Q. destruct Q as [L Q].
    rewrite Q in W. cbn [negb] in W. rewrite andb_false_r in W. lia. }
  rewrite W. apply T_then; [apply T_ok|]. intros _. repeat step.
Qed.

Lemma tidy_alias_pairs ops stmt r : placed ops stmt r -> forall n l, (List.length l <= n)%nat -> tidy ops stmt (alias_pairs r l).
Proof.
  intros P. induction n as [|n IH]; intros l L.
  - destruct l; [apply T_ok|cbn in L; lia].
  - destruct l as [|a [|b t]]; cbn [alias_pairs]; try apply T_ok. cbv zeta.
    cbn [List.length] in L. repeat first [apply IH; lia | assumption | step].
Qed.

Lemma tidy_alias ops stmt :
  ~ (exists o c body, ops = [o] /\ text o (String c (apostrophes body)) /\ c <> "C"%char /\ c <> "X"%char) ->
  tidy ops stmt (check_alias ops stmt).
Proof.
  intros N. unfold check_alias. apply T_then; [apply T_sizes|]. rewrite sizes_yes, one_op. intros [o ->].
  destruct o as [id d v r| |]; [|repeat step..]. apply T_then; [repeat step|]. intros _.
  destruct (enclosed (chars id)) as [body|] eqn:E.
  2:{ destruct (chars id) as [|? [|? ?]]; apply T_fail; pl. }
  apply enclosed_spec in E. destruct E as (c & b & -> & <-).
  change (chars (String c (apostrophes b))) with (c :: chars (apostrophes b)).
  rewrite chars_apostrophes. cbn [app].
  destruct (Ascii.eqb c "C") eqn:C; [repeat step|]. destruct (Ascii.eqb c "X") eqn:X.
  - apply T_then; [repeat step|]. intros _. eapply tidy_alias_pairs; [pl|reflexivity].
  - exfalso. apply N. eexists _, c, b. split; [reflexivity|]. split; [apply simple_is|].
    split; intros ->; [discriminate C|discriminate X].
Qed.

Lemma tidy_cattr ops stmt : tidy ops stmt (check_cattr ops stmt).
Proof.
  unfold check_cattr. apply T_then; [apply T_sizes|]. intros _. apply T_each. intros x I0. unfold cattr_operand.
  repeat step.
Qed.

Lemma tidy_ref_params ops stmt id all r ps : inside ops (Complex id all r) -> (forall p, In p ps -> In p all) ->
  forall cd di, tidy ops stmt (ref_params cd di ps).
Proof.
  intros I0. induction ps as [|p t IH]; intros H cd di; cbn [ref_params]; [apply T_ok|].
  assert (In p all) as I1 by (apply H; left; reflexivity).
  assert (forall q, In q t -> In q all) as H' by (intros; apply H; right; assumption).
  specialize (IH H'). repeat first [apply IH | step].
Qed.
Lemma tidy_xattr ops stmt : tidy ops stmt (check_xattr ops stmt).
Proof.
  unfold check_xattr. apply T_then; [apply T_sizes|]. intros _. apply T_each. intros x I0. unfold xattr_operand.
  repeat first [step | eapply tidy_ref_params; [apply inside_op; eassumption|auto]].
Qed.

(** ** Options *)

Lemma tidy_compat ops stmt id ps r : inside ops (Complex id ps r) -> tidy ops stmt (check_compat ps).
Proof. intros I0. unfold check_compat. repeat step. Qed.
Lemma tidy_typecheck ops stmt id ps r : inside ops (Complex id ps r) -> tidy ops stmt (check_typecheck ps).
Proof. intros I0. unfold check_typecheck. repeat step. Qed.
Lemma tidy_pcontrol ops stmt id ps r : inside ops (Complex id ps r) -> tidy ops stmt (check_pcontrol ps).
Proof. intros I0. unfold check_pcontrol. repeat step. Qed.
Lemma tidy_suprwarn ops stmt id ps r : inside ops (Complex id ps r) -> tidy ops stmt (check_suprwarn ps).
Proof. intros I0. unfold check_suprwarn. repeat step. Qed.
Lemma tidy_flag_operand ops stmt id d v r : inside ops (Simple id d v r) -> tidy ops stmt (check_flag_operand id d v r).
Proof. intros I0. unfold check_flag_operand. repeat step. Qed.
Lemma tidy_optable ops stmt id ps r : inside ops (Complex id ps r) -> ps <> [] -> tidy ops stmt (check_optable ps).
Proof. intros I0 N. unfold check_optable. destruct ps as [|a [|b t]]; [congruence|..]; repeat step. Qed.
Lemma tidy_xref ops stmt id ps r : inside ops (Complex id ps r) -> ps <> [] -> tidy ops stmt (check_xref ps).
Proof. intros I0 N. unfold check_xref. destruct ps as [|o t]; [congruence|]. repeat step. Qed.
Lemma tidy_fail ops stmt id ps r : inside ops (Complex id ps r) -> tidy ops stmt (check_fail ps).
Proof. intros I0. unfold check_fail. repeat step. Qed.

Lemma tidy_using ops stmt id ps r : inside ops (Complex id ps r) ->
  ~ (exists p q s z, In p ps /\ complex p "LIMIT" [q] /\ text q s /\ hex_literal s z /\ (2 ^ 64 <= z)%Z) ->
  tidy ops stmt (check_using ps).
Proof.
  intros I0 N. unfold check_using. apply T_each. intros x I1. destruct x as [i d v r'|i qs r'|r']; [repeat step| |repeat step].
  assert (inside ops (Complex i qs r')) as I2 by (eapply inside_param; eauto).
  apply T_then; [repeat step|]. rewrite need_yes, orb_true_iff, !eqb_eq. intros K.
  destruct qs as [|q [|q' t]]; [repeat step| |destruct q; repeat step].
  destruct q as [n d v r''| |]; [|repeat step..].
  destruct (String.eqb i "WARN") eqn:W; [repeat step|]. cbv zeta.
  destruct K as [->| ->]; [discriminate W|].
  assert (tidy ops stmt match stoi n with
                        | Some v0 => need (negb (4095 <? v0)%Z) "A231" r'
                        | None => fail "A230" r'
                        end) as DEC by repeat step.
  destruct (chars n) as [|c t] eqn:C; [exact DEC|]. destruct (Ascii.eqb c "X") eqn:X; [|exact DEC].
  destruct (enclosed (c :: t)) as [h|] eqn:EN; [|exact DEC]. destruct (is_value_hexa h) eqn:V; [|exact DEC].
  unfold is_value_hexa in V. apply andb_true_iff in V. destruct V as [V1 V2].
  assert (h <> []) as HN by (destruct h; [discriminate V1|discriminate]).
  rewrite (stoul_digits h V2 HN). destruct (hexadecimal 0 h <? 2 ^ 64)%Z eqn:B; [repeat step|].
  exfalso. apply N. eexists _, (Simple n d v r''), n, (hexadecimal 0 h). split; [exact I1|].
  split; [apply complex_is; auto|]. split; [apply simple_is|]. split; [|lia].
  apply Ascii.eqb_eq in X. subst c.
  apply hex_literal_spec; auto; [rewrite C; exact EN|unfold first_char; rewrite C; reflexivity].
Qed.

Lemma tidy_process_flag ops stmt id ps r : inside ops (Complex id ps r) ->
  ~ (exists p s, In p ps /\ text p s /\ In s (with_no ["PUSH"; "PU"; "RECORD"; "RC"])) ->
  tidy ops stmt (check_process_flag ps).
Proof.
  intros I0 N. unfold check_process_flag. apply T_each. intros x I1.
  destruct x as [i d v r'|i qs r'|r']; [|repeat step..].
  assert (inside ops (Simple i d v r')) as I2 by (eapply inside_param; eauto).
  destruct (tidy_flag_operand ops stmt i d v r' I2) as [->|(c & q & -> & P)]; [left; reflexivity|].
  destruct (mem i other_pairs) eqn:M; [|right; exists c, q; auto].
  exfalso. apply N. exists (Simple i d v r'), i. split; [exact I1|]. split; [apply simple_is|].
  apply mem_in in M. revert M. apply in_forallb. vm_compute. reflexivity.
Qed.

Lemma tidy_acontrol ops stmt : tidy ops stmt (check_acontrol ops stmt).
Proof.
  unfold check_acontrol. apply T_then; [apply T_sizes|]. intros _. apply T_each. intros x I0.
  apply inside_op in I0. unfold acontrol_operand.
  destruct x as [id d v r|id ps r|r]; [repeat step| |repeat step].
  apply T_then; [repeat step|]. intros _. apply T_then; [repeat step|]. rewrite need_yes, length_zero. intros N.
  repeat first [ eapply tidy_compat; exact I0 | eapply tidy_typecheck; exact I0
               | eapply tidy_optable; [exact I0|exact N] | step ].
  eapply tidy_flag_operand. eapply inside_param; [exact I0|assumption].
Qed.

Lemma codepage_quiet s : check_codepage s = ok \/ fst (check_codepage s) <> Yes.
Proof.
  unfold check_codepage, need. destruct (chars s) as [|c t]; [right; discriminate|].
  destruct (Ascii.eqb c "X").
  - destruct (enclosed _); [|right; discriminate]. destruct (forallb _ _); [|right; discriminate].
    destruct (stoul16 _); [|right; discriminate]. cbv zeta. destruct (negb _); [left; reflexivity|right; discriminate].
  - destruct (has_all_digits s); [|right; discriminate]. destruct (stoi s); [|right; discriminate].
    destruct (negb _); [left; reflexivity|right; discriminate].
Qed.

Lemma tidy_process_operand ops stmt o : inside ops o -> ~ strange_option o -> tidy ops stmt (check_process_operand o).
Proof.
  intros I0 N. destruct o as [id d v r|id ps r|r]; cbn [check_process_operand]; [repeat step| |repeat step].
  apply T_then; [repeat step|]. intros K.
  destruct (String.eqb id "FAIL") eqn:E1; [eapply tidy_fail; exact I0|].
  destruct (String.eqb id "USING" || String.eqb id "US") eqn:E2.
  { eapply tidy_using; [exact I0|]. intros (p & q & s & z & H). apply N. right. right.
    exists id, ps, p, q, s, z. split; [apply complex_is; auto|].
    split; [apply orb_true_iff in E2; rewrite !eqb_eq in E2; cbn; intuition congruence|exact H]. }
  destruct (mem id one_simple_param) eqn:E3.
  { destruct ps as [|p [|q t]]; [repeat step| |repeat step].
    destruct (String.eqb id "CODEPAGE" || String.eqb id "CP") eqn:E4; [|repeat step].
    destruct p as [i d v r'| |]; [|repeat step..].
    destruct (codepage_quiet i) as [E|E]; [rewrite E; apply T_ok|].
    exfalso. apply N. right. left. eexists id, _, i. split; [apply complex_is; auto|].
    split; [apply orb_true_iff in E4; rewrite !eqb_eq in E4; cbn; intuition congruence|]. split; [apply simple_is|].
    intros C. apply codepage_yes in C. contradiction. }
  destruct (mem id two_simple_param) eqn:E4.
  { apply T_then; [repeat step|]. rewrite need_yes. intros L.
    assert (ps <> []) as NE by (intros ->; discriminate L).
    destruct (String.eqb id "MACHINE" || String.eqb id "MAC").
    - destruct ps as [|a t]; [congruence|]. repeat step.
    - eapply tidy_optable; [exact I0|exact NE]. }
  apply T_then; [repeat step|]. rewrite need_yes, length_zero. intros NE.
  destruct (String.eqb id "COMPAT" || String.eqb id "CPAT") eqn:F1; [eapply tidy_compat; exact I0|].
  destruct (String.eqb id "TYPECHECK" || String.eqb id "TC") eqn:F2; [eapply tidy_typecheck; exact I0|].
  destruct (String.eqb id "PCONTROL" || String.eqb id "PC") eqn:F3; [eapply tidy_pcontrol; exact I0|].
  destruct (String.eqb id "XREF") eqn:F4; [eapply tidy_xref; [exact I0|exact NE]|].
  destruct (mem id ["SUPRWARN"; "SUP"; "NOSUPRWARN"; "NOSUP"]) eqn:F5; [eapply tidy_suprwarn; exact I0|].
  destruct (String.eqb id "FLAG") eqn:F6.
  { eapply tidy_process_flag; [exact I0|]. intros (p & s & H). apply N. left. exists ps, p, s.
    apply String.eqb_eq in F6. subst id. split; [apply complex_is; auto|exact H]. }
  exfalso. rewrite need_yes in K. 
  rewrite !orb_true_iff, !mem_in in K. destruct K as [[[K|K]|K]|K]; try discriminate K; each_word K; discriminate.
Qed.

Lemma tidy_process ops stmt :
  ~ ((exists o, In o ops /\ strange_option o)
     \/ exists o ps p, ops = [o] /\ complex o "OVERRIDE" ps /\ In p ps /\ strange_option p) ->
  tidy ops stmt (check_process ops stmt).
Proof.
  intros N. unfold check_process. apply T_then; [apply T_sizes|]. intros Y. apply sizes_nonempty in Y; [|lia].
  assert (tidy ops stmt (each check_process_operand ops)) as EA.
  { apply T_each. intros x I0. apply tidy_process_operand; [apply inside_op; exact I0|]. intros S0. apply N. left. eauto. }
  destruct ops as [|o [|o' t]]; [congruence| |destruct o; exact EA].
  destruct o as [id d v r|id ps r|r]; try exact EA. destruct (String.eqb id "OVERRIDE") eqn:E; [|exact EA].
  apply String.eqb_eq in E. subst id. apply T_each. intros x I0. apply tidy_process_operand.
  - eapply inside_param; [apply inside_op; left; reflexivity|exact I0].
  - intros S0. apply N. right. eexists _, ps, x. split; [reflexivity|]. split; [apply complex_is; auto|auto].
Qed.

(** ** All of them *)

Lemma tidy_settled ops stmt c : tidy ops stmt c ->
  tidy ops stmt (let (v, ds) := c in match v with Yes => (Yes, ds) | Undefined => (Undefined, ds) | _ => (No, ds) end).
Proof. intros [->|(x & q & -> & P)]; [left; reflexivity|right; exists x, q; auto]. Qed.

Lemma tidy_check name ops stmt : In name (map fst accepts) -> ~ strange name ops -> tidy ops stmt (asm_check name ops stmt).
Proof.
  intros I0 N. unfold strange in N. unfold asm_check. unfold accepts in I0. cbn [map fst In] in I0.
  repeat match type of I0 with _ \/ _ => destruct I0 as [I0|I0] end; [..|destruct I0].
  all: subst name.
  all: match goal with |- context [lookup ?n checkers] =>
         let v := eval lazy [lookup checkers String.eqb Ascii.eqb Bool.eqb] in (lookup n checkers) in
         change (lookup n checkers) with v; cbv iota end.
  all: apply tidy_settled.
  all: first [ apply tidy_process; intros H; apply N; tauto | apply tidy_acontrol | apply tidy_adata; intros H; apply N; tauto
             | apply tidy_ainsert | apply tidy_alias; intros H; apply N; tauto
             | apply tidy_amode | apply tidy_cattr | apply tidy_ccw | apply tidy_expr | apply tidy_cnop | apply tidy_none
             | apply tidy_copy | apply tidy_drop; intros H; apply N; tauto | (exfalso; apply N; tauto)
             | apply tidy_end | apply tidy_entry | apply tidy_equ
             | apply tidy_exitctl | apply tidy_external | apply tidy_ictl | apply tidy_iseq | apply tidy_mnote
             | apply tidy_opsyn | apply tidy_org | apply tidy_stack | apply tidy_print | apply tidy_punch
             | apply tidy_rmode | apply tidy_title | apply tidy_using_instr | apply tidy_xattr ].
Qed.
