(** * Which messages a check gives *)
From Coq Require Import String Ascii.
From Coq Require Import List ZArith Bool Lia Arith.
From Verif Require Import Asm_Model Asm_Spec Asm_Base Asm_Values Asm_Options Asm_Process Asm_Tidy Asm_Count.
Import ListNotations.
Open Scope string_scope.
Open Scope list_scope.

Definition only (L : list string) (r : res) : Prop := forall d, In d (snd r) -> mem (d_code d) L = true.

Section Only.
Variable L : list string.
Lemma O_ok : only L ok.
Proof. intros d []. Qed.
Lemma O_none v : only L (v, []).
Proof. intros d []. Qed.
Lemma O_fail c q : mem c L = true -> only L (fail c q).
Proof. intros H d [<-|[]]. exact H. Qed.
Lemma O_need b c q : mem c L = true -> only L (need b c q).
Proof. destruct b; [intros _; apply O_ok|apply O_fail]. Qed.
Lemma O_then x k : only L x -> only L k -> only L (x ;; k).
Proof.
  intros X K d. destruct x as [[] ds], k as [v ds']; cbn [andthen snd]; try apply X.
  rewrite in_app_iff. intros [H|H]; [apply X; exact H|apply K; exact H].
Qed.
Lemma O_each A (f : A -> res) l : (forall x, only L (f x)) -> only L (each f l).
Proof. intros H. induction l; cbn [each]; [apply O_ok|apply O_then; auto]. Qed.
Lemma O_each_i A (f : nat -> A -> res) l : (forall j x, only L (f j x)) -> forall i, only L (each_i f i l).
Proof. intros H. induction l; intros i; cbn [each_i]; [apply O_ok|apply O_then; auto]. Qed.
(** only the message that belongs to the range *)
Lemma O_sizes mn mx ops stmt :
  mem (match mx with None => "A010" | Some m => if (mn =? m)%nat then "A011" else if (m =? mn + 1)%nat then "A013" else "A012" end) L = true ->
  only L (sizes mn mx ops stmt).
Proof.
  unfold sizes. cbv zeta. intros H. destruct (_ && _); [apply O_ok|]. destruct mx as [m|]; [|apply O_fail; exact H].
  destruct (mn =? m)%nat; [apply O_fail; exact H|]. destruct (m =? mn + 1)%nat; apply O_fail; exact H.
Qed.
End Only.

Ltac ostep := match goal with
  | |- only _ ok => apply O_ok
  | |- only _ (_, []) => apply O_none
  | |- only _ (fail _ _) => apply O_fail; reflexivity
  | |- only _ (fail_at _ _) => unfold fail_at
  | |- only _ (need _ _ _) => apply O_need; reflexivity
  | |- only _ (sizes _ _ _ _) => apply O_sizes; reflexivity
  | |- only _ (_ ;; _) => apply O_then
  | |- only _ (each _ _) => apply O_each; intros ?x
  | |- only _ (each_i _ _ _) => apply O_each_i; intros ?i ?x
  | |- only _ (let _ := _ in _) => cbv zeta
  | |- only _ (match ?x with _ => _ end) => destruct x
  end.
Ltac o := repeat ostep.

Lemma o_stack stmt n ops : forall i ac pr us, only ["A012"; "A110"; "A111"; "A112"; "A113"; "A114"] (stack_ops stmt n i ac pr us ops).
Proof. induction ops as [|x t IH]; intros; cbn [stack_ops]; repeat first [apply IH | ostep]. Qed.
Lemma o_ref ps : forall cd di,
  only ["A001"; "A010"; "A016"; "A018"; "A100"; "A200"; "A201"; "A202"; "A203"; "A238"] (ref_params cd di ps).
Proof. induction ps as [|x t IH]; intros; cbn [ref_params]; repeat first [apply IH | ostep]. Qed.
Lemma o_pairs r n : forall l, (List.length l <= n)%nat ->
  only ["A011"; "A151"; "A152"; "A153"; "A154"; "A155"] (alias_pairs r l).
Proof.
  induction n as [|n IH]; intros l L; destruct l as [|a [|b t]]; cbn [alias_pairs List.length] in *; try lia; o.
  all: apply IH; lia.
Qed.
Lemma o_process_flag L ps : mem "A210" L = true -> mem "A211" L = true -> only L (check_process_flag ps).
Proof.
  intros H1 H2. unfold check_process_flag. apply O_each. intros [i d v r| |]; [|apply O_fail; exact H2..].
  assert (only L (check_flag_operand i d v r)) as H.
  { unfold check_flag_operand. destruct (mem i flag_words); [apply O_ok|]. destruct (_ && _); [apply O_need|apply O_fail]; assumption. }
  destruct (check_flag_operand i d v r) as [[] ds]; cbn [snd] in *; try exact H;
    destruct (mem i other_pairs); exact H.
Qed.

Lemma only_settled L c : only L c ->
  only L (let (v, ds) := c in match v with Yes => (Yes, ds) | Undefined => (Undefined, ds) | _ => (No, ds) end).
Proof. intros H d. specialize (H d). destruct c as [[] ds]; exact H. Qed.

Lemma check_codes name L ops stmt d : In (name, L) codes -> In d (snd (asm_check name ops stmt)) -> In (d_code d) L.
Proof.
  intros I0 H. apply mem_in. revert d H. change (only L (asm_check name ops stmt)). unfold codes in I0. cbn [In] in I0. unfold asm_check.
  repeat match type of I0 with _ \/ _ => destruct I0 as [I0|I0] end; [..|destruct I0].
  all: injection I0 as <- <-.
  all: match goal with |- context [lookup ?n checkers] =>
         let v := eval lazy [lookup checkers String.eqb Ascii.eqb Bool.eqb] in (lookup n checkers) in
         change (lookup n checkers) with v; cbv iota end.
  all: apply only_settled.
  - unfold check_process. apply O_then; [o|].
    assert (forall x, only ["A010"; "A015"; "A016"; "A018"; "A021"; "A162"; "A209"; "A210"; "A211"; "A212"; "A213"; "A214"; "A215"; "A216";
                  "A217"; "A218"; "A219"; "A220"; "A221"; "A222"; "A223"; "A224"; "A225"; "A226"; "A227"; "A228"; "A229"; "A230";
                  "A231"; "A232"; "A233"; "A234"; "A235"; "A236"; "A237"] (check_process_operand x)) as P.
    { intros x. unfold check_process_operand, check_fail, check_using, check_compat, check_typecheck, check_pcontrol, check_xref,
        check_suprwarn, check_codepage, check_optable.
      repeat first [apply o_process_flag; reflexivity | ostep]. }
    repeat first [apply P | ostep].
  - unfold check_acontrol, acontrol_operand, check_compat, check_typecheck, check_optable, check_flag_operand. o.
  - unfold check_adata, adata_value. apply O_then; [o|]. apply O_then; [o|]. destruct (back ops); [|o..]. cbv zeta.
    apply O_then; [|o]. destruct (_ || _); [intros d [<-|[]]; reflexivity|o].
  - unfold check_ainsert. o.
  - unfold check_alias. o. eapply o_pairs. reflexivity.
  - unfold check_amode. o.
  - unfold check_cattr, cattr_operand. o.
  - unfold check_ccw. o.
  - unfold check_ccw. o.
  - unfold check_ccw. o.
  - unfold check_expr. o.
  - unfold check_expr. o.
  - unfold check_expr. o.
  - unfold check_cnop. o.
  - unfold check_none. o.
  - unfold check_none. o.
  - unfold check_none. o.
  - unfold check_none. o.
  - unfold check_none. o.
  - unfold check_none. o.
  - unfold check_none. o.
  - unfold check_none. o.
  - unfold check_none. o.
  - unfold check_copy. o.
  - unfold check_drop, drop_operand. o.
  - unfold check_dxd. apply O_then; [o|]. destruct ops as [|a t]; [o|]. intros d I0. cbn [snd] in I0.
    apply in_map_iff in I0. destruct I0 as (x & <- & _). reflexivity.
  - unfold check_end, end_language. o.
  - unfold check_entry. o.
  - unfold check_equ. o.
  - unfold check_exitctl, exit_value. o.
  - unfold check_external, external_operand. o.
  - unfold check_external, external_operand. o.
  - unfold check_ictl. o.
  - unfold check_iseq. o.
  - unfold check_mnote, mnote_first. o.
  - unfold check_opsyn. o.
  - unfold check_org, org_operand. o.
  - unfold check_stack. apply O_then; [o|apply o_stack].
  - unfold check_stack. apply O_then; [o|apply o_stack].
  - unfold check_print. o.
  - unfold check_punch. o.
  - unfold check_rmode. o.
  - unfold check_title. o.
  - unfold check_using_instr. o.
  - unfold check_xattr, xattr_operand. repeat first [apply o_ref | ostep].
Qed.

Lemma codes_names name : In name (map fst codes) <-> In name (map fst accepts).
Proof. cbn. tauto. Qed.
