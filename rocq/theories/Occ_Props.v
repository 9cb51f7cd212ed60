(** * Properties of the collector of occurrences: C57 *)
From Coq Require Import List Arith NArith Bool Lia.
From Verif Require Import Occ_Model Occ_Spec Occ_Proof.
Import ListNotations.

Section Props.
Variable intern : list N -> name.
Variable ord_char : N -> bool.
Variable is_digit : N -> bool.
Notation collected := (of_statement intern ord_char is_digit).
Notation stands := (statement_has intern ord_char is_digit).

(** What is collected from a statement are the symbols of the kind that stand in it, outside of the text and
    substring of strings, of subscripts and of lists in assembler operands. *)
Theorem C57_found : forall k s l, collected k s = Some l ->
  forall o, In o l <-> kind_of o = k /\ stands false k (symbol o) (at_ o) s.
Proof. intros k s. exact (statement_exact intern ord_char is_digit k s). Qed.

(** In a statement without such places every symbol is collected. *)
Theorem C57_complete : forall k s l, collected k s = Some l -> (forall n r, ~ stands true k n r s) ->
  forall n r, In (Occ k n r) l <-> exists h, stands h k n r s.
Proof.
  intros k s l E H n r. rewrite (C57_found k s l E (Occ k n r)). cbn. split.
  - intros [_ A]. eauto.
  - intros [[] A]; [destruct (H _ _ A)|auto].
Qed.

(** Nothing null is looked at unless a variable symbol is [&()]. *)
Theorem C57_safe : forall k s, ~ null_statement s -> exists l, collected k s = Some l.
Proof.
  intros k s H. destruct (collected k s) as [l|] eqn:E; [eauto|]. destruct (H (statement_null intern ord_char is_digit k s E)).
Qed.

(** The operand of COPY is found if it is a symbol. *)
Theorem C57_copy : forall copy s m r, copy_operand copy s = Some (Some (m, r)) <->
  opcode s = Some copy /\ operands_of s = Resolved [AsmExpr (Some (MSymbol m r))].
Proof.
  intros copy s m r. unfold copy_operand. destruct (opcode s) as [n|]; [|split; [discriminate|intros [E _]; discriminate]].
  destruct (operands_of s) as [l|l]; [|split; [discriminate|intros [_ E]; discriminate]].
  destruct l as [|o [|o' l]]; try (split; [discriminate|intros [_ E]; discriminate]).
  destruct (Nat.eqb_spec n copy) as [->|N]; [|split; [discriminate|intros [E _]; congruence]].
  split.
  - destruct o; try discriminate. destruct e as [[]|]; try discriminate. intros E. injection E as -> ->. auto.
  - intros [_ E]. injection E as ->. reflexivity.
Qed.

(** ** Findings *)

(** [&A SETC '&B'] and [&A SETC 'ABC'(&I,1)]: the symbols in the string are not found. *)
Theorem C57_string_refuted : exists s n r m q l, stands true VAR n r s /\ stands true VAR m q s /\
  collected VAR s = Some l /\ ~ In (Occ VAR n r) l /\ ~ In (Occ VAR m q) l.
Proof.
  set (b := Basic 2 ENil 20). set (i := Basic 3 ENil 30).
  exists (Stmt (LVar (Basic 1 ENil 10)) IEmpty
     (Resolved [CaExpr (ECons (String_ (Add (Var b) Empty) ENil (ECons (Variable_ i) (ECons Constant ENil))) ENil)]) None), 2, 20, 3, 30, [Occ VAR 1 10].
  split; [|split; [|split; [reflexivity|]]].
  - right. right. exists (CaExpr (ECons (String_ (Add (Var b) Empty) ENil (ECons (Variable_ i) (ECons Constant ENil))) ENil)).
    split; [left; reflexivity|]. cbn. apply es_here. apply eh_str with (h := false). apply ch_here. apply ph_var. constructor.
  - right. right. exists (CaExpr (ECons (String_ (Add (Var b) Empty) ENil (ECons (Variable_ i) (ECons Constant ENil))) ENil)).
    split; [left; reflexivity|]. cbn. apply es_here. apply eh_substr with (h := false). apply es_here. apply eh_var. constructor.
  - cbn. split; intros [H|[]]; discriminate.
Qed.

(** [&A(&I) SETA 1]: the symbol in the subscript is not found. *)
Theorem C57_subscript_refuted : exists s n r l, stands true VAR n r s /\ collected VAR s = Some l /\ ~ In (Occ VAR n r) l.
Proof.
  set (v := Basic 1 (ECons (Variable_ (Basic 3 ENil 30)) ENil) 10).
  exists (Stmt (LVar v) IEmpty (Resolved [CaExpr (ECons Constant ENil)]) None), 3, 30, [Occ VAR 1 10].
  split; [|split; [reflexivity|cbn; intros [H|[]]; discriminate]].
  left. cbn. apply vh_sub with (h := false). apply es_here. apply eh_var. constructor.
Qed.

(** [EXTRN PART(A)]: the symbols of the list are not found. *)
Theorem C57_list_refuted : exists s n r l, stands true ORD n r s /\ collected ORD s = Some l /\ l = [].
Proof.
  exists (Stmt LNone IEmpty (Resolved [AsmComplex [(5, 50)]]) None), 5, 50, [].
  split; [|split; reflexivity]. right. right. exists (AsmComplex [(5, 50)]). split; [left; reflexivity|]. cbn. auto.
Qed.

(** [&A SETA &()]: a null pointer is looked at. *)
Theorem C57_null_refuted : exists s, forall k, collected k s = None.
Proof.
  exists (Stmt (LVar (Basic 1 ENil 10)) IEmpty (Resolved [CaExpr (ECons (Variable_ NoVar) ENil)]) None). intros []; reflexivity.
Qed.

(** [COPY A(B)], [COPY (A,B)] and [COPY 'A']: the expression of an operand that has none is looked at. *)
Theorem C57_copy_refuted : forall copy lab ins o, (exists l, o = AsmComplex l) \/ (exists b e, o = AsmUsing b e) \/ o = AsmString ->
  copy_operand copy (Stmt lab ins (Resolved [o]) (Some copy)) = None.
Proof.
  intros copy lab ins o H. unfold copy_operand. cbn. rewrite Nat.eqb_refl.
  destruct H as [[l ->]|[(b & e & ->)| ->]]; reflexivity.
Qed.
End Props.

Print Assumptions C57_found.
Print Assumptions C57_complete.
Print Assumptions C57_safe.
Print Assumptions C57_copy.
Print Assumptions C57_string_refuted.
Print Assumptions C57_subscript_refuted.
Print Assumptions C57_list_refuted.
Print Assumptions C57_null_refuted.
Print Assumptions C57_copy_refuted.

(** [&(A&B) SETA X'...+&C*L'D] in the terms of the model: &B and &C are found, D as ordinary symbol. *)
Definition sample : statement :=
  Stmt (LVar (Created (Add (Text [65%N] 10) (Add (Var (Basic 2 ENil 11)) Empty)) ENil 12)) IEmpty
    (Resolved [CaExpr (ECons (Binary Constant (Binary (Variable_ (Basic 3 ENil 20)) (Attribute 4 21))) ENil)]) None.
Example C57_sample : forall i o d, of_statement i o d VAR sample = Some [Occ VAR 2 11; Occ VAR 3 20] /\
  of_statement i o d ORD sample = Some [Occ ORD 4 21] /\ ~ null_statement sample /\ (forall n r, ~ statement_has i o d true VAR n r sample).
Proof.
  intros i o d. split; [unfold of_statement, sample; cbn; destruct (d 65%N), (o 65%N); reflexivity|]. split; [reflexivity|]. split.
  - intros [H|[H|(x & [<-|[]] & H)]]; cbn in H; repeat match goal with H : _ \/ _ |- _ => destruct H | H : ?P |- _ => match P with False => destruct H | null_var _ => inversion H; clear H; subst | null_chain _ => inversion H; clear H; subst | null_point _ => inversion H; clear H; subst | null_chains _ => inversion H; clear H; subst | null_expr _ => inversion H; clear H; subst | null_exprs _ => inversion H; clear H; subst end end.
  - intros n r [H|[H|(x & [<-|[]] & H)]]; cbn in H; repeat match goal with H : ?P |- _ => match P with False => destruct H | var_has _ _ _ _ _ => inversion H; clear H; subst | chain_has _ _ _ _ _ => inversion H; clear H; subst | point_has _ _ _ _ _ => inversion H; clear H; subst | expr_has _ _ _ _ _ => inversion H; clear H; subst | exprs_has _ _ _ _ _ => inversion H; clear H; subst end end.
Qed.
