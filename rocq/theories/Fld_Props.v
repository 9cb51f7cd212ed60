(** * Fld_Props: C114, operand fields from their characters *)
From Coq Require Import String Ascii List NArith ZArith Bool Arith Lia ZifyBool ZifyNat ZifyN.
From Verif Require Import Common Lex_Model Fld_Model Fld_Spec Fld_Lex Fld_Proof Fld_Terms Fld_Expr.
From Verif Require Import Gram_Model Gram_Spec Gram_Proof Gram_Ops.
From Verif Require Ca_Spec Ebc_Spec Ebc_Model.
Import ListNotations.
Open Scope list_scope.
Notation length := List.length.

Lemma symbol_line : forall n, symbol n -> Forall on_the_line n.
Proof.
  intros [|c r] (H & _); [destruct H|]. destruct H as (A & B). constructor.
  - unfold letter, national, on_the_line in *. lia.
  - eapply Forall_impl; [|exact B]. intros x. cbn beta. unfold letter, national, Fld_Spec.digit, on_the_line. lia.
Qed.
Ltac line := match goal with
  | |- Forall _ (_ ++ _) => apply Forall_app; split; line
  | |- Forall _ (_ :: _) => constructor; [split; discriminate|line]
  | |- Forall _ [] => constructor
  | |- _ => auto
  end.
Lemma doubled_line : forall s, Forall on_the_line s -> Forall on_the_line (flat_map doubled s).
Proof.
  induction 1 as [|c s H F IH]; [constructor|]. cbn [flat_map]. apply Forall_app. split; [|exact IH].
  unfold doubled. destruct (_ || _); auto.
Qed.
Lemma written_line : forall e, regular e -> Forall on_the_line (written e).
Proof.
  induction e as [n|q n|d|t s|a n| |b e IH|e IH|o l IHl r IHr]; cbn [regular written]; intros H.
  - now apply symbol_line.
  - destruct H. apply Forall_app. split; [now apply symbol_line|]. constructor; [split; discriminate|now apply symbol_line].
  - destruct H as (_ & H). eapply Forall_impl; [|exact H]. intros x. unfold Fld_Spec.digit, on_the_line. lia.
  - destruct H as (Ht & H). constructor; [split; intros ->; cbn in Ht; intuition discriminate|]. constructor; [split; discriminate|].
    apply Forall_app. split; [now apply doubled_line|]. constructor; [split; discriminate|constructor].
  - destruct H as (Ha & H). constructor; [split; intros ->; cbn in Ha; intuition discriminate|]. constructor; [split; discriminate|now apply symbol_line].
  - line.
  - destruct H. constructor; [destruct b; split; discriminate|auto].
  - line.
  - destruct H as (_ & H1 & H2). apply Forall_app. split; [auto|]. constructor; [destruct o; split; discriminate|auto].
Qed.
Lemma op_line : forall o, op_regular o -> Forall on_the_line (op_written o).
Proof. intros o H. pose proof written_line as W. destruct o; cbn [op_regular op_written] in *; repeat match goal with H : _ /\ _ |- _ => destruct H end; line. Qed.
Lemma field_line : forall l o, op_regular o -> Forall op_regular l -> Forall on_the_line (field o l).
Proof.
  induction l as [|o2 l IH]; intros o Ho Hl; cbn [field]; [now apply op_line|]. inversion Hl; subst.
  apply Forall_app. split; [now apply op_line|]. constructor; [split; discriminate|auto].
Qed.
Lemma remark_line : forall r, remark r -> Forall on_the_line r.
Proof. intros [|c r] H; [constructor|]. destruct H as (-> & H). constructor; [split; discriminate|exact H]. Qed.

Lemma field_tokens : forall wide u text col, 0 < col -> Forall on_the_line text -> u = true \/ col + length text <= 71 ->
  exists ts, tokens (2 * @length char text + 3) wide u text (field_lexer text col) = Some ts /\ Toks false 0 text ts.
Proof.
  intros wide u text col Hc Hl Hf. change (@length BinNums.N text) with (@length char text) in *.
  apply (tokens_on wide u text col Hc Hl Hf _ 0); [|lia].
  unfold on, field_lexer; cbn. repeat split; try lia; try discriminate; try constructor.
Qed.

(** ** Operand fields are read as they are written *)
Theorem C114_reads : forall wide u col o l r ms,
  op_regular o -> Forall op_regular l -> remark r -> 0 < col ->
  u = true \/ col + length (field o l ++ r) <= 71 ->
  field_reading 0 o l ms -> (o, l) <> (WNone, []) ->
  mach_field wide u (field o l ++ r) col = Some ms.
Proof.
  intros wide u col o l r ms Ho Hl Hr Hc Hf Rd Ne.
  assert (Ln : Forall on_the_line (field o l ++ r)) by (apply Forall_app; split; [now apply field_line|now apply remark_line]).
  destruct (field_tokens wide u _ col Hc Ln Hf) as (ts & E & T). unfold mach_field. rewrite E.
  destruct (list_field l o 0 ms Ho Hl Rd r ts Hr T) as (ks & x & Ek & Ls). rewrite Ek.
  apply mach_ops_iff in Ls. rewrite Ls. f_equal. unfold cleared. clear -Rd Ne.
  destruct ms as [|m [|m2 ms]]; try reflexivity.
  { destruct m; try reflexivity. exfalso. inversion Rd as [? ? ? Ro|? ? ? ? ? ? Ro Rl]; subst.
    - inversion Ro; subst. now apply Ne.
    - inversion Rl. }
  destruct m; reflexivity.
Qed.
Print Assumptions C114_reads.

(** A field without operands has none, whatever the remark. *)
Theorem C114_none : forall wide u col r, remark r -> 0 < col -> u = true \/ col + length r <= 71 ->
  mach_field wide u r col = Some [].
Proof.
  intros wide u col r Hr Hc Hf.
  destruct (field_tokens wide u r col Hc (remark_line r Hr) Hf) as (ts & E & T). unfold mach_field. rewrite E.
  destruct (list_field [] WNone 0 [OpEmpty 0] Logic.I (Forall_nil _) (fr_one _ _ _ (or_none 0)) r ts Hr T) as (ks & x & Ek & Ls). rewrite Ek.
  apply mach_ops_iff in Ls. rewrite Ls. reflexivity.
Qed.
Print Assumptions C114_none.

(** One text, one reading: writing is never ambiguous, wherever the remark is
    taken to begin. *)
Theorem C114_one_reading : forall o l r ms o' l' r' ms',
  op_regular o -> Forall op_regular l -> remark r -> field_reading 0 o l ms -> (o, l) <> (WNone, []) ->
  op_regular o' -> Forall op_regular l' -> remark r' -> field_reading 0 o' l' ms' -> (o', l') <> (WNone, []) ->
  field o l ++ r = field o' l' ++ r' -> ms = ms'.
Proof.
  intros o l r ms o' l' r' ms' A B C D E A' B' C' D' E' X.
  pose proof (C114_reads (fun _ => false) true 1 o l r ms A B C ltac:(lia) (or_introl eq_refl) D E) as H1.
  pose proof (C114_reads (fun _ => false) true 1 o' l' r' ms' A' B' C' ltac:(lia) (or_introl eq_refl) D' E') as H2.
  rewrite X, H2 in H1. now injection H1.
Qed.
Print Assumptions C114_one_reading.

(** The remark and the column have no part in it. *)
Theorem C114_apart : forall wide wide' u u' col col' o l r r' ms,
  op_regular o -> Forall op_regular l -> remark r -> remark r' -> 0 < col -> 0 < col' ->
  u = true \/ col + length (field o l ++ r) <= 71 -> u' = true \/ col' + length (field o l ++ r') <= 71 ->
  field_reading 0 o l ms ->
  mach_field wide u (field o l ++ r) col = mach_field wide' u' (field o l ++ r') col'.
Proof.
  intros wide wide' u u' col col' o l r r' ms A B C C' D D' F F' R.
  assert (X : (o, l) = (WNone, []) \/ (o, l) <> (WNone, [])).
  { destruct l; [|right; discriminate]. destruct o; [now left|..]; right; discriminate. }
  destruct X as [X|X].
  - injection X as -> ->. cbn [field op_written app] in *. now rewrite !C114_none.
  - now rewrite (C114_reads wide u col o l r ms), (C114_reads wide' u' col' o l r' ms).
Qed.
Print Assumptions C114_apart.

(** ** Findings *)
Definition cs (s : string) : list N := map N_of_ascii (list_ascii_of_string s).
Open Scope string_scope.

(** The qualifier of a symbol is lost: Q.R and S.R are the same operand. *)
Theorem C114_qualifier_refuted : ~ (forall q q' n, symbol q -> symbol q' -> symbol n -> length q = length q' ->
  mach_field (fun _ => false) true (q ++ 46%N :: n) 10 = mach_field (fun _ => false) true (q' ++ 46%N :: n) 10 -> q = q').
Proof.
  intros H. assert (S : forall c, In c (cs "QSR") -> symbol [c]).
  { intros c I. split; [|cbn; lia]. split; [|constructor]. left. unfold letter. cbn in I. lia. }
  specialize (H (cs "Q") (cs "S") (cs "R") (S 81%N ltac:(cbn; auto)) (S 83%N ltac:(cbn; auto)) (S 82%N ltac:(cbn; auto)) eq_refl ltac:(vm_compute; reflexivity)). discriminate.
Qed.
Print Assumptions C114_qualifier_refuted.

(** Without the bound of 63 characters a symbol is not read at all. *)
Theorem C114_long_refuted : ~ (forall n, n <> [] -> Forall letter n ->
  exists ms, mach_field (fun _ => false) true n 10 = Some ms).
Proof.
  intros H. destruct (H (repeat 65%N 64) ltac:(discriminate)) as (ms & E).
  - apply Forall_forall. intros x I. apply repeat_spec in I. subst x. left. lia.
  - vm_compute in E. discriminate.
Qed.
Print Assumptions C114_long_refuted.

(** A term whose value does not fit is read as zero (and reported). *)
Theorem C114_overflow : mach_field (fun _ => false) true (cs "X'123456789'") 10
  = Some [OpExpr (MAtom (AConstant 0) (0, 12)) (0, 12)].
Proof. vm_compute. reflexivity. Qed.
Print Assumptions C114_overflow.

(** ** Examples *)
Ltac a_symbol := split; [split; [unfold letter, national; cbn; lia|repeat (apply Forall_cons; [unfold letter, national, Fld_Spec.digit; cbn; lia|]); apply Forall_nil]|cbn; lia].
Definition e1 : wexpr := WBinary OAdd (WSymbol (cs "a@1")) (WBinary OMul (WAttribute 76 (cs "BC")) (WTerm 88 (cs "D"))).
Definition e2 : wexpr := WSign true (WParen (WBinary OSub WLocation (WNumber (cs "12")))).
Example C114_ex : mach_field (fun _ => false) false (cs "a@1+L'BC*X'D'(,-(*-12)),Q.R L'rem '") 10
  = mach_field (fun _ => false) false (field (WNoIndex e1 e2) [WExpr (WQualified (cs "Q") (cs "R"))] ++ cs " L'rem '") 10
  /\ op_regular (WNoIndex e1 e2) /\ op_regular (WExpr (WQualified (cs "Q") (cs "R"))) /\ remark (cs " L'rem '") /\
  exists ms, field_reading 0 (WNoIndex e1 e2) [WExpr (WQualified (cs "Q") (cs "R"))] ms.
Proof.
  split; [reflexivity|]. split.
  { split.
    - split; [cbn; lia|]. split; [a_symbol|]. split; [cbn; lia|]. split; [split; [cbn; auto 9|a_symbol]|].
      split; [cbn; auto|]. apply Forall_cons; [split; discriminate|apply Forall_nil].
    - split; [reflexivity|]. split; [cbn; lia|]. split; [exact Logic.I|]. split; [discriminate|].
      repeat (apply Forall_cons; [unfold Fld_Spec.digit; cbn; lia|]). apply Forall_nil. }
  split; [split; a_symbol|]. split.
  { split; [reflexivity|]. repeat (apply Forall_cons; [split; discriminate|]). apply Forall_nil. }
  eexists. apply fr_more; [|apply fr_one; constructor; apply r_qualified].
  apply or_no_index.
  - apply r_binary; [apply r_symbol|]. apply r_binary; [apply r_attribute|]. apply r_term.
    apply (v_hex 88 (cs "D") [13%Z]); [reflexivity|discriminate| |cbn; lia].
    apply Forall2_cons; [left; right; cbn; lia|constructor].
  - apply r_sign, r_paren, r_binary; [apply r_location|]. apply (r_number _ (cs "12") [1; 2]%Z); [|cbn; lia|cbn; lia].
    repeat (apply Forall2_cons; [split; cbn; lia|]). apply Forall2_nil.
Qed.
(** Strings with doubled apostrophes and ampersands: C'L''&&' is three
    characters. *)
Example C114_ex_string : written (WTerm 67 (cs "L'&")) = cs "C'L''&&'" /\
  valued 67 (cs "L'&") (Ca_Spec.signed_of (Ca_Spec.numeral 256 [211; 125; 80]%Z)) /\
  mach_field (fun _ => false) true (cs "C'L''&&'") 10 = Some [OpExpr (MAtom (AConstant 13860176) (0, 8)) (0, 8)].
Proof.
  split; [reflexivity|]. split; [|vm_compute; reflexivity].
  apply (v_chr 67 [211; 125; 80]%Z); [reflexivity|discriminate|repeat (apply Forall_cons; [lia|]); apply Forall_nil|vm_compute; lia].
Qed.
