(** Whole operand fields of conditional assembly. *)
From Coq Require Import String Ascii List NArith ZArith Bool Arith Lia ZifyBool ZifyNat ZifyN.
From Verif Require Import Common Lex_Model Fld_Model Fld_Lex Fld_Proof Fld_Terms Fld_Expr Fld_Props.
From Verif Require Fld_Spec Exp_Model Grp_Model.
From Verif Require Import Cag_Model Cag_Spec Cag_Props Caf_Model Caf_Spec Caf_Proof Caf_Eval.
Import ListNotations.
Open Scope list_scope.
Notation length := List.length.

Lemma blanks_unique : forall i j (r s : list char), no_blank r -> no_blank s -> repeat 32%N i ++ r = repeat 32%N j ++ s -> i = j /\ r = s.
Proof.
  induction i as [|i IH]; intros [|j] r s A B E; cbn [repeat app] in E.
  - auto.
  - subst r. cbn in A. congruence.
  - subst s. cbn in B. congruence.
  - injection E as E. destruct (IH j r s A B E) as (-> & ->). auto.
Qed.
Lemma T_blanks : forall k p r ts, no_blank r -> Toks false p (repeat 32%N (S k) ++ r) ts ->
  exists x h p' ts', ts = Lx SPACE x p h :: ts' /\ Toks false p' r ts'.
Proof.
  intros k1 p r ts B1 H. toks_inv H.
  - discriminate.
  - cbn [repeat app] in E0. injection E0 as <- _. discriminate.
  - discriminate.
  - destruct (blanks_unique _ _ _ _ B1 B E0) as (_ & <-). do 3 eexists. exists ts'. split; [reflexivity|exact Tl].
  - cbn [repeat app] in E0. pose proof (head_word _ _ _ _ N0 W0 E0). discriminate.
  - cbn [repeat app] in E0. injection E0 as <- _. discriminate.
  - discriminate.
Qed.

Lemma remark_lexed : forall p r ts, Fld_Spec.remark r -> Toks false p r ts -> exists ks, lexs 0 ts = Some ks /\ ends ks.
Proof.
  intros p [|c r] ts R H.
  - apply T_nil in H. subst ts. exists []. split; [reflexivity|exact I].
  - destruct R as (-> & _). destruct (T_blank _ _ _ _ H) as (x & h & ts' & ->). exists [TSpace]. split; [reflexivity|exact I].
Qed.

Inductive reads : option wexpr -> operand -> Prop :=
| rd_none : reads None Empty
| rd_some : forall e x a, as_tokens e x a -> reads (Some e) (Value x).

Definition tail_line (ops : list operand) (ks : list tok) : Prop := line false false ops ks \/ (ops = [Empty] /\ ends ks).
Lemma tail_comma : forall o ops a ks, (o = Empty /\ a = [] \/ writes false false o a) -> tail_line ops ks ->
  line false false (o :: ops) (a ++ TComma :: ks).
Proof.
  intros o ops a ks [(-> & ->)|W] [L|(-> & E)]; cbn [app].
  - now apply line_more_empty.
  - now apply line_comma_empty.
  - now apply line_more.
  - now apply line_comma.
Qed.
Lemma writes_of : forall e x a, as_tokens e x a -> regular e -> writes false false (Value x) a.
Proof. intros e x a T R. apply w_value. apply (proj1 grammar_ok e x a T R). Qed.
Lemma field_cons : forall o o2 l, field (o :: o2 :: l) = op_written o ++ 44%N :: field (o2 :: l).
Proof. reflexivity. Qed.

Theorem field_lexed : forall l ops, Forall2 reads l ops -> l <> [] -> Forall op_regular l ->
  forall p r ts, Fld_Spec.remark r -> Toks false p (field l ++ r) ts -> exists ks, lexs 0 ts = Some ks /\ tail_line ops ks.
Proof.
  intros l ops F. induction F as [|o x l ops Ro F IH]; intros N Rl p r ts R H; [congruence|]. clear N.
  inversion Rl as [|? ? R1 R2]; subst. destruct l as [|o2 l].
  - inversion F; subst. change (field [o]) with (op_written o) in H.
    destruct Ro as [|e x a T].
    + destruct (remark_lexed _ _ _ R H) as (ks & E & En). exists ks. split; [exact E|]. right. auto.
    + assert (Fr : follows r) by (destruct r as [|c r]; [exact I|destruct R as (-> & _); apply fol; reflexivity]).
      destruct (proj1 lex_ok e x a T R1 _ _ _ Fr H) as (p' & ts' & T' & Lx).
      destruct (remark_lexed _ _ _ R T') as (ks & E & En). exists (a ++ ks). split; [apply Lx, E|]. left. apply line_one; [|exact En].
      eapply writes_of; eassumption.
  - rewrite field_cons, <- app_assoc in H. cbn [app] in H.
    assert (X : exists a p' ts', Toks false p' (44%N :: field (o2 :: l) ++ r) ts' /\ (x = Empty /\ a = [] \/ writes false false x a) /\
      forall ks, lexs 0 ts' = Some ks -> lexs 0 ts = Some (a ++ ks)).
    { destruct Ro as [|e x a T].
      - exists [], p, ts. split; [exact H|]. split; [left; auto|]. intros ks E. exact E.
      - destruct (proj1 lex_ok e x a T R1 _ _ _ (fol 44%N _ eq_refl) H) as (p' & ts' & T' & Lx).
        exists a, p', ts'. split; [exact T'|]. split; [right; eapply writes_of; eassumption|]. intros ks E. apply Lx, E. }
    destruct X as (a & p' & ts' & T' & W & Lx).
    destruct (mark_lexed _ 44%N COMMA TComma _ _ eq_refl ltac:(discriminate) ltac:(reflexivity) ltac:(discriminate) T') as (t2 & T2 & L2).
    destruct (IH ltac:(discriminate) R2 _ _ _ R T2) as (ks & E & Tl). exists (a ++ TComma :: ks). split; [apply Lx, L2, E|].
    left. apply tail_comma; assumption.
Qed.

(** ** Characters *)
Lemma symbol_line' : forall n, Fld_Spec.symbol n -> Forall Fld_Spec.on_the_line n /\ no_blank n.
Proof.
  intros n S. split; [now apply symbol_line|]. destruct (symbol_class n S) as (N & W & _). destruct n as [|c n]; [exact I|].
  cbn in W. apply andb_true_iff in W as (W & _). intros ->. discriminate.
Qed.
Lemma separated_line : forall l, Forall (Forall Fld_Spec.on_the_line) l -> Forall Fld_Spec.on_the_line (separated l).
Proof.
  induction l as [|x l IH]; intros H; [constructor|]. inversion H; subst. cbn [separated]. destruct l as [|y l]; [assumption|].
  apply Forall_app. split; [assumption|]. constructor; [split; discriminate|auto].
Qed.
Fixpoint measure (e : wexpr) : nat :=
  match e with
  | WVariable _ subs => S (fold_right (fun e n => measure e + n) 0 subs)
  | WSign _ e | WParen e => S (measure e)
  | WBinary _ l r => S (measure l + measure r)
  | _ => 1
  end.
Lemma written_line' : forall n e, measure e <= n -> regular e -> Forall Fld_Spec.on_the_line (written e).
Proof.
  induction n as [|n IH]; intros e M R; [destruct e; cbn in M; lia|]. destruct e as [d|t s|m|m subs|b e|e|o l r]; cbn [measure regular written] in *.
  - destruct R as (_ & H). eapply Forall_impl; [|exact H]. intros x. unfold Fld_Spec.digit, Fld_Spec.on_the_line. lia.
  - destruct R as (Ht & H). constructor; [split; intros ->; cbn in Ht; intuition discriminate|]. constructor; [split; discriminate|].
    apply Forall_app. split; [now apply doubled_line|]. constructor; [split; discriminate|constructor].
  - now apply symbol_line.
  - destruct R as (S & R).
    assert (X : Forall (Forall Fld_Spec.on_the_line) (map written subs)).
    { assert (M' : fold_right (fun e n => measure e + n) 0 subs <= n) by lia. clear M S. induction subs as [|e l IHl]; [constructor|].
      cbn [fold_right map] in *. destruct R as (R & Rl). constructor; [apply IH; [lia|exact R]|apply IHl; [exact Rl|lia]]. }
    destruct subs as [|e l].
    + constructor; [split; discriminate|now apply symbol_line].
    + constructor; [split; discriminate|]. apply Forall_app. split; [now apply symbol_line|]. constructor; [split; discriminate|].
      apply Forall_app. split; [now apply separated_line|]. constructor; [split; discriminate|constructor].
  - destruct R as (_ & R). constructor; [destruct b; split; discriminate|]. apply IH; [lia|exact R].
  - destruct R as (_ & R). constructor; [split; discriminate|]. apply Forall_app. split; [apply IH; [lia|exact R]|]. constructor; [split; discriminate|constructor].
  - destruct R as (_ & R1 & R2). apply Forall_app. split; [apply IH; [lia|exact R1]|]. constructor; [destruct o; split; discriminate|]. apply IH; [lia|exact R2].
Qed.
Lemma written_starts : forall e r, regular e -> no_blank (written e ++ r).
Proof.
  induction e as [d|t s|m|m subs|b e IH|e IH|o l IHl r' IHr]; intros r R; cbn [regular written] in *.
  - destruct R as (N & D). destruct d as [|c d]; [congruence|]. inversion D as [|? ? Dc _]; subst. cbn. unfold Fld_Spec.digit in Dc. lia.
  - destruct R as (Ht & _). cbn. intros ->. cbn in Ht. intuition discriminate.
  - destruct (symbol_line' m R) as (_ & B). destruct m as [|c m]; [destruct R as ([] & _)|]. exact B.
  - destruct subs; cbn; discriminate.
  - destruct b; cbn; discriminate.
  - cbn. discriminate.
  - destruct R as (_ & R & _). rewrite <- app_assoc. apply IHl, R.
Qed.
Lemma field_line' : forall l, Forall op_regular l -> Forall Fld_Spec.on_the_line (field l).
Proof.
  intros l H. apply separated_line. induction H as [|o l Ho H IH]; cbn [map]; [constructor|]. constructor; [|exact IH].
  destruct o as [e|]; [|constructor]. exact (written_line' _ e (le_n _) Ho).
Qed.
Lemma field_starts : forall l r, l <> [] -> l <> [None] -> Forall op_regular l -> no_blank (field l ++ r).
Proof.
  intros [|o [|o2 l]] r N M R; [congruence| |]; inversion R; subst.
  - destruct o as [e|]; [|congruence]. apply written_starts. assumption.
  - rewrite field_cons, <- app_assoc. destruct o as [e|]; [now apply written_starts|]. cbn. discriminate.
Qed.

Lemma all_map : forall A B (f : A -> option B) l l', Forall2 (fun x y => f x = Some y) l l' -> all (map f l) = Some l'.
Proof. intros A B f l l' F. induction F as [|x y l l' E F IH]; [reflexivity|]. cbn [map all fold_right]. unfold all in IH. rewrite E, IH. reflexivity. Qed.

Theorem operands_read : forall wide col k l r ops, l <> [] -> l <> [None] -> Forall op_regular l -> Fld_Spec.remark r ->
  0 < col -> col + length (repeat 32%N (S k) ++ field l ++ r) <= 71 -> Forall2 reads l ops ->
  ca_field wide (repeat 32%N (S k) ++ field l ++ r) col false = Some ops.
Proof.
  intros wide col k l r ops N M R Rm C Ln F.
  assert (Lt : Forall Fld_Spec.on_the_line (repeat 32%N (S k) ++ field l ++ r)).
  { apply Forall_app. split; [apply Forall_forall; intros x Ix; apply repeat_spec in Ix; subst x; split; discriminate|].
    apply Forall_app. split; [now apply field_line'|now apply remark_line]. }
  destruct (field_tokens wide false _ col C Lt (or_intror Ln)) as (ts & E & T). unfold ca_field. rewrite E.
  destruct (T_blanks _ _ _ _ (field_starts l r N M R) T) as (x & h & p' & ts' & -> & T'). cbn [lt].
  destruct (field_lexed l ops F N R _ _ _ Rm T') as (ks & Ek & Tl). rewrite Ek.
  destruct Tl as [L|(-> & _)].
  - f_equal. now apply C88_as_written.
  - exfalso. inversion F as [|o ? ls ? Ro Fl]; subst. inversion Fl; subst. inversion Ro; subst. congruence.
Qed.
