(** * Cag_Line: the operands of a line *)
From Coq Require Import List NArith ZArith Bool Arith Lia.
From Coq Require Import ZifyBool ZifyNat.
From Verif Require Import Common Cag_Model Cag_Spec Cag_Proof Cag_Strict Cag_Loose.
Import ListNotations.

Lemma writes_not_empty : forall loose def o p, writes loose def o p -> o <> Empty.
Proof. intros loose def o p H. now inversion H. Qed.

Section Op.
Variable R : Type.

Lemma seq_some : forall ts k (x : R), seq_symbol R ts k = Some x -> exists s r, ts = TDot :: TId s :: r /\ k s r = Some x.
Proof. intros [|[] [|[] ts]] k x H; try discriminate. eauto. Qed.

Lemma op_sound : forall n def ts k (x : R), ca_op R n def ts k = Some x ->
  exists o p r, ts = p ++ r /\ writes true def o p /\ k o r = Some x.
Proof.
  intros n def ts k x H. unfold ca_op in H. apply orelse_some in H as [H|H]; [|apply orelse_some in H as [H|H]].
  - destruct (sound R n) as (_ & _ & _ & _ & _ & _ & A & _). apply A in H as (e & p & r & -> & (l & -> & W) & H).
    apply seq_some in H as (s & r' & -> & H). exists (Branch (XList l) s), (p ++ [TDot; TId s]), r'.
    split; [now rewrite <- app_assoc|split; [now apply w_branch|exact H]].
  - apply seq_some in H as (s & r' & -> & H). exists (Seq s), [TDot; TId s], r'.
    split; [reflexivity|split; [apply w_seq|exact H]].
  - destruct def.
    + assert (Z : forall v r t, (t = TVar v \/ t = TId v) -> ts = t :: r -> var_def_substr R r (fun z r' => k (Def v z) r') = Some x ->
        exists o p r, ts = p ++ r /\ writes true true o p /\ k o r = Some x).
      { intros v r t Ht -> Z.
        assert (Z0 : k (Def v None) r = Some x -> exists o p r0, t :: r = p ++ r0 /\ writes true true o p /\ k o r0 = Some x).
        { intros Y. exists (Def v None), [t], r. split; [reflexivity|split; [|exact Y]].
          destruct Ht as [-> | ->]; [apply w_def_amp|apply w_def]. }
        destruct r as [|t1 r]; [exact (Z0 Z)|]. destruct t1; try exact (Z0 Z).
        destruct r as [|t2 r]; [exact (Z0 Z)|]. destruct t2; try exact (Z0 Z).
        destruct r as [|t3 r]; [exact (Z0 Z)|]. destruct t3; try exact (Z0 Z).
        cbn [var_def_substr] in Z. apply orelse_some in Z as [Z|Z]; [|auto].
        exists (Def v (Some v0)), [t; TLpar; TConst v0; TRpar], r. split; [reflexivity|split; [|exact Z]].
        destruct Ht as [-> | ->]; [apply w_def_amp_size|apply w_def_size]. }
      destruct ts as [|[] ts]; try discriminate; (eapply Z; [| |exact H]; [|reflexivity]; auto).
    + destruct (sound R n) as (A & _). apply (A true) in H as (e & p & r & -> & W & H).
      exists (Value e), p, r. split; [reflexivity|split; [now apply w_value|exact H]].
Qed.

Lemma op_can : forall n def o p rest (k : operand -> list tok -> option R), 10 * length p <= n -> writes true def o p ->
  k o rest <> None -> ca_op R n def (p ++ rest) k <> None.
Proof.
  intros n def o p rest k N W K. destruct (loosely R) as (Lsum & _ & _ & _ & _ & _ & Lplist & _). unfold ca_op.
  inversion W; subst.
  - apply ok_left. rewrite <- app_assoc. eapply Lplist; eauto. rewrite app_length in N. lia.
  - apply ok_right, ok_left. exact K.
  - do 2 apply ok_right. eapply Lsum; eauto.
  - do 2 apply ok_right. cbn [app]. destruct rest as [|t1 rest]; [exact K|]. destruct t1; try exact K.
    destruct rest as [|t2 rest]; [exact K|]. destruct t2; try exact K.
    destruct rest as [|t3 rest]; [exact K|]. destruct t3; try exact K. now apply ok_right.
  - do 2 apply ok_right. cbn [app]. destruct rest as [|t1 rest]; [exact K|]. destruct t1; try exact K.
    destruct rest as [|t2 rest]; [exact K|]. destruct t2; try exact K.
    destruct rest as [|t3 rest]; [exact K|]. destruct t3; try exact K. now apply ok_right.
  - do 2 apply ok_right. cbn. now apply ok_left.
  - do 2 apply ok_right. cbn. now apply ok_left.
Qed.

(** Behind the parenthesis an expression begins with there is no period. *)
Definition nodot (c : list tok) : Prop := match c with TDot :: _ => False | _ => True end.
Definition opens (p : list tok) : Prop :=
  match p with TLpar :: _ => exists a c, p = (TLpar :: a ++ [TRpar]) ++ c /\ closed a /\ nodot c | _ => True end.
Lemma opens_app : forall p q, starts p -> opens p -> nodot q -> opens (p ++ q).
Proof.
  intros [|t p] q Hs Ho Hq; [destruct Hs|]. destruct t; try exact Ho.
  destruct Ho as (a & c & E & Ca & Nc). cbn [app opens]. exists a, (c ++ q). change (TLpar :: p ++ q) with ((TLpar :: p) ++ q).
  rewrite E, <- app_assoc. split; [reflexivity|split; [exact Ca|]]. now destruct c.
Qed.
Lemma dup_opens : forall loose d m a t b, dup loose d m a -> t <> TLpar -> t <> TDot -> opens (a ++ t :: b).
Proof.
  intros loose d m a t b H T T'. apply dup_cut in H as [[-> ->]|(e & a' & -> & C & ->)].
  - destruct t; try exact I. now destruct T.
  - exists a', (t :: b). split; [reflexivity|split; [exact C|]]. destruct t; try exact I. now destruct T'.
Qed.
Lemma term_opens : forall loose d e p, term loose d e p -> opens p.
Proof.
  intros loose d e p H. inversion H; subst; try exact I.
  - match goal with W : plist _ _ _ |- _ => apply plist_cut in W as (a & C & ->) end.
    exists a, []. rewrite app_nil_r. split; [reflexivity|split; [exact C|exact I]].
  - match goal with W : str _ _ _ _ |- _ => inversion W; subst end. rewrite <- app_assoc. cbn [app].
    eapply dup_opens; eauto; discriminate.
  - eapply dup_opens; eauto; discriminate.
Qed.
Lemma unary_opens : forall loose d e p, unary loose d e p -> opens p.
Proof. intros loose d e p H. inversion H; subst; try exact I. eapply term_opens; eauto. Qed.
Lemma sum_opens : forall loose d e p, sum loose d e p -> opens p.
Proof.
  intros loose d e p H. inversion H as [? x a ? b Wp Ws]; subst. destruct (shape loose) as (_ & _ & Sp & _ & Su & _).
  apply opens_app; [now apply Sp in Wp| |inversion Ws; subst; exact I].
  inversion Wp as [? x' a' ? b' Wu Wr]; subst. apply opens_app; [now apply Su in Wu| |inversion Wr; subst; exact I].
  eapply unary_opens; eauto.
Qed.

Lemma op_strict : forall n def o p rest (k : operand -> list tok -> option R) x, 10 * length p <= n -> writes false def o p ->
  fol_s rest -> kf R k -> k o rest = Some x -> ca_op R n def (p ++ rest) k = Some x.
Proof.
  intros n def o p rest k x N W F Kf K. destruct (strict R) as (Lsum & _ & _ & _ & _ & _ & Lplist & _). unfold ca_op.
  inversion W; subst.
  - apply orelse_left. rewrite <- app_assoc. eapply Lplist; eauto. rewrite app_length in N. lia.
  - apply orelse_right; [now apply expr_list_none'|]. apply orelse_left. exact K.
  - assert (St : starts p) by (eapply sum_starts; eauto). apply orelse_right; [|apply orelse_right].
    + destruct p as [|t p]; [destruct St|]. destruct t; try (now apply expr_list_none').
      match goal with H : sum _ _ _ _ |- _ => apply sum_opens in H as O end. destruct O as (a & c & E & C & Nc).
      rewrite E, <- app_assoc. apply expr_list_none; [exact C|]. intros l.
      destruct c as [|[] c]; try destruct Nc; try reflexivity. destruct rest as [|[] rest]; try destruct F; reflexivity.
    + destruct p as [|[] p]; try discriminate; try destruct St; reflexivity.
    + eapply Lsum; eauto. intros _ e0 r0 Hr. now apply Kf.
  - apply orelse_right; [now apply expr_list_none'|]. apply orelse_right; [reflexivity|]. cbn [app].
    destruct rest as [|[] rest]; try destruct F; exact K.
  - apply orelse_right; [now apply expr_list_none'|]. apply orelse_right; [reflexivity|]. cbn [app].
    destruct rest as [|[] rest]; try destruct F; exact K.
  - apply orelse_right; [now apply expr_list_none'|]. apply orelse_right; [reflexivity|]. cbn [app]. now apply orelse_left.
  - apply orelse_right; [now apply expr_list_none'|]. apply orelse_right; [reflexivity|]. cbn [app]. now apply orelse_left.
Qed.
Lemma op_none : forall n def ts (k : operand -> list tok -> option R),
  match ts with t :: _ => starter t = false /\ t <> TDot | [] => True end -> ca_op R n def ts k = None.
Proof.
  intros n def ts k H. apply none_intro. intros x E. apply op_sound in E as (o & p & r & -> & W & _).
  inversion W; subst; cbn in H; try (destruct H; congruence).
  - match goal with W : plist _ _ _ |- _ => inversion W; subst end. cbn in H. destruct H. discriminate.
  - match goal with W : sum _ _ _ _ |- _ => apply sum_starts in W end. destruct p as [|t p]; cbn in *; [assumption|].
    destruct H. congruence.
Qed.
End Op.

Lemma fields_sound : forall n def ts l, fields n def ts = Some l -> line true def l ts.
Proof.
  induction n as [|n IH]; intros def ts l H; [discriminate|]. cbn [fields] in H. apply orelse_some in H as [H|H].
  - apply op_sound in H as (o & p & r & -> & W & H). assert (NE := writes_not_empty _ _ _ _ W).
    destruct r as [|[] r]; try discriminate.
    + destruct o; try congruence; injection H as <-; now apply line_one.
    + assert (Z : ends r -> Some [o; Empty] = Some l -> line true def l (p ++ TComma :: r))
        by (intros Er E; injection E as <-; now apply line_comma).
      assert (Y : (match fields n def r with Some l => Some (o :: l) | None => None end) = Some l ->
                  line true def l (p ++ TComma :: r)).
      { intros E. destruct (fields n def r) as [m|] eqn:Em; [|discriminate]. injection E as <-. apply line_more; auto. }
      destruct r as [|[] r]; (apply Z; [exact I|exact H]) || (apply Y; exact H).
    + destruct o; try congruence; injection H as <-; now apply line_one.
  - destruct ts as [|[] ts]; try discriminate.
    assert (Z : ends ts -> Some [Empty; Empty] = Some l -> line true def l (TComma :: ts))
      by (intros Er E; injection E as <-; now apply line_comma_empty).
    assert (Y : (match fields n def ts with Some l => Some (Empty :: l) | None => None end) = Some l ->
                line true def l (TComma :: ts)).
    { intros E. destruct (fields n def ts) as [m|] eqn:Em; [|discriminate]. injection E as <-. apply line_more_empty; auto. }
    destruct ts as [|[] ts]; (apply Z; [exact I|exact H]) || (apply Y; exact H).
Qed.

Lemma fuel_app : forall p r, 10 * length p <= fuel (p ++ r).
Proof. intros p r. unfold fuel. rewrite app_length. lia. Qed.

Lemma fields_can : forall def l ts, line true def l ts -> forall n, length ts < n -> fields n def ts <> None.
Proof.
  intros def l ts H. induction H as [o a r W E|o a r W E|r E|o a l b W H IH|l b H IH];
    intros n N; (destruct n as [|n]; [lia|]); cbn [fields].
  - apply ok_left. eapply op_can; eauto using fuel_app. assert (NE := writes_not_empty _ _ _ _ W).
    destruct r as [|[] r]; try destruct E; destruct o; congruence.
  - apply ok_left. eapply op_can; eauto using fuel_app.
    destruct r as [|[] r]; try destruct E; discriminate.
  - apply ok_right. destruct r as [|[] r]; try destruct E; discriminate.
  - apply ok_left. eapply op_can; eauto using fuel_app. rewrite app_length in N. cbn [length] in N.
    assert (Z := IH n ltac:(lia)). destruct b as [|[] b]; try discriminate; destruct (fields n def _); congruence.
  - apply ok_right. cbn [length] in N. assert (Z := IH n ltac:(lia)).
    destruct b as [|[] b]; try discriminate; destruct (fields n def _); congruence.
Qed.

Lemma line_head : forall loose def l ts, line loose def l ts -> match ts with [] | TSpace :: _ => False | _ => True end.
Proof.
  assert (A : forall loose def o p r, writes loose def o p -> match p ++ r with [] | TSpace :: _ => False | _ => True end).
  { intros loose def o p r H. inversion H; subst; cbn; auto.
    - match goal with W : plist _ _ _ |- _ => inversion W; subst end. exact I.
    - match goal with W : sum _ _ _ _ |- _ => apply sum_starts in W end. destruct p as [|[] p]; cbn in *; try exact I; try discriminate; try assumption. destruct H0. }
  intros loose def l ts H. inversion H; subst; try exact I; eapply A; eauto.
Qed.

Lemma fields_strict : forall def l ts, line false def l ts -> forall n, length ts < n -> fields n def ts = Some l.
Proof.
  intros def l ts H.
  assert (C : forall n b o, (match b with [] | TSpace :: _ => False | _ => True end) ->
    match b with
    | [] | TSpace :: _ => Some [o; Empty]
    | _ => match fields n def b with Some l => Some (o :: l) | None => None end
    end = match fields n def b with Some l => Some (o :: l) | None => None end)
    by (intros n [|[] b] o Hb; try destruct Hb; reflexivity).
  induction H as [o a r W E|o a r W E|r E|o a l b W H IH|l b H IH];
    intros n N; (destruct n as [|n]; [lia|]); cbn [fields].
  - apply orelse_left. assert (NE := writes_not_empty _ _ _ _ W). eapply op_strict; eauto using fuel_app.
    + destruct r as [|[] r]; try destruct E; exact I.
    + intros e r' Hr. destruct r' as [|[] r']; try destruct Hr; reflexivity.
    + destruct r as [|[] r]; try destruct E; destruct o; congruence.
  - apply orelse_left. eapply op_strict; eauto using fuel_app.
    + exact I.
    + intros e r' Hr. destruct r' as [|[] r']; try destruct Hr; reflexivity.
    + destruct r as [|[] r]; try destruct E; reflexivity.
  - apply orelse_right; [apply op_none; split; [reflexivity|discriminate]|]. destruct r as [|[] r]; try destruct E; reflexivity.
  - apply orelse_left. eapply op_strict; eauto using fuel_app.
    + exact I.
    + intros e r' Hr. destruct r' as [|[] r']; try destruct Hr; reflexivity.
    + rewrite app_length in N. cbn [length] in N. cbn beta iota. rewrite C by (eapply line_head; eauto).
      rewrite (IH n) by lia. reflexivity.
  - apply orelse_right; [apply op_none; split; [reflexivity|discriminate]|]. cbn [length] in N.
    rewrite C by (eapply line_head; eauto). rewrite (IH n) by lia. reflexivity.
Qed.
