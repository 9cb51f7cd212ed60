(** Control: one line after the other. *)
From Coq Require Import String Ascii List NArith ZArith Bool Arith Lia ZifyBool ZifyNat ZifyN.
From Verif Require Import Common Lex_Model Fld_Model Fld_Terms.
From Verif Require Fld_Spec Ca_Spec Ca_Model Grp_Model Exp_Model Var_Model Var_Spec Var_Proof.
From Verif Require Import Cag_Model Cag_Spec Caf_Model Caf_Spec Caf_Proof Caf_Eval Caf_Field.
From Verif Require Import Cal_Spec Cal_Model Cal_Group Cal_Proof Cal_Field Cal_Props.
From Verif Require Import Br_Model Br_Spec Br_Proof Br_Jump Br_Props.
From Verif Require Import Prg_Model Prg_Spec Prg_Proof.
Import ListNotations.
Open Scope list_scope.
Notation length := List.length.
Open Scope nat_scope.

(** ** The log and the registered symbols, in open code whose labels are distinct *)
Section Control.
Variable data : Type.
Variable body0 : list (Br_Model.stmt data).
Hypothesis once : forall i j t, labelled body0 i t -> labelled body0 j t -> i = j.
Notation state := (Br_Model.state data).
Definition jump_only (e : Br_Model.event) : Prop := match e with Br_Model.Jump _ _ _ _ => True | _ => False end.
Record tidy (st : state) : Prop := Tidy {
  t_stack : stack st = [];
  t_log : Forall jump_only (Br_Model.log st);
  t_symbols : forall n p, find n (Br_Model.symbols st) = Some p -> labelled body0 p n }.
Definition kept (st st' : state) : Prop :=
  store st' = store st /\ base st' = base st /\ finished st' = finished st.
Lemma kept_refl : forall st, kept st st.
Proof. intros st. repeat split. Qed.
Lemma register_symbol_tidy : forall st n i, tidy st -> labelled body0 i n ->
  tidy (register_symbol st n i) /\ kept st (register_symbol st n i).
Proof.
  intros st n i [A B C] L. unfold register_symbol. destruct (find n (Br_Model.symbols st)) as [p|] eqn:F.
  - rewrite (once p i n (C n p F) L), Nat.eqb_refl. split; [now split|apply kept_refl].
  - split; [|repeat split]. split; [exact A|exact B|]. cbn [set_symbols Br_Model.symbols find]. intros m p.
    destruct (bytes_eqb m n) eqn:E; [|apply C]. intros [= <-]. apply bytes_eqb_eq in E. now subst m.
Qed.
Lemma lookahead_tidy : forall t l st i, tidy st -> (forall k s, nth_error l k = Some s -> nth_error body0 (i + k) = Some s) ->
  tidy (fst (lookahead st l i t)) /\ kept st (fst (lookahead st l i t)).
Proof.
  intros t l. induction l as [|s l IH]; intros st i T Hl; cbn [lookahead].
  - split; [|repeat split]. destruct T as [A B C]. now split.
  - assert (Hl' : forall k s0, nth_error l k = Some s0 -> nth_error body0 (S i + k) = Some s0)
      by (intros k s0 H; replace (S i + k) with (i + S k) by lia; now apply Hl).
    destruct (label s) as [n|] eqn:El; [|now apply IH].
    assert (L : labelled body0 i n) by (exists s; split; [replace i with (i + 0) by lia; now apply Hl|exact El]).
    destruct (register_symbol_tidy st n i T L) as (T' & K & K2 & K3). destruct (bytes_eqb n t).
    + cbn [fst]. split; [|repeat split; assumption]. destruct T' as [A B C]. now split.
    + destruct (IH (register_symbol st n i) (S i) T' Hl') as (T2 & J & J2 & J3). split; [exact T2|]. split; [congruence|split; congruence].
Qed.
Lemma jump_tidy : forall st t, tidy st -> body (base st) = body0 ->
  let st' := jump_in_statements st t in
  stack st' = [] /\ (forall n p, find n (Br_Model.symbols st') = Some p -> labelled body0 p n) /\
  (Forall jump_only (Br_Model.log st') \/ counter (base st') = counter (base st)).
Proof.
  intros st t T Hb. pose proof T as [A B C]. unfold jump_in_statements. rewrite A. destruct (find t (Br_Model.symbols st)) as [i|] eqn:F.
  - cbv zeta. unfold go, set_current, tell. rewrite A. cbn. split; [reflexivity|]. split; [exact C|]. left. constructor; [exact I|exact B].
  - set (start := if Nat.ltb _ _ then _ else _). pose proof (lookahead_tidy t (skipn start (body (base st))) st start T) as Lk.
    destruct (lookahead st (skipn start (body (base st))) start t) as (st1 & found). cbn [fst] in Lk.
    destruct Lk as (T1 & K1 & K2 & K3).
    { intros k s H. rewrite Hb in H. rewrite <- H. clear. revert body0. induction start as [|start IH]; intros l; [reflexivity|].
      destruct l as [|x l]; [cbn; destruct k; reflexivity|apply IH]. }
    cbv zeta. destruct T1 as [A1 B1 C1]. destruct found.
    + destruct (find t (Br_Model.symbols st1)) as [i|].
      * unfold go, set_current, tell. rewrite A1. cbn. split; [reflexivity|]. split; [exact C1|]. left. constructor; [exact I|exact B1].
      * split; [exact A1|]. split; [exact C1|]. right. now rewrite K2.
    + split; [exact A1|]. split; [exact C1|]. right. cbn. now rewrite K2.
Qed.
Lemma register_tidy : forall st s, tidy st -> nth_error body0 (Br_Model.next (base st) - 1) = Some s ->
  tidy (register st s) /\ kept st (register st s).
Proof.
  intros st s T H. unfold register. rewrite (t_stack st T). destruct (label s) as [n|] eqn:L; [|split; [exact T|apply kept_refl]].
  apply register_symbol_tidy; [exact T|]. exists s. split; assumption.
Qed.
End Control.

Lemma Forall2_nth_both : forall A B (R : A -> B -> Prop) l m, Forall2 R l m -> forall i,
  match nth_error l i, nth_error m i with Some x, Some y => R x y | None, None => True | _, _ => False end.
Proof. intros A B R l m F. induction F as [|x y l m H F IH]; intros i; [destruct i; exact I|]. destruct i; [exact H|apply IH]. Qed.

Lemma Forall2_mono : forall A B (R S : A -> B -> Prop) l m, (forall x y, R x y -> S x y) -> Forall2 R l m -> Forall2 S l m.
Proof. intros A B R S l m H F. induction F; constructor; auto. Qed.

Section Run.
Variable wide : N -> bool.
Variable abs : bytes -> option Z.
Variable prog : list sline.
Variable srcs : list source.
Hypothesis Hw : Forall2 line_written prog srcs.
Hypothesis Hd : distinct prog.
Notation W := (variables abs).
Notation stmts := (map (statement wide abs) srcs).

(** ** Labels *)
Lemma label_written : forall l s, line_written l s -> label_of s = option_map (map big) (mark l).
Proof.
  intros l s H.
  assert (V : forall n subs, variable_written n subs (name_field s) -> label_of s = None).
  { intros n subs (E & _). unfold label_of. rewrite E. destruct subs; reflexivity. }
  assert (M : marked (mark l) (name_field s) -> label_of s = option_map (map big) (mark l)).
  { unfold marked, label_of. destruct (mark l) as [n|]; [|intros ->; reflexivity]. intros (_ & ->). cbn [option_map]. now rewrite upper_big. }
  unfold line_written in H. destruct (act l); decompose [and] H; auto; match goal with E : mark l = None |- _ => rewrite E end; eauto.
Qed.
Lemma nth_lines : forall i, match nth_error prog i, nth_error srcs i with
  | Some l, Some s => line_written l s | None, None => True | _, _ => False end.
Proof.
  exact (Forall2_nth_both _ _ _ _ _ Hw).
Qed.
Lemma nth_src : forall i l, nth_error prog i = Some l -> exists s, nth_error srcs i = Some s /\ line_written l s.
Proof. intros i l H. pose proof (nth_lines i) as Q. rewrite H in Q. destruct (nth_error srcs i); [eauto|destruct Q]. Qed.
Lemma labelled_iff : forall i t, labelled stmts i t <-> exists l n, nth_error prog i = Some l /\ mark l = Some n /\ map big n = t.
Proof.
  intros i t. pose proof (nth_lines i) as Q. split.
  - intros (x & Hx & Hl). rewrite nth_error_map in Hx. destruct (nth_error srcs i) as [s|]; [|discriminate]. injection Hx as <-. cbn [label statement] in Hl.
    destruct (nth_error prog i) as [l|]; [|destruct Q]. rewrite (label_written l s Q) in Hl. exists l.
    destruct (mark l) as [n|]; [|discriminate]. exists n. split; [reflexivity|]. split; [reflexivity|]. now injection Hl.
  - intros (l & n & H & M & E). destruct (nth_src i l H) as (s & Hs & L). exists (statement wide abs s). rewrite nth_error_map, Hs.
    split; [reflexivity|]. cbn [label statement]. rewrite (label_written l s L), M. cbn. now rewrite E.
Qed.
Lemma labels_once : forall i j t, labelled stmts i t -> labelled stmts j t -> i = j.
Proof.
  intros i j t A B. apply labelled_iff in A as (l & n & A1 & A2 & A3). apply labelled_iff in B as (l' & n' & B1 & B2 & B3).
  eapply Hd; try eassumption. congruence.
Qed.
Lemma first_at : forall t i, at_mark prog t i -> first_labelled stmts i t.
Proof.
  intros t i (A & B). split; [now apply labelled_iff|]. intros j Lj L. apply labelled_iff in L as (l & n & H & M & E). exact (B j l n Lj H M E).
Qed.
Lemma all_registered : registered_labels stmts.
Proof.
  intros x t Hx Hl. apply in_map_iff in Hx as (s & <- & Hs). cbn [label statement operation] in *.
  apply In_nth_error in Hs as (i & Hi). pose proof (nth_lines i) as Q. rewrite Hi in Q. destruct (nth_error prog i) as [l|]; [|destruct Q].
  rewrite (label_written l s Q) in Hl. unfold line_written in Q. destruct (act l); decompose [and] Q;
    match goal with E : code s = _ |- _ => rewrite E end; try exact I; try reflexivity;
    match goal with E : mark l = None |- _ => rewrite E in Hl; discriminate end.
Qed.

(** ** States *)
Variable c0 : Var_Model.ctx.
Record inv (k j : nat) (w : Var_Spec.world) (pc : nat) (st : state) : Prop := Inv {
  i_run : st = run wide abs k srcs c0;
  i_tidy : tidy Var_Model.ctx stmts st;
  i_rel : Var_Proof.rel (store st) w;
  i_body : body (base st) = stmts;
  i_next : Br_Model.next (base st) = pc;
  i_counter : counter (base st) = (4096 - Z.of_nat j)%Z;
  i_changes : changes (base st) = 0;
  i_finished : finished st = false }.

Section One.
Variables (k j : nat) (w : Var_Spec.world) (pc : nat) (st : state) (l : sline) (s : source).
Hypothesis Hi : inv k j w pc st.
Hypothesis Hj : j <= 4096.
Hypothesis Hl : nth_error prog pc = Some l.
Hypothesis Hs : nth_error srcs pc = Some s.
Notation fetch := (set_current st (fetched (current st))).

Lemma current_base : current st = base st.
Proof. unfold current. now rewrite (t_stack _ _ _ (i_tidy _ _ _ _ _ Hi)). Qed.
Lemma goes : proceeds st (statement wide abs s).
Proof.
  unfold proceeds. rewrite current_base. split; [apply Hi|]. split; [|split; [|split]].
  - rewrite (i_body _ _ _ _ _ Hi), (i_next _ _ _ _ _ Hi), nth_error_map, Hs. reflexivity.
  - rewrite (t_stack _ _ _ (i_tidy _ _ _ _ _ Hi)). cbn. lia.
  - rewrite (i_counter _ _ _ _ _ Hi). lia.
  - rewrite (i_changes _ _ _ _ _ Hi). lia.
Qed.
Lemma steps_on : step no_macro st = Some (execute no_macro fetch (statement wide abs s)) /\
  run wide abs (S k) srcs c0 = execute no_macro fetch (statement wide abs s).
Proof.
  pose proof (step_proceeds _ no_macro st _ goes) as E. split; [exact E|]. unfold run. rewrite steps_S.
  pose proof (i_run _ _ _ _ _ Hi) as Er. unfold run in Er. rewrite <- Er, E. reflexivity.
Qed.
Lemma fetch_tidy : tidy Var_Model.ctx stmts fetch /\ base fetch = fetched (base st) /\ store fetch = store st /\ finished fetch = false.
Proof.
  destruct (i_tidy _ _ _ _ _ Hi) as [A B C]. pose proof (i_finished _ _ _ _ _ Hi) as Fi. rewrite current_base. unfold set_current. rewrite A. repeat split; try assumption.
Qed.
Lemma plain_step : forall b f w', operation (statement wide abs s) = Plain b f -> Var_Proof.rel (f (store st)) w' ->
  inv (S k) j w' (S pc) (run wide abs (S k) srcs c0).
Proof.
  intros b f w' Ho R. destruct steps_on as (_ & E). destruct fetch_tidy as (T & Fb & Fs & Ff).
  assert (X : exists st1, execute no_macro fetch (statement wide abs s) = set_store st1 (f (store st1)) /\ tidy Var_Model.ctx stmts st1 /\
    kept Var_Model.ctx fetch st1).
  { unfold execute. rewrite Ho. destruct b.
    - exists (register fetch (statement wide abs s)). split; [reflexivity|]. apply (register_tidy _ _ labels_once); [exact T|]. rewrite Fb. cbn [fetched Br_Model.next].
      rewrite (i_next _ _ _ _ _ Hi). replace (S pc - 1) with pc by lia. now rewrite nth_error_map, Hs.
    - exists fetch. split; [reflexivity|]. split; [exact T|apply kept_refl]. }
  destruct X as (st1 & Ex & [A B C] & K1 & K2 & K3). rewrite Fs in K1. rewrite Fb in K2. rewrite Ff in K3.
  split; [reflexivity|..]; rewrite E, Ex.
  - split; [exact A|exact B|exact C].
  - cbn [store set_store]. now rewrite K1.
  - cbn [base set_store]. rewrite K2. apply Hi.
  - cbn [base set_store]. rewrite K2. cbn. f_equal. apply Hi.
  - cbn [base set_store]. rewrite K2. apply Hi.
  - cbn [base set_store]. rewrite K2. apply Hi.
  - exact K3.
Qed.
Lemma registers : tidy Var_Model.ctx stmts (register fetch (statement wide abs s)) /\
  store (register fetch (statement wide abs s)) = store st /\ base (register fetch (statement wide abs s)) = fetched (base st) /\
  finished (register fetch (statement wide abs s)) = false.
Proof.
  destruct fetch_tidy as (T & Fb & Fs & Ff).
  destruct (register_tidy _ _ labels_once fetch (statement wide abs s) T) as (T' & K1 & K2 & K3).
  { rewrite Fb. cbn [fetched Br_Model.next]. rewrite (i_next _ _ _ _ _ Hi). replace (S pc - 1) with pc by lia. now rewrite nth_error_map, Hs. }
  split; [exact T'|]. split; [congruence|]. split; congruence.
Qed.
Lemma stay_step : execute no_macro fetch (statement wide abs s) = register fetch (statement wide abs s) ->
  inv (S k) j w (S pc) (run wide abs (S k) srcs c0).
Proof.
  intros Ex. destruct steps_on as (_ & E). destruct registers as (T & K1 & K2 & K3).
  split; [reflexivity|..]; rewrite E, Ex.
  - exact T.
  - rewrite K1. apply Hi.
  - rewrite K2. apply Hi.
  - rewrite K2. cbn. f_equal. apply Hi.
  - rewrite K2. apply Hi.
  - rewrite K2. apply Hi.
  - exact K3.
Qed.
Lemma jump_step : forall t i, match operation (statement wide abs s) with Ago _ | Aif _ => True | _ => False end ->
  execute no_macro fetch (statement wide abs s) = jump_in_statements (register fetch (statement wide abs s)) t ->
  at_mark prog t i -> inv (S k) (S j) w i (run wide abs (S k) srcs c0).
Proof.
  intros t i Ho Ex M. destruct steps_on as (_ & E). destruct registers as (T & K1 & K2 & K3).
  assert (S : Br_Props.sound no_macro st).
  { right. exists stmts, k, c0. split; [apply all_registered|]. exact (i_run _ _ _ _ _ Hi). }
  pose proof (sound_jump _ no_macro st _ t S goes Ho) as Br. apply first_at in M.
  destruct (jump_tidy _ _ labels_once _ t T) as (J1 & J2 & J3); [rewrite K2; apply Hi|].
  rewrite <- Ex in *. set (st' := execute no_macro fetch (statement wide abs s)) in *.
  assert (Cb : current st' = base st') by (unfold current; now rewrite J1).
  unfold branches in Br. rewrite Cb, current_base in Br. rewrite (i_body _ _ _ _ _ Hi) in Br.
  destruct Br as [(i' & F & Sr & Nx & Ct)|(N & _)]; [|destruct (N i); apply M].
  assert (i' = i) as -> by (eapply labels_once; [apply F|apply M]).
  destruct Sr as (S1 & _ & _ & _ & S5 & S6 & S7). rewrite Cb, current_base in S5, S6.
  split; [reflexivity|..]; rewrite E.
  - split; [exact J1| |exact J2]. destruct J3 as [J3|J3]; [exact J3|]. exfalso. rewrite K2 in J3. cbn [fetched counter] in J3. lia.
  - rewrite S1. apply Hi.
  - rewrite S5. apply Hi.
  - exact Nx.
  - rewrite Ct, (i_counter _ _ _ _ _ Hi). lia.
  - rewrite S6. apply Hi.
  - exact S7.
Qed.
Lemma lost_step : forall t, match operation (statement wide abs s) with Ago _ | Aif _ => True | _ => False end ->
  execute no_macro fetch (statement wide abs s) = jump_in_statements (register fetch (statement wide abs s)) t ->
  (forall i, ~ at_mark prog t i) ->
  let st' := run wide abs (S k) srcs c0 in
  store st' = store st /\ Br_Model.next (base st') = S pc /\ exists a r, Br_Model.log st' = Missing 0 a t :: r.
Proof.
  intros t Ho Ex N st'. destruct steps_on as (_ & E). destruct registers as (T & K1 & K2 & K3).
  assert (S : Br_Props.sound no_macro st).
  { right. exists stmts, k, c0. split; [apply all_registered|]. exact (i_run _ _ _ _ _ Hi). }
  pose proof (sound_jump _ no_macro st _ t S goes Ho) as Br. destruct (jump_tidy _ _ labels_once _ t T) as (J1 & _); [rewrite K2; apply Hi|].
  rewrite <- Ex in *. unfold st'. rewrite E. set (st1 := execute no_macro fetch (statement wide abs s)) in *.
  assert (Cb : current st1 = base st1) by (unfold current; now rewrite J1).
  unfold branches, falls_through in Br. rewrite Cb, current_base in Br. rewrite (i_body _ _ _ _ _ Hi) in Br.
  destruct Br as [(i & F & _)|(_ & (Sr & Nx & _) & Lg)].
  - exfalso. apply (N i). destruct F as (F1 & F2). split; [now apply labelled_iff|]. intros q m n Lq Hm Mm Em. apply (F2 q Lq). apply labelled_iff. eauto.
  - split; [apply Sr|]. split; [rewrite Nx; f_equal; apply Hi|]. rewrite (t_stack _ _ _ (i_tidy _ _ _ _ _ Hi)) in Lg. exact Lg.
Qed.
End One.

(** ** AIF *)
Lemma aif_taken : forall c bs os ops t has, Forall2 (fun bo op => branch_op (W c) (fst bo) (snd bo) op) (combine bs os) ops ->
  has = true -> aif_operands (map (branch_operand (truth abs) false) ops) c (Some t) has = inr (Some t).
Proof.
  intros c bs os ops t has F. revert has. induction F as [|bo op bl ops (_ & _ & e & -> & _) F IH]; intros has Hh.
  - cbn. now rewrite Hh.
  - cbn [map branch_operand aif_operands]. now apply IH.
Qed.
Lemma aif_decides : forall c bs os ops r, length os = length bs ->
  Forall2 (fun bo op => branch_op (W c) (fst bo) (snd bo) op) (combine bs os) ops ->
  decided (combine os (map snd bs)) = Some r -> forall has, has = true \/ bs <> [] ->
  aif_operands (map (branch_operand (truth abs) false) ops) c None has = inr r.
Proof.
  intros c bs. induction bs as [|b bs IH]; intros [|o os] ops r L F D has Hh; try discriminate.
  - inversion F; subst. injection D as <-. destruct Hh as [->|Hh]; [reflexivity|congruence].
  - cbn [combine map decided] in *. inversion F as [|? op ? ops' (_ & _ & e & Eop & x & Ex & V) F']; subst. cbn [fst snd] in *.
    injection L as L. cbn [map branch_operand aif_operands]. rewrite Ex. destruct o as [v|]; [|discriminate].
    destruct V as (u & Eu & B). assert (Tv : truth abs x c = v) by (unfold truth; rewrite Eu; exact B). rewrite Tv. destruct v.
    + injection D as <-. apply (aif_taken c bs os ops'); [exact F'|reflexivity].
    + apply (IH os ops' r L F' D). now left.
Qed.
Lemma aif_read : forall s c bs os r, (exists ts, Forall2 branch_text bs ts /\ field_written (separated ts) s) -> bs <> [] -> Forall branch_sound bs ->
  Forall2 (fun b o => holds (W c) (fst b) o) bs os -> decided (combine os (map snd bs)) = Some r ->
  prepare_AIF (branch_operands wide (truth abs) false s) c = inr r.
Proof.
  intros s c bs os r (ts & T & Fw) N Sd H D. destruct (branches_read (W c) bs os Sd H) as (ops & F & Lo).
  assert (L : length os = length bs) by (symmetry; eapply Forall2_length; exact H).
  unfold branch_operands. rewrite (fields_read wide s ts ops Fw (text_nonempty _ _ _ _ _ T N) (branch_pieces _ _ _ _ _ L F T)).
  assert (Q : aif_operands (map (branch_operand (truth abs) false) ops) c None false = inr r) by (eapply aif_decides; eauto).
  destruct ops as [|op ops]; [destruct bs; [congruence|discriminate]|]. exact Q.
Qed.

(** ** AGO *)
Lemma ago_read : forall s c e n ns o, regular e -> plain e -> Forall Fld_Spec.symbol (n :: ns) ->
  (exists p q, pad p /\ pad q /\ field_written (separated ((40%N :: p ++ written e ++ q ++ 41%N :: 46%N :: n) :: map (cons 46%N) ns)) s) ->
  worth (W c) e o ->
  exists cx x, ca_field wide (operands s) (column s) false = Some (Branch (XList [cx]) (map big n) :: map Seq (map (map big) ns)) /\
    term_of (XList [cx]) = Some x /\ Exp_Model.resolve KA x = [] /\ good o (Exp_Model.evaluate_as (W c) KA x).
Proof.
  intros s c e n ns o Rg Pl Sy (p & q & Pp & Pq & Fw) H.
  destruct (proj1 (eval_ok (W c)) e o H Rg) as (cx & a & x0 & T & _).
  destruct (proj1 (eval_ok (W c)) (WParen e) o (w_paren _ _ _ H) (conj Pl Rg)) as (cx' & a' & x & T' & X & Rx & G).
  inversion T' as [| | | | | |? cy ay Ty| ]; subst.
  exists cy, x. split; [|split; [exact X|split; [exact Rx|]]].
  - apply (fields_read wide s _ _ Fw); [discriminate|]. constructor.
    + pose proof (branch_piece (PLeaf cy x0) (40%N :: p ++ written e ++ q ++ [41%N]) n) as B. cbn [app] in B. rewrite <- !app_assoc in B. cbn [app] in B.
      rewrite <- ?app_assoc in B. cbn [app] in B. apply B; [|now inversion Sy].
      apply (paren_enclosed _ (written e) p q); [eapply shown_leaf; eassumption|assumption|assumption].
    + inversion Sy as [|? ? _ Sn]; subst. clear - Sn. induction Sn; [constructor|]. cbn [map]. constructor; [now apply seq_piece|assumption].
  - unfold Exp_Model.evaluate_as. now apply answered.
Qed.
Lemma seq_targets_ok : forall ts, seq_targets (map (branch_operand (number abs) 0%Z) (map Seq ts)) = Some ts.
Proof. induction ts as [|t ts IH]; [reflexivity|]. cbn [map branch_operand seq_targets]. now rewrite IH. Qed.
Lemma no_empty : forall ts, existsb is_empty (map (branch_operand (number abs) 0%Z) (map Seq ts)) = false.
Proof. induction ts as [|t ts IH]; [reflexivity|]. exact IH. Qed.
Lemma ago_prepared : forall s c cx x n ts z, ca_field wide (operands s) (column s) false = Some (Branch cx n :: map Seq ts) ->
  term_of cx = Some x -> Exp_Model.evaluate_as (W c) KA x = Some (Exp_Model.SET_A z, []) ->
  prepare_AGO (branch_operands wide (number abs) 0%Z s) c = inr (z, n :: ts).
Proof.
  intros s c cx x n ts z F X E. unfold branch_operands. rewrite F. cbn [map branch_operand prepare_AGO existsb is_empty orb]. rewrite no_empty, seq_targets_ok, X.
  unfold number. rewrite E. reflexivity.
Qed.

(** ** One line *)
Theorem line_done : forall k j w pc st b w' pc', inv k j w pc st -> j <= 4096 -> does abs prog (w, pc) b (w', pc') ->
  inv (S k) (if b then S j else j) w' pc' (run wide abs (S k) srcs c0) /\ announced wide abs srcs st = Some [].
Proof.
  intros k j w pc st b w' pc' Hi Hj D.
  assert (R : Var_Proof.rel (store st) w) by apply Hi. pose proof (seen_same abs (store st) w R) as Sm.
  pose proof (worth_same _ _ Sm) as (Ws & Os). pose proof (holds_same _ _ Sm) as Hs.
  assert (An : forall s, nth_error srcs pc = Some s -> announced wide abs srcs st = says wide abs s (store st)).
  { intros s E. unfold announced, position, data. now rewrite (i_next _ _ _ _ _ Hi), E. }
  inversion D; subst; match goal with H : nth_error prog pc = Some _ |- _ => rename H into Hn end;
    destruct (nth_src _ _ Hn) as (s & Es & L); rewrite (An s Es); unfold line_written in L;
    match goal with H : act _ = _ |- _ => rewrite H in L end; unfold says.
  - destruct L as (Mk & Co & V & Rg & Fw). rewrite Co.
    destruct (set_ok wide abs Var_Model.TA n subs zs (Var_Model.VA z) s (store st) w w') as (c' & E & R'); try assumption.
    { now apply Os. }
    { intros c' X. apply (number_operand wide abs s c' e (Some z)); try assumption. eapply (proj1 (worth_extends _ _ X)); [apply Ws; eassumption|reflexivity]. }
    split; [|now rewrite E]. eapply (plain_step _ _ _ _ _ s Hi Hj Es false (after wide abs Var_Model.TA s)).
    + cbn [statement operation]. now rewrite Co.
    + unfold after. now rewrite E.
  - destruct L as (Mk & Co & V & Fo & Sd & t & T & Fw). rewrite Co.
    destruct (set_ok wide abs Var_Model.TB n subs zs (Var_Model.VB b0) s (store st) w w') as (c' & E & R'); try assumption.
    { now apply Os. }
    { intros c' X. apply (logical_operand wide abs s c' t c (Some b0)); try assumption. eapply (holds_extends _ _ X); [apply Hs; eassumption|reflexivity]. }
    split; [|now rewrite E]. eapply (plain_step _ _ _ _ _ s Hi Hj Es false (after wide abs Var_Model.TB s)).
    + cbn [statement operation]. now rewrite Co.
    + unfold after. now rewrite E.
  - destruct L as (Mk & Co & Ne & Sd & Tx). rewrite Co.
    assert (H' : Forall2 (fun b o => holds (W (store st)) (fst b) o) bs os) by (eapply Forall2_mono; [|eassumption]; cbn beta; auto).
    split.
    + apply (stay_step _ _ _ _ _ s Hi Hj Es). unfold execute.
      assert (Op : operation (statement wide abs s) = Aif (branch_operands wide (truth abs) false s)) by (cbn [statement operation]; now rewrite Co).
      rewrite Op. unfold process_AIF. rewrite (proj1 (proj2 (registers _ _ _ _ _ s Hi Hj Es))).
      rewrite (aif_read s (store st) bs os None Tx Ne Sd H'); [reflexivity|assumption].
    + destruct Tx as (ts & T & C & Ln & n & r & Rm & Eo). rewrite Eo in *.
      destruct (C119_branch wide (W (store st)) (column s) n bs ts r os Ne Sd T Rm C Ln H') as (m & -> & A).
      match goal with H : decided _ = _ |- _ => rewrite H in A end. cbn [announces] in A. rewrite A. reflexivity.
  - destruct L as (Mk & Co & Ne & Sd & Tx). rewrite Co.
    assert (H' : Forall2 (fun b o => holds (W (store st)) (fst b) o) bs os) by (eapply Forall2_mono; [|eassumption]; cbn beta; auto).
    split.
    + apply (jump_step _ _ _ _ _ s Hi Hj Es t).
      * cbn [statement operation]. now rewrite Co.
      * unfold execute.
      assert (Op : operation (statement wide abs s) = Aif (branch_operands wide (truth abs) false s)) by (cbn [statement operation]; now rewrite Co).
      rewrite Op. unfold process_AIF. rewrite (proj1 (proj2 (registers _ _ _ _ _ s Hi Hj Es))).
        rewrite (aif_read s (store st) bs os (Some t) Tx Ne Sd H'); [reflexivity|assumption].
      * assumption.
    + destruct Tx as (ts & T & C & Ln & n & r & Rm & Eo). rewrite Eo in *.
      destruct (C119_branch wide (W (store st)) (column s) n bs ts r os Ne Sd T Rm C Ln H') as (m & -> & A).
      match goal with H : decided _ = _ |- _ => rewrite H in A end. cbn [announces] in A. rewrite A. reflexivity.
  - destruct L as (Mk & Co & Sy & Fw). rewrite Co. pose proof (one_read wide s _ _ Fw (seq_piece n Sy)) as F. rewrite F. split; [|reflexivity].
    apply (jump_step _ _ _ _ _ s Hi Hj Es (map big n)).
    + cbn [statement operation]. now rewrite Co.
    + unfold execute.
      assert (Op : operation (statement wide abs s) = Ago (branch_operands wide (number abs) 0%Z s)) by (cbn [statement operation]; now rewrite Co).
      rewrite Op. unfold process_AGO, branch_operands. rewrite F. reflexivity.
    + assumption.
  - destruct L as (Mk & Co & Rg & Pl & Sy & Tx). rewrite Co.
    match goal with H : worth _ e _ |- _ => apply Ws in H; destruct (ago_read s (store st) e n ns _ Rg Pl Sy Tx H) as (cx & x & F & X & Rx & G) end.
    cbn [good] in G. split.
    + apply (jump_step _ _ _ _ _ s Hi Hj Es (map big m)).
      * cbn [statement operation]. now rewrite Co.
      * unfold execute.
      assert (Op : operation (statement wide abs s) = Ago (branch_operands wide (number abs) 0%Z s)) by (cbn [statement operation]; now rewrite Co).
      rewrite Op. unfold process_AGO. rewrite (proj1 (proj2 (registers _ _ _ _ _ s Hi Hj Es))).
        rewrite (ago_prepared s (store st) _ x _ _ _ F X G).
        match goal with H : nth_error (n :: ns) ?i = Some m |- _ => rename i into q; pose proof (map_nth_error (map big) _ _ H) as Hm end.
        assert (Lq : q < length (map big n :: map (map big) ns)) by (apply nth_error_Some; cbn [map] in Hm; congruence).
        match goal with |- (if ?c then _ else _) = _ => assert (Qc : c = true) end.
        { apply andb_true_iff. split; [lia|]. change (Z.of_nat (S q) <=? Z.of_nat (length (map big n :: map (map big) ns)) = true)%Z. lia. }
        rewrite Qc.
        replace (Z.to_nat (Z.of_nat (S q) - 1)) with q by lia. cbn [map] in Hm.
        match type of Hm with ?y = _ => match goal with |- context [@nth_error ?T ?a ?i] => change (@nth_error T a i) with y end end. rewrite Hm. reflexivity.
      * assumption.
    + rewrite F. cbn [ago_reports]. rewrite X, G, Rx. cbn [existsb omitted orb].
      replace (existsb omitted (map Seq (map (map big) ns))) with false; [reflexivity|]. symmetry. clear. induction ns; [reflexivity|exact IHns].
  - destruct L as (Mk & Co & Rg & Pl & Sy & Tx). rewrite Co.
    match goal with H : worth _ e _ |- _ => apply Ws in H; destruct (ago_read s (store st) e n ns _ Rg Pl Sy Tx H) as (cx & x & F & X & Rx & G) end.
    cbn [good] in G. split.
    + apply (stay_step _ _ _ _ _ s Hi Hj Es).
      unfold execute.
      assert (Op : operation (statement wide abs s) = Ago (branch_operands wide (number abs) 0%Z s)) by (cbn [statement operation]; now rewrite Co).
      rewrite Op. unfold process_AGO. rewrite (proj1 (proj2 (registers _ _ _ _ _ s Hi Hj Es))).
      rewrite (ago_prepared s (store st) _ x _ _ _ F X G).
      assert (Ln : length (map big n :: map (map big) ns) = length (n :: ns)) by (cbn; now rewrite map_length).
      match goal with |- (if ?c then _ else _) = _ => assert (Qc : c = false) end.
      { apply andb_false_iff. match goal with H : (z <= 0 \/ _)%Z |- _ => destruct H end; [left; lia|right].
        change (z <=? Z.of_nat (length (map big n :: map (map big) ns)) = false)%Z. lia. }
      rewrite Qc. reflexivity.
    + rewrite F. cbn [ago_reports]. rewrite X, G, Rx. cbn [existsb omitted orb].
      replace (existsb omitted (map Seq (map (map big) ns))) with false; [reflexivity|]. symmetry. clear. induction ns; [reflexivity|exact IHns].
  - destruct L as (Mk & Co). rewrite Co. split; [|reflexivity].
    eapply (plain_step _ _ _ _ _ s Hi Hj Es true (fun c => c)); [|exact R]. cbn [statement operation]. now rewrite Co.
Qed.

(** A line that asks to go to a mark *)
Theorem line_heads : forall k j w pc st t, inv k j w pc st -> j <= 4096 -> heads abs prog (w, pc) t ->
  exists s, nth_error srcs pc = Some s /\ match operation (statement wide abs s) with Ago _ | Aif _ => True | _ => False end /\
    let f := set_current st (fetched (current st)) in
    execute no_macro f (statement wide abs s) = jump_in_statements (register f (statement wide abs s)) t.
Proof.
  intros k j w pc st t Hi Hj H.
  assert (R : Var_Proof.rel (store st) w) by apply Hi. pose proof (seen_same abs (store st) w R) as Sm.
  pose proof (worth_same _ _ Sm) as (Ws & Os). pose proof (holds_same _ _ Sm) as Hs.
  inversion H; subst; match goal with H : nth_error prog pc = Some _ |- _ => rename H into Hn end;
    destruct (nth_src _ _ Hn) as (s & Es & L); unfold line_written in L; match goal with H : act _ = _ |- _ => rewrite H in L end;
    exists s; (split; [exact Es|]).
  - destruct L as (Mk & Co & Ne & Sd & Tx).
    assert (Op : operation (statement wide abs s) = Aif (branch_operands wide (truth abs) false s)) by (cbn [statement operation]; now rewrite Co).
    split; [now rewrite Op|]. cbv zeta. unfold execute. rewrite Op. unfold process_AIF. rewrite (proj1 (proj2 (registers _ _ _ _ _ s Hi Hj Es))).
    rewrite (aif_read s (store st) bs os (Some t) Tx Ne Sd); [reflexivity| |assumption].
    eapply Forall2_mono; [|eassumption]; cbn beta; auto.
  - destruct L as (Mk & Co & Sy & Fw). pose proof (one_read wide s _ _ Fw (seq_piece n Sy)) as F.
    assert (Op : operation (statement wide abs s) = Ago (branch_operands wide (number abs) 0%Z s)) by (cbn [statement operation]; now rewrite Co).
    split; [now rewrite Op|]. cbv zeta. unfold execute. rewrite Op. unfold process_AGO, branch_operands. rewrite F. reflexivity.
  - destruct L as (Mk & Co & Rg & Pl & Sy & Tx).
    assert (Op : operation (statement wide abs s) = Ago (branch_operands wide (number abs) 0%Z s)) by (cbn [statement operation]; now rewrite Co).
    split; [now rewrite Op|]. cbv zeta. unfold execute. rewrite Op. unfold process_AGO. rewrite (proj1 (proj2 (registers _ _ _ _ _ s Hi Hj Es))).
    match goal with H : worth _ e _ |- _ => apply Ws in H; destruct (ago_read s (store st) e n ns _ Rg Pl Sy Tx H) as (cx & x & F & X & Rx & G) end.
    cbn [good] in G. rewrite (ago_prepared s (store st) _ x _ _ _ F X G).
    match goal with H : nth_error (n :: ns) ?i = Some m |- _ => rename i into q; pose proof (map_nth_error (map big) _ _ H) as Hm end.
    assert (Lq : q < length (map big n :: map (map big) ns)) by (apply nth_error_Some; cbn [map] in Hm; congruence).
    match goal with |- (if ?c then _ else _) = _ => assert (Qc : c = true) end.
    { apply andb_true_iff. split; [lia|]. change (Z.of_nat (S q) <=? Z.of_nat (length (map big n :: map (map big) ns)) = true)%Z. lia. }
    rewrite Qc. replace (Z.to_nat (Z.of_nat (S q) - 1)) with q by lia. cbn [map] in Hm.
    match type of Hm with ?y = _ => match goal with |- context [@nth_error ?T ?a ?i] => change (@nth_error T a i) with y end end. rewrite Hm. reflexivity.
Qed.

(** A line in error *)
Theorem line_wrong : forall k j w pc st, inv k j w pc st -> wrong abs prog (w, pc) -> announced wide abs srcs st <> Some [].
Proof.
  intros k j w pc st Hi H.
  assert (R : Var_Proof.rel (store st) w) by apply Hi. pose proof (seen_same abs (store st) w R) as Sm.
  pose proof (worth_same _ _ Sm) as (Ws & Os). pose proof (holds_same _ _ Sm) as Hs.
  assert (An : forall s, nth_error srcs pc = Some s -> announced wide abs srcs st = says wide abs s (store st)).
  { intros s E. unfold announced, position, data. now rewrite (i_next _ _ _ _ _ Hi), E. }
  assert (As : forall l s t n subs, line_written l s -> assignment (act l) t n subs ->
    variable_written n subs (name_field s) /\ says wide abs s (store st) = option_map snd (process_SET wide abs t s (store st))).
  { intros l s t n subs L A. unfold line_written in L. unfold says. destruct (act l); cbn in A; try destruct A as (-> & -> & ->); try destruct A;
      destruct L as (_ & -> & V & _); split; auto. }
  assert (Sn : forall (m : option (Var_Model.ctx * list message)), (forall c, m <> Some (c, [])) -> option_map snd m <> Some []).
  { intros [(c & ms)|] Hm E; [|discriminate]. injection E as ->. exact (Hm c eq_refl). }
  inversion H; subst; match goal with H : nth_error prog pc = Some _ |- _ => rename H into Hn end;
    destruct (nth_src _ _ Hn) as (s & Es & L); rewrite (An s Es).
  - destruct (As l s t n subs L) as (V & ->); [assumption|]. apply Sn. eapply set_wrong_subscript; [exact V|apply Os; eassumption|assumption].
  - destruct (As l s t n subs L) as (V & ->); [assumption|]. apply Sn. eapply set_wrong_target; [exact R|exact V|apply Os; eassumption|assumption|eassumption].
  - destruct (As l s Var_Model.TA n subs L) as (V & ->); [match goal with H : act l = _ |- _ => rewrite H end; cbn; auto|]. apply Sn.
    unfold line_written in L. match goal with H : act l = _ |- _ => rewrite H in L end. destruct L as (_ & _ & _ & Rg & Fw).
    eapply set_wrong_value; [exact R|exact V|apply Os; eassumption|assumption|].
    apply (number_operand wide abs s (store st) e None); try assumption. now apply Ws.
  - destruct (As l s Var_Model.TB n subs L) as (V & ->); [match goal with H : act l = _ |- _ => rewrite H end; cbn; auto|]. apply Sn.
    unfold line_written in L. match goal with H : act l = _ |- _ => rewrite H in L end. destruct L as (_ & _ & _ & Fo & Sd & t & T & Fw).
    eapply set_wrong_value; [exact R|exact V|apply Os; eassumption|assumption|].
    apply (logical_operand wide abs s (store st) t c None); try assumption. now apply Hs.
  - unfold line_written in L. match goal with H : act l = _ |- _ => rewrite H in L end. destruct L as (Mk & Co & Ne & Sd & ts & T & C & Ln & n & r & Rm & Eo).
    unfold says. rewrite Co. rewrite Eo in *.
    destruct (C119_branch wide (W (store st)) (column s) n bs ts r os Ne Sd T Rm C Ln) as (m & -> & A).
    { eapply Forall2_mono; [|eassumption]; cbn beta; auto. }
    match goal with H : decided _ = _ |- _ => rewrite H in A end. cbn [announces] in A. destruct m as [(x & es)|]; [|discriminate].
    destruct es as [|d es]; [destruct (A x eq_refl)|discriminate].
  - unfold line_written in L. match goal with H : act l = _ |- _ => rewrite H in L end. destruct L as (Mk & Co & Rg & Pl & Sy & Tx).
    match goal with H : worth _ e _ |- _ => apply Ws in H; destruct (ago_read s (store st) e n ns _ Rg Pl Sy Tx H) as (cx & x & F & X & Rx & G) end.
    unfold says. rewrite Co, F. cbn [ago_reports]. rewrite X, Rx. cbn [existsb omitted orb].
    replace (existsb omitted (map Seq (map (map big) ns))) with false by (symmetry; clear; induction ns; [reflexivity|exact IHns]).
    cbn [good] in G. destruct (Exp_Model.evaluate_as (W (store st)) KA x) as [(u & ds)|]; [|discriminate].
    destruct ds as [|d ds]; [destruct (G u eq_refl)|discriminate].
Qed.
End Run.
