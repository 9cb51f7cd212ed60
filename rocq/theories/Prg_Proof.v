(** Worlds that agree, lines read from their characters, assignments. *)
From Coq Require Import String Ascii List NArith ZArith Bool Arith Lia ZifyBool ZifyNat ZifyN.
From Verif Require Import Common Lex_Model Fld_Model Fld_Terms.
From Verif Require Fld_Spec Ca_Spec Ca_Model Grp_Model Exp_Model Var_Model Var_Spec Var_Proof.
From Verif Require Import Cag_Model Cag_Spec Caf_Model Caf_Spec Caf_Proof Caf_Eval Caf_Field.
From Verif Require Import Cal_Spec Cal_Model Cal_Group Cal_Proof Cal_Field Cal_Props.
From Verif Require Import Prg_Model Prg_Spec.
Import ListNotations.
Open Scope list_scope.
Notation length := List.length.
Import Exp_Model.
Open Scope nat_scope.

(** ** Worlds *)
Definition same (u v : world) : Prop :=
  (forall n zs, variable v n zs = variable u n zs) /\ (forall n, absolute v n = absolute u n).
Definition extends (u v : world) : Prop :=
  (forall n zs x, variable u n zs = inl x -> variable v n zs = inl x) /\ (forall n, absolute v n = absolute u n).
Lemma same_extends : forall u v, same u v -> extends u v.
Proof. intros u v (A & B). split; [intros; rewrite A; assumption|exact B]. Qed.

Lemma worth_same : forall u v, same u v ->
  (forall e o, worth u e o -> worth v e o) /\ (forall l os, outcomes u l os -> outcomes v l os).
Proof.
  intros u v (A & B). apply worth_ind2; intros; try (econstructor; eassumption).
  - rewrite <- B. constructor.
  - econstructor; try eassumption. rewrite A. eassumption.
  - eapply w_unknown; try eassumption. rewrite A. eassumption.
Qed.
Lemma holds_same : forall u v, same u v -> forall c o, holds u c o -> holds v c o.
Proof.
  intros u v S c o H. pose proof (worth_same u v S) as (W & O). destruct S as (A & B). induction H; try (econstructor; eauto; fail).
  - apply h_variable with zs v0; auto. now rewrite A.
  - apply h_unknown with zs d; auto. now rewrite A.
Qed.
Lemma worth_extends : forall u v, extends u v ->
  (forall e o, worth u e o -> forall z, o = Some z -> worth v e (Some z)) /\
  (forall l os, outcomes u l os -> forall zs, os = map Some zs -> outcomes v l (map Some zs)).
Proof.
  intros u v (A & B). apply worth_ind2; intros; try discriminate.
  - match goal with H : Some _ = Some _ |- _ => injection H as <- end. now constructor.
  - match goal with H : Some _ = Some _ |- _ => injection H as <- end. now constructor.
  - rewrite <- H. rewrite <- B. constructor.
  - match goal with H : Some _ = Some _ |- _ => injection H as <- end. eapply w_variable; eauto.
  - apply w_plus. auto.
  - match goal with H : Some _ = Some _ |- _ => injection H as <- end. apply w_minus; auto.
  - apply w_paren. auto.
  - match goal with H : computed _ _ _ = _ |- _ => rewrite <- H end. apply w_binary; auto.
  - destruct zs; [constructor|discriminate].
  - destruct zs as [|z zs]; [discriminate|]. match goal with H : _ :: _ = _ |- _ => cbn [map] in H; injection H as -> -> end. cbn [map]. constructor; auto.
Qed.
Lemma holds_extends : forall u v, extends u v -> forall c o, holds u c o -> forall b, o = Some b -> holds v c (Some b).
Proof.
  intros u v S c o H. pose proof (worth_extends u v S) as (W & O). destruct S as (A & B). induction H; intros b' E; try discriminate.
  - injection E as <-. apply h_value; eauto.
  - injection E as <-. eapply h_variable; eauto.
  - injection E as <-. apply h_compare; eauto.
  - destruct o as [x|]; [|discriminate]. rewrite <- E. apply (h_not v c (Some x)). auto.
  - injection E as <-. apply h_join; auto.
  - apply h_paren. auto.
Qed.

(** The variables of a state and their description *)
Lemma seen_same : forall abs c w, Var_Proof.rel c w -> same (seen abs w) (variables abs c).
Proof.
  intros abs c w R. split; [|reflexivity]. intros n zs. cbn [variable variables seen]. rewrite (Var_Proof.reads_ok c w n zs R).
  destruct (Var_Spec.reads w n zs) as [[]| |]; reflexivity.
Qed.
Lemma created_extends : forall abs c w n t b, Var_Proof.rel c w -> Var_Model.get_var_sym n c = None ->
  extends (variables abs c) (variables abs (snd (Var_Model.create_local_variable t n b c))).
Proof.
  intros abs c w n t b R Hn.
  assert (L : Var_Model.lookup n (Var_Model.variables (Var_Model.current c)) = None).
  { unfold Var_Model.get_var_sym in Hn. destruct (Var_Model.lookup _ _); [discriminate|reflexivity]. }
  pose proof (Var_Proof.symbol_ok c w n R) as Hs. rewrite Hn in Hs.
  destruct (Var_Proof.create_local_new c w n t b R L) as (a & c' & E & R' & _). rewrite E. cbn [snd]. split; [|reflexivity].
  intros m zs x. cbn [variable variables]. rewrite (Var_Proof.reads_ok _ _ m zs R), (Var_Proof.reads_ok _ _ m zs R').
  destruct (bytes_eqb m n) eqn:Em.
  - apply bytes_eqb_eq in Em. subst m. unfold Var_Spec.reads at 1. rewrite Hs. discriminate.
  - assert (X : Var_Spec.reads (Var_Spec.with_here w (Var_Spec.upd (Var_Spec.here w) n (Var_Spec.Local (Var_Spec.fresh t b)))) m zs = Var_Spec.reads w m zs).
    { unfold Var_Spec.reads, Var_Spec.symbol, Var_Spec.with_here, Var_Spec.upd. cbn [Var_Spec.here Var_Spec.shared]. rewrite Em. reflexivity. }
    rewrite X. auto.
Qed.

(** ** Lines *)
Lemma one_read : forall wide s t op, field_written t s -> piece t op -> ca_field wide (operands s) (column s) false = Some [op].
Proof.
  intros wide s t op (C & L & k & r & R & E) P. rewrite E in *.
  apply (pieces_read wide (column s) k [t] r [op]); [discriminate|exact R|exact C|exact L|]. constructor; [exact P|constructor].
Qed.
Lemma fields_read : forall wide s l ops, field_written (separated l) s -> l <> [] -> Forall2 piece l ops ->
  ca_field wide (operands s) (column s) false = Some ops.
Proof.
  intros wide s l ops (C & L & k & r & R & E) N P. rewrite E in *.
  apply (pieces_read wide (column s) k l r ops); assumption.
Qed.
Lemma seq_piece : forall n, Fld_Spec.symbol n -> piece (46%N :: n) (Seq (map big n)).
Proof.
  intros n Sn. split; [intros r; cbn; discriminate|]. split; [constructor; [split; discriminate|now apply symbol_line']|].
  exists [TDot; TId (map big n)]. split; [constructor|]. intros q r ts F T.
  destruct (mark_lexed _ 46%N DOT TDot _ _ eq_refl ltac:(discriminate) ltac:(reflexivity) ltac:(discriminate) T) as (t2 & T2 & L2).
  destruct (symbol_lexed _ n _ _ Sn F T2) as (p3 & t3 & T3 & L3). exists p3, t3. split; [exact T3|]. intros d ks E.
  cbn [app]. apply L2. apply (L3 d ks E).
Qed.

Section Lines.
Variable wide : N -> bool.
Variable abs : bytes -> option Z.
Notation W := (variables abs).

Lemma target_read : forall s c n subs os, variable_written n subs (name_field s) -> outcomes (W c) subs os ->
  exists cs xs, target wide s = Some (map big n, cs) /\ all (map term_of cs) = Some xs /\ flat_map (resolve KA) xs = [] /\
    (forall zs, os = map Some zs -> sequence (map (subscript abs c) xs) = Some (zs, [])) /\
    (In None os -> forall v, sequence (map (subscript abs c) xs) <> Some (v, [])).
Proof.
  intros s c n subs os (Et & Rg & L) O. destruct (proj2 (eval_ok (W c)) subs os O (proj2 Rg)) as (cs & xs & Sx & A & Rs & G & G').
  exists cs, xs. split; [|split; [exact A|split; [exact Rs|split; [exact G|exact G']]]].
  assert (T : exists a, as_tokens (WVariable n subs) (XVar (map big n) cs) a).
  { destruct subs as [|e es]; [subst cs; eexists; apply at_variable|]. destruct Sx as (a & Sx). eexists. apply at_element. exact Sx. }
  destruct T as (a & T). unfold target. rewrite Et in *.
  assert (Q : ca_field wide (repeat 32%N 1 ++ separated [written (WVariable n subs)] ++ []) 1 false = Some [Value (XVar (map big n) cs)]).
  { apply (pieces_read wide 1 0 [written (WVariable n subs)] [] [Value (XVar (map big n) cs)]); [discriminate|exact I|lia| |].
    - rewrite app_nil_r. change (separated [written (WVariable n subs)]) with (written (WVariable n subs)).
      change (1 + length (repeat 32%N 1 ++ written (WVariable n subs))) with (S (S (length (written (WVariable n subs))))). lia.
    - constructor; [eapply plain_piece; eassumption|constructor]. }
  rewrite app_nil_r in Q. change (separated [written (WVariable n subs)]) with (written (WVariable n subs)) in Q.
  change (repeat 32%N 1 ++ written (WVariable n subs)) with (32%N :: written (WVariable n subs)) in Q. rewrite Q. reflexivity.
Qed.

(** *** Assignments *)
(** The operand, whatever the variables besides those it uses are. *)
Definition operand_is (t : Var_Model.ty) (s : source) (c : Var_Model.ctx) (o : option Var_Model.val) : Prop :=
  exists cx x, ca_field wide (operands s) (column s) false = Some [Value cx] /\ term_of cx = Some x /\ resolve (kind_of t) x = [] /\
    match o with
    | Some v => exists u, evaluate_as (W c) (kind_of t) x = Some (u, []) /\ stored t u = v
    | None => forall u, evaluate_as (W c) (kind_of t) x <> Some (u, [])
    end.
Lemma number_operand : forall s c e o, field_written (written e) s -> regular e -> worth (W c) e o ->
  operand_is Var_Model.TA s c (option_map Var_Model.VA o).
Proof.
  intros s c e o F R H. destruct (proj1 (eval_ok (W c)) e o H R) as (cx & a & x & T & X & Rx & G). exists cx, x.
  split; [eapply one_read; [exact F|eapply plain_piece; eassumption]|]. split; [exact X|]. split; [exact Rx|].
  apply (answered o _ (kind_after KA x)) in G. destruct o as [z|]; cbn [option_map good] in *.
  - exists (SET_A z). split; [exact G|reflexivity].
  - exact G.
Qed.
Lemma logical_operand : forall s c t b o, field_written t s -> operand_form b -> sound b -> text b t -> holds (W c) b o ->
  operand_is Var_Model.TB s c (option_map Var_Model.VB o).
Proof.
  intros s c t b o F Fo S T H. destruct (cond_read (W c) b o t Fo S H T) as (op & a & P & An & Ab).
  assert (V : exists cx, op = Value cx).
  { destruct op; cbn [answer_of] in An; try (injection An as <-; inversion Ab; fail). eauto. }
  destruct V as (cx & ->). cbn [answer_of] in An.
  destruct (term_of cx) as [x|] eqn:X; [|discriminate]. injection An as <-.
  exists cx, x. split; [eapply one_read; eassumption|]. split; [exact X|].
  inversion Ab as [v vb B Ty E1 E2|m Hm E1 E2]; subst.
  - split; [symmetry; assumption|]. exists v. split; [symmetry; assumption|reflexivity].
  - split; [symmetry; assumption|]. exact Hm.
Qed.

Lemma set_ok : forall t n subs zs v s c w w', Var_Proof.rel c w -> variable_written n subs (name_field s) ->
  outcomes (W c) subs (map Some zs) -> (forall c', extends (W c) (W c') -> operand_is t s c' (Some v)) -> gets t n zs v w w' ->
  exists c', process_SET wide abs t s c = Some (c', []) /\ Var_Proof.rel c' w'.
Proof.
  intros t n subs zs v s c w w' R V O Op (Sm & As).
  destruct (target_read s c n subs _ V O) as (cs & xs & Ta & Al & Rs & G & _). specialize (G zs eq_refl).
  destruct (Var_Proof.SET_ok t (map big n) zs [Var_Model.Expr (Var_Model.Ret v)] c w R) as (Hf & R').
  { cbn [Var_Spec.small length]. exact Sm. }
  rewrite As in Hf, R'. cbn [fst snd] in Hf, R'. unfold process_SET. rewrite Ta, Al, G, Rs. cbn [app map].
  unfold Var_Model.process_SET in Hf, R'.
  destruct (Var_Model.test_symbol_for_assignment t (map big n) zs c) as [d|(index & symbol)] eqn:Te; [discriminate|].
  assert (X : extends (W c) (W (snd match symbol with Some a => (a, c) | None => Var_Model.create_local_variable t (map big n) (index =? -1)%Z c end))).
  { destruct symbol as [a|]; [cbn [snd]; apply same_extends; split; reflexivity|]. eapply created_extends; [exact R|].
    unfold Var_Model.test_symbol_for_assignment in Te. destruct (Var_Model.get_var_sym (map big n) c) as [[a|]|]; [|discriminate|reflexivity].
    destruct (match zs with [] => _ | _ => _ end); [discriminate|]. destruct (negb _); [discriminate|].
    destruct (_ || _); discriminate. }
  revert X R'. clear Hf. destruct (match symbol with Some a => (a, c) | None => Var_Model.create_local_variable t (map big n) (index =? -1)%Z c end) as (a & c').
  cbn [snd]. intros X R'. destruct (Op c' X) as (cx & x & F & Tx & Rx & u & Eu & Su).
  unfold set_values. rewrite F. cbn [expressions map all fold_right]. rewrite Tx. cbn [set_all]. rewrite Eu. cbn [flat_map]. rewrite Rx. cbn [app map].
  eexists. split; [reflexivity|]. rewrite Su. exact R'.
Qed.

(** Anything wrong is reported. *)
Lemma set_wrong_subscript : forall t n subs os s c, variable_written n subs (name_field s) -> outcomes (W c) subs os -> In None os ->
  forall c', process_SET wide abs t s c <> Some (c', []).
Proof.
  intros t n subs os s c V O I c' E. destruct (target_read s c n subs os V O) as (cs & xs & Ta & Al & Rs & _ & G). specialize (G I).
  unfold process_SET in E. rewrite Ta, Al in E. destruct (sequence _) as [(zs & ds)|] eqn:Sq; [|discriminate].
  assert (D : ds <> []) by (intros ->; exact (G zs eq_refl)). rewrite Rs in E. cbn [app] in E.
  destruct ds as [|d ds]; [congruence|]. destruct (Var_Model.test_symbol_for_assignment t (map big n) zs c) as [x|(index & symbol)]; [discriminate|].
  destruct (match symbol with Some a => (a, c) | None => _ end) as (a & c1). destruct (set_values _ _ _ _ _ _ _) as [(c2 & ms)|]; discriminate.
Qed.
Lemma set_wrong_target : forall t n subs zs s c w v d ds, Var_Proof.rel c w -> variable_written n subs (name_field s) ->
  outcomes (W c) subs (map Some zs) -> Forall (fun i => i + 1 < 2 ^ 31)%Z zs ->
  fst (Var_Spec.assigns t (map big n) zs [Var_Model.Expr (Var_Model.Ret v)] w) = d :: ds ->
  forall c', process_SET wide abs t s c <> Some (c', []).
Proof.
  intros t n subs zs s c w v d ds R V O Sm As c' E.
  destruct (target_read s c n subs _ V O) as (cs & xs & Ta & Al & Rs & G & _). specialize (G zs eq_refl).
  destruct (Var_Proof.SET_ok t (map big n) zs [Var_Model.Expr (Var_Model.Ret v)] c w R) as (Hf & _).
  { cbn [Var_Spec.small length]. exact Sm. }
  rewrite As in Hf. unfold process_SET in E. rewrite Ta, Al, G, Rs in E. cbn [app map] in E.
  unfold Var_Model.process_SET in Hf. destruct (Var_Model.test_symbol_for_assignment t (map big n) zs c) as [x|(index & symbol)]; [discriminate|].
  destruct (match symbol with Some a => (a, c) | None => Var_Model.create_local_variable t (map big n) (index =? -1)%Z c end) as (a & c1). discriminate.
Qed.
Lemma set_wrong_value : forall t n subs zs s c w, Var_Proof.rel c w -> variable_written n subs (name_field s) ->
  outcomes (W c) subs (map Some zs) -> Var_Spec.here w (map big n) <> None -> operand_is t s c None ->
  forall c', process_SET wide abs t s c <> Some (c', []).
Proof.
  intros t n subs zs s c w R V O Hh (cx & x & F & Tx & Rx & Nv) c' E.
  destruct (target_read s c n subs _ V O) as (cs & xs & Ta & Al & Rs & G & _). specialize (G zs eq_refl).
  unfold process_SET in E. rewrite Ta, Al, G, Rs in E. cbn [app map] in E.
  destruct (Var_Model.test_symbol_for_assignment t (map big n) zs c) as [d|(index & symbol)] eqn:Te; [discriminate|].
  destruct symbol as [a|].
  2: { pose proof (Var_Proof.symbol_ok c w (map big n) R) as Hs. unfold Var_Model.test_symbol_for_assignment in Te.
       destruct (Var_Model.get_var_sym (map big n) c) as [[a|]|]; [|discriminate|congruence].
       destruct (match zs with [] => _ | _ => _ end); [discriminate|]. destruct (negb _); [discriminate|].
       destruct (_ || _); discriminate. }
  unfold set_values in E. rewrite F in E. cbn [expressions map all fold_right] in E. rewrite Tx in E. cbn [set_all] in E.
  destruct (evaluate_as (W c) (kind_of t) x) as [(u & ds)|] eqn:Eu; [|discriminate].
  destruct ds as [|d ds]; [exact (Nv u eq_refl)|]. cbn [flat_map map] in E. rewrite Rx in E. cbn [app map] in E. discriminate.
Qed.
End Lines.
