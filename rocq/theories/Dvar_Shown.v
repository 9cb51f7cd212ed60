(** What unfolding a variable leads to, compared with what reading it yields. *)
From Coq Require Import String.
From Coq Require Import List NArith ZArith Bool Arith Lia.
From Coq Require Import ZifyBool ZifyNat ZifyN.
From Verif Require Import Common Text_Spec Var_Model Sub_Model Attr_Model Attr_Spec Attr_Proof Dvar_Model Dvar_Spec Dvar_Proof.
Import ListNotations.
Open Scope Z_scope.

Lemma to_string_decimal z : is_decimal z (to_string z).
Proof. unfold to_string, is_decimal. destruct (Z.ltb_spec z 0); [right|left]; auto. Qed.
Lemma decimal_text z t : is_decimal z t -> t = to_string z.
Proof. unfold to_string, is_decimal. destruct (Z.ltb_spec z 0); intros [(H1 & ->)|(H1 & ->)]; try reflexivity; lia. Qed.
Lemma decimals_text subs ns : Forall2 is_decimal subs ns -> ns = List.map to_string subs.
Proof. induction 1 as [|z t zs ts H F IH]; [reflexivity|]. cbn [List.map]. now rewrite <- IH, (decimal_text _ _ H). Qed.
Lemma decimals subs : Forall2 is_decimal subs (List.map to_string subs).
Proof. induction subs; constructor; [apply to_string_decimal|assumption]. Qed.

(** ** Items of sublists *)
Lemma item_selects d subs x : item d subs x -> selects d subs x.
Proof. induction 1; [constructor|]. eapply sel_element; eauto. Qed.
Lemma item_positive d subs x : item d subs x -> Forall (fun i => 1 <= i) subs.
Proof. intros H. eapply selects_positive, item_selects, H. Qed.
Lemma item_snoc d subs l k x : item d subs (Composite l) -> nth_error l k = Some x ->
  item d (subs ++ [1 + Z.of_nat k]) x.
Proof.
  remember (Composite l) as y eqn:E. intros H. revert E. induction H as [d|l0 i r x0 y Hi Hn H IH]; intros E Hk; cbn [app].
  - subst d. apply (it_item _ _ _ x); [lia| |constructor]. replace (Z.to_nat (1 + Z.of_nat k - 1)) with k by lia. exact Hk.
  - apply (it_item _ _ _ x0); auto.
Qed.
Lemma item_split d : forall subs x i r y, item d subs x -> item d (subs ++ i :: r) y -> item x (i :: r) y.
Proof.
  intros subs x i r y H. revert y. induction H as [d|l0 j s x0 x Hi Hn H IH]; intros z K; cbn [app] in K; [exact K|].
  inversion K as [|? ? ? x1 ? Hj Hm K']; subst. rewrite Hn in Hm. injection Hm as <-. now apply IH.
Qed.
Definition base (v : var) (subs : list Z) : Z := match v, subs with VSys _, [] => 0 | _, _ => 1 end.
Lemma var_item_snoc v subs l k x : var_item v subs (Composite l) -> nth_error l k = Some x ->
  var_item v (subs ++ [base v subs + Z.of_nat k]) x.
Proof.
  intros H Hk. inversion H as [d s0 x0 Hi| |l0 i r x0 y Hi Hn Hr]; subst.
  - constructor. unfold base. eapply item_snoc; eauto.
  - cbn [app base]. apply (vi_numbered _ _ _ x); [lia| |constructor]. replace (Z.to_nat (0 + Z.of_nat k)) with k by lia. exact Hk.
  - cbn [app base]. apply (vi_numbered _ _ _ x0); auto. eapply item_snoc; eauto.
Qed.
Lemma item_cons_inv d i r y : item d (i :: r) y ->
  exists l k x, d = Composite l /\ i = 1 + Z.of_nat k /\ nth_error l k = Some x /\ item x r y.
Proof.
  intros H. inversion H as [|l ? ? x ? Hi Hn K]; subst. exists l, (Z.to_nat (i - 1)), x.
  split; [reflexivity|]. split; [lia|]. split; assumption.
Qed.
Lemma var_item_split v subs x i r y : var_item v subs x -> var_item v (subs ++ i :: r) y ->
  exists l k x', x = Composite l /\ i = base v subs + Z.of_nat k /\ nth_error l k = Some x'.
Proof.
  intros H K. inversion H as [d s0 x0 Hi| |l0 j s x0 z Hj Hn Hr]; subst.
  - inversion K as [? ? ? Ki| |]; subst. destruct (item_cons_inv _ _ _ _ (item_split _ _ _ _ _ _ Hi Ki)) as (l & k & x' & E1 & E2 & E3 & _).
    exists l, k, x'. auto.
  - cbn [app] in K. inversion K as [| |l1 ? ? x1 ? Hi1 Hn1 Hr1]; subst. exists l1, (Z.to_nat i), x1.
    split; [reflexivity|]. cbn [base]. split; [lia|exact Hn1].
  - cbn [app] in K. inversion K as [| |l1 ? ? x1 ? Hi1 Hn1 Hr1]; subst. rewrite Hn in Hn1. injection Hn1 as <-.
    destruct (item_cons_inv _ _ _ _ (item_split _ _ _ _ _ _ Hr Hr1)) as (l & k & x' & E1 & E2 & E3 & _).
    exists l, k, x'. auto.
Qed.
Lemma item_ints d subs x : item d subs x -> (forall s l, item d s (Composite l) -> Z.of_nat (length l) < 2 ^ 31 - 1) -> ints subs.
Proof.
  unfold ints. induction 1 as [d|l0 i r x0 y Hi Hn H IH]; intros Sh; constructor.
  - assert (B : (Z.to_nat (i - 1) < length l0)%nat) by (apply nth_error_Some; congruence).
    specialize (Sh [] l0 (it_all _)). lia.
  - apply IH. intros s l Hs. apply (Sh (i :: s)). eapply it_item; eauto.
Qed.
Lemma var_item_ints v subs x : var_item v subs x -> short v -> ints subs.
Proof.
  intros H Sh. inversion H as [d s0 x0 Hi| |l0 i r x0 y Hi Hn Hr]; subst.
  - eapply item_ints; [exact Hi|]. intros s l Hs. apply (Sh s). now constructor.
  - constructor.
  - assert (B : (Z.to_nat i < length l0)%nat) by (apply nth_error_Some; congruence).
    pose proof (Sh [] l0 (vi_system _)). unfold ints. constructor; [lia|].
    eapply item_ints; [exact Hr|]. intros s l Hs. apply (Sh (i :: s)). eapply vi_numbered; eauto.
Qed.
Lemma var_item_data v subs x : var_item v subs x -> short v -> var_data v subs = x.
Proof.
  intros H Sh. pose proof (var_item_ints _ _ _ H Sh) as F. inversion H as [d s0 x0 Hi| |l0 i r x0 y Hi Hn Hr]; subst; cbn [var_data].
  - apply selects_below; [now apply item_selects|exact F].
  - reflexivity.
  - apply sys_selects_below; [|exact F]. eapply sys_element; eauto. now apply item_selects.
Qed.
(** Reading it. *)
Lemma var_item_read v subs x : var_item v subs x -> short v -> var_value (Some v) subs = inr (VC (Sub_Model.get_value x)).
Proof.
  intros H Sh. pose proof (var_item_data _ _ _ H Sh) as D. unfold var_value.
  assert (E : test_for_read v subs = None).
  { inversion H as [d s0 x0 Hi| |l0 i r x0 y Hi Hn Hr]; subst; cbn [test_for_read]; [|reflexivity|].
    - apply test_params_first. eapply item_positive; eauto.
    - apply test_params_sys. split; [exact Hi|]. eapply item_positive; eauto. }
  rewrite E, <- D. destruct v as [y|d|d]; [|reflexivity|reflexivity]. inversion H.
Qed.

(** ** Macro parameters and system variables *)
Lemma base_first p index : (if fst p && match index with [] => true | _ => false end then 0 else 1) = base (param_var p) index.
Proof. destruct p as [[] d], index; reflexivity. Qed.
Lemma macro_descends n p : short (param_var p) -> forall v ns y, descends v ns y ->
  forall index x, v = MacroVar n p index -> var_item (param_var p) index x ->
  exists subs x', y = MacroVar n p (index ++ subs) /\ var_item (param_var p) (index ++ subs) x' /\ Forall2 is_decimal subs ns.
Proof.
  intros Sh. induction 1 as [v|v vs w ns y Sc V Hw D IH]; intros index x -> Hx.
  - exists [], x. rewrite app_nil_r. auto.
  - cbn [dvalues] in V. injection V as <-. rewrite base_first in Hw. apply in_map_iff in Hw. destruct Hw as (k & <- & Hk). apply in_seq in Hk.
    unfold msize in Hk. rewrite (var_item_data _ _ _ Hx Sh) in Hk.
    destruct x as [|t|l]; [cbn in Hk; lia|cbn in Hk; lia|]. cbn [data_size] in Hk.
    destruct (nth_error l k) as [x'|] eqn:E; [|apply nth_error_None in E; lia].
    pose proof (var_item_snoc _ _ _ _ _ Hx E) as Hx'.
    destruct (IH _ _ eq_refl Hx') as (subs & z & -> & Hz & F).
    exists ((base (param_var p) index + Z.of_nat k) :: subs), z. rewrite <- app_assoc in *. cbn [app] in *.
    split; [reflexivity|]. split; [exact Hz|]. constructor; [|exact F].
    cbn [dname]. destruct (index ++ [base (param_var p) index + Z.of_nat k]) eqn:Ei; [now apply app_eq_nil in Ei|].
    rewrite <- Ei, last_last. apply to_string_decimal.
Qed.
Lemma macro_dname n p index i : dname (MacroVar n p (index ++ [i])) = to_string i.
Proof.
  cbn [dname]. destruct (index ++ [i]) eqn:Ei; [now apply app_eq_nil in Ei|]. now rewrite <- Ei, last_last.
Qed.
Lemma macro_reached n p : short (param_var p) -> forall subs index x y, var_item (param_var p) index x ->
  var_item (param_var p) (index ++ subs) y -> descends (MacroVar n p index) (List.map to_string subs) (MacroVar n p (index ++ subs)).
Proof.
  intros Sh. induction subs as [|i subs IH]; intros index x y Hx Hy.
  - rewrite app_nil_r. constructor.
  - destruct (var_item_split _ _ _ _ _ _ Hx Hy) as (l & k & x' & -> & -> & Hk).
    pose proof (var_item_snoc _ _ _ _ _ Hx Hk) as Hx'. set (i := base (param_var p) index + Z.of_nat k) in *.
    assert (B : (k < length l)%nat) by (apply nth_error_Some; congruence).
    assert (M : msize p index = length l) by (unfold msize; rewrite (var_item_data _ _ _ Hx Sh); reflexivity).
    replace (index ++ i :: subs) with ((index ++ [i]) ++ subs) in * by (now rewrite <- app_assoc).
    cbn [List.map]. rewrite <- (macro_dname n p index i).
    apply (de_into _ (List.map (fun k => MacroVar n p (index ++ [base (param_var p) index + Z.of_nat k])) (seq 0 (msize p index)))).
    + cbn [dscalar]. rewrite M. apply Nat.eqb_neq. lia.
    + cbn [dvalues]. now rewrite base_first.
    + apply in_map_iff. exists k. split; [reflexivity|]. apply in_seq. lia.
    + eapply IH; eauto.
Qed.
Lemma macro_all_unfold n p : forall ns index, all_unfold (MacroVar n p index) ns.
Proof.
  induction ns as [|a ns IH]; intros index; [constructor|]. econstructor; [reflexivity| |].
  - intros x Hx. apply in_map_iff in Hx. destruct Hx as (k & <- & _). discriminate.
  - intros x Hx _. apply in_map_iff in Hx. destruct Hx as (k & <- & _). apply IH.
Qed.

(** ** SET symbols *)
Lemma all_some_in {A} : forall (l : list (option A)) r, all_some l = Some r -> forall x, In x r <-> In (Some x) l.
Proof.
  induction l as [|[a|] l IH]; intros r H x; cbn [all_some] in H; [|destruct (all_some l) eqn:E|easy].
  - injection H as <-. easy.
  - injection H as <-. cbn [In]. rewrite (IH _ eq_refl). split; intros [H|H]; auto; left; congruence.
  - easy.
Qed.
Lemma all_some_total {A} : forall (l : list (option A)), ~ In None l -> all_some l <> None.
Proof.
  induction l as [|[a|] l IH]; intros H; cbn [all_some]; [easy| |exfalso; apply H; now left].
  destruct (all_some l); [easy|]. exfalso. apply IH; [|reflexivity]. intros K. apply H. now right.
Qed.
Definition keyed (y : sym) : Prop := Forall (fun e : Z * val => 0 <= fst e < 2 ^ 31 - 1) (s_data y).
Lemma as_int_small z : 0 <= z < 2 ^ 31 -> as_int z = z.
Proof. intros H. unfold as_int. rewrite Z.mod_small by lia. destruct (Z.ltb_spec z (2 ^ 31)); [reflexivity|lia]. Qed.
Lemma set_values_in n y vs i : keyed y -> dvalues (SetVar n y i) = Some vs ->
  forall x, In x vs <-> exists k, In k (List.map fst (s_data y)) /\ x = SetVar n y (Some k).
Proof.
  intros K V x. cbn [dvalues] in V. rewrite (all_some_in _ _ V). rewrite in_map_iff. split.
  - intros ([k w] & E & Hk). cbn [fst] in E. unfold keyed in K. rewrite Forall_forall in K. pose proof (K _ Hk) as B. cbn [fst] in B.
    unfold set_child in E. rewrite as_int_small in E by lia. destruct (Z.eqb_spec k (2 ^ 31 - 1)); [lia|].
    injection E as <-. exists k. split; [|reflexivity]. apply in_map_iff. exists (k, w). auto.
  - intros (k & Hk & ->). apply in_map_iff in Hk. destruct Hk as ([k' w] & E & Hk). cbn [fst] in E. subst k'.
    exists (k, w). split; [|exact Hk]. unfold keyed in K. rewrite Forall_forall in K. pose proof (K _ Hk) as B. cbn [fst] in *.
    unfold set_child. rewrite as_int_small by lia. destruct (Z.eqb_spec k (2 ^ 31 - 1)); [lia|reflexivity].
Qed.
Lemma set_values_some n y i : keyed y -> dvalues (SetVar n y i) <> None.
Proof.
  intros K. cbn [dvalues]. apply all_some_total. intros H. apply in_map_iff in H. destruct H as ([k w] & E & Hk).
  unfold keyed in K. rewrite Forall_forall in K. pose proof (K _ Hk) as B. cbn [fst] in *.
  unfold set_child in E. rewrite as_int_small in E by lia. destruct (Z.eqb_spec k (2 ^ 31 - 1)); [lia|discriminate].
Qed.
Lemma set_text y index v : shown_as (inr v) (match v with VA z => to_string z | VB b => s2b (if b then "TRUE" else "FALSE") | VC t => t end) ->
  set_get y index = v -> dscalar (SetVar [] y index) = true -> forall n, shown_as (inr v) (dvalue (SetVar n y index)).
Proof.
  intros H E Sc n. cbn [dvalue]. replace (dscalar (SetVar n y index)) with (dscalar (SetVar [] y index)) by reflexivity.
  rewrite Sc. cbn [negb]. rewrite E. exact H.
Qed.
Lemma val_shown v : shown_as (inr v) (match v with VA z => to_string z | VB b => s2b (if b then "TRUE" else "FALSE") | VC t => t end).
Proof. destruct v as [z|[]|t]; constructor. apply to_string_decimal. Qed.
Lemma set_descends n y ns w : keyed y -> descends (SetVar n y None) ns w ->
  exists subs index, w = SetVar n y index /\ Forall2 is_decimal subs ns /\ holds (VSet y) subs /\
    shown_as (var_value (Some (VSet y)) subs) (dvalue w) /\ (dscalar w = false <-> expandable (VSet y) subs).
Proof.
  intros K H. inversion H as [v|v vs x ns' z Sc V Hx D]; subst.
  - exists [], None. split; [reflexivity|]. split; [constructor|]. split; [constructor|].
    split; [|cbn [dscalar]; split; [intros E; now constructor|intros E; inversion E as [? E'|? ? ? Hv]; subst; [exact E'|inversion Hv]]].
    unfold var_value. cbn [test_for_read]. destruct (s_scalar y) eqn:Sc.
    + apply (set_text y None); [apply val_shown| |exact Sc]. unfold set_get. now rewrite Sc.
    + cbn [dvalue dscalar]. rewrite Sc. constructor.
  - cbn [dscalar] in Sc. apply (set_values_in _ _ _ _ K V) in Hx. destruct Hx as (k & Hk & ->).
    inversion D as [v|v vs' x' ns2 z' Sc' V' Hx' D']; subst; [|discriminate].
    assert (B : 0 <= k < 2 ^ 31 - 1).
    { apply in_map_iff in Hk. destruct Hk as (e & <- & He). unfold keyed in K. rewrite Forall_forall in K. exact (K _ He). }
    exists [k + 1], (Some k). split; [reflexivity|]. split; [constructor; [apply to_string_decimal|constructor]|].
    split; [apply h_assigned; [exact Sc|]; now replace (k + 1 - 1) with k by lia|].
    split; [|cbn [dscalar]; split; [discriminate|intros E; inversion E as [? E'|? ? ? Hv]; subst; inversion Hv]].
    unfold var_value. cbn [test_for_read]. rewrite Sc. destruct (Z.ltb_spec (k + 1) 1); [lia|].
    apply (set_text y (Some k)); [apply val_shown| |reflexivity]. unfold set_get. rewrite Sc.
    now replace (k + 1 - 1) with k by lia.
Qed.
Lemma set_reached n y subs : keyed y -> holds (VSet y) subs ->
  exists w, descends (SetVar n y None) (List.map to_string subs) w /\ all_unfold (SetVar n y None) (List.map to_string subs).
Proof.
  intros K H. inversion H as [?|? i Sc Hi|? ? ? Hv]; subst; [| |inversion Hv].
  - exists (SetVar n y None). split; constructor.
  - destruct (dvalues (SetVar n y None)) as [vs|] eqn:V; [|now apply set_values_some in V].
    pose proof (set_values_in _ _ _ _ K V) as Vi. exists (SetVar n y (Some (i - 1))). cbn [List.map]. split.
    + replace (to_string i) with (dname (SetVar n y (Some (i - 1)))) by (cbn [dname]; f_equal; lia).
      apply (de_into _ vs); [exact Sc|exact V| |constructor]. apply Vi. eauto.
    + econstructor; [exact V| |].
      * intros x Hx. apply Vi in Hx. destruct Hx as (k & _ & ->). discriminate.
      * intros x Hx _. constructor.
Qed.

(** ** The lists of a scope *)
Lemma lookup_in {A} n : forall (l : list (bytes * A)) x, NoDup (List.map fst l) -> In (n, x) l -> lookup n l = Some x.
Proof.
  induction l as [|[k y] l IH]; intros x N H; [easy|]. cbn [lookup]. cbn [List.map fst] in N. inversion N as [|? ? N1 N2]; subst.
  destruct H as [H|H].
  - injection H as -> ->. now rewrite (proj2 (bytes_eqb_eq n n) eq_refl).
  - destruct (bytes_eqb n k) eqn:E; [|now apply IH]. apply bytes_eqb_eq in E. subst k. exfalso. apply N1.
    apply in_map_iff. exists (n, x). auto.
Qed.
Lemma lookup_some {A} n : forall (l : list (bytes * A)) x, lookup n l = Some x -> In (n, x) l.
Proof.
  induction l as [|[k y] l IH]; intros x H; [easy|]. cbn [lookup] in H. destruct (bytes_eqb n k) eqn:E.
  - apply bytes_eqb_eq in E. injection H as ->. subst. now left.
  - right. now apply IH.
Qed.
Lemma lookup_none {A} n (l : list (bytes * A)) : ~ In n (List.map fst l) -> lookup n l = None.
Proof.
  intros H. destruct (lookup n l) eqn:E; [|reflexivity]. apply lookup_some in E. exfalso. apply H.
  apply in_map_iff. now exists (n, a).
Qed.
Lemma NoDup_app_inv {A} : forall (l l' : list A), NoDup (l ++ l') ->
  NoDup l /\ NoDup l' /\ forall x, In x l -> ~ In x l'.
Proof.
  induction l as [|a l IH]; intros l' H; [split; [constructor|]; split; [exact H|easy]|].
  cbn [app] in H. inversion H as [|? ? N1 N2]; subst. destruct (IH _ N2) as (A1 & A2 & A3).
  split; [constructor; [intros K; apply N1, in_or_app; now left|exact A1]|]. split; [exact A2|].
  intros x [<-|Hx]; [intros K; apply N1, in_or_app; now right|now apply A3].
Qed.
Definition top (n : bytes) (v : var) : dvar :=
  match v with VSet y => SetVar n y None | VParam d => MacroVar n (false, d) [] | VSys d => MacroVar n (true, d) [] end.
Lemma top_param n p : top n (param_var p) = MacroVar n p [].
Proof. destruct p as [[] d]; reflexivity. Qed.
Lemma global_top s v : NoDup (names s) -> In v (set_vars true s ++ system_vars true s) ->
  exists n x, get_var_sym s n = Some x /\ v = top n x /\ is_global s n.
Proof.
  intros N H. unfold names in N. apply NoDup_app_inv in N. destruct N as (N1 & N2 & D1). apply NoDup_app_inv in N2. destruct N2 as (N2 & N3 & D2).
  apply in_app_or in H. destruct H as [H|H]; apply in_map_iff in H; destruct H as ([n [g y]] & <- & H); apply filter_In in H; destruct H as (H & G);
    cbn [fst snd] in *; destruct g; try discriminate.
  - exists n, (VSet y). unfold get_var_sym. rewrite (lookup_in n _ _ N1 H). split; [reflexivity|]. split; [reflexivity|].
    left. now exists y.
  - exists n, (VSys y). unfold get_var_sym. rewrite (lookup_none n (c_variables s)), (lookup_in n _ _ N2 H).
    + split; [reflexivity|]. split; [reflexivity|]. right. now exists y.
    + intros K. apply (D1 n K), in_or_app. left. apply in_map_iff. now exists (n, (true, y)).
Qed.
Lemma local_top s v : NoDup (names s) -> In v (param_vars s ++ set_vars false s ++ system_vars false s) ->
  exists n x, get_var_sym s n = Some x /\ v = top n x /\ ~ is_global s n.
Proof.
  intros N H. unfold names in N. apply NoDup_app_inv in N. destruct N as (N1 & N2 & D1). apply NoDup_app_inv in N2. destruct N2 as (N2 & N3 & D2).
  apply in_app_or in H. destruct H as [H|H]; [|apply in_app_or in H; destruct H as [H|H]].
  - unfold param_vars in H. destruct (c_params s) as [l|] eqn:P; [|easy]. apply in_map_iff in H. destruct H as ([n p] & <- & H).
    apply filter_In in H. destruct H as (H & _). cbn [fst snd] in *.
    assert (In1 : In n (List.map fst l)) by (apply in_map_iff; now exists (n, p)).
    assert (O1 : ~ In n (List.map fst (c_variables s))) by (intros K; apply (D1 n K), in_or_app; now right).
    assert (O2 : ~ In n (List.map fst (c_system s))) by (intros K; exact (D2 n K In1)).
    exists n, (param_var p). unfold get_var_sym. rewrite (lookup_none n _ O1), (lookup_none n _ O2), P, (lookup_in n _ _ N3 H).
    split; [reflexivity|]. split; [now rewrite top_param|].
    intros [(y & K)|(d & K)]; [apply O1|apply O2]; apply in_map_iff; eexists; (split; [|exact K]); reflexivity.
  - apply in_map_iff in H. destruct H as ([n [g y]] & <- & H). apply filter_In in H. destruct H as (H & G). cbn [fst snd] in *. destruct g; [discriminate|].
    exists n, (VSet y). unfold get_var_sym. rewrite (lookup_in n _ _ N1 H). split; [reflexivity|]. split; [reflexivity|].
    intros [(y' & K)|(d & K)].
    + pose proof (lookup_in n _ _ N1 H) as L1. rewrite (lookup_in n _ _ N1 K) in L1. discriminate.
    + apply (D1 n); [apply in_map_iff; now exists (n, (false, y))|]. apply in_or_app. left. apply in_map_iff. now exists (n, (true, d)).
  - apply in_map_iff in H. destruct H as ([n [g y]] & <- & H). apply filter_In in H. destruct H as (H & G). cbn [fst snd] in *. destruct g; [discriminate|].
    assert (O1 : ~ In n (List.map fst (c_variables s))).
    { intros K; apply (D1 n K), in_or_app; left; apply in_map_iff; now exists (n, (false, y)). }
    exists n, (VSys y). unfold get_var_sym. rewrite (lookup_none n _ O1), (lookup_in n _ _ N2 H). split; [reflexivity|]. split; [reflexivity|].
    intros [(y' & K)|(d & K)].
    + apply O1. apply in_map_iff. now exists (n, (true, y')).
    + pose proof (lookup_in n _ _ N2 H) as L1. rewrite (lookup_in n _ _ N2 K) in L1. discriminate.
Qed.
(** Every variable with a name is in one of the lists. *)
Lemma top_listed s n v : get_var_sym s n = Some v -> n <> [] ->
  (In (top n v) (set_vars true s ++ system_vars true s) /\ is_global s n) \/
  In (top n v) (param_vars s ++ set_vars false s ++ system_vars false s).
Proof.
  intros H Ne. unfold get_var_sym in H. destruct (lookup n (c_variables s)) as [[g y]|] eqn:E1.
  - injection H as <-. apply lookup_some in E1. assert (K : In (SetVar n y None) (set_vars g s)).
    { apply in_map_iff. exists (n, (g, y)). split; [reflexivity|]. apply filter_In. split; [exact E1|]. now destruct g. }
    destruct g; [left; split; [apply in_or_app; now left|left; now exists y]|right; apply in_or_app; right; apply in_or_app; now left].
  - destruct (lookup n (c_system s)) as [[g d]|] eqn:E2.
    + injection H as <-. apply lookup_some in E2. assert (K : In (MacroVar n (true, d) []) (system_vars g s)).
      { apply in_map_iff. exists (n, (g, d)). split; [reflexivity|]. apply filter_In. split; [exact E2|]. now destruct g. }
      destruct g; [left; split; [apply in_or_app; now right|right; now exists d]|right; apply in_or_app; right; apply in_or_app; now right].
    + destruct (c_params s) as [l|] eqn:P; [|easy]. destruct (lookup n l) as [p|] eqn:E3; [|easy]. injection H as <-.
      apply lookup_some in E3. right. apply in_or_app. left. unfold param_vars. rewrite P, top_param. apply in_map_iff. exists (n, p).
      split; [reflexivity|]. apply filter_In. split; [exact E3|]. cbn [fst]. now destruct n.
Qed.
Lemma top_name n v : dname (top n v) = 38%N :: n.
Proof. destruct v; reflexivity. Qed.
Lemma keyed_of s n y : keys_ok s -> get_var_sym s n = Some (VSet y) -> keyed y.
Proof.
  intros K H. unfold get_var_sym in H. destruct (lookup n (c_variables s)) as [[g y']|] eqn:E1.
  - injection H as ->. apply lookup_some in E1. exact (K _ _ _ E1).
  - destruct (lookup n (c_system s)) as [[g d]|]; [easy|]. destruct (c_params s); [|easy].
    destruct (lookup n l) as [[[] d]|]; easy.
Qed.
Lemma param_of v : (exists p, v = param_var p) \/ exists y, v = VSet y.
Proof. destruct v as [y|d|d]; [right; now exists y|left; now exists (false, d)|left; now exists (true, d)]. Qed.

Lemma top_descends n v ns w : short v -> (forall y, v = VSet y -> keyed y) -> descends (top n v) ns w ->
  exists subs, Forall2 is_decimal subs ns /\ holds v subs /\ shown_as (var_value (Some v) subs) (dvalue w) /\ dtype w = Some (var_type v) /\
    (dscalar w = false <-> expandable v subs).
Proof.
  intros Sh K D. destruct (param_of v) as [(p & ->)|(y & ->)].
  - rewrite top_param in D.
    assert (H0 : exists x0, var_item (param_var p) [] x0).
    { destruct p as [[] d]; exists d; repeat constructor. }
    destruct H0 as (x0 & H0). destruct (macro_descends n p Sh _ _ _ D [] x0 eq_refl H0) as (subs & x & -> & Hx & F).
    cbn [app] in *. exists subs. split; [exact F|]. split; [eapply h_item; exact Hx|]. rewrite (var_item_read _ _ _ Hx Sh).
    split; [cbn [dvalue]; rewrite (var_item_data _ _ _ Hx Sh); constructor|]. split; [destruct p as [[] d]; reflexivity|].
    cbn [dscalar]. unfold msize. rewrite (var_item_data _ _ _ Hx Sh). split.
    + intros E. apply Nat.eqb_neq in E. destruct x as [|t|l]; try (cbn in E; lia). apply (ex_list _ _ l); [exact Hx|]. intros ->. now apply E.
    + intros E. destruct p as [b d]. inversion E as [? E' Ev|? ? l Hl Nl]; subst; [destruct b; discriminate|].
      pose proof (var_item_data _ _ _ Hl Sh) as D1. rewrite (var_item_data _ _ _ Hx Sh) in D1. subst x.
      cbn [data_size]. apply Nat.eqb_neq. destruct l; [easy|discriminate].
  - destruct (set_descends n y ns w (K y eq_refl) D) as (subs & index & -> & F & H & Sv & Ex). exists subs.
    split; [exact F|]. split; [exact H|]. split; [exact Sv|]. split; [reflexivity|exact Ex].
Qed.
Lemma top_reached n v subs : short v -> (forall y, v = VSet y -> keyed y) -> holds v subs ->
  exists w, descends (top n v) (List.map to_string subs) w /\ all_unfold (top n v) (List.map to_string subs).
Proof.
  intros Sh K H. destruct (param_of v) as [(p & ->)|(y & ->)].
  - rewrite top_param. assert (Hi : exists x, var_item (param_var p) subs x).
    { inversion H as [? E|? ? ? ? E|? ? x Hx]; subst; [destruct p as [[] d]; discriminate|destruct p as [[] d]; discriminate|now exists x]. }
    destruct Hi as (x & Hx).
    assert (H0 : exists x0, var_item (param_var p) [] x0) by (destruct p as [[] d]; exists d; repeat constructor).
    destruct H0 as (x0 & H0). exists (MacroVar n p subs). split; [|apply macro_all_unfold].
    exact (macro_reached n p Sh subs [] x0 x H0 Hx).
  - exact (set_reached n y subs (K y eq_refl) H).
Qed.

(** ** Decimal texts *)
Lemma dec_inj n m : dec n = dec m -> n = m.
Proof. intros H. now rewrite <- (dec_value n), H, dec_value. Qed.
Lemma dec_no_sign n t : dec n <> 45%N :: t.
Proof. intros H. pose proof (dec_digits n) as F. rewrite H in F. inversion F as [|? ? E]. discriminate. Qed.
Lemma decimal_inj z z' t : is_decimal z t -> is_decimal z' t -> z = z'.
Proof.
  intros [(A & E)|(A & E)] [(B & E')|(B & E')]; subst t.
  - apply dec_inj in E'. lia.
  - now apply dec_no_sign in E'.
  - symmetry in E'. now apply dec_no_sign in E'.
  - injection E' as E'. apply dec_inj in E'. lia.
Qed.
Lemma decimals_inj : forall subs ns, Forall2 is_decimal subs ns -> forall subs', Forall2 is_decimal subs' ns -> subs = subs'.
Proof.
  induction 1 as [|z t zs ts H F IH]; intros subs' G; inversion G as [|z' ? zs' ? H' G']; subst; [reflexivity|].
  f_equal; [eapply decimal_inj; eauto|now apply IH].
Qed.

(** ** Which texts the library can write *)
Lemma between_iff a c b : between a c b = true <-> (a <= c < b)%N.
Proof. unfold between. rewrite andb_true_iff, N.leb_le, N.ltb_lt. tauto. Qed.
Lemma tailb_iff c : tailb c = true <-> cont c.
Proof. unfold tailb, cont. apply between_iff. Qed.
Lemma dumpable_strict : forall s, dumpable s = true -> strict_utf8 s.
Proof.
  intros s. remember (length s) as n eqn:E. revert s E. induction n as [n IH] using lt_wf_ind. intros s -> H.
  destruct s as [|b r]; [constructor|]. cbn [dumpable] in H. destruct (N.ltb_spec b 128) as [B|B].
  { apply (Scons [b]); [now constructor|]. eapply IH; [|reflexivity|exact H]. cbn; lia. }
  destruct r as [|c r2]; [easy|]. destruct (between 194 b 224) eqn:B2.
  { apply between_iff in B2. apply andb_true_iff in H. destruct H as (C & H). apply tailb_iff in C.
    apply (Scons [b; c]); [now constructor|]. eapply IH; [|reflexivity|exact H]. cbn; lia. }
  destruct r2 as [|e r3]; [easy|]. destruct (N.eqb_spec b 224) as [->|Nb].
  { rewrite !andb_true_iff in H. destruct H as ((C & D) & H). apply between_iff in C. apply tailb_iff in D.
    apply (Scons [224%N; c; e]); [now constructor|]. eapply IH; [|reflexivity|exact H]. cbn; lia. }
  destruct (N.eqb_spec b 237) as [->|Nb2].
  { rewrite !andb_true_iff in H. destruct H as ((C & D) & H). apply between_iff in C. apply tailb_iff in D.
    apply (Scons [237%N; c; e]); [now constructor|]. eapply IH; [|reflexivity|exact H]. cbn; lia. }
  destruct (between 225 b 240) eqn:B3.
  { apply between_iff in B3. rewrite !andb_true_iff in H. destruct H as ((C & D) & H). apply tailb_iff in C, D.
    apply (Scons [b; c; e]); [constructor; [lia|exact C|exact D]|]. eapply IH; [|reflexivity|exact H]. cbn; lia. }
  destruct r3 as [|g r4]; [easy|]. destruct (N.eqb_spec b 240) as [->|Nb3].
  { rewrite !andb_true_iff in H. destruct H as (((C & D) & G) & H). apply between_iff in C. apply tailb_iff in D, G.
    apply (Scons [240%N; c; e; g]); [now constructor|]. eapply IH; [|reflexivity|exact H]. cbn; lia. }
  destruct (N.eqb_spec b 244) as [->|Nb4].
  { rewrite !andb_true_iff in H. destruct H as (((C & D) & G) & H). apply between_iff in C. apply tailb_iff in D, G.
    apply (Scons [244%N; c; e; g]); [now constructor|]. eapply IH; [|reflexivity|exact H]. cbn; lia. }
  rewrite !andb_true_iff in H. destruct H as ((((B4 & C) & D) & G) & H). apply between_iff in B4. apply tailb_iff in C, D, G.
  apply (Scons [b; c; e; g]); [now constructor|]. eapply IH; [|reflexivity|exact H]. cbn; lia.
Qed.
Ltac decide_byte := repeat match goal with
  | |- context [N.ltb ?x 128] => replace (N.ltb x 128) with false by (symmetry; apply N.ltb_ge; lia)
  | |- context [N.eqb ?x ?y] => replace (N.eqb x y) with false by (symmetry; apply N.eqb_neq; lia)
  end.
Lemma between_no a c b : (c < a \/ b <= c)%N -> between a c b = false.
Proof. intros H. destruct (between a c b) eqn:E; [apply between_iff in E; lia|reflexivity]. Qed.
Lemma between_yes a c b : (a <= c < b)%N -> between a c b = true.
Proof. apply between_iff. Qed.
Lemma strict_dumpable s : strict_utf8 s -> dumpable s = true.
Proof.
  induction 1 as [|c t C _ IH]; [reflexivity|].
  destruct C as [b B|b c B C|c e B C|b c e B C D|c e B C|c d e B C D|b c d e B C D E|c d e B C D]; cbn [app dumpable].
  - apply N.ltb_lt in B. now rewrite B.
  - decide_byte. rewrite (between_yes 194 b 224) by lia. apply tailb_iff in C. now rewrite C.
  - apply tailb_iff in C. cbn -[between]. rewrite (between_no 194 224 224), (between_yes 160 c 192) by lia. now rewrite C.
  - apply tailb_iff in C, D. decide_byte. rewrite (between_no 194 b 224), (between_yes 225 b 240) by lia. now rewrite C, D.
  - apply tailb_iff in C. cbn -[between]. rewrite (between_no 194 237 224), (between_yes 128 c 160) by lia. now rewrite C.
  - apply tailb_iff in C, D. cbn -[between]. rewrite (between_no 194 240 224), (between_no 225 240 240), (between_yes 144 c 192) by lia. now rewrite C, D.
  - apply tailb_iff in C, D, E. decide_byte. rewrite (between_no 194 b 224), (between_no 225 b 240), (between_yes 241 b 244) by lia. now rewrite C, D, E.
  - apply tailb_iff in C, D. cbn -[between]. rewrite (between_no 194 244 224), (between_no 225 244 240), (between_yes 128 c 144) by lia. now rewrite C, D.
Qed.

(** ** References given out *)
Lemma handed_ok d ref : handed d ref -> Inv d /\ ended d = false /\ exists vs, content d ref = Some vs.
Proof.
  intros (d0 & d1 & R & H & L). pose proof (reach_inv d0 R) as HI.
  assert (K : Inv d1 /\ ended d1 = false /\ exists vs, content d1 ref = Some vs).
  { destruct H as [(id & a & nm & Sa & Hin)|(r & l & x & V & Hx & Er & Nz)].
    - pose proof (scopes_ok id d0 HI) as K. rewrite Sa in K. destruct K as (I1 & X1 & K & K2). split; [exact I1|].
      destruct X1 as (_ & _ & _ & E1 & _). destruct (ended d0) eqn:En; [destruct (K2 (or_introl eq_refl)) as (-> & _); destruct Hin|].
      destruct (nth_error (proc_stack d0) id) as [f|] eqn:Nf; [|destruct (K2 (or_intror eq_refl)) as (-> & _); destruct Hin].
      split; [exact E1|]. destruct (K f eq_refl eq_refl) as (g & l & o & -> & _ & _ & C1 & C2 & C3). cbn [In] in Hin.
      destruct Hin as [Hin|[Hin|[Hin|[]]]]; injection Hin as _ <-; eauto.
    - destruct (variables_ok _ _ _ _ V HI) as (I1 & X1 & G & _ & N & _). split; [exact I1|].
      destruct X1 as (_ & _ & _ & E1 & _). destruct (ended d0) eqn:En; [destruct (N (or_introl eq_refl)) as (-> & _); destruct Hx|].
      split; [exact E1|]. destruct (G x Hx) as (_ & [Z|(vs & _ & C)]); cbn [view e_ref] in Er; [congruence|]. rewrite Er in C. eauto. }
  destruct K as (I1 & E1 & vs & C). destruct (later_ok _ _ L I1) as (I2 & X2). destruct X2 as (_ & _ & _ & E2 & X2 & _).
  split; [exact I2|]. split; [congruence|]. exists vs. now apply X2.
Qed.
Lemma onward_dead d d' : onward d d' -> forall ref, Inv d -> (1 <= ref < next_ref d)%N -> content d ref = None ->
  Inv d' /\ (1 <= ref < next_ref d')%N /\ content d' ref = None.
Proof.
  induction 1 as [d|d d' d'' A On IH|fs ys d d' On IH|d d' On IH]; intros ref HI B C.
  - auto.
  - destruct (asked_ok _ _ A HI) as (I1 & X1). destruct X1 as (X1 & _ & _ & _ & _ & X6). apply IH; [exact I1|lia|].
    destruct (content d' ref) as [vs|] eqn:E; [|reflexivity]. destruct (X6 _ _ E) as [K|K]; [congruence|lia].
  - apply IH; [constructor; [exact (inv_next d HI)|easy|easy]|exact B|reflexivity].
  - apply IH; [|exact B|exact C]. destruct HI as [H1 H2 H3]. constructor; [exact H1|exact H2|exact H3].
Qed.

(** ** Nothing overflows *)
Definition okv (v : dvar) : Prop := match v with SetVar _ y _ => keyed y | _ => True end.
Lemma okv_some v : okv v -> dvalues v <> None.
Proof. destruct v as [n p i|n y i|y|n t]; cbn [okv]; intros H; try discriminate. now apply set_values_some. Qed.
Lemma okv_child v vs x : okv v -> dvalues v = Some vs -> In x vs -> okv x.
Proof.
  destruct v as [n p i|n y i|y|n t]; intros H V Hx.
  - cbn [dvalues] in V. injection V as <-. apply in_map_iff in Hx. destruct Hx as (k & <- & _). exact Logic.I.
  - apply (set_values_in _ _ _ _ H V) in Hx. destruct Hx as (k & _ & ->). exact H.
  - cbn [dvalues] in V. injection V as <-. unfold attr_child in Hx.
    repeat (apply in_app_or in Hx; destruct Hx as [Hx|Hx]); match type of Hx with In _ (if ?b then _ else _) => destruct b end;
      cbn [In] in Hx; try destruct Hx as [<-|[]]; try easy.
  - cbn [dvalues] in V. injection V as <-. destruct Hx.
Qed.
Definition all_okv (d : dbg) : Prop := forall r l, find_ref r (stored d) = Some l -> forall x, In x l -> okv (fst x).
Lemma add_okv vs d : all_okv d -> (forall v, In v vs -> okv v) -> all_okv (snd (add_variable vs d)).
Proof.
  intros A V r l. cbn [add_variable snd stored find_ref]. destruct (r =? next_ref d)%N; [|apply A].
  intros E. injection E as <-. intros x Hx. apply in_map_iff in Hx. destruct Hx as (v & <- & Hv). now apply V.
Qed.
Lemma refer_okv : forall l d l' d', refer l d = Some (l', d') -> all_okv d -> (forall x, In x l -> okv (fst x)) ->
  all_okv d' /\ (forall x, In x l' -> okv (fst x)).
Proof.
  induction l as [|[v old] l IH]; intros d l' d' H A O; cbn [refer] in H.
  - injection H as <- <-. easy.
  - destruct (dscalar v).
    + destruct (refer l d) as [[r d1]|] eqn:E; [|easy]. injection H as <- <-.
      destruct (IH _ _ _ E A) as (A1 & A2); [intros x Hx; apply O; now right|]. split; [exact A1|].
      intros x [<-|Hx]; [apply (O (v, old)); now left|now apply A2].
    + destruct (dvalues v) as [vs|] eqn:V; [|easy]. destruct (add_variable vs d) as [k d1] eqn:Ad.
      destruct (refer l d1) as [[r d2]|] eqn:E; [|easy]. injection H as <- <-.
      pose proof (O (v, old) (or_introl eq_refl)) as Ov. cbn [fst] in Ov.
      destruct (IH _ _ _ E) as (A1 & A2).
      * replace d1 with (snd (add_variable vs d)) by now rewrite Ad. apply add_okv; [exact A|]. intros w Hw. exact (okv_child _ _ _ Ov V Hw).
      * intros x Hx. apply O. now right.
      * split; [exact A1|]. intros x [<-|Hx]; [exact Ov|now apply A2].
Qed.
Lemma set_vars_okv g s : keys_ok s -> forall v, In v (set_vars g s) -> okv v.
Proof.
  intros K v H. apply in_map_iff in H. destruct H as ([n [b y]] & <- & H). apply filter_In in H. exact (K _ _ _ (proj1 H)).
Qed.
Lemma system_vars_okv g s : forall v, In v (system_vars g s) -> okv v.
Proof. intros v H. apply in_map_iff in H. destruct H as (x & <- & _). exact Logic.I. Qed.
Lemma param_vars_okv s : forall v, In v (param_vars s) -> okv v.
Proof. intros v H. unfold param_vars in H. destruct (c_params s); [|easy]. apply in_map_iff in H. destruct H as (x & <- & _). exact Logic.I. Qed.
Lemma reach_okv d : reach d -> Forall (fun f => keys_ok (f_scope f)) (proc_stack d) -> all_okv d.
Proof.
  intros R. induction R as [|d d' H IH A|fs ys d H IH E|d H IH]; intros K.
  - intros r l E. discriminate.
  - pose proof (reach_inv d H) as HI. destruct (asked_ok _ _ A HI) as (_ & X). destruct X as (_ & Ps & _). rewrite Ps in K. specialize (IH K).
    destruct A as [id d|ref d l d' V].
    + unfold scopes. destruct (ended d); [exact IH|]. destruct (nth_error (proc_stack d) id) as [f|] eqn:Nf; [|exact IH].
      rewrite Forall_forall in K. specialize (K f (nth_error_In _ _ Nf)).
      destruct (add_variable (set_vars true (f_scope f) ++ system_vars true (f_scope f)) d) as [g d1] eqn:A1.
      destruct (add_variable (param_vars (f_scope f) ++ set_vars false (f_scope f) ++ system_vars false (f_scope f)) d1) as [l d2] eqn:A2.
      destruct (add_variable (List.map OrdVar (symbols_ d)) d2) as [o d3] eqn:A3. cbn [snd].
      replace d3 with (snd (add_variable (List.map OrdVar (symbols_ d)) d2)) by now rewrite A3. apply add_okv.
      * replace d2 with (snd (add_variable (param_vars (f_scope f) ++ set_vars false (f_scope f) ++ system_vars false (f_scope f)) d1)) by now rewrite A2.
        apply add_okv.
        -- replace d1 with (snd (add_variable (set_vars true (f_scope f) ++ system_vars true (f_scope f)) d)) by now rewrite A1.
           apply add_okv; [exact IH|]. intros v Hv. apply in_app_or in Hv. destruct Hv as [Hv|Hv]; [exact (set_vars_okv _ _ K v Hv)|exact (system_vars_okv _ _ v Hv)].
        -- intros v Hv. apply in_app_or in Hv. destruct Hv as [Hv|Hv]; [exact (param_vars_okv _ v Hv)|].
           apply in_app_or in Hv. destruct Hv as [Hv|Hv]; [exact (set_vars_okv _ _ K v Hv)|exact (system_vars_okv _ _ v Hv)].
      * intros v Hv. apply in_map_iff in Hv. destruct Hv as (y & <- & _). exact Logic.I.
    + unfold variables in V. destruct (ended d); [injection V as <- <-; exact IH|].
      destruct (find_ref ref (stored d)) as [l0|] eqn:F; [|injection V as <- <-; exact IH].
      destruct (refer l0 d) as [[l' d1]|] eqn:E; [|easy]. injection V as <- <-.
      destruct (refer_okv _ _ _ _ E IH (IH _ _ F)) as (A1 & A2). intros r l. cbn [stored]. rewrite put_find.
      destruct (r =? ref)%N; [|apply A1]. destruct (find_ref ref (stored d1)); [|easy]. cbn [option_map]. intros Q. injection Q as <-. exact A2.
  - intros r l Q. discriminate.
  - exact (IH K).
Qed.
