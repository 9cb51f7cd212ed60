(** Lemmas for Exp_Props.v. *)
From Coq Require Import List NArith ZArith Bool Lia.
From Verif Require Import Common Ca_Model Grp_Model Exp_Model Exp_Spec.
Import ListNotations.
Open Scope Z_scope.

(** Induction over expressions inside lists and options. *)
Definition opt_all (P : expr -> Prop) (o : option expr) : Prop := match o with Some x => P x | None => True end.
Section Induction.
Variable P : expr -> Prop.
Hypothesis HConst : forall z, P (Const z).
Hypothesis HOrd : forall n, P (OrdSym n).
Hypothesis HVar : forall n c s, Forall P c -> Forall P s -> P (VarSym n c s).
Hypothesis HStr : forall v d s c, Forall P v -> opt_all P d -> opt_all P s -> opt_all P c -> P (Str v d s c).
Hypothesis HAttr : forall c i, P (AttrRef c i).
Hypothesis HFun : forall f ps d, Forall P ps -> opt_all P d -> P (Fun f ps d).
Hypothesis HLst : forall a b c, opt_all P a -> opt_all P b -> opt_all P c -> P (Lst a b c).
Hypothesis HUn : forall o k e, P e -> P (Un o k e).
Hypothesis HPlus : forall e, P e -> P (Plus e).
Hypothesis HMinus : forall e, P e -> P (Minus e).
Hypothesis HPar : forall e, P e -> P (Par e).
Hypothesis HBas : forall o l r, P l -> P r -> P (Bas o l r).
Hypothesis HBin : forall o k l r, P l -> P r -> P (Bin o k l r).
Hypothesis HText : forall s, P (Text s).
Hypothesis HDot : P Dot.
Fixpoint expr_ind' (e : expr) : P e :=
  let every := fix every (l : list expr) : Forall P l :=
    match l with [] => Forall_nil P | x :: r => Forall_cons x (expr_ind' x) (every r) end in
  let maybe := fun (o : option expr) =>
    match o return opt_all P o with Some x => expr_ind' x | None => Logic.I end in
  match e with
  | Const z => HConst z
  | OrdSym n => HOrd n
  | VarSym n c s => HVar n c s (every c) (every s)
  | Str v d s c => HStr v d s c (every v) (maybe d) (maybe s) (maybe c)
  | AttrRef c i => HAttr c i
  | Fun f ps d => HFun f ps d (every ps) (maybe d)
  | Lst a b c => HLst a b c (maybe a) (maybe b) (maybe c)
  | Un o k x => HUn o k x (expr_ind' x)
  | Plus x => HPlus x (expr_ind' x)
  | Minus x => HMinus x (expr_ind' x)
  | Par x => HPar x (expr_ind' x)
  | Bas o l r => HBas o l r (expr_ind' l) (expr_ind' r)
  | Bin o k l r => HBin o k l r (expr_ind' l) (expr_ind' r)
  | Text s => HText s
  | Dot => HDot
  end.
End Induction.

(** Agreement of a meaning with an evaluation. *)
Definition agrees {A B} (R : A -> B -> Prop) (r : res A) (m : M B) : Prop :=
  match r with
  | Is x => exists y, m = Some (y, []) /\ R x y
  | Wrong => m = None \/ exists y d ds, m = Some (y, d :: ds)
  | Undefined => m = None
  end.

Lemma agrees_bind : forall A B C D (R : A -> B -> Prop) (T : C -> D -> Prop) r m f g,
  agrees R r m -> (forall x y, R x y -> agrees T (f x) (g y)) -> agrees T (andThen r f) (bind m g).
Proof.
  intros A B C D R T r m f g H HF. destruct r as [x| |]; cbn [andThen agrees] in *.
  - destruct H as (y & -> & Hy). cbn [bind app]. specialize (HF x y Hy).
    destruct (f x) as [z| |]; cbn [agrees] in *.
    + destruct HF as (u & -> & Hu). exists u. split; auto.
    + destruct HF as [->|(u & d & ds & ->)]; [left; reflexivity|right; exists u, d, ds; reflexivity].
    + rewrite HF. reflexivity.
  - destruct H as [->|(y & d & ds & ->)]; [left; reflexivity|].
    cbn [bind]. destruct (g y) as [[z es]|]; [right; exists z, d, (ds ++ es); reflexivity|left; reflexivity].
  - subst m. reflexivity.
Qed.

Lemma agrees_is : forall A B (R : A -> B -> Prop) x y, R x y -> agrees R (Is x) (ret y).
Proof. intros. exists y. split; [reflexivity|assumption]. Qed.
Lemma agrees_wrong : forall A B (R : A -> B -> Prop) y d, agrees R Wrong (report y d).
Proof. intros. right. exists y, d, []. reflexivity. Qed.

Lemma agrees_lift : forall A B C (R : B -> C -> Prop) (f : A -> B) (g : A -> C) d o,
  (forall x, R (f x) (g x)) -> agrees R (maps f (of_out o)) (lift g d o).
Proof.
  intros. destruct o as [v|e|]; cbn [of_out maps andThen lift].
  - apply agrees_is, H.
  - apply agrees_wrong.
  - reflexivity.
Qed.
Lemma agrees_lift_id : forall A (d : A) o, agrees eq (of_out o) (lift (fun x => x) d o).
Proof.
  intros. destruct o as [v|e|]; cbn [of_out lift]; [apply agrees_is; reflexivity|apply agrees_wrong|reflexivity].
Qed.
Lemma agrees_weaken : forall A B (R T : A -> B -> Prop) r m,
  agrees R r m -> (forall x y, R x y -> T x y) -> agrees T r m.
Proof.
  intros A B R T r m H HR. destruct r; cbn [agrees] in *; auto.
  destruct H as (y & E & HY). exists y. auto.
Qed.
Lemma agrees_maps : forall A B C D (R : A -> B -> Prop) (T : C -> D -> Prop) r m (f : A -> C) (g : B -> D),
  agrees R r m -> (forall x y, R x y -> T (f x) (g y)) -> agrees T (maps f r) (bind m (fun y => ret (g y))).
Proof. intros. apply (agrees_bind _ _ _ _ R); [assumption|]. intros x y HR. apply agrees_is; auto. Qed.

(** A value and the record that stands for it. *)
Definition relv (x : val) (v : SET_t) : Prop :=
  match x with
  | VNum z => type v = TYPE KA /\ a_value v = z /\ b_value v = negb (z =? 0)
  | VBool b => type v = TYPE KB /\ b_value v = b
  | VChar s => type v = TYPE KC /\ c_value v = s
  end.
Definition shape (k : kind) (x : val) : Prop :=
  match k, x with
  | KA, VNum _ => True | KC, VChar _ => True | KB, VNum _ => True | KB, VBool _ => True
  | _, _ => False
  end.
Definition rel (k : kind) (x : val) (v : SET_t) : Prop := shape k x /\ relv x v.

Lemma rel_a : forall x v, rel KA x v -> a_value v = number x.
Proof. intros x v [HS HR]. destruct x; cbn in *; tauto. Qed.
Lemma rel_b : forall x v, rel KB x v -> b_value v = truth x.
Proof. intros x v [HS HR]. destruct x; cbn in *; tauto. Qed.
Lemma rel_c : forall x v, rel KC x v -> c_value v = chars x.
Proof. intros x v [HS HR]. destruct x; cbn in *; tauto. Qed.

Lemma rel_A : forall k z, k <> KC -> rel k (VNum z) (SET_A z).
Proof. intros [] z H; try congruence; repeat split. Qed.
Lemma rel_KA : forall z, rel KA (VNum z) (SET_A z).
Proof. intros. apply rel_A. discriminate. Qed.
Lemma rel_KB : forall b, rel KB (VBool b) (SET_B b).
Proof. intros. repeat split. Qed.
Lemma rel_KC : forall s, rel KC (VChar s) (SET_C s).
Proof. intros. repeat split. Qed.
Lemma relv_of : forall v, relv v (SET_of v).
Proof. intros [z|b|s]; repeat split. Qed.

Lemma kind_eqb_eq : forall a b, kind_eqb a b = true -> a = b.
Proof. intros [] []; easy. Qed.
Lemma kind_eqb_refl : forall a, kind_eqb a a = true.
Proof. intros []; easy. Qed.

Lemma convert_variable_agrees : forall k v, (k = KC -> exists s, v = VChar s) ->
  agrees (rel k) (as_wanted k v) (convert_variable (SET_of v) k).
Proof.
  intros k v HC. destruct v as [z|b|s]; cbn [SET_of]; unfold convert_variable.
  - destruct k; cbn [as_wanted SET_A type kind_eqb]; try (apply agrees_is; repeat split).
    destruct (HC eq_refl) as [s H]; discriminate H.
  - destruct k; cbn [as_wanted SET_B type kind_eqb]; try (apply agrees_is; destruct b; repeat split).
    destruct (HC eq_refl) as [s H]; discriminate H.
  - destruct k; cbn [as_wanted SET_C type c_value].
    + destruct s as [|c s]; [apply agrees_is, rel_KA|]. apply agrees_lift. intros. apply rel_KA.
    + apply agrees_lift. intros. apply rel_A. discriminate.
    + apply agrees_is. repeat split.
Qed.

Lemma var_text_agrees : forall x v, relv x v -> agrees eq (text_of x) (var_text v).
Proof.
  intros [z|b|s] v H; unfold relv in H; unfold var_text; cbn [text_of].
  - destruct H as (-> & -> & _). destruct (z =? INT_MIN); [reflexivity|]. apply agrees_is.
    unfold to_string. destruct (Z.abs z <? 0) eqn:E; [apply Z.ltb_lt in E; lia|]. reflexivity.
  - destruct H as (-> & ->). apply agrees_is. destruct b; reflexivity.
  - destruct H as (-> & ->). apply agrees_is. reflexivity.
Qed.

Lemma name_agrees : forall s, agrees eq (if a_name s then Is s else Wrong) (get_symbol_name s).
Proof.
  intros s. unfold get_symbol_name.
  assert (E : a_name s = valid_name s).
  { destruct s as [|c r]; [reflexivity|]. unfold a_name, valid_name, is_digit, size.
    rewrite negb_orb. f_equal. f_equal.
    destruct (Nat.leb_spec (length (c :: r)) 63); destruct (Z.gtb_spec (Z.of_nat (length (c :: r))) 63); cbn [negb];
      try reflexivity; lia. }
  rewrite E. destruct (valid_name s); [apply agrees_is; reflexivity|apply agrees_wrong].
Qed.

Lemma convert_return_agrees : forall k q x v, rel k x v ->
  agrees (fun x v => rel k x v /\ type v = TYPE k)
    (match k, x with
     | KB, VNum z => if (z =? 0) || (z =? 1) then Is (VBool (z =? 1)) else Wrong
     | _, _ => Is x
     end) (convert_return_types v k q).
Proof.
  intros k q x v HR. pose proof HR as [HS HV]. unfold convert_return_types.
  destruct k, x as [z|b|s]; cbn [shape] in HS; try contradiction; cbn [relv] in HV.
  - destruct HV as (T & _). rewrite T. cbn [kind_eqb]. apply agrees_is. auto.
  - destruct HV as (T & -> & _). rewrite T. cbn [kind_eqb andb].
    destruct ((z =? 0) || (z =? 1)); [|apply agrees_wrong]. apply agrees_is. repeat split.
  - destruct HV as (T & _). rewrite T. cbn [kind_eqb]. apply agrees_is. auto.
  - destruct HV as (T & _). rewrite T. cbn [kind_eqb]. apply agrees_is. auto.
Qed.

Lemma in_range_agrees : forall z, agrees (rel KA) (in_range z) (lift SET_A (SET_A 0) (overflow_transform z)).
Proof.
  intros z. unfold in_range, overflow_transform.
  destruct (Z.gtb_spec z INT_MAX); [|destruct (Z.ltb_spec z INT_MIN)].
  - destruct (Z.leb_spec z INT_MAX); [lia|]. rewrite andb_false_r. apply agrees_wrong.
  - destruct (Z.leb_spec INT_MIN z); [lia|]. apply agrees_wrong.
  - destruct (Z.leb_spec INT_MIN z), (Z.leb_spec z INT_MAX); try lia. apply agrees_is, rel_KA.
Qed.

Lemma basic_agrees : forall o x y vx vy, rel (basic_kind o) x vx -> rel (basic_kind o) y vy ->
  agrees (rel (basic_kind o)) (basic_meaning o x y) (basic_operation o vx vy).
Proof.
  intros o x y vx vy HX HY.
  destruct o; cbn [basic_kind] in *; cbn [basic_meaning basic_operation];
    try (rewrite (rel_a _ _ HX), (rel_a _ _ HY)); try apply in_range_agrees.
  - unfold ca_div. destruct (number y =? 0); [apply agrees_is, rel_KA|apply in_range_agrees].
  - rewrite (rel_c _ _ HX), (rel_c _ _ HY). unfold ca_conc, size, MAX_STR_SIZE.
    destruct (Nat.leb_spec (length (chars x) + length (chars y)) (Z.to_nat 4064));
      destruct (Z.gtb_spec (Z.of_nat (length (chars x)) + Z.of_nat (length (chars y))) 4064); try lia.
    + apply agrees_is. destruct HX as [HS HV]. destruct x as [?|?|s]; cbn [shape] in HS; try contradiction.
      cbn [relv] in HV. repeat split. cbn [type]. tauto.
    + apply agrees_wrong.
Qed.

Lemma unary_agrees : forall o k x v, is_unary k o = true ->
  rel (wanted_by o k (Text [])) x v ->
  agrees (rel k) (unary_meaning o k x) (unary_operation o k v).
Proof.
  intros o k x v HU HR.
  destruct k, o; try discriminate HU; cbn [wanted_by] in HR; cbn [unary_meaning unary_operation].
  - rewrite (rel_a _ _ HR). apply agrees_is. unfold bitwise_not, Z.lnot.
    replace (- number x - 1) with (Z.pred (- number x)) by lia. apply rel_KA.
  - rewrite (rel_b _ _ HR). apply agrees_is, rel_KB.
  - rewrite (rel_a _ _ HR). apply agrees_lift. intros; apply rel_KC.
  - rewrite (rel_c _ _ HR). apply agrees_lift. intros; apply rel_KC.
  - rewrite (rel_c _ _ HR). apply agrees_is, rel_KC.
  - rewrite (rel_a _ _ HR). apply agrees_is, rel_KC.
  - rewrite (rel_c _ _ HR). apply agrees_is, rel_KC.
Qed.

Lemma binary_agrees : forall o k p x y vx vy, is_binary k o = true ->
  p = KC \/ p = KA \/ relation_op o = false ->
  (o = FIND_op \/ o = INDEX_op -> p = KC) ->
  (relation_op o = false -> o <> FIND_op -> o <> INDEX_op -> p = k) ->
  rel p x vx -> rel p y vy ->
  agrees (rel k) (binary_meaning o k p x y) (binary_operation o k (Some p) vx vy).
Proof.
  intros o k p x y vx vy HB HP HF HK HX HY.
  assert (REL : relation_op o = true -> k = KB ->
    agrees (rel k) (maps VBool (of_out (match p with KC => relational_c o (chars x) (chars y)
                                        | _ => relational_a o (number x) (number y) end)))
      (bind (compare_relational vx vy (Some p)) (fun comp => ret (SET_B (relation o comp))))).
  { intros HR ->. destruct HP as [->|[->|H]]; [| |rewrite H in HR; discriminate].
    - cbn [compare_relational]. rewrite (rel_c _ _ HX), (rel_c _ _ HY). unfold relational_c.
      destruct (compare_string (chars x) (chars y)); cbn [lift of_out maps andThen bind ret report app].
      + apply agrees_is, rel_KB.
      + right. eauto.
      + reflexivity.
    - cbn [compare_relational]. rewrite (rel_a _ _ HX), (rel_a _ _ HY). unfold relational_a.
      destruct (compare_a (number x) (number y)); cbn [lift of_out maps andThen bind ret report app].
      + apply agrees_is, rel_KB.
      + right. eauto.
      + reflexivity. }
  destruct k; destruct o; try discriminate HB; cbn [binary_meaning binary_operation is_relational] in *;
    try (apply REL; reflexivity);
    try (rewrite (HF (or_introl eq_refl)) in HX, HY); try (rewrite (HF (or_intror eq_refl)) in HX, HY);
    try (rewrite (HK eq_refl) in HX, HY by discriminate);
    rewrite ?(rel_a _ _ HX), ?(rel_a _ _ HY), ?(rel_c _ _ HX), ?(rel_c _ _ HY), ?(rel_b _ _ HX), ?(rel_b _ _ HY);
    apply agrees_is; try apply rel_KA; cbn [boolean];
    try (replace (negb (Bool.eqb (truth x) (truth y))) with (xorb (truth x) (truth y))
           by (destruct (truth x), (truth y); reflexivity));
    try (replace (Bool.eqb (truth x) (truth y)) with (xorb (truth x) (negb (truth y)))
           by (destruct (truth x), (truth y); reflexivity));
    apply rel_KB.
Qed.

(** The kinds of the operands are those the specification names. *)
Lemma character_left : forall w e k, is_character_expression e = true ->
  resolve KC e = [] -> sound w k e -> characters e = true.
Proof.
  intros w e k. revert k. induction e using expr_ind'; intros k0 HC HR HS;
    cbn [is_character_expression] in HC; try discriminate HC; cbn [characters]; try assumption.
  - destruct o; cbn [resolve basic_kind kind_eqb negb] in HR; try discriminate HR.
    apply app_eq_nil in HR as [HL _]. cbn [sound] in HS. apply (IHe1 KC); tauto.
  - cbn [resolve] in HR. destruct k; cbn [kind_eqb negb] in HR; try discriminate HR.
    cbn [sound] in HS. destruct HS as [HB _]. discriminate HB.
Qed.
Lemma not_character_left : forall e, is_character_expression e = false -> characters e = false.
Proof.
  induction e using expr_ind'; intros HC; cbn [is_character_expression characters] in *; auto.
  destruct o; auto.
Qed.

Lemma operands_kind_wanted : forall w o k l q, is_binary k o = true ->
  operands_kind o k l = Some q -> resolve q l = [] -> sound w (wanted_by o k l) l ->
  q = wanted_by o k l.
Proof.
  intros w o k l q HB HO HR HS. unfold operands_kind in HO.
  destruct (is_relational o) eqn:E.
  - injection HO as HO.
    assert (W : wanted_by o k l = if characters l then KC else KA) by (destruct o; try discriminate E; reflexivity).
    rewrite W. destruct (is_character_expression l) eqn:C.
    + subst q. now rewrite (character_left w l _ C HR HS).
    + subst q. now rewrite (not_character_left l C).
  - destruct k, o; cbn [get_operands_type wanted_by] in *; try discriminate; try (injection HO as <-; reflexivity);
      cbn in HO; injection HO as <-; reflexivity.
Qed.
Lemma operands_kind_defined : forall o k l, is_binary k o = true -> exists q, operands_kind o k l = Some q.
Proof.
  intros o k l HB. unfold operands_kind. destruct (is_relational o) eqn:E; [eauto|].
  destruct k, o; try discriminate; cbn; eauto.
Qed.
Lemma unary_operands : forall o k e, is_unary k o = true -> get_operands_type o k = Some (wanted_by o k e).
Proof. intros o k e H. destruct k, o; try discriminate H; reflexivity. Qed.

Lemma kind_after_resolved : forall w e k, k <> KB -> resolve k e = [] -> sound w k e -> kind_after k e = Some k.
Proof.
  intros w e. induction e using expr_ind'; intros k0 HB HR HS; cbn [kind_after resolve sound] in *; auto.
  - destruct k0; cbn [kind_eqb] in HR; try congruence; auto; discriminate.
  - destruct k0; cbn [kind_eqb] in HR; try congruence; auto; discriminate.
  - destruct k0; cbn [kind_eqb] in HR; try congruence; auto.
    apply app_eq_nil in HR as [_ HR]. apply app_eq_nil in HR as [_ HR].
    apply app_eq_nil in HR as [_ HR]. apply app_eq_nil in HR as [_ HR]. discriminate HR.
  - destruct k0, c; cbn in HR; try congruence; auto; try discriminate (HS eq_refl).
  - apply app_eq_nil in HR as [_ HR]. destruct (get_function_type f); [|discriminate].
    destruct (kind_eqb k0 k) eqn:E; [apply kind_eqb_eq in E; congruence|discriminate HR].
  - destruct (kind_eqb k k0) eqn:E; [apply kind_eqb_eq in E; congruence|discriminate HR].
  - destruct k0; cbn in HR; try congruence; auto; discriminate.
  - destruct k0; cbn in HR; try congruence; auto; discriminate.
  - destruct (kind_eqb (basic_kind o) k0) eqn:E; [apply kind_eqb_eq in E; congruence|discriminate HR].
  - destruct (kind_eqb k k0) eqn:E; [apply kind_eqb_eq in E; congruence|discriminate HR].
  - contradiction.
  - contradiction.
Qed.

(** ** The main lemma *)
Section Main.
Variable w : world.

Definition ok (e : expr) : Prop :=
  (forall k, resolve k e = [] -> sound w k e ->
     agrees (rel k) (value w (Some k) e) (evaluate w (As k) e)) /\
  (forall n c s, e = VarSym n c s -> resolve KA e = [] -> sound w KA e ->
     agrees relv (value w None e) (evaluate w Raw e)).

Definition points (l : list expr) : Prop :=
  (fix every (l : list expr) : Prop :=
     match l with [] => True | (VarSym _ _ _ as x) :: r => sound w KA x /\ every r | _ :: r => every r end) l.

Lemma concatenate_agrees : forall l, Forall ok l -> flat_map (resolve KA) l = [] -> points l -> forall b,
  agrees eq (string_of (fun p => andThen (value w None p) text_of) b l)
    (concatenate (fun p => bind (evaluate w Raw p) var_text) b l).
Proof.
  induction l as [|p r IH]; intros HO HR HP b.
  - apply agrees_is. reflexivity.
  - inversion HO as [|? ? HO1 HO2]; subst. cbn [flat_map] in HR. apply app_eq_nil in HR as [HR1 HR2].
    destruct p; cbn [points] in HP; try (cbn [string_of concatenate]; apply (IH HO2 HR2 HP)).
    + destruct HP as [HP1 HP2]. cbn [string_of concatenate].
      apply (agrees_bind _ _ _ _ eq).
      * apply (agrees_bind _ _ _ _ relv); [|intros; apply var_text_agrees; assumption].
        apply (proj2 HO1 _ _ _ eq_refl HR1 HP1).
      * intros s ? <-. apply (agrees_maps _ _ _ _ eq); [apply (IH HO2 HR2 HP2)|]. intros; congruence.
    + cbn [string_of concatenate]. apply (agrees_maps _ _ _ _ eq); [apply (IH HO2 HR2 HP)|]. intros; congruence.
    + cbn [string_of concatenate]. destruct b.
      * specialize (IH HO2 HR2 HP false). cbn [app].
        unfold maps. destruct (string_of _ false r) as [t| |]; cbn [andThen]; exact IH.
      * apply (agrees_maps _ _ _ _ eq); [apply (IH HO2 HR2 HP)|]. intros; subst; reflexivity.
Qed.

Definition sounds (k : kind) (l : list expr) : Prop :=
  (fix every (l : list expr) : Prop := match l with [] => True | x :: r => sound w k x /\ every r end) l.

Lemma subscripts_agree : forall l, Forall ok l -> flat_map (resolve KA) l = [] -> sounds KA l ->
  agrees eq (all (map (fun x => maps number (value w (Some KA) x)) l))
    (sequence (map (fun x => bind (evaluate w (As KA) x) (fun v =>
       a_of (convert_return_types v KA (kind_after KA x)))) l)).
Proof.
  induction l as [|p r IH]; intros HO HR HP.
  - apply agrees_is. reflexivity.
  - inversion HO as [|? ? HO1 HO2]; subst. cbn [flat_map] in HR. apply app_eq_nil in HR as [HR1 HR2].
    cbn [sounds] in HP. destruct HP as [HP1 HP2]. cbn [map all sequence].
    apply (agrees_bind _ _ _ _ eq).
    + unfold maps. apply (agrees_bind _ _ _ _ (rel KA)); [apply (proj1 HO1 KA HR1 HP1)|].
      intros x v HV. unfold a_of.
      pose proof (convert_return_agrees KA (kind_after KA p) x v HV) as HC.
      assert (E : Is (number x) = andThen (Is x) (fun y => Is (number y))) by reflexivity. rewrite E.
      eapply agrees_bind; [exact HC|]. cbv beta. intros x' v' [HV' _]. apply agrees_is.
      symmetry. apply rel_a, HV'.
    + intros z ? <-. apply (agrees_bind _ _ _ _ eq); [apply (IH HO2 HR2 HP2)|].
      intros zs ? <-. apply agrees_is. reflexivity.
Qed.

Lemma number_agrees : forall x, ok x -> resolve KA x = [] -> sound w KA x ->
  agrees (fun x z => z = number x) (value w (Some KA) x) (a_of (evaluate w (As KA) x)).
Proof.
  intros x HO HR HS. unfold a_of.
  assert (E : forall r : res val, r = andThen r (fun y => Is y)) by (intros []; reflexivity).
  rewrite (E (value w (Some KA) x)).
  apply (agrees_bind _ _ _ _ (rel KA)); [apply (proj1 HO); assumption|].
  intros y v HV. apply agrees_is. apply rel_a, HV.
Qed.

Definition factor (d : option expr) : option (res val) :=
  match d with Some x => Some (value w (Some KA) x) | None => None end.
Definition factor_m (d : option expr) : option (M Z) :=
  match d with Some x => Some (a_of (evaluate w (As KA) x)) | None => None end.
Lemma duplicate_agrees : forall d s, opt_all ok d ->
  (match d with Some x => resolve KA x | None => [] end) = [] ->
  (match d with Some x => sound w KA x | None => True end) ->
  agrees (rel KC) (duplicate_meaning (factor d) s) (bind (duplicated (factor_m d) s) (fun r => ret (SET_C r))).
Proof.
  intros [x|] s HO HR HS; cbn [factor factor_m duplicate_meaning duplicated].
  - assert (A : forall (m : M Z) (f : Z -> M bytes) (g : bytes -> M SET_t),
        bind (bind m f) g = bind m (fun z => bind (f z) g)).
    { intros [[z ds]|] f g; [|reflexivity]. cbn [bind]. destruct (f z) as [[y es]|]; [|reflexivity].
      cbn [bind]. destruct (g y) as [[u fs]|]; [|reflexivity]. now rewrite app_assoc. }
    rewrite A. apply (agrees_bind _ _ _ _ (fun x z => z = number x)).
    + apply number_agrees; assumption.
    + intros y z ->. unfold maps. apply (agrees_bind _ _ _ _ eq).
      * apply agrees_lift_id.
      * intros r ? <-. apply agrees_is, rel_KC.
  - apply agrees_is, rel_KC.
Qed.

Lemma functions_alike : forall f m, meaning_of f = Some m ->
  implementation f = Some (match m with
                           | num_char g => N_C g | num_char_char g => N_CC g
                           | char_num g => C_N g | char_char g => C_C g
                           end) /\
  get_function_type f = Some (result_kind m) /\
  get_function_param_info f (result_kind m) =
    (match m with num_char_char _ => 2%nat | _ => 1%nat end, Some (parameter_kind m)).
Proof. intros f m H. destruct f; try discriminate H; injection H as <-; repeat split. Qed.

Lemma ok_VarSym : forall n c s, Forall ok c -> Forall ok s -> ok (VarSym n c s).
Proof.
  intros n c s HC HS.
  assert (G : forall (k : option kind), resolve KA (VarSym n c s) = [] -> sound w KA (VarSym n c s) ->
    (k = Some KC -> holds_characters w n) ->
    agrees (fun x v => match k with Some q => rel q x v | None => relv x v end)
      (value w k (VarSym n c s)) (evaluate w (match k with Some q => As q | None => Raw end) (VarSym n c s))).
  { intros k HR HD HK. cbn [resolve] in HR. apply app_eq_nil in HR as [HR1 HR2].
    cbn [sound] in HD. destruct HD as (_ & HD1 & HD2). cbn [value evaluate].
    assert (NAME : agrees (fun x y => x = y /\ (n = Some x \/ n = None))
      (match n with
       | Some m => Is m
       | None => andThen (string_of (fun p => andThen (value w None p) text_of) false c)
                         (fun t => if a_name t then Is t else Wrong)
       end)
      (match n with
       | Some m => ret m
       | None => bind (concatenate (fun p => bind (evaluate w Raw p) var_text) false c) get_symbol_name
       end)).
    { destruct n as [m|].
      - apply agrees_is. auto.
      - apply (agrees_weaken _ _ eq); [|auto]. apply (agrees_bind _ _ _ _ eq).
        + apply concatenate_agrees; assumption.
        + intros t ? <-. apply name_agrees. }
    eapply agrees_bind; [exact NAME|]. intros m ? [<- HN].
    apply (agrees_bind _ _ _ _ eq); [apply subscripts_agree; assumption|]. intros zs ? <-.
    destruct (variable w m zs) as [v|d] eqn:EV.
    - cbn [bind ret app]. unfold ret. cbn [bind].
      assert (EB : forall (x : M SET_t), match x with None => None | Some (y, es) => Some (y, es) end = x)
        by (intros [[? ?]|]; reflexivity).
      destruct k as [q|].
      + cbn [app]. rewrite EB. apply convert_variable_agrees. intros ->. apply (HK eq_refl m zs v EV HN).
      + apply agrees_is. apply relv_of.
    - destruct k as [q|].
      + unfold report. cbn [bind app]. destruct (convert_variable (SET_default UNDEF) q) as [[y es]|].
        * right. eauto.
        * left. reflexivity.
      + right. unfold report. cbn [bind ret app]. eauto. }
  split.
  - intros k HR HD. specialize (G (Some k)). cbv iota beta in G. apply G.
    + exact HR.
    + cbn [sound] in *. split; [intros HH; discriminate HH|tauto].
    + intros E. injection E as ->. cbn [sound] in HD. tauto.
  - intros n' c' s' _ HR HD. apply (G None); [assumption|assumption|discriminate].
Qed.

Lemma ok_Str : forall v d s c, Forall ok v -> opt_all ok d -> opt_all ok s -> opt_all ok c -> ok (Str v d s c).
Proof.
  intros v d s c HV HD HS HC. split; [|discriminate].
  intros k HR HN. cbn [resolve] in HR.
  apply app_eq_nil in HR as [R1 HR]. apply app_eq_nil in HR as [R2 HR].
  apply app_eq_nil in HR as [R3 HR]. apply app_eq_nil in HR as [R4 HR].
  destruct k; try discriminate HR. cbn [sound] in HN. destruct HN as (N1 & N2 & N3 & N4).
  cbn [value evaluate]. apply (agrees_bind _ _ _ _ eq).
  { apply concatenate_agrees; assumption. }
  intros t ? <-.
  destruct (Nat.leb_spec (length t) (Z.to_nat MAX_STR_SIZE)) as [L|L];
    destruct (Z.gtb_spec (size t) MAX_STR_SIZE) as [G|G]; unfold size, MAX_STR_SIZE in L, G; try lia.
  2: apply agrees_wrong.
  destruct s as [x|].
  - apply (agrees_bind _ _ _ _ (fun x z => z = number x)).
    { apply number_agrees; assumption. }
    intros st ? ->. apply (agrees_bind _ _ _ _ eq).
    { destruct c as [y|].
      - apply (agrees_maps _ _ _ _ (fun x z => z = number x)).
        + apply number_agrees; assumption.
        + intros; congruence.
      - apply agrees_is. reflexivity. }
    intros n ? <-. destruct (substring t (number st) n); cbn [of_out andThen].
    + apply duplicate_agrees; assumption.
    + apply agrees_wrong.
    + reflexivity.
  - apply duplicate_agrees; assumption.
Qed.

Lemma ok_Fun : forall f ps d, Forall ok ps -> opt_all ok d -> ok (Fun f ps d).
Proof.
  intros f ps d HP HD. split; [|discriminate].
  intros k HR HN. cbn [sound] in HN. destruct (meaning_of f) as [m|] eqn:EM; [|contradiction].
  destruct HN as [N1 N2]. destruct (functions_alike f m EM) as (EI & ET & EP).
  cbn [resolve] in HR. apply app_eq_nil in HR as [R1 HR]. rewrite ET in HR.
  destruct (kind_eqb k (result_kind m)) eqn:EK; [|discriminate HR].
  apply kind_eqb_eq in EK. subst k. cbn [negb] in HR.
  match type of HR with (if ?b then _ else _) = _ => destruct b; [discriminate HR|] end.
  rewrite EP in HR. cbn [value evaluate]. rewrite EM, EI, ET, EP, kind_eqb_refl. cbn [snd].
  assert (ONE : forall p, In p ps -> ok p /\ (resolve (parameter_kind m) p = []) /\ sound w (parameter_kind m) p).
  { destruct (negb (Nat.eqb (length ps) _)); [discriminate HR|].
    clear - HP HR N1. induction ps as [|q ps IH]; [easy|]. cbn [flat_map] in HR. apply app_eq_nil in HR as [H1 H2].
    inversion HP; subst. destruct N1 as [M1 M2]. intros p [<-|HI]; [auto|]. apply IH; auto. }
  assert (LEN : length ps = match m with num_char_char _ => 2%nat | _ => 1%nat end).
  { destruct (Nat.eqb_spec (length ps) (match m with num_char_char _ => 2%nat | _ => 1%nat end)); [assumption|discriminate HR]. }
  assert (E1 : forall p, In p ps -> agrees (rel (parameter_kind m)) (value w (Some (parameter_kind m)) p)
                                       (evaluate w (As (parameter_kind m)) p)).
  { intros p HI. destruct (ONE p HI) as (O & R & N). apply (proj1 O); assumption. }
  destruct m as [g|g|g|g]; cbn [result_kind parameter_kind] in *.
  - destruct ps as [|p [|? ?]]; try discriminate LEN. cbn [map].
    apply (agrees_bind _ _ _ _ (rel KC)); [apply E1; left; reflexivity|].
    intros x v HV. rewrite (rel_c _ _ HV). apply agrees_lift. intros; apply rel_KA.
  - destruct ps as [|p [|q [|? ?]]]; try discriminate LEN. cbn [map].
    apply (agrees_bind _ _ _ _ (rel KC)); [apply E1; left; reflexivity|]. intros x v HV.
    apply (agrees_bind _ _ _ _ (rel KC)); [apply E1; right; left; reflexivity|]. intros y u HU.
    rewrite (rel_c _ _ HV), (rel_c _ _ HU). apply agrees_is, rel_KA.
  - destruct ps as [|p [|? ?]]; try discriminate LEN. cbn [map].
    apply (agrees_bind _ _ _ _ (rel KA)); [apply E1; left; reflexivity|].
    intros x v HV. rewrite (rel_a _ _ HV). apply (agrees_bind _ _ _ _ eq); [apply agrees_lift_id|].
    intros t ? <-. apply duplicate_agrees; assumption.
  - destruct ps as [|p [|? ?]]; try discriminate LEN. cbn [map].
    apply (agrees_bind _ _ _ _ (rel KC)); [apply E1; left; reflexivity|].
    intros x v HV. rewrite (rel_c _ _ HV). apply (agrees_bind _ _ _ _ eq); [apply agrees_lift_id|].
    intros t ? <-. apply duplicate_agrees; assumption.
Qed.

Theorem all_ok : forall e, ok e.
Proof.
  induction e using expr_ind'.
  - split; [|discriminate]. intros k HR HS. destruct k; cbn in HR; try discriminate HR; apply agrees_is, rel_A; discriminate.
  - split; [|discriminate]. intros k HR HS. destruct k; cbn in HR; try discriminate HR;
      cbn [value evaluate]; destruct (absolute w n); try apply agrees_wrong; apply agrees_is, rel_A; discriminate.
  - apply ok_VarSym; assumption.
  - apply ok_Str; assumption.
  - split; [|discriminate]. intros k HR HS. cbn [sound] in HS. destruct c.
    + rewrite (HS eq_refl). cbn [value evaluate]. destruct (char_attribute w i); [apply agrees_is, rel_KC|apply agrees_wrong].
    + destruct k; cbn in HR; try discriminate HR; cbn [value evaluate]; destruct (num_attribute w i);
        try apply agrees_wrong; apply agrees_is, rel_A; discriminate.
  - apply ok_Fun; assumption.
  - split; [|discriminate]. intros k HR HS. cbn [resolve sound value evaluate] in *.
    destruct k; [destruct a|destruct b|destruct c]; try discriminate HR; cbn [opt_all] in *;
      [apply (proj1 H)|apply (proj1 H0)|apply (proj1 H1)]; assumption.
  - split; [|discriminate]. intros q HR HS. cbn [resolve sound value evaluate] in *.
    destruct (kind_eqb k q) eqn:E; [|discriminate HR]. apply kind_eqb_eq in E. subst q. cbn [negb] in HR.
    destruct HS as [HU HS]. rewrite (unary_operands o k e HU) in HR |- *.
    apply (agrees_bind _ _ _ _ (rel (wanted_by o k e))); [apply (proj1 IHe); assumption|].
    intros x v HV. apply unary_agrees; [assumption|].
    replace (wanted_by o k (Text [])) with (wanted_by o k e); [assumption|].
    destruct k, o; try discriminate HU; reflexivity.
  - split; [|discriminate]. intros q HR HS. cbn [resolve sound value evaluate] in *.
    destruct q; cbn [kind_eqb negb] in HR; try discriminate HR.
    apply (agrees_bind _ _ _ _ (rel KA)); [apply (proj1 IHe); assumption|].
    intros x v HV. rewrite (rel_a _ _ HV). apply agrees_is, rel_KA.
  - split; [|discriminate]. intros q HR HS. cbn [resolve sound value evaluate] in *.
    destruct q; cbn [kind_eqb negb] in HR; try discriminate HR.
    apply (agrees_bind _ _ _ _ (rel KA)); [apply (proj1 IHe); assumption|].
    intros x v HV. rewrite (rel_a _ _ HV). unfold ca_minus. destruct (number x =? INT_MIN); [reflexivity|].
    apply agrees_is, rel_KA.
  - split; [|discriminate]. intros q HR HS. cbn [resolve sound value evaluate] in *. apply (proj1 IHe); assumption.
  - split; [|discriminate]. intros q HR HS. cbn [resolve sound value evaluate] in *.
    destruct (kind_eqb (basic_kind o) q) eqn:E; [|discriminate HR]. apply kind_eqb_eq in E. subst q. cbn [negb] in HR.
    apply app_eq_nil in HR as [R1 R2].
    change (match o with CONC => KC | _ => KA end) with (basic_kind o) in *. destruct HS as [S1 S2].
    apply (agrees_bind _ _ _ _ (rel (basic_kind o))); [apply (proj1 IHe1); assumption|]. intros x v HV.
    apply (agrees_bind _ _ _ _ (rel (basic_kind o))); [apply (proj1 IHe2); assumption|]. intros y u HU.
    apply basic_agrees; assumption.
  - split; [|discriminate]. intros q HR HS. cbn [resolve sound value evaluate] in *.
    destruct (kind_eqb k q) eqn:E; [|discriminate HR]. apply kind_eqb_eq in E. subst q. cbn [negb] in HR.
    destruct HS as (HB & S1 & S2).
    match type of HR with (if ?b then _ else _) = _ => destruct b eqn:FI; [discriminate HR|] end.
    destruct (operands_kind_defined o k e1 HB) as [q EQ]. rewrite EQ in HR |- *.
    apply app_eq_nil in HR as [R1 R2].
    assert (EW : q = wanted_by o k e1) by (apply (operands_kind_wanted w); assumption). rewrite <- EW in *.
    apply (agrees_bind _ _ _ _ (rel q)); [apply (proj1 IHe1); assumption|]. intros x v HV.
    apply (agrees_bind _ _ _ _ (rel q)); [apply (proj1 IHe2); assumption|]. intros y u HU.
    destruct (relation_op o) eqn:ER.
    + assert (NB : q <> KB) by (subst q; destruct o; try discriminate ER; cbn [wanted_by]; destruct (characters e1); discriminate).
      rewrite (kind_after_resolved w e1 q NB R1 S1).
      apply binary_agrees; try assumption.
      * destruct q; auto; congruence.
      * intros [->| ->]; discriminate ER.
      * intros H; rewrite H in ER; discriminate ER.
    + assert (RR : is_relational o = false) by (destruct o; try discriminate ER; reflexivity).
      assert (IND : forall t, binary_operation o k t v u = binary_operation o k (Some q) v u).
      { intros t. unfold binary_operation. rewrite RR. reflexivity. }
      rewrite IND. apply binary_agrees; try assumption.
      * auto.
      * subst q. intros [->| ->]; reflexivity.
      * intros _ NF NI. subst q. destruct k, o; try discriminate HB; try discriminate ER; try congruence; reflexivity.
  - split; [|discriminate]. intros q HR HS. contradiction.
  - split; [|discriminate]. intros q HR HS. contradiction.
Qed.

End Main.
