(** C100, C101: hovering over ordinary and variable symbols. *)
From Coq Require Import String.
From Coq Require Import List NArith ZArith Bool Arith Lia.
From Verif Require Import Common Attr_Model Addr_Model Addr_Spec Dvar_Model Hvs_Model Hvs_Spec Hvs_Text Hvs_Vars.
From Verif Require Var_Model Nav_Model Nav_Spec Nav_Ctx Nav_Main.
Import ListNotations.
Open Scope Z_scope.

(** * C100: ordinary symbols *)

(** There is a text exactly for symbols with a value. *)
Theorem C100_shown : forall nm v y, symbol_text nm v y = [] <-> v = Undefined.
Proof.
  intros nm v y. split; [|intros ->; reflexivity]. destruct v as [|z|a]; [reflexivity| |]; cbn [symbol_text]; intros E;
    apply app_eq_nil in E; destruct E as [_ E]; discriminate E.
Qed.
Print Assumptions C100_shown.

(** A text says one thing. *)
Theorem C100_one_reading : forall t r r', says t r -> says t r' -> r = r'.
Proof. exact says_unique. Qed.
Print Assumptions C100_one_reading.

(** The text of an absolute symbol says its value and its attributes. *)
Theorem C100_absolute : forall nm z y, exists r, says (symbol_text nm (Abs z) y) r /\
  r_absolute r = true /\ r_terms r = [] /\ r_number r = z /\ attrs_of y r.
Proof. intros nm z y. apply (lines_say y (to_string z) [] z true). constructor. apply to_string_number. Qed.
Print Assumptions C100_absolute.

(** The text of a relocatable symbol says the sections and the offset whose sum is its value, wherever the sections are
    placed, and its attributes; provided that no section is subtracted and all spaces are resolved, each
    mentioned once. *)
Theorem C100_relocatable : forall nm a y, sections_added nm a -> all_placed a -> flat a = true ->
  exists r, says (symbol_text nm (Reloc a) y) r /\ r_absolute r = false /\ attrs_of y r /\
    forall p at_, by_name nm p at_ -> sum_value at_ (r_terms r) (r_number r) = denotes p a.
Proof.
  intros nm a y S P F. destruct (address_says nm a S) as (ts & X & V).
  destruct (lines_say y (address_text nm a) ts (offset a) false X) as (r & Y & A & T & N & AT).
  exists r. split; [exact Y|]. split; [exact A|]. split; [exact AT|]. intros p at_ B. rewrite T, N. auto.
Qed.
Print Assumptions C100_relocatable.

(** The attributes that are shown are those that attribute references in the program read. *)
Theorem C100_attributes : forall nm v y r e n, says (symbol_text nm v y) r -> v <> Undefined ->
  (forall a, v = Reloc a -> sections_added nm a) -> get_ordsym e n = Some y ->
  (forall z, r_length r = Some z -> fst (retrieve_value L (get_ordsym e n)) = Var_Model.VA z) /\
  (can_have_SI y = true -> forall z, r_scale r = Some z -> fst (retrieve_value S_ (get_ordsym e n)) = Var_Model.VA z) /\
  (can_have_SI y = true -> forall z, r_integer r = Some z -> fst (retrieve_value I_ (get_ordsym e n)) = Var_Model.VA z) /\
  fst (retrieve_value T (get_ordsym e n)) = Var_Model.VC [r_type r].
Proof.
  intros nm v y r e n H V S G. rewrite G.
  assert (A : attrs_of y r).
  { destruct v as [|z|a]; [contradiction| |].
    - destruct (C100_absolute nm z y) as (r' & X & _ & _ & _ & A). now rewrite (says_unique _ _ _ H X).
    - destruct (address_says nm a (S a eq_refl)) as (ts & X & _).
      destruct (lines_say y (address_text nm a) ts (offset a) false X) as (r' & Y & _ & _ & _ & A).
      now rewrite (says_unique _ _ _ H Y). }
  destruct A as (A1 & A2 & A3 & A4). split; [|split; [|split]].
  - intros z E. rewrite E in A1. cbn. rewrite <- A1. reflexivity.
  - intros C z E. rewrite E in A2. cbn. rewrite C. cbn. rewrite <- A2. reflexivity.
  - intros C z E. rewrite E in A3. cbn. rewrite C. cbn. destruct (o_length y), (o_scale y); try discriminate. cbn. congruence.
  - rewrite A4. reflexivity.
Qed.
Print Assumptions C100_attributes.

Definition names (s : nat) : bytes := match s with 1%nat => s2b "A" | 2%nat => s2b "BB" | _ => [] end.
Definition field : osym := {| o_dat := true; o_type := 70; o_length := Some 4; o_scale := Some 0; o_integer := 31 |}.
(** A label 20 bytes behind BB, and twice A. *)
Definition somewhere : address := mkAddr [(2%nat, 1); (1%nat, 2); (7%nat, 1)] 12 [(Res 6 [(Res 2 [], 1)], 1)].
Example C100_relocatable_case : sections_added names somewhere /\ all_placed somewhere /\ flat somewhere = true /\
  symbol_text names (Reloc somewhere) field =
    lit "BB + 2*A + 20||---||Relocatable Symbol||---||L: 4  |I: 31  |S: 0  |T: F  |" /\
  by_name names {| base_at := fun s => match s with 1%nat => 1000 | 2%nat => 5000 | _ => 0 end; space_len := fun _ => 0 |}
    (fun n => if bytes_eqb n (s2b "A") then 1000 else if bytes_eqb n (s2b "BB") then 5000 else 0).
Proof.
  split; [|split; [vm_compute; reflexivity|split; [vm_compute; reflexivity|split; [vm_compute; reflexivity|]]]].
  - constructor; [|constructor; [|constructor; [|constructor]]]; (split; [|cbn; lia]).
    + right. cbn. unfold digit, name_char. split; [lia|]. split; [lia|]. repeat constructor; lia.
    + right. cbn. unfold digit, name_char. split; [lia|]. split; [lia|]. repeat constructor; lia.
    + left. reflexivity.
  - split; [reflexivity|]. intros [|[|[|s]]]; vm_compute; reflexivity.
Qed.
Example C100_absolute_case : symbol_text names (Abs (-12)) {| o_dat := true; o_type := 85; o_length := Some 1; o_scale := None; o_integer := 0 |} =
  lit "-12||---||Absolute Symbol||---||L: 1  |T: U  |".
Proof. vm_compute. reflexivity. Qed.

(** A section that is subtracted is shown as if it were added: the symbols [X EQU BB-A] and [Y EQU BB+A]
    (A and BB in different sections) have the same text and different values. *)
Theorem C100_subtracted_refuted : exists a b p y, symbol_text names (Reloc a) y = symbol_text names (Reloc b) y /\
  denotes p a <> denotes p b /\ all_placed a /\ all_placed b /\ flat a = true /\ flat b = true /\ sections_added names b.
Proof.
  exists (mkAddr [(2%nat, 1); (1%nat, -1)] 0 []), (mkAddr [(2%nat, 1); (1%nat, 1)] 0 []).
  exists {| base_at := fun s => match s with 1%nat => 1000 | _ => 5000 end; space_len := fun _ => 0 |}, field.
  split; [vm_compute; reflexivity|]. split; [vm_compute; discriminate|]. split; [reflexivity|]. split; [reflexivity|].
  split; [reflexivity|]. split; [reflexivity|].
  constructor; [|constructor; [|constructor]]; (split; [|cbn; lia]); right; cbn; unfold digit, name_char;
    (split; [lia|]); (split; [lia|]); repeat constructor; lia.
Qed.
Print Assumptions C100_subtracted_refuted.
(** A space of which the length is not known is left out. *)
Theorem C100_pending_refuted : exists a b p y, symbol_text names (Reloc a) y = symbol_text names (Reloc b) y /\
  denotes p a <> denotes p b /\ sections_added names a /\ sections_added names b /\ flat a = true /\ flat b = true /\ all_placed b.
Proof.
  exists (mkAddr [(1%nat, 1)] 4 [(Unres 0, 1)]), (mkAddr [(1%nat, 1)] 4 []).
  exists {| base_at := fun _ => 0; space_len := fun _ => 8 |}, field.
  assert (S : Forall (fun b : bentry => (names (fst b) = [] \/ section_name (names (fst b))) /\ 0 <= snd b) [(1%nat, 1)]).
  { constructor; [|constructor]. split; [|cbn; lia]. right. cbn. unfold digit, name_char. split; [lia|]. split; [lia|]. repeat constructor; lia. }
  split; [vm_compute; reflexivity|]. split; [vm_compute; discriminate|]. split; [exact S|]. split; [exact S|].
  split; [reflexivity|]. split; reflexivity.
Qed.
Print Assumptions C100_pending_refuted.

(** * C101: variable symbols, and an answer at every place *)

(** In open code the text tells the type of the first statement that declares or sets the symbol; nothing is shown exactly
    if there is none. *)
Theorem C101_first : forall es n,
  (open_variable_text n (collect_definitions [] es) = [] <-> forall s t, In (Open s) es -> ~ defines s n t) /\
  (forall t, open_variable_text n (collect_definitions [] es) = variable_text (SetVariable t) <-> first_definition es n t).
Proof.
  intros es n. pose proof (collect_all_find es [] n) as F. cbn [definition_of List.find] in F. unfold open_variable_text.
  assert (U : forall t t', first_definition es n t -> first_definition es n t' -> t = t').
  { intros t t' (b & s & a & E & D & N) (b' & s' & a' & E' & D' & N').
    assert (X : Open s = Open s' /\ b = b').
    { revert b b' N N' E E'. clear - D D'. intros b. revert es. induction b as [|e b IH]; intros es b' N N' E E'; subst es; destruct b' as [|e' b']; cbn in E'.
      - split; [congruence|reflexivity].
      - exfalso. apply (N' s t); [left; congruence|exact D].
      - exfalso. apply (N s' t'); [left; congruence|exact D'].
      - assert (e = e') by congruence. assert (E2 : b ++ Open s :: a = b' ++ Open s' :: a') by congruence. subst e'.
        destruct (IH (b ++ Open s :: a) b') as [X ->]; auto; intros x y I; [apply N|apply N']; right; exact I. }
    destruct X as [X _]. assert (s = s') by congruence. subst s'. clear - D D'.
    destruct s as [cr t0 m sub ops|g t0 ops]; cbn in D, D'; destruct D as [D1 D2], D' as [D1' D2']; [destruct D2, D2'|]; congruence. }
  destruct (definition_of n (collect_definitions [] es)) as [d|].
  - split.
    + split; [intros X; destruct (d_type d); discriminate X|]. intros X. exfalso. destruct F as (b & s & a & -> & D & _).
      apply (X s (d_type d)); [apply in_or_app; right; left; reflexivity|exact D].
    + intros t. split.
      * intros X. assert (d_type d = t) by (destruct (d_type d), t; try reflexivity; discriminate X). now subst.
      * intros X. now rewrite (U _ _ F X).
  - split; [tauto|]. intros t. split; [intros X; destruct t; discriminate X|]. intros (b & s & a & -> & D & _). exfalso.
    apply (F s t); [apply in_or_app; right; left; reflexivity|exact D].
Qed.
Print Assumptions C101_first.

(** When the statements of open code are accepted, the variable has that type, provided that everything that declares the
    name as global declares it with the same type. *)
Theorem C101_type : forall i es n t, n <> [] -> accepted (Var_Model.initial i) es -> global_as es n t ->
  open_variable_text n (collect_definitions [] es) = variable_text (SetVariable t) ->
  variable_type (Var_Model.run (Var_Model.initial i) (List.map as_step es)) n = Some t.
Proof.
  intros i es n t N A G X. apply type_of_first; auto.
  - apply initial_bound.
  - apply initial_typed.
  - apply (proj2 (C101_first es n)). exact X.
Qed.
Print Assumptions C101_type.

Definition info0 : Var_Model.start_info := {| Var_Model.datc := []; Var_Model.date := []; Var_Model.time := []; Var_Model.sysparm := [] |}.
Definition call0 : Var_Model.call_info := {| Var_Model.sect := []; Var_Model.styp := None; Var_Model.loc := None |}.
Definition X_ : bytes := s2b "X".
(** LCLB &Y, &X(5), a macro that has its own &X, then &X(1) SETA 1 refers to a SETA declared before it. *)
Definition program : list event :=
  [Open (Declare false Var_Model.TA [(false, Var_Model.DVar X_ [5])]);
   Inner (Var_Model.CALL [] call0); Inner (Var_Model.DECL false Var_Model.TC [Var_Model.DVar X_ []]); Inner Var_Model.RETURN;
   Open (Assign false Var_Model.TA X_ [1] [Var_Model.Expr (Var_Model.Ret (Var_Model.VA 1))])].
Example C101_type_case : accepted (Var_Model.initial info0) program /\ global_as program X_ Var_Model.TA /\
  open_variable_text X_ (collect_definitions [] program) = s2b "SETA variable".
Proof.
  split; [|split; [|vm_compute; reflexivity]].
  - cbn [accepted program]. split; [split; vm_compute; reflexivity|]. split; [exact Logic.I|]. split; [vm_compute; discriminate|].
    split; [exact Logic.I|]. split; [split; vm_compute; reflexivity|exact Logic.I].
  - intros e t' ops sub IE E _. destruct IE as [<-|[<-|[<-|[<-|[<-|[]]]]]]; discriminate E.
Qed.

(** A global symbol that a macro has declared with another type before: GBLC is accepted in open code, the text tells a
    SETC variable, and the variable is a SETA variable. *)
Theorem C101_global_refuted : exists es, accepted (Var_Model.initial info0) es /\
  open_variable_text X_ (collect_definitions [] es) = variable_text (SetVariable Var_Model.TC) /\
  variable_type (Var_Model.run (Var_Model.initial info0) (List.map as_step es)) X_ = Some Var_Model.TA.
Proof.
  exists [Inner (Var_Model.CALL [] call0); Inner (Var_Model.DECL true Var_Model.TA [Var_Model.DVar X_ []]); Inner Var_Model.RETURN;
          Open (Declare true Var_Model.TC [(false, Var_Model.DVar X_ [])])].
  split; [|split; vm_compute; reflexivity].
  cbn [accepted]. split; [exact Logic.I|]. split; [vm_compute; discriminate|].
  split; [exact Logic.I|]. split; [split; vm_compute; reflexivity|exact Logic.I].
Qed.
Print Assumptions C101_global_refuted.
(** A statement that is rejected is taken for the definition all the same. *)
Theorem C101_rejected_refuted : exists es, (exists c, fst (Var_Model.exec c (as_step (List.hd (Inner Var_Model.RETURN) es))) <> []) /\
  open_variable_text X_ (collect_definitions [] es) = variable_text (SetVariable Var_Model.TA) /\
  variable_type (Var_Model.run (Var_Model.initial info0) (List.map as_step es)) X_ = Some Var_Model.TC.
Proof.
  exists [Open (Assign false Var_Model.TA X_ [0] []);
          Open (Assign false Var_Model.TC X_ [] [Var_Model.Expr (Var_Model.Ret (Var_Model.VC []))])].
  split; [exists (Var_Model.initial info0); vm_compute; discriminate|]. split; vm_compute; reflexivity.
Qed.
Print Assumptions C101_rejected_refuted.

Import Nav_Model Nav_Spec.
(** Hovering over a variable symbol and going to its definition are about the same definition: there is a text exactly if a
    definition is found, and the text is what completion shows beside the symbol. *)
Theorem C101_agrees : forall x c f p o scope, find_occ c f p = Some (o, scope) -> kind_of o = VAR ->
  hover x c f p <> None ->
  exists t ds, hover x c f p = Some t /\ complete_var_details x c f p = Some ds /\
    (t = [] <-> lookup (symbol o) ds = None) /\ (t <> [] -> lookup (symbol o) ds = Some t) /\
    (t = [] -> opencode_ c <> None -> Nav_Model.definition_of c o scope = Some None) /\
    (t <> [] -> Nav_Model.definition_of c o scope <> Some None).
Proof.
  intros x c f p o scope F K H. unfold hover in *. rewrite F in *. unfold find_hover in *. rewrite K in *.
  unfold find_occ in F. unfold complete_var_details, Nav_Model.definition_of. destruct (lookup f (files c)) as [i|]; [|discriminate].
  destruct (List.find (in_range p) (occs i)) as [o'|]; [|discriminate].
  assert (o' = o) by congruence. assert (find_scope (line p) (slices i) = scope) by congruence. subst o'. rewrite H1, K. clear F H1.
  assert (VT : forall k, variable_text k <> []) by (intros [|[| |]]; discriminate).
  destruct scope as [k|].
  - destruct (get_macro k (macros c)) as [m|] eqn:EM; [|contradiction]. cbn [option_map].
    assert (Q : forall vs, lookup (symbol o) (List.map (fun v => (vname v, variable_text (macro_variable x k v))) vs) =
                           option_map (fun v => variable_text (macro_variable x k v)) (List.find (fun v => (vname v =? symbol o)%nat) vs)).
    { clear. induction vs as [|v vs IH]; [reflexivity|]. cbn. rewrite Nat.eqb_sym. destruct (vname v =? symbol o)%nat; [reflexivity|exact IH]. }
    eexists. eexists. split; [reflexivity|]. split; [reflexivity|]. rewrite Q.
    destruct (List.find (fun v => (vname v =? symbol o)%nat) (vars (body m))) as [v|]; cbn [option_map].
    + pose proof (VT (macro_variable x k v)). split; [split; [contradiction|discriminate]|]. split; [auto|]. split; [contradiction|].
      intros _. destruct (opencode_ c); [|discriminate]. destruct (nth_error (nests (body m)) (vstmt v)) as [n|]; [|discriminate].
      destruct (top n); discriminate.
    + split; [tauto|]. split; [congruence|]. split; [|congruence]. intros _ O. destruct (opencode_ c); [reflexivity|congruence].
  - destruct (opencode_ c) as [oc|]; [|contradiction]. cbn [option_map].
    assert (Q : forall vs : list (name * loc), lookup (symbol o) (List.map (fun e => (fst e, variable_text (open_variable x (fst e)))) vs) =
                           option_map (fun _ => variable_text (open_variable x (symbol o))) (lookup (symbol o) vs)).
    { clear. induction vs as [|[n l] vs IH]; [reflexivity|]. cbn. destruct (Nat.eqb_spec (symbol o) n) as [->|]; [reflexivity|exact IH]. }
    eexists. eexists. split; [reflexivity|]. split; [reflexivity|]. rewrite Q.
    destruct (lookup (symbol o) (open_vars oc)) as [v|]; cbn [option_map].
    + pose proof (VT (open_variable x (symbol o))). split; [split; [contradiction|discriminate]|]. split; [auto|]. split; [contradiction|].
      intros _. discriminate.
    + split; [tauto|]. split; [congruence|]. split; [|congruence]. intros _ _. reflexivity.
Qed.
Print Assumptions C101_agrees.

(** There is an answer for every file and position when every macro that an instruction is recorded with is known. *)
Theorem C101_answered : forall x l f o c', add_opencode f o (build l) = Some c' ->
  (forall g y k, present l o g y -> kind_of y = INSTR -> opcode y = Some k -> exists m, In m (macros (build l)) /\ mac_id m = k) ->
  forall g p, hover x c' g p <> None.
Proof.
  intros x l f o c' A M g p. unfold hover. destruct (lookup g (files c')) as [i|] eqn:L.
  2:{ unfold find_occ. rewrite L. discriminate. }
  pose proof (Nav_Main.find_occ_spec l f o c' A g p ltac:(congruence)) as F. destruct (find_occ c' g p) as [[y sc]|]; [|discriminate].
  destruct F as (P & _ & ->). destruct (Nav_Ctx.opencode_files f o (build l) c' g (Nav_Ctx.build_fresh l) A) as (_ & OC & _).
  unfold find_hover. rewrite OC. destruct (kind_of y) eqn:K; try discriminate.
  - destruct (scope_at c' g p) as [k|] eqn:SC; [|discriminate].
    destruct (Nav_Main.scope_macro l f o c' A g p k SC) as (m & IM & <-). rewrite (Nav_Main.ids l f o c' A m IM). discriminate.
  - destruct (opcode y) as [k|] eqn:OK; [|discriminate]. destruct (M g y k P K OK) as (m & IM & <-).
    rewrite (Nav_Main.ids l f o c' A m IM). discriminate.
Qed.
Print Assumptions C101_answered.
(** Hovering over an ordinary symbol shows its text, over a sequence symbol that it is one, over a macro call the
    documentation of the macro, over an instruction its own, and over a copy operand nothing. *)
Theorem C101_kinds : forall x l f o c', add_opencode f o (build l) = Some c' ->
  forall g p y sc, find_occ c' g p = Some (y, sc) ->
  (kind_of y = ORD -> hover x c' g p = Some (match ordinary_text x (symbol y) with Some t => t | None => [] end)) /\
  (kind_of y = SEQ -> hover x c' g p = Some (s2b "Sequence symbol")) /\
  (kind_of y = INSTR -> forall m, In m (macros (build l)) -> opcode y = Some (mac_id m) -> hover x c' g p = Some (macro_doc x m)) /\
  (kind_of y = INSTR -> opcode y = None -> hover x c' g p = Some (instruction_doc x (symbol y))) /\
  (kind_of y = COPY_OP -> hover x c' g p = Some []).
Proof.
  intros x l f o c' A g p y sc F. unfold hover. rewrite F. unfold find_hover.
  destruct (Nav_Ctx.opencode_files f o (build l) c' g (Nav_Ctx.build_fresh l) A) as (_ & OC & _). rewrite OC.
  split; [intros ->; reflexivity|]. split; [intros ->; reflexivity|]. split.
  - intros -> m IM ->. now rewrite (Nav_Main.ids l f o c' A m IM).
  - split; [intros -> ->; reflexivity|]. intros ->. reflexivity.
Qed.
Print Assumptions C101_kinds.
Definition texts0 : texts := {| ordinary_text := fun _ => None; macro_variable := fun _ _ => MacroParameter;
  open_variable := fun _ => SetVariable Var_Model.TB; macro_doc := fun _ => []; instruction_doc := fun _ => [] |}.
Open Scope nat_scope.
Definition open0 : opencode_info :=
  Ocode [(3%nat, Loc (Pos 0 1) 0%nat)] [(0%nat, [Occ VAR 3 None (Pos 0 1) (Pos 0 3); Occ VAR 4 None (Pos 1 1) (Pos 1 3)])] [] (fun _ => None).
Example C101_agrees_case : exists c', add_opencode 0 open0 (build []) = Some c' /\
  hover texts0 c' 0 (Pos 0 2) = Some (s2b "SETB variable") /\ hover texts0 c' 0 (Pos 1 2) = Some [] /\
  complete_var_details texts0 c' 0 (Pos 5 0) = Some [(3%nat, s2b "SETB variable")].
Proof. eexists. split; [vm_compute; reflexivity|]. split; [vm_compute; reflexivity|]. split; vm_compute; reflexivity. Qed.
