(** Properties C73-C76: attribute references in conditional assembly. *)
From Coq Require Import String List NArith ZArith Bool Lia.
From Coq Require Import ZifyBool ZifyNat ZifyN.
From Verif Require Import Common Var_Model Sub_Model Ca_Model Attr_Model Attr_Spec Attr_Proof Attr_Vars.
Import ListNotations.
Open Scope Z_scope.

Section Attr.
(** std::to_string *)
Variable to_string : Z -> bytes.

(** ** C73: attributes of ordinary symbols *)
(** The value and the reports are those of [attribute], for every attribute and every symbol. *)
Theorem C73_attribute e a n v ds :
  evaluate to_string e a (Name n) = Res v ds <-> attribute e n a v ds.
Proof.
  rewrite attribute_iff. cbn [evaluate]. destruct (evaluate_ordsym e a n) as [v' ds'].
  split; intros H; congruence.
Qed.
(** There always is a value. *)
Theorem C73_total e a n : exists v ds, evaluate to_string e a (Name n) = Res v ds.
Proof. cbn [evaluate]. destruct (evaluate_ordsym e a n) as [v ds]. eauto. Qed.
(** When something is reported, the value is the default one and the report is the only one. *)
Theorem C73_reported e a n v ds :
  evaluate to_string e a (Name n) = Res v ds -> ds <> [] -> default_of a v /\ length ds = 1%nat.
Proof.
  intros H. apply C73_attribute in H. inversion H; subst; intros N; try easy; split; try reflexivity; constructor.
Qed.
(** What a lookahead has found counts only until the symbol is defined. *)
Theorem C73_definition_counts e e' a n s :
  found_more e e' -> symbols e n = Some s ->
  evaluate to_string e a (Name n) = evaluate to_string e' a (Name n).
Proof.
  intros (_ & Hs & _ & Hm & Hi & Hl) D0. cbn [evaluate].
  unfold evaluate_ordsym, get_ordsym, get_opcode_attr. now rewrite Hs, Hm, Hi, Hl, D0.
Qed.

(** ** C74: T', K' and N' of variable symbols *)
(** T' of a character variable and of a parameter (one that is not a list) is that of its text. *)
Theorem C74_type_of_scalar e n s t x :
  variables e n = Some (VSet s) -> s_type s = TC -> stands_for (VSet s) [] (VC t) ->
  evaluate to_string e T (VarSym n []) = Res (VC x) [] <-> type_letter e t x.
Proof.
  intros V Ty H. apply T_text with (v := VSet s); auto; [constructor|].
  cbn [get_type_attr]. rewrite Ty. inversion H as [s' Sc E1 E2 E3| | |]. rewrite stored_get by assumption. now rewrite E3.
Qed.
Theorem C74_type_of_parameter e n d subs d' x :
  variables e n = Some (VParam d) -> selects d subs d' -> ints subs -> (forall l, d' <> Composite l) ->
  evaluate to_string e T (VarSym n subs) = Res (VC x) [] <-> type_letter e (Sub_Model.get_value d') x.
Proof.
  intros V Sl F Nc. apply T_text with (v := VParam d); auto; [now constructor|].
  cbn [get_type_attr var_data]. rewrite (selects_below _ _ _ Sl F).
  destruct d' as [| |l]; [reflexivity|reflexivity|]. now destruct (Nc l).
Qed.
Theorem C74_type_of_operand e n d subs d' x :
  variables e n = Some (VSys d) -> sys_selects d subs d' -> ints subs -> (forall l, d' <> Composite l) ->
  evaluate to_string e T (VarSym n subs) = Res (VC x) [] <-> type_letter e (Sub_Model.get_value d') x.
Proof.
  intros V Sl F Nc. apply T_text with (v := VSys d); auto; [now constructor|].
  cbn [get_type_attr var_data]. rewrite (sys_selects_below _ _ _ Sl F).
  destruct d' as [| |l]; [reflexivity|reflexivity|]. now destruct (Nc l).
Qed.
(** T' of a list is that of its first text, as far as the symbols defined so far tell it. *)
Theorem C74_type_of_list e n d subs d' t x :
  variables e n = Some (VParam d) -> selects d subs d' -> ints subs ->
  first_text d' t -> type_letter (no_references e) t x -> x <> s2b "U" ->
  evaluate to_string e T (VarSym n subs) = Res (VC x) [].
Proof.
  intros V Sl F Ft Ty Nu. destruct (stands_read (VParam d) subs _ (for_param d subs d' Sl) F) as (R & _).
  rewrite (eval_T _ _ _ _ _ V R). cbn [get_type_attr var_data].
  rewrite (selects_below _ _ _ Sl F), (leftmost_text _ _ Ft).
  apply type_defined in Ty. rewrite Ty. destruct (bytes_eqb x U) eqn:E; [|reflexivity].
  apply bytes_U in E. contradiction.
Qed.
(** Otherwise it is that of the symbol the written list starts with. *)
Theorem C74_type_of_list_unknown e n d subs d' t x :
  variables e n = Some (VParam d) -> selects d subs d' -> ints subs ->
  first_text d' t -> type_letter (no_references e) t (s2b "U") -> ~ only_parens (Sub_Model.get_value d') ->
  evaluate to_string e T (VarSym n subs) = Res (VC x) [] <->
  (exists s, leads (Sub_Model.get_value d') s /\ attribute e (UPPER s) T (VC x) []) \/
  (forall s, ~ leads (Sub_Model.get_value d') s) /\ x = s2b "U".
Proof.
  intros V Sl F Ft Ty Np. assert (St := for_param d subs d' Sl).
  destruct (stands_read (VParam d) subs _ St F) as (R & _).
  rewrite (eval_T _ _ _ _ _ V R). cbn [get_type_attr var_data].
  rewrite (selects_below _ _ _ Sl F), (leftmost_text _ _ Ft).
  apply type_defined in Ty. rewrite Ty. change (bytes_eqb (s2b "U") U) with true. cbv iota.
  destruct (extract (Sub_Model.get_value d')) as [y|] eqn:X; [|apply extract_none in X; contradiction].
  destruct (valid_name y) eqn:Vy.
  - assert (Ld : leads (Sub_Model.get_value d') y) by (apply leads_extract; now split).
    rewrite (substituted_symbol _ _ _ _ _ _ St F Ld).
    split.
    + intros K. left. exists y. split; [exact Ld|]. apply attribute_iff.
      destruct (evaluate_ordsym e T (UPPER y)). congruence.
    + intros [(s & Ls & A)|(N & _)]; [|exfalso; eapply N; eauto].
      apply leads_extract in Ls as (Ls & _). assert (s = y) by congruence. subst.
      apply attribute_iff in A. now rewrite A.
  - assert (Nl : forall s, ~ leads (Sub_Model.get_value d') s).
    { intros s Ls. apply leads_extract in Ls as (Ls & W). congruence. }
    rewrite (substituted_other _ _ _ _ _ St F Np Nl). cbn [quiet default_ca].
    split.
    + intros K. right. split; [exact Nl|]. assert (x = U) by congruence. now subst.
    + intros [(s & Ls & _)|(_ & ->)]; [exfalso; eapply Nl; eauto|reflexivity].
Qed.
(** Arithmetic and Boolean variables are numbers. *)
Theorem C74_type_of_number e n s subs x :
  variables e n = Some (VSet s) -> s_type s <> TC -> stands_for (VSet s) subs x ->
  evaluate to_string e T (VarSym n subs) = Res (VC (s2b "N")) [].
Proof.
  intros V Nt H. assert (R : test_for_read (VSet s) subs = None).
  { destruct (test_for_read (VSet s) subs) as [c|] eqn:E; [|easy]. apply test_misread in E.
    inversion H; subst; inversion E; subst; try congruence; lia. }
  rewrite (eval_T _ _ _ _ _ V R). cbn [get_type_attr]. destruct (s_type s); easy.
Qed.
(** T' of an element of a character array is not that of its text: the element after it is looked
    at first. *)
Theorem C74_type_of_element_refuted :
  exists e n s i t t' x,
    variables e n = Some (VSet s) /\ s_type s = TC /\
    stands_for (VSet s) [i] (VC t) /\ type_letter e t x /\ x = s2b "F" /\
    evaluate to_string e T (VarSym n [i]) = Res (VC t') [] /\ t' = s2b "O".
Proof.
  exists {| symbols := fun n => if bytes_eqb n (s2b "FIELD") then
                         Some {| o_dat := true; o_type := 70%N; o_length := Some 4; o_scale := Some 0; o_integer := 31 |}
                       else None;
            references := fun _ => None;
            variables := fun _ => Some (VSet {| s_type := TC; s_scalar := false; s_data := [(0, VC (s2b "FIELD"))] |});
            macros := fun _ => false; instructions := fun _ => None; library := fun _ => false |},
    (s2b "A"), {| s_type := TC; s_scalar := false; s_data := [(0, VC (s2b "FIELD"))] |}, 1, (s2b "FIELD"), (s2b "O"), (s2b "F").
  split; [reflexivity|]. split; [reflexivity|]. split.
  - apply (for_element {| s_type := TC; s_scalar := false; s_data := [(0, VC (s2b "FIELD"))] |} 1); [reflexivity|lia].
  - split; [|now repeat split].
    change (s2b "F") with [o_type {| o_dat := true; o_type := 70%N; o_length := Some 4; o_scale := Some 0; o_integer := 31 |}].
    apply (ty_symbol _ (s2b "FIELD") (s2b "FIELD")); [discriminate| | |reflexivity].
    + apply extract_front. reflexivity.
    + eexists. reflexivity.
Qed.
(** What it is: the type of the element after it if the symbols defined so far tell it, otherwise
    the type of the symbol this element starts with. *)
Theorem C74_type_of_element e n s i t' x :
  variables e n = Some (VSet s) -> s_type s = TC -> s_scalar s = false -> 1 <= i < 2 ^ 31 ->
  stored s i = VC t' -> type_letter (no_references e) t' x -> x <> s2b "U" ->
  evaluate to_string e T (VarSym n [i]) = Res (VC x) [].
Proof.
  intros V Ty Sc Hi St Tl Nu.
  assert (R : test_for_read (VSet s) [i] = None) by (cbn; rewrite Sc; destruct (Z.ltb_spec i 1); [lia|easy]).
  rewrite (eval_T _ _ _ _ _ V R). cbn [get_type_attr]. rewrite Ty.
  rewrite size_t_small by lia. rewrite stored_at, St by exact Sc.
  apply type_defined in Tl. rewrite Tl. destruct (bytes_eqb x U) eqn:E; [|reflexivity].
  apply bytes_U in E. contradiction.
Qed.
Theorem C74_type_of_element_unknown e n s i t t' y v ds :
  variables e n = Some (VSet s) -> s_type s = TC -> s_scalar s = false -> 1 <= i < 2 ^ 31 ->
  stored s i = VC t' -> type_letter (no_references e) t' (s2b "U") ->
  stored s (i - 1) = VC t -> leads t y -> attribute e (UPPER y) T v ds ->
  evaluate to_string e T (VarSym n [i]) = Res v ds.
Proof.
  intros V Ty Sc Hi St Tl St2 Ld A.
  assert (R : test_for_read (VSet s) [i] = None) by (cbn; rewrite Sc; destruct (Z.ltb_spec i 1); [lia|easy]).
  rewrite (eval_T _ _ _ _ _ V R). cbn [get_type_attr]. rewrite Ty.
  rewrite size_t_small by lia. rewrite stored_at, St by exact Sc.
  apply type_defined in Tl. rewrite Tl. change (bytes_eqb (s2b "U") U) with true. cbv iota.
  assert (H : stands_for (VSet s) [i] (VC t)) by (rewrite <- St2; constructor; [exact Sc|lia]).
  rewrite (substituted_symbol e T (VSet s) [i] t y H); [|repeat constructor; lia|exact Ld].
  apply attribute_iff in A. now rewrite A.
Qed.
(** A text of parentheses only: the first character of an empty string is read. *)
Theorem C74_type_undefined e n d subs d' :
  variables e n = Some (VParam d) -> selects d subs d' -> ints subs -> (forall l, d' <> Composite l) ->
  Sub_Model.get_value d' <> [] -> only_parens (Sub_Model.get_value d') ->
  evaluate to_string e T (VarSym n subs) = Bad.
Proof.
  intros V Sl F Nc Ne Np. destruct (stands_read (VParam d) subs _ (for_param d subs d' Sl) F) as (R & _).
  rewrite (eval_T _ _ _ _ _ V R). cbn [get_type_attr var_data]. rewrite (selects_below _ _ _ Sl F).
  assert (L0 : leftmost d' = d') by (destruct d' as [| |l]; [easy|easy|now destruct (Nc l)]). rewrite L0.
  unfold type_of_text. apply extract_none in Np. rewrite Np. now destruct (Sub_Model.get_value d').
Qed.

(** K' is the length of what the variable stands for. *)
Inductive written_length : val -> Z -> Prop :=
| wl_A n : written_length (VA n) (Z.of_nat (length (to_string n)))
| wl_B b : written_length (VB b) 1
| wl_C t : written_length (VC t) (Z.of_nat (length t)).
Theorem C74_length_of_set e n s subs x k :
  length (to_string 0) = 1%nat ->
  variables e n = Some (VSet s) -> typed s -> stands_for (VSet s) subs x -> ints subs ->
  written_length x k -> k < 2 ^ 31 ->
  evaluate to_string e K (VarSym n subs) = Res (VA k) [].
Proof.
  intros Z0 V Ty H F W B. destruct (stands_read _ _ _ H F) as (R & _).
  cbn [evaluate]. unfold evaluate_varsym. rewrite V, R. do 2 f_equal. cbn [var_count].
  assert (G : get_data s subs = find (match subs with [] => 0 | i :: _ => i - 1 end) (s_data s) /\
              x = stored s (match subs with [] => 0 | i :: _ => i - 1 end)).
  { inversion H as [? Sc| ? i Sc Hi| |]; subst; unfold get_data; rewrite Sc; (split; [|reflexivity]).
    - reflexivity.
    - inversion F; subst. now rewrite less_one by lia. }
  destruct G as (G & ->). unfold count. rewrite G. unfold stored in W.
  destruct (find _ (s_data s)) as [v|] eqn:E.
  - assert (Tv := Ty _ _ E). destruct (s_type s), v; try easy; inversion W; subst; try reflexivity.
    apply as_int_small. lia.
  - destruct (s_type s); inversion W; subst; try reflexivity. now rewrite Z0.
Qed.
Theorem C74_length_of_parameter e n d subs d' :
  variables e n = Some (VParam d) -> selects d subs d' -> ints subs ->
  Z.of_nat (length (Sub_Model.get_value d')) < 2 ^ 31 ->
  evaluate to_string e K (VarSym n subs) = Res (VA (Z.of_nat (length (Sub_Model.get_value d')))) [].
Proof.
  intros V Sl F B. destruct (stands_read (VParam d) subs _ (for_param d subs d' Sl) F) as (R & _).
  cbn [evaluate]. unfold evaluate_varsym. rewrite V, R. do 2 f_equal. cbn [var_count].
  rewrite (selects_below _ _ _ Sl F). unfold text_length. apply as_int_small. lia.
Qed.
(** Of SYSLIST and SYSMAC too, when there is a subscript. *)
Theorem C74_length_of_operand e n d i r d' :
  variables e n = Some (VSys d) -> sys_selects d (i :: r) d' -> ints (i :: r) ->
  Z.of_nat (length (Sub_Model.get_value d')) < 2 ^ 31 ->
  evaluate to_string e K (VarSym n (i :: r)) = Res (VA (Z.of_nat (length (Sub_Model.get_value d')))) [].
Proof.
  intros V Sl F B. destruct (stands_read (VSys d) (i :: r) _ (for_system d (i :: r) d' Sl) F) as (R & _).
  cbn [evaluate]. unfold evaluate_varsym. rewrite V, R. do 2 f_equal. cbn [var_count].
  rewrite (sys_selects_below _ _ _ Sl F). unfold text_length. apply as_int_small. lia.
Qed.
(** Without one it is the length of element 1, whatever the variable stands for. *)
Theorem C74_length_of_system_refuted :
  exists e n d t k, variables e n = Some (VSys d) /\ stands_for (VSys d) [] (VC t) /\
    evaluate to_string e K (VarSym n []) = Res (VA k) [] /\ k <> Z.of_nat (length t).
Proof.
  set (d := Composite [Single (s2b "MAC"); Single (s2b "OPEN CODE")]).
  exists {| symbols := fun _ => None; references := fun _ => None; variables := fun _ => Some (VSys d);
            macros := fun _ => false; instructions := fun _ => None; library := fun _ => false |},
    (s2b "SYSMAC"), d, (Sub_Model.get_value d), 9.
  split; [reflexivity|]. split; [apply for_system; constructor|]. split; [reflexivity|discriminate].
Qed.

(** N' is the number of elements. *)
Inductive elements : data -> Z -> Prop :=
| el_omitted : elements Dummy 0
| el_empty : elements (Single []) 0
| el_single c s : elements (Single (c :: s)) 1
| el_list l : elements (Composite l) (Z.of_nat (length l)).
Lemma elements_number d k : elements d k -> Z.of_nat (Sub_Model.number d) = k.
Proof. intros []; reflexivity. Qed.
Theorem C74_number_of_parameter e n d subs d' k :
  variables e n = Some (VParam d) -> selects d subs d' -> ints subs -> elements d' k -> k < 2 ^ 31 ->
  evaluate to_string e N_ (VarSym n subs) = Res (VA k) [].
Proof.
  intros V Sl F El B. cbn [evaluate]. unfold evaluate_varsym. rewrite V. do 2 f_equal. cbn [var_number].
  rewrite (selects_below _ _ _ Sl F). apply elements_number in El. rewrite El. apply as_int_small. lia.
Qed.
(** N'&SYSLIST is the number of operands: element 0, the label, does not count. *)
Theorem C74_number_of_operands e n label ops :
  variables e n = Some (VSys (Composite (label :: ops))) -> Z.of_nat (length ops) < 2 ^ 31 - 1 ->
  evaluate to_string e N_ (VarSym n []) = Res (VA (Z.of_nat (length ops))) [].
Proof.
  intros V B. cbn [evaluate]. unfold evaluate_varsym. rewrite V. do 2 f_equal. cbn [var_number Sub_Model.number length].
  rewrite as_int_small by lia. f_equal. lia.
Qed.
Theorem C74_number_of_operand e n d i r d' k :
  variables e n = Some (VSys d) -> sys_selects d (i :: r) d' -> ints (i :: r) -> elements d' k -> k < 2 ^ 31 ->
  evaluate to_string e N_ (VarSym n (i :: r)) = Res (VA k) [].
Proof.
  intros V Sl F El B. cbn [evaluate]. unfold evaluate_varsym. rewrite V. do 2 f_equal. cbn [var_number].
  assert (E : below d (size_t i + 1 :: r) = sys_below d (i :: r)).
  { assert (Hi : 0 <= i) by (inversion Sl; lia). inversion F; subst. unfold below, sys_below.
    cbn [fold_left]. rewrite (size_t_small i) by lia. rewrite (size_t_small (i + 1)) by lia.
    replace (i + 1 - 1) with i by lia. rewrite (size_t_small i) by lia. reflexivity. }
  rewrite E, (sys_selects_below _ _ _ Sl F). apply elements_number in El. rewrite El. apply as_int_small. lia.
Qed.
(** N' accepts any subscripts. *)
Theorem C74_number_unchecked e n v subs :
  variables e n = Some v -> exists k, evaluate to_string e N_ (VarSym n subs) = Res (VA k) [].
Proof. intros V. cbn [evaluate]. unfold evaluate_varsym. rewrite V. eauto. Qed.

(** Subscripts that do not fit are reported once by T' and K'. *)
Theorem C74_misread e a n v subs c :
  a = T \/ a = K -> variables e n = Some v -> misread v subs c ->
  exists x, default_of a x /\ evaluate to_string e a (VarSym n subs) = Res x [(c, AtVariable)].
Proof.
  intros Ha V M. apply test_misread in M. exists (default_ca a). split; [now apply default_iff|].
  cbn [evaluate]. unfold evaluate_varsym. rewrite V. destruct Ha as [-> | ->]; now rewrite M.
Qed.
(** An unknown variable is reported, and the value is the default one, for every attribute. *)
Theorem C74_unknown e a n subs :
  variables e n = None ->
  exists x, default_of a x /\ evaluate to_string e a (VarSym n subs) = Res x [(E010, AtVariable)].
Proof.
  intros V. exists (default_ca a). split; [now apply default_iff|].
  cbn [evaluate]. unfold evaluate_varsym. now rewrite V.
Qed.

(** ** C75: D', L', O', S' and I' of variable symbols *)
Definition by_name (a : kind) : Prop := a = D \/ a = L \/ a = O_ \/ a = S_ \/ a = I_.
Lemma by_name_eval e a n v subs : by_name a -> variables e n = Some v ->
  evaluate to_string e a (VarSym n subs) = evaluate_substituted e a (Some v) subs.
Proof.
  intros B V. cbn [evaluate]. unfold evaluate_varsym. rewrite V. destruct B as [->|[->|[->|[->| ->]]]]; reflexivity.
Qed.
(** They are those of the symbol the text starts with. *)
Theorem C75_symbol e a n v subs t x :
  by_name a -> variables e n = Some v -> stands_for v subs (VC t) -> ints subs -> leads t x ->
  evaluate to_string e a (VarSym n subs) = evaluate to_string e a (Name (UPPER x)).
Proof.
  intros B V H F Ld. rewrite (by_name_eval _ _ _ _ _ B V), (substituted_symbol _ _ _ _ _ _ H F Ld). reflexivity.
Qed.
(** A text that starts with no symbol is reported, except by O'. *)
Theorem C75_no_symbol e a n v subs t :
  by_name a -> variables e n = Some v -> stands_for v subs (VC t) -> ints subs ->
  ~ only_parens t -> (forall x, ~ leads t x) ->
  exists x, default_of a x /\
    evaluate to_string e a (VarSym n subs) = Res x (match a with O_ => [] | _ => [E65] end).
Proof.
  intros B V H F Np Nl. exists (default_ca a). split; [now apply default_iff|].
  rewrite (by_name_eval _ _ _ _ _ B V), (substituted_other _ _ _ _ _ H F Np Nl).
  destruct B as [->|[->|[->|[->| ->]]]]; reflexivity.
Qed.
(** A number is reported too. *)
Theorem C75_number e a n v subs x :
  by_name a -> variables e n = Some v -> stands_for v subs x -> ints subs -> (forall t, x <> VC t) ->
  exists y, default_of a y /\
    evaluate to_string e a (VarSym n subs) = Res y (match a with O_ => [] | _ => [E66] end).
Proof.
  intros B V H F Np. exists (default_ca a). split; [now apply default_iff|].
  rewrite (by_name_eval _ _ _ _ _ B V), (substituted_number _ _ _ _ _ H F Np).
  destruct B as [->|[->|[->|[->| ->]]]]; reflexivity.
Qed.
(** Subscripts that do not fit are reported twice, once by O'. *)
Theorem C75_misread e a n v subs c :
  by_name a -> variables e n = Some v -> misread v subs c ->
  exists y, default_of a y /\
    evaluate to_string e a (VarSym n subs) =
      Res y ((c, AtVariable) :: match a with O_ => [] | _ => [E66] end).
Proof.
  intros B V M. exists (default_ca a). split; [now apply default_iff|].
  rewrite (by_name_eval _ _ _ _ _ B V), (substituted_misread _ _ _ _ _ M).
  destruct B as [->|[->|[->|[->| ->]]]]; reflexivity.
Qed.
(** The behaviour is undefined exactly for a text that is empty or consists of parentheses only. *)
Theorem C75_undefined e a n v subs :
  by_name a -> variables e n = Some v -> sys_list v -> ints subs ->
  evaluate to_string e a (VarSym n subs) = Bad <-> exists t, stands_for v subs (VC t) /\ only_parens t.
Proof.
  intros B V Hs F. rewrite (by_name_eval _ _ _ _ _ B V). split.
  - intros E. destruct (test_for_read v subs) as [c|] eqn:R.
    + apply test_misread in R. rewrite (substituted_misread _ _ _ _ _ R) in E. discriminate.
    + destruct (read_stands _ _ Hs F R) as (x & St). destruct (stands_read _ _ _ St F) as (_ & Vv).
      unfold evaluate_substituted in E. rewrite Vv in E. destruct x as [z|b|t]; try discriminate.
      exists t. split; [exact St|]. destruct (extract t) as [y|] eqn:X; [|now apply extract_none].
      destruct (valid_name y); [|discriminate]. destruct (evaluate_ordsym e a (UPPER y)). discriminate.
  - intros (t & St & P). eapply substituted_bad; eauto.
Qed.
(** L'&X is well defined for every X is false: an empty X. *)
Theorem C75_empty_refuted :
  exists e n d, variables e n = Some (VParam d) /\ Sub_Model.get_value d = [] /\
    evaluate to_string e L (VarSym n []) = Bad.
Proof.
  exists {| symbols := fun _ => None; references := fun _ => None; variables := fun _ => Some (VParam Dummy);
            macros := fun _ => false; instructions := fun _ => None; library := fun _ => false |}, (s2b "X"), Dummy.
  now repeat split.
Qed.
(** The part of a text that is looked at. *)
Theorem C75_front t x : extract t = Some x <-> front t x.
Proof. apply extract_front. Qed.
(** The symbol a text starts with is determined by the text. *)
Theorem C75_unique t x y : leads t x -> leads t y -> x = y.
Proof. rewrite !leads_extract. intros (A & _) (B & _). congruence. Qed.

(** ** C76: what a lookahead is asked for *)
(** Only symbols that are not known, and only by T', L', S' and I'. *)
Theorem C76_only_unknown e a r m :
  In m (needs e a r) -> not_known e m /\ (a = T \/ a = L \/ a = S_ \/ a = I_).
Proof.
  unfold needs, unknown. destruct (is_ordinary a) eqn:O0; [|easy]. cbn [negb].
  assert (Ha : a = T \/ a = L \/ a = S_ \/ a = I_) by (destruct a; try discriminate; tauto).
  intros H. split; [|exact Ha]. apply not_known_iff.
  destruct r as [n|n subs].
  - destruct (get_ordsym e n) eqn:G; [easy|]. destruct H as [<-|[]]. exact G.
  - destruct (var_value (variables e n) subs) as [c|[| |t]]; try easy. destruct (valid_name t); [|easy].
    destruct (get_ordsym e (UPPER t)) eqn:G; [easy|]. destruct H as [<-|[]]. exact G.
Qed.
(** When nothing is asked for, what further lookaheads find does not matter to the value of the
    attribute of an ordinary symbol. *)
Theorem C76_name_settled e e' a n :
  found_more e e' -> needs e a (Name n) = [] ->
  evaluate to_string e a (Name n) = evaluate to_string e' a (Name n).
Proof.
  intros (Hr & Hs & _ & Hm & Hi & Hl) Hn. cbn [evaluate].
  assert (G : is_ordinary a = true -> get_ordsym e n = get_ordsym e' n).
  { intros O0. unfold needs in Hn. rewrite O0 in Hn. cbn in Hn. unfold unknown in Hn.
    unfold get_ordsym in *. rewrite Hs. destruct (symbols e n); [reflexivity|].
    destruct (references e n) eqn:R; [|discriminate]. now rewrite (Hr _ _ R). }
  unfold evaluate_ordsym, get_opcode_attr. rewrite Hs, Hm, Hi, Hl.
  destruct (is_ordinary a) eqn:O0; [|reflexivity]. now rewrite G.
Qed.
(** Nor to that of a variable symbol, provided that its text is a symbol or starts with none. *)
Theorem C76_variable_settled e e' a n subs :
  found_more e e' -> needs e a (VarSym n subs) = [] ->
  (forall v t x, variables e n = Some v -> var_value (Some v) subs = inr (VC t) -> leads t x -> t = x) ->
  evaluate to_string e a (VarSym n subs) = evaluate to_string e' a (VarSym n subs).
Proof.
  intros Fm Hn Hp. assert (Fm' := Fm). destruct Fm' as (Hr & Hs & Hv & Hm & Hi & Hl).
  cbn [evaluate]. unfold evaluate_varsym. rewrite Hv. destruct (variables e n) as [v|] eqn:V; [|reflexivity].
  specialize (Hp v).
  assert (Q : evaluate_substituted e a (Some v) subs = evaluate_substituted e' a (Some v) subs).
  { unfold evaluate_substituted. destruct (var_value (Some v) subs) as [c|[z|b|t]] eqn:Vv; try reflexivity.
    destruct (extract t) as [x|] eqn:X; [|reflexivity]. destruct (valid_name x) eqn:Vx; [|reflexivity].
    assert (t = x) by (apply (Hp t x eq_refl eq_refl); apply leads_extract; now split). subst x.
    assert (N : needs e a (Name (UPPER t)) = []).
    { unfold needs in *. destruct (negb (is_ordinary a)); [reflexivity|]. now rewrite V, Vv, Vx in Hn. }
    apply (C76_name_settled e e' a (UPPER t) Fm N). }
  assert (Tt : forall t, type_of_text e' t = type_of_text e t).
  { intros t. unfold type_of_text. destruct t; [reflexivity|]. destruct (extract _) as [x|]; [|reflexivity].
    now rewrite Hs. }
  assert (G : get_type_attr e' v subs = get_type_attr e v subs).
  { unfold get_type_attr. destruct v as [s|d|d]; [|apply Tt|apply Tt].
    destruct (s_type s); [reflexivity|reflexivity|].
    destruct (match subs with [] => Var_Model.get_value s | o :: _ => get_value_at s (size_t o) end); [reflexivity|reflexivity|apply Tt]. }
  destruct a; try exact Q; try reflexivity.
  rewrite G. destruct (test_for_read v subs); [reflexivity|]. destruct (get_type_attr e v subs) as [ty0|]; [|reflexivity].
  destruct (bytes_eqb ty0 U); [exact Q|reflexivity].
Qed.
(** Without the proviso this is false: a symbol in parentheses. *)
Theorem C76_variable_settled_refuted :
  exists e e' n subs, found_more e e' /\ needs e L (VarSym n subs) = [] /\
    evaluate to_string e L (VarSym n subs) = Res (VA 1) [W13] /\
    evaluate to_string e' L (VarSym n subs) = Res (VA 4) [].
Proof.
  set (e := {| symbols := fun _ => None; references := fun _ => None;
               variables := fun _ => Some (VParam (Single (s2b "FIELD+2")));
               macros := fun _ => false; instructions := fun _ => None; library := fun _ => false |}).
  exists e, {| symbols := symbols e;
               references := fun n => if bytes_eqb n (s2b "FIELD") then
                 Some {| o_dat := true; o_type := 70%N; o_length := Some 4; o_scale := Some 0; o_integer := 31 |} else None;
               variables := variables e; macros := macros e; instructions := instructions e; library := library e |},
    (s2b "X"), [].
  split; [|now repeat split]. split; [discriminate|now repeat split].
Qed.

End Attr.
Print Assumptions C73_attribute.
Print Assumptions C73_total.
Print Assumptions C73_reported.
Print Assumptions C73_definition_counts.
Print Assumptions C74_type_of_scalar.
Print Assumptions C74_type_of_parameter.
Print Assumptions C74_type_of_operand.
Print Assumptions C74_type_of_list.
Print Assumptions C74_type_of_list_unknown.
Print Assumptions C74_type_of_number.
Print Assumptions C74_type_of_element_refuted.
Print Assumptions C74_type_of_element.
Print Assumptions C74_type_of_element_unknown.
Print Assumptions C74_type_undefined.
Print Assumptions C74_length_of_set.
Print Assumptions C74_length_of_parameter.
Print Assumptions C74_length_of_operand.
Print Assumptions C74_length_of_system_refuted.
Print Assumptions C74_number_of_parameter.
Print Assumptions C74_number_of_operands.
Print Assumptions C74_number_of_operand.
Print Assumptions C74_number_unchecked.
Print Assumptions C74_misread.
Print Assumptions C74_unknown.
Print Assumptions C75_symbol.
Print Assumptions C75_no_symbol.
Print Assumptions C75_number.
Print Assumptions C75_misread.
Print Assumptions C75_undefined.
Print Assumptions C75_empty_refuted.
Print Assumptions C75_front.
Print Assumptions C75_unique.
Print Assumptions C76_only_unknown.
Print Assumptions C76_name_settled.
Print Assumptions C76_variable_settled.
Print Assumptions C76_variable_settled_refuted.

(** ** Cases the hypotheses are about *)
Definition shown : Z -> bytes := fun z => if z =? 0 then s2b "0" else s2b "-12".
Definition field := {| o_dat := true; o_type := 70%N; o_length := Some 4; o_scale := Some 0; o_integer := 31 |}.
Definition code_label := {| o_dat := false; o_type := 73%N; o_length := Some 6; o_scale := None; o_integer := 0 |}.
Definition demo : env := {|
  symbols := fun n => if bytes_eqb n (s2b "FIELD") then Some field
                      else if bytes_eqb n (s2b "LOOP") then Some code_label else None;
  references := fun n => if bytes_eqb n (s2b "LATER") then Some field else None;
  variables := fun n =>
    if bytes_eqb n (s2b "P") then Some (VParam (Composite [Single (s2b "FIELD"); Dummy; Single (s2b "X'1F'")]))
    else if bytes_eqb n (s2b "Q") then Some (VParam (Single (s2b "((Q1.FIELD+4))")))
    else if bytes_eqb n (s2b "LAT") then Some (VParam (Single (s2b "later")))
    else if bytes_eqb n (s2b "SYSLIST") then
      Some (VSys (Composite [Single (s2b "LBL"); Single (s2b "A"); Composite [Single (s2b "B"); Single (s2b "C")]]))
    else if bytes_eqb n (s2b "N") then Some (VSet {| s_type := TA; s_scalar := true; s_data := [(0, VA (-12))] |})
    else None;
  macros := fun n => bytes_eqb n (s2b "MAC");
  instructions := fun n => if bytes_eqb n (s2b "LR") then Some Machine else None;
  library := fun n => bytes_eqb n (s2b "MEMBER") |}.
Example ex_names :
  List.map (fun p => evaluate shown demo (fst p) (Name (s2b (snd p))))
    [(L, "FIELD"); (S_, "LOOP"); (T, "LATER"); (D, "LATER"); (L, "NONE"); (O_, "MAC"); (O_, "LR"); (O_, "MEMBER"); (K, "FIELD")]%string
  = [Res (VA 4) []; Res (VA 0) [E66]; Res (VC (s2b "F")) []; Res (VA 0) []; Res (VA 1) [W13];
     Res (VC (s2b "M")) []; Res (VC (s2b "O")) []; Res (VC (s2b "S")) []; Res (VA 0) [E66]].
Proof. reflexivity. Qed.
Example ex_variables :
  List.map (fun p => evaluate shown demo (fst (fst p)) (VarSym (s2b (snd (fst p))) (snd p)))
    [(T, "P"%string, []); (T, "P"%string, [2]); (T, "P"%string, [3]); (N_, "P"%string, []); (K, "P"%string, [1]);
     (L, "Q"%string, []); (T, "LAT"%string, []); (N_, "SYSLIST"%string, []); (N_, "SYSLIST"%string, [2]);
     (K, "SYSLIST"%string, [2; 1]); (K, "N"%string, []); (T, "N"%string, []); (L, "P"%string, [0])]
  = [Res (VC (s2b "F")) []; Res (VC (s2b "O")) []; Res (VC (s2b "N")) []; Res (VA 3) []; Res (VA 5) [];
     Res (VA 4) []; Res (VC (s2b "F")) []; Res (VA 2) []; Res (VA 2) []; Res (VA 1) []; Res (VA 3) [];
     Res (VC (s2b "N")) []; Res (VA 1) [(E012, AtVariable); E66]].
Proof. reflexivity. Qed.
Example ex_leads : leads (s2b "((Q1.FIELD+4))") (s2b "FIELD").
Proof. apply leads_extract. now split. Qed.
Example ex_needs : needs demo L (Name (s2b "NONE")) = [s2b "NONE"] /\ needs demo D (Name (s2b "NONE")) = [].
Proof. now split. Qed.
