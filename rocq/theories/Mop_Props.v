(** C83: the operands of a macro call.  C84: operands over several lines. *)
From Coq Require Import String List NArith ZArith Bool Lia.
From Verif Require Import Common Sub_Model Mac_Model Mop_Model Mop_Spec Mop_Proof Mop_Value Sub_Props.
Import ListNotations.
Open Scope N_scope.
Local Notation length := List.length.

(** ** C83 *)

(** A call is read exactly if its operands are words, strings and lists in
    parentheses that are closed, with commas between them; the operands are the
    texts between the commas that are in no string and no list. *)
Theorem C83_read : forall ts ops, Forall word ts ->
  (mac_ops (S (length ts)) ts = Some ops <->
   exists trees, trees <> [] /\ Forall proper trees /\ ts = call_text trees /\ ops = map operand_of trees).
Proof.
  intros ts ops Hw. split; [apply ops_sound; exact Hw|].
  intros (trees & Hn & Hp & -> & ->). apply ops_complete; auto.
Qed.
Print Assumptions C83_read.

Theorem C83_one_reading : forall l m, l <> [] -> m <> [] -> Forall proper l -> Forall proper m ->
  call_text l = call_text m -> l = m.
Proof. exact trees_unique. Qed.
Print Assumptions C83_one_reading.

(** The value of an operand without variable symbols that is not a keyword
    operand: none if it is omitted, the values of the items if it is one list,
    otherwise its text. *)
Theorem C83_value : forall d seen i, proper i -> Forall no_var (itext i) ->
  (forall s r n, i = ITok (TText s) (ITok TEqu r) -> symbol_name s <> Some n) ->
  get_arg d seen (operand_of i) = Arg (None, value_of i) seen [].
Proof.
  intros d seen i Hp Hv Hk. apply plain_value; auto. intros (s & r & n & -> & E). exact (Hk s r n eq_refl E).
Qed.
Print Assumptions C83_value.

(** The whole value is the text in the source, character by character. *)
Theorem C83_text : forall i, get_value (value_of i) = source (itext i).
Proof. exact (proj1 value_text). Qed.
Print Assumptions C83_text.

(** The subscript of a list selects the item between two commas, and the number
    of items is the number of commas plus one. *)
Theorem C83_items : forall p k, 
  number (value_of (ISub p INil)) = length (part_list p) /\
  get_ith (value_of (ISub p INil)) k =
    match nth_error (part_list p) k with Some i => value_of i | None => Dummy end.
Proof.
  intros p k. cbn [value_of number get_ith]. rewrite values_nth. split; [apply map_length|].
  revert k. induction (part_list p) as [|i l IH]; intros [|k]; cbn; auto.
Qed.
Print Assumptions C83_items.

(** A keyword operand whose value is one list. *)
Theorem C83_keyword_list : forall d seen s n p def, pproper p -> Forall no_var (ptext p) ->
  symbol_name s = Some n -> lookup n (named d) = Some (Keyword def) ->
  exists notes seen', get_arg d seen (operand_of (ITok (TText s) (ITok TEqu (ISub p INil)))) =
    Arg (Some n, value_of (ISub p INil)) seen' notes.
Proof.
  intros d seen s n p def Hp Hv Hs Hl.
  destruct (keyword_list d seen s n p def (conj Hp I) Hv Hs Hl) as (notes & seen' & E).
  exists notes, seen'. rewrite E. cbn [value_of]. now rewrite values_nth.
Qed.
Print Assumptions C83_keyword_list.

(** Another keyword operand: the text after the equals sign, unless that begins
    with an opening and ends with a closing parenthesis. *)
Theorem C83_keyword : forall d seen s n i def, proper i -> Forall no_var (itext i) ->
  hd 0 (source (itext i)) <> 40 \/ last (source (itext i)) 0 <> 41 ->
  symbol_name s = Some n -> lookup n (named d) = Some (Keyword def) ->
  exists notes seen', get_arg d seen (operand_of (ITok (TText s) (ITok TEqu i))) =
    Arg (Some n, value_of i) seen' notes.
Proof.
  intros d seen s n i def Hp Hv Hh Hs Hl.
  assert (Hi : forall p, i <> ISub p INil).
  { intros p ->. cbn [itext] in Hh. rewrite source_cons, source_app in Hh. cbn [shows app hd source flat_map] in Hh.
    destruct Hh as [Hh|Hh]; [now destruct Hh|]. apply Hh.
    exact (last_last (40 :: source (ptext p)) 41 0). }
  rewrite (keyword_text d seen s n i def Hp Hv Hi Hs Hl).
  assert (V : string_to_macrodata (source (itext i)) = Some (value_of i)).
  { destruct i as [|t r|a b z r|p r].
    - reflexivity.
    - assert (E : value_of (ITok t r) = Single (source (itext (ITok t r)))) by reflexivity. rewrite E.
      apply C30_single; [|exact Hh]. destruct Hp as [Ht _]. cbn [itext]. rewrite source_cons.
      destruct t; cbn in Ht; try contradiction; try discriminate. cbn [shows]. destruct s0; [contradiction|discriminate].
    - assert (E : value_of (IStr a b z r) = Single (source (itext (IStr a b z r)))) by reflexivity. rewrite E.
      apply C30_single; [|exact Hh]. destruct Hp as (-> & _). discriminate.
    - assert (E : value_of (ISub p r) = Single (source (itext (ISub p r)))).
      { destruct r; try reflexivity. now destruct (Hi p). }
      rewrite E. apply C30_single; [|exact Hh]. discriminate. }
  rewrite V. eauto.
Qed.
Print Assumptions C83_keyword.

(** In general the text of the value is the one after the equals sign, if that
    has no omitted item. *)
Theorem C83_keyword_text : forall d seen s n i def, proper i -> Forall no_var (itext i) ->
  Sub_Spec.without 44 41 (source (itext i)) -> Sub_Spec.without 44 44 (source (itext i)) ->
  symbol_name s = Some n -> lookup n (named d) = Some (Keyword def) ->
  exists v notes seen', get_arg d seen (operand_of (ITok (TText s) (ITok TEqu i))) =
    Arg (Some n, v) seen' notes /\ get_value v = source (itext i).
Proof.
  intros d seen s n i def Hp Hv H1 H2 Hs Hl.
  assert (D : (exists p, i = ISub p INil) \/ (forall p, i <> ISub p INil)).
  { destruct i as [|t r|a b z r|p r]; try (right; discriminate). destruct r; try (right; intros q; discriminate).
    left; eauto. }
  destruct D as [[p ->]|Hi].
  - assert (Vp : Forall no_var (ptext p)).
    { cbn [itext] in Hv. inversion Hv as [|? ? _ Hv']; subst. now apply no_var_app in Hv'. }
    destruct (C83_keyword_list d seen s n p def (proj1 Hp) Vp Hs Hl) as (notes & seen' & E).
    exists (value_of (ISub p INil)), notes, seen'. split; [exact E|apply C83_text].
  - rewrite (keyword_text d seen s n i def Hp Hv Hi Hs Hl).
    destruct (C30_text _ H1 H2) as (v & -> & E). eauto 6.
Qed.
Print Assumptions C83_keyword_text.

(** The same text is a value with other items as a keyword operand than as a
    positional one: (A(')'))(B('('))  *)
Definition lst (l : list its) (r : its) : its :=
  match rev l with
  | [] => r
  | i :: l => ISub (fold_left (fun p i => PCons i p) l (POne i)) r
  end.
Definition w (x : string) (r : its) : its := ITok (TText (s2b x)) r.
Definition quoted (b : list mtok) (r : its) : its := IStr TApo b TApo r.
Definition odd_value : its :=
  lst [w "A" (lst [quoted [TRpar] INil] INil)] (lst [w "B" (lst [quoted [TLpar] INil] INil)] INil).

Theorem C83_keyword_refuted : exists d i v, proper i /\ Forall no_var (itext i) /\
  get_arg d [] (operand_of i) = Arg (None, Single (source (itext i))) [] [] /\
  get_arg d [] (operand_of (w "K" (ITok TEqu i))) = Arg (Some (s2b "K"%string), v) [s2b "K"%string] [] /\
  get_value (get_ith v 0) <> get_value (get_ith (value_of i) 0).
Proof.
  exists {| positional := [None]; keywords := [(s2b "K"%string, Dummy)]; named := [(s2b "K"%string, Keyword Dummy)] |},
    odd_value. eexists.
  split; [cbn; repeat split; repeat constructor; discriminate|].
  split; [repeat constructor|]. split; [vm_compute; reflexivity|].
  split; [vm_compute; reflexivity|]. vm_compute. discriminate.
Qed.
Print Assumptions C83_keyword_refuted.

(** ** C84 *)

(** The first reading takes exactly the layouts of the specification. *)
Theorem C84_layout : forall ts l, fields (S (length ts)) ts = Some l <-> Layout ts l.
Proof.
  intros ts l. split; [apply fields_sound|]. intros H. apply fields_complete; [exact H|lia].
Qed.
Print Assumptions C84_layout.

(** However the operands are spread over lines, and whatever the remarks, the
    call gets the operands it gets if they are written on one line. *)
Theorem C84_lines : forall ts l, Layout ts l ->
  call_operands ts = call_operands (one_line l) /\
  call_operands ts = mac_ops (S (length (joined_tokens l))) (joined_tokens l).
Proof.
  intros ts l H. unfold call_operands.
  pose proof (joined_one_line l (layout_nonempty _ _ H) (layout_shape _ _ H)) as H1.
  rewrite (fields_complete _ _ H (S (length ts))) by lia.
  rewrite (fields_complete _ _ H1 (S (length (one_line l)))) by lia. auto.
Qed.
Print Assumptions C84_lines.

(** Operands that the first reading has not cut arrive one by one. *)
Lemma joined_call : forall trees, joined_tokens (map itext trees) = call_text trees.
Proof.
  induction trees as [|i l IH]; [reflexivity|]. destruct l as [|j l]; [reflexivity|].
  change (joined_tokens (map itext (i :: j :: l))) with (itext i ++ TComma :: joined_tokens (map itext (j :: l))).
  now rewrite IH.
Qed.

Theorem C84_operands : forall trees ts, trees <> [] -> Forall proper trees ->
  Layout ts (map itext trees) -> call_operands ts = Some (map operand_of trees).
Proof.
  intros trees ts Hn Hp HL. rewrite (proj2 (C84_lines ts _ HL)), joined_call.
  apply ops_complete; auto.
Qed.
Print Assumptions C84_operands.

(** The first reading cuts lists in parentheses at their commas, the second one
    puts them together: however that was cut, the operands are the ones of the
    text with its commas. *)
Theorem C84_cut : forall trees ts l, trees <> [] -> Forall proper trees ->
  Layout ts l -> joined_tokens l = call_text trees -> call_operands ts = Some (map operand_of trees).
Proof.
  intros trees ts l Hn Hp HL E. rewrite (proj2 (C84_lines ts _ HL)), E. apply ops_complete; auto.
Qed.
Print Assumptions C84_cut.

(** A comma at the end, before or after a continuation, is followed by an
    omitted operand. *)
Theorem C84_trailing : forall p r, remark r ->
  fields (S (length (map FTok p ++ FComma :: r))) (map FTok p ++ FComma :: r) = Some [p; []].
Proof. intros p r H. apply fields_complete; [now constructor|lia]. Qed.
Print Assumptions C84_trailing.

(** ** Cases *)

(** MAC A,(B,'C,D'),K=L'X, : four operands, the last one omitted *)
Definition case_trees : list its :=
  [w "A" INil; lst [w "B" INil; quoted [TText (s2b "C"); TComma; TText (s2b "D")] INil] INil;
   w "K" (ITok TEqu (w "L" (ITok TAttr (w "X" INil)))); INil].
Example case_proper : Forall proper case_trees.
Proof. repeat constructor; discriminate. Qed.
Example case_read : exists ops, mac_ops (S (length (call_text case_trees))) (call_text case_trees) = Some ops /\
  length ops = 4%nat.
Proof. eexists. split; [vm_compute; reflexivity|reflexivity]. Qed.
Example case_value : value_of (nth 1 case_trees INil) = Composite [Single (s2b "B"); Single (s2b "'C,D'")].
Proof. reflexivity. Qed.
Example case_keyword : exists d notes seen, get_arg d [] (operand_of (nth 2 case_trees INil)) =
  Arg (Some (s2b "K"%string), Single (s2b "L'X"%string)) seen notes.
Proof.
  exists {| positional := [None]; keywords := []; named := [(s2b "K"%string, Keyword Dummy)] |}.
  eexists. eexists. vm_compute. reflexivity.
Qed.
(** A,  remark X / (B,C)  remark *)
Definition case_lines : list ftok :=
  [FTok (TText [65]); FComma; FRemark; FCont; FTok TLpar; FTok (TText [66]); FComma;
   FTok (TText [67]); FTok TRpar; FRemark].
Example case_layout : Layout case_lines [[TText [65]]; [TLpar; TText [66]]; [TText [67]; TRpar]].
Proof. apply C84_layout. reflexivity. Qed.
Example case_call : call_operands case_lines = Some [Chain [Str [65]]; Chain [Sub [[Str [66]]; [Str [67]]]]].
Proof. reflexivity. Qed.
