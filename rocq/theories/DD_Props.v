(** * Properties of data definitions: C58, C59, C60, C61 *)
From Coq Require Import List ZArith NArith Bool Ascii String Lia.
From Verif Require Import DD_Model DD_Spec DD_Str DD_Len DD_Check DD_Stmt DDP_Model DDP_Spec DDP_Proof DDP_Back.
Import ListNotations.
Open Scope Z_scope.

Definition t (s : string) : text := list_ascii_of_string s.

(** ** C58: reading a definition *)

(** A definition written as the language wants it is read back field by field, without diagnostics. *)
Theorem C58_read : forall Ex (d : definition Ex) f es n, written d f es n -> readable d -> parse f es n = Val (as_read d, []).
Proof. intros Ex. exact parse_written. Qed.

(** A definition read without diagnostics was written so, but for modifiers without a value. *)
Theorem C58_only : forall Ex f (es : list Ex) n d, parse f es n = Val (d, []) -> In (d_type d) upper_letters -> space_last f n ->
  placeholders f = Datatypes.length es ->
  (exists d', loosely_written d' f es n /\ as_read d' = d) /\ (forall x, d_ext d = Some x -> In x extensions).
Proof. intros Ex. exact parse_only. Qed.

(** Whatever is written, reading ends without using an expression or nominal value that is not there. *)
Theorem C58_safe : forall Ex f (es : list Ex) n, (placeholders f <= Datatypes.length es)%nat -> (n = None -> ~ In " "%char f) ->
  exists r, parse f es n = Val r.
Proof. intros Ex. exact parse_goes. Qed.

(** [3FL4E-2'1'] and [XL(n)'0']; the hypotheses are met by both *)
Example C58_sample : let d : definition nat := Definition_ (Some (Const 3)) "F" None None (Some (Const 4)) false None (Some (Const (-2))) (Some (PStr (t "1"))) in
  written d (t "3fl4E-2 ") [] (Some (PStr (t "1"))) /\ readable d /\ parse (t "3fl4E-2 ") [] (Some (PStr (t "1"))) = Val (as_read d, []) /\
  parse (t "XL& ") [7%nat] (Some (PStr (t "0"))) =
    Val (Definition_ (Some (Const 1)) "X" None None (Some (Exp 7%nat)) false None None (Some (PStr (t "0"))), []).
Proof.
  cbv zeta.
  assert (forall c n, (n < 10)%nat -> nth_error decimal n = Some c -> unsigned [c] (Z.of_nat n)) as Hd
    by (intros c n Hn E; constructor; exists n; auto).
  split; [|split; [|split; reflexivity]].
  - exists (t "3FL4E-2"). right. left. exists (PStr (t "1")). split; [reflexivity|]. split; [reflexivity|]. split.
    + exists (t "3"), [], [], [], (t "L4"), [], [], [], (t "E-2"), []. cbn [d_dup d_prog d_len d_bit d_scale d_exp d_type d_ext dup_text amount_text modifier_text].
      assert (numeral (t "3") 3) by (split; [unfold int32; lia|left; exact (Hd "3"%char 3%nat ltac:(lia) eq_refl)]).
      assert (numeral (t "4") 4) by (split; [unfold int32; lia|left; exact (Hd "4"%char 4%nat ltac:(lia) eq_refl)]).
      assert (numeral (t "-2") (-2)) by (split; [unfold int32; lia|right; exists (t "2"); split; [reflexivity|exact (Hd "2"%char 2%nat ltac:(lia) eq_refl)]]).
      split; [split; [assumption|reflexivity]|]. split; [repeat split|]. split; [exists (t "4"); split; [reflexivity|split; [assumption|reflexivity]]|].
      split; [repeat split|]. split; [exists (t "-2"); split; [reflexivity|split; [assumption|reflexivity]]|]. split; reflexivity.
    + apply spelled_upper. reflexivity.
  - split; [cbn; tauto|]. split; [discriminate|]. cbn. discriminate.
Qed.

(** [FE3'1']: the exponent modifier right after the type is taken for an extension of the type. *)
Theorem C58_exponent_refuted : exists (d : definition nat) f n, written d f [] n /\ d_ext d = None /\ d_exp d = Some (Const 3) /\
  exists r, parse f [] n = Val r /\ d_ext (fst r) = Some "E"%char /\ d_exp (fst r) = None /\ snd r <> [].
Proof.
  exists (Definition_ None "F" None None None false None (Some (Const 3)) (Some (PStr (t "1")))), (t "FE3 "), (Some (PStr (t "1"))).
  split; [|split; [reflexivity|]; split; [reflexivity|]; eexists; split; [reflexivity|]; split; [reflexivity|]; split; [reflexivity|discriminate]].
  exists (t "FE3"). right. left. exists (PStr (t "1")). split; [reflexivity|]. split; [reflexivity|]. split; [|apply spelled_upper; reflexivity].
  exists [], [], [], [], [], [], [], [], (t "E3"), []. cbn [d_dup d_prog d_len d_bit d_scale d_exp d_type d_ext dup_text amount_text modifier_text].
  assert (numeral (t "3") 3).
  { split; [unfold int32; lia|left]. apply (u_one "3"%char 3). exists 3%nat. split; [lia|]. split; reflexivity. }
  split; [split; reflexivity|]. split; [repeat split|]. split; [repeat split|]. split; [repeat split|].
  split; [exists (t "3"); split; [reflexivity|split; [assumption|reflexivity]]|]. split; reflexivity.
Qed.

(** [FLS3'1']: a length modifier without a value is dropped without a diagnostic. *)
Theorem C58_value_refuted : exists (d : definition nat), parse (t "FLS3 ") [] (Some (PStr (t "1"))) = Val (d, []) /\ d_len d = None /\ d_scale d = Some (Const 3).
Proof. eexists. split; [reflexivity|]. split; reflexivity. Qed.

Print Assumptions C58_read.
Print Assumptions C58_only.
Print Assumptions C58_safe.
Print Assumptions C58_exponent_refuted.
Print Assumptions C58_value_refuted.

(** ** C60: which operands are accepted *)

(** An operand of a type that there is is checked without throwing, and accepted exactly if it is as wanted. *)
Theorem C60_accepts : forall i ty o, has_type o ty -> reasonable o -> seen_length ty o ->
  exists c, check i o = Val c /\ (fst c = true <-> acceptable i ty o).
Proof. exact check_accepts. Qed.

(** An operand of no type is rejected with one diagnostic. *)
Theorem C60_no_type : forall i o, (forall ty, ~ has_type o ty) -> exists d, check i o = Val (false, [d]).
Proof. exact check_no_type. Qed.

(** An operand is rejected exactly if an error is reported. *)
Theorem C60_honest : forall i o c, check i o = Val c -> honest c.
Proof. exact check_honest. Qed.

(** A statement is accepted exactly if its operands are and it fits the largest area. *)
Theorem C60_statement : forall i l, Forall good l -> few (Datatypes.length l) -> l <> [] ->
  exists c, check_data i (map (fun x => Some (snd x)) l) = Val c /\ honest c /\
    (fst c = true <-> Forall (fine i) l /\ exists upto, laid_out 0 l upto /\ up upto 8 < 2 ^ 31).
Proof. exact check_data_spec. Qed.

(** [DC 3FL4'1,-2.5E3'] is accepted, [DC FL9'1'] and [DC F'1,'] are not. *)
Definition op (ty : ascii) (ln : option Z) (s : string) : operand :=
  {| dup := None; typ := ty; ext := None; len := ln; bitlen := false; scale := None; expo := None; nom := Some (NStr (t s)) |}.
Example C60_sample : has_type (op "F" (Some 4) "1,-2.5E3") F /\ reasonable (op "F" (Some 4) "1,-2.5E3") /\
  acceptable DC_ F (op "F" (Some 4) "1,-2.5E3") /\ ~ acceptable DC_ F (op "F" (Some 9) "1") /\ ~ acceptable DC_ F (op "F" None "1,").
Proof.
  assert (forall o, len o = Some 4 \/ len o = Some 9 \/ len o = None -> dup o = None -> scale o = None -> expo o = None -> bitlen o = false -> nominal_size o < 2 ^ 13 -> reasonable o) as Hr.
  { intros o Hl H1 H2 H3 H4 H5. unfold reasonable, field_ok, int32. rewrite H1, H2, H3, H4.
    split; [discriminate|]. split; [intros n E; destruct Hl as [Hl|[Hl|Hl]]; rewrite Hl in E; try discriminate; injection E as <-; lia|].
    split; [discriminate|]. split; [discriminate|]. split; [discriminate|exact H5]. }
  assert (forall o v, len o = Some 4 \/ len o = Some 9 \/ len o = None -> dup o = None -> scale o = None -> expo o = None -> bitlen o = false -> nominal_size o < 2 ^ 13 ->
            has_type o F -> check DC_ o = Val v -> (fst v = true <-> acceptable DC_ F o)) as Hc.
  { intros o v Hl H1 H2 H3 H4 H5 H6 H7. destruct (check_accepts DC_ F o H6) as (c & Hc & Hi); [auto|discriminate|]. congruence. }
  assert (forall ln s, has_type (op "F" ln s) F) as Ht by (intros; unfold has_type, type_names; cbn; tauto).
  split; [apply Ht|]. split; [apply Hr; cbn; auto; lia|].
  split; [|split].
  - assert (check DC_ (op "F" (Some 4) "1,-2.5E3") = Val (true, [])) as E by (vm_compute; reflexivity).
    apply (Hc (op "F" (Some 4) "1,-2.5E3") (true, []) ltac:(cbn; auto) eq_refl eq_refl eq_refl eq_refl ltac:(cbn; lia) (Ht _ _) E). reflexivity.
  - intro H. assert (check DC_ (op "F" (Some 9) "1") = Val (false, [D008])) as E by (vm_compute; reflexivity).
    apply (Hc (op "F" (Some 9) "1") (false, [D008]) ltac:(cbn; auto) eq_refl eq_refl eq_refl eq_refl ltac:(cbn; lia) (Ht _ _) E) in H. discriminate.
  - intro H. assert (check DC_ (op "F" None "1,") = Val (false, [D010])) as E by (vm_compute; reflexivity).
    apply (Hc (op "F" None "1,") (false, [D010]) ltac:(cbn; auto) eq_refl eq_refl eq_refl eq_refl ltac:(cbn; lia) (Ht _ _) E) in H. discriminate.
Qed.

(** [DS AL1000]: the length of a type A without a nominal value is not looked at. *)
Theorem C60_unseen_refuted : exists o, has_type o A /\ reasonable o /\ check DS_ o = Val (true, []) /\ ~ acceptable DS_ A o.
Proof.
  exists {| dup := None; typ := "A"; ext := None; len := Some 1000; bitlen := false; scale := None; expo := None; nom := None |}.
  split; [unfold has_type, type_names; cbn; tauto|]. split; [|split; [vm_compute; reflexivity|]].
  - unfold reasonable, field_ok, int32. cbn. split; [discriminate|]. split; [intros n E; injection E as <-; lia|].
    split; [discriminate|]. split; [discriminate|]. split; [discriminate|lia].
  - intros (_ & H & _). specialize (H 1000 eq_refl). destruct H as (_ & H). unfold between in H. cbn in H.
    assert (~ relocatable []) as K by (intros (v & k & [] & _)). specialize (H K). lia.
Qed.

Print Assumptions C60_accepts.
Print Assumptions C60_no_type.
Print Assumptions C60_honest.
Print Assumptions C60_statement.
Print Assumptions C60_unseen_refuted.

(** ** C59: the storage a statement takes *)
Section Storage.
Variable Ex : Type.
Variable eval : Ex -> outcome.
Variable has_error : Ex -> bool.
Notation process := (process eval has_error).
Notation meaning := (meaning eval has_error).

(** the operands have one layout from any bit *)
Theorem C59_one_layout : forall l from u u', laid_out from l u -> laid_out from l u' -> u = u'.
Proof. intros l from u u'. apply laid_out_unique. Qed.

(** A statement with acceptable operands begins at the next address of the boundary of its first operand.  If the boundaries
    of the others divide that address, it reserves the bytes up to the end of the layout of all its operands from there. *)
Theorem C59_storage : forall i labelled d ds ty o l loc,
  meaning (d :: ds) ((ty, o) :: l) -> Forall good ((ty, o) :: l) -> few (Datatypes.length ((ty, o) :: l)) -> Forall (fine i) ((ty, o) :: l) ->
  (labelled = true -> tight ty o /\ tight_fraction ty o /\ scale o <> Some (2 ^ 15 - 1)) ->
  exists e, process i labelled (map Some (d :: ds)) loc = Val e /\
    ((boundary_of ty o | at_ e) /\ loc <= at_ e /\ forall q, (boundary_of ty o | q) -> loc <= q -> at_ e <= q) /\
    (Forall (fun x => (boundary_of (fst x) (snd x) | at_ e)) l ->
     exists upto, laid_out (8 * at_ e) ((ty, o) :: l) upto /\
       reserved e = Known (if up upto 8 - at_ e <? 2 ^ 31 then up upto 8 - at_ e else 0)).
Proof.
  intros i labelled d ds ty o l loc Hm Hg Hfew Hf Hlab.
  destruct (process_fine eval has_error i labelled d ds ty o l loc Hm Hg Hfew Hf Hlab) as (e & He & Hat & Hres & _ & _).
  exists e. split; [exact He|]. split; [exact Hat|]. intro Hdiv.
  destruct (operands_length_fine i _ Hg Hfew Hf) as (upto & Hlay & _ & _). specialize (Hres upto Hlay).
  assert (forall k n, up (8 * k + n) 8 = k + up n 8) as Hup.
  { intros k n. unfold up. replace (- (8 * k + n)) with (- n + (- k) * 8) by lia. rewrite Z.div_add by lia. lia. }
  exists (8 * at_ e + upto). split.
  - pose proof (laid_out_shift ((ty, o) :: l) 0 upto (8 * at_ e)) as Hs. rewrite Z.add_0_r in Hs. apply Hs; [|exact Hlay].
    constructor; cbn [fst snd]; [apply Z.mul_divide_mono_l; exact (proj1 Hat)|].
    revert Hdiv. apply Forall_impl. intros x Hx. apply Z.mul_divide_mono_l. exact Hx.
  - rewrite Hres, Hup. f_equal. replace (at_ e + up upto 8 - at_ e) with (up upto 8) by lia. reflexivity.
Qed.

(** In any case it reserves as many bytes as the layout of its operands from an address all boundaries divide takes. *)
Theorem C59_length : forall i labelled d ds ty o l loc,
  meaning (d :: ds) ((ty, o) :: l) -> Forall good ((ty, o) :: l) -> few (Datatypes.length ((ty, o) :: l)) -> Forall (fine i) ((ty, o) :: l) ->
  (labelled = true -> tight ty o /\ tight_fraction ty o /\ scale o <> Some (2 ^ 15 - 1)) ->
  exists e, process i labelled (map Some (d :: ds)) loc = Val e /\
    exists upto, laid_out 0 ((ty, o) :: l) upto /\ reserved e = Known (if up upto 8 <? 2 ^ 31 then up upto 8 else 0).
Proof.
  intros i labelled d ds ty o l loc Hm Hg Hfew Hf Hlab.
  destruct (process_fine eval has_error i labelled d ds ty o l loc Hm Hg Hfew Hf Hlab) as (e & He & _ & Hres & _ & _).
  exists e. split; [exact He|]. destruct (operands_length_fine i _ Hg Hfew Hf) as (upto & Hlay & _ & _). exists upto. split; [exact Hlay|exact (Hres upto Hlay)].
Qed.

(** A statement without a label one of whose operands is not acceptable is reported and reserves nothing. *)
Theorem C59_rejected : forall i ds l loc, meaning ds l -> Forall good l -> few (Datatypes.length l) -> l <> [] -> ~ Forall (fine i) l ->
  exists e c, process i false (map Some ds) loc = Val e /\ reserved e = Known 0 /\ report e = Some c /\ fst c = false /\ honest c.
Proof. exact (process_bad eval has_error). Qed.

(** ** C61: the attributes of the label *)

(** The label of a statement with an acceptable first operand gets the type, length and integer attributes of the operand;
    the scale attribute is the one written, if one is. *)
Theorem C61_attributes : forall i d ds ty o l loc,
  meaning (d :: ds) ((ty, o) :: l) -> Forall good ((ty, o) :: l) -> few (Datatypes.length ((ty, o) :: l)) -> Forall (fine i) ((ty, o) :: l) ->
  tight ty o -> tight_fraction ty o -> scale o <> Some (2 ^ 15 - 1) ->
  exists e a, process i true (map Some (d :: ds)) loc = Val e /\ symbol e = Some a /\
    a_type a = T_wanted ty (match len o with Some _ => true | None => false end) /\ L_of a = L_wanted ty o /\ I_of a = I_wanted ty o /\
    (forall n, scale o = Some n -> S_of a = n) /\ (scale o = None -> S_of a = 0).
Proof.
  intros i d ds ty o l loc Hm Hg Hfew Hf H1 H2 H3.
  destruct (process_fine eval has_error i true d ds ty o l loc Hm Hg Hfew Hf (fun _ => conj H1 (conj H2 H3))) as (e & He & _ & _ & _ & a & A1 & A2 & A3 & A4 & A5).
  exists e, a. split; [exact He|]. split; [exact A1|]. split; [exact A2|]. unfold L_of, I_of, S_of. rewrite A3, A4, A5.
  split; [reflexivity|]. split; [reflexivity|]. split; [intros n ->; reflexivity|intros ->; reflexivity].
Qed.
(** Of other types than P and Z the scale attribute is the wanted one. *)
Theorem C61_scale : forall ty o, ty <> P -> ty <> Z_ -> S_wanted ty o = match scale o with Some n => n | None => 0 end.
Proof. intros ty o H1 H2. unfold S_wanted. destruct (scale o); [reflexivity|]. destruct ty; try reflexivity; contradiction. Qed.
End Storage.

(** Expressions that are their own outcomes, for the examples. *)
Definition ev (x : outcome) : outcome := x.
Definition no_error (_ : outcome) : bool := false.
Definition def (dp : option (amount outcome)) (ty : ascii) (ln : option (amount outcome)) (n : option (pnominal outcome)) : definition outcome :=
  Definition_ dp ty None None ln false None None n.

(** [A DC F'1',H'2',XL3'0'] at 5: from 8, nine bytes, L'A = 4, T'A = F, I'A = 31 *)
Example C59_sample : process ev no_error DC_ true [Some (def None "F" None (Some (PStr (t "1")))); Some (def None "H" None (Some (PStr (t "2"))));
                                                Some (def None "X" (Some (Const 3)) (Some (PStr (t "0"))))] 5 =
  Val (Effect 8 (Some (Attr "F" (Some 4) None 31)) (Known 9) (Some (true, []))) /\
  laid_out 64 [(F, op "F" None "1"); (H, op "H" None "2"); (X, op "X" (Some 3) "0")] 136.
Proof.
  split; [vm_compute; reflexivity|].
  apply (laid_more _ _ _ _ 64); [split; [exists 2; reflexivity|]; split; [lia|]; intros q _ H; exact H|].
  apply (laid_more _ _ _ _ 96); [split; [exists 6; reflexivity|]; split; [cbn; lia|]; intros q _ H; exact H|].
  apply (laid_more _ _ _ _ 112); [split; [exists 14; reflexivity|]; split; [cbn; lia|]; intros q _ H; exact H|].
  constructor.
Qed.

(** [DC F'1',D'2'] at 4: the doubleword should begin at 8 and the statement take 12 bytes, but it takes 16: the second operand
    is laid out relative to the first. *)
Theorem C59_boundary_refuted : exists ds l loc e upto, meaning ev no_error ds l /\ Forall good l /\ Forall (fine DC_) l /\
  process ev no_error DC_ false (map Some ds) loc = Val e /\ at_ e = 4 /\ reserved e = Known 16 /\ laid_out (8 * at_ e) l upto /\ up upto 8 - at_ e = 12.
Proof.
  exists [def None "F" None (Some (PStr (t "1"))); def None "D" None (Some (PStr (t "2")))], [(F, op "F" None "1"); (D, op "D" None "2")], 4.
  eexists. exists 128.
  assert (forall ty s, ascii_dec ty "V" = ascii_dec ty "V" -> means ev no_error (def None ty None (Some (PStr (t s)))) (op ty None s)) as Hm.
  { intros ty s _. unfold means. cbn. split; [exact Logic.I|]. repeat (split; [first [reflexivity|exact Logic.I|discriminate]|]). reflexivity. }
  assert (forall ty s, nominal_size (op ty None s) < 2 ^ 13 -> reasonable (op ty None s)) as Hr.
  { intros ty s Hs. unfold reasonable, field_ok. cbn [op dup len scale expo bitlen]. repeat (split; [discriminate|]). exact Hs. }
  assert (good (F, op "F" None "1")) as G1 by (split; [unfold has_type, type_names; cbn; tauto|split; [apply Hr; cbn; lia|discriminate]]).
  assert (good (D, op "D" None "2")) as G2 by (split; [unfold has_type, type_names; cbn; tauto|split; [apply Hr; cbn; lia|discriminate]]).
  split; [constructor; [apply Hm; reflexivity|constructor; [apply Hm; reflexivity|constructor]]|].
  split; [constructor; [exact G1|constructor; [exact G2|constructor]]|].
  split.
  { assert (forall ty o, good (ty, o) -> check DC_ o = Val (true, []) -> fine DC_ (ty, o)) as Hf.
    { intros ty o (K1 & K2 & K3) E. destruct (check_accepts DC_ ty o K1 K2 K3) as (c & Ec & Hi). rewrite E in Ec. injection Ec as <-. apply Hi. reflexivity. }
    constructor; [apply Hf; [exact G1|vm_compute; reflexivity]|]. constructor; [apply Hf; [exact G2|vm_compute; reflexivity]|constructor]. }
  split; [vm_compute; reflexivity|]. cbn [at_ reserved]. split; [reflexivity|]. split; [reflexivity|]. split; [|reflexivity].
  apply (laid_more _ _ _ _ 32); [split; [exists 1; reflexivity|]; split; [lia|]; intros q _ H; exact H|].
  apply (laid_more _ _ _ _ 64); [split; [exists 1; reflexivity|]; split; [cbn; lia|]; intros q _ H; exact H|]. constructor.
Qed.

(** [A DC X'12 34']: the space counts in the length attribute. *)
Theorem C61_space_refuted : exists e a, process ev no_error DC_ true [Some (def None "X" None (Some (PStr (t "12 34"))))] 0 = Val e /\ symbol e = Some a /\
  reserved e = Known 2 /\ L_of a = 3 /\ L_wanted X (op "X" None "12 34") = 2.
Proof. eexists _, _. split; [vm_compute; reflexivity|]. split; [reflexivity|]. repeat split. Qed.

(** [A DC P'1.25']: the scale attribute is 0, while the integer attribute reckons with the two decimals. *)
Theorem C61_decimals_refuted : exists e a, process ev no_error DC_ true [Some (def None "P" None (Some (PStr (t "1.25"))))] 0 = Val e /\ symbol e = Some a /\
  S_of a = 0 /\ S_wanted P (op "P" None "1.25") = 2 /\ I_of a = 1 /\ I_wanted P (op "P" None "1.25") = 1.
Proof. eexists _, _. split; [vm_compute; reflexivity|]. split; [reflexivity|]. repeat split. Qed.

(** [A DC P(1)]: an exception that is not caught here, instead of a diagnostic. *)
Theorem C61_throw_refuted : process ev no_error DC_ true [Some (def None "P" None (Some (PExprs [PExpr (IsAbs 1)])))] 0 = Throw /\
  exists e, process ev no_error DC_ false [Some (def None "P" None (Some (PExprs [PExpr (IsAbs 1)])))] 0 = Val e.
Proof. split; [vm_compute; reflexivity|]. eexists. vm_compute. reflexivity. Qed.

(** [DS (A)F] with A relocatable or absurd: taken for [DS 0F] without an error. *)
Theorem C59_factor_refuted : forall r, r = IsReloc \/ r = IsComplex \/ r = IsUndef ->
  process ev no_error DS_ false [Some (def (Some (Exp r)) "F" None None)] 4 = Val (Effect 4 None (Known 0) (Some (true, []))).
Proof. intros r [ -> |[ -> | -> ]]; vm_compute; reflexivity. Qed.

(** [DS 1073741824AL(-2147483648)], in which the length overflows 64 bits: accepted, and nothing is reserved. *)
Theorem C60_overflow_refuted : process ev no_error DS_ false [Some (def (Some (Const 1073741824)) "A" (Some (Const (-2147483648))) None)] 0 =
  Val (Effect 0 None (Known 0) (Some (true, []))).
Proof. vm_compute. reflexivity. Qed.

(** [X DC ,F(1)'...] with an unresolved length: the first operand is looked at although it is empty. *)
Theorem C61_null_refuted : process ev no_error DC_ true [None; Some (def None "A" (Some (Exp Unresolved)) (Some (PExprs [PExpr (IsAbs 1)])))] 0 = Undef.
Proof. vm_compute. reflexivity. Qed.

Print Assumptions C59_one_layout.
Print Assumptions C59_storage.
Print Assumptions C59_length.
Print Assumptions C59_rejected.
Print Assumptions C59_boundary_refuted.
Print Assumptions C59_factor_refuted.
Print Assumptions C60_overflow_refuted.
Print Assumptions C61_attributes.
Print Assumptions C61_scale.
Print Assumptions C61_space_refuted.
Print Assumptions C61_decimals_refuted.
Print Assumptions C61_throw_refuted.
Print Assumptions C61_null_refuted.
