(** C92-C94: what the debugger shows. *)
From Coq Require Import String.
From Coq Require Import List NArith ZArith Bool Arith Lia.
From Coq Require Import ZifyBool ZifyNat ZifyN.
From Verif Require Import Common Text_Spec Var_Model Sub_Model Attr_Model Attr_Spec Attr_Proof Ca_Model.
From Verif Require Import Dvar_Model Dvar_Spec Dvar_Proof Dvar_Shown.
Import ListNotations.
Open Scope Z_scope.

Definition scope_of (d : dbg) (id : nat) (s : cscope) : Prop :=
  ended d = false /\ exists f, nth_error (proc_stack d) id = Some f /\ f_scope f = s.
Definition scope_answer (g l o : N) : list (string * N) :=
  [("Globals"%string, g); ("Locals"%string, l); ("Ordinary symbols"%string, o)].
(** The three references of a frame, while the program stands still. *)
Definition opened (d : dbg) (id : nat) (g l o : N) (d2 : dbg) : Prop :=
  exists d1, scopes id d = (scope_answer g l o, d1) /\ later d1 d2.

Lemma opened_ok d id s g l o d2 : reach d -> scope_of d id s -> opened d id g l o d2 ->
  Inv d2 /\ ended d2 = false /\ content d2 g = Some (set_vars true s ++ system_vars true s) /\
  content d2 l = Some (param_vars s ++ set_vars false s ++ system_vars false s) /\
  content d2 o = Some (List.map OrdVar (symbols_ d)).
Proof.
  intros R (En & f & Nf & <-) (d1 & S1 & L). pose proof (reach_inv d R) as HI. pose proof (scopes_ok id d HI) as K. rewrite S1 in K.
  destruct K as (I1 & X1 & K & _). destruct (K f En Nf) as (g' & l' & o' & E & _ & _ & C1 & C2 & C3).
  unfold scope_answer in E. injection E as <- <- <-. destruct (later_ok _ _ L I1) as (I2 & X2).
  destruct X1 as (_ & _ & _ & E1 & _), X2 as (_ & _ & _ & E2 & X2 & _). split; [exact I2|]. split; [congruence|]. auto.
Qed.

(** * C92: variables *)

(** Whatever is unfolded under Globals or Locals is an element of a variable of that scope; its value is what
    a statement reads, its type that of the variable, it can be unfolded just if it has elements, and it
    stands under Globals just if it is global. *)
Theorem C92_shown : forall d id s g l o d2 (global : bool) ns e,
  reach d -> scope_of d id s -> NoDup (names s) -> keys_ok s -> lists_ok s -> opened d id g l o d2 ->
  browse d2 (if global then g else l) ns e ->
  exists n v subs numbers, ns = (38%N :: n) :: numbers /\ get_var_sym s n = Some v /\ Forall2 is_decimal subs numbers /\
    holds v subs /\ shown_as (var_value (Some v) subs) (e_value e) /\ e_type e = Some (var_type v) /\
    (e_ref e <> 0%N <-> expandable v subs) /\ (is_global s n <-> global = true).
Proof.
  intros d id s g l o d2 global ns e R Sc Nd Ko Lo Op B. destruct (opened_ok _ _ _ _ _ _ _ R Sc Op) as (I2 & En & C1 & C2 & _).
  assert (H : exists vs, content d2 (if global then g else l) = Some vs /\ forall v, In v vs ->
    exists n x, get_var_sym s n = Some x /\ v = top n x /\ (is_global s n <-> global = true)).
  { destruct global; eexists; (split; [eassumption|]); intros v Hv.
    - destruct (global_top s v Nd Hv) as (n & x & A1 & A2 & A3). exists n, x. tauto.
    - destruct (local_top s v Nd Hv) as (n & x & A1 & A2 & A3). exists n, x. split; [exact A1|]. split; [exact A2|]. split; [tauto|discriminate]. }
  destruct H as (vs & C & H). destruct (browse_descends _ _ _ _ B I2 vs C En) as (v & x & ns' & Hv & -> & D & -> & Sx).
  destruct (H v Hv) as (n & y & Gy & -> & Gl).
  destruct (top_descends n y ns' (fst x) (Lo _ _ Gy)) as (subs & F & Hh & Sv & Ty & Ex); [intros z ->; exact (keyed_of _ _ _ Ko Gy)|exact D|].
  exists n, y, subs, ns'. rewrite top_name. split; [reflexivity|]. split; [exact Gy|]. split; [exact F|]. split; [exact Hh|].
  split; [exact Sv|]. split; [exact Ty|]. split; [|exact Gl]. cbn [view e_ref]. rewrite Sx, <- Ex. now destruct (dscalar (fst x)).
Qed.
Print Assumptions C92_shown.

(** Every element of every variable of the scope can be found, under the ampersand and the name and then the
    subscripts, and it is shown with the value a statement reads. *)
Theorem C92_complete : forall d id s g l o d2 n v subs,
  reach d -> scope_of d id s -> NoDup (names s) -> keys_ok s -> lists_ok s -> opened d id g l o d2 ->
  get_var_sym s n = Some v -> n <> [] -> holds v subs ->
  exists (global : bool) numbers e, (is_global s n <-> global = true) /\ Forall2 is_decimal subs numbers /\
    browse d2 (if global then g else l) ((38%N :: n) :: numbers) e /\ shown_as (var_value (Some v) subs) (e_value e).
Proof.
  intros d id s g l o d2 n v subs R Sc Nd Ko Lo Op Gv Ne Hh. destruct (opened_ok _ _ _ _ _ _ _ R Sc Op) as (I2 & En & C1 & C2 & _).
  assert (Ky : forall y, v = VSet y -> keyed y) by (intros y ->; exact (keyed_of _ _ _ Ko Gv)).
  destruct (top_reached n v subs (Lo _ _ Gv) Ky Hh) as (w & D & A).
  assert (U : forall n x, get_var_sym s n = Some x -> unfolds (top n x)).
  { intros n' x Gx _. destruct x as [y|dd|dd]; cbn [top]; try discriminate. apply set_values_some. exact (keyed_of _ _ _ Ko Gx). }
  assert (H : exists (global : bool) vs, content d2 (if global then g else l) = Some vs /\ In (top n v) vs /\
     (forall x, In x vs -> unfolds x) /\ (is_global s n <-> global = true)).
  { destruct (top_listed s n v Gv Ne) as [(Hin & Gl)|Hin].
    - exists true, (set_vars true s ++ system_vars true s). split; [exact C1|]. split; [exact Hin|]. split; [|tauto].
      intros x Hx. destruct (global_top s x Nd Hx) as (n' & x' & A1 & -> & _). now apply U.
    - exists false, (param_vars s ++ set_vars false s ++ system_vars false s). split; [exact C2|]. split; [exact Hin|]. split.
      + intros x Hx. destruct (local_top s x Nd Hx) as (n' & x' & A1 & -> & _). now apply U.
      + destruct (local_top s _ Nd Hin) as (n' & x' & A1 & A2 & A3). assert (En' : n' = n).
        { apply (f_equal dname) in A2. rewrite !top_name in A2. now injection A2 as ->. }
        subst n'. split; [tauto|discriminate]. }
  destruct H as (global & vs & C & Hin & Uv & Gl).
  destruct (descends_browse _ _ _ D d2 _ vs I2 En C Hin Uv A) as (k & B). rewrite top_name in B.
  exists global, (List.map to_string subs), (view (w, k)). split; [exact Gl|]. split; [apply decimals|]. split; [exact B|].
  destruct (top_descends n v _ w (Lo _ _ Gv) Ky D) as (subs' & F & _ & Sv & _).
  rewrite (decimals_inj _ _ F _ (decimals subs)) in Sv. exact Sv.
Qed.
Print Assumptions C92_complete.

Lemma shown_one x t t' : shown_as x t -> shown_as x t' -> t = t'.
Proof.
  intros H. destruct H as [z t D| | |t|]; intros K; inversion K as [? ? D'| | | |]; subst; try reflexivity.
  apply decimal_text in D, D'. congruence.
Qed.
(** One path leads to one value. *)
Theorem C92_unique : forall d id s g l o d2 (global global' : bool) ns e e',
  reach d -> scope_of d id s -> NoDup (names s) -> keys_ok s -> lists_ok s -> opened d id g l o d2 ->
  browse d2 (if global then g else l) ns e -> browse d2 (if global' then g else l) ns e' ->
  global = global' /\ e_value e = e_value e' /\ e_type e = e_type e'.
Proof.
  intros d id s g l o d2 global global' ns e e' R Sc Nd Ko Lo Op B B'.
  destruct (C92_shown _ _ _ _ _ _ _ _ _ _ R Sc Nd Ko Lo Op B) as (n & v & subs & ts & -> & Gv & F & _ & Sv & Ty & _ & Gl).
  destruct (C92_shown _ _ _ _ _ _ _ _ _ _ R Sc Nd Ko Lo Op B') as (n' & v' & subs' & ts' & E & Gv' & F' & _ & Sv' & Ty' & _ & Gl').
  injection E as <- <-. rewrite Gv in Gv'. injection Gv' as <-. rewrite (decimals_inj _ _ F _ F') in *.
  split; [destruct global, global'; intuition congruence|]. split; [|congruence].
  exact (shown_one _ _ _ Sv Sv').
Qed.
Print Assumptions C92_unique.

(** A macro that is called while an array of its caller and its own parameter, a sublist, are shown. *)
Definition sample_array : sym :=
  {| s_type := TA; s_scalar := false; s_data := [(0, VA 7); (4, VA (-3))] |}.
Definition sample_scope : cscope :=
  {| c_params := Some [(s2b "P", (false, Composite [Single (s2b "X"); Composite [Single (s2b "Y"); Single (s2b "Z")]]))];
     c_variables := [(s2b "ARR", (false, sample_array));
                     (s2b "FLAG", (true, {| s_type := TB; s_scalar := true; s_data := [(0, VB true)] |}))];
     c_system := [(s2b "SYSLIST", (false, Composite [Single (s2b "LAB"); Single (s2b "X")]))] |}.
Definition sample_frame (s : cscope) : frame := {| f_line := 3; f_file := s2b "a"; f_kind := Macro; f_scope := s |}.
Definition at_frame (s : cscope) : dbg := stop [sample_frame s] [] initial.
Lemma at_frame_reach s : reach (at_frame s).
Proof. apply r_stop; [constructor|reflexivity]. Qed.
Lemma at_frame_scope s : scope_of (at_frame s) 0 s.
Proof. split; [reflexivity|]. exists (sample_frame s). split; reflexivity. Qed.
Lemma at_frame_opened s : opened (at_frame s) 0 1 2 3 (snd (scopes 0 (at_frame s))).
Proof. exists (snd (scopes 0 (at_frame s))). split; [reflexivity|constructor]. Qed.
Example C92_shown_names : NoDup (names sample_scope).
Proof. repeat (constructor; [cbn; intuition discriminate|]). constructor. Qed.
Example C92_shown_keys : keys_ok sample_scope.
Proof. intros n g y [H|[H|[]]]; injection H as <- <- <-; repeat (constructor; cbn [fst]; try lia). Qed.
Lemma item_single t subs l : ~ item (Single t) subs (Composite l).
Proof. intros H. inversion H. Qed.
Example C92_shown_lists : lists_ok sample_scope.
Proof.
  intros n v H subs l K.
  assert (B : forall d, In d [Composite [Single (s2b "X"); Composite [Single (s2b "Y"); Single (s2b "Z")]]; Composite [Single (s2b "Y"); Single (s2b "Z")];
      Composite [Single (s2b "LAB"); Single (s2b "X")]] -> forall r l, item d r (Composite l) -> Z.of_nat (length l) < 2 ^ 31 - 1).
  { assert (S1 : forall r l, item (Composite [Single (s2b "Y"); Single (s2b "Z")]) r (Composite l) -> Z.of_nat (length l) < 2 ^ 31 - 1).
    { intros r l0 Hi. inversion Hi as [|? i ? x ? Hp Hn Hr]; subst; [cbn; lia|]. destruct (Z.to_nat (i - 1)) as [|[|[|k]]]; cbn in Hn; try discriminate; injection Hn as <-; now apply item_single in Hr. }
    intros d Hd r l0 Hi. destruct Hd as [<-|[<-|[<-|[]]]]; [|now apply (S1 r)|].
    - inversion Hi as [|? i ? x ? Hp Hn Hr]; subst; [cbn; lia|]. destruct (Z.to_nat (i - 1)) as [|[|[|k]]]; cbn in Hn; try discriminate; injection Hn as <-; [now apply item_single in Hr|eapply S1; eauto].
    - inversion Hi as [|? i ? x ? Hp Hn Hr]; subst; [cbn; lia|]. destruct (Z.to_nat (i - 1)) as [|[|[|k]]]; cbn in Hn; try discriminate; injection Hn as <-; now apply item_single in Hr. }
  unfold get_var_sym in H. cbn [sample_scope c_variables c_system c_params lookup] in H.
  destruct (bytes_eqb n (s2b "ARR")); [injection H as <-; inversion K|]. destruct (bytes_eqb n (s2b "FLAG")); [injection H as <-; inversion K|].
  destruct (bytes_eqb n (s2b "SYSLIST")).
  { injection H as <-. inversion K as [|? E1 E2 E3|l0 i r x y Hi Hn Hr]; subst; [cbn; lia|].
    destruct (Z.to_nat i) as [|[|[|k]]]; cbn in Hn; try discriminate; injection Hn as <-; now apply item_single in Hr. }
  destruct (bytes_eqb n (s2b "P")); [|easy]. injection H as <-. inversion K as [? ? ? Hi| |]; subst. eapply B; [|exact Hi]. now left.
Qed.
(** So the second item of the second item of &P is shown. *)
Example C92_shown_case : exists e, browse (snd (scopes 0 (at_frame sample_scope))) 2 [s2b "&P"; s2b "2"; s2b "2"] e /\ e_value e = s2b "Z".
Proof.
  assert (Hh : holds (VParam (Composite [Single (s2b "X"); Composite [Single (s2b "Y"); Single (s2b "Z")]])) [2; 2]).
  { apply (h_item _ _ (Single (s2b "Z"))). apply vi_param. eapply it_item; [lia|reflexivity|]. eapply it_item; [lia|reflexivity|]. constructor. }
  destruct (C92_complete (at_frame sample_scope) 0 sample_scope 1 2 3 _ (s2b "P") _ _ (at_frame_reach _) (at_frame_scope _) C92_shown_names
    C92_shown_keys C92_shown_lists (at_frame_opened _) eq_refl (fun H => ltac:(discriminate)) Hh) as (gl & ts & e & Gl & F & B & Sv).
  apply decimals_text in F. subst ts. destruct gl.
  - exfalso. destruct Gl as (_ & Gl). specialize (Gl eq_refl). destruct Gl as [(y & Gl)|(y & Gl)]; cbn in Gl; intuition discriminate.
  - exists e. split; [exact B|]. exact (shown_one _ _ _ Sv (sh_text (s2b "Z"))).
Qed.
Example C92_shown_array : exists e, browse (snd (scopes 0 (at_frame sample_scope))) 2 [s2b "&ARR"; s2b "5"] e /\ e_value e = s2b "-3".
Proof.
  assert (Hh : holds (VSet sample_array) [5]) by (apply h_assigned; [reflexivity|cbn; tauto]).
  destruct (C92_complete (at_frame sample_scope) 0 sample_scope 1 2 3 _ (s2b "ARR") _ _ (at_frame_reach _) (at_frame_scope _) C92_shown_names
    C92_shown_keys C92_shown_lists (at_frame_opened _) eq_refl (fun H => ltac:(discriminate)) Hh) as (gl & ts & e & Gl & F & B & Sv).
  apply decimals_text in F. subst ts. destruct gl.
  - exfalso. destruct Gl as (_ & Gl). specialize (Gl eq_refl). destruct Gl as [(y & Gl)|(y & Gl)]; cbn in Gl; intuition discriminate.
  - exists e. split; [exact B|]. exact (shown_one _ _ _ Sv (sh_number (-3) _ (to_string_decimal (-3)))).
Qed.

(** Where a parameter of the macro has the name of another variable (nothing prevents SYSNDX), a value is shown
    that no statement reads. *)
Definition hidden_scope : cscope :=
  {| c_params := Some [(s2b "SYSNDX", (false, Single (s2b "X")))];
     c_variables := [(s2b "SYSNDX", (false, {| s_type := TC; s_scalar := true; s_data := [(0, VC (s2b "0001"))] |}))];
     c_system := [] |}.
Theorem C92_hidden_refuted : keys_ok hidden_scope /\ exists v e,
  get_var_sym hidden_scope (s2b "SYSNDX") = Some v /\ opened (at_frame hidden_scope) 0 1 2 3 (snd (scopes 0 (at_frame hidden_scope))) /\
  browse (snd (scopes 0 (at_frame hidden_scope))) 2 [s2b "&SYSNDX"] e /\ ~ shown_as (var_value (Some v) []) (e_value e).
Proof.
  split; [intros n g y [H|[]]; injection H as <- <- <-; constructor; [cbn; lia|constructor]|].
  exists (VSet {| s_type := TC; s_scalar := true; s_data := [(0, VC (s2b "0001"))] |}).
  exists {| e_name := s2b "&SYSNDX"; e_value := s2b "X"; e_type := Some TC; e_ref := 0 |}.
  split; [reflexivity|]. split; [apply at_frame_opened|]. split.
  - eapply (br_here (snd (scopes 0 (at_frame hidden_scope))) 2%N _ _ (MacroVar (s2b "SYSNDX") (false, Single (s2b "X")) [], 0%N)); [reflexivity|now left].
  - cbn. intros H. inversion H.
Qed.
Print Assumptions C92_hidden_refuted.

(** An array with an element behind the subscript 2147483647 (SETA with two operands there assigns one) makes
    the request overflow an int. *)
Theorem C92_overflow_refuted : exists s, NoDup (names s) /\
  variables 2 (snd (scopes 0 (at_frame s))) = None.
Proof.
  exists {| c_params := None; c_variables := [(s2b "A", (false,
    {| s_type := TA; s_scalar := false; s_data := [(2 ^ 31 - 1, VA 1)] |}))]; c_system := [] |}.
  split; [repeat (constructor; [cbn; intuition discriminate|]); constructor|reflexivity].
Qed.
Print Assumptions C92_overflow_refuted.

(** The answer is sent just if all names and values are UTF-8. *)
Theorem C92_answered : forall l, (response l = Some l <-> Forall sendable l) /\ (response l = None <-> ~ Forall sendable l).
Proof.
  intros l. unfold response.
  assert (H : forallb (fun e => dumpable (e_name e) && dumpable (e_value e)) l = true <-> Forall sendable l).
  { rewrite forallb_forall, Forall_forall. split; intros H x Hx; specialize (H x Hx).
    - apply andb_true_iff in H. destruct H. split; now apply dumpable_strict.
    - destruct H. apply andb_true_iff. split; now apply strict_dumpable. }
  destruct (forallb _ l).
  - split; [tauto|]. split; [discriminate|]. intros K. exfalso. apply K. now apply H.
  - assert (N : ~ Forall sendable l) by (intros F; apply H in F; discriminate). split; [|tauto]. split; [discriminate|intros K; now apply N in K].
Qed.
Print Assumptions C92_answered.
Example C92_answered_case : Forall sendable [{| e_name := s2b "&A"; e_value := [195; 169]%N; e_type := Some TC; e_ref := 0 |}].
Proof. constructor; [|constructor]. split; apply dumpable_strict; reflexivity. Qed.

(** A substring that ends within a character leaves a value for which the request is not answered. *)
Theorem C92_unanswered_refuted : exists t, Ca_Model.substring [195; 169]%N 1 (Some 1) = Ca_Model.Ok t /\
  forall n r, response [{| e_name := 38%N :: n; e_value := t; e_type := Some TC; e_ref := r |}] = None.
Proof.
  exists [195%N]. split; [reflexivity|]. intros n r. unfold response. cbn [forallb e_name e_value].
  change (dumpable [195%N]) with false. now rewrite andb_false_r.
Qed.
Print Assumptions C92_unanswered_refuted.

(** * C93: references *)

(** Asking again shows the same, however often and whatever is asked in between, until the next stop. *)
Theorem C93_again : forall d ref l d' d2 l2 d3, handed d ref -> variables ref d = Some (l, d') -> later d' d2 ->
  variables ref d2 = Some (l2, d3) -> List.map (fun x => (e_name (view x), e_value (view x), e_type (view x))) l2 =
    List.map (fun x => (e_name (view x), e_value (view x), e_type (view x))) l.
Proof.
  intros d ref l d' d2 l2 d3 H V L V2. destruct (handed_ok _ _ H) as (HI & En & vs & C).
  destruct (variables_ok _ _ _ _ V HI) as (I1 & X1 & _ & M & _). destruct (later_ok _ _ L I1) as (I2 & X2).
  destruct (variables_ok _ _ _ _ V2 I2) as (_ & _ & _ & M2 & _).
  assert (F : List.map fst l2 = List.map fst l).
  { destruct X1 as (_ & _ & _ & X1e & X1c & _), X2 as (_ & _ & _ & X2e & X2c & _).
    rewrite (M En _ C). apply M2; [congruence|]. now apply X2c, X1c. }
  apply (f_equal (List.map (fun v => (dname v, dvalue v, dtype v)))) in F. rewrite !map_map in F. exact F.
Qed.
Print Assumptions C93_again.

(** The references in an answer are new: no two variables share one, and before the answer it led nowhere. *)
Theorem C93_fresh : forall d ref l d', reach d -> variables ref d = Some (l, d') ->
  NoDup (filter (fun r => negb (r =? 0)%N) (List.map (fun x => e_ref (view x)) l)) /\
  forall x, In x l -> e_ref (view x) <> 0%N -> variables (e_ref (view x)) d = Some ([], d).
Proof.
  intros d ref l d' R V. pose proof (reach_inv d R) as HI.
  destruct (variables_ok _ _ _ _ V HI) as (I1 & X1 & G & _ & _ & K & Nd). split.
  - replace (filter (fun r => negb (r =? 0)%N) (List.map (fun x => e_ref (view x)) l))
      with (List.map snd (filter (fun x => negb (dscalar (fst x))) l)); [exact Nd|].
    clear Nd V. induction l as [|x l IH]; [reflexivity|]. cbn [filter List.map].
    assert (IH' := IH ltac:(intros y Hy; apply G; now right) ltac:(intros y Hy; apply K; now right)).
    destruct (dscalar (fst x)) eqn:Sc; cbn [negb].
    + change (e_ref (view x)) with (snd x). rewrite (proj1 (G x (or_introl eq_refl)) Sc). exact IH'.
    + pose proof (K x (or_introl eq_refl) Sc) as B. pose proof (inv_next d HI). change (e_ref (view x)) with (snd x).
      destruct (N.eqb_spec (snd x) 0); [lia|]. cbn [negb List.map]. now rewrite IH'.
  - intros x Hx Nz. cbn [view e_ref] in *. unfold variables. destruct (ended d); [reflexivity|].
    destruct (find_ref (snd x) (stored d)) as [y|] eqn:F; [|reflexivity]. exfalso.
    pose proof (inv_range d HI _ _ F) as B. destruct (dscalar (fst x)) eqn:Sc; [exact (Nz (proj1 (G x Hx) Sc))|].
    pose proof (K x Hx Sc). lia.
Qed.
Print Assumptions C93_fresh.

(** Behind the next stop a reference given before leads nowhere, and is not given to another variable, whatever
    happens. *)
Theorem C93_stale : forall d ref frames symbols d', handed d ref -> onward (stop frames symbols d) d' ->
  variables ref d' = Some ([], d') /\
  (forall r l d'' x, variables r d' = Some (l, d'') -> In x l -> e_ref (view x) <> ref) /\
  (forall id a d'' nm, scopes id d' = (a, d'') -> ~ In (nm, ref) a).
Proof.
  intros d ref frames symbols d' H On. destruct (handed_ok _ _ H) as (HI & En & vs & C).
  pose proof (content_range _ _ _ HI C) as B.
  assert (D : Inv (stop frames symbols d)) by (constructor; [exact (inv_next d HI)|easy|easy]).
  assert (P : Inv d' /\ (1 <= ref < next_ref d')%N /\ content d' ref = None).
  { apply (onward_dead _ _ On ref D); [exact B|reflexivity]. }
  destruct P as (I' & B' & C'). split.
  - unfold variables. destruct (ended d'); [reflexivity|]. unfold content in C'. destruct (find_ref ref (stored d')); [discriminate|reflexivity].
  - split.
    + intros r l d'' x V Hx. destruct (variables_ok _ _ _ _ V I') as (_ & _ & G & _ & _ & K & _). cbn [view e_ref].
      destruct (dscalar (fst x)) eqn:Sc; [rewrite (proj1 (G x Hx) Sc); lia|]. specialize (K x Hx Sc). lia.
    + intros id a d'' nm Sa Hin. pose proof (scopes_ok id d' I') as K. rewrite Sa in K. destruct K as (_ & _ & K & K2).
      destruct (ended d') eqn:En'; [destruct (K2 (or_introl eq_refl)) as (-> & _); destruct Hin|].
      destruct (nth_error (proc_stack d') id) as [f|] eqn:Nf; [|destruct (K2 (or_intror eq_refl)) as (-> & _); destruct Hin].
      destruct (K f eq_refl eq_refl) as (g & l & o & -> & B1 & B2 & _). cbn [In] in Hin.
      destruct Hin as [Hin|[Hin|[Hin|[]]]]; injection Hin as _ ->; lia.
Qed.
Print Assumptions C93_stale.

(** Before the first stop and behind the end everything is empty. *)
Theorem C93_idle : forall d, reach d -> (d = initial \/ ended d = true) ->
  stack_frames d = [] /\ forall id ref, scopes id d = ([], d) /\ variables ref d = Some ([], d).
Proof.
  intros d _ [->|E].
  - split; [reflexivity|]. intros id ref. split; [unfold scopes; cbn; now destruct id|reflexivity].
  - unfold stack_frames, scopes, variables. rewrite E. auto.
Qed.
Print Assumptions C93_idle.

(** The innermost frame comes first; each identifier names the frame it was sent with. *)
Theorem C93_frames : forall d, ended d = false -> length (stack_frames d) = length (proc_stack d) /\
  forall i v, nth_error (stack_frames d) i = Some v -> exists f,
    nth_error (rev (proc_stack d)) i = Some f /\ nth_error (proc_stack d) (v_id v) = Some f /\ scope_of d (v_id v) (f_scope f) /\
    v_line v = f_line f /\ v_file v = f_file f /\
    v_name v = (match f_kind f with Opencode => "OPENCODE" | Macro => "MACRO" | Copy => "COPY" end)%string.
Proof.
  intros d En. unfold stack_frames. rewrite En. rewrite rev_length.
  assert (Len : forall l i, length (views_from i l) = length l) by (induction l; intros i; cbn [views_from length]; auto).
  split; [apply Len|]. intros i v H.
  assert (Nth : forall l i k v, nth_error (views_from i l) k = Some v -> exists f, nth_error l k = Some f /\ v_id v = (i + k)%nat /\
    v_line v = f_line f /\ v_file v = f_file f /\ v_name v = kind_name (f_kind f)).
  { induction l as [|f l IH]; intros j k w Hk; [destruct k; discriminate|]. destruct k as [|k]; cbn [views_from nth_error] in Hk.
    - injection Hk as <-. exists f. cbn. repeat split; lia.
    - destruct (IH _ _ _ Hk) as (f' & A1 & A2 & A3). exists f'. split; [exact A1|]. split; [lia|exact A3]. }
  assert (Bi : (i < length (proc_stack d))%nat).
  { rewrite <- (Len (proc_stack d) 0%nat), <- rev_length. apply nth_error_Some. congruence. }
  assert (Rv : forall A (l : list A) i, (i < length l)%nat -> nth_error (rev l) i = nth_error l (length l - S i)).
  { intros A l j Bj. destruct l as [|a0 l0]; [cbn in Bj; lia|]. set (l := a0 :: l0) in *.
    rewrite (nth_error_nth' (rev l) a0) by (rewrite rev_length; exact Bj). rewrite rev_nth by exact Bj.
    symmetry. apply nth_error_nth'. lia. }
  rewrite Rv in H by (rewrite Len; exact Bi). rewrite Len in H. destruct (Nth _ _ _ _ H) as (f & A1 & A2 & A3 & A4 & A5).
  cbn [Nat.add] in A2. exists f. rewrite Rv by exact Bi. rewrite A2. split; [exact A1|]. split; [exact A1|].
  split; [split; [exact En|]; exists f; auto|]. split; [exact A3|]. split; [exact A4|exact A5].
Qed.
Print Assumptions C93_frames.
Example C93_frames_case : List.map v_id (stack_frames (stop [sample_frame hidden_scope; sample_frame sample_scope] [] initial)) = [1; 0]%nat.
Proof. reflexivity. Qed.

(** If every array has only elements with subscripts that are ints, every request is carried out. *)
Theorem C93_safe : forall d ref, reach d -> Forall (fun f => keys_ok (f_scope f)) (proc_stack d) ->
  exists l d', variables ref d = Some (l, d').
Proof.
  intros d ref R K. pose proof (reach_okv d R K) as A. unfold variables. destruct (ended d); [eexists; eexists; reflexivity|].
  destruct (find_ref ref (stored d)) as [l|] eqn:F; [|eexists; eexists; reflexivity].
  destruct (refer_total l d) as (l' & d' & ->); [|eexists; eexists; reflexivity].
  intros x Hx _. apply okv_some. exact (A _ _ F x Hx).
Qed.
Print Assumptions C93_safe.
Example C93_safe_case : Forall (fun f => keys_ok (f_scope f)) (proc_stack (at_frame sample_scope)).
Proof. constructor; [exact C92_shown_keys|constructor]. Qed.
Example C93_handed_case : handed (snd (scopes 0 (at_frame sample_scope))) 2.
Proof. exists (at_frame sample_scope), (snd (scopes 0 (at_frame sample_scope))). split; [apply at_frame_reach|]. split; [|constructor].
  left. exists 0%nat, (fst (scopes 0 (at_frame sample_scope))), "Locals"%string. split; [reflexivity|]. cbn. auto. Qed.

(** * C94: ordinary symbols *)

Lemma ord_values y : dvalues (OrdVar y) = Some (attr_child L "L" y ++ attr_child I_ "I" y ++ attr_child S_ "S" y ++ attr_child T "T" y).
Proof. reflexivity. Qed.
Lemma defined_iff a s : is_ordinary a = true -> (is_defined a s = true <-> has_attr s a).
Proof.
  intros Ha. split.
  - destruct a; try discriminate; cbn [is_defined].
    + constructor.
    + destruct (o_length s) eqn:E; [|discriminate]. intros _. now apply (ha_length s z).
    + destruct (o_scale s) eqn:E; [|discriminate]. intros _. now apply (ha_scale s z).
    + destruct (o_scale s) eqn:E; [|discriminate]. destruct (o_length s) eqn:E'; [|discriminate]. intros _. now apply (ha_integer s z z0).
  - intros H. destruct H as [|n E|n E|n m E E']; cbn [is_defined]; rewrite ?E, ?E'; reflexivity.
Qed.
Lemma can_have_iff s : can_have_SI s = true <-> scaled s.
Proof.
  unfold can_have_SI, scaled. rewrite andb_true_iff, existsb_exists. split; intros (A & B); (split; [exact A|]).
  - destruct B as (x & Hx & E). apply N.eqb_eq in E. subst x. exact Hx.
  - exists (o_type s). split; [exact B|apply N.eqb_refl].
Qed.
Lemma attr_listed y x : In x (attr_child L "L" y ++ attr_child I_ "I" y ++ attr_child S_ "S" y ++ attr_child T "T" y) <->
  exists a t, attr_name a t /\ has_attr (y_attrs y) a /\
    x = AttrVar t (match a with T => [o_type (y_attrs y)] | _ => to_string (attribute_value a (y_attrs y)) end).
Proof.
  assert (One : forall a n, In x (attr_child a n y) <-> is_defined a (y_attrs y) = true /\
    x = AttrVar (s2b n) (match a with T => [o_type (y_attrs y)] | _ => to_string (attribute_value a (y_attrs y)) end)).
  { intros a n. unfold attr_child. destruct (is_defined a (y_attrs y)); cbn [In]; [|easy]. split; [intros [<-|[]]; auto|intros (_ & ->); auto]. }
  rewrite !in_app_iff, !One. split.
  - intros [(D & ->)|[(D & ->)|[(D & ->)|(D & ->)]]]; apply defined_iff in D; try reflexivity;
      eexists; eexists; (split; [|split; [exact D|reflexivity]]); constructor.
  - intros (a & t & An & Ha & ->). destruct An; apply defined_iff in Ha; try reflexivity; tauto.
Qed.
Lemma attr_read a s : is_ordinary a = true -> has_attr s a -> (a = S_ \/ a = I_ -> scaled s) ->
  exists v, retrieve_value a (Some s) = (v, []) /\
    shown_as (inr v) (match a with T => [o_type s] | _ => to_string (attribute_value a s) end).
Proof.
  intros Ho Ha Sc. apply (defined_iff a s Ho) in Ha. destruct a; try discriminate.
  - exists (char (o_type s)). split; [reflexivity|constructor].
  - exists (VA (attribute_value L s)). unfold retrieve_value. rewrite Ha. split; [reflexivity|constructor; apply to_string_decimal].
  - exists (VA (attribute_value S_ s)). unfold retrieve_value. rewrite (proj2 (can_have_iff s)) by (apply Sc; now left). rewrite Ha.
    split; [reflexivity|constructor; apply to_string_decimal].
  - exists (VA (attribute_value I_ s)). unfold retrieve_value. rewrite (proj2 (can_have_iff s)) by (apply Sc; now right). rewrite Ha.
    split; [reflexivity|constructor; apply to_string_decimal].
Qed.
Lemma attr_ordinary a t : attr_name a t -> is_ordinary a = true.
Proof. now destruct 1. Qed.
Lemma ord_unfolds y : dscalar (OrdVar y) = false.
Proof. cbn [dscalar is_defined]. now rewrite orb_true_r. Qed.
Lemma symbol_text y : symbol_shown (y_value y) (dvalue (OrdVar y)).
Proof. cbn [dvalue]. destruct (y_value y) as [z|[]|]; constructor. apply to_string_decimal. Qed.

(** Under the third reference stand the symbols with their values, and under each of them the attributes it has,
    with the values that statements read. *)
Theorem C94_shown : forall d id s g l o d2 ns e, reach d -> scope_of d id s -> opened d id g l o d2 -> browse d2 o ns e ->
  exists y, In y (symbols_ d) /\ e_type e = None /\
    ((ns = [y_name y] /\ symbol_shown (y_value y) (e_value e) /\ e_ref e <> 0%N) \/
     (exists a t, ns = [y_name y; t] /\ attr_name a t /\ has_attr (y_attrs y) a /\ e_ref e = 0%N /\
        ((a = S_ \/ a = I_ -> scaled (y_attrs y)) ->
         exists v, retrieve_value a (Some (y_attrs y)) = (v, []) /\ shown_as (inr v) (e_value e)))).
Proof.
  intros d id s g l o d2 ns e R Sc Op B. destruct (opened_ok _ _ _ _ _ _ _ R Sc Op) as (I2 & En & _ & _ & C).
  destruct (browse_descends _ _ _ _ B I2 _ C En) as (v & x & ns' & Hv & -> & D & -> & Sx).
  apply in_map_iff in Hv. destruct Hv as (y & <- & Hy). exists y. split; [exact Hy|].
  inversion D as [v Ev En1 Ex|v vs w ns2 z Scl V Hw D2]; subst.
  - destruct x as [w k]. cbn [fst snd] in *. subst w. split; [reflexivity|]. left. split; [reflexivity|]. split; [apply symbol_text|].
    cbn [view e_ref snd]. rewrite Sx, ord_unfolds. discriminate.
  - rewrite ord_values in V. injection V as <-. apply attr_listed in Hw. destruct Hw as (a & t & An & Ha & ->).
    inversion D2 as [v Ev En1 Ex|v vs w ns3 z' Scl']; subst; [|discriminate]. destruct x as [w k]. cbn [fst snd] in *. subst w.
    split; [reflexivity|]. right. exists a, t. split; [reflexivity|]. split; [exact An|]. split; [exact Ha|].
    split; [cbn [view e_ref snd]; now apply Sx|]. intros Hs. exact (attr_read a _ (attr_ordinary _ _ An) Ha Hs).
Qed.
Print Assumptions C94_shown.

(** Every symbol and every attribute it has can be found there. *)
Theorem C94_complete : forall d id s g l o d2 y, reach d -> scope_of d id s -> opened d id g l o d2 -> In y (symbols_ d) ->
  (exists e, browse d2 o [y_name y] e /\ symbol_shown (y_value y) (e_value e)) /\
  (forall a t, attr_name a t -> has_attr (y_attrs y) a -> (a = S_ \/ a = I_ -> scaled (y_attrs y)) ->
     exists e v, browse d2 o [y_name y; t] e /\ retrieve_value a (Some (y_attrs y)) = (v, []) /\ shown_as (inr v) (e_value e)).
Proof.
  intros d id s g l o d2 y R Sc Op Hy. destruct (opened_ok _ _ _ _ _ _ _ R Sc Op) as (I2 & En & _ & _ & C).
  assert (U : forall x, In x (List.map OrdVar (symbols_ d)) -> unfolds x).
  { intros x Hx. apply in_map_iff in Hx. destruct Hx as (z & <- & _). intros _. discriminate. }
  assert (Hin : In (OrdVar y) (List.map OrdVar (symbols_ d))) by now apply in_map. split.
  - destruct (descends_browse _ _ _ (de_here (OrdVar y)) d2 o _ I2 En C Hin U (au_nil _)) as (k & B).
    exists (view (OrdVar y, k)). split; [exact B|apply symbol_text].
  - intros a t An Ha Hs. set (w := AttrVar t (match a with T => [o_type (y_attrs y)] | _ => to_string (attribute_value a (y_attrs y)) end)).
    assert (Hw : In w (attr_child L "L" y ++ attr_child I_ "I" y ++ attr_child S_ "S" y ++ attr_child T "T" y)).
    { apply attr_listed. exists a, t. auto. }
    assert (D : descends (OrdVar y) [t] w) by (apply (de_into _ _ w [] w (ord_unfolds y) (ord_values y) Hw); constructor).
    assert (A : all_unfold (OrdVar y) [t]).
    { apply (au_cons _ _ _ _ (ord_values y)); [|intros; constructor]. intros x Hx. apply attr_listed in Hx. destruct Hx as (a' & t' & _ & _ & ->). intros _. discriminate. }
    destruct (descends_browse _ _ _ D d2 o _ I2 En C Hin U A) as (k & B).
    destruct (attr_read a _ (attr_ordinary _ _ An) Ha Hs) as (v & Rv & Sv). exists (view (w, k)), v. auto.
Qed.
Print Assumptions C94_complete.
Example C94_shown_case : exists y, y = {| y_name := s2b "HW"; y_value := Relocatable false;
    y_attrs := {| o_dat := true; o_type := 72; o_length := Some 2; o_scale := Some 4; o_integer := 11 |} |} /\
  has_attr (y_attrs y) I_ /\ scaled (y_attrs y) /\
  let d := stop [sample_frame sample_scope] [y] initial in
  reach d /\ scope_of d 0 sample_scope /\ opened d 0 1 2 3 (snd (scopes 0 d)) /\ In y (symbols_ d).
Proof.
  eexists. split; [reflexivity|]. split; [now apply (ha_integer _ 4 2)|]. split; [split; [reflexivity|cbn; tauto]|].
  cbv zeta. split; [apply r_stop; [constructor|reflexivity]|]. split; [split; [reflexivity|]; exists (sample_frame sample_scope); split; reflexivity|].
  split; [eexists; split; [reflexivity|constructor]|now left].
Qed.

(** Scale and integer attributes are also shown for symbols of other types (X DC CS2'A', itself an error), where
    reading them is an error. *)
Definition odd_symbol : ordinary := {| y_name := s2b "X"; y_value := Relocatable false;
  y_attrs := {| o_dat := true; o_type := 67; o_length := Some 1; o_scale := Some 2; o_integer := 0 |} |}.
Theorem C94_scale_refuted : has_attr (y_attrs odd_symbol) S_ /\
  retrieve_value S_ (Some (y_attrs odd_symbol)) = (VA 0, [(E066, AtReference)]) /\
  exists e, browse (snd (scopes 0 (stop [sample_frame sample_scope] [odd_symbol] initial))) 3 [y_name odd_symbol; s2b "S"] e /\ e_value e = s2b "2".
Proof.
  split; [now apply (ha_scale _ 2)|]. split; [reflexivity|].
  exists (view (AttrVar (s2b "S") (s2b "2"), 0%N)). split; [|reflexivity].
  change (y_name odd_symbol) with (e_name (view (OrdVar odd_symbol, 4%N))).
  eapply br_into; [reflexivity|now left|constructor|].
  change (s2b "S") with (e_name (view (AttrVar (s2b "S") (s2b "2"), 0%N))) at 1.
  eapply br_here; [reflexivity|]. right. right. now left.
Qed.
Print Assumptions C94_scale_refuted.
