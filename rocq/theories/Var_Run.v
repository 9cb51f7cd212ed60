(** Declarations, calls and whole runs. *)
From Coq Require Import List NArith ZArith Bool Lia.
From Coq Require Import ZifyBool ZifyNat ZifyN.
From Verif Require Import Common Var_Model Var_Spec Var_Proof.
Import ListNotations.
Open Scope Z_scope.

Definition create_one (g : bool) (t : ty) (p : name * bool) (c : ctx) : ctx :=
  snd (if g then create_global_variable t (fst p) (snd p) c else create_local_variable t (fst p) (snd p) c).
Lemma create_all_snoc : forall g t ids p c, create_all g t (ids ++ [p]) c = create_one g t p (create_all g t ids c).
Proof.
  induction ids as [|[n b] ids IH]; intros [m b'] c; [reflexivity|]. cbn [app create_all]. apply IH.
Qed.

Lemma create_one_ok : forall g t n b c w, rel c w -> here w n = None ->
  rel (create_one g t (n, b) c) (declare g t n b w).
Proof.
  intros g t n b c w R Hw.
  assert (Hn : lookup n (variables (current c)) = None).
  { pose proof (r_here c w R n) as H. unfold entry_ok in H. rewrite Hw in H.
    destruct (lookup n (variables (current c))); [contradiction|reflexivity]. }
  unfold create_one, declare. cbn [fst snd]. destruct g.
  - unfold create_global_variable. rewrite Hn. pose proof (r_shared c w R n) as Hs.
    destruct (lookup n (globals c)) as [a|] eqn:Eg.
    + destruct (shared w n) as [v|] eqn:Es; [|contradiction]. cbn [snd].
      apply (rel_add_shared c w n a R Hn Eg).
    + destruct (shared w n) as [v|] eqn:Es; [contradiction|]. cbn [make_shared snd].
      pose proof (rel_new_global c w n (new_sym t b) (fresh t b) R Eg (sym_ok_new t b) Hn) as R2.
      refine (rel_add_shared _ _ n (length (heap c)) R2 Hn _).
      cbn [insert_global globals make_shared snd]. rewrite lookup_insert by exact Eg. now rewrite bytes_eqb_refl.
  - destruct (create_local_new c w n t b R Hn) as (a & c' & -> & R' & _). exact R'.
Qed.

Lemma declare_here : forall g t n b w m,
  match here (declare g t n b w) m with
  | Some Formal => here w m = Some Formal /\ bytes_eqb m n = false
  | Some _ => bytes_eqb m n = true \/ (bytes_eqb m n = false /\ here (declare g t n b w) m = here w m)
  | None => here w m = None /\ bytes_eqb m n = false
  end.
Proof.
  intros g t n b w m. unfold declare. destruct g; cbn [here with_here]; unfold upd;
    destruct (bytes_eqb m n) eqn:E; auto; destruct (here w m) as [[v| |]|]; auto.
Qed.

Lemma declare_loop : forall g t ops ids c w0 w,
  rel c w0 -> rel (create_all g t ids c) w ->
  (forall n, if existsb (fun p => bytes_eqb n (fst p)) ids
             then (match here w n with Some Formal | None => False | _ => True end) /\ here w0 n = None
             else here w n = here w0 n) ->
  fst (prepare_GBL_LCL ops ids c) = fst (declare_all g t ops w) /\
  match snd (prepare_GBL_LCL ops ids c), snd (declare_all g t ops w) with
  | Some ids', Some w' => rel (create_all g t ids' c) w'
  | None, None => True
  | _, _ => False
  end.
Proof.
  induction ops as [|[| |n sub] ops IH]; intros ids c w0 w R0 R H; cbn [prepare_GBL_LCL declare_all].
  - auto.
  - now apply (IH ids c w0 w).
  - cbn. auto.
  - destruct n as [|x xs]; [now apply (IH ids c w0 w)|]. set (n := x :: xs) in *.
    pose proof (symbol_ok c w0 n R0) as Hs. pose proof (H n) as Hn.
    destruct (IH ids c w0 w R0 R H) as [IH1 IH2].
    destruct (get_var_sym n c) as [[a|]|] eqn:Ev.
    + destruct Hs as (v & _ & _ & Hh).
      assert (E : existsb (fun p => bytes_eqb n (fst p)) ids = false).
      { destruct (existsb (fun p => bytes_eqb n (fst p)) ids); [|reflexivity]. destruct Hn as [_ Hn].
        rewrite Hn in Hh. destruct Hh as [Hh|[? Hh]]; discriminate. }
      rewrite E in Hn. rewrite Hn.
      destruct (prepare_GBL_LCL ops ids c) as [ds1 x1], (declare_all g t ops w) as [ds2 x2]. cbn [fst snd] in *.
      destruct Hh as [->|[? ->]]; cbn [fst snd]; subst ds1; auto.
    + assert (E : existsb (fun p => bytes_eqb n (fst p)) ids = false).
      { destruct (existsb (fun p => bytes_eqb n (fst p)) ids); [|reflexivity]. destruct Hn as [_ Hn]. congruence. }
      rewrite E in Hn. rewrite Hn, Hs.
      destruct (prepare_GBL_LCL ops ids c) as [ds1 x1], (declare_all g t ops w) as [ds2 x2]. cbn [fst snd] in *.
      subst ds1; auto.
    + destruct (existsb (fun p => bytes_eqb n (fst p)) ids) eqn:E.
      * destruct Hn as [Hn _].
        destruct (prepare_GBL_LCL ops ids c) as [ds1 x1], (declare_all g t ops w) as [ds2 x2]. cbn [fst snd] in *.
        destruct (here w n) as [[v| |]|]; try contradiction; cbn [fst snd]; subst ds1; auto.
      * rewrite Hn, Hs. set (b := match sub with [] => true | _ :: _ => false end).
        apply (IH (ids ++ [(n, b)]) c w0); [exact R0| |].
        -- rewrite create_all_snoc. apply create_one_ok; [exact R|congruence].
        -- unfold name in *. intros m. rewrite existsb_app. cbn [existsb fst]. rewrite orb_false_r.
           specialize (H m). pose proof (declare_here g t n b w m) as D.
           destruct (existsb (fun p => bytes_eqb m (fst p)) ids) eqn:Em; cbn [orb].
           ++ destruct H as [H1 H2]. split; [|exact H2].
              destruct (here (declare g t n b w) m) as [[v| |]|]; auto.
              ** destruct D as [D _]. rewrite D in H1. exact H1.
              ** destruct D as [D _]. rewrite D in H1. exact H1.
           ++ destruct (bytes_eqb m n) eqn:Emn.
              ** apply bytes_eqb_eq in Emn. subst m. split; [|exact Hs].
                 destruct (here (declare g t n b w) n) as [[v| |]|]; auto; destruct D; discriminate.
              ** destruct (here (declare g t n b w) m) as [[v| |]|].
                 --- destruct D as [D|[_ D]]; [discriminate|]. now rewrite D.
                 --- destruct D as [D|[_ D]]; [discriminate|]. now rewrite D.
                 --- destruct D as [D _]. congruence.
                 --- destruct D as [D _]. congruence.
Qed.

Lemma all_omitted : forall g t ops w, forallb is_omitted ops = true -> declare_all g t ops w = ([], Some w).
Proof.
  induction ops as [|[| |n sub] ops IH]; intros w H; cbn [declare_all forallb is_omitted andb] in *; try discriminate; auto.
Qed.

Theorem DECL_ok : forall g t ops c w, rel c w ->
  fst (process_GBL_LCL g t ops c) = fst (declares g t ops w) /\
  rel (snd (process_GBL_LCL g t ops c)) (snd (declares g t ops w)).
Proof.
  intros g t ops c w R. unfold process_GBL_LCL, declares.
  destruct (declare_loop g t ops [] c w w R R (fun n => eq_refl)) as [H1 H2].
  destruct (forallb is_omitted ops) eqn:E.
  - rewrite (all_omitted g t ops w E) in *. cbn [fst snd] in *.
    destruct (prepare_GBL_LCL ops [] c) as [ds [ids|]]; cbn [fst snd] in *; [|contradiction].
    subst ds. auto.
  - destruct (prepare_GBL_LCL ops [] c) as [ds [ids|]], (declare_all g t ops w) as [ds2 [w'|]];
      cbn [fst snd] in *; try contradiction; subst; auto.
Qed.

(** ** Calls *)
Definition blank (named : list name) (c : ctx) : ctx :=
  {| heap := heap c; globals := globals c; current := {| variables := []; params := named |};
     outer := scopes c; SYSNDX_ := SYSNDX_ c |}.
Definition blank_w (named : list name) (w : world) : world :=
  {| shared := shared w; here := fun n => if existsb (bytes_eqb n) named then Some Formal else None;
     callers := here w :: callers w; calls := calls w |}.

Lemma blank_uses : forall named c k n a, uses (blank named c) k n a -> exists k', k = S k' /\ uses c k' n a.
Proof.
  intros named c [|k] n a (s & Hs & Hl).
  - cbn in Hs. injection Hs as <-. discriminate.
  - exists k. split; [reflexivity|]. exists s. auto.
Qed.

Lemma blank_ok : forall named c w, rel c w -> rel (blank named c) (blank_w named w).
Proof.
  intros named c w [R1 R2 R3 R4 R5 R6]. destruct R1 as [I1 I2 I3 I4 I5]. constructor; auto.
  - constructor; auto.
    + intros k n a H. apply blank_uses in H. destruct H as (k' & _ & H). now apply (I1 k' n).
    + intros k n k' n' a H H'. apply blank_uses in H, H'. destruct H as (j & -> & H), H' as (j' & -> & H').
      destruct (I4 _ _ _ _ _ H H') as [[-> ->]|E]; auto.
    + intros k n m a H. apply blank_uses in H. destruct H as (k' & _ & H). now apply (I5 k').
  - cbn. now rewrite R2.
  - intros [|k] s e Hs He n.
    + cbn in Hs, He. injection Hs as <-. injection He as <-. unfold entry_ok. cbn [variables lookup params].
      destruct (existsb (bytes_eqb n) named); reflexivity.
    + apply (R3 k s e); assumption.
Qed.

Definition holds (v : option val) (t : ty) : svar :=
  match v with Some v => known v t | None => fresh t true end.
Lemma add_system_var_ok : forall c w n t v, rel c w -> lookup n (variables (current c)) = None ->
  rel (add_system_var n t v c) (with_here w (upd (here w) n (Local (holds v t)))).
Proof.
  intros c w n t v R Hn. unfold add_system_var. cbn [make_shared].
  apply (rel_add_local c w n _ (holds v t)); [exact R|exact Hn|].
  destruct v as [v|]; [|apply sym_ok_new].
  apply (sym_ok_set (new_sym t true) (fresh t true) v 1); [apply sym_ok_new|discriminate].
Qed.
Lemma add_system_var_lookup : forall c n t v m, lookup n (variables (current c)) = None ->
  lookup m (variables (current (add_system_var n t v c))) =
  if bytes_eqb m n then Some (length (heap c)) else lookup m (variables (current c)).
Proof.
  intros. unfold add_system_var. cbn [make_shared insert_variable current variables]. now apply lookup_insert.
Qed.

Lemma add_global_var_ok : forall c w n, rel c w -> In n system_names -> lookup n (variables (current c)) = None ->
  rel (add_global_var c n) (with_here w (upd (here w) n Shared)).
Proof.
  intros c w n R Hin Hn. unfold add_global_var. pose proof (r_system c w R n Hin) as Hg.
  destruct (lookup n (globals c)) as [a|] eqn:E; [|contradiction]. now apply rel_add_shared.
Qed.
Lemma add_global_var_lookup : forall c n m, bytes_eqb m n = false ->
  lookup m (variables (current (add_global_var c n))) = lookup m (variables (current c)).
Proof.
  intros c n m H. unfold add_global_var. destruct (lookup n (globals c)); [|reflexivity].
  cbn [insert_variable current variables]. unfold insert. destruct (lookup n (variables (current c))); [reflexivity|].
  cbn [lookup]. now rewrite H.
Qed.

Lemma add_globals_ok : forall c w, rel c w ->
  (forall n, In n system_names -> lookup n (variables (current c)) = None) ->
  rel (fold_left add_global_var system_globals c)
      (with_here w (fun n => if existsb (bytes_eqb n) system_names then Some Shared else here w n)).
Proof.
  intros c w R H. unfold system_globals. cbn [fold_left].
  assert (H1 := H (s2b "SYSDATC") ltac:(cbn; auto)). assert (H2 := H (s2b "SYSDATE") ltac:(cbn; auto)).
  assert (H3 := H (s2b "SYSTIME") ltac:(cbn; auto)). assert (H4 := H (s2b "SYSPARM") ltac:(cbn; auto 6)).
  assert (H5 := H (s2b "SYSOPT_RENT") ltac:(cbn; auto 7)).
  pose proof (add_global_var_ok c w (s2b "SYSDATC") R ltac:(cbn; auto) H1) as R1.
  pose proof (add_global_var_ok _ _ (s2b "SYSDATE") R1 ltac:(cbn; auto)
    ltac:(rewrite !add_global_var_lookup by reflexivity; exact H2)) as R2.
  pose proof (add_global_var_ok _ _ (s2b "SYSTIME") R2 ltac:(cbn; auto)
    ltac:(rewrite !add_global_var_lookup by reflexivity; exact H3)) as R3.
  pose proof (add_global_var_ok _ _ (s2b "SYSPARM") R3 ltac:(cbn; auto 6)
    ltac:(rewrite !add_global_var_lookup by reflexivity; exact H4)) as R4.
  pose proof (add_global_var_ok _ _ (s2b "SYSOPT_RENT") R4 ltac:(cbn; auto 7)
    ltac:(rewrite !add_global_var_lookup by reflexivity; exact H5)) as R5.
  match type of R5 with rel ?C ?W =>
    pose proof (rel_ext C W (fun n => if existsb (bytes_eqb n) system_names then Some Shared else here w n) R5) as R6 end.
  apply R6. intros n. cbn [with_here here]. unfold upd. cbn [existsb system_names].
  destruct (bytes_eqb n (s2b "SYSDATC")), (bytes_eqb n (s2b "SYSDATE")), (bytes_eqb n (s2b "SYSTIME")),
    (bytes_eqb n (s2b "SYSPARM")), (bytes_eqb n (s2b "SYSOPT_RENT")); reflexivity.
Qed.

Lemma count_call : forall c w, rel c w ->
  rel {| heap := heap c; globals := globals c; current := current c; outer := outer c; SYSNDX_ := (SYSNDX_ c + 1)%N |}
      {| shared := shared w; here := here w; callers := callers w; calls := (calls w + 1)%N |}.
Proof.
  intros c w [R1 R2 R3 R4 R5 R6]. destruct R1 as [I1 I2 I3 I4 I5]. constructor; auto.
  - constructor; auto.
  - cbn. now rewrite R5.
Qed.

Theorem CALL_ok : forall named i c w, rel c w -> Z.of_nat (length (callers w)) + 1 < 2 ^ 31 ->
  rel (enter_macro named i c) (calls_macro named i w).
Proof.
  intros named i c w R Hd. pose proof (blank_ok named c w R) as R0.
  unfold enter_macro. fold (blank named c). unfold add_system_vars_to_scope.
  pose proof (add_system_var_ok _ _ (s2b "SYSECT") TC (Some (VC (sect i))) R0 eq_refl) as R1.
  set (c1 := add_system_var (s2b "SYSECT") TC (Some (VC (sect i))) (blank named c)) in *.
  set (w1 := with_here _ _) in R1.
  assert (L1 : forall m, lookup m (variables (current c1)) <> None -> m = s2b "SYSECT").
  { intros m. unfold c1. rewrite add_system_var_lookup by reflexivity.
    destruct (bytes_eqb m (s2b "SYSECT")) eqn:E; [intros _; now apply bytes_eqb_eq|]. cbn. congruence. }
  assert (N1 : lookup (s2b "SYSNDX") (variables (current c1)) = None) by reflexivity.
  pose proof (add_system_var_ok _ _ (s2b "SYSNDX") TC (Some (VC (sysndx_value (SYSNDX_ c1)))) R1 N1) as R2.
  set (c2 := add_system_var (s2b "SYSNDX") TC _ c1) in *. set (w2 := with_here w1 _) in R2.
  assert (N2 : lookup (s2b "SYSSTYP") (variables (current c2)) = None) by reflexivity.
  pose proof (add_system_var_ok _ _ (s2b "SYSSTYP") TC (option_map VC (styp i)) R2 N2) as R3.
  set (c3 := add_system_var (s2b "SYSSTYP") TC _ c2) in *. set (w3 := with_here w2 _) in R3.
  assert (N3 : lookup (s2b "SYSLOC") (variables (current c3)) = None) by reflexivity.
  pose proof (add_system_var_ok _ _ (s2b "SYSLOC") TC (option_map VC (loc i)) R3 N3) as R4.
  set (c4 := add_system_var (s2b "SYSLOC") TC _ c3) in *. set (w4 := with_here w3 _) in R4.
  assert (N4 : lookup (s2b "SYSNEST") (variables (current c4)) = None) by reflexivity.
  pose proof (add_system_var_ok _ _ (s2b "SYSNEST") TA
    (Some (VA (as_int (Z.of_nat (length (scopes c4)) - 1)))) R4 N4) as R5.
  set (c5 := add_system_var (s2b "SYSNEST") TA _ c4) in *. set (w5 := with_here w4 _) in R5.
  assert (H5 : forall n, In n system_names -> lookup n (variables (current c5)) = None).
  { intros n Hn. cbn in Hn. repeat (destruct Hn as [<-|Hn]; [reflexivity|]). destruct Hn. }
  pose proof (add_globals_ok c5 w5 R5 H5) as R6. cbv zeta.
  apply count_call in R6.
  match type of R6 with rel ?C ?W =>
    pose proof (rel_ext C W (here (calls_macro named i w)) R6) as R7 end.
  apply R7. clear R7 R6. intros n. cbn [here]. unfold calls_macro, call_env, w5, w4, w3, w2, w1.
  cbn [with_here here blank_w]. unfold upd.
  assert (Hi : as_int (Z.of_nat (length (scopes c4)) - 1) = Z.of_nat (length (callers w)) + 1).
  { change (length (scopes c4)) with (length (scopes (blank named c))). cbn [scopes blank current outer length].
    rewrite (r_depth c w R). unfold as_int.
    replace (Z.of_nat (S (S (length (callers w)))) - 1) with (Z.of_nat (length (callers w)) + 1) by lia.
    rewrite Z.mod_small by lia. now replace (_ <? _) with true by lia. }
  assert (Hx : SYSNDX_ c1 = calls w) by apply (r_calls c w R).
  rewrite Hi, Hx. change (sysndx_value (calls w)) with (call_number (calls w)).
  assert (Hst : holds (option_map VC (styp i)) TC = match styp i with Some s => known (VC s) TC | None => fresh TC true end)
    by (destruct (styp i); reflexivity).
  assert (Hlo : holds (option_map VC (loc i)) TC = match loc i with Some s => known (VC s) TC | None => fresh TC true end)
    by (destruct (loc i); reflexivity).
  rewrite Hst, Hlo.
  destruct (bytes_eqb n (s2b "SYSECT")) eqn:E1; [apply bytes_eqb_eq in E1; subst n; reflexivity|].
  destruct (bytes_eqb n (s2b "SYSNDX")) eqn:E2; [apply bytes_eqb_eq in E2; subst n; reflexivity|].
  destruct (bytes_eqb n (s2b "SYSSTYP")) eqn:E3; [apply bytes_eqb_eq in E3; subst n; reflexivity|].
  destruct (bytes_eqb n (s2b "SYSLOC")) eqn:E4; [apply bytes_eqb_eq in E4; subst n; reflexivity|].
  destruct (bytes_eqb n (s2b "SYSNEST")) eqn:E5; [apply bytes_eqb_eq in E5; subst n; reflexivity|].
  reflexivity.
Qed.

Theorem RETURN_ok : forall c w, rel c w -> rel (leave_macro c) (returns w).
Proof.
  intros c w R. pose proof R as [R1 R2 R3 R4 R5 R6]. unfold leave_macro, returns.
  destruct (outer c) as [|s r] eqn:Eo, (callers w) as [|e es] eqn:Ec; cbn in R2; try discriminate; [exact R|].
  set (c' := {| heap := heap c; globals := globals c; current := s; outer := r; SYSNDX_ := SYSNDX_ c |}).
  assert (U : forall k n a, uses c' k n a -> uses c (S k) n a).
  { intros k n a (s' & Hs & Hl). exists s'. split; [|exact Hl]. cbn [scopes nth_error]. rewrite Eo. exact Hs. }
  destruct R1 as [I1 I2 I3 I4 I5]. constructor; auto.
  - constructor; auto.
    + intros k n a H. apply U in H. now apply (I1 (S k) n).
    + intros k n k' n' a H H'. apply U in H, H'. destruct (I4 _ _ _ _ _ H H') as [[E ->]|E]; auto.
    + intros k n m a H. apply U in H. now apply (I5 (S k)).
  - intros k s' e' Hs He n. apply (R3 (S k) s' e').
    + cbn [scopes nth_error]. rewrite Eo. exact Hs.
    + exact He.
Qed.

(** ** The start *)
Lemma start_ok : forall i, rel (initial i) (start i).
Proof.
  intros i. unfold initial. cbv zeta. cbn [fold_left]. unfold add_system_global at 1 2 3 4 5.
  cbn [fst snd make_shared heap globals current outer SYSNDX_ insert_global length app].
  match goal with |- rel (fold_left _ _ ?C) _ => set (c := C) end.
  assert (R : rel c {| shared := shared (start i); here := fun _ => None; callers := []; calls := 0%N |}).
  { constructor.
    - constructor.
      + intros [|[|k]] n a (s & Hs & Hl); cbn in Hs; try discriminate. injection Hs as <-. discriminate.
      + intros n a H. cbn [c globals lookup insert] in H. unfold insert in H. cbn [lookup] in H.
        change (length (heap c)) with 5%nat. cbn in H.
        repeat (match type of H with (if ?b then _ else _) = _ => destruct b end; [injection H as <-; lia|]).
        discriminate.
      + intros n m a H H'.
        change (globals c) with [(s2b "SYSOPT_RENT", 4%nat); (s2b "SYSPARM", 3%nat); (s2b "SYSTIME", 2%nat);
                                 (s2b "SYSDATE", 1%nat); (s2b "SYSDATC", 0%nat)] in *.
        cbn [lookup] in H, H'.
        repeat match type of H with (if bytes_eqb ?x ?y then _ else _) = _ =>
          let E := fresh "E" in destruct (bytes_eqb x y) eqn:E; [apply bytes_eqb_eq in E; injection H as <-|] end;
        try discriminate;
        repeat match type of H' with (if bytes_eqb ?x ?y then _ else _) = _ =>
          let E := fresh "E" in destruct (bytes_eqb x y) eqn:E; [apply bytes_eqb_eq in E; try discriminate; congruence|] end;
        discriminate.
      + intros [|[|k]] n k' n' a (s & Hs & Hl); cbn in Hs; try discriminate. injection Hs as <-. discriminate.
      + intros [|[|k]] n m a (s & Hs & Hl); cbn in Hs; try discriminate. injection Hs as <-. discriminate.
    - reflexivity.
    - intros [|[|k]] s e Hs He n; cbn in Hs, He; try discriminate. injection Hs as <-. injection He as <-. reflexivity.
    - intros n.
      change (globals c) with [(s2b "SYSOPT_RENT", 4%nat); (s2b "SYSPARM", 3%nat); (s2b "SYSTIME", 2%nat);
                               (s2b "SYSDATE", 1%nat); (s2b "SYSDATC", 0%nat)].
      cbn [lookup shared start].
      assert (K : forall s, sym_ok (set_value (new_sym TC true) (VC s) 0) (known (VC s) TC))
        by (intros s; apply (sym_ok_set (new_sym TC true) (fresh TC true) (VC s) 1); [apply sym_ok_new|discriminate]).
      destruct (bytes_eqb n (s2b "SYSOPT_RENT")) eqn:E1.
      { apply bytes_eqb_eq in E1. subst n. apply sym_ok_new. }
      destruct (bytes_eqb n (s2b "SYSPARM")) eqn:E2.
      { apply bytes_eqb_eq in E2. subst n. apply K. }
      destruct (bytes_eqb n (s2b "SYSTIME")) eqn:E3.
      { apply bytes_eqb_eq in E3. subst n. apply K. }
      destruct (bytes_eqb n (s2b "SYSDATE")) eqn:E4.
      { apply bytes_eqb_eq in E4. subst n. apply K. }
      destruct (bytes_eqb n (s2b "SYSDATC")) eqn:E5.
      { apply K. }
      exact Logic.I.
    - reflexivity.
    - intros n Hn. cbn in Hn. repeat (destruct Hn as [<-|Hn]; [discriminate|]). destruct Hn. }
  pose proof (add_globals_ok c _ R ltac:(intros n _; reflexivity)) as R'.
  match type of R' with rel ?C ?W => pose proof (rel_ext C W (here (start i)) R' (fun n => eq_refl)) as R2 end.
  exact R2.
Qed.

(** ** Runs *)
Theorem exec_ok : forall s c w, rel c w -> small s ->
  (match s with CALL _ _ => Z.of_nat (length (callers w)) + 1 < 2 ^ 31 | _ => True end) ->
  fst (exec c s) = fst (does w s) /\ rel (snd (exec c s)) (snd (does w s)).
Proof.
  intros [t n sub ops|g t ops|named i|] c w R Hs Hd; cbn [exec does].
  - now apply SET_ok.
  - now apply DECL_ok.
  - split; [reflexivity|]. now apply CALL_ok.
  - split; [reflexivity|]. now apply RETURN_ok.
Qed.

Lemma replace_callers : forall w n v, callers (replace w n v) = callers w.
Proof. intros. unfold replace. destruct (here w n) as [[?| |]|]; reflexivity. Qed.
Lemma assign_all_callers : forall n es i w, callers (assign_all n i es w) = callers w.
Proof.
  induction es as [|e es IH]; intros i w; [reflexivity|]. cbn [assign_all].
  destruct (symbol w n); [|reflexivity]. rewrite IH. apply replace_callers.
Qed.
Lemma declare_callers : forall g t n b w, callers (declare g t n b w) = callers w.
Proof. intros [|] t n b w; reflexivity. Qed.
Lemma declare_all_callers : forall g t ops w w', snd (declare_all g t ops w) = Some w' -> callers w' = callers w.
Proof.
  induction ops as [|[| |n sub] ops IH]; intros w w' H; cbn [declare_all] in H.
  - injection H as <-. reflexivity.
  - now apply IH.
  - discriminate.
  - destruct n as [|x xs]; [now apply IH|]. destruct (here w (x :: xs)) as [[v| |]|].
    + destruct (declare_all g t ops w) as [ds y] eqn:E. apply (IH w). now rewrite E.
    + destruct (declare_all g t ops w) as [ds y] eqn:E. apply (IH w). now rewrite E.
    + destruct (declare_all g t ops w) as [ds y] eqn:E. apply (IH w). now rewrite E.
    + rewrite (IH _ _ H). apply declare_callers.
Qed.
Lemma does_callers : forall w s, callers (snd (does w s)) =
  match s with CALL _ _ => here w :: callers w | RETURN => tl (callers w) | _ => callers w end.
Proof.
  intros w [t n sub ops|g t ops|named i|]; cbn [does].
  - assert (G : forall i w', callers w' = callers w ->
      callers (snd (if existsb not_expr ops then ([E012_operand], w')
         else match given ops with [] => ([E022], w') | es => ([], assign_all n i es w') end)) = callers w).
    { intros i w' H. destruct (existsb not_expr ops); [exact H|].
      destruct (given ops); [exact H|]. cbn [snd]. now rewrite assign_all_callers. }
    unfold assigns.
    destruct (here w n) as [[v0| |]|]; try reflexivity;
    (destruct sub as [|i [|j sub]]; [| |reflexivity];
     [destruct (symbol w n) as [v|]; [destruct (negb _); [reflexivity|]; destruct (v_scalar v); [apply G; reflexivity|reflexivity]
                                     |apply G; reflexivity]
     |destruct (i <? 1); [reflexivity|];
      destruct (symbol w n) as [v|]; [destruct (negb _); [reflexivity|]; destruct (v_scalar v); [reflexivity|apply G; reflexivity]
                                     |apply G; reflexivity]]).
  - unfold declares. destruct (declare_all g t ops w) as [ds [w'|]] eqn:E; [|reflexivity].
    cbn [snd]. apply (declare_all_callers g t ops). now rewrite E.
  - reflexivity.
  - unfold returns. destruct (callers w) eqn:E; [exact E|reflexivity].
Qed.

Theorem run_ok : forall l c w, rel c w -> Forall small l -> shallow (Z.of_nat (length (callers w))) l ->
  rel (run c l) (history w l).
Proof.
  induction l as [|s l IH]; intros c w R Hs Hd; [exact R|].
  inversion Hs as [|? ? Hs1 Hs2]; subst. cbn [run history].
  assert (Hc : match s with CALL _ _ => Z.of_nat (length (callers w)) + 1 < 2 ^ 31 | _ => True end)
    by (destruct s; auto; cbn [shallow] in Hd; tauto).
  destruct (exec_ok s c w R Hs1 Hc) as [_ R']. apply IH; [exact R'|exact Hs2|].
  rewrite does_callers. destruct s; cbn [shallow] in Hd; auto.
  - cbn [length]. destruct Hd as [_ Hd]. replace (Z.of_nat (S (length (callers w)))) with (Z.of_nat (length (callers w)) + 1) by lia.
    exact Hd.
  - destruct (callers w) as [|e es]; cbn [tl length] in *.
    + exact Hd.
    + replace (Z.of_nat (length es)) with (Z.max 0 (Z.of_nat (S (length es)) - 1)) by lia. exact Hd.
Qed.

Lemma shallow_app : forall l s d, shallow d (l ++ [s]) -> shallow d l.
Proof.
  induction l as [|x l IH]; intros s d H; [exact Logic.I|]. cbn [app shallow] in *. destruct x; try (now apply (IH s)).
  destruct H as [H1 H2]. split; [exact H1|]. now apply (IH s).
Qed.
