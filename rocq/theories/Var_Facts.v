(** Consequences of the correspondence for single steps, calls and whole runs. *)
From Coq Require Import List NArith ZArith Bool Lia.
From Coq Require Import ZifyBool ZifyNat ZifyN.
From Verif Require Import Common Var_Model Var_Spec Var_Proof Var_Run.
Import ListNotations.
Open Scope Z_scope.

(** The states a program can reach. *)
Definition reachable (c : ctx) : Prop :=
  exists i l, Forall small l /\ shallow 0 l /\ c = run (initial i) l.
Lemma reachable_rel : forall c, reachable c -> exists w, rel c w.
Proof.
  intros c (i & l & H1 & H2 & ->). exists (history (start i) l). apply run_ok; [apply start_ok|exact H1|exact H2].
Qed.

(** ** One assignment *)
Lemma upd_same : forall {A} (f : name -> option A) n x, upd f n x n = Some x.
Proof. intros. unfold upd. now rewrite bytes_eqb_refl. Qed.
Lemma upd_other : forall {A} (f : name -> option A) n x m, m <> n -> upd f n x m = f m.
Proof.
  intros A f n x m H. unfold upd. destruct (bytes_eqb m n) eqn:E; [|reflexivity]. apply bytes_eqb_eq in E. contradiction.
Qed.
Lemma replace_same : forall w n v, symbol (replace w n v) n = Some v.
Proof.
  intros w n v. unfold replace, symbol. destruct (here w n) as [[v0| |]|] eqn:E; cbn [here with_here shared];
    try (rewrite upd_same; reflexivity). rewrite E. apply upd_same.
Qed.
Lemma replace_here : forall w n v m, m <> n -> here (replace w n v) m = here w m.
Proof.
  intros w n v m H. unfold replace. destruct (here w n) as [[v0| |]|]; cbn [here with_here]; try reflexivity; now apply upd_other.
Qed.
Lemma replace_shared : forall w n v m, m <> n -> shared (replace w n v) m = shared w m.
Proof.
  intros w n v m H. unfold replace. destruct (here w n) as [[v0| |]|]; cbn [shared with_here]; try reflexivity; now apply upd_other.
Qed.
Lemma assign_all_here : forall n es i w m, m <> n -> here (assign_all n i es w) m = here w m.
Proof.
  induction es as [|e es IH]; intros i w m H; [reflexivity|]. cbn [assign_all].
  destruct (symbol w n); [|reflexivity]. rewrite IH by exact H. now apply replace_here.
Qed.
Lemma assign_all_shared : forall n es i w m, m <> n -> shared (assign_all n i es w) m = shared w m.
Proof.
  induction es as [|e es IH]; intros i w m H; [reflexivity|]. cbn [assign_all].
  destruct (symbol w n); [|reflexivity]. rewrite IH by exact H. now apply replace_shared.
Qed.
Lemma assigns_other : forall t n sub ops w m, m <> n ->
  here (snd (assigns t n sub ops w)) m = here w m /\ shared (snd (assigns t n sub ops w)) m = shared w m.
Proof.
  intros t n sub ops w m H.
  assert (G : forall i w', here w' m = here w m -> shared w' m = shared w m ->
    let r := snd (if existsb not_expr ops then ([E012_operand], w')
         else match given ops with [] => ([E022], w') | es => ([], assign_all n i es w') end) in
    here r m = here w m /\ shared r m = shared w m).
  { intros i w' H1 H2. destruct (existsb not_expr ops); [auto|]. destruct (given ops); [auto|].
    cbn [snd]. rewrite assign_all_here, assign_all_shared by exact H. auto. }
  assert (G' : forall b i, let r := snd (let w' := with_here w (upd (here w) n (Local (fresh t b))) in
         if existsb not_expr ops then ([E012_operand], w')
         else match given ops with [] => ([E022], w') | es => ([], assign_all n i es w') end) in
    here r m = here w m /\ shared r m = shared w m).
  { intros b i. apply G; cbn [here shared with_here]; [now apply upd_other|reflexivity]. }
  unfold assigns. destruct (here w n) as [[v0| |]|]; auto;
    (destruct sub as [|i [|j sub]]; [| |auto];
     [destruct (symbol w n) as [v|]; [destruct (negb _); [auto|]; destruct (v_scalar v); [apply G; reflexivity|auto]
                                     |apply G']
     |destruct (i <? 1); [auto|];
      destruct (symbol w n) as [v|]; [destruct (negb _); [auto|]; destruct (v_scalar v); [auto|apply G; reflexivity]
                                     |apply G']]).
Qed.

(** ** Constants *)
Fixpoint log_of (i : Z) (vs : list val) (log : list (Z * val)) : list (Z * val) :=
  match vs with [] => log | v :: r => log_of (i + 1) r ((i, v) :: log) end.
Lemma latest_log_of : forall vs i log j,
  latest j (log_of i vs log) =
  if (i <=? j) && (j <? i + Z.of_nat (length vs)) then nth_error vs (Z.to_nat (j - i)) else latest j log.
Proof.
  induction vs as [|v vs IH]; intros i log j; cbn [log_of length].
  - now replace ((i <=? j) && (j <? i + Z.of_nat 0)) with false by lia.
  - rewrite IH. cbn [latest]. destruct (j =? i) eqn:E.
    + replace ((i + 1 <=? j) && (j <? i + 1 + Z.of_nat (length vs))) with false by lia.
      replace ((i <=? j) && (j <? i + Z.of_nat (S (length vs)))) with true by lia.
      replace (Z.to_nat (j - i)) with 0%nat by lia. reflexivity.
    + destruct ((i + 1 <=? j) && (j <? i + 1 + Z.of_nat (length vs))) eqn:E2.
      * replace ((i <=? j) && (j <? i + Z.of_nat (S (length vs)))) with true by lia.
        replace (Z.to_nat (j - i)) with (S (Z.to_nat (j - (i + 1)))) by lia. reflexivity.
      * now replace ((i <=? j) && (j <? i + Z.of_nat (S (length vs)))) with false by lia.
Qed.
Lemma highest_log_of : forall vs i log, vs <> [] -> 1 <= i ->
  fold_right (fun p h => Z.max (fst p) h) 0 (log_of i vs log) =
  Z.max (i + Z.of_nat (length vs) - 1) (fold_right (fun p h => Z.max (fst p) h) 0 log).
Proof.
  induction vs as [|v vs IH]; intros i log Hn Hi; [contradiction|]. cbn [log_of length].
  destruct vs as [|v' vs].
  - cbn [log_of fold_right fst length]. lia.
  - rewrite IH by (discriminate || lia). cbn [fold_right fst length]. lia.
Qed.

Definition consts (vs : list val) : list operand := List.map (fun v => Expr (Ret v)) vs.
Lemma given_consts : forall vs, given (consts vs) = List.map Ret vs.
Proof. induction vs as [|v vs IH]; cbn; [reflexivity|]. now f_equal. Qed.
Lemma consts_expr : forall vs, existsb not_expr (consts vs) = false.
Proof. induction vs as [|v vs IH]; cbn; auto. Qed.

Lemma assign_array : forall n vs i w v, symbol w n = Some v -> v_scalar v = false ->
  symbol (assign_all n i (List.map Ret vs) w) n =
  Some {| v_type := v_type v; v_scalar := false; v_log := log_of i vs (v_log v) |}.
Proof.
  induction vs as [|x vs IH]; intros i w v H Hs; cbn [List.map assign_all log_of].
  - rewrite H. destruct v; cbn in *; now subst.
  - rewrite H, Hs. cbn [meaning].
    rewrite (IH (i + 1) _ (assigned v i x)); [reflexivity|apply replace_same|exact Hs].
Qed.
Lemma assign_scalar : forall n vs i w v d, symbol w n = Some v -> v_scalar v = true -> vs <> [] ->
  exists v', symbol (assign_all n i (List.map Ret vs) w) n = Some v' /\ v_scalar v' = true /\ v_type v' = v_type v /\
    content v' 0 = last vs d.
Proof.
  induction vs as [|x vs IH]; intros i w v d H Hs Hn; [contradiction|]. cbn [List.map assign_all]. rewrite H, Hs. cbn [meaning].
  destruct vs as [|y vs].
  - cbn [List.map assign_all last]. exists (assigned v 0 x). rewrite replace_same. auto.
  - destruct (IH (i + 1) (replace w n (assigned v 0 x)) (assigned v 0 x) d) as (v' & H1 & H2 & H3 & H4);
      [apply replace_same|exact Hs|discriminate|].
    exists v'. auto.
Qed.

(** What an accepted assignment of constants does to the symbol. *)
Lemma assigns_array : forall t n i vs w, (here w n = Some Shared -> shared w n <> None) -> fst (assigns t n [i] (consts vs) w) = [] ->
  exists log, 1 <= i /\ vs <> [] /\
    (symbol w n = Some {| v_type := t; v_scalar := false; v_log := log |} \/ symbol w n = None /\ here w n = None /\ log = []) /\
    symbol (snd (assigns t n [i] (consts vs) w)) n =
      Some {| v_type := t; v_scalar := false; v_log := log_of i vs log |}.
Proof.
  intros t n i vs w Hwf. unfold assigns. rewrite given_consts, consts_expr.
  destruct (i <? 1) eqn:Ei; [destruct (here w n) as [[?| |]|]; discriminate|].
  destruct (symbol w n) as [v|] eqn:Ev.
  - assert (Hh : here w n <> Some Formal) by (intros E; unfold symbol in Ev; rewrite E in Ev; discriminate).
    intros H. exists (v_log v). revert H.
    assert (K : fst (if negb (ty_eqb (v_type v) t) then ([E013_type], w)
                 else if v_scalar v then ([E013_subscript], w)
                 else match List.map Ret vs with [] => ([E022], w) | e :: es => ([], assign_all n i (e :: es) w) end) = [] ->
       1 <= i /\ vs <> [] /\ v = {| v_type := t; v_scalar := false; v_log := v_log v |} /\
       symbol (snd (if negb (ty_eqb (v_type v) t) then ([E013_type], w)
                 else if v_scalar v then ([E013_subscript], w)
                 else match List.map Ret vs with [] => ([E022], w) | e :: es => ([], assign_all n i (e :: es) w) end)) n =
         Some {| v_type := t; v_scalar := false; v_log := log_of i vs (v_log v) |}).
    { destruct (negb (ty_eqb (v_type v) t)) eqn:Et; [discriminate|].
      assert (v_type v = t) by (destruct (v_type v), t; cbn in Et; congruence).
      destruct (v_scalar v) eqn:Es; [discriminate|].
      destruct vs as [|x vs]; [discriminate|]. intros _. refine (conj _ (conj _ (conj _ _))); [lia|discriminate| |].
      - destruct v; cbn in *; now subst.
      - subst t. apply (assign_array n (x :: vs) i w v); assumption. }
    intros H. destruct (here w n) as [[?| |]|] eqn:Eh; try contradiction;
      destruct (K H) as (K1 & K2 & K3 & K4); (refine (conj K1 (conj K2 (conj _ K4)))); left; now rewrite <- K3.
  - intros H. exists [].
    assert (K : fst (match List.map Ret vs with
                     | [] => ([E022], with_here w (upd (here w) n (Local (fresh t false))))
                     | e :: es => ([], assign_all n i (e :: es) (with_here w (upd (here w) n (Local (fresh t false))))) end) = [] ->
        1 <= i /\ vs <> [] /\
        symbol (snd (match List.map Ret vs with
                     | [] => ([E022], with_here w (upd (here w) n (Local (fresh t false))))
                     | e :: es => ([], assign_all n i (e :: es) (with_here w (upd (here w) n (Local (fresh t false))))) end)) n =
        Some {| v_type := t; v_scalar := false; v_log := log_of i vs [] |}).
    { destruct vs as [|x vs]; [discriminate|]. intros _. refine (conj _ (conj _ _)); [lia|discriminate|].
      apply (assign_array n (x :: vs) i _ (fresh t false)); [|reflexivity].
      unfold symbol. cbn [here with_here]. now rewrite upd_same. }
    unfold symbol in Ev. destruct (here w n) as [[?| |]|] eqn:Eh; try discriminate.
    + exfalso. now apply Hwf.
    + destruct (K H) as (K1 & K2 & K4). refine (conj K1 (conj K2 (conj _ K4))). right. auto.
Qed.

Lemma assigns_scalar : forall t n vs w d, (here w n = Some Shared -> shared w n <> None) ->
  fst (assigns t n [] (consts vs) w) = [] ->
  vs <> [] /\ exists v, symbol (snd (assigns t n [] (consts vs) w)) n = Some v /\ v_scalar v = true /\ v_type v = t /\
    content v 0 = last vs d.
Proof.
  intros t n vs w d Hwf. unfold assigns. rewrite given_consts, consts_expr.
  destruct (symbol w n) as [v|] eqn:Ev.
  - assert (Hh : here w n <> Some Formal) by (intros E; unfold symbol in Ev; rewrite E in Ev; discriminate).
    assert (K : fst (if negb (ty_eqb (v_type v) t) then ([E013_type], w)
                 else if v_scalar v then match List.map Ret vs with [] => ([E022], w) | e :: es => ([], assign_all n 0 (e :: es) w) end
                 else ([E013_subscript], w)) = [] ->
       vs <> [] /\ exists v', 
       symbol (snd (if negb (ty_eqb (v_type v) t) then ([E013_type], w)
                 else if v_scalar v then match List.map Ret vs with [] => ([E022], w) | e :: es => ([], assign_all n 0 (e :: es) w) end
                 else ([E013_subscript], w))) n =
         Some v' /\ v_scalar v' = true /\ v_type v' = t /\ content v' 0 = last vs d).
    { destruct (negb (ty_eqb (v_type v) t)) eqn:Et; [discriminate|].
      assert (v_type v = t) by (destruct (v_type v), t; cbn in Et; congruence).
      destruct (v_scalar v) eqn:Es; [|discriminate].
      destruct vs as [|x vs]; [discriminate|]. intros _. split; [discriminate|]. subst t.
      apply (assign_scalar n (x :: vs) 0 w v d); [assumption|assumption|discriminate]. }
    intros H. destruct (here w n) as [[?| |]|] eqn:Eh; try contradiction; apply K; exact H.
  - assert (K : fst (match List.map Ret vs with
                     | [] => ([E022], with_here w (upd (here w) n (Local (fresh t true))))
                     | e :: es => ([], assign_all n 0 (e :: es) (with_here w (upd (here w) n (Local (fresh t true))))) end) = [] ->
        vs <> [] /\ exists v', 
        symbol (snd (match List.map Ret vs with
                     | [] => ([E022], with_here w (upd (here w) n (Local (fresh t true))))
                     | e :: es => ([], assign_all n 0 (e :: es) (with_here w (upd (here w) n (Local (fresh t true))))) end)) n =
        Some v' /\ v_scalar v' = true /\ v_type v' = t /\ content v' 0 = last vs d).
    { destruct vs as [|x vs]; [discriminate|]. intros _. split; [discriminate|].
      apply (assign_scalar n (x :: vs) 0 _ (fresh t true) d); [|reflexivity|discriminate].
      unfold symbol. cbn [here with_here]. now rewrite upd_same. }
    intros H. unfold symbol in Ev. destruct (here w n) as [[?| |]|] eqn:Eh; try discriminate.
    + exfalso. now apply Hwf.
    + apply K; exact H.
Qed.

Lemma rel_wf : forall c w n, rel c w -> here w n = Some Shared -> shared w n <> None.
Proof.
  intros c w n R H. pose proof (r_here c w R n) as E. pose proof (r_shared c w R n) as S. unfold entry_ok in E.
  rewrite H in E. destruct (lookup n (variables (current c))) as [a|]; [|contradiction]. rewrite E in S.
  destruct (shared w n); [discriminate|contradiction].
Qed.
Lemma reads_symbol : forall w n v sub, symbol w n = Some v ->
  reads w n sub = match sub with
                  | [] => if v_scalar v then Value (content v 0) else Undef E013_subscript
                  | [i] => if v_scalar v then Undef E013_subscript
                           else if 1 <=? i then Value (content v i) else Undef E012_subscript
                  | _ => Undef E020
                  end.
Proof.
  intros w n v sub H. unfold reads. rewrite H. unfold symbol in H.
  destruct (here w n) as [[?| |]|]; try discriminate; reflexivity.
Qed.
Lemma reads_same : forall w w' n sub, here w n = here w' n -> shared w n = shared w' n -> reads w n sub = reads w' n sub.
Proof. intros w w' n sub H1 H2. unfold reads, symbol. now rewrite H1, H2. Qed.
Lemma count_same : forall w w' n, here w n = here w' n -> shared w n = shared w' n -> count_of w n = count_of w' n.
Proof. intros w w' n H1 H2. unfold count_of, symbol. now rewrite H1, H2. Qed.

(** ** Declarations *)
Lemma declare_all_keeps : forall g t ops w w' m e, snd (declare_all g t ops w) = Some w' -> here w m = Some e ->
  here w' m = Some e.
Proof.
  induction ops as [|[| |n sub] ops IH]; intros w w' m e H He; cbn [declare_all] in H.
  - injection H as <-. exact He.
  - now apply (IH w).
  - discriminate.
  - destruct n as [|x xs]; [now apply (IH w)|].
    destruct (here w (x :: xs)) as [[v| |]|] eqn:Eh;
      try (destruct (declare_all g t ops w) as [ds y] eqn:E; apply (IH w); [now rewrite E|exact He]).
    apply (IH _ _ _ _ H). assert (m <> x :: xs) by congruence.
    unfold declare. destruct g; cbn [here with_here]; now rewrite upd_other.
Qed.
Lemma declare_all_shared : forall g t ops w w' m v, snd (declare_all g t ops w) = Some w' -> shared w m = Some v ->
  shared w' m = Some v.
Proof.
  induction ops as [|[| |n sub] ops IH]; intros w w' m v H He; cbn [declare_all] in H.
  - injection H as <-. exact He.
  - now apply (IH w).
  - discriminate.
  - destruct n as [|x xs]; [now apply (IH w)|].
    destruct (here w (x :: xs)) as [[v0| |]|] eqn:Eh;
      try (destruct (declare_all g t ops w) as [ds y] eqn:E; apply (IH w); [now rewrite E|exact He]).
    apply (IH _ _ _ _ H). unfold declare. destruct g; cbn [shared with_here]; [|exact He].
    destruct (shared w (x :: xs)) eqn:Es; [exact He|]. rewrite upd_other by congruence. exact He.
Qed.
Lemma declares_keeps : forall g t ops w m e, here w m = Some e -> here (snd (declares g t ops w)) m = Some e.
Proof.
  intros g t ops w m e H. unfold declares. destruct (declare_all g t ops w) as [ds [w'|]] eqn:E; [|exact H].
  cbn [snd]. apply (declare_all_keeps g t ops w); [now rewrite E|exact H].
Qed.

(** ** Calls and returns *)
(** A macro body: the calls it makes return, and it does not return itself. *)
Fixpoint body (depth : nat) (l : list step) : Prop :=
  match l with
  | [] => depth = 0%nat
  | CALL _ _ :: r => body (S depth) r
  | RETURN :: r => match depth with O => False | S d => body d r end
  | _ :: r => body depth r
  end.

Lemma history_callers : forall l d w, (d <= length (callers w))%nat -> body d l ->
  callers (history w l) = skipn d (callers w).
Proof.
  induction l as [|s l IH]; intros d w Hd Hb; cbn [body history] in *; [now subst d|].
  pose proof (does_callers w s) as C. destruct s as [t n sub ops|g t ops|named i|].
  - rewrite (IH d) by (rewrite ?C; assumption). now rewrite C.
  - rewrite (IH d) by (rewrite ?C; assumption). now rewrite C.
  - rewrite (IH (S d)) by (rewrite ?C; cbn [length]; (lia || assumption)). now rewrite C.
  - destruct d as [|d]; [contradiction|]. destruct (callers w) as [|e es] eqn:Ec; [cbn in Hd; lia|].
    rewrite (IH d) by (rewrite ?C; cbn [tl length] in *; (lia || assumption)). now rewrite C.
Qed.
Lemma history_app : forall l1 l2 w, history w (l1 ++ l2) = history (history w l1) l2.
Proof. induction l1 as [|s l1 IH]; intros l2 w; cbn; auto. Qed.
Lemma run_app : forall l1 l2 c, run c (l1 ++ l2) = run (run c l1) l2.
Proof. induction l1 as [|s l1 IH]; intros l2 c; cbn; auto. Qed.

Lemma call_returns : forall named i l w, body 0 l ->
  here (history w (CALL named i :: l ++ [RETURN])) = here w /\
  callers (history w (CALL named i :: l ++ [RETURN])) = callers w.
Proof.
  intros named i l w Hb. cbn [history]. rewrite history_app. cbn [history does snd].
  pose proof (history_callers l 0 (calls_macro named i w) ltac:(lia) Hb) as C. cbn [skipn calls_macro callers] in C.
  unfold returns. rewrite C. split; reflexivity.
Qed.

(** ** The number and the depth of calls *)
Fixpoint count_calls (l : list step) : N :=
  match l with [] => 0%N | CALL _ _ :: r => (1 + count_calls r)%N | _ :: r => count_calls r end.
(** The numbers of the active calls, the innermost first. *)
Fixpoint active (made : N) (stack : list N) (l : list step) : list N :=
  match l with
  | [] => stack
  | CALL _ _ :: r => active (made + 1) (made :: stack) r
  | RETURN :: r => active made (tl stack) r
  | _ :: r => active made stack r
  end.
Definition leaves (n : name) (s : step) : Prop := match s with SET _ m _ _ => m <> n | _ => True end.

Lemma assigns_calls : forall n es i w, calls (assign_all n i es w) = calls w.
Proof.
  induction es as [|e es IH]; intros i w; [reflexivity|]. cbn [assign_all].
  destruct (symbol w n); [|reflexivity]. rewrite IH. unfold replace. destruct (here w n) as [[?| |]|]; reflexivity.
Qed.
Lemma declare_all_calls : forall g t ops w w', snd (declare_all g t ops w) = Some w' -> calls w' = calls w.
Proof.
  induction ops as [|[| |n sub] ops IH]; intros w w' H; cbn [declare_all] in H.
  - now injection H as <-.
  - now apply IH.
  - discriminate.
  - destruct n as [|x xs]; [now apply IH|].
    destruct (here w (x :: xs)) as [[v| |]|];
      try (destruct (declare_all g t ops w) as [ds y] eqn:E; apply (IH w); now rewrite E).
    rewrite (IH _ _ H). destruct g; reflexivity.
Qed.
Lemma does_calls : forall w s, calls (snd (does w s)) = match s with CALL _ _ => (calls w + 1)%N | _ => calls w end.
Proof.
  intros w [t n sub ops|g t ops|named i|]; cbn [does].
  - assert (G : forall i w', calls w' = calls w ->
      calls (snd (if existsb not_expr ops then ([E012_operand], w')
         else match given ops with [] => ([E022], w') | es => ([], assign_all n i es w') end)) = calls w).
    { intros i w' H. destruct (existsb not_expr ops); [exact H|].
      destruct (given ops); [exact H|]. cbn [snd]. now rewrite assigns_calls. }
    unfold assigns.
    destruct (here w n) as [[v0| |]|]; try reflexivity;
    (destruct sub as [|i [|j sub]]; [| |reflexivity];
     [destruct (symbol w n) as [v|]; [destruct (negb _); [reflexivity|]; destruct (v_scalar v); [apply G; reflexivity|reflexivity]
                                     |apply G; reflexivity]
     |destruct (i <? 1); [reflexivity|];
      destruct (symbol w n) as [v|]; [destruct (negb _); [reflexivity|]; destruct (v_scalar v); [reflexivity|apply G; reflexivity]
                                     |apply G; reflexivity]]).
  - unfold declares. destruct (declare_all g t ops w) as [ds [w'|]] eqn:E; [|reflexivity].
    cbn [snd]. apply (declare_all_calls g t ops). now rewrite E.
  - reflexivity.
  - unfold returns. destruct (callers w); reflexivity.
Qed.

(** The environments of the active calls. *)
Definition ndx_ok (k : N) (depth : nat) (e : env) : Prop :=
  e (s2b "SYSNDX") = Some (Local (known (VC (call_number k)) TC)) /\
  e (s2b "SYSNEST") = Some (Local (known (VA (Z.of_nat depth)) TA)).
Fixpoint frames_ok (ks : list N) (es : list env) : Prop :=
  match ks, es with
  | [], [_] => True
  | k :: ks', e :: es' => ndx_ok k (length ks) e /\ frames_ok ks' es'
  | _, _ => False
  end.
Lemma frames_length : forall ks es, frames_ok ks es -> length es = S (length ks).
Proof.
  induction ks as [|k ks IH]; intros [|e es] H; cbn in *; try contradiction; [destruct es; [reflexivity|contradiction]|].
  destruct H as [_ H]. now rewrite (IH _ H).
Qed.
Lemma frames_swap : forall ks e e' es, frames_ok ks (e :: es) ->
  (forall n, n = s2b "SYSNDX" \/ n = s2b "SYSNEST" -> forall x, e n = Some x -> e' n = Some x) -> frames_ok ks (e' :: es).
Proof.
  intros [|k ks] e e' es H H'; cbn [frames_ok] in *; [exact H|]. destruct H as [[H1 H2] H3].
  split; [|exact H3]. split; apply H'; auto.
Qed.

Lemma numbers_ok : forall l w ks, Forall (leaves (s2b "SYSNDX")) l -> Forall (leaves (s2b "SYSNEST")) l ->
  frames_ok ks (here w :: callers w) ->
  frames_ok (active (calls w) ks l) (here (history w l) :: callers (history w l)) /\
  calls (history w l) = (calls w + count_calls l)%N.
Proof.
  induction l as [|s l IH]; intros w ks H1 H2 H; cbn [active history count_calls]; [split; [exact H|lia]|].
  inversion H1 as [|? ? L1 L1']; inversion H2 as [|? ? L2 L2']; subst.
  pose proof (does_callers w s) as C. pose proof (does_calls w s) as N.
  destruct s as [t n sub ops|g t ops|named i|]; cbn [leaves] in *.
  - rewrite <- N. apply IH; auto. rewrite C. apply (frames_swap ks (here w)); [exact H|].
    intros m [->| ->] x Hx; cbn [does]; rewrite <- Hx; apply assigns_other; congruence.
  - rewrite <- N. apply IH; auto. rewrite C. apply (frames_swap ks (here w)); [exact H|].
    intros m _ x Hx. cbn [does]. now apply declares_keeps.
  - destruct (IH (snd (does w (CALL named i))) (calls w :: ks) L1' L2') as [I1 I2].
    + rewrite C. cbn [frames_ok]. split; [|exact H]. apply frames_length in H. cbn [length] in H.
      split; [reflexivity|]. cbn [does snd calls_macro here call_env].
      replace (Z.of_nat (length (calls w :: ks))) with (Z.of_nat (length (callers w)) + 1) by (cbn [length]; lia).
      reflexivity.
    + rewrite N in *. split; [exact I1|]. rewrite I2. lia.
  - rewrite <- N. apply IH; auto. rewrite C. cbn [does snd returns]. unfold returns.
    destruct ks as [|k ks].
    + cbn [frames_ok] in H. destruct (callers w) as [|e es] eqn:Ec; [|contradiction]. cbn [tl]. exact Logic.I.
    + cbn [frames_ok] in H. destruct H as [_ H]. destruct (callers w) as [|e es] eqn:Ec.
      * destruct ks; contradiction.
      * cbn [here tl callers]. exact H.
Qed.

Lemma call_number_digits : forall n, (4 <= length (call_number n))%nat.
Proof. intros n. unfold call_number. rewrite app_length, repeat_length. lia. Qed.
Lemma zeros_value : forall k ds, dec_val (repeat 48%N k ++ ds) = dec_val ds.
Proof. intros k ds. unfold dec_val. induction k as [|k IH]; [reflexivity|]. cbn [repeat app fold_left]. exact IH. Qed.
Lemma call_number_value : forall n, dec_val (call_number n) = n.
Proof. intros n. unfold call_number. rewrite zeros_value. apply dec_value. Qed.
