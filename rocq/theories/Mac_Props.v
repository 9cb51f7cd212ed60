(** C29: macro arguments and parameters; C49: the text that variable symbols generate. *)
From Coq Require Import List NArith ZArith Bool Lia String.
From Coq Require Import ZifyBool ZifyNat ZifyN.
From Verif Require Import Common Sub_Model Sub_Spec Sub_Proof Sub_Text Sub_Props Mac_Model Mac_Spec Mac_Proof Mac_Call.
Import ListNotations.
Open Scope N_scope.
Local Notation length := List.length.

(** ** C49 *)
Theorem C49_text : forall c t, evaluate c = Some t <-> generates c t.
Proof. exact evaluate_generates. Qed.
Print Assumptions C49_text.

Theorem C49_unique : forall c t u, generates c t -> generates c u -> t = u.
Proof. intros c t u H1 H2. apply evaluate_generates in H1, H2. congruence. Qed.
Print Assumptions C49_unique.

(** The chain has a variable symbol with this value somewhere. *)
Inductive mentions (v : value) : list point -> Prop :=
| m_here : forall s c, holds s = v -> mentions v (Var s :: c)
| m_sub : forall l x c, In x l -> mentions v x -> mentions v (Sub l :: c)
| m_later : forall p c, mentions v c -> mentions v (p :: c).

Lemma point_fails : forall p, evaluate_point p = None -> mentions (AVal (-2147483648)) [p].
Proof.
  assert (K : forall c, Forall (fun p => evaluate_point p = None -> mentions (AVal (-2147483648)) [p]) c ->
    forall b, evaluate_from b c = None -> mentions (AVal (-2147483648)) c).
  { induction 1 as [|p c Hp _ IH]; intros b H; [discriminate|].
    assert (G : cat (evaluate_point p) (evaluate_from (match p with Var _ => true | _ => false end) c) = None ->
                mentions (AVal (-2147483648)) (p :: c)).
    { intros X. destruct (evaluate_point p) as [t|] eqn:E.
      - destruct (evaluate_from _ c) eqn:E2; [discriminate|]. apply m_later. eapply IH; eauto.
      - specialize (Hp eq_refl). inversion Hp as [? ? Y|? ? ? Y1 Y2|? ? Y]; subst; [now apply m_here|eapply m_sub; eauto|inversion Y]. }
    destruct p; try (apply G; exact H). cbn [evaluate_from] in H. destruct b; [apply m_later; eapply IH; eauto|].
    apply G. exact H. }
  induction p as [s|v| | |l IH] using point_ind'; intros H; try discriminate.
  - apply m_here. cbn in H. destruct (holds v) as [z|b|s|]; try discriminate. cbn in H.
    destruct (Z.eqb_spec z (-2147483648)); [now subst|discriminate].
  - rewrite evaluate_sub in H. destruct (all_some (map evaluate l)) eqn:E; [discriminate|]. clear H.
    assert (X : exists c, In c l /\ evaluate c = None).
    { clear IH. induction l as [|c l IHl]; [discriminate|]. cbn [map all_some] in E. destruct (evaluate c) eqn:Ec.
      - destruct (all_some (map evaluate l)); [discriminate|]. destruct (IHl eq_refl) as (x & H1 & H2). exists x. split; [now right|exact H2].
      - exists c. split; [now left|exact Ec]. }
    destruct X as (c & Hc & He). eapply m_sub; [exact Hc|]. rewrite Forall_forall in IH. eapply K; [apply IH, Hc|exact He].
Qed.

(** There is a text, unless a SETA symbol holds the smallest number. *)
Theorem C49_defined : forall c, ~ mentions (AVal (-2147483648)) c -> exists t, generates c t.
Proof.
  intros c H. destruct (evaluate c) as [t|] eqn:E; [exists t; now apply evaluate_generates|]. exfalso. apply H. clear H.
  unfold evaluate in E. revert E. generalize false. induction c as [|p c IH]; intros b E; [discriminate|].
  assert (G : cat (evaluate_point p) (evaluate_from (match p with Var _ => true | _ => false end) c) = None ->
              mentions (AVal (-2147483648)) (p :: c)).
  { intros X. destruct (evaluate_point p) as [t|] eqn:Ep.
    - destruct (evaluate_from _ c) eqn:E2; [discriminate|]. apply m_later. eapply IH; eauto.
    - apply point_fails in Ep. inversion Ep as [? ? Y|? ? ? Y1 Y2|? ? Y]; subst; [now apply m_here|eapply m_sub; eauto|inversion Y]. }
  destruct p; try (apply G; exact E). cbn [evaluate_from] in E. destruct b; [apply m_later; eapply IH; eauto|].
  apply G. exact E.
Qed.
Print Assumptions C49_defined.

Theorem C49_defined_refuted : exists c, evaluate c = None.
Proof. exists [Var {| shown := s2b "A"%string; plain_name := None; holds := AVal (-2147483648) |}]. reflexivity. Qed.
Print Assumptions C49_defined_refuted.

(** &A..X&B.(&C,Y) with &A = -7, &B = 'Q', &C = 1 *)
Example C49_case :
  let v s x := Var {| shown := s2b s; plain_name := Some (s2b s); holds := x |} in
  generates [v "A" (AVal (-7)); Dot; Dot; Str (s2b "X"); v "B" (CVal (s2b "Q")); Dot; Sub [[v "C" (BVal true)]; [Str (s2b "Y")]]]%string
            (s2b "7.XQ(1,Y)").
Proof. cbv zeta. apply C49_text. vm_compute. reflexivity. Qed.

(** ** C29 *)
(** The text has no empty item before a comma or a closing parenthesis (C30). *)
Definition safe (t : bytes) : Prop := without COMMA RPAR t /\ without COMMA COMMA t.

(** The argument that an operand passes. *)
Inductive passes (params : list param) : operand -> arg -> Prop :=
| p_omitted : passes params Empty (None, Dummy)
| p_positional : forall c d t, keyword_of c = None -> generates c t ->
    (safe t -> get_value d = t) -> ((forall v, c <> [Var v]) -> get_value d = t) ->
    passes params (Chain c) (None, d)
| p_keyword : forall s n df c d t, symbol_name s = Some n -> keyword_in params n df -> generates c t ->
    (safe t -> get_value d = t) -> ((exists l, c = [Sub l]) -> get_value d = t) ->
    passes params (Chain (Str s :: Equ :: c)) (Some n, d)
| p_unknown : forall s n c, symbol_name s = Some n -> (forall df, ~ keyword_in params n df) ->
    passes params (Chain (Str s :: Equ :: c)) (None, Single (s ++ s2b "=" ++ to_string c)).

Theorem C29_prototype : forall label ops name_param params, prototype label ops = (name_param, params) ->
  NoDup ((match name_param with Some n => [n] | None => [] end) ++ param_names params) /\
  exists d, define name_param params = Some d.
Proof. exact prototype_defines. Qed.
Print Assumptions C29_prototype.

Lemma parsed_value : forall t d, parsed (Some t) = Some d -> safe t -> get_value d = t.
Proof.
  intros t d H [H1 H2]. cbn [parsed] in H. destruct (C30_text t H1 H2) as (d' & X & Y). congruence.
Qed.

Theorem C29_operands : forall label pops name_param params d ops args notes,
  prototype label pops = (name_param, params) -> define name_param params = Some d ->
  get_args d [] ops = Some (args, notes) -> Forall2 (passes params) ops args.
Proof.
  intros label pops name_param params d ops args notes Hp Hd. destruct (prototype_defines _ _ _ _ Hp) as [Hn _].
  generalize (@nil id). revert args notes. induction ops as [|op ops IH]; intros args notes seen H; cbn [get_args] in H.
  - injection H as <- _. constructor.
  - destruct (get_arg d seen op) as [a seen' ns|] eqn:E; [|discriminate].
    destruct (get_args d seen' ops) as [[l more]|] eqn:E2; [|discriminate]. injection H as <- _.
    constructor; [|eapply IH; eauto]. clear IH E2. unfold get_arg in E. destruct op as [|c].
    { injection E as <- _ _. constructor. }
    destruct (keyword_of c) as [[s n]|] eqn:Ek.
    + assert (X : exists c', c = Str s :: Equ :: c' /\ symbol_name s = Some n).
      { unfold keyword_of in Ek. destruct c as [|p c]; [discriminate|]. destruct p; try discriminate. destruct c as [|q c]; [discriminate|].
        destruct q; try discriminate. destruct (symbol_name s0) eqn:Es; [|discriminate]. injection Ek as -> ->. eauto. }
      destruct X as (c' & -> & Hs). cbn [tl] in E.
      destruct (lookup n (named d)) as [[|df]|] eqn:El.
      * injection E as <- _ _. apply (p_unknown params s n); [exact Hs|].
        intros df X. apply (named_keyword _ _ _ Hd Hn) in X. congruence.
      * assert (Hk : keyword_in params n df) by now apply (named_keyword _ _ _ Hd Hn).
        destruct (match c' with [Sub _] => create_data c' | _ => parsed (evaluate c') end) as [v|] eqn:Ev; [|discriminate].
        injection E as <- _ _.
        assert (Y : exists t, generates c' t /\ (safe t -> get_value v = t) /\ ((exists l, c' = [Sub l]) -> get_value v = t)).
        { assert (Parsed : parsed (evaluate c') = Some v -> (forall l, c' <> [Sub l]) ->
             exists t, generates c' t /\ (safe t -> get_value v = t) /\ ((exists l, c' = [Sub l]) -> get_value v = t)).
          { intros P Hns. destruct (evaluate c') as [t|] eqn:Ee; [|discriminate]. exists t. split; [now apply evaluate_generates|].
            split; [now apply parsed_value|]. intros [l1 X]. now apply Hns in X. }
          destruct c' as [|p [|q c']].
          - apply Parsed; [exact Ev|discriminate].
          - destruct p; try (apply Parsed; [exact Ev|discriminate]).
            exists (get_value v). apply create_data_inv in Ev. split; [now apply evaluate_generates|]. auto.
          - apply Parsed; [destruct p; exact Ev|discriminate]. }
        destruct Y as (t & Y1 & Y2 & Y3). eapply p_keyword; eauto.
      * injection E as <- _ _. apply (p_unknown params s n); [exact Hs|].
        intros df X. apply (named_keyword _ _ _ Hd Hn) in X. congruence.
    + assert (Plain : forall r, match r with Some v => Arg (None, v) seen [] | None => Overflow end = Arg a seen' ns ->
        exists v, r = Some v /\ a = (None, v)).
      { intros [r|] X; [|discriminate]. injection X as <- _ _. eauto. }
      assert (Other : match create_data c with Some v => Arg (None, v) seen [] | None => Overflow end = Arg a seen' ns ->
        passes params (Chain c) a).
      { intros X. apply Plain in X. destruct X as (v & X & ->). apply create_data_inv in X. apply evaluate_generates in X.
        eapply p_positional; eauto. }
      destruct c as [|p [|q c]]; [now apply Other| |apply Other; destruct p; exact E].
      destruct p; try (apply Other; exact E).
      apply Plain in E. destruct E as (w & E & ->). destruct (var_text (holds v)) as [t|] eqn:Ev; [|discriminate].
      apply (p_positional params [Var v] w t); [exact Ek| | |].
      * apply evaluate_generates. rewrite evaluate_single. exact Ev.
      * now apply parsed_value.
      * intros X. exfalso. now apply (X v).
Qed.
Print Assumptions C29_operands.

(** What is reported: a keyword given a second time, and a keyword the macro does not have. *)
Definition keyword_form (op : operand) : bool :=
  match op with Chain (Str s :: Equ :: _) => match symbol_name s with Some _ => true | None => false end | _ => false end.
Fixpoint reports (given : list id) (l : list (operand * arg)) : list note :=
  match l with
  | [] => []
  | (_, (Some n, _)) :: l => (if existsb (bytes_eqb n) given then [E011] else []) ++ reports (given ++ [n]) l
  | (op, (None, _)) :: l => (if keyword_form op then [W014] else []) ++ reports given l
  end.
Theorem C29_reports : forall d ops args notes, get_args d [] ops = Some (args, notes) -> notes = reports [] (combine ops args).
Proof.
  intros d ops. enough (K : forall seen given, (forall n, has n seen = existsb (bytes_eqb n) given) ->
    forall args notes, get_args d seen ops = Some (args, notes) -> notes = reports given (combine ops args))
    by (intros args notes; apply K; reflexivity).
  induction ops as [|op ops IH]; intros seen given Hs args notes H; cbn [get_args] in H.
  - injection H as <- <-. reflexivity.
  - destruct (get_arg d seen op) as [a seen' ns|] eqn:E; [|discriminate].
    destruct (get_args d seen' ops) as [[l more]|] eqn:E2; [|discriminate]. injection H as <- <-.
    cbn [combine reports].
    assert (X : match a with
                | (Some n, _) => ns = (if existsb (bytes_eqb n) given then [E011] else []) /\
                    (forall m, has m seen' = existsb (bytes_eqb m) (given ++ [n]))
                | (None, _) => ns = (if keyword_form op then [W014] else []) /\ seen' = seen
                end).
    { clear IH E2. unfold get_arg in E. destruct op as [|c]; [injection E as <- <- <-; auto|].
      assert (Kf : keyword_form (Chain c) = match keyword_of c with Some _ => true | None => false end).
      { unfold keyword_form, keyword_of. destruct c as [|p c]; [reflexivity|]. destruct p; try reflexivity.
        destruct c as [|q c]; [reflexivity|]. destruct q; try reflexivity. destruct (symbol_name s); reflexivity. }
      rewrite Kf. destruct (keyword_of c) as [[s n]|].
      - destruct (lookup n (named d)) as [[|df]|]; try (injection E as <- <- <-; auto; fail).
        assert (Y : forall m, has m (if has n seen then seen else seen ++ [n]) = existsb (bytes_eqb m) (given ++ [n])).
        { intros m. rewrite existsb_app. cbn. rewrite orb_false_r. destruct (has n seen) eqn:En.
          - rewrite Hs. destruct (bytes_eqb m n) eqn:Em; [|now rewrite orb_false_r].
            apply bytes_eqb_eq in Em. subst m. rewrite <- Hs, En. reflexivity.
          - unfold has. rewrite existsb_app. cbn. rewrite orb_false_r. change (existsb (bytes_eqb m) seen) with (has m seen). now rewrite Hs. }
        match type of E with (match ?x with _ => _ end) = _ => destruct x; [|discriminate] end. injection E as <- <- <-.
        split; [now rewrite Hs|exact Y].
      - assert (P : forall r, match r with Some v => Arg (None, v) seen [] | None => Overflow end = Arg a seen' ns ->
                     match a with
                     | (Some n, _) => ns = (if existsb (bytes_eqb n) given then [E011] else []) /\
                         (forall m, has m seen' = existsb (bytes_eqb m) (given ++ [n]))
                     | (None, _) => ns = [] /\ seen' = seen
                     end) by (intros [r|] Q; [injection Q as <- <- <-; auto|discriminate]).
        destruct c as [|p [|q c]]; try destruct p; apply P in E; exact E. }
    destruct a as [[n|] v]; destruct X as (-> & X); f_equal; (eapply IH; [|exact E2]); [exact X|subst; exact Hs].
Qed.
Print Assumptions C29_reports.

(** The parameters in the macro, for every prototype and every call. *)
Theorem C29_bound : forall label pops name_param params d ops args notes given,
  prototype label pops = (name_param, params) -> define name_param params = Some d ->
  get_args d [] ops = Some (args, notes) ->
  exists m, call d given args = Some m /\
    (* the name field *)
    (forall n, name_param = Some n -> exists p, lookup n m = Some p /\ real_data p = match given with Some v => v | None => Dummy end) /\
    (* the i-th positional parameter has the i-th positional operand *)
    (forall i n, nth_error (positionals params) i = Some (Some n) ->
       exists p, lookup n m = Some p /\ (forall x, p <> Syslist x) /\ real_data p = nth i (operands args) Dummy) /\
    (* a keyword parameter has its operand or its default *)
    (forall n df, keyword_in params n df -> exists p, lookup n m = Some p /\ (forall x, p <> Syslist x) /\
       real_data p = match assigned n args with Some v => v | None => df end) /\
    (* and there is &SYSLIST and nothing else *)
    (name_param <> Some SYSLIST -> ~ In SYSLIST (param_names params) ->
       lookup SYSLIST m = Some (Syslist (Composite ((match given with Some v => v | None => Dummy end) :: operands args)))) /\
    (forall n, name_param <> Some n -> ~ In n (param_names params) -> n <> SYSLIST -> lookup n m = None).
Proof.
  intros label pops name_param params d ops args notes given Hp Hd Ha. destruct (prototype_defines _ _ _ _ Hp) as [Hn _].
  apply (call_bound name_param params d Hd Hn given args). eapply get_args_known; eauto.
Qed.
Print Assumptions C29_bound.

(** Reading a parameter, with subscripts from 1. *)
Lemma down_item : forall path d, Forall (fun i => 1 <= i)%nat path -> fold_left down path d = item d path.
Proof.
  unfold item. induction path as [|i path IH]; intros d H; [reflexivity|]. inversion H; subst. cbn [fold_left].
  destruct i; [lia|]. cbn [down pred]. now apply IH.
Qed.
Theorem C29_read : forall p path, (forall x, p <> Syslist x) -> Forall (fun i => 1 <= i)%nat path ->
  read_value p path = get_value (item (real_data p) path) /\
  read_number p path = Z.of_nat (number (item (real_data p) path)) /\
  read_count p path = Z.of_nat (length (get_value (item (real_data p) path))).
Proof.
  intros p path Hp H. unfold read_count, read_value. destruct p as [d|df a|d]; [| |exfalso; now apply (Hp d)];
    cbn [get_data read_number]; rewrite down_item by exact H; auto.
Qed.
Print Assumptions C29_read.

Theorem C29_syslist : forall label ops path, Forall (fun i => 1 <= i)%nat path ->
  let p := Syslist (Composite (label :: ops)) in
  (forall i, read_value p (S i :: path) = get_value (item (nth i ops Dummy) path)) /\
  (forall i, read_number p (S i :: path) = Z.of_nat (number (item (nth i ops Dummy) path))) /\
  (forall i, read_count p (S i :: path) = Z.of_nat (length (get_value (item (nth i ops Dummy) path)))) /\
  read_value p (0%nat :: path) = get_value (item label path) /\
  read_number p [] = Z.of_nat (length ops).
Proof.
  intros label ops path H p. unfold p, read_count, read_value. cbn [get_data read_number fold_left down get_ith nth].
  refine (conj _ (conj _ (conj _ (conj _ _)))); try (intros i); rewrite ?down_item by exact H; try reflexivity.
  cbn [number length]. lia.
Qed.
Print Assumptions C29_syslist.

(** A subscript that is not positive is refused, but for the first one of &SYSLIST. *)
Theorem C29_subscripts : forall p subscripts, readable p subscripts = true ->
  match p, subscripts with
  | Syslist _, i :: r => (0 <= i)%Z /\ Forall (fun j => 1 <= j)%Z r
  | _, _ => Forall (fun j => 1 <= j)%Z subscripts
  end.
Proof.
  assert (G : forall l, forallb (fun j => 1 <=? j)%Z l = true -> Forall (fun j => 1 <= j)%Z l).
  { intros l H. rewrite forallb_forall in H. apply Forall_forall. intros x Hx. apply H in Hx. lia. }
  intros p subscripts H. destruct p; cbn [readable] in H; auto. destruct subscripts as [|i r]; [constructor|].
  apply andb_true_iff in H. destruct H as [H1 H2]. split; [lia|auto].
Qed.
Print Assumptions C29_subscripts.

(** A parameter named SYSLIST takes the place of the list of operands. *)
Theorem C29_syslist_refuted : exists label pops name_param params d ops args notes m p,
  prototype label pops = (name_param, params) /\ define name_param params = Some d /\
  get_args d [] ops = Some (args, notes) /\ call d None args = Some m /\ lookup SYSLIST m = Some p /\
  read_value p [2]%nat <> get_value (nth 1 (operands args) Dummy).
Proof.
  exists None, [Chain [Var {| shown := SYSLIST; plain_name := Some SYSLIST; holds := NoVal |}]].
  do 3 eexists. exists [Chain [Str (s2b "A"%string)]; Chain [Str (s2b "B"%string)]]. do 4 eexists.
  refine (conj eq_refl (conj eq_refl (conj eq_refl (conj eq_refl (conj eq_refl _))))). discriminate.
Qed.
Print Assumptions C29_syslist_refuted.

(** X=&V is passed with the name of the variable if there is no keyword X. *)
Theorem C29_unknown_refuted : exists label pops name_param params d c args notes t,
  prototype label pops = (name_param, params) /\ define name_param params = Some d /\
  get_args d [] [Chain c] = Some (args, notes) /\ generates c t /\ map get_value (operands args) <> [t].
Proof.
  exists None, []. do 3 eexists.
  exists [Str (s2b "X"%string); Equ; Var {| shown := s2b "V"%string; plain_name := Some (s2b "V"%string); holds := CVal (s2b "1"%string) |}].
  do 2 eexists. exists (s2b "X=1"%string).
  refine (conj eq_refl (conj eq_refl (conj eq_refl (conj _ _)))); [apply C49_text; reflexivity|]. discriminate.
Qed.
Print Assumptions C29_unknown_refuted.

(** &L M &P,,&K=D  called as  X M (A,B),Q,K=&V,R *)
Example C29_case :
  let v s x := {| shown := s2b s; plain_name := Some (s2b s); holds := x |} in
  exists d args notes m,
    prototype (Some (v "L"%string NoVal)) [Chain [Var (v "P" NoVal)]; Empty; Chain [Var (v "K" NoVal); Equ; Str (s2b "D")]]%string
      = (Some (s2b "L"), [(Some (s2b "P"), None); (None, None); (Some (s2b "K"), Some (Single (s2b "D")))])%string /\
    define (Some (s2b "L"%string)) [(Some (s2b "P"), None); (None, None); (Some (s2b "K"), Some (Single (s2b "D")))]%string = Some d /\
    get_args d [] [Chain [Sub [[Str (s2b "A")]; [Str (s2b "B")]]]; Chain [Str (s2b "Q")];
                   Chain [Str (s2b "k"); Equ; Var (v "V" (CVal (s2b "(1,2)")))]; Chain [Str (s2b "R")]]%string = Some (args, notes) /\
    call d (Some (Single (s2b "X"%string))) args = Some m /\
    (exists p, lookup (s2b "P"%string) m = Some p /\ read_value p [2]%nat = s2b "B"%string) /\
    (exists p, lookup (s2b "K"%string) m = Some p /\ read_value p [1]%nat = s2b "1"%string /\ read_number p [] = 2%Z) /\
    (exists p, lookup SYSLIST m = Some p /\ read_value p [3]%nat = s2b "R"%string /\ read_number p [] = 3%Z /\ read_value p [0]%nat = s2b "X"%string).
Proof.
  cbv zeta. do 4 eexists. refine (conj eq_refl (conj eq_refl (conj eq_refl (conj eq_refl (conj _ (conj _ _)))))).
  - eexists. split; reflexivity.
  - eexists. split; [reflexivity|]. split; reflexivity.
  - eexists. split; [reflexivity|]. repeat split.
Qed.
