(** C28: SET symbols keep what is assigned to them.  C31: numbers and depth of macro calls.
    C48: local and global variable symbols. *)
From Coq Require Import List NArith ZArith Bool Lia.
From Coq Require Import ZifyBool ZifyNat ZifyN.
From Verif Require Import Common Var_Model Var_Spec Var_Proof Var_Run Var_Facts.
Import ListNotations.
Open Scope Z_scope.

(** ** The whole behaviour *)

(** After any statements, the next one gives the diagnostics of the pointer-free description,
    and every read and every N' afterwards gives what the description gives. *)
Theorem C28_behaviour : forall i l s, Forall small (l ++ [s]) -> shallow 0 (l ++ [s]) ->
  fst (exec (run (initial i) l) s) = fst (does (history (start i) l) s).
Proof.
  intros i l s Hs Hd. apply Forall_app in Hs. destruct Hs as [Hs1 Hs2]. inversion Hs2 as [|? ? Hs3 _]; subst.
  pose proof (run_ok l (initial i) (start i) (start_ok i) Hs1 (shallow_app l s 0 Hd)) as R.
  apply exec_ok; [exact R|exact Hs3|]. destruct s as [| |named ci|]; auto.
  enough (G : forall l w, shallow (Z.of_nat (length (callers w))) (l ++ [CALL named ci]) ->
              Z.of_nat (length (callers (history w l))) + 1 < 2 ^ 31) by (apply (G l (start i)); exact Hd).
  clear. induction l as [|x l IH]; intros w H; cbn [app shallow history] in *; [tauto|].
  pose proof (does_callers w x) as C. apply IH. rewrite C. destruct x; auto.
  - cbn [length]. destruct H as [_ H]. now replace (Z.of_nat (S (length (callers w)))) with (Z.of_nat (length (callers w)) + 1) by lia.
  - destruct (callers w) as [|e es]; cbn [tl length] in *; [exact H|].
    now replace (Z.of_nat (length es)) with (Z.max 0 (Z.of_nat (S (length es)) - 1)) by lia.
Qed.
Print Assumptions C28_behaviour.

Theorem C28_reads : forall i l n sub, Forall small l -> shallow 0 l ->
  get_var_sym_value n sub (run (initial i) l) = reads (history (start i) l) n sub /\
  get_number n (run (initial i) l) = count_of (history (start i) l) n.
Proof.
  intros i l n sub Hs Hd. pose proof (run_ok l (initial i) (start i) (start_ok i) Hs Hd) as R.
  split; [now apply reads_ok|now apply number_ok'].
Qed.
Print Assumptions C28_reads.

(** ** Arrays *)

(** An accepted assignment of values to elements i, i+1, ...: those elements have the values,
    the other elements keep theirs, and N' is the maximum of the old one and the last index. *)
Theorem C28_elements : forall c t n i vs, reachable c -> i + Z.of_nat (length vs) < 2 ^ 31 ->
  fst (process_SET t n [i] (consts vs) c) = [] ->
  let c' := snd (process_SET t n [i] (consts vs) c) in
  (forall k v, nth_error vs k = Some v -> get_var_sym_value n [i + Z.of_nat k] c' = Value v) /\
  (forall j, 1 <= j -> j < i \/ i + Z.of_nat (length vs) <= j ->
     get_var_sym_value n [j] c' =
     match get_var_sym n c with None => Value (default_v t) | Some _ => get_var_sym_value n [j] c end) /\
  get_number n c' =
    Some (Z.max (i + Z.of_nat (length vs) - 1) match get_number n c with Some h => h | None => 0 end).
Proof.
  intros c t n i vs Hr Hi Hd c'. destruct (reachable_rel c Hr) as [w R].
  assert (Hsm : small (SET t n [i] (consts vs))).
  { cbn. constructor; [|constructor]. unfold consts. rewrite map_length. exact Hi. }
  destruct (SET_ok t n [i] (consts vs) c w R Hsm) as [Hf R']. rewrite Hf in Hd. fold c' in R'.
  destruct (assigns_array t n i vs w (rel_wf c w n R) Hd) as (log & Hi1 & Hne & Hbefore & Hafter).
  pose proof (symbol_ok c w n R) as Hs.
  refine (conj _ (conj _ _)).
  - intros k v Hk. rewrite (reads_ok c' _ n _ R'), (reads_symbol _ _ _ _ Hafter). cbn [v_scalar].
    replace (1 <=? i + Z.of_nat k) with true by lia. f_equal. unfold content. cbn [v_log].
    rewrite latest_log_of. assert (k < length vs)%nat by (apply nth_error_Some; congruence).
    replace ((i <=? i + Z.of_nat k) && (i + Z.of_nat k <? i + Z.of_nat (length vs))) with true by lia.
    replace (Z.to_nat (i + Z.of_nat k - i)) with k by lia. now rewrite Hk.
  - intros j Hj Hout. rewrite (reads_ok c' _ n _ R'), (reads_symbol _ _ _ _ Hafter). cbn [v_scalar].
    replace (1 <=? j) with true by lia. unfold content. cbn [v_log v_type]. rewrite latest_log_of.
    replace ((i <=? j) && (j <? i + Z.of_nat (length vs))) with false by lia.
    destruct Hbefore as [Hb|(Hb & Hh & ->)].
    + assert (Hv : get_var_sym n c <> None).
      { intros E. rewrite E in Hs. unfold symbol in Hb. rewrite Hs in Hb. discriminate. }
      destruct (get_var_sym n c) eqn:Ev; [|contradiction].
      rewrite (reads_ok c w n _ R), (reads_symbol _ _ _ _ Hb). cbn [v_scalar].
      replace (1 <=? j) with true by lia. reflexivity.
    + destruct (get_var_sym n c) as [[a|]|]; [|congruence|reflexivity].
      destruct Hs as (v & Hv & _). congruence.
  - rewrite (number_ok' c' _ n R'). unfold count_of. rewrite Hafter. cbn [v_scalar]. f_equal. unfold highest. cbn [v_log].
    rewrite highest_log_of by assumption. f_equal.
    rewrite (number_ok' c w n R). unfold count_of.
    destruct Hbefore as [Hb|(Hb & Hh & ->)]; rewrite Hb; reflexivity.
Qed.
Print Assumptions C28_elements.

(** Without subscript: the symbol has the last of the values. *)
Theorem C28_scalar : forall c t n vs d, reachable c -> fst (process_SET t n [] (consts vs) c) = [] ->
  get_var_sym_value n [] (snd (process_SET t n [] (consts vs) c)) = Value (last vs d).
Proof.
  intros c t n vs d Hr Hd. destruct (reachable_rel c Hr) as [w R].
  destruct (SET_ok t n [] (consts vs) c w R ltac:(constructor)) as [Hf R']. rewrite Hf in Hd.
  destruct (assigns_scalar t n vs w d (rel_wf c w n R) Hd) as (_ & v & Hv & Hs & _ & Hc).
  rewrite (reads_ok _ _ n [] R'), (reads_symbol _ _ _ _ Hv), Hs, Hc. reflexivity.
Qed.
Print Assumptions C28_scalar.

(** An assignment leaves every other symbol alone, whether it is accepted or not. *)
Theorem C28_others : forall c t n sub ops m sub', reachable c -> small (SET t n sub ops) -> m <> n ->
  let c' := snd (process_SET t n sub ops c) in
  get_var_sym_value m sub' c' = get_var_sym_value m sub' c /\ get_number m c' = get_number m c.
Proof.
  intros c t n sub ops m sub' Hr Hs Hne c'. destruct (reachable_rel c Hr) as [w R].
  destruct (SET_ok t n sub ops c w R Hs) as [_ R']. fold c' in R'.
  destruct (assigns_other t n sub ops w m Hne) as [H1 H2].
  rewrite (reads_ok c' _ m _ R'), (reads_ok c w m _ R), (number_ok' c' _ m R'), (number_ok' c w m R).
  split; [now apply reads_same|now apply count_same].
Qed.
Print Assumptions C28_others.

(** A symbol declared in this scope and never assigned reads as 0, false or the empty string. *)
Theorem C28_default : forall c t n dim, reachable c -> get_var_sym n c = None -> n <> [] ->
  let c' := snd (process_GBL_LCL false t [DVar n dim] c) in
  get_number n c' = Some 0 /\
  match dim with
  | [] => get_var_sym_value n [] c' = Value (default_v t)
  | _ => forall j, 1 <= j -> get_var_sym_value n [j] c' = Value (default_v t)
  end.
Proof.
  intros c t n dim Hr Hv Hn c'. destruct (reachable_rel c Hr) as [w R].
  destruct (DECL_ok false t [DVar n dim] c w R) as [_ R']. fold c' in R'.
  pose proof (symbol_ok c w n R) as Hs. rewrite Hv in Hs.
  assert (Hsym : symbol (snd (declares false t [DVar n dim] w)) n =
                 Some (fresh t match dim with [] => true | _ => false end)).
  { unfold declares, declare_all. destruct n as [|x xs]; [contradiction|]. rewrite Hs. cbn [forallb is_omitted andb snd].
    unfold declare, symbol. cbn [here with_here]. now rewrite upd_same. }
  split.
  - rewrite (number_ok' c' _ n R'). unfold count_of. rewrite Hsym. destruct dim; reflexivity.
  - destruct dim as [|d dim].
    + rewrite (reads_ok c' _ n _ R'), (reads_symbol _ _ _ _ Hsym). cbn. destruct t; reflexivity.
    + intros j Hj. rewrite (reads_ok c' _ n _ R'), (reads_symbol _ _ _ _ Hsym). cbn [v_scalar fresh].
      replace (1 <=? j) with true by lia. destruct t; reflexivity.
Qed.
Print Assumptions C28_default.

(** K' is the length of the value as text. *)
Definition text_length (to_string : Z -> bytes) (v : val) : Z :=
  match v with VA n => Z.of_nat (length (to_string n)) | VB _ => 1 | VC s => Z.of_nat (length s) end.
Definition type_of (v : val) : ty := match v with VA _ => TA | VB _ => TB | VC _ => TC end.
Theorem C28_K : forall to_string s sub v c n a, get_var_sym n c = Some (SetSymbol a) -> deref a c = s ->
  to_string 0 = [48%N] -> type_of v = s_type s ->
  Forall (fun i => i < 2 ^ 31) sub -> text_length to_string v < 2 ^ 31 ->
  get_var_sym_value n sub c = Value v -> count to_string s sub = text_length to_string v.
Proof.
  intros to_string s sub v c n a Hv Hd Hz Ht Hs Hl. unfold get_var_sym_value. rewrite Hv, Hd.
  assert (G : forall o, get_data s sub = o ->
            match o with Some v => v | None => default_v (s_type s) end = v ->
            count to_string s sub = text_length to_string v).
  { intros o Ho Hov. unfold count. rewrite Ho.
    destruct o as [u|].
    - subst u. destruct v as [z|b|t]; cbn [type_of] in Ht; rewrite <- Ht; try reflexivity.
      cbn [text_length] in *. unfold as_int. rewrite Z.mod_small by lia. now replace (_ <? _) with true by lia.
    - subst v. destruct (s_type s); cbn [default_v text_length]; [now rewrite Hz|reflexivity|reflexivity]. }
  destruct sub as [|i [|j sub]]; [| |discriminate].
  - destruct (s_scalar s) eqn:E; [|discriminate]. intros H. injection H as H.
    apply (G (find 0 (s_data s))).
    + unfold get_data. now rewrite E.
    + unfold get_value in H. rewrite E in H. exact H.
  - destruct (s_scalar s) eqn:E; [discriminate|]. destruct (i <? 1) eqn:Ei; [discriminate|].
    intros H. injection H as H. inversion Hs as [|? ? Hi _]. subst s.
    apply (G (find (i - 1) (s_data (deref a c)))).
    + unfold get_data. rewrite E. f_equal. unfold size_t. rewrite (Z.mod_small i) by lia. rewrite Z.mod_small by lia. reflexivity.
    + unfold get_value_at in H. rewrite E in H. exact H.
Qed.
Print Assumptions C28_K.

(** An omitted operand does not skip its element: in [&A(1) SETA 1,,3] the 3 goes to element 2. *)
Definition info0 : start_info := {| datc := []; date := []; time := []; sysparm := [] |}.
Definition nA : name := s2b "A".
Theorem C28_omitted_refuted :
  let c := snd (process_SET TA nA [1] [Expr (Ret (VA 1)); Omitted; Expr (Ret (VA 3))] (initial info0)) in
  get_var_sym_value nA [2] c = Value (VA 3) /\ get_var_sym_value nA [3] c = Value (VA 0) /\ get_number nA c = Some 2.
Proof. vm_compute. auto. Qed.
Print Assumptions C28_omitted_refuted.

(** A rejected assignment can still create the symbol: after [&A SETA] without operand, A is
    a SETA symbol. *)
Theorem C28_rejected_creates_refuted :
  let r := process_SET TA nA [] [] (initial info0) in
  fst r = [E022] /\ get_var_sym_value nA [] (initial info0) = Undef E010 /\
  get_var_sym_value nA [] (snd r) = Value (VA 0) /\
  fst (process_SET TC nA [] [Expr (Ret (VC []))] (snd r)) = [E013_type].
Proof. vm_compute. auto. Qed.
Print Assumptions C28_rejected_creates_refuted.

(** ** Calls: numbers and depth *)

(** As long as the program does not assign them, &SYSNDX is the number of the innermost active
    call and &SYSNEST the number of active calls. *)
Theorem C31_innermost : forall i l k ks, Forall small l -> shallow 0 l ->
  Forall (leaves (s2b "SYSNDX")) l -> Forall (leaves (s2b "SYSNEST")) l ->
  active 0 [] l = k :: ks ->
  get_var_sym_value (s2b "SYSNDX") [] (run (initial i) l) = Value (VC (call_number k)) /\
  get_var_sym_value (s2b "SYSNEST") [] (run (initial i) l) = Value (VA (Z.of_nat (length (k :: ks)))).
Proof.
  intros i l k ks Hs Hd L1 L2 Ha. pose proof (run_ok l (initial i) (start i) (start_ok i) Hs Hd) as R.
  destruct (numbers_ok l (start i) [] L1 L2 Logic.I) as [F _]. change (calls (start i)) with 0%N in F.
  rewrite Ha in F. cbn [frames_ok] in F. destruct F as [[F1 F2] _].
  rewrite !(reads_ok _ _ _ _ R).
  split; (erewrite reads_symbol; [|unfold symbol; first [rewrite F1|rewrite F2]; reflexivity]); reflexivity.
Qed.
Print Assumptions C31_innermost.

(** The active calls have different numbers, and numbers go up from call to call: a call's
    number is the number of calls made before it. *)
Theorem C31_new_call : forall l named i, active 0 [] (l ++ [CALL named i]) = count_calls l :: active 0 [] l.
Proof.
  intros l named i.
  assert (G : forall l made st, active made st (l ++ [CALL named i]) = (made + count_calls l)%N :: active made st l).
  { clear. induction l as [|s l IH]; intros made st; cbn [app active count_calls]; [now rewrite N.add_0_r|].
    destruct s; rewrite IH; f_equal; lia. }
  apply (G l 0%N []).
Qed.
Print Assumptions C31_new_call.

(** Different calls see different values, of at least four digits, which are increasing as
    numbers. *)
Theorem C31_values : forall k k', (k < k')%N ->
  call_number k <> call_number k' /\ (dec_val (call_number k) < dec_val (call_number k'))%N /\
  (4 <= length (call_number k))%nat /\ Forall (fun c => is_digit c = true) (call_number k).
Proof.
  intros k k' H. rewrite !call_number_value. refine (conj _ (conj H (conj (call_number_digits k) _))).
  - intros E. apply (f_equal dec_val) in E. rewrite !call_number_value in E. lia.
  - unfold call_number. apply Forall_app. split; [|apply dec_digits]. apply Forall_forall. intros c Hc.
    apply repeat_spec in Hc. now subst c.
Qed.
Print Assumptions C31_values.

(** The first call of a program has number 0000, and a program can overwrite the number. *)
Definition info1 : call_info := {| sect := []; styp := None; loc := None |}.
Theorem C31_first_refuted :
  get_var_sym_value (s2b "SYSNDX") [] (run (initial info0) [CALL [] info1]) = Value (VC (s2b "0000")).
Proof. vm_compute. reflexivity. Qed.
Print Assumptions C31_first_refuted.
Theorem C31_assigned_refuted :
  let c := run (initial info0) [CALL [] info1] in
  let r := process_SET TC (s2b "SYSNDX") [] [Expr (Ret (VC (s2b "7")))] c in
  fst r = [] /\ get_var_sym_value (s2b "SYSNDX") [] (snd r) = Value (VC (s2b "7")).
Proof. vm_compute. auto. Qed.
Print Assumptions C31_assigned_refuted.

Example C31_example :
  let l := [CALL [] info1; RETURN; CALL [] info1; SET TA nA [] [Expr (Ret (VA 1))]; CALL [] info1] in
  active 0 [] l = [2; 1]%N /\ Forall small l /\ shallow 0 l /\ Forall (leaves (s2b "SYSNDX")) l.
Proof.
  cbv zeta. refine (conj eq_refl (conj _ (conj _ _))).
  - repeat constructor.
  - cbn. lia.
  - repeat constructor. discriminate.
Qed.

(** ** Local and global symbols *)
Definition global_here (n : name) (c : ctx) : Prop :=
  exists a, get_var_sym n c = Some (SetSymbol a) /\ lookup n (globals c) = Some a.

Lemma global_here_shared : forall c w n, rel c w -> (global_here n c <-> here w n = Some Shared).
Proof.
  intros c w n R. pose proof (r_here c w R n) as H. unfold entry_ok, global_here, get_var_sym in *. split.
  - intros (a & H1 & H2). destruct (lookup n (variables (current c))) as [b|] eqn:E.
    + injection H1 as ->. destruct (here w n) as [[v| |]|]; try contradiction; [|reflexivity].
      destruct H as [H _]. contradiction.
    + destruct (existsb _ _); discriminate.
  - intros E. rewrite E in H. destruct (lookup n (variables (current c))) as [b|]; [|contradiction]. eauto.
Qed.

(** A macro call and everything it does leave the caller's own symbols as they are. *)
Theorem C48_local_private : forall i l named ci inner n sub,
  let call := CALL named ci :: inner ++ [RETURN] in
  Forall small (l ++ call) -> shallow 0 (l ++ call) -> body 0 inner ->
  ~ global_here n (run (initial i) l) ->
  get_var_sym_value n sub (run (initial i) (l ++ call)) = get_var_sym_value n sub (run (initial i) l) /\
  get_number n (run (initial i) (l ++ call)) = get_number n (run (initial i) l).
Proof.
  intros i l named ci inner n sub call Hs Hd Hb Hn.
  assert (Hs1 : Forall small l) by (apply Forall_app in Hs; tauto).
  assert (Hd1 : shallow 0 l).
  { clear -Hd. revert Hd. generalize 0. induction l as [|s l IH]; intros d H; [exact Logic.I|].
    cbn [app shallow] in *. destruct s; try (now apply IH). destruct H. split; [assumption|now apply IH]. }
  pose proof (run_ok _ _ _ (start_ok i) Hs Hd) as R2. pose proof (run_ok _ _ _ (start_ok i) Hs1 Hd1) as R1.
  rewrite history_app in R2. destruct (call_returns named ci inner (history (start i) l) Hb) as [Hh _]. fold call in Hh.
  rewrite (global_here_shared _ _ n R1) in Hn.
  rewrite !(reads_ok _ _ n sub R2), !(reads_ok _ _ n sub R1), !(number_ok' _ _ n R2), !(number_ok' _ _ n R1).
  unfold reads, count_of, symbol. rewrite Hh.
  destruct (here (history (start i) l) n) as [[v| |]|]; auto. contradiction.
Qed.
Print Assumptions C48_local_private.

(** A symbol that is global both in the caller and in the called macro has, after the return,
    the value it had in the macro before it. *)
Theorem C48_global_shared : forall i l named ci inner n sub,
  let before := l ++ CALL named ci :: inner in
  Forall small before -> shallow 0 before -> body 0 inner ->
  global_here n (run (initial i) l) -> global_here n (run (initial i) before) ->
  get_var_sym_value n sub (run (initial i) (before ++ [RETURN])) = get_var_sym_value n sub (run (initial i) before) /\
  get_number n (run (initial i) (before ++ [RETURN])) = get_number n (run (initial i) before).
Proof.
  intros i l named ci inner n sub before Hs Hd Hb Hn1 Hn2.
  assert (Hs1 : Forall small l) by (unfold before in Hs; apply Forall_app in Hs; tauto).
  assert (Hd1 : shallow 0 l).
  { clear -Hd. revert Hd. unfold before. generalize 0. induction l as [|s l IH]; intros d H; [exact Logic.I|].
    cbn [app shallow] in *. destruct s; try (now apply IH). destruct H. split; [assumption|now apply IH]. }
  pose proof (run_ok _ _ _ (start_ok i) Hs Hd) as R2. pose proof (run_ok _ _ _ (start_ok i) Hs1 Hd1) as R1.
  pose proof (RETURN_ok _ _ R2) as R3.
  rewrite run_app. change (run (run (initial i) before) [RETURN]) with (leave_macro (run (initial i) before)).
  destruct (call_returns named ci inner (history (start i) l) Hb) as [Hh _].
  assert (Hh' : here (returns (history (start i) before)) = here (history (start i) l)).
  { rewrite <- Hh. unfold before. rewrite history_app. cbn [history]. rewrite history_app. reflexivity. }
  apply (global_here_shared _ _ n R1) in Hn1. apply (global_here_shared _ _ n R2) in Hn2.
  rewrite (reads_ok _ _ n sub R2), (reads_ok _ _ n sub R3), (number_ok' _ _ n R2), (number_ok' _ _ n R3).
  split; [apply reads_same|apply count_same]; try (rewrite Hh'; congruence);
    unfold returns; destruct (callers (history (start i) before)); reflexivity.
Qed.
Print Assumptions C48_global_shared.

(** A called macro sees nothing of the caller: a name that is neither a parameter nor a system
    variable is not defined at its start. *)
Definition system_name (n : name) : Prop :=
  In n ([s2b "SYSECT"; s2b "SYSNDX"; s2b "SYSSTYP"; s2b "SYSLOC"; s2b "SYSNEST"] ++ system_names).
Theorem C48_call_starts_empty : forall i l named ci n sub, Forall small l -> shallow 0 (l ++ [CALL named ci]) ->
  ~ system_name n -> ~ In n named ->
  get_var_sym_value n sub (run (initial i) (l ++ [CALL named ci])) = Undef E010.
Proof.
  intros i l named ci n sub Hs Hd Hn Hp.
  assert (Hs' : Forall small (l ++ [CALL named ci])) by (apply Forall_app; split; [exact Hs|repeat constructor]).
  pose proof (run_ok _ _ _ (start_ok i) Hs' Hd) as R. rewrite (reads_ok _ _ n sub R).
  rewrite history_app. cbn [history does snd]. unfold reads, calls_macro. cbn [here]. unfold call_env.
  assert (X : forall m, In m ([s2b "SYSECT"; s2b "SYSNDX"; s2b "SYSSTYP"; s2b "SYSLOC"; s2b "SYSNEST"] ++ system_names) -> bytes_eqb n m = false).
  { intros m Hm. destruct (bytes_eqb n m) eqn:E; [|reflexivity]. apply bytes_eqb_eq in E. subst m. contradiction. }
  rewrite !X by (cbn; tauto).
  replace (existsb (bytes_eqb n) system_names) with false.
  2:{ symmetry. destruct (existsb (bytes_eqb n) system_names) eqn:E; [|reflexivity]. apply existsb_exists in E.
      destruct E as (m & Hm & E). rewrite X in E; [discriminate|]. apply in_or_app. now right. }
  replace (existsb (bytes_eqb n) named) with false; [reflexivity|].
  symmetry. destruct (existsb (bytes_eqb n) named) eqn:E; [|reflexivity]. apply existsb_exists in E.
  destruct E as (m & Hm & E). apply bytes_eqb_eq in E. subst m. contradiction.
Qed.
Print Assumptions C48_call_starts_empty.

(** Declaring a global symbol in a scope gives access to the value assigned in any other. *)
Theorem C48_declared_global : forall c t n b, reachable c -> get_var_sym n c = None -> n <> [] ->
  let c' := snd (process_GBL_LCL true t [DVar n b] c) in
  fst (process_GBL_LCL true t [DVar n b] c) = [] /\ global_here n c' /\
  forall a, lookup n (globals c) = Some a -> get_var_sym n c' = Some (SetSymbol a) /\ deref a c' = deref a c.
Proof.
  intros c t n b Hr Hv Hne c'. destruct (reachable_rel c Hr) as [w R].
  pose proof (symbol_ok c w n R) as Hn. rewrite Hv in Hn. destruct (DECL_ok true t [DVar n b] c w R) as [Hf R']. fold c' in R'.
  assert (D : declares true t [DVar n b] w = ([], declare true t n (match b with [] => true | _ => false end) w)).
  { unfold declares, declare_all. destruct n as [|x xs]; [contradiction|]. rewrite Hn. reflexivity. }
  refine (conj _ (conj _ _)).
  - now rewrite Hf, D.
  - apply (global_here_shared _ _ n R'). rewrite D. cbn [snd declare here]. apply upd_same.
  - intros a Ha. unfold c', process_GBL_LCL, prepare_GBL_LCL. destruct n as [|x xs]; [contradiction|].
    rewrite Hv. cbn [existsb forallb is_omitted andb snd app create_all].
    assert (Hl : lookup (x :: xs) (variables (current c)) = None).
    { unfold get_var_sym in Hv. destruct (lookup (x :: xs) (variables (current c))); [discriminate|reflexivity]. }
    unfold create_global_variable. rewrite Hl, Ha. cbn [snd]. split; [|reflexivity].
    unfold get_var_sym. cbn [insert_variable current variables]. rewrite lookup_insert by exact Hl.
    now rewrite bytes_eqb_refl.
Qed.
Print Assumptions C48_declared_global.

(** A GBLC of a symbol that is a GBLA elsewhere is accepted, and the symbol keeps its type. *)
Theorem C48_type_refuted :
  let l := [DECL true TA [DVar nA []]; SET TA nA [] [Expr (Ret (VA 5))]; CALL [] info1] in
  let r := process_GBL_LCL true TC [DVar nA []] (run (initial info0) l) in
  fst r = [] /\ get_var_sym_value nA [] (snd r) = Value (VA 5) /\
  fst (process_SET TC nA [] [Expr (Ret (VC []))] (snd r)) = [E013_type].
Proof. vm_compute. auto. Qed.
Print Assumptions C48_type_refuted.

Example C48_example :
  let incr := SET TA nA [] [Expr (Read nA [] (fun r => match r with Value (VA z) => Ret (VA (z + 1)) | _ => Ret (VA 0) end))] in
  let l := [DECL true TA [DVar nA []]; SET TA nA [] [Expr (Ret (VA 5))]; SET TA (s2b "B") [] [Expr (Ret (VA 8))]] in
  let inner := [DECL true TA [DVar nA []]; incr; SET TA (s2b "B") [] [Expr (Ret (VA 9))]] in
  let c := run (initial info0) (l ++ CALL [] info1 :: inner ++ [RETURN]) in
  body 0 inner /\ global_here nA (run (initial info0) l) /\
  get_var_sym_value nA [] c = Value (VA 6) /\ get_var_sym_value (s2b "B") [] c = Value (VA 8).
Proof. vm_compute. refine (conj eq_refl (conj _ (conj eq_refl eq_refl))). eexists. split; reflexivity. Qed.
