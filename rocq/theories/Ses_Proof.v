(** * Ses_Proof: lemmas about tunnelled debug sessions *)
From Coq Require Import String List NArith ZArith Bool Lia.
From Verif Require Import Common Lts Json Ses_Model Ses_Spec.
Import ListNotations.
Open Scope list_scope.

(** ** Names *)
Lemma decimal_inv : forall n s, decimal n s ->
  (n < 10 /\ s = [48 + n])%N \/
  exists n' d s', (0 < n' /\ d < 10 /\ n = 10 * n' + d)%N /\ decimal n' s' /\ s = s' ++ [(48 + d)%N].
Proof. intros n s H. destruct H; [left; auto|right; eauto 10]. Qed.
Lemma decimal_fun : forall n s, decimal n s -> forall s', decimal n s' -> s = s'.
Proof.
  intros n s H. induction H as [d Hd|n d s Hn Hd H IH]; intros s' H'; apply decimal_inv in H'.
  - destruct H' as [[_ ->]|(n' & d' & s0 & C & _ & _)]; [reflexivity|lia].
  - destruct H' as [[C _]|(n' & d' & s0 & C & D & ->)]; [lia|].
    assert (n' = n) by lia. assert (d' = d) by lia. subst. now rewrite (IH s0).
Qed.
Lemma dec_fuel_decimal : forall f n, (n < 2 ^ N.of_nat f)%N -> f <> 0 -> decimal n (dec_fuel f n []).
Proof.
  induction f as [|f IH]; intros n H Hf; [easy|].
  cbn [dec_fuel]. destruct (n <? 10)%N eqn:E.
  - apply N.ltb_lt in E. now constructor.
  - apply N.ltb_ge in E. rewrite dec_fuel_app.
    assert (Q : (n / 10 < 2 ^ N.of_nat f)%N).
    { apply N.div_lt_upper_bound; [lia|]. rewrite Nat2N.inj_succ, N.pow_succ_r' in H. lia. }
    assert (P : (0 < n / 10)%N) by (apply N.div_str_pos; lia).
    rewrite (N.div_mod n 10) at 1 by lia. constructor; [assumption|apply N.mod_lt; lia|].
    apply IH; [assumption|]. intros ->. cbn in Q. lia.
Qed.
Lemma dec_decimal : forall n, decimal n (dec n).
Proof.
  intros. apply dec_fuel_decimal; [|easy]. rewrite Nat2N.inj_succ, N.pow_succ_r'.
  pose proof (N_size_nat_bound n). lia.
Qed.
Lemma decimal_dec : forall n s, decimal n s -> s = dec n.
Proof. intros n s H. exact (decimal_fun n s H _ (dec_decimal n)). Qed.

Lemma name_eq : forall n m, named n m <-> m = method_name n.
Proof.
  intros n m. split.
  - intros (d & D & ->). apply decimal_dec in D as ->. reflexivity.
  - intros ->. exists (dec n). split; [apply dec_decimal|reflexivity].
Qed.
Lemma name_inj : forall a b, method_name a = method_name b -> a = b.
Proof.
  intros a b E. unfold method_name in E. do 2 apply app_inv_head in E.
  rewrite <- (dec_value a), <- (dec_value b). now rewrite E.
Qed.
Lemma name_not_tunnel : forall n, method_name n <> tunnel.
Proof.
  intros n E. unfold method_name in E.
  assert (E' : tunnel ++ (s2b "/" ++ dec n) = tunnel ++ []) by (rewrite app_nil_r; exact E).
  apply app_inv_head in E'. discriminate.
Qed.

(** ** Members *)
Lemma assoc_split : forall (k : bytes) (l : list (bytes * json)) v,
  assoc k l = Some v <-> exists l1 l2, l = l1 ++ (k, v) :: l2 /\ ~ In k (map fst l1).
Proof.
  intros k l v. induction l as [|[k' v'] l IH]; cbn [assoc].
  - split; [discriminate|]. intros (l1 & l2 & E & _). now destruct l1.
  - destruct (bytes_eqb k k') eqn:B.
    + apply bytes_eqb_eq in B as <-. split.
      * intros [= ->]. exists [], l. now split.
      * intros (l1 & l2 & E & N). destruct l1 as [|[a b] l1]; cbn [app] in E; injection E as E1 E2.
        -- now subst.
        -- subst. cbn in N. tauto.
    + rewrite IH. split.
      * intros (l1 & l2 & -> & N). exists ((k', v') :: l1), l2. split; [reflexivity|].
        cbn. intros [E|E]; [|tauto]. subst. rewrite (proj2 (bytes_eqb_eq k k) eq_refl) in B. discriminate.
      * intros (l1 & l2 & E & N). destruct l1 as [|[a b] l1]; cbn [app] in E.
        -- injection E as -> _ _. rewrite (proj2 (bytes_eqb_eq k k) eq_refl) in B. discriminate.
        -- injection E as -> -> ->. exists l1, l2. split; [reflexivity|]. cbn in N. tauto.
Qed.
Lemma member_find : forall k msg v, member k msg v <-> jfind (s2b k) msg = Some v.
Proof.
  intros k msg v. split.
  - intros (l & l1 & l2 & -> & E & N). cbn [jfind]. apply assoc_split. eauto.
  - intros H. destruct msg; cbn [jfind] in H; try discriminate.
    apply assoc_split in H as (l1 & l2 & E & N). exists l, l1, l2. auto.
Qed.
Lemma is_method_method : forall m msg, is_method m msg -> method msg = m.
Proof. intros m msg H. apply member_find in H. unfold method. now rewrite H. Qed.
Lemma method_is_method : forall m msg, method msg = m -> m <> [] -> is_method m msg.
Proof.
  intros m msg E N. apply member_find. unfold method in E.
  destruct (jfind (s2b "method") msg) as [[]|]; try congruence.
Qed.
Lemma name_nonempty : forall n, method_name n <> [].
Proof. intros n E. unfold method_name in E. apply app_eq_nil in E as [E _]. discriminate. Qed.
Lemma addressed_eq : forall n msg, addressed n msg <-> method msg = method_name n.
Proof.
  intros n msg. split.
  - intros (m & N & M). apply name_eq in N as ->. now apply is_method_method.
  - intros E. exists (method_name n). split; [now apply name_eq|]. apply method_is_method; [assumption|apply name_nonempty].
Qed.
Lemma content_eq : forall msg c, content msg c <-> unwrap msg = Some c.
Proof.
  intros msg c. unfold content, unwrap. rewrite member_find.
  destruct (jfind (s2b "params") msg) as [v|]; [|split; [intros [H _]; discriminate|discriminate]].
  destruct v; (split; [intros [H N]; injection H as <-; try reflexivity; now elim N|]);
    intros H; try discriminate; injection H as <-; split; congruence.
Qed.
Lemma closing_eq : forall msg, closing msg <-> unwrap msg = None.
Proof.
  intros msg. unfold closing. destruct (unwrap msg) as [c|] eqn:E.
  - split; [|discriminate]. intros H. exfalso. apply (H c). now apply content_eq.
  - split; [reflexivity|]. intros _ c H. apply content_eq in H. congruence.
Qed.
Lemma opening_eq : forall n msg, opening n msg -> method msg = tunnel /\ session_id msg = Some n.
Proof.
  intros n msg (M & P & B). split; [now apply is_method_method|].
  apply member_find in P. unfold session_id. rewrite P. f_equal. rewrite Z.mod_small by lia. apply N2Z.id.
Qed.
Lemma tunnelled_eq : forall msg, tunnelled msg <-> is_tunnelled msg = true.
Proof.
  intros msg. unfold is_tunnelled. rewrite bytes_eqb_eq. split.
  - intros (r & M). apply is_method_method in M. rewrite M. reflexivity.
  - intros E. exists (skipn (List.length tunnel) (method msg)).
    apply method_is_method; [|intros E'; apply app_eq_nil in E' as [E' _]; discriminate].
    change (s2b "hlasm/dap_tunnel") with tunnel.
    rewrite <- (firstn_skipn (List.length tunnel) (method msg)) at 1. now rewrite E.
Qed.
Lemma name_tunnelled : forall n msg, method msg = method_name n -> is_tunnelled msg = true.
Proof. intros n msg E. unfold is_tunnelled. rewrite E. reflexivity. Qed.
Lemma tunnel_tunnelled : forall msg, method msg = tunnel -> is_tunnelled msg = true.
Proof. intros msg E. unfold is_tunnelled. rewrite E. reflexivity. Qed.

(** ** Lists *)
Lemma assoc_some : forall A (k : bytes) (l : list (bytes * A)) v, assoc k l = Some v -> In (k, v) l.
Proof.
  induction l as [|[k' v'] l IH]; cbn [assoc]; intros v H; [discriminate|].
  destruct (bytes_eqb k k') eqn:B; [|right; auto].
  apply bytes_eqb_eq in B as <-. injection H as ->. now left.
Qed.
Lemma assoc_none : forall A (k : bytes) (l : list (bytes * A)), assoc k l = None -> ~ In k (map fst l).
Proof.
  induction l as [|[k' v'] l IH]; cbn [assoc map fst]; intros H; [easy|].
  destruct (bytes_eqb k k') eqn:B; [discriminate|]. intros [E|E]; [|now apply IH].
  cbn in E. subst. rewrite (proj2 (bytes_eqb_eq k k) eq_refl) in B. discriminate.
Qed.
Lemma assoc_nodup : forall A (k : bytes) (l : list (bytes * A)) v,
  NoDup (map fst l) -> In (k, v) l -> assoc k l = Some v.
Proof.
  induction l as [|[k' v'] l IH]; cbn [assoc map fst]; intros v N H; [easy|].
  inversion N as [|a b N1 N2]; subst. destruct H as [[= -> ->]|H].
  - now rewrite (proj2 (bytes_eqb_eq k k) eq_refl).
  - destruct (bytes_eqb k k') eqn:B; [|auto]. apply bytes_eqb_eq in B as <-.
    exfalso. apply N1. now apply (in_map fst) in H.
Qed.
Lemma nodup_filter : forall A (f : bytes * A -> bool) l, NoDup (map fst l) -> NoDup (map fst (filter f l)).
Proof.
  induction l as [|x l IH]; cbn; intros N; [constructor|]. inversion N as [|a b N1 N2]; subst.
  destruct (f x); [|auto]. cbn. constructor; [|auto].
  intros H. apply N1. apply in_map_iff in H as (y & E & H). apply filter_In in H as [H _].
  rewrite <- E. now apply in_map.
Qed.
Lemma nodup_snoc : forall A (l : list A) x, NoDup l -> ~ In x l -> NoDup (l ++ [x]).
Proof.
  induction l as [|y l IH]; intros x N H; cbn; [constructor; [easy|constructor]|].
  inversion N as [|a b N1 N2]; subst. constructor.
  - rewrite in_app_iff. intros [K|[->|[]]]; [easy|]. apply H. now left.
  - apply IH; [assumption|]. intros K. apply H. now right.
Qed.
Lemma update_length : forall A (f : A -> A) l k, List.length (update k f l) = List.length l.
Proof. induction l as [|x l IH]; intros [|k]; cbn; auto. Qed.
Lemma nth_update : forall A (f : A -> A) l k j,
  nth_error (update k f l) j = if Nat.eqb k j then option_map f (nth_error l j) else nth_error l j.
Proof.
  induction l as [|x l IH]; intros k j.
  - destruct k, j; cbn; try reflexivity. now destruct (Nat.eqb k j).
  - destruct k as [|k], j as [|j]; cbn; try reflexivity. apply IH.
Qed.

(** ** The map of the manager *)
Record inv (s : st) : Prop := Inv {
  iv_keys : NoDup (map fst (registered s));
  iv_entry : forall k i, In (k, i) (registered s) ->
    exists x, nth_error (made s) i = Some x /\ k = method_name (ident x);
  iv_live : forall i x, nth_error (made s) i = Some x -> is_running x = true ->
    In (method_name (ident x), i) (registered s)
}.

(** Changing one session without reviving it or renaming it. *)
Definition tame (f : session -> session) (x : session) : Prop :=
  ident (f x) = ident x /\ (is_running (f x) = true -> is_running x = true).
Lemma inv_update : forall s o' l' k f,
  inv s -> (forall x, nth_error (made s) k = Some x -> tame f x) ->
  inv (St (registered s) (update k f (made s)) o' l').
Proof.
  intros [r m o l] o' l' k f [I1 I2 I3] T. cbn [registered made] in *. constructor; cbn [registered made].
  - exact I1.
  - intros a i H. destruct (I2 a i H) as (x & E & ->). rewrite nth_update, E.
    destruct (Nat.eqb k i) eqn:K; [|eauto]. apply Nat.eqb_eq in K as ->.
    exists (f x). split; [reflexivity|]. now rewrite (proj1 (T x E)).
  - intros i x H R. rewrite nth_update in H. destruct (Nat.eqb k i) eqn:K; [|now apply I3].
    apply Nat.eqb_eq in K as ->. destruct (nth_error m i) as [y|] eqn:E; [|discriminate].
    injection H as <-. destruct (T y eq_refl) as [T1 T2]. rewrite T1. apply I3; auto.
Qed.
Lemma inv_same : forall s o' l', inv s -> inv (St (registered s) (made s) o' l').
Proof. intros s o' l' [I1 I2 I3]. now constructor. Qed.

Lemma cleanup_in : forall s k i, inv s ->
  (In (k, i) (cleanup s) <-> exists x, nth_error (made s) i = Some x /\ is_running x = true /\ k = method_name (ident x)).
Proof.
  intros s k i I. unfold cleanup. rewrite filter_In. cbn [snd]. split.
  - intros [H R]. destruct (iv_entry s I k i H) as (x & E & ->). rewrite E in R. eauto.
  - intros (x & E & R & ->). rewrite E. split; [now apply (iv_live s I)|assumption].
Qed.
Lemma inv_cleanup : forall s, inv s -> inv (St (cleanup s) (made s) (out s) (lsp s)).
Proof.
  intros s I. constructor; cbn [registered made].
  - apply nodup_filter. apply I.
  - intros k i H. apply (cleanup_in s k i I) in H as (x & E & R & ->). eauto.
  - intros i x E R. apply (cleanup_in s _ i I). eauto.
Qed.

(** What a message of the client does. *)
Inductive wrote (msg : json) (s : st) : st -> Prop :=
| wr_lsp : is_tunnelled msg = false -> wrote msg s (St (registered s) (made s) (out s) (lsp s ++ [msg]))
| wr_push : forall k x, In (method_name (ident x), k) (registered s) -> nth_error (made s) k = Some x ->
    method msg = method_name (ident x) ->
    wrote msg s (St (registered s) (update k (push msg) (made s)) (out s) (lsp s))
| wr_old : forall id k x, method msg = tunnel -> session_id msg = Some id ->
    nth_error (made s) k = Some x -> is_running x = true -> ident x = id ->
    wrote msg s (St (cleanup s) (made s) (out s) (lsp s))
| wr_new : forall id, method msg = tunnel -> session_id msg = Some id ->
    (forall k x, nth_error (made s) k = Some x -> is_running x = true -> ident x <> id) ->
    wrote msg s (St (cleanup s ++ [(method_name id, List.length (made s))])
                    (made s ++ [Session id [] Reading []]) (out s) (lsp s))
| wr_bad : method msg = tunnel -> session_id msg = None -> wrote msg s s
| wr_drop : is_tunnelled msg = true -> method msg <> tunnel ->
    (forall k x, In (method_name (ident x), k) (registered s) -> method msg <> method_name (ident x)) -> wrote msg s s.

Lemma router_wrote : forall msg s, inv s -> wrote msg s (router_write msg s).
Proof.
  intros msg s I. unfold router_write. destruct (is_tunnelled msg) eqn:T; [|now constructor].
  unfold manager_write. destruct (assoc (method msg) (registered s)) as [k|] eqn:A.
  - apply assoc_some in A. destruct (iv_entry s I _ _ A) as (x & E & M). rewrite M in A. eapply wr_push; eauto.
  - apply assoc_none in A. destruct (bytes_eqb (method msg) tunnel) eqn:B.
    + apply bytes_eqb_eq in B. destruct (session_id msg) as [id|] eqn:D; [|now constructor].
      unfold handle_registration. destruct (assoc (method_name id) (cleanup s)) as [k|] eqn:C.
      * apply assoc_some in C. apply (cleanup_in s _ _ I) in C as (x & E & R & N). apply name_inj in N as ->.
        eapply wr_old; eauto.
      * apply assoc_none in C. eapply wr_new; eauto. intros k x E R <-. apply C.
        apply (in_map fst) with (x := (method_name (ident x), k)). apply (cleanup_in s _ _ I). eauto.
    + apply wr_drop; [assumption| |].
      * intros E. rewrite (proj2 (bytes_eqb_eq _ _) E) in B. discriminate.
      * intros k x H E. apply A. rewrite E. now apply (in_map fst) in H.
Qed.

Lemma push_tame : forall msg x, tame (push msg) x.
Proof. intros msg x. split; [reflexivity|]. intros H. exact H. Qed.

Lemma wrote_inv : forall msg s s', inv s -> wrote msg s s' -> inv s'.
Proof.
  intros msg s s' I W. destruct W as [T|k x H E M|id k x M D E R N|id M D F|M D|T M F].
  - now apply inv_same.
  - apply inv_update; [exact I|]. intros. apply push_tame.
  - now apply inv_cleanup.
  - pose proof (inv_cleanup s I) as [C1 C2 C3]. cbn [registered made] in *. constructor; cbn [registered made].
    + rewrite map_app. apply nodup_snoc; [exact C1|]. cbn [fst]. intros H.
      apply in_map_iff in H as ([k i] & E & H). cbn in E. subst k.
      apply (cleanup_in s _ _ I) in H as (x & E & R & N). apply name_inj in N. eapply F; eauto.
    + intros k i H. apply in_app_iff in H as [H|[[= <- <-]|[]]].
      * destruct (C2 k i H) as (x & E & ->). exists x. split; [|reflexivity].
        rewrite nth_error_app1; [assumption|]. apply nth_error_Some. congruence.
      * exists (Session id [] Reading []). split; [|reflexivity].
        rewrite nth_error_app2 by lia. now rewrite Nat.sub_diag.
    + intros i x H R. apply in_app_iff. destruct (Nat.lt_ge_cases i (List.length (made s))) as [L|L].
      * rewrite nth_error_app1 in H by assumption. left. now apply C3.
      * rewrite nth_error_app2 in H by assumption. right. destruct (i - List.length (made s)) as [|j] eqn:J.
        -- injection H as <-. left. cbn [ident]. f_equal. lia.
        -- destruct j; discriminate.
  - exact I.
  - exact I.
Qed.

(** What the others do. *)
Lemma step_cases : forall s e s', step s e = Some s' ->
  match e with
  | Write msg => s' = router_write msg s
  | Read k => exists id msg q g, nth_error (made s) k = Some (Session id (msg :: q) Reading g) /\
      s' = St (registered s) (update k (fun _ => match unwrap msg with Some p => Session id q Reading (g ++ [p])
                                                 | None => Session id q Closing g end) (made s)) (out s) (lsp s)
  | Stop k => exists x, nth_error (made s) k = Some x /\ at_ x = Reading /\
      s' = St (registered s) (update k (in_phase Closing) (made s)) (out s) (lsp s)
  | Finish k => exists x, nth_error (made s) k = Some x /\ at_ x = Closing /\
      s' = St (registered s) (update k (in_phase Ended) (made s)) (out s) (lsp s)
  | Say k msg => exists x, nth_error (made s) k = Some x /\ is_running x = true /\
      s' = St (registered s) (made s) (out s ++ [wrap (ident x) msg]) (lsp s)
  end.
Proof.
  intros s e s' H. destruct e as [msg|k|k|k|k msg]; cbn [step] in H; [now injection H|..];
    destruct (nth_error (made s) k) as [x|] eqn:E; try discriminate.
  - destruct x as [id [|msg q] [] g]; try discriminate. injection H as <-. exists id, msg, q, g. auto.
  - destruct x as [id q [] g]; try discriminate. injection H as <-. eauto.
  - destruct x as [id q [] g]; try discriminate. injection H as <-. eauto.
  - destruct (is_running x) eqn:R; [|discriminate]. injection H as <-. eauto.
Qed.

Lemma step_inv : forall s e s', inv s -> step s e = Some s' -> inv s'.
Proof.
  intros s e s' I H. apply step_cases in H. destruct e as [msg|k|k|k|k msg].
  - subst. eapply wrote_inv; [exact I|]. now apply router_wrote.
  - destruct H as (id & msg & q & g & E & ->). apply inv_update; [exact I|].
    intros x H. rewrite E in H. injection H as <-. destruct (unwrap msg); split; reflexivity.
  - destruct H as (x & E & P & ->). apply inv_update; [exact I|].
    intros y H. rewrite E in H. injection H as <-. split; [reflexivity|].
    unfold is_running. now rewrite P.
  - destruct H as (x & E & P & ->). apply inv_update; [exact I|].
    intros y H. split; [reflexivity|]. intros R. discriminate.
  - destruct H as (x & E & P & ->). now apply inv_same.
Qed.
Lemma init_inv : inv init.
Proof. constructor; cbn; [constructor|easy|]. intros [|i]; discriminate. Qed.
Lemma reach_inv : forall es s, run step init es = Some s -> inv s.
Proof. intros es s H. eapply run_inv with (P := inv); [|exact init_inv|exact H]. intros; eapply step_inv; eauto. Qed.

(** Sessions stay, with their identifiers. *)
Lemma step_stays : forall s e s' k x, inv s -> step s e = Some s' -> nth_error (made s) k = Some x ->
  exists x', nth_error (made s') k = Some x' /\ ident x' = ident x.
Proof.
  intros s e s' k x I H E. apply step_cases in H. destruct e as [msg|j|j|j|j msg].
  - subst. pose proof (router_wrote msg s I) as W.
    destruct W as [T|j y Hj Ej M|id j y M D Ej R N|id M D F|M D|T M F]; cbn [made]; eauto.
    + rewrite nth_update, E. destruct (Nat.eqb j k); cbn; eauto.
    + rewrite nth_error_app1; [eauto|]. apply nth_error_Some. congruence.
  - destruct H as (id & msg & q & g & Ej & ->). cbn [made]. rewrite nth_update. destruct (Nat.eqb j k) eqn:K; [|eauto].
    apply Nat.eqb_eq in K as ->. rewrite E in *. injection Ej as ->. cbn [option_map].
    eexists; split; [reflexivity|]. now destruct (unwrap msg).
  - destruct H as (y & Ej & P & ->). cbn [made]. rewrite nth_update, E. destruct (Nat.eqb j k); cbn; eauto.
  - destruct H as (y & Ej & P & ->). cbn [made]. rewrite nth_update, E. destruct (Nat.eqb j k); cbn; eauto.
  - destruct H as (y & Ej & P & ->). eauto.
Qed.
Lemma run_stays : forall es s s' k x, inv s -> run step s es = Some s' -> nth_error (made s) k = Some x ->
  exists x', nth_error (made s') k = Some x' /\ ident x' = ident x.
Proof.
  induction es as [|e es IH]; cbn [run]; intros s s' k x I H E; [injection H as <-; eauto|].
  destruct (step s e) as [s1|] eqn:S1; [|discriminate].
  destruct (step_stays _ _ _ _ _ I S1 E) as (x1 & E1 & N1).
  destruct (IH _ _ _ _ (step_inv _ _ _ I S1) H E1) as (x2 & E2 & N2). exists x2. split; [assumption|congruence].
Qed.

(** ** What one session is given *)
Definition mine (n : N) (ms : list json) : list json := filter (fun m => bytes_eqb (method m) (method_name n)) ms.
Fixpoint contents (ms : list json) : list json :=
  match ms with
  | [] => []
  | m :: r => match unwrap m with Some c => c :: contents r | None => [] end
  end.
Definition open_ (ms : list json) : Prop := Forall (fun m => unwrap m <> None) ms.
Lemma contents_open : forall a b, open_ a -> contents (a ++ b) = contents a ++ contents b.
Proof.
  induction 1 as [|m a Hm H IH]; cbn; [reflexivity|]. destruct (unwrap m); [|easy]. now rewrite IH.
Qed.
Lemma contents_more : forall a b, exists r, contents (a ++ b) = contents a ++ r.
Proof.
  induction a as [|m a IH]; intros b; cbn; [eauto|]. destruct (unwrap m); [|now exists []].
  destruct (IH b) as (r & ->). now exists r.
Qed.
Lemma stream_contents : forall n ms, stream n ms (contents (mine n ms)).
Proof.
  intros n ms. induction ms as [|m ms IH]; cbn [mine filter]; [constructor|].
  destruct (bytes_eqb (method m) (method_name n)) eqn:B.
  - apply bytes_eqb_eq in B. apply addressed_eq in B. cbn [contents].
    destruct (unwrap m) as [c|] eqn:U.
    + constructor; [assumption|now apply content_eq|exact IH].
    + constructor; [assumption|now apply closing_eq].
  - constructor; [|exact IH]. intros A. apply addressed_eq in A. apply bytes_eqb_eq in A. congruence.
Qed.
Lemma stream_fun : forall n ms cs cs', stream n ms cs -> stream n ms cs' -> cs = cs'.
Proof.
  intros n ms cs cs' H. revert cs'.
  induction H as [|m ms cs N H IH|m c ms cs A C H IH|m ms A C]; intros cs' H'; inversion H'; subst; try easy.
  - now apply IH.
  - f_equal; [|now apply IH]. apply content_eq in C.
    match goal with K : content m _ |- _ => apply content_eq in K end. congruence.
  - exfalso. match goal with K : closing m |- _ => exact (K _ C) end.
  - exfalso. match goal with K : content m _ |- _ => exact (C _ K) end.
Qed.

Fixpoint writes (es : list ev) : list json :=
  match es with [] => [] | Write m :: r => m :: writes r | _ :: r => writes r end.
Lemma writes_app : forall a b, writes (a ++ b) = writes a ++ writes b.
Proof. induction a as [|[] a IH]; cbn; intros; rewrite ?IH; reflexivity. Qed.

Record tracked (n : N) (k : nat) (ms : list json) (s : st) (x : session) : Prop := Tracked {
  tr_at : nth_error (made s) k = Some x;
  tr_id : ident x = n;
  tr_prefix : exists r, contents (mine n ms) = got x ++ r;
  tr_reading : at_ x = Reading -> exists c, mine n ms = c ++ queue x /\ got x = contents c /\ open_ c
}.
Lemma mine_snoc : forall n ms m, mine n (ms ++ [m]) =
  mine n ms ++ (if bytes_eqb (method m) (method_name n) then [m] else []).
Proof. intros. unfold mine. rewrite filter_app. reflexivity. Qed.
Lemma prefix_snoc : forall n ms m g, (exists r, contents (mine n ms) = g ++ r) ->
  exists r, contents (mine n (ms ++ [m])) = g ++ r.
Proof.
  intros n ms m g (r & E). rewrite mine_snoc.
  destruct (contents_more (mine n ms) (if bytes_eqb (method m) (method_name n) then [m] else [])) as (r' & ->).
  rewrite E, <- app_assoc. eauto.
Qed.

Lemma tracked_write : forall n k ms s x msg, inv s -> tracked n k ms s x ->
  exists x', tracked n k (ms ++ [msg]) (router_write msg s) x'.
Proof.
  intros n k ms s x msg I [E N P R].
  assert (K : forall s', nth_error (made s') k = Some x ->
    (at_ x = Reading -> method msg <> method_name n) -> exists x', tracked n k (ms ++ [msg]) s' x').
  { intros s' E' M. exists x. constructor; [assumption|assumption|now apply prefix_snoc|].
    intros A. destruct (R A) as (c & Q & G & O). exists c. split; [|now split].
    rewrite mine_snoc, Q. destruct (bytes_eqb (method msg) (method_name n)) eqn:B; [|now rewrite app_nil_r].
    apply bytes_eqb_eq in B. now apply M in A. }
  destruct (router_wrote msg s I) as [T|j y Hj Ej M|id j y M D Ej Ry Ny|id M D F|M D|T M F].
  - apply K; [assumption|]. intros _ M. apply name_tunnelled in M. congruence.
  - cbn [made]. destruct (Nat.eqb j k) eqn:J.
    + apply Nat.eqb_eq in J as ->. rewrite E in Ej. injection Ej as <-. rewrite N in M.
      exists (push msg x). constructor.
      * cbn [made]. rewrite nth_update, Nat.eqb_refl, E. reflexivity.
      * exact N.
      * now apply prefix_snoc.
      * intros A. destruct (R A) as (c & Q & G & O). exists c. split; [|now split].
        rewrite mine_snoc, Q, (proj2 (bytes_eqb_eq _ _) M). cbn [push queue]. now rewrite app_assoc.
    + apply K; cbn [made]; [now rewrite nth_update, J|].
      intros A M2. assert (L : is_running x = true) by (unfold is_running; now rewrite A).
      apply (iv_live s I _ _ E) in L. rewrite N in L. rewrite M2 in M. rewrite <- M in Hj.
      apply Nat.eqb_neq in J. apply J.
      apply (assoc_nodup _ _ _ _ (iv_keys s I)) in L. apply (assoc_nodup _ _ _ _ (iv_keys s I)) in Hj. congruence.
  - apply K; [assumption|]. intros _ M2. rewrite M in M2. symmetry in M2. now apply name_not_tunnel in M2.
  - apply K; [cbn [made]; rewrite nth_error_app1; [assumption|apply nth_error_Some; congruence]|].
    intros _ M2. rewrite M in M2. symmetry in M2. now apply name_not_tunnel in M2.
  - apply K; [assumption|]. intros _ M2. rewrite M in M2. symmetry in M2. now apply name_not_tunnel in M2.
  - apply K; [assumption|]. intros A M2. assert (L : is_running x = true) by (unfold is_running; now rewrite A).
    apply (iv_live s I _ _ E) in L. apply F in L. congruence.
Qed.

Lemma tracked_step : forall n k ms s x e s', inv s -> tracked n k ms s x -> step s e = Some s' ->
  exists x', tracked n k (ms ++ writes [e]) s' x'.
Proof.
  intros n k ms s x e s' I T H. apply step_cases in H. destruct e as [msg|j|j|j|j msg]; cbn [writes]; rewrite ?app_nil_r.
  - subst. eapply tracked_write; eauto.
  - destruct H as (id & msg & q & g & Ej & ->). destruct T as [E N P R]. destruct (Nat.eqb j k) eqn:J.
    + apply Nat.eqb_eq in J as ->. rewrite E in Ej. injection Ej as ->. cbn [ident queue at_ got] in *.
      destruct (R eq_refl) as (c & Q & G & O).
      destruct (unwrap msg) as [p|] eqn:U.
      * assert (O' : open_ (c ++ [msg])).
        { apply Forall_app. split; [assumption|]. constructor; [congruence|constructor]. }
        assert (G' : contents (c ++ [msg]) = g ++ [p]).
        { rewrite contents_open by assumption. cbn [contents]. rewrite U. congruence. }
        exists (Session id q Reading (g ++ [p])). constructor; cbn [made ident queue at_ got].
        -- rewrite nth_update, Nat.eqb_refl, E. reflexivity.
        -- exact N.
        -- rewrite Q. replace (c ++ msg :: q) with ((c ++ [msg]) ++ q) by now rewrite <- app_assoc.
           rewrite contents_open by assumption. rewrite G'. eauto.
        -- intros _. exists (c ++ [msg]). split; [now rewrite Q, <- app_assoc|]. now split.
      * exists (Session id q Closing g). constructor; cbn [made ident queue at_ got]; [|exact N|exact P|discriminate].
        rewrite nth_update, Nat.eqb_refl, E. reflexivity.
    + exists x. constructor; [cbn [made]; now rewrite nth_update, J|assumption..].
  - destruct H as (y & Ej & A & ->). destruct T as [E N P R]. destruct (Nat.eqb j k) eqn:J.
    + apply Nat.eqb_eq in J as ->. exists (in_phase Closing x). constructor; [|exact N|exact P|discriminate].
      cbn [made]. rewrite nth_update, Nat.eqb_refl, E. reflexivity.
    + exists x. constructor; [cbn [made]; now rewrite nth_update, J|assumption..].
  - destruct H as (y & Ej & A & ->). destruct T as [E N P R]. destruct (Nat.eqb j k) eqn:J.
    + apply Nat.eqb_eq in J as ->. exists (in_phase Ended x). constructor; [|exact N|exact P|discriminate].
      cbn [made]. rewrite nth_update, Nat.eqb_refl, E. reflexivity.
    + exists x. constructor; [cbn [made]; now rewrite nth_update, J|assumption..].
  - destruct H as (y & Ej & A & ->). destruct T as [E N P R]. exists x. now constructor.
Qed.
Lemma tracked_run : forall es n k ms s x s', inv s -> tracked n k ms s x -> run step s es = Some s' ->
  exists x', tracked n k (ms ++ writes es) s' x'.
Proof.
  induction es as [|e es IH]; cbn [run]; intros n k ms s x s' I T H.
  - injection H as <-. cbn [writes]. rewrite app_nil_r. eauto.
  - destruct (step s e) as [s1|] eqn:S1; [|discriminate].
    destruct (tracked_step _ _ _ _ _ _ _ I T S1) as (x1 & T1).
    change (e :: es) with ([e] ++ es). rewrite writes_app, app_assoc.
    eapply IH; [eapply step_inv; eauto|exact T1|exact H].
Qed.
