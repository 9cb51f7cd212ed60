(** * What the context of an analysis holds after all macros and the open code were added *)
From Coq Require Import List Arith Bool Lia Permutation ZifyBool ZifyNat.
From Verif Require Import Nav_Model Nav_Spec Nav_Proof.
Import ListNotations.

(** ** Maps *)
Lemma lookup_assign : forall {A} k (a : A) m j, lookup j (assign k a m) = if j =? k then Some a else lookup j m.
Proof.
  induction m as [|[i b] r IH]; intros j; cbn.
  - destruct (j =? k); reflexivity.
  - destruct (Nat.eqb_spec k i) as [->|N]; cbn.
    + destruct (Nat.eqb_spec j i); reflexivity.
    + rewrite IH. destruct (Nat.eqb_spec j i) as [->|]; [|reflexivity].
      destruct (Nat.eqb_spec i k); [congruence|reflexivity].
Qed.
Lemma in_assign : forall {A} k (a : A) m e, In e (assign k a m) -> e = (k, a) \/ In e m.
Proof.
  induction m as [|[i b] r IH]; intros e; cbn.
  - intros [<-|[]]. auto.
  - destruct (k =? i); cbn; intros [<-|H]; auto. destruct (IH e H); auto.
Qed.

(** ** Slices *)
Definition shows (t : file_slice) (l : nat) : Prop := begins t <= l < ends t.
Definition covered (ss : list file_slice) (l : nat) : Prop := exists t, In t ss /\ shows t l.

Lemma find_scope_some : forall ss l k, find_scope l ss = Some k -> exists t, In t ss /\ shows t l /\ owner t = k.
Proof.
  induction ss as [|t r IH]; intros l k H; [discriminate|]. cbn [find_scope get_macro] in H.
  destruct ((begins t <=? l) && (l <? ends t)) eqn:E.
  - injection H as <-. exists t. unfold shows. cbn. repeat split; auto; lia.
  - destruct (IH _ _ H) as (u & A & B). exists u. cbn. tauto.
Qed.
Lemma find_scope_none : forall ss l, find_scope l ss = None -> ~ covered ss l.
Proof.
  induction ss as [|t r IH]; intros l H (u & I & S); [destruct I|]. cbn [find_scope] in H.
  destruct ((begins t <=? l) && (l <? ends t)) eqn:E; [discriminate|].
  destruct I as [<-|I]; [unfold shows in S; lia|]. apply (IH l H). exists u. auto.
Qed.

Lemma insert_in : forall s ss t, In t (insert s ss) -> t = s \/ In t ss.
Proof.
  induction ss as [|u r IH]; intros t; cbn.
  - intros [<-|[]]. auto.
  - destruct (key_eqb s u); [|destruct (key_ltb s u)]; cbn.
    + intros [<-|H]; auto.
    + intros [<-|[<-|H]]; auto.
    + intros [<-|H]; auto. destruct (IH t H); auto.
Qed.
Lemma insert_new : forall s ss, In s (insert s ss).
Proof.
  induction ss as [|u r IH]; cbn; [auto|]. destruct (key_eqb s u); [|destruct (key_ltb s u)]; cbn; auto.
Qed.
Lemma insert_keeps : forall s ss t, In t ss -> In t (insert s ss) \/ key_eqb s t = true.
Proof.
  induction ss as [|u r IH]; intros t; [intros []|]. cbn.
  intros [<-|H]; destruct (key_eqb s u) eqn:E; auto; destruct (key_ltb s u); cbn; auto. destruct (IH t H); auto.
Qed.
Lemma insert_covered : forall s ss l, covered ss l -> covered (insert s ss) l.
Proof.
  intros s ss l (t & I & S). destruct (insert_keeps s ss t I) as [H|H]; [exists t; auto|].
  exists s. split; [apply insert_new|]. unfold key_eqb, shows in *. lia.
Qed.
Lemma insert_all_in : forall new ss t, In t (fold_left (fun acc s => insert s acc) new ss) -> In t new \/ In t ss.
Proof.
  induction new as [|s r IH]; intros ss t H; cbn in *; [auto|].
  destruct (IH _ _ H) as [H'|H']; [auto|]. destruct (insert_in _ _ _ H'); auto.
Qed.
Lemma insert_all_covered : forall new ss l, covered ss l \/ covered new l ->
  covered (fold_left (fun acc s => insert s acc) new ss) l.
Proof.
  induction new as [|s r IH]; intros ss l H; cbn.
  - destruct H as [H|(t & [] & _)]. exact H.
  - apply IH. destruct H as [H|(t & [<-|I] & S)].
    + left. apply insert_covered. exact H.
    + left. exists s. split; [apply insert_new|exact S].
    + right. exists t. auto.
Qed.

(** ** Distribution *)
Lemma spread_occs_file : forall fs e fs' g, spread_occs fs e = Some fs' ->
  match lookup g fs' with
  | None => lookup g fs = None
  | Some i' => exists i, lookup g fs = Some i /\ ftype i' = ftype i /\ slices i' = slices i /\
                         (occs i' = if g =? fst e then occs i ++ snd e else occs i)
  end.
Proof.
  intros fs [h os] fs' g H. unfold spread_occs in H. cbn [fst snd] in *.
  destruct (lookup h fs) as [i|] eqn:E; [|discriminate]. injection H as <-. rewrite lookup_assign.
  destruct (Nat.eqb_spec g h) as [->|N].
  - exists i. auto.
  - destruct (lookup g fs) as [j|]; [|reflexivity]. exists j. auto.
Qed.

Lemma each_occs : forall es fs fs' g, each spread_occs es fs = Some fs' ->
  match lookup g fs' with
  | None => lookup g fs = None
  | Some i' => exists i, lookup g fs = Some i /\ ftype i' = ftype i /\ slices i' = slices i /\
                         (forall o, In o (occs i') <-> In o (occs i) \/ recorded es g o)
  end.
Proof.
  induction es as [|e r IH]; intros fs fs' g H; cbn in H.
  - injection H as <-. destruct (lookup g fs) as [i|]; [|reflexivity]. exists i. split; [reflexivity|]. split; [reflexivity|]. split; [reflexivity|].
    intros o. split; [auto|]. intros [H|(os & [] & _)]. exact H.
  - destruct (spread_occs fs e) as [fs1|] eqn:E; [|discriminate].
    specialize (IH _ _ g H). pose proof (spread_occs_file _ _ _ g E) as S.
    destruct (lookup g fs') as [i'|].
    + destruct IH as (i1 & L1 & A1 & B1 & C1). rewrite L1 in S. destruct S as (i & L & A & B & C).
      exists i. split; [exact L|]. split; [congruence|]. split; [congruence|].
      intros o. rewrite (C1 o), C. unfold recorded. destruct e as [h os]. cbn [fst snd].
      destruct (Nat.eqb_spec g h) as [->|N].
      * rewrite in_app_iff. split.
        -- intros [[H1|H1]|(os' & H1 & H2)]; [auto| |]; right; [exists os|exists os']; cbn; auto.
        -- intros [H1|(os' & [H1|H1] & H2)]; [auto| |right; eauto]. injection H1 as <-. auto.
      * split.
        -- intros [H1|(os' & H1 & H2)]; [auto|]. right. exists os'. cbn. auto.
        -- intros [H1|(os' & [H1|H1] & H2)]; [auto| |right; eauto]. congruence.
    + rewrite IH in S. exact S.
Qed.

Lemma spread_slices_file : forall m fs e fs' g, spread_slices m fs e = Some fs' ->
  exists ts, transform_all m (snd e) = Some ts /\
  match lookup g fs' with
  | None => lookup g fs = None
  | Some i' => exists i, lookup g fs = Some i /\ ftype i' = ftype i /\ occs i' = occs i /\
      slices i' = if g =? fst e then fold_left (fun acc s => insert s acc) ts (slices i) else slices i
  end.
Proof.
  intros m fs [h ss] fs' g H. unfold spread_slices in H. cbn [fst snd] in *.
  destruct (lookup h fs) as [i|] eqn:E; [|discriminate].
  destruct (transform_all m ss) as [ts|]; [|discriminate]. injection H as <-. exists ts. split; [reflexivity|].
  rewrite lookup_assign. destruct (Nat.eqb_spec g h) as [->|N].
  - exists i. auto.
  - destruct (lookup g fs) as [j|]; [|reflexivity]. exists j. auto.
Qed.

(** The slices that a macro puts into a file. *)
Definition slice_of (m : macro_info) (g : file) (t : file_slice) : Prop :=
  exists ss ts, In (g, ss) (scopes (body m)) /\ transform_all m ss = Some ts /\ In t ts.

Lemma each_slices : forall m es fs fs' g, each (spread_slices m) es fs = Some fs' ->
  let new t := exists ss ts, In (g, ss) es /\ transform_all m ss = Some ts /\ In t ts in
  match lookup g fs' with
  | None => lookup g fs = None
  | Some i' => exists i, lookup g fs = Some i /\ ftype i' = ftype i /\ occs i' = occs i /\
      (forall t, In t (slices i') -> In t (slices i) \/ new t) /\
      (forall l, covered (slices i) l \/ (exists t, new t /\ shows t l) -> covered (slices i') l)
  end.
Proof.
  intros m es. induction es as [|e r IH]; intros fs fs' g H; cbn zeta in *; cbn in H.
  - injection H as <-. destruct (lookup g fs) as [i|]; [|reflexivity]. exists i. split; [reflexivity|]. split; [reflexivity|].
    split; [reflexivity|]. split; [auto|]. intros l [H|(t & (ss & ts & [] & _) & _)]. exact H.
  - destruct (spread_slices m fs e) as [fs1|] eqn:E; [|discriminate].
    specialize (IH _ _ g H). destruct (spread_slices_file _ _ _ _ g E) as (ts & T & S).
    destruct (lookup g fs') as [i'|].
    + destruct IH as (i1 & L1 & A1 & B1 & C1 & D1). rewrite L1 in S. destruct S as (i & L & A & B & C).
      exists i. split; [exact L|]. split; [congruence|]. split; [congruence|]. destruct e as [h ss]. cbn [fst snd] in *.
      destruct (Nat.eqb_spec g h) as [->|N].
      * split.
        -- intros t Ht. destruct (C1 t Ht) as [H1|(ss' & ts' & H1 & H2)].
           ++ rewrite C in H1. apply insert_all_in in H1. destruct H1 as [H1|H1]; [|auto].
              right. exists ss, ts. cbn. auto.
           ++ right. exists ss', ts'. cbn. tauto.
        -- intros l Hl. apply D1. rewrite C. destruct Hl as [Hl|(t & (ss' & ts' & [H1|H1] & H2 & H3) & H4)].
           ++ left. apply insert_all_covered. auto.
           ++ injection H1 as <-. rewrite T in H2. injection H2 as <-. left. apply insert_all_covered. right. exists t. auto.
           ++ right. exists t. split; [exists ss', ts'; auto|exact H4].
      * split.
        -- intros t Ht. destruct (C1 t Ht) as [H1|(ss' & ts' & H1 & H2)].
           ++ rewrite C in H1. auto.
           ++ right. exists ss', ts'. cbn. tauto.
        -- intros l Hl. apply D1. rewrite C. destruct Hl as [Hl|(t & (ss' & ts' & [H1|H1] & H2 & H3) & H4)].
           ++ auto.
           ++ congruence.
           ++ right. exists t. split; [exists ss', ts'; auto|exact H4].
    + rewrite IH in S. exact S.
Qed.

Lemma each_macros : forall ms fs fs' g, each spread_macro ms fs = Some fs' ->
  let new t := exists m, In m ms /\ slice_of m g t in
  match lookup g fs' with
  | None => lookup g fs = None
  | Some i' => exists i, lookup g fs = Some i /\ ftype i' = ftype i /\
      (forall o, In o (occs i') <-> In o (occs i) \/ exists m, In m ms /\ recorded (mac_occs m) g o) /\
      (forall t, In t (slices i') -> In t (slices i) \/ new t) /\
      (forall l, covered (slices i) l \/ (exists t, new t /\ shows t l) -> covered (slices i') l)
  end.
Proof.
  induction ms as [|m r IH]; intros fs fs' g H; cbn zeta in *; cbn in H.
  - injection H as <-. destruct (lookup g fs) as [i|]; [|reflexivity]. exists i. split; [reflexivity|]. split; [reflexivity|].
    split; [intros o; split; [auto|]; intros [H|(m & [] & _)]; exact H|]. split; [auto|].
    intros l [H|(t & (m & [] & _) & _)]. exact H.
  - destruct (spread_macro fs m) as [fs1|] eqn:E; [|discriminate]. unfold spread_macro in E.
    destruct (each (spread_slices m) (scopes (body m)) fs) as [fs0|] eqn:E0; [|discriminate].
    specialize (IH _ _ g H). pose proof (each_occs _ _ _ g E) as S1. pose proof (each_slices _ _ _ _ g E0) as S0. cbn zeta in S0.
    destruct (lookup g fs') as [i'|].
    + destruct IH as (i1 & L1 & A1 & B1 & C1 & D1). rewrite L1 in S1. destruct S1 as (i0 & L0 & A0 & B0 & C0).
      rewrite L0 in S0. destruct S0 as (i & L & A & B & C & D). exists i.
      split; [exact L|]. split; [congruence|]. split; [|split].
      * intros o. rewrite (B1 o), (C0 o), B. split.
        -- intros [[H1|H1]|(m' & H1 & H2)]; [auto| |]; right; [exists m|exists m']; cbn; auto.
        -- intros [H1|(m' & [<-|H1] & H2)]; eauto.
      * intros t Ht. destruct (C1 t Ht) as [H1|(m' & H1 & H2)].
        -- rewrite B0 in H1. destruct (C t H1) as [H2|H2]; [auto|]. right. exists m. cbn. auto.
        -- right. exists m'. cbn. auto.
      * intros l Hl. apply D1. rewrite B0. destruct Hl as [Hl|(t & (m' & [<-|H1] & H2) & H3)].
        -- left. apply D. auto.
        -- left. apply D. right. exists t. split; [exact H2|exact H3].
        -- right. exists t. split; [exists m'; auto|exact H3].
    + rewrite IH in S1. rewrite S1 in S0. exact S0.
Qed.

(** A context before the open code is added: files without slices and occurrences. *)
Definition fresh (c : context) : Prop :=
  opencode_ c = None /\ (forall g i, lookup g (files c) = Some i -> slices i = [] /\ occs i = []) /\
  NoDup (map mac_id (macros c)).

Lemma lookup_app : forall {A} g (a b : list (nat * A)), lookup g (a ++ b) = match lookup g a with Some x => Some x | None => lookup g b end.
Proof.
  induction a as [|[k x] r IH]; intros b; [reflexivity|]. cbn. destruct (g =? k); [reflexivity|apply IH].
Qed.

Lemma add_file_fresh : forall f t c, fresh c -> fresh (add_file f t c).
Proof.
  intros f t c (A & B & C). unfold add_file. destruct (lookup f (files c)) eqn:E; [repeat split; auto; eapply B; eauto|].
  split; [exact A|]. split; [|exact C]. cbn. intros g i. rewrite lookup_app.
  destruct (lookup g (files c)) eqn:G; [intros H; injection H as <-; eapply B; eauto|].
  cbn. destruct (g =? f); [|discriminate]. intros H. injection H as <-. auto.
Qed.
Lemma set_macro_ids : forall m ms, NoDup (map mac_id ms) -> NoDup (map mac_id (set_macro m ms)).
Proof.
  intros m ms. assert (G : forall n, In n (map mac_id (set_macro m ms)) -> n = mac_id m \/ In n (map mac_id ms)).
  { induction ms as [|a r IH]; cbn; intros n; [intuition|]. destruct (Nat.eqb_spec (mac_id a) (mac_id m)); cbn; intros [H|H]; auto.
    destruct (IH n H); auto. }
  induction ms as [|a r IH]; cbn; intros N; [constructor; auto; constructor|].
  inversion N as [|x l N1 N2]; subst. destruct (Nat.eqb_spec (mac_id a) (mac_id m)) as [E|E]; cbn.
  - constructor; [rewrite <- E; exact N1|exact N2].
  - constructor; [|apply IH; auto].
    + intros H. assert (Q : mac_id a = mac_id m \/ In (mac_id a) (map mac_id r)).
      { clear - H. induction r as [|b q IHq]; cbn in *; [intuition|].
        destruct (Nat.eqb_spec (mac_id b) (mac_id m)); cbn in *; destruct H as [H|H]; auto. destruct (IHq H); auto. }
      destruct Q; [congruence|contradiction].
    + intros n H. clear - H. induction r as [|b q IHq]; cbn in *; [intuition|].
      destruct (Nat.eqb_spec (mac_id b) (mac_id m)); cbn in *; destruct H as [H|H]; auto. destruct (IHq H); auto.
Qed.

(** The additions in the order in which the analysis makes them. *)
Lemma build_fresh : forall l, fresh (build l).
Proof.
  intros l. unfold build. assert (G : forall l c, fresh c -> fresh (fold_left apply_addition l c)).
  { induction l0 as [|a r IH]; intros c H; [exact H|]. cbn. apply IH. destruct a as [f n d|m]; cbn.
    - apply add_file_fresh. exact H.
    - unfold add_macro. set (c1 := if external m then _ else c).
      assert (F : fresh c1) by (subst c1; destruct (external m); [apply add_file_fresh|]; exact H).
      destruct F as (A & B & C). split; [exact A|]. split; [exact B|]. apply set_macro_ids. exact C. }
  apply G. split; [reflexivity|]. split; [intros g i H; discriminate|constructor].
Qed.

(** After the open code is added. *)
Lemma opencode_files : forall f o c c' g, fresh c -> add_opencode f o c = Some c' ->
  macros c' = macros c /\ opencode_ c' = Some o /\
  match lookup g (files c') with
  | None => lookup g (files c) = None /\ g <> f
  | Some i' =>
      (forall x, In x (occs i') <-> (exists m, In m (macros c) /\ recorded (mac_occs m) g x) \/ recorded (open_occs o) g x) /\
      (forall t, In t (slices i') -> exists m, In m (macros c) /\ slice_of m g t) /\
      (forall m t l, In m (macros c) -> slice_of m g t -> shows t l -> covered (slices i') l)
  end.
Proof.
  intros f o c c' g FR H. unfold add_opencode in H. set (c1 := add_file f OpenFile _) in H.
  assert (M1 : macros c1 = macros c /\ opencode_ c1 = Some o).
  { subst c1. unfold add_file. cbn. destruct (lookup f (files c)); auto. }
  destruct M1 as [M1 O1].
  assert (FR1 : forall g i, lookup g (files c1) = Some i -> slices i = [] /\ occs i = []).
  { destruct FR as (A & B & C). subst c1. unfold add_file. cbn. intros h i.
    destruct (lookup f (files c)) eqn:E; cbn; [apply B|]. rewrite lookup_app.
    destruct (lookup h (files c)) eqn:G; [intros Q; injection Q as <-; eapply B; eauto|].
    cbn. destruct (h =? f); [|discriminate]. intros Q. injection Q as <-. auto. }
  assert (NF : lookup g (files c1) = None -> lookup g (files c) = None /\ g <> f).
  { subst c1. unfold add_file. cbn. destruct (lookup f (files c)) eqn:E; cbn.
    - intros Q. split; [exact Q|]. congruence.
    - rewrite lookup_app. destruct (lookup g (files c)); [discriminate|]. cbn. destruct (Nat.eqb_spec g f); [discriminate|auto]. }
  clearbody c1. rewrite M1, O1 in H.
  destruct (each spread_macro (macros c) (files c1)) as [fs|] eqn:E; [|discriminate].
  destruct (each spread_occs (open_occs o) fs) as [fs'|] eqn:E'; [|discriminate]. injection H as <-. cbn [files macros opencode_].
  split; [reflexivity|]. split; [reflexivity|].
  pose proof (each_macros _ _ _ g E) as S. pose proof (each_occs _ _ _ g E') as S'. cbn zeta in S.
  destruct (lookup g fs') as [i'|].
  - destruct S' as (i1 & L1 & A1 & B1 & C1). rewrite L1 in S. destruct S as (i & L & A & B & C & D).
    destruct (FR1 _ _ L) as [F1 F2]. split; [|split].
    + intros x. rewrite (C1 x), (B x), F2. cbn. tauto.
    + intros t Ht. rewrite B1 in Ht. destruct (C t Ht) as [Q|Q]; [rewrite F1 in Q; destruct Q|exact Q].
    + intros m t l Hm Ht Hl. rewrite B1. apply D. right. exists t. split; [exists m; auto|exact Hl].
  - rewrite S' in S. apply NF. exact S.
Qed.

Lemma get_macro_in : forall ms m, NoDup (map mac_id ms) -> In m ms -> get_macro (mac_id m) ms = Some m.
Proof.
  induction ms as [|a r IH]; intros m N I; [destruct I|]. cbn. inversion N as [|x l N1 N2]; subst.
  destruct I as [<-|I]; [rewrite Nat.eqb_refl; reflexivity|].
  destruct (Nat.eqb_spec (mac_id a) (mac_id m)) as [E|E]; [|apply IH; auto].
  exfalso. apply N1. rewrite E. apply in_map. exact I.
Qed.
Lemma get_macro_some : forall ms k m, get_macro k ms = Some m -> In m ms /\ mac_id m = k.
Proof.
  induction ms as [|a r IH]; intros k m H; [discriminate|]. cbn [find_scope get_macro] in H.
  destruct (Nat.eqb_spec (mac_id a) k) as [E|E]; [injection H as <-; cbn; auto|].
  destruct (IH _ _ H). cbn. auto.
Qed.
