From Coq Require Import List NArith ZArith Bool Lia Arith.
From Verif Require Import Common Lts Json Dap_Model.
Import ListNotations.

Fixpoint takes (es : list sevent) : nat :=
  match es with [] => 0 | Take _ :: es' => S (takes es') | _ :: es' => takes es' end.

Lemma NoDup_app_snoc : forall (A : Type) (l : list A) a, NoDup l -> ~ In a l -> NoDup (l ++ [a]).
Proof.
  induction l as [|x l IH]; simpl; intros a N I; [constructor; auto|].
  inversion N; subst. constructor.
  - rewrite in_app_iff. simpl. intuition.
  - apply IH; auto.
Qed.

(** The numbers sent, and those sent by thread [t], in order. *)
Definition numbers (x : seqst) : list N := map snd (wire x).
Definition numbers_of (t : nat) (x : seqst) : list N :=
  map snd (filter (fun w => Nat.eqb (fst w) t) (wire x)).

Lemma numbers_of_in : forall t x n, In n (numbers_of t x) -> In n (numbers x).
Proof.
  intros t x n H. unfold numbers_of, numbers in *. apply in_map_iff in H as (w & E & H).
  apply filter_In in H as [H _]. apply in_map_iff. eauto.
Qed.

Definition sinv (x : seqst) : Prop :=
  NoDup (numbers x) /\
  (forall n, In n (numbers x) -> (1 <= n <= last x)%N) /\
  (forall t n, holding x t = Some n -> (1 <= n <= last x)%N /\ ~ In n (numbers x)) /\
  (forall t t' n, holding x t = Some n -> holding x t' = Some n -> t = t').

Lemma takes_app : forall a b, takes (a ++ b) = takes a + takes b.
Proof. induction a as [|[]]; simpl; intros; rewrite ?IHa; lia. Qed.

Lemma seq_run : forall es x, (N.of_nat (takes es) < two64)%N -> run seq_step seq0 es = Some x ->
  last x = N.of_nat (takes es) /\ sinv x.
Proof.
  induction es as [|e es IH] using rev_ind; intros x B R.
  - injection R as <-. split; [easy|]. repeat split; cbn; try easy; try constructor; discriminate.
  - rewrite takes_app in *. rewrite run_app in R.
    destruct (run seq_step seq0 es) as [y|] eqn:E; [|discriminate].
    destruct (IH y) as (L & N & W & H & U); [lia|easy|]. cbn [run] in R.
    destruct (seq_step y e) as [z|] eqn:Q; [|discriminate]. injection R as <-.
    destruct e as [t|t]; cbn [seq_step] in Q; destruct (holding y t) as [n|] eqn:Ht; try discriminate;
      injection Q as <-; cbn [takes] in *.
    + rewrite N.mod_small by lia. cbn [last]. split; [lia|].
      assert (K : forall t0, upd (holding y) t (Some (last y + 1)%N) t0 =
                 if Nat.eqb t0 t then Some (last y + 1)%N else holding y t0) by reflexivity.
      repeat split; unfold numbers in *; cbn [wire holding last] in *; auto.
      * apply W in H0. lia. * apply W in H0. lia.
      * rewrite K in H0. destruct (Nat.eqb t0 t); [injection H0 as <-; lia|]. apply H in H0. lia.
      * rewrite K in H0. destruct (Nat.eqb t0 t); [injection H0 as <-; lia|]. apply H in H0. lia.
      * rewrite K in H0. destruct (Nat.eqb t0 t); [injection H0 as <-|now apply H in H0].
        intros I. apply W in I. lia.
      * intros t1 t2 n H1 H2. rewrite K in *.
        destruct (Nat.eqb t1 t) eqn:A, (Nat.eqb t2 t) eqn:B2; rewrite ?Nat.eqb_eq in *; subst; auto.
        -- injection H1 as <-. apply H in H2. lia.
        -- injection H2 as <-. apply H in H1. lia.
        -- eauto.
    + cbn [last]. split; [lia|].
      assert (K : forall t0, upd (holding y) t None t0 = if Nat.eqb t0 t then None else holding y t0) by reflexivity.
      destruct (H t n Ht) as [Hb Hn].
      repeat split; unfold numbers in *; cbn [wire holding last] in *; rewrite ?map_app in *; cbn [map snd] in *.
      * apply NoDup_app_snoc; assumption.
      * apply in_app_iff in H0 as [I|[<-|[]]]; [now apply W in I|lia].
      * apply in_app_iff in H0 as [I|[<-|[]]]; [now apply W in I|lia].
      * rewrite K in H0. destruct (Nat.eqb t0 t); [discriminate|]. apply H in H0. lia.
      * rewrite K in H0. destruct (Nat.eqb t0 t); [discriminate|]. apply H in H0. lia.
      * rewrite K in H0. destruct (Nat.eqb t0 t) eqn:A; [discriminate|].
        intros I. apply in_app_iff in I as [I|[<-|[]]]; [now apply H in H0|].
        rewrite (U _ _ _ H0 Ht), Nat.eqb_refl in A. discriminate.
      * intros t1 t2 m H1 H2. rewrite K in *. destruct (Nat.eqb t1 t), (Nat.eqb t2 t); try discriminate. eauto.
Qed.

Fixpoint sorted (l : list N) : Prop :=
  match l with [] => True | a :: l' => (forall b, In b l' -> (a < b)%N) /\ sorted l' end.

Lemma sorted_snoc : forall l a, sorted l -> (forall b, In b l -> (b < a)%N) -> sorted (l ++ [a]).
Proof.
  induction l as [|x l IH]; simpl; intros a S H; [easy|]. destruct S as [S1 S2]. split.
  - intros b I. apply in_app_iff in I as [I|[<-|[]]]; auto.
  - apply IH; auto.
Qed.

Lemma numbers_of_snoc : forall t l h p t' n,
  numbers_of t (mkSeq p h (l ++ [(t', n)])) =
  map snd (filter (fun w => Nat.eqb (fst w) t) l) ++ (if Nat.eqb t' t then [n] else []).
Proof.
  intros. unfold numbers_of. cbn [wire]. rewrite filter_app, map_app. cbn [filter fst].
  now destruct (Nat.eqb t' t).
Qed.

(** What one thread sends carries growing numbers, however the others interleave. *)
Lemma one_thread : forall t es x, (N.of_nat (takes es) < two64)%N ->
  run seq_step seq0 es = Some x ->
  sorted (numbers_of t x) /\ (forall n, holding x t = Some n -> forall m, In m (numbers_of t x) -> (m < n)%N).
Proof.
  intros t. induction es as [|e es IH] using rev_ind; intros x B R.
  - injection R as <-. cbn. split; [easy|discriminate].
  - rewrite takes_app in *. rewrite run_app in R.
    destruct (run seq_step seq0 es) as [y|] eqn:E; [|discriminate].
    destruct (seq_run es y ltac:(lia) E) as (L & N & W & H & U).
    destruct (IH y ltac:(lia) eq_refl) as [S1 S2]. cbn [run] in R.
    destruct (seq_step y e) as [z|] eqn:Q; [|discriminate]. injection R as <-.
    destruct e as [t'|t']; cbn [seq_step] in Q; destruct (holding y t') as [n|] eqn:Ht;
      try discriminate; injection Q as <-; cbn [takes holding] in *.
    + split; [exact S1|]. unfold upd. intros n Hn m I.
      change (In m (numbers_of t y)) in I.
      destruct (Nat.eqb t t'); [|now apply (S2 n)].
      injection Hn as <-. rewrite N.mod_small by lia. apply numbers_of_in, W in I. lia.
    + rewrite numbers_of_snoc. fold (numbers_of t y). unfold upd. destruct (Nat.eqb_spec t' t) as [->|NE].
      * rewrite Nat.eqb_refl. split; [|discriminate]. apply sorted_snoc; [exact S1|].
        intros b I. now apply (S2 n).
      * rewrite app_nil_r. split; [exact S1|]. destruct (Nat.eqb_spec t t'); [congruence|]. exact S2.
Qed.

Section D.
  Variable act : bytes -> json -> res unit.
  Definition responses (l : list dout) : list (json * bytes) :=
    flat_map (fun o => match o with DResponse q c => [(q, c)] | _ => [] end) l.

  Lemma responses_app : forall a b, responses (a ++ b) = responses a ++ responses b.
  Proof. intros. apply flat_map_app. Qed.

  Lemma dreceive_responses : forall j s s' ok, dreceive act j s = (s', ok) ->
    responses (dsent s') = responses (dsent s) \/
    exists q c, jfind (s2b "seq") j = Some q /\ jfind (s2b "command") j = Some (JStr c) /\
      jfind (s2b "type") j = Some (JStr (s2b "request")) /\
      responses (dsent s') = responses (dsent s) ++ [(q, c)].
  Proof.
    intros j s s' ok R. unfold dreceive in R.
    destruct (jfind (s2b "type") j) as [[| | |t| |]|] eqn:Ty; try (injection R as <- <-; auto).
    destruct (bytes_eqb t (s2b "request")) eqn:Tr; [|injection R as <- <-; auto].
    apply bytes_eqb_eq in Tr. subst t.
    destruct (jfind (s2b "command") j) as [[| | |c| |]|] eqn:C; try (injection R as <- <-; auto).
    destruct (jfind (s2b "seq") j) as [q|] eqn:Q; [|injection R as <- <-; auto].
    unfold dcall in R.
    assert (G : forall s1, dsent s1 = dsent s ++ [DResponse q c] \/ dsent s1 = dsent s ++ [DResponse q c; DEvent (s2b "initialized")] ->
      responses (dsent s1) = responses (dsent s) ++ [(q, c)]).
    { intros s1 [->| ->]; rewrite responses_app; reflexivity. }
    destruct (bytes_eqb c c_initialize).
    { right. exists q, c. repeat split; auto. apply G.
      destruct (init_args _); injection R as <- <-; cbn; auto.
      right. now rewrite <- app_assoc. }
    destruct (bytes_eqb c c_disconnect).
    { right. exists q, c. repeat split; auto. apply G. injection R as <- <-; cbn; auto. }
    destruct (dmem c free_commands).
    { right. exists q, c. repeat split; auto. apply G. injection R as <- <-; cbn; auto. }
    destruct (dmem c dbg_commands); [|injection R as <- <-; auto].
    destruct (dbg s); [|injection R as <- <-; auto].
    destruct (act c _); injection R as <- <-; auto.
    right. exists q, c. repeat split; auto.
  Qed.
End D.
