(** Lexing a text without inserted records. *)
From Coq Require Import List NArith Bool Arith Lia ZifyBool ZifyNat ZifyN.
From Verif Require Import Common Lex_Model Lex_Spec.
Import ListNotations.

(** ** Places *)
Lemma tail_line_snoc : forall l x, tail_line (l ++ [x]) = if (x =? LF)%N then [] else tail_line l ++ [x].
Proof. intros. unfold tail_line. rewrite fold_left_app. reflexivity. Qed.
Lemma firstn_snoc : forall (l : list char) k x, nth_error l k = Some x -> firstn (S k) l = firstn k l ++ [x].
Proof.
  induction l as [|a l IH]; intros [|k] x H; cbn in *; try discriminate.
  - injection H as ->. reflexivity.
  - f_equal. now apply IH.
Qed.
Lemma line_of_S : forall l k x, nth_error l k = Some x -> line_of l (S k) = line_of l k + if (x =? LF)%N then 1 else 0.
Proof.
  intros l k x H. unfold line_of. rewrite (firstn_snoc _ _ _ H), filter_app, app_length. cbn. destruct (x =? LF)%N; reflexivity.
Qed.
Lemma column_of_S : forall l k x, nth_error l k = Some x -> column_of l (S k) = if (x =? LF)%N then 0 else S (column_of l k).
Proof.
  intros l k x H. unfold column_of. rewrite (firstn_snoc _ _ _ H), tail_line_snoc. destruct (x =? LF)%N; [reflexivity|].
  rewrite app_length. cbn. lia.
Qed.
Lemma column16_of_S : forall l k x, nth_error l k = Some x ->
  column16_of l (S k) = if (x =? LF)%N then 0 else column16_of l k + units x.
Proof.
  intros l k x H. unfold column16_of. rewrite (firstn_snoc _ _ _ H), tail_line_snoc. destruct (x =? LF)%N; [reflexivity|].
  rewrite map_app, list_sum_app. simpl. lia.
Qed.
Lemma width_units : forall x, width (Some x) = units x.
Proof. intros x. unfold width, units. destruct (65535 <? x)%N eqn:E, (x <? 65536)%N eqn:F; lia. Qed.
Lemma width_pos : forall o, 1 <= width o <= 2.
Proof. intros [x|]; cbn; [destruct (65535 <? x)%N|]; lia. Qed.

Lemma lines_nonempty : forall t, lines t <> [].
Proof. intros [|x t]; cbn; [discriminate|]. destruct (x =? LF)%N; [discriminate|]. destruct (lines t); discriminate. Qed.
Lemma letter_cons : forall x t l j, letter (x :: t) l j =
  if (x =? LF)%N then match l with O => None | S l => letter t l j end
  else match l, j with O, O => Some x | O, S j => letter t 0 j | S _, _ => letter t l j end.
Proof.
  intros x t l j. unfold letter. cbn [lines]. destruct (x =? LF)%N eqn:E.
  - destruct l; cbn; [destruct j; reflexivity|reflexivity].
  - pose proof (lines_nonempty t) as N. destruct (lines t) as [|a ls]; [congruence|]. destruct l, j; reflexivity.
Qed.
Lemma tail_line_acc : forall l acc, fold_left (fun acc x => if (x =? LF)%N then [] else acc ++ [x]) l acc =
  if existsb (fun x => (x =? LF)%N) l then tail_line l else acc ++ tail_line l.
Proof.
  induction l as [|x l IH]; intros acc; cbn; [now rewrite app_nil_r|]. unfold tail_line. cbn. destruct (x =? LF)%N eqn:E; cbn.
  - reflexivity.
  - rewrite !IH. destruct (existsb _ l) eqn:Ex; [reflexivity|]. now rewrite <- app_assoc.
Qed.
Lemma line_of_cons : forall x t k, line_of (x :: t) (S k) = (if (x =? LF)%N then 1 else 0) + line_of t k.
Proof. intros. unfold line_of. rewrite firstn_cons. cbn. destruct (x =? LF)%N; reflexivity. Qed.
Lemma no_lf_line : forall l, existsb (fun x => (x =? LF)%N) l = negb (length (filter (fun x => (x =? LF)%N) l) =? 0).
Proof. induction l as [|x l IH]; cbn; [reflexivity|]. destruct (x =? LF)%N; cbn; [reflexivity|exact IH]. Qed.
Lemma column_of_cons : forall x t k, column_of (x :: t) (S k) =
  if (x =? LF)%N then column_of t k else if line_of t k =? 0 then S (column_of t k) else column_of t k.
Proof.
  intros. unfold column_of, line_of. rewrite firstn_cons. unfold tail_line at 1. cbn. destruct (x =? LF)%N eqn:E; [reflexivity|].
  rewrite tail_line_acc, no_lf_line. destruct (_ =? 0); cbn; [|reflexivity]. unfold char in *. lia.
Qed.
(** The character at a place is the one in its line and column. *)
Lemma letter_at : forall t k, letter t (line_of t k) (column_of t k) =
  match nth_error t k with Some x => if (x =? LF)%N then None else Some x | None => None end.
Proof.
  induction t as [|x t IH]; intros k.
  - destruct k; cbn; reflexivity.
  - destruct k as [|k].
    + rewrite letter_cons. cbn. destruct (x =? LF)%N; reflexivity.
    + rewrite line_of_cons, column_of_cons, letter_cons. cbn [nth_error]. rewrite <- (IH k). destruct (x =? LF)%N eqn:E; [reflexivity|].
      cbn [Nat.add]. destruct (line_of t k =? 0) eqn:Z; [apply Nat.eqb_eq in Z; rewrite Z; reflexivity|]. destruct (line_of t k); [discriminate|reflexivity].
Qed.
(** The line ends where a character is missing. *)
Lemma letter_end : forall t l j i, letter t l j = None -> j <= i -> letter t l i = None.
Proof. intros t l j i H L. unfold letter in *. apply nth_error_None in H. apply nth_error_None. lia. Qed.

Arguments line_of : simpl never. Arguments column_of : simpl never. Arguments column16_of : simpl never.
Arguments width : simpl never. Arguments firstn : simpl never.
Section Text.
Variable text : list char.
Notation size := (length text).

(** How far the counter of UTF-16 columns is ahead. *)
Definition base (l : nat) : nat := if l =? 0 then width (nth_error text 0) else 1.
Definition here (i : input) : Prop :=
  data i = text /\ index i <= size /\ line i = line_of text (index i) /\ column i = column_of text (index i) /\
  column16 i + base (line i) = column16_of text (index i) + width (nth_error text (index i)).

Lemma LA1 : forall i, data i = text -> LA 1 i = nth_error text (index i).
Proof. intros i H. unfold LA. rewrite H. f_equal. lia. Qed.
Lemma here_advance : forall i, here i -> index i < size -> here (advance i).
Proof.
  intros i (D & Ix & Li & Co & C16) H. destruct (nth_error text (index i)) as [x|] eqn:E; [|apply nth_error_None in E; lia].
  unfold advance. rewrite (LA1 i D), E. unfold is. rewrite D.
  pose proof (line_of_S _ _ _ E) as L'. pose proof (column_of_S _ _ _ E) as K'. pose proof (column16_of_S _ _ _ E) as M'.
  destruct (x =? LF)%N eqn:Ex.
  - replace (LF =? x)%N with true by lia. unfold here. cbn [data index line column column16].
    refine (conj eq_refl (conj _ (conj _ (conj _ _)))); [lia|lia|lia|].
    rewrite M'. pose proof (width_pos (nth_error text (S (index i)))). unfold base. cbn [Nat.eqb]. lia.
  - replace (LF =? x)%N with false by lia. unfold here. cbn [data index line column column16].
    refine (conj eq_refl (conj _ (conj _ (conj _ _)))); [lia|lia|lia|].
    rewrite M', <- width_units. lia.
Qed.
Lemma here_initial : here (input_of text).
Proof. unfold here, input_of; cbn. repeat split; lia. Qed.

(** ** Lines *)
Lemma between : forall p q, p <= q <= size -> (forall r, p <= r < q -> nth_error text r <> Some LF) ->
  line_of text q = line_of text p /\ column_of text q = column_of text p + (q - p).
Proof.
  intros p q. remember (q - p) as n eqn:E. revert q E. induction n as [|n IH]; intros q E L H.
  - replace q with p by lia. lia.
  - destruct q as [|q]; [lia|]. destruct (IH q ltac:(lia) ltac:(lia)) as [A B]; [intros; apply H; lia|].
    destruct (nth_error text q) as [x|] eqn:Ex; [|apply nth_error_None in Ex; lia].
    assert (Nx : (x =? LF)%N = false).
    { destruct (x =? LF)%N eqn:Z; [|reflexivity]. apply N.eqb_eq in Z. subst. exfalso. apply (H q); [lia|exact Ex]. }
    rewrite (line_of_S _ _ _ Ex), (column_of_S _ _ _ Ex), Nx. lia.
Qed.

(** ** Tokens and highlighting *)
Definition tok_ok (t : token) : Prop :=
  start t <= stop t <= size /\ of_buffer t = false /\
  t_line t = line_of text (start t) /\ t_column t = column_of text (start t) /\
  t_column16 t + base (t_line t) = column16_of text (start t) + width (nth_error text (start t)) /\
  t_end16 t + base (line_of text (stop t)) = column16_of text (stop t) + width (nth_error text (stop t)).
(** [m] is the end of the line on which [a] is. *)
Definition line_end (a m : nat) : Prop := a <= m /\ nth_error text m = Some LF /\ line_of text m = line_of text a.
Definition hl_ok (h : highlight) : Prop :=
  exists a b, a < b <= size /\ h_line h = line_of text a /\
  h_column h + base (h_line h) = column16_of text a + width (nth_error text a) /\
  ((h_end_line h = line_of text b /\ h_end_column h + base (h_end_line h) = column16_of text b + 1)
   \/ (scope h = IGNORED /\ h_end_line h = h_line h /\ exists m, m < b /\ line_end a m /\ h_end_column h = column_of text m)).

Definition plain (s : lexer) : Prop :=
  from_buffer s = false /\ pending s = [] /\ buffer s = input_of [] /\ here (file s) /\
  (index (file s) = 0 \/ long s = (width (nth_error text (index (file s))) =? 2)) /\
  Forall tok_ok (queue s) /\ Forall hl_ok (highlights s).
Definition began (s : lexer) : Prop := here (begun s) /\ begun_buffer s = false /\ index (begun s) <= index (file s).

Lemma plain_c : forall s, plain s -> c s = nth_error text (index (file s)).
Proof. intros s (F & _ & _ & (D & _) & _). unfold c, current. rewrite F. now apply LA1. Qed.
Lemma plain_eof : forall s, plain s -> eof s = match c s with None => true | Some _ => false end.
Proof.
  intros s P. pose proof (plain_c s P) as C. rewrite C. destruct P as (F & _ & B & (D & _) & _). unfold eof. rewrite (LA1 _ D), B.
  destruct (nth_error text (index (file s))); reflexivity.
Qed.
Lemma plain_current : forall s, plain s -> current s = file s.
Proof. intros s (F & _). unfold current. now rewrite F. Qed.
Lemma remaining_c : forall s, plain s -> remaining (current s) = 0 -> c s = None.
Proof.
  intros s P H. rewrite (plain_c s P). rewrite (plain_current s P) in H. destruct P as (_ & _ & _ & (D & Ix & _) & _).
  unfold remaining in H. rewrite D in H. apply nth_error_None. lia.
Qed.

(** What consuming leaves alone. *)
Definition same (s s' : lexer) : Prop :=
  queue s' = queue s /\ begun s' = begun s /\ begun_buffer s' = begun_buffer s /\ highlights s' = highlights s /\
  var_symbol s' = var_symbol s /\ attr_ref s' = attr_ref s /\ apostrophes s' = apostrophes s /\ last_line_pos s' = last_line_pos s.
Lemma same_refl : forall s, same s s. Proof. unfold same. intuition. Qed.
Lemma same_trans : forall a b d, same a b -> same b d -> same a d. Proof. unfold same. intuition congruence. Qed.

Lemma consume_plain : forall s x, plain s -> c s = Some x ->
  plain (consume s) /\ same s (consume s) /\ index (file (consume s)) = S (index (file s)) /\ file (consume s) = advance (file s).
Proof.
  intros s x P C. pose proof (plain_c s P) as C'. rewrite C in C'. pose proof (plain_current s P) as Cu.
  assert (Ix : index (file s) < size) by (apply nth_error_Some; congruence).
  unfold consume. rewrite C, Cu. destruct P as (F & Pe & B & H & L & Q & Hl).
  pose proof (here_advance _ H Ix) as H'.
  assert (Fi : file (with_current (advance (file s)) (width (LA 1 (advance (file s))) =? 2) s) = advance (file s))
    by (cbn; now rewrite F).
  refine (conj _ (conj _ (conj _ Fi))).
  - unfold plain. rewrite Fi. cbn [from_buffer pending buffer long queue highlights with_current]. rewrite F.
    refine (conj eq_refl (conj Pe (conj B (conj H' (conj _ (conj Q Hl)))))). right. now rewrite (LA1 _ (proj1 H')).
  - unfold same. cbn. intuition.
  - rewrite Fi. unfold advance. destruct (is LF (LA 1 (file s))); reflexivity.
Qed.

(** A loop that stops at the end ends, and keeps what consuming keeps. *)
Lemma loop_plain : forall cond (I : lexer -> Prop) n s, plain s -> n = remaining (current s) ->
  (forall s, plain s -> c s = None -> cond s = false) ->
  I s -> (forall s x, plain s -> I s -> cond s = true -> c s = Some x -> I (consume s)) ->
  exists s', loop n cond s = Some s' /\ plain s' /\ same s s' /\ index (file s) <= index (file s') /\ cond s' = false /\ I s' /\
    (cond s = true -> index (file s) < index (file s')).
Proof.
  intros cond I n. induction n as [|n IH]; intros s P Hn Stop Is Step; cbn [loop].
  - pose proof (Stop s P (remaining_c s P (eq_sym Hn))) as K. rewrite K.
    exists s. split; [reflexivity|]. split; [exact P|]. split; [apply same_refl|]. repeat split; auto. discriminate.
  - destruct (cond s) eqn:E.
    + destruct (c s) as [x|] eqn:C; [|rewrite (Stop s P C) in E; discriminate].
      destruct (consume_plain s x P C) as (P' & S' & N' & F').
      assert (R : n = remaining (current (consume s))).
      { rewrite (plain_current _ P'), F'. rewrite (plain_current _ P) in Hn. unfold remaining in *. unfold advance.
        destruct (is LF (LA 1 (file s))); cbn; lia. }
      destruct (IH (consume s) P' R Stop (Step s x P Is E C) Step) as (s' & L & P'' & S'' & N'' & K & I' & _).
      exists s'. split; [exact L|]. split; [exact P''|]. split; [eapply same_trans; eassumption|]. repeat split; auto; lia.
    + exists s. split; [reflexivity|]. split; [exact P|]. split; [apply same_refl|]. repeat split; auto. discriminate.
Qed.
Lemma while_plain : forall cond (I : lexer -> Prop) s, plain s ->
  (forall s, plain s -> c s = None -> cond s = false) ->
  I s -> (forall s x, plain s -> I s -> cond s = true -> c s = Some x -> I (consume s)) ->
  exists s', while cond s = Some s' /\ plain s' /\ same s s' /\ index (file s) <= index (file s') /\ cond s' = false /\ I s' /\
    (cond s = true -> index (file s) < index (file s')).
Proof. intros cond I s P. apply loop_plain; auto. Qed.

(** ** Making tokens *)
Lemma start_plain : forall s, plain s -> plain (start_token s) /\ began (start_token s) /\ begun (start_token s) = file s /\
  file (start_token s) = file s /\ queue (start_token s) = queue s /\ var_symbol (start_token s) = var_symbol s
  /\ c (start_token s) = c s.
Proof.
  intros s P. pose proof (plain_current s P) as Cu. destruct P as (F & Pe & B & H & R).
  unfold plain, began, start_token. cbn. rewrite Cu. repeat split; auto; try apply H; try apply R.
Qed.

Definition ignorable (s : lexer) : Prop :=
  line (begun s) = line (file s) \/ exists m, m < index (file s) /\ line_end (index (begun s)) m /\ last_line_pos s = column_of text m.
Definition new_token (t : ttype) (hide : bool) (s : lexer) (u : token) : Prop :=
  ty u = t /\ hidden u = hide /\ start u = index (begun s) /\ stop u = index (file s) /\ tok_ok u.
Lemma first_line : forall k, 0 < k <= size -> line_of text k = 0 -> column16_of text k >= width (nth_error text 0).
Proof.
  induction k as [|k IH]; intros Hk Z; [lia|].
  destruct (nth_error text k) as [x|] eqn:Ex; [|apply nth_error_None in Ex; lia].
  rewrite (line_of_S _ _ _ Ex) in Z. rewrite (column16_of_S _ _ _ Ex). destruct (x =? LF)%N; [lia|].
  destruct k as [|k]; [rewrite Ex, width_units; lia|]. specialize (IH ltac:(lia) ltac:(lia)). lia.
Qed.
Lemma stop_plain : forall s, plain s -> 0 < index (file s) ->
  stop_position s + base (line (file s)) = column16_of text (index (file s)) + 1.
Proof.
  intros s P N. unfold stop_position. rewrite (plain_current s P). destruct P as (_ & _ & _ & (D & H2 & H3 & H4 & H5) & L & _).
  destruct L as [L|L]; [lia|]. rewrite L. pose proof (width_pos (nth_error text (index (file s)))) as W.
  destruct (width (nth_error text (index (file s))) =? 2) eqn:E; [|lia].
  assert (column16 (file s) <> 0); [|lia]. intros Z. unfold base in H5. destruct (line (file s) =? 0) eqn:El; [|lia].
  pose proof (first_line (index (file s)) ltac:(lia) ltac:(lia)). lia.
Qed.

Lemma create_plain : forall t hide s, plain s -> began s -> (t = IGNORED -> ignorable s) ->
  let s' := create_token t hide s in
  plain s' /\ began s' /\ begun s' = begun s /\ file s' = file s /\ c s' = c s /\ apostrophes s' = apostrophes s /\ last_line_pos s' = last_line_pos s /\
  ((queue s' = queue s /\ index (begun s) = index (file s) /\ t <> EOF /\ t <> EOLLN) \/
   (exists u, queue s' = queue s ++ [u] /\ new_token t hide s u /\ (index (begun s) < index (file s) \/ t = EOF \/ t = EOLLN))).
Proof.
  intros t hide s P (Hb & Bb & Ix) Ig s'. pose proof (plain_current s P) as Cu. pose proof P as (F & Pe & B & H & L & Q & Hl).
  subst s'. unfold create_token. cbv zeta. cbn [begun begun_buffer file buffer queue].
  rewrite Bb.
  assert (T : is_ty t EOF = false -> is_ty t EOLLN = false -> t <> EOF /\ t <> EOLLN) by (destruct t; cbn; intuition congruence).
  assert (T1 : is_ty t EOF = true -> t = EOF) by (destruct t; cbn; congruence).
  assert (T2 : is_ty t EOLLN = true -> t = EOLLN) by (destruct t; cbn; congruence).
  destruct ((index (begun s) =? index (file s)) && negb (is_ty t EOF) && negb (is_ty t EOLLN)) eqn:E.
  - apply andb_true_iff in E. destruct E as [E E3]. apply andb_true_iff in E. destruct E as [E1 E2].
    refine (conj _ (conj _ (conj _ (conj _ (conj _ (conj _ (conj _ (or_introl _)))))))); try reflexivity.
    + exact P.
    + unfold began. cbn. auto.
    + cbn. split; [reflexivity|]. split; [lia|]. apply T; destruct (is_ty t EOF), (is_ty t EOLLN); cbn in *; congruence.
  - match goal with |- context [queue s ++ [?x]] => set (u := x) end.
    assert (U : tok_ok u).
    { destruct Hb as (_ & Hb2 & Hb3 & Hb4 & Hb5), H as (_ & H2 & H3 & H4 & H5). unfold tok_ok, u, current. cbn. rewrite F.
      rewrite <- H3. repeat split; auto; lia. }
    assert (Hg : (index (begun s) < index (file s) \/ t = EOF \/ t = EOLLN) -> Forall hl_ok (add_highlight t s)).
    { intros Lt. unfold add_highlight. rewrite Cu. destruct Hb as (_ & Hb2 & Hb3 & Hb4 & Hb5). pose proof H as (_ & H2 & H3 & H4 & H5).
      assert (G : index (begun s) < index (file s) -> stop_position s + base (line (file s)) = column16_of text (index (file s)) + 1)
        by (intros; apply stop_plain; [exact P|lia]).
      destruct t; try constructor; try constructor; destruct Lt as [Lt|[Lt|Lt]]; try discriminate Lt;
        exists (index (begun s)), (index (file s)); cbn; (split; [lia|]); (split; [exact Hb3|]); (split; [exact Hb5|]).
      - destruct (line (begun s) =? line (file s)) eqn:Eq; [left; specialize (G Lt); split; [lia|]; replace (line (begun s)) with (line (file s)) by lia; exact G|].
        right. destruct (Ig eq_refl) as [X|(m & M1 & M2 & M3)]; [lia|]. split; [reflexivity|]. split; [reflexivity|]. exists m. auto.
      - left. split; [exact H3|exact (G Lt)].
      - left. split; [exact H3|exact (G Lt)]. }
    assert (Lt : index (begun s) < index (file s) \/ t = EOF \/ t = EOLLN).
    { destruct (is_ty t EOF) eqn:A1; [auto|]. destruct (is_ty t EOLLN) eqn:A2; [auto|]. left. cbn in E.
      rewrite !andb_true_r in E. lia. }
    refine (conj _ (conj _ (conj _ (conj _ (conj _ (conj _ (conj _ (or_intror _)))))))); try reflexivity.
    + unfold plain. cbn. repeat split; auto; try apply H.
      * apply Forall_app. split; [exact Q|]. constructor; [exact U|constructor].
      * apply Forall_app. split; [exact (Hg Lt)|exact Hl].
    + unfold began. cbn. auto.
    + exists u. split; [reflexivity|]. split; [|exact Lt]. refine (conj eq_refl (conj eq_refl (conj eq_refl (conj _ U)))). unfold u, current. cbn. now rewrite F.
Qed.
End Text.
