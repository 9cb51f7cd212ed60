From Coq Require Import List NArith Bool Lia Sorting.Permutation Sorting.Sorted.
From Coq Require Import ZifyBool ZifyNat ZifyN.
From Verif Require Import Tok_Model Tok_Spec.
Import ListNotations.
Local Open Scope N_scope.

(** A token seen as an absolute client token. *)
Definition absolute (t : token) : abs_tok := Abs (sl t) (sc t) (tok_length t) (scope t) 0.

Lemma le_start_tok_lt : forall a b, le_start a b <-> tok_lt b a = false.
Proof. intros a b. unfold le_start, before, tok_lt. lia. Qed.

Lemma sz_sub_ge : forall a b, b <= a -> a < size_lim -> sz_sub a b = a - b.
Proof.
  intros a b H1 H2. unfold sz_sub. replace (a + size_lim - b) with ((a - b) + 1 * size_lim) by lia.
  rewrite N.mod_add by (vm_compute; discriminate). apply N.mod_small. lia.
Qed.

Lemma convert_decode : forall ts last,
  StronglySorted le_start (match last with Some t => t :: ts | None => ts end) ->
  Forall in_range ts ->
  decode (match last with Some t => sl t | None => 0 end)
         (match last with Some t => sc t | None => 0 end)
         (convert_loop last ts)
  = Some (first_per_start (match last with Some t => Some (sl t, sc t) | None => None end)
            (map absolute ts)).
Proof.
  induction ts as [|cur rest IH]; intros last Hs Hr; [reflexivity|].
  inversion Hr as [|? ? [Hl Hc] Hr']; subst.
  change (2 ^ 64) with size_lim in Hl, Hc.
  assert (Hcur : StronglySorted le_start (cur :: rest)).
  { destruct last; [inversion Hs; auto|auto]. }
  pose proof (IH (Some cur) Hcur Hr') as IH1.
  cbn [convert_loop map first_per_start].
  destruct last as [t|].
  - assert (Hle : le_start t cur).
    { inversion Hs as [|? ? ? HF]; subst. inversion HF; auto. }
    unfold le_start, before in Hle.
    assert (Hll : sl t <= sl cur) by lia.
    rewrite (sz_sub_ge _ _ Hll Hl).
    cbn [a_line a_start absolute].
    destruct (sl t =? sl cur) eqn:E1; cbn [negb].
    + assert (Hcc : sc t <= sc cur) by lia.
      rewrite (sz_sub_ge _ _ Hcc Hc).
      destruct (sc t =? sc cur) eqn:E2; cbn [andb].
      * replace (sl cur - sl t =? 0) with true by lia.
        replace (sc cur - sc t =? 0) with true by lia. cbn [andb].
        apply (IH (Some t)); auto.
        inversion Hs as [|? ? ? HF]; subst. inversion HF; subst.
        constructor; auto. inversion Hcur; auto.
      * replace ((sl cur - sl t =? 0) && (sc cur - sc t =? 0) && true) with false by lia.
        cbn [decode]. replace (sl cur - sl t =? 0) with true by lia.
        replace (sl t + (sl cur - sl t)) with (sl cur) by lia.
        replace (sc t + (sc cur - sc t)) with (sc cur) by lia.
        rewrite IH1. reflexivity.
    + replace ((sl cur - sl t =? 0) && (sc cur =? 0) && true) with false by lia.
      cbn [decode andb]. replace (sl cur - sl t =? 0) with false by lia.
      replace (sl t + (sl cur - sl t)) with (sl cur) by lia.
      rewrite IH1. reflexivity.
  - rewrite (sz_sub_ge (sl cur) 0) by lia.
    rewrite andb_false_r. cbn [decode].
    replace (sl cur - 0) with (sl cur) by lia.
    replace (0 + sl cur) with (sl cur) by lia.
    replace (if sl cur =? 0 then 0 + (if negb (0 =? sl cur) then sc cur else sz_sub (sc cur) 0)
             else if negb (0 =? sl cur) then sc cur else sz_sub (sc cur) 0) with (sc cur).
    2:{ rewrite (sz_sub_ge (sc cur) 0) by lia.
        destruct (sl cur =? 0) eqn:E1; destruct (0 =? sl cur) eqn:E2; cbn [negb]; lia. }
    rewrite IH1. reflexivity.
Qed.

(** [std::sort]'s postcondition for [operator<] and its strong form. *)
Lemma sorted_strong : forall ts, LocallySorted le_start ts -> StronglySorted le_start ts.
Proof.
  intros ts H. apply Sorted_StronglySorted.
  - intros a b c. unfold le_start, before. lia.
  - now apply Sorted_LocallySorted_iff.
Qed.

Lemma convert_sorted : forall ts, LocallySorted le_start ts -> Forall in_range ts ->
  client_tokens (convert ts) = Some (first_per_start None (map absolute ts)).
Proof. intros. apply (convert_decode ts None); auto. now apply sorted_strong. Qed.

(* ---------------------------------------------------------------- symbols and pieces *)
Definition piece_of (s p : token) : Prop :=
  scope p = scope s /\ sl p = el p /\ sl s <= sl p <= el s /\
  sc p = (if sl p =? sl s then sc s else 15) /\
  ec p = (if sl p =? el s then ec s else 71) /\ sc p < ec p.

Lemma split_loop_spec : forall f rest,
  f = N.to_nat (el rest - sl rest) -> sl rest <= el rest ->
  (sl rest = el rest -> sc rest <= ec rest) -> (sl rest < el rest -> sc rest < 71 /\ 15 <= ec rest) ->
  forall p, In p (split_loop f rest) <-> piece_of rest p.
Proof.
  induction f as [|f IH]; intros rest Hf Hle Hsl Hml p; cbn [split_loop].
  - assert (E : sl rest = el rest) by lia. specialize (Hsl E).
    rewrite E, N.eqb_refl. cbn [andb].
    destruct (sc rest =? ec rest) eqn:E2.
    + split; [intros []|]. intros (_ & Hp & Hr & Hs & He & Hlt).
      replace (sl p =? sl rest) with true in Hs by lia.
      replace (sl p =? el rest) with true in He by lia. lia.
    + split.
      * intros [<-|[]]. unfold piece_of. rewrite E, N.eqb_refl. repeat split; lia.
      * intros (Hsc & Hp & Hr & Hs & He & Hlt). left.
        replace (sl p =? sl rest) with true in Hs by lia.
        replace (sl p =? el rest) with true in He by lia.
        destruct rest as [r1 r2 r3 r4 r5], p as [p1 p2 p3 p4 p5]; cbn [sl sc el ec scope] in *. f_equal; lia.
  - replace (sl rest <? el rest) with true by lia.
    destruct (Hml ltac:(lia)) as [Hc71 Hc15].
    set (r' := Tok (sl rest + 1) continue_column (el rest) (ec rest) (scope rest)).
    specialize (IH r' ltac:(cbn [sl el r']; lia) ltac:(cbn [sl el r']; lia)).
    specialize (IH ltac:(cbn [sl el sc ec r']; unfold continue_column; lia)).
    specialize (IH ltac:(cbn [sl el sc ec r']; unfold continue_column; lia) p).
    cbn [In]. rewrite IH. unfold piece_of, r'; cbn [sl el sc ec scope].
    unfold continue_column, continuation_column.
    split.
    + intros [<-|(H1 & H2 & H3 & H4 & H5 & H6)].
      * cbn [sl sc el ec scope]. rewrite N.eqb_refl.
        replace (sl rest =? el rest) with false by lia. repeat split; lia.
      * replace (sl p =? sl rest) with false by lia.
        destruct (sl p =? sl rest + 1); repeat split; try lia; auto.
    + intros (H1 & H2 & H3 & H4 & H5 & H6).
      destruct (sl p =? sl rest) eqn:E.
      * left. replace (sl p =? el rest) with false in H5 by lia.
        destruct p as [p1 p2 p3 p4 p5]; cbn [sl sc el ec scope] in *. f_equal; lia.
      * right. repeat split; try lia; auto.
        destruct (sl p =? sl rest + 1); lia.
Qed.

Lemma split_spec : forall s, wf_symbol s -> forall p, In p (split s) <-> piece_of s p.
Proof.
  intros s (H1 & H2 & H3 & H4 & H5) p. apply split_loop_spec; auto.
Qed.

Lemma piece_len : forall s p, piece_of s p -> tok_length p = ec p - sc p.
Proof. intros s p (_ & _ & _ & _ & _ & H). unfold tok_length. now replace (ec p <? sc p) with false by lia. Qed.

Lemma piece_cells : forall s p l c, piece_of s p ->
  covers (absolute p) l c <-> sl p = l /\ sym_cell s l c.
Proof.
  intros s p l c Hp. pose proof (piece_len _ _ Hp) as Hlen.
  destruct Hp as (Hsc & Hp & Hr & Hs & He & Hlt).
  unfold covers, sym_cell, cell_of, absolute. cbn [a_line a_start a_len]. rewrite Hlen.
  split.
  - intros (<- & H1 & H2). rewrite <- Hs, <- He. lia.
  - intros (<- & H1 & H2). rewrite <- Hs, <- He in H2. lia.
Qed.

Lemma cell_piece : forall s l c, wf_symbol s -> sym_cell s l c ->
  exists p, piece_of s p /\ covers (absolute p) l c.
Proof.
  intros s l c Hw Hc.
  set (p := Tok l (if l =? sl s then sc s else 15) l (if l =? el s then ec s else 71) (scope s)).
  assert (Hp : piece_of s p).
  { unfold piece_of, p; cbn [sl sc el ec scope]. destruct Hc as (H1 & H2 & H3).
    repeat split; try lia. }
  exists p. split; [exact Hp|]. apply (piece_cells _ _ _ _ Hp). split; [reflexivity|exact Hc].
Qed.

Lemma piece_in_range : forall s p, wf_symbol s -> piece_of s p -> in_range p.
Proof.
  intros s p ((H1 & H1') & H2 & H3) (_ & _ & Hr & Hs & _). unfold in_range.
  assert (15 < 2 ^ 64) by reflexivity. split; [lia|].
  rewrite Hs. destruct (sl p =? sl s); lia.
Qed.

(** [first_per_start] keeps one token per start. *)
Lemma fps_in : forall ts prev t, In t (first_per_start prev ts) -> In t ts.
Proof.
  induction ts as [|x ts IH]; intros prev t; cbn [first_per_start]; [auto|].
  destruct prev as [[l c]|].
  - destruct (_ && _); [right; eauto|]. intros [<-|H]; [now left|right; eauto].
  - intros [<-|H]; [now left|right; eauto].
Qed.

Lemma fps_start : forall ts prev t, In t ts ->
  prev = Some (a_line t, a_start t) \/
  exists t', In t' (first_per_start prev ts) /\ a_line t' = a_line t /\ a_start t' = a_start t.
Proof.
  induction ts as [|x ts IH]; intros prev t Hin; [easy|].
  cbn [first_per_start].
  destruct prev as [[l c]|].
  - destruct ((l =? a_line x) && (c =? a_start x)) eqn:E.
    + destruct Hin as [<-|Hin]; [left; f_equal; f_equal; lia|]. auto.
    + right. destruct Hin as [<-|Hin]; [exists x; repeat split; now left|].
      destruct (IH (Some (a_line x, a_start x)) t Hin) as [H|(t' & H1 & H2)].
      * injection H as H1 H2. exists x. repeat split; auto. now left.
      * exists t'. split; [now right|auto].
  - right. destruct Hin as [<-|Hin]; [exists x; repeat split; now left|].
    destruct (IH (Some (a_line x, a_start x)) t Hin) as [H|(t' & H1 & H2)].
    + injection H as H1 H2. exists x. repeat split; auto. now left.
    + exists t'. split; [now right|auto].
Qed.

Definition abs_le (a b : abs_tok) : Prop :=
  abs_before a b \/ (a_line a = a_line b /\ a_start a = a_start b).

Lemma fps_sorted : forall ts prev,
  StronglySorted abs_le ts ->
  (forall l c, prev = Some (l, c) -> Forall (fun t => before l c (a_line t) (a_start t) \/ (l = a_line t /\ c = a_start t)) ts) ->
  StronglySorted abs_before (first_per_start prev ts) /\
  (forall l c, prev = Some (l, c) -> Forall (fun t => before l c (a_line t) (a_start t)) (first_per_start prev ts)).
Proof.
  induction ts as [|x ts IH]; intros prev Hs Hp; cbn [first_per_start].
  - split; [constructor|]. intros; constructor.
  - inversion Hs as [|? ? Hs' HF]; subst.
    assert (HX : StronglySorted abs_before (first_per_start (Some (a_line x, a_start x)) ts) /\
            Forall (fun t => before (a_line x) (a_start x) (a_line t) (a_start t)) (first_per_start (Some (a_line x, a_start x)) ts)).
    { destruct (IH (Some (a_line x, a_start x)) Hs') as [A B].
      - intros l c H. injection H as <- <-. exact HF.
      - split; [exact A|]. now apply B. }
    destruct HX as [A B].
    destruct prev as [[l c]|].
    + specialize (Hp l c eq_refl). inversion Hp as [|? ? H1 H2]; subst.
      destruct ((l =? a_line x) && (c =? a_start x)) eqn:E.
      * apply IH; auto. intros l' c' H. injection H as <- <-. exact H2.
      * split.
        -- constructor; auto.
        -- intros l' c' H. injection H as <- <-. constructor.
           ++ unfold before in *. lia.
           ++ eapply Forall_impl; [|exact B]. cbn. intros a Ha. unfold before in *. lia.
    + split; [constructor; auto|]. discriminate.
Qed.

Lemma absolute_sorted : forall ts, StronglySorted le_start ts -> StronglySorted abs_le (map absolute ts).
Proof.
  induction 1 as [|a l H IH HF]; cbn [map]; constructor; auto.
  apply Forall_map. eapply Forall_impl; [|exact HF].
  intros b. unfold le_start, abs_le, abs_before, before, absolute; cbn. lia.
Qed.

Lemma collect_in : forall syms p, Forall wf_symbol syms ->
  (In p (collect true syms) <-> exists s, In s syms /\ piece_of s p).
Proof.
  intros syms p Hw. unfold collect. rewrite in_flat_map. rewrite Forall_forall in Hw.
  split; intros (s & H1 & H2); exists s; (split; [exact H1|]); apply (split_spec s (Hw s H1)); exact H2.
Qed.

Lemma pieces_same_start : forall s p p', piece_of s p -> piece_of s p' -> sl p = sl p' -> p = p'.
Proof.
  intros s p p' (A1 & A2 & A3 & A4 & A5 & A6) (B1 & B2 & B3 & B4 & B5 & B6) E.
  rewrite E in *. destruct p as [p1 p2 p3 p4 p5], p' as [q1 q2 q3 q4 q5]; cbn [sl sc el ec scope] in *. f_equal; congruence.
Qed.

Lemma same_cell_same_type : forall syms s s' p p',
  Forall wf_symbol syms -> ForallOrdPairs disjoint syms ->
  In s syms -> In s' syms -> piece_of s p -> piece_of s' p' ->
  sl p = sl p' -> sc p = sc p' -> p = p'.
Proof.
  intros syms s s' p p' Hw Hd Hs Hs' Hp Hp' El Ec.
  assert (C : sym_cell s (sl p) (sc p)).
  { apply (piece_cells s p (sl p) (sc p) Hp). unfold covers, absolute; cbn [a_line a_start a_len].
    rewrite (piece_len _ _ Hp). destruct Hp as (_ & _ & _ & _ & _ & H). lia. }
  assert (C' : sym_cell s' (sl p') (sc p')).
  { apply (piece_cells s' p' (sl p') (sc p') Hp'). unfold covers, absolute; cbn [a_line a_start a_len].
    rewrite (piece_len _ _ Hp'). destruct Hp' as (_ & _ & _ & _ & _ & H). lia. }
  rewrite <- El, <- Ec in C'.
  destruct (ForallOrdPairs_In Hd _ _ Hs Hs') as [->|[D|D]].
  - eapply pieces_same_start; eauto.
  - destruct (D (sl p) (sc p)). split; auto.
  - destruct (D (sl p) (sc p)). split; auto.
Qed.

Lemma symbols_to_client : forall syms out,
  Forall wf_symbol syms ->
  Permutation (collect true syms) out -> LocallySorted le_start out ->
  exists toks, client_tokens (convert out) = Some toks /\
    StronglySorted abs_before toks /\
    (forall t, In t toks -> a_mods t = 0 /\ 0 < a_len t /\
       exists s, In s syms /\ a_type t = scope s /\ forall l c, covers t l c -> sym_cell s l c) /\
    (forall s l c, In s syms -> sym_cell s l c -> (c = if l =? sl s then sc s else 15) ->
       exists t, In t toks /\ a_line t = l /\ a_start t = c) /\
    (ForallOrdPairs disjoint syms -> forall l c ty,
       (exists t, In t toks /\ covers t l c /\ a_type t = ty) <->
       (exists s, In s syms /\ sym_cell s l c /\ scope s = ty)).
Proof.
  intros syms out Hw Hperm Hsort.
  assert (Hin : forall p, In p out <-> exists s, In s syms /\ piece_of s p).
  { intros p. rewrite <- (collect_in syms p Hw). split; intros H.
    - eapply Permutation_in; [symmetry; eauto|auto].
    - eapply Permutation_in; eauto. }
  pose proof Hw as Hw'. rewrite Forall_forall in Hw'.
  exists (first_per_start None (map absolute out)).
  assert (Hback : forall t, In t (first_per_start None (map absolute out)) ->
            exists p s, t = absolute p /\ In s syms /\ piece_of s p).
  { intros t H. apply fps_in in H. apply in_map_iff in H as (p & <- & H).
    apply Hin in H as (s & H1 & H2). eauto. }
  assert (Hfwd : forall s p, In s syms -> piece_of s p ->
            exists t, In t (first_per_start None (map absolute out)) /\
              a_line t = sl p /\ a_start t = sc p).
  { intros s p Hs Hp. assert (H : In p out) by (apply Hin; eauto).
    destruct (fps_start (map absolute out) None (absolute p)) as [H'|(t & H1 & H2 & H3)].
    - now apply in_map.
    - discriminate.
    - exists t. auto. }
  split; [|split; [|split; [|split]]].
  - apply convert_sorted; auto. apply Forall_forall. intros p H.
    apply Hin in H as (s & H1 & H2). eapply piece_in_range; eauto.
  - apply (fps_sorted _ None).
    + apply absolute_sorted. now apply sorted_strong.
    + discriminate.
  - intros t H. destruct (Hback t H) as (p & s & -> & H1 & H2).
    split; [reflexivity|]. split.
    + cbn [a_len absolute]. rewrite (piece_len _ _ H2). destruct H2 as (_ & _ & _ & _ & _ & H2). lia.
    + exists s. split; [auto|]. split; [apply H2|]. intros l c Hc.
      apply (piece_cells s p l c H2). auto.
  - intros s l c Hs Hc Ec. destruct (cell_piece s l c (Hw' s Hs) Hc) as (p & Hp & Hcov).
    destruct (Hfwd s p Hs Hp) as (t & H1 & H2 & H3). exists t. split; [auto|].
    apply (piece_cells _ _ _ _ Hp) in Hcov as [E _].
    rewrite H2, H3. split; [auto|]. destruct Hp as (_ & _ & _ & Hs' & _). subst l. congruence.
  - intros Hd l c ty. split.
    + intros (t & H & Hc & Hty). destruct (Hback t H) as (p & s & -> & H1 & H2).
      exists s. split; [auto|]. split.
      * apply (piece_cells s p l c H2). auto.
      * rewrite <- Hty. cbn. destruct H2 as (E & _). auto.
    + intros (s & Hs & Hc & Hty). destruct (cell_piece s l c (Hw' s Hs) Hc) as (p & Hp & Hcov).
      destruct (Hfwd s p Hs Hp) as (t & H1 & H2 & H3).
      exists t. split; [auto|]. destruct (Hback t H1) as (p' & s' & -> & Hs' & Hp').
      cbn in H2, H3.
      assert (p' = p) as -> by (exact (same_cell_same_type syms s' s p' p Hw Hd Hs' Hs Hp' Hp H2 H3)).
      split; [auto|]. rewrite <- Hty. cbn. destruct Hp as (E & _). auto.
Qed.

Lemma absolute_shown : forall t, sc t <= ec t -> absolute t = shown t.
Proof. intros t H. unfold absolute, shown, tok_length. now replace (ec t <? sc t) with false by lia. Qed.

Lemma convert_shown : forall ts, LocallySorted le_start ts -> Forall in_range ts ->
  Forall (fun t => sc t <= ec t) ts ->
  client_tokens (convert ts) = Some (first_per_start None (map shown ts)).
Proof.
  intros ts Hs Hr Hl. rewrite convert_sorted by auto. f_equal. f_equal.
  apply map_ext_in. intros t Ht. apply absolute_shown. rewrite Forall_forall in Hl. auto.
Qed.

Lemma fps_id : forall ts prev,
  StronglySorted abs_before ts ->
  (forall l c, prev = Some (l, c) -> Forall (fun t => before l c (a_line t) (a_start t)) ts) ->
  first_per_start prev ts = ts.
Proof.
  induction ts as [|x ts IH]; intros prev Hs Hp; cbn [first_per_start]; [auto|].
  inversion Hs as [|? ? Hs' HF]; subst.
  assert (E : first_per_start (Some (a_line x, a_start x)) ts = ts).
  { apply IH; auto. intros l c H. injection H as <- <-. exact HF. }
  rewrite E. destruct prev as [[l c]|]; [|auto].
  specialize (Hp l c eq_refl). inversion Hp as [|? ? H1 H2]; subst.
  unfold before in H1. now replace ((l =? a_line x) && (c =? a_start x)) with false by lia.
Qed.

Lemma convert_distinct : forall ts,
  StronglySorted (fun a b => before (sl a) (sc a) (sl b) (sc b)) ts ->
  Forall in_range ts -> Forall (fun t => sc t <= ec t) ts ->
  client_tokens (convert ts) = Some (map shown ts).
Proof.
  intros ts Hs Hr Hl. rewrite convert_shown; auto.
  - f_equal. apply fps_id; [|discriminate].
    clear Hr Hl. induction Hs; cbn [map]; constructor; auto. apply Forall_map. auto.
  - apply Sorted_LocallySorted_iff. apply StronglySorted_Sorted. clear Hr Hl.
    induction Hs as [|a l H1 IH H2]; constructor; auto. eapply Forall_impl; [|exact H2].
    intros b. unfold le_start, before. lia.
Qed.
