(** * What is recorded for a macro, and the definition of a symbol *)
From Coq Require Import List Arith Bool Lia Permutation ZifyBool ZifyNat.
From Verif Require Import Nav_Model Nav_Spec Nav_Proof Nav_Ctx Nav_Main Nav_Body.
Import ListNotations.

Lemma recorded_put : forall f os m g y, recorded (put f os m) g y <-> recorded m g y \/ (g = f /\ In y os).
Proof.
  intros f os m g y. unfold put. induction m as [|[h hs] r IH].
  - cbn. unfold recorded. cbn. split.
    + intros (ys & [E|[]] & I). injection E as <- <-. auto.
    + intros [(ys & [] & _)|[-> I]]. exists os. auto.
  - cbn [lookup]. destruct (Nat.eqb_spec f h) as [->|N].
    + cbn [assign]. rewrite Nat.eqb_refl. unfold recorded. cbn. split.
      * intros (ys & [E|E] & I); [|left; eauto]. injection E as <- <-. apply in_app_or in I. destruct I; [left; eauto|auto].
      * intros [(ys & [E|E] & I)|[-> I]]; [|eauto|].
        -- injection E as <- <-. exists (hs ++ os). split; [auto|]. apply in_or_app. auto.
        -- exists (hs ++ os). split; [auto|]. apply in_or_app. auto.
    + cbn [assign]. destruct (Nat.eqb_spec f h); [congruence|]. unfold recorded in *. cbn in *. split.
      * intros (ys & [E|E] & I); [left; eauto|]. destruct (proj1 IH) as [(zs & Z1 & Z2)|Z]; [eauto| |auto]. left. eauto.
      * intros [(ys & [E|E] & I)|[-> I]].
        -- eauto.
        -- destruct (proj2 IH) as (zs & Z1 & Z2); [left; eauto|]. eauto.
        -- destruct (proj2 IH) as (zs & Z1 & Z2); [right; auto|]. eauto.
Qed.

Definition nest_at (n : nat) (xs : list stmt) : nat := fold_left (fun k x => nest_after x k) xs n.

Lemma note_spec : forall f xs n m g y, recorded (note f n xs m) g y <->
  recorded m g y \/ exists i x os, nth_error xs i = Some (x, os) /\ In y os /\ g = file_of f x /\
    nest_at n (firstn (S i) (map fst xs)) <= 1.
Proof.
  intros f xs. induction xs as [|[x os] r IH]; intros n m g y.
  - cbn. split; [auto|]. intros [H|(i & x & os & E & _)]; [exact H|]. destruct i; discriminate.
  - cbn [note]. rewrite IH, recorded_put, file_of_back. split.
    + intros [[H|[-> H]]|(i & x' & os' & A & B & C & D)].
      * auto.
      * right. exists 0, x, os. cbn. destruct (1 <? nest_after x n) eqn:E; [destruct H|]. repeat split; auto. lia.
      * right. exists (S i), x', os'. cbn in *. auto.
    + intros [H|(i & x' & os' & A & B & C & D)]; [auto|]. destruct i as [|i].
      * cbn in A. injection A as <- <-. cbn in D. left. right. split; [exact C|].
        destruct (1 <? nest_after x n) eqn:E; [lia|exact B].
      * right. exists i, x', os'. cbn in *. auto.
Qed.

Lemma nest_level : forall xs, (forall i, i < length xs -> open_before xs i) -> forall i, i <= length xs ->
  nest_at 1 (firstn i xs) = level xs i.
Proof.
  intros xs O. induction i as [|i IH]; intros Hi; [reflexivity|].
  destruct (nth_error xs i) as [x|] eqn:X; [|apply nth_error_None in X; lia].
  assert (F : firstn (S i) xs = firstn i xs ++ [x]).
  { clear - X. revert xs X. induction i as [|i IH]; intros [|a r] X; try discriminate.
    - cbn in X. injection X as ->. reflexivity.
    - cbn in X. cbn [firstn app]. f_equal. rewrite <- (IH r X). reflexivity. }
  unfold nest_at in *. rewrite F, fold_left_app, IH by lia. cbn [fold_left]. unfold level. rewrite F, macs_snoc, mends_snoc.
  specialize (O i ltac:(lia)). unfold open_before in O. unfold nest_after, is_macro, is_mend. destruct (op x); lia.
Qed.

(** What is recorded for a macro whose definition is closed. *)
Lemma record_spec : forall k ext n w u f ps proto xs g y, closed (map fst xs) ->
  (recorded (mac_occs (macro_record k ext n w u f ps proto xs)) g y <->
   (g = f /\ (In y proto \/ y = Occ INSTR n (Some k) w u)) \/
   exists i x os, nth_error xs i = Some (x, os) /\ In y os /\ g = file_of f x /\ level (map fst xs) (S i) <= 1).
Proof.
  intros k ext n w u f ps proto xs g y (_ & O & _). unfold macro_record. cbn [mac_occs].
  rewrite recorded_put, note_spec. split.
  - intros [[(os & [E|[]] & I)|(i & x & os & A & B & C & D)]|[-> [<-|[]]]]; [|right|auto].
    + injection E as <- <-. auto.
    + exists i, x, os. rewrite <- (nest_level (map fst xs) O); [auto|]. rewrite map_length. change (i < length xs).
      apply nth_error_Some. intros H. discriminate (eq_trans (eq_sym A) H).
  - intros [[-> [H| ->]]|(i & x & os & A & B & C & D)].
    + left. left. exists proto. cbn. auto.
    + right. cbn. auto.
    + left. right. exists i, x, os. rewrite <- (nest_level (map fst xs) O) in D; [auto|]. rewrite map_length. change (i < length xs).
      apply nth_error_Some. intros H. discriminate (eq_trans (eq_sym A) H).
Qed.

(** ** The definition of a variable or sequence symbol of a macro *)
Lemma find_first : forall f ps xs n, 
  first_of n (declarations f ps xs) =
  option_map (fun v => Loc (vpos v) (match nth_error xs (vstmt v) with Some x => file_of f x | None => f end)) (find (named_ n) (decls ps xs)).
Proof.
  intros f ps xs n. unfold declarations, decls. rewrite first_app, find_app.
  assert (A : first_of n (map (fun q => (fst q, Loc (snd q) match xs with [] => f | x :: _ => file_of f x end)) ps) =
    option_map (fun v => Loc (vpos v) (match nth_error xs (vstmt v) with Some x => file_of f x | None => f end))
      (find (named_ n) (map (fun q => Vardef (fst q) 0 (snd q)) ps))).
  { induction ps as [|q r IH]; [reflexivity|]. cbn [map first_of find fst]. change (named_ n (Vardef (fst q) 0 (snd q))) with (fst q =? n).
    destruct (Nat.eq_dec (fst q) n) as [E|E].
    - rewrite E, Nat.eqb_refl. cbn. destruct xs; reflexivity.
    - replace (fst q =? n) with false by lia. exact IH. }
  rewrite A. destruct (find (named_ n) (map _ ps)); [reflexivity|]. cbn [option_map].
  assert (G : forall l, first_of n (flat_map (fun i => match nth_error xs i with
                     | Some x => match op x with
                                 | OpOther => if level xs i =? 1 then map (fun q => (fst q, Loc (snd q) (file_of f x))) (sets x) else []
                                 | _ => []
                                 end
                     | None => []
                     end) l) =
    option_map (fun v => Loc (vpos v) (match nth_error xs (vstmt v) with Some x => file_of f x | None => f end))
      (find (named_ n) (flat_map (decl_at xs) l))).
  { induction l as [|i r IH]; [reflexivity|]. cbn [flat_map]. rewrite first_app, find_app, IH. clear IH.
    generalize (find (named_ n) (flat_map (decl_at xs) r)). intros rest. unfold decl_at.
    destruct (nth_error xs i) as [x|] eqn:X; [|reflexivity]. destruct (op x); try reflexivity. destruct (level xs i =? 1); [|reflexivity].
    assert (Q : forall ss, first_of n (map (fun q => (fst q, Loc (snd q) (file_of f x))) ss) =
       option_map (fun v => Loc (vpos v) (match nth_error xs (vstmt v) with Some x => file_of f x | None => f end))
         (find (named_ n) (map (fun q => Vardef (fst q) i (snd q)) ss))).
    { induction ss as [|q ss' IH]; [reflexivity|]. cbn [map first_of find fst]. change (named_ n (Vardef (fst q) i (snd q))) with (fst q =? n).
      destruct (Nat.eq_dec (fst q) n) as [E|E].
      - rewrite E, Nat.eqb_refl. cbn. rewrite X. reflexivity.
      - replace (fst q =? n) with false by lia. exact IH. }
    rewrite Q. destruct (find (named_ n) (map _ (sets x))); reflexivity. }
  apply G.
Qed.

Lemma definition_var : forall m f ps xs n, body m = define (after_prototype f ps) xs -> closed xs ->
  match find (fun v => vname v =? n) (vars (body m)) with
  | None => Some None
  | Some v => match nth_error (nests (body m)) (vstmt v) with
              | None => None
              | Some nest => option_map (fun l => Some (Loc (vpos v) (in_file l))) (top nest)
              end
  end = Some (first_of n (declarations f ps xs)).
Proof.
  intros m f ps xs n E C. pose proof (general_closed f ps xs C) as I. rewrite <- E in I.
  rewrite find_first. change (fun v => vname v =? n) with (named_ n). rewrite (g_vars _ _ _ _ I n).
  destruct (find (named_ n) (decls ps xs)) as [v|] eqn:F; [|reflexivity]. cbn [option_map].
  assert (V : vstmt v < length xs).
  { apply find_some in F. destruct F as [F _]. unfold decls in F. apply in_app_or in F. destruct F as [F|F].
    - apply in_map_iff in F. destruct F as (q & <- & _). cbn. destruct C as (NE & _). destruct xs; [congruence|cbn; lia].
    - apply in_flat_map in F. destruct F as (i & Hi & F). apply in_seq in Hi. unfold decl_at in F.
      destruct (nth_error xs i) as [x|]; [|destruct F]. destruct (op x); try destruct F. destruct (level xs i =? 1); [|destruct F].
      apply in_map_iff in F. destruct F as (q & <- & _). cbn. lia. }
  destruct (nth_error xs (vstmt v)) as [x|] eqn:X; [|apply nth_error_None in X; lia].
  destruct (g_nest _ _ _ _ I _ _ X) as (nest & l & A & B & D). rewrite A, B. cbn. rewrite D. reflexivity.
Qed.

Section Unique.
Variables (l : list addition) (f : file) (o : opencode_info) (c' : context).
Hypothesis added : add_opencode f o (build l) = Some c'.

Local Notation only := (Nav_Spec.only l o).

Lemma same_sym : forall a b, same_symbol a b -> same_symbol b a.
Proof. intros a b (A & B & C). repeat split; congruence. Qed.
Lemma same_trans : forall a b d, same_symbol a b -> same_symbol b d -> same_symbol a d.
Proof. intros a b d (A & B & C) (A' & B' & C'). repeat split; congruence. Qed.

Lemma find_only : forall g p x, only g p x -> lookup g (files c') <> None ->
  exists y, find_occ c' g p = Some (y, scope_at c' g p) /\ same_symbol y x.
Proof.
  intros g p x (P & C & U) L. pose proof (find_occ_spec l f o c' added g p L) as F.
  destruct (find_occ c' g p) as [[y sc]|].
  - destruct F as (F1 & F2 & ->). exists y. auto.
  - exfalso. exact (F x P C).
Qed.

Lemma references_only : forall g p x, only g p x -> lookup g (files c') <> None ->
  exists ls, references c' g p = Some ls /\
    forall q h, In (Loc q h) ls <-> exists y, in_scope l o x (scope_at c' g p) h y /\ same_symbol x y /\ from y = q.
Proof.
  intros g p x U L. destruct (references_spec l f o c' added g p) as (ls & R & [[-> N]|(z & P & C & H)]).
  - exfalso. destruct U as (P & C & _). exact (N x P L C).
  - exists ls. split; [exact R|]. intros q h. rewrite (H q h).
    pose proof (proj2 (proj2 U) z P C) as S.
    assert (IS : forall y, in_scope l o z (scope_at c' g p) h y <-> in_scope l o x (scope_at c' g p) h y).
    { intros y. unfold in_scope. rewrite (proj1 S). tauto. }
    split; intros (y & A & B & D); exists y; (split; [apply IS; exact A|]); (split; [|exact D]).
    + exact (same_trans _ _ _ (same_sym _ _ S) B).
    + exact (same_trans _ _ _ S B).
Qed.

Lemma definition_only : forall g p x, only g p x -> lookup g (files c') <> None ->
  definition c' g p = match definition_of c' x (scope_at c' g p) with
                      | None => None | Some None => Some (Loc p g) | Some (Some r) => Some r end.
Proof.
  intros g p x U L. destruct (find_only g p x U L) as (y & F & (A & B & C)). unfold definition. rewrite F.
  replace (definition_of c' y (scope_at c' g p)) with (definition_of c' x (scope_at c' g p)); [reflexivity|].
  unfold definition_of. rewrite A, B, C. reflexivity.
Qed.
End Unique.

(** ** The context is built without undefined behaviour *)
Lemma assign_keys : forall {A} k (a : A) m j, In j (map fst (assign k a m)) <-> j = k \/ In j (map fst m).
Proof.
  induction m as [|[i b] r IH]; intros j; cbn.
  - intuition.
  - destruct (Nat.eqb_spec k i) as [->|N]; cbn; [intuition|]. rewrite IH. intuition.
Qed.
Lemma assign_nodup : forall {A} k (a : A) m, NoDup (map fst m) -> NoDup (map fst (assign k a m)).
Proof.
  induction m as [|[i b] r IH]; intros N; cbn; [repeat constructor; auto|].
  destruct (Nat.eqb_spec k i) as [->|D]; [exact N|]. cbn in *. inversion N as [|x y N1 N2]; subst. constructor; [|apply IH; exact N2].
  rewrite assign_keys. intros [H|H]; [congruence|contradiction].
Qed.
Lemma nodup_lookup : forall {A} g (a : A) m, NoDup (map fst m) -> In (g, a) m -> lookup g m = Some a.
Proof.
  induction m as [|[i b] r IH]; intros N I; [destruct I|]. cbn in *. inversion N as [|x y N1 N2]; subst. destruct I as [E|I].
  - injection E as -> ->. rewrite Nat.eqb_refl. reflexivity.
  - destruct (Nat.eqb_spec g i) as [->|D]; [|apply IH; auto]. exfalso. apply N1. apply (in_map fst) in I. exact I.
Qed.
Lemma add_var_scopes : forall qs d, scopes (fold_left add_var qs d) = scopes d.
Proof. induction qs as [|q r IH]; intros d; [reflexivity|]. cbn. rewrite IH. unfold add_var. destruct (1 <? depth d); [reflexivity|]. destruct (existsb (fun w => vname w =? fst q) (vars d)); reflexivity. Qed.
Lemma define_nodup : forall xs d, NoDup (map fst (scopes d)) -> NoDup (map fst (scopes (define d xs))).
Proof.
  induction xs as [|x r IH]; intros d N; [exact N|]. cbn. destruct (over d); [exact N|]. apply IH. unfold process.
  set (d1 := match members x with [] => _ | _ => d end). assert (N1 : NoDup (map fst (scopes d1))) by (subst d1; destruct (members x); exact N).
  clearbody d1. assert (N2 : NoDup (map fst (scopes (add_label x d1)))).
  { unfold add_label. destruct (Nav_Model.seq x) as [[? ?]|]; [|exact N1]. destruct (_ && _); exact N1. }
  destruct (add_label x d1) as [a b c0 e g h i sc k m]. clear N N1. cbn [scopes] in N2.
  unfold operate. destruct (op x); unfold add_nest; cbn [scopes]; try apply assign_nodup; try exact N2. rewrite add_var_scopes. exact N2.
Qed.

Lemma transform_all_some : forall m ss, (forall s, In s ss -> transform m s <> None) -> transform_all m ss <> None.
Proof.
  induction ss as [|s r IH]; intros H; cbn; [discriminate|].
  destruct (transform m s) eqn:E; [|exfalso; apply (H s); cbn; auto]. destruct (transform_all m r); [discriminate|].
  intros _. apply IH; [intros; apply H; cbn; auto|reflexivity].
Qed.

Definition keeps (a b : fmap) : Prop := forall g, lookup g a <> None -> lookup g b <> None.
Lemma each_some : forall {A} (step : fmap -> A -> option fmap) (P : A -> fmap -> Prop),
  (forall a x y, P a x -> keeps x y -> P a y) ->
  (forall a x, P a x -> exists y, step x a = Some y /\ keeps x y) ->
  forall l x, (forall a, In a l -> P a x) -> exists y, each step l x = Some y /\ keeps x y.
Proof.
  intros A step P M S. induction l as [|a r IH]; intros x H; [exists x; split; [reflexivity|intros g Hg; exact Hg]|].
  destruct (S a x (H a (or_introl eq_refl))) as (y & E & K). cbn. rewrite E.
  destruct (IH y) as (z & E' & K'); [intros b Hb; apply (M b x y); [apply H; cbn; auto|exact K]|].
  exists z. split; [exact E'|]. intros g Hg. apply K', K, Hg.
Qed.
Lemma keeps_assign : forall k i (m : fmap), keeps m (assign k i m).
Proof. intros k i m g H. rewrite lookup_assign. destruct (g =? k); [discriminate|exact H]. Qed.
Lemma spread_occs_some : forall es fs, (forall e, In e es -> lookup (fst e) fs <> None) ->
  exists fs', each spread_occs es fs = Some fs' /\ keeps fs fs'.
Proof.
  apply (each_some spread_occs (fun e fs => lookup (fst e) fs <> None)); [intros a x y H K; apply K, H|].
  intros e fs H. unfold spread_occs. destruct (lookup (fst e) fs) as [i|]; [|congruence]. eexists. split; [reflexivity|apply keeps_assign].
Qed.
Lemma spread_slices_some : forall m es fs, (forall e, In e es -> lookup (fst e) fs <> None /\ transform_all m (snd e) <> None) ->
  exists fs', each (spread_slices m) es fs = Some fs' /\ keeps fs fs'.
Proof.
  intros m. apply (each_some (spread_slices m) (fun e fs => lookup (fst e) fs <> None /\ transform_all m (snd e) <> None)).
  - intros a x y [H T] K. split; [apply K, H|exact T].
  - intros e fs [H T]. unfold spread_slices. destruct (lookup (fst e) fs) as [i|]; [|congruence].
    destruct (transform_all m (snd e)); [|congruence]. eexists. split; [reflexivity|apply keeps_assign].
Qed.

Lemma opencode_some : forall f o c,
  (forall m, In m (macros c) -> exists h ps xs, body m = define (after_prototype h ps) xs /\ closed_where_seen h xs) ->
  (forall m, In m (macros c) -> files_known (files (add_file f OpenFile c)) m) ->
  (forall g os, In (g, os) (open_occs o) -> lookup g (files (add_file f OpenFile c)) <> None) ->
  exists c', add_opencode f o c = Some c'.
Proof.
  intros f o c D K U. unfold add_opencode.
  set (c1 := add_file f OpenFile (Ctx (files c) (macros c) (Some o))).
  assert (E : files c1 = files (add_file f OpenFile c) /\ macros c1 = macros c /\ opencode_ c1 = Some o).
  { subst c1. unfold add_file. cbn. destruct (lookup f (files c)); auto. }
  destruct E as (E1 & E2 & E3). rewrite <- E1 in K, U. clearbody c1. cbv zeta. rewrite E2, E3.
  destruct (each_some spread_macro (fun m fs => (exists h ps xs, body m = define (after_prototype h ps) xs /\ closed_where_seen h xs) /\ files_known fs m))
    with (l := macros c) (x := files c1) as (fs & F & KS).
  - intros m x y (H1 & H2 & H3) Kp. split; [exact H1|]. split; intros; apply Kp; eauto.
  - intros m fs ((h & ps & xs & B & W) & H2 & H3). unfold spread_macro.
    destruct (spread_slices_some m (scopes (body m)) fs) as (fs1 & A1 & A2).
    { intros [g ss] I. cbn. split; [eauto|]. apply transform_all_some. intros s Hs.
      apply (closed_transforms m h ps xs B W g). unfold slices_in. rewrite (nodup_lookup g ss); [exact Hs| |exact I].
      rewrite B. apply define_nodup. constructor. }
    rewrite A1. destruct (spread_occs_some (mac_occs m) fs1) as (fs2 & B1 & B2).
    { intros [g os] I. cbn. apply A2. eauto. }
    exists fs2. split; [exact B1|]. intros g Hg. apply B2, A2, Hg.
  - intros m M. split; [apply D; exact M|apply K; exact M].
  - rewrite F. destruct (spread_occs_some (open_occs o) fs) as (fs2 & B1 & _).
    { intros [g os] I. cbn. apply KS. eauto. }
    rewrite B1. eauto.
Qed.
