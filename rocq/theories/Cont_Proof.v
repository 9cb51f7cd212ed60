(** Edits within one line *)
From Coq Require Import List NArith ZArith Bool Lia.
From Verif Require Import Cont_Model Cont_Spec.
Import ListNotations.
Open Scope list_scope.
Open Scope nat_scope.

Definition pfx (pre : doc) : list N := flat_map (fun x => x ++ [EOL]) pre.
Definition sfx (post : doc) : list N := flat_map (fun x => EOL :: x) post.

Lemma text_cons l d : d <> [] -> text (l :: d) = l ++ EOL :: text d.
Proof. destruct d; [congruence|reflexivity]. Qed.
Lemma text_sfx post : forall l, text (l :: post) = l ++ sfx post.
Proof.
  induction post as [|x r IH]; intro l; [cbn; now rewrite app_nil_r|].
  rewrite text_cons by discriminate. rewrite IH. reflexivity.
Qed.
Lemma text_frame pre l post : text (pre ++ l :: post) = pfx pre ++ l ++ sfx post.
Proof.
  induction pre as [|x r IH]; [apply text_sfx|].
  cbn [app]. rewrite text_cons by (destruct r; discriminate). rewrite IH.
  unfold pfx. cbn [flat_map]. rewrite <- !app_assoc. reflexivity.
Qed.
Lemma place_cons x d i c : d <> [] -> place (x :: d) (S i) c = length x + 1 + place d i c.
Proof. destruct d; [congruence|reflexivity]. Qed.
Lemma place_frame pre l post c : place (pre ++ l :: post) (length pre) c = length (pfx pre) + Nat.min c (length l).
Proof.
  induction pre as [|x r IH].
  - cbn. destruct post; reflexivity.
  - cbn [app length]. rewrite place_cons by (destruct r; discriminate). rewrite IH.
    unfold pfx. cbn [flat_map]. rewrite !app_length. cbn. lia.
Qed.
Lemma line_at_frame pre l post : line_at (pre ++ l :: post) (length pre) = l.
Proof. unfold line_at. rewrite app_nth2, Nat.sub_diag by lia. reflexivity. Qed.

(** ** Splices move with the line *)
Definition shift (n : nat) (s : splice) : splice := let '(a, b, x) := s in (n + a, n + b, x).
Lemma before_shift n x y : before (shift n x) (shift n y) = before x y.
Proof.
  destruct x as [[a b] t], y as [[c d] u]. unfold before, shift.
  assert (forall p q, (n + p <? n + q) = (p <? q)) as E1 by (intros; destruct (Nat.ltb_spec p q), (Nat.ltb_spec (n+p) (n+q)); lia).
  assert (forall p q, (n + p =? n + q) = (p =? q)) as E2 by (intros; destruct (Nat.eqb_spec p q), (Nat.eqb_spec (n+p) (n+q)); lia).
  assert (forall p q, (n + p <=? n + q) = (p <=? q)) as E3 by (intros; destruct (Nat.leb_spec p q), (Nat.leb_spec (n+p) (n+q)); lia).
  now rewrite E1, E2, E3.
Qed.
Lemma insert_shift n x l : insert (shift n x) (map (shift n) l) = map (shift n) (insert x l).
Proof. induction l as [|y r IH]; [reflexivity|]. cbn [map insert]. rewrite before_shift. destruct (before x y); [reflexivity|]. now rewrite IH. Qed.
Lemma sort_shift n l : sort (map (shift n) l) = map (shift n) (sort l).
Proof. induction l as [|x r IH]; [reflexivity|]. cbn [map sort]. now rewrite IH, insert_shift. Qed.
Lemma overlap_shift n l : overlap (map (shift n) l) = overlap l.
Proof.
  induction l as [|[[a b] t] r IH]; [reflexivity|]. destruct r as [|[[c d] u] r]; [reflexivity|].
  assert ((n + c <? n + b) = (c <? b)) as E by (destruct (Nat.ltb_spec c b), (Nat.ltb_spec (n + c) (n + b)); lia).
  exact (f_equal2 orb E IH).
Qed.

Definition within (m : nat) (s : splice) : Prop := let '(a, b, _) := s in a <= b <= m.
Lemma insert_in m x l : within m x -> Forall (within m) l -> Forall (within m) (insert x l).
Proof.
  intros H F. induction F as [|y r Hy F IH]; cbn; [auto|]. destruct (before x y); auto.
Qed.
Lemma sort_in m l : Forall (within m) l -> Forall (within m) (sort l).
Proof. induction 1; cbn; [auto|]. now apply insert_in. Qed.

Lemma enough l : forall sp a b x, Forall (within (length l)) ((a, b, x) :: sp) -> overlap ((a, b, x) :: sp) = false ->
  b <= length (fold_right replace l sp).
Proof.
  induction sp as [|[[c d] u] r IH]; intros a b x F O.
  - inversion F as [|? ? Hw]; subst. cbn in *. lia.
  - change (overlap ((a, b, x) :: (c, d, u) :: r)) with ((c <? b) || overlap ((c, d, u) :: r)) in O.
    apply orb_false_iff in O. destruct O as [O1 O2]. apply Nat.ltb_ge in O1.
    inversion F as [|? ? Hw F']; subst. specialize (IH _ _ _ F' O2).
    inversion F' as [|? ? Hw' F'']; subst. cbn in Hw'.
    cbn [fold_right]. unfold replace at 1. rewrite app_length, firstn_length. lia.
Qed.
Lemma lift A B l : forall sp, Forall (within (length l)) sp -> overlap sp = false ->
  fold_right replace (A ++ l ++ B) (map (shift (length A)) sp) = A ++ fold_right replace l sp ++ B.
Proof.
  induction sp as [|[[a b] x] r IH]; intros F O; [reflexivity|].
  pose proof (enough _ _ _ _ _ F O) as E.
  cbn [map fold_right]. rewrite IH.
  2:{ now inversion F. }
  2:{ destruct r as [|[[c d] u] r]; [reflexivity|]. change (overlap ((a, b, x) :: (c, d, u) :: r)) with ((c <? b) || overlap ((c, d, u) :: r)) in O.
      now apply orb_false_iff in O. }
  inversion F as [|? ? Hw F']; subst. cbn in Hw.
  set (M := fold_right replace l r) in *. unfold shift, replace.
  rewrite firstn_app_2, firstn_app, skipn_app.
  replace (a - length M) with 0 by lia. rewrite firstn_O, app_nil_r.
  rewrite skipn_all2 by lia. replace (length A + b - length A) with b by lia. rewrite skipn_app.
  replace (b - length M) with 0 by lia. rewrite skipn_O. cbn [app]. now rewrite <- !app_assoc.
Qed.

Lemma apply_line pre l post es sp :
  map (to_splice (pre ++ l :: post)) es = map (shift (length (pfx pre))) sp ->
  Forall (within (length l)) sp -> overlap (sort sp) = false ->
  apply (pre ++ l :: post) es = Some (text (pre ++ fold_right replace l (sort sp) :: post)).
Proof.
  intros E F O. unfold apply. rewrite E, sort_shift, overlap_shift, O. f_equal.
  rewrite !text_frame. apply lift; [|assumption]. now apply sort_in.
Qed.

(** edits of the one line *)
Lemma ins_line pre l post c t : c <= length l ->
  to_splice (pre ++ l :: post) (Ins (mkPos (length pre) c) t) = shift (length (pfx pre)) (c, c, t).
Proof. intros H. cbn [to_splice ln ch]. rewrite place_frame. cbn. rewrite Nat.min_l by lia. reflexivity. Qed.
Lemma del_line pre l post a b : a <= b -> b <= length l ->
  to_splice (pre ++ l :: post) (Del (mkPos (length pre) a) (mkPos (length pre) b)) = shift (length (pfx pre)) (a, b, []).
Proof.
  intros H H'. cbn [to_splice ln ch]. rewrite !place_frame. cbn. rewrite !(Nat.min_l _ (length l)) by lia.
  f_equal; f_equal; lia.
Qed.
Lemma del_line_back pre l post a b : a <= b -> b <= length l ->
  to_splice (pre ++ l :: post) (Del (mkPos (length pre) b) (mkPos (length pre) a)) = shift (length (pfx pre)) (a, b, []).
Proof.
  intros H H'. cbn [to_splice ln ch]. rewrite !place_frame. cbn. rewrite !(Nat.min_l _ (length l)) by lia.
  f_equal; f_equal; lia.
Qed.

(** ** Continuation *)
Lemma continued_length l : continued l -> 72 <= length l.
Proof. intros [x [H _]]. assert (71 < length l); [|lia]. apply nth_error_Some. congruence. Qed.
Lemma continued_true pre l post : continued l -> isLineContinued (pre ++ l :: post) (Z.of_nat (length pre)) 71 = true.
Proof.
  intros H. pose proof (continued_length _ H) as HL. unfold isLineContinued.
  destruct (Z.ltb_spec (Z.of_nat (length pre)) 0); [lia|]. rewrite Nat2Z.id.
  destruct (Nat.leb_spec (length (pre ++ l :: post)) (length pre)) as [G|G]; [rewrite app_length in G; cbn in G; lia|].
  rewrite line_at_frame. destruct H as [x [Hx Hn]].
  apply andb_true_iff. split; [apply Nat.ltb_lt; lia|].
  rewrite (nth_error_nth _ _ _ Hx). apply negb_true_iff. now apply N.eqb_neq.
Qed.
Lemma continued_false pre l post : ~ continued l -> isLineContinued (pre ++ l :: post) (Z.of_nat (length pre)) 71 = false.
Proof.
  intros H. unfold isLineContinued.
  destruct (Z.ltb_spec (Z.of_nat (length pre)) 0); [reflexivity|]. rewrite Nat2Z.id.
  destruct (Nat.leb_spec (length (pre ++ l :: post)) (length pre)) as [G|G]; [reflexivity|].
  rewrite line_at_frame. destruct (Nat.ltb_spec 71 (length l)) as [G1|G1]; [|reflexivity]. cbn [andb].
  apply negb_false_iff. destruct (N.eqb_spec (nth 71 l 0%N) BLANK) as [G2|G2]; [reflexivity|].
  exfalso. apply H. exists (nth 71 l 0%N). split; [|exact G2]. now apply nth_error_nth'.
Qed.
