(** The documentation of macros. *)
From Coq Require Import String.
From Coq Require Import List NArith ZArith Bool Arith Lia Sorting.Sorted.
From Coq Require Import ZifyBool ZifyNat ZifyN.
From Verif Require Import Common Text_Model Text_Spec Text_Proof Lines_Proof Mach_Model Hov_Model Hov_Spec.
Import ListNotations.

Lemma starts_length k ls : length (starts k ls) = length ls.
Proof. revert k. induction ls as [|l ls IH]; intros k; cbn; [easy|]. now rewrite IH. Qed.
Lemma starts_nth ls : forall k i l, nth_error ls i = Some l ->
  nth_error (starts k ls) i = Some (k + length (concat (firstn i ls))).
Proof.
  induction ls as [|x ls IH]; intros k [|i] l H; try discriminate; cbn [starts nth_error firstn concat length] in *.
  - f_equal. lia.
  - rewrite (IH _ _ _ H). rewrite app_length. f_equal. lia.
Qed.
Lemma lined_indices t ls : lined t ls -> create_line_indices t = starts 0 ls.
Proof. intros (_ & H). symmetry. now apply is_line_cli. Qed.

Lemma split_at {A} (ls : list A) i l : nth_error ls i = Some l -> ls = firstn i ls ++ l :: skipn (S i) ls.
Proof.
  revert i. induction ls as [|x ls IH]; intros [|i] H; try discriminate; cbn in *; [congruence|]. f_equal. now apply IH.
Qed.
Lemma concat_len_split (ls : list bytes) i l : nth_error ls i = Some l ->
  length (concat ls) = length (concat (firstn i ls)) + length l + length (concat (skipn (S i) ls)).
Proof.
  intros H. rewrite (split_at _ _ _ H) at 1. rewrite concat_app. cbn [concat]. rewrite !app_length. lia.
Qed.

Lemma nonempty_before t ls i l : lined t ls -> nth_error ls i = Some l -> S i < length ls -> l <> [].
Proof.
  intros (Hc & Hs & _) H Hi ->. destruct (nth_error ls (S i)) as [l'|] eqn:E'; [|apply nth_error_None in E'; lia].
  assert (A := starts_nth ls 0 i _ H). assert (B := starts_nth ls 0 (S i) _ E').
  assert (C : length (concat (firstn (S i) ls)) = length (concat (firstn i ls))).
  { clear -H. revert i H. induction ls as [|x ls IH]; intros [|i] H; try discriminate.
    - cbn in H. injection H as ->. reflexivity.
    - cbn [nth_error] in H. change (firstn (S (S i)) (x :: ls)) with (x :: firstn (S i) ls).
      change (firstn (S i) (x :: ls)) with (x :: firstn i ls). cbn [concat]. rewrite !app_length. rewrite (IH _ H). reflexivity. }
  rewrite C in B. clear -Hs A B. revert A B. generalize (0 + length (concat (firstn i ls))). intros v.
  revert i. induction (starts 0 ls) as [|x s IH]; intros i A B; [now destruct i|]. inversion Hs as [|? ? H1 H2]; subst.
  destruct i as [|i].
  - cbn in A, B. injection A as ->. destruct s as [|y s]; [discriminate|]. injection B as ->. inversion H2; lia.
  - cbn [nth_error] in A, B. eapply IH; eauto.
Qed.

Lemma get_line_at t ls i l : lined t ls -> nth_error ls i = Some l -> l <> [] -> get_line t i = Some l.
Proof.
  intros L H N. assert (I := lined_indices _ _ L). destruct L as (<- & _). unfold get_line.
  rewrite I. rewrite (starts_nth ls 0 i l H). rewrite Nat.add_0_l.
  assert (Len := concat_len_split ls i l H). destruct l as [|c l]; [easy|]. cbn [length] in Len.
  unfold view. destruct (Nat.ltb_spec (length (concat (firstn i ls))) (length (concat ls))); [|lia]. f_equal.
  assert (E : match nth_error (starts 0 ls) (i + 1) with Some e => e | None => length (concat ls) end
              = length (concat (firstn i ls)) + length (c :: l)).
  { rewrite Nat.add_1_r. destruct (nth_error ls (S i)) as [l'|] eqn:E'.
    - rewrite (starts_nth ls 0 (S i) _ E'). rewrite (split_at _ _ _ H) at 1.
      assert (F : firstn (S i) (firstn i ls ++ (c :: l) :: skipn (S i) ls) = firstn i ls ++ [c :: l]).
      { assert (Li : length (firstn i ls) = i) by (apply firstn_length_le; apply Nat.lt_le_incl; apply nth_error_Some; congruence).
        rewrite firstn_app, Li. replace (S i - i) with 1 by lia.
        rewrite (firstn_all2 (firstn i ls)) by (rewrite Li; lia). reflexivity. }
      rewrite F, concat_app. cbn [concat]. rewrite !app_length. cbn. lia.
    - replace (nth_error (starts 0 ls) (S i)) with (@None nat).
      + apply nth_error_None in E'. rewrite skipn_all2 in Len by lia. cbn [concat length] in Len. cbn [length]. lia.
      + symmetry. apply nth_error_None. rewrite starts_length. now apply nth_error_None. }
  rewrite E. replace (length (concat (firstn i ls)) + length (c :: l) - length (concat (firstn i ls))) with (length (c :: l)) by lia.
  assert (Sp : concat ls = concat (firstn i ls) ++ (c :: l) ++ concat (skipn (S i) ls)).
  { rewrite (split_at _ _ _ H) at 1. now rewrite concat_app. }
  rewrite Sp at 1. rewrite skipn_app, skipn_all, Nat.sub_diag. rewrite app_nil_l.
  rewrite skipn_O, firstn_app, firstn_all, Nat.sub_diag. now rewrite firstn_O, app_nil_r.
Qed.
Lemma get_line_beyond t ls i : lined t ls -> length ls <= i -> get_line t i = Some [].
Proof.
  intros L H. unfold get_line. rewrite (lined_indices _ _ L).
  replace (nth_error (starts 0 ls) i) with (@None nat); [easy|]. symmetry. apply nth_error_None. now rewrite starts_length.
Qed.

(** ** Ranges of whole lines *)
Lemma index_of t ls i : lined t ls ->
  index_from_position t (create_line_indices t) i 0 = Some (length (concat (firstn i ls))).
Proof.
  intros L. unfold index_from_position. rewrite (lined_indices _ _ L).
  destruct (nth_error ls i) as [l|] eqn:E.
  - rewrite (starts_nth _ _ _ _ E). reflexivity.
  - replace (nth_error (starts 0 ls) i) with (@None nat).
    + apply nth_error_None in E. rewrite firstn_all2 by exact E. destruct L as (-> & _). reflexivity.
    + symmetry. apply nth_error_None. rewrite starts_length. now apply nth_error_None.
Qed.
Lemma range_lines t a b c : lined t (a ++ b ++ c) ->
  get_range_content t (length a) 0 (length (a ++ b)) 0 = Some (concat b).
Proof.
  intros L. unfold get_range_content. rewrite !(index_of _ _ _ L).
  rewrite (firstn_app (length a)), firstn_all, Nat.sub_diag. cbn [firstn]. rewrite app_nil_r.
  rewrite app_assoc. rewrite (firstn_app (length (a ++ b))), firstn_all, Nat.sub_diag. cbn [firstn]. rewrite app_nil_r.
  destruct L as (<- & _). rewrite !concat_app, !app_length.
  destruct (Nat.leb_spec (length (concat a) + (length (concat b) + length (concat c))) (length (concat a))) as [H|H].
  - assert (X : concat b = []) by (destruct (concat b); [easy|cbn in H; lia]). now rewrite X.
  - destruct (Nat.leb_spec (length (concat a)) (length (concat a) + length (concat b))); [|lia].
    f_equal. rewrite skipn_app, skipn_all, Nat.sub_diag. cbn [app skipn].
    replace (length (concat a) + length (concat b) - length (concat a)) with (length (concat b)) by lia.
    rewrite firstn_app, firstn_all, Nat.sub_diag. cbn [firstn]. now rewrite app_nil_r.
Qed.

(** ** Comments and continued lines *)
Lemma is_comment_iff l : is_comment l = true <-> comment l.
Proof.
  unfold is_comment, comment. split.
  - destruct l as [|a [|b l]]; cbn [starts_with]; intros H; try discriminate.
    + exists []. left. f_equal. lia.
    + destruct (N.eqb_spec 42 a); [subst; eexists; left; reflexivity|].
      destruct (N.eqb_spec 46 a); [|cbn in H; discriminate]. destruct (N.eqb_spec 42 b); [|cbn in H; discriminate].
      subst. exists l. now right.
  - intros (r & [->| ->]); [reflexivity|]. cbn. reflexivity.
Qed.
Lemma is_continued_iff l : is_continued_line l = true <-> continued l.
Proof.
  unfold is_continued_line, continued. destruct (nth_error l 71) as [c|].
  - split.
    + intros H. exists c. split; [easy|]. unfold isspace, blank in *. lia.
    + intros (c' & E & H). injection E as <-. unfold isspace, blank in *. lia.
  - split; [easy|]. intros (c & E & _). discriminate.
Qed.
Lemma comment_nonempty l : comment l -> l <> [].
Proof. intros (r & [->| ->]); easy. Qed.
Lemma continued_nonempty l : continued l -> l <> [].
Proof. intros (c & H & _) ->. discriminate. Qed.

Definition top (l : list bytes) : Prop := match rev l with [] => True | x :: _ => ~ comment x end.

Lemma nth_mid {A} (a : list A) x b : nth_error (a ++ x :: b) (length a) = Some x.
Proof. rewrite nth_error_app2 by lia. now rewrite Nat.sub_diag. Qed.

Lemma before_begin_at t before : forall pre rest, lined t (pre ++ before ++ rest) -> rest <> [] ->
  Forall comment before -> top pre ->
  before_begin t (length (pre ++ before)) = Some (length pre).
Proof.
  induction before as [|x before IH] using rev_ind; intros pre rest L R C T.
  - rewrite app_nil_r. cbn [app] in L. unfold top in T.
    destruct (rev pre) as [|y q] eqn:E.
    + apply (f_equal (@rev _)) in E. rewrite rev_involutive in E. subst pre. reflexivity.
    + apply (f_equal (@rev _)) in E. rewrite rev_involutive in E. cbn [rev] in E. subst pre.
      rewrite app_length, Nat.add_1_r. cbn [before_begin].
      rewrite <- app_assoc in L. cbn [app] in L.
      assert (N : y <> []).
      { eapply (nonempty_before _ _ (length (rev q))); [exact L|apply nth_mid|]. rewrite app_length. cbn [length].
        destruct rest; [easy|cbn [length]; lia]. }
      rewrite (get_line_at _ _ _ _ L (nth_mid _ _ _) N).
      destruct (is_comment y) eqn:I; [apply is_comment_iff in I; contradiction|easy].
  - apply Forall_app in C. destruct C as (C & Cx). inversion Cx; subst.
    rewrite app_assoc, app_length, Nat.add_1_r. cbn [before_begin].
    assert (L' : lined t (pre ++ before ++ (x :: rest))) by (rewrite <- app_assoc in L; exact L).
    assert (N : nth_error (pre ++ before ++ x :: rest) (length (pre ++ before)) = Some x)
      by (rewrite app_assoc; apply nth_mid).
    rewrite (get_line_at _ _ _ _ L' N) by now apply comment_nonempty.
    destruct (is_comment x) eqn:I; [|exfalso; assert (comment x) by assumption; apply is_comment_iff in H; congruence].
    eapply IH; eauto. easy.
Qed.

Lemma run_to_at p t run : forall pre post fuel, lined t (pre ++ run ++ post) -> length run < fuel ->
  Forall (fun l => p l = true /\ l <> []) run ->
  (match post with [] => True | l :: _ => p l = false /\ l <> [] end) ->
  run_to p t fuel (length pre) = Some (length (pre ++ run)).
Proof.
  induction run as [|x run IH]; intros pre post fuel L F P Q; (destruct fuel as [|fuel]; [cbn in F; lia|]); cbn [run_to].
  - rewrite app_nil_r. cbn [app] in L. rewrite (lined_indices _ _ L), starts_length.
    destruct post as [|l post].
    + rewrite app_nil_r. now rewrite Nat.ltb_irrefl.
    + destruct Q as (Q & N). rewrite app_length. cbn [length].
      destruct (Nat.ltb_spec (length pre) (length pre + S (length post))); [|lia].
      rewrite (get_line_at _ _ _ _ L (nth_mid _ _ _) N). now rewrite Q.
  - inversion P as [|? ? (Px & Nx) Pr]; subst. rewrite (lined_indices _ _ L), starts_length.
    rewrite app_length. cbn [app length]. destruct (Nat.ltb_spec (length pre) (length pre + S (length (run ++ post)))); [|lia].
    rewrite (get_line_at _ _ _ _ L (nth_mid _ _ _) Nx). rewrite Px.
    replace (S (length pre)) with (length (pre ++ [x])) by (rewrite app_length; cbn; lia).
    replace (pre ++ x :: run) with ((pre ++ [x]) ++ run) by (rewrite <- app_assoc; reflexivity).
    eapply IH; eauto; [rewrite <- app_assoc; exact L|cbn in F; lia].
Qed.

Theorem documentation_at t pre before m proto p after post :
  lined t (pre ++ before ++ [m] ++ proto ++ [p] ++ after ++ post) ->
  Forall comment before -> top pre -> Forall continued proto -> ~ continued p -> p <> [] ->
  Forall comment after -> (match post with [] => True | l :: _ => ~ comment l /\ l <> [] end) ->
  documentation t (S (length (pre ++ before))) =
  Some (fence ++ concat (proto ++ [p]) ++ concat before ++ concat after ++ [10%N] ++ fence).
Proof.
  intros L C T K Np Ne A P. unfold documentation.
  rewrite (before_begin_at t before pre ([m] ++ proto ++ [p] ++ after ++ post)); [|exact L|easy|exact C|exact T].
  rewrite (range_lines t pre before _ L).
  assert (E1 : S (length (pre ++ before)) = length (pre ++ before ++ [m])) by (rewrite !app_length; cbn; lia).
  rewrite E1.
  assert (L1 : lined t ((pre ++ before ++ [m]) ++ proto ++ ([p] ++ after ++ post))) by (rewrite <- !app_assoc; exact L).
  assert (Cnt : length (create_line_indices t) = length (pre ++ before ++ [m] ++ proto ++ [p] ++ after ++ post))
    by (rewrite (lined_indices _ _ L); apply starts_length).
  rewrite (run_to_at is_continued_line t proto _ _ _ L1).
  - assert (E2 : S (length ((pre ++ before ++ [m]) ++ proto)) = length ((pre ++ before ++ [m]) ++ proto ++ [p]))
      by (rewrite !app_length; cbn; lia).
    rewrite E2. cbv zeta.
    rewrite (range_lines t (pre ++ before ++ [m]) (proto ++ [p]) (after ++ post)); [|rewrite <- !app_assoc; exact L].
    assert (L2 : lined t (((pre ++ before ++ [m]) ++ proto ++ [p]) ++ after ++ post)) by (rewrite <- !app_assoc; exact L).
    rewrite (run_to_at is_comment t after _ _ _ L2).
    + rewrite (range_lines t _ after post L2). reflexivity.
    + rewrite Cnt, !app_length. cbn. lia.
    + eapply Forall_impl; [|exact A]. intros l H. split; [now apply is_comment_iff|now apply comment_nonempty].
    + destruct post as [|l post]; [easy|]. destruct P as (P & N). split; [|exact N].
      destruct (is_comment l) eqn:I; [apply is_comment_iff in I; contradiction|easy].
  - rewrite Cnt, !app_length. cbn. lia.
  - eapply Forall_impl; [|exact K]. intros l H. split; [now apply is_continued_iff|now apply continued_nonempty].
  - cbn [app]. split; [|exact Ne]. destruct (is_continued_line p) eqn:I; [apply is_continued_iff in I; contradiction|easy].
Qed.

(** ** No exception when the last line is not empty *)
Lemma get_line_total t ls i : lined t ls -> last ls [0%N] <> [] -> get_line t i <> None.
Proof.
  intros L N. destruct (nth_error ls i) as [l|] eqn:E.
  - assert (l <> []).
    { destruct (Nat.lt_ge_cases (S i) (length ls)); [eapply nonempty_before; eauto|].
      assert (Hi : i < length ls) by (apply nth_error_Some; congruence).
      intros ->. apply N. rewrite (split_at _ _ _ E). rewrite skipn_all2 by lia. now rewrite last_last. }
    rewrite (get_line_at _ _ _ _ L E); [easy|assumption].
  - apply nth_error_None in E. now rewrite (get_line_beyond _ _ _ L E).
Qed.
Lemma range_total t ls a b : lined t ls -> get_range_content t a 0 b 0 <> None.
Proof.
  intros L. unfold get_range_content. rewrite !(index_of _ _ _ L). destruct (_ <=? _); [easy|]. now destruct (_ <=? _).
Qed.
Lemma run_to_total p t ls fuel : lined t ls -> last ls [0%N] <> [] -> forall n, run_to p t fuel n <> None.
Proof.
  intros L N. induction fuel as [|fuel IH]; intros n; cbn [run_to]; [easy|]. destruct (_ <? _); [|easy].
  destruct (get_line t n) eqn:E; [|now apply (get_line_total _ _ n L N) in E]. destruct (p l); [apply IH|easy].
Qed.
Lemma before_total t ls : lined t ls -> last ls [0%N] <> [] -> forall n, before_begin t n <> None.
Proof.
  intros L N. induction n as [|n IH]; cbn [before_begin]; [easy|].
  destruct (get_line t n) eqn:E; [|now apply (get_line_total _ _ n L N) in E]. destruct (is_comment l); [apply IH|easy].
Qed.
Theorem documentation_total t ls d : lined t ls -> last ls [0%N] <> [] -> documentation t d <> None.
Proof.
  intros L N. unfold documentation.
  assert (K : match d with
         | O => Some []
         | S macro_line =>
             match before_begin t macro_line with
             | None => None
             | Some b => get_range_content t b 0 macro_line 0
             end
         end <> None).
  { destruct d as [|d]; [easy|]. destruct (before_begin t d) eqn:E; [eapply range_total; eauto|now apply (before_total _ _ L N) in E]. }
  destruct d as [|d]; [|destruct (before_begin t d); [|easy]; destruct (get_range_content t n 0 d 0); [|easy]];
  (destruct (run_to is_continued_line _ _ _) as [x|] eqn:E1; [|now apply (run_to_total _ _ _ _ L N) in E1]; cbv zeta;
   destruct (get_range_content t _ 0 (S x) 0) eqn:E2; [|now apply (range_total _ _ _ _ L) in E2];
   destruct (run_to is_comment _ _ _) as [y|] eqn:E3; [|now apply (run_to_total _ _ _ _ L N) in E3];
   destruct (get_range_content t (S x) 0 y 0) eqn:E4; [easy|now apply (range_total _ _ _ _ L) in E4]).
Qed.

(** Every text has lines. *)
Fixpoint cut (t : bytes) (tbl : list nat) (from : nat) : list bytes :=
  match tbl with
  | [] => [t]
  | n :: r => firstn (n - from) t :: cut (skipn (n - from) t) r n
  end.
Lemma cut_ok tbl : forall t from, StronglySorted lt tbl -> Forall (fun n => from <= n <= from + length t) tbl ->
  concat (cut t tbl from) = t /\ starts from (cut t tbl from) = from :: tbl.
Proof.
  induction tbl as [|n tbl IH]; intros t from H F; cbn [cut concat starts].
  - now rewrite app_nil_r.
  - inversion H as [|? ? H1 H2]; inversion F as [|? ? F1 F2]; subst.
    destruct (IH (skipn (n - from) t) n H1) as (A & B).
    { rewrite Forall_forall in *. intros x Hx. specialize (H2 x Hx). specialize (F2 x Hx). rewrite skipn_length. lia. }
    rewrite A. split; [apply firstn_skipn|]. rewrite firstn_length.
    replace (from + Nat.min (n - from) (length t)) with n by lia. now rewrite B.
Qed.
Lemma lines_exist t : exists ls, lined t ls.
Proof.
  exists (cut t (find_newlines t) 0).
  destruct (cut_ok (find_newlines t) t 0) as (A & B).
  - assert (S1 := proj1 (cli_is_line t)). unfold create_line_indices in S1. now inversion S1.
  - rewrite Forall_forall. intros x Hx. apply find_newlines_le in Hx. lia.
  - split; [exact A|]. rewrite B. apply cli_is_line.
Qed.
