(** Lemmas for Und_Props.v. *)
From Coq Require Import List NArith Bool Arith Lia.
From Coq Require Import ZifyBool ZifyNat ZifyN.
From Verif Require Import Common Und_Model Und_Spec.
Import ListNotations.
Open Scope nat_scope.

(** Induction over the parts of terms. *)
Section Induction.
Variable P : node -> Prop.
Hypothesis H : forall n, Forall P (parts n) -> P n.
Fixpoint parts_ind (n : node) : P n :=
  let every := fix every (l : list node) : Forall P l :=
    match l with [] => Forall_nil P | x :: r => Forall_cons x (parts_ind x) (every r) end in
  let all := fix all (l : list (list node)) : Forall P (concat l) :=
    match l with
    | [] => Forall_nil P
    | c :: r => proj2 (Forall_app P c (concat r)) (conj (every c) (all r))
    end in
  let maybe := fun (o : option node) =>
    match o return Forall P (opt o) with
    | Some x => Forall_cons x (parts_ind x) (Forall_nil P)
    | None => Forall_nil P
    end in
  H n match n return Forall P (parts n) with
      | Var _ c s => proj2 (Forall_app P c s) (conj (every c) (every s))
      | Str _ d s c =>
          proj2 (Forall_app P _ _) (conj (maybe d) (proj2 (Forall_app P _ _) (conj (maybe s) (maybe c))))
      | AttrV _ v => Forall_cons v (parts_ind v) (Forall_nil P)
      | Fun ps d => proj2 (Forall_app P _ _) (conj (every ps) (maybe d))
      | Lst l => every l
      | Un e => Forall_cons e (parts_ind e) (Forall_nil P)
      | Bin l r => Forall_cons l (parts_ind l) (Forall_cons r (parts_ind r) (Forall_nil P))
      | Sub l => all l
      | _ => Forall_nil P
      end.
End Induction.

Lemma parts_ind_in (P : node -> Prop) :
  (forall n, (forall y, In y (parts n) -> P y) -> P n) -> forall n, P n.
Proof. intros H. apply parts_ind. intros n F. apply H. now apply Forall_forall. Qed.

Lemma within_part y z : In y (parts z) -> within y z.
Proof. intros H. exact (W_part _ y z H (W_here y)). Qed.
Lemma within_trans x y z : within x y -> within y z -> within x z.
Proof. intros A B. induction B as [|u v Hu Hv IH]; [exact A|]. exact (W_part _ u v Hu IH). Qed.
Lemma regular_within x n : regular n -> within x n -> regular x.
Proof. intros R W y Hy. apply R. exact (within_trans _ _ _ Hy W). Qed.
Lemma regular_part y n : regular n -> In y (parts n) -> regular y.
Proof. intros R W. exact (regular_within y n R (within_part _ _ W)). Qed.

Lemma depends_iff a : is_ordinary_attribute a = true <-> depends a.
Proof. unfold depends. destruct a; cbn; intuition congruence. Qed.

Lemma ord_char_iff c : ord_char c = true <-> letter c \/ decimal c.
Proof. unfold ord_char, letter, decimal. lia. Qed.
Lemma folds_up t : Forall2 folds t (map up t).
Proof.
  induction t as [|c t IH]; [constructor|]. constructor; [|exact IH].
  unfold folds, up. destruct ((97 <=? c) && (c <=? 122))%N eqn:E; lia.
Qed.
Lemma folds_det t s : Forall2 folds t s -> s = map up t.
Proof.
  induction 1 as [|c d t s Hf _ IH]; [reflexivity|]. cbn [map]. f_equal; [|exact IH].
  unfold folds in Hf. unfold up. destruct ((97 <=? c) && (c <=? 122))%N eqn:E; lia.
Qed.
Lemma name_iff t s : try_get_symbol_name t = Some s <-> symbol t /\ Forall2 folds t s.
Proof.
  unfold try_get_symbol_name, symbol. destruct t as [|c r].
  - split; [discriminate|]. intros [[[A _] _] _]. cbn in A. lia.
  - split.
    + destruct ((63 <? length (c :: r)) || digit c) eqn:E; [discriminate|].
      destruct (forallb ord_char (c :: r)) eqn:F; [|discriminate]. intros [= <-].
      apply orb_false_iff in E. destruct E as [E1 E2].
      split; [|exact (folds_up (c :: r))]. rewrite forallb_forall in F. split; [|split].
      * apply Nat.ltb_ge in E1. cbn in *. lia.
      * intros x Hx. apply ord_char_iff, F, Hx.
      * intros x q [= <- <-]. assert (G := F c (or_introl eq_refl)). apply ord_char_iff in G.
        destruct G as [G|G]; [exact G|]. unfold digit in E2. unfold decimal in G. lia.
    + intros [(L1 & L2 & L3) Hf].
      assert (E1 : 63 <? length (c :: r) = false) by (apply Nat.ltb_ge; lia).
      assert (E2 : digit c = false).
      { specialize (L3 c r eq_refl). unfold letter in L3. unfold digit. lia. }
      rewrite E1, E2. cbn [orb].
      assert (F : forallb ord_char (c :: r) = true).
      { apply forallb_forall. intros x Hx. apply ord_char_iff, L2, Hx. }
      rewrite F. f_equal. symmetry. exact (folds_det _ _ Hf).
Qed.

Section Undef.
Variable known : bytes -> bool.
Variable value : node -> option bytes.
Notation undefined := (undefined known value).

Definition attribute (n : node) : bool := match n with AttrS _ _ | AttrV _ _ => true | _ => false end.

Lemma maybe_in o s :
  In s (match o with Some e => undefined e | None => [] end) <->
  exists y, In y (opt o) /\ In s (undefined y).
Proof.
  destruct o as [e|]; cbn [opt In]; split.
  - intros H. exists e. tauto.
  - intros (y & [<-|[]] & Hy). exact Hy.
  - intros [].
  - intros (y & [] & _).
Qed.

(** Apart from attribute references, a term asks for what its parts ask for. *)
Lemma undefined_parts n s : regular n -> attribute n = false ->
  In s (undefined n) <-> exists y, In y (parts n) /\ In s (undefined y).
Proof.
  intros R A.
  destruct n as [|nm|b c sub|v d st ct|a x|a v|ps d|l|e|l r|t| | |l]; try discriminate;
    cbn [Und_Model.undefined parts].
  - split; [intros []|intros (y & [] & _)].
  - split; [intros []|intros (y & [] & _)].
  - destruct (R _ (W_here _)) as [R1 _]. specialize (R1 _ _ _ eq_refl). rewrite Forall_forall in R1.
    rewrite in_app_iff, !in_flat_map. split.
    + intros [(y & Hy & Hs)|(y & Hy & Hs)].
      * exists y. rewrite in_app_iff. tauto.
      * exists y. rewrite in_app_iff. destruct (is_var y); [tauto|destruct Hs].
    + intros (y & Hy & Hs). apply in_app_iff in Hy. destruct Hy as [Hy|Hy].
      * right. exists y. split; [exact Hy|].
        destruct (R1 y Hy) as [[t ->]|[->|(b' & c' & s' & ->)]]; exact Hs.
      * left. now exists y.
  - rewrite !in_app_iff, !maybe_in. split.
    + intros [(y & Hy & Hs)|[(y & Hy & Hs)|(y & Hy & Hs)]]; exists y; rewrite !in_app_iff; tauto.
    + intros (y & Hy & Hs). rewrite !in_app_iff in Hy.
      destruct Hy as [Hy|[Hy|Hy]]; [left|right; left|right; right]; now exists y.
  - rewrite in_app_iff, in_flat_map, maybe_in. split.
    + intros [(y & Hy & Hs)|(y & Hy & Hs)]; exists y; rewrite in_app_iff; tauto.
    + intros (y & Hy & Hs). rewrite in_app_iff in Hy. destruct Hy as [Hy|Hy]; [left|right]; now exists y.
  - apply in_flat_map.
  - split; [intros Hs; exists e; cbn; tauto|intros (y & [<-|[]] & Hs); exact Hs].
  - rewrite in_app_iff. split.
    + intros [Hs|Hs]; [exists l|exists r]; cbn; tauto.
    + intros (y & [<-|[<-|[]]] & Hs); tauto.
  - split; [intros []|intros (y & [] & _)].
  - split; [intros []|intros (y & [] & _)].
  - split; [intros []|intros (y & [] & _)].
  - rewrite in_flat_map. split.
    + intros (c & Hc & Hs). apply in_flat_map in Hs. destruct Hs as (y & Hy & Hs).
      exists y. split; [|exact Hs]. apply in_concat. now exists c.
    + intros (y & Hy & Hs). apply in_concat in Hy. destruct Hy as (c & Hc & Hy).
      exists c. split; [exact Hc|]. apply in_flat_map. now exists y.
Qed.

Lemma unless_known_in t s : In s (unless_known known t) <-> s = t /\ known t = false.
Proof. unfold unless_known. destruct (known t); cbn [In]; intuition congruence. Qed.

(** The own name of a reference. *)
Definition own (r : node) : list bytes :=
  match r with
  | AttrS a s => if is_ordinary_attribute a then unless_known known s else []
  | AttrV a v =>
      if is_ordinary_attribute a
      then match value v with
           | None => []
           | Some t => match try_get_symbol_name t with None => [] | Some s => unless_known known s end
           end
      else []
  | _ => []
  end.
Lemma own_iff r s : In s (own r) <-> needs value r s /\ known s = false.
Proof.
  split.
  - destruct r; try (intros []); cbn [own].
    + destruct (is_ordinary_attribute a) eqn:O; [|intros []]. intros Hs.
      apply unless_known_in in Hs. destruct Hs as [-> K]. split; [|exact K].
      constructor. now apply depends_iff.
    + destruct (is_ordinary_attribute a) eqn:O; [|intros []].
      destruct (value r) as [t|] eqn:V; [|intros []].
      destruct (try_get_symbol_name t) as [x|] eqn:T; [|intros []]. intros Hs.
      apply unless_known_in in Hs. destruct Hs as [-> K]. split; [|exact K].
      apply name_iff in T. destruct T as [T1 T2]. econstructor; eauto. now apply depends_iff.
  - intros [N K]. destruct N as [a s D|a v t s D V T F]; cbn [own].
    + rewrite (proj2 (depends_iff a) D). now apply unless_known_in.
    + rewrite (proj2 (depends_iff a) D), V, (proj2 (name_iff t s) (conj T F)). now apply unless_known_in.
Qed.
Lemma undefined_attr r : attribute r = true ->
  undefined r = match flat_map undefined (inner r) with [] => own r | u => u end.
Proof.
  destruct r; try discriminate; intros _; cbn [Und_Model.undefined inner flat_map own].
  - reflexivity.
  - rewrite app_nil_r. reflexivity.
Qed.
Lemma inner_parts r : attribute r = true -> inner r = parts r.
Proof. destruct r; try discriminate; reflexivity. Qed.
Lemma needs_attribute r s : needs value r s -> attribute r = true.
Proof. now intros []. Qed.

Lemma undefined_within x n : regular n -> within x n -> incl (undefined x) (undefined n).
Proof.
  intros R W. induction W as [|y z Hy W IH]; [apply incl_refl|].
  specialize (IH (regular_part _ _ R Hy)). intros s Hs. apply IH in Hs.
  destruct (attribute z) eqn:A.
  - rewrite (undefined_attr z A). rewrite (inner_parts z A).
    assert (Q : In s (flat_map undefined (parts z))) by (apply in_flat_map; now exists y).
    destruct (flat_map undefined (parts z)); [destruct Q|exact Q].
  - apply (undefined_parts z s R A). now exists y.
Qed.

Definition unresolved (r : node) (s : bytes) : Prop := needs value r s /\ known s = false.

(** Soundness: a reference of the term needs it, and what stands in its variable symbol is known. *)
Lemma undefined_sound n s : regular n -> In s (undefined n) ->
  exists r, within r n /\ unresolved r s /\ flat_map undefined (inner r) = [].
Proof.
  revert n s. apply (parts_ind_in (fun n => forall s, regular n -> In s (undefined n) ->
    exists r, within r n /\ unresolved r s /\ flat_map undefined (inner r) = [])).
  intros n IH s R Hs. destruct (attribute n) eqn:A.
  - rewrite (undefined_attr n A) in Hs.
    destruct (flat_map undefined (inner n)) as [|u us] eqn:E.
    + exists n. split; [constructor|]. split; [now apply own_iff|exact E].
    + rewrite <- E in Hs. apply in_flat_map in Hs. destruct Hs as (y & Hy & Hs).
      rewrite (inner_parts n A) in Hy.
      destruct (IH y Hy s (regular_part _ _ R Hy) Hs) as (r & W & U).
      exists r. split; [exact (W_part _ y n Hy W)|exact U].
  - apply (undefined_parts n s R A) in Hs. destruct Hs as (y & Hy & Hs).
    destruct (IH y Hy s (regular_part _ _ R Hy) Hs) as (r & W & U).
    exists r. split; [exact (W_part _ y n Hy W)|exact U].
Qed.
Lemma undefined_complete n r s : regular n -> within r n -> unresolved r s ->
  flat_map undefined (inner r) = [] -> In s (undefined n).
Proof.
  intros R W U E. apply (undefined_within r n R W).
  rewrite (undefined_attr r (needs_attribute _ _ (proj1 U))), E. now apply own_iff.
Qed.
Lemma undefined_nil n : regular n ->
  undefined n = [] <-> forall r s, within r n -> ~ unresolved r s.
Proof.
  intros R. split.
  - intros E r s W U. assert (A := needs_attribute _ _ (proj1 U)).
    assert (I0 := undefined_within r n R W). rewrite E in I0.
    assert (E' : undefined r = []) by (now apply incl_l_nil).
    rewrite (undefined_attr r A) in E'. destruct (flat_map undefined (inner r)) eqn:F; [|discriminate].
    apply own_iff in U. rewrite E' in U. destruct U.
  - intros Hn. destruct (undefined n) as [|s l] eqn:E; [reflexivity|].
    destruct (undefined_sound n s R) as (r & W & U & _); [rewrite E; now left|].
    destruct (Hn r s W U).
Qed.

(** ** Lists of terms *)
Lemma list_sound l s : Forall regular l -> In s (flat_map undefined l) ->
  exists r, refers l r /\ unresolved r s /\ flat_map undefined (inner r) = [].
Proof.
  intros R Hs. apply in_flat_map in Hs. destruct Hs as (n & Hn & Hs).
  rewrite Forall_forall in R. destruct (undefined_sound n s (R n Hn) Hs) as (r & W & U).
  exists r. split; [|exact U]. now exists n.
Qed.
Lemma list_complete l r s : Forall regular l -> refers l r -> unresolved r s ->
  flat_map undefined (inner r) = [] -> In s (flat_map undefined l).
Proof.
  intros R (n & Hn & W) U E. rewrite Forall_forall in R. apply in_flat_map. exists n. split; [exact Hn|].
  exact (undefined_complete n r s (R n Hn) W U E).
Qed.
Lemma list_nil l : Forall regular l ->
  flat_map undefined l = [] <-> forall r s, refers l r -> ~ unresolved r s.
Proof.
  intros R. rewrite Forall_forall in R. split.
  - intros E r s (n & Hn & W). apply (undefined_nil n (R n Hn)); [|exact W].
    apply incl_l_nil. rewrite <- E. intros x Hx. apply in_flat_map. now exists n.
  - intros H. destruct (flat_map undefined l) as [|s u] eqn:E; [reflexivity|].
    assert (Hs : In s (flat_map undefined l)) by (rewrite E; now left).
    apply list_sound in Hs; [|now apply Forall_forall]. destruct Hs as (r & W & U & _). destruct (H r s W U).
Qed.

(** ** Statements *)
Lemma instruction_undefined s :
  process_instruction known value (instr s) = flat_map undefined (instruction_terms s).
Proof. unfold process_instruction, instruction_terms. now destruct (instr s). Qed.
Lemma operands_undefined l x :
  In x (process_operands known value l) <-> In x (flat_map undefined (concat (map operand_terms l))).
Proof.
  unfold process_operands. rewrite !in_flat_map. split.
  - intros (o & Ho & Hx).
    assert (Q : In x (flat_map undefined (operand_terms o))).
    { destruct o as [c|c|[v|e| |e]|]; cbn [process_operand ca_undefined operand_terms flat_map] in *;
        rewrite ?app_nil_r; exact Hx. }
    apply in_flat_map in Q. destruct Q as (y & Hy & Q). exists y. split; [|exact Q].
    apply in_concat. exists (operand_terms o). split; [|exact Hy]. now apply in_map.
  - intros (y & Hy & Hx). apply in_concat in Hy. destruct Hy as (c & Hc & Hy).
    apply in_map_iff in Hc. destruct Hc as (o & <- & Ho). exists o. split; [exact Ho|].
    assert (Q : In x (flat_map undefined (operand_terms o))) by (apply in_flat_map; now exists y).
    destruct o as [c|c|[v|e| |e]|]; cbn [process_operand ca_undefined operand_terms flat_map] in *;
      rewrite ?app_nil_r in Q; exact Q.
Qed.
Lemma statement_undefined s x :
  In x ((if deferred s then [] else process_operands known value (operands s)) ++
        process_label known value (lab s)) <->
  In x (flat_map undefined (other_terms s)).
Proof.
  unfold other_terms. rewrite flat_map_app, !in_app_iff.
  assert (L : In x (process_label known value (lab s)) <->
    In x (flat_map undefined match lab s with LConc c => c | LVar v => [v] | LOther => [] end)).
  { destruct (lab s); cbn [process_label flat_map]; rewrite ?app_nil_r; reflexivity. }
  rewrite <- L. destruct (deferred s); [cbn [flat_map In]; tauto|].
  rewrite operands_undefined. tauto.
Qed.
Lemma same_nil (a b : list bytes) : (forall x, In x a <-> In x b) -> a = [] <-> b = [].
Proof.
  intros H. split; intros ->; apply incl_l_nil; intros x Hx; now apply H.
Qed.

Lemma read_process s :
  read known value s = Process <-> flat_map undefined (terms s) = [].
Proof.
  unfold read, trigger_instruction, trigger_statement, terms.
  rewrite instruction_undefined, flat_map_app.
  assert (Q := same_nil _ _ (statement_undefined s)).
  destruct (flat_map undefined (instruction_terms s)); cbn [app]; [|split; discriminate].
  destruct ((if deferred s then [] else process_operands known value (operands s)) ++
    process_label known value (lab s)).
  - tauto.
  - split; [discriminate|]. intros E. apply Q in E. discriminate.
Qed.
Lemma read_lookahead s l : read known value s = Lookahead l ->
  l <> [] /\
  forall x, In x l <->
    (In x (flat_map undefined (instruction_terms s)) \/
     (flat_map undefined (instruction_terms s) = [] /\ In x (flat_map undefined (other_terms s)))).
Proof.
  unfold read, trigger_instruction, trigger_statement. rewrite instruction_undefined.
  destruct (flat_map undefined (instruction_terms s)) as [|u us].
  - assert (Q := statement_undefined s).
    destruct ((if deferred s then [] else process_operands known value (operands s)) ++
      process_label known value (lab s)); [discriminate|].
    intros [= <-]. split; [discriminate|]. intros x. rewrite (Q x). cbn [In]. tauto.
  - intros [= <-]. split; [discriminate|]. intros x.
    split; [tauto|]. intros [E|[E _]]; [exact E|discriminate].
Qed.
End Undef.

(** ** Rounds *)
Lemma mem_iff s k : mem s k = true <-> In s k.
Proof.
  unfold mem. rewrite existsb_exists. split.
  - intros (x & Hx & E). apply bytes_eqb_eq in E. now subst.
  - intros H. exists s. split; [exact H|]. now apply bytes_eqb_eq.
Qed.
Lemma mem_false s k : mem s k = false <-> ~ In s k.
Proof. rewrite <- mem_iff. destruct (mem s k); intuition congruence. Qed.

Lemma list_max_in l n : In n l -> n <= list_max l.
Proof.
  intros H. induction l as [|m l IH]; [destruct H|]. cbn [list_max fold_right].
  fold (list_max l). destruct H as [->|H]; [lia|]. specialize (IH H). lia.
Qed.
Lemma nest_part y n : In y (parts n) -> nest y <= nest n /\ (attribute n = true -> S (nest y) <= nest n).
Proof.
  assert (M : forall l, In y l -> nest y <= list_max (map nest l)).
  { intros l H. apply list_max_in. now apply in_map. }
  assert (O : forall o, In y (opt o) -> nest y <= match o with Some e => nest e | None => 0 end).
  { intros [e|]; cbn [opt In]; [intros [->|[]]; lia|intros []]. }
  destruct n; cbn [parts nest attribute]; try (intros []; fail); try (intros H; split; [|discriminate]).
  - apply in_app_iff in H. destruct H as [H|H]; apply M in H; lia.
  - rewrite !in_app_iff in H. destruct H as [H|[H|H]]; apply O in H; lia.
  - intros [->|[]]. lia.
  - apply in_app_iff in H. destruct H as [H|H]; [apply M in H|apply O in H]; lia.
  - now apply M.
  - destruct H as [->|[]]. lia.
  - destruct H as [->|[->|[]]]; lia.
  - apply in_concat in H. destruct H as (c & Hc & H). apply M in H.
    assert (list_max (map nest c) <= list_max (map (fun c => list_max (map nest c)) l)); [|lia].
    apply list_max_in. apply in_map_iff. now exists c.
Qed.

Section Rounds.
Variable value : list bytes -> node -> option bytes.
Notation undef k := (undefined (fun n => mem n k) (value k)).
Hypothesis Hs : settled value.

Lemma settled_nil k k' v : regular v -> incl k k' -> undef k v = [] -> value k' v = value k v.
Proof.
  intros R I0 E. apply Hs; [exact R|exact I0|]. intros r s W N.
  destruct (mem s k) eqn:M; [now apply mem_iff|].
  exfalso. apply (proj1 (undefined_nil (fun n => mem n k) (value k) v R) E r s W). now split.
Qed.

Lemma all_parts_nil k n : regular n -> attribute n = false ->
  (forall y, In y (parts n) -> undef k y = []) -> undef k n = [].
Proof.
  intros R A H. apply incl_l_nil. intros s Hin.
  apply (undefined_parts (fun n => mem n k) (value k) n s R A) in Hin. destruct Hin as (y & Hy & Hin).
  rewrite (H y Hy) in Hin. destruct Hin.
Qed.
Lemma inner_nil k n : attribute n = true ->
  (forall y, In y (parts n) -> undef k y = []) -> undef k n = own (fun n => mem n k) (value k) n.
Proof.
  intros A H. rewrite (undefined_attr _ _ n A). rewrite (inner_parts n A).
  destruct (flat_map (undef k) (parts n)) as [|s u] eqn:E; [reflexivity|].
  assert (Q : In s (flat_map (undef k) (parts n))) by (rewrite E; now left).
  apply in_flat_map in Q. destruct Q as (y & Hy & Q). rewrite (H y Hy) in Q. destruct Q.
Qed.
Lemma own_stays k k' n : regular n -> attribute n = true -> incl k k' ->
  (forall y, In y (parts n) -> undef k y = []) ->
  incl (own (fun n => mem n k) (value k) n) k' -> own (fun n => mem n k') (value k') n = [].
Proof.
  intros R A I0 P J. apply incl_l_nil. intros s H. apply own_iff in H. destruct H as [N K].
  apply mem_false in K. exfalso. apply K.
  assert (N' : needs (value k) n s).
  { destruct N as [a s D|a v t s D V T F].
    - now constructor.
    - econstructor; eauto. rewrite <- V. symmetry. apply settled_nil; [|exact I0|apply P; now left].
      apply (regular_part v (AttrV a v) R). now left. }
  destruct (mem s k) eqn:M.
  - apply I0. now apply mem_iff.
  - apply J. apply own_iff. now split.
Qed.

Lemma keep k k' : incl k k' -> forall n, regular n -> undef k n = [] -> undef k' n = [].
Proof.
  intros I0.
  apply (parts_ind_in (fun n => regular n -> undef k n = [] -> undef k' n = [])).
  intros n IH R E.
  assert (P : forall y, In y (parts n) -> undef k y = []).
  { intros y Hy. apply incl_l_nil. rewrite <- E.
    apply undefined_within; [exact R|now apply within_part]. }
  assert (P' : forall y, In y (parts n) -> undef k' y = []).
  { intros y Hy. apply IH; [exact Hy|exact (regular_part _ _ R Hy)|now apply P]. }
  destruct (attribute n) eqn:A.
  - rewrite (inner_nil k' n A P'). apply (own_stays k k' n R A I0 P).
    rewrite <- (inner_nil k n A P), E. intros x [].
  - now apply all_parts_nil.
Qed.

Definition level (i : nat) (k : list bytes) (l : list node) : Prop :=
  forall x, refers l x -> nest x <= i -> undef k x = [].

Lemma refers_part l x y : refers l x -> In y (parts x) -> refers l y.
Proof.
  intros (n & Hn & W) Hy. exists n. split; [exact Hn|].
  exact (within_trans _ _ _ (within_part _ _ Hy) W).
Qed.
Lemma refers_regular l x : Forall regular l -> refers l x -> regular x.
Proof.
  intros R (n & Hn & W). rewrite Forall_forall in R. exact (regular_within x n (R n Hn) W).
Qed.
Lemma level_0 k l : Forall regular l -> level 0 k l.
Proof.
  intros R. refine (parts_ind_in (fun x => refers l x -> nest x <= 0 -> undef k x = []) _).
  intros n IH Hr Hn. assert (A : attribute n = false).
  { destruct n; try reflexivity; cbn [nest] in Hn; lia. }
  apply all_parts_nil; [exact (refers_regular _ _ R Hr)|exact A|].
  intros y Hy. apply IH; [exact Hy|exact (refers_part _ _ _ Hr Hy)|].
  destruct (nest_part y n Hy) as [H _]. lia.
Qed.
Lemma level_keep i k k' l : Forall regular l -> incl k k' -> level i k l -> level i k' l.
Proof.
  intros R I0 L x Hr Hn. apply (keep k k' I0); [exact (refers_regular _ _ R Hr)|now apply L].
Qed.
Lemma level_step i k k' l : Forall regular l -> incl k k' -> incl (flat_map (undef k) l) k' ->
  level i k l -> level (S i) k' l.
Proof.
  intros R I0 J L.
  refine (parts_ind_in (fun x => refers l x -> nest x <= S i -> undef k' x = []) _).
  intros n IH Hr Hn. assert (Rn := refers_regular _ _ R Hr).
  assert (P' : forall y, In y (parts n) -> undef k' y = []).
  { intros y Hy. apply IH; [exact Hy|exact (refers_part _ _ _ Hr Hy)|].
    destruct (nest_part y n Hy) as [H _]. lia. }
  destruct (attribute n) eqn:A; [|now apply all_parts_nil].
  assert (P : forall y, In y (parts n) -> undef k y = []).
  { intros y Hy. apply L; [exact (refers_part _ _ _ Hr Hy)|].
    destruct (nest_part y n Hy) as [_ H]. specialize (H A). lia. }
  rewrite (inner_nil k' n A P'). apply (own_stays k k' n Rn A I0 P).
  rewrite <- (inner_nil k n A P). intros s Hin. apply J.
  destruct Hr as (m & Hm & W). apply in_flat_map. exists m. split; [exact Hm|].
  rewrite Forall_forall in R. exact (undefined_within _ _ n m (R m Hm) W s Hin).
Qed.
Lemma level_full k l : level (deepest l) k l -> flat_map (undef k) l = [].
Proof.
  intros L. apply incl_l_nil. intros s H. apply in_flat_map in H. destruct H as (n & Hn & H).
  rewrite (L n) in H; [destruct H| |].
  - exists n. split; [exact Hn|constructor].
  - apply list_max_in. now apply in_map.
Qed.
Lemma level_le i j k l : i <= j -> level j k l -> level i k l.
Proof. intros H L x Hr Hn. apply L; [exact Hr|lia]. Qed.

(** [i] rounds for the instruction field and [j] for the others have been made. *)
Lemma rounds_end s : Forall regular (terms s) -> forall f k i j,
  level i k (instruction_terms s) -> level j k (other_terms s) ->
  deepest (instruction_terms s) - i + (deepest (other_terms s) - j) <= f ->
  exists c k', rounds value f k s = Some (c, k') /\ c <= f /\ incl k k' /\
    flat_map (undef k') (terms s) = [].
Proof.
  intros R. assert (R' := R). unfold terms in R'. apply Forall_app in R'. destruct R' as [R1 R2].
  intros f. induction f as [|f IH]; intros k i j Li Lj Hf.
  - assert (E1 : flat_map (undef k) (instruction_terms s) = []).
    { apply level_full. apply (level_le _ i); [lia|exact Li]. }
    assert (E2 : flat_map (undef k) (other_terms s) = []).
    { apply level_full. apply (level_le _ j); [lia|exact Lj]. }
    assert (E : flat_map (undef k) (terms s) = []).
    { unfold terms. now rewrite flat_map_app, E1, E2. }
    exists 0, k. cbn [rounds]. rewrite (proj2 (read_process _ _ s) E).
    repeat split; [lia|apply incl_refl|exact E].
  - cbn [rounds]. destruct (read (fun n => mem n k) (value k) s) as [l|] eqn:Er.
    + assert (I0 : incl k (l ++ k)) by (apply incl_appr, incl_refl).
      destruct (read_lookahead _ _ s l Er) as [Nl Hl].
      assert (X : exists c k', rounds value f (l ++ k) s = Some (c, k') /\ c <= f /\ incl (l ++ k) k' /\
                    flat_map (undef k') (terms s) = []).
      { destruct (flat_map (undef k) (instruction_terms s)) as [|u us] eqn:E.
        - (* the other fields *)
          destruct (Nat.le_gt_cases (deepest (other_terms s)) j) as [Hj|Hj].
          + exfalso. apply Nl. apply incl_l_nil. intros x Hx. apply Hl in Hx.
            rewrite (level_full k (other_terms s)) in Hx; [|apply (level_le _ j); [exact Hj|exact Lj]].
            destruct Hx as [[]|[_ []]].
          + apply (IH (l ++ k) i (S j)).
            * now apply (level_keep i k).
            * apply (level_step j k); [exact R2|exact I0| |exact Lj].
              intros x Hx. apply in_app_iff. left. apply Hl. right. now split.
            * lia.
        - destruct (Nat.le_gt_cases (deepest (instruction_terms s)) i) as [Hi|Hi].
          + exfalso. rewrite (level_full k (instruction_terms s)) in E; [discriminate|].
            apply (level_le _ i); [exact Hi|exact Li].
          + apply (IH (l ++ k) (S i) j).
            * apply (level_step i k); [exact R1|exact I0| |exact Li].
              intros x Hx. rewrite E in Hx. apply in_app_iff. left. apply Hl. now left.
            * now apply (level_keep j k).
            * lia. }
      destruct X as (c & k' & Ec & Hc & Hi & Hu). exists (S c), k'. rewrite Ec.
      repeat split; [lia| |exact Hu]. intros x Hx. apply Hi, I0, Hx.
    + exists 0, k. repeat split; [lia|apply incl_refl|]. now apply read_process in Er.
Qed.
End Rounds.
