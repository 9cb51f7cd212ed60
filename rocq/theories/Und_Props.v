(** Property C107: what a statement's attribute references make the analyser look for. *)
From Coq Require Import String List NArith Bool Arith Lia.
From Verif Require Import Common Und_Model Und_Spec Und_Proof.
Import ListNotations.
Open Scope string_scope.
Open Scope list_scope.
Open Scope nat_scope.

Section Props.
Variable known : bytes -> bool.
Variable value : node -> option bytes.

(** The symbol of every reference in the statement, outside the texts of strings, is known when
    the statement is processed, and a statement of which this is true is processed at once. *)
Theorem C107_processed : forall s, Forall regular (terms s) ->
  read known value s = Process <->
  forall r x, refers (terms s) r -> needs value r x -> known x = true.
Proof.
  intros s R. rewrite read_process, (list_nil known value (terms s) R). unfold unresolved. split.
  - intros H r x Hr N. specialize (H r x Hr). destruct (known x); [reflexivity|].
    exfalso. apply H. now split.
  - intros H r x Hr [N K]. rewrite (H r x Hr N) in K. discriminate.
Qed.

(** Exactly the unknown symbols of references are looked for, of the instruction field first; a
    reference to a variable symbol waits for the references in the variable symbol. *)
Definition ready (r : node) : Prop :=
  forall v r' x, In v (inner r) -> within r' v -> needs value r' x -> known x = true.
Definition asked (l : list node) (x : bytes) : Prop :=
  exists r, refers l r /\ needs value r x /\ known x = false /\ ready r.
Lemma ready_iff l r : Forall regular l -> refers l r ->
  flat_map (undefined known value) (inner r) = [] <-> ready r.
Proof.
  intros R Hr.
  assert (Ri : Forall regular (inner r)).
  { destruct r; try constructor; [|constructor].
    apply (regular_part r (AttrV a r)); [exact (refers_regular l _ R Hr)|now left]. }
  rewrite (list_nil known value _ Ri). unfold ready, refers, unresolved. split.
  - intros H v r' x Hv W N. specialize (H r' x (ex_intro _ v (conj Hv W))).
    destruct (known x); [reflexivity|]. exfalso. apply H. now split.
  - intros H r' x (v & Hv & W) [N K]. rewrite (H v r' x Hv W N) in K. discriminate.
Qed.
Lemma asked_iff l x : Forall regular l -> In x (flat_map (undefined known value) l) <-> asked l x.
Proof.
  intros R. split.
  - intros H. destruct (list_sound known value l x R H) as (r & Hr & [N K] & E).
    exists r. repeat split; try assumption. now apply (ready_iff l).
  - intros (r & Hr & N & K & E). apply (list_complete known value l r x R Hr (conj N K)).
    now apply (ready_iff l).
Qed.
Theorem C107_lookahead : forall s l, Forall regular (terms s) ->
  read known value s = Lookahead l ->
  l <> [] /\
  (forall x, In x l -> known x = false) /\
  ((exists x, asked (instruction_terms s) x) -> forall x, In x l <-> asked (instruction_terms s) x) /\
  (~ (exists x, asked (instruction_terms s) x) -> forall x, In x l <-> asked (other_terms s) x).
Proof.
  intros s l R H. unfold terms in R. apply Forall_app in R. destruct R as [R1 R2].
  destruct (read_lookahead known value s l H) as [Nl Hl]. split; [exact Nl|]. split.
  - intros x Hx. apply Hl in Hx. rewrite !asked_iff in Hx by assumption.
    destruct Hx as [(r & _ & _ & K & _)|[_ (r & _ & _ & K & _)]]; exact K.
  - split.
    + intros [y Hy] x. rewrite Hl, (asked_iff _ x R1). split; [|tauto].
      intros [A|[E _]]; [exact A|]. apply asked_iff in Hy; [|exact R1]. rewrite E in Hy. destruct Hy.
    + intros Hn x. rewrite Hl, (asked_iff _ x R2).
      assert (E : flat_map (undefined known value) (instruction_terms s) = []).
      { apply incl_l_nil. intros y Hy. exfalso. apply Hn. exists y. now apply asked_iff. }
      rewrite E. cbn [In]. tauto.
Qed.
(** A lookahead is never started without an unknown symbol: the search for one cannot repeat. *)
Theorem C107_needed : forall s l, Forall regular (terms s) ->
  read known value s = Lookahead l ->
  exists r x, refers (terms s) r /\ needs value r x /\ known x = false.
Proof.
  intros s l R H. destruct (C107_lookahead s l R H) as (_ & _ & H1 & H2).
  destruct (read known value s) eqn:E; [|discriminate].
  assert (X : ~ (forall r x, refers (terms s) r -> needs value r x -> known x = true)).
  { intros A. apply (C107_processed s R) in A. congruence. }
  destruct (flat_map (undefined known value) (terms s)) as [|x u] eqn:F.
  - apply read_process in F. congruence.
  - destruct (list_sound known value (terms s) x R) as (r & Hr & [N K] & _); [rewrite F; now left|].
    now exists r, x.
Qed.
End Props.
Print Assumptions C107_processed.
Print Assumptions C107_lookahead.
Print Assumptions C107_needed.

(** A statement is read again after each lookahead.  It is processed after at most as many
    lookaheads as references stand in the variable symbols of each other, and all of them are
    about known symbols then. *)
Theorem C107_rounds : forall value s k, Forall regular (terms s) -> settled value ->
  exists c k',
    rounds value (deepest (instruction_terms s) + deepest (other_terms s)) k s = Some (c, k') /\
    c <= deepest (instruction_terms s) + deepest (other_terms s) /\ incl k k' /\
    forall r x, refers (terms s) r -> needs (value k') r x -> In x k'.
Proof.
  intros value s k R Hs. assert (R' := R). unfold terms in R'. apply Forall_app in R'. destruct R' as [R1 R2].
  destruct (rounds_end value Hs s R (deepest (instruction_terms s) + deepest (other_terms s)) k 0 0)
    as (c & k' & E & Hc & I0 & U).
  - now apply level_0.
  - now apply level_0.
  - lia.
  - exists c, k'. repeat split; try assumption. intros r x Hr N.
    apply (list_nil _ _ (terms s) R) with (r := r) (s := x) in U; [|exact Hr].
    destruct (mem x k') eqn:M; [now apply mem_iff|]. exfalso. apply U. now split.
Qed.
Print Assumptions C107_rounds.

(** More fuel changes nothing. *)
Theorem C107_rounds_unique : forall value s f g k c k',
  f <= g -> rounds value f k s = Some (c, k') -> rounds value g k s = Some (c, k').
Proof.
  intros value s f. induction f as [|f IH]; intros g k c k' Hg H.
  - destruct g; cbn [rounds] in *; destruct (read _ _ s); try discriminate; exact H.
  - destruct g as [|g]; [lia|]. cbn [rounds] in *. destruct (read _ _ s) as [l|]; [|exact H].
    destruct (rounds value f (l ++ k) s) as [[c1 k1]|] eqn:E; [|discriminate].
    rewrite (IH g (l ++ k) c1 k1); [exact H|lia|exact E].
Qed.
Print Assumptions C107_rounds_unique.

(** ** Concrete cases *)
(** [&A(L'&B(T'X)) ...]: X first, then the symbol that B(..) stands for. *)
Definition b_of : node := Var (Some (s2b "B")) [] [AttrS AT (s2b "X")].
Definition line : statement :=
  mkS IOther (LVar (Var (Some (s2b "A")) [] [AttrV AL b_of])) false
    [OCa (CExpr (Bin Const (AttrS AL (s2b "Y")))); OOther].
Definition texts (k : list bytes) (v : node) : option bytes :=
  match v with
  | Var _ _ [AttrS AT x] => if mem x k then Some (s2b "field") else Some (s2b "other")
  | _ => None
  end.
Example texts_settled : settled texts.
Proof.
  intros k k' v R I0 H. destruct v as [|nm|b c [|[| | | |a x| | | | | | | | | ] [|z r]]|v d st ct|a x|a v|ps d|l|e|l r|t| | |l];
    try reflexivity; destruct a; try reflexivity; cbn [texts].
  assert (K : In x k).
  { apply (H (AttrS AT x) x); [apply within_part; cbn [parts]; apply in_app_iff; right; now left|].
    constructor. unfold depends. tauto. }
  rewrite (proj2 (mem_iff x k) K), (proj2 (mem_iff x k') (I0 x K)). reflexivity.
Qed.
Lemma regular_node n : (forall y, In y (parts n) -> regular y) ->
  (forall b c s, n = Var b c s ->
     Forall (fun p => (exists t, p = Text t) \/ p = Dot \/ exists b c s, p = Var b c s) c) ->
  (forall a v, n = AttrV a v -> exists b c s, v = Var b c s) -> regular n.
Proof.
  intros P V A x W. destruct W as [|y z Hy W]; [now split|]. now apply (P y Hy).
Qed.
Ltac reg := apply regular_node;
  [cbn; intros ? HH; repeat (destruct HH as [<-|HH]); try destruct HH; try reg
  |intros ? ? ? EE; try discriminate EE; injection EE; intros; subst; repeat constructor
  |intros ? ? EE; try discriminate EE; injection EE; intros; subst; unfold b_of; eauto].
Example line_regular : Forall regular (terms line).
Proof. cbn. constructor; [unfold b_of; reg|]. constructor; [reg|constructor]. Qed.
Example first_round :
  read (fun n => mem n []) (texts []) line = Lookahead [s2b "Y"; s2b "X"].
Proof. vm_compute. reflexivity. Qed.
Example two_rounds :
  rounds texts 2 [] line = Some (2, [s2b "FIELD"; s2b "Y"; s2b "X"]) /\
  deepest (instruction_terms line) + deepest (other_terms line) = 2 /\ rounds texts 1 [] line = None.
Proof. repeat split; vm_compute; reflexivity. Qed.

(** ** Findings *)
(** Not true of references in the subscripts of variable symbols in the text of a string:
    [&C SETC '&A(L'X)'] is processed although nobody has looked for X. *)
Definition string_line : statement :=
  mkS IOther LOther false
    [OCa (CExpr (Str [Var (Some (s2b "A")) [] [AttrS AL (s2b "X")]] None None None))].
Theorem C107_string_refuted :
  exists s, Forall regular (terms s) /\
    exists n r x, In n (terms s) /\ anywhere r n /\ (forall value, needs value r x) /\
      forall known value, known x = false -> read known value s = Process.
Proof.
  exists string_line. split.
  - constructor; [reg|constructor].
  - exists (Str [Var (Some (s2b "A")) [] [AttrS AL (s2b "X")]] None None None),
      (AttrS AL (s2b "X")), (s2b "X").
    split; [now left|]. split.
    + apply A_part with (Var (Some (s2b "A")) [] [AttrS AL (s2b "X")]); [cbn; tauto|].
      apply A_part with (AttrS AL (s2b "X")); [cbn; tauto|]. constructor.
    + split; [intros v; constructor; unfold depends; tauto|]. reflexivity.
Qed.
Print Assumptions C107_string_refuted.
