(** References: the invariant of the table and what an answer leads to. *)
From Coq Require Import String.
From Coq Require Import List NArith ZArith Bool Arith Lia.
From Coq Require Import ZifyBool ZifyNat ZifyN.
From Verif Require Import Common Var_Model Sub_Model Attr_Model Dvar_Model Dvar_Spec.
Import ListNotations.
Open Scope N_scope.

Definition content (d : dbg) (r : N) : option (list dvar) := option_map (List.map fst) (find_ref r (stored d)).
(** An entry of the table: what its reference, if there is one, leads to. *)
Definition good (d : dbg) (x : dvar * N) : Prop :=
  (dscalar (fst x) = true -> snd x = 0) /\
  (snd x = 0 \/ exists vs, dvalues (fst x) = Some vs /\ content d (snd x) = Some vs).
Record Inv (d : dbg) : Prop := {
  inv_next : 1 <= next_ref d;
  inv_range : forall r l, find_ref r (stored d) = Some l -> 1 <= r < next_ref d;
  inv_good : forall r l x, find_ref r (stored d) = Some l -> In x l -> good d x }.

Lemma content_range d r vs : Inv d -> content d r = Some vs -> 1 <= r < next_ref d.
Proof.
  intros HI H. unfold content in H. destruct (find_ref r (stored d)) eqn:E; [|easy]. exact (inv_range d HI _ _ E).
Qed.
(** [extends d d']: [d'] has all [d] has. *)
Definition extends (d d' : dbg) : Prop :=
  next_ref d <= next_ref d' /\ proc_stack d' = proc_stack d /\ symbols_ d' = symbols_ d /\ ended d' = ended d /\
  (forall r vs, content d r = Some vs -> content d' r = Some vs) /\
  (forall r vs, content d' r = Some vs -> content d r = Some vs \/ next_ref d <= r).
Lemma extends_refl d : extends d d.
Proof. repeat split; auto; lia. Qed.
Lemma extends_trans a b c : extends a b -> extends b c -> extends a c.
Proof.
  intros (A1 & A2 & A3 & A4 & A5 & A6) (B1 & B2 & B3 & B4 & B5 & B6).
  repeat split; try congruence; [lia|auto|]. intros r vs H. destruct (B6 _ _ H) as [K|K]; [|right; lia]. auto.
Qed.
Lemma good_extends d d' x : extends d d' -> good d x -> good d' x.
Proof.
  intros (_ & _ & _ & _ & E & _) (A & B). split; [exact A|]. destruct B as [B|(vs & V & C)]; [now left|right].
  exists vs. auto.
Qed.

Lemma add_ok vs d : Inv d -> let (r, d') := add_variable vs d in
  Inv d' /\ extends d d' /\ r = next_ref d /\ next_ref d' = r + 1 /\ content d' r = Some vs /\
  find_ref r (stored d') = Some (List.map (fun v => (v, 0)) vs) /\
  (forall k, k <> r -> find_ref k (stored d') = find_ref k (stored d)).
Proof.
  intros HI. unfold add_variable.
  set (d' := {| stored := _; next_ref := _; proc_stack := _; symbols_ := _; ended := _ |}).
  assert (F : find_ref (next_ref d) (stored d') = Some (List.map (fun v => (v, 0)) vs)).
  { cbn [stored d' find_ref]. now rewrite N.eqb_refl. }
  assert (O : forall k, k <> next_ref d -> find_ref k (stored d') = find_ref k (stored d)).
  { intros k Hk. cbn [stored d' find_ref]. apply N.eqb_neq in Hk. now rewrite Hk. }
  assert (C : content d' (next_ref d) = Some vs).
  { unfold content. rewrite F. cbn [option_map]. f_equal. rewrite map_map. cbn [fst]. apply map_id. }
  assert (X : extends d d').
  { repeat split; try reflexivity; [cbn; lia| |].
    - intros r ws H. pose proof (content_range _ _ _ HI H). unfold content. rewrite O by lia. exact H.
    - intros r ws H. destruct (N.eq_dec r (next_ref d)) as [->|N]; [right; lia|left]. unfold content in *. now rewrite O in H. }
  split; [|split; [exact X|]; split; [reflexivity|]; split; [reflexivity|]; split; [exact C|]; split; [exact F|exact O]].
  constructor.
  - cbn. pose proof (inv_next d HI). lia.
  - intros r l H. cbn [next_ref d']. destruct (N.eq_dec r (next_ref d)) as [->|N]; [pose proof (inv_next d HI); lia|].
    rewrite O in H by exact N. pose proof (inv_range d HI _ _ H). lia.
  - intros r l x H Hx. destruct (N.eq_dec r (next_ref d)) as [->|N].
    + rewrite F in H. injection H as <-. apply in_map_iff in Hx. destruct Hx as (v & <- & _). split; [reflexivity|now left].
    + rewrite O in H by exact N. eapply good_extends; [exact X|]. exact (inv_good d HI _ _ _ H Hx).
Qed.

(** What [refer] gives to the entries of one list. *)
Lemma refer_ok : forall l d l' d', refer l d = Some (l', d') -> Inv d ->
  (forall x, In x l -> good d x) ->
  Inv d' /\ extends d d' /\ List.map fst l' = List.map fst l /\ (forall x, In x l' -> good d' x) /\
  (forall k, k < next_ref d -> find_ref k (stored d') = find_ref k (stored d)) /\
  (forall x, In x l' -> dscalar (fst x) = false -> next_ref d <= snd x < next_ref d') /\
  NoDup (List.map snd (filter (fun x => negb (dscalar (fst x))) l')).
Proof.
  induction l as [|[v old] l IH]; intros d l' d' H HI G.
  - injection H as <- <-. split; [exact HI|]. split; [apply extends_refl|]. split; [reflexivity|].
    split; [intros x []|]. split; [reflexivity|]. split; [intros x []|constructor].
  - cbn [refer] in H. destruct (dscalar v) eqn:Sc.
    + destruct (refer l d) as [[r d1]|] eqn:E; [|easy]. injection H as <- <-.
      destruct (IH _ _ _ E HI) as (I1 & X & M & Gd & O & K & N); [intros x Hx; apply G; now right|].
      split; [exact I1|]. split; [exact X|]. split; [cbn [List.map fst]; now rewrite M|].
      split. { intros x [<-|Hx]; [|now apply Gd]. eapply good_extends; [exact X|]. apply G. now left. }
      split; [exact O|]. split. { intros x [<-|Hx] Hs; [cbn [fst] in Hs; congruence|now apply K]. }
      cbn [filter fst]. rewrite Sc. exact N.
    + destruct (dvalues v) as [vs|] eqn:V; [|easy]. pose proof (add_ok vs d HI) as A.
      destruct (add_variable vs d) as [n d1]. destruct A as (I1 & X1 & -> & N1 & C1 & F1 & O1).
      destruct (refer l d1) as [[r d2]|] eqn:E; [|easy]. injection H as <- <-.
      destruct (IH _ _ _ E I1) as (I2 & X2 & M & Gd & O & K & N).
      { intros x Hx. eapply good_extends; [exact X1|]. apply G. now right. }
      split; [exact I2|]. split; [exact (extends_trans _ _ _ X1 X2)|]. split; [cbn [List.map fst]; now rewrite M|].
      assert (Nx : next_ref d1 <= next_ref d2) by (destruct X2; assumption).
      split. { intros x [<-|Hx]; [|now apply Gd]. split; [cbn [fst]; congruence|right]. exists vs. split; [exact V|].
        destruct X2 as (_ & _ & _ & _ & X2 & _). now apply X2. }
      split. { intros k Hk. rewrite O by lia. apply O1. lia. }
      split. { intros x [<-|Hx] Hs; [cbn [snd]; lia|]. pose proof (K x Hx Hs). lia. }
      cbn [filter fst]. rewrite Sc. cbn [negb List.map snd]. constructor; [|exact N].
      intros Hin. apply in_map_iff in Hin. destruct Hin as (x & Ex & Hx). apply filter_In in Hx. destruct Hx as (Hx & Hs).
      assert (Hs' : dscalar (fst x) = false) by (destruct (dscalar (fst x)); easy). pose proof (K x Hx Hs'). lia.
Qed.

Lemma put_find {A} r (x : A) : forall l k, find_ref k (put r x l) =
  if (k =? r)%N then option_map (fun _ => x) (find_ref r l) else find_ref k l.
Proof.
  induction l as [|[k' y] l IH]; intros k.
  - cbn. now destruct (k =? r).
  - cbn [put find_ref]. destruct (N.eqb_spec r k') as [->|Nr].
    + cbn [find_ref option_map]. destruct (N.eqb_spec k k'); reflexivity.
    + cbn [find_ref]. fold (@put A r x). rewrite IH. destruct (N.eqb_spec k k') as [->|Nk].
      * destruct (N.eqb_spec k' r); [congruence|reflexivity].
      * destruct (k =? r); reflexivity.
Qed.

(** A request for a reference: the answer is what the reference leads to, each item with its own. *)
Lemma variables_ok ref d l d' : variables ref d = Some (l, d') -> Inv d ->
  Inv d' /\ extends d d' /\ (forall x, In x l -> good d' x) /\
  (ended d = false -> forall vs, content d ref = Some vs -> List.map fst l = vs) /\
  (ended d = true \/ content d ref = None -> l = [] /\ d' = d) /\
  (forall x, In x l -> dscalar (fst x) = false -> next_ref d <= snd x < next_ref d') /\
  NoDup (List.map snd (filter (fun x => negb (dscalar (fst x))) l)).
Proof.
  intros H HI. unfold variables in H.
  assert (Empty : l = [] -> d' = d -> Inv d' /\ extends d d' /\ (forall x, In x l -> good d' x) /\
    (ended d = true \/ content d ref = None -> l = [] /\ d' = d) /\
    (forall x, In x l -> dscalar (fst x) = false -> next_ref d <= snd x < next_ref d') /\
    NoDup (List.map snd (filter (fun x => negb (dscalar (fst x))) l))).
  { intros -> ->. split; [exact HI|]. split; [apply extends_refl|]. split; [intros x []|]. split; [auto|]. split; [intros x []|constructor]. }
  destruct (ended d) eqn:En.
  { injection H as <- <-. destruct (Empty eq_refl eq_refl) as (A & B & C & D & E & F). split; [exact A|]; split; [exact B|]; split; [exact C|]; split; [discriminate|]; split; [exact D|]; split; [exact E|exact F]. }
  unfold content. destruct (find_ref ref (stored d)) as [l0|] eqn:Fr.
  2: { injection H as <- <-. destruct (Empty eq_refl eq_refl) as (A & B & C & D & E & F).
       split; [exact A|]. split; [exact B|]. split; [exact C|]. split; [intros _ vs Hv; discriminate|].
       split; [auto|]. split; [exact E|exact F]. }
  destruct (refer l0 d) as [[l1 d1]|] eqn:R; [|easy]. injection H as <- <-.
  destruct (refer_ok _ _ _ _ R HI) as (I1 & X & M & G & O & K & N).
  { intros x Hx. exact (inv_good d HI _ _ _ Fr Hx). }
  pose proof (inv_range d HI _ _ Fr) as Rg.
  set (d2 := {| stored := _; next_ref := _; proc_stack := _; symbols_ := _; ended := _ |}).
  assert (Fd : find_ref ref (stored d1) = Some l0) by (rewrite O by lia; exact Fr).
  assert (F2 : forall k, find_ref k (stored d2) = if k =? ref then Some l1 else find_ref k (stored d1)).
  { intros k. cbn [stored d2]. rewrite put_find, Fd. reflexivity. }
  assert (C2 : forall k, content d2 k = content d1 k).
  { intros k. unfold content. rewrite F2. destruct (N.eqb_spec k ref) as [->|_]; [|reflexivity].
    rewrite Fd. cbn [option_map]. now rewrite M. }
  assert (X2 : extends d1 d2).
  { split; [cbn; lia|]. split; [reflexivity|]. split; [reflexivity|]. split; [reflexivity|].
    split; intros r vs Hr; rewrite C2 in *; auto. }
  assert (I2 : Inv d2).
  { constructor; [exact (inv_next d1 I1)| |].
    - intros r l Hr. cbn [next_ref d2]. rewrite F2 in Hr. destruct (N.eqb_spec r ref) as [->|_]; [|exact (inv_range d1 I1 _ _ Hr)].
      destruct X as (X & _). lia.
    - intros r l x Hr Hx. rewrite F2 in Hr. eapply good_extends; [exact X2|].
      destruct (N.eqb_spec r ref) as [->|_]; [injection Hr as <-; now apply G|exact (inv_good d1 I1 _ _ _ Hr Hx)]. }
  split; [exact I2|]. split; [exact (extends_trans _ _ _ X X2)|].
  split; [intros x Hx; eapply good_extends; [exact X2|now apply G]|].
  split. { intros _ vs Hv. cbn [option_map] in Hv. injection Hv as <-. exact M. }
  split; [intros [Hx|Hx]; discriminate|]. split; [exact K|exact N].
Qed.

Lemma scopes_ok id d : Inv d -> let (a, d') := scopes id d in Inv d' /\ extends d d' /\
  (forall f, ended d = false -> nth_error (proc_stack d) id = Some f ->
     exists g l o, a = [("Globals"%string, g); ("Locals"%string, l); ("Ordinary symbols"%string, o)] /\
       next_ref d <= g < l /\ l < o < next_ref d' /\
       content d' g = Some (set_vars true (f_scope f) ++ system_vars true (f_scope f)) /\
       content d' l = Some (param_vars (f_scope f) ++ set_vars false (f_scope f) ++ system_vars false (f_scope f)) /\
       content d' o = Some (List.map OrdVar (symbols_ d))) /\
  (ended d = true \/ nth_error (proc_stack d) id = None -> a = [] /\ d' = d).
Proof.
  intros HI. unfold scopes. destruct (ended d) eqn:En.
  { split; [exact HI|]. split; [apply extends_refl|]. split; [discriminate|auto]. }
  destruct (nth_error (proc_stack d) id) as [f|] eqn:Nf.
  2: { split; [exact HI|]. split; [apply extends_refl|]. split; [discriminate|auto]. }
  pose proof (add_ok (set_vars true (f_scope f) ++ system_vars true (f_scope f)) d HI) as A1.
  destruct (add_variable _ d) as [g d1]. destruct A1 as (I1 & X1 & G & N1 & C1 & _).
  pose proof (add_ok (param_vars (f_scope f) ++ set_vars false (f_scope f) ++ system_vars false (f_scope f)) d1 I1) as A2.
  destruct (add_variable _ d1) as [l d2]. destruct A2 as (I2 & X2 & Hl & N2 & C2 & _).
  pose proof (add_ok (List.map OrdVar (symbols_ d)) d2 I2) as A3.
  destruct (add_variable _ d2) as [o d3]. destruct A3 as (I3 & X3 & Ho & N3 & C3 & _).
  split; [exact I3|]. split; [exact (extends_trans _ _ _ X1 (extends_trans _ _ _ X2 X3))|].
  split.
  - intros f' _ Hf. injection Hf as <-. exists g, l, o. split; [reflexivity|]. split; [lia|]. split; [lia|].
    destruct X2 as (_ & _ & _ & _ & X2 & _). destruct X3 as (_ & _ & _ & _ & X3 & _).
    split; [now apply X3, X2|]. split; [now apply X3|exact C3].
  - intros [Hx|Hx]; discriminate.
Qed.

Lemma asked_ok d d' : asked d d' -> Inv d -> Inv d' /\ extends d d'.
Proof.
  intros H HI. destruct H as [id d|ref d l d' H].
  - pose proof (scopes_ok id d HI) as K. destruct (scopes id d) as [a d']. tauto.
  - destruct (variables_ok _ _ _ _ H HI) as (A & B & _). auto.
Qed.
Lemma later_ok d d' : later d d' -> Inv d -> Inv d' /\ extends d d'.
Proof.
  induction 1 as [d|d d' d'' A L IH]; intros HI; [split; [exact HI|apply extends_refl]|].
  destruct (asked_ok _ _ A HI) as (I1 & X1). destruct (IH I1) as (I2 & X2). split; [exact I2|exact (extends_trans _ _ _ X1 X2)].
Qed.
Lemma reach_inv d : reach d -> Inv d.
Proof.
  induction 1 as [|d d' H IH A|fs ys d H IH E|d H IH].
  - constructor; cbn; [lia|easy|easy].
  - exact (proj1 (asked_ok _ _ A IH)).
  - constructor; [exact (inv_next d IH)|easy|easy].
  - destruct IH as [A B C]. constructor; [exact A|exact B|]. intros r l x Hr Hx. exact (C r l x Hr Hx).
Qed.

(** ** Unfolding *)
Inductive descends : dvar -> list bytes -> dvar -> Prop :=
| de_here v : descends v [] v
| de_into v vs x ns y : dscalar v = false -> dvalues v = Some vs -> In x vs -> descends x ns y ->
    descends v (dname x :: ns) y.
Lemma zero_ref d l d' : variables 0 d = Some (l, d') -> Inv d -> l = [].
Proof.
  intros H HI. destruct (variables_ok _ _ _ _ H HI) as (_ & _ & _ & _ & E & _). apply E. right.
  destruct (content d 0) eqn:C; [|reflexivity]. pose proof (content_range _ _ _ HI C). lia.
Qed.
Lemma browse_descends d ref ns e : browse d ref ns e -> Inv d -> forall vs, content d ref = Some vs -> ended d = false ->
  exists v x ns', In v vs /\ ns = dname v :: ns' /\ descends v ns' (fst x) /\ e = view x /\
    (snd x = 0 <-> dscalar (fst x) = true).
Proof.
  induction 1 as [d ref l d' x V Hx|d ref l d' x d2 ns e V Hx L B IH]; intros HI vs C En.
  - destruct (variables_ok _ _ _ _ V HI) as (_ & _ & G & M & _ & K & _). specialize (M En _ C).
    exists (fst x), x, []. split; [rewrite <- M; now apply in_map|]. split; [reflexivity|]. split; [constructor|]. split; [reflexivity|].
    split; [|exact (proj1 (G x Hx))]. intros Z. destruct (dscalar (fst x)) eqn:Sc; [reflexivity|]. specialize (K x Hx Sc).
    pose proof (inv_next d HI). lia.
  - destruct (variables_ok _ _ _ _ V HI) as (I1 & X1 & G & M & _). specialize (M En _ C). specialize (G x Hx).
    destruct (later_ok _ _ L I1) as (I2 & X2). destruct G as (G0 & [Z|(ws & W & Cw)]).
    + exfalso. cbn [view e_ref] in B. rewrite Z in B.
      inversion B as [? ? ? ? ? V' Hx'|? ? ? ? ? ? ? ? V' Hx']; subst; rewrite (zero_ref _ _ _ V' I2) in Hx'; destruct Hx'.
    + assert (Sc : dscalar (fst x) = false).
      { destruct (dscalar (fst x)); [|reflexivity]. specialize (G0 eq_refl). pose proof (content_range _ _ _ I1 Cw). lia. }
      assert (En2 : ended d2 = false) by (destruct X1 as (_ & _ & _ & E1 & _), X2 as (_ & _ & _ & E2 & _); congruence).
      destruct X2 as (_ & _ & _ & _ & X2 & _).
      destruct (IH I2 ws (X2 _ _ Cw) En2) as (v & y & ns' & Hv & -> & D & -> & Sy).
      exists (fst x), y, (dname v :: ns'). split; [rewrite <- M; now apply in_map|]. split; [reflexivity|].
      split; [|split; [reflexivity|exact Sy]]. econstructor; eauto.
Qed.

(** Every item can be unfolded, if the numbers of elements do not overflow. *)
Lemma refer_total : forall l d, (forall x, In x l -> dscalar (fst x) = false -> dvalues (fst x) <> None) ->
  exists l' d', refer l d = Some (l', d').
Proof.
  induction l as [|[v old] l IH]; intros d H; [eexists; eexists; reflexivity|]. cbn [refer].
  destruct (dscalar v) eqn:Sc.
  - destruct (IH d) as (l' & d' & ->); [intros x Hx; apply H; now right|]. eexists; eexists; reflexivity.
  - destruct (dvalues v) as [vs|] eqn:V; [|exfalso; apply (H (v, old)); [now left|exact Sc|exact V]].
    destruct (add_variable vs d) as [n d1]. destruct (IH d1) as (l' & d' & ->); [intros x Hx; apply H; now right|].
    eexists; eexists; reflexivity.
Qed.
Definition unfolds (v : dvar) : Prop := dscalar v = false -> dvalues v <> None.
Lemma variables_total d ref vs : content d ref = Some vs -> (forall v, In v vs -> unfolds v) ->
  exists l d', variables ref d = Some (l, d').
Proof.
  intros C U. unfold variables. destruct (ended d); [eexists; eexists; reflexivity|]. unfold content in C.
  destruct (find_ref ref (stored d)) as [l|] eqn:F; [|easy]. cbn [option_map] in C. injection C as <-.
  destruct (refer_total l d) as (l' & d' & ->); [|eexists; eexists; reflexivity].
  intros x Hx. apply U. now apply in_map.
Qed.
Inductive all_unfold : dvar -> list bytes -> Prop :=
| au_nil v : all_unfold v []
| au_cons v vs n ns : dvalues v = Some vs -> (forall x, In x vs -> unfolds x) ->
    (forall x, In x vs -> dname x = n -> all_unfold x ns) -> all_unfold v (n :: ns).
Lemma descends_browse v ns y : descends v ns y -> forall d ref vs, Inv d -> ended d = false -> content d ref = Some vs -> In v vs ->
  (forall x, In x vs -> unfolds x) -> all_unfold v ns ->
  exists k, browse d ref (dname v :: ns) (view (y, k)).
Proof.
  induction 1 as [v|v ws x ns y Sc V Hx D IH]; intros d ref vs HI En C Hv U A.
  - destruct (variables_total d ref vs C U) as (l & d' & H).
    destruct (variables_ok _ _ _ _ H HI) as (_ & _ & _ & M & _). specialize (M En _ C).
    rewrite <- M in Hv. apply in_map_iff in Hv. destruct Hv as ([v' k] & <- & Hin). exists k.
    exact (br_here _ _ _ _ _ H Hin).
  - destruct (variables_total d ref vs C U) as (l & d' & H).
    destruct (variables_ok _ _ _ _ H HI) as (I1 & X1 & G & M & _ & K & _). specialize (M En _ C).
    rewrite <- M in Hv. apply in_map_iff in Hv. destruct Hv as ([v' k] & Ev & Hin). cbn [fst] in Ev. subst v'.
    assert (Ck : content d' k = Some ws).
    { specialize (G _ Hin). specialize (K _ Hin Sc). cbn [snd] in K. pose proof (inv_next d HI).
      destruct G as (_ & [Z|(us & Us & Cu)]); cbn [fst snd] in *; [lia|congruence]. }
    inversion A as [|? us n ns' V' U' A']; subst. rewrite V in V'. injection V' as <-.
    assert (En' : ended d' = false) by (destruct X1 as (_ & _ & _ & E & _); congruence).
    destruct (IH d' k ws I1 En' Ck Hx U' (A' x Hx eq_refl)) as (k' & B). exists k'.
    exact (br_into _ _ _ _ _ _ _ _ H Hin (later_0 d') B).
Qed.
